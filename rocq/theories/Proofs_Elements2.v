From Coq Require Import Ascii String List Arith ZArith Bool Lia Permutation Sorted.
From Verif Require Import Model_NdArray Proofs_NdArray Model_Dim Proofs_Dim Model_Array Spec_Array Proofs_Array Proofs_Array2 Model_DataDict
  Spec_DataDict Proofs_DataDict Model_Text Proofs_Text Model_Block Spec_Block Proofs_Block Proofs_Block2 Proofs_Block3 Model_MatNames
  Proofs_MatNames Model_Elements Spec_Elements Proofs_Elements.
Import ListNotations.
Local Open Scope string_scope.
Local Open Scope nat_scope.
Local Open Scope list_scope.

(** *** Several matrices *)
Definition group : Type := (string * (list string * nat * nat))%type.
Definition g_elems (g : group) : list string := fst (fst (snd g)).
Definition g_ni (g : group) : nat := snd (fst (snd g)).
Definition g_nj (g : group) : nat := snd (snd g).

Record group_ok {A} (b : block A) (g : group) : Prop := {
  go_ne : g_elems g <> [];
  go_len : length (g_elems g) = g_ni g * g_nj g;
  go_elems : exists keys lens, ~ In ki keys /\ ~ In kj keys /\
    forall e, In e (g_elems g) -> pd_get e (dd_map (b_ivar b)) = None /\
     exists x, pd_get e (dd_map (b_var b)) = Some x /\ wf x /\ map key (h_dims x) = keys /\ map (fun d => length (d_data d)) (h_dims x) = lens;
  go_ij : forall k, k = fst g \/ In k (g_elems g) -> k <> "i" /\ k <> "j";
  go_v : is_matrix_name (fst g) = None;
  go_iv : pd_get (fst g) (dd_map (b_ivar b)) = None }.

Fixpoint build_groups {A} (lab : A -> label) (junk : A) (gs : list group) (b : block A) : result (block A) :=
  match gs with
  | [] => Ok b
  | g :: gs' => do b' <- build_one lab junk (fst g) (g_elems g) (g_ni g) (g_nj g) b; build_groups lab junk gs' b'
  end.

Definition group_joined {A} (b b' : block A) (g : group) : Prop :=
  exists m ex, pd_get (fst g) (dd_map (b_var b')) = Some m /\ pd_get (hd "" (g_elems g)) (dd_map (b_var b)) = Some ex /\
    joined m ex (g_ni g) (g_nj g)
      (fun p q x => exists e, nth_error (g_elems g) (p * g_nj g + q) = Some e /\ pd_get e (dd_map (b_var b)) = Some x).

Lemma joined_ext : forall {A} (m ex : hf A) ni nj (P Q : nat -> nat -> hf A -> Prop), (forall p q x, Q p q x -> P p q x) -> joined m ex ni nj P -> joined m ex ni nj Q.
Proof. intros A m ex ni nj P Q H [J1 [J2 [J3 [J4 J5]]]]. repeat split; try apply J1; auto. Qed.

Lemma hd_In : forall (l : list string), l <> [] -> In (hd "" l) l.
Proof. intros [|a l] H; [congruence|now left]. Qed.

Lemma build_groups_ok : forall {A} (lab : A -> label) junk gs (b : block A), BInv b ->
  NoDup (flat_map g_elems gs ++ map fst gs) -> Forall (group_ok b) gs ->
  exists b', build_groups lab junk gs b = Ok b' /\ BInv b' /\
    (forall k, ~ In k (flat_map g_elems gs) -> ~ In k (map fst gs) -> pd_get k (dd_map (b_var b')) = pd_get k (dd_map (b_var b))) /\
    (forall k, In k (flat_map g_elems gs) -> pd_get k (dd_map (b_var b')) = None) /\
    Forall (group_joined b b') gs.
Proof.
  intros A lab junk. induction gs as [|g gs IH]; intros b HB ND HG.
  - exists b. split; auto. split; auto. split; auto. split; [intros k []|constructor].
  - cbn [build_groups flat_map map] in *. pose proof (Forall_inv HG) as G0. pose proof (Forall_inv_tail HG) as GS.
    destruct (go_elems b g G0) as [keys [lens [Ki [Kj HE]]]].
    assert (ND' : NoDup (g_elems g) /\ NoDup (flat_map g_elems gs ++ map fst gs) /\
       (forall k, In k (g_elems g) -> ~ In k (flat_map g_elems gs) /\ k <> fst g /\ ~ In k (map fst gs)) /\
       ~ In (fst g) (flat_map g_elems gs) /\ ~ In (fst g) (map fst gs)).
    { assert (Sp : forall (l1 l2 : list string), NoDup (l1 ++ l2) -> NoDup l1 /\ NoDup l2 /\ forall k, In k l1 -> ~ In k l2).
      { clear. induction l1 as [|a l1 IH]; simpl; intros l2 H; [split; [constructor|split; auto]|]. apply NoDup_cons_iff in H as [H1 H2].
        destruct (IH l2 H2) as [I1 [I2 I3]]. rewrite in_app_iff in H1. split; [constructor; tauto|]. split; auto. intros k [<-|H]; auto. }
      rewrite <- app_assoc in ND. destruct (Sp _ _ ND) as [S1 [S2 S3]]. pose proof (NoDup_remove_1 _ _ _ S2). pose proof (NoDup_remove_2 _ _ _ S2) as S4.
      rewrite in_app_iff in S4. split; auto. split; auto. split; [|tauto]. intros k Hk. specialize (S3 k Hk). rewrite in_app_iff in S3. simpl in S3. intuition. }
    destruct ND' as [N1 [N2 [N3 [N4 N5]]]].
    destruct (build_one_ok lab junk (fst g) (g_elems g) (g_ni g) (g_nj g) b keys lens HB N1 (go_ne b g G0) (go_len b g G0) HE Ki Kj (go_v b g G0) (go_iv b g G0))
      as [b1 [m [ex [B1 [B2 [B3 [B4 [B5 B6]]]]]]]].
    rewrite B1. cbn [bind].
    assert (Hnm : forall k, pd_get k (dd_map (b_ivar b)) = None -> k <> "i" -> k <> "j" -> pd_get k (dd_map (b_ivar b1)) = None).
    { intros k H1 H2 H3. apply B4; auto. destruct B6 as [_ [B6 _]]. rewrite B6, map_app, in_app_iff. cbn. intros [H|[H|[H|[]]]]; try congruence.
      apply in_map_iff in H as [d [E H]]. destruct HB as [_ [_ HB]]. specialize (HB _ _ _ B5 H). rewrite E in HB.
      unfold dd_contains, pd_has in HB. rewrite H1 in HB. discriminate. }
    assert (Hvar : forall k, In k (flat_map g_elems gs) -> pd_get k (dd_map (b_var b1)) = pd_get k (dd_map (b_var b))).
    { intros k Hk. rewrite B3. destruct (String.eqb_spec k (fst g)) as [->|_]; [tauto|].
      destruct (mem k (g_elems g)) eqn:M; auto. apply mem_In in M. exfalso. destruct (N3 k M) as [N6 _]. now apply N6. }
    assert (GS1 : Forall (group_ok b1) gs).
    { rewrite Forall_forall in *. intros h Hh. specialize (GS h Hh). constructor.
      - apply GS.
      - apply GS.
      - destruct (go_elems b h GS) as [keys' [lens' [K1 [K2 K3]]]]. exists keys', lens'. split; auto. split; auto. intros e He.
        destruct (K3 e He) as [K4 K5]. destruct (go_ij b h GS e (or_intror He)). split; [now apply Hnm|]. rewrite Hvar; auto.
        apply in_flat_map. eauto.
      - apply GS.
      - apply GS.
      - destruct (go_ij b h GS (fst h) (or_introl eq_refl)). apply Hnm; auto. apply GS. }
    destruct (IH b1 B2 N2 GS1) as [b' [I1 [I2 [I3 [I4 I5]]]]].
    exists b'. split; auto. split; auto. split; [|split].
    + intros k H1 H2. simpl in H2. rewrite in_app_iff in H1. rewrite I3 by tauto. rewrite B3.
      destruct (String.eqb_spec k (fst g)) as [->|_]; [tauto|]. destruct (mem k (g_elems g)) eqn:M; auto. apply mem_In in M. tauto.
    + intros k Hk. apply in_app_or in Hk as [Hk|Hk]; [|now apply I4]. destruct (N3 k Hk) as [M1 [M2 M3]]. rewrite I3 by auto. rewrite B3.
      destruct (String.eqb_spec k (fst g)); [tauto|]. assert (mem k (g_elems g) = true) as -> by now apply mem_In. reflexivity.
    + constructor.
      * exists m, ex. split; [|split; auto]. rewrite I3 by auto. now rewrite B3, String.eqb_refl.
      * rewrite Forall_forall in *. intros h Hh. destruct (I5 h Hh) as [m' [ex' [J1 [J2 J3]]]]. exists m', ex'. split; auto. split.
        -- rewrite <- Hvar; auto. apply in_flat_map. exists h. split; auto. apply hd_In. now apply (go_ne b h), GS.
        -- apply joined_ext with (2 := J3). intros p q x [e [H1 H2]]. exists e. split; auto. rewrite Hvar; auto.
           apply in_flat_map. exists h. split; auto. now apply nth_error_In in H1.
Qed.

(** *** Splitting *)
Lemma find_axis : forall ds k d, NoDup (map d_name ds) -> nth_error ds k = Some d ->
  find (fun d' => String.eqb (d_name d') (d_name d)) ds = Some d.
Proof.
  induction ds as [|d0 ds IH]; intros [|k] d N H; try discriminate; cbn [nth_error find map] in *; apply NoDup_cons_iff in N as [N1 N2].
  - injection H as ->. now rewrite String.eqb_refl.
  - destruct (String.eqb_spec (d_name d0) (d_name d)) as [E|E]; [|now apply (IH k)].
    exfalso. apply N1. rewrite E. apply in_map. now apply nth_error_In in H.
Qed.

Lemma matrix_axes : forall {A} (x : hf A) ds ni nj, matrix_of x ds ni nj ->
  ismatrix x = true /\ axis_len x "i" = ni /\ axis_len x "j" = nj /\ dim_count "i" x = Ok ni /\ dim_count "j" x = Ok nj.
Proof.
  intros A x ds ni nj M. destruct (mo_dims x ds ni nj M) as [di [dj [Hd [Ki [Kj [Li Lj]]]]]]. pose proof (mo_names x ds ni nj M) as NN.
  unfold ki, kj, key in Ki, Kj. injection Ki as Ci Ni. injection Kj as Cj Nj.
  assert (Ei : nth_error (h_dims x) (length ds) = Some di) by (rewrite Hd, nth_error_app2, Nat.sub_diag by lia; reflexivity).
  assert (Ej : nth_error (h_dims x) (S (length ds)) = Some dj).
  { rewrite Hd, nth_error_app2 by lia. replace (S (length ds) - length ds) with 1 by lia. reflexivity. }
  split.
  - unfold ismatrix. apply andb_true_intro. split; apply existsb_exists.
    + exists di. split; [now apply nth_error_In in Ei|]. rewrite Ci. reflexivity.
    + exists dj. split; [now apply nth_error_In in Ej|]. rewrite Cj. reflexivity.
  - pose proof (find_axis _ _ _ NN Ei) as F1. pose proof (find_axis _ _ _ NN Ej) as F2. rewrite Ni in F1. rewrite Nj in F2.
    pose proof (dims_index_nth _ _ _ NN Ei) as D1. pose proof (dims_index_nth _ _ _ NN Ej) as D2. rewrite Ni in D1. rewrite Nj in D2.
    unfold axis_len, dim_count. rewrite F1, F2, D1, D2. cbn [bind]. rewrite Ei, Ej. cbn [of_option bind]. now rewrite Li, Lj.
Qed.

Lemma element_ok : forall {A} (x : hf A) ds ni nj i j, matrix_of x ds ni nj -> In i (seq 1 ni) -> In j (seq 1 nj) ->
  exists z, get_element x (Z.of_nat i - 1, Z.of_nat j - 1)%Z = Ok z /\ element_of x ds i j z.
Proof.
  intros A x ds ni nj i j M Hi Hj. apply in_seq in Hi, Hj. destruct (mo_dims x ds ni nj M) as [di [dj [Hd [Ki [Kj [Li Lj]]]]]].
  destruct (get_element_ok x ds di dj (Z.of_nat i - 1) (Z.of_nat j - 1) (i - 1) (j - 1) (mo_wf x ds ni nj M) Hd) as [z [Z1 [Z2 [Z3 [Z4 Z5]]]]].
  - split; [lia|left; lia].
  - split; [lia|left; lia].
  - exact (mo_usable x ds ni nj M).
  - exists z. split; auto. split; auto. split; auto. split; auto. intros e He. rewrite <- Ki, <- Kj. auto.
Qed.

Lemma put_elements_sets : forall {A} (lab : A -> label) fmt k (x : hf A) ds ni nj ps, matrix_of x ds ni nj ->
  (forall i j, In (i, j) ps -> In i (seq 1 ni) /\ In j (seq 1 nj)) ->
  exists o, Forall2 (fun ij q => fst q = fmt k (fst ij) (snd ij) /\ element_of x ds (fst ij) (snd ij) (snd q)) ps o /\
    forall out, put_elements lab fmt k x ps out = sets lab o out.
Proof.
  intros A lab fmt k x ds ni nj ps M. induction ps as [|[i j] ps IH]; intros HP.
  - exists []. split; [constructor|auto].
  - destruct IH as [o [O1 O2]]; [intros; apply HP; now right|]. destruct (HP i j (or_introl eq_refl)) as [Hi Hj].
    destruct (element_ok x ds ni nj i j M Hi Hj) as [z [Z1 Z2]]. exists ((fmt k i j, z) :: o). split; [constructor; auto|].
    intros out. cbn [put_elements sets]. rewrite Z1. cbn [bind]. destruct (b_set lab (fmt k i j) z out); cbn [bind]; auto.
Qed.

Lemma sets_app : forall {A} (lab : A -> label) l1 l2 b, sets lab (l1 ++ l2) b = do b' <- sets lab l1 b; sets lab l2 b'.
Proof. induction l1 as [|[k v] l1 IH]; intros l2 b; cbn [sets app bind]; auto. destruct (b_set lab k v b); cbn [bind]; auto. Qed.

Definition can_split {A} (p : string * hf A) : Prop := ismatrix (snd p) = false \/ exists ds ni nj, matrix_of (snd p) ds ni nj.

Lemma convert_loop_sets : forall {A} (lab : A -> label) fmt (l : list (string * hf A)), Forall can_split l ->
  exists outs, Forall2 (split_into fmt) l outs /\ forall out, convert_loop lab fmt l out = sets lab (concat outs) out.
Proof.
  intros A lab fmt. induction l as [|[k x] l IH]; intros H.
  - exists []. split; [constructor|auto].
  - destruct (IH (Forall_inv_tail H)) as [outs [O1 O2]]. destruct (Forall_inv H) as [M|[ds [ni [nj M]]]]; cbn [snd] in M.
    + exists ([(k, x)] :: outs). split; [constructor; auto; left; auto|]. intros out. cbn [convert_loop concat app sets]. rewrite M.
      destruct (b_set lab k x out); cbn [bind]; auto.
    + destruct (matrix_axes x ds ni nj M) as [A1 [A2 [A3 [A4 A5]]]].
      destruct (put_elements_sets lab fmt k x ds ni nj (list_prod (seq 1 ni) (seq 1 nj)) M) as [o [P1 P2]].
      { intros i j. apply in_prod_iff. }
      exists (o :: outs). split.
      * constructor; auto. right. split; [exact A1|]. exists ds, ni, nj. split; auto.
      * intros out. cbn [convert_loop concat]. rewrite A1, A4, A5. cbn [bind]. rewrite P2, sets_app.
        destruct (sets lab o out); cbn [bind]; auto.
Qed.

Lemma split_into_names : forall {A} fmt (p : string * hf A) o, split_into fmt p o -> map fst o = split_names fmt p.
Proof.
  intros A fmt p o [[H1 ->]|[H1 [ds [ni [nj [M F]]]]]]; unfold split_names; rewrite H1; auto.
  destruct (matrix_axes _ ds ni nj M) as [_ [-> [-> _]]]. revert F. generalize (list_prod (seq 1 ni) (seq 1 nj)). intros l F.
  induction F as [|ij q l o [E _] F IH]; simpl; auto. now rewrite E, IH.
Qed.
Lemma split_all_names : forall {A} fmt (l : list (string * hf A)) outs, Forall2 (split_into fmt) l outs ->
  map fst (concat outs) = flat_map (split_names fmt) l.
Proof.
  intros A fmt l outs H. induction H as [|p o l outs H1 H2 IH]; simpl; auto. rewrite map_app, IH. f_equal. now apply split_into_names.
Qed.
Lemma split_into_dims : forall {A} fmt (p : string * hf A) o s, split_into fmt p o -> In s (dim_names o) -> In s (map d_name (h_dims (snd p))).
Proof.
  intros A fmt p o s [[H1 ->]|[H1 [ds [ni [nj [M F]]]]]] H; unfold dim_names in H; apply in_flat_map in H as [q [H2 H3]].
  - destruct H2 as [<-|[]]. auto.
  - destruct (mo_dims _ ds ni nj M) as [di [dj [Hd _]]]. rewrite Hd, map_app, in_app_iff. left.
    assert (G : exists ij, element_of (snd p) ds (fst ij) (snd ij) (snd q)).
    { clear - F H2. induction F as [|ij q0 l o [_ E] F IH]; [destruct H2|]. destruct H2 as [<-|H2]; eauto. }
    destruct G as [ij [_ [_ [G _]]]]. clear - G H3. induction G as [|d d' l l' [E _] G IH]; simpl in *; auto.
    unfold key in E. injection E as _ E. rewrite <- E. intuition.
Qed.
Lemma split_all_dims : forall {A} fmt (l : list (string * hf A)) outs s, Forall2 (split_into fmt) l outs -> In s (dim_names (concat outs)) -> In s (dim_names l).
Proof.
  intros A fmt l outs s H. induction H as [|p o l outs H1 H2 IH]; auto. unfold dim_names in *. simpl. rewrite flat_map_app, !in_app_iff.
  intros [H|H]; auto. left. now apply (split_into_dims fmt p o).
Qed.

Lemma convert_ok : forall {A} (lab : A -> label) fmt (b : block A) vs, dd_items (b_var b) = Ok vs -> Forall can_split vs ->
  NoDup (flat_map (split_names fmt) vs) -> plain_names (flat_map (split_names fmt) vs) (dim_names vs) ->
  exists c outs, convert_to_elements lab fmt b = Ok c /\ Forall2 (split_into fmt) vs outs /\ BInv c /\
    dabs (b_var c) = concat outs /\ (forall k, ~ In k (dim_names vs) -> pd_get k (dd_map (b_ivar c)) = None).
Proof.
  intros A lab fmt b vs Hv HC ND [P1 P2]. unfold convert_to_elements. rewrite Hv. cbn [bind].
  destruct (convert_loop_sets lab fmt vs HC) as [outs [O1 O2]]. rewrite O2. pose proof (split_all_names fmt vs outs O1) as EN.
  destruct (sets_ok lab (concat outs) dd_empty None) as [c [C1 [C2 [C3 [C4 C5]]]]].
  - apply empty_Inv.
  - now rewrite EN.
  - rewrite EN. cbn. rewrite app_nil_r. split; [|exact P2]. intros k Hk H. apply (P1 k Hk). now apply (split_all_dims fmt vs outs).
  - exists c, outs. split; [exact C1|]. split; auto. split; [|split; auto].
    + split; auto. split; auto. intros k x d Hk Hd. rewrite C5. apply ivars_of_in with (p := (k, x)); auto.
      rewrite <- abs_get in Hk by auto. rewrite C4 in Hk. clear - Hk. induction (concat outs) as [|[k0 x0] l IH]; [discriminate|].
      cbn in Hk. destruct (String.eqb_spec k k0) as [->|]; [injection Hk as ->; now left|right; auto].
    + intros k Hk. rewrite C5. apply ivars_of_none; auto. intros H. apply Hk. now apply (split_all_dims fmt vs outs).
Qed.

Lemma nth_prod_seq : forall ni nj p q, p < ni -> q < nj -> nth_error (list_prod (seq 1 ni) (seq 1 nj)) (p * nj + q) = Some (S p, S q).
Proof.
  intros ni nj p q Hp Hq. assert (G : forall ni s p, p < ni -> nth_error (list_prod (seq s ni) (seq 1 nj)) (p * nj + q) = Some (s + p, S q)).
  { clear ni p Hp. induction ni as [|ni IH]; intros s p Hp; [lia|]. cbn [seq list_prod]. destruct p as [|p].
    - rewrite nth_error_app1 by (rewrite map_length, seq_length; lia). rewrite nth_error_map. cbn [Nat.mul Nat.add].
      rewrite nth_error_seq by auto. simpl. now rewrite Nat.add_0_r.
    - rewrite nth_error_app2; rewrite map_length, seq_length; [|simpl; lia]. replace (S p * nj + q - nj) with (p * nj + q) by (simpl; lia).
      rewrite IH by lia. do 2 f_equal. lia. }
  now rewrite G.
Qed.
