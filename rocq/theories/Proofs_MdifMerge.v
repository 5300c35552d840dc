(** Lemmas for the stacking of MDIF blocks. *)
From Coq Require Import String List Arith ZArith Bool Lia Permutation.
From Verif Require Import Model_NdArray Model_Dim Model_Array Model_DataDict Model_Block Model_MdifMerge Spec_Array Spec_Block Spec_MdifMerge Proofs_NdArray Proofs_Array8 Proofs_DataDict Proofs_Block Proofs_Block3.
Import ListNotations.
Local Open Scope string_scope.
Local Open Scope nat_scope.
Local Open Scope list_scope.

Lemma shapes_eqb : forall l l' : list nat, list_eqb Nat.eqb l l' = true <-> l = l'.
Proof.
  induction l as [|a l IH]; intros [|b l']; cbn [list_eqb]; split; intros H; try discriminate; auto.
  - apply andb_true_iff in H as [H1 H2]. apply Nat.eqb_eq in H1. apply IH in H2. congruence.
  - injection H as -> ->. rewrite Nat.eqb_refl. now apply IH.
Qed.
Lemma nth_flat : forall {X Y} (g : X -> list Y) m xs i x r, (forall x, In x xs -> length (g x) = m) -> nth_error xs i = Some x -> r < m ->
  nth_error (flat_map g xs) (i * m + r) = nth_error (g x) r.
Proof.
  intros X Y g m. induction xs as [|a xs IH]; intros i x r H E L; [destruct i; discriminate|]. cbn [flat_map]. assert (La : length (g a) = m) by (apply H; now left). destruct i as [|i]; cbn [nth_error] in E.
  - injection E as ->. rewrite nth_error_app1 by (cbn; lia). now rewrite Nat.mul_0_l.
  - rewrite nth_error_app2 by (cbn; lia). replace (S i * m + r - length (g a)) with (i * m + r) by (cbn; lia). apply IH; auto. intros; apply H; now right.
Qed.
Lemma items_parts : forall {V} (d : ddict V) l, dd_items d = Ok l -> map fst l = dd_iter d /\ forall k v, In (k, v) l -> dd_get k d = Ok v.
Proof.
  intros V d l. unfold dd_items. revert l. induction (dd_iter d) as [|k ks IH]; intros l H; cbn [mapM] in H; [injection H as <-; split; [reflexivity|intros ? ? []]|].
  destruct (dd_get k d) as [v|] eqn:E; [|discriminate]. cbn [bind] in H. destruct (mapM _ ks) as [l1|]; [|discriminate]. injection H as <-. destruct (IH _ eq_refl) as [I1 I2]. split; [cbn [map fst]; now rewrite I1|]. intros k' v' [[= <- <-]|I]; auto.
Qed.
Lemma subseq_len : forall {X} (a l : list X), subseq a l -> length a <= length l.
Proof. intros X a l H. induction H; cbn; lia. Qed.
Lemma subseq_all : forall {X} (l a : list X), subseq a l -> NoDup l -> (forall x, In x l -> In x a) -> a = l.
Proof.
  intros X l a H. induction H; intros ND I; auto.
  - apply NoDup_cons_iff in ND as [N1 N2]. f_equal. apply IHsubseq; auto. intros y Iy. destruct (I y (or_intror Iy)) as [->|]; [contradiction|auto].
  - apply NoDup_cons_iff in ND as [N1 N2]. exfalso. specialize (I x (or_introl eq_refl)). assert (S : forall y, In y l -> In y l') by (clear - H; induction H; cbn; firstorder). auto.
Qed.
Lemma subseq_In : forall {X} (a l : list X) x, subseq a l -> In x a -> In x l.
Proof. intros X a l x H. induction H; cbn; firstorder. Qed.
Lemma subseq_but : forall {X} (p q a : list X) z, subseq a (p ++ z :: q) -> NoDup (p ++ z :: q) -> (forall x, In x a <-> In x (p ++ z :: q) /\ x <> z) -> a = p ++ q.
Proof.
  intros X. induction p as [|y p IH]; intros q a z H ND I; cbn [app] in *.
  - apply NoDup_cons_iff in ND as [N1 N2]. inversion H; subst.
    + exfalso. destruct (proj1 (I z)) as [_ K]; [now left|]. now apply K.
    + apply subseq_all; auto. intros x Ix. apply I. split; [now right|]. intros ->. contradiction.
  - apply NoDup_cons_iff in ND as [N1 N2]. inversion H; subst.
    + f_equal. apply (IH q l z); auto. intros x. split.
      * intros Ix. split; [now apply (subseq_In _ _ _ H2)|]. apply I. now right.
      * intros [Ix Nx]. destruct (proj2 (I x) (conj (or_intror Ix) Nx)) as [->|]; [contradiction|auto].
    + exfalso. assert (Iy : In y a) by (apply I; split; [now left|]; intros ->; apply N1; apply in_or_app; right; now left). apply N1. now apply (subseq_In _ _ _ H2).
Qed.

Section Merge.
Context {A : Type}.
Variable lab : A -> label.
Variable emb : label -> A.
Variable common : list dtype -> dtype.
Variable cast : dtype -> A -> A.

Lemma index_numbers : forall n, numbers (index_dim n) n.
Proof.
  intros n. unfold numbers, index_dim. cbn [d_class d_name d_data d_unit]. unfold range_labels. rewrite map_length, seq_length. repeat split; auto. intros i L. rewrite nth_error_map. assert (E : nth_error (seq 0 n) i = Some i).
  { rewrite (nth_error_nth' _ 0) by now rewrite seq_length. now rewrite seq_nth by exact L. }
  now rewrite E.
Qed.

(** The array that is made by stacking. *)
Lemma stack_ok : forall (x0 : hf A) xs, hd_error xs = Some x0 -> (forall x, In x xs -> h_shape x = h_shape x0 /\ nd_wf (h_nd x)) ->
  exists a t, np_stack common cast xs = Ok (a, t) /\ nd_wf a /\ nd_shape a = length xs :: h_shape x0 /\
    forall i x ix, nth_error xs i = Some x -> inb (h_shape x0) ix = true -> nd_get a (i :: ix) = option_map (cast t) (nd_get (h_nd x) ix).
Proof.
  intros x0 xs E H. destruct xs as [|x0' xs]; [discriminate|]. injection E as ->. unfold np_stack.
  assert (F : forallb (fun x => list_eqb Nat.eqb (h_shape x) (h_shape x0)) (x0 :: xs) = true) by (apply forallb_forall; intros x I; apply shapes_eqb; now apply H).
  rewrite F. cbv zeta. set (t := common _). set (l := x0 :: xs) in *. assert (W : forall x, In x l -> length (nd_elems (h_nd x)) = prodn (h_shape x0)) by (intros x I; destruct (H x I) as [<- W]; exact W).
  eexists. exists t. split; [reflexivity|]. cbn [nd_shape]. split; [|split; [reflexivity|]].
  - unfold nd_wf. cbn [nd_elems nd_shape]. rewrite map_length. change (prodn (length l :: h_shape x0)) with (length l * prodn (h_shape x0)). clear - W. induction l as [|x l IH]; [reflexivity|]. cbn [flat_map length]. rewrite app_length, W by now left. rewrite IH by (intros; apply W; now right). lia.
  - intros i x ix Ex Ib. unfold nd_get. cbn [nd_shape nd_elems inb ravel]. destruct (H x (nth_error_In _ _ Ex)) as [S1 S2]. fold (h_shape x). rewrite S1. rewrite Ib.
    assert (L : i < length l) by (apply nth_error_Some; congruence). apply Nat.ltb_lt in L. rewrite L. cbn [andb]. rewrite nth_error_map. f_equal. apply (nth_flat (fun x => nd_elems (h_nd x)) (prodn (h_shape x0))); auto. now apply ravel_lt.
Qed.

Lemma inb_coords : forall e ds sh, map (fun d => length (d_data d)) ds = sh -> valid e ds -> inb sh (coords e ds) = true.
Proof.
  intros e ds. induction ds as [|d ds IH]; intros sh <- V; [reflexivity|]. cbn [map coords inb]. apply andb_true_iff. split; [apply Nat.ltb_lt, V; now left|]. apply IH; auto. intros d' I. apply V. now right.
Qed.

Lemma stack_reordered : forall ri n (x0 : hf A) xs, numbers ri n -> n = length xs -> wf x0 -> (forall d, In d (h_dims x0) -> d_name d <> "INDEX") ->
  hd_error xs = Some x0 -> (forall x, In x xs -> h_shape x = h_shape x0 /\ nd_wf (h_nd x)) ->
  exists a t y z, np_stack common cast xs = Ok (a, t) /\ new_raw a t (Some (ri :: h_dims x0)) None None = Ok y /\ h_dims y = ri :: h_dims x0 /\
    match h_dims x0 with [] => z = y | d0 :: _ => reorder_dimensions [d0] y = Ok z end /\ stacked cast ri xs z /\ (forall d, In d (h_dims z) <-> In d (h_dims y)).
Proof.
  intros ri n x0 xs (R1 & R2 & R3 & R4 & R5) Hn (W1 & W2 & W3) HI E H. destruct (stack_ok x0 xs E H) as (a & t & S1 & S2 & S3 & S4).
  set (y := mkHF a t (ri :: h_dims x0) None (default_fmt t)).
  assert (Y : new_raw a t (Some (ri :: h_dims x0)) None None = Ok y).
  { unfold new_raw. cbn [bind]. rewrite S3. cbn [length]. unfold labels_match in W2. rewrite <- W2, map_length, Nat.eqb_refl. reflexivity. }
  assert (NK : ~ In (key ri) (map key (h_dims x0))).
  { intros I. apply in_map_iff in I as (d & K & I). apply (HI d I). unfold key in K. injection K as _ K. congruence. }
  assert (Wy : wf y).
  { split; [exact S2|]. split; [|cbn [h_dims y map]; constructor; auto]. unfold labels_match, h_shape. cbn [h_dims h_nd y map]. rewrite S3, R3, Hn. f_equal. exact W2. }
  assert (V : forall i x e, nth_error xs i = Some x -> e (key ri) = i -> valid e (h_dims x0) -> val y e = option_map (cast t) (nd_get (h_nd x) (coords e (h_dims x0)))).
  { intros i x e Ex Ei Ve. unfold val. cbn [h_nd h_dims y]. change (coords e (ri :: h_dims x0)) with (e (key ri) :: coords e (h_dims x0)). rewrite Ei. apply S4; auto. now apply inb_coords. }
  exists a, t, y. destruct (h_dims x0) as [|d0 r] eqn:D.
  - exists y. split; [exact S1|]. split; [exact Y|]. split; [first [reflexivity|cbn; now rewrite ?D]|]. split; [reflexivity|]. split; [|tauto]. exists x0. split; [exact E|]. split; [exact Wy|]. split; [cbn [y h_dims]; now rewrite ?D|]. rewrite ?D. exact V.
  - destruct (reorder_ok y [d0] Wy) as (z & rest & Z1 & Z2 & Z3 & Z4 & Z5 & Z6 & Z7 & Z8 & Z9).
    { intros d [<-|[]]. cbn [y h_dims]. right. rewrite ?D. now left. }
    { cbn [map]. constructor; [intros []|constructor]. }
    assert (ND : NoDup ([ri] ++ d0 :: r)).
    { destruct Wy as (_ & _ & Wy). cbn [y h_dims] in Wy. rewrite ?D in Wy. apply NoDup_map_inv in Wy. exact Wy. }
    assert (RR : rest = ri :: r).
    { cbn [y h_dims] in Z4, Z5. rewrite ?D in Z4, Z5. apply (subseq_but [ri] r rest d0); auto. intros d. rewrite Z5. cbn [In app]. intuition congruence. }
    exists z. split; [exact S1|]. split; [exact Y|]. split; [first [reflexivity|cbn; now rewrite ?D]|]. split; [exact Z1|]. split.
    + exists x0. split; [exact E|]. split; [exact Z2|]. split; [rewrite Z3, RR, ?D; reflexivity|]. intros i x e Ex Ei Ve. rewrite Z6, Z9. cbn [y h_dt]. rewrite ?D in Ve |- *. now apply (V i x e).
    + intros d. rewrite Z3, RR. cbn [y h_dims]. rewrite ?D. cbn [In app]. tauto.
Qed.

(** ** The block that is made *)
Definition Out (done : list (string * hf A)) (out : block A) : Prop :=
  BInv out /\ dabs (b_var out) = done /\ forall n e, pd_get n (dd_map (b_ivar out)) = Some e -> d_name e = n /\ exists q, In q done /\ In e (h_dims (snd q)).

Lemma b_set_plain : forall k (v : hf A) b, dd_get k (b_ivar b) = Err KeyError -> (forall m e, is_matrix_name k = Some (m, e) -> dd_contains m (b_var b) = false) ->
  b_set lab k v b = Ok (mkBlock (dd_set k v (b_var b)) (add_ivars (h_dims v) (b_ivar b)) (next_x (b_x b) (h_dims v))).
Proof.
  intros k v b H1 H2. unfold b_set. assert (C : pd_get k (dd_map (b_ivar b)) = None) by (unfold dd_get in H1; destruct (pd_get k (dd_map (b_ivar b))); [discriminate|reflexivity]). rewrite C.
  destruct (is_matrix_name k) as [[m e]|]; [|reflexivity]. now rewrite (H2 m e eq_refl).
Qed.
Lemma add_ivars_from : forall ds iv n e, pd_get n (dd_map (add_ivars ds iv)) = Some e -> pd_get n (dd_map iv) = Some e \/ (In e ds /\ d_name e = n).
Proof.
  induction ds as [|d ds IH]; intros iv n e H; [now left|]. unfold add_ivars in H. cbn [fold_left] in H. apply IH in H as [H|[H1 H2]]; [|right; split; [now right|auto]].
  destruct (dd_contains (d_name d) iv); [now left|]. rewrite get_set in H. destruct (String.eqb_spec n (d_name d)) as [->|]; [|now left]. right. injection H as ->. split; [now left|reflexivity].
Qed.
Lemma Out_absent : forall done out k, Out done out -> ~ In k (dim_names done) -> dd_get k (b_ivar out) = Err KeyError.
Proof.
  intros done out k (_ & _ & H) N. unfold dd_get. destruct (pd_get k (dd_map (b_ivar out))) as [e|] eqn:E; [|reflexivity]. exfalso. destruct (H k e E) as (<- & q & Q1 & Q2). apply N. unfold dim_names. apply in_flat_map. exists q. split; [auto|]. now apply in_map.
Qed.
Lemma Out_contains : forall done out m, Out done out -> dd_contains m (b_var out) = true -> In m (map fst done).
Proof. intros done out m ((I & _) & <- & _) C. now apply contains_abs. Qed.

Lemma put_new : forall done out k v, Out done out -> ~ In k (map fst done) -> ~ In k (dim_names done) -> (forall m e, is_matrix_name k = Some (m, e) -> ~ In m (map fst done)) ->
  exists out', b_set lab k v out = Ok out' /\ Out (done ++ [(k, v)]) out'.
Proof.
  intros done out k v HO N1 N2 N3. pose proof (Out_absent _ _ _ HO N2) as Ab.
  assert (NE : forall m e, is_matrix_name k = Some (m, e) -> dd_contains m (b_var out) = false) by (intros m e M; destruct (dd_contains m (b_var out)) eqn:C; [|reflexivity]; exfalso; apply (N3 m e M); now apply (Out_contains _ _ _ HO)).
  pose proof (b_set_plain k v out Ab NE) as HS. rewrite HS. eexists. split; [reflexivity|]. split; [|split].
  - destruct HO as (HB & _). eapply b_set_BInv; [exact HB|exact HS].
  - cbn [b_var]. destruct HO as ((I & _) & E & _). rewrite abs_set_new; [now rewrite E|exact I|now rewrite E].
  - cbn [b_ivar]. intros n e G. apply add_ivars_from in G as [G|[G1 G2]].
    + destruct HO as (_ & _ & H). destruct (H n e G) as (Q0 & q & Q1 & Q2). split; [auto|]. exists q. split; [apply in_or_app; now left|auto].
    + split; [auto|]. exists (k, v). split; [apply in_or_app; right; now left|exact G1].
Qed.
(** The variable that was put last is replaced by one with the same dimensions. *)
Lemma set_last : forall {V} k (v w : V) l, ~ In k (map fst l) -> pd_set k w (l ++ [(k, v)]) = l ++ [(k, w)].
Proof.
  intros V k v w. induction l as [|[k' v'] l IH]; intros N; cbn [app pd_set]; [now rewrite String.eqb_refl|]. cbn [map fst In] in N. destruct (String.eqb_spec k k') as [->|]; [exfalso; apply N; now left|]. now rewrite IH by (intros I; apply N; now right).
Qed.
Lemma put_again : forall done out k v w, Out (done ++ [(k, v)]) out -> (forall d, In d (h_dims w) <-> In d (h_dims v)) -> ~ In k (map fst done) -> ~ In k (dim_names done) -> ~ In k (map d_name (h_dims v)) -> 
  (forall m e, is_matrix_name k = Some (m, e) -> ~ In m (map fst done) /\ m <> k) ->
  exists out', b_set lab k w out = Ok out' /\ Out (done ++ [(k, w)]) out'.
Proof.
  intros done out k v w HO HD N1 N2 N3 N4. assert (Ab : dd_get k (b_ivar out) = Err KeyError).
  { apply (Out_absent _ _ _ HO). unfold dim_names. rewrite flat_map_app. cbn [flat_map snd]. rewrite app_nil_r. intros I. apply in_app_or in I as [I|I]; [now apply N2|contradiction]. }
  assert (NE : forall m e, is_matrix_name k = Some (m, e) -> dd_contains m (b_var out) = false).
  { intros m e M. destruct (dd_contains m (b_var out)) eqn:C; [|reflexivity]. exfalso. apply (Out_contains _ _ _ HO) in C. rewrite map_app in C. destruct (N4 m e M) as [Q1 Q2]. apply in_app_or in C as [C|[C|[]]]; [contradiction|cbn in C; congruence]. }
  pose proof (b_set_plain k w out Ab NE) as HS. rewrite HS. eexists. split; [reflexivity|]. split; [|split].
  - destruct HO as (HB & _). eapply b_set_BInv; [exact HB|exact HS].
  - cbn [b_var]. destruct HO as ((I & _) & E & _). rewrite set_abs by exact I. rewrite store_set, E. now apply set_last.
  - cbn [b_ivar]. intros n e G. apply add_ivars_from in G as [G|[G1 G2]].
    + destruct HO as (_ & _ & H). destruct (H n e G) as (Q0 & q & Q1 & Q2). split; [auto|]. apply in_app_or in Q1 as [Q1|[Q1|[]]]; [exists q; split; [apply in_or_app; now left|auto]|]. subst q. exists (k, w). split; [apply in_or_app; right; now left|]. cbn [snd] in *. now apply HD.
    + split; [auto|]. exists (k, w). split; [apply in_or_app; right; now left|exact G1].
Qed.
Lemma Out_last : forall done out k v, Out (done ++ [(k, v)]) out -> dd_get k (b_ivar out) = Err KeyError -> ~ In k (map fst done) -> b_item emb k out = Ok v.
Proof.
  intros done out k v ((I & _) & E & _) Ab N. unfold b_item, b_get. unfold dd_get in Ab. destruct (pd_get k (dd_map (b_ivar out))); [discriminate|].
  assert (G : pd_get k (dd_map (b_var out)) = Some v).
  { rewrite <- abs_get by exact I. rewrite E. clear - N. induction done as [|[k' v'] l IH]; cbn [app pd_get]; [now rewrite String.eqb_refl|]. cbn [map fst In] in N. destruct (String.eqb_spec k k') as [->|]; [exfalso; apply N; now left|]. apply IH. intros J; apply N; now right. }
  rewrite G. reflexivity.
Qed.

Lemma items_of : forall k bs (P : block A -> hf A -> Prop), (forall b, In b bs -> exists y, has_var b k y /\ P b y) ->
  exists xs, mapM (b_item emb k) bs = Ok xs /\ Forall2 (fun b x => has_var b k x /\ P b x) bs xs.
Proof.
  intros k bs P. induction bs as [|b bs IH]; intros H; [exists []; split; [reflexivity|constructor]|]. destruct (H b (or_introl eq_refl)) as (y & (Y1 & Y2) & Y3). destruct IH as (xs & X1 & X2); [intros; apply H; now right|].
  exists (y :: xs). cbn [mapM]. assert (E : b_item emb k b = Ok y).
  { unfold b_item, b_get. unfold dd_get in Y1, Y2. destruct (pd_get k (dd_map (b_ivar b))); [discriminate|]. destruct (pd_get k (dd_map (b_var b))); [|discriminate]. cbn in Y2 |- *. congruence. }
  rewrite E. cbn [bind]. rewrite X1. split; [reflexivity|]. constructor; [split; [split|]; auto|exact X2].
Qed.
Lemma labels_of : forall k bs, (forall b : block A, In b bs -> exists l, has_label b k l) ->
  exists ls, mapM (fun b => do d <- dd_get k (b_ivar b); of_option IndexError (hd_error (d_data d))) bs = Ok ls /\ Forall2 (fun b l => has_label b k l) bs ls.
Proof.
  intros k bs. induction bs as [|b bs IH]; intros H; [exists []; split; [reflexivity|constructor]|]. destruct (H b (or_introl eq_refl)) as (l & d & r & Y1 & Y2). destruct IH as (ls & X1 & X2); [intros; apply H; now right|].
  exists (l :: ls). cbn [mapM]. rewrite Y1. cbn [bind]. rewrite Y2. cbn [hd_error of_option bind]. rewrite X1. split; [reflexivity|]. constructor; [exists d, r; auto|exact X2].
Qed.

Variable b0 : block A.
Variable bs : list (block A).
Variable ri : dim.
Hypothesis HR : numbers ri (length (b0 :: bs)).

Definition var_of (p q : string * hf A) : Prop :=
  fst q = fst p /\ exists xs, Forall2 (fun b x => has_var b (fst p) x) (b0 :: bs) xs /\ hd_error xs = Some (snd p) /\ stacked cast ri xs (snd q).

Lemma stack_loop_ok : forall vs done out names, Out done out -> NoDup (map fst done ++ map fst vs) -> incl (map fst done ++ map fst vs) names ->
  (forall k m e, In k names -> is_matrix_name k = Some (m, e) -> ~ In m names) -> (forall k, In k names -> k <> "INDEX") ->
  (forall k, In k names -> ~ In k (dim_names done)) ->
  (forall k x, In (k, x) vs -> dd_get k (b_var b0) = Ok x /\ wf x /\ (forall d, In d (h_dims x) -> d_name d <> "INDEX" /\ ~ In (d_name d) names) /\
     forall b, In b (b0 :: bs) -> exists y, has_var b k y /\ h_shape y = h_shape x /\ nd_wf (h_nd y)) ->
  exists out' ys, stack_loop lab emb common cast ri (b0 :: bs) (map fst vs) out = Ok out' /\ Out (done ++ ys) out' /\ Forall2 var_of vs ys /\ (forall k, In k names -> ~ In k (dim_names (done ++ ys))).
Proof.
  induction vs as [|[k x] vs IH]; intros done out names HO ND HN HE HX HK HV.
  { exists out, []. rewrite app_nil_r. split; [reflexivity|]. split; [exact HO|]. split; [constructor|exact HK]. }
  cbn [map fst stack_loop] in *. destruct (HV k x (or_introl eq_refl)) as (V0 & V1 & V2 & V3).
  destruct (items_of k (b0 :: bs) (fun _ y => h_shape y = h_shape x /\ nd_wf (h_nd y)) V3) as (xs & X1 & X2). rewrite X1. cbn [bind].
  assert (HD : hd_error xs = Some x).
  { inversion X2; subst. cbn. destruct H1 as ((_ & H1) & _). congruence. }
  rewrite HD. cbn [of_option bind].
  assert (XX : forall y, In y xs -> h_shape y = h_shape x /\ nd_wf (h_nd y)).
  { clear - X2. induction X2; intros z []; [subst; tauto|auto]. }
  assert (LX : length (b0 :: bs) = length xs) by (clear - X2; induction X2; cbn; auto).
  destruct (stack_reordered ri _ x xs HR LX V1 (fun d I => proj1 (V2 d I)) HD XX) as (a & t & y & z & S1 & S2 & S3 & S4 & S5 & S6). rewrite S1. cbn [bind]. rewrite S2. cbn [bind].
  assert (Ik : In k names) by (apply HN; apply in_or_app; right; now left).
  assert (Nk : ~ In k (map fst done)) by (intros I; apply NoDup_remove_2 in ND; apply ND; apply in_or_app; now left).
  assert (Nd : ~ In k (map d_name (h_dims y))).
  { rewrite S3. cbn [map]. intros [I|I]; [apply (HX k Ik); destruct HR as (_ & R2 & _); congruence|]. apply in_map_iff in I as (d & <- & I). now apply (V2 d I). }
  assert (Ne : forall m e, is_matrix_name k = Some (m, e) -> ~ In m (map fst done) /\ m <> k).
  { intros m e M. specialize (HE k m e Ik M). split; [intros I; apply HE, HN; apply in_or_app; now left|]. intros ->. contradiction. }
  destruct (put_new done out k y HO Nk (HK k Ik) (fun m e M => proj1 (Ne m e M))) as (out1 & O1 & O2). rewrite O1. cbn [bind].
  assert (AG : exists out2, match h_dims x with [] => Ok out1 | d0 :: _ => do z <- b_item emb k out1; do z' <- reorder_dimensions [d0] z; b_set lab k z' out1 end = Ok out2 /\ Out (done ++ [(k, z)]) out2).
  { destruct (h_dims x) as [|d0 r] eqn:D; [subst z; exists out1; auto|]. assert (Ab : dd_get k (b_ivar out1) = Err KeyError).
    { apply (Out_absent _ _ _ O2). unfold dim_names. rewrite flat_map_app. cbn [flat_map snd]. rewrite app_nil_r. intros I. apply in_app_or in I as [I|I]; [now apply (HK k Ik)|contradiction]. }
    rewrite (Out_last _ _ _ _ O2 Ab Nk). cbn [bind]. rewrite S4. cbn [bind]. apply (put_again done out1 k y z); auto. }
  destruct AG as (out2 & G1 & G2). rewrite G1. cbn [bind].
  assert (HK' : forall k', In k' names -> ~ In k' (dim_names (done ++ [(k, z)]))).
  { intros k' I J. unfold dim_names in J. rewrite flat_map_app in J. cbn [flat_map snd] in J. rewrite app_nil_r in J. apply in_app_or in J as [J|J]; [now apply (HK k' I)|]. apply in_map_iff in J as (d & <- & J). apply S6 in J. rewrite S3 in J. destruct J as [<-|J]; [|now apply (V2 d J)]. apply (HX _ I). destruct HR as (_ & R2 & _). exact R2. }
  destruct (IH (done ++ [(k, z)]) out2 names G2) as (out' & ys & I1 & I2 & I3 & I4); auto.
  - rewrite map_app. cbn [map fst]. rewrite <- app_assoc. exact ND.
  - rewrite map_app. cbn [map fst]. rewrite <- app_assoc. exact HN.
  - intros k' x' I. apply HV. now right.
  - exists out', ((k, z) :: ys). rewrite <- app_assoc in I2, I4. split; [exact I1|]. split; [exact I2|]. split; [|exact I4]. constructor; [|exact I3]. split; [reflexivity|]. exists xs. cbn [fst snd]. split; [|auto]. clear - X2. induction X2; constructor; tauto.
Qed.

Definition label_of (k : string) (q : string * hf A) : Prop :=
  fst q = k /\ exists ls, Forall2 (fun b l => has_label b k l) (b0 :: bs) ls /\ listed emb ri ls (snd q).
Lemma partial_loop_ok : forall (ivs : list (string * dim)) done out names, Out done out ->
  let ps := map fst (filter (fun p => subclass (d_class (snd p)) CDimPartial) ivs) in
  NoDup (map fst done ++ ps) -> incl (map fst done ++ ps) names ->
  (forall k m e, In k names -> is_matrix_name k = Some (m, e) -> ~ In m names) -> (forall k, In k names -> k <> "INDEX") ->
  (forall k, In k names -> ~ In k (dim_names done)) -> (forall k d, In (k, d) ivs -> dd_get k (b_ivar b0) = Ok d) ->
  (forall k, In k ps -> forall b, In b (b0 :: bs) -> exists l, has_label b k l) ->
  exists out' zs, partial_loop lab emb ri b0 (b0 :: bs) (map fst ivs) out = Ok out' /\ Out (done ++ zs) out' /\ Forall2 label_of ps zs.
Proof.
  induction ivs as [|[k d] ivs IH]; intros done out names HO ps ND HN HE HX HK HI HP.
  { exists out, []. rewrite app_nil_r. split; [reflexivity|]. split; [exact HO|constructor]. }
  cbn [map fst partial_loop] in *. rewrite (HI k d (or_introl eq_refl)). cbn [bind]. unfold ps in *. cbn [filter snd] in *. destruct (subclass (d_class d) CDimPartial) eqn:C.
  - cbn [map fst] in *. destruct (labels_of k (b0 :: bs) (HP k (or_introl eq_refl))) as (ls & L1 & L2). rewrite L1. cbn [bind].
    assert (LL : length (b0 :: bs) = length ls) by (clear - L2; induction L2; cbn; auto).
    set (y := mkHF (mkNd [length ls] (map emb ls)) (label_dtype ls) [ri] None (default_fmt (label_dtype ls))). unfold new_raw. cbn [bind length nd_shape Nat.eqb]. fold y.
    assert (Ik : In k names) by (apply HN; apply in_or_app; right; now left).
    assert (Nk : ~ In k (map fst done)) by (intros I; apply NoDup_remove_2 in ND; apply ND; apply in_or_app; now left).
    assert (Ne : forall m e, is_matrix_name k = Some (m, e) -> ~ In m (map fst done)) by (intros m e M I; apply (HE k m e Ik M), HN; apply in_or_app; now left).
    destruct (put_new done out k y HO Nk (HK k Ik) Ne) as (out1 & O1 & O2). rewrite O1. cbn [bind].
    destruct HR as (R1 & R2 & R3 & R4 & R5).
    destruct (IH (done ++ [(k, y)]) out1 names O2) as (out' & zs & I1 & I2 & I3); auto.
    + rewrite map_app. cbn [map fst]. rewrite <- app_assoc. exact ND.
    + rewrite map_app. cbn [map fst]. rewrite <- app_assoc. exact HN.
    + intros k' I J. unfold dim_names in J. rewrite flat_map_app in J. cbn [flat_map snd y h_dims map] in J. rewrite app_nil_r in J. apply in_app_or in J as [J|[J|[]]]; [now apply (HK k' I)|]. apply (HX _ I). congruence.
    + intros k' d' I. apply HI. now right.
    + intros k' I. apply HP. now right.
    + exists out', ((k, y) :: zs). rewrite <- app_assoc in I2. split; [exact I1|]. split; [exact I2|]. constructor; [|exact I3]. split; [reflexivity|]. exists ls. split; [exact L2|]. cbn [snd]. split; [|split; [reflexivity|]].
      * split; [unfold nd_wf; cbn; rewrite map_length; lia|]. split; [unfold labels_match, h_shape; cbn [h_dims y map h_nd nd_shape]; congruence|]. cbn [y h_dims map]. constructor; [intros []|constructor].
      * intros i L. unfold nd_get. cbn [y h_nd nd_shape inb nd_elems ravel prodn fold_right]. apply Nat.ltb_lt in L. rewrite L. cbn [andb]. rewrite nth_error_map. now rewrite Nat.mul_1_r, Nat.add_0_r.
  - apply (IH done out names); auto. intros k' d' I. apply HI. now right.
Qed.
End Merge.
