(** transpose, reorder_dimensions and matrix transposition. *)
From Coq Require Import String List Arith ZArith Bool Lia Permutation.
From Verif Require Import Model_NdArray Proofs_NdArray Model_Dim Model_Array Spec_Array Proofs_Array.
Import ListNotations.
Local Open Scope nat_scope.

Lemma inb_perm : forall (sh : list nat) o (g : nat -> nat), is_perm (length sh) o = true ->
  inb (map (fun k => nth k sh 0) o) (map g o) = inb sh (map g (seq 0 (length sh))).
Proof.
  intros sh o g Hp. apply eq_true_iff_eq. rewrite !inb_nth, !map_length, seq_length. split; intros [_ H]; split; auto.
  - intros k Hk. rewrite nth_map_seq by assumption.
    assert (In k o) as Hi by (apply (perm_In _ _ _ Hp); assumption).
    specialize (H (index_of k o) (index_of_lt _ _ Hi)).
    rewrite !nth_map_order in H by (now apply index_of_lt).
    now rewrite !nth_index_of in H by assumption.
  - intros k Hk. rewrite !nth_map_order by assumption.
    assert (nth k o 0 < length sh) as Hi by (apply (perm_In _ _ _ Hp); now apply nth_In).
    specialize (H _ Hi). now rewrite nth_map_seq in H by assumption.
Qed.

Lemma transpose_val : forall {A} (x y : hf A) o, nd_wf (h_nd x) -> length (h_dims x) = h_ndim x ->
  is_perm (h_ndim x) o = true -> transpose (map Z.of_nat o) x = Ok y ->
  forall e, val y e = val x e.
Proof.
  intros A x y o Hw Hn Hp Hy e.
  destruct (transpose_nat_ok x o Hw Hn Hp) as [y' [E [Wy [Sy [Dy [_ [_ [_ Vy]]]]]]]].
  rewrite E in Hy. injection Hy as ->.
  assert (Hc : coords e (h_dims y) = map (fun k => e (key (nth k (h_dims x) dim0))) o).
  { unfold coords. rewrite Dy, map_map. reflexivity. }
  assert (Hx : coords e (h_dims x) = map (fun k => e (key (nth k (h_dims x) dim0))) (seq 0 (h_ndim x))).
  { rewrite <- Hn. unfold coords. symmetry. apply (map_nth_seq (fun d => e (key d))). }
  unfold val. rewrite Hc.
  destruct (inb (h_shape y) (map (fun k => e (key (nth k (h_dims x) dim0))) o)) eqn:Ei.
  - rewrite Vy by assumption. rewrite unpermute_map by assumption. now rewrite <- Hx.
  - rewrite nd_get_oob by exact Ei. rewrite nd_get_oob; auto.
    rewrite Sy in Ei. rewrite inb_perm in Ei by assumption. rewrite Hx. exact Ei.
Qed.

(** Every successful transposition is one by a permutation of axis numbers. *)
Lemma transpose_inv : forall {A} (x y : hf A) zs, length (h_dims x) = h_ndim x ->
  transpose zs x = Ok y ->
  exists o, is_perm (h_ndim x) o = true /\ transpose (map Z.of_nat o) x = Ok y /\
    mapM (np_axis (h_ndim x)) (match zs with [] => map Z.of_nat (rev (seq 0 (h_ndim x))) | _ => zs end) = Ok o.
Proof.
  intros A x y zs Hn H.
  set (zs' := match zs with [] => map Z.of_nat (rev (seq 0 (h_ndim x))) | _ => zs end).
  assert (H' : (do o <- mapM (np_axis (h_ndim x)) zs'; do a <- nd_transpose o (h_nd x);
          do ds <- mapM (fun i => of_option IndexError (py_nth (h_dims x) i)) zs'; new_from x a ds) = Ok y) by exact H.
  destruct (mapM (np_axis (h_ndim x)) zs') as [o|] eqn:Eo; simpl in H'; [|discriminate].
  destruct (nd_transpose o (h_nd x)) as [a|] eqn:Ea; simpl in H'; [|discriminate].
  assert (Hp : is_perm (h_ndim x) o = true).
  { unfold nd_transpose in Ea. fold (h_ndim x) in Ea. destruct (is_perm (h_ndim x) o); [auto|discriminate]. }
  exists o. split; auto. split; [|reflexivity].
  assert (Hds : mapM (fun i => of_option IndexError (py_nth (h_dims x) i)) zs' =
                Ok (map (fun k => nth k (h_dims x) dim0) o)).
  { clear H H' Ea Hp. revert o Eo. generalize zs' as l. induction l as [|z l IH]; intros o Eo; simpl in *.
    - injection Eo as <-. reflexivity.
    - unfold np_axis in Eo at 1.
      destruct (py_pos (h_ndim x) z) as [k|] eqn:Ek; simpl in Eo; [|discriminate].
      destruct (mapM (np_axis (h_ndim x)) l) as [o'|] eqn:Eo'; simpl in Eo; [|discriminate].
      injection Eo as <-. unfold py_nth at 1. rewrite Hn, Ek.
      rewrite (nth_error_nth' _ _ dim0) by (rewrite Hn; eapply py_pos_lt; eauto). simpl.
      rewrite (IH o') by reflexivity. reflexivity. }
  rewrite Hds in H'. simpl in H'.
  (* the same computation on the normalised order *)
  assert (E : (match map Z.of_nat o with
           | [] => map Z.of_nat (rev (seq 0 (h_ndim x)))
           | _ => map Z.of_nat o end) = map Z.of_nat o).
  { destruct o; simpl; auto. apply perm_length in Hp. simpl in Hp. rewrite <- Hp. reflexivity. }
  unfold transpose. rewrite E.
  rewrite (mapM_ok _ (fun z => Z.to_nat z)).
  2:{ intros z Hz. apply in_map_iff in Hz as [k [<- Hk]]. unfold np_axis.
      rewrite py_pos_nat by (now apply (perm_In _ _ _ Hp)). simpl. now rewrite Nat2Z.id. }
  simpl. rewrite map_map.
  assert (map (fun k => Z.to_nat (Z.of_nat k)) o = o) as ->.
  { rewrite <- (map_id o) at 2. apply map_ext. intros. apply Nat2Z.id. }
  rewrite Ea. simpl.
  rewrite (mapM_ok _ (fun z => nth (Z.to_nat z) (h_dims x) dim0)).
  2:{ intros z Hz. apply in_map_iff in Hz as [k [<- Hk]]. unfold py_nth.
      assert (k < length (h_dims x)) by (rewrite Hn; now apply (perm_In _ _ _ Hp)).
      rewrite py_pos_nat by assumption. rewrite Nat2Z.id.
      rewrite (nth_error_nth' _ _ dim0) by assumption. reflexivity. }
  simpl. rewrite map_map.
  assert (map (fun k => nth (Z.to_nat (Z.of_nat k)) (h_dims x) dim0) o = map (fun k => nth k (h_dims x) dim0) o) as ->.
  { apply map_ext. intros. now rewrite Nat2Z.id. }
  assumption.
Qed.

Lemma perm_map_nth : forall {X} (l : list X) d o, is_perm (length l) o = true ->
  Permutation (map (fun k => nth k l d) o) l.
Proof.
  intros X l d o Hp. apply is_perm_Permutation in Hp.
  transitivity (map (fun k => nth k l d) (seq 0 (length l))).
  - now apply Permutation_map.
  - rewrite (map_nth_seq (fun x => x)). now rewrite map_id.
Qed.

Lemma transpose_spec : forall {A} (x y : hf A) zs, wf x -> transpose zs x = Ok y ->
  wf y /\ Permutation (h_dims y) (h_dims x) /\ (forall e, val y e = val x e) /\
  h_unit y = h_unit x /\ h_fmt y = h_fmt x /\ h_dt y = h_dt x.
Proof.
  intros A x y zs [Hw [Hl ND]] H.
  assert (Hn := wf_ndim x Hl).
  destruct (transpose_inv x y zs Hn H) as [o [Hp [Ho _]]].
  destruct (transpose_nat_ok x o Hw Hn Hp) as [y' [E [Wy [Sy [Dy [Ty [Uy [Fy _]]]]]]]].
  rewrite E in Ho. injection Ho as ->.
  assert (P : Permutation (h_dims y) (h_dims x)).
  { rewrite Dy. apply perm_map_nth. now rewrite Hn. }
  split; [|split; [|split; [|auto]]]; auto.
  - split; [assumption|]. split.
    + unfold labels_match. rewrite Dy, Sy, map_map. apply map_ext. intros k.
      rewrite <- Hl. symmetry. apply (map_nth (fun d => length (d_data d)) (h_dims x) dim0).
    + eapply perm_NoDup_key; [symmetry; exact P|assumption].
  - eapply transpose_val; eauto.
Qed.

(** ** Round trip *)

Definition inverse_order (o : list nat) : list nat := map (fun k => index_of k o) (seq 0 (length o)).

Lemma inverse_perm : forall n o, is_perm n o = true -> is_perm n (inverse_order o) = true.
Proof.
  intros n o Hp. apply Permutation_is_perm. unfold inverse_order. pose proof (perm_length _ _ Hp) as L.
  rewrite L. apply NoDup_Permutation.
  - apply NoDup_nth with (d := 0). rewrite map_length, seq_length. intros i j Hi Hj E.
    rewrite !nth_map_seq in E by assumption.
    assert (Ki : In i o) by (now apply (perm_In _ _ _ Hp)).
    assert (Kj : In j o) by (now apply (perm_In _ _ _ Hp)).
    rewrite <- (nth_index_of i o 0 Ki), <- (nth_index_of j o 0 Kj). congruence.
  - apply seq_NoDup.
  - intros k. rewrite in_map_iff, in_seq. split.
    + intros [i [<- Hi]]. apply in_seq in Hi. split; [lia|]. simpl. rewrite <- L.
      apply index_of_lt. apply (perm_In _ _ _ Hp). lia.
    + intros [_ Hk]. exists (nth k o 0). split.
      * apply index_of_nth; [eapply perm_NoDup; eauto|lia].
      * apply in_seq. split; [lia|]. simpl. apply (perm_In _ _ _ Hp). apply nth_In. lia.
Qed.

Lemma map_inverse : forall {X} (l : list X) d o, is_perm (length l) o = true ->
  map (fun k => nth k (map (fun j => nth j l d) o) d) (inverse_order o) = l.
Proof.
  intros X l d o Hp. unfold inverse_order. rewrite map_map. pose proof (perm_length _ _ Hp) as L. rewrite L.
  transitivity (map (fun k => nth k l d) (seq 0 (length l))).
  2:{ rewrite (map_nth_seq (fun x => x)). apply map_id. }
  apply map_ext_in. intros k Hk. apply in_seq in Hk.
  assert (Ki : In k o) by (apply (perm_In _ _ _ Hp); lia).
  rewrite nth_indep with (d' := (fun j => nth j l d) 0) by (rewrite map_length; now apply index_of_lt).
  rewrite (map_nth (fun j => nth j l d)). now rewrite nth_index_of.
Qed.

Lemma transpose_roundtrip : forall {A} (x : hf A) o, wf x -> is_perm (h_ndim x) o = true ->
  exists y, transpose (map Z.of_nat o) x = Ok y /\
            transpose (map Z.of_nat (inverse_order o)) y = Ok x.
Proof.
  intros A x o [Hw [Hl ND]] Hp. assert (Hn := wf_ndim x Hl).
  destruct (transpose_nat_ok x o Hw Hn Hp) as [y [E [Wy [Sy [Dy [Ty [Uy [Fy Vy]]]]]]]].
  exists y. split; auto.
  pose proof (perm_length _ _ Hp) as L.
  assert (Ny : h_ndim y = h_ndim x).
  { unfold h_ndim. fold (h_shape y). rewrite Sy, map_length. exact L. }
  assert (Ly : length (h_dims y) = h_ndim y).
  { rewrite Dy, map_length, Ny. exact L. }
  assert (Hq : is_perm (h_ndim y) (inverse_order o) = true) by (rewrite Ny; now apply inverse_perm).
  destruct (transpose_nat_ok y (inverse_order o) Wy Ly Hq) as [z [E2 [Wz [Sz [Dz [Tz [Uz [Fz Vz]]]]]]]].
  rewrite E2. f_equal.
  assert (Sx : h_shape z = h_shape x).
  { rewrite Sz, Sy. apply (map_inverse (h_shape x) 0 o). exact Hp. }
  assert (Dx : h_dims z = h_dims x).
  { rewrite Dz, Dy. apply (map_inverse (h_dims x) dim0 o). now rewrite Hn. }
  assert (Nz : h_nd z = h_nd x).
  { apply nd_ext; auto. intros ix Hi. fold (h_shape z) in Hi.
    rewrite Vz by assumption. rewrite Vy.
    2:{ unfold h_ndim. fold (h_shape y). apply unpermute_inb; [exact Hq|]. rewrite <- Sz. exact Hi. }
    f_equal. rewrite Ny. apply inb_length in Hi. rewrite Sx in Hi.
    apply list_nth_ext; rewrite unpermute_length; [symmetry; exact Hi|].
    intros k Hk. rewrite unpermute_nth by assumption.
    assert (Ki : In k o) by (apply (perm_In _ _ _ Hp); lia).
    rewrite unpermute_nth by (rewrite <- L; now apply index_of_lt).
    f_equal.
    assert (index_of k o = nth k (inverse_order o) 0) as ->.
    { unfold inverse_order. rewrite (nth_map_seq (fun k => index_of k o)) by (rewrite L; lia). reflexivity. }
    apply index_of_nth.
    - rewrite Ny in Hq. eapply perm_NoDup; eauto.
    - rewrite Ny in Hq. rewrite (perm_length _ _ Hq). assumption. }
  destruct x, z; unfold h_shape in *; simpl in *; subst; congruence.
Qed.

(** ** reorder_dimensions *)

Lemma label_eqb_refl : forall a, label_eqb a a = true.
Proof. intros []; simpl; try apply Z.eqb_refl; apply String.eqb_refl. Qed.

Lemma list_eqb_refl : forall {A} (f : A -> A -> bool) l, (forall a, f a a = true) -> list_eqb f l l = true.
Proof. intros A f l H. induction l; simpl; auto. now rewrite H, IHl. Qed.

Lemma dim_eqb_refl : forall d, dim_eqb d d = true.
Proof.
  intros d. unfold dim_eqb. rewrite Nat.eqb_refl, String.eqb_refl, class_eqb_refl.
  rewrite list_eqb_refl by apply label_eqb_refl. destruct (d_unit d); simpl; auto. apply String.eqb_refl.
Qed.

Lemma dim_eqb_key : forall a b, dim_eqb a b = true -> key a = key b.
Proof.
  intros a b H. unfold dim_eqb in H. rewrite !andb_true_iff in H.
  destruct H as [[[[_ H1] H2] _] _]. apply String.eqb_eq in H1. apply class_eqb_eq in H2.
  unfold key. congruence.
Qed.

Lemma dims_pos_In : forall ds d, NoDup (map key ds) -> In d ds ->
  exists p, dims_pos ds d = Ok p /\ nth_error ds p = Some d.
Proof.
  intros ds d ND Hd. apply In_nth_error in Hd as [p Hp]. exists p. split; auto.
  unfold dims_pos. rewrite (find_index_unique _ _ p d); auto.
  - apply dim_eqb_refl.
  - intros j y Hj Hy. apply dim_eqb_key in Hy. eapply NoDup_key_pos; eauto.
Qed.

Lemma remove_at_filter : forall ds p d, NoDup (map key ds) -> nth_error ds p = Some d ->
  remove_at p ds = filter (fun x => negb (key_eqb x d)) ds.
Proof.
  induction ds as [|x ds IH]; intros p d ND Hp; simpl in *; [destruct p; reflexivity|].
  inversion ND as [|? ? Hn ND']; subst. destruct p as [|p]; simpl in *.
  - injection Hp as ->.
    assert (key_eqb d d = true) as -> by (now apply key_eqb_eq). simpl.
    symmetry. clear -Hn. induction ds as [|y ds IH]; simpl in *; auto.
    destruct (key_eqb y d) eqn:E; simpl.
    + apply key_eqb_eq in E. exfalso. apply Hn. left. assumption.
    + f_equal. apply IH. tauto.
  - destruct (key_eqb x d) eqn:E; simpl.
    + apply key_eqb_eq in E. exfalso. apply Hn. rewrite E. apply in_map. eapply nth_error_In; eauto.
    + f_equal. now apply IH.
Qed.

(** Position of a dimension by key. *)
Definition posk (ds : list dim) (d : dim) : nat :=
  match key_pos ds d with Some k => k | None => 0 end.

Lemma dims_pos_posk : forall ds d, NoDup (map key ds) -> In d ds -> dims_pos ds d = Ok (posk ds d).
Proof.
  intros ds d ND Hd. destruct (dims_pos_In ds d ND Hd) as [p [H1 H2]]. rewrite H1. f_equal.
  unfold posk. now rewrite (key_pos_nth ds d p).
Qed.

Lemma reorder_loop_ok : forall ds order infos, NoDup (map key ds) -> incl infos ds ->
  NoDup (map key infos) -> incl order infos -> NoDup (map key order) ->
  reorder_loop ds infos order =
  Ok (map (posk ds) order, filter (fun x => negb (haskey order x)) infos).
Proof.
  intros ds order. induction order as [|d order IH]; intros infos ND Hi NDi Ho NDo; simpl.
  - f_equal. f_equal. clear. induction infos as [|x l IH]; simpl; auto. now f_equal.
  - inversion NDo as [|? ? Hn NDo']; subst.
    assert (In d infos) as Hd by (apply Ho; simpl; auto).
    rewrite dims_pos_posk by auto. simpl.
    destruct (dims_pos_In infos d NDi Hd) as [q [-> Hq]]. simpl.
    rewrite (remove_at_filter infos q d) by auto.
    rewrite IH; auto.
    + simpl. f_equal. f_equal. clear. induction infos as [|x l IH]; simpl; auto.
      rewrite negb_orb. destruct (key_eqb x d) eqn:E; simpl; auto.
      rewrite IH. destruct (negb (haskey order x)); reflexivity.
    + intros y Hy. apply filter_In in Hy as [Hy _]. auto.
    + now apply NoDup_map_filter.
    + intros y Hy. apply filter_In. split; [apply Ho; simpl; auto|]. apply negb_true_iff.
      destruct (key_eqb y d) eqn:E; auto. apply key_eqb_eq in E. exfalso. apply Hn. rewrite <- E. now apply in_map.
Qed.

Lemma posk_nth : forall ds d, NoDup (map key ds) -> In d ds ->
  posk ds d < length ds /\ nth (posk ds d) ds dim0 = d.
Proof.
  intros ds d ND Hd. apply In_nth_error in Hd as [p Hp]. unfold posk. rewrite (key_pos_nth ds d p) by auto.
  split; [apply nth_error_Some; congruence|]. now apply nth_error_nth.
Qed.

Lemma posk_perm : forall ds l, NoDup (map key ds) -> Permutation l ds ->
  is_perm (length ds) (map (posk ds) l) = true.
Proof.
  intros ds l ND P. apply Permutation_is_perm.
  transitivity (map (posk ds) ds); [now apply Permutation_map|].
  assert (map (posk ds) ds = seq 0 (length ds)) as ->; [|reflexivity].
  rewrite <- (map_nth_seq (posk ds) ds dim0). rewrite <- (map_id (seq 0 (length ds))) at 2.
  apply map_ext_in. intros k Hk. apply in_seq in Hk.
  unfold posk. rewrite (key_pos_nth ds (nth k ds dim0) k); auto. apply nth_error_nth'. lia.
Qed.

Lemma partition_perm : forall ds order, NoDup (map key ds) -> incl order ds -> NoDup (map key order) ->
  Permutation (order ++ filter (fun x => negb (haskey order x)) ds) ds.
Proof.
  intros ds order ND Ho NDo. apply NoDup_Permutation.
  - apply (NoDup_map_inv key). rewrite map_app. apply NoDup_app_intro; auto.
    + now apply NoDup_map_filter.
    + intros k H1 H2. apply in_map_iff in H2 as [y [<- H2]]. apply filter_In in H2 as [_ H2].
      apply haskey_In in H1. rewrite H1 in H2. discriminate.
  - now apply (NoDup_map_inv key).
  - intros d. rewrite in_app_iff, filter_In. split; [intros [H|[H _]]; auto|].
    intros H. destruct (haskey order d) eqn:E; [|right; split; auto]. left.
    apply haskey_In in E. apply in_map_iff in E as [d' [E H']].
    assert (d' = d) by (eapply (NoDup_key_inj ds); eauto). now subst.
Qed.

Lemma reorder_spec : forall {A} (x : hf A) order, wf x -> incl order (h_dims x) -> NoDup (map key order) ->
  exists y, reorder_dimensions order x = Ok y /\ wf y /\
    h_dims y = order ++ filter (fun d => negb (haskey order d)) (h_dims x) /\
    (forall e, val y e = val x e) /\ h_unit y = h_unit x /\ h_fmt y = h_fmt x /\ h_dt y = h_dt x.
Proof.
  intros A x order Hwf Ho NDo. pose proof Hwf as [Hw [Hl ND]]. assert (Hn := wf_ndim x Hl).
  unfold reorder_dimensions.
  rewrite reorder_loop_ok by (auto; apply incl_refl). simpl.
  set (rest := filter (fun d => negb (haskey order d)) (h_dims x)).
  rewrite (mapM_ok _ (posk (h_dims x))).
  2:{ intros d Hd. apply dims_pos_posk; auto. apply filter_In in Hd. tauto. }
  simpl. rewrite <- map_app.
  assert (P : Permutation (order ++ rest) (h_dims x)) by (now apply partition_perm).
  assert (Hp : is_perm (h_ndim x) (map (posk (h_dims x)) (order ++ rest)) = true).
  { rewrite <- Hn. now apply posk_perm. }
  destruct (transpose_nat_ok x _ Hw Hn Hp) as [y [E [Wy [Sy [Dy _]]]]].
  exists y. split; auto.
  destruct (transpose_spec x y _ Hwf E) as [Hwy [_ [Hv [Hu [Hf Ht]]]]].
  split; auto. split; auto.
  rewrite Dy, map_map. rewrite <- (map_id (order ++ rest)) at 2. apply map_ext_in. intros d Hd.
  apply posk_nth; auto. eapply Permutation_in; eauto.
Qed.

(** ** Matrix transposition *)

Definition swap_key (k1 k2 : dimclass * string) (e : assignment) : assignment :=
  upd (upd e k1 (e k2)) k2 (e k1).

Lemma upd_same : forall e k v, upd e k v k = v.
Proof. intros e [c s] v. unfold upd. simpl. now rewrite class_eqb_refl, String.eqb_refl. Qed.

Lemma upd_other : forall e k k' v, k' <> k -> upd e k v k' = e k'.
Proof.
  intros e [c s] [c' s'] v H. unfold upd. simpl.
  destruct (class_eqb c' c) eqn:E1; simpl; auto. destruct (String.eqb s' s) eqn:E2; auto.
  apply class_eqb_eq in E1. apply String.eqb_eq in E2. congruence.
Qed.

Lemma swap_nat_perm : forall n i j, i < n -> j < n -> is_perm n (map (swap_nat i j) (seq 0 n)) = true.
Proof.
  intros n i j Hi Hj. apply Permutation_is_perm. apply NoDup_Permutation.
  - apply NoDup_nth with (d := 0). rewrite map_length, seq_length. intros a b Ha Hb E.
    rewrite !nth_map_seq in E by assumption. unfold swap_nat in E.
    repeat match type of E with context [Nat.eqb ?u ?v] => destruct (Nat.eqb_spec u v); simpl in E end; lia.
  - apply seq_NoDup.
  - intros k. rewrite in_map_iff, in_seq. split.
    + intros [a [<- Ha]]. apply in_seq in Ha. unfold swap_nat. destruct (Nat.eqb a i), (Nat.eqb a j); lia.
    + intros Hk. exists (swap_nat i j k). split; [|apply in_seq]; unfold swap_nat;
      destruct (Nat.eqb_spec k i), (Nat.eqb_spec k j); subst;
      repeat (rewrite Nat.eqb_refl || match goal with |- context [Nat.eqb ?u ?v] => destruct (Nat.eqb_spec u v); simpl end); try lia.
Qed.

Lemma last_of_class_unique : forall c ds d, In d ds -> subclass (d_class d) c = true ->
  (forall d', In d' ds -> subclass (d_class d') c = true -> d' = d) ->
  last_of_class c ds = Some d.
Proof.
  intros c ds d Hd Hc Hu. unfold last_of_class.
  destruct (find (fun d => subclass (d_class d) c) (rev ds)) as [d'|] eqn:E.
  - apply find_some in E as [H1 H2]. f_equal. apply Hu; auto. now apply in_rev.
  - exfalso. eapply find_none in E; [|apply -> in_rev; exact Hd]. simpl in E. congruence.
Qed.

Lemma dims_index_unique : forall ds p d, nth_error ds p = Some d -> NoDup (map key ds) ->
  (forall d', In d' ds -> d_name d' = d_name d -> d' = d) -> dims_index ds (d_name d) = Ok p.
Proof.
  intros ds p d Hp ND Hu. unfold dims_index. rewrite (find_index_unique _ _ p d); auto.
  - apply String.eqb_refl.
  - intros j y Hj Hy. apply String.eqb_eq in Hy.
    assert (y = d) by (apply Hu; auto; eapply nth_error_In; eauto). subst.
    eapply NoDup_key_pos; eauto.
Qed.

Lemma nth_error_set_nth : forall {X} k (v : X) l j, k < length l ->
  nth_error (set_nth k v l) j = if Nat.eqb j k then Some v else nth_error l j.
Proof.
  intros X k v l. revert k. induction l as [|x l IH]; intros [|k] j H; simpl in *; try lia.
  - now destruct j.
  - destruct j; simpl; auto. apply IH. lia.
Qed.

Lemma mat_t_ok : forall {A} (x : hf A) di dj, wf x ->
  In di (h_dims x) -> In dj (h_dims x) -> d_class di = CMatrix_i -> d_class dj = CMatrix_j ->
  (forall d, In d (h_dims x) -> d_class d = CMatrix_i -> d = di) ->
  (forall d, In d (h_dims x) -> d_class d = CMatrix_j -> d = dj) ->
  (forall d, In d (h_dims x) -> d_name d = d_name di -> d = di) ->
  (forall d, In d (h_dims x) -> d_name d = d_name dj -> d = dj) ->
  exists y, mat_t x = Ok y /\ wf y /\
    h_dims y = map (fun d => if class_eqb (d_class d) CMatrix_i then mkDim CMatrix_i (d_name di) (d_data dj) None None
                             else if class_eqb (d_class d) CMatrix_j then mkDim CMatrix_j (d_name dj) (d_data di) None None
                             else d) (h_dims x) /\
    (forall e, val y e = val x (swap_key (key di) (key dj) e)) /\
    h_unit y = h_unit x /\ h_fmt y = h_fmt x /\ h_dt y = h_dt x.
Proof.
  intros A x di dj [Hw [Hl ND]] Hdi Hdj Ci Cj Ui Uj Ni Nj.
  assert (Hn := wf_ndim x Hl).
  assert (Subi : forall c, subclass c CMatrix_i = true -> c = CMatrix_i) by (intros []; simpl; discriminate || reflexivity).
  assert (Subj : forall c, subclass c CMatrix_j = true -> c = CMatrix_j) by (intros []; simpl; discriminate || reflexivity).
  unfold mat_t.
  rewrite (last_of_class_unique CMatrix_i _ di); auto; [|rewrite Ci; reflexivity].
  rewrite (last_of_class_unique CMatrix_j _ dj); auto; [|rewrite Cj; reflexivity].
  destruct (In_nth_error _ _ Hdi) as [i Hi]. destruct (In_nth_error _ _ Hdj) as [j Hj].
  rewrite (dims_index_unique _ i di) by auto. simpl.
  rewrite (dims_index_unique _ j dj) by auto. simpl.
  assert (Li : i < h_ndim x) by (rewrite <- Hn; apply nth_error_Some; congruence).
  assert (Lj : j < h_ndim x) by (rewrite <- Hn; apply nth_error_Some; congruence).
  assert (Hij : i <> j). { intros ->. rewrite Hi in Hj. injection Hj as ->. congruence. }
  set (o := map (swap_nat i j) (seq 0 (h_ndim x))).
  assert (Ho : map (fun k => Z.of_nat (swap_nat i j k)) (seq 0 (h_ndim x)) = map Z.of_nat o)
    by (unfold o; now rewrite map_map).
  rewrite Ho. clear Ho.
  assert (Hp : is_perm (h_ndim x) o = true) by (now apply swap_nat_perm).
  destruct (transpose_nat_ok x o Hw Hn Hp) as [y [E [Wy [Sy [Dy [Ty [Uy [Fy Vy]]]]]]]].
  rewrite E. simpl. eexists. split; [reflexivity|].
  set (Di := mkDim CMatrix_i (d_name di) (d_data dj) None None).
  set (Dj := mkDim CMatrix_j (d_name dj) (d_data di) None None).
  assert (Ldy : length (h_dims y) = h_ndim x).
  { rewrite Dy, map_length. unfold o. now rewrite map_length, seq_length. }
  assert (Hdims : set_nth j Dj (set_nth i Di (h_dims y)) =
    map (fun d => if class_eqb (d_class d) CMatrix_i then Di else if class_eqb (d_class d) CMatrix_j then Dj else d) (h_dims x)).
  { apply nth_error_ext. intros k.
    rewrite nth_error_set_nth by (rewrite set_nth_length; lia).
    rewrite nth_error_set_nth by lia. rewrite nth_error_map.
    destruct (Nat.eqb_spec k j) as [->|Hkj].
    { rewrite Hj. simpl. rewrite Cj. reflexivity. }
    destruct (Nat.eqb_spec k i) as [->|Hki].
    { rewrite Hi. simpl. rewrite Ci. reflexivity. }
    rewrite Dy, nth_error_map. unfold o. rewrite nth_error_map.
    destruct (le_lt_dec (h_ndim x) k) as [Hk|Hk].
    { rewrite (proj2 (nth_error_None _ _)) by (now rewrite seq_length). simpl.
      rewrite (proj2 (nth_error_None _ _)) by lia. reflexivity. }
    rewrite nth_error_seq by assumption. simpl. unfold swap_nat.
    rewrite (proj2 (Nat.eqb_neq k i)), (proj2 (Nat.eqb_neq k j)) by assumption.
    rewrite (nth_error_nth' (h_dims x) k dim0) by lia. simpl. f_equal.
    assert (Hk' : nth_error (h_dims x) k = Some (nth k (h_dims x) dim0)) by (apply nth_error_nth'; lia).
    destruct (class_eqb (d_class (nth k (h_dims x) dim0)) CMatrix_i) eqn:E1.
    { apply class_eqb_eq in E1. exfalso. apply Hki.
      apply (NoDup_key_pos _ _ _ _ _ ND Hk' Hi). f_equal. apply Ui; auto. eapply nth_error_In; eauto. }
    destruct (class_eqb (d_class (nth k (h_dims x) dim0)) CMatrix_j) eqn:E2; auto.
    apply class_eqb_eq in E2. exfalso. apply Hkj.
    apply (NoDup_key_pos _ _ _ _ _ ND Hk' Hj). f_equal. apply Uj; auto. eapply nth_error_In; eauto. }
  assert (Hkeys : forall d, In d (h_dims x) -> key (if class_eqb (d_class d) CMatrix_i then Di else if class_eqb (d_class d) CMatrix_j then Dj else d) = key d).
  { intros d Hd. destruct (class_eqb (d_class d) CMatrix_i) eqn:E1.
    - apply class_eqb_eq in E1. rewrite (Ui d Hd E1). unfold key. simpl. now rewrite Ci.
    - destruct (class_eqb (d_class d) CMatrix_j) eqn:E2; auto.
      apply class_eqb_eq in E2. rewrite (Uj d Hd E2). unfold key. simpl. now rewrite Cj. }
  assert (Hshape : forall k, k < h_ndim x -> nth k (h_shape y) 0 = nth (swap_nat i j k) (h_shape x) 0).
  { intros k Hk. rewrite Sy. unfold o. rewrite map_map. now rewrite nth_map_seq. }
  assert (Lx : forall k d, nth_error (h_dims x) k = Some d -> nth k (h_shape x) 0 = length (d_data d)).
  { intros k d Hk. rewrite <- Hl. apply nth_error_nth. now rewrite nth_error_map, Hk. }
  assert (Lsy : length (h_shape y) = h_ndim x).
  { rewrite Sy, map_length. unfold o. now rewrite map_length, seq_length. }
  split; [split; [exact Wy|split]|].
  - (* labels *)
    unfold labels_match. simpl. rewrite Hdims, map_map. unfold h_shape; simpl; fold (h_shape y).
    apply list_nth_ext; rewrite map_length; [lia|]. intros k Hk.
    rewrite Hshape by lia.
    rewrite nth_indep with (d' := (fun d => length (d_data (if class_eqb (d_class d) CMatrix_i then Di else if class_eqb (d_class d) CMatrix_j then Dj else d))) dim0) by (now rewrite map_length).
    rewrite (map_nth (fun d => length (d_data (if class_eqb (d_class d) CMatrix_i then Di else if class_eqb (d_class d) CMatrix_j then Dj else d)))).
    assert (Hk' : nth_error (h_dims x) k = Some (nth k (h_dims x) dim0)) by (apply nth_error_nth'; lia).
    unfold swap_nat.
    destruct (Nat.eqb_spec k i) as [->|Hki].
    { rewrite Hi in Hk'. injection Hk' as <-. rewrite Ci. simpl. symmetry. now apply Lx. }
    destruct (Nat.eqb_spec k j) as [->|Hkj].
    { rewrite Hj in Hk'. injection Hk' as <-. rewrite Cj. simpl. symmetry. now apply Lx. }
    rewrite (Lx k _ Hk').
    destruct (class_eqb (d_class (nth k (h_dims x) dim0)) CMatrix_i) eqn:E1.
    { apply class_eqb_eq in E1. exfalso. apply Hki.
      apply (NoDup_key_pos _ _ _ _ _ ND Hk' Hi). f_equal. apply Ui; auto. eapply nth_error_In; eauto. }
    destruct (class_eqb (d_class (nth k (h_dims x) dim0)) CMatrix_j) eqn:E2; auto.
    apply class_eqb_eq in E2. exfalso. apply Hkj.
    apply (NoDup_key_pos _ _ _ _ _ ND Hk' Hj). f_equal. apply Uj; auto. eapply nth_error_In; eauto.
  - simpl. rewrite Hdims, map_map. erewrite map_ext_in; [exact ND|]. exact Hkeys.
  - simpl. split; [exact Hdims|]. split; [|auto].
    intros e. unfold val. simpl. rewrite Hdims.
    set (g := fun k => swap_key (key di) (key dj) e (key (nth k (h_dims x) dim0))).
    assert (Hcx : coords (swap_key (key di) (key dj) e) (h_dims x) = map g (seq 0 (h_ndim x))).
    { rewrite <- Hn. unfold coords, g. symmetry. apply (map_nth_seq (fun d => swap_key (key di) (key dj) e (key d))). }
    assert (Hcy : coords e (map (fun d => if class_eqb (d_class d) CMatrix_i then Di else if class_eqb (d_class d) CMatrix_j then Dj else d) (h_dims x)) = map g o).
    { unfold coords. rewrite map_map. unfold o. rewrite map_map.
      rewrite (map_ext_in _ (fun d => e (key d))) by (intros d Hd; now rewrite Hkeys).
      rewrite <- (map_nth_seq (fun d => e (key d)) (h_dims x) dim0). rewrite Hn.
      apply map_ext_in. intros k Hk. apply in_seq in Hk.
      assert (Hk' : nth_error (h_dims x) k = Some (nth k (h_dims x) dim0)) by (apply nth_error_nth'; lia).
      assert (Kij : key di <> key dj) by (unfold key; congruence).
      unfold g, swap_key, swap_nat.
      destruct (Nat.eqb_spec k i) as [->|Hki].
      { rewrite (nth_error_nth _ _ dim0 Hj), (nth_error_nth _ _ dim0 Hi). now rewrite upd_same. }
      destruct (Nat.eqb_spec k j) as [->|Hkj].
      { rewrite (nth_error_nth _ _ dim0 Hj), (nth_error_nth _ _ dim0 Hi).
        rewrite upd_other by assumption. now rewrite upd_same. }
      rewrite !upd_other; auto; intros Ek; [apply Hki|apply Hkj];
      [apply (NoDup_key_pos _ _ _ _ _ ND Hk' Hi Ek)|apply (NoDup_key_pos _ _ _ _ _ ND Hk' Hj Ek)]. }
    rewrite Hcy, Hcx.
    destruct (inb (h_shape y) (map g o)) eqn:Ei.
    + rewrite Vy by assumption. now rewrite unpermute_map by assumption.
    + rewrite nd_get_oob by exact Ei. rewrite Sy in Ei. rewrite inb_perm in Ei by assumption.
      rewrite nd_get_oob; auto.
Qed.
