(** Dimensions track the shape through any sequence of operations. *)
From Coq Require Import String List Arith ZArith Bool Lia Permutation.
From Verif Require Import Model_NdArray Proofs_NdArray Model_Dim Model_Array Spec_Array
  Proofs_Array Proofs_Array2 Proofs_Array3 Proofs_Array4 Proofs_Array5 Proofs_Array6.
Import ListNotations.
Local Open Scope nat_scope.

Ltac inv_bind H :=
  match type of H with
  | bind ?r _ = Ok _ =>
      let E := fresh "E" in destruct r eqn:E; cbn [bind] in H; [|discriminate H]
  end.

Lemma new_from_inv : forall {A B} (x : hf A) (a : nd B) ds y, new_from x a ds = Ok y ->
  length ds = length (nd_shape a) /\ h_nd y = a /\ h_dims y = ds.
Proof. intros A B x a ds y H. unfold new_from in H. destruct (Nat.eqb_spec (length ds) (length (nd_shape a))); [|discriminate].
  injection H as <-. auto. Qed.
Lemma new_raw_inv : forall {A} (a : nd A) t ds u f y, new_raw a t (Some ds) u f = Ok y ->
  length ds = length (nd_shape a) /\ h_nd y = a /\ h_dims y = ds.
Proof. intros A a t ds u f y H. unfold new_raw in H. simpl in H.
  destruct (Nat.eqb_spec (length ds) (length (nd_shape a))); [|discriminate].
  injection H as <-. auto. Qed.

Lemma tracks_new : forall {A} (y : hf A) a ds, h_nd y = a -> h_dims y = ds -> nd_wf a ->
  lens ds = nd_shape a -> tracks y.
Proof. intros A y a ds <- <- H1 H2. split; auto. Qed.

Lemma transpose_tracks : forall {A} (x y : hf A) zs, tracks x -> transpose zs x = Ok y -> tracks y.
Proof.
  intros A x y zs [Hw Hl] H. pose proof (wf_ndim x Hl) as Hn.
  destruct (transpose_inv x y zs Hn H) as [o [Hp [Ho _]]].
  destruct (transpose_nat_ok x o Hw Hn Hp) as [y' [Ho' [Hw' [Hs [Hd _]]]]].
  rewrite Ho in Ho'. injection Ho' as <-. split; auto. unfold labels_match. rewrite Hd, Hs, map_map.
  apply map_ext_in. intros k Hk. apply (perm_In _ _ _ Hp) in Hk.
  unfold labels_match in Hl. rewrite <- Hl.
  change 0 with (length (d_data dim0)). now rewrite (map_nth (fun d => length (d_data d))).
Qed.

Lemma reorder_tracks : forall {A} (x y : hf A) o, tracks x -> reorder_dimensions o x = Ok y -> tracks y.
Proof.
  intros A x y o Ht H. unfold reorder_dimensions in H. inv_bind H. inv_bind H. eapply transpose_tracks; eauto.
Qed.

Lemma last_of_class_In : forall c ds d, last_of_class c ds = Some d -> In d ds /\ subclass (d_class d) c = true.
Proof.
  intros c ds d H. unfold last_of_class in H. apply find_some in H as [H1 H2]. split; auto. now apply in_rev.
Qed.

Lemma sub_Matrix_i : forall c, subclass c CMatrix_i = true -> c = CMatrix_i.
Proof. intros []; vm_compute; congruence. Qed.
Lemma sub_Matrix_j : forall c, subclass c CMatrix_j = true -> c = CMatrix_j.
Proof. intros []; vm_compute; congruence. Qed.

Lemma NoDup_names_pos : forall ds i j a b, NoDup (map d_name ds) ->
  nth_error ds i = Some a -> nth_error ds j = Some b -> d_name a = d_name b -> i = j.
Proof.
  intros ds i j a b ND Hi Hj E. apply (proj1 (NoDup_nth_error (map d_name ds)) ND).
  - rewrite map_length. apply nth_error_Some. congruence.
  - rewrite !nth_error_map, Hi, Hj. simpl. congruence.
Qed.

Lemma dims_index_at : forall ds s i, dims_index ds s = Ok i -> exists d, nth_error ds i = Some d /\ d_name d = s.
Proof.
  intros ds s i H. unfold dims_index in H.
  destruct (find_index (fun d => String.eqb (d_name d) s) ds) eqn:E; simpl in H; [|discriminate].
  injection H as <-. apply find_index_some in E as [d [E1 E2]]. apply String.eqb_eq in E2. eauto.
Qed.

Lemma dims_index_name : forall ds d i, NoDup (map d_name ds) -> In d ds -> dims_index ds (d_name d) = Ok i ->
  nth_error ds i = Some d.
Proof.
  intros ds d i ND Hd H. apply dims_index_at in H as [d' [H1 H2]].
  apply In_nth_error in Hd as [j Hj]. rewrite (NoDup_names_pos ds i j d' d ND H1 Hj H2). auto.
Qed.

Lemma mat_t_tracks : forall {A} (x y : hf A), tracks x -> NoDup (map d_name (h_dims x)) -> mat_t x = Ok y -> tracks y.
Proof.
  intros A x y Ht ND H. pose proof Ht as [Hw Hl]. unfold mat_t in H.
  destruct (last_of_class CMatrix_i (h_dims x)) as [di|] eqn:Ei; [|injection H as <-; auto].
  destruct (last_of_class CMatrix_j (h_dims x)) as [dj|] eqn:Ej; [|injection H as <-; auto].
  apply last_of_class_In in Ei as [Ii Ci]. apply last_of_class_In in Ej as [Ij Cj].
  apply sub_Matrix_i in Ci. apply sub_Matrix_j in Cj.
  inv_bind H. inv_bind H. inv_bind H. injection H as <-. rename a into i, a0 into j, a1 into y.
  apply dims_index_name in E; auto. apply dims_index_name in E0; auto.
  pose proof (wf_ndim x Hl) as Hn.
  assert (Li : i < h_ndim x) by (rewrite <- Hn; apply nth_error_Some; congruence).
  assert (Lj : j < h_ndim x) by (rewrite <- Hn; apply nth_error_Some; congruence).
  assert (Nij : i <> j) by (intros ->; rewrite E in E0; injection E0 as E0; subst dj; congruence).
  rewrite <- (map_map (swap_nat i j) Z.of_nat) in E1.
  pose proof (swap_nat_perm (h_ndim x) i j Li Lj) as Hp.
  destruct (transpose_nat_ok x _ Hw Hn Hp) as [y' [Ho' [Hw' [Hs [Hd _]]]]].
  rewrite E1 in Ho'. injection Ho' as <-.
  split; [exact Hw'|]. unfold labels_match. simpl. unfold h_shape at 1. simpl. change (nd_shape (h_nd y)) with (h_shape y).
  rewrite !map_set_nth. simpl. rewrite Hd, Hs, !map_map.
  assert (G : forall (l : list nat) (f : nat -> nat) n, l = map f (seq 0 n) -> i < n -> j < n -> i <> j ->
     set_nth j (f i) (set_nth i (f j) l) = map (fun k => f (swap_nat i j k)) (seq 0 n)).
  { intros l f n -> H1 H2 H3. apply list_nth_ext; [rewrite !set_nth_length, !map_length; auto|].
    intros k Hk. rewrite !set_nth_length, map_length, seq_length in Hk.
    rewrite (nth_map_seq (fun k => f (swap_nat i j k))) by auto. unfold swap_nat.
    destruct (Nat.eq_dec k j) as [->|N1].
    - rewrite nth_set_nth_same by (rewrite set_nth_length, map_length, seq_length; auto).
      rewrite Nat.eqb_refl. destruct (Nat.eqb_spec j i); [congruence|auto].
    - rewrite nth_set_nth_other by auto. destruct (Nat.eq_dec k i) as [->|N2].
      + rewrite nth_set_nth_same by (rewrite map_length, seq_length; auto). now rewrite Nat.eqb_refl.
      + rewrite nth_set_nth_other by auto. rewrite nth_map_seq by auto.
        destruct (Nat.eqb_spec k i); [congruence|]. destruct (Nat.eqb_spec k j); [congruence|auto]. }
  assert (Sn : forall k d, nth_error (h_dims x) k = Some d -> nth k (h_shape x) 0 = length (d_data d)).
  { intros k d Hk. pose proof (labels_nth x k d Hl Hk) as Q. now apply nth_error_nth with (d := 0) in Q. }
  rewrite <- (Sn i di E), <- (Sn j dj E0).
  rewrite <- (G (map (fun k => nth k (h_shape x) 0) (seq 0 (h_ndim x))) (fun k => nth k (h_shape x) 0) (h_ndim x)); auto.
  (* the other entries are those of the transposed dimensions *)
  apply list_nth_ext; [rewrite !set_nth_length, !map_length; auto|].
  intros k Hk. rewrite !set_nth_length, map_length, seq_length in Hk.
  destruct (Nat.eq_dec k j) as [->|N1].
  { rewrite !nth_set_nth_same by (rewrite ?set_nth_length, map_length, seq_length; auto). auto. }
  rewrite !nth_set_nth_other with (k := j) by auto.
  destruct (Nat.eq_dec k i) as [->|N2].
  { rewrite !nth_set_nth_same by (rewrite map_length, seq_length; auto). auto. }
  rewrite !nth_set_nth_other by auto. rewrite !nth_map_seq by auto. unfold swap_nat.
  destruct (Nat.eqb_spec k i); [congruence|]. destruct (Nat.eqb_spec k j); [congruence|].
  symmetry. apply Sn. rewrite nth_error_nth' with (d := dim0); auto. now rewrite Hn.
Qed.

(** Squeezing *)
Lemma mask_drop_le : forall {X} m (l : list X), length (mask_drop m l) <= length l.
Proof. intros X m l. revert m. induction l as [|x l IH]; intros [|b m]; simpl; try lia. specialize (IH m). destruct b; simpl; lia. Qed.

Lemma mask_eq : forall {X} (m1 m2 : list bool) (l : list X), length m1 = length l -> length m2 = length l ->
  (forall k, nth k m1 false = true -> nth k m2 false = true) ->
  length (mask_drop m1 l) = length (mask_drop m2 l) -> m1 = m2.
Proof.
  intros X m1 m2 l. revert m1 m2. 
  assert (Le : forall (l : list X) m1 m2, length m1 = length l -> length m2 = length l ->
    (forall k, nth k m1 false = true -> nth k m2 false = true) -> length (mask_drop m2 l) <= length (mask_drop m1 l)).
  { clear l. induction l as [|x l IH]; intros [|b1 m1] [|b2 m2] L1 L2 H; simpl in *; try lia.
    assert (K : length (mask_drop m2 l) <= length (mask_drop m1 l)) by (apply IH; try lia; intros k; apply (H (S k))).
    specialize (H 0). simpl in H. destruct b1, b2; simpl; try lia. }
  induction l as [|x l IH]; intros [|b1 m1] [|b2 m2] L1 L2 H HE; simpl in *; try lia; auto.
  assert (K : length (mask_drop m2 l) <= length (mask_drop m1 l)) by (apply Le; try lia; intros k; apply (H (S k))).
  pose proof (H 0) as H0. simpl in H0.
  assert (b1 = b2).
  { destruct b1, b2; simpl in *; auto; [specialize (H0 eq_refl); discriminate|lia]. }
  subst b2. f_equal. apply IH; try lia; [intros k; apply (H (S k))|]. destruct b1; simpl in HE; lia.
Qed.

Lemma mapM_In : forall {X Y} (f : X -> result Y) l ys x, mapM f l = Ok ys -> In x l -> exists y, f x = Ok y /\ In y ys.
Proof.
  intros X Y f l ys x H Hin. apply In_nth_error in Hin as [i Hi].
  destruct (mapM_nth f l ys i x H Hi) as [y [H1 H2]]. exists y. split; auto. eapply nth_error_In; eauto.
Qed.

Lemma py_pos_of_nat : forall n k p, py_pos n (Z.of_nat k) = Some p -> p = k.
Proof.
  intros n k p H. apply int_position_py in H as [H1 [H2|H2]]; lia.
Qed.

Lemma drop_zaxes_eq : forall {X} (l : list X) zs axs n, length l = n -> mapM (np_axis n) zs = Ok axs ->
  length (drop_zaxes zs l) = length (mask_drop (axes_mask n axs) (repeat 0 n)) ->
  map (fun k => zmemb (Z.of_nat k) zs) (seq 0 (length l)) = axes_mask n axs.
Proof.
  intros X l zs axs n L H HL. subst n. apply mask_eq with (l := l).
  - now rewrite map_length, seq_length.
  - apply axes_mask_length.
  - intros k Hk. destruct (lt_dec k (length l)) as [Lk|Lk].
    2:{ rewrite nth_overflow in Hk; [discriminate|]. rewrite map_length, seq_length. lia. }
    rewrite nth_map_seq in Hk by auto. rewrite axes_mask_nth by auto.
    unfold zmemb in Hk. apply existsb_exists in Hk as [z [Hz E]]. apply Z.eqb_eq in E. subst z.
    destruct (mapM_In _ _ _ _ H Hz) as [p [Hp Ip]]. unfold np_axis in Hp.
    destruct (py_pos (length l) (Z.of_nat k)) eqn:Ep; simpl in Hp; [|discriminate]. injection Hp as <-.
    apply py_pos_of_nat in Ep. subst n. now apply memb_In.
  - unfold drop_zaxes in HL. rewrite HL. 
    assert (G : forall (Y Z : Type) m (a : list Y) (b : list Z), length a = length b -> length (mask_drop m a) = length (mask_drop m b)).
    { intros Y Z m a. revert m. induction a as [|y a IH]; intros [|c m] [|z b] Q; simpl in *; try lia.
      destruct c; simpl; [|f_equal]; apply IH; lia. }
    apply G. now rewrite repeat_length.
Qed.

Lemma mask_drop_length_ext : forall {Y Z} m (a : list Y) (b : list Z), length a = length b ->
  length (mask_drop m a) = length (mask_drop m b).
Proof.
  intros Y Z m a. revert m. induction a as [|y a IH]; intros [|c m] [|z b] Q; simpl in *; try lia.
  destruct c; simpl; [|f_equal]; apply IH; lia.
Qed.

Lemma prodn_drop_ones : forall m sh, length m = length sh ->
  (forall k, k < length sh -> nth k m false = true -> nth k sh 0 = 1) -> prodn (mask_drop m sh) = prodn sh.
Proof.
  intros m sh L H. apply (drop_ones_ravel m sh (map (fun _ => 0) sh) L); [now rewrite map_length|].
  intros k Hk Hm. split; auto. clear. revert k. induction sh; intros [|k]; simpl; auto.
Qed.

(** [ds] are dimensions whose lengths agree with the shape except where it is
    one and the dimension is dropped. *)
Lemma squeeze_tracks : forall {A} (x y : hf A) zs, nd_wf (h_nd x) -> length (h_dims x) = h_ndim x ->
  (forall k d, nth_error (h_dims x) k = Some d -> nth k (h_shape x) 0 <> 1 -> length (d_data d) = nth k (h_shape x) 0) ->
  (forall l k d, zs = Some l -> nth_error (h_dims x) k = Some d -> length (d_data d) = nth k (h_shape x) 0
      \/ exists z, In z l /\ np_axis (h_ndim x) z = Ok k) ->
  squeeze_z zs x = Ok y -> tracks y.
Proof.
  intros A x y zs Hw Hn Hlen Hz H. unfold squeeze_z in H.
  assert (Core : forall m, length m = h_ndim x ->
     (forall k, k < h_ndim x -> nth k m false = true -> nth k (h_shape x) 0 = 1) ->
     (forall k d, nth_error (h_dims x) k = Some d -> nth k m false = false -> length (d_data d) = nth k (h_shape x) 0) ->
     nd_wf (mkNd (mask_drop m (h_shape x)) (nd_elems (h_nd x))) /\
     lens (mask_drop m (h_dims x)) = mask_drop m (h_shape x)).
  { intros m Lm H1 H2. split.
    - unfold nd_wf. simpl. rewrite prodn_drop_ones; auto.
    - unfold h_ndim in *. fold (h_shape x) in *. clear -Lm Hn H2. revert m Lm Hn H2. generalize (h_shape x) as sh. generalize (h_dims x) as ds.
      induction ds as [|d ds IH]; intros [|n sh] [|b m] Lm Hn H2; simpl in *; try lia; auto.
      destruct b.
      + apply IH; auto. intros k d' Hk Hm. apply (H2 (S k) d'); auto.
      + simpl. f_equal; [apply (H2 0 d); auto|]. apply IH; auto. intros k d' Hk Hm. apply (H2 (S k) d'); auto. }
  destruct zs as [zs|].
  - inv_bind H. rename a into axs. inv_bind H. rename a into b.
    unfold nd_squeeze in E0. destruct (forallb _ axs) eqn:F; [|discriminate]. injection E0 as <-.
    apply new_from_inv in H as [HL [Hnd Hds]]. simpl in HL.
    unfold np_axes in E. inv_bind E. destruct (nodupb a); [|discriminate]. injection E as <-. rename a into axs.
    change (length (nd_shape (h_nd x))) with (h_ndim x) in *.
    pose proof (drop_zaxes_eq (h_dims x) zs axs (h_ndim x) Hn E0) as Q.
    assert (HL2 : length (mask_drop (axes_mask (h_ndim x) axs) (nd_shape (h_nd x))) =
      length (mask_drop (axes_mask (h_ndim x) axs) (repeat 0 (h_ndim x)))) by (apply mask_drop_length_ext; now rewrite repeat_length).
    specialize (Q (eq_trans HL HL2)).
    unfold drop_zaxes in Hds. rewrite Q in Hds.
    rewrite forallb_forall in F.
    destruct (Core (axes_mask (h_ndim x) axs)) as [C1 C2].
    + apply axes_mask_length.
    + intros k Hk Hm. rewrite axes_mask_nth in Hm by auto. apply memb_In in Hm.
      apply F in Hm. now apply Nat.eqb_eq in Hm.
    + intros k d Hk Hm. destruct (Hz zs k d eq_refl Hk) as [G|[z [Iz Nz]]]; auto.
      assert (Lk : k < h_ndim x) by (rewrite <- Hn; apply nth_error_Some; congruence).
      rewrite axes_mask_nth in Hm by auto. apply memb_false in Hm. exfalso. apply Hm.
      destruct (mapM_In _ _ _ _ E0 Iz) as [p [Hp Ip]]. rewrite Nz in Hp. injection Hp as <-. auto.
    + eapply tracks_new; eauto.
  - inv_bind H. rename a into b. unfold nd_squeeze in E. destruct (forallb _ (axes_of_one (h_shape x))) eqn:F; [|discriminate].
    injection E as <-. apply new_from_inv in H as [HL [Hnd Hds]].
    unfold h_shape in Hnd. rewrite axes_of_one_mask in Hnd. fold (h_shape x) in Hnd. unfold drop_ones in Hds.
    destruct (Core (map (fun n => Nat.eqb n 1) (h_shape x))) as [C1 C2].
    + now rewrite map_length.
    + intros k Hk Hm. rewrite nth_indep with (d' := Nat.eqb 0 1) in Hm by (rewrite map_length; exact Hk).
      rewrite (map_nth (fun n => Nat.eqb n 1)) in Hm. now apply Nat.eqb_eq in Hm.
    + intros k d Hk Hm. assert (Lk : k < h_ndim x) by (rewrite <- Hn; apply nth_error_Some; congruence).
      rewrite nth_indep with (d' := Nat.eqb 0 1) in Hm by (rewrite map_length; exact Lk).
      rewrite (map_nth (fun n => Nat.eqb n 1)) in Hm. apply Nat.eqb_neq in Hm. apply Hlen; auto.
    + eapply tracks_new; eauto.
Qed.

Lemma squeeze_z_tracks : forall {A} (x y : hf A) zs, tracks x -> squeeze_z zs x = Ok y -> tracks y.
Proof.
  intros A x y zs [Hw Hl] H. pose proof (wf_ndim x Hl) as Hn.
  assert (S : forall k d, nth_error (h_dims x) k = Some d -> length (d_data d) = nth k (h_shape x) 0).
  { intros k d Hk. pose proof (labels_nth x k d Hl Hk) as Q. apply nth_error_nth with (d := 0) in Q. auto. }
  eapply squeeze_tracks; eauto.
Qed.

Lemma reduce_tracks : forall {A B} (f : list A -> B) rt axes de (x : hf A) (y : hf B), tracks x ->
  reduce f rt axes false de x = Ok (inl y) -> tracks y.
Proof.
  intros A B f rt axes de x y [Hw Hl] H. pose proof (wf_ndim x Hl) as Hn. unfold reduce in H.
  destruct (multiple_axis_handler (h_dims x) axes) as [zs|e] eqn:E; [|destruct e, de; discriminate].
  assert (S : forall k d, nth_error (h_dims x) k = Some d -> length (d_data d) = nth k (h_shape x) 0).
  { intros k d Hk. pose proof (labels_nth x k d Hl Hk) as Q. apply nth_error_nth with (d := 0) in Q. auto. }
  inv_bind H. rename a into axs. inv_bind H. rename a into r. inv_bind H. injection H as <-.
  apply new_raw_inv in E1 as [R1 [R2 R3]].
  assert (Rs : h_shape r = mask_set (axes_mask (h_ndim x) axs) 1 (h_shape x)) by (unfold h_shape at 1; now rewrite R2).
  assert (Rn : h_ndim r = h_ndim x).
  { unfold h_ndim. change (nd_shape (h_nd r)) with (h_shape r). rewrite Rs. rewrite mask_set_length; [reflexivity|apply axes_mask_length]. }
  eapply squeeze_tracks in E2; eauto.
  - rewrite R2. apply nd_reduce_wf.
  - rewrite R3, Rn. auto.
  - intros k d Hk. rewrite R3 in Hk. rewrite Rs.
    assert (Lk : k < h_ndim x) by (rewrite <- Hn; apply nth_error_Some; congruence).
    rewrite mask_set_nth; [|apply axes_mask_length|exact Lk].
    destruct (nth k (axes_mask (h_ndim x) axs) false); [congruence|]. intros _. auto.
  - intros l k d -> Hk. rewrite R3 in Hk. rewrite Rs, Rn.
    assert (Lk : k < h_ndim x) by (rewrite <- Hn; apply nth_error_Some; congruence).
    rewrite mask_set_nth; [|apply axes_mask_length|exact Lk].
    destruct (nth k (axes_mask (h_ndim x) axs) false) eqn:M; [|left; auto].
    right. rewrite axes_mask_nth in M by auto. apply memb_In in M. apply In_nth_error in M as [i Hi].
    unfold np_axes in E0. inv_bind E0. destruct (nodupb a0); [|discriminate]. injection E0 as ->.
    assert (Li : i < length l).
    { rewrite <- (mapM_length _ _ _ E1). apply nth_error_Some. congruence. }
    destruct (nth_error l i) as [z|] eqn:Ez; [|apply nth_error_None in Ez; lia].
    exists z. split; [eapply nth_error_In; eauto|].
    destruct (mapM_nth _ _ _ _ _ E1 Ez) as [p [Hp Q]]. congruence.
Qed.

Lemma reduce_inr : forall {A B} (f : list A -> B) rt axes kd de (x y : hf A), 
  reduce f rt axes kd de x = Ok (inr y) -> y = x.
Proof.
  intros A B f rt axes kd de x y H. unfold reduce in H.
  destruct (multiple_axis_handler (h_dims x) axes) as [zs|e].
  - inv_bind H. inv_bind H. destruct kd; [discriminate|]. inv_bind H. discriminate.
  - destruct e; try discriminate. destruct de; [discriminate|]. now injection H as ->.
Qed.

(** Indexing *)
Lemma index_indexed : forall ds l sel ds', index_dims ds l = Ok ds' -> axis_selection (lens ds) l = Ok sel ->
  indexed ds l sel ds'.
Proof.
  induction ds as [|d ds IH]; intros l sel ds' H1 H2.
  - destruct l; simpl in *; [|discriminate]. injection H1 as <-. injection H2 as <-. constructor.
  - destruct l as [|[i|s|] l]; simpl in *; try discriminate.
    + inv_bind H2. inv_bind H2. injection H2 as <-. constructor; auto.
      unfold of_option in E. destruct (py_pos _ i) eqn:Ep; [|discriminate]. injection E as <-.
      now apply int_position_py.
    + inv_bind H2. inv_bind H2. injection H2 as <-. inv_bind H1. inv_bind H1. injection H1 as <-.
      rename a into ps, a1 into d'.
      assert (St : slice_step s <> 0%Z).
      { intros Q. unfold slice_positions in E. unfold slice_step in Q. rewrite Q in E. discriminate. }
      destruct (slice_positions_ok (length (d_data d)) s St) as [ps' [P1 P2]].
      assert (ps' = ps) by congruence. subst ps'.
      constructor; auto.
      unfold dim_getslice in E1. destruct (slice_eqb s full_slice) eqn:Q.
      * apply slice_eqb_full in Q. subst s. injection E1 as <-. apply full_slice_selects in P2. subst ps.
        split; auto. split; auto. rewrite seq_length. split; auto. intros k Hk. now rewrite seq_nth.
      * rewrite E in E1. cbn [bind] in E1. inv_bind E1. injection E1 as <-.
        destruct (select_ok (d_data d) ps) as [S1 S2].
        { intros p Hp. eapply slice_selects_lt; eauto. }
        split; auto.
Qed.

Lemma getitem_tracks : forall {A} (x y : hf A) l, tracks x -> getitem l x = Ok (ItemArray y) -> tracks y.
Proof.
  intros A x y l [Hw Hl] H. unfold getitem in H. inv_bind H. inv_bind H. inv_bind H.
  rename a into l', a0 into ds', a1 into b.
  destruct (forallb is_int l && Nat.eqb (length l) (h_ndim x)).
  { destruct (nd_elems b) as [|v [|w r]]; discriminate. }
  inv_bind H. injection H as <-. apply new_from_inv in E2 as [HL [Hnd Hds]].
  unfold nd_getitem in E1. inv_bind E1. injection E1 as <-. rename a0 into sel.
  change (nd_shape (h_nd x)) with (h_shape x) in E2. unfold labels_match in Hl. rewrite <- Hl in E2.
  pose proof (index_indexed _ _ _ _ E0 E2) as Hi.
  eapply tracks_new; eauto.
  - apply nd_tab_wf. intros ix Hix. apply nd_get_not_none; auto.
    change (nd_shape (h_nd x)) with (h_shape x). rewrite <- Hl. eapply indexed_inb; eauto.
  - simpl. eapply indexed_shape; eauto.
Qed.

Lemma nd_take_wf : forall {A} idx k (a b : nd A), nd_wf a -> k < length (nd_shape a) -> nd_take idx k a = Ok b ->
  nd_wf b /\ nd_shape b = set_nth k (length idx) (nd_shape a).
Proof.
  intros A idx k a b Hw Hk H. unfold nd_take in H. destruct (forallb _ idx) eqn:F; [|discriminate]. injection H as <-.
  split; [|reflexivity]. apply nd_tab_wf. intros ix Hix. apply nd_get_not_none; auto.
  rewrite forallb_forall in F.
  pose proof (proj1 (inb_nth _ _) Hix) as [L P]. rewrite set_nth_length in L, P.
  assert (Pk : nth k ix 0 < length idx).
  { specialize (P k Hk). rewrite nth_set_nth_same in P by auto. auto. }
  apply inb_nth. rewrite set_nth_length. split; auto. intros j Hj.
  destruct (Nat.eq_dec j k) as [->|N].
  - rewrite nth_set_nth_same by lia. apply Nat.ltb_lt. apply F. apply nth_In. auto.
  - rewrite nth_set_nth_other by auto. specialize (P j Hj). rewrite nth_set_nth_other in P by auto. auto.
Qed.

Lemma take_tracks : forall {A} (x y : hf A) idx ax, tracks x -> take idx ax x = Ok y -> tracks y.
Proof.
  intros A x y idx ax [Hw Hl] H. unfold take in H. inv_bind H. inv_bind H. inv_bind H. inv_bind H. inv_bind H. inv_bind H.
  injection H as <-. rename a0 into k, a1 into old, a3 into ps, a4 into b.
  assert (Lk : k < length (nd_shape (h_nd x))).
  { unfold of_option in E2. destruct (nth_error (h_shape x) k) eqn:Q; [|discriminate]. apply nth_error_Some.
    unfold h_shape in Q. congruence. }
  destruct (nd_take_wf _ _ _ _ Hw Lk E4) as [W S]. split; [exact W|].
  unfold labels_match. simpl. unfold h_shape. simpl. rewrite S, map_set_nth. simpl. rewrite map_length.
  unfold labels_match in Hl. rewrite Hl. rewrite (mapM_length _ _ _ E3). reflexivity.
Qed.

Lemma getmask_tracks : forall {A} (m : hf bool) (x y : hf A), tracks x -> getmask m x = Ok y -> tracks y.
Proof.
  intros A m x y Ht H. unfold getmask in H. destruct (h_dims m) as [|md [|? ?]]; try discriminate.
  inv_bind H. rename a into y1. inv_bind H. rename a into n.
  set (k := length _) in *.
  destruct (Nat.eqb_spec (length (nd_elems (h_nd m))) n) as [L1|]; [|discriminate]. cbn [negb] in H.
  destruct (Nat.eqb_spec (length (d_data md)) (length (nd_elems (h_nd m)))) as [L2|]; [|discriminate]. cbn [negb] in H.
  inv_bind H. rename a into b. apply new_from_inv in H as [HL [Hnd Hds]].
  apply reorder_tracks in E; auto. destruct E as [W1 M1].
  unfold of_option in E0. destruct (nth_error (h_shape y1) k) eqn:Q; [|discriminate]. injection E0 as ->.
  assert (Lk : k < length (nd_shape (h_nd y1))) by (apply nth_error_Some; unfold h_shape in Q; congruence).
  destruct (nd_take_wf _ _ _ _ W1 Lk E1) as [W S].
  assert (Ld : k < length (h_dims y1)) by (rewrite (wf_ndim y1 M1); exact Lk).
  cbn [app] in Hds. rewrite <- set_nth_firstn in Hds by auto.
  eapply tracks_new; eauto. unfold lens. rewrite map_set_nth. cbn [d_data].
  unfold labels_match in M1. rewrite M1. rewrite S.
  destruct (select_ok (d_data md) (true_positions (nd_elems (h_nd m)))) as [S1 S2].
  { intros p Hp. apply true_positions_spec in Hp. rewrite L2. apply nth_error_Some. congruence. }
  rewrite S1. reflexivity.
Qed.

Lemma nd_cum_wf : forall {A} (op : A -> A -> A) k (a : nd A), nd_wf a -> k < length (nd_shape a) -> nd_wf (nd_cum op k a).
Proof.
  intros A op k a Hw Hk. apply nd_tab_wf. intros ix Hix.
  pose proof (proj1 (inb_nth _ _) Hix) as [L P].
  assert (S : forall i, i <= nth k ix 0 -> nd_get a (set_nth k i ix) <> None).
  { intros i Hi. apply nd_get_not_none; auto. apply inb_nth. rewrite set_nth_length. split; auto.
    intros j Hj. specialize (P j Hj). destruct (Nat.eq_dec j k) as [->|N].
    - rewrite nth_set_nth_same by lia. lia.
    - rewrite nth_set_nth_other by auto. auto. }
  simpl. specialize (S 0 (Nat.le_0_l _)). destruct (nd_get a (set_nth k 0 ix)); [|congruence]. simpl. discriminate.
Qed.

Lemma cumulate_tracks : forall {A} (op : A -> A -> A) ax (x y : hf A), tracks x -> cumulate op ax x = Ok y -> tracks y.
Proof.
  intros A op ax x y [Hw Hl] H. unfold cumulate in H. inv_bind H. inv_bind H. apply new_raw_inv in H as [H1 [H2 H3]].
  eapply tracks_new; eauto.
  - apply nd_cum_wf; auto. apply dims_index_at in E0 as [d [E0 _]].
    change (length (nd_shape (h_nd x))) with (h_ndim x). rewrite <- (wf_ndim x Hl). apply nth_error_Some. congruence.
Qed.

Lemma nd_insert_wf : forall {A} n k (a : nd A), nd_wf a -> k <= length (nd_shape a) -> nd_wf (nd_insert n k a).
Proof.
  intros A n k a Hw Hk. apply nd_tab_wf. intros ix Hix. apply nd_get_not_none; auto. eapply inb_remove_insert; eauto.
Qed.

Lemma add_dim_tracks : forall {A} d axis (x y : hf A), tracks x -> d_data d <> [] -> add_dim d axis x = Ok y -> tracks y.
Proof.
  intros A d axis x y Ht Hd H. pose proof Ht as [Hw Hl]. unfold add_dim in H.
  destruct (dims_contains (h_dims x) d); [injection H as <-; auto|].
  apply new_raw_inv in H as [H1 [H2 H3]]. eapply tracks_new; eauto.
  - apply nd_insert_wf; auto. unfold h_ndim. lia.
  - unfold lens. rewrite insert_at_map. unfold labels_match in Hl. rewrite Hl. simpl. f_equal.
    destruct (Nat.ltb_spec 1 (length (d_data d))); auto. destruct (d_data d) as [|? [|? ?]]; simpl in *; try congruence; lia.
Qed.

Lemma strided_assign_length : forall {A} (buf : list A) sh st src, length (strided_assign buf sh st src) = length buf.
Proof.
  intros A buf sh st src. unfold strided_assign. generalize (indices sh) as l. intros l. revert buf.
  induction l as [|ix l IH]; intros buf; simpl; auto. rewrite IH. destruct (nd_get src ix); auto. apply set_nth_length.
Qed.

Lemma expand_diagonal_tracks : forall {A} (zero : A) d (x y : hf A), tracks x -> expand_diagonal zero d x = Ok y -> tracks y.
Proof.
  intros A zero d x y [Hw Hl] H. unfold expand_diagonal in H.
  destruct (negb _); [discriminate|]. destruct (negb _); [discriminate|].
  inv_bind H. inv_bind H. inv_bind H. inv_bind H. rename a into p, a0 into d0, a1 into di, a2 into dd.
  inv_bind H. rename a into out. inv_bind H.
  destruct (list_eqb _ _ _); [|discriminate]. injection H as <-.
  apply new_raw_inv in E3 as [R1 [R2 R3]].
  assert (Ddi : d_data di = d_data d0).
  { unfold indep_axis in E1. inv_bind E1. unfold recast in E1. inv_bind E1. injection E1 as <-. auto. }
  assert (Ddd : d_data dd = d_data d0).
  { unfold deriv_axis in E2. inv_bind E2. unfold recast in E2. inv_bind E2. injection E2 as <-. auto. }
  split.
  - unfold nd_wf. cbn [h_nd nd_elems nd_shape]. rewrite strided_assign_length. apply repeat_length.
  - unfold labels_match. unfold h_shape at 1. cbn [h_nd h_dims nd_shape]. rewrite R3.
    rewrite map_app, map_app. rewrite <- firstn_map, <- skipn_map. unfold labels_match in Hl. rewrite Hl. cbn [map].
    rewrite Ddd, Ddi. reflexivity.
Qed.

Lemma expand_diagonals_tracks : forall {A} (zero : A) ds (x y : hf A), tracks x -> expand_diagonals zero ds x = Ok y -> tracks y.
Proof.
  intros A zero ds x y Ht H. unfold expand_diagonals in H.
  revert H. generalize (match ds with Some l => l | None => filter (fun d => subclass (d_class d) CDiagAxis0) (h_dims x) end) as l.
  intros l. revert x Ht. induction l as [|d l IH]; intros x Ht H; simpl in H; [injection H as <-; auto|].
  destruct (expand_diagonal zero d x) as [x1|e] eqn:E.
  - apply IH with (x := x1); auto. eapply expand_diagonal_tracks; eauto.
  - exfalso. clear -H. induction l as [|d' l IH]; simpl in H; [discriminate|auto].
Qed.

Lemma nd_reshape_inv : forall {A} sh (a b : nd A), nd_wf a -> nd_reshape sh a = Ok b -> nd_wf b /\ nd_shape b = sh.
Proof.
  intros A sh a b Hw H. unfold nd_reshape in H. destruct (Nat.eqb_spec (prodn sh) (prodn (nd_shape a))) as [E|]; [|discriminate].
  injection H as <-. split; auto. unfold nd_wf in *. simpl. congruence.
Qed.

Lemma last2_map : forall {X Y} (f : X -> Y) l, map f (last2 l) = last2 (map f l).
Proof. intros. unfold last2. now rewrite map_length, skipn_map. Qed.

Lemma remove_tail_tracks : forall {A} (x y : hf A), tracks x -> remove_tail x = Ok y -> tracks y.
Proof.
  intros A x y [Hw Hl] H. unfold remove_tail in H. destruct (h_shape x) as [|n0 sh'] eqn:Sx; [discriminate|].
  inv_bind H. inv_bind H. rename a into b, a0 into d0. destruct (nd_reshape_inv _ _ _ Hw E) as [Wb Sb].
  unfold labels_match in Hl. rewrite Sx in Hl.
  destruct (h_dims x) as [|d ds] eqn:Dx; [discriminate|]. simpl in E0. injection E0 as <-. simpl in Hl. injection Hl as Hn0 Hds.
  apply new_raw_inv in H as [R1 [R2 R3]].
  eapply tracks_new; eauto. rewrite Sb. destruct (ismatrix x).
  - unfold lens. rewrite <- Hds, <- Hn0.
    change (length (d_data d) :: map (fun d1 => length (d_data d1)) ds) with (map (fun d1 => length (d_data d1)) (d :: ds)).
    rewrite <- last2_map. cbn [map nth d_data]. rewrite range_labels_length. reflexivity.
  - cbn [lens map nth d_data]. rewrite range_labels_length. now rewrite Hn0.
Qed.

Lemma remove_rep_tracks : forall {A} n (x y : hf A), tracks x -> remove_rep n x = Ok y -> tracks y.
Proof.
  intros A n x y Ht H. pose proof Ht as [Hw Hl]. unfold remove_rep in H. destruct (class_positions CDimRep 0 (h_dims x)) as [|p ps].
  - apply new_from_inv in H as [R1 [R2 R3]]. eapply tracks_new; eauto.
  - inv_bind H. inv_bind H. rename a0 into b. destruct (nd_reshape_inv _ _ _ Hw E0) as [Wb Sb].
    apply new_raw_inv in H as [R1 [R2 R3]]. eapply tracks_new; eauto. rewrite Sb. unfold lens.
    rewrite !map_app, <- firstn_map, <- skipn_map. unfold labels_match in Hl. rewrite Hl. cbn [map d_data]. now rewrite range_labels_length.
Qed.

Lemma fullcomplex_tracks : forall {A} (E : elops A) (x y : hf A), tracks x -> make_fullcomplex E x = Ok y -> tracks y.
Proof.
  intros A E x y Ht H. pose proof Ht as [Hw Hl]. unfold make_fullcomplex in H. destruct (isfullcomplex x); [injection H as <-; auto|].
  apply new_raw_inv in H as [R1 [R2 R3]]. eapply tracks_new; eauto.
  - apply nd_tab_wf. intros ix Hix.
    assert (G : nd_get (h_nd x) (firstn (h_ndim x) ix) <> None).
    { apply nd_get_not_none; auto. pose proof (inb_length _ _ Hix) as L.
      rewrite <- (firstn_skipn (h_ndim x) ix) in Hix. rewrite inb_app in Hix.
      - apply andb_prop in Hix as [Q _]. exact Q.
      - rewrite firstn_length, L. unfold h_shape, h_ndim. rewrite app_length. simpl. lia. }
    destruct (nd_get (h_nd x) (firstn (h_ndim x) ix)); simpl; congruence.
  - unfold lens. rewrite map_app. unfold labels_match in Hl. rewrite Hl. reflexivity.
Qed.

Lemma wf_tracks : forall {A} (x : hf A), wf x -> tracks x.
Proof. intros A x [H1 [H2 _]]. split; auto. Qed.

Lemma step_tracks : forall {A} (x y : hf A), step x y -> tracks x -> tracks y.
Proof.
  intros A x y H Ht. destruct H.
  - eapply transpose_tracks; eauto.
  - eapply reorder_tracks; eauto.
  - eapply mat_t_tracks; eauto.
  - unfold squeeze in H. inv_bind H. eapply squeeze_z_tracks; eauto.
  - eapply getitem_tracks; eauto.
  - eapply getmask_tracks; eauto.
  - eapply take_tracks; eauto.
  - eapply reduce_tracks; eauto.
  - apply reduce_inr in H. now subst.
  - eapply cumulate_tracks; eauto.
  - eapply add_dim_tracks; eauto.
  - eapply expand_diagonals_tracks; eauto.
  - eapply remove_tail_tracks; eauto.
  - eapply remove_rep_tracks; eauto.
  - destruct Ht as [Hw Hl]. split; auto. unfold nd_wf in *. simpl. now rewrite map_length.
  - eapply fullcomplex_tracks; eauto.
  - destruct (binop_ok E rt op x z H H0 H1 H2) as [r [R1 [R2 _]]]. rewrite H3 in R1. injection R1 as <-. now apply wf_tracks.
  - destruct (binop_ok E rt op z x H0 H H1 H2) as [r [R1 [R2 _]]]. rewrite H3 in R1. injection R1 as <-. now apply wf_tracks.
Qed.

Lemma runs_tracks : forall {A} (x y : hf A), runs x y -> tracks x -> tracks y.
Proof. intros A x y H. induction H; auto. intros Ht. apply IHruns. eapply step_tracks; eauto. Qed.
