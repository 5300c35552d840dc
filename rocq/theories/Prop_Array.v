(** Properties of arrays with named dimensions: C01-C15.

    The statements use the vocabulary of Spec_Array.v: [val x e] is the value
    of [x] at the assignment [e] of positions to dimensions. *)
From Coq Require Import String List Arith ZArith Bool Lia Permutation Ring_theory Ring.
From Verif Require Import Model_NdArray Model_Dim Model_Array Spec_Array
  Proofs_Array Proofs_Array2 Proofs_Array3 Proofs_Array4 Proofs_Array5 Proofs_Array6
  Proofs_Array7 Proofs_Array8 Proofs_Dim.
Import ListNotations.
Local Open Scope nat_scope.
Local Open Scope string_scope.
Local Open Scope list_scope.

(** ** Material for the examples *)
Ltac nodup_lit := vm_compute; repeat (apply NoDup_nil || (apply NoDup_cons; [simpl; intuition congruence|])).
Ltac wf_lit := split; [reflexivity|split; [reflexivity|nodup_lit]].
Ltac all_in := repeat match goal with
  | H : In _ _ |- _ => simpl in H
  | H : _ \/ _ |- _ => destruct H as [H|H]
  | H : False |- _ => destruct H
  end; subst.
Ltac coherent_lit := intros ?d ?d' ? ? ? ?; all_in; simpl in *; try discriminate; auto.

Definition dF : dim := mkDim CDimSweep "freq" [LZ 10; LZ 20] (Some "Hz") None.
Definition dR : dim := mkDim CDimRep "rep" [LZ 0; LZ 1; LZ 2] None None.
Definition dV : dim := mkDim CDimSweep "V" [LZ 5; LZ 6] None None.
Definition dI : dim := mkDim CMatrix_i "i" [LZ 0; LZ 1] None None.
Definition dJ : dim := mkDim CMatrix_j "j" [LZ 0; LZ 1; LZ 2] None None.
Definition dR2 : dim := mkDim CDimRep "rep2" [LZ 7; LZ 8] None None.

Definition arr (ds : list dim) : hf Z :=
  let sh := map (fun d => length (d_data d)) ds in
  mkHF (mkNd sh (map Z.of_nat (seq 0 (prodn sh)))) DFloat ds (Some "V") "%.16e".
Definition xFR := arr [dF; dR].
Definition xRV := arr [dR; dV].
Definition xM := arr [dF; dI; dJ].
Definition elZ : elops Z := mkElops Z 0%Z (fun v => v) (fun _ => 0%Z) Z.opp.
Definition at_ (l : list (dimclass * string * nat)) : assignment :=
  fun k => match find (fun p => class_eqb (fst (fst p)) (fst k) && String.eqb (snd (fst p)) (snd k)) l with
           | Some p => snd p | None => 0 end.

(** ** C01 *)
Theorem C01_binop_aligned : forall {A} (E : elops A) rt op (x y : hf A),
  wf x -> wf y -> coherent (h_dims x ++ h_dims y) -> isfullcomplex x = isfullcomplex y ->
  exists r, binop E rt op x y = Ok r /\ wf r /\
    (forall e, valid e (h_dims r) ->
      exists v w, val x e = Some v /\ val y e = Some w /\ val r e = Some (op v w)).
Proof.
  intros A E rt op x y Hx Hy Hc Hf. destruct (binop_ok E rt op x y Hx Hy Hc Hf) as [r [R1 [R2 [_ [_ [_ [_ R3]]]]]]].
  eauto.
Qed.
Print Assumptions C01_binop_aligned.

Example C01_example : wf xFR /\ wf xRV /\ coherent (h_dims xFR ++ h_dims xRV) /\
  isfullcomplex xFR = isfullcomplex xRV /\
  exists r, binop elZ (fun t _ => t) Z.sub xFR xRV = Ok r /\
    val r (at_ [(CDimSweep, "freq", 1); (CDimRep, "rep", 2); (CDimSweep, "V", 1)]) = Some (5 - 5)%Z /\
    val r (at_ [(CDimSweep, "freq", 1); (CDimRep, "rep", 0); (CDimSweep, "V", 1)]) = Some (3 - 1)%Z.
Proof.
  split; [wf_lit|]. split; [wf_lit|]. split; [coherent_lit|]. split; [reflexivity|].
  eexists. split; [vm_compute; reflexivity|]. split; reflexivity.
Qed.

(** ** C02 *)
Theorem C02_binop_dims : forall {A} (E : elops A) rt op (x y r : hf A),
  wf x -> wf y -> coherent (h_dims x ++ h_dims y) -> isfullcomplex x = isfullcomplex y ->
  binop E rt op x y = Ok r ->
  is_union (h_dims x) (h_dims y) (h_dims r) /\ NoDup (map key (h_dims r)) /\ h_unit r = h_unit x.
Proof.
  intros A E rt op x y r Hx Hy Hc Hf H. destruct (binop_ok E rt op x y Hx Hy Hc Hf) as [r' [R1 [R2 [R3 [R4 _]]]]].
  rewrite H in R1. injection R1 as <-. split; [|split; [apply R2|auto]].
  rewrite R3. apply dims_union_spec; auto. apply Hy.
Qed.
Print Assumptions C02_binop_dims.

Example C02_example : exists r, binop elZ (fun t _ => t) Z.add (arr [dR; dJ]) (arr [dI; dR; dF]) = Ok r /\
  wf (arr [dR; dJ]) /\ wf (arr [dI; dR; dF]) /\ coherent ([dR; dJ] ++ [dI; dR; dF]) /\
  h_dims r = [dF; dR; dI; dJ].
Proof. eexists. split; [vm_compute; reflexivity|]. split; [wf_lit|]. split; [wf_lit|]. split; [coherent_lit|reflexivity]. Qed.

(** ** C03 *)
Theorem C03_binop_exchange : forall {A} (E : elops A) rt op (x y : hf A),
  (forall u v, op u v = op v u) ->
  wf x -> wf y -> coherent (h_dims x ++ h_dims y) -> isfullcomplex x = isfullcomplex y ->
  exists r s, binop E rt op x y = Ok r /\ binop E rt op y x = Ok s /\
    (forall k, In k (map key (h_dims r)) <-> In k (map key (h_dims s))) /\
    (forall e, valid e (h_dims r) <-> valid e (h_dims s)) /\
    (forall e, valid e (h_dims r) -> val r e = val s e).
Proof. intros A E rt op x y. exact (binop_swap E rt op x y). Qed.
Print Assumptions C03_binop_exchange.

Example C03_example : exists r s, binop elZ (fun t _ => t) Z.add xFR xRV = Ok r /\
  binop elZ (fun t _ => t) Z.add xRV xFR = Ok s /\ h_dims r = [dF; dV; dR] /\ h_dims s = [dV; dF; dR] /\
  nd_elems (h_nd r) <> nd_elems (h_nd s) /\ (forall u v, Z.add u v = Z.add v u).
Proof. eexists. eexists. split; [vm_compute; reflexivity|]. split; [vm_compute; reflexivity|].
  repeat split; try reflexivity; [discriminate|apply Z.add_comm]. Qed.

(** ** C04 *)
Theorem C04_transpose : forall {A} (x : hf A) o, wf x -> Permutation o (seq 0 (h_ndim x)) ->
  exists y, transpose (map Z.of_nat o) x = Ok y /\ wf y /\
    h_dims y = map (fun k => nth k (h_dims x) dim0) o /\ (forall e, val y e = val x e).
Proof. intros A x o. exact (transpose_all_ok x o). Qed.
Print Assumptions C04_transpose.

(** Whatever order is accepted (also negative axis numbers, or none at all). *)
Theorem C04_transpose_any : forall {A} (x y : hf A) zs, wf x -> transpose zs x = Ok y ->
  wf y /\ Permutation (h_dims y) (h_dims x) /\ (forall e, val y e = val x e) /\ h_unit y = h_unit x.
Proof. intros A x y zs Hx H. destruct (transpose_spec x y zs Hx H) as [H1 [H2 [H3 [H4 _]]]]. auto. Qed.
Print Assumptions C04_transpose_any.

Theorem C04_transpose_inverse : forall {A} (x y : hf A) o o', wf x -> Permutation o (seq 0 (h_ndim x)) ->
  length o' = length o -> (forall k, k < length o -> nth (nth k o' 0) o 0 = k /\ nth k o' 0 < length o) ->
  transpose (map Z.of_nat o) x = Ok y -> transpose (map Z.of_nat o') y = Ok x.
Proof. intros A x y o o'. exact (transpose_inverse x y o o'). Qed.
Print Assumptions C04_transpose_inverse.

Theorem C04_reorder : forall {A} (x : hf A) order, wf x -> incl order (h_dims x) -> NoDup (map key order) ->
  exists y rest, reorder_dimensions order x = Ok y /\ wf y /\
    h_dims y = order ++ rest /\ subseq rest (h_dims x) /\
    (forall d, In d rest <-> In d (h_dims x) /\ ~ In d order) /\
    (forall e, val y e = val x e) /\ h_unit y = h_unit x /\ h_fmt y = h_fmt x /\ h_dt y = h_dt x.
Proof. intros A x order. exact (reorder_ok x order). Qed.
Print Assumptions C04_reorder.

Example C04_example : wf xM /\ Permutation [2; 0; 1] (seq 0 (h_ndim xM)) /\
  (exists y, transpose (map Z.of_nat [2; 0; 1]) xM = Ok y /\ h_dims y = [dJ; dF; dI] /\
     transpose (map Z.of_nat [1; 2; 0]) y = Ok xM) /\
  (exists y, transpose [(-1)%Z; 0%Z; (-2)%Z] xM = Ok y) /\
  incl [dJ] (h_dims xM) /\ NoDup (map key [dJ]) /\
  exists y, reorder_dimensions [dJ] xM = Ok y /\ h_dims y = [dJ; dF; dI].
Proof.
  split; [wf_lit|]. split.
  { apply Permutation_trans with [0; 2; 1]; [apply perm_swap|apply perm_skip; apply perm_swap]. }
  split; [eexists; split; [vm_compute; reflexivity|split; reflexivity]|].
  split; [eexists; vm_compute; reflexivity|].
  split; [intros d [<-|[]]; simpl; auto|]. split; [nodup_lit|].
  eexists; split; [vm_compute; reflexivity|reflexivity].
Qed.

(** ** C05 *)
Theorem C05_dims_track_shape : forall {A} (x y : hf A), runs x y -> tracks x -> tracks y.
Proof. intros A x y. exact (runs_tracks x y). Qed.
Print Assumptions C05_dims_track_shape.

Example C05_example : exists y, tracks xM /\ runs xM y /\ h_dims y <> h_dims xM.
Proof.
  eexists. split; [split; reflexivity|]. split.
  - eapply runs_step; [eapply (st_transpose xM [2%Z; 1%Z; 0%Z]); vm_compute; reflexivity|].
    eapply runs_step; [eapply st_t; [nodup_lit|vm_compute; reflexivity]|].
    eapply runs_step; [eapply (st_reduce _ (fold_right Z.add 0%Z) (fun t => t) (Some [AxName "freq"]) true); vm_compute; reflexivity|].
    eapply runs_step; [eapply (st_take _ [1%Z; 0%Z; (-1)%Z] (AxName "i")); vm_compute; reflexivity|].
    eapply runs_step; [eapply (st_expand _ 0%Z None); vm_compute; reflexivity|].
    apply runs_refl.
  - discriminate.
Qed.

(** Where it fails: keepdims keeps the dimension with all its labels. *)
Theorem C05_keepdims_refuted : exists (x y : hf Z) f, tracks x /\
  reduce f (fun t => t) (Some [AxInt 0]) true true x = Ok (inl y) /\ ~ tracks y.
Proof.
  exists xFR. eexists. exists (fold_right Z.add 0%Z). split; [split; reflexivity|]. split; [vm_compute; reflexivity|].
  intros [_ H]. discriminate H.
Qed.
(** The constructor compares only the number of dimensions. *)
Theorem C05_constructor_refuted : exists (a : nd Z) ds x, nd_wf a /\
  new_raw a DFloat (Some ds) None None = Ok x /\ ~ tracks x.
Proof.
  exists (mkNd [2] [1%Z; 2%Z]), [dR]. eexists. split; [reflexivity|]. split; [vm_compute; reflexivity|]. intros [_ H]. discriminate H.
Qed.
(** Operands of length one and three along the same dimension are broadcast,
    the result has one label for three elements. *)
Definition dR1 : dim := mkDim CDimRep "rep" [LZ 0] None None.
Theorem C05_broadcast_refuted : exists (x y r : hf Z), tracks x /\ tracks y /\
  binop elZ (fun t _ => t) Z.add x y = Ok r /\ ~ tracks r.
Proof.
  exists (arr [dR1]), (arr [dR]). eexists. split; [split; reflexivity|]. split; [split; reflexivity|].
  split; [vm_compute; reflexivity|]. intros [_ H]. discriminate H.
Qed.
(** [t] looks for the matrix dimensions by name. *)
Definition dIswp : dim := mkDim CDimSweep "i" [LZ 0; LZ 1; LZ 2; LZ 3; LZ 4] None None.
Theorem C05_t_refuted : exists (x y : hf Z), wf x /\ mat_t x = Ok y /\ ~ tracks y.
Proof.
  exists (arr [dIswp; dI; dJ]). eexists. split; [wf_lit|]. split; [vm_compute; reflexivity|]. intros [_ H]. discriminate H.
Qed.
Definition d0 : dim := mkDim CDimSweep "e" [] None None.
Theorem C05_add_dim_refuted : exists (x y : hf Z), wf x /\ add_dim d0 0 x = Ok y /\ ~ tracks y.
Proof. exists xFR. eexists. split; [wf_lit|]. split; [vm_compute; reflexivity|]. intros [_ H]. discriminate H. Qed.

(** ** C06 *)
Theorem C06_matrix_transpose : forall {A} (x : hf A) di dj, wf x ->
  In di (h_dims x) -> In dj (h_dims x) -> d_class di = CMatrix_i -> d_class dj = CMatrix_j ->
  (forall d, In d (h_dims x) -> d_class d = CMatrix_i -> d = di) ->
  (forall d, In d (h_dims x) -> d_class d = CMatrix_j -> d = dj) ->
  (forall d, In d (h_dims x) -> d_name d = d_name di -> d = di) ->
  (forall d, In d (h_dims x) -> d_name d = d_name dj -> d = dj) ->
  exists y, mat_t x = Ok y /\ wf y /\
    (forall e, val y e = val x (exchanged (key di) (key dj) e)) /\
    map key (h_dims y) = map key (h_dims x) /\
    (forall k d, nth_error (h_dims x) k = Some d -> exists d', nth_error (h_dims y) k = Some d' /\
       d_data d' = if class_eqb (d_class d) CMatrix_i then d_data dj
                   else if class_eqb (d_class d) CMatrix_j then d_data di else d_data d) /\
    h_unit y = h_unit x.
Proof.
  intros A x di dj Hx Ii Ij Ci Cj Ui Uj Ni Nj.
  destruct (mat_t_ok x di dj Hx Ii Ij Ci Cj Ui Uj Ni Nj) as [y [Y1 [Y2 [Y3 [Y4 [Y5 _]]]]]].
  exists y. split; auto. split; auto. split; auto. rewrite Y3. split; [|split; auto].
  - rewrite map_map. apply map_ext_in. intros d Hd.
    destruct (class_eqb (d_class d) CMatrix_i) eqn:Q.
    { apply class_eqb_eq in Q. rewrite (Ui d Hd Q). unfold key. simpl. now rewrite Ci. }
    destruct (class_eqb (d_class d) CMatrix_j) eqn:Q2; auto.
    apply class_eqb_eq in Q2. rewrite (Uj d Hd Q2). unfold key. simpl. now rewrite Cj.
  - intros k d Hk. rewrite nth_error_map, Hk. simpl. eexists. split; [reflexivity|].
    destruct (class_eqb (d_class d) CMatrix_i); auto. destruct (class_eqb (d_class d) CMatrix_j); auto.
Qed.
Print Assumptions C06_matrix_transpose.

Theorem C06_twice : forall {A} (x : hf A) di dj, wf x ->
  In di (h_dims x) -> In dj (h_dims x) -> d_class di = CMatrix_i -> d_class dj = CMatrix_j ->
  (forall d, In d (h_dims x) -> d_class d = CMatrix_i -> d = di) ->
  (forall d, In d (h_dims x) -> d_class d = CMatrix_j -> d = dj) ->
  (forall d, In d (h_dims x) -> d_name d = d_name di -> d = di) ->
  (forall d, In d (h_dims x) -> d_name d = d_name dj -> d = dj) ->
  exists y z, mat_t x = Ok y /\ mat_t y = Ok z /\ h_nd z = h_nd x /\
    map key (h_dims z) = map key (h_dims x) /\ map d_data (h_dims z) = map d_data (h_dims x) /\
    h_unit z = h_unit x /\ h_fmt z = h_fmt x.
Proof. intros A x di dj. exact (mat_t_twice x di dj). Qed.
Print Assumptions C06_twice.

Example C06_example : let x := arr [dJ; dF; dI] in wf x /\
  (forall d, In d (h_dims x) -> d_class d = CMatrix_i -> d = dI) /\
  (forall d, In d (h_dims x) -> d_class d = CMatrix_j -> d = dJ) /\
  (forall d, In d (h_dims x) -> d_name d = "i" -> d = dI) /\
  (forall d, In d (h_dims x) -> d_name d = "j" -> d = dJ) /\
  exists y, mat_t x = Ok y /\ h_shape y = [2; 2; 3] /\ h_shape x = [3; 2; 2] /\
   val y (at_ [(CMatrix_i, "i", 2); (CMatrix_j, "j", 1)]) = val x (at_ [(CMatrix_i, "i", 1); (CMatrix_j, "j", 2)]).
Proof.
  split; [wf_lit|]. do 4 (split; [intros; all_in; try reflexivity; discriminate|]).
  eexists. split; [vm_compute; reflexivity|]. repeat split; reflexivity.
Qed.

(** ** C07 *)
Theorem C07_reduce : forall {A B} (f : list A -> B) rt (x : hf A) axs pss de,
  wf x -> Forall2 (designates (h_dims x)) axs pss -> NoDup (concat pss) ->
  exists r, reduce f rt (Some axs) false de x = Ok (inl r) /\ wf r /\
    h_dims r = not_at_places (concat pss) (h_dims x) /\
    (forall e, valid e (h_dims r) -> val r e = Some (f (fiber x (at_places (concat pss) (h_dims x)) e))).
Proof. intros A B f rt x axs pss de H1 H2 H3. destruct (reduce_ok f rt x axs pss de H1 H2 H3) as [r [R1 [R2 [R3 [_ [_ R4]]]]]]. eauto. Qed.
Print Assumptions C07_reduce.

Theorem C07_reduce_all : forall {A B} (f : list A -> B) rt (x : hf A) de, wf x ->
  exists r, reduce f rt None false de x = Ok (inl r) /\ wf r /\ h_dims r = [] /\
    (forall e, val r e = Some (f (fiber x (h_dims x) e))).
Proof. intros A B f rt x de H. destruct (reduce_none_ok f rt x de H) as [r [R1 [R2 [R3 [_ R4]]]]]. eauto. Qed.
Print Assumptions C07_reduce_all.

Theorem C07_squeeze : forall {A} (x : hf A), wf x ->
  exists y, squeeze None x = Ok y /\ wf y /\
    h_dims y = filter (fun d => negb (Nat.eqb (length (d_data d)) 1)) (h_dims x) /\
    (forall e, valid e (h_dims x) -> val y e = val x e).
Proof. intros A x H. destruct (squeeze_none_ok x H) as [y [Y1 [Y2 [Y3 [Y4 _]]]]]. eauto. Qed.
Print Assumptions C07_squeeze.

Theorem C07_squeeze_axes : forall {A} (x : hf A) axs pss, wf x ->
  Forall2 (designates (h_dims x)) axs pss -> NoDup (concat pss) ->
  (forall k, In k (concat pss) -> nth k (h_shape x) 0 = 1) ->
  exists y, squeeze (Some axs) x = Ok y /\ wf y /\ h_dims y = not_at_places (concat pss) (h_dims x) /\
    (forall e, valid e (h_dims x) -> val y e = val x e).
Proof.
  intros A x axs pss Hx HD ND H1. pose proof Hx as [_ [Hl NDx]].
  destruct (axis_numbers_list (h_dims x) axs pss NDx HD) as [qs [Q1 Q2]].
  unfold squeeze. cbn [multiple_axis_handler]. rewrite Q1. cbn [bind]. rewrite concat_map_map.
  destruct (squeeze_axes_ok x (concat qs) Hx) as [y [Y1 [Y2 [Y3 [Y4 _]]]]].
  - intros k Hk. assert (Hk' : In k (concat pss)) by (eapply Permutation_in; eauto).
    apply in_concat in Hk' as [ps [P1 P2]].
    rewrite <- (wf_ndim x Hl). clear -HD P1 P2. induction HD as [|ax p l l' D _ IH]; [destruct P1|].
    destruct P1 as [->|P1]; [eapply designates_lt; eauto|auto].
  - eapply Permutation_NoDup; [symmetry; exact Q2|exact ND].
  - intros k Hk. apply H1. eapply Permutation_in; eauto.
  - exists y. split; [exact Y1|]. split; [exact Y2|]. split; [|exact Y4]. rewrite Y3.
    rewrite !not_at_places_drop. now rewrite (axes_mask_perm _ _ _ Q2).
Qed.
Print Assumptions C07_squeeze_axes.

Example C07_example : wf xM /\
  Forall2 (designates (h_dims xM)) [AxName "freq"; AxClass CMatrix_j] [[0]; [2]] /\ NoDup (concat [[0]; [2]]) /\
  exists r, reduce (fold_right Z.add 0%Z) (fun t => t) (Some [AxName "freq"; AxClass CMatrix_j]) false true xM = Ok (inl r) /\
    nd_elems (h_nd r) = [0 + 1 + 2 + 6 + 7 + 8; 3 + 4 + 5 + 9 + 10 + 11]%Z.
Proof.
  split; [wf_lit|]. split.
  { constructor; [|constructor; [|constructor]].
    - apply (des_name _ "freq" 0 dF); try reflexivity. intros; all_in; try reflexivity; discriminate.
    - apply des_class; [|nodup_lit]. intros k. split.
      + intros H. simpl in H. destruct H as [<-|[]]. exists dJ. split; reflexivity.
      + intros [d [H1 H2]]. destruct k as [|[|[|k]]]; simpl in *; auto; try (injection H1 as <-; discriminate H2).
        destruct k; discriminate. }
  split; [nodup_lit|].
  eexists. split; [vm_compute; reflexivity|reflexivity].
Qed.

(** ** C51: negative axis numbers *)
Theorem C51_negative_axis : forall {A B} (f : list A -> B) rt (x : hf A) i de,
  labels_match x -> (- Z.of_nat (h_ndim x) <= i < 0)%Z ->
  reduce f rt (Some [AxInt i]) false de x = Err ShapeDimsError.
Proof. intros A B f rt x i de. exact (reduce_negative_fails f rt x i de). Qed.
Print Assumptions C51_negative_axis.
Example C51_example : labels_match xM /\ (- Z.of_nat (h_ndim xM) <= -1 < 0)%Z.
Proof. split; [reflexivity|]. vm_compute. split; [discriminate|reflexivity]. Qed.

(** ** C08 *)
Theorem C08_getitem : forall {A} (x : hf A) l l', wf x -> means (h_ndim x) l l' -> Forall2 item_ok (h_dims x) l' ->
  exists r sel ds', getitem l x = Ok r /\ indexed (h_dims x) l' sel ds' /\
     match r with
    | ItemScalar v => Forall (fun i => exists z, i = IInt z) l /\ length l = h_ndim x /\ ds' = [] /\
         forall e e', back (h_dims x) sel e e' -> val x e' = Some v
    | ItemArray y => ~ (Forall (fun i => exists z, i = IInt z) l /\ length l = h_ndim x) /\
         wf y /\ h_dims y = ds' /\ h_unit y = h_unit x /\ h_fmt y = h_fmt x /\
         forall e e', valid e (h_dims y) -> back (h_dims x) sel e e' ->
          valid e' (h_dims x) /\ val y e = val x e'
    end.
Proof. intros A x l l'. exact (getitem_ok x l l'). Qed.
Print Assumptions C08_getitem.

Theorem C08_mask : forall {A} (x : hf A) (m : hf bool) md k, wf x -> wf m -> h_dims m = [md] ->
  nth_error (h_dims x) k = Some md -> (forall d, In d (h_dims x) -> d_name d = d_name md -> d = md) ->
  exists y md' ps, getmask m x = Ok y /\ wf y /\
    (forall p, In p ps <-> nth_error (nd_elems (h_nd m)) p = Some true) /\
    (forall i j, i < j -> j < length ps -> nth i ps 0 < nth j ps 0) /\
    relabelled md ps md' /\ h_dims y = set_nth k md' (h_dims x) /\ h_unit y = h_unit x /\
    (forall e, valid e (h_dims y) -> val y e = val x (upd e (key md) (nth (e (key md)) ps 0))).
Proof. intros A x m md k. exact (getmask_ok x m md k). Qed.
Print Assumptions C08_mask.

Example C08_example : let l := [IInt (-1); IEllipsis; ISlice (mkSlice (Some 2) None (Some (-2)))]%Z in
  means (h_ndim xM) l [IInt (-1); ISlice full_slice; ISlice (mkSlice (Some 2) None (Some (-2)))]%Z /\
  Forall2 item_ok (h_dims xM) [IInt (-1); ISlice full_slice; ISlice (mkSlice (Some 2) None (Some (-2)))]%Z /\
  exists y, getitem l xM = Ok (ItemArray y) /\ nd_elems (h_nd y) = [8; 6; 11; 9]%Z /\
    map d_data (h_dims y) = [[LZ 0; LZ 1]; [LZ 2; LZ 0]].
Proof.
  split.
  { apply (means_ellipsis 3 [IInt (-1)%Z] [ISlice (mkSlice (Some 2%Z) None (Some (-2)%Z))]); repeat constructor; discriminate. }
  split.
  { repeat constructor; try (simpl; discriminate); try (left; discriminate).
    apply (io_int dF (-1)%Z 1). split; [simpl; lia|right; reflexivity]. }
  eexists. split; [vm_compute; reflexivity|]. split; reflexivity.
Qed.
Example C08_mask_example : let m := mkHF (mkNd [3] [true; false; true]) DBool [dR] None "%s" in
  wf m /\ exists y, getmask m xFR = Ok y /\ nd_elems (h_nd y) = [0; 2; 3; 5]%Z.
Proof. split; [wf_lit|]. eexists. split; [vm_compute; reflexivity|reflexivity]. Qed.

(** ** C09 *)
Theorem C09_take : forall {A} (x : hf A) idx ax k d ps,
  wf x -> designates (h_dims x) ax [k] -> only_name (h_dims x) k -> nth_error (h_dims x) k = Some d ->
  Forall2 (int_position (length (d_data d))) idx ps ->
  exists y d', take idx ax x = Ok y /\ wf y /\
    key d' = key d /\ d_data d' = map LZ idx /\
    h_dims y = set_nth k d' (h_dims x) /\
    h_unit y = h_unit x /\
    (forall e, valid e (h_dims y) -> val y e = val x (upd e (key d) (nth (e (key d)) ps 0))).
Proof. intros A x idx ax k d ps. exact (take_ok x idx ax k d ps). Qed.
Print Assumptions C09_take.
Example C09_example : wf xFR /\ designates (h_dims xFR) (AxDim dR) [1] /\ only_name (h_dims xFR) 1 /\
  Forall2 (int_position (length (d_data dR))) [2; -3; 2]%Z [2; 0; 2] /\
  exists y, take [2; -3; 2]%Z (AxDim dR) xFR = Ok y /\ nd_elems (h_nd y) = [2; 0; 2; 5; 3; 5]%Z.
Proof.
  split; [wf_lit|]. split; [now constructor|]. split.
  { intros j d d' H1 H2 H3. injection H1 as <-. destruct j as [|[|[|j]]]; simpl in *; try discriminate; auto; try (injection H2 as <-; discriminate). }
  split; [repeat constructor; simpl; lia|]. eexists. split; [vm_compute; reflexivity|reflexivity].
Qed.

(** ** C10 *)
Theorem C10_remove_tail : forall {A} (x : hf A) d0 ds, wf x -> h_dims x = d0 :: ds -> ismatrix x = false ->
  key d0 <> (CDimRep, "Tail") ->
  exists y, remove_tail x = Ok y /\ wf y /\ nd_elems (h_nd y) = nd_elems (h_nd x) /\ h_unit y = h_unit x /\
    map key (h_dims y) = [key d0; (CDimRep, "Tail")] /\ nth_error (h_dims y) 0 = Some d0 /\
    collapses x y ds (CDimRep, "Tail").
Proof. intros A x d0 ds. exact (remove_tail_ok x d0 ds). Qed.
Print Assumptions C10_remove_tail.
Theorem C10_remove_tail_matrix : forall {A} (x : hf A) d0 ds da db, wf x -> h_dims x = d0 :: ds ++ [da; db] ->
  ismatrix x = true -> ~ In (CDimRep, "Tail") (map key (d0 :: [da; db])) ->
  exists y, remove_tail x = Ok y /\ wf y /\ nd_elems (h_nd y) = nd_elems (h_nd x) /\ h_unit y = h_unit x /\
    map key (h_dims y) = [key d0; (CDimRep, "Tail"); key da; key db] /\ nth_error (h_dims y) 0 = Some d0 /\
    nth_error (h_dims y) 2 = Some da /\ nth_error (h_dims y) 3 = Some db /\
    collapses x y ds (CDimRep, "Tail").
Proof. intros A x d0 ds da db. exact (remove_tail_matrix_ok x d0 ds da db). Qed.
Print Assumptions C10_remove_tail_matrix.
Theorem C10_remove_rep : forall {A} (x : hf A) newname pre reps post, wf x -> h_dims x = pre ++ reps ++ post ->
  reps <> [] ->
  (forall d, In d reps -> subclass (d_class d) CDimRep = true) ->
  (forall d, In d (pre ++ post) -> subclass (d_class d) CDimRep = false) ->
  exists y dn, remove_rep newname x = Ok y /\ wf y /\ nd_elems (h_nd y) = nd_elems (h_nd x) /\
    h_dims y = pre ++ [dn] ++ post /\ key dn = (CDimRep, newname) /\
    collapses x y reps (key dn).
Proof. intros A x newname pre reps post. exact (remove_rep_ok x newname pre reps post). Qed.
Print Assumptions C10_remove_rep.
Theorem C10_remove_rep_none : forall {A} (x : hf A) newname, wf x ->
  (forall d, In d (h_dims x) -> subclass (d_class d) CDimRep = false) -> remove_rep newname x = Ok x.
Proof. intros A x newname. exact (remove_rep_none x newname). Qed.
Print Assumptions C10_remove_rep_none.

Example C10_example :
  (exists y, remove_rep "all" (arr [dF; dR; dR2; dV]) = Ok y /\ h_shape y = [2; 6; 2]) /\
  wf (arr [dF; dR; dR2; dV]) /\
  (forall d, In d [dR; dR2] -> subclass (d_class d) CDimRep = true) /\
  (forall d, In d ([dF] ++ [dV]) -> subclass (d_class d) CDimRep = false) /\
  (exists y, remove_tail (arr [dF; dR; dV; dI; dJ]) = Ok y /\ h_shape y = [2; 6; 2; 3]) /\
  ismatrix (arr [dF; dR; dV; dI; dJ]) = true /\ wf (arr [dF; dR; dV; dI; dJ]) /\
  (exists y, remove_tail (arr [dF; dR; dV]) = Ok y /\ h_shape y = [2; 6]) /\ ismatrix (arr [dF; dR; dV]) = false.
Proof.
  split; [eexists; split; [vm_compute; reflexivity|reflexivity]|]. split; [wf_lit|].
  split; [intros; all_in; reflexivity|]. split; [intros; all_in; reflexivity|].
  split; [eexists; split; [vm_compute; reflexivity|reflexivity]|]. split; [reflexivity|]. split; [wf_lit|].
  split; [eexists; split; [vm_compute; reflexivity|reflexivity]|reflexivity].
Qed.

(** Without adjacency data or error: the repetitions around another dimension
    cannot be collapsed. *)
Theorem C10_not_adjacent_refuted : exists (x : hf Z) e, wf x /\ remove_rep "all" x = Err e.
Proof. exists (arr [dR; dF; dR2]). eexists. split; [wf_lit|]. vm_compute. reflexivity. Qed.

(** ** C11 *)
Theorem C11_entries : forall {A} (E : elops A) (x : hf A), wf x -> isfullcomplex x = false -> h_dt x = DComplex ->
  exists y, make_fullcomplex E x = Ok y /\ wf y /\ h_dims y = h_dims x ++ CPLX /\
    forall e, valid e (h_dims y) -> exists v, val x e = Some v /\
      val y e = cplx_entry (e_neg E) (e_re E v) (e_im E v) (e (CComplexIndep, "cplx")) (e (CComplexDeriv, "cplx")).
Proof.
  intros A E x Hx Hc Ht. destruct (fullcomplex_ok E x Hx Hc) as [y [Y1 [Y2 [Y3 Y4]]]]. exists y. split; auto. split; auto. split; auto.
  intros e He. destruct (Y4 e He) as [v [V1 V2]]. exists v. split; auto. rewrite V2, Ht.
  change (key (nth 0 CPLX dim0)) with kre. change (key (nth 1 CPLX dim0)) with kim.
  fold kre. fold kim.
  assert (Hr : e kre < 2) by (apply (He (nth 0 CPLX dim0)); rewrite Y3; apply in_or_app; right; simpl; auto).
  assert (Hi : e kim < 2) by (apply (He (nth 1 CPLX dim0)); rewrite Y3; apply in_or_app; right; simpl; auto).
  destruct (e kre) as [|[|?]]; [| |lia]; destruct (e kim) as [|[|?]]; try lia; reflexivity.
Qed.
Print Assumptions C11_entries.

Theorem C11_arithmetic : forall A (rO rI : A) radd rmul rsub ropp,
  ring_theory rO rI radd rmul rsub ropp (@eq A) ->
  forall (E : elops A) (cadd cmul : A -> A -> A),
  (forall a, e_neg E a = ropp a) ->
  (forall a b, e_re E (cadd a b) = radd (e_re E a) (e_re E b)) ->
  (forall a b, e_im E (cadd a b) = radd (e_im E a) (e_im E b)) ->
  (forall a b, e_re E (cmul a b) = rsub (rmul (e_re E a) (e_re E b)) (rmul (e_im E a) (e_im E b))) ->
  (forall a b, e_im E (cmul a b) = radd (rmul (e_re E a) (e_im E b)) (rmul (e_im E a) (e_re E b))) ->
  forall rt (x y s p : hf A), wf x -> wf y -> coherent (h_dims x ++ h_dims y) ->
  isfullcomplex x = false -> isfullcomplex y = false -> h_dt x = DComplex -> h_dt y = DComplex ->
  rt DComplex DComplex = DComplex ->
  binop E rt cadd x y = Ok s -> binop E rt cmul x y = Ok p ->
  exists X Y S P, make_fullcomplex E x = Ok X /\ make_fullcomplex E y = Ok Y /\
    make_fullcomplex E s = Ok S /\ make_fullcomplex E p = Ok P /\
    h_dims S = h_dims s ++ CPLX /\ h_dims P = h_dims p ++ CPLX /\ h_dims s = h_dims p /\
    forall e, valid e (h_dims S) ->
      (exists a b, val X e = Some a /\ val Y e = Some b /\ val S e = Some (radd a b)) /\
      (exists a0 a1 b0 b1,
         val X (upd e (CComplexDeriv, "cplx") 0) = Some a0 /\ val X (upd e (CComplexDeriv, "cplx") 1) = Some a1 /\
         val Y (upd e (CComplexIndep, "cplx") 0) = Some b0 /\ val Y (upd e (CComplexIndep, "cplx") 1) = Some b1 /\
         val P e = Some (radd (rmul a0 b0) (rmul a1 b1))).
Proof. exact fullcomplex_homo. Qed.
Print Assumptions C11_arithmetic.

(** A real array: only the entry [0,0] is filled, so the matrix is not the one
    of the number. *)
Theorem C11_real_entries : forall {A} (E : elops A) (x : hf A), wf x -> isfullcomplex x = false -> h_dt x <> DComplex ->
  exists y, make_fullcomplex E x = Ok y /\ h_dims y = h_dims x ++ CPLX /\
    forall e, valid e (h_dims y) -> exists v, val x e = Some v /\
      val y e = Some (if Nat.eqb (e (CComplexIndep, "cplx") + e (CComplexDeriv, "cplx")) 0 then e_re E v else e_zero E).
Proof.
  intros A E x Hx Hc Ht. destruct (fullcomplex_ok E x Hx Hc) as [y [Y1 [Y2 [Y3 Y4]]]]. exists y. split; auto. split; auto.
  intros e He. destruct (Y4 e He) as [v [V1 V2]]. exists v. split; auto. rewrite V2. f_equal.
  change (key (nth 0 CPLX dim0)) with kre. change (key (nth 1 CPLX dim0)) with kim. fold kre. fold kim.
  destruct (h_dt x); try congruence; simpl; destruct (e kre); simpl; auto; destruct (e kim); auto.
Qed.
Print Assumptions C11_real_entries.

(** Gaussian integers as pairs. *)
Definition gadd (a b : Z * Z) := ((fst a + fst b)%Z, (snd a + snd b)%Z).
Definition gmul (a b : Z * Z) := ((fst a * fst b)%Z, (snd a * snd b)%Z).
Definition gsub (a b : Z * Z) := ((fst a - fst b)%Z, (snd a - snd b)%Z).
Definition gopp (a : Z * Z) := ((- fst a)%Z, (- snd a)%Z).
Definition cmulG (a b : Z * Z) := ((fst a * fst b - snd a * snd b)%Z, (fst a * snd b + snd a * fst b)%Z).
Definition elG : elops (Z * Z) := mkElops (Z*Z)%type (0, 0)%Z (fun a => (fst a, 0)%Z) (fun a => (snd a, 0)%Z) gopp.
Definition xG (a b : Z * Z) : hf (Z * Z) := mkHF (mkNd [2] [a; b]) DComplex [dF] None "%.16e".
Example C11_example :
  ring_theory (0, 0)%Z (1, 1)%Z gadd gmul gsub gopp eq /\
  (forall a b, e_re elG (cmulG a b) = gsub (gmul (e_re elG a) (e_re elG b)) (gmul (e_im elG a) (e_im elG b))) /\
  (forall a b, e_im elG (cmulG a b) = gadd (gmul (e_re elG a) (e_im elG b)) (gmul (e_im elG a) (e_re elG b))) /\
  wf (xG (1, 2) (3, 4))%Z /\ isfullcomplex (xG (1, 2) (3, 4))%Z = false /\
  exists p, binop elG (fun t _ => t) cmulG (xG (1, 2) (3, 4))%Z (xG (5, 6) (0, 1))%Z = Ok p.
Proof.
  split.
  { constructor; intros; repeat match goal with x : (Z * Z)%type |- _ => destruct x end;
      unfold gadd, gmul, gsub, gopp; cbn [fst snd]; f_equal; ring. }
  split; [intros; unfold gsub, gmul, cmulG; cbn [elG e_re e_im fst snd]; f_equal; ring|].
  split; [intros; unfold gadd, gmul, cmulG; cbn [elG e_re e_im fst snd]; f_equal; ring|].
  split; [wf_lit|]. split; [reflexivity|]. eexists. vm_compute. reflexivity.
Qed.

(** ** C12 *)
Theorem C12_expand_diagonals : forall {A} (zero : A) diags (x : hf A), wf x -> incl diags (h_dims x) ->
  Forall expandable diags -> NoDup (map key diags) ->
  NoDup (map key (h_dims x) ++ flat_map (fun d => [ikey d; dkey d]) diags) ->
  exists y, expand_diagonals zero (Some diags) x = Ok y /\ wf y /\
    split_into diags (h_dims x) (h_dims y) /\
    (forall e, valid e (h_dims y) -> valid (undiag diags e) (h_dims x)) /\
    (forall e, valid e (h_dims y) -> on_diagonal diags e -> val y e = val x (undiag diags e)) /\
    (forall e, valid e (h_dims y) -> ~ on_diagonal diags e -> val y e = Some zero).
Proof. intros A zero diags x. exact (expand_diagonals_ok zero diags x). Qed.
Print Assumptions C12_expand_diagonals.
Example C12_example : let x := arr [dF; dR; dI] in wf x /\ Forall expandable [dR; dI] /\
  NoDup (map key (h_dims x) ++ flat_map (fun d => [ikey d; dkey d]) [dR; dI]) /\
  exists y, expand_diagonals 0%Z (Some [dR; dI]) x = Ok y /\ h_shape y = [2; 3; 3; 2; 2] /\
    nd_get (h_nd y) [1; 2; 2; 1; 1] = Some 11%Z /\ nd_get (h_nd y) [1; 2; 2; 1; 0] = Some 0%Z.
Proof.
  split; [wf_lit|]. split; [repeat constructor; try discriminate; left; discriminate|].
  split; [nodup_lit|].
  eexists. split; [vm_compute; reflexivity|]. repeat split; reflexivity.
Qed.

(** ** C13 *)
Theorem C13_add_dim : forall {A} (x : hf A) d axis, wf x ->
  (forall d', In d' (h_dims x) -> d_name d' <> d_name d) -> d_data d <> [] ->
  exists y, add_dim d axis x = Ok y /\ wf y /\
    h_dims y = insert_at (Nat.min axis (h_ndim x)) d (h_dims x) /\
    (forall e, valid e (h_dims y) -> val y e = val x e).
Proof. intros A x d axis. exact (add_dim_ok x d axis). Qed.
Print Assumptions C13_add_dim.
Theorem C13_add_dim_present : forall {A} (x : hf A) d axis, In d (h_dims x) -> add_dim d axis x = Ok x.
Proof. intros A x d axis. exact (add_dim_present x d axis). Qed.
Print Assumptions C13_add_dim_present.
Theorem C13_replace_dim : forall {A} (x : hf A) old new, wf x -> In old (h_dims x) ->
  (forall d, In d (h_dims x) -> d_name d = d_name old -> d = old) ->
  (forall d, In d (h_dims x) -> key d = key new -> d = old) ->
  length (d_data new) = length (d_data old) ->
  let y := replace_dim old new x in
  wf y /\ (forall k d, nth_error (h_dims x) k = Some d ->
             nth_error (h_dims y) k = Some (if String.eqb (d_name d) (d_name old) then new else d)) /\
  (forall e, val y e = val x (upd e (key old) (e (key new)))) /\
  nd_elems (h_nd y) = nd_elems (h_nd x) /\ h_unit y = h_unit x.
Proof. intros A x old new. exact (replace_dim_ok x old new). Qed.
Print Assumptions C13_replace_dim.
Example C13_example : wf xFR /\ (forall d', In d' (h_dims xFR) -> d_name d' <> d_name dV) /\
  (exists y, add_dim dV 7 xFR = Ok y /\ h_shape y = [2; 3; 2] /\ nd_elems (h_nd y) = [0;0;1;1;2;2;3;3;4;4;5;5]%Z) /\
  In dF (h_dims xFR) /\ (forall d, In d (h_dims xFR) -> d_name d = d_name dF -> d = dF) /\
  (forall d, In d (h_dims xFR) -> key d = key dV -> d = dF) /\ length (d_data dV) = length (d_data dF).
Proof.
  split; [wf_lit|]. split; [intros; all_in; discriminate|].
  split; [eexists; split; [vm_compute; reflexivity|split; reflexivity]|].
  split; [simpl; auto|]. split; [intros; all_in; try reflexivity; discriminate|].
  split; [intros; all_in; try reflexivity; discriminate|reflexivity].
Qed.

(** ** C14 *)
Theorem C14_equivalence : (forall a, dim_eqb a a = true) /\
  (forall a b, dim_eqb a b = true -> dim_eqb b a = true) /\
  (forall a b c, dim_eqb a b = true -> dim_eqb b c = true -> dim_eqb a c = true).
Proof. exact dim_eqb_equivalence. Qed.
Print Assumptions C14_equivalence.
Theorem C14_equal_iff : forall a b, dim_eqb a b = true <->
  (d_class a = d_class b /\ d_name a = d_name b /\ d_data a = d_data b /\ d_unit a = d_unit b).
Proof. exact dim_eqb_spec. Qed.
Print Assumptions C14_equal_iff.
(** Equal dimensions are hashed alike exactly if they store the same output
    format; in general they are not. *)
Theorem C14_hash : forall a b, dim_eqb a b = true -> (dim_hash_key a = dim_hash_key b <-> d_fmt a = d_fmt b).
Proof.
  intros a b H. split; [|now apply dim_hash_same_fmt]. unfold dim_hash_key. intros E. congruence.
Qed.
Print Assumptions C14_hash.
Theorem C14_hash_refuted : exists a b, dim_eqb a b = true /\ dim_hash_key a <> dim_hash_key b.
Proof.
  exists dR, (mkDim CDimRep "rep" [LZ 0; LZ 1; LZ 2] None (Some "%d")). split; [reflexivity|discriminate].
Qed.
Example C14_example : dim_eqb dR (mkDim CDimRep "rep" [LZ 0; LZ 1; LZ 2] None None) = true /\ dim_eqb dR dR2 = false.
Proof. split; reflexivity. Qed.

(** ** C15 *)
Theorem C15_anonymous_fresh : forall ds data u f d', get_new_anonymous_dim ds data u f = Ok d' ->
  d_class d' = CDimAnonymous /\ d_data d' = data /\ d_unit d' = u /\ d_fmt d' = f /\
  forall d, In d ds -> subclass (d_class d) CDimAnonymous = true -> d_name d <> d_name d'.
Proof. exact anon_fresh. Qed.
Print Assumptions C15_anonymous_fresh.
Theorem C15_anonymous_history : forall ds ds', anon_history ds ds' ->
  NoDup (map d_name (filter (fun d => subclass (d_class d) CDimAnonymous) ds)) ->
  NoDup (map d_name (filter (fun d => subclass (d_class d) CDimAnonymous) ds')).
Proof. exact anon_history_NoDup. Qed.
Print Assumptions C15_anonymous_history.
Theorem C15_anonymous_succeeds : forall ds data u f, (forall d, In d ds -> subclass (d_class d) CDimAnonymous = true -> 
     Model_Text.starts_with (Model_Text.chars "ANON") (Model_Text.chars (d_name d)) = true -> generated d) ->
  exists d', get_new_anonymous_dim ds data u f = Ok d' /\ generated d'.
Proof. exact anon_succeeds. Qed.
Print Assumptions C15_anonymous_succeeds.
Definition dA (n : string) : dim := mkDim CDimAnonymous n [LZ 0] None None.
Example C15_example : option_map d_name
   match get_new_anonymous_dim [dA "ANON9"; dF; dA "ANON12"] [] None None with Ok d => Some d | _ => None end = Some "ANON13".
Proof. vm_compute. reflexivity. Qed.
(** Dimensions of other classes are not looked at. *)
Theorem C15_other_class_refuted : exists ds d d', get_new_anonymous_dim ds [] None None = Ok d' /\
  In d ds /\ d_name d = d_name d'.
Proof. exists [mkDim CDimSweep "ANON1" [] None None]. eexists. eexists. split; [vm_compute; reflexivity|]. split; [simpl; auto|reflexivity]. Qed.

(** ** C52: labels *)
Theorem C52_labels_of_left : forall {A} (E : elops A) rt op (x y : hf A),
  wf x -> wf y -> coherent (h_dims x ++ h_dims y) -> isfullcomplex x = isfullcomplex y ->
  exists r, binop E rt op x y = Ok r /\
    (forall d, In d (h_dims x) -> In d (h_dims r)) /\
    (forall d, In d (h_dims r) -> In (key d) (map key (h_dims x)) -> In d (h_dims x)).
Proof.
  intros A E rt op x y Hx Hy Hc Hf. destruct (binop_ok E rt op x y Hx Hy Hc Hf) as [r [R1 [R2 [R3 _]]]].
  exists r. split; auto. rewrite R3.
  destruct (dims_union_spec (h_dims x) (h_dims y) Hc (proj2 (proj2 Hy))) as [new [N1 [N2 [N3 _]]]].
  split.
  - intros d Hd. assert (In d (filter (same_prio (sortprio (d_class d))) (h_dims x ++ new))).
    { apply filter_In. split; [apply in_or_app; auto|]. unfold same_prio. apply Nat.eqb_refl. }
    rewrite <- N3 in H. apply filter_In in H. apply H.
  - intros d Hd Hk. assert (In d (filter (same_prio (sortprio (d_class d))) (dims_union (h_dims x) [h_dims y]))).
    { apply filter_In. split; auto. unfold same_prio. apply Nat.eqb_refl. }
    rewrite N3 in H. apply filter_In in H as [H _]. apply in_app_or in H as [H|H]; auto.
    apply N2 in H as [_ H]. contradiction.
Qed.
Print Assumptions C52_labels_of_left.
(** Shared dimensions are never compared by their labels: an operation on
    arrays over different frequencies pairs them by position. *)
Theorem C52_labels_ignored_refuted : exists (x y r : hf Z), wf x /\ wf y /\
  coherent (h_dims x ++ h_dims y) /\ binop elZ (fun t _ => t) Z.add x y = Ok r /\
  h_dims r = h_dims x /\ map d_data (h_dims x) <> map d_data (h_dims y) /\
  nd_elems (h_nd r) = [0; 2]%Z.
Proof.
  exists (arr [dV]), (arr [mkDim CDimSweep "V" [LZ 6; LZ 5] None None]). eexists.
  split; [wf_lit|]. split; [wf_lit|]. split; [coherent_lit|]. split; [vm_compute; reflexivity|].
  split; [reflexivity|]. split; [discriminate|reflexivity].
Qed.

(** ** C53 *)
Theorem C53_cumulate : forall {A} (op : A -> A -> A) (x : hf A) ax k d,
  wf x -> designates (h_dims x) ax [k] -> only_name (h_dims x) k -> nth_error (h_dims x) k = Some d ->
  exists y, cumulate op ax x = Ok y /\ wf y /\ h_dims y = h_dims x /\
    (forall e, valid e (h_dims x) -> exists v0 vs,
       map Some (v0 :: vs) = map (fun i => val x (upd e (key d) i)) (seq 0 (S (e (key d)))) /\
       val y e = Some (fold_left op vs v0)).
Proof. intros A op x ax k d. exact (cumulate_ok op x ax k d). Qed.
Print Assumptions C53_cumulate.

Theorem C53_unit_dropped : forall {A} (op : A -> A -> A) (x y : hf A) ax,
  cumulate op ax x = Ok y -> h_unit y = None.
Proof.
  intros A op x y ax H. unfold cumulate in H. destruct (axis_handler (h_dims x) ax) as [d|]; [|discriminate].
  cbn [bind] in H. destruct (dims_index (h_dims x) (d_name d)); [|discriminate]. cbn [bind] in H.
  unfold new_raw in H. repeat match type of H with
  | Err _ = Ok _ => discriminate
  | Ok _ = Ok _ => injection H as <-; reflexivity
  | (if ?c then _ else _) = _ => destruct c
  | match ?c with _ => _ end = _ => destruct c
  | bind ?c _ = _ => destruct c; cbn [bind] in H
  end.
Qed.
Print Assumptions C53_unit_dropped.

Example C53_example : wf xFR /\ designates (h_dims xFR) (AxName "rep") [1] /\ only_name (h_dims xFR) 1 /\
  exists y, cumulate Z.add (AxName "rep") xFR = Ok y /\ nd_elems (h_nd y) = [0; 1; 3; 3; 7; 12]%Z.
Proof.
  split; [wf_lit|]. split. { apply des_name with (d := dR); try reflexivity. intros d' H E. all_in; [discriminate E|reflexivity]. }
  split. { intros i d d' H1 H2 H3. destruct i as [|[|i]]; simpl in *; try congruence. injection H1 as <-. injection H2 as <-. discriminate.
           destruct i; discriminate. }
  eexists. split; [vm_compute; reflexivity|reflexivity].
Qed.
