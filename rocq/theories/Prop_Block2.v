(** Properties of DataBlock: sorting (C19) and filtering (C20). *)
From Coq Require Import Ascii String List Arith ZArith Bool Lia Permutation Sorted.
From Verif Require Import Model_NdArray Proofs_NdArray Model_Dim Model_Array Spec_Array Proofs_Array Proofs_Array2 Proofs_Array4 Proofs_Array5
  Model_DataDict Spec_DataDict Proofs_DataDict Model_Text Model_Block Spec_Block Proofs_Block Proofs_Block2 Proofs_Block3 Proofs_Block4
  Prop_Array Prop_Block.
Import ListNotations.
Local Open Scope nat_scope.
Local Open Scope string_scope.
Local Open Scope list_scope.

(** ** C19 *)

(** sort: one permutation, along which the key is ascending, is applied to the
    dimension of every variable and to its labels. *)
Theorem C19_sort : forall {A K} (lab : A -> label) (le : K -> K -> Prop) argsort (ks : hf K) kd old (b : block A) vs,
  sorts le argsort ->
  wf ks -> h_dims ks = [kd] -> length (d_data kd) <> 1 -> length (d_data kd) = length (d_data old) ->
  dd_get (d_name kd) (b_ivar b) = Ok old -> d_name old = d_name kd -> usable old ->
  dd_items (b_var b) = Ok vs -> NoDup (map fst vs) -> plain_names (map fst vs) (dim_names vs) ->
  Forall (fun p => var_ok (d_name old) old (snd p)) vs -> In (d_name old) (dim_names vs) ->
  exists b' vs' new order, b_sort lab argsort ks b = Ok b' /\ b_x b' = b_x b /\
    dd_items (b_var b') = Ok vs' /\ map fst vs' = map fst vs /\
    Permutation order (seq 0 (length (d_data old))) /\
    (forall i j a c, i < j -> j < length order ->
       nth_error (nd_elems (h_nd ks)) (nth i order 0) = Some a -> nth_error (nd_elems (h_nd ks)) (nth j order 0) = Some c -> le a c) /\
    relabelled old order new /\ Permutation (d_data new) (d_data old) /\
    dd_get (d_name old) (b_ivar b') = Ok new /\
    Forall2 (fun p p' => rearranged (d_name old) new order (snd p) (snd p')) vs vs'.
Proof.
  intros A K lab le argsort ks kd old b vs HS Wk Dk Nk Lk Hold En Us Hvs NDv PN FV EX.
  assert (L : length (nd_elems (h_nd ks)) = length (d_data old)).
  { destruct Wk as [W1 [W2 _]]. unfold labels_match in W2. rewrite Dk in W2. unfold nd_wf in W1. unfold h_shape in W2. rewrite <- W2 in W1.
    cbn in W1. lia. }
  destruct (HS (nd_elems (h_nd ks))) as [P Q]. rewrite L in P.
  destruct (b_sort_ok lab argsort ks kd old b vs Wk Dk Nk P Hold En Us Hvs NDv PN FV EX) as [b' [vs' [new [B1 [B2 [B3 [B4 [B5 [B6 [B7 [B8 B9]]]]]]]]]]].
  exists b', vs', new, (argsort (nd_elems (h_nd ks))). split; auto. split; auto. split; auto. split; auto. split; auto.
  pose proof (Permutation_length P) as PL. rewrite seq_length in PL.
  split. { intros i j a c Hij Hj. apply Q; auto. lia. }
  split.
  { split; [exact B5|]. split; [exact B6|]. rewrite B7, map_length. split; auto. intros k Hk.
    rewrite nth_error_map. rewrite (nth_error_nth' _ k 0) by lia. cbn [option_map].
    symmetry. apply nth_error_nth'. assert (In (nth k (argsort (nd_elems (h_nd ks))) 0) (argsort (nd_elems (h_nd ks)))) as I by (apply nth_In; lia).
    apply (Permutation_in _ P) in I. apply in_seq in I. lia. }
  split; auto. rewrite B7. transitivity (map (fun p => nth p (d_data old) (LZ 0)) (seq 0 (length (d_data old)))); [now apply Permutation_map|].
  now rewrite map_nth_seq.
Qed.
Print Assumptions C19_sort.

(** Sorting along the dimension itself: its labels are ascending afterwards. *)
Theorem C19_labels_ascending : forall {A K} (lab : A -> label) (le : K -> K -> Prop) argsort (num : label -> K) (ks : hf K) kd old (b : block A) vs,
  sorts le argsort ->
  wf ks -> h_dims ks = [kd] -> length (d_data kd) <> 1 -> nd_elems (h_nd ks) = map num (d_data old) ->
  dd_get (d_name kd) (b_ivar b) = Ok old -> d_name old = d_name kd -> usable old ->
  dd_items (b_var b) = Ok vs -> NoDup (map fst vs) -> plain_names (map fst vs) (dim_names vs) ->
  Forall (fun p => var_ok (d_name old) old (snd p)) vs -> In (d_name old) (dim_names vs) ->
  exists b' new, b_sort lab argsort ks b = Ok b' /\ dd_get (d_name old) (b_ivar b') = Ok new /\ Permutation (d_data new) (d_data old) /\
    forall i j a c, i < j -> nth_error (d_data new) i = Some a -> nth_error (d_data new) j = Some c -> le (num a) (num c).
Proof.
  intros A K lab le argsort num ks kd old b vs HS Wk Dk Nk Ek Hold En Us Hvs NDv PN FV EX.
  assert (Lk : length (d_data kd) = length (d_data old)).
  { destruct Wk as [W1 [W2 _]]. unfold labels_match in W2. rewrite Dk in W2. unfold nd_wf in W1. unfold h_shape in W2. rewrite <- W2 in W1.
    rewrite Ek, map_length in W1. cbn in W1. lia. }
  destruct (C19_sort lab le argsort ks kd old b vs HS Wk Dk Nk Lk Hold En Us Hvs NDv PN FV EX)
    as [b' [vs' [new [order [B1 [_ [_ [_ [B5 [B6 [[_ [_ [B71 B7]]] [B8 [B9 _]]]]]]]]]]]]].
  exists b', new. split; auto. split; auto. split; auto. intros i j a c Hij Ha Hc.
  assert (j < length order) by (rewrite <- B71; apply nth_error_Some; congruence).
  apply (B6 i j); auto; rewrite Ek, nth_error_map; rewrite B7 in Ha, Hc by lia; [rewrite Ha|rewrite Hc]; reflexivity.
Qed.
Print Assumptions C19_labels_ascending.

(** A sorting function, for examples. *)
Fixpoint ins (p : Z * nat) (l : list (Z * nat)) : list (Z * nat) :=
  match l with [] => [p] | q :: l' => if (fst q <? fst p)%Z then q :: ins p l' else p :: l end.
Definition argsortZ (l : list Z) : list nat := map snd (fold_right ins [] (combine l (seq 0 (length l)))).
Lemma ins_perm : forall p l, Permutation (ins p l) (p :: l).
Proof. induction l; simpl; auto. destruct (_ <? _)%Z; auto. rewrite IHl. constructor. Qed.
Lemma ins_sorted : forall p l, StronglySorted (fun a c => (fst a <= fst c)%Z) l -> StronglySorted (fun a c => (fst a <= fst c)%Z) (ins p l).
Proof.
  induction l as [|q l IH]; simpl; intros H; [constructor; constructor|]. apply StronglySorted_inv in H as [H1 H2].
  destruct (Z.ltb_spec (fst q) (fst p)).
  - constructor; auto. rewrite Forall_forall in *. intros z Hz. apply (Permutation_in _ (ins_perm p l)) in Hz. destruct Hz as [<-|Hz]; [lia|auto].
  - constructor; [now constructor|]. constructor; auto. eapply Forall_impl; [|exact H2]. simpl. lia.
Qed.
Lemma argsortZ_sorts : sorts Z.le argsortZ.
Proof.
  intros l. unfold argsortZ. set (c := combine l (seq 0 (length l))).
  assert (P : forall c, Permutation (fold_right ins [] c) c).
  { clear. induction c; simpl; auto. rewrite ins_perm. now constructor. }
  assert (S : forall c, StronglySorted (fun a c => (fst a <= fst c)%Z) (fold_right ins [] c)).
  { clear. induction c; simpl; [constructor|]. now apply ins_sorted. }
  assert (Sc : map snd c = seq 0 (length l)).
  { unfold c. generalize 0. clear. induction l; simpl; auto. intros n. now rewrite IHl. }
  split. { rewrite <- Sc. apply Permutation_map, P. }
  intros i j a b Hij Hj Ha Hb.
  assert (Lc : length (fold_right ins [] c) = length l) by (rewrite (Permutation_length (P c)); unfold c; rewrite combine_length, seq_length; lia).
  assert (Hc : forall v n, In (v, n) c -> nth_error l n = Some v).
  { intros v n H. unfold c in H. assert (G : forall l s, In (v, n) (combine l (seq s (length l))) -> s <= n /\ nth_error l (n - s) = Some v).
    { clear. induction l as [|x l IH]; intros s H; simpl in *; [tauto|]. destruct H as [E|H].
      - injection E as -> ->. rewrite Nat.sub_diag. auto.
      - apply IH in H as [H1 H2]. split; [lia|]. replace (n - s) with (Datatypes.S (n - Datatypes.S s)) by lia. auto. }
    apply G in H as [_ H]. now rewrite Nat.sub_0_r in H. }
  set (f := fold_right ins [] c) in *. specialize (S c). fold f in S.
  assert (N : forall m, m < length l -> nth_error l (nth m (map snd f) 0) = Some (fst (nth m f (0%Z, 0)))).
  { intros m Hm. rewrite (nth_indep _ 0 (snd (0%Z, 0))) by (rewrite map_length; lia). rewrite map_nth. apply Hc. rewrite <- surjective_pairing.
    apply (Permutation_in _ (P c)). apply nth_In. fold f. lia. }
  rewrite N in Ha by lia. rewrite N in Hb by lia. injection Ha as <-. injection Hb as <-.
  clear - S Hij Hj Lc. rewrite <- Lc in Hj. clear Lc. revert i j Hij Hj. induction S as [|q f S IH F]; intros i j Hij Hj; simpl in Hj; [lia|].
  destruct j as [|j]; [lia|]. destruct i as [|i]; simpl.
  - rewrite Forall_forall in F. apply F, nth_In. lia.
  - apply IH; lia.
Qed.

Definition arrl (ds : list dim) (l : list Z) : hf Z :=
  mkHF (mkNd (map (fun d => length (d_data d)) ds) l) DFloat ds (Some "V") "%.16e".
(** Two variables along rep and one without it; sort by 5, 3, 4. *)
Definition dK : dim := mkDim CDimRep "rep" [LZ 5; LZ 3; LZ 4] None (Some "%s").
Definition xK : hf Z := arrl [dK] [5; 3; 4]%Z.
Definition xFK : hf Z := arrl [dF; dK] [10; 11; 12; 20; 21; 22]%Z.
Definition xF : hf Z := arrl [dF] [1; 2]%Z.
Definition blk3 : block Z := match sets labZ [("V", xK); ("F", xF); ("I", xFK)] b_empty with Ok b => b | Err _ => b_empty end.
(** Labels of dimension [dn] and the values of two variables. *)
Definition look (r : result (block Z)) (dn v w : string) : option (list label * list Z * list Z) :=
  match r with
  | Ok b => match dd_get dn (b_ivar b), dd_get v (b_var b), dd_get w (b_var b) with
            | Ok d, Ok x, Ok y => Some (d_data d, nd_elems (h_nd x), nd_elems (h_nd y))
            | _, _, _ => None
            end
  | Err _ => None
  end.
Example C19_example :
  (exists vs, dd_items (b_var blk3) = Ok vs /\ NoDup (map fst vs) /\ plain_names (map fst vs) (dim_names vs) /\
     Forall (fun p => var_ok "rep" dK (snd p)) vs /\ In "rep" (dim_names vs)) /\
  dd_get "rep" (b_ivar blk3) = Ok dK /\ sorts Z.le argsortZ /\
  look (b_sort labZ argsortZ xK blk3) "rep" "V" "I" = Some ([LZ 3; LZ 4; LZ 5], [3; 4; 5]%Z, [11; 12; 10; 21; 22; 20]%Z).
Proof.
  split.
  { eexists. split; [reflexivity|]. split; [nodup_lit|]. split.
    - split.
      + intros k Hk Hd. vm_compute in Hk, Hd. all_in; discriminate.
      + intros k m e Hk Hm. vm_compute in Hk. all_in; vm_compute in Hm; discriminate.
    - split; [|vm_compute; tauto]. rewrite Forall_forall. intros p Hp. vm_compute in Hp. all_in.
      all: split; [wf_lit|split; [nodup_lit|]]; intros d Hd E; cbn in Hd; all_in; cbn in E; try discriminate; split; reflexivity. }
  split; [reflexivity|]. split; [exact argsortZ_sorts|]. vm_compute. reflexivity.
Qed.

(** A sweep with one point: the key loses its dimension by squeezing and the
    sort raises, though there is nothing to sort. *)
Definition d1p : dim := mkDim CDimRep "rep" [LZ 5] None (Some "%s").
Definition x1p : hf Z := arrl [d1p] [5]%Z.
Theorem C19_single_point_refuted : exists (b : block Z) (x : hf Z),
  sets labZ [("V", x)] b_empty = Ok b /\ wf x /\ b_sort labZ argsortZ x b = Err IndexError.
Proof. exists (or_same (sets labZ [("V", x1p)] b_empty) b_empty), x1p. repeat split; try reflexivity. nodup_lit. Qed.
Print Assumptions C19_single_point_refuted.

(** A dimension that is stored in the block but that no variable has: the sort
    raises. *)
Theorem C19_unused_dimension_refuted : exists (b : block Z) (x : hf Z),
  dd_contains "rep" (b_ivar b) = true /\ wf x /\ h_dims x = [dK] /\ (exists v, dd_get "F" (b_var b) = Ok v) /\
  b_sort labZ argsortZ x b = Err KeyError.
Proof.
  exists (b_set_dim "rep" dK (or_same (sets labZ [("F", xF)] b_empty) b_empty)), xK.
  repeat split; try reflexivity; try nodup_lit. eexists. reflexivity.
Qed.
Print Assumptions C19_unused_dimension_refuted.

(** ** C20 *)
Theorem C20_filter : forall {A} (lab : A -> label) (mask : hf bool) md (b : block A) vs,
  wf mask -> h_dims mask = [md] -> usable md ->
  dd_items (b_var b) = Ok vs -> NoDup (map fst vs) -> plain_names (map fst vs) (dim_names vs) ->
  Forall (fun p => var_ok (d_name md) md (snd p)) vs ->
  exists b' vs' new ps, b_filter lab mask b = Ok b' /\ b_x b' = b_x b /\ dd_items (b_var b') = Ok vs' /\ map fst vs' = map fst vs /\
    (forall p, In p ps <-> nth_error (nd_elems (h_nd mask)) p = Some true) /\
    (forall i j, i < j -> j < length ps -> nth i ps 0 < nth j ps 0) /\
    relabelled md ps new /\
    (In (d_name md) (dim_names vs) -> dd_get (d_name md) (b_ivar b') = Ok new) /\
    Forall2 (fun p p' => rearranged (d_name md) new ps (snd p) (snd p')) vs vs'.
Proof. intros. now apply b_filter_ok. Qed.
Print Assumptions C20_filter.

Definition maskK : hf bool := mkHF (mkNd [3] [true; false; true]) DBool [dK] None "%s".
Example C20_example : wf maskK /\ usable dK /\
  look (b_filter labZ maskK blk3) "rep" "V" "I" = Some ([LZ 5; LZ 4], [5; 4]%Z, [10; 12; 20; 22]%Z).
Proof. split; [wf_lit|]. split; [right; discriminate|]. vm_compute. reflexivity. Qed.

(** The labels are those of the mask: a mask whose dimension has the name of a
    dimension of the block but other labels changes the labels. *)
Theorem C20_mask_labels_refuted : exists (b : block Z) (mask : hf bool) d,
  dd_get "rep" (b_ivar b) = Ok d /\ d_data d = [LZ 5; LZ 3; LZ 4] /\ wf mask /\ h_dims mask <> [] /\
  look (b_filter labZ mask b) "rep" "V" "V" = Some ([LZ 70; LZ 90], [5; 4]%Z, [5; 4]%Z).
Proof.
  exists blk3, (mkHF (mkNd [3] [true; false; true]) DBool [mkDim CDimRep "rep" [LZ 70; LZ 80; LZ 90] None None] None "%s"), dK.
  split; [reflexivity|]. split; [reflexivity|]. split; [wf_lit|]. split; [discriminate|]. vm_compute. reflexivity.
Qed.
Print Assumptions C20_mask_labels_refuted.
