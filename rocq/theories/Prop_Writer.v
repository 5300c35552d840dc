(** C56: writing a block loses nothing. *)
From Coq Require Import String List Arith ZArith Bool Lia Permutation.
From Verif Require Import Model_NdArray Proofs_NdArray Model_Dim Proofs_Dim Model_Array Spec_Array Proofs_Array Proofs_Array2 Proofs_Array3 Proofs_Array4
  Model_DataDict Spec_DataDict Proofs_DataDict Model_Text Model_Block Proofs_Block Proofs_Block2 Proofs_Block3 Prop_Array Prop_Block
  Model_Writer Spec_Writer.
Import ListNotations.
Local Open Scope nat_scope.
Local Open Scope string_scope.
Local Open Scope list_scope.

(** ** Lists *)
Lemma flat_perm : forall {X Y} (f g : X -> list Y) l, (forall x, In x l -> Permutation (f x) (g x)) -> Permutation (flat_map f l) (flat_map g l).
Proof. induction l as [|x l IH]; intros H; simpl; auto. apply Permutation_app; [apply H; now left|apply IH; intros; apply H; now right]. Qed.
Lemma flat_app : forall {X Y} (f g : X -> list Y) l, Permutation (flat_map (fun x => f x ++ g x) l) (flat_map f l ++ flat_map g l).
Proof.
  induction l as [|x l IH]; simpl; auto. rewrite <- !app_assoc. apply Permutation_app_head. rewrite IH.
  rewrite !app_assoc. apply Permutation_app_tail. apply Permutation_app_comm.
Qed.
Lemma flat_swap : forall {X Y Z} (f : X -> Y -> list Z) la lb,
  Permutation (flat_map (fun a => flat_map (f a) lb) la) (flat_map (fun b => flat_map (fun a => f a b) la) lb).
Proof.
  intros X Y Z f la lb. induction la as [|a la IH]; simpl.
  - induction lb; simpl; auto.
  - rewrite IH. symmetry. apply flat_app.
Qed.
Lemma flat_map_map1 : forall {X Y Z} (f : X -> Y) (g : Y -> list Z) l, flat_map g (map f l) = flat_map (fun x => g (f x)) l.
Proof. induction l; simpl; auto. now rewrite IHl. Qed.
Lemma flat_flat : forall {X Y Z} (f : X -> list Y) (g : Y -> list Z) l, flat_map g (flat_map f l) = flat_map (fun x => flat_map g (f x)) l.
Proof. induction l; simpl; auto. now rewrite flat_map_app, IHl. Qed.
Lemma map_flat : forall {X Y Z} (f : Y -> Z) (g : X -> list Y) l, map f (flat_map g l) = flat_map (fun x => map f (g x)) l.
Proof. induction l; simpl; auto. now rewrite map_app, IHl. Qed.
Lemma indices_app : forall s t, indices (s ++ t) = flat_map (fun a => map (app a) (indices t)) (indices s).
Proof.
  induction s as [|n s IH]; intros t; simpl.
  - rewrite app_nil_r. induction (indices t); simpl; congruence.
  - rewrite flat_flat. apply flat_map_ext. intros i. rewrite IH, flat_map_map1, map_flat. apply flat_map_ext. intros a.
    rewrite map_map. reflexivity.
Qed.

Lemma filter_groups : forall {X K} (eqb : K -> K -> bool) (key : X -> K), (forall a b, eqb a b = true <-> a = b) -> forall ks l, NoDup ks ->
  (forall x, In x l -> In (key x) ks) -> Permutation (flat_map (fun k => filter (fun x => eqb (key x) k) l) ks) l.
Proof.
  intros X K eqb key E ks l N. induction l as [|x l IH]; intros H.
  - simpl. induction ks; simpl; auto. apply IHks; [now apply NoDup_cons_iff in N|intros ? []].
  - assert (IN : In (key x) ks) by (apply H; now left). apply in_split in IN as [k1 [k2 EK]].
    transitivity (x :: flat_map (fun k => filter (fun y => eqb (key y) k) l) ks).
    2: { apply perm_skip, IH. intros; apply H; now right. }
    subst ks. rewrite !flat_map_app. cbn [flat_map filter].
    assert (NK : forall ks, ~ In (key x) ks -> flat_map (fun k => if eqb (key x) k then x :: filter (fun y => eqb (key y) k) l else filter (fun y => eqb (key y) k) l) ks = flat_map (fun k => filter (fun y => eqb (key y) k) l) ks).
    { clear IH H N. induction ks as [|k ks IH]; intros NI; simpl; auto. destruct (eqb (key x) k) eqn:Q; [apply E in Q; exfalso; apply NI; now left|].
      rewrite IH; auto. intros I. apply NI. now right. }
    apply NoDup_remove_2 in N. rewrite !NK by (intros I; apply N, in_or_app; auto).
    assert (eqb (key x) (key x) = true) as -> by now apply E. cbn [app]. symmetry. apply Permutation_middle.
Qed.

Lemma names_eqb_eq : forall a b, names_eqb a b = true <-> a = b.
Proof. apply list_eqb_eq. intros. apply String.eqb_eq. Qed.

(** ** The dict of groups *)
Section Groups.
  Context {Q : Type}.
  Implicit Type gs : list (list string * Q).
  Lemma g_get_In : forall ns gs q, g_get ns gs = Some q -> In (ns, q) gs.
  Proof.
    induction gs as [|[n q] gs IH]; simpl; [discriminate|]. intros q' H. destruct (names_eqb ns n) eqn:E; [|right; now apply IH].
    apply names_eqb_eq in E. left. congruence.
  Qed.
  Lemma g_get_none : forall ns gs, g_get ns gs = None -> ~ In ns (map fst gs).
  Proof.
    induction gs as [|[n q] gs IH]; simpl; [tauto|]. destruct (names_eqb ns n) eqn:E; [discriminate|]. intros H [I|I]; [|now apply IH].
    subst n. assert (names_eqb ns ns = true) by now apply names_eqb_eq. congruence.
  Qed.
  Lemma g_set_keys : forall ns q gs, map fst (g_set ns q gs) = if g_get ns gs then map fst gs else map fst gs ++ [ns].
  Proof.
    induction gs as [|[n q'] gs IH]; simpl; auto. destruct (names_eqb ns n) eqn:E; simpl; auto. rewrite IH. destruct (g_get ns gs); auto.
  Qed.
  Lemma g_set_NoDup : forall ns q gs, NoDup (map fst gs) -> NoDup (map fst (g_set ns q gs)).
  Proof.
    intros ns q gs N. rewrite g_set_keys. destruct (g_get ns gs) eqn:E; auto. apply g_get_none in E.
    apply (Permutation_NoDup (Permutation_cons_append _ _)). now constructor.
  Qed.
  Lemma g_set_In : forall ns q gs ns' q', NoDup (map fst gs) -> (In (ns', q') (g_set ns q gs) <-> (ns' = ns /\ q' = q) \/ (ns' <> ns /\ In (ns', q') gs)).
  Proof.
    induction gs as [|[n q0] gs IH]; intros ns' q' N; simpl.
    - split; [intros [E|[]]; left; split; congruence|]. intros [[-> ->]|[_ []]]; auto.
    - simpl in N. apply NoDup_cons_iff in N as [N1 N2]. destruct (names_eqb ns n) eqn:E; simpl.
      + apply names_eqb_eq in E. subst n. split.
        * intros [I|I]; [left; split; congruence|]. right. split; auto. intros ->. apply N1. now apply (in_map fst) in I.
        * intros [[-> ->]|[D [I|I]]]; auto. congruence.
      + assert (D : n <> ns) by (intros ->; assert (names_eqb ns ns = true) by (now apply names_eqb_eq); congruence).
        rewrite IH by auto. split.
        * intros [I|[I|[D' I]]]; auto. injection I as -> ->. right. split; auto.
        * intros [I|[D' [I|I]]]; auto.
  Qed.
  Lemma g_set_key_in : forall ns q gs k, In k (map fst (g_set ns q gs)) <-> k = ns \/ In k (map fst gs).
  Proof.
    intros. rewrite g_set_keys. destruct (g_get ns gs) eqn:E.
    - apply g_get_In in E. split; auto. intros [->|I]; auto. now apply (in_map fst) in E.
    - rewrite in_app_iff. simpl. intuition congruence.
  Qed.
End Groups.

(** ** One column *)
Definition lens (ds : list dim) : list nat := map (fun d => length (d_data d)) ds.

Lemma full_positions : forall n, slice_positions n full_slice = Ok (seq 0 n).
Proof.
  intros n. destruct (slice_positions_ok n full_slice) as [ps [P1 P2]]; [discriminate|]. rewrite P1. f_equal. now apply full_slice_selects.
Qed.
Lemma sel_ints : forall ds idx sh l r, inb (lens ds) idx = true -> axis_selection sh l = Ok r ->
  axis_selection (lens ds ++ sh) (map (fun i => IInt (Z.of_nat i)) idx ++ l) = Ok (map (fun i => (true, [i])) idx ++ r).
Proof.
  induction ds as [|d ds IH]; intros [|i idx] sh l r H E; simpl in *; try discriminate; auto.
  apply andb_prop in H as [H1 H2]. apply Nat.ltb_lt in H1. unfold py_pos.
  assert (((0 <=? Z.of_nat i) && (Z.of_nat i <? Z.of_nat (length (d_data d))))%Z = true) as -> by lia. cbn [of_option bind].
  rewrite Nat2Z.id. rewrite (IH idx sh l r H2 E). reflexivity.
Qed.
Lemma sel_full : forall sh, axis_selection sh (repeat (ISlice full_slice) (length sh)) = Ok (map (fun n => (false, seq 0 n)) sh).
Proof. induction sh as [|n sh IH]; cbn [length repeat axis_selection map]; auto. rewrite full_positions. cbn [bind]. rewrite IH. reflexivity. Qed.
Lemma dims_ints : forall ds idx es l, length idx = length ds -> index_dims (ds ++ es) (map (fun i => IInt (Z.of_nat i)) idx ++ l) = index_dims es l.
Proof. induction ds as [|d ds IH]; intros [|i idx] es l H; simpl in *; try discriminate; auto. Qed.
Lemma dims_full : forall es, index_dims es (repeat (ISlice full_slice) (length es)) = Ok es.
Proof. induction es as [|d es IH]; cbn [length repeat index_dims]; auto. unfold dim_getslice at 1. cbn [slice_eqb full_slice s_start s_stop s_step option_eqb andb bind]. rewrite IH. reflexivity. Qed.
Lemma shape_full : forall sh, selected_shape (map (fun n => (false, seq 0 n)) sh) = sh.
Proof. induction sh as [|n sh IH]; auto. unfold selected_shape in *. simpl. rewrite seq_length. now rewrite IH. Qed.
Lemma shape_ints : forall idx r, selected_shape (map (fun i => (true, [i])) idx ++ r) = selected_shape r.
Proof. induction idx as [|i idx IH]; intros r; auto. unfold selected_shape in *. simpl. apply IH. Qed.
Lemma ix_full : forall sh ix, inb sh ix = true -> selected_ix (map (fun n => (false, seq 0 n)) sh) ix = ix.
Proof.
  induction sh as [|n sh IH]; intros [|i ix] H; simpl in *; try discriminate; auto. apply andb_prop in H as [H1 H2]. apply Nat.ltb_lt in H1.
  rewrite seq_nth by auto. now rewrite IH.
Qed.
Lemma ix_ints : forall idx r ix, selected_ix (map (fun i => (true, [i])) idx ++ r) ix = idx ++ selected_ix r ix.
Proof. induction idx as [|i idx IH]; intros r ix; simpl; auto. now rewrite IH. Qed.

Lemma column_ok : forall {A} (x : hf A) d0 ds ms idx, wf x -> h_dims x = d0 :: ds ++ ms -> inb (lens ds) idx = true ->
  exists y, column idx x = Ok y /\ h_shape y = length (d_data d0) :: lens ms /\
    forall i me, inb (length (d_data d0) :: lens ms) (i :: me) = true -> nd_get (h_nd y) (i :: me) = nd_get (h_nd x) (i :: idx ++ me).
Proof.
  intros A x d0 ds ms idx [W1 [W2 W3]] D I. unfold column, getitem.
  assert (LI : length idx = length ds) by (apply inb_length in I; unfold lens in I; now rewrite map_length in I).
  assert (SH : h_shape x = length (d_data d0) :: lens ds ++ lens ms).
  { unfold labels_match in W2. rewrite <- W2, D. cbn [map]. unfold lens. now rewrite map_app. }
  assert (NDIM : h_ndim x = S (length ds + length ms)).
  { unfold h_ndim. fold (h_shape x). rewrite SH. simpl. unfold lens. rewrite app_length, !map_length. lia. }
  assert (EX : expand_items (h_ndim x) (ISlice full_slice :: map (fun i => IInt (Z.of_nat i)) idx) =
    Ok (ISlice full_slice :: map (fun i => IInt (Z.of_nat i)) idx ++ repeat (ISlice full_slice) (length ms))).
  { unfold expand_items. rewrite filter_none; [|constructor; [discriminate|]; apply Forall_forall; intros z Hz; apply in_map_iff in Hz as [? [<- _]]; discriminate].
    cbn [length bind]. rewrite NDIM, map_length, LI. replace (S (length ds + length ms) - S (length ds)) with (length ms) by lia. reflexivity. }
  rewrite EX. cbn [bind]. rewrite D. cbn [index_dims]. unfold dim_getslice at 1. cbn [slice_eqb full_slice s_start s_stop s_step option_eqb andb bind].
  rewrite dims_ints by auto. change (mkSlice None None None) with full_slice. rewrite dims_full. cbn [bind].
  unfold nd_getitem. fold (h_shape x). rewrite SH. cbn [axis_selection]. rewrite full_positions. cbn [bind].
  assert (SF : axis_selection (lens ms) (repeat (ISlice full_slice) (length ms)) = Ok (map (fun n => (false, seq 0 n)) (lens ms))).
  { pose proof (sel_full (lens ms)) as G. unfold lens in G at 2. now rewrite map_length in G. }
  rewrite (sel_ints _ _ _ _ _ I SF). cbn [bind].
  set (sel := (false, seq 0 (length (d_data d0))) :: map (fun i => (true, [i])) idx ++ map (fun n => (false, seq 0 n)) (lens ms)).
  assert (SS : selected_shape sel = length (d_data d0) :: lens ms).
  { unfold sel, selected_shape. cbn [flat_map fst snd]. rewrite seq_length. cbn [app]. f_equal.
    change (selected_shape (map (fun i => (true, [i])) idx ++ map (fun n => (false, seq 0 n)) (lens ms)) = lens ms). now rewrite shape_ints, shape_full. }
  rewrite SS. cbn [forallb is_int andb]. unfold new_from. cbn [nd_shape nd_tab length]. unfold lens at 1. rewrite map_length, Nat.eqb_refl. cbn [bind].
  eexists. split; [reflexivity|]. cbn [h_nd]. split; [reflexivity|]. intros i me H. rewrite nd_get_tab; auto.
  - unfold sel. cbn [selected_ix hd tl]. cbn [inb] in H. apply andb_prop in H as [H1 H2]. apply Nat.ltb_lt in H1. rewrite seq_nth by auto.
    now rewrite ix_ints, ix_full.
  - intros ix H'. destruct ix as [|i' me']; [discriminate|]. cbn [inb] in H'. apply andb_prop in H' as [H1 H2]. pose proof H1 as H1'. apply Nat.ltb_lt in H1.
    unfold sel. cbn [selected_ix hd tl]. rewrite seq_nth by auto. rewrite ix_ints, ix_full by auto.
    destruct (nd_get_some (h_nd x) (0 + i' :: idx ++ me')) as [v V]; auto; [|congruence].
    fold (h_shape x). rewrite SH. change (0 + i') with i'. cbn [inb]. rewrite inb_app by (unfold lens; rewrite map_length; congruence). now rewrite I, H2, H1'.
Qed.

(** ** The tables of a group *)
Definition onames {A} (kx : string * hf A) : list string := map d_name (outer_dims (snd kx)).
Lemma outer_names_spec : forall {A} (x : hf A), outer_names (ismatrix x) (h_dims x) = map d_name (outer_dims x).
Proof.
  intros. unfold outer_names, outer_dims, get_dims_names. destruct (ismatrix x); auto. now rewrite map_length, firstn_map.
Qed.
Lemma can_format_ok : forall d, can_format d -> exists a, dim_array d = Ok a /\ nd_elems (h_nd a) = d_data d /\ h_shape a = [length (d_data d)].
Proof.
  intros d H. unfold dim_array. assert (exists f, outputformat d = Ok f) as [f ->].
  { unfold outputformat. destruct (d_fmt d) as [f|] eqn:E; [eauto|]. destruct H as [H|H]; [|congruence]. destruct (d_data d) as [|[]]; eauto. congruence. }
  cbn [bind]. eexists. split; [reflexivity|]. split; reflexivity.
Qed.

Lemma sweep_ok : forall ns ds idx, inb (map (fun a => length (nd_elems (h_nd a))) ds) idx = true -> length ns = length ds ->
  exists sv, sweepvars ns ds idx = Ok sv /\ map (fun s : string * string * label => (fst (fst s), snd s)) sv = at_labels ns (map (fun a => nd_elems (h_nd a)) ds) idx.
Proof.
  induction ns as [|n ns IH]; intros [|d ds] [|i idx] H L; simpl in *; try discriminate; [exists []; auto|].
  apply andb_prop in H as [H1 H2]. apply Nat.ltb_lt in H1. destruct (nth_error (nd_elems (h_nd d)) i) as [l|] eqn:E; [|apply nth_error_None in E; lia].
  destruct (IH ds idx H2) as [sv [S1 S2]]; [congruence|]. cbn [of_option bind]. rewrite S1. cbn [bind]. eexists. split; [reflexivity|].
  simpl. rewrite S2. f_equal. f_equal. symmetry. now apply nth_error_nth.
Qed.

Lemma at_labels_app : forall ns ls ix me, length ls = length ns -> length ix = length ns -> at_labels ns ls (ix ++ me) = at_labels ns ls ix.
Proof.
  induction ns as [|n ns IH]; intros [|l ls] [|i ix] me H1 H2; simpl in *; try discriminate; auto. f_equal. apply IH; congruence.
Qed.

Section Tables.
  Context {A : Type}.
  (** The numbers of a variable that belong to one table. *)
  Definition part (L0 : list label) (n : string) (ns : list string) (Ls : list (list label)) (idx : list nat) (kx : string * hf A) : list (cell A) :=
    flat_map (fun r => flat_map (fun me => map (fun v => (fst kx, at_labels (n :: ns) (L0 :: Ls) (r :: idx), me, v)) (opt_list (nd_get (h_nd (snd kx)) (r :: idx ++ me))))
      (indices (skipn (S (length ns)) (h_shape (snd kx))))) (seq 0 (length L0)).

  Lemma outer_split : forall (x : hf A), h_dims x = outer_dims x ++ skipn (length (outer_dims x)) (h_dims x).
  Proof.
    intros x. unfold outer_dims. destruct (ismatrix x).
    - rewrite firstn_length, Nat.min_l by lia. now rewrite firstn_skipn.
    - now rewrite skipn_all, app_nil_r.
  Qed.

  Lemma parts_all : forall L0 n ns Ls kx, wf (snd kx) -> onames kx = n :: ns -> map d_data (outer_dims (snd kx)) = L0 :: Ls ->
    Permutation (flat_map (fun idx => part L0 n ns Ls idx kx) (indices (map (@length label) Ls))) (var_cells kx).
  Proof.
    intros L0 n ns Ls [k x] W N D. cbn [fst snd] in *. unfold onames in N. cbn [snd] in N.
    unfold part. rewrite flat_swap. unfold var_cells. cbn [fst snd]. rewrite N, D.
    assert (SH : h_shape x = length L0 :: map (@length label) Ls ++ skipn (S (length ns)) (h_shape x)).
    { destruct W as [_ [W _]]. unfold labels_match in W. rewrite <- W. rewrite (outer_split x) at 1. rewrite map_app.
      assert (E : map (fun d => length (d_data d)) (outer_dims x) = length L0 :: map (@length label) Ls) by (rewrite <- map_map, D; reflexivity).
      rewrite E. cbn [app]. do 2 f_equal. rewrite skipn_map. f_equal. f_equal.
      apply (f_equal (@length string)) in N. rewrite map_length in N. simpl in N. exact N. }
    set (ms := skipn (S (length ns)) (h_shape x)) in *. rewrite SH. cbn [indices]. rewrite flat_flat. apply flat_perm. intros r _.
    rewrite flat_map_map1, indices_app, flat_flat. apply flat_perm. intros idx I. rewrite flat_map_map1. apply in_indices, inb_length in I.
    rewrite map_length in I.
    assert (L : length Ls = length ns).
    { apply (f_equal (@length string)) in N. apply (f_equal (@length (list label))) in D. rewrite map_length in N, D. simpl in N, D. congruence. }
    assert (LO : length (outer_dims x) = S (length ns)) by (apply (f_equal (@length string)) in N; rewrite map_length in N; exact N).
    apply flat_perm. intros me _. rewrite LO. cbn [skipn]. rewrite skipn_app, skipn_all2 by lia. rewrite I, L, Nat.sub_diag. cbn [app skipn].
    replace (at_labels (n :: ns) (L0 :: Ls) (r :: idx ++ me)) with (at_labels (n :: ns) (L0 :: Ls) (r :: idx)); auto.
    change (r :: idx ++ me) with ((r :: idx) ++ me). symmetry. apply at_labels_app; simpl; congruence.
  Qed.

  Lemma table_part : forall vs L0 n ns Ls idx (a0 : hf label) sv cols,
    nd_elems (h_nd a0) = L0 -> map (fun s : string * string * label => (fst (fst s), snd s)) sv = at_labels ns Ls idx ->
    Forall2 (fun kx y => h_shape y = length L0 :: skipn (S (length ns)) (h_shape (snd kx)) /\
       forall i me, inb (h_shape y) (i :: me) = true -> nd_get (h_nd y) (i :: me) = nd_get (h_nd (snd kx)) (i :: idx ++ me)) vs cols ->
    table_cells (mkTable sv (n :: map fst vs) (Some a0) cols []) = flat_map (part L0 n ns Ls idx) (vs : list (string * hf A)).
  Proof.
    intros vs L0 n ns Ls idx a0 sv cols E0 ES F. unfold table_cells. cbn [t_header t_x t_sweep t_cols]. rewrite ES.
    induction F as [|[k x] y vs cols [F1 F2] F IH]; simpl; auto. cbn [map fst combine flat_map] in *. f_equal; auto.
    clear IH. cbn [snd] in *. unfold part. cbn [fst snd]. rewrite F1. cbn [indices]. rewrite flat_flat. apply flat_map_ext_in. intros r Hr. apply in_seq in Hr.
    rewrite flat_map_map1. apply flat_map_ext_in. intros me Hm. apply in_indices in Hm.
    rewrite F2 by (rewrite F1; cbn [inb]; rewrite Hm, andb_true_r; apply Nat.ltb_lt; lia).
    rewrite E0. destruct (nth_error L0 r) as [l|] eqn:E; [|apply nth_error_None in E; lia]. cbn [opt_list flat_map]. rewrite app_nil_r.
    cbn [at_labels]. now rewrite (nth_error_nth L0 r (LZ 0) E).
  Qed.
End Tables.

Definition labelled (iv : ddict dim) (ds : list dim) : Prop :=
  forall d, In d ds -> exists i, pd_get (d_name d) (dd_map iv) = Some i /\ d_data i = d_data d /\ can_format i.

Lemma dimsdata_ok : forall iv ds, labelled iv ds ->
  exists ars, mapM (fun n => do i <- dd_get n iv; dim_array i) (map d_name ds) = Ok ars /\
    map (fun a => nd_elems (h_nd a)) ars = map d_data ds /\ map (fun a => nth 0 (h_shape a) 0) ars = lens ds.
Proof.
  induction ds as [|d ds IH]; intros H; cbn [map mapM]; [exists []; auto|]. destruct (H d) as [i [I1 [I2 I3]]]; [now left|].
  unfold dd_get at 1. rewrite I1. cbn [of_option bind]. destruct (can_format_ok i I3) as [a [A1 [A2 A3]]]. rewrite A1. cbn [bind].
  destruct IH as [ars [R1 [R2 R3]]]; [intros d' D'; apply H; now right|]. rewrite R1. cbn [bind]. exists (a :: ars). split; auto.
  cbn [map]. rewrite A2, A3, I2, R2. split; auto. cbn [nth lens map]. f_equal. exact R3.
Qed.
Lemma labels_agree : forall iv ds ds', labelled iv ds -> labelled iv ds' -> map d_name ds = map d_name ds' -> map d_data ds = map d_data ds'.
Proof.
  induction ds as [|d ds IH]; intros [|d' ds'] H H' E; try discriminate; auto. cbn [map] in *. injection E as E1 E2. f_equal.
  - destruct (H d) as [i [I1 [I2 _]]]; [now left|]. destruct (H' d') as [i' [J1 [J2 _]]]; [now left|]. rewrite E1 in I1. congruence.
  - apply IH; auto; intros ? ?; [apply H|apply H']; now right.
Qed.

Lemma mapM_exists : forall {X Y} (f : X -> result Y) (P : X -> Y -> Prop) l, (forall x, In x l -> exists y, f x = Ok y /\ P x y) ->
  exists ys, mapM f l = Ok ys /\ Forall2 P l ys.
Proof.
  induction l as [|x l IH]; intros H; simpl; [exists []; auto|]. destruct (H x) as [y [Y1 Y2]]; [now left|]. rewrite Y1. cbn [bind].
  destruct IH as [ys [E F]]; [intros; apply H; now right|]. rewrite E. cbn [bind]. exists (y :: ys). auto.
Qed.

Lemma make_block_ok : forall {A} (q : block A) ns, Inv (b_var q) -> dabs (b_var q) <> [] ->
  (forall kx, In kx (dabs (b_var q)) -> wf (snd kx) /\ onames kx = ns /\ labelled (b_ivar q) (outer_dims (snd kx))) ->
  exists ts, make_block_iterator q = Ok ts /\ Forall rectangular ts /\ flat_map bare ts = [] /\
    if names_eqb ns [] then flat_map table_cells ts = [] /\ flat_map t_props ts = filter is_scalar (dabs (b_var q))
    else Permutation (flat_map table_cells ts) (flat_map var_cells (dabs (b_var q))) /\ flat_map t_props ts = [].
Proof.
  intros A q ns HI NE H. unfold make_block_iterator. rewrite items_abs by auto. cbn [bind]. remember (dabs (b_var q)) as vs eqn:EV. clear EV.
  destruct vs as [|[k0 x0] vs']; [congruence|]. rewrite outer_names_spec. set (vs := (k0, x0) :: vs') in *.
  destruct (H (k0, x0)) as [W0 [N0 L0]]; [now left|]. cbn [snd] in *. unfold onames in N0. cbn [snd] in N0.
  destruct (dimsdata_ok _ _ L0) as [ars [R1 [R2 R3]]]. rewrite R1. cbn [bind].
  assert (LAB : forall kx, In kx vs -> map d_data (outer_dims (snd kx)) = map (fun a => nd_elems (h_nd a)) ars).
  { intros kx I. destruct (H kx I) as [_ [N L]]. rewrite R2. apply (labels_agree (b_ivar q)); auto. unfold onames in N. congruence. }
  rewrite N0. destruct ns as [|n ns].
  - (* scalars *)
    assert (ars = []) as -> by (apply (f_equal (@length _)) in R2; rewrite !map_length in R2; apply (f_equal (@length _)) in N0; rewrite map_length in N0; destruct ars; auto; simpl in *; congruence).
    cbn [tl map indices mapM sweepvars bind]. eexists. split; [reflexivity|]. split; [repeat constructor|]. cbn [names_eqb list_eqb flat_map app bare t_header]. split; auto.
    split; auto. cbn [t_props]. rewrite app_nil_r. apply filter_ext. intros [k x]. unfold is_scalar. cbn [snd]. destruct (h_dims x); reflexivity.
  - destruct ars as [|a0 ars]; [apply (f_equal (@length _)) in R2; rewrite !map_length in R2; apply (f_equal (@length _)) in N0; rewrite map_length in N0; simpl in *; congruence|].
    cbn [tl]. assert (SHT : map (fun a => nth 0 (h_shape a) 0) ars = map (@length label) (map (fun a => nd_elems (h_nd a)) ars)).
    { destruct (outer_dims x0) as [|d0 ds0]; [discriminate|]. cbn [map lens] in R2, R3. injection R2 as _ R2. injection R3 as _ R3.
      rewrite R2, R3. now rewrite map_map. }
    rewrite SHT.
    assert (LN : length ns = length ars).
    { apply (f_equal (@length _)) in N0. rewrite map_length in N0. apply (f_equal (@length _)) in R2. rewrite !map_length in R2. simpl in *. congruence. }
    destruct (mapM_exists (fun idx => do sv <- sweepvars ns ars idx; do cols <- mapM (fun kv => column idx (snd kv)) vs; Ok (mkTable sv (n :: map fst vs) (Some a0) cols []))
      (fun idx t => rectangular t /\ bare t = [] /\ t_props t = [] /\ table_cells t = flat_map (part (nd_elems (h_nd a0)) n ns (map (fun a => nd_elems (h_nd a)) ars) idx) vs)
      (indices (map (@length label) (map (fun a => nd_elems (h_nd a)) ars)))) as [ts [T1 T2]].
    { intros idx I. apply in_indices in I. pose proof I as I'. rewrite map_map in I'. destruct (sweep_ok ns ars idx I' LN) as [sv [S1 S2]]. rewrite S1. cbn [bind].
      destruct (mapM_exists (fun kv => column idx (snd kv)) (fun kx y => h_shape y = length (nd_elems (h_nd a0)) :: skipn (S (length ns)) (h_shape (snd kx)) /\
       forall i me, inb (h_shape y) (i :: me) = true -> nd_get (h_nd y) (i :: me) = nd_get (h_nd (snd kx)) (i :: idx ++ me)) vs) as [cols [C1 C2]].
      { intros [k x] IK. destruct (H _ IK) as [W [N L]]. specialize (LAB _ IK). cbn [snd] in *. pose proof (outer_split x) as SP. unfold onames in N. cbn [snd] in N.
        assert (LO : length (outer_dims x) = S (length ns)) by (apply (f_equal (@length _)) in N; rewrite map_length in N; exact N).
        rewrite LO in SP. destruct (outer_dims x) as [|d0 ds]; [discriminate|]. cbn [map] in LAB. injection LAB as LA1 LA2.
        destruct (column_ok x d0 ds (skipn (S (length ns)) (h_dims x)) idx W SP) as [y [Y1 [Y2 Y3]]].
        { unfold lens. rewrite <- map_map, LA2. exact I. }
        exists y. split; auto. rewrite Y2. split; [|exact Y3]. rewrite <- LA1. f_equal. destruct W as [_ [W _]]. unfold labels_match in W. rewrite <- W.
        unfold lens. symmetry. apply skipn_map. }
      rewrite C1. cbn [bind]. eexists. split; [reflexivity|]. split.
      { unfold rectangular. cbn [t_x t_header t_cols length]. rewrite map_length. split; [f_equal; clear - C2; induction C2; simpl; auto|].
        clear - C2. induction C2 as [|kx y l l' [Y1 Y2] C IH]; constructor; auto. unfold h_ndim. fold (h_shape y). rewrite Y1. split; simpl; auto. }
      split; [reflexivity|]. split; [reflexivity|]. now apply table_part. }
    rewrite T1. exists ts. split; auto.
    assert (G : Forall rectangular ts /\ flat_map bare ts = [] /\ flat_map t_props ts = [] /\ flat_map table_cells ts =
      flat_map (fun idx => flat_map (part (nd_elems (h_nd a0)) n ns (map (fun a => nd_elems (h_nd a)) ars) idx) vs) (indices (map (@length label) (map (fun a => nd_elems (h_nd a)) ars)))).
    { clear T1. induction T2 as [|idx t ids ts [B0 [B1 [B2 B3]]] T2 IH]; cbn [flat_map]; auto. destruct IH as [I0 [-> [-> ->]]]. rewrite B1, B2, B3. auto. }
    destruct G as [G0 [G1 [G2 G3]]]. split; auto. split; auto. cbn [names_eqb list_eqb]. split; auto. rewrite G3, flat_swap. apply flat_perm. intros kx IK.
    destruct (H _ IK) as [W [N L]]. specialize (LAB _ IK). cbn [map] in LAB. now apply parts_all.
Qed.

Lemma add_ivars_from : forall ds iv n d, pd_get n (dd_map (add_ivars ds iv)) = Some d -> pd_get n (dd_map iv) = Some d \/ (In d ds /\ n = d_name d).
Proof.
  unfold add_ivars. induction ds as [|d0 ds IH]; simpl; auto. intros iv n d H. apply IH in H as [H|[H1 H2]]; [|right; auto].
  destruct (dd_contains (d_name d0) iv); auto. rewrite get_set in H. destruct (String.eqb_spec n (d_name d0)); auto. injection H as <-. right. auto.
Qed.

Lemma abs_In : forall {V} (d : ddict V) kv, Inv d -> In kv (dabs d) -> pd_get (fst kv) (dd_map d) = Some (snd kv).
Proof.
  intros V d [k x] H I. rewrite <- abs_get by auto. pose proof (abs_NoDup _ H) as N. unfold keys in N.
  induction (dabs d) as [|[k' x'] l IH]; [destruct I|]. simpl in N. apply NoDup_cons_iff in N as [N1 N2]. cbn [fst snd pd_get] in *.
  destruct I as [E|I]; [injection E as -> ->; now rewrite String.eqb_refl|]. destruct (String.eqb_spec k k'); [subst; exfalso; apply N1; now apply (in_map fst) in I|]. auto.
Qed.

(** ** Distribution of the variables *)
Section Groups2.
  Context {A : Type} (lab : A -> label) (emb : label -> A) (b : block A) (HB : BInv b) (HW : writable b).

  Definition GInv (pre : list (string * hf A)) (gs : list (list string * block A)) : Prop :=
    NoDup (map fst gs) /\ (forall kx, In kx pre -> In (onames kx) (map fst gs)) /\
    forall ns q, In (ns, q) gs -> BInv q /\ dabs (b_var q) = filter (fun kx => names_eqb (onames kx) ns) pre /\ dabs (b_var q) <> [] /\
      (forall n d, pd_get n (dd_map (b_ivar q)) = Some d -> exists kx, In kx pre /\ In d (h_dims (snd kx)) /\ n = d_name d).

  Lemma var_get : forall kx, In kx (dabs (b_var b)) -> pd_get (fst kx) (dd_map (b_var b)) = Some (snd kx).
  Proof. intros kx I. now apply (abs_In _ _ (proj1 HB)). Qed.

  Lemma group_vars_ok : forall suf pre gs, dabs (b_var b) = pre ++ suf -> GInv pre gs ->
    exists gs', group_vars lab emb (map fst suf) b gs = Ok gs' /\ GInv (pre ++ suf) gs'.
  Proof.
    induction suf as [|[k x] suf IH]; intros pre gs E G; [exists gs; rewrite app_nil_r; auto|]. cbn [map fst group_vars].
    assert (I : In (k, x) (dabs (b_var b))) by (rewrite E; apply in_or_app; right; now left).
    pose proof (var_get _ I) as GK. cbn [fst snd] in GK. unfold dd_get. rewrite GK. cbn [of_option bind].
    destruct (proj1 HW k x) as [W1 [W2 [W3 W4]]]; [unfold dd_get; now rewrite GK|].
    assert (NI : pd_get k (dd_map (b_ivar b)) = None) by (unfold dd_contains, pd_has in W3; destruct (pd_get k (dd_map (b_ivar b))); congruence).
    unfold b_get. rewrite NI, GK. cbn [bind found_arr]. rewrite outer_names_spec. change (map d_name (outer_dims x)) with (onames (k, x)).
    set (ns := onames (k, x)) in *. destruct G as [G1 [G2 G3]].
    set (q := match g_get ns gs with Some q => q | None => b_empty end).
    assert (Q : BInv q /\ dabs (b_var q) = filter (fun kx => names_eqb (onames kx) ns) pre /\
      (forall n d, pd_get n (dd_map (b_ivar q)) = Some d -> exists kx, In kx pre /\ In d (h_dims (snd kx)) /\ n = d_name d)).
    { unfold q. destruct (g_get ns gs) as [q0|] eqn:EQ.
      - apply g_get_In in EQ. destruct (G3 _ _ EQ) as [? [? [? ?]]]. auto.
      - apply g_get_none in EQ. split; [apply empty_BInv|]. split; [|intros n d; discriminate]. cbn. symmetry.
        assert (F : forall l, (forall kx, In kx l -> In kx pre) -> filter (fun kx => names_eqb (onames kx) ns) l = []).
        { induction l as [|kx l IL]; intros S; simpl; auto. destruct (names_eqb (onames kx) ns) eqn:EE; [|apply IL; intros; apply S; now right].
          apply names_eqb_eq in EE. exfalso. apply EQ. rewrite <- EE. apply G2, S. now left. }
        apply F. auto. }
    clearbody q. destruct Q as [QB [QV QI]].
    assert (PRE : forall kx, In kx pre -> In kx (dabs (b_var b))) by (intros; rewrite E; apply in_or_app; now left).
    assert (KN : ~ In k (map fst pre)).
    { pose proof (abs_NoDup _ (proj1 HB)) as N. unfold keys in N. rewrite E, map_app in N. cbn [map fst] in N. apply NoDup_remove_2 in N. intros X. apply N, in_or_app. now left. }
    assert (QK : ~ In k (map fst (dabs (b_var q)))).
    { rewrite QV. intros X. apply in_map_iff in X as [kx [X1 X2]]. apply filter_In in X2 as [X2 _]. apply KN. rewrite <- X1. now apply in_map. }
    assert (BS : b_set lab k x q = Ok (mkBlock (dd_set k x (b_var q)) (add_ivars (h_dims x) (b_ivar q)) (next_x (b_x q) (h_dims x)))).
    { unfold b_set.
      assert (match is_matrix_name k with Some (m, e) => if dd_contains m (b_var q) && negb (ismatrix x) then Some (m, e) else None | None => None end = None) as ->.
      { destruct (is_matrix_name k) as [[m e]|] eqn:EM; auto. destruct (W4 m e eq_refl) as [C| ->]; [|now rewrite andb_false_r].
        destruct (dd_contains m (b_var q)) eqn:CM; auto. exfalso. apply contains_abs in CM; [|apply QB]. rewrite QV in CM.
        apply in_map_iff in CM as [kx [X1 X2]]. apply filter_In in X2 as [X2 _]. apply PRE in X2. apply var_get in X2.
        unfold dd_contains, pd_has in C. rewrite <- X1, X2 in C. discriminate. }
      assert (pd_get k (dd_map (b_ivar q)) = None) as ->; [|reflexivity].
      destruct (pd_get k (dd_map (b_ivar q))) as [d|] eqn:ED; auto. exfalso. destruct (QI _ _ ED) as [kx [X1 [X2 X3]]].
      apply PRE, var_get in X1. destruct HB as [_ [_ HBD]]. pose proof (HBD _ _ _ X1 X2) as CD. rewrite <- X3 in CD. congruence. }
    rewrite BS. cbn [bind]. replace (pre ++ (k, x) :: suf) with ((pre ++ [(k, x)]) ++ suf) by now rewrite <- app_assoc.
    apply IH; [now rewrite <- app_assoc|]. split; [now apply g_set_NoDup|]. split.
    - intros kx KX. apply g_set_key_in. apply in_app_or in KX as [KX|[KX|[]]]; [right; now apply G2|left; now subst kx].
    - intros ns' q' IQ. apply g_set_In in IQ; auto. destruct IQ as [[-> ->]|[D IQ]].
      + split; [eapply b_set_BInv; eauto|]. cbn [b_var b_ivar]. rewrite abs_set_new by (auto; apply QB). rewrite filter_app. cbn [filter].
        assert (names_eqb (onames (k, x)) ns = true) as -> by now apply names_eqb_eq. rewrite QV. split; auto.
        split; [intros X; apply app_eq_nil in X as [_ X]; discriminate|]. intros n d GD.
        destruct (pd_get n (dd_map (b_ivar q))) as [d'|] eqn:EN.
        * rewrite (add_ivars_old _ _ _ _ EN) in GD. injection GD as <-. destruct (QI _ _ EN) as [kx [X1 [X2 X3]]]. exists kx. split; [apply in_or_app; now left|auto].
        * destruct (add_ivars_from (h_dims x) (b_ivar q) n d GD) as [X|[X1 X2]]; [congruence|]. exists (k, x). split; [apply in_or_app; right; now left|auto].
      + destruct (G3 _ _ IQ) as [P1 [P2 [P3 P4]]]. split; auto. split; [|split; auto].
        * rewrite filter_app. cbn [filter]. destruct (names_eqb (onames (k, x)) ns') eqn:EE; [apply names_eqb_eq in EE; exfalso; apply D; symmetry; exact EE|]. now rewrite app_nil_r.
        * intros n d GD. destruct (P4 n d GD) as [kx [X1 X2]]. exists kx. split; auto. apply in_or_app. now left.
  Qed.

  Lemma group_labelled : forall ns q gs, GInv (dabs (b_var b)) gs -> In (ns, q) gs -> forall kx, In kx (dabs (b_var q)) ->
    In kx (dabs (b_var b)) /\ wf (snd kx) /\ onames kx = ns /\ labelled (b_ivar q) (outer_dims (snd kx)).
  Proof.
    intros ns q gs [G1 [G2 G3]] I kx IK. destruct (G3 _ _ I) as [P1 [P2 [_ P4]]].
    assert (IK' := IK). rewrite P2 in IK'. apply filter_In in IK' as [IB EN]. apply names_eqb_eq in EN.
    pose proof (var_get _ IB) as GK. destruct (proj1 HW (fst kx) (snd kx)) as [W1 [W2 _]]; [unfold dd_get; now rewrite GK|].
    split; auto. split; auto. split; auto. intros d ID.
    assert (ID' : In d (h_dims (snd kx))) by (rewrite outer_split; apply in_or_app; now left).
    assert (C : dd_contains (d_name d) (b_ivar q) = true).
    { destruct P1 as [Q1 [_ P1]]. apply (P1 (fst kx) (snd kx) d); auto. now apply abs_In. }
    apply contains_get in C as [i C]. exists i. split; auto. destruct (P4 _ _ C) as [ky [Y1 [Y2 Y3]]]. pose proof (var_get _ Y1) as GY. split.
    - apply (proj1 (proj2 HW) (fst ky) (snd ky) (fst kx) (snd kx)); auto; unfold dd_get; now rewrite ?GY, ?GK.
    - destruct (proj1 HW (fst ky) (snd ky)) as [_ [F _]]; [unfold dd_get; now rewrite GY|]. rewrite Forall_forall in F. auto.
  Qed.

  Lemma g_set_new : forall {Q} n (q : Q) gs, g_get n gs = None -> g_set n q gs = gs ++ [(n, q)].
  Proof. induction gs as [|[n' q'] gs IH]; simpl; auto. destruct (names_eqb n n'); [discriminate|]. intros H. now rewrite IH. Qed.
  Lemma g_get_notin : forall {Q} n (gs : list (list string * Q)), ~ In n (map fst gs) -> g_get n gs = None.
  Proof.
    induction gs as [|[n' q'] gs IH]; simpl; auto. intros H. destruct (names_eqb n n') eqn:E; [apply names_eqb_eq in E; subst; tauto|]. apply IH. tauto.
  Qed.

  Definition dangle (nd : string * dim) : list string * block A := ([fst nd], b_set_dim (fst nd) (snd nd) b_empty).
  Lemma group_ivars_ok : forall nds gs, (forall nd, In nd nds -> pd_get (fst nd) (dd_map (b_ivar b)) = Some (snd nd)) -> NoDup (map fst nds) ->
    (forall n, In n (map fst nds) -> ~ In [n] (map fst gs)) -> group_ivars (map fst nds) b gs = Ok (gs ++ map dangle nds).
  Proof.
    induction nds as [|[n d] nds IH]; intros gs H N K; cbn [map fst group_ivars]; [now rewrite app_nil_r|].
    pose proof (H (n, d) (or_introl eq_refl)) as HG. cbn [fst snd] in HG. unfold dd_get. rewrite HG. cbn [of_option bind]. cbn [map fst] in N. apply NoDup_cons_iff in N as [N1 N2].
    assert (g_get [n] gs = None) as E by (apply g_get_notin, K; now left). rewrite E. rewrite g_set_new by auto. rewrite IH; auto.
    - now rewrite <- app_assoc.
    - intros; apply H; now right.
    - intros m M. rewrite map_app. cbn [map fst]. intros X. apply in_app_or in X as [X|[X|[]]]; [apply (K m); auto; now right|]. injection X as ->. contradiction.
  Qed.

  (** What the groups hold. *)
  Definition gvars (g : list string * block A) : list (string * hf A) := dabs (b_var (snd g)).
  Definition gbare (g : list string * block A) : list (string * list label) :=
    match gvars g with [] => map (fun nd : string * dim => (fst nd, d_data (snd nd))) (dabs (b_ivar (snd g))) | _ => [] end.
  Definition gtables (g : list string * block A) (ts : list (table A)) : Prop :=
    Forall rectangular ts /\
    Permutation (flat_map table_cells ts) (flat_map var_cells (filter has_outer (gvars g))) /\
    flat_map t_props ts = filter is_scalar (gvars g) /\ flat_map bare ts = gbare g.

  Lemma var_group_tables : forall ns q gs, GInv (dabs (b_var b)) gs -> In (ns, q) gs -> exists ts, make_block_iterator q = Ok ts /\ gtables (ns, q) ts.
  Proof.
    intros ns q gs G I. pose proof (group_labelled ns q gs G I) as L. destruct G as [_ [_ G3]]. destruct (G3 _ _ I) as [P1 [_ [P3 _]]].
    destruct (make_block_ok q ns (proj1 P1) P3) as [ts [T1 [T0 [T2 T3]]]]; [intros kx IK; destruct (L kx IK) as [_ R]; exact R|].
    exists ts. split; auto. split; auto. unfold gtables, gbare, gvars. cbn [snd].
    assert (ON : forall kx, In kx (dabs (b_var q)) -> length (outer_dims (snd kx)) = length ns).
    { intros kx IK. destruct (L kx IK) as [_ [_ [E _]]]. unfold onames in E. rewrite <- E. now rewrite map_length. }
    assert (F1 : forall {X} (p : X -> bool) l, (forall x, In x l -> p x = false) -> filter p l = []).
    { induction l as [|y l IL]; intros F; simpl; auto. rewrite F by now left. apply IL. intros; apply F; now right. }
    assert (F2 : forall {X} (p : X -> bool) l, (forall x, In x l -> p x = true) -> filter p l = l).
    { induction l as [|y l IL]; intros F; simpl; auto. rewrite F by now left. f_equal. apply IL. intros; apply F; now right. }
    destruct (names_eqb ns []) eqn:EN.
    - apply names_eqb_eq in EN. subst ns. destruct T3 as [-> ->]. rewrite (F1 _ has_outer).
      2: { intros kx IK. unfold has_outer. now rewrite ON. }
      split; [constructor|]. split; auto. destruct (dabs (b_var q)); [congruence|auto].
    - destruct T3 as [T3 ->]. assert (NZ : length ns <> 0) by (destruct ns; [discriminate|simpl; lia]).
      rewrite (F2 _ has_outer).
      2: { intros kx IK. unfold has_outer. rewrite ON by auto. destruct (Nat.eqb_spec (length ns) 0); auto. }
      rewrite (F1 _ is_scalar).
      2: { intros kx IK. unfold is_scalar. apply Nat.eqb_neq. rewrite outer_split, app_length, ON by auto. lia. }
      split; auto. split; auto. destruct (dabs (b_var q)); [congruence|auto].
  Qed.
  Lemma dangle_tables : forall nd, can_format (snd nd) -> exists ts, make_block_iterator (snd (dangle nd)) = Ok ts /\ gtables (dangle nd) ts.
  Proof.
    intros [n d] H. cbn [snd] in H. unfold gtables, gbare, gvars. cbn [dangle fst snd b_set_dim b_var b_ivar b_empty b_x]. unfold make_block_iterator. cbn [b_var b_ivar dd_items dd_empty mapM dd_iter dd_order bind].
    cbn. rewrite String.eqb_refl. assert (dd_get n (dd_set n d dd_empty) = Ok d) as -> by (unfold dd_get; now rewrite get_set, String.eqb_refl).
    cbn [bind]. destruct (can_format_ok d H) as [a [A1 [A2 A3]]]. rewrite A1. cbn [bind].
    eexists. split; [reflexivity|]. split; [repeat constructor|]. split; [constructor|]. split; [reflexivity|]. cbn. now rewrite A2.
  Qed.

  Lemma used_spec : forall gs n, GInv (dabs (b_var b)) gs ->
    (In n (used_ivars (dabs (b_var b)) gs) <-> exists kx d, In kx (dabs (b_var b)) /\ In d (h_dims (snd kx)) /\ d_name d = n).
  Proof.
    intros gs n G. unfold used_ivars. rewrite in_app_iff. split.
    - intros [H|H].
      + apply in_flat_map in H as [kx [K1 K2]]. unfold matrix_names in K2. destruct (ismatrix (snd kx)); [|destruct K2].
        unfold get_dims_names in K2. rewrite map_length, skipn_map in K2. apply in_map_iff in K2 as [d [D1 D2]]. exists kx, d. split; auto. split; auto.
        rewrite <- (firstn_skipn (length (h_dims (snd kx)) - 2) (h_dims (snd kx))). apply in_or_app. now right.
      + apply in_concat in H as [ns [N1 N2]]. apply in_map_iff in N1 as [[ns' q] [E I]]. cbn [fst] in E. subst ns'. pose proof (group_labelled ns q gs G I) as L.
        destruct G as [_ [_ G3]]. destruct (G3 _ _ I) as [_ [_ [P3 _]]]. destruct (dabs (b_var q)) as [|kx l]; [congruence|].
        destruct (L kx) as [L1 [_ [L3 _]]]; [now left|]. unfold onames in L3. rewrite <- L3 in N2. apply in_map_iff in N2 as [d [D1 D2]].
        exists kx, d. split; auto. split; auto. rewrite outer_split. apply in_or_app. now left.
    - intros [kx [d [K1 [K2 <-]]]]. rewrite outer_split in K2. apply in_app_or in K2 as [K2|K2].
      + right. apply in_concat. exists (onames kx). split; [apply (proj1 (proj2 G)); auto|]. unfold onames. now apply in_map.
      + left. apply in_flat_map. exists kx. split; auto. unfold matrix_names, outer_dims in *. destruct (ismatrix (snd kx)); [|now rewrite skipn_all in K2].
        unfold get_dims_names. rewrite map_length, skipn_map. rewrite firstn_length, Nat.min_l in K2 by lia. now apply in_map.
  Qed.

  Lemma iterator_ok : forall ord, (forall l, Permutation (ord l) l) -> exists ts, db_iterator lab emb ord b = Ok ts /\ Forall rectangular ts /\
    Permutation (flat_map table_cells ts) (flat_map var_cells (filter has_outer (dabs (b_var b)))) /\
    Permutation (flat_map t_props ts) (filter is_scalar (dabs (b_var b))) /\
    Permutation (flat_map bare ts) (map (fun nd => (fst nd, d_data (snd nd))) (filter (no_dim_of (dabs (b_var b))) (dabs (b_ivar b)))).
  Proof.
    intros ord HO. pose proof HB as [HV [HI _]]. unfold db_iterator, db_groups. rewrite items_abs by auto. cbn [bind].
    destruct (group_vars_ok (dabs (b_var b)) [] [] eq_refl) as [gs [E G]].
    { split; [constructor|]. split; [intros ? []|intros ? ? []]. }
    cbn [app] in G. rewrite E. cbn [bind]. set (vs := dabs (b_var b)) in *. set (nds := filter (no_dim_of vs) (dabs (b_ivar b))).
    assert (NDS : filter (fun n => negb (l_in n (used_ivars vs gs))) (dd_iter (b_ivar b)) = map fst nds).
    { rewrite Inv_iter by auto. rewrite <- keys_abs by auto. unfold keys, nds. induction (dabs (b_ivar b)) as [|[n d] l IL]; auto.
      assert (EQ : negb (l_in n (used_ivars vs gs)) = no_dim_of vs (n, d)).
      { destruct (l_in n (used_ivars vs gs)) eqn:EL; symmetry.
        - apply l_in_In in EL. apply (used_spec gs n G) in EL as [kx [d' [K1 [K2 K3]]]]. destruct (no_dim_of vs (n, d)) eqn:ND; auto.
          unfold no_dim_of in ND. rewrite forallb_forall in ND. specialize (ND _ K1). rewrite forallb_forall in ND. specialize (ND _ K2).
          cbn [fst] in ND. rewrite K3, String.eqb_refl in ND. discriminate.
        - unfold no_dim_of. apply forallb_forall. intros kx K1. apply forallb_forall. intros d' K2. cbn [fst].
          destruct (String.eqb_spec (d_name d') n); auto. exfalso. assert (In n (used_ivars vs gs)) as X by (apply (used_spec gs n G); eauto).
          apply l_in_In in X. congruence. }
      cbn [map fst filter]. rewrite EQ. destruct (no_dim_of vs (n, d)); cbn [map fst]; now rewrite IL. }
    rewrite NDS. rewrite group_ivars_ok.
    2: { intros nd N. apply filter_In in N as [N _]. now apply abs_In. }
    2: { rewrite <- NDS. apply NoDup_filter. rewrite Inv_iter by auto. apply HI. }
    2: { rewrite <- NDS. intros n N X. apply filter_In in N as [_ N]. assert (In n (used_ivars vs gs)) as U.
         { unfold used_ivars. apply in_or_app. right. apply in_concat. exists [n]. split; auto. now left. }
         apply l_in_In in U. rewrite U in N. discriminate. }
    cbn [bind]. set (all := gs ++ map dangle nds).
    set (L := filter (fun g => names_eqb (fst g) []) all ++ ord (filter (fun g => negb (names_eqb (fst g) [])) all)).
    assert (PL : Permutation L all).
    { unfold L. rewrite HO. clear L. induction all as [|g all IA]; simpl; auto. destruct (names_eqb (fst g) []); simpl; [now apply perm_skip|].
      rewrite <- Permutation_middle. now apply perm_skip. }
    assert (TS : forall g, In g L -> exists ts, make_block_iterator (snd g) = Ok ts /\ gtables g ts).
    { intros g GI. apply (Permutation_in _ PL) in GI. unfold all in GI. apply in_app_or in GI as [GI|GI].
      - destruct g as [ns q]. now apply (var_group_tables ns q gs).
      - apply in_map_iff in GI as [nd [<- N]]. apply dangle_tables. apply filter_In in N as [N _]. destruct nd as [n d]. apply (proj2 (proj2 HW) n d).
        unfold dd_get. pose proof (abs_In _ _ HI N) as X. cbn [fst snd] in X. now rewrite X. }
    destruct (mapM_exists (fun g => make_block_iterator (snd g)) gtables L TS) as [tss [T1 T2]]. rewrite T1. cbn [bind]. exists (concat tss). split; auto.
    assert (R0 : Forall rectangular (concat tss)).
    { clear - T2. induction T2 as [|g ts L tss [B0 _] T2 IH]; cbn [concat]; auto. apply Forall_app. auto. }
    assert (R : Permutation (flat_map table_cells (concat tss)) (flat_map (fun g => flat_map var_cells (filter has_outer (gvars g))) L) /\
      flat_map t_props (concat tss) = flat_map (fun g => filter is_scalar (gvars g)) L /\ flat_map bare (concat tss) = flat_map gbare L).
    { clear - T2. induction T2 as [|g ts L tss [_ [B1 [B2 B3]]] T2 IH]; cbn [concat flat_map]; auto. destruct IH as [I1 [I2 I3]].
      rewrite !flat_map_app, B2, B3, I2, I3. split; auto. now apply Permutation_app. }
    assert (GV : Permutation (flat_map gvars L) vs).
    { rewrite (Permutation_flat_map gvars PL). unfold all. rewrite flat_map_app.
      assert (flat_map gvars (map dangle nds) = []) as -> by (clear; induction nds; auto). rewrite app_nil_r.
      destruct G as [G1 [G2 G3]]. transitivity (flat_map (fun ns => filter (fun kx => names_eqb (onames kx) ns) vs) (map fst gs)).
      - rewrite flat_map_map1. apply flat_perm. intros [ns q] GI. unfold gvars. cbn [fst snd]. destruct (G3 _ _ GI) as [_ [-> _]]. auto.
      - apply (filter_groups names_eqb onames names_eqb_eq); auto. }
    assert (FF : forall (p : string * hf A -> bool) l, flat_map (fun g => filter p (gvars g)) l = filter p (flat_map gvars l)).
    { intros p l. induction l as [|g l IL]; cbn [flat_map]; auto. now rewrite filter_app, IL. }
    assert (PF : forall {X} (p : X -> bool) l l', Permutation l l' -> Permutation (filter p l) (filter p l')).
    { intros X p l l' P. induction P; simpl; auto; [destruct (p x); auto|destruct (p x), (p y); auto; apply perm_swap|]. now transitivity (filter p l'). }
    destruct R as [R1 [R2 R3]]. split; auto. split; [|split].
    - rewrite R1. rewrite <- flat_flat, FF. apply Permutation_flat_map, PF, GV.
    - rewrite R2, FF. now apply PF.
    - rewrite R3, (Permutation_flat_map gbare PL). unfold all. rewrite flat_map_app.
      assert (flat_map gbare gs = []) as ->.
      { destruct G as [_ [_ G3]]. clear - G3. induction gs as [|[ns q] gs IG]; auto. cbn [flat_map]. rewrite IG by (intros; apply G3; now right).
        destruct (G3 ns q (or_introl eq_refl)) as [_ [_ [P _]]]. unfold gbare, gvars. cbn [snd]. destruct (dabs (b_var q)); auto. congruence. }
      cbn [app]. rewrite flat_map_map1. assert (EB : forall nd, gbare (dangle nd) = [(fst nd, d_data (snd nd))]).
      { intros [n d]. unfold gbare, gvars, dangle. cbn [fst snd b_set_dim b_var b_ivar b_empty]. 
        replace (dabs (dd_set n d dd_empty)) with [(n, d)] by (unfold dabs, dd_set; cbn; now rewrite ?String.eqb_refl). reflexivity. }
      rewrite (flat_map_ext _ _ EB). rewrite flat_map_single. auto.
  Qed.
End Groups2.

(** ** C56 *)
Theorem C56_complete : forall {A} (lab : A -> label) emb ord os, let b := brun lab os in
  writable b -> (forall l, Permutation (ord l) l) ->
  exists vs ivs ts, dd_items (b_var b) = Ok vs /\ dd_items (b_ivar b) = Ok ivs /\ db_iterator lab emb ord b = Ok ts /\
    Forall rectangular ts /\
    Permutation (flat_map table_cells ts) (flat_map var_cells (filter has_outer vs)) /\
    Permutation (flat_map t_props ts) (filter is_scalar vs) /\
    Permutation (flat_map bare ts) (map (fun nd => (fst nd, d_data (snd nd))) (filter (no_dim_of vs) ivs)).
Proof.
  intros A lab emb ord os b HW HO. pose proof (brun_BInv lab os) as HB. fold b in HB. destruct (iterator_ok lab emb b HB HW ord HO) as [ts T].
  exists (dabs (b_var b)), (dabs (b_ivar b)), ts. split; [apply items_abs, HB|]. split; [apply items_abs, HB|]. exact T.
Qed.
Print Assumptions C56_complete.

(** A number of a variable is in exactly one place: if the labels of every
    dimension are different, no two numbers of the tables have the same name,
    coordinates and position. *)
Definition place {A} (c : cell A) : string * list (string * label) * list nat := fst c.
Lemma at_labels_inj : forall ns ls ix ix', length ls = length ns -> Forall (@NoDup label) ls ->
  inb (map (@length label) ls) (firstn (length ns) ix) = true -> inb (map (@length label) ls) (firstn (length ns) ix') = true ->
  at_labels ns ls ix = at_labels ns ls ix' -> firstn (length ns) ix = firstn (length ns) ix'.
Proof.
  induction ns as [|n ns IH]; intros [|l ls] [|i ix] [|i' ix'] L ND H H' E; simpl in *; try discriminate; auto.
  apply Forall_cons_iff in ND as [N1 N2]. apply andb_prop in H as [H1 H2], H' as [H1' H2']. apply Nat.ltb_lt in H1, H1'. injection E as E1 E2. f_equal.
  - rewrite NoDup_nth in N1. apply (N1 i i' H1 H1' E1).
  - apply (IH ls); auto.
Qed.
Lemma NoDup_flat : forall {X Y} (f : X -> list Y) l, NoDup l -> (forall x, In x l -> NoDup (f x)) ->
  (forall x x' y, In x l -> In x' l -> In y (f x) -> In y (f x') -> x = x') -> NoDup (flat_map f l).
Proof.
  induction l as [|x l IH]; intros N F D; simpl; [constructor|]. apply NoDup_cons_iff in N as [N1 N2].
  assert (IHl : NoDup (flat_map f l)) by (apply IH; auto; [intros; apply F; now right|intros x1 x2 y; intros; apply (D x1 x2 y); auto; now right]).
  assert (FX : NoDup (f x)) by (apply F; now left). assert (DX : forall y, In y (f x) -> ~ In y (flat_map f l)).
  { intros y YI I. apply in_flat_map in I as [x' [I1 I2]]. assert (x = x') by (apply (D x x' y); auto; [now left|now right]). subst. contradiction. }
  clear - IHl FX DX. induction (f x) as [|y m IM]; simpl; auto. apply NoDup_cons_iff in FX as [F1 F2]. constructor.
  - intros I. apply in_app_or in I as [I|I]; [contradiction|]. apply (DX y); auto. now left.
  - apply IM; auto. intros z ZI. apply DX. now right.
Qed.
Theorem C56_once : forall {A} (lab : A -> label) emb ord os ts, let b := brun lab os in
  writable b -> (forall l, Permutation (ord l) l) ->
  (forall k x d, dd_get k (b_var b) = Ok x -> In d (h_dims x) -> NoDup (d_data d)) ->
  db_iterator lab emb ord b = Ok ts -> NoDup (map place (flat_map table_cells ts)).
Proof.
  intros A lab emb ord os ts b HW HO HN E. pose proof (brun_BInv lab os) as HB. fold b in HB. destruct (iterator_ok lab emb b HB HW ord HO) as [ts' [T1 [_ [T2 _]]]].
  rewrite E in T1. injection T1 as <-. apply (Permutation_NoDup (Permutation_sym (Permutation_map place T2))).
  rewrite map_flat. apply NoDup_flat.
  - apply NoDup_filter. apply (NoDup_map_inv fst). apply (abs_NoDup _ (proj1 HB)).
  - intros [k x] I. apply filter_In in I as [I _]. pose proof (abs_In _ _ (proj1 HB) I) as GK. cbn [fst snd] in GK.
    destruct (proj1 HW k x) as [W _]; [unfold dd_get; now rewrite GK|]. unfold var_cells. cbn [fst snd]. rewrite map_flat.
    apply NoDup_flat; [apply NoDup_indices| |].
    + intros ix _. destruct (nd_get (h_nd x) ix); simpl; repeat constructor. intros [].
    + intros ix ix' y I1 I2 Y1 Y2. apply in_map_iff in Y1 as [c1 [C1 Y1]], Y2 as [c2 [C2 Y2]]. apply in_map_iff in Y1 as [v1 [V1 _]], Y2 as [v2 [V2 _]].
      subst c1 c2. unfold place in *. cbn [fst] in *. rewrite <- C2 in C1. injection C1 as F1 F2.
      apply in_indices in I1, I2. destruct W as [_ [W _]]. unfold labels_match in W.
      assert (FI : forall ix, inb (h_shape x) ix = true -> inb (map (@length label) (map d_data (outer_dims x))) (firstn (length (map d_name (outer_dims x))) ix) = true).
      { intros jx J. rewrite map_map, map_length. rewrite <- W, (outer_split x), map_app in J. rewrite <- (firstn_skipn (length (outer_dims x)) jx) in J.
        rewrite inb_app in J; [now apply andb_prop in J|]. rewrite map_length, firstn_length, Nat.min_l; auto. apply inb_length in J.
        rewrite firstn_skipn in J. rewrite J, app_length, !map_length. lia. }
      assert (FE : firstn (length (map d_name (outer_dims x))) ix = firstn (length (map d_name (outer_dims x))) ix').
      { apply (at_labels_inj _ (map d_data (outer_dims x))); auto; [now rewrite !map_length|].
        apply Forall_forall. intros l L. apply in_map_iff in L as [d [<- D]]. apply (HN k x d); [unfold dd_get; now rewrite GK|]. rewrite outer_split. apply in_or_app. now left. }
      rewrite map_length in FE. rewrite <- (firstn_skipn (length (outer_dims x)) ix), <- (firstn_skipn (length (outer_dims x)) ix'). now rewrite FE, F2.
  - intros [k x] [k' x'] y I I' Y Y'. apply filter_In in I as [I _], I' as [I' _].
    assert (K : forall kx : string * hf A, In y (map place (var_cells kx)) -> fst (fst y) = fst kx).
    { intros kx Z. apply in_map_iff in Z as [c [<- Z]]. unfold var_cells in Z. apply in_flat_map in Z as [ix [_ Z]]. apply in_map_iff in Z as [v [<- _]]. reflexivity. }
    apply K in Y, Y'. cbn [fst] in Y, Y'. assert (k = k') by congruence. subst k'.
    pose proof (abs_In _ _ (proj1 HB) I) as G1. pose proof (abs_In _ _ (proj1 HB) I') as G2. cbn [fst snd] in *. congruence.
Qed.
Print Assumptions C56_once.

(** *** Example and deviations *)
Definition embZ (l : label) : Z := match l with LZ z => z | _ => 0%Z end.
Definition keep_order {X} (l : list X) : list X := l.
Definition flip_order {X} (l : list X) : list X := rev l.
Definition dG := mkDim CDimSweep "gate" [LZ 5; LZ 6] None None.
Definition dJ2 := mkDim CMatrix_j "j" [LZ 0; LZ 1] None None.
Definition scal (z : Z) := mkHF (mkNd [] [z]) DInt [] None "%d".
Definition wops := [BSet "V" xFR; BSet "S" (arr [dF; dI; dJ2]); BSet "T" (scal 7); BSet "W" (arr [dF]); BSetDim "gate" dG].
Definition wblock := brun labZ wops.

(** Writable can be decided. *)
Definition nodupb {X} (eqb : X -> X -> bool) : list X -> bool := fix go l := match l with [] => true | x :: l' => negb (existsb (eqb x) l') && go l' end.
Definition all_vars (b : block Z) : list (string * hf Z) := dd_map (b_var b).
Lemma get_In : forall {V} k (m : list (string * V)) v, pd_get k m = Some v -> In (k, v) m.
Proof. induction m as [|[k' v'] m IH]; simpl; [discriminate|]. intros v. destruct (String.eqb_spec k k'); [intros H; left; congruence|right; auto]. Qed.
Lemma writable_by_cases : forall (b : block Z), Forall (fun kx => var_ok b (fst kx) (snd kx)) (all_vars b) ->
  (forall d d', In d (flat_map (fun kx => h_dims (snd kx)) (all_vars b)) -> In d' (flat_map (fun kx => h_dims (snd kx)) (all_vars b)) -> d_name d = d_name d' -> d_data d = d_data d') ->
  Forall (fun nd => can_format (snd nd)) (dd_map (b_ivar b)) -> writable b.
Proof.
  intros b H1 H2 H3. rewrite Forall_forall in H1, H3. unfold writable, dd_get. split; [|split].
  - intros k x H. destruct (pd_get k (dd_map (b_var b))) eqn:E; [|discriminate]. injection H as ->. apply get_In in E. apply (H1 _ E).
  - intros k x k' x' d d' H H' D D' N. destruct (pd_get k (dd_map (b_var b))) eqn:E; [|discriminate]. injection H as ->.
    destruct (pd_get k' (dd_map (b_var b))) eqn:E'; [|discriminate]. injection H' as ->. apply get_In in E, E'.
    apply H2; auto; apply in_flat_map; eauto.
  - intros n d H. destruct (pd_get n (dd_map (b_ivar b))) eqn:E; [|discriminate]. injection H as ->. apply get_In in E. apply (H3 _ E).
Qed.

Example C56_example : writable wblock /\
  (exists ts, db_iterator labZ embZ keep_order wblock = Ok ts /\
     map t_header ts = [[]; ["freq"; "V"]; ["freq"; "V"]; ["freq"; "V"]; ["freq"; "S"; "W"]; ["gate"]] /\
     length (flat_map table_cells ts) = 16 /\ In ("V", [("freq", LZ 20); ("rep", LZ 2)], [], 5%Z) (flat_map table_cells ts) /\
     In ("S", [("freq", LZ 20)], [0; 1], 5%Z) (flat_map table_cells ts)) /\
  (exists ts, db_iterator labZ embZ flip_order wblock = Ok ts /\
     map t_header ts = [[]; ["gate"]; ["freq"; "S"; "W"]; ["freq"; "V"]; ["freq"; "V"]; ["freq"; "V"]]).
Proof.
  split.
  - apply writable_by_cases.
    + vm_compute all_vars. repeat constructor; try (left; discriminate); try (cbn; intros ? ? X; discriminate X); try wf_lit; cbn; intuition discriminate.
    + intros d d' D D' N. vm_compute in D, D'. intuition (subst; first [reflexivity|discriminate N]).
    + vm_compute dd_map. repeat (apply Forall_cons; [left; discriminate|]). apply Forall_nil.
  - split; eexists; (split; [vm_compute; reflexivity|]); repeat split; vm_compute; intuition reflexivity.
Qed.

(** A matrix without other dimensions is in no table and in no property. *)
Theorem C56_plain_matrix_refuted : exists os (ts : list (table Z)), writable (brun labZ os) /\ db_iterator labZ embZ keep_order (brun labZ os) = Ok ts /\
  dd_get "S" (b_var (brun labZ os)) = Ok (arr [dI; dJ2]) /\ flat_map table_cells ts = [] /\ flat_map t_props ts = [] /\ flat_map bare ts = [].
Proof.
  exists [BSet "S" (arr [dI; dJ2])]. eexists. split; [|split; [vm_compute; reflexivity|repeat split; vm_compute; reflexivity]].
  apply writable_by_cases.
  - vm_compute all_vars. repeat constructor; try (left; discriminate); try (cbn; intros ? ? X; discriminate X); try wf_lit; cbn; intuition discriminate.
  - intros d d' D D' N. vm_compute in D, D'. intuition (subst; first [reflexivity|discriminate N]).
  - vm_compute dd_map. repeat (apply Forall_cons; [left; discriminate|]). apply Forall_nil.
Qed.

(** Two variables whose dimensions have the same name but different labels:
    the second is written with the labels of the first. *)
Definition dF2 := mkDim CDimSweep "freq" [LZ 30; LZ 40] None None.
Theorem C56_labels_refuted : exists os (ts : list (table Z)), db_iterator labZ embZ keep_order (brun labZ os) = Ok ts /\
  dd_get "W" (b_var (brun labZ os)) = Ok (arr [dF2]) /\
  In ("W", [("freq", LZ 10)], [], 0%Z) (flat_map table_cells ts) /\ In ("W", [("freq", LZ 30)], [], 0%Z) (var_cells ("W", arr [dF2])).
Proof.
  exists [BSet "V" (arr [dF]); BSet "W" (arr [dF2])]. eexists. split; [vm_compute; reflexivity|]. split; [reflexivity|]. split; vm_compute; auto.
Qed.

(** ... and rows are lost if there are fewer of them (zip stops at the shortest column). *)
Definition dF1 := mkDim CDimSweep "freq" [LZ 30] None None.
Theorem C56_length_refuted : exists os (ts : list (table Z)) x, db_iterator labZ embZ keep_order (brun labZ os) = Ok ts /\ dd_get "V" (b_var (brun labZ os)) = Ok x /\
  wf x /\ length (nd_elems (h_nd x)) = 2 /\ length (filter (fun c : cell Z => String.eqb (fst (fst (fst c))) "V") (flat_map table_cells ts)) = 1 /\ ~ Forall rectangular ts.
Proof.
  exists [BSet "W" (arr [dF1]); BSet "V" (arr [dF])]. eexists. eexists. split; [vm_compute; reflexivity|]. split; [reflexivity|]. split; [wf_lit|].
  split; [reflexivity|]. split; [reflexivity|]. intros F. inversion F as [|t l R F']. unfold rectangular in R. cbn in R. destruct R as [_ R].
  inversion R as [|y l' R1 R2]. inversion R2 as [|y' l'' R3 R4]. destruct R3 as [R3 _]. discriminate R3.
Qed.

(** A variable with the name of an element of a matrix over the same dimensions
    is not written; it replaces the element of the matrix. *)
Theorem C56_element_refuted : exists os (ts : list (table Z)), db_iterator labZ embZ keep_order (brun labZ os) = Ok ts /\
  (exists x, dd_get "S11" (b_var (brun labZ os)) = Ok x) /\ (exists x v, dd_get "S" (b_var (brun labZ os)) = Ok x /\ nd_get (h_nd x) [1; 0; 0] = Some v /\
     In ("S", [("freq", LZ 20)], [0; 0], v) (var_cells ("S", x)) /\ ~ In ("S", [("freq", LZ 20)], [0; 0], v) (flat_map table_cells ts)) /\
  map t_header ts = [["freq"; "S"]].
Proof.
  exists [BSet "S" (arr [dF; dI; dJ2]); BSet "X" (arr [dF]); BRename "X" "S11"].
  eexists. split; [vm_compute; reflexivity|]. split; [eexists; reflexivity|]. split; [|reflexivity].
  eexists. exists 4%Z. split; [reflexivity|]. split; [reflexivity|]. split; [vm_compute; intuition|]. vm_compute. intuition discriminate.
Qed.
