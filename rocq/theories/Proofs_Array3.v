(** squeeze and reductions. *)
From Coq Require Import String List Arith ZArith Bool Lia Permutation.
From Verif Require Import Model_NdArray Proofs_NdArray Model_Dim Model_Array Spec_Array Proofs_Array Proofs_Array2.
Import ListNotations.
Local Open Scope nat_scope.

(** ** Masks *)

Lemma axes_mask_length : forall n axes, length (axes_mask n axes) = n.
Proof. intros. unfold axes_mask. now rewrite map_length, seq_length. Qed.

Lemma mask_drop_pick : forall {X} m (l : list X), mask_drop m l = pick (map negb m) l.
Proof. intros X m. induction m as [|b m IH]; intros [|x l]; simpl; auto. destruct b; simpl; now rewrite IH. Qed.

Lemma mask_drop_map : forall {X Y} (f : X -> Y) m l, mask_drop m (map f l) = map f (mask_drop m l).
Proof. intros X Y f m. induction m as [|b m IH]; intros [|x l]; simpl; auto. destruct b; simpl; now rewrite IH. Qed.

Lemma pick_map : forall {X Y} (f : X -> Y) m l, pick m (map f l) = map f (pick m l).
Proof. intros X Y f m. induction m as [|b m IH]; intros [|x l]; simpl; auto. destruct b; simpl; now rewrite IH. Qed.

Lemma pick_In : forall {X} m (l : list X) x, In x (pick m l) -> In x l.
Proof.
  intros X m. induction m as [|b m IH]; intros [|y l] x; simpl; try tauto.
  destruct b; simpl; intros H; [destruct H|]; auto.
Qed.

Lemma mask_drop_In : forall {X} m (l : list X) x, In x (mask_drop m l) -> In x l.
Proof. intros X m l x. rewrite mask_drop_pick. apply pick_In. Qed.

Lemma mask_drop_NoDup : forall {X Y} (f : X -> Y) m l, NoDup (map f l) -> NoDup (map f (mask_drop m l)).
Proof.
  intros X Y f m. induction m as [|b m IH]; intros [|x l] H; simpl in *; try constructor; auto.
  inversion H; subst. destruct b; auto. simpl. constructor; auto.
  intros K. apply H2. apply in_map_iff in K as [y [E K]]. rewrite <- E. apply in_map. eapply mask_drop_In; eauto.
Qed.

Lemma mask_set_length : forall m v l, length m = length l -> length (mask_set m v l) = length l.
Proof. intros m v. induction m as [|b m IH]; intros [|x l] H; simpl in *; auto; try lia. Qed.

Lemma drop_ones_ravel : forall m sh ix, length m = length sh -> length ix = length sh ->
  (forall k, k < length sh -> nth k m false = true -> nth k sh 0 = 1 /\ nth k ix 0 = 0) ->
  ravel (mask_drop m sh) (mask_drop m ix) = ravel sh ix /\
  prodn (mask_drop m sh) = prodn sh /\
  inb (mask_drop m sh) (mask_drop m ix) = inb sh ix.
Proof.
  induction m as [|b m IH]; intros [|n sh] [|i ix] H1 H2 H; simpl in *; try discriminate; auto.
  destruct (IH sh ix) as [I1 [I2 I3]]; try lia.
  { intros k Hk Hb. apply (H (S k)); [lia|assumption]. }
  destruct b; simpl.
  - destruct (H 0) as [-> ->]; [lia|reflexivity|]. rewrite I1, I2, I3. repeat split; auto with arith.
  - rewrite I1, I2, I3. auto.
Qed.

(** A squeeze does not move values. *)
Lemma squeeze_mask_val : forall {A} (x : hf A) m e,
  length m = h_ndim x -> labels_match x ->
  (forall k, k < h_ndim x -> nth k m false = true -> nth k (h_shape x) 0 = 1) ->
  valid e (h_dims x) ->
  nd_get (mkNd (mask_drop m (h_shape x)) (nd_elems (h_nd x))) (coords e (mask_drop m (h_dims x))) = val x e.
Proof.
  intros A x m e Hm Hl H1 He. unfold val, nd_get. simpl.
  unfold coords at 1 2. rewrite <- !mask_drop_map. fold (coords e (h_dims x)).
  assert (Hi := coords_inb x e Hl He).
  destruct (drop_ones_ravel m (h_shape x) (coords e (h_dims x))) as [R1 [R2 R3]]; auto.
  { now apply inb_length in Hi. }
  { intros k Hk Hb. split; [now apply H1|]. apply inb_nth in Hi as [_ Hi]. specialize (Hi k Hk).
    rewrite H1 in Hi by auto. lia. }
  rewrite R1, R3. reflexivity.
Qed.

Lemma nodupb_NoDup : forall l, nodupb l = true <-> NoDup l.
Proof.
  induction l as [|x l IH]; simpl; split; intros H; try constructor; auto.
  - apply andb_prop in H as [H1 H2]. apply negb_true_iff in H1. now apply memb_false.
  - apply andb_prop in H as [H1 H2]. now apply IH.
  - inversion H; subst. apply andb_true_intro. split; [|now apply IH].
    apply negb_true_iff. now apply memb_false.
Qed.

Lemma np_axes_nat : forall n axs, (forall k, In k axs -> k < n) -> NoDup axs ->
  np_axes n (map Z.of_nat axs) = Ok axs.
Proof.
  intros n axs H ND. unfold np_axes.
  rewrite (mapM_ok _ (fun z => Z.to_nat z)).
  2:{ intros z Hz. apply in_map_iff in Hz as [k [<- Hk]]. unfold np_axis. rewrite py_pos_nat by auto.
      simpl. now rewrite Nat2Z.id. }
  simpl. rewrite map_map.
  assert (map (fun k => Z.to_nat (Z.of_nat k)) axs = axs) as ->.
  { rewrite <- (map_id axs) at 2. apply map_ext. intros. apply Nat2Z.id. }
  now rewrite (proj2 (nodupb_NoDup axs) ND).
Qed.

Lemma zmemb_nat : forall k axs, zmemb (Z.of_nat k) (map Z.of_nat axs) = memb k axs.
Proof.
  intros k axs. unfold zmemb, memb. induction axs as [|a axs IH]; simpl; auto. rewrite IH. f_equal.
  destruct (Nat.eqb_spec k a) as [->|H]; [apply Z.eqb_refl|]. apply Z.eqb_neq. lia.
Qed.

Lemma drop_zaxes_nat : forall {X} axs (l : list X),
  drop_zaxes (map Z.of_nat axs) l = mask_drop (axes_mask (length l) axs) l.
Proof. intros. unfold drop_zaxes, axes_mask. f_equal. apply map_ext. intros k. apply zmemb_nat. Qed.

Lemma axes_mask_nth : forall n axs k, k < n -> nth k (axes_mask n axs) false = memb k axs.
Proof. intros. unfold axes_mask. now rewrite nth_map_seq. Qed.

Lemma not_at_places_drop : forall {X} ps (l : list X),
  not_at_places ps l = mask_drop (axes_mask (length l) ps) l.
Proof. intros. rewrite mask_drop_pick. unfold not_at_places, axes_mask. now rewrite map_map. Qed.

Lemma squeeze_axes_ok : forall {A} (x : hf A) axs, wf x -> (forall k, In k axs -> k < h_ndim x) ->
  NoDup axs -> (forall k, In k axs -> nth k (h_shape x) 0 = 1) ->
  exists y, squeeze_z (Some (map Z.of_nat axs)) x = Ok y /\ wf y /\
    h_dims y = not_at_places axs (h_dims x) /\
    (forall e, valid e (h_dims x) -> val y e = val x e) /\
    h_unit y = h_unit x /\ h_fmt y = h_fmt x /\ h_dt y = h_dt x.
Proof.
  intros A x axs [Hw [Hl ND]] Hr Hnd H1. assert (Hn := wf_ndim x Hl).
  unfold squeeze_z. rewrite np_axes_nat by auto. simpl.
  unfold nd_squeeze.
  assert (forallb (fun k => Nat.eqb (nth k (nd_shape (h_nd x)) 0) 1) axs = true) as ->.
  { apply forallb_forall. intros k Hk. apply Nat.eqb_eq. now apply H1. }
  simpl. rewrite drop_zaxes_nat, Hn.
  set (m := axes_mask (h_ndim x) axs). change (axes_mask (length (nd_shape (h_nd x))) axs) with m.
  assert (Lm : length m = h_ndim x) by apply axes_mask_length.
  rewrite new_from_ok.
  2:{ simpl. fold (h_shape x). rewrite <- Hl. now rewrite mask_drop_map, map_length. }
  eexists. split; [reflexivity|]. simpl.
  assert (Hm1 : forall k, k < h_ndim x -> nth k m false = true -> nth k (h_shape x) 0 = 1).
  { intros k Hk Hb. unfold m in Hb. rewrite axes_mask_nth in Hb by assumption.
    apply memb_In in Hb. now apply H1. }
  split; [split; [|split]|].
  - unfold nd_wf. simpl. rewrite Hw. fold (h_shape x).
    destruct (drop_ones_ravel m (h_shape x) (repeat 0 (h_ndim x))) as [_ [-> _]]; auto.
    + apply repeat_length.
    + intros k Hk Hb. split; [now apply Hm1|]. apply nth_repeat.
  - unfold labels_match, h_shape. simpl. fold (h_shape x). rewrite <- Hl. now rewrite mask_drop_map.
  - simpl. now apply mask_drop_NoDup.
  - split; [|split].
    + rewrite not_at_places_drop, Hn. reflexivity.
    + intros e He. unfold val at 1. simpl. fold (h_shape x). now apply squeeze_mask_val.
    + auto.
Qed.

Lemma axes_of_one_In : forall sh k, In k (axes_of_one sh) <-> (k < length sh /\ nth k sh 0 = 1).
Proof.
  intros sh k. unfold axes_of_one. rewrite in_map_iff.
  assert (G : forall s n, In (n, s) (combine (seq 0 (length sh)) sh) <-> nth_error sh n = Some s).
  { clear. intros s n. assert (G : forall sh st, In (n, s) (combine (seq st (length sh)) sh) <-> (st <= n /\ nth_error sh (n - st) = Some s)).
    { induction sh0 as [|m sh0 IH]; intros st; simpl.
      - split; [tauto|]. intros [_ H]. destruct (n - st); discriminate.
      - rewrite IH. split.
        + intros [[= -> ->]|[H1 H2]]; [split; auto; now rewrite Nat.sub_diag|].
          split; [lia|]. replace (n - st) with (S (n - S st)) by lia. assumption.
        + intros [H1 H2]. destruct (Nat.eq_dec st n) as [->|Hne].
          * left. rewrite Nat.sub_diag in H2. simpl in H2. congruence.
          * right. split; [lia|]. replace (n - st) with (S (n - S st)) in H2 by lia. assumption. }
    rewrite G, Nat.sub_0_r. split; [tauto|]. split; [lia|assumption]. }
  split.
  - intros [[a b] [<- H]]. apply filter_In in H as [H1 H2]. apply G in H1. simpl in *. apply Nat.eqb_eq in H2. subst.
    split; [apply nth_error_Some; congruence|]. now apply nth_error_nth.
  - intros [H1 H2]. exists (k, 1). split; auto. apply filter_In. split; [|reflexivity]. apply G.
    rewrite <- H2. now apply nth_error_nth'.
Qed.

Lemma axes_of_one_mask : forall sh, axes_mask (length sh) (axes_of_one sh) = map (fun n => Nat.eqb n 1) sh.
Proof.
  intros sh. apply nth_ext with (d := false) (d' := Nat.eqb 0 1).
  - now rewrite axes_mask_length, map_length.
  - rewrite axes_mask_length. intros k Hk. rewrite axes_mask_nth by assumption.
    rewrite (map_nth (fun n => Nat.eqb n 1)). apply eq_true_iff_eq.
    rewrite memb_In, axes_of_one_In, Nat.eqb_eq. tauto.
Qed.

Lemma squeeze_none_ok : forall {A} (x : hf A), wf x ->
  exists y, squeeze None x = Ok y /\ wf y /\
    h_dims y = filter (fun d => negb (Nat.eqb (length (d_data d)) 1)) (h_dims x) /\
    (forall e, valid e (h_dims x) -> val y e = val x e) /\
    h_unit y = h_unit x /\ h_fmt y = h_fmt x /\ h_dt y = h_dt x.
Proof.
  intros A x [Hw [Hl ND]]. assert (Hn := wf_ndim x Hl).
  unfold squeeze. simpl. unfold nd_squeeze. fold (h_shape x).
  assert (forallb (fun k => Nat.eqb (nth k (h_shape x) 0) 1) (axes_of_one (h_shape x)) = true) as ->.
  { apply forallb_forall. intros k Hk. apply Nat.eqb_eq. apply axes_of_one_In in Hk. tauto. }
  simpl. rewrite axes_of_one_mask. unfold drop_ones.
  set (m := map (fun n => Nat.eqb n 1) (h_shape x)).
  assert (Lm : length m = h_ndim x) by (unfold m; now rewrite map_length).
  assert (Hm1 : forall k, k < h_ndim x -> nth k m false = true -> nth k (h_shape x) 0 = 1).
  { intros k Hk Hb. unfold m in Hb. change false with (Nat.eqb 0 1) in Hb.
    rewrite (map_nth (fun n => Nat.eqb n 1)) in Hb. now apply Nat.eqb_eq. }
  rewrite new_from_ok.
  2:{ simpl. rewrite <- Hl. now rewrite mask_drop_map, map_length. }
  eexists. split; [reflexivity|]. simpl.
  split; [split; [|split]|].
  - unfold nd_wf. simpl. rewrite Hw. fold (h_shape x).
    destruct (drop_ones_ravel m (h_shape x) (repeat 0 (h_ndim x))) as [_ [-> _]]; auto.
    + apply repeat_length.
    + intros k Hk Hb. split; [now apply Hm1|]. apply nth_repeat.
  - unfold labels_match, h_shape. simpl. fold (h_shape x). rewrite <- Hl. now rewrite mask_drop_map.
  - simpl. now apply mask_drop_NoDup.
  - split; [|split].
    + unfold m. rewrite <- Hl, map_map. clear. induction (h_dims x) as [|d l IH]; simpl; auto.
      destruct (Nat.eqb (length (d_data d)) 1); simpl; now rewrite IH.
    + intros e He. unfold val at 1. simpl. now apply squeeze_mask_val.
    + auto.
Qed.

(** ** Reduction *)

(** Enumerating the flagged axes with the others of length one. *)
Fixpoint embed (m : list bool) (jx : list nat) : list nat :=
  match m with
  | [] => []
  | true :: m' => hd 0 jx :: embed m' (tl jx)
  | false :: m' => 0 :: embed m' jx
  end.

Lemma flat_map_single : forall {X Y} (f : X -> Y) l, flat_map (fun x => [f x]) l = map f l.
Proof. intros. induction l as [|x l IH]; simpl; congruence. Qed.

Lemma indices_keep : forall m sh, length m = length sh ->
  indices (mask_set (map negb m) 1 sh) = map (embed m) (indices (pick m sh)).
Proof.
  induction m as [|b m IH]; intros [|n sh] H; simpl in *; try discriminate; auto.
  injection H as H. specialize (IH sh H).
  destruct b; simpl.
  - rewrite IH. clear. induction (seq 0 n) as [|i l IHl]; simpl; auto.
    rewrite IHl, map_app. f_equal. rewrite !map_map. reflexivity.
  - rewrite IH. rewrite app_nil_r, map_map. reflexivity.
Qed.

Lemma override_notin : forall e ds jx k, ~ In k (map key ds) -> override e ds jx k = e k.
Proof.
  intros e ds. induction ds as [|d ds IH]; intros [|j jx] k H; simpl in *; auto.
  rewrite upd_other by (intros ->; apply H; auto). apply IH. tauto.
Qed.

Lemma merge_coords : forall m ds e jx z, length m = length ds -> NoDup (map key ds) ->
  length jx = length (pick m ds) ->
  mask_merge m (mask_set m z (coords e ds)) (embed m jx) = coords (override e (pick m ds) jx) ds.
Proof.
  induction m as [|b m IH]; intros [|d ds] e jx z H ND Hj; simpl in *; try discriminate; auto.
  injection H as H. inversion ND as [|? ? Hn ND']; subst.
  assert (Hpk : forall m' (l : list dim), ~ In (key d) (map key l) -> ~ In (key d) (map key (pick m' l))).
  { intros m' l Hl K. apply Hl. apply in_map_iff in K as [y [E K]]. rewrite <- E. apply in_map. eapply pick_In; eauto. }
  destruct b; simpl in *.
  - destruct jx as [|j jx]; [discriminate|]. simpl. f_equal.
    + now rewrite upd_same.
    + rewrite IH by (auto; simpl in Hj; lia).
      unfold coords. apply map_ext_in. intros d' Hd'. rewrite upd_other; auto.
      intros E. apply Hn. rewrite <- E. now apply in_map.
  - f_equal.
    + symmetry. apply override_notin. auto.
    + apply IH; auto.
Qed.

Lemma flat_map_ext_in : forall {X Y} (f g : X -> list Y) l, (forall x, In x l -> f x = g x) ->
  flat_map f l = flat_map g l.
Proof. intros X Y f g l H. rewrite !flat_map_concat_map. f_equal. now apply map_ext_in. Qed.

Lemma fiber_eq : forall {A} (x : hf A) m e z, length m = length (h_dims x) -> labels_match x ->
  NoDup (map key (h_dims x)) ->
  nd_fiber m (h_nd x) (mask_set m z (coords e (h_dims x))) = fiber x (pick m (h_dims x)) e.
Proof.
  intros A x m e z Hm Hl ND. unfold nd_fiber, fiber. fold (h_shape x). rewrite <- Hl.
  rewrite indices_keep by (now rewrite map_length). rewrite pick_map.
  rewrite flat_map_concat_map, map_map, <- flat_map_concat_map.
  apply flat_map_ext_in. intros jx Hjx. apply in_indices in Hjx. apply inb_length in Hjx.
  rewrite map_length in Hjx. unfold val. rewrite merge_coords by auto. reflexivity.
Qed.

(** What numpy's reduction with keepdims holds. *)
Lemma mask_set_inb : forall m sh ix, length m = length sh -> inb sh ix = true ->
  inb (mask_set m 1 sh) (mask_set m 0 ix) = true.
Proof.
  induction m as [|b m IH]; intros [|n sh] [|i ix] H Hi; simpl in *; try discriminate; auto.
  apply andb_prop in Hi as [H1 H2]. rewrite (IH sh ix) by (auto; lia). rewrite andb_true_r.
  destruct b; auto.
Qed.

Lemma pick_negb_set : forall m sh v, length m = length sh -> mask_drop m (mask_set m v sh) = mask_drop m sh.
Proof.
  induction m as [|b m IH]; intros [|n sh] v H; simpl in *; try discriminate; auto.
  destruct b; simpl; rewrite IH by lia; reflexivity.
Qed.

Lemma at_places_pick : forall {X} ps (l : list X), at_places ps l = pick (axes_mask (length l) ps) l.
Proof. reflexivity. Qed.

(** The core of all reductions, for axis numbers that are non-negative. *)
Lemma mask_set_nth : forall m v l k, length m = length l -> k < length l ->
  nth k (mask_set m v l) 0 = if nth k m false then v else nth k l 0.
Proof.
  induction m as [|b m IH]; intros v [|x l] k H Hk; simpl in *; try lia.
  destruct k; simpl; auto. apply IH; lia.
Qed.

Lemma nd_reduce_wf : forall {A B} (f : list A -> B) axes (a : nd A), nd_wf (nd_reduce f axes a).
Proof. intros. unfold nd_reduce. apply nd_tab_wf. intros ix _. discriminate. Qed.

Definition wf_shape1 {B} (r : hf B) : Prop := nd_wf (h_nd r) /\ length (h_dims r) = h_ndim r.

Lemma drop_set_ravel : forall m sh ix, length m = length sh -> length ix = length sh ->
  ravel (mask_drop m sh) (mask_drop m ix) = ravel (mask_set m 1 sh) (mask_set m 0 ix) /\
  prodn (mask_drop m sh) = prodn (mask_set m 1 sh) /\
  inb (mask_drop m sh) (mask_drop m ix) = inb (mask_set m 1 sh) (mask_set m 0 ix).
Proof.
  induction m as [|b m IH]; intros [|n sh] [|i ix] H1 H2; simpl in *; try discriminate; auto.
  destruct (IH sh ix) as [I1 [I2 I3]]; try lia.
  destruct b; simpl; rewrite I1, I2, I3; repeat split; auto with arith.
Qed.

Lemma reduce_axes_ok : forall {A B} (f : list A -> B) rt (x : hf A) axs zs de axes,
  wf x -> (forall k, In k axs -> k < h_ndim x) -> NoDup axs ->
  multiple_axis_handler (h_dims x) axes = Ok zs ->
  zs = Some (map Z.of_nat axs) ->
  exists r, reduce f rt axes false de x = Ok (inl r) /\ wf r /\
    h_dims r = not_at_places axs (h_dims x) /\ h_unit r = None /\ h_dt r = rt (h_dt x) /\
    (forall e, valid e (h_dims r) -> val r e = Some (f (fiber x (at_places axs (h_dims x)) e))).
Proof.
  intros A B f rt x axs zs de axes [Hw [Hl ND]] Hr Hnd Hz ->. assert (Hn := wf_ndim x Hl).
  unfold reduce. rewrite Hz. rewrite np_axes_nat by auto. simpl.
  set (m := axes_mask (h_ndim x) axs).
  assert (Lm : length m = h_ndim x) by apply axes_mask_length.
  assert (Ls : length (mask_set m 1 (h_shape x)) = h_ndim x) by (apply mask_set_length; exact Lm).
  assert (WR := nd_reduce_wf f axs (h_nd x)).
  assert (G0 : forall ix, inb (mask_set m 1 (h_shape x)) ix = true ->
            nd_get (nd_reduce f axs (h_nd x)) ix = Some (f (nd_fiber m (h_nd x) ix))).
  { intros ix Hix. unfold nd_reduce. rewrite (nd_get_tab _ (fun ix => Some (f (nd_fiber _ (h_nd x) ix)))); [reflexivity|intros j Hj; discriminate|exact Hix]. }
  assert (HN : nd_shape (nd_reduce f axs (h_nd x)) = mask_set m 1 (h_shape x)) by reflexivity.
  revert WR G0 HN. generalize (nd_reduce f axs (h_nd x)). intros RD WR G0 HN.
  rewrite new_raw_ok by (rewrite HN, Ls; assumption).
  simpl. unfold squeeze_z, h_ndim. simpl. rewrite HN, Ls, np_axes_nat by auto. simpl.
  unfold nd_squeeze. rewrite HN.
  assert (forallb (fun k => Nat.eqb (nth k (mask_set m 1 (h_shape x)) 0) 1) axs = true) as ->.
  { apply forallb_forall. intros k Hk. apply Nat.eqb_eq. rewrite mask_set_nth by (auto; now apply Hr).
    unfold m. rewrite axes_mask_nth by auto. apply memb_In in Hk. now rewrite Hk. }
  simpl. rewrite Ls. fold m. rewrite drop_zaxes_nat, Hn. fold m.
  rewrite pick_negb_set by exact Lm.
  rewrite new_from_ok.
  2:{ simpl. rewrite <- Hl. now rewrite mask_drop_map, !map_length. }
  simpl. eexists. split; [reflexivity|]. simpl.
  assert (Hpr : prodn (mask_drop m (h_shape x)) = prodn (mask_set m 1 (h_shape x))).
  { destruct (drop_set_ravel m (h_shape x) (h_shape x)) as [_ [-> _]]; auto. }
  split; [split; [|split]|].
  - unfold nd_wf in *. simpl. rewrite WR, HN. symmetry. exact Hpr.
  - unfold labels_match, h_shape. simpl. fold (h_shape x). rewrite <- Hl. now rewrite mask_drop_map.
  - simpl. now apply mask_drop_NoDup.
  - split; [|split; [|split]]; auto.
    + rewrite not_at_places_drop, Hn. reflexivity.
    + intros e He. unfold val. simpl.
      (* coordinates in the squeezed and in the kept array *)
      assert (Hc : coords e (mask_drop m (h_dims x)) = mask_drop m (coords e (h_dims x))).
      { unfold coords. now rewrite mask_drop_map. }
      rewrite Hc.
      assert (Lc : length (coords e (h_dims x)) = h_ndim x) by (unfold coords; now rewrite map_length).
      destruct (drop_set_ravel m (h_shape x) (coords e (h_dims x))) as [R1 [R2 R3]]; auto.
      assert (Hin : inb (mask_set m 1 (h_shape x)) (mask_set m 0 (coords e (h_dims x))) = true).
      { rewrite <- R3. rewrite <- Hc, <- Hl, mask_drop_map.
        clear -He. revert He. generalize (mask_drop m (h_dims x)) as l. unfold valid, coords.
        induction l as [|d l IH]; intros He; simpl; auto.
        rewrite IH by (intros d' Hd'; apply He; simpl; auto). rewrite andb_true_r. apply Nat.ltb_lt. apply He. simpl; auto. }
      specialize (G0 _ Hin).
      rewrite fiber_eq in G0 by (rewrite ?Hn; auto).
      rewrite at_places_pick, Hn. fold m. rewrite <- G0.
      unfold nd_get. simpl. rewrite HN, R1, R3. reflexivity.
Qed.

(** Designators resolve to their positions. *)
Lemma class_positions_In : forall c ds s k, In k (class_positions c s ds) <->
  (s <= k /\ exists d, nth_error ds (k - s) = Some d /\ subclass (d_class d) c = true).
Proof.
  intros c ds. induction ds as [|d ds IH]; intros s k; simpl.
  - split; [tauto|]. intros [_ [d [H _]]]. destruct (k - s); discriminate.
  - assert (In k (class_positions c (S s) ds) <->
       (S s <= k /\ exists d', nth_error (d :: ds) (k - s) = Some d' /\ subclass (d_class d') c = true)) as G.
    { rewrite IH. split; intros [H1 H2]; split; auto; replace (k - s) with (S (k - S s)) in * by lia; exact H2. }
    destruct (subclass (d_class d) c) eqn:E; simpl; rewrite ?G; split.
    + intros [<-|[H1 H2]]; [|split; [lia|assumption]]. split; [lia|]. exists d. rewrite Nat.sub_diag. auto.
    + intros [H1 H2]. destruct (Nat.eq_dec s k) as [->|Hne]; auto. right. split; [lia|assumption].
    + intros [H1 H2]. split; [lia|assumption].
    + intros [H1 [d' [H2 H3]]]. destruct (Nat.eq_dec s k) as [->|Hne].
      * rewrite Nat.sub_diag in H2. simpl in H2. congruence.
      * split; [lia|]. eauto.
Qed.

Lemma class_positions_sorted : forall c ds s, NoDup (class_positions c s ds).
Proof.
  intros c ds. induction ds as [|d ds IH]; intros s; simpl; [constructor|].
  destruct (subclass (d_class d) c); auto. constructor; auto.
  intros K. apply class_positions_In in K as [K _]. lia.
Qed.

Lemma contains_self : forall ds d, In d ds -> dims_contains ds d = true.
Proof.
  intros ds d H. unfold dims_contains. apply existsb_exists. exists d. split; auto.
  unfold matches. now rewrite String.eqb_refl, subclass_refl.
Qed.

Lemma axis_numbers_ok : forall ds ax ps, NoDup (map key ds) -> designates ds ax ps ->
  exists qs, axis_numbers ds ax = Ok (map Z.of_nat qs) /\ Permutation qs ps.
Proof.
  intros ds ax ps ND H. destruct H as [k Hk|s k d Hk Hs Hu|k d Hk|c ps Hps NDp].
  - exists [k]. split; auto. unfold axis_numbers, py_nth. rewrite py_pos_nat by assumption.
    rewrite (nth_error_nth' ds k dim0) by assumption. reflexivity.
  - exists [k]. split; auto. unfold axis_numbers. subst s.
    rewrite (dims_index_unique ds k d) by auto. simpl. rewrite Hk. simpl.
    rewrite contains_self by (eapply nth_error_In; eauto).
    rewrite dims_pos_posk by (auto; eapply nth_error_In; eauto). simpl.
    unfold posk. now rewrite (key_pos_nth ds d k).
  - exists [k]. split; auto. unfold axis_numbers.
    rewrite contains_self by (eapply nth_error_In; eauto).
    rewrite dims_pos_posk by (auto; eapply nth_error_In; eauto). simpl.
    unfold posk. now rewrite (key_pos_nth ds d k).
  - exists (class_positions c 0 ds). split; [reflexivity|]. apply NoDup_Permutation; auto.
    + apply class_positions_sorted.
    + intros k. rewrite class_positions_In, Hps, Nat.sub_0_r. split; [tauto|]. split; [lia|assumption].
Qed.

Lemma designates_lt : forall ds ax ps k, designates ds ax ps -> In k ps -> k < length ds.
Proof.
  intros ds ax ps k H Hk. destruct H as [j Hj|s j d Hj _ _|j d Hj|c ps Hps _].
  - destruct Hk as [<-|[]]. assumption.
  - destruct Hk as [<-|[]]. apply nth_error_Some. congruence.
  - destruct Hk as [<-|[]]. apply nth_error_Some. congruence.
  - apply Hps in Hk as [d [Hd _]]. apply nth_error_Some. congruence.
Qed.

Lemma axis_numbers_list : forall ds axs pss, NoDup (map key ds) -> Forall2 (designates ds) axs pss ->
  exists qs, mapM (axis_numbers ds) axs = Ok (map (map Z.of_nat) qs) /\ Permutation (concat qs) (concat pss).
Proof.
  intros ds axs pss ND H. induction H as [|ax ps axs pss H1 H2 IH]; simpl.
  - exists []. auto.
  - destruct (axis_numbers_ok ds ax ps ND H1) as [q [Hq Pq]]. destruct IH as [qs [Hqs Pqs]].
    exists (q :: qs). rewrite Hq. simpl. rewrite Hqs. simpl. split; auto. now apply Permutation_app.
Qed.

Lemma axes_mask_perm : forall n p q, Permutation p q -> axes_mask n p = axes_mask n q.
Proof.
  intros n p q H. unfold axes_mask. apply map_ext. intros k. apply eq_true_iff_eq. rewrite !memb_In.
  split; apply Permutation_in; [|symmetry]; assumption.
Qed.

Lemma concat_map_map : forall {X Y} (f : X -> Y) l, concat (map (map f) l) = map f (concat l).
Proof. intros. induction l; simpl; auto. now rewrite IHl, map_app. Qed.

Lemma reduce_ok : forall {A B} (f : list A -> B) rt (x : hf A) axs pss de,
  wf x -> Forall2 (designates (h_dims x)) axs pss -> NoDup (concat pss) ->
  exists r, reduce f rt (Some axs) false de x = Ok (inl r) /\ wf r /\
    h_dims r = not_at_places (concat pss) (h_dims x) /\ h_unit r = None /\ h_dt r = rt (h_dt x) /\
    (forall e, valid e (h_dims r) -> val r e = Some (f (fiber x (at_places (concat pss) (h_dims x)) e))).
Proof.
  intros A B f rt x axs pss de Hwf HF ND. pose proof Hwf as [Hw [Hl NDk]]. assert (Hn := wf_ndim x Hl).
  destruct (axis_numbers_list _ _ _ NDk HF) as [qs [Hqs Pqs]].
  assert (NDq : NoDup (concat qs)) by (eapply Permutation_NoDup; [symmetry; exact Pqs|assumption]).
  assert (Hlt : forall k, In k (concat qs) -> k < h_ndim x).
  { intros k Hk. rewrite <- Hn. eapply Permutation_in in Hk; [|exact Pqs].
    apply in_concat in Hk as [ps [H1 H2]]. clear -HF H1 H2.
    induction HF as [|ax p axs pss H HF IH]; simpl in *; [tauto|]. destruct H1 as [->|H1]; auto.
    eapply designates_lt; eauto. }
  destruct (reduce_axes_ok f rt x (concat qs) (Some (map Z.of_nat (concat qs))) de (Some axs) Hwf Hlt NDq)
    as [r [H1 [H2 [H3 [H4 [H5 H6]]]]]].
  { simpl. rewrite Hqs. simpl. now rewrite concat_map_map. }
  { reflexivity. }
  exists r. split; auto. split; auto. split.
  { rewrite H3, !not_at_places_drop. now rewrite (axes_mask_perm _ _ _ Pqs). }
  split; auto. split; auto. intros e He. rewrite H6 by assumption.
  rewrite !at_places_pick. now rewrite (axes_mask_perm _ _ _ Pqs).
Qed.

(** Reduction over everything (axis=None). *)
Lemma axes_mask_all : forall n, axes_mask n (seq 0 n) = repeat true n.
Proof.
  intros n. unfold axes_mask. assert (forall l, incl l (seq 0 n) -> map (fun k => memb k (seq 0 n)) l = repeat true (length l)) as G.
  { induction l as [|k l IH]; intros H; simpl; auto. rewrite IH by (intros y Hy; apply H; simpl; auto).
    f_equal. apply memb_In. apply H. simpl; auto. }
  rewrite G by apply incl_refl. now rewrite seq_length.
Qed.

Lemma mask_set_all : forall n v sh, length sh = n -> mask_set (repeat true n) v sh = repeat v n.
Proof. induction n; intros v [|x sh] H; simpl in *; try discriminate; auto. f_equal. apply IHn. lia. Qed.

Lemma pick_all : forall {X} n (l : list X), length l = n -> pick (repeat true n) l = l.
Proof. induction n; intros [|x l] H; simpl in *; try discriminate; auto. f_equal. apply IHn. lia. Qed.

Lemma mask_drop_ones : forall {X} (l : list X) n, length l = n -> mask_drop (map (fun k => Nat.eqb k 1) (repeat 1 n)) l = [].
Proof. intros X l. induction l as [|x l IH]; intros [|n] H; simpl in *; try discriminate; auto. Qed.

Lemma reduce_none_ok : forall {A B} (f : list A -> B) rt (x : hf A) de, wf x ->
  exists r, reduce f rt None false de x = Ok (inl r) /\ wf r /\ h_dims r = [] /\ h_unit r = None /\
    (forall e, val r e = Some (f (fiber x (h_dims x) e))).
Proof.
  intros A B f rt x de [Hw [Hl ND]]. assert (Hn := wf_ndim x Hl).
  unfold reduce. simpl.
  set (m := axes_mask (h_ndim x) (seq 0 (h_ndim x))).
  assert (Em : m = repeat true (h_ndim x)) by apply axes_mask_all.
  assert (Es : mask_set m 1 (h_shape x) = repeat 1 (h_ndim x)) by (rewrite Em; now apply mask_set_all).
  assert (WR := nd_reduce_wf f (seq 0 (h_ndim x)) (h_nd x)).
  assert (G0 : nd_get (nd_reduce f (seq 0 (h_ndim x)) (h_nd x)) (repeat 0 (h_ndim x)) =
              Some (f (nd_fiber m (h_nd x) (repeat 0 (h_ndim x))))).
  { unfold nd_reduce. rewrite (nd_get_tab _ (fun ix => Some (f (nd_fiber _ (h_nd x) ix)))); [reflexivity|intros j Hj; discriminate|].
    change (inb (mask_set m 1 (h_shape x)) (repeat 0 (h_ndim x)) = true). rewrite Es.
    clear. induction (h_ndim x); simpl; auto. }
  assert (HN : nd_shape (nd_reduce f (seq 0 (h_ndim x)) (h_nd x)) = mask_set m 1 (h_shape x)) by reflexivity.
  rewrite Es in HN.
  revert WR G0 HN. generalize (nd_reduce f (seq 0 (h_ndim x)) (h_nd x)). intros RD WR G0 HN.
  rewrite new_raw_ok by (rewrite HN, repeat_length; assumption).
  simpl. unfold h_shape. simpl. rewrite HN.
  unfold nd_squeeze. rewrite HN.
  assert (forallb (fun k => Nat.eqb (nth k (repeat 1 (h_ndim x)) 0) 1) (axes_of_one (repeat 1 (h_ndim x))) = true) as ->.
  { apply forallb_forall. intros k Hk. apply axes_of_one_In in Hk as [_ ->]. reflexivity. }
  simpl. rewrite axes_of_one_mask. rewrite (mask_drop_ones (repeat 1 (h_ndim x))) by apply repeat_length.
  unfold drop_ones. rewrite (mask_drop_ones (h_dims x)) by assumption.
  unfold new_from. simpl. eexists. split; [reflexivity|]. simpl.
  assert (P1 : forall n, prodn (repeat 1 n) = 1) by (induction n; simpl; lia).
  split; [split; [|split]|]; simpl; auto.
  - unfold nd_wf in *. simpl in *. rewrite WR, HN. apply P1.
  - reflexivity.
  - constructor.
  - split; auto. split; auto. intros e. unfold val. simpl.
    assert (E0 : repeat 0 (h_ndim x) = mask_set m 0 (coords e (h_dims x))).
    { rewrite Em. symmetry. apply mask_set_all. unfold coords. now rewrite map_length. }
    rewrite E0 in G0. rewrite fiber_eq in G0 by (auto; unfold m; rewrite axes_mask_length; auto).
    rewrite <- E0 in G0. rewrite Em in G0. rewrite pick_all in G0 by assumption. rewrite <- G0.
    unfold nd_get. simpl. rewrite HN.
    assert (inb (repeat 1 (h_ndim x)) (repeat 0 (h_ndim x)) = true) as ->.
    { clear. induction (h_ndim x); simpl; auto. }
    assert (ravel (repeat 1 (h_ndim x)) (repeat 0 (h_ndim x)) = 0) as ->.
    { clear. induction (h_ndim x); simpl; auto. }
    reflexivity.
Qed.

(** A negative axis number makes every reduction fail, although it is valid. *)
Lemma drop_zaxes_neg : forall {X} i (l : list X), (i < 0)%Z -> drop_zaxes [i] l = l.
Proof.
  intros X i l H. unfold drop_zaxes, zmemb. simpl.
  assert (G : forall (l : list X) s, mask_drop (map (fun k => (Z.of_nat k =? i)%Z || false) (seq s (length l))) l = l).
  { induction l0 as [|x l0 IH]; intros s; simpl; auto.
    assert ((Z.of_nat s =? i)%Z = false) as -> by (apply Z.eqb_neq; lia). simpl. f_equal. apply IH. }
  apply G.
Qed.

Lemma pick_single_length : forall {X} (l : list X) s k, s <= k -> k < s + length l ->
  S (length (mask_drop (map (fun j => memb j [k]) (seq s (length l))) l)) = length l.
Proof.
  induction l as [|x l IH]; intros s k H1 H2; simpl in *; [lia|].
  unfold memb in *. simpl in *. destruct (Nat.eqb_spec s k) as [->|Hne]; simpl.
  - f_equal. assert (G : forall (l : list X) s, k < s -> mask_drop (map (fun j => Nat.eqb j k || false) (seq s (length l))) l = l).
    { clear. induction l as [|x l IH]; intros s H; simpl; auto.
      rewrite (proj2 (Nat.eqb_neq s k)) by lia. simpl. f_equal. apply IH. lia. }
    now rewrite G by lia.
  - f_equal. apply IH; lia.
Qed.

Lemma reduce_negative_fails : forall {A B} (f : list A -> B) rt (x : hf A) i de,
  labels_match x -> (- Z.of_nat (h_ndim x) <= i < 0)%Z ->
  reduce f rt (Some [AxInt i]) false de x = Err ShapeDimsError.
Proof.
  intros A B f rt x i de Hl Hi. assert (Hn := wf_ndim x Hl).
  assert (Hp : py_pos (h_ndim x) i = Some (Z.to_nat (i + Z.of_nat (h_ndim x)))).
  { unfold py_pos. assert ((0 <=? i)%Z = false) as -> by (apply Z.leb_gt; lia). simpl.
    assert ((- Z.of_nat (h_ndim x) <=? i)%Z && (i <? 0)%Z = true) as ->; auto.
    apply andb_true_intro. split; [apply Z.leb_le|apply Z.ltb_lt]; lia. }
  set (k := Z.to_nat (i + Z.of_nat (h_ndim x))) in *.
  assert (Hk : k < h_ndim x) by (eapply py_pos_lt; eauto).
  unfold reduce. simpl. unfold py_nth. rewrite Hn, Hp.
  rewrite (nth_error_nth' (h_dims x) k dim0) by lia. simpl.
  unfold np_axes. simpl. unfold np_axis. rewrite Hp. simpl.
  set (m := axes_mask (h_ndim x) [k]).
  assert (Lm : length m = h_ndim x) by apply axes_mask_length.
  assert (Ls : length (mask_set m 1 (h_shape x)) = h_ndim x) by (apply mask_set_length; exact Lm).
  assert (HN : nd_shape (nd_reduce f [k] (h_nd x)) = mask_set m 1 (h_shape x)) by reflexivity.
  revert HN. generalize (nd_reduce f [k] (h_nd x)). intros RD HN.
  rewrite new_raw_ok by (rewrite HN, Ls; assumption).
  simpl. unfold np_axes. simpl. unfold np_axis, h_ndim. simpl. rewrite HN, Ls, Hp. simpl.
  unfold nd_squeeze. rewrite HN. simpl.
  assert (nth k (mask_set m 1 (h_shape x)) 0 = 1) as ->.
  { rewrite mask_set_nth; auto. unfold m. rewrite axes_mask_nth by assumption.
    unfold memb. simpl. now rewrite Nat.eqb_refl. }
  simpl. rewrite Ls. fold m. rewrite drop_zaxes_neg by lia. unfold new_from. simpl.
  rewrite Hn.
  assert (S (length (mask_drop m (mask_set m 1 (h_shape x)))) = h_ndim x) as K.
  { unfold m at 1, axes_mask. rewrite <- Ls at 1. rewrite pick_single_length; [exact Ls|lia|rewrite Ls; lia]. }
  rewrite (proj2 (Nat.eqb_neq _ _)) by lia. reflexivity.
Qed.
