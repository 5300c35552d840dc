(** take, cumulative operations, indexing, masks, add_dim, replace_dim. *)
From Coq Require Import String List Arith ZArith Bool Lia Permutation.
From Verif Require Import Model_NdArray Proofs_NdArray Model_Dim Model_Array Spec_Array Proofs_Array Proofs_Array2 Proofs_Array3.
Import ListNotations.
Local Open Scope nat_scope.

(** ** One coordinate changed *)

Lemma coords_upd : forall ds e k d i, NoDup (map key ds) -> nth_error ds k = Some d ->
  coords (upd e (key d) i) ds = set_nth k i (coords e ds).
Proof.
  induction ds as [|d0 ds IH]; intros e [|k] d i ND H; simpl in *; try discriminate.
  - injection H as ->. inversion ND; subst. rewrite upd_same. f_equal.
    apply map_ext_in. intros d' Hd'. apply upd_other. intros E. apply H1. rewrite <- E. now apply in_map.
  - inversion ND; subst. f_equal; [|now apply IH].
    apply upd_other. intros E. apply H2. rewrite E. apply in_map. eapply nth_error_In; eauto.
Qed.

Lemma coords_ext : forall e e' ds, (forall d, In d ds -> e (key d) = e' (key d)) -> coords e ds = coords e' ds.
Proof. intros. unfold coords. now apply map_ext_in. Qed.

Lemma coords_keys : forall e ds ds', map key ds = map key ds' -> coords e ds = coords e ds'.
Proof. intros. unfold coords. rewrite <- !(map_map key e). now rewrite H. Qed.

Lemma map_set_nth : forall {X Y} (f : X -> Y) k v l, map f (set_nth k v l) = set_nth k (f v) (map f l).
Proof. intros X Y f k v l. revert k. induction l as [|x l IH]; intros [|k]; simpl; auto. now rewrite IH. Qed.

Lemma set_nth_self : forall {X} (l : list X) k v, nth_error l k = Some v -> set_nth k v l = l.
Proof.
  induction l as [|x l IH]; intros [|k] v H; simpl in *; auto; try discriminate.
  - now injection H as ->.
  - f_equal. now apply IH.
Qed.

Lemma set_nth_key : forall ds k d d', nth_error ds k = Some d -> key d' = key d ->
  map key (set_nth k d' ds) = map key ds.
Proof.
  intros ds k d d' H E. rewrite map_set_nth, E. apply set_nth_self. now rewrite nth_error_map, H.
Qed.

Lemma inb_valid : forall e ds, valid e ds -> inb (map (fun d => length (d_data d)) ds) (coords e ds) = true.
Proof.
  intros e ds. unfold valid, coords. induction ds as [|d ds IH]; intros He; simpl; auto.
  rewrite IH by (intros d' Hd'; apply He; simpl; auto). rewrite andb_true_r. apply Nat.ltb_lt. apply He. simpl; auto.
Qed.

Lemma inb_set_nth : forall sh ix k n i, inb sh ix = true -> k < length sh -> i < n ->
  inb (set_nth k n sh) (set_nth k i ix) = true.
Proof.
  induction sh as [|m sh IH]; intros [|j ix] k n i H Hk Hi; simpl in *; try discriminate; try lia.
  apply andb_prop in H as [H1 H2]. destruct k; simpl.
  - rewrite H2, andb_true_r. now apply Nat.ltb_lt.
  - rewrite H1. simpl. apply IH; auto; lia.
Qed.

Lemma set_nth_set_nth : forall {X} (l : list X) k a b, set_nth k a (set_nth k b l) = set_nth k a l.
Proof. induction l as [|x l IH]; intros [|k] a b; simpl; auto. now rewrite IH. Qed.

Lemma nth_set_nth_same : forall {X} (l : list X) k v d, k < length l -> nth k (set_nth k v l) d = v.
Proof. induction l as [|x l IH]; intros [|k] v d H; simpl in *; try lia; auto. apply IH. lia. Qed.

Lemma nth_set_nth_other : forall {X} (l : list X) k j v d, j <> k -> nth j (set_nth k v l) d = nth j l d.
Proof. induction l as [|x l IH]; intros [|k] [|j] v d H; simpl in *; try lia; auto. Qed.

Lemma coords_nth : forall ds e k d, nth_error ds k = Some d -> nth k (coords e ds) 0 = e (key d).
Proof.
  intros. unfold coords. apply nth_error_nth. now rewrite nth_error_map, H.
Qed.

Lemma labels_nth : forall {A} (x : hf A) k d, labels_match x -> nth_error (h_dims x) k = Some d ->
  nth_error (h_shape x) k = Some (length (d_data d)).
Proof. intros A x k d Hl H. rewrite <- Hl. now rewrite nth_error_map, H. Qed.

(** ** Which axis a designator means to take and the cumulative operations *)
Definition only_name (ds : list dim) (k : nat) : Prop :=
  forall j d d', nth_error ds k = Some d -> nth_error ds j = Some d' -> d_name d' = d_name d -> j = k.

Lemma find_index_first : forall {X} (f : X -> bool) l k x, nth_error l k = Some x -> f x = true ->
  (forall j y, nth_error l j = Some y -> f y = true -> j = k) -> find_index f l = Some k.
Proof.
  induction l as [|y l IH]; intros [|k] x H Hf Hu; simpl in *; try discriminate.
  - injection H as ->. now rewrite Hf.
  - destruct (f y) eqn:E.
    + specialize (Hu 0 y eq_refl E). discriminate.
    + rewrite (IH k x); auto. intros j z Hj Hz. specialize (Hu (S j) z Hj Hz). lia.
Qed.

Lemma axis_resolves : forall ds ax k, NoDup (map key ds) -> designates ds ax [k] -> only_name ds k ->
  exists d, nth_error ds k = Some d /\ axis_handler ds ax = Ok d /\ dims_index ds (d_name d) = Ok k.
Proof.
  intros ds ax k ND H HU.
  assert (HI : forall d, nth_error ds k = Some d -> dims_index ds (d_name d) = Ok k).
  { intros d Hd. unfold dims_index. rewrite (find_index_first _ _ k d); auto.
    - apply String.eqb_refl.
    - intros j y Hj Hy. apply String.eqb_eq in Hy. eapply HU; eauto. }
  inversion H as [k0 Hlt|s k0 d Hk Hs Hu|k0 d Hk|c ps Hps NDp]; subst.
  - destruct (nth_error ds k) as [d|] eqn:E; [|apply nth_error_None in E; lia].
    exists d. split; auto. split; [|now apply HI]. unfold axis_handler, py_nth. rewrite py_pos_nat by assumption.
    now rewrite E.
  - exists d. split; auto. split; [|now apply HI]. simpl. rewrite (HI d) by assumption. simpl. rewrite Hk. simpl.
    now rewrite contains_self by (eapply nth_error_In; eauto).
  - exists d. split; auto. split; [|now apply HI]. simpl.
    now rewrite contains_self by (eapply nth_error_In; eauto).
  - destruct (proj1 (Hps k)) as [d [Hd Hc]]; [simpl; auto|]. exists d. split; auto. split; [|now apply HI]. simpl.
    assert (G : filter (fun d => subclass (d_class d) c) ds = [d]).
    { assert (Hj : forall j d', nth_error ds j = Some d' -> subclass (d_class d') c = true -> j = k).
      { intros j d' Hj Hs. assert (Q : In j [k]) by (apply Hps; eauto). simpl in Q. destruct Q as [->|[]]. reflexivity. }
      clear -Hd Hc Hj. revert k Hd Hj. induction ds as [|d0 ds IH]; intros [|k] Hd Hj; simpl in *; try discriminate.
      - injection Hd as ->. rewrite Hc. f_equal.
        assert (forall y, In y ds -> subclass (d_class y) c = false) as G.
        { intros y Hy. apply In_nth_error in Hy as [j Hy]. destruct (subclass (d_class y) c) eqn:E; auto.
          specialize (Hj (S j) y Hy E). discriminate. }
        clear -G. induction ds as [|y ds IH]; simpl; auto. rewrite (G y) by (simpl; auto). apply IH. intros z Hz. apply G. simpl; auto.
      - destruct (subclass (d_class d0) c) eqn:E; [specialize (Hj 0 d0 eq_refl E); discriminate|].
        apply (IH k); auto. intros j d' H1 H2. specialize (Hj (S j) d' H1 H2). lia. }
    now rewrite G.
Qed.

(** ** take *)
Lemma mapM_cons_inv : forall {X Y} (f : X -> result Y) x l ys, mapM f (x :: l) = Ok ys ->
  exists y ys', f x = Ok y /\ mapM f l = Ok ys' /\ ys = y :: ys'.
Proof.
  intros X Y f x l ys H. simpl in H. destruct (f x) as [y|]; [|discriminate]. simpl in H.
  destruct (mapM f l) as [ys'|]; [|discriminate]. simpl in H. injection H as <-. eauto.
Qed.

Lemma int_position_py : forall n i p, int_position n i p <-> py_pos n i = Some p.
Proof.
  intros n i p. unfold int_position, py_pos.
  destruct (0 <=? i)%Z eqn:E1; simpl.
  - apply Z.leb_le in E1. destruct (i <? Z.of_nat n)%Z eqn:E2; simpl.
    + apply Z.ltb_lt in E2. split; [intros [H1 [H2|H2]]; [f_equal|]; lia|]. intros [= <-]. lia.
    + apply Z.ltb_ge in E2. assert ((- Z.of_nat n <=? i)%Z && (i <? 0)%Z = false) as ->.
      { apply andb_false_iff. right. apply Z.ltb_ge. lia. }
      split; [lia|discriminate].
  - apply Z.leb_gt in E1. destruct ((- Z.of_nat n <=? i)%Z && (i <? 0)%Z) eqn:E2.
    + apply andb_prop in E2 as [E2 E3]. apply Z.leb_le in E2.
      split; [intros [H1 [H2|H2]]; [lia|f_equal; lia]|]. intros [= <-]. lia.
    + apply andb_false_iff in E2 as [E2|E2]; [apply Z.leb_gt in E2|apply Z.ltb_ge in E2]; split; try discriminate; lia.
Qed.

Lemma Forall2_mapM : forall {X Y} (f : X -> result Y) (P : X -> Y -> Prop) l ps,
  (forall x y, P x y -> f x = Ok y) -> Forall2 P l ps -> mapM f l = Ok ps.
Proof.
  intros X Y f P l ps H HF. induction HF as [|x y l ps H1 H2 IH]; simpl; auto.
  rewrite (H x y) by assumption. simpl. now rewrite IH.
Qed.

Lemma take_ok : forall {A} (x : hf A) idx ax k d ps,
  wf x -> designates (h_dims x) ax [k] -> only_name (h_dims x) k -> nth_error (h_dims x) k = Some d ->
  Forall2 (int_position (length (d_data d))) idx ps ->
  exists y d', take idx ax x = Ok y /\ wf y /\
    key d' = key d /\ d_data d' = map LZ idx /\
    h_dims y = set_nth k d' (h_dims x) /\
    h_unit y = h_unit x /\
    (forall e, valid e (h_dims y) -> val y e = val x (upd e (key d) (nth (e (key d)) ps 0))).
Proof.
  intros A x idx ax k d ps Hwf Hd HU Hk HF. pose proof Hwf as [Hw [Hl ND]]. assert (Hn := wf_ndim x Hl).
  destruct (axis_resolves _ _ _ ND Hd HU) as [d0 [E0 [H1 H2]]]. rewrite Hk in E0. injection E0 as <-.
  unfold take. rewrite H1. simpl. rewrite H2. simpl. rewrite Hk. simpl.
  rewrite (labels_nth x k d Hl Hk). simpl.
  rewrite (Forall2_mapM _ (int_position (length (d_data d))) idx ps); auto.
  2:{ intros i p Hp. apply int_position_py in Hp. now rewrite Hp. }
  simpl.
  assert (Hlt : forall p, In p ps -> p < length (d_data d)).
  { clear -HF. induction HF; simpl; [tauto|]. intros p [<-|Hp]; auto. apply H. }
  assert (Hsk : nth k (h_shape x) 0 = length (d_data d)).
  { apply nth_error_nth. now apply labels_nth. }
  assert (Hkn : k < h_ndim x). { rewrite <- Hn. apply nth_error_Some. congruence. }
  unfold nd_take. fold (h_shape x). rewrite Hsk.
  assert (forallb (fun i => i <? length (d_data d)) ps = true) as ->.
  { apply forallb_forall. intros p Hp. apply Nat.ltb_lt. auto. }
  simpl.
  set (d' := mkDim (d_class d) (d_name d) (map LZ idx) None None).
  assert (Lps : length ps = length idx) by (clear -HF; induction HF; simpl; auto).
  assert (TOT : total_on (set_nth k (length ps) (h_shape x))
                 (fun ix => nd_get (h_nd x) (set_nth k (nth (nth k ix 0) ps 0) ix))).
  { intros ix Hix. apply nd_get_not_none; auto.
    pose proof (inb_length _ _ Hix) as Li. rewrite set_nth_length in Li.
    apply inb_nth in Hix as [_ Hix].
    assert (Hki : nth k ix 0 < length ps).
    { specialize (Hix k). rewrite set_nth_length, nth_set_nth_same in Hix by exact Hkn. apply Hix. exact Hkn. }
    apply inb_nth. rewrite set_nth_length. split; [assumption|]. intros j Hj.
    destruct (Nat.eq_dec j k) as [->|Hne].
    - rewrite nth_set_nth_same by (rewrite Li; exact Hj). fold (h_shape x). rewrite Hsk. apply Hlt. apply nth_In. exact Hki.
    - specialize (Hix j). rewrite set_nth_length in Hix. specialize (Hix Hj).
      rewrite nth_set_nth_other in Hix |- * by auto. exact Hix. }
  eexists. exists d'. split; [reflexivity|]. simpl.
  assert (KEY : map key (set_nth k d' (h_dims x)) = map key (h_dims x)) by (now apply set_nth_key with d).
  split; [split; [|split]|]; simpl.
  - now apply nd_tab_wf.
  - unfold labels_match, h_shape. simpl. fold (h_shape x). rewrite <- Hl, map_set_nth. f_equal. simpl. now rewrite map_length.
  - rewrite KEY. assumption.
  - split; [reflexivity|]. split; [reflexivity|]. split; [reflexivity|]. split; [reflexivity|].
    intros e He. unfold val. simpl.
    rewrite (coords_keys _ _ _ KEY).
    assert (Hin : inb (set_nth k (length ps) (h_shape x)) (coords e (h_dims x)) = true).
    { rewrite <- (coords_keys _ _ _ KEY).
      pose proof (inb_valid e _ He) as V. rewrite map_set_nth in V. simpl in V. rewrite map_length, <- Lps in V.
      rewrite <- Hl. exact V. }
    rewrite (nd_get_tab _ _ _ TOT Hin). rewrite (coords_nth _ _ _ _ Hk).
    rewrite (coords_upd _ _ k d) by assumption. reflexivity.
Qed.

(** ** Cumulative operations *)
Lemma flat_map_some : forall {X Y} (f : X -> option Y) l d, (forall x, In x l -> f x <> None) ->
  flat_map (fun x => opt_list (f x)) l = map (fun x => match f x with Some y => y | None => d end) l.
Proof.
  intros X Y f l d H. induction l as [|x l IH]; simpl; auto.
  rewrite IH by (intros; apply H; simpl; auto). destruct (f x) eqn:E; [reflexivity|]. exfalso. eapply H; simpl; eauto.
Qed.

Lemma cumulate_ok : forall {A} (op : A -> A -> A) (x : hf A) ax k d,
  wf x -> designates (h_dims x) ax [k] -> only_name (h_dims x) k -> nth_error (h_dims x) k = Some d ->
  exists y, cumulate op ax x = Ok y /\ wf y /\ h_dims y = h_dims x /\
    (forall e, valid e (h_dims x) -> exists v0 vs,
       map Some (v0 :: vs) = map (fun i => val x (upd e (key d) i)) (seq 0 (S (e (key d)))) /\
       val y e = Some (fold_left op vs v0)).
Proof.
  intros A op x ax k d Hwf Hd HU Hk. pose proof Hwf as [Hw [Hl ND]]. assert (Hn := wf_ndim x Hl).
  destruct (axis_resolves _ _ _ ND Hd HU) as [d0 [E0 [H1 H2]]]. rewrite Hk in E0. injection E0 as <-.
  unfold cumulate. rewrite H1. simpl. rewrite H2. simpl.
  assert (Hkn : k < h_ndim x). { rewrite <- Hn. apply nth_error_Some. congruence. }
  set (F := fun ix => match flat_map (fun i => opt_list (nd_get (h_nd x) (set_nth k i ix)))
                   (seq 0 (S (nth k ix 0))) with
    | [] => None
    | x :: l => Some (fold_left op l x)
    end).
  assert (IN : forall ix i, inb (h_shape x) ix = true -> i <= nth k ix 0 -> nd_get (h_nd x) (set_nth k i ix) <> None).
  { intros ix i Hix Hi. apply nd_get_not_none; auto. fold (h_shape x).
    assert (Hb := proj2 (proj1 (inb_nth _ _) Hix) k Hkn).
    rewrite <- (set_nth_self (h_shape x) k (nth k (h_shape x) 0)) by (apply nth_error_nth'; exact Hkn).
    apply inb_set_nth; auto; lia. }
  assert (TOT : total_on (h_shape x) F).
  { intros ix Hix. unfold F. simpl. specialize (IN ix 0 Hix ltac:(lia)).
    destruct (nd_get (h_nd x) (set_nth k 0 ix)); simpl; [discriminate|congruence]. }
  rewrite new_raw_ok by (simpl; assumption).
  eexists. split; [reflexivity|]. simpl.
  split; [split; [|split]|]; simpl; auto.
  - apply (nd_tab_wf (h_shape x) F). exact TOT.
  - split; [reflexivity|]. intros e He.
    assert (Hin := coords_inb x e Hl He).
    destruct (val_some x e Hw Hl He) as [v Hv].
    set (g := fun i => match nd_get (h_nd x) (set_nth k i (coords e (h_dims x))) with Some y => y | None => v end).
    assert (Ek : nth k (coords e (h_dims x)) 0 = e (key d)) by (now apply coords_nth).
    exists (g 0), (map g (seq 1 (e (key d)))). split.
    + change (g 0 :: map g (seq 1 (e (key d)))) with (map g (seq 0 (S (e (key d))))).
      rewrite map_map. apply (map_ext_in (fun i => Some (g i)) (fun i => val x (upd e (key d) i)) (seq 0 (S (e (key d))))).
      intros i Hi. apply in_seq in Hi. unfold g, val.
      rewrite (coords_upd _ _ k d) by assumption. specialize (IN _ i Hin). rewrite Ek in IN.
      specialize (IN ltac:(lia)). destruct (nd_get (h_nd x) (set_nth k i (coords e (h_dims x)))); congruence.
    + unfold val. simpl. change (nd_get (nd_tab (h_shape x) F) (coords e (h_dims x)) = Some (fold_left op (map g (seq 1 (e (key d)))) (g 0))).
      rewrite nd_get_tab by assumption. unfold F. rewrite Ek.
      rewrite (flat_map_some (fun i => nd_get (h_nd x) (set_nth k i (coords e (h_dims x)))) _ v).
      2:{ intros i Hi. apply in_seq in Hi. apply IN; auto. rewrite Ek. lia. }
      reflexivity.
Qed.

(** ** Indexing *)

Lemma zrange_fuel_in : forall fuel a b st z, In z (zrange_fuel fuel a b st) ->
  if (0 <? st)%Z then (z < b)%Z else (b < z)%Z.
Proof.
  induction fuel; intros a b st z H; simpl in *; [tauto|].
  destruct (if (0 <? st)%Z then (a <? b)%Z else (b <? a)%Z) eqn:E; [|destruct H].
  destruct H as [<-|H]; [|apply (IHfuel _ _ _ _ H)].
  destruct (0 <? st)%Z; now apply Z.ltb_lt.
Qed.

Lemma zrange_fuel_spec : forall fuel a b st k, k < length (zrange_fuel fuel a b st) ->
  nth k (zrange_fuel fuel a b st) 0%Z = (a + Z.of_nat k * st)%Z.
Proof.
  induction fuel; intros a b st k H; simpl in *; [lia|].
  destruct (if (0 <? st)%Z then (a <? b)%Z else (b <? a)%Z); simpl in *; [|lia].
  destruct k; [lia|]. rewrite IHfuel by lia. lia.
Qed.

Lemma zrange_fuel_maximal : forall fuel a b st, st <> 0%Z ->
  (if (0 <? st)%Z then b - a <= Z.of_nat fuel else a - b <= Z.of_nat fuel)%Z ->
  ~ (if (0 <? st)%Z then (a + Z.of_nat (length (zrange_fuel fuel a b st)) * st < b)%Z
     else (b < a + Z.of_nat (length (zrange_fuel fuel a b st)) * st)%Z).
Proof.
  induction fuel; intros a b st Hst H; cbn [zrange_fuel].
  - simpl. destruct (0 <? st)%Z; lia.
  - destruct (0 <? st)%Z eqn:E; [apply Z.ltb_lt in E|apply Z.ltb_ge in E].
    + destruct (a <? b)%Z eqn:E2; [apply Z.ltb_lt in E2|apply Z.ltb_ge in E2]; cbn [length]; [|simpl; lia].
      specialize (IHfuel (a + st)%Z b st Hst). rewrite (proj2 (Z.ltb_lt 0 st)) in IHfuel by lia.
      specialize (IHfuel ltac:(lia)). rewrite Nat2Z.inj_succ, Z.mul_succ_l. lia.
    + destruct (b <? a)%Z eqn:E2; [apply Z.ltb_lt in E2|apply Z.ltb_ge in E2]; cbn [length]; [|simpl; lia].
      specialize (IHfuel (a + st)%Z b st Hst). rewrite (proj2 (Z.ltb_ge 0 st)) in IHfuel by lia.
      specialize (IHfuel ltac:(lia)). rewrite Nat2Z.inj_succ, Z.mul_succ_l. lia.
Qed.

Lemma adjust_clip : forall n st dflt v, (0 <= n)%Z -> st <> 0%Z ->
  adjust n st dflt v = match v with None => dflt
    | Some x => if (0 <? st)%Z then clip 0 n n x else clip (-1) (n - 1) n x end.
Proof.
  intros n st dflt [x|] Hn Hst; [|reflexivity]. unfold adjust, clip. cbv zeta.
  assert (st <? 0 = negb (0 <? st))%Z as ->.
  { destruct (Z.ltb_spec st 0), (Z.ltb_spec 0 st); simpl; auto; lia. }
  destruct (0 <? st)%Z; simpl; destruct (Z.ltb_spec x 0);
    repeat (match goal with |- context [(?a <? ?b)%Z] => destruct (Z.ltb_spec a b) | |- context [(?a <=? ?b)%Z] => destruct (Z.leb_spec a b) end); lia.
Qed.

Lemma slice_positions_ok : forall n s, slice_step s <> 0%Z ->
  exists ps, slice_positions n s = Ok ps /\ slice_selects n s ps.
Proof.
  intros n s Hst. unfold slice_positions. fold (slice_step s).
  rewrite (proj2 (Z.eqb_neq _ _) Hst). eexists. split; [reflexivity|].
  set (start := adjust _ _ _ (s_start s)). set (stop := adjust _ _ _ (s_stop s)).
  assert (E1 : start = slice_start (Z.of_nat n) s).
  { unfold start, slice_start. rewrite adjust_clip by (auto; lia).
    assert (slice_step s <? 0 = negb (0 <? slice_step s))%Z as ->.
    { destruct (Z.ltb_spec (slice_step s) 0), (Z.ltb_spec 0 (slice_step s)); simpl; auto; lia. }
    destruct (s_start s), (0 <? slice_step s)%Z; reflexivity. }
  assert (E2 : stop = slice_stop (Z.of_nat n) s).
  { unfold stop, slice_stop. rewrite adjust_clip by (auto; lia).
    assert (slice_step s <? 0 = negb (0 <? slice_step s))%Z as ->.
    { destruct (Z.ltb_spec (slice_step s) 0), (Z.ltb_spec 0 (slice_step s)); simpl; auto; lia. }
    destruct (s_stop s), (0 <? slice_step s)%Z; reflexivity. }
  rewrite E1, E2. clear start stop E1 E2.
  set (a := slice_start (Z.of_nat n) s). set (b := slice_stop (Z.of_nat n) s).
  assert (Ha : (if 0 <? slice_step s then 0 <= a else a <= Z.of_nat n - 1)%Z).
  { unfold a, slice_start, clip. destruct (0 <? slice_step s)%Z; destruct (s_start s); lia. }
  assert (Hb : (if 0 <? slice_step s then b <= Z.of_nat n else -1 <= b)%Z).
  { unfold b, slice_stop, clip. destruct (0 <? slice_step s)%Z; destruct (s_stop s); lia. }
  unfold slice_selects. fold a b. split; [assumption|]. rewrite map_length. split.
  - intros k Hk. pose proof (map_nth Z.to_nat (zrange_fuel n a b (slice_step s)) 0%Z k) as Q.
    change (Z.to_nat 0) with 0 in Q. rewrite Q. clear Q.
    pose proof (zrange_fuel_in n a b (slice_step s) _ (nth_In _ 0%Z Hk)) as Hin.
    pose proof (zrange_fuel_spec _ _ _ _ _ Hk) as Hv. rewrite Hv in *.
    unfold before. destruct (0 <? slice_step s)%Z eqn:E.
    + apply Z.ltb_lt in E. assert (0 <= Z.of_nat k * slice_step s)%Z by nia. lia.
    + apply Z.ltb_ge in E. assert (Z.of_nat k * slice_step s <= 0)%Z by nia. lia.
  - apply zrange_fuel_maximal; auto. destruct (0 <? slice_step s)%Z; lia.
Qed.

Lemma select_ok : forall {X} (l : list X) ps, (forall p, In p ps -> p < length l) ->
  length (select l ps) = length ps /\
   forall k, k < length ps -> nth_error (select l ps) k = nth_error l (nth k ps 0).
Proof.
  intros X l ps H. unfold select. induction ps as [|p ps IH]; simpl; [split; [auto|intros; lia]|].
  destruct IH as [I1 I2]; [intros; apply H; simpl; auto|].
  destruct (nth_error l p) as [v|] eqn:E.
  2:{ apply nth_error_None in E. specialize (H p (or_introl eq_refl)). lia. }
  simpl. split; [now rewrite I1|]. intros [|k] Hk; simpl; auto. apply I2. lia.
Qed.

Lemma slice_selects_lt : forall n s ps p, slice_selects n s ps -> In p ps -> p < n.
Proof.
  intros n s ps p [_ [H _]] Hp. apply In_nth with (d := 0) in Hp as [k [Hk <-]]. now apply H.
Qed.

Lemma slice_eqb_full : forall s, slice_eqb s full_slice = true -> s = full_slice.
Proof.
  intros [a b c]. unfold slice_eqb, full_slice. simpl.
  destruct a, b, c; simpl; intros; try discriminate; auto.
Qed.

Lemma full_slice_selects : forall n ps, slice_selects n full_slice ps -> ps = seq 0 n.
Proof.
  intros n ps [_ [H1 H2]]. unfold slice_start, slice_stop, before, slice_step in *. simpl in *.
  assert (L : length ps = n).
  { assert (length ps >= n) by lia. destruct (Nat.eq_dec (length ps) n); auto. exfalso.
    destruct (H1 n) as [E [K _]]; lia. }
  apply nth_ext with (d := 0) (d' := 0); [now rewrite seq_length|].
  intros k Hk. rewrite seq_nth by lia. destruct (H1 k Hk) as [E _]. lia.
Qed.

Lemma dim_getslice_ok : forall d s ps, slice_positions (length (d_data d)) s = Ok ps ->
  slice_selects (length (d_data d)) s ps -> d_data d <> [] \/ d_fmt d <> None ->
  exists d', dim_getslice d s = Ok d' /\ relabelled d ps d'.
Proof.
  intros d s ps H1 H2 Hf. unfold dim_getslice. destruct (slice_eqb s full_slice) eqn:E.
  - apply slice_eqb_full in E. subst s. apply full_slice_selects in H2. subst ps.
    exists d. split; auto. unfold relabelled. rewrite seq_length. repeat split; auto.
    intros k Hk. now rewrite seq_nth.
  - rewrite H1. simpl.
    assert (exists f, outputformat d = Ok f) as [f Ef].
    { unfold outputformat. destruct (d_fmt d) as [f|]; [eauto|]. destruct Hf as [Hf|Hf]; [|congruence].
      destruct (d_data d) as [|l ls]; [congruence|]. destruct l; eauto. }
    rewrite Ef. simpl. eexists. split; [reflexivity|]. unfold relabelled, key. simpl.
    destruct (select_ok (d_data d) ps) as [S1 S2]; [intros p Hp; eapply slice_selects_lt; eauto|].
    auto.
Qed.

Lemma filter_none : forall l, Forall (fun i => i <> IEllipsis) l -> filter is_ellipsis l = [].
Proof. induction 1 as [|i l H _ IH]; simpl; auto. destruct i; simpl; auto. congruence. Qed.

Lemma expand_means : forall n l l', means n l l' -> expand_items n l = Ok l'.
Proof.
  intros n l l' H. unfold expand_items. destruct H as [l H Hl|l1 l2 H1 H2 Hl].
  - rewrite filter_none by assumption. reflexivity.
  - rewrite filter_app, filter_none by assumption. simpl. rewrite filter_none by assumption. simpl.
    assert (E : forall m, expand_ellipsis m (l1 ++ IEllipsis :: l2) = l1 ++ repeat (ISlice full_slice) m ++ l2).
    { clear -H1. intros m. induction H1 as [|i l1 Hi H1 IH]; simpl; auto. destruct i; try congruence; now rewrite IH. }
    rewrite E. rewrite !app_length, repeat_length. simpl.
    replace (n - (length l1 + S (length l2) - 1)) with (n - length l1 - length l2) by lia.
    replace (n - (length l1 + (n - length l1 - length l2 + length l2))) with 0 by lia.
    simpl. now rewrite app_nil_r.
Qed.

Lemma means_length : forall n l l', means n l l' -> length l' = n.
Proof. intros n l l' H. destruct H; rewrite ?app_length, ?repeat_length; lia. Qed.

Lemma indexing_ok : forall ds l, Forall2 item_ok ds l ->
  exists sel ds', indexed ds l sel ds' /\ index_dims ds l = Ok ds' /\
     axis_selection (map (fun d => length (d_data d)) ds) l = Ok sel.
Proof.
  intros ds l H. induction H as [|d i ds l Hi H IH]; simpl.
  - exists [], []. repeat constructor.
  - destruct IH as [sel [ds' [I1 [I2 I3]]]]. destruct Hi as [d i p Hp|d s Hs Hf]; simpl.
    + pose proof (proj1 (int_position_py _ _ _) Hp) as Hp'. rewrite Hp'. simpl. rewrite I3. simpl.
      exists ((true, [p]) :: sel), ds'. repeat split; auto. now constructor.
    + destruct (slice_positions_ok (length (d_data d)) s Hs) as [ps [E1 E2]].
      destruct (dim_getslice_ok d s ps E1 E2 Hf) as [d' [E3 E4]].
      rewrite E1, E3. simpl. rewrite I2, I3. simpl.
      exists ((false, ps) :: sel), (d' :: ds'). repeat split; auto. now constructor.
Qed.

Lemma indexed_keys : forall ds l sel ds', indexed ds l sel ds' -> incl (map key ds') (map key ds).
Proof.
  intros ds l sel ds' H. induction H as [|d ds i l p sel ds' Hp H IH|d ds s l ps sel d' ds' Hs Hr H IH]; simpl.
  - apply incl_refl.
  - intros z Hz. right. auto.
  - destruct Hr as [Hk _]. rewrite Hk. intros z [<-|Hz]; [left|right]; auto.
Qed.

Lemma indexed_NoDup : forall ds l sel ds', indexed ds l sel ds' -> NoDup (map key ds) -> NoDup (map key ds').
Proof.
  intros ds l sel ds' H. induction H as [|d ds i l p sel ds' Hp H IH|d ds s l ps sel d' ds' Hs Hr H IH]; simpl; intros ND; auto.
  - inversion ND; auto.
  - inversion ND; subst. destruct Hr as [Hk _]. rewrite Hk. constructor; auto.
    intros K. apply H2. eapply indexed_keys; eauto.
Qed.

(** The assignment for the argument, as a function. *)
Fixpoint back_env (ds : list dim) (sel : list (bool * list nat)) (e : assignment) : assignment :=
  match ds, sel with
  | d :: ds', (b, ps) :: sel' =>
      upd (back_env ds' sel' e) (key d) (if b : bool then nth 0 ps 0 else nth (e (key d)) ps 0)
  | _, _ => e
  end.

Lemma back_env_back : forall ds sel e, NoDup (map key ds) -> back ds sel e (back_env ds sel e).
Proof.
  induction ds as [|d ds IH]; intros [|[b ps] sel] e ND; intros k d' b' ps' Hk Hs; simpl in *;
    try (destruct k; discriminate).
  inversion ND; subst. destruct k; simpl in *.
  - injection Hk as <-. injection Hs as <- <-. now rewrite upd_same.
  - rewrite upd_other; [eapply IH; eauto|]. intros E. apply H1. rewrite <- E. apply in_map. eapply nth_error_In; eauto.
Qed.

Lemma back_coords : forall ds l sel ds' e e', indexed ds l sel ds' -> back ds sel e e' ->
  coords e' ds = selected_ix sel (coords e ds').
Proof.
  intros ds l sel ds' e e' H. induction H as [|d ds i l p sel ds' Hp H IH|d ds s l ps sel d' ds' Hs Hr H IH]; simpl; intros HB; auto.
  - f_equal; [apply (HB 0 d true [p]); reflexivity|]. apply IH. intros k. apply (HB (S k)).
  - destruct Hr as [Hk _]. f_equal.
    + rewrite Hk. apply (HB 0 d false ps); reflexivity.
    + apply IH. intros k. apply (HB (S k)).
Qed.

Lemma indexed_inb : forall ds l sel ds' ix, indexed ds l sel ds' ->
  inb (selected_shape sel) ix = true -> inb (map (fun d => length (d_data d)) ds) (selected_ix sel ix) = true.
Proof.
  intros ds l sel ds' ix H. revert ix. induction H as [|d ds i l p sel ds' Hp H IH|d ds s l ps sel d' ds' Hs Hr H IH]; simpl; intros ix Hix; auto.
  - rewrite IH by assumption. rewrite andb_true_r. apply Nat.ltb_lt. apply Hp.
  - destruct ix as [|i ix]; [discriminate|]. simpl in *. apply andb_prop in Hix as [H1 H2]. rewrite IH by assumption.
    rewrite andb_true_r. apply Nat.ltb_lt. apply Nat.ltb_lt in H1. eapply slice_selects_lt; eauto. now apply nth_In.
Qed.

Lemma indexed_shape : forall ds l sel ds', indexed ds l sel ds' ->
  map (fun d => length (d_data d)) ds' = selected_shape sel.
Proof.
  intros ds l sel ds' H. induction H as [|d ds i l p sel ds' Hp H IH|d ds s l ps sel d' ds' Hs Hr H IH]; simpl; auto.
  destruct Hr as [_ [_ [Hr _]]]. now rewrite Hr, IH.
Qed.

Lemma indexed_valid : forall ds l sel ds' e e', indexed ds l sel ds' -> valid e ds' -> back ds sel e e' -> valid e' ds.
Proof.
  intros ds l sel ds' e e' H Hv HB. pose proof (back_coords _ _ _ _ _ _ H HB) as Hc.
  pose proof (indexed_inb _ _ _ _ (coords e ds') H) as Hi.
  rewrite <- (indexed_shape _ _ _ _ H), <- Hc in Hi. specialize (Hi (inb_valid _ _ Hv)).
  intros d Hd. apply In_nth_error in Hd as [k Hk].
  apply inb_nth in Hi as [_ Hi]. rewrite map_length in Hi.
  specialize (Hi k ltac:(apply nth_error_Some; congruence)).
  rewrite (coords_nth _ _ _ _ Hk) in Hi.
  erewrite nth_error_nth in Hi by (rewrite nth_error_map, Hk; reflexivity). exact Hi.
Qed.

Lemma getitem_ok : forall {A} (x : hf A) l l', wf x -> means (h_ndim x) l l' -> Forall2 item_ok (h_dims x) l' ->
  exists r sel ds', getitem l x = Ok r /\ indexed (h_dims x) l' sel ds' /\
     match r with
    | ItemScalar v => Forall (fun i => exists z, i = IInt z) l /\ length l = h_ndim x /\ ds' = [] /\
         forall e e', back (h_dims x) sel e e' -> val x e' = Some v
    | ItemArray y => ~ (Forall (fun i => exists z, i = IInt z) l /\ length l = h_ndim x) /\
         wf y /\ h_dims y = ds' /\ h_unit y = h_unit x /\ h_fmt y = h_fmt x /\
         forall e e', valid e (h_dims y) -> back (h_dims x) sel e e' ->
          valid e' (h_dims x) /\ val y e = val x e'
    end.
Proof.
  intros A x l l' Hwf Hm HF. pose proof Hwf as [Hw [Hl ND]]. assert (Hn := wf_ndim x Hl).
  destruct (indexing_ok _ _ HF) as [sel [ds' [H1 [H2 H3]]]].
  unfold getitem. rewrite (expand_means _ _ _ Hm). simpl. rewrite H2. simpl.
  unfold nd_getitem. fold (h_shape x). rewrite Hl in H3. rewrite H3. simpl.
  assert (TOT : total_on (selected_shape sel) (fun ix => nd_get (h_nd x) (selected_ix sel ix))).
  { intros ix Hix. apply nd_get_not_none; auto. fold (h_shape x). rewrite <- Hl. eapply indexed_inb; eauto. }
  assert (AI : forallb is_int l = true <-> Forall (fun i => exists z, i = IInt z) l).
  { rewrite forallb_forall, Forall_forall. split; intros H i Hi; specialize (H i Hi).
    - destruct i; try discriminate. eauto.
    - destruct H as [z ->]. reflexivity. }
  destruct (forallb is_int l && Nat.eqb (length l) (h_ndim x)) eqn:E.
  - apply andb_prop in E as [E1 E2]. apply Nat.eqb_eq in E2. apply AI in E1.
    assert (El : l' = l).
    { destruct Hm as [l H Hle|l1 l2 _ _ Hle].
      - rewrite E2, Nat.sub_diag. simpl. apply app_nil_r.
      - exfalso. rewrite Forall_forall in E1. destruct (E1 IEllipsis) as [z Hz]; [|discriminate].
        apply in_or_app. simpl. auto. }
    subst l'.
    assert (S0 : selected_shape sel = [] /\ ds' = []).
    { clear -H1 E1. induction H1 as [|d ds i l p sel ds' Hp H IH|d ds s l ps sel d' ds' Hs Hr H IH]; simpl; auto.
      - inversion E1; subst. auto.
      - inversion E1; subst. destruct H2 as [z Hz]. discriminate. }
    destruct S0 as [S0 S1]. subst ds'.
    assert (G : forall e e', back (h_dims x) sel e e' -> val x e' = nd_get (h_nd x) (selected_ix sel [])).
    { intros e e' HB. unfold val. now rewrite (back_coords _ _ _ _ _ _ H1 HB). }
    unfold nd_tab. rewrite S0. simpl.
    specialize (TOT [] ltac:(rewrite S0; reflexivity)). simpl in TOT.
    destruct (nd_get (h_nd x) (selected_ix sel [])) as [v|] eqn:Ev; [|congruence]. simpl.
    exists (ItemScalar v), sel, []. repeat split; auto.
  - rewrite new_from_ok.
    2:{ simpl. rewrite <- (indexed_shape _ _ _ _ H1). now rewrite map_length. }
    simpl. eexists. exists sel, ds'. split; [reflexivity|]. split; [assumption|]. simpl.
    split; [|split; [split; [|split]|]]; simpl.
    + intros [K1 K2]. apply AI in K1. rewrite K1, K2, Nat.eqb_refl in E. discriminate.
    + now apply nd_tab_wf.
    + unfold labels_match, h_shape. simpl. now apply indexed_shape with (1 := H1).
    + eapply indexed_NoDup; eauto.
    + split; [reflexivity|]. split; [reflexivity|]. split; [reflexivity|].
      intros e e' He HB. split; [eapply indexed_valid; eauto|]. unfold val. simpl.
      rewrite nd_get_tab; auto.
      * now rewrite (back_coords _ _ _ _ _ _ H1 HB).
      * rewrite <- (indexed_shape _ _ _ _ H1). now apply inb_valid.
Qed.
