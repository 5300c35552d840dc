(** Masks, added and replaced dimensions, collapsed dimensions, the 2x2 form of
    complex arrays. *)
From Coq Require Import String List Arith ZArith Bool Lia Permutation.
From Verif Require Import Model_NdArray Proofs_NdArray Model_Dim Model_Array Spec_Array Proofs_Array Proofs_Array2 Proofs_Array3 Proofs_Array4.
Import ListNotations.
Local Open Scope nat_scope.

(** ** add_dim *)
Lemma insert_at_length : forall {X} k (v : X) l, length (insert_at k v l) = S (length l).
Proof. induction k; intros v [|x l]; simpl; auto. Qed.

Lemma insert_at_map : forall {X Y} (f : X -> Y) k v l, map f (insert_at k v l) = insert_at k (f v) (map f l).
Proof. intros X Y f. induction k; intros v [|x l]; simpl; auto. now rewrite IHk. Qed.

Lemma remove_insert : forall {X} k (v : X) l, k <= length l -> remove_at k (insert_at k v l) = l.
Proof. induction k; intros v [|x l] H; simpl in *; auto; try lia. rewrite IHk by lia. reflexivity. Qed.

Lemma insert_at_In : forall {X} k (v : X) l x, In x (insert_at k v l) <-> x = v \/ In x l.
Proof.
  induction k; intros v [|y l] x; simpl; rewrite ?IHk; intuition (subst; auto).
Qed.

Lemma inb_remove_insert : forall k n sh ix, k <= length sh -> inb (insert_at k n sh) ix = true ->
  inb sh (remove_at k ix) = true.
Proof.
  induction k; intros n [|m sh] [|i ix] Hk H; simpl in *; try discriminate; try lia; auto.
  - apply andb_prop in H. tauto.
  - apply andb_prop in H. tauto.
  - apply andb_prop in H as [H1 H2]. rewrite H1. simpl. eapply IHk; eauto; lia.
Qed.

Lemma insert_at_NoDup : forall {X} k (v : X) l, NoDup l -> ~ In v l -> NoDup (insert_at k v l).
Proof.
  induction k; intros v [|x l] ND Hv; simpl; try (constructor; auto; fail).
  inversion ND; subst. constructor.
  - rewrite insert_at_In. intros [->|H]; [apply Hv; simpl; auto|auto].
  - apply IHk; auto. intros K. apply Hv. simpl. auto.
Qed.

Lemma add_dim_present : forall {A} (x : hf A) d axis, In d (h_dims x) -> add_dim d axis x = Ok x.
Proof. intros. unfold add_dim. now rewrite contains_self. Qed.

Lemma not_contains_key : forall ds d, dims_contains ds d = false -> ~ In (key d) (map key ds).
Proof.
  intros ds d H K. apply in_map_iff in K as [d' [E K]].
  assert (dims_contains ds d = true); [|congruence].
  unfold dims_contains. apply existsb_exists. exists d'. split; auto. unfold matches.
  injection E as E1 E2. now rewrite E1, E2, String.eqb_refl, subclass_refl.
Qed.

Lemma add_dim_ok : forall {A} (x : hf A) d axis, wf x ->
  (forall d', In d' (h_dims x) -> d_name d' <> d_name d) -> d_data d <> [] ->
  exists y, add_dim d axis x = Ok y /\ wf y /\
    h_dims y = insert_at (Nat.min axis (h_ndim x)) d (h_dims x) /\
    (forall e, valid e (h_dims y) -> val y e = val x e).
Proof.
  intros A x d axis [Hw [Hl ND]] Hc Hd. assert (Hn := wf_ndim x Hl). unfold add_dim.
  assert (C : dims_contains (h_dims x) d = false).
  { unfold dims_contains. apply not_true_is_false. intros K. apply existsb_exists in K as [d' [K1 K2]].
    unfold matches in K2. apply andb_prop in K2 as [K2 _]. apply String.eqb_eq in K2. eapply Hc; eauto. }
  rewrite C. set (k := Nat.min axis (h_ndim x)).
  assert (Hk : k <= h_ndim x) by (unfold k; lia).
  assert ((if 1 <? length (d_data d) then length (d_data d) else 1) = length (d_data d)) as ->.
  { destruct (Nat.ltb_spec 1 (length (d_data d))); auto. destruct (d_data d) as [|? [|]]; simpl in *; try lia. congruence. }
  assert (TOT : total_on (insert_at k (length (d_data d)) (h_shape x)) (fun ix => nd_get (h_nd x) (remove_at k ix))).
  { intros ix Hix. apply nd_get_not_none; auto. eapply inb_remove_insert; eauto. }
  rewrite new_raw_ok.
  2:{ unfold nd_insert. rewrite nd_tab_shape. fold (h_shape x). rewrite !insert_at_length. now rewrite Hn. }
  eexists. split; [reflexivity|]. split; [split; [|split]|]; simpl.
  - apply (nd_tab_wf _ _ TOT).
  - unfold labels_match, h_shape. simpl. fold (h_shape x). now rewrite insert_at_map, Hl.
  - rewrite insert_at_map. apply insert_at_NoDup; auto. now apply not_contains_key.
  - split; auto. intros e He. unfold val. simpl. unfold nd_insert.
    rewrite (nd_get_tab _ _ _ TOT).
    + f_equal. unfold coords. rewrite insert_at_map. apply remove_insert. rewrite map_length, Hn. exact Hk.
    + pose proof (inb_valid e _ He) as V. rewrite insert_at_map, Hl in V. exact V.
Qed.

(** ** replace_dim *)
Lemma replace_dim_ok : forall {A} (x : hf A) old new, wf x -> In old (h_dims x) ->
  (forall d, In d (h_dims x) -> d_name d = d_name old -> d = old) ->
  (forall d, In d (h_dims x) -> key d = key new -> d = old) ->
  length (d_data new) = length (d_data old) ->
  let y := replace_dim old new x in
  wf y /\ (forall k d, nth_error (h_dims x) k = Some d ->
             nth_error (h_dims y) k = Some (if String.eqb (d_name d) (d_name old) then new else d)) /\
  (forall e, val y e = val x (upd e (key old) (e (key new)))) /\
  nd_elems (h_nd y) = nd_elems (h_nd x) /\ h_unit y = h_unit x.
Proof.
  intros A x old new [Hw [Hl ND]] Ho Hu Hk Hlen y. unfold y, replace_dim.
  set (f := fun d => if String.eqb (d_name old) (d_name d) then new else d).
  assert (Hf : forall d, In d (h_dims x) -> (d = old /\ f d = new) \/ (d <> old /\ f d = d)).
  { intros d Hd. unfold f. destruct (String.eqb (d_name old) (d_name d)) eqn:E.
    - apply String.eqb_eq in E. left. split; auto.
    - right. split; auto. intros ->. rewrite String.eqb_refl in E. discriminate. }
  split; [split; [|split]|]; simpl; auto.
  - unfold labels_match, h_shape. simpl. fold (h_shape x). rewrite <- Hl. unfold replace_dim_list. fold f.
    rewrite map_map. apply map_ext_in. intros d Hd. destruct (Hf d Hd) as [[-> ->]|[_ ->]]; auto.
  - unfold replace_dim_list. fold f. rewrite map_map.
    assert (G : forall l, incl l (h_dims x) -> NoDup (map key l) -> NoDup (map (fun d => key (f d)) l)).
    { induction l as [|d l IH]; intros Hi HN; simpl; [constructor|]. inversion HN; subst.
      constructor; [|apply IH; auto; intros z Hz; apply Hi; simpl; auto].
      intros K. apply in_map_iff in K as [d' [E K]]. apply H1.
      assert (D : In d (h_dims x)) by (apply Hi; simpl; auto). assert (D' : In d' (h_dims x)) by (apply Hi; simpl; auto).
      destruct (Hf d D) as [[-> F1]|[N1 F1]], (Hf d' D') as [[-> F2]|[N2 F2]]; rewrite ?F1, ?F2 in E.
      - now apply in_map.
      - exfalso. apply N2. now apply Hk.
      - exfalso. apply N1. now apply Hk.
      - rewrite <- E. now apply in_map. }
    apply G; auto. apply incl_refl.
  - split; [|split; [|split]]; auto.
    + intros k d Hd. unfold replace_dim_list. rewrite nth_error_map, Hd. simpl. now rewrite String.eqb_sym.
    + intros e. unfold val. simpl. f_equal. unfold replace_dim_list, coords. fold f. rewrite map_map.
      apply map_ext_in. intros d Hd. destruct (Hf d Hd) as [[-> ->]|[N ->]].
      * now rewrite upd_same.
      * rewrite upd_other; auto. intros E. apply N. apply (NoDup_key_inj (h_dims x)); auto.
Qed.

(** ** Masks *)
Lemma take_until_app : forall {X} (f : X -> bool) l k x, nth_error l k = Some x -> f x = true ->
  (forall j y, j < k -> nth_error l j = Some y -> f y = false) -> take_until f l = firstn k l.
Proof.
  induction l as [|y l IH]; intros [|k] x H Hf Hb; simpl in *; try discriminate.
  - injection H as ->. now rewrite Hf.
  - rewrite (Hb 0 y) by (auto; lia). f_equal. apply (IH k x); auto. intros j z Hj Hz. apply (Hb (S j)); [lia|auto].
Qed.

Lemma true_positions_spec : forall m, 
  (forall p, In p (true_positions m) <-> nth_error m p = Some true).
Proof.
  intros m p. unfold true_positions.
  assert (G : forall m s p, In p (map fst (filter snd (combine (seq s (length m)) m))) <-> s <= p /\ nth_error m (p - s) = Some true).
  { clear. induction m as [|b m IH]; intros s p; simpl.
    - split; [tauto|]. intros [_ H]. destruct (p - s); discriminate.
    - assert (Q : S s <= p /\ nth_error m (p - S s) = Some true <-> s < p /\ nth_error (b :: m) (p - s) = Some true).
      { split; intros [H1 H2]; split; auto; try lia; replace (p - s) with (S (p - S s)) in * by lia; exact H2. }
      destruct b; simpl; rewrite IH, Q; split.
      + intros [<-|[H1 H2]]; [rewrite Nat.sub_diag; auto|split; [lia|auto]].
      + intros [H1 H2]. destruct (Nat.eq_dec s p); auto. right. split; [lia|auto].
      + intros [H1 H2]. split; [lia|auto].
      + intros [H1 H2]. split; auto. destruct (Nat.eq_dec s p) as [->|]; [|lia]. rewrite Nat.sub_diag in H2. discriminate. }
  rewrite G, Nat.sub_0_r. split; [tauto|]. split; [lia|auto].
Qed.

(** [ps] lists the true positions of [m] in ascending order. *)
Lemma true_positions_sorted : forall m i j, i < j -> j < length (true_positions m) ->
  nth i (true_positions m) 0 < nth j (true_positions m) 0.
Proof.
  assert (G : forall m s, (forall p, In p (map fst (filter snd (combine (seq s (length m)) m))) -> s <= p) /\
            (forall i j, i < j -> j < length (map fst (filter snd (combine (seq s (length m)) m))) ->
              nth i (map fst (filter snd (combine (seq s (length m)) m))) 0 <
              nth j (map fst (filter snd (combine (seq s (length m)) m))) 0)).
  { induction m as [|b m IH]; intros s; simpl.
    - split; [tauto|]. simpl. lia.
    - destruct (IH (S s)) as [I1 I2]. destruct b; simpl.
      + split; [intros p [<-|H]; [lia|apply I1 in H; lia]|].
        intros i j Hij Hj. destruct j; [lia|]. destruct i; simpl.
        * assert (S s <= nth j (map fst (filter snd (combine (seq (S s) (length m)) m))) 0); [|lia].
          apply I1. apply nth_In. lia.
        * apply I2; lia.
      + split; [intros p H; apply I1 in H; lia|]. intros i j Hij Hj. now apply I2. }
  intros m. apply (G m 0).
Qed.

Lemma nth_error_skipn_cons : forall {X} (l : list X) k x, nth_error l k = Some x -> l = firstn k l ++ x :: skipn (S k) l.
Proof.
  induction l as [|y l IH]; intros [|k] x H; simpl in *; try discriminate.
  - now injection H as ->.
  - f_equal. now apply IH.
Qed.

Lemma set_nth_firstn : forall {X} (l : list X) k v, k < length l -> set_nth k v l = firstn k l ++ v :: skipn (S k) l.
Proof. induction l as [|y l IH]; intros [|k] v H; simpl in *; try lia; auto. f_equal. apply IH. lia. Qed.

Lemma NoDup_app_remove_l : forall {X} (a b : list X), NoDup (a ++ b) -> NoDup b.
Proof. induction a as [|x a IH]; intros b H; simpl in *; auto. inversion H; auto. Qed.

Lemma NoDup_app_remove_r : forall {X} (a b : list X), NoDup (a ++ b) -> NoDup a.
Proof.
  induction a as [|x a IH]; intros b H; simpl in *; [constructor|]. inversion H; subst. constructor; eauto.
  intros K. apply H2. apply in_or_app. auto.
Qed.

Lemma NoDup_app_disj : forall {X} (a b : list X) x, NoDup (a ++ b) -> In x a -> In x b -> False.
Proof.
  induction a as [|y a IH]; intros b x H Ha Hb; simpl in *; [tauto|]. inversion H; subst.
  destruct Ha as [->|Ha]; [apply H2; apply in_or_app; auto|eauto].
Qed.

Lemma filter_haskey_prefix : forall ds k, NoDup (map key ds) ->
  filter (fun d => negb (haskey (firstn k ds) d)) ds = skipn k ds.
Proof.
  intros ds k ND. transitivity (filter (fun d => negb (haskey (firstn k ds) d)) (firstn k ds ++ skipn k ds)).
  { now rewrite firstn_skipn. }
  rewrite filter_app.
  rewrite <- (firstn_skipn k ds), map_app in ND.
  assert (filter (fun d => negb (haskey (firstn k ds) d)) (firstn k ds) = []) as ->.
  { assert (G : forall l, incl l (firstn k ds) -> filter (fun d => negb (haskey (firstn k ds) d)) l = []).
    { induction l as [|d l IH]; intros Hi; simpl; auto.
      assert (haskey (firstn k ds) d = true) as -> by (apply haskey_In; apply in_map; apply Hi; simpl; auto).
      simpl. apply IH. intros z Hz. apply Hi. simpl; auto. }
    apply G. apply incl_refl. }
  simpl.
  assert (G : forall l, incl l (skipn k ds) -> filter (fun d => negb (haskey (firstn k ds) d)) l = l).
  { induction l as [|d l IH]; intros Hi; simpl; auto.
    assert (haskey (firstn k ds) d = false) as ->.
    { apply not_true_is_false. intros K. apply haskey_In in K. eapply NoDup_app_disj; eauto.
      apply in_map. apply Hi. simpl; auto. }
    simpl. f_equal. apply IH. intros z Hz. apply Hi. simpl; auto. }
  apply G. apply incl_refl.
Qed.

Lemma take_axis_val : forall {A} (x : hf A) k d d' ps, wf x -> nth_error (h_dims x) k = Some d ->
  key d' = key d -> length (d_data d') = length ps -> (forall p, In p ps -> p < length (d_data d)) ->
  exists a, nd_take ps k (h_nd x) = Ok a /\ nd_shape a = set_nth k (length ps) (h_shape x) /\ nd_wf a /\
    (forall e, valid e (set_nth k d' (h_dims x)) ->
       nd_get a (coords e (h_dims x)) = val x (upd e (key d) (nth (e (key d)) ps 0))).
Proof.
  intros A x k d d' ps [Hw [Hl ND]] Hk Hkey Hlen Hlt. assert (Hn := wf_ndim x Hl).
  assert (Hsk : nth k (h_shape x) 0 = length (d_data d)).
  { apply nth_error_nth. now apply labels_nth. }
  assert (Hkn : k < h_ndim x). { rewrite <- Hn. apply nth_error_Some. congruence. }
  unfold nd_take. fold (h_shape x). rewrite Hsk.
  assert (forallb (fun i => i <? length (d_data d)) ps = true) as ->.
  { apply forallb_forall. intros p Hp. apply Nat.ltb_lt. auto. }
  assert (TOT : total_on (set_nth k (length ps) (h_shape x))
                 (fun ix => nd_get (h_nd x) (set_nth k (nth (nth k ix 0) ps 0) ix))).
  { intros ix Hix. apply nd_get_not_none; auto.
    pose proof (inb_length _ _ Hix) as Li. rewrite set_nth_length in Li.
    apply inb_nth in Hix as [_ Hix].
    assert (Hki : nth k ix 0 < length ps).
    { specialize (Hix k). rewrite set_nth_length, nth_set_nth_same in Hix by exact Hkn. apply Hix. exact Hkn. }
    apply inb_nth. rewrite set_nth_length. split; [assumption|]. intros j Hj.
    destruct (Nat.eq_dec j k) as [->|Hne].
    - rewrite nth_set_nth_same by (rewrite Li; exact Hj). fold (h_shape x). rewrite Hsk. apply Hlt. apply nth_In. exact Hki.
    - specialize (Hix j). rewrite set_nth_length in Hix. specialize (Hix Hj).
      rewrite nth_set_nth_other in Hix |- * by auto. exact Hix. }
  eexists. split; [reflexivity|]. split; [reflexivity|]. split; [now apply nd_tab_wf|].
  intros e He.
  assert (KEY : map key (set_nth k d' (h_dims x)) = map key (h_dims x)) by (now apply set_nth_key with d).
  assert (Hin : inb (set_nth k (length ps) (h_shape x)) (coords e (h_dims x)) = true).
  { rewrite <- (coords_keys _ _ _ KEY).
    pose proof (inb_valid e _ He) as V. rewrite map_set_nth, Hlen, Hl in V. exact V. }
  rewrite (nd_get_tab _ _ _ TOT Hin). rewrite (coords_nth _ _ _ _ Hk). unfold val.
  rewrite (coords_upd _ _ k d) by assumption. reflexivity.
Qed.

Lemma getmask_ok : forall {A} (x : hf A) (m : hf bool) md k, wf x -> wf m -> h_dims m = [md] ->
  nth_error (h_dims x) k = Some md -> (forall d, In d (h_dims x) -> d_name d = d_name md -> d = md) ->
  exists y md' ps, getmask m x = Ok y /\ wf y /\
    (forall p, In p ps <-> nth_error (nd_elems (h_nd m)) p = Some true) /\
    (forall i j, i < j -> j < length ps -> nth i ps 0 < nth j ps 0) /\
    relabelled md ps md' /\ h_dims y = set_nth k md' (h_dims x) /\ h_unit y = h_unit x /\
    (forall e, valid e (h_dims y) -> val y e = val x (upd e (key md) (nth (e (key md)) ps 0))).
Proof.
  intros A x m md k Hwf Hwm Hm Hk Hu. pose proof Hwf as [Hw [Hl ND]]. pose proof Hwm as [Hmw [Hml _]].
  assert (Hn := wf_ndim x Hl).
  assert (Hkn : k < length (h_dims x)) by (apply nth_error_Some; congruence).
  unfold getmask. rewrite Hm.
  rewrite (take_until_app _ _ k md); auto.
  2:{ apply contains_self. simpl; auto. }
  2:{ intros j d Hj Hd. unfold dims_contains. simpl. rewrite orb_false_r. unfold matches.
      destruct (String.eqb (d_name md) (d_name d)) eqn:E; auto. apply String.eqb_eq in E. exfalso.
      assert (d = md) by (apply Hu; auto; eapply nth_error_In; eauto). subst d.
      assert (j = k); [|lia]. apply (NoDup_nth_error (map key (h_dims x))); auto.
      - rewrite map_length. apply nth_error_Some. congruence.
      - rewrite !nth_error_map. now rewrite Hd, Hk. }
  assert (Epre : firstn k (h_dims x) ++ [md] = firstn (S k) (h_dims x)).
  { clear -Hk. revert k Hk. induction (h_dims x) as [|d l IH]; intros [|k] Hk; simpl in *; try discriminate.
    - now injection Hk as ->.
    - f_equal. apply IH. assumption. }
  rewrite Epre.
  destruct (reorder_spec x (firstn (S k) (h_dims x)) Hwf) as [y [H1 [H2 [H3 [H4 [H5 [H6 H7]]]]]]].
  { intros d Hd. rewrite <- (firstn_skipn (S k) (h_dims x)). apply in_or_app. auto. }
  { rewrite <- (firstn_skipn (S k) (h_dims x)), map_app in ND. now apply NoDup_app_remove_r in ND. }
  rewrite H1. cbn [bind].
  rewrite filter_haskey_prefix, firstn_skipn in H3 by assumption.
  pose proof H2 as [Hyw [Hyl _]].
  rewrite firstn_length, Nat.min_l by lia.
  rewrite (labels_nth y k md) by (auto; now rewrite H3). cbn [bind of_option].
  assert (Em : length (nd_elems (h_nd m)) = length (d_data md)).
  { rewrite Hmw. fold (h_shape m). rewrite <- Hml, Hm. simpl. lia. }
  rewrite Em, !Nat.eqb_refl. cbn [negb].
  set (ps := true_positions (nd_elems (h_nd m))).
  assert (Hps : forall p, In p ps -> p < length (d_data md)).
  { intros p Hp. apply true_positions_spec in Hp. rewrite <- Em. apply nth_error_Some. congruence. }
  set (md' := mkDim (d_class md) (d_name md) (select (d_data md) ps) (d_unit md) None).
  destruct (select_ok (d_data md) ps Hps) as [S1 S2].
  destruct (take_axis_val y k md md' ps H2) as [a [T1 [T2 [T3 T4]]]]; auto; [now rewrite H3|].
  rewrite T1. cbn [bind].
  rewrite new_from_ok.
  2:{ rewrite H3, T2. rewrite set_nth_length, !app_length. cbn [length]. rewrite firstn_length, skipn_length.
      unfold h_shape. fold (h_ndim y). rewrite <- (wf_ndim y Hyl), H3. lia. }
  assert (ED : firstn k (h_dims y) ++ md' :: skipn (S k) (h_dims y) = set_nth k md' (h_dims x)).
  { rewrite H3. symmetry. now apply set_nth_firstn. }
  cbn [app]. rewrite ED.
  eexists. exists md', ps. split; [reflexivity|]. simpl.
  assert (KEY : map key (set_nth k md' (h_dims x)) = map key (h_dims x)) by (now apply set_nth_key with md).
  split; [split; [|split]|]; simpl; auto.
  - unfold labels_match, h_shape. simpl. rewrite T2, map_set_nth. simpl. rewrite S1. now rewrite <- Hyl, H3.
  - now rewrite KEY.
  - split; [apply true_positions_spec|]. split; [apply true_positions_sorted|].
    split; [unfold relabelled; simpl; auto|]. split; [reflexivity|]. split; [reflexivity|].
    intros e He. unfold val at 1. simpl. rewrite (coords_keys _ _ _ KEY), <- H3. rewrite T4; [|now rewrite H3].
    apply H4.
Qed.

(** ** Collapsed dimensions *)
Lemma mixed_ravel : forall ds e, mixed ds e = ravel (map (fun d => length (d_data d)) ds) (coords e ds).
Proof.
  intros ds e. unfold mixed.
  assert (G : forall ds acc, fold_left (fun acc d => acc * length (d_data d) + e (key d)) ds acc =
     acc * prodn (map (fun d => length (d_data d)) ds) + ravel (map (fun d => length (d_data d)) ds) (coords e ds)).
  { induction ds0 as [|d ds0 IH]; intros acc; simpl; [lia|]. rewrite IH. fold (coords e ds0). nia. }
  rewrite G. lia.
Qed.

Definition lens (ds : list dim) : list nat := map (fun d => length (d_data d)) ds.

Lemma coords_app : forall e a b, coords e (a ++ b) = coords e a ++ coords e b.
Proof. intros. apply map_app. Qed.

Lemma coords_length : forall e ds, length (coords e ds) = length ds.
Proof. intros. apply map_length. Qed.

Lemma lens_length : forall ds, length (lens ds) = length ds.
Proof. intros. apply map_length. Qed.

Lemma collapse_inb : forall s1 sm s2 i1 im i2, length s1 = length i1 -> length sm = length im ->
  inb sm im = true ->
  inb (s1 ++ [prodn sm] ++ s2) (i1 ++ [ravel sm im] ++ i2) = inb (s1 ++ sm ++ s2) (i1 ++ im ++ i2) /\
  ravel (s1 ++ [prodn sm] ++ s2) (i1 ++ [ravel sm im] ++ i2) = ravel (s1 ++ sm ++ s2) (i1 ++ im ++ i2).
Proof.
  intros s1 sm s2 i1 im i2 H1 H2 Hm. split.
  - rewrite !inb_app by auto. rewrite Hm. simpl. rewrite (proj2 (Nat.ltb_lt _ _) (ravel_lt _ _ Hm)). reflexivity.
  - rewrite !ravel_app by auto. simpl. rewrite prodn_app. lia.
Qed.

Lemma override_coords : forall e ds jx, NoDup (map key ds) -> length jx = length ds ->
  coords (override e ds jx) ds = jx.
Proof.
  intros e ds. induction ds as [|d ds IH]; intros [|j jx] ND H; simpl in *; try discriminate; auto.
  inversion ND; subst. rewrite upd_same. f_equal. rewrite <- (IH jx) by (auto; lia).
  apply coords_ext. intros d' Hd'. rewrite IH by (auto; lia).
  apply upd_other. intros E. apply H2. rewrite <- E. now apply in_map.
Qed.

Lemma collapse_ok : forall {A} (x : hf A) d1 dm d2 dn t u f, wf x -> h_dims x = d1 ++ dm ++ d2 ->
  ~ In (key dn) (map key (d1 ++ d2)) -> length (d_data dn) = prodn (lens dm) ->
  let y := mkHF (mkNd (lens d1 ++ [prodn (lens dm)] ++ lens d2) (nd_elems (h_nd x))) t (d1 ++ [dn] ++ d2) u f in
  wf y /\ collapses x y dm (key dn).
Proof.
  intros A x d1 dm d2 dn t u f [Hw [Hl ND]] Hd Hk Hlen y.
  assert (Hs : h_shape x = lens d1 ++ lens dm ++ lens d2).
  { rewrite <- Hl, Hd. unfold lens. now rewrite !map_app. }
  assert (ND' := ND). rewrite Hd, !map_app in ND'.
  assert (N12 : NoDup (map key (d1 ++ [dn] ++ d2))).
  { rewrite map_app in Hk. rewrite !map_app. simpl. apply NoDup_Add with (a := key dn) (l := map key d1 ++ map key d2).
    - apply Add_app.
    - split; auto. apply NoDup_app_intro.
      + now apply NoDup_app_remove_r in ND'.
      + apply NoDup_app_remove_l in ND'. now apply NoDup_app_remove_l in ND'.
      + intros z Hz K. eapply NoDup_app_disj; eauto. apply in_or_app. auto. }
  split; [split; [|split]|]; auto.
  - unfold y, nd_wf. simpl. rewrite Hw. fold (h_shape x). rewrite Hs, !prodn_app. simpl. nia.
  - unfold y, labels_match, h_shape. simpl. rewrite map_app. simpl. rewrite Hlen. reflexivity.
  - assert (G : forall e, inb (lens dm) (coords e dm) = true -> val y (upd e (key dn) (mixed dm e)) = val x e).
    { intros e Hi. unfold val. rewrite Hd. unfold y. simpl.
      rewrite !coords_app. change (coords (upd e (key dn) (mixed dm e)) (dn :: d2)) with
        (upd e (key dn) (mixed dm e) (key dn) :: coords (upd e (key dn) (mixed dm e)) d2).
      rewrite upd_same.
      assert (C : forall l, incl l (d1 ++ d2) -> coords (upd e (key dn) (mixed dm e)) l = coords e l).
      { intros l Hi'. apply coords_ext. intros d Hdl. apply upd_other. intros E. apply Hk. rewrite <- E. apply in_map. now apply Hi'. }
      rewrite !C by (intros z Hz; apply in_or_app; auto).
      rewrite mixed_ravel. fold (lens dm).
      unfold nd_get. simpl. fold (h_shape x). rewrite Hs.
      destruct (collapse_inb (lens d1) (lens dm) (lens d2) (coords e d1) (coords e dm) (coords e d2)) as [C1 C2];
        rewrite ?lens_length, ?coords_length; auto.
      simpl in C1, C2. rewrite C1, C2. reflexivity. }
    split.
    + intros e He. apply G. apply (inb_valid e dm). intros d Hdd. apply He. rewrite Hd. apply in_or_app. right. apply in_or_app. auto.
    + intros e He.
      assert (Hdn : e (key dn) < prodn (lens dm)).
      { rewrite <- Hlen. apply He. simpl. apply in_or_app. simpl. auto. }
      destruct (nth_error (indices (lens dm)) (e (key dn))) as [jx|] eqn:E.
      2:{ apply nth_error_None in E. rewrite indices_length in E. lia. }
      assert (Hjx : inb (lens dm) jx = true) by (apply in_indices; eapply nth_error_In; eauto).
      assert (Ljx : length jx = length dm) by (apply inb_length in Hjx; now rewrite Hjx, lens_length).
      assert (Rjx : ravel (lens dm) jx = e (key dn)).
      { pose proof (nth_error_indices (lens dm) jx Hjx) as Q.
        apply (proj1 (NoDup_nth_error (indices (lens dm))) (NoDup_indices _)).
        - rewrite indices_length. now apply ravel_lt.
        - congruence. }
      assert (NDm : NoDup (map key dm)).
      { apply NoDup_app_remove_l in ND'. now apply NoDup_app_remove_r in ND'. }
      assert (Cm : coords (override e dm jx) dm = jx) by (now apply override_coords).
      exists (override e dm jx).
      assert (M : mixed dm (override e dm jx) = e (key dn)).
      { rewrite mixed_ravel, Cm. exact Rjx. }
      assert (O : forall k', ~ In k' (map key dm) -> override e dm jx k' = e k') by (intros; now apply override_notin).
      assert (Dis : forall d, In d (d1 ++ d2) -> ~ In (key d) (map key dm)).
      { intros d Hdd K. apply in_app_or in Hdd as [Hdd|Hdd].
        - apply (NoDup_app_disj _ _ (key d) ND'); [now apply in_map|apply in_or_app; auto].
        - apply NoDup_app_remove_l in ND'. apply (NoDup_app_disj _ _ (key d) ND'); [assumption|now apply in_map]. }
      split; [|split; [|split]]; auto.
      * intros d Hdd. rewrite Hd in Hdd. apply in_app_or in Hdd as [Hdd|Hdd]; [|apply in_app_or in Hdd as [Hdd|Hdd]].
        -- rewrite O by (apply Dis; apply in_or_app; auto). apply He. apply in_or_app. auto.
        -- apply In_nth_error in Hdd as [k Hkd]. rewrite <- (coords_nth _ _ _ _ Hkd), Cm.
           apply inb_nth in Hjx as [_ Hjx]. specialize (Hjx k).
           rewrite lens_length in Hjx. specialize (Hjx ltac:(apply nth_error_Some; congruence)).
           unfold lens in Hjx. erewrite (nth_error_nth (map _ dm)) in Hjx by (rewrite nth_error_map, Hkd; reflexivity). exact Hjx.
        -- rewrite O by (apply Dis; apply in_or_app; auto). apply He. apply in_or_app. right. simpl. auto.
      * rewrite <- (G (override e dm jx)) by (now rewrite Cm). rewrite M. unfold val, y. simpl. f_equal.
        apply coords_ext. intros d Hdd. apply in_app_or in Hdd as [Hdd|[<-|Hdd]].
        -- rewrite upd_other by (intros E'; apply Hk; rewrite <- E'; apply in_map; apply in_or_app; auto).
           rewrite O; auto. apply Dis. apply in_or_app. auto.
        -- now rewrite upd_same.
        -- rewrite upd_other by (intros E'; apply Hk; rewrite <- E'; apply in_map; apply in_or_app; auto).
           rewrite O; auto. apply Dis. apply in_or_app. auto.
Qed.

Lemma range_labels_length : forall n, length (range_labels n) = n.
Proof. intros. unfold range_labels. now rewrite map_length, seq_length. Qed.

Lemma remove_tail_ok : forall {A} (x : hf A) d0 ds, wf x -> h_dims x = d0 :: ds -> ismatrix x = false ->
  key d0 <> (CDimRep, "Tail"%string) ->
  exists y, remove_tail x = Ok y /\ wf y /\ nd_elems (h_nd y) = nd_elems (h_nd x) /\ h_unit y = h_unit x /\
    map key (h_dims y) = [key d0; (CDimRep, "Tail"%string)] /\ nth_error (h_dims y) 0 = Some d0 /\
    collapses x y ds (CDimRep, "Tail"%string).
Proof.
  intros A x d0 ds Hwf Hd Hm Hk. pose proof Hwf as [Hw [Hl ND]].
  unfold remove_tail. rewrite Hm. rewrite <- Hl, Hd. simpl.
  rewrite nd_reshape_ok.
  2:{ fold (h_shape x). rewrite <- Hl, Hd. simpl. nia. }
  simpl. rewrite new_raw_ok by reflexivity.
  set (dn := mkDim CDimRep "Tail" (range_labels (prodn (map (fun d => length (d_data d)) ds))) None None).
  destruct (collapse_ok x [d0] ds [] dn (h_dt x) (h_unit x) (default_fmt (h_dt x)) Hwf) as [W C].
  - now rewrite app_nil_r.
  - simpl. intros [E|[]]. now apply Hk.
  - simpl. apply range_labels_length.
  - eexists. split; [reflexivity|]. split; [exact W|]. simpl. split; auto.
Qed.

Lemma remove_tail_matrix_ok : forall {A} (x : hf A) d0 ds da db, wf x -> h_dims x = d0 :: ds ++ [da; db] ->
  ismatrix x = true -> ~ In (CDimRep, "Tail"%string) (map key (d0 :: [da; db])) ->
  exists y, remove_tail x = Ok y /\ wf y /\ nd_elems (h_nd y) = nd_elems (h_nd x) /\ h_unit y = h_unit x /\
    map key (h_dims y) = [key d0; (CDimRep, "Tail"%string); key da; key db] /\ nth_error (h_dims y) 0 = Some d0 /\
    nth_error (h_dims y) 2 = Some da /\ nth_error (h_dims y) 3 = Some db /\
    collapses x y ds (CDimRep, "Tail"%string).
Proof.
  intros A x d0 ds da db Hwf Hd Hm Hk. pose proof Hwf as [Hw [Hl ND]].
  unfold remove_tail. rewrite Hm. rewrite <- Hl, Hd.
  assert (M : forall {X} (a b c : X) l, middle (a :: l ++ [b; c]) = l).
  { intros X a b c l. unfold middle. simpl length. rewrite app_length. simpl length.
    replace (S (length l + 2) - 2) with (S (length l)) by lia. simpl.
    rewrite firstn_app, firstn_all, Nat.sub_diag. simpl. now rewrite app_nil_r. }
  assert (L2 : forall {X} (a b c : X) l, last2 (a :: l ++ [b; c]) = [b; c]).
  { intros X a b c l. unfold last2. simpl length. rewrite app_length. simpl length.
    replace (S (length l + 2) - 2) with (S (length l)) by lia. simpl.
    rewrite skipn_app, skipn_all, Nat.sub_diag. reflexivity. }
  cbn [map]. rewrite map_app. cbn [map]. rewrite M, !L2.
  rewrite nd_reshape_ok.
  2:{ fold (h_shape x). rewrite <- Hl, Hd. simpl. rewrite map_app, prodn_app. simpl. nia. }
  simpl. rewrite new_raw_ok by reflexivity.
  set (dn := mkDim CDimRep "Tail" (range_labels (prodn (map (fun d => length (d_data d)) ds))) None None).
  destruct (collapse_ok x [d0] ds [da; db] dn (h_dt x) (h_unit x) (default_fmt (h_dt x)) Hwf) as [W C].
  - exact Hd.
  - exact Hk.
  - simpl. apply range_labels_length.
  - eexists. split; [reflexivity|]. split; [exact W|]. simpl. repeat (split; [reflexivity|]). exact C.
Qed.

(** ** remove_rep *)
Lemma class_positions_app : forall c a b k, class_positions c k (a ++ b) = class_positions c k a ++ class_positions c (k + length a) b.
Proof.
  intros c a. induction a as [|d a IH]; intros b k; simpl; [now rewrite Nat.add_0_r|].
  rewrite IH. replace (k + S (length a)) with (S k + length a) by lia. now destruct (subclass (d_class d) c).
Qed.

Lemma class_positions_none : forall c a k, (forall d, In d a -> subclass (d_class d) c = false) -> class_positions c k a = [].
Proof.
  intros c a. induction a as [|d a IH]; intros k H; simpl; auto. rewrite (H d) by (simpl; auto). apply IH.
  intros z Hz. apply H. simpl; auto.
Qed.

Lemma class_positions_all : forall c a k, (forall d, In d a -> subclass (d_class d) c = true) -> class_positions c k a = seq k (length a).
Proof.
  intros c a. induction a as [|d a IH]; intros k H; simpl; auto. rewrite (H d) by (simpl; auto). f_equal. apply IH.
  intros z Hz. apply H. simpl; auto.
Qed.

Lemma last_seq : forall n k d, last (seq k (S n)) d = k + n.
Proof.
  induction n; intros k d; [simpl; lia|].
  change (seq k (S (S n))) with (k :: seq (S k) (S n)). 
  assert (forall (l : list nat) a d, l <> [] -> last (a :: l) d = last l d) as Q by (intros [|]; simpl; congruence).
  rewrite Q by (simpl; congruence). rewrite IHn. lia.
Qed.

Lemma filter_none' : forall {X} (f : X -> bool) l, (forall x, In x l -> f x = false) -> filter f l = [].
Proof. intros X f l H. induction l as [|x l IH]; simpl; auto. rewrite (H x) by (simpl; auto). apply IH. intros; apply H; simpl; auto. Qed.
Lemma filter_all : forall {X} (f : X -> bool) l, (forall x, In x l -> f x = true) -> filter f l = l.
Proof. intros X f l H. induction l as [|x l IH]; simpl; auto. rewrite (H x) by (simpl; auto). f_equal. apply IH. intros; apply H; simpl; auto. Qed.

Lemma firstn_app_exact : forall {X} (a b : list X), firstn (length a) (a ++ b) = a.
Proof. intros. rewrite firstn_app, firstn_all, Nat.sub_diag. simpl. apply app_nil_r. Qed.
Lemma skipn_app_exact : forall {X} (a b : list X), skipn (length a) (a ++ b) = b.
Proof. intros. rewrite skipn_app, skipn_all, Nat.sub_diag. reflexivity. Qed.

Lemma map_nth_seq_mid : forall (a b c : list nat), map (fun p => nth p (a ++ b ++ c) 0) (seq (length a) (length b)) = b.
Proof.
  intros a b c. apply nth_ext with (d := 0) (d' := 0); [now rewrite map_length, seq_length|].
  intros k Hk. rewrite map_length, seq_length in Hk.
  erewrite nth_error_nth; [|rewrite nth_error_map, (nth_error_nth' _ _ 0) by (now rewrite seq_length); rewrite seq_nth by assumption; reflexivity].
  rewrite app_nth2 by lia. replace (length a + k - length a) with k by lia. now rewrite app_nth1.
Qed.

Lemma remove_rep_full : forall {A} (x : hf A) newname pre reps post, wf x -> h_dims x = pre ++ reps ++ post ->
  reps <> [] ->
  (forall d, In d reps -> subclass (d_class d) CDimRep = true) ->
  (forall d, In d (pre ++ post) -> subclass (d_class d) CDimRep = false) ->
  let dn := mkDim CDimRep newname (range_labels (prodn (lens reps))) None None in
  exists y, remove_rep newname x = Ok y /\ wf y /\ nd_elems (h_nd y) = nd_elems (h_nd x) /\
    h_dims y = pre ++ [dn] ++ post /\ collapses x y reps (key dn).
Proof.
  intros A x newname pre reps post Hwf Hd Hne Hr Hnr dn0. pose proof Hwf as [Hw [Hl ND]].
  unfold remove_rep.
  assert (CP : class_positions CDimRep 0 (h_dims x) = seq (length pre) (length reps)).
  { rewrite Hd, !class_positions_app. rewrite (class_positions_none _ pre), (class_positions_all _ reps), (class_positions_none _ post); auto.
    - simpl. now rewrite app_nil_r.
    - intros d Hdd. apply Hnr. apply in_or_app; auto.
    - intros d Hdd. apply Hnr. apply in_or_app; auto. }
  rewrite CP. destruct reps as [|r0 reps']; [congruence|]. set (reps := r0 :: reps') in *.
  change (seq (length pre) (length reps)) with (length pre :: seq (S (length pre)) (length reps')).
  cbv iota beta.
  change (length pre :: seq (S (length pre)) (length reps')) with (seq (length pre) (S (length reps'))).
  rewrite last_seq.
  assert (FR : filter is_rep (h_dims x) = reps).
  { rewrite Hd, !filter_app. rewrite (filter_none' is_rep pre), (filter_all is_rep reps), (filter_none' is_rep post); auto.
    - now rewrite app_nil_r.
    - intros d Hdd. apply Hnr. apply in_or_app; auto.
    - intros d Hdd. apply Hnr. apply in_or_app; auto. }
  rewrite FR.
  assert (FP : firstn (length pre) (h_dims x) = pre) by (rewrite Hd; apply firstn_app_exact).
  assert (SP : skipn (S (length pre + length reps')) (h_dims x) = post).
  { rewrite Hd, app_assoc. replace (S (length pre + length reps')) with (length (pre ++ reps)) by (rewrite app_length; simpl; lia).
    apply skipn_app_exact. }
  rewrite FP, SP.
  assert (Hs : h_shape x = lens pre ++ lens reps ++ lens post).
  { rewrite <- Hl, Hd. unfold lens. now rewrite !map_app. }
  assert (FS : firstn (length pre) (h_shape x) = lens pre).
  { rewrite Hs, <- (lens_length pre). apply firstn_app_exact. }
  assert (SS : skipn (S (length pre + length reps')) (h_shape x) = lens post).
  { rewrite Hs, app_assoc. replace (S (length pre + length reps')) with (length (lens pre ++ lens reps)).
    - apply skipn_app_exact.
    - rewrite app_length, !lens_length. simpl. lia. }
  assert (RS : map (fun p => nth p (h_shape x) 0) (seq (length pre) (S (length reps'))) = lens reps).
  { rewrite Hs. rewrite <- (lens_length pre). replace (S (length reps')) with (length (lens reps)) by (rewrite lens_length; reflexivity).
    apply map_nth_seq_mid. }
  rewrite FS, SS, RS.
  destruct (reorder_spec x (pre ++ reps) Hwf) as [y0 [Hy0 _]].
  { intros d Hdd. rewrite Hd, app_assoc. apply in_or_app. auto. }
  { rewrite Hd, app_assoc, map_app in ND. now apply NoDup_app_remove_r in ND. }
  rewrite Hy0. simpl.
  rewrite nd_reshape_ok.
  2:{ fold (h_shape x). rewrite Hs, !prodn_app. simpl. nia. }
  simpl.
  set (dn := mkDim CDimRep newname (range_labels (prodn (lens reps))) None None).
  change (length (d_data r0) * prodn (lens reps')) with (prodn (lens reps)).
  rewrite new_raw_ok.
  2:{ simpl. rewrite !app_length. simpl. now rewrite !lens_length. }
  destruct (collapse_ok x pre reps post dn (h_dt x) None (default_fmt (h_dt x)) Hwf Hd) as [W C].
  - intros K. apply in_map_iff in K as [d [E K]]. specialize (Hnr d K).
    injection E as E _. rewrite E in Hnr. discriminate.
  - simpl. apply range_labels_length.
  - eexists. split; [reflexivity|]. split; [exact W|]. simpl. auto.
Qed.
Lemma remove_rep_ok : forall {A} (x : hf A) newname pre reps post, wf x -> h_dims x = pre ++ reps ++ post ->
  reps <> [] ->
  (forall d, In d reps -> subclass (d_class d) CDimRep = true) ->
  (forall d, In d (pre ++ post) -> subclass (d_class d) CDimRep = false) ->
  exists y dn, remove_rep newname x = Ok y /\ wf y /\ nd_elems (h_nd y) = nd_elems (h_nd x) /\
    h_dims y = pre ++ [dn] ++ post /\ key dn = (CDimRep, newname) /\
    collapses x y reps (key dn).
Proof.
  intros A x newname pre reps post Hwf Hd Hne Hr Hnr. destruct (remove_rep_full x newname pre reps post Hwf Hd Hne Hr Hnr) as [y [H1 [H2 [H3 [H4 H5]]]]].
  exists y. eexists. split; [exact H1|]. split; auto. split; auto. split; [exact H4|]. split; [reflexivity|exact H5].
Qed.

Lemma remove_rep_none : forall {A} (x : hf A) newname, wf x ->
  (forall d, In d (h_dims x) -> subclass (d_class d) CDimRep = false) -> remove_rep newname x = Ok x.
Proof.
  intros A x newname [Hw [Hl ND]] H. unfold remove_rep. rewrite class_positions_none by assumption.
  rewrite new_from_ok by (now apply wf_ndim). now destruct x.
Qed.

(** ** The 2x2 representation *)
Lemma fullcomplex_ok : forall {A} (E : elops A) (x : hf A), wf x -> isfullcomplex x = false ->
  exists y, make_fullcomplex E x = Ok y /\ wf y /\ h_dims y = h_dims x ++ CPLX /\
    forall e, valid e (h_dims y) -> exists v, val x e = Some v /\
      val y e = Some (cplx_elem E (h_dt x) v (e (key (nth 0 CPLX dim0))) (e (key (nth 1 CPLX dim0)))).
Proof.
  intros A E x Hwf Hc. pose proof Hwf as [Hw [Hl ND]]. assert (Hn := wf_ndim x Hl).
  unfold make_fullcomplex. rewrite Hc.
  set (F := fun ix => option_map (fun v => cplx_elem E (h_dt x) v (nth (h_ndim x) ix 0) (nth (S (h_ndim x)) ix 0))
                                     (nd_get (h_nd x) (firstn (h_ndim x) ix))).
  assert (TOT : total_on (h_shape x ++ [2; 2]) F).
  { intros ix Hix. unfold F.
    assert (Q : inb (h_shape x) (firstn (h_ndim x) ix) = true).
    { rewrite <- (firstn_skipn (h_ndim x) ix) in Hix. pose proof (inb_length _ _ Hix) as L.
      rewrite firstn_skipn, app_length in L. simpl in L.
      rewrite inb_app in Hix; [|rewrite firstn_length, Nat.min_l; [reflexivity|rewrite L; unfold h_ndim; fold (h_shape x); lia]].
      apply andb_prop in Hix. tauto. }
    destruct (nd_get_some (h_nd x) _ Hw Q) as [v ->]. discriminate. }
  rewrite new_raw_ok.
  2:{ simpl. rewrite !app_length. simpl. now rewrite Hn. }
  eexists. split; [reflexivity|]. simpl. split; [split; [|split]|]; simpl.
  - apply (nd_tab_wf _ _ TOT).
  - unfold labels_match, h_shape. simpl. now rewrite map_app, Hl.
  - rewrite map_app. apply NoDup_app_intro; auto.
    + simpl. repeat constructor; simpl; intuition discriminate.
    + intros k Hk K. apply in_map_iff in Hk as [d [<- Hd]].
      unfold isfullcomplex, dims_has_complex in Hc.
      assert (is_complex_dim d = false) as Q.
      { apply not_true_is_false. intros Q. assert (existsb is_complex_dim (rev (h_dims x)) = true); [|congruence].
        apply existsb_exists. exists d. split; auto. now apply -> in_rev. }
      unfold is_complex_dim in Q. simpl in K. unfold key in K. simpl in K.
      destruct K as [K|[K|[]]]; injection K as K _; rewrite <- K in Q; discriminate.
  - split; [reflexivity|]. intros e He.
    destruct (val_some x e Hw Hl) as [v Hv].
    { intros d Hd. apply He. apply in_or_app. auto. }
    exists v. split; auto. unfold val. simpl. rewrite (nd_get_tab _ _ _ TOT).
    + unfold F. rewrite coords_app.
      assert (L : length (coords e (h_dims x)) = h_ndim x) by (now rewrite coords_length).
      assert (Q : firstn (h_ndim x) (coords e (h_dims x) ++ coords e CPLX) = coords e (h_dims x)).
      { rewrite <- L. apply firstn_app_exact. }
      rewrite Q. unfold val in Hv. rewrite Hv. simpl option_map.
      rewrite !app_nth2 by (rewrite L; lia). rewrite L, Nat.sub_diag. replace (S (h_ndim x) - h_ndim x) with 1 by lia. reflexivity.
    + pose proof (inb_valid e _ He) as V. rewrite map_app in V. rewrite Hl in V. exact V.
Qed.
