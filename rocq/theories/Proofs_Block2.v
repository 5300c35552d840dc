(** Elements of matrix variables in a DataBlock. *)
From Coq Require Import Ascii String List Arith ZArith Bool Lia Permutation.
From Verif Require Import Model_NdArray Proofs_NdArray Model_Dim Model_Array Spec_Array Proofs_Array Proofs_Array2
  Proofs_Array4 Model_DataDict Spec_DataDict Proofs_DataDict Model_Text Model_Block Proofs_Block.
Import ListNotations.
Local Open Scope nat_scope.
Local Open Scope list_scope.

Definition usable (d : dim) : Prop := d_data d <> [] \/ d_fmt d <> None.

Lemma int_position_pos : forall n i p, int_position n i p -> py_pos n i = Some p.
Proof.
  intros n i p [H1 [H2|H2]]; subst i.
  - now apply py_pos_nat.
  - unfold py_pos. assert (((0 <=? Z.of_nat p - Z.of_nat n) && (Z.of_nat p - Z.of_nat n <? Z.of_nat n))%Z = false) as -> by lia.
    assert (((- Z.of_nat n <=? Z.of_nat p - Z.of_nat n) && (Z.of_nat p - Z.of_nat n <? 0))%Z = true) as -> by lia.
    f_equal. lia.
Qed.

(** The indexed dimensions of [..., i, j]. *)
Lemma indexed_tail : forall ds di dj i j sel ds',
  indexed (ds ++ [di; dj]) (repeat (ISlice full_slice) (length ds) ++ [IInt i; IInt j]) sel ds' ->
  exists p q, int_position (length (d_data di)) i p /\ int_position (length (d_data dj)) j q /\
    sel = map (fun d => (false, seq 0 (length (d_data d)))) ds ++ [(true, [p]); (true, [q])] /\
    Forall2 (fun d d' => key d' = key d /\ d_unit d' = d_unit d /\ d_data d' = d_data d) ds ds'.
Proof.
  induction ds as [|d ds IH]; simpl; intros di dj i j sel ds' H.
  - inversion H as [|? ? ? ? p ? ? P1 H1|]; subst. inversion H1 as [|? ? ? ? q ? ? P2 H2|]; subst. inversion H2; subst.
    exists p, q. repeat split; auto; try apply P1; try apply P2.
  - inversion H as [| |? ? ? ? ps ? d' ? S1 R1 H1]; subst. apply full_slice_selects in S1. subst ps.
    destruct (IH _ _ _ _ _ _ H1) as [p [q [P1 [P2 [P3 P4]]]]]. exists p, q. split; auto. split; auto. split; [now rewrite P3|].
    constructor; auto. destruct R1 as [R1 [R2 [R3 R4]]]. split; auto. split; auto. rewrite seq_length in R3, R4.
    apply nth_error_ext. intros k. destruct (lt_dec k (length (d_data d))).
    + rewrite R4 by auto. now rewrite seq_nth.
    + rewrite (proj2 (nth_error_None _ _)) by lia. now rewrite (proj2 (nth_error_None _ _)) by lia.
Qed.

Lemma get_element_ok : forall {A} (y : hf A) ds di dj i j p q, wf y -> h_dims y = ds ++ [di; dj] ->
  int_position (length (d_data di)) i p -> int_position (length (d_data dj)) j q -> Forall usable ds ->
  exists z, get_element y (i, j) = Ok z /\ wf z /\
    Forall2 (fun d d' => key d' = key d /\ d_unit d' = d_unit d /\ d_data d' = d_data d) ds (h_dims z) /\
    h_unit z = h_unit y /\
    (forall e, valid e (h_dims z) -> val z e = val y (upd (upd e (key di) p) (key dj) q)).
Proof.
  intros A y ds di dj i j p q Hw Hd Hp Hq Hu. pose proof Hw as [W1 [W2 W3]]. assert (Hn := wf_ndim y W2).
  assert (M : means (h_ndim y) [IEllipsis; IInt i; IInt j] (repeat (ISlice full_slice) (length ds) ++ [IInt i; IInt j])).
  { assert (E : length ds = h_ndim y - length (@nil index_item) - length [IInt i; IInt j]).
    { rewrite <- Hn, Hd, app_length. simpl. lia. }
    rewrite E. apply (means_ellipsis (h_ndim y) [] [IInt i; IInt j]); auto.
    - repeat constructor; discriminate.
    - rewrite <- Hn, Hd, app_length. simpl. lia. }
  assert (I : Forall2 item_ok (h_dims y) (repeat (ISlice full_slice) (length ds) ++ [IInt i; IInt j])).
  { rewrite Hd. apply Forall2_app.
    - clear - Hu. induction ds as [|d ds IH]; simpl; constructor; inversion Hu; subst; auto. constructor; auto. discriminate.
    - repeat constructor; econstructor; eauto. }
  destruct (getitem_ok y _ _ Hw M I) as [r [sel [ds' [R1 [R2 R3]]]]].
  rewrite Hd in R2. destruct (indexed_tail _ _ _ _ _ _ _ R2) as [p' [q' [P1 [P2 [P3 P4]]]]].
  assert (p' = p). { apply int_position_pos in Hp, P1. congruence. }
  assert (q' = q). { apply int_position_pos in Hq, P2. congruence. }
  subst p' q'. destruct r as [v|z].
  { destruct R3 as [R3 _]. inversion R3 as [|? ? X]. destruct X as [? X]. discriminate. }
  destruct R3 as [_ [Z1 [Z2 [Z3 [_ Z4]]]]]. unfold get_element. cbn [fst snd]. rewrite R1. cbn [bind].
  exists z. split; auto. split; auto. split; [now rewrite Z2|]. split; auto.
  intros e He. apply (Z4 e); auto. intros k d b ps Hk Hs. rewrite Hd in Hk. rewrite P3 in Hs.
  rewrite Hd, map_app in W3. simpl in W3.
  destruct (lt_dec k (length ds)) as [L|L].
  - rewrite nth_error_app1 in Hk by auto. rewrite nth_error_app1 in Hs by (now rewrite map_length).
    rewrite nth_error_map, Hk in Hs. simpl in Hs. injection Hs as <- <-.
    assert (Nd : key d <> key di /\ key d <> key dj).
    { assert (In (key d) (map key ds)) by (apply in_map; eapply nth_error_In; eauto).
      split; intros E; rewrite <- E in W3.
      - apply NoDup_remove_2 in W3. apply W3. apply in_or_app. auto.
      - change (map key ds ++ [key di; key d]) with (map key ds ++ [key di] ++ [key d]) in W3. rewrite app_assoc in W3.
        apply NoDup_remove_2 in W3. apply W3. rewrite app_nil_r. apply in_or_app. auto. }
    rewrite !upd_other by tauto.
    assert (V : e (key d) < length (d_data d)).
    { destruct (nth_error (h_dims z) k) as [d'|] eqn:E.
      - assert (F : forall l l' k d d', Forall2 (fun d d' => key d' = key d /\ d_unit d' = d_unit d /\ d_data d' = d_data d) l l' ->
          nth_error l k = Some d -> nth_error l' k = Some d' -> key d' = key d /\ d_data d' = d_data d).
        { clear. intros l l' k d d' H. revert k. induction H; intros [|k] H1 H2; simpl in *; try discriminate; eauto.
          injection H1 as <-. injection H2 as <-. tauto. }
        rewrite <- Z2 in P4. destruct (F _ _ _ _ _ P4 Hk E) as [K1 K2]. rewrite <- K1, <- K2. apply He. eapply nth_error_In; eauto.
      - exfalso. apply nth_error_None in E. rewrite Z2 in E. assert (length ds = length ds') by (clear - P4; induction P4; simpl; auto). lia. }
    now rewrite seq_nth.
  - rewrite nth_error_app2 in Hk by lia. rewrite nth_error_app2 in Hs by (rewrite map_length; lia). rewrite map_length in Hs.
    destruct (k - length ds) as [|[|m]]; simpl in Hk, Hs; try (destruct m; discriminate).
    + injection Hk as <-. injection Hs as <- <-. assert (key di <> key dj).
      { intros E. rewrite E in W3. apply NoDup_remove_2 in W3. apply W3. apply in_or_app. right. now left. }
      rewrite upd_other by auto. now rewrite upd_same.
    + injection Hk as <-. injection Hs as <- <-. now rewrite upd_same.
Qed.

Lemma nth_skipn' : forall {X} n k (l : list X) d, nth k (skipn n l) d = nth (n + k) l d.
Proof. induction n as [|n IH]; destruct l; simpl; auto; intros; destruct k; auto. Qed.
Lemma bindex_self : forall s ix, length s = length ix -> inb s ix = true -> bindex s ix = ix.
Proof.
  induction s as [|n s IH]; destruct ix as [|i ix]; simpl; intros L H; try discriminate; auto.
  apply andb_prop in H as [H1 H2]. apply Nat.ltb_lt in H1. f_equal; [|apply IH; auto].
  destruct (Nat.eqb_spec n 1); lia.
Qed.
Lemma bcast_ok_refl : forall s, bcast_ok s s = true.
Proof.
  intros s. unfold bcast_ok. rewrite Nat.leb_refl, Nat.sub_diag. simpl. apply forallb_forall. intros [a b] H.
  assert (a = b). { clear - H. induction s as [|x s IH]; simpl in H; [tauto|]. destruct H as [H|H]; [congruence|auto]. }
  subst. simpl. now rewrite Nat.eqb_refl.
Qed.
Lemma coords_app : forall e l1 l2, coords e (l1 ++ l2) = coords e l1 ++ coords e l2.
Proof. intros. unfold coords. apply map_app. Qed.

(** Assigning an array with exactly the leading dimensions of the matrix. *)
Lemma set_element_ok : forall {A} (x v : hf A) ds di dj i j p q, wf x -> wf v -> h_dims x = ds ++ [di; dj] -> h_dims v = ds ->
  int_position (length (d_data di)) i p -> int_position (length (d_data dj)) j q ->
  exists y, set_element x (i, j) v = Ok y /\ wf y /\ h_dims y = h_dims x /\ h_unit y = h_unit x /\ h_dt y = h_dt x /\
    (forall e, valid e (h_dims x) -> val y e = if Nat.eqb (e (key di)) p && Nat.eqb (e (key dj)) q then val v e else val x e).
Proof.
  intros A x v ds di dj i j p q [W1 [W2 W3]] [V1 [V2 V3]] Hd Hv Hp Hq.
  assert (Hs : h_shape x = h_shape v ++ [length (d_data di); length (d_data dj)]).
  { rewrite <- W2, <- V2, Hd, Hv, map_app. reflexivity. }
  unfold set_element. cbn [fst snd]. set (sv := h_shape v) in *.
  assert (L : length (h_shape x) = length sv + 2) by (rewrite Hs, app_length; reflexivity).
  destruct (Nat.ltb_spec (length (h_shape x)) 2); [lia|].
  assert (T : firstn (length (h_shape x) - 2) (h_shape x) = sv).
  { rewrite Hs at 2. rewrite L, Nat.add_sub, firstn_app, firstn_all, Nat.sub_diag. simpl. apply app_nil_r. }
  rewrite T.
  assert (N1 : nth (length (h_shape x) - 2) (h_shape x) 0 = length (d_data di)).
  { rewrite Hs at 2. rewrite L, Nat.add_sub, app_nth2, Nat.sub_diag by lia. reflexivity. }
  assert (N2 : nth (length (h_shape x) - 1) (h_shape x) 0 = length (d_data dj)).
  { rewrite Hs at 2. rewrite L. rewrite app_nth2 by lia. replace (length sv + 2 - 1 - length sv) with 1 by lia. reflexivity. }
  rewrite N1, N2, (int_position_pos _ _ _ Hp), (int_position_pos _ _ _ Hq). cbn [of_option bind].
  assert (DL : drop_lead (h_ndim v - length sv) sv = sv).
  { unfold h_ndim. fold sv. change (nd_shape (h_nd v)) with sv. rewrite Nat.sub_diag. destruct sv as [|[|[|]]]; reflexivity. }
  rewrite DL, bcast_ok_refl, Nat.sub_diag, L, Nat.add_sub.
  replace (length sv + 2 - 1) with (length sv + 1) by lia.
  set (F := fun ix => if Nat.eqb (nth (length sv) ix 0) p && Nat.eqb (nth (length sv + 1) ix 0) q
               then nd_get (mkNd sv (nd_elems (h_nd v))) (bindex sv (skipn 0 (firstn (length sv) ix))) else nd_get (h_nd x) ix).
  assert (Ev : mkNd sv (nd_elems (h_nd v)) = h_nd v) by (unfold sv, h_shape; now destruct (h_nd v)).
  assert (IB : forall ix, inb (h_shape x) ix = true -> exists ix1 a b, ix = ix1 ++ [a; b] /\ length ix1 = length sv /\ inb sv ix1 = true).
  { intros ix Hix. pose proof (inb_length _ _ Hix) as Lx. exists (firstn (length sv) ix), (nth (length sv) ix 0), (nth (length sv + 1) ix 0).
    assert (Q : ix = firstn (length sv) ix ++ [nth (length sv) ix 0; nth (length sv + 1) ix 0]).
    { rewrite <- (firstn_skipn (length sv) ix) at 1. f_equal.
      assert (LS : length (skipn (length sv) ix) = 2) by (rewrite skipn_length; lia).
      destruct (skipn (length sv) ix) as [|a [|b [|c l]]] eqn:E; simpl in LS; try lia.
      assert (nth (length sv) ix 0 = nth 0 (skipn (length sv) ix) 0) as -> by (rewrite nth_skipn'; f_equal; lia).
      assert (nth (length sv + 1) ix 0 = nth 1 (skipn (length sv) ix) 0) as -> by (rewrite nth_skipn'; f_equal; lia).
      now rewrite E. }
    assert (LF : length (firstn (length sv) ix) = length sv) by (rewrite firstn_length; lia).
    split; auto. split; auto. rewrite Q in Hix. rewrite Hs, inb_app in Hix by auto. now apply andb_prop in Hix. }
  assert (FE : forall ix1 a b, length ix1 = length sv -> inb sv ix1 = true -> F (ix1 ++ [a; b]) =
     if Nat.eqb a p && Nat.eqb b q then nd_get (h_nd v) ix1 else nd_get (h_nd x) (ix1 ++ [a; b])).
  { intros ix1 a b L1 I1. unfold F. rewrite <- L1. rewrite app_nth2, Nat.sub_diag by lia. rewrite app_nth2 by lia.
    replace (length ix1 + 1 - length ix1) with 1 by lia. cbn [nth]. rewrite Ev.
    rewrite firstn_app, firstn_all, Nat.sub_diag. simpl. rewrite app_nil_r, bindex_self by auto. reflexivity. }
  assert (TOT : total_on (h_shape x) F).
  { intros ix Hix. destruct (IB ix Hix) as [ix1 [a [b [-> [L1 I1]]]]]. rewrite FE by auto.
    destruct (Nat.eqb a p && Nat.eqb b q); apply nd_get_not_none; auto. }
  eexists. split; [reflexivity|]. cbn [h_dims h_unit h_dt].
  split.
  { split; [|split]; cbn [h_nd h_dims]; auto. apply (nd_tab_wf (h_shape x) F TOT). }
  split; auto. split; auto. split; auto. intros e He.
  assert (Hin := coords_inb x e W2 He). unfold val at 1. cbn [h_nd h_dims].
  rewrite nd_get_tab by (auto; exact TOT). change (F (coords e (h_dims x)) = if Nat.eqb (e (key di)) p && Nat.eqb (e (key dj)) q then val v e else val x e).
  unfold val. rewrite Hv, Hd, coords_app in *. change (coords e [di; dj]) with [e (key di); e (key dj)] in *.
  apply FE.
  - unfold coords. rewrite map_length. unfold sv. rewrite <- V2, Hv, map_length. reflexivity.
  - rewrite Hs, inb_app in Hin. { now apply andb_prop in Hin. } unfold coords, sv. rewrite <- V2, Hv, !map_length. reflexivity.
Qed.
