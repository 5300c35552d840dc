(** Lemmas for gathering columns to matrices. *)
From Coq Require Import Ascii String List Arith Bool Lia ZArith Permutation Sorted.
From Verif Require Import Model_NdArray Model_Dim Model_Array Model_DataDict Model_Text Model_Block Model_MatNames Model_Elements Model_MdifMat
  Spec_Array Spec_Elements Spec_MdifMat Proofs_NdArray Proofs_Array Proofs_Array7 Proofs_DataDict Proofs_Text Proofs_MatNames Proofs_MdifMerge.
Import ListNotations.
Local Open Scope nat_scope.
Local Open Scope list_scope.

(** *** Names where they come first *)
Lemma filter_all : forall {X} (f : X -> bool) l, (forall x, In x l -> f x = true) -> filter f l = l.
Proof. induction l as [|x l IH]; simpl; intros H; auto. rewrite H by auto. f_equal. auto. Qed.
Lemma filter_comm : forall {X} (f g : X -> bool) l, filter f (filter g l) = filter g (filter f l).
Proof. induction l as [|x l IH]; simpl; auto. destruct (f x) eqn:Ef, (g x) eqn:Eg; simpl; rewrite ?Ef, ?Eg, IH; auto. Qed.
Lemma filter_firsts : forall f l, filter f (firsts l) = firsts (filter f l).
Proof.
  intros f. induction l as [|x l IH]; simpl; auto. rewrite filter_comm, IH. destruct (f x) eqn:E; simpl; auto.
  apply filter_all. intros y Hy. rewrite <- IH in Hy. apply filter_In in Hy as [_ Hy]. destruct (String.eqb_spec x y); auto. congruence.
Qed.
Lemma firsts_In : forall x l, In x (firsts l) <-> In x l.
Proof.
  intros x. induction l as [|y l IH]; simpl; [tauto|]. rewrite filter_In, IH. destruct (String.eqb_spec y x); simpl; intuition congruence.
Qed.
Lemma firsts_NoDup : forall l, NoDup (firsts l).
Proof.
  induction l as [|y l IH]; simpl; constructor.
  - rewrite filter_In, String.eqb_refl. simpl. intuition congruence.
  - now apply NoDup_filter'.
Qed.
Lemma firsts_id : forall l, NoDup l -> firsts l = l.
Proof.
  induction l as [|y l IH]; simpl; auto. intros H. apply NoDup_cons_iff in H as [H1 H2]. rewrite IH by auto. f_equal.
  apply filter_all. intros x Hx. destruct (String.eqb_spec y x); auto. congruence.
Qed.
Lemma firsts_map : forall f l, firsts (map f (firsts l)) = firsts (map f l).
Proof.
  intros f. induction l as [|x l IH]; simpl; auto. f_equal. rewrite <- IH, !(filter_firsts (fun y => negb (String.eqb (f x) y))). f_equal.
  generalize (firsts l). intros m. induction m as [|y m IHm]; simpl; auto. destruct (String.eqb_spec x y) as [E|E]; simpl.
  - rewrite E, String.eqb_refl. simpl. rewrite <- E. exact IHm.
  - destruct (String.eqb (f x) (f y)); simpl; rewrite IHm; auto.
Qed.
Lemma firsts_same : forall (f g : string -> string) l, (forall k, In k l -> f k = g k) -> firsts (map f l) = firsts (map g l).
Proof. intros f g l H. f_equal. now apply map_ext_in. Qed.

(** The names [names] replaced by [v] where the first of them stands. *)
Lemma firsts_replaced : forall names v pre k post, NoDup (pre ++ k :: post) -> ~ In v (pre ++ k :: post) ->
  (forall x, In x pre -> ~ In x names) -> In k names ->
  firsts (map (fun x => if l_in x names then v else x) (pre ++ k :: post)) = pre ++ v :: filter (fun x => negb (l_in x names)) post.
Proof.
  intros names v pre k post ND NV Hpre Hk. induction pre as [|x pre IH].
  - cbn [app map]. assert (E : l_in k names = true) by now apply l_in_In. rewrite E. cbn [firsts]. f_equal. rewrite filter_firsts.
    assert (F : filter (fun y => negb (String.eqb v y)) (map (fun x => if l_in x names then v else x) post) = filter (fun x => negb (l_in x names)) post).
    { assert (NP : ~ In v post) by (intros H; apply NV; right; auto). clear - NP. induction post as [|x l IH]; simpl; auto.
      destruct (l_in x names); simpl.
      - rewrite String.eqb_refl. simpl. apply IH. intros H; apply NP; right; auto.
      - destruct (String.eqb_spec v x); simpl; [subst; exfalso; apply NP; left; auto|]. f_equal. apply IH. intros H; apply NP; right; auto. }
    rewrite F. apply firsts_id. apply NoDup_filter'. now apply NoDup_cons_iff in ND.
  - cbn [app map] in *. apply NoDup_cons_iff in ND as [ND1 ND2].
    assert (E : l_in x names = false) by (apply l_in_false; apply Hpre; now left). rewrite E. cbn [firsts]. rewrite IH; auto.
    + f_equal. apply filter_all. intros y Hy. destruct (String.eqb_spec x y); auto. subst y. exfalso. apply in_app_or in Hy as [Hy|[Hy|Hy]].
      * apply ND1. apply in_or_app. auto.
      * subst x. apply NV. now left.
      * apply ND1. apply in_or_app. right. right. apply filter_In in Hy. apply Hy.
    + intros H. apply NV. now right.
    + intros y Hy. apply Hpre. now right.
Qed.

Lemma first_of : forall (names l : list string), (exists k, In k l /\ In k names) ->
  exists pre k post, l = pre ++ k :: post /\ In k names /\ forall x, In x pre -> ~ In x names.
Proof.
  intros names. induction l as [|x l IH]; intros [k [H1 H2]]; [destruct H1|]. destruct (in_dec string_dec x names) as [Hx|Hx].
  - exists [], x, l. repeat split; auto.
  - destruct IH as [pre [k' [post [E [G1 G2]]]]].
    + exists k. destruct H1 as [->|H1]; [tauto|auto].
    + exists (x :: pre), k', post. subst l. split; auto. split; auto. intros y [<-|Hy]; auto.
Qed.

Lemma l_index_app : forall k pre post, ~ In k pre -> l_index k (pre ++ k :: post) = Ok (length pre).
Proof.
  intros k. induction pre as [|x pre IH]; simpl; intros post H; [now rewrite String.eqb_refl|].
  destruct (String.eqb_spec k x); [subst; tauto|]. rewrite IH by tauto. reflexivity.
Qed.
Lemma l_index_ge : forall k pre post, In k (pre ++ post) -> ~ In k pre -> exists n, l_index k (pre ++ post) = Ok n /\ length pre <= n.
Proof.
  intros k. induction pre as [|x pre IH]; simpl; intros post H N.
  - destruct (l_index_ok k post H) as [n Hn]. exists n. split; auto. lia.
  - destruct (String.eqb_spec k x); [subst; tauto|]. destruct (IH post) as [n' [E L]]; [destruct H; [congruence|auto]|tauto|].
    rewrite E. simpl. exists (S n'). split; auto. lia.
Qed.
Lemma min_of_ok : forall l b, In b l -> (forall n, In n l -> b <= n) -> min_of l = Ok b.
Proof.
  assert (S1 : forall l b, l <> [] -> (forall n, In n l -> b <= n) -> exists m, min_of l = Ok m /\ b <= m).
  { induction l as [|n [|n' l] IH]; intros b NE H; [congruence| |].
    - exists n. split; auto. apply H. now left.
    - destruct (IH b) as [m [E L]]; [discriminate|intros; apply H; now right|]. change (min_of (n :: n' :: l)) with (do m <- min_of (n' :: l); Ok (Nat.min n m)).
      rewrite E. simpl. eexists. split; eauto. specialize (H n (or_introl eq_refl)). lia. }
  induction l as [|n [|n' l] IH]; intros b Hb H; [destruct Hb| |].
  - destruct Hb as [->|[]]. reflexivity.
  - change (min_of (n :: n' :: l)) with (do m <- min_of (n' :: l); Ok (Nat.min n m)). destruct Hb as [->|Hb].
    + destruct (S1 (n' :: l) b) as [m [E L]]; [discriminate|intros; apply H; now right|]. rewrite E. simpl. f_equal. lia.
    + rewrite (IH b Hb) by (intros; apply H; now right). simpl. f_equal. specialize (H n (or_introl eq_refl)). lia.
Qed.

Section Gather.
Context {A : Type}.
Variable common : list dtype -> dtype.
Variable cast : dtype -> A -> A.

Lemma dels_ok : forall ks (d : ddict (hf A)), Inv d -> exists d', dd_dels ks d = Ok d' /\ Inv d' /\
  dd_order d' = filter (fun k => negb (l_in k ks)) (dd_order d) /\ forall k, ~ In k ks -> pd_get k (dd_map d') = pd_get k (dd_map d).
Proof.
  induction ks as [|k ks IH]; intros d HI; simpl.
  - exists d. split; auto. split; auto. split; auto. symmetry. apply filter_all. auto.
  - pose proof HI as [H1 [H2 H3]]. pose proof (del_ok k d H1 H2) as E. rewrite E. cbn [bind].
    destruct (IH _ (del_Inv _ _ _ HI E)) as [d' [G1 [G2 [G3 G4]]]]. exists d'. split; auto. split; auto. cbn [dd_order dd_map] in *. split.
    + rewrite G3. clear. induction (dd_order d) as [|x l IH]; simpl; auto. rewrite (String.eqb_sym x k). destruct (String.eqb_spec k x); simpl; auto.
      change (existsb (String.eqb x) ks) with (l_in x ks). destruct (l_in x ks); simpl; rewrite IH; auto.
    + intros x Hx. rewrite G4 by tauto. apply pd_get_del_other. intros ->. apply Hx. now left.
Qed.

Lemma get_order : forall (d : ddict (hf A)) k x, Inv d -> pd_get k (dd_map d) = Some x -> In k (dd_order d).
Proof.
  intros d k x [_ [_ H]] E. apply H. destruct (in_dec string_dec k (keys (dd_map d))) as [G|G]; auto. apply pd_get_none in G. congruence.
Qed.

Definition lens (ds : list dim) : list nat := map (fun e => length (d_data e)) ds.

Lemma columns_ok : forall (xs : list (hf A)) fi, xs <> [] -> (forall x, In x xs -> wf x /\ h_dims x = [fi]) ->
  exists X t, np_columns common cast xs = Ok (X, t) /\ nd_wf X /\ nd_shape X = [length (d_data fi); length xs] /\
    forall r c x, nth_error xs c = Some x -> nd_get X [r; c] = option_map (cast t) (nd_get (h_nd x) [r]).
Proof.
  intros xs fi NE H. set (n := length (d_data fi)).
  assert (SH : forall x, In x xs -> h_shape x = [n]).
  { intros x Hx. destruct (H x Hx) as [[_ [L _]] E]. unfold labels_match in L. rewrite E in L. simpl in L. symmetry. exact L. }
  unfold np_columns.
  assert (E1 : existsb (fun x : hf A => Nat.eqb (length (h_shape x)) 0) xs = false).
  { apply not_true_is_false. intros G. apply existsb_exists in G as [x [G1 G2]]. rewrite (SH x G1) in G2. discriminate. }
  rewrite E1. destruct xs as [|x0 xs']; [congruence|]. set (xs := x0 :: xs') in *. rewrite (SH x0) by now left.
  assert (E2 : forallb (fun x : hf A => list_eqb Nat.eqb (h_shape x) [n]) xs = true).
  { apply forallb_forall. intros x Hx. apply shapes_eqb. auto. }
  rewrite E2. cbv zeta. set (t := common (map h_dt xs)). eexists _, t. split; [reflexivity|].
  set (f := fun ix : list nat => _).
  assert (T : total_on [n; length xs] f).
  { intros ix Hix. destruct ix as [|r [|c [|]]]; simpl in Hix; try discriminate; rewrite ?andb_false_r in Hix; try discriminate.
    apply andb_prop in Hix as [R1 R2]. rewrite andb_true_r in R2. apply Nat.ltb_lt in R1, R2. unfold f.
    destruct (nth_error xs c) as [x|] eqn:Ex; [|apply nth_error_None in Ex; unfold xs in Ex; simpl in Ex; lia].
    apply nth_error_In in Ex. destruct (H x Ex) as [[W _] _]. destruct (nd_get_some (h_nd x) [r] W) as [a ->]; [|discriminate].
    change (nd_shape (h_nd x)) with (h_shape x). rewrite (SH x Ex). simpl. rewrite andb_true_r. now apply Nat.ltb_lt. }
  split; [now apply nd_tab_wf|]. split; [reflexivity|]. intros r c x Ex. assert (Hc : c < length xs) by (apply nth_error_Some; congruence).
  destruct (Nat.ltb_spec r n) as [L|L].
  - rewrite nd_get_tab; auto.
    + unfold f. now rewrite Ex.
    + simpl. rewrite andb_true_r. apply andb_true_intro. split; now apply Nat.ltb_lt.
  - rewrite nd_get_oob. 2:{ cbn [nd_tab nd_shape inb]. replace (r <? n) with false by (symmetry; now apply Nat.ltb_ge). reflexivity. }
    rewrite nd_get_oob; auto. change (nd_shape (h_nd x)) with (h_shape x). rewrite (SH x) by now apply nth_error_In in Ex. cbn [inb].
    replace (r <? n) with false by (symmetry; now apply Nat.ltb_ge). reflexivity.
Qed.

Lemma gather_ok : forall v names tail (d : ddict (hf A)) fi, Inv d -> NoDup names -> names <> [] -> ~ In v (dd_order d) ->
  (forall k, In k names -> exists x, pd_get k (dd_map d) = Some x /\ wf x /\ h_dims x = [fi]) ->
  prodn (lens tail) = length names -> NoDup (map key (fi :: tail)) ->
  exists d' y, gather common cast v names tail d = Ok d' /\ Inv d' /\
    dd_order d' = firsts (map (fun k => if l_in k names then v else k) (dd_order d)) /\
    (forall k, ~ In k names -> k <> v -> pd_get k (dd_map d') = pd_get k (dd_map d)) /\
    pd_get v (dd_map d') = Some y /\ wf y /\ h_dims y = fi :: tail /\
    forall k x r ix, inb (lens tail) ix = true -> nth_error names (ravel (lens tail) ix) = Some k -> pd_get k (dd_map d) = Some x ->
      nd_get (h_nd y) (r :: ix) = option_map (cast (h_dt y)) (nd_get (h_nd x) [r]).
Proof.
  intros v names tail d fi HI ND NE NV HX HL HK.
  assert (HG : exists xs, mapM (fun k => dd_get k d) names = Ok xs /\ forall x, In x xs -> wf x /\ h_dims x = [fi]).
  { clear - HX. induction names as [|k names IH]; simpl; [exists []; split; auto; intros x []|].
    destruct (HX k) as [x [E1 [E2 E3]]]; [now left|]. destruct IH as [xs [F1 F2]]; [intros; apply HX; now right|].
    unfold dd_get at 1. rewrite E1. cbn [of_option bind]. rewrite F1. cbn [bind]. exists (x :: xs). split; auto. intros z [<-|Hz]; auto. }
  destruct HG as [xs [M HXs]]. pose proof (mapM_length _ _ _ M) as LX.
  assert (NX : xs <> []) by (intros ->; destruct names; [congruence|discriminate]).
  destruct (columns_ok xs fi NX HXs) as [X [t [C1 [C2 [C3 C4]]]]]. unfold gather. rewrite M. cbn [bind]. rewrite C1. cbn [bind].
  assert (HR : exists x, hd_error (rev xs) = Some x /\ h_dims x = [fi]).
  { destruct (rev xs) as [|x r] eqn:E; [apply (f_equal (@rev _)) in E; rewrite rev_involutive in E; simpl in E; congruence|].
    exists x. split; auto. apply HXs. apply in_rev. rewrite E. now left. }
  destruct HR as [xl [R1 R2]]. rewrite R1. cbn [of_option bind]. rewrite C3. cbn [firstn app]. fold (lens tail).
  rewrite nd_reshape_ok by (rewrite C3; cbn [prodn fold_right]; fold (prodn (lens tail)); rewrite HL, LX; lia). cbn [bind]. rewrite R2. cbn [app].
  rewrite new_raw_ok by (simpl; unfold lens; now rewrite map_length). cbn [bind]. set (m := mkHF _ _ _ _ _).
  pose proof (set_Inv v m d HI) as HI1. set (d1 := dd_set v m d) in *.
  assert (O1 : dd_order d1 = dd_order d ++ [v]) by (unfold d1, dd_set; cbn [dd_order]; apply l_in_false in NV; now rewrite NV).
  assert (NO : forall k, In k names -> In k (dd_order d)) by (intros k Hk; destruct (HX k Hk) as [x [E _]]; now apply (get_order d k x)).
  destruct (first_of names (dd_order d)) as [pre [k0 [post [EO [K1 K2]]]]].
  { destruct names as [|k0 r]; [congruence|]. exists k0. split; [apply NO|]; now left. }
  assert (NDo : NoDup (dd_order d)) by apply HI.
  assert (HP : exists ps, mapM (fun k => l_index k (dd_order d1)) names = Ok ps /\ In (length pre) ps /\ forall n, In n ps -> length pre <= n).
  { assert (Nk : ~ In k0 pre) by (intros G; apply (K2 k0 G K1)).
    assert (G : forall l, incl l names -> exists ps, mapM (fun k => l_index k (dd_order d1)) l = Ok ps /\ (In k0 l -> In (length pre) ps) /\ forall n, In n ps -> length pre <= n).
    { induction l as [|k l IHl]; intros Hl; cbn [mapM]; [exists []; split; auto; split; auto; intros n []|].
      destruct IHl as [ps [P1 [P2 P3]]]; [intros z Hz; apply Hl; now right|].
      destruct (l_index_ge k pre ((k0 :: post) ++ [v])) as [n [N1 N2]].
      - rewrite app_assoc, <- EO. apply in_or_app. left. apply NO. apply Hl. now left.
      - intros G. apply (K2 k G). apply Hl. now left.
      - rewrite app_assoc, <- EO, <- O1 in N1. rewrite N1. cbn [bind]. rewrite P1. cbn [bind]. exists (n :: ps). split; auto. split.
        + intros [->|Hk]; [left|right; auto]. rewrite O1, EO, <- app_assoc in N1. cbn [app] in N1. rewrite l_index_app in N1 by auto. congruence.
        + intros z [<-|Hz]; auto. }
    destruct (G names) as [ps [P1 [P2 P3]]]; [intros z; auto|]. exists ps. auto. }
  destruct HP as [ps [P1 [P2 P3]]]. rewrite P1. cbn [bind]. rewrite (min_of_ok ps (length pre) P2 P3). cbn [bind].
  destruct (dels_ok names d1 HI1) as [d2 [D1 [D2 [D3 D4]]]]. rewrite D1. cbn [bind].
  assert (NVn : ~ In v names) by (intros G; apply NV; auto).
  assert (O2 : dd_order d2 = (pre ++ filter (fun k => negb (l_in k names)) post) ++ [v]).
  { rewrite D3, O1, filter_app. cbn [filter]. apply l_in_false in NVn. rewrite NVn. cbn [negb]. f_equal. rewrite EO, filter_app. cbn [filter].
    apply l_in_In in K1. rewrite K1. cbn [negb]. f_equal. apply filter_all. intros x Hx. apply K2 in Hx. apply l_in_false in Hx. now rewrite Hx. }
  set (body := pre ++ filter (fun k => negb (l_in k names)) post) in *.
  assert (NVb : ~ In v body).
  { unfold body. intros G. apply NV. rewrite EO. apply in_app_or in G as [G|G]; apply in_or_app; auto. right. right. apply filter_In in G. apply G. }
  rewrite O2, l_index_app by auto. cbn [bind].
  assert (DL : l_del (length body) (body ++ [v]) = body).
  { clear. induction body as [|x l IH]; simpl; auto. now rewrite IH. }
  rewrite DL.
  assert (IN : l_insert (length pre) v body = firsts (map (fun k => if l_in k names then v else k) (dd_order d))).
  { rewrite EO, firsts_replaced; auto; try (rewrite <- EO; auto). unfold l_insert, body. rewrite firstn_app, firstn_all, Nat.sub_diag, firstn_O, app_nil_r.
    rewrite skipn_app, skipn_all, Nat.sub_diag. reflexivity. }
  exists (mkDD (dd_map d2) (l_insert (length pre) v body)), m. cbn [dd_order dd_map].
  assert (GV : pd_get v (dd_map d2) = Some m).
  { rewrite D4 by auto. unfold d1, dd_set. cbn [dd_map]. apply pd_get_set_same. }
  split; [reflexivity|]. split; [|split; [exact IN|split; [|split; [exact GV|split; [|split; [reflexivity|]]]]]].
  - destruct D2 as [I1 [I2 I3]]. split; [|split; auto].
    + cbn [dd_order]. rewrite IN. apply firsts_NoDup.
    + cbn [dd_order dd_map]. intros k. rewrite <- I3, O2. unfold l_insert, body. rewrite firstn_app, firstn_all, Nat.sub_diag, firstn_O, app_nil_r.
      rewrite skipn_app, skipn_all, Nat.sub_diag. cbn [app skipn]. rewrite !in_app_iff. cbn [In]. tauto.
  - intros k Hk Nk. rewrite D4 by auto. unfold d1, dd_set. cbn [dd_map]. now apply pd_get_set_other.
  - split; [|split].
    + unfold m. cbn [h_nd]. unfold nd_wf in *. cbn [nd_elems nd_shape]. rewrite C2, C3. cbn [prodn fold_right]. fold (prodn (lens tail)). rewrite HL, LX. lia.
    + unfold labels_match, m, h_shape. cbn [h_nd h_dims nd_shape map]. reflexivity.
    + unfold m. cbn [h_dims]. exact HK.
  - intros k x r ix Hix Hn Hx. unfold m. cbn [h_nd h_dt].
    destruct (mapM_nth _ _ _ _ _ M Hn) as [z [Z1 Z2]]. unfold dd_get in Z1. rewrite Hx in Z1. cbn in Z1. injection Z1 as <-.
    rewrite <- (C4 r (ravel (lens tail) ix) x Z2). unfold nd_get. cbn [nd_shape nd_elems]. rewrite C3. cbn [inb ravel prodn fold_right]. fold (prodn (lens tail)).
    rewrite Hix, HL, LX. pose proof (ravel_lt _ _ Hix) as RL. rewrite HL in RL. apply Nat.ltb_lt in RL. rewrite RL. cbn [andb].
    destruct (r <? length (d_data fi)); cbn [andb]; auto. f_equal. lia.
Qed.
End Gather.
