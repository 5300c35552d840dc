(** filter. *)
From Coq Require Import Ascii String List Arith ZArith Bool Lia Permutation.
From Verif Require Import Model_NdArray Proofs_NdArray Model_Dim Model_Array Spec_Array Proofs_Array Proofs_Array2 Proofs_Array3
  Proofs_Array4 Proofs_Array5 Proofs_Array8
  Model_DataDict Spec_DataDict Proofs_DataDict Model_Text Model_Block Spec_Block Proofs_Block Proofs_Block2 Proofs_Block3.
Import ListNotations.
Local Open Scope nat_scope.
Local Open Scope list_scope.

Lemma dims_pos_name_nth : forall ds k d, NoDup (map d_name ds) -> nth_error ds k = Some d -> dims_pos_name ds (d_name d) = Ok k.
Proof.
  intros ds k d ND H. unfold dims_pos_name. rewrite (find_index_first _ ds k d); auto.
  - unfold dim_eqb_str. apply String.eqb_refl.
  - intros j y Hj E. unfold dim_eqb_str in E. apply String.eqb_eq in E. exact (names_only ds k ND j d y H Hj E).
Qed.
Lemma remove_at_split : forall {X} (l : list X) k a, nth_error l k = Some a -> exists l1 l2, l = l1 ++ a :: l2 /\ length l1 = k /\ remove_at k l = l1 ++ l2.
Proof.
  induction l as [|x l IH]; intros [|k] a H; simpl in *; try discriminate.
  - injection H as ->. exists [], l. auto.
  - destruct (IH k a H) as [l1 [l2 [E1 [E2 E3]]]]. exists (x :: l1), l2. simpl. now rewrite E3, E1, <- E2.
Qed.
Lemma remove_at_perm : forall {X} (l : list X) k a, nth_error l k = Some a -> Permutation (a :: remove_at k l) l.
Proof. intros X l k a H. destruct (remove_at_split l k a H) as [l1 [l2 [-> [_ ->]]]]. apply Permutation_middle. Qed.

Lemma reorder_names_loop_ok : forall ds order infos, NoDup (map d_name ds) -> NoDup (map d_name infos) -> incl infos ds ->
  NoDup order -> Permutation order (map d_name infos) ->
  exists pos, reorder_names_loop ds infos order = Ok (pos, []) /\ Forall2 (fun s p => exists d, nth_error ds p = Some d /\ d_name d = s) order pos.
Proof.
  intros ds order. induction order as [|s order IH]; intros infos N1 N2 I NO P.
  - apply Permutation_nil in P. destruct infos; [|discriminate]. exists []. simpl. auto.
  - assert (Hs : In s (map d_name infos)) by (eapply Permutation_in; [exact P|now left]).
    destruct (name_place _ _ Hs) as [q [d [Hq E]]].
    assert (Hd : In d ds) by (apply I; eapply nth_error_In; eauto). apply In_nth_error in Hd as [p Hp].
    pose proof (remove_at_perm _ _ _ Hq) as PR.
    destruct (IH (remove_at q infos)) as [pos [L1 L2]]; auto.
    + apply (Permutation_map d_name), Permutation_sym in PR. apply (Permutation_NoDup PR) in N2. simpl in N2. now inversion N2.
    + intros z Hz. apply I. eapply Permutation_in; [exact PR|now right].
    + now inversion NO.
    + apply (Permutation_map d_name), Permutation_sym in PR. simpl in PR. rewrite E in PR. rewrite PR in P. now apply Permutation_cons_inv in P.
    + exists (p :: pos). cbn [reorder_names_loop]. rewrite <- E. rewrite (dims_pos_name_nth ds p d), (dims_pos_name_nth infos q d) by auto.
      cbn [bind]. rewrite L1. cbn [bind fst snd]. split; auto. constructor; eauto.
Qed.

Lemma reorder_names_ok : forall {A} (x : hf A) order, wf x -> NoDup (map d_name (h_dims x)) -> Permutation order (map d_name (h_dims x)) ->
  exists y, reorder_names order x = Ok y /\ wf y /\ map d_name (h_dims y) = order /\ incl (h_dims y) (h_dims x) /\
    h_unit y = h_unit x /\ forall e, val y e = val x e.
Proof.
  intros A x order W ND P. pose proof W as [W1 [W2 W3]]. pose proof (wf_ndim x W2) as Hn.
  destruct (reorder_names_loop_ok (h_dims x) order (h_dims x)) as [pos [L1 L2]]; auto.
  { intros z; auto. } { apply Permutation_sym in P. now apply (Permutation_NoDup P). }
  assert (LP : length pos = h_ndim x).
  { rewrite <- Hn, <- (map_length d_name), <- (Permutation_length P). clear - L2. induction L2; simpl; congruence. }
  assert (NP : NoDup pos).
  { assert (NDo : NoDup order) by (apply Permutation_sym in P; now apply (Permutation_NoDup P)).
    clear - L2 NDo. induction L2 as [|s p o po H F IH]; constructor; inversion NDo; subst; auto.
    intros Hp. apply H2. clear - F H Hp. destruct H as [d [H1 H2]]. induction F as [|s' p' o po H F IH]; [destruct Hp|].
    destruct Hp as [->|Hp]; [|right; auto]. left. destruct H as [d' [H3 H4]]. congruence. }
  assert (PP : Permutation pos (seq 0 (h_ndim x))).
  { apply NoDup_Permutation_bis; auto; [rewrite seq_length; lia|]. intros p Hp. apply in_seq.
    assert (exists d, nth_error (h_dims x) p = Some d) as [d Hd].
    { clear - L2 Hp. induction L2 as [|s q o po H F IH]; [destruct Hp|]. destruct Hp as [->|Hp]; auto. destruct H as [d [H _]]; eauto. }
    split; [lia|]. rewrite <- Hn. simpl. apply nth_error_Some. congruence. }
  destruct (transpose_all_ok x pos W PP) as [y [T1 [T2 [T3 T4]]]].
  exists y. unfold reorder_names. rewrite L1. cbn [bind fst snd mapM]. rewrite app_nil_r. split; auto. split; auto.
  split. { rewrite T3. clear - L2. induction L2 as [|s p o po H F IH]; simpl; auto. rewrite IH. f_equal.
    destruct H as [d [H1 H2]]. apply nth_error_nth with (d := dim0) in H1. congruence. }
  split. { rewrite T3. intros d Hd. apply in_map_iff in Hd as [p [E Hp]]. subst d. apply nth_In. rewrite Hn.
    apply (Permutation_in _ PP) in Hp. apply in_seq in Hp. lia. }
  split; auto. apply Permutation_is_perm in PP. destruct (transpose_nat_ok x pos W1 Hn PP) as [y' [T5 [_ [_ [_ [_ [T6 _]]]]]]]. congruence.
Qed.

Lemma same_names_same : forall l1 l2 : list dim, map d_name l1 = map d_name l2 -> NoDup (map d_name l2) -> incl l1 l2 -> l1 = l2.
Proof.
  intros l1 l2 E ND I. apply nth_ext with dim0 dim0.
  - rewrite <- (map_length d_name l1), <- (map_length d_name l2). congruence.
  - intros n Hn. assert (L : length l1 = length l2) by (rewrite <- (map_length d_name l1), <- (map_length d_name l2); congruence).
    assert (I' : In (nth n l1 dim0) l2) by (apply I, nth_In; auto). apply In_nth with (d := dim0) in I' as [m [Hm Em]].
    rewrite <- Em. f_equal. apply (NoDup_nth (map d_name l2) (d_name dim0)); rewrite ?map_length; try lia; auto.
    rewrite !map_nth, Em, <- map_nth, E, map_nth. auto.
Qed.
Lemma set_nth_same_get : forall {X} (l : list X) k v a, nth_error l k = Some a -> nth_error (set_nth k v l) k = Some v.
Proof. induction l; intros [|k] v a' H; simpl in *; try discriminate; eauto. Qed.
Lemma set_nth_perm : forall {X} (l : list X) k v a, nth_error l k = Some a -> Permutation (v :: remove_at k l) (set_nth k v l).
Proof.
  induction l as [|x l IH]; intros [|k] v a H; simpl in *; try discriminate; auto.
  rewrite perm_swap. constructor. eapply IH; eauto.
Qed.
Lemma remove_at_map : forall {X Y} (f : X -> Y) k l, map f (remove_at k l) = remove_at k (map f l).
Proof. intros X Y f k l. revert k. induction l; intros [|k]; simpl; auto. now rewrite IHl. Qed.
Lemma map_nth_seq : forall {X} (d : X) l, map (fun k => nth k l d) (seq 0 (length l)) = l.
Proof.
  intros X d l. apply nth_ext with d d; [now rewrite map_length, seq_length|]. intros n Hn. rewrite map_length, seq_length in Hn.
  rewrite (nth_indep _ d (nth 0 l d)) by (now rewrite map_length, seq_length). rewrite (map_nth (fun k => nth k l d)). now rewrite seq_nth.
Qed.

Lemma filter_var_ok : forall {A} (x : hf A) md new ps, var_ok (d_name md) md x ->
  (forall p, In p ps -> p < length (d_data md)) -> key new = key md -> length (d_data new) = length ps ->
  exists y, filter_var md new (length (d_data md)) ps x = Ok y /\ map d_name (h_dims y) = map d_name (h_dims x) /\
    rearranged (d_name md) new ps x y.
Proof.
  intros A x md new ps [W [ND HD]] HO HK HL. destruct (in_dec string_dec (d_name md) (map d_name (h_dims x))) as [I|I].
  - destruct (name_place _ _ I) as [k [d [Hk E]]]. destruct (HD d (nth_error_In _ _ Hk) E) as [K1 K2].
    assert (DI : dims_index (h_dims x) (d_name md) = Ok k) by (rewrite <- E; now apply dims_index_nth).
    pose proof W as [W1 [W2 W3]]. pose proof (wf_ndim x W2) as Hn.
    set (o := k :: remove_at k (seq 0 (h_ndim x))).
    assert (Hks : nth_error (seq 0 (h_ndim x)) k = Some k).
    { assert (k < h_ndim x) by (rewrite <- Hn; apply nth_error_Some; congruence).
      rewrite nth_error_nth' with (d := 0) by (now rewrite seq_length). rewrite seq_nth; auto. }
    assert (PO : Permutation o (seq 0 (h_ndim x))) by (now apply remove_at_perm).
    destruct (transpose_all_ok x o W PO) as [y [T1 [T2 [T3 T4]]]].
    assert (Ty : h_unit y = h_unit x).
    { apply Permutation_is_perm in PO. destruct (transpose_nat_ok x o W1 Hn PO) as [y' [T5 [_ [_ [_ [_ [T6 _]]]]]]]. congruence. }
    assert (Dy : h_dims y = d :: remove_at k (h_dims x)).
    { rewrite T3. unfold o. cbn [map]. rewrite (nth_error_nth _ _ _ Hk). f_equal. rewrite remove_at_map, <- Hn, map_nth_seq. auto. }
    assert (H0y : nth_error (h_dims y) 0 = Some d) by (now rewrite Dy).
    assert (S0 : nth_error (h_shape y) 0 = Some (length (d_data md))).
    { rewrite <- K2. destruct T2 as [_ [T2 _]]. now apply labels_nth. }
    destruct (take_axis_val y 0 d new ps T2 H0y) as [a [A1 [A2 [A3 A4]]]]; auto; try congruence.
    { intros p Hp. rewrite K2. auto. }
    set (zd := new :: remove_at k (h_dims x)).
    assert (Zd : set_nth 0 new (h_dims y) = zd) by (rewrite Dy; reflexivity).
    assert (Ly : length (h_dims y) = h_ndim y) by (apply wf_ndim, T2).
    assert (La : length zd = length (nd_shape a)).
    { rewrite A2, <- Zd, !set_nth_length. exact Ly. }
    set (z := mkHF a (h_dt y) zd (h_unit y) (h_fmt y)).
    assert (Nn : d_name new = d_name d) by (unfold key in *; congruence).
    assert (Kz : map key zd = map key (h_dims y)) by (rewrite Dy; unfold zd; simpl; congruence).
    assert (Wz : wf z).
    { split; [exact A3|]. destruct T2 as [T21 [T22 T23]]. split.
      - unfold labels_match in *. unfold z, h_shape. cbn [h_dims h_nd]. rewrite A2, <- Zd, map_set_nth, T22, HL. reflexivity.
      - unfold z. cbn [h_dims]. now rewrite Kz. }
    assert (PNz : Permutation (map d_name (h_dims x)) (map d_name (h_dims z))).
    { unfold z. cbn [h_dims]. unfold zd. simpl. rewrite Nn. apply Permutation_sym. change (d_name d :: map d_name (remove_at k (h_dims x))) with (map d_name (d :: remove_at k (h_dims x))).
      apply Permutation_map. now apply remove_at_perm. }
    destruct (reorder_names_ok z (map d_name (h_dims x)) Wz) as [r [R1 [R2 [R3 [R4 [R5 R6]]]]]]; auto.
    { now apply (Permutation_NoDup PNz). }
    exists r. split.
    { unfold filter_var. rewrite DI. fold o. rewrite T1. cbn [bind]. rewrite S0. cbn [of_option bind]. rewrite Nat.eqb_refl. cbn [negb].
      rewrite A1. cbn [bind]. fold zd. rewrite (new_raw_ok a (h_dt y) zd (h_unit y) (Some (h_fmt y)) La). cbn [bind]. exact R1. }
    split; auto. right. exists k, d. split; auto. split; auto. split; auto.
    assert (Dr : h_dims r = set_nth k new (h_dims x)).
    { assert (NS : map d_name (set_nth k new (h_dims x)) = map d_name (h_dims x)).
      { rewrite map_set_nth, Nn. apply set_nth_self. now rewrite nth_error_map, Hk. }
      apply same_names_same; [now rewrite R3, NS|now rewrite NS|].
      intros q Hq. apply R4 in Hq. unfold z in Hq. cbn [h_dims] in Hq. apply (Permutation_in (l := zd)); auto. now apply set_nth_perm with d. }
    split; auto. split; [rewrite R5; exact Ty|]. intros e He. rewrite R6, <- T4.
    rewrite <- (A4 e); [|].
    + unfold val, z. cbn [h_dims h_nd]. now rewrite (coords_keys _ _ _ Kz).
    + rewrite Zd. intros q Hq. apply He. rewrite Dr. apply (Permutation_in (l := zd)); auto. now apply set_nth_perm with d.
  - exists x. unfold filter_var. rewrite (dims_index_none _ _ I). split; auto. split; auto. left. auto.
Qed.

Lemma filter_loop_sets : forall {A} (lab : A -> label) md new n ps l l' out b,
  Forall2 (fun p p' => fst p' = fst p /\ filter_var md new n ps (snd p) = Ok (snd p')) l l' ->
  sets lab l' out = Ok b -> filter_loop lab md new n ps l out = Ok b.
Proof.
  intros A lab md new n ps l l' out b H. revert out. induction H as [|[k x] [k' y] l l' [E S] F IH]; intros out HS; [exact HS|].
  cbn [fst snd] in *. subst k'. cbn [sets] in HS. destruct (b_set lab k y out) as [o1|] eqn:Eb; [|discriminate]. cbn [bind] in HS.
  cbn [filter_loop]. rewrite S. cbn [bind]. rewrite Eb. cbn [bind]. now apply IH.
Qed.

Lemma b_filter_ok : forall {A} (lab : A -> label) (mask : hf bool) md (b : block A) vs,
  wf mask -> h_dims mask = [md] -> usable md ->
  dd_items (b_var b) = Ok vs -> NoDup (map fst vs) -> plain_names (map fst vs) (dim_names vs) ->
  Forall (fun p => var_ok (d_name md) md (snd p)) vs ->
  exists b' vs' new ps, b_filter lab mask b = Ok b' /\ b_x b' = b_x b /\ dd_items (b_var b') = Ok vs' /\ map fst vs' = map fst vs /\
    (forall p, In p ps <-> nth_error (nd_elems (h_nd mask)) p = Some true) /\
    (forall i j, i < j -> j < length ps -> nth i ps 0 < nth j ps 0) /\
    relabelled md ps new /\
    (In (d_name md) (dim_names vs) -> dd_get (d_name md) (b_ivar b') = Ok new) /\
    Forall2 (fun p p' => rearranged (d_name md) new ps (snd p) (snd p')) vs vs'.
Proof.
  intros A lab mask md b vs Wm Dm Us Hvs NDv PN FV. pose proof Wm as [Wm1 [Wm2 _]].
  assert (Sm : h_shape mask = [length (d_data md)]) by (unfold labels_match in Wm2; rewrite <- Wm2, Dm; reflexivity).
  assert (Lm : length (nd_elems (h_nd mask)) = length (d_data md)).
  { unfold nd_wf in Wm1. unfold h_shape in Sm. rewrite Sm in Wm1. cbn in Wm1. lia. }
  set (m := nd_elems (h_nd mask)) in *. set (ps := true_positions m).
  assert (PS : forall p, In p ps <-> nth_error m p = Some true) by (apply true_positions_spec).
  assert (HO : forall p, In p ps -> p < length (d_data md)).
  { intros p Hp. apply PS in Hp. rewrite <- Lm. apply nth_error_Some. congruence. }
  destruct (select_ok (d_data md) ps HO) as [SL SN].
  assert (Hf : exists f, outputformat md = Ok f).
  { unfold outputformat. destruct Us as [Us|Us]; destruct (d_fmt md) eqn:Ef; eauto; try congruence.
    destruct (d_data md) as [|[]]; eauto; congruence. }
  destruct Hf as [f Hf].
  set (new := mkDim (d_class md) (d_name md) (select (d_data md) ps) (d_unit md) (Some f)).
  destruct (Forall2_exists (fun p p' => fst p' = fst p /\ filter_var md new (length (d_data md)) ps (snd p) = Ok (snd p') /\
      map d_name (h_dims (snd p')) = map d_name (h_dims (snd p)) /\
      rearranged (d_name md) new ps (snd p) (snd p')) vs) as [l HL].
  { intros [k x] Hin. rewrite Forall_forall in FV. destruct (filter_var_ok x md new ps (FV _ Hin) HO eq_refl SL) as [y Y].
    exists (k, y). cbn [fst snd]. auto. }
  assert (N1 : map fst l = map fst vs). { clear - HL. induction HL as [|? ? ? ? H]; simpl; auto. destruct H. congruence. }
  assert (N2 : dim_names l = dim_names vs).
  { clear - HL. unfold dim_names. induction HL as [|? ? ? ? H]; simpl; auto. destruct H as [_ [_ [H _]]]. now rewrite H, IHHL. }
  destruct (sets_ok lab l dd_empty (b_x b)) as [o [S1 [S2 [S3 [S4 S5]]]]].
  { apply empty_Inv. } { now rewrite N1. } { rewrite N1, N2. cbn [dd_order dd_empty]. now rewrite app_nil_r. }
  assert (SO : filter_loop lab md new (length (d_data md)) ps vs (mkBlock dd_empty dd_empty (b_x b)) = Ok o).
  { apply filter_loop_sets with l; auto. eapply Forall2_impl'; [|exact HL]. simpl. tauto. }
  exists (mkBlock (b_var o) (b_ivar o) (b_x b)), l, new, ps.
  split.
  { unfold b_filter. rewrite Sm. assert (1 <? length (filter (fun n => negb (Nat.eqb n 1)) [length (d_data md)]) = false) as ->.
    { simpl. destruct (negb _); reflexivity. }
    rewrite Dm. cbn [length Nat.eqb negb]. fold m. rewrite Lm, Nat.eqb_refl. cbn [negb]. unfold dim_with. rewrite Hf. cbn [bind]. fold ps. fold new.
    rewrite Hvs. cbn [bind]. rewrite SO. reflexivity. }
  split; auto. split; [cbn [b_var]; rewrite items_abs by auto; now rewrite S4|]. split; auto. split; auto.
  split; [intros; now apply true_positions_sorted|].
  split. { split; [reflexivity|]. split; [reflexivity|]. split; [exact SL|]. exact SN. }
  split.
  2:{ clear - HL. induction HL as [|p p' l l' H]; constructor; auto. apply H. }
  intros Hin. cbn [b_ivar]. rewrite S5.
  rewrite <- N2 in Hin.
  assert (U : forall p d, In p l -> In d (h_dims (snd p)) -> d_name d = d_name md -> d = new).
  { intros p' d Hp Hd E. assert (exists p : string * hf A, rearranged (d_name md) new ps (snd p) (snd p') /\ NoDup (map d_name (h_dims (snd p)))) as [p [Q NDp]].
    { clear - HL Hp FV. induction HL as [|q q' l l' H F IH]; [destruct Hp|]. inversion FV; subst. destruct Hp as [->|Hp]; auto. exists q. split; [apply H|]. apply H2. }
    destruct Q as [[N Y]|[k [d0 [Q1 [Q2 [Q3 [Q4 _]]]]]]].
    - exfalso. apply N. rewrite <- Y, <- E. now apply in_map.
    - rewrite Q4 in Hd. apply In_nth_error in Hd as [j Hj].
      pose proof (set_nth_same_get _ _ new _ Q1) as G.
      assert (j = k).
      { assert (ND' : NoDup (map d_name (set_nth k new (h_dims (snd p))))).
        { rewrite map_set_nth. change (d_name new) with (d_name md). rewrite <- Q2, set_nth_self; auto. now rewrite nth_error_map, Q1. }
        apply (names_only _ k ND' j new d G Hj). rewrite E. reflexivity. }
      subst j. congruence. }
  unfold dd_get.
  assert (G : forall l iv, (forall p d, In p l -> In d (h_dims (snd p)) -> d_name d = d_name md -> d = new) ->
      (pd_get (d_name md) (dd_map iv) = Some new \/ (pd_get (d_name md) (dd_map iv) = None /\ In (d_name md) (dim_names l))) ->
      pd_get (d_name md) (dd_map (ivars_of (A := A) l iv)) = Some new).
  { clear. induction l as [|p l IH]; intros iv U H.
    - destruct H as [H|[_ []]]. exact H.
    - unfold ivars_of. simpl. apply IH; [intros; eapply U; eauto; now right|].
      assert (GA : forall ds iv, (forall d, In d ds -> d_name d = d_name md -> d = new) ->
        (pd_get (d_name md) (dd_map iv) = Some new -> pd_get (d_name md) (dd_map (add_ivars ds iv)) = Some new) /\
        (pd_get (d_name md) (dd_map iv) = None -> In (d_name md) (map d_name ds) -> pd_get (d_name md) (dd_map (add_ivars ds iv)) = Some new)).
      { intros ds iv0 Ud. split; [apply add_ivars_old|]. intros Hn Hd.
        destruct (in_dec string_dec (d_name md) (map d_name ds)) as [I|]; [|tauto].
        clear Hd. revert iv0 Hn. induction ds as [|d ds IHd]; [destruct I|]. intros iv0 Hn. unfold add_ivars. cbn [fold_left].
        fold (add_ivars ds (if dd_contains (d_name d) iv0 then iv0 else dd_set (d_name d) d iv0)).
        destruct (string_dec (d_name d) (d_name md)) as [E|E].
        - assert (dd_contains (d_name d) iv0 = false) as -> by (unfold dd_contains, pd_has; now rewrite E, Hn).
          apply add_ivars_old. rewrite get_set. rewrite E, String.eqb_refl. f_equal. apply Ud; [now left|auto].
        - apply IHd; [intros; apply Ud; [now right|auto]| |].
          + destruct I; [congruence|auto].
          + destruct (dd_contains (d_name d) iv0); auto. rewrite get_set. destruct (String.eqb_spec (d_name md) (d_name d)); congruence. }
      destruct (GA (h_dims (snd p)) iv) as [G1 G2]; [intros; eapply U; eauto; now left|].
      destruct H as [H|[H1 H2]]; [left; auto|].
      destruct (in_dec string_dec (d_name md) (map d_name (h_dims (snd p)))) as [I|I]; [left; auto|].
      right. split; [now apply add_ivars_none|]. unfold dim_names in H2. simpl in H2. apply in_app_or in H2 as [H2|H2]; tauto. }
  rewrite G; auto.
Qed.
