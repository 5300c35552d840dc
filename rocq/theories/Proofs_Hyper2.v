(** hyper on variables and blocks. *)
From Coq Require Import Ascii String List Arith ZArith Bool Lia Permutation Sorted.
From Verif Require Import Model_NdArray Proofs_NdArray Model_Dim Proofs_Dim Model_Array Spec_Array Proofs_Array Proofs_Array2 Proofs_Array3
  Proofs_Array4 Proofs_Array5 Proofs_Array8 Model_DataDict Spec_DataDict Proofs_DataDict Model_Text Model_Block Spec_Block Proofs_Block Proofs_Block2 Proofs_Block3
  Model_Utils Proofs_Utils Model_Hyper Spec_Hyper Proofs_Hyper.
Import ListNotations.
Local Open Scope nat_scope.
Local Open Scope list_scope.

Lemma F2_length : forall {X Y} (R : X -> Y -> Prop) a b, Forall2 R a b -> length a = length b.
Proof. induction 1; cbn; auto. Qed.
Lemma nth_app_mid : forall {X} (l1 : list X) x l2, nth_error (l1 ++ x :: l2) (length l1) = Some x.
Proof. induction l1; cbn; auto. Qed.
Lemma set_nth_mid : forall {X} (l1 : list X) x y l2, set_nth (length l1) y (l1 ++ x :: l2) = l1 ++ y :: l2.
Proof. induction l1; cbn; intros; auto. now rewrite IHl1. Qed.
Lemma firstn_mid : forall {X} (l1 l2 : list X), firstn (length l1) (l1 ++ l2) = l1.
Proof. intros. rewrite firstn_app, firstn_all, Nat.sub_diag. cbn. apply app_nil_r. Qed.
Lemma skipn_mid : forall {X} (l1 : list X) x l2, skipn (S (length l1)) (l1 ++ x :: l2) = l2.
Proof. induction l1; cbn; auto. Qed.

(** The combination at given coordinates. *)
Lemma combo_at : forall Us jx, inb (map (@length label) Us) jx = true ->
  exists t, length t = length Us /\ Forall2 (fun j Uu => nth_error (fst Uu) j = Some (snd Uu)) jx (combine Us t) /\ Forall2 (fun u U => In u U) t Us.
Proof.
  induction Us as [|U Us IH]; intros [|j jx] H; try discriminate; [exists []; repeat constructor|].
  cbn in H. apply andb_prop in H as [H1 H2]. apply Nat.ltb_lt in H1. destruct (IH jx H2) as [t [L [F1 F2]]].
  destruct (nth_error U j) as [u|] eqn:E; [|apply nth_error_None in E; lia]. exists (u :: t). cbn. split; [congruence|]. split; constructor; auto.
  eapply nth_error_In; eauto.
Qed.

Lemma hyper_var_ok : forall {A} (x : hf A) ltb rd n cols Us news order ds1 d ds2,
  complete n cols -> Forall2 (values_ascending ltb) cols Us -> length (d_data rd) = n ->
  map (fun d => length (d_data d)) news = map (@length label) Us ->
  Permutation order (seq 0 n) -> n = prodn (map (@length label) Us) ->
  (forall jx t p, Forall2 (fun j Uu => nth_error (fst Uu) j = Some (snd Uu)) jx (combine Us t) -> row_at cols p t ->
     nth_error order (ravel (map (@length label) Us) jx) = Some p) ->
  wf x -> NoDup (map d_name (h_dims x)) -> h_dims x = ds1 ++ d :: ds2 -> key d = key rd -> length (d_data d) = n ->
  exists y, hyper_var news order rd x = Ok y /\ spread rd news Us cols x y.
Proof.
  intros A x ltb rd n cols Us news order ds1 d ds2 CM VA LR LN PO HN OR W ND HD K LD.
  assert (Hk : nth_error (h_dims x) (length ds1) = Some d) by (rewrite HD; apply nth_app_mid).
  assert (LO : length order = n) by (rewrite (Permutation_length PO); apply seq_length).
  assert (IO : forall p, In p order -> p < n) by (intros p I; apply (Permutation_in _ PO), in_seq in I; lia).
  destruct (take_ok x (map Z.of_nat order) (AxInt (Z.of_nat (length ds1))) (length ds1) d order) as [y [d' [T1 [T2 [T3 [T4 [T5 [T6 T7]]]]]]]]; auto.
  { constructor. apply nth_error_Some. congruence. } { now apply names_only. }
  { rewrite LD. clear - IO. induction order; simpl; constructor; auto; [|apply IHorder; intros; apply IO; now right]. split; [apply IO; now left|auto]. }
  unfold hyper_var. assert (Nd : d_name rd = d_name d) by (unfold key in K; congruence).
  rewrite Nd, (dims_index_nth (h_dims x) (length ds1) d ND Hk). cbn [bind]. rewrite T1. cbn [bind].
  rewrite HD, set_nth_mid in T5. set (s1 := map (fun d => length (d_data d)) ds1). set (s2 := map (fun d => length (d_data d)) ds2).
  destruct T2 as [W1 [W2 W3]]. assert (LD' : length (d_data d') = n) by (rewrite T4, !map_length; exact LO).
  assert (SY : h_shape y = s1 ++ n :: s2).
  { unfold labels_match in W2. rewrite <- W2, T5, map_app. cbn [map]. now rewrite LD'. }
  assert (L1 : length s1 = length ds1) by apply map_length.
  assert (FS : firstn (length ds1) (s1 ++ n :: s2) = s1) by (rewrite <- L1; apply firstn_mid).
  assert (SS : skipn (S (length ds1)) (s1 ++ n :: s2) = s2) by (rewrite <- L1; apply skipn_mid).
  rewrite SY, FS, SS. rewrite T5, firstn_mid, skipn_mid. rewrite LN.
  set (shn := map (@length label) Us) in *.
  unfold nd_reshape. fold (h_shape y). rewrite SY, !prodn_app. cbn [prodn fold_right]. fold (prodn s2); fold (prodn shn); fold (prodn s1).
  rewrite <- HN, Nat.eqb_refl. cbn [bind]. unfold new_raw. cbn [bind nd_shape].
  assert (LL : length (ds1 ++ news ++ ds2) = length (s1 ++ shn ++ s2)).
  { rewrite !app_length, L1. unfold s2. rewrite <- LN, !map_length. reflexivity. }
  rewrite LL, Nat.eqb_refl. eexists. split; [reflexivity|].
  exists ds1, d, ds2. split; auto. split; auto. cbn [h_dims]. split; auto.
  assert (PE : prodn (s1 ++ shn ++ s2) = prodn (s1 ++ n :: s2)).
  { rewrite !prodn_app. cbn [prodn fold_right]. fold (prodn s2); fold (prodn shn); fold (prodn s1). now rewrite <- HN. }
  split. { unfold nd_wf. cbn [h_nd nd_shape nd_elems]. rewrite PE, <- SY. exact W1. }
  split. { unfold labels_match, h_shape. cbn [h_nd nd_shape h_dims]. rewrite !map_app, LN. reflexivity. }
  split; [exact T6|]. intros e V.
  assert (V1 : valid e ds1) by (intros a I; apply V; apply in_or_app; auto).
  assert (V2 : valid e news) by (intros a I; apply V; apply in_or_app; right; apply in_or_app; auto).
  assert (V3 : valid e ds2) by (intros a I; apply V; apply in_or_app; right; apply in_or_app; auto).
  pose proof (inb_valid e ds1 V1) as I1. pose proof (inb_valid e news V2) as I2. pose proof (inb_valid e ds2 V3) as I3.
  fold s1 in I1. fold s2 in I3. rewrite LN in I2.
  destruct (combo_at Us (coords e news) I2) as [t [Lt [F1 F2]]].
  assert (F3 : Forall2 (fun u c => In u c) t cols).
  { clear - F2 VA. revert t F2. induction VA as [|c U cols Us [_ E] VA IH]; intros t F; inversion F; subst; constructor; [now apply E|auto]. }
  destruct CM as [CM1 CM2]. destruct (CM2 t F3) as [p [Lp [Rp _]]]. exists p. split; [|split; [lia|]].
  - intros m a U c E1 E2 E3. assert (X : exists u, nth_error t m = Some u /\ nth_error c p = Some u).
    { clear - Rp E3. revert m E3. induction Rp as [|u c0 t cols E R IH]; intros [|m] E3; try discriminate; [injection E3 as <-; exists u; auto|]. cbn. eauto. }
    destruct X as [u [X1 X2]]. exists u. split; auto. clear - F1 E1 E2 X1 Lt. revert news t m F1 E1 E2 X1 Lt.
    induction Us as [|U0 Us IH]; intros [|a0 news] [|u0 t] [|m] F1 E1 E2 X1 Lt; try discriminate; cbn [combine coords map] in F1; inversion F1; subst.
    + injection E1 as ->. injection E2 as ->. injection X1 as ->. exact H2.
    + eapply (IH news t m); eauto.
  - pose proof (OR _ _ _ F1 Rp) as OP. set (r := ravel shn (coords e news)) in *.
    assert (Lr : r < n) by (rewrite <- LO; apply nth_error_Some; congruence).
    assert (KN : NoDup (map key (h_dims x))) by apply W.
    assert (U1 : coords (upd e (key d) r) (ds1 ++ d' :: ds2) = coords e ds1 ++ r :: coords e ds2).
    { rewrite coords_app. rewrite HD, map_app in KN. cbn [map] in KN. apply NoDup_remove_2 in KN. rewrite in_app_iff in KN.
      f_equal; [|cbn [coords map]; rewrite T3, upd_same; f_equal]; apply coords_ext; intros a I; apply upd_other; intros Q; apply KN; [left|right];
        rewrite <- Q; now apply in_map. }
    assert (VY : valid (upd e (key d) r) (h_dims y)).
    { rewrite T5. intros a I. apply in_app_or in I as [I|[<-|I]].
      - rewrite HD, map_app in KN. cbn [map] in KN. apply NoDup_remove_2 in KN. rewrite in_app_iff in KN.
        rewrite upd_other; [now apply V1|]. intros Q. apply KN. left. rewrite <- Q. now apply in_map.
      - rewrite T3, upd_same. lia.
      - rewrite HD, map_app in KN. cbn [map] in KN. apply NoDup_remove_2 in KN. rewrite in_app_iff in KN.
        rewrite upd_other; [now apply V3|]. intros Q. apply KN. right. rewrite <- Q. now apply in_map. }
    transitivity (val y (upd e (key d) r)).
    + unfold val. cbn [h_nd h_dims]. rewrite T5, U1. unfold nd_get. cbn [nd_shape nd_elems]. fold (h_shape y). rewrite SY.
      rewrite !coords_app. rewrite !inb_app by (rewrite ?(inb_length _ _ I1), ?(inb_length _ _ I2); auto). cbn [inb].
      rewrite I1, I2, I3. rewrite (proj2 (Nat.ltb_lt r n) Lr). cbn [andb]. f_equal.
      rewrite !ravel_app by (rewrite ?(inb_length _ _ I1), ?(inb_length _ _ I2); auto). cbn [ravel]. fold r.
      rewrite prodn_app. cbn [prodn fold_right]. fold (prodn s2); fold (prodn shn); fold (prodn s1). rewrite <- HN. lia.
    + rewrite (T7 _ VY). rewrite upd_same. rewrite (nth_error_nth _ _ 0 OP).
      unfold val. f_equal. apply coords_ext. intros a _. unfold upd. destruct (_ && _)%bool; auto.
Qed.

(** ** The block *)
Lemma converted_impl : forall {A} all news rd (P Q : hf A -> hf A -> Prop) l l', (forall x y, P x y -> Q x y) -> converted all news rd P l l' -> converted all news rd Q l l'.
Proof. intros A all news rd P Q l l' H C. induction C; [apply conv_nil|apply conv_keep|apply conv_drop|apply conv_key|apply conv_spread]; auto. Qed.
Lemma b_set_plain : forall {A} (lab : A -> label) k v (b : block A), is_element_of k v b = None -> pd_get k (dd_map (b_ivar b)) = None ->
  b_set lab k v b = Ok (mkBlock (dd_set k v (b_var b)) (add_ivars (h_dims v) (b_ivar b)) (next_x (b_x b) (h_dims v))).
Proof.
  intros A lab k v b Ee Ck. unfold b_set. change (match is_matrix_name k with
          | Some (m, e) => if dd_contains m (b_var b) && negb (ismatrix v) then Some (m, e) else None
          | None => None end) with (is_element_of k v b). rewrite Ee, Ck. reflexivity.
Qed.
Lemma contains_false : forall {V} k (d : ddict V), dd_contains k d = false -> pd_get k (dd_map d) = None.
Proof. intros V k d. unfold dd_contains, pd_has. destruct (pd_get k (dd_map d)); congruence. Qed.

Section Block.
  Context {A : Type} (lab : A -> label) (all : bool) (rd : dim) (newnames : list string) (news : list dim) (order : list nat).
  Lemma has_rd : forall (x : hf A), var_ok (d_name rd) rd x -> dims_contains (h_dims x) rd = true <-> In (d_name rd) (map d_name (h_dims x)).
  Proof.
    intros x [_ [_ H]]. unfold dims_contains. rewrite existsb_exists. split.
    - intros [d [I E]]. unfold matches in E. apply andb_prop in E as [E _]. apply String.eqb_eq in E. rewrite <- E. now apply in_map.
    - intros I. apply in_map_iff in I as [d [E I]]. exists d. split; auto. unfold matches. rewrite E, String.eqb_refl.
      destruct (H d I E) as [K _]. unfold key in K. injection K as K1 K2. rewrite K1. apply subclass_refl.
  Qed.
  Lemma hyper_loop_ok : forall l l', converted all newnames rd (fun x y => hyper_var news order rd x = Ok y) l l' ->
    Forall (fun p => var_ok (d_name rd) rd (snd p)) l ->
    forall (out : block A) names, Inv (b_var out) -> Inv (b_ivar out) -> map fst (dabs (b_var out)) ++ map fst l' = names -> NoDup names ->
      (forall k, In k (map fst l') -> ~ In k (dim_names l')) -> (forall k, In k (map fst l') -> dd_contains k (b_ivar out) = false) ->
      (forall k, In k newnames -> dd_contains k (b_ivar out) = true) ->
      (forall k m e, In k names -> is_matrix_name k = Some (m, e) -> ~ In m names) ->
      exists b', hyper_loop lab all news order rd l out = Ok b' /\ Inv (b_var b') /\ Inv (b_ivar b') /\ dabs (b_var b') = dabs (b_var out) ++ l' /\
        b_ivar b' = ivars_of l' (b_ivar out).
  Proof.
    intros l l' C. 
    assert (STEP : forall k v (l l' : list (string * hf A)) (out : block A) names, 
      (forall (out : block A) names, Inv (b_var out) -> Inv (b_ivar out) -> map fst (dabs (b_var out)) ++ map fst l' = names -> NoDup names ->
      (forall k, In k (map fst l') -> ~ In k (dim_names l')) -> (forall k, In k (map fst l') -> dd_contains k (b_ivar out) = false) ->
      (forall k, In k newnames -> dd_contains k (b_ivar out) = true) ->
      (forall k m e, In k names -> is_matrix_name k = Some (m, e) -> ~ In m names) ->
      exists b', hyper_loop lab all news order rd l out = Ok b' /\ Inv (b_var b') /\ Inv (b_ivar b') /\ dabs (b_var b') = dabs (b_var out) ++ l' /\
        b_ivar b' = ivars_of l' (b_ivar out)) ->
      Inv (b_var out) -> Inv (b_ivar out) -> map fst (dabs (b_var out)) ++ map fst ((k, v) :: l') = names -> NoDup names ->
      (forall j, In j (map fst ((k, v) :: l')) -> ~ In j (dim_names ((k, v) :: l'))) -> (forall j, In j (map fst ((k, v) :: l')) -> dd_contains j (b_ivar out) = false) ->
      (forall k, In k newnames -> dd_contains k (b_ivar out) = true) ->
      (forall k m e, In k names -> is_matrix_name k = Some (m, e) -> ~ In m names) ->
      exists b', (do out' <- b_set lab k v out; hyper_loop lab all news order rd l out') = Ok b' /\ Inv (b_var b') /\ Inv (b_ivar b') /\ dabs (b_var b') = dabs (b_var out) ++ (k, v) :: l' /\
        b_ivar b' = ivars_of ((k, v) :: l') (b_ivar out)).
    { clear. intros k v l l' out names IH HV HI HN ND HD HC HS HE.
      assert (Ck : pd_get k (dd_map (b_ivar out)) = None) by (apply contains_false, HC; now left).
      assert (Ee : is_element_of k v out = None).
      { unfold is_element_of. destruct (is_matrix_name k) as [[m e]|] eqn:E; auto.
        destruct (dd_contains m (b_var out)) eqn:C; auto. exfalso. apply contains_abs in C; auto.
        apply (HE k m e); auto; rewrite <- HN; apply in_or_app; [right; now left|now left]. }
      rewrite (b_set_plain lab k v out Ee Ck). cbn [bind]. set (b1 := mkBlock _ _ _).
      assert (Nk : ~ In k (map fst (dabs (b_var out)))).
      { rewrite <- HN in ND. simpl in ND. apply NoDup_remove_2 in ND. rewrite in_app_iff in ND. tauto. }
      assert (A1 : dabs (b_var b1) = dabs (b_var out) ++ [(k, v)]) by (now apply abs_set_new).
      destruct (IH b1 names) as [b' [S1 [S2 [S3 [S4 S5]]]]].
      + now apply set_Inv.
      + now apply add_ivars_Inv.
      + rewrite A1, map_app, <- app_assoc. exact HN.
      + auto.
      + intros k0 H0 H1. apply (HD k0); [now right|]. unfold dim_names. simpl. apply in_or_app. now right.
      + intros k0 H0. unfold b1. cbn [b_ivar]. assert (C0 := HC k0 (or_intror H0)). apply contains_false in C0.
        unfold dd_contains, pd_has. rewrite add_ivars_none; auto.
        intros H1. apply (HD k0); [now right|]. unfold dim_names. simpl. apply in_or_app. now left.
      + intros k0 H0. specialize (HS k0 H0). apply contains_get in HS as [w HS]. apply contains_get. exists w. unfold b1. cbn [b_ivar]. now apply add_ivars_old.
      + auto.
      + exists b'. split; auto. split; auto. split; auto. split; [|exact S5]. rewrite S4, A1, <- app_assoc. reflexivity. }
    induction C as [|k x l l' N1 N2 C IH|k x l l' N1 N2 C IH|k x l l' N1 N2 C IH|k x y l l' N1 N2 N3 C IH]; intros FV out names HV HI HN ND HD HC HS HE.
    - exists out. cbn. rewrite app_nil_r. auto.
    - pose proof (Forall_inv FV) as V; pose proof (Forall_inv_tail FV) as FV'; cbn [snd] in V. cbn [hyper_loop]. assert (dims_contains (h_dims x) rd = false) as ->.
      { destruct (dims_contains (h_dims x) rd) eqn:Q; auto. apply has_rd in Q; auto. contradiction. }
      cbn [negb]. replace (if all then b_set lab k x out else Ok out) with (b_set lab k x out) by (now rewrite N2). eapply STEP; eauto.
    - pose proof (Forall_inv FV) as V; pose proof (Forall_inv_tail FV) as FV'; cbn [snd] in V. cbn [hyper_loop]. assert (dims_contains (h_dims x) rd = false) as ->.
      { destruct (dims_contains (h_dims x) rd) eqn:Q; auto. apply has_rd in Q; auto. contradiction. }
      cbn [negb bind]. replace (if all then b_set lab k x out else Ok out) with (Ok out) by (now rewrite N2). cbn [bind]. eauto.
    - pose proof (Forall_inv FV) as V; pose proof (Forall_inv_tail FV) as FV'; cbn [snd] in V. cbn [hyper_loop]. apply has_rd in N1; auto. rewrite N1. cbn [negb]. rewrite (HS k N2). cbn [bind]. eauto.
    - pose proof (Forall_inv FV) as V; pose proof (Forall_inv_tail FV) as FV'; cbn [snd] in V. cbn [hyper_loop]. apply has_rd in N1; auto. rewrite N1. cbn [negb]. rewrite (HC k (or_introl eq_refl)).
      rewrite N3. cbn [bind]. eapply STEP; eauto.
  Qed.
  Lemma hyper_rest_ok : forall ivs (out : block A), b_var (hyper_rest rd ivs out) = b_var out /\
    forall k d, pd_get k (dd_map (b_ivar out)) = Some d -> pd_get k (dd_map (b_ivar (hyper_rest rd ivs out))) = Some d.
  Proof.
    induction ivs as [|[k d] ivs IH]; intros out; cbn [hyper_rest]; auto. destruct (IH (if negb (b_contains k out) && negb (k =? d_name rd)%string then b_set_dim k d out else out)) as [E1 E2].
    split; [rewrite E1; now destruct (_ && _)|]. intros j w H. apply E2. destruct (b_contains k out) eqn:C; [exact H|]. cbn [negb andb].
    destruct (negb (k =? d_name rd)%string); [|exact H]. unfold b_set_dim. cbn [b_ivar]. rewrite get_set. destruct (String.eqb_spec j k); auto. subst j. unfold b_contains in C.
    unfold dd_contains, pd_has in C. rewrite H in C. rewrite orb_true_r in C. discriminate.
  Qed.
End Block.

Lemma converted_exists : forall {A} all news rd (P : hf A -> hf A -> Prop) l,
  (forall k x, In (k, x) l -> In (d_name rd) (map d_name (h_dims x)) -> exists y, P x y) -> exists l', converted all news rd P l l'.
Proof.
  intros A all news rd P l. induction l as [|[k x] l IH]; intros H; [exists []; constructor|].
  destruct IH as [l' C]; [intros; eapply H; [right|]; eauto|].
  destruct (in_dec string_dec (d_name rd) (map d_name (h_dims x))) as [I|I].
  - destruct (in_dec string_dec k news) as [J|J]; [exists l'; now apply conv_key|].
    destruct (H k x (or_introl eq_refl) I) as [y Hy]. exists ((k, y) :: l'). now apply conv_spread.
  - destruct all eqn:E; [exists ((k, x) :: l'); now apply conv_keep|exists l'; now apply conv_drop].
Qed.
Lemma converted_in : forall {A} all news rd (P : hf A -> hf A -> Prop) l l' k y, converted all news rd P l l' -> In (k, y) l' ->
  exists x, In (k, x) l /\ ((~ In (d_name rd) (map d_name (h_dims x)) /\ y = x) \/ (~ In k news /\ P x y)).
Proof.
  intros A all news rd P l l' k y C. induction C as [|k0 x l l' N1 N2 C IH|k0 x l l' N1 N2 C IH|k0 x l l' N1 N2 C IH|k0 x y0 l l' N1 N2 N3 C IH]; intros I.
  - destruct I.
  - destruct I as [E|I]; [injection E as <- <-; exists x; split; [now left|auto]|]. destruct (IH I) as [z [? ?]]. exists z. split; auto. now right.
  - destruct (IH I) as [z [? ?]]. exists z. split; auto. now right.
  - destruct (IH I) as [z [? ?]]. exists z. split; auto. now right.
  - destruct I as [E|I]; [injection E as <- <-; exists x; split; [now left|auto]|]. destruct (IH I) as [z [? ?]]. exists z. split; auto. now right.
Qed.
Lemma converted_nodup : forall {A} all news rd (P : hf A -> hf A -> Prop) l l', converted all news rd P l l' -> NoDup (map fst l) -> NoDup (map fst l').
Proof.
  intros A all news rd P l l' C. assert (S : forall k, In k (map fst l') -> In k (map fst l)).
  { intros k I. apply in_map_iff in I as [[k' y] [<- I]]. destruct (converted_in _ _ _ _ _ _ _ _ C I) as [x [I' _]]. change (fst (k', y)) with (fst (k', x)). now apply in_map. }
  revert S. induction C as [|k0 x l l' N1 N2 C IH|k0 x l l' N1 N2 C IH|k0 x l l' N1 N2 C IH|k0 x y0 l l' N1 N2 N3 C IH]; intros S ND; cbn [map fst] in *; auto.
  - inversion ND; subst. assert (S' : forall k, In k (map fst l') -> In k (map fst l)).
    { intros k I. apply in_map_iff in I as [[k' y] [<- I]]. destruct (converted_in _ _ _ _ _ _ _ _ C I) as [z [I' _]]. change (fst (k', y)) with (fst (k', z)). now apply in_map. }
    constructor; auto.
  - inversion ND; subst. apply IH; auto. intros k I. apply in_map_iff in I as [[k' y] [<- I]]. destruct (converted_in _ _ _ _ _ _ _ _ C I) as [z [I' _]]. change (fst (k', y)) with (fst (k', z)). now apply in_map.
  - inversion ND; subst. apply IH; auto. intros k I. apply in_map_iff in I as [[k' y] [<- I]]. destruct (converted_in _ _ _ _ _ _ _ _ C I) as [z [I' _]]. change (fst (k', y)) with (fst (k', z)). now apply in_map.
  - inversion ND; subst. assert (S' : forall k, In k (map fst l') -> In k (map fst l)).
    { intros k I. apply in_map_iff in I as [[k' y] [<- I]]. destruct (converted_in _ _ _ _ _ _ _ _ C I) as [z [I' _]]. change (fst (k', y)) with (fst (k', z)). now apply in_map. }
    constructor; auto.
Qed.
Lemma items_get : forall {V} (d : ddict V) l k v, dd_items d = Ok l -> In (k, v) l -> pd_get k (dd_map d) = Some v.
Proof.
  intros V d l k v. unfold dd_items. generalize (dd_iter d). intros it. revert l. induction it as [|j it IH]; intros l E I; cbn [mapM] in E.
  - injection E as <-. destruct I.
  - destruct (dd_get j d) as [w|] eqn:G; [|discriminate]. cbn [bind] in E. destruct (mapM _ it) as [r|] eqn:M; [|discriminate]. cbn [bind] in E. injection E as <-.
    destruct I as [E|I]; [|eauto]. injection E as -> ->. unfold dd_get in G. destruct (pd_get k (dd_map d)); cbn in G; congruence.
Qed.
Lemma fold_set_Inv : forall ds iv, Inv iv -> Inv (fold_left (fun iv d => dd_set (d_name d) d iv) ds iv).
Proof. induction ds as [|d ds IH]; cbn; auto. intros. apply IH. now apply set_Inv. Qed.
Lemma fold_set_get : forall ds iv k, pd_get k (dd_map (fold_left (fun iv d => dd_set (d_name d) d iv) ds iv)) =
  match find (fun d => String.eqb k (d_name d)) (rev ds) with Some d => Some d | None => pd_get k (dd_map iv) end.
Proof.
  induction ds as [|d ds IH]; intros iv k; cbn [fold_left rev]; auto. rewrite IH, get_set.
  assert (FA : forall (f : dim -> bool) l l', find f (l ++ l') = match find f l with Some x => Some x | None => find f l' end).
  { intros f. induction l as [|a l IHl]; cbn; auto. intros. destruct (f a); auto. }
  rewrite FA. destruct (find _ (rev ds)); auto. cbn. destruct (String.eqb k (d_name d)); auto.
Qed.
Lemma find_name : forall ds d, NoDup (map d_name ds) -> In d ds -> find (fun x => String.eqb (d_name d) (d_name x)) (rev ds) = Some d.
Proof.
  intros ds d ND I. assert (I' : In d (rev ds)) by (now apply -> in_rev). assert (ND' : NoDup (map d_name (rev ds))).
  { rewrite map_rev. apply (Permutation_NoDup (Permutation_rev (map d_name ds)) ND). }
  revert ND' I'. generalize (rev ds). induction l as [|a l IH]; intros ND' []; cbn.
  - subst a. now rewrite String.eqb_refl.
  - cbn in ND'. inversion ND'; subst. destruct (String.eqb_spec (d_name d) (d_name a)); auto. exfalso. apply H2. rewrite <- e. now apply in_map.
Qed.

(** The columns are read and their labels made. *)
Lemma hyper_dims_ok : forall {A} (lab : A -> label) indexed (b : block A) vs rd names cols,
  dd_items (b_var b) = Ok vs -> Forall (fun p => var_ok (d_name rd) rd (snd p)) vs ->
  (forall nm, In nm names -> dd_contains nm (b_ivar b) = false) ->
  Forall2 (fun nm c => exists x, In (nm, x) vs /\ map d_name (h_dims x) = [d_name rd] /\ c = map lab (nd_elems (h_nd x))) names cols ->
  exists news, mapM (hyper_dim lab indexed b) names = Ok (combine news cols) /\ length news = length cols /\
    map d_name news = map (hyper_name indexed) names /\ Forall (fun d => d_class d = CDimSweep) news /\ map d_data news = map (stable_uniq label_eqb) cols.
Proof.
  intros A lab indexed b vs rd names cols EI FV NI F. induction F as [|nm c names cols [x [I [D E]]] F IH]; [exists []; auto|].
  destruct IH as [news [M [L [N [CL DA]]]]]; [intros; apply NI; now right|].
  assert (G : b_get nm b = Ok (FVar x)).
  { unfold b_get. rewrite (contains_false _ _ (NI nm (or_introl eq_refl))), (items_get _ _ _ _ EI I). reflexivity. }
  rewrite Forall_forall in FV. specialize (FV _ I). cbn [snd] in FV. destruct FV as [[_ [LM _]] _].
  assert (SH : exists n, h_shape x = [n]).
  { unfold labels_match in LM. rewrite <- LM. destruct (h_dims x) as [|d0 [|]]; try discriminate. cbn. eauto. }
  destruct SH as [n SH]. eexists (mkDim CDimSweep (hyper_name indexed nm) (stable_uniq label_eqb c) (h_unit x) (Some (h_fmt x)) :: news).
  cbn [mapM]. unfold hyper_dim at 1. rewrite G. cbn [bind column]. rewrite SH. cbn [bind]. rewrite M. cbn [bind combine found_unit found_fmt]. rewrite <- E.
  cbn [length map d_name d_data]. split; [reflexivity|]. split; [congruence|]. split; [congruence|]. split; [constructor; auto|congruence].
Qed.
