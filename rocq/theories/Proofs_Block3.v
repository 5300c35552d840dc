(** Sequences of assignments; sort and filter. *)
From Coq Require Import Ascii String List Arith ZArith Bool Lia Permutation.
From Verif Require Import Model_NdArray Proofs_NdArray Model_Dim Model_Array Spec_Array Proofs_Array Proofs_Array2 Proofs_Array3
  Proofs_Array4 Proofs_Array5 Proofs_Array8
  Model_DataDict Spec_DataDict Proofs_DataDict Model_Text Model_Block Spec_Block Proofs_Block Proofs_Block2.
Import ListNotations.
Local Open Scope nat_scope.
Local Open Scope list_scope.

Definition ivars_of {A} (l : list (string * hf A)) (iv : ddict dim) : ddict dim :=
  fold_left (fun iv p => add_ivars (h_dims (snd p)) iv) l iv.

Lemma abs_set_new : forall {V} k v (d : ddict V), Inv d -> ~ In k (map fst (dabs d)) -> dabs (dd_set k v d) = dabs d ++ [(k, v)].
Proof. intros V k v d H N. rewrite set_abs by auto. rewrite store_set. now apply set_notin. Qed.
Lemma contains_abs : forall {V} k (d : ddict V), Inv d -> (dd_contains k d = true <-> In k (map fst (dabs d))).
Proof.
  intros V k d H. unfold dd_contains. rewrite pd_has_In. change (map fst (dabs d)) with (keys (dabs d)). rewrite keys_abs by auto.
  symmetry. apply H.
Qed.

Lemma sets_ok_gen : forall {A} (lab : A -> label) l (b : block A) names,
  Inv (b_var b) -> Inv (b_ivar b) ->
  map fst (dabs (b_var b)) ++ map fst l = names -> NoDup names ->
  (forall k, In k (map fst l) -> ~ In k (dim_names l)) -> (forall k, In k (map fst l) -> dd_contains k (b_ivar b) = false) ->
  (forall k m e, In k names -> is_matrix_name k = Some (m, e) -> ~ In m names) ->
  exists b', sets lab l b = Ok b' /\ Inv (b_var b') /\ Inv (b_ivar b') /\ dabs (b_var b') = dabs (b_var b) ++ l /\
    b_ivar b' = ivars_of l (b_ivar b).
Proof.
  induction l as [|[k v] l IH]; intros b names HV HI HN ND HD HC HE.
  - exists b. simpl. rewrite app_nil_r. auto.
  - cbn [sets].
    assert (Ck : pd_get k (dd_map (b_ivar b)) = None).
    { specialize (HC k (or_introl eq_refl)). unfold dd_contains, pd_has in HC. destruct (pd_get k (dd_map (b_ivar b))); congruence. }
    assert (Ee : is_element_of k v b = None).
    { unfold is_element_of. destruct (is_matrix_name k) as [[m e]|] eqn:E; auto.
      destruct (dd_contains m (b_var b)) eqn:C; auto. exfalso. apply contains_abs in C; auto.
      apply (HE k m e); auto; rewrite <- HN; apply in_or_app; [right; now left|now left]. }
    assert (Hs : b_set lab k v b = Ok (mkBlock (dd_set k v (b_var b)) (add_ivars (h_dims v) (b_ivar b)) (next_x (b_x b) (h_dims v)))).
    { unfold b_set. change (match is_matrix_name k with
          | Some (m, e) => if dd_contains m (b_var b) && negb (ismatrix v) then Some (m, e) else None
          | None => None end) with (is_element_of k v b). rewrite Ee, Ck. reflexivity. }
    rewrite Hs. cbn [bind]. set (b1 := mkBlock _ _ _).
    assert (Nk : ~ In k (map fst (dabs (b_var b)))).
    { rewrite <- HN in ND. simpl in ND. apply NoDup_remove_2 in ND. rewrite in_app_iff in ND. tauto. }
    assert (A1 : dabs (b_var b1) = dabs (b_var b) ++ [(k, v)]) by (now apply abs_set_new).
    destruct (IH b1 names) as [b' [S1 [S2 [S3 [S4 S5]]]]].
    + now apply set_Inv.
    + now apply add_ivars_Inv.
    + rewrite A1, map_app, <- app_assoc. exact HN.
    + auto.
    + intros k0 H0 H1. apply (HD k0); [now right|]. unfold dim_names. simpl. apply in_or_app. now right.
    + intros k0 H0. unfold b1. cbn [b_ivar]. assert (C0 := HC k0 (or_intror H0)).
      unfold dd_contains, pd_has in *. rewrite add_ivars_none; auto.
      * destruct (pd_get k0 (dd_map (b_ivar b))); congruence.
      * intros H1. apply (HD k0); [now right|]. unfold dim_names. simpl. apply in_or_app. now left.
    + auto.
    + exists b'. split; auto. split; auto. split; auto. split; [|exact S5]. rewrite S4, A1, <- app_assoc. reflexivity.
Qed.

Lemma sets_ok : forall {A} (lab : A -> label) l iv x0, Inv iv -> NoDup (map fst l) ->
  plain_names (map fst l) (dim_names l ++ dd_order iv) ->
  exists b', sets lab l (mkBlock dd_empty iv x0) = Ok b' /\ Inv (b_var b') /\ Inv (b_ivar b') /\ dabs (b_var b') = l /\
    b_ivar b' = ivars_of l iv.
Proof.
  intros A lab l iv x0 HI ND [P1 P2].
  destruct (sets_ok_gen lab l (mkBlock dd_empty iv x0) (map fst l)) as [b' [S1 [S2 [S3 [S4 S5]]]]]; auto.
  - apply empty_Inv.
  - intros k Hk H. apply (P1 k Hk). apply in_or_app. auto.
  - cbn [b_ivar]. intros k Hk. destruct (dd_contains k iv) eqn:C; auto. exfalso. apply (P1 k Hk). apply in_or_app. right.
    unfold dd_contains in C. apply pd_has_In in C. now apply HI.
  - exists b'. auto.
Qed.

Lemma ivars_of_old : forall {A} (l : list (string * hf A)) iv k d, pd_get k (dd_map iv) = Some d -> pd_get k (dd_map (ivars_of l iv)) = Some d.
Proof. unfold ivars_of. induction l as [|p l IH]; simpl; auto. intros. apply IH. now apply add_ivars_old. Qed.
Lemma ivars_of_in : forall {A} (l : list (string * hf A)) iv p d, In p l -> In d (h_dims (snd p)) -> dd_contains (d_name d) (ivars_of l iv) = true.
Proof.
  induction l as [|q l IH]; [intros ? ? ? []|]. intros iv p d [<-|H] Hd.
  - unfold ivars_of. simpl. fold (ivars_of l (add_ivars (h_dims (snd q)) iv)). pose proof (add_ivars_in _ iv _ Hd) as C.
    apply contains_get in C as [w C]. apply contains_get. exists w. now apply ivars_of_old.
  - unfold ivars_of. simpl. apply (IH _ p d H Hd).
Qed.
Lemma ivars_of_none : forall {A} (l : list (string * hf A)) iv k, pd_get k (dd_map iv) = None -> ~ In k (dim_names l) ->
  pd_get k (dd_map (ivars_of l iv)) = None.
Proof.
  unfold ivars_of. induction l as [|p l IH]; simpl; auto. intros iv k H N. unfold dim_names in N. simpl in N. rewrite in_app_iff in N.
  apply IH; [|tauto]. apply add_ivars_none; tauto.
Qed.

(** ** Positions by name *)
Lemma names_only : forall ds k, NoDup (map d_name ds) -> only_name ds k.
Proof.
  intros ds k ND j d d' H1 H2 E. apply (NoDup_nth_error (map d_name ds)); auto.
  - rewrite map_length. apply nth_error_Some. congruence.
  - rewrite !nth_error_map, H1, H2. simpl. congruence.
Qed.
Lemma dims_index_nth : forall ds k d, NoDup (map d_name ds) -> nth_error ds k = Some d -> dims_index ds (d_name d) = Ok k.
Proof.
  intros ds k d ND H. unfold dims_index. rewrite (find_index_first _ ds k d); auto; [apply String.eqb_refl|].
  intros j y Hj E. apply String.eqb_eq in E. exact (names_only ds k ND j d y H Hj E).
Qed.
Lemma dims_index_none : forall ds s, ~ In s (map d_name ds) -> dims_index ds s = Err IndexError.
Proof.
  intros ds s H. unfold dims_index. assert (find_index (fun d => String.eqb (d_name d) s) ds = None) as ->; auto.
  induction ds as [|d ds IH]; simpl in *; auto. destruct (String.eqb_spec (d_name d) s); [tauto|]. rewrite IH by tauto. auto.
Qed.
Lemma names_keys_NoDup : forall ds, NoDup (map d_name ds) -> NoDup (map key ds).
Proof.
  intros ds H. induction ds as [|d ds IH]; simpl in *; constructor; inversion H; subst; auto. intros Hk. apply H2.
  apply in_map_iff in Hk as [d' [E Hd]]. apply in_map_iff. exists d'. split; auto. unfold key in E. congruence.
Qed.
Lemma name_place : forall ds s, In s (map d_name ds) -> exists k d, nth_error ds k = Some d /\ d_name d = s.
Proof.
  intros ds s H. apply in_map_iff in H as [d [E H]]. apply In_nth_error in H as [k H]. eauto.
Qed.
Lemma replace_dim_list_set : forall ds k d old new, NoDup (map d_name ds) -> nth_error ds k = Some d -> d_name d = d_name old ->
  replace_dim_list ds old new = set_nth k new ds.
Proof.
  unfold replace_dim_list. induction ds as [|d0 ds IH]; intros [|k] d old new ND H E; simpl in *; try discriminate.
  - injection H as ->. rewrite E, String.eqb_refl. f_equal. inversion ND as [|? ? N1 N2]; subst.
    clear - N1 E. induction ds as [|d0 ds IH]; simpl in *; auto. destruct (String.eqb_spec (d_name old) (d_name d0)); [exfalso; apply N1; left; congruence|].
    f_equal. apply IH. tauto.
  - inversion ND as [|? ? N1 N2]; subst. destruct (String.eqb_spec (d_name old) (d_name d0)).
    + exfalso. apply N1. rewrite <- e, <- E. apply in_map. eapply nth_error_In; eauto.
    + f_equal. eapply IH; eauto.
Qed.
Lemma replace_dim_list_none : forall ds old new, ~ In (d_name old) (map d_name ds) -> replace_dim_list ds old new = ds.
Proof.
  unfold replace_dim_list. induction ds as [|d0 ds IH]; simpl; auto. intros old new H.
  destruct (String.eqb_spec (d_name old) (d_name d0)); [exfalso; apply H; left; congruence|]. f_equal. apply IH. tauto.
Qed.

(** ** sort *)
Lemma sort_loop_sets : forall {A} (lab : A -> label) name order l l' out b,
  Forall2 (fun p p' => fst p' = fst p /\
    ((exists i, dims_index (h_dims (snd p)) name = Ok i /\ take (map Z.of_nat order) (AxInt (Z.of_nat i)) (snd p) = Ok (snd p')) \/
     (dims_index (h_dims (snd p)) name = Err IndexError /\ snd p' = snd p))) l l' ->
  sets lab l' out = Ok b -> sort_loop lab name order l out = Ok b.
Proof.
  intros A lab name order l l' out b H. revert out. induction H as [|[k x] [k' y] l l' [E S] F IH]; intros out HS; [exact HS|].
  cbn [fst snd] in *. subst k'. cbn [sets] in HS. destruct (b_set lab k y out) as [o1|] eqn:Eb; [|discriminate]. cbn [bind] in HS.
  cbn [sort_loop]. destruct S as [[i [S1 S2]]|[S1 ->]].
  - rewrite S1. cbn [bind]. rewrite S2. cbn [bind]. rewrite Eb. cbn [bind]. now apply IH.
  - rewrite S1. cbn [bind]. rewrite Eb. cbn [bind]. now apply IH.
Qed.

Lemma Forall2_impl' : forall {X Y} (R S : X -> Y -> Prop) l l', (forall x y, In x l -> R x y -> S x y) -> Forall2 R l l' -> Forall2 S l l'.
Proof.
  intros X Y R S l l' H F. induction F; constructor; [apply H; [now left|auto]|]. apply IHF. intros. apply H; [now right|auto].
Qed.
Lemma Forall2_exists : forall {X Y} (R : X -> Y -> Prop) l, (forall x, In x l -> exists y, R x y) -> exists l', Forall2 R l l'.
Proof.
  induction l as [|x l IH]; intros H; [exists []; constructor|]. destruct (H x) as [y Hy]; [now left|].
  destruct IH as [l' Hl]; [intros; apply H; now right|]. exists (y :: l'). now constructor.
Qed.

Lemma sort_var_ok : forall {A} (x : hf A) old new order, var_ok (d_name old) old x ->
  (forall p, In p order -> p < length (d_data old)) -> key new = key old -> length (d_data new) = length order ->
  exists y, ((exists i, dims_index (h_dims x) (d_name old) = Ok i /\ take (map Z.of_nat order) (AxInt (Z.of_nat i)) x = Ok y) \/
     (dims_index (h_dims x) (d_name old) = Err IndexError /\ y = x)) /\
    map d_name (h_dims y) = map d_name (h_dims x) /\
    rearranged (d_name old) new order x (replace_dim old new y).
Proof.
  intros A x old new order [W [ND HD]] HO HK HL. destruct (in_dec string_dec (d_name old) (map d_name (h_dims x))) as [I|I].
  - destruct (name_place _ _ I) as [k [d [Hk E]]]. destruct (HD d (nth_error_In _ _ Hk) E) as [K1 K2].
    assert (DI : dims_index (h_dims x) (d_name old) = Ok k) by (rewrite <- E; now apply dims_index_nth).
    destruct (take_ok x (map Z.of_nat order) (AxInt (Z.of_nat k)) k d order) as [y [d' [T1 [T2 [T3 [T4 [T5 [T6 T7]]]]]]]]; auto.
    + constructor. apply nth_error_Some. congruence.
    + now apply names_only.
    + rewrite K2. clear - HO. induction order; simpl; constructor; auto; [|apply IHorder; intros; apply HO; now right].
      split; [apply HO; now left|auto].
    + exists y. split; [left; eauto|]. 
      assert (Nd' : d_name d' = d_name d) by (unfold key in T3; congruence).
      assert (NM : map d_name (h_dims y) = map d_name (h_dims x)).
      { rewrite T5, map_set_nth, Nd'. apply set_nth_self. now rewrite nth_error_map, Hk. }
      split; auto. right. exists k, d. split; auto. split; auto.
      assert (Hk' : nth_error (h_dims y) k = Some d').
      { rewrite T5. clear - Hk. revert k Hk. induction (h_dims x); intros [|k] Hk; simpl in *; try discriminate; auto. }
      assert (ED : h_dims (replace_dim old new y) = set_nth k new (h_dims x)).
      { unfold replace_dim. cbn [h_dims]. rewrite (replace_dim_list_set _ k d'); [|now rewrite NM|auto|congruence].
        rewrite T5. clear. generalize (h_dims x). intros l. revert k. induction l; intros [|k]; simpl; auto. now rewrite IHl. }
      assert (Kn : key new = key d) by congruence.
      assert (KEY : map key (set_nth k new (h_dims x)) = map key (h_dims x)) by (now apply set_nth_key with d).
      assert (KEY' : map key (h_dims y) = map key (h_dims x)) by (rewrite T5; now apply set_nth_key with d).
      split.
      { destruct T2 as [U1 [U2 U3]]. split; [exact U1|]. split.
        - unfold labels_match in *. rewrite ED. change (h_shape (replace_dim old new y)) with (h_shape y). rewrite <- U2, T5.
          rewrite !map_set_nth. now rewrite HL, T4, !map_length.
        - rewrite ED, KEY. apply W. }
      split; [exact ED|]. split; [exact T6|]. intros e He.
      assert (V : valid e (h_dims y)).
      { rewrite ED in He. rewrite T5. intros dd Hdd. apply In_nth_error in Hdd as [j Hj].
        destruct (Nat.eq_dec j k) as [->|Nj].
        - rewrite <- T5, Hk' in Hj. injection Hj as <-. rewrite T3, T4, !map_length, <- Kn, <- HL. apply He.
          assert (nth_error (set_nth k new (h_dims x)) k = Some new).
          { clear - Hk. revert k Hk. induction (h_dims x); intros [|k] Hk; simpl in *; try discriminate; auto. }
          eapply nth_error_In; eauto.
        - apply He. assert (SN : forall v, nth_error (set_nth k v (h_dims x)) j = nth_error (h_dims x) j).
          { clear - Nj. intros v. revert j k Nj. induction (h_dims x) as [|a l IH]; intros [|j] [|k] Nj; simpl; auto; try congruence. }
          rewrite SN in Hj. rewrite <- (SN new) in Hj. eapply nth_error_In; eauto. }
      rewrite <- (T7 e V). unfold val. rewrite ED. rewrite (coords_keys _ _ _ KEY), <- (coords_keys _ _ _ KEY'). reflexivity.
  - exists x. split; [right; split; auto; now apply dims_index_none|]. split; auto. left. split; auto.
    unfold replace_dim. rewrite replace_dim_list_none by auto. now destruct x.
Qed.

Lemma squeeze_1d : forall {A} (x : hf A) d, wf x -> h_dims x = [d] -> length (d_data d) <> 1 -> squeeze None x = Ok x.
Proof.
  intros A x d [W1 [W2 W3]] Hd N. unfold labels_match in W2. rewrite Hd in W2. simpl in W2.
  unfold squeeze. cbn [multiple_axis_handler bind squeeze_z]. rewrite <- W2.
  unfold axes_of_one. cbn [length seq combine filter snd map fst]. apply Nat.eqb_neq in N. rewrite N. cbn [map].
  unfold nd_squeeze. cbn [forallb]. cbn [bind]. unfold new_from. fold (h_shape x). rewrite <- W2. cbn [length axes_mask map seq memb existsb mask_drop].
  cbn [nd_shape]. unfold drop_ones. cbn [map]. rewrite N, Hd. cbn [mask_drop length Nat.eqb].
  f_equal. destruct x as [[sh el] dt ds u f]. unfold h_shape in W2. cbn in *. subst. reflexivity.
Qed.

Lemma b_sort_ok : forall {A K} (lab : A -> label) (argsort : list K -> list nat) (key_ : hf K) kd old (b : block A) vs,
  let order := argsort (nd_elems (h_nd key_)) in
  wf key_ -> h_dims key_ = [kd] -> length (d_data kd) <> 1 ->
  Permutation order (seq 0 (length (d_data old))) ->
  dd_get (d_name kd) (b_ivar b) = Ok old -> d_name old = d_name kd -> usable old ->
  dd_items (b_var b) = Ok vs -> NoDup (map fst vs) -> plain_names (map fst vs) (dim_names vs) ->
  Forall (fun p => var_ok (d_name old) old (snd p)) vs -> In (d_name old) (dim_names vs) ->
  exists b' vs' new, b_sort lab argsort key_ b = Ok b' /\ b_x b' = b_x b /\ dd_items (b_var b') = Ok vs' /\ map fst vs' = map fst vs /\
    key new = key old /\ d_unit new = d_unit old /\
    d_data new = map (fun p => nth p (d_data old) (LZ 0)) order /\
    dd_get (d_name old) (b_ivar b') = Ok new /\
    Forall2 (fun p p' => rearranged (d_name old) new order (snd p) (snd p')) vs vs'.
Proof.
  intros A K lab argsort key_ kd old b vs order Wk Dk Nk HP Hold En Us Hvs NDv PN FV EX.
  assert (HO : forall p, In p order -> p < length (d_data old)).
  { intros p Hp. apply (Permutation_in _ HP) in Hp. apply in_seq in Hp. lia. }
  assert (Hf : exists f, outputformat old = Ok f).
  { unfold outputformat. destruct Us as [Us|Us]; destruct (d_fmt old) eqn:Ef; eauto; try congruence.
    destruct (d_data old) as [|[]]; eauto; congruence. }
  destruct Hf as [f Hf].
  destruct (select_ok (d_data old) order HO) as [SL SN].
  set (new := mkDim (d_class old) (d_name old) (select (d_data old) order) (d_unit old) (Some f)).
  assert (Kn : key new = key old) by reflexivity.
  destruct (Forall2_exists (fun p p' => fst p' = fst p /\
      ((exists i, dims_index (h_dims (snd p)) (d_name old) = Ok i /\ take (map Z.of_nat order) (AxInt (Z.of_nat i)) (snd p) = Ok (snd p')) \/
       (dims_index (h_dims (snd p)) (d_name old) = Err IndexError /\ snd p' = snd p)) /\
      map d_name (h_dims (snd p')) = map d_name (h_dims (snd p)) /\
      rearranged (d_name old) new order (snd p) (replace_dim old new (snd p'))) vs) as [l HL].
  { intros [k x] Hin. rewrite Forall_forall in FV. destruct (sort_var_ok x old new order (FV _ Hin) HO Kn) as [y Y]; [exact SL|].
    exists (k, y). cbn [fst snd]. auto. }
  assert (N1 : map fst l = map fst vs). { clear - HL. induction HL as [|? ? ? ? H]; simpl; auto. destruct H. congruence. }
  assert (N2 : dim_names l = dim_names vs).
  { clear - HL. unfold dim_names. induction HL as [|? ? ? ? H]; simpl; auto. destruct H as [_ [_ [H _]]]. now rewrite H, IHHL. }
  destruct (sets_ok lab l dd_empty (b_x b)) as [o [S1 [S2 [S3 [S4 S5]]]]].
  { apply empty_Inv. } { now rewrite N1. } { rewrite N1, N2. cbn [dd_order dd_empty]. now rewrite app_nil_r. }
  assert (SO : sort_loop lab (d_name old) order vs (mkBlock dd_empty dd_empty (b_x b)) = Ok o).
  { apply sort_loop_sets with l; auto. eapply Forall2_impl'; [|exact HL]. simpl. tauto. }
  set (o' := mkBlock (b_var o) (b_ivar o) (b_x b)).
  assert (Co : dd_contains (d_name old) (b_ivar o') = true).
  { unfold o'. cbn [b_ivar]. rewrite S5. rewrite <- N2 in EX. unfold dim_names in EX. apply in_flat_map in EX as [p [P1 P2]].
    apply in_map_iff in P2 as [d [P2 P3]]. rewrite <- P2. eapply ivars_of_in; eauto. }
  assert (HB : BInv o').
  { split; [exact S2|]. split; [exact S3|]. unfold o'. cbn [b_var b_ivar]. intros k x d Hx Hd. rewrite S5.
    rewrite <- (abs_get _ _ S2), S4 in Hx.
    assert (In (k, x) l).
    { clear - Hx. induction l as [|[k' x'] l IH]; simpl in Hx; [discriminate|]. destruct (String.eqb_spec k k').
      - left. congruence. - right. auto. }
    apply ivars_of_in with (p := (k, x)); auto. }
  destruct (replace_dim_b_total old new o' HB Co) as [b' Hb'].
  destruct (replace_dim_b _ _ _ _ HB Hb') as [HB' [X' [G1 [G2 G3]]]].
  assert (Ev : dabs (b_var b') = map (fun p => (fst p, replace_dim old new (snd p))) l).
  { apply assoc_ext.
    - apply abs_NoDup. apply HB'.
    - rewrite keys_abs by apply HB'. rewrite G3. unfold o'. cbn [b_var]. rewrite <- (keys_abs _ S2), S4. unfold keys. rewrite map_map. reflexivity.
    - intros k. rewrite abs_get by apply HB'. rewrite G1. unfold o'. cbn [b_var]. rewrite <- (abs_get _ _ S2), S4. symmetry. apply get_map_pairs. }
  exists b', (map (fun p => (fst p, replace_dim old new (snd p))) l), new.
  assert (Hold' : pd_get (d_name kd) (dd_map (b_ivar b)) = Some old) by (unfold dd_get in Hold; destruct (pd_get (d_name kd) (dd_map (b_ivar b))); simpl in Hold; congruence).
  split.
  { unfold b_sort. rewrite (squeeze_1d key_ kd Wk Dk Nk). cbn [bind]. unfold h_ndim. fold (h_shape key_).
    destruct Wk as [_ [Lk _]]. unfold labels_match in Lk. rewrite <- Lk, Dk. cbn [map length Nat.ltb Nat.leb nth_error of_option bind].
    rewrite Hold'. fold order. rewrite Hvs. cbn [bind]. rewrite <- En, SO. cbn [bind]. rewrite Hf. cbn [bind].
    rewrite (mapM_ok (fun p => if p <? length (d_data old) then Ok p else Err IndexError) (fun p => p)).
    2:{ intros p Hp. specialize (HO p Hp). apply Nat.ltb_lt in HO. now rewrite HO. }
    cbn [bind]. rewrite map_id. unfold dim_with. rewrite Hf. cbn [bind]. exact Hb'. }
  split; [exact X'|]. split; [rewrite items_abs by apply HB'; now rewrite Ev|].
  split; [rewrite map_map; cbn [fst]; rewrite <- N1; reflexivity|]. split; auto. split; auto.
  split.
  { unfold new. cbn [d_data]. clear - HO. unfold select. induction order as [|p o IH]; simpl; auto.
    rewrite IH by (intros; apply HO; now right). assert (p < length (d_data old)) as Lp by (apply HO; now left).
    destruct (nth_error (d_data old) p) eqn:E; [|apply nth_error_None in E; lia]. apply nth_error_nth with (d := LZ 0) in E. rewrite E. reflexivity. }
  split.
  { unfold dd_get. rewrite G2. change (d_name new) with (d_name old). now rewrite String.eqb_refl. }
  clear - HL. induction HL as [|p p' l l' H]; simpl; constructor; auto. cbn [snd]. apply H.
Qed.
