(** Expanding diagonal dimensions. *)
From Coq Require Import String List Arith ZArith Bool Lia Permutation.
From Verif Require Import Model_NdArray Proofs_NdArray Model_Dim Model_Array Spec_Array Proofs_Array Proofs_Array2 Proofs_Array3 Proofs_Array4 Proofs_Array5.
Import ListNotations.
Local Open Scope nat_scope.

Lemma set_nth_nth_error : forall {X} (l : list X) k v j,
  nth_error (set_nth k v l) j = if Nat.eqb j k then (if k <? length l then Some v else None) else nth_error l j.
Proof.
  induction l as [|x l IH]; intros [|k] v [|j]; simpl; auto.
  - destruct (Nat.eqb j k); reflexivity.
  - rewrite IH. reflexivity.
Qed.

Section Assign.
Context {A : Type}.
Variable src : nd A.
Variable off : list nat -> nat.
Let step := fun (b : list A) ix => match nd_get src ix with Some v => set_nth (off ix) v b | None => b end.

Lemma assign_length : forall L b, length (fold_left step L b) = length b.
Proof.
  induction L as [|ix L IH]; intros b; simpl; auto. rewrite IH. unfold step. destruct (nd_get src ix); auto.
  apply set_nth_length.
Qed.

Lemma assign_other : forall L b o, (forall ix, In ix L -> off ix <> o) ->
  nth_error (fold_left step L b) o = nth_error b o.
Proof.
  induction L as [|ix L IH]; intros b o H; simpl; auto. rewrite IH by (intros; apply H; simpl; auto).
  unfold step. destruct (nd_get src ix); auto. rewrite set_nth_nth_error.
  destruct (Nat.eqb_spec o (off ix)); auto. exfalso. eapply H; simpl; eauto.
Qed.

Lemma assign_hit : forall L b ix v, NoDup (map off L) -> In ix L -> nd_get src ix = Some v -> off ix < length b ->
  nth_error (fold_left step L b) (off ix) = Some v.
Proof.
  induction L as [|i0 L IH]; intros b ix v ND Hin Hv Hlt; simpl in *; [tauto|]. inversion ND; subst.
  destruct Hin as [->|Hin].
  - rewrite assign_other.
    + unfold step. rewrite Hv, set_nth_nth_error, Nat.eqb_refl. now rewrite (proj2 (Nat.ltb_lt _ _) Hlt).
    + intros j Hj E. apply H1. rewrite <- E. now apply in_map.
  - apply IH; auto. unfold step. destruct (nd_get src i0); auto. now rewrite set_nth_length.
Qed.
End Assign.

Lemma c_strides_length : forall s, length (c_strides s) = length s.
Proof. induction s; simpl; auto. Qed.

Lemma c_strides_app : forall a b, c_strides (a ++ b) = map (fun s => s * prodn b) (c_strides a) ++ c_strides b.
Proof. induction a as [|n a IH]; intros b; simpl; auto. now rewrite IH, prodn_app. Qed.

Lemma dot_app : forall a b c d, length a = length c -> dot (a ++ b) (c ++ d) = dot a c + dot b d.
Proof.
  induction a as [|x a IH]; intros b [|y c] d H; simpl in *; try discriminate; auto. rewrite IH by lia. lia.
Qed.

Lemma dot_scale : forall a c m, dot a (map (fun s => s * m) c) = dot a c * m.
Proof. induction a as [|x a IH]; intros [|y c] m; simpl; auto. rewrite IH. lia. Qed.

Lemma dot_c_strides : forall sh ix, length ix = length sh -> dot ix (c_strides sh) = ravel sh ix.
Proof. induction sh as [|n sh IH]; intros [|i ix] H; simpl in *; try discriminate; auto. Qed.

Lemma nth_app_mid : forall {X} (a : list X) x b d, nth (length a) (a ++ x :: b) d = x.
Proof. intros. rewrite app_nth2, Nat.sub_diag by lia. reflexivity. Qed.
Lemma nth_app_mid1 : forall {X} (a : list X) x y b d, nth (S (length a)) (a ++ x :: y :: b) d = y.
Proof. intros. rewrite app_nth2 by lia. replace (S (length a) - length a) with 1 by lia. reflexivity. Qed.
Lemma remove_at_mid : forall {X} (a : list X) x b, remove_at (length a) (a ++ x :: b) = a ++ b.
Proof. induction a; intros; simpl; auto. now rewrite IHa. Qed.
Lemma remove_at_mid1 : forall {X} (a : list X) x y b, remove_at (S (length a)) (a ++ x :: y :: b) = a ++ x :: b.
Proof. intros. replace (a ++ x :: y :: b) with ((a ++ [x]) ++ y :: b) by (rewrite <- app_assoc; reflexivity).
  replace (S (length a)) with (length (a ++ [x])) by (rewrite app_length; simpl; lia).
  rewrite remove_at_mid, <- app_assoc. reflexivity. Qed.
Lemma insert_at_mid : forall {X} (a : list X) x b, insert_at (length a) x (a ++ b) = a ++ x :: b.
Proof. induction a; intros x b; simpl; [now destruct b|]. now rewrite IHa. Qed.

Lemma diag_loop_pair : forall st1 a b st2 s1 n m s2, length st1 = length s1 ->
  diag_loop [S (length s1); length s1] (st1 ++ a :: b :: st2) (s1 ++ n :: m :: s2) 0 [] =
  (b + a, [m; n], st1 ++ st2, s1 ++ s2).
Proof.
  intros st1 a b st2 s1 n m s2 H. cbn [diag_loop].
  assert (nth (S (length s1)) (st1 ++ a :: b :: st2) 0 = b) as -> by (rewrite <- H; apply nth_app_mid1).
  assert (remove_at (S (length s1)) (st1 ++ a :: b :: st2) = st1 ++ a :: st2) as -> by (rewrite <- H; apply remove_at_mid1).
  assert (nth (length s1) (st1 ++ a :: st2) 0 = a) as -> by (rewrite <- H; apply nth_app_mid).
  assert (remove_at (length s1) (st1 ++ a :: st2) = st1 ++ st2) as -> by (rewrite <- H; apply remove_at_mid).
  rewrite (nth_app_mid1 s1), (remove_at_mid1 s1), (nth_app_mid s1), (remove_at_mid s1). reflexivity.
Qed.

Lemma diag_geometry : forall s1 n s2 ds di dd, mapM (dims_pos ds) [di; dd] = Ok [length s1; S (length s1)] ->
  exists st, diagonal_geometry (s1 ++ [n; n] ++ s2) ds [di; dd] = Ok (s1 ++ n :: s2, st) /\
  forall i1 k i2, length i1 = length s1 -> length i2 = length s2 ->
    dot (i1 ++ k :: i2) st = ravel (s1 ++ [n; n] ++ s2) (i1 ++ [k; k] ++ i2).
Proof.
  intros s1 n s2 ds di dd H. unfold diagonal_geometry. rewrite H. cbn [bind].
  assert (sort_desc [length s1; S (length s1)] = [S (length s1); length s1]) as ->.
  { unfold sort_desc. cbn [fold_right insert_desc]. now rewrite (proj2 (Nat.leb_gt (S (length s1)) (length s1))) by lia. }
  rewrite c_strides_app. set (st1 := map (fun s => s * prodn ([n; n] ++ s2)) (c_strides s1)).
  assert (L1 : length st1 = length s1) by (unfold st1; now rewrite map_length, c_strides_length).
  cbn [app c_strides prodn]. rewrite diag_loop_pair by assumption.
  cbn [list_min fold_left]. rewrite Nat.min_id, insert_at_mid.
  assert (IS : forall v, insert_at (length s1) v (st1 ++ c_strides s2) = st1 ++ v :: c_strides s2).
  { intros v. rewrite <- L1. apply insert_at_mid. }
  rewrite IS.
  eexists. split; [reflexivity|].
  intros i1 k i2 H1 H2. rewrite dot_app by lia. unfold st1. rewrite dot_scale.
  rewrite dot_c_strides by assumption. cbn [dot]. rewrite dot_c_strides by assumption.
  rewrite ravel_app by lia. cbn [ravel prodn app]. lia.
Qed.

Lemma nth_error_split_pos : forall {X} (l : list X) p x, nth_error l p = Some x ->
  exists a b, l = a ++ x :: b /\ length a = p.
Proof.
  intros X l p x H. apply nth_error_split in H as [a [b [E L]]]. eauto.
Qed.

Lemma inb_split : forall s1 s2 ix, inb (s1 ++ s2) ix = true ->
  exists i1 i2, ix = i1 ++ i2 /\ length i1 = length s1 /\ inb s1 i1 = true /\ inb s2 i2 = true.
Proof.
  intros s1 s2 ix H. exists (firstn (length s1) ix), (skipn (length s1) ix).
  assert (L := inb_length _ _ H). rewrite app_length in L.
  assert (L1 : length (firstn (length s1) ix) = length s1) by (rewrite firstn_length; lia).
  split; [now rewrite firstn_skipn|]. split; [exact L1|].
  rewrite <- (firstn_skipn (length s1) ix) in H. rewrite inb_app in H by (now rewrite L1). now apply andb_prop in H.
Qed.

Lemma app_inj_length : forall {X} (a b c d : list X), a ++ b = c ++ d -> length a = length c -> a = c /\ b = d.
Proof.
  induction a as [|x a IH]; intros b [|y c] d E H; simpl in *; try discriminate; auto.
  injection E as -> E. destruct (IH b c d E ltac:(lia)) as [-> ->]. auto.
Qed.

Lemma ravel_inj : forall sh a b, inb sh a = true -> inb sh b = true -> ravel sh a = ravel sh b -> a = b.
Proof.
  intros sh a b Ha Hb E. pose proof (nth_error_indices sh a Ha) as Qa. pose proof (nth_error_indices sh b Hb) as Qb.
  rewrite E in Qa. congruence.
Qed.

Lemma expand_diagonal_ok : forall {A} (zero : A) (x : hf A) p d ci cj, wf x -> nth_error (h_dims x) p = Some d ->
  subclass (d_class d) CDiagAxis0 = true -> indep_class (d_class d) = Some ci -> deriv_class (d_class d) = Some cj ->
  (d_data d <> [] \/ d_fmt d <> None) ->
  ~ In (ci, d_name d) (map key (h_dims x)) -> ~ In (cj, d_name d) (map key (h_dims x)) ->
  exists y di dd, expand_diagonal zero d x = Ok y /\ wf y /\
    key di = (ci, d_name d) /\ key dd = (cj, d_name d) /\ d_data di = d_data d /\ d_data dd = d_data d /\
    h_dims y = firstn p (h_dims x) ++ [di; dd] ++ skipn (S p) (h_dims x) /\
    forall e, valid e (h_dims y) ->
      val y e = if Nat.eqb (e (ci, d_name d)) (e (cj, d_name d))
                then val x (upd e (key d) (e (ci, d_name d))) else Some zero.
Proof.
  intros A zero x p d ci cj Hwf Hp Hsub Hci Hcj Hf Nci Ncj. pose proof Hwf as [Hw [Hl ND]]. assert (Hn := wf_ndim x Hl).
  assert (Hcij : ci <> cj).
  { clear -Hci Hcj. destruct (d_class d); simpl in *; try discriminate; congruence. }
  assert (exists f, outputformat d = Ok f) as [f Ef].
  { unfold outputformat. destruct (d_fmt d) as [f|]; [eauto|]. destruct Hf as [Hf|Hf]; [|congruence].
    destruct (d_data d) as [|l ls]; [congruence|]. destruct l; eauto. }
  unfold expand_diagonal. rewrite Hsub. cbn [negb].
  rewrite contains_self by (eapply nth_error_In; eauto). cbn [negb].
  rewrite dims_pos_posk by (auto; eapply nth_error_In; eauto).
  unfold posk. rewrite (key_pos_nth (h_dims x) d p) by auto. cbn [bind].
  rewrite Hp. cbn [bind of_option].
  unfold indep_axis, deriv_axis, recast. rewrite Hci, Hcj. cbn [bind of_option]. rewrite Ef. cbn [bind].
  set (di := mkDim ci (d_name d) (d_data d) (d_unit d) (Some f)).
  set (dd := mkDim cj (d_name d) (d_data d) (d_unit d) (Some f)).
  destruct (nth_error_split_pos _ _ _ Hp) as [d1 [d2 [Hd Lp]]].
  assert (F1 : firstn p (h_dims x) = d1) by (rewrite Hd, <- Lp; apply firstn_app_exact).
  assert (F2 : skipn (S p) (h_dims x) = d2).
  { rewrite Hd. change (d1 ++ d :: d2) with (d1 ++ [d] ++ d2). rewrite app_assoc.
    replace (S p) with (length (d1 ++ [d])) by (rewrite app_length; simpl; lia). apply skipn_app_exact. }
  assert (Hs : h_shape x = lens d1 ++ length (d_data d) :: lens d2).
  { rewrite <- Hl, Hd. unfold lens. now rewrite map_app. }
  assert (S1 : firstn p (h_shape x) = lens d1) by (rewrite Hs, <- Lp, <- (lens_length d1); apply firstn_app_exact).
  assert (S2 : skipn (S p) (h_shape x) = lens d2).
  { rewrite Hs. change (lens d1 ++ length (d_data d) :: lens d2) with (lens d1 ++ [length (d_data d)] ++ lens d2). rewrite app_assoc.
    replace (S p) with (length (lens d1 ++ [length (d_data d)])) by (rewrite app_length, lens_length; simpl; lia). apply skipn_app_exact. }
  rewrite F1, F2, S1, S2. change (d_data di) with (d_data d). set (n := length (d_data d)) in *.
  set (sh := lens d1 ++ [n; n] ++ lens d2).
  rewrite new_raw_ok.
  2:{ unfold sh. simpl. rewrite !app_length. simpl. now rewrite !lens_length. }
  cbn [bind h_dims h_nd h_dt h_unit h_fmt].
  (* keys of the new dimensions *)
  assert (ND1 : NoDup (map key (d1 ++ [di; dd] ++ d2))).
  { rewrite Hd in ND, Nci, Ncj. rewrite map_app in ND, Nci, Ncj. simpl in ND, Nci, Ncj.
    rewrite !map_app. simpl. change (key di) with (ci, d_name d). change (key dd) with (cj, d_name d).
    apply NoDup_remove in ND as [NDa NDb].
    assert (Q : NoDup (map key d1 ++ (cj, d_name d) :: map key d2)).
    { apply NoDup_Add with (a := (cj, d_name d)) (l := map key d1 ++ map key d2); [apply Add_app|split; auto].
      intros K. apply Ncj. apply in_app_or in K as [K|K]; apply in_or_app; simpl; auto. }
    apply NoDup_Add with (a := (ci, d_name d)) (l := map key d1 ++ (cj, d_name d) :: map key d2); [apply Add_app|split; auto].
    intros K. apply in_app_or in K as [K|[K|K]]; [apply Nci; apply in_or_app; auto|congruence|apply Nci; apply in_or_app; simpl; auto]. }
  assert (MP : mapM (dims_pos (d1 ++ [di; dd] ++ d2)) [di; dd] = Ok [length (lens d1); S (length (lens d1))]).
  { cbn [mapM]. rewrite !dims_pos_posk; auto; try (apply in_or_app; right; simpl; auto; fail).
    cbn [bind]. unfold posk. rewrite (key_pos_nth _ di (length d1)), (key_pos_nth _ dd (S (length d1))); auto.
    - now rewrite lens_length.
    - rewrite nth_error_app2 by lia. replace (S (length d1) - length d1) with 1 by lia. reflexivity.
    - rewrite nth_error_app2 by lia. now rewrite Nat.sub_diag. }
  destruct (diag_geometry (lens d1) n (lens d2) _ di dd MP) as [st [G1 G2]].
  fold sh in G1. rewrite G1. cbn [bind fst snd].
  rewrite Hs. 
  assert (list_eqb Nat.eqb (lens d1 ++ n :: lens d2) (lens d1 ++ n :: lens d2) = true) as ->.
  { generalize (lens d1 ++ n :: lens d2). induction l; simpl; auto. now rewrite Nat.eqb_refl. }
  fold sh.
  set (zs := repeat zero (prodn sh)).
  set (els := strided_assign zs (lens d1 ++ n :: lens d2) st (h_nd x)).
  eexists. exists di, dd. split; [reflexivity|].
  assert (Wy : nd_wf (mkNd sh els)).
  { unfold nd_wf, els, strided_assign. simpl. rewrite (assign_length (h_nd x) (fun ix => dot ix st)). unfold zs. now rewrite repeat_length. }
  split; [split; [|split]|]; auto.
  - unfold labels_match, h_shape, sh. cbn. now rewrite map_app.
  - simpl. do 4 (split; [reflexivity|]). split; [now rewrite <- F1, <- F2|].
    intros e He. unfold val at 1. cbn [h_nd h_dims].
    set (i1 := coords e d1). set (i2 := coords e d2).
    set (a := e (ci, d_name d)). set (b := e (cj, d_name d)).
    assert (EC : coords e (d1 ++ di :: dd :: d2) = i1 ++ [a; b] ++ i2) by (now rewrite coords_app).
    rewrite EC.
    assert (V : inb sh (i1 ++ [a; b] ++ i2) = true).
    { rewrite <- EC. pose proof (inb_valid e _ He) as V. unfold sh. cbn [h_dims] in V. rewrite map_app in V. exact V. }
    assert (Li1 : length i1 = length (lens d1)) by (unfold i1; now rewrite coords_length, lens_length).
    assert (Li2 : length i2 = length (lens d2)) by (unfold i2; now rewrite coords_length, lens_length).
    assert (V' : inb (lens d1) i1 = true /\ a < n /\ b < n /\ inb (lens d2) i2 = true).
    { unfold sh in V. rewrite inb_app in V by auto. apply andb_prop in V as [V1 V]. cbn [app inb] in V.
      apply andb_prop in V as [V2 V]. apply andb_prop in V as [V3 V]. apply Nat.ltb_lt in V2, V3. auto. }
    destruct V' as [V1 [V2 [V3 V4]]].
    unfold nd_get. cbn [nd_shape nd_elems]. rewrite V.
    (* offsets of the view *)
    assert (OFF : forall ix, In ix (indices (lens d1 ++ n :: lens d2)) ->
       exists j1 k j2, ix = j1 ++ k :: j2 /\ length j1 = length (lens d1) /\ 
         inb sh (j1 ++ [k; k] ++ j2) = true /\ dot ix st = ravel sh (j1 ++ [k; k] ++ j2)).
    { intros ix Hix. apply in_indices in Hix.
      apply inb_split in Hix as [j1 [j2' [-> [J1 [J2 J3]]]]].
      destruct j2' as [|k j2]; [discriminate|]. cbn [inb] in J3. apply andb_prop in J3 as [J3 J4].
      exists j1, k, j2. split; auto. split; auto. split.
      - unfold sh. rewrite inb_app by auto. cbn [app inb]. now rewrite J2, J3, J4.
      - apply G2; auto. now apply inb_length in J4. }
    assert (NDo : NoDup (map (fun ix => dot ix st) (indices (lens d1 ++ n :: lens d2)))).
    { assert (Inj : forall u v, In u (indices (lens d1 ++ n :: lens d2)) -> In v (indices (lens d1 ++ n :: lens d2)) ->
                dot u st = dot v st -> u = v).
      { intros u v Hu Hv E. destruct (OFF u Hu) as [u1 [uk [u2 [-> [U1 [U2 U3]]]]]].
        destruct (OFF v Hv) as [v1 [vk [v2 [-> [W1 [W2 W3]]]]]]. rewrite U3, W3 in E.
        apply ravel_inj in E; auto.
        assert (u1 = v1 /\ [uk; uk] ++ u2 = [vk; vk] ++ v2) as [-> E2].
        { apply app_inj_length in E; auto. congruence. }
        simpl in E2. congruence. }
      pose proof (NoDup_indices (lens d1 ++ n :: lens d2)) as NI. revert Inj NI. clear.
      induction (indices (lens d1 ++ n :: lens d2)) as [|u l IH]; intros Inj NI; simpl; [constructor|].
      inversion NI; subst. constructor; [|apply IH; auto; intros; apply Inj; simpl; auto].
      intros K. apply in_map_iff in K as [v [E K]]. apply H1. rewrite (Inj u v); simpl; auto. }
    destruct (Nat.eqb_spec a b) as [<-|Hne].
    + assert (Hix : In (i1 ++ a :: i2) (indices (lens d1 ++ n :: lens d2))).
      { apply in_indices. rewrite inb_app by auto. cbn [inb]. now rewrite V1, V4, (proj2 (Nat.ltb_lt _ _) V2). }
      assert (CX : coords (upd e (key d) a) (h_dims x) = i1 ++ a :: i2).
      { rewrite (coords_upd _ _ p d) by assumption. rewrite Hd, coords_app. cbn [coords map].
        fold i1 i2. clear -Lp Li1. rewrite <- Lp. rewrite lens_length in Li1. rewrite <- Li1.
        generalize (e (key d)) as z. intros z. clear. induction i1 as [|i l IH]; simpl; auto. f_equal. exact IH. }
      assert (exists v, val x (upd e (key d) a) = Some v) as [v Hv].
      { unfold val. rewrite CX. apply nd_get_some; auto. fold (h_shape x). rewrite Hs. now apply in_indices. }
      rewrite Hv. unfold sh. rewrite <- (G2 i1 a i2) by auto.
      unfold els, strided_assign. apply (assign_hit (h_nd x) (fun ix => dot ix st)); auto.
      * unfold val in Hv. now rewrite CX in Hv.
      * rewrite G2 by auto. fold sh. unfold zs. rewrite repeat_length. now apply ravel_lt.
    + unfold els, strided_assign. rewrite (assign_other (h_nd x) (fun ix => dot ix st)).
      * unfold zs. rewrite nth_error_repeat; auto. now apply ravel_lt.
      * intros ix Hix E. destruct (OFF ix Hix) as [u1 [uk [u2 [-> [U1 [U2 U3]]]]]]. rewrite U3 in E.
        apply ravel_inj in E; auto. apply app_inj_length in E; [|congruence]. destruct E as [_ E]. simpl in E. congruence.
Qed.

(** ** Several diagonal dimensions *)
Lemma split_into_app : forall diags a b a' b', split_into diags a a' -> split_into diags b b' ->
  split_into diags (a ++ b) (a' ++ b').
Proof. intros diags a b a' b' Ha Hb. induction Ha; simpl; auto; constructor; auto. Qed.

Lemma split_into_self : forall ds l, (forall d, In d l -> ~ In d ds) -> split_into ds l l.
Proof. intros ds l H. induction l as [|d l IH]; constructor; [apply H|apply IH; intros; apply H]; simpl; auto. Qed.

Lemma split_into_keys : forall diags ds ds' k, split_into diags ds ds' -> In k (map key ds') ->
  In k (map key ds) \/ In k (flat_map (fun d => [ikey d; dkey d]) diags).
Proof.
  intros diags ds ds' k H. induction H as [|d ds ds' Hn H IH|d di dd ds ds' Hd K1 K2 L1 L2 H IH]; simpl; [tauto| |].
  - intros [E|E]; [left; auto|]. destruct (IH E); auto.
  - rewrite K1, K2. intros [E|[E|E]]; [right|right|destruct (IH E); auto];
      apply in_flat_map; exists d; simpl; auto.
Qed.

(** The halves of an earlier diagonal survive the expansion of later ones. *)
Lemma split_into_trans : forall d rest l1 l2 l3,
  split_into [d] l1 l2 -> (forall d', In d' rest -> key d' <> key d) ->
  (forall d', In d' rest -> key d' <> ikey d /\ key d' <> dkey d) ->
  split_into rest l2 l3 -> split_into (d :: rest) l1 l3.
Proof.
  intros d rest l1 l2 l3 H. revert l3.
  induction H as [|d0 ds ds' Hn H IH|d0 di dd ds ds' Hd K1 K2 L1 L2 H IH]; intros l3 Hk Hk2 H3.
  - inversion H3; subst. constructor.
  - simpl in Hn. inversion H3; subst.
    + constructor; auto. simpl. intros [E|E]; [apply Hn; auto|auto].
    + apply si_diag; auto. simpl. auto.
  - simpl in Hd. destruct Hd as [<-|[]].
    inversion H3 as [|? ? ? N1 H4|? ? ? ? ? N1]; subst; [|exfalso; destruct (Hk2 _ N1) as [Q _]; now apply Q].
    inversion H4 as [|? ? ? N2 H5|? ? ? ? ? N2]; subst; [|exfalso; destruct (Hk2 _ N2) as [_ Q]; now apply Q].
    apply si_diag; simpl; auto.
Qed.

Lemma undiag_other : forall diags e k, ~ In k (map key diags) -> undiag diags e k = e k.
Proof.
  induction diags as [|d ds IH]; intros e k H; simpl in *; auto. rewrite upd_other by (intros E; apply H; auto).
  apply IH. tauto.
Qed.

Lemma undiag_in : forall diags e d, NoDup (map key diags) -> In d diags -> undiag diags e (key d) = e (ikey d).
Proof.
  induction diags as [|d0 ds IH]; intros e d ND H; simpl in *; [tauto|]. inversion ND; subst. destruct H as [->|H].
  - now rewrite upd_same.
  - rewrite upd_other; [auto|]. intros E. apply H2. rewrite <- E. now apply in_map.
Qed.

Lemma split_into_valid : forall diags ds ds' e, split_into diags ds ds' -> valid e ds' ->
  NoDup (map key diags) -> (forall d, In d ds -> In (key d) (map key diags) -> In d diags) ->
  valid (undiag diags e) ds.
Proof.
  intros diags ds ds' e H. induction H as [|d ds ds' Hn H IH|d di dd ds ds' Hd K1 K2 L1 L2 H IH]; intros Hv ND Hin.
  - intros d [].
  - intros d0 [<-|Hd0].
    + rewrite undiag_other; [apply Hv; simpl; auto|]. intros K. apply Hn. apply Hin; simpl; auto.
    + apply IH; auto; [intros z Hz; apply Hv; simpl; auto|intros; apply Hin; simpl; auto].
  - intros d0 [<-|Hd0].
    + rewrite undiag_in by auto. rewrite <- L1, <- K1. apply Hv. simpl; auto.
    + apply IH; auto; [intros z Hz; apply Hv; simpl; auto|intros; apply Hin; simpl; auto].
Qed.

Lemma NoDup_keys_inj : forall ds d d', NoDup (map key ds) -> In d ds -> In d' ds -> key d = key d' -> d = d'.
Proof.
  intros ds d d' ND Hd Hd' E. apply In_nth_error in Hd as [i Hi]. apply In_nth_error in Hd' as [j Hj].
  assert (i = j); [|congruence]. apply (proj1 (NoDup_nth_error (map key ds)) ND).
  - rewrite map_length. apply nth_error_Some. congruence.
  - rewrite !nth_error_map, Hi, Hj. simpl. congruence.
Qed.

Lemma expand_diagonals_ok : forall {A} (zero : A) diags (x : hf A), wf x -> incl diags (h_dims x) ->
  Forall expandable diags -> NoDup (map key diags) ->
  NoDup (map key (h_dims x) ++ flat_map (fun d => [ikey d; dkey d]) diags) ->
  exists y, expand_diagonals zero (Some diags) x = Ok y /\ wf y /\
    split_into diags (h_dims x) (h_dims y) /\
    (forall e, valid e (h_dims y) -> valid (undiag diags e) (h_dims x)) /\
    (forall e, valid e (h_dims y) -> on_diagonal diags e -> val y e = val x (undiag diags e)) /\
    (forall e, valid e (h_dims y) -> ~ on_diagonal diags e -> val y e = Some zero).
Proof.
  intros A zero diags. unfold expand_diagonals.
  induction diags as [|d rest IH]; intros x Hwf Hin HE NDd ND; simpl.
  - exists x. split; auto. split; auto. split; [apply split_into_self; simpl; auto|].
    split; [auto|]. split; auto. intros e He Hno. exfalso. apply Hno. intros d [].
  - inversion HE as [|? ? HEd HEr]; subst. inversion NDd as [|? ? Nd NDr]; subst.
    destruct HEd as [Hsub [Hic [Hdc Hf]]].
    assert (Hdin : In d (h_dims x)) by (apply Hin; simpl; auto).
    destruct (In_nth_error _ _ Hdin) as [p Hp].
    destruct (indep_class (d_class d)) as [ci|] eqn:Eci; [|congruence].
    destruct (deriv_class (d_class d)) as [cj|] eqn:Ecj; [|congruence].
    assert (Ki : ikey d = (ci, d_name d)) by (unfold ikey; now rewrite Eci).
    assert (Kj : dkey d = (cj, d_name d)) by (unfold dkey; now rewrite Ecj).
    simpl in ND.
    assert (Nci : ~ In (ci, d_name d) (map key (h_dims x))).
    { intros K. apply (NoDup_app_disj _ _ (ci, d_name d) ND); auto. rewrite Ki. simpl; auto. }
    assert (Ncj : ~ In (cj, d_name d) (map key (h_dims x))).
    { intros K. apply (NoDup_app_disj _ _ (cj, d_name d) ND); auto. rewrite Kj. simpl; auto. }
    destruct (expand_diagonal_ok zero x p d ci cj Hwf Hp Hsub Eci Ecj Hf Nci Ncj) as
      [y1 [di [dd [H1 [W1 [K1 [K2 [L1 [L2 [D1 V1]]]]]]]]]].
    rewrite H1. pose proof Hwf as [Hw [Hl NDx]].
    destruct (nth_error_split_pos _ _ _ Hp) as [d1 [d2 [Hd Lp]]].
    assert (F1 : firstn p (h_dims x) = d1) by (rewrite Hd, <- Lp; apply firstn_app_exact).
    assert (F2 : skipn (S p) (h_dims x) = d2).
    { rewrite Hd. change (d1 ++ d :: d2) with (d1 ++ [d] ++ d2). rewrite app_assoc.
      replace (S p) with (length (d1 ++ [d])) by (rewrite app_length; simpl; lia). apply skipn_app_exact. }
    rewrite F1, F2 in D1.
    assert (SI : split_into [d] (h_dims x) (h_dims y1)).
    { rewrite D1, Hd. assert (Q : forall z, In z (d1 ++ d2) -> ~ In z [d]).
      { intros z Hz [E|[]]. subst z. rewrite Hd in NDx. rewrite map_app in NDx. simpl in NDx. apply NoDup_remove_2 in NDx.
        apply NDx. rewrite <- map_app. now apply in_map. }
      apply split_into_app; [apply split_into_self; intros; apply Q; apply in_or_app; auto|].
      apply si_diag; simpl; auto; try congruence.
      apply split_into_self. intros; apply Q; apply in_or_app; auto. }
    assert (Hrest : incl rest (h_dims y1)).
    { intros z Hz. assert (z <> d) by (intros ->; apply Nd; now apply in_map).
      assert (Hzx : In z (h_dims x)) by (apply Hin; simpl; auto). rewrite Hd in Hzx. rewrite D1.
      apply in_app_or in Hzx as [Q|[Q|Q]]; [apply in_or_app; auto|congruence|apply in_or_app; right; simpl; auto]. }
    assert (Hneq : forall z, In z rest -> key z <> ikey d /\ key z <> dkey d).
    { intros z Hz. assert (Hzx : In z (h_dims x)) by (apply Hin; simpl; auto). rewrite Ki, Kj.
      split; intros E; [apply Nci|apply Ncj]; rewrite <- E; now apply in_map. }
    destruct (IH y1 W1 Hrest HEr NDr) as [y [H2 [W2 [S2 [I2 [V2 V3]]]]]].
    { rewrite D1, !map_app. simpl. rewrite K1, K2, <- Ki, <- Kj.
      rewrite Hd, map_app in ND. simpl in ND.
      set (R := flat_map (fun d0 => [ikey d0; dkey d0]) rest) in *.
      assert (P : Permutation (((map key d1 ++ key d :: map key d2) ++ ikey d :: dkey d :: R))
                              (key d :: ((map key d1 ++ ikey d :: dkey d :: map key d2) ++ R))).
      { rewrite <- !app_assoc. simpl.
        transitivity (key d :: map key d1 ++ map key d2 ++ ikey d :: dkey d :: R).
        - symmetry. apply Permutation_middle.
        - constructor. apply Permutation_app_head.
          transitivity (ikey d :: map key d2 ++ dkey d :: R); [symmetry; apply Permutation_middle|]. constructor.
          symmetry. apply Permutation_middle. }
      eapply Permutation_NoDup in ND; [|exact P]. now inversion ND. }
    exists y. split; [exact H2|]. split; [exact W2|]. split.
    { apply split_into_trans with (l2 := h_dims y1); auto.
      intros z Hz E. apply Nd. rewrite <- E. now apply in_map. }
    assert (SV : forall e, valid e (h_dims y) -> valid (undiag (d :: rest) e) (h_dims x)).
    { intros e He. apply split_into_valid with (ds' := h_dims y); auto.
      - apply split_into_trans with (l2 := h_dims y1); auto.
        intros z Hz E. apply Nd. rewrite <- E. now apply in_map.
      - intros z Hz K. change (In (key z) (map key (d :: rest))) in K. apply in_map_iff in K as [z' [E K]].
        replace z with z'; auto. apply (NoDup_keys_inj (h_dims x)); auto. }
    split; [exact SV|].
    assert (Eu : forall e, undiag rest e (ikey d) = e (ikey d) /\ undiag rest e (dkey d) = e (dkey d)).
    { intros e. split; apply undiag_other; intros K; apply in_map_iff in K as [z [E K]]; destruct (Hneq z K); congruence. }
    split.
    + intros e He Hon.
      rewrite V2; [|assumption|intros z Hz; apply Hon; simpl; auto].
      rewrite V1 by (now apply I2). destruct (Eu e) as [E1 E2]. rewrite <- Ki, <- Kj, E1, E2.
      rewrite (Hon d) by (simpl; auto). rewrite Nat.eqb_refl. simpl. reflexivity.
    + intros e He Hno.
      assert (Dec : on_diagonal rest e \/ ~ on_diagonal rest e).
      { clear. induction rest as [|z l IHl]; [left; intros ? []|].
        destruct (Nat.eq_dec (e (ikey z)) (e (dkey z))) as [E|E].
        - destruct IHl as [I|I]; [left; intros q [<-|Hq]; auto|right; intros K; apply I; intros q Hq; apply K; simpl; auto].
        - right. intros K. apply E. apply K. simpl; auto. }
      destruct Dec as [Hon|Hoff]; [|now apply V3].
      rewrite V2 by assumption. rewrite V1 by (now apply I2). destruct (Eu e) as [E1 E2]. rewrite <- Ki, <- Kj, E1, E2.
      destruct (Nat.eqb_spec (e (ikey d)) (e (dkey d))) as [E|E]; auto.
      exfalso. apply Hno. intros z [<-|Hz]; auto.
Qed.
