(** Exchange of operands; arithmetic of the 2x2 representation. *)
From Coq Require Import String List Arith ZArith Bool Lia Ring_theory Ring Permutation Sorted.
From Verif Require Import Model_NdArray Proofs_NdArray Model_Dim Model_Array Spec_Array
  Proofs_Array Proofs_Array2 Proofs_Array3 Proofs_Array4 Proofs_Array5.
Import ListNotations.
Local Open Scope nat_scope.

Lemma coherent_comm : forall a b, coherent (a ++ b) -> coherent (b ++ a).
Proof. intros a b H. eapply coherent_sub; [exact H|]. intros d Hd. apply in_app_or in Hd. apply in_or_app. tauto. Qed.

Lemma binop_swap : forall {A} (E : elops A) rt op (x y : hf A),
  (forall u v, op u v = op v u) ->
  wf x -> wf y -> coherent (h_dims x ++ h_dims y) -> isfullcomplex x = isfullcomplex y ->
  exists r s, binop E rt op x y = Ok r /\ binop E rt op y x = Ok s /\
    (forall k, In k (map key (h_dims r)) <-> In k (map key (h_dims s))) /\
    (forall e, valid e (h_dims r) <-> valid e (h_dims s)) /\
    (forall e, valid e (h_dims r) -> val r e = val s e).
Proof.
  intros A E rt op x y Hc Hx Hy Hco Hcp.
  destruct (binop_ok E rt op x y Hx Hy Hco Hcp) as [r [R1 [R2 [R3 [_ [_ [_ R4]]]]]]].
  pose proof (coherent_comm _ _ Hco) as Hco'.
  destruct (binop_ok E rt op y x Hy Hx Hco' (eq_sym Hcp)) as [s [S1 [S2 [S3 [_ [_ [_ S4]]]]]]].
  exists r, s. split; auto. split; auto.
  pose proof Hx as [_ [_ NDx]]. pose proof Hy as [_ [_ NDy]].
  assert (K : forall k, In k (map key (h_dims r)) <-> In k (map key (h_dims s))).
  { intros k. rewrite R3, S3. rewrite (union_keys _ _ _ Hco NDy), (union_keys _ _ _ Hco' NDx). tauto. }
  split; auto.
  assert (L : forall d d', In d (h_dims r) -> In d' (h_dims s) -> key d = key d' -> length (d_data d) = length (d_data d')).
  { intros d d' Hd Hd' EQ. rewrite R3 in Hd. rewrite S3 in Hd'.
    apply (union_incl _ _ Hco NDy) in Hd. apply (union_incl _ _ Hco' NDx) in Hd'.
    injection EQ as EC EN. apply (Hco d d'); auto.
    - apply in_app_or in Hd'. apply in_or_app. tauto.
    - rewrite EC. apply subclass_refl. }
  assert (V : forall e, valid e (h_dims r) <-> valid e (h_dims s)).
  { intros e. split; intros He d Hd.
    - assert (Q : In (key d) (map key (h_dims r))) by (apply K; now apply in_map).
      apply in_map_iff in Q as [d' [Q1 Q2]]. rewrite <- Q1, <- (L d' d Q2 Hd Q1). auto.
    - assert (Q : In (key d) (map key (h_dims s))) by (apply K; now apply in_map).
      apply in_map_iff in Q as [d' [Q1 Q2]]. rewrite <- Q1, (L d d' Hd Q2 (eq_sym Q1)). auto. }
  split; auto.
  intros e He. destruct (R4 e He) as [v [w [V1 [V2 V3]]]].
  destruct (S4 e (proj1 (V e) He)) as [w' [v' [W1 [W2 W3]]]]. rewrite V3, W3.
  rewrite V1 in W2. rewrite V2 in W1. injection W1 as <-. injection W2 as <-. now rewrite Hc.
Qed.

(** Keys of the two complex dimensions. *)
Definition kre : dimclass * string := (CComplexIndep, "cplx"%string).
Definition kim : dimclass * string := (CComplexDeriv, "cplx"%string).

Lemma kre_kim : kre <> kim.
Proof. discriminate. Qed.

Section Complex.
Variable A : Type.
Variables (rO rI : A) (radd rmul rsub : A -> A -> A) (ropp : A -> A).
Hypothesis RT : ring_theory rO rI radd rmul rsub ropp (@eq A).
Add Ring ARing : RT.
Variable E : elops A.
(** Sum and product of the complex numbers in terms of the parts. *)
Variables cadd cmul : A -> A -> A.
Hypothesis E_neg : forall a, e_neg E a = ropp a.
Hypothesis add_re : forall a b, e_re E (cadd a b) = radd (e_re E a) (e_re E b).
Hypothesis add_im : forall a b, e_im E (cadd a b) = radd (e_im E a) (e_im E b).
Hypothesis mul_re : forall a b, e_re E (cmul a b) = rsub (rmul (e_re E a) (e_re E b)) (rmul (e_im E a) (e_im E b)).
Hypothesis mul_im : forall a b, e_im E (cmul a b) = radd (rmul (e_re E a) (e_im E b)) (rmul (e_im E a) (e_re E b)).

Lemma cplx_elem_add : forall a b i j, i < 2 -> j < 2 ->
  cplx_elem E DComplex (cadd a b) i j = radd (cplx_elem E DComplex a i j) (cplx_elem E DComplex b i j).
Proof.
  intros a b i j Hi Hj. destruct i as [|[|i]]; [| |lia]; (destruct j as [|[|j]]; [| |lia]); simpl;
    rewrite ?E_neg, ?add_re, ?add_im; ring.
Qed.

Lemma cplx_elem_mul : forall a b i j, i < 2 -> j < 2 ->
  cplx_elem E DComplex (cmul a b) i j =
  radd (rmul (cplx_elem E DComplex a i 0) (cplx_elem E DComplex b 0 j))
       (rmul (cplx_elem E DComplex a i 1) (cplx_elem E DComplex b 1 j)).
Proof.
  intros a b i j Hi Hj. destruct i as [|[|i]]; [| |lia]; (destruct j as [|[|j]]; [| |lia]); simpl;
    rewrite ?E_neg, ?mul_re, ?mul_im; ring.
Qed.

(** The representation of a sum is the sum of the representations, the
    representation of a product is their matrix product, everywhere. *)
Lemma fullcomplex_homo : forall rt (x y s p : hf A), wf x -> wf y -> coherent (h_dims x ++ h_dims y) ->
  isfullcomplex x = false -> isfullcomplex y = false -> h_dt x = DComplex -> h_dt y = DComplex ->
  rt DComplex DComplex = DComplex ->
  binop E rt cadd x y = Ok s -> binop E rt cmul x y = Ok p ->
  exists X Y S P, make_fullcomplex E x = Ok X /\ make_fullcomplex E y = Ok Y /\
    make_fullcomplex E s = Ok S /\ make_fullcomplex E p = Ok P /\
    h_dims S = h_dims s ++ CPLX /\ h_dims P = h_dims p ++ CPLX /\ h_dims s = h_dims p /\
    forall e, valid e (h_dims S) ->
      (exists a b, val X e = Some a /\ val Y e = Some b /\ val S e = Some (radd a b)) /\
      (exists a0 a1 b0 b1,
         val X (upd e kim 0) = Some a0 /\ val X (upd e kim 1) = Some a1 /\
         val Y (upd e kre 0) = Some b0 /\ val Y (upd e kre 1) = Some b1 /\
         val P e = Some (radd (rmul a0 b0) (rmul a1 b1))).
Proof.
  intros rt x y s p Hx Hy Hco Cx Cy Dx Dy Rt Bs Bp.
  destruct (binop_ok E rt cadd x y Hx Hy Hco) as [s' [S1 [S2 [S3 [_ [_ [S5 S4]]]]]]]; [congruence|].
  rewrite Bs in S1. injection S1 as <-.
  destruct (binop_ok E rt cmul x y Hx Hy Hco) as [p' [P1 [P2 [P3 [_ [_ [P5 P4]]]]]]]; [congruence|].
  rewrite Bp in P1. injection P1 as <-.
  pose proof Hy as [_ [_ NDy]].
  assert (Cu : dims_has_complex (dims_union (h_dims x) [h_dims y]) = false).
  { rewrite union_has_complex by auto. unfold isfullcomplex in Cx, Cy. now rewrite Cx, Cy. }
  assert (Cs : isfullcomplex s = false) by (unfold isfullcomplex; now rewrite S3).
  assert (Cp : isfullcomplex p = false) by (unfold isfullcomplex; now rewrite P3).
  destruct (fullcomplex_ok E x Hx Cx) as [X [X1 [X2 [X3 X4]]]].
  destruct (fullcomplex_ok E y Hy Cy) as [Y [Y1 [Y2 [Y3 Y4]]]].
  destruct (fullcomplex_ok E s S2 Cs) as [S [T1 [T2 [T3 T4]]]].
  destruct (fullcomplex_ok E p P2 Cp) as [P [U1 [U2 [U3 U4]]]].
  exists X, Y, S, P. repeat (split; [solve [auto | congruence]|]).
  intros e He.
  change (key (nth 0 CPLX dim0)) with kre in *. change (key (nth 1 CPLX dim0)) with kim in *.
  assert (Hr : e kre < 2).
  { apply (He (nth 0 CPLX dim0)). rewrite T3. apply in_or_app. right. simpl. auto. }
  assert (Hi : e kim < 2).
  { apply (He (nth 1 CPLX dim0)). rewrite T3. apply in_or_app. right. simpl. auto. }
  assert (Hes : valid e (h_dims s)) by (intros d Hd; apply He; rewrite T3; apply in_or_app; auto).
  assert (Hex : valid e (h_dims x)) by (eapply valid_union_l; eauto; rewrite <- S3; auto).
  assert (Hey : valid e (h_dims y)) by (eapply valid_union_r; eauto; rewrite <- S3; auto).
  assert (VC : forall (z Z : hf A), h_dims Z = h_dims z ++ CPLX -> valid e (h_dims z) ->
     forall a b, a < 2 -> b < 2 -> valid (upd (upd e kre a) kim b) (h_dims Z) \/ dims_has_complex (h_dims z) = true).
  { intros z Z HZ Hv a b Ha Hb. destruct (dims_has_complex (h_dims z)) eqn:Cz; [auto|left].
    intros d Hd. rewrite HZ in Hd. apply in_app_or in Hd as [Hd|Hd].
    - assert (key d <> kre /\ key d <> kim).
      { assert (is_complex_dim d = false).
        { destruct (is_complex_dim d) eqn:Q; auto. enough (dims_has_complex (h_dims z) = true) by congruence.
          apply has_complex_In. eauto. }
        split; intros K; injection K as K1 K2; unfold is_complex_dim in H; rewrite K1 in H; vm_compute in H; discriminate. }
      rewrite !upd_other by tauto. auto.
    - simpl in Hd. destruct Hd as [<-|[<-|[]]].
      + change (upd (upd e kre a) kim b kre < 2). rewrite upd_other by (intros K; discriminate). now rewrite upd_same.
      + change (upd (upd e kre a) kim b kim < 2). now rewrite upd_same. }
  assert (Xv : forall a b v, a < 2 -> b < 2 -> val x e = Some v ->
     val X (upd (upd e kre a) kim b) = Some (cplx_elem E DComplex v a b)).
  { intros a b v Ha Hb Hv. destruct (VC x X X3 Hex a b Ha Hb) as [W|W]; [|unfold isfullcomplex in Cx; congruence].
    destruct (X4 _ W) as [v' [V1 V2]].
    assert (val x (upd (upd e kre a) kim b) = val x e) as EV.
    { unfold val. f_equal. apply coords_ext. intros d Hd. 
      assert (is_complex_dim d = false).
      { destruct (is_complex_dim d) eqn:Q; auto. enough (dims_has_complex (h_dims x) = true) by (unfold isfullcomplex in Cx; congruence).
        apply has_complex_In. eauto. }
      rewrite !upd_other; auto; intros K; injection K as K1 K2; unfold is_complex_dim in H; rewrite K1 in H; vm_compute in H; discriminate. }
    rewrite EV, Hv in V1. injection V1 as <-. rewrite V2, Dx.
    rewrite upd_same. rewrite upd_other by (intros K; discriminate). now rewrite upd_same. }
  assert (Yv : forall a b v, a < 2 -> b < 2 -> val y e = Some v ->
     val Y (upd (upd e kre a) kim b) = Some (cplx_elem E DComplex v a b)).
  { intros a b v Ha Hb Hv. destruct (VC y Y Y3 Hey a b Ha Hb) as [W|W]; [|unfold isfullcomplex in Cy; congruence].
    destruct (Y4 _ W) as [v' [V1 V2]].
    assert (val y (upd (upd e kre a) kim b) = val y e) as EV.
    { unfold val. f_equal. apply coords_ext. intros d Hd. 
      assert (is_complex_dim d = false).
      { destruct (is_complex_dim d) eqn:Q; auto. enough (dims_has_complex (h_dims y) = true) by (unfold isfullcomplex in Cy; congruence).
        apply has_complex_In. eauto. }
      rewrite !upd_other; auto; intros K; injection K as K1 K2; unfold is_complex_dim in H; rewrite K1 in H; vm_compute in H; discriminate. }
    rewrite EV, Hv in V1. injection V1 as <-. rewrite V2, Dy.
    rewrite upd_same. rewrite upd_other by (intros K; discriminate). now rewrite upd_same. }
  assert (Ext : forall (Z : hf A) e1 e2, (forall k, e1 k = e2 k) -> val Z e1 = val Z e2).
  { intros Z e1 e2 H. unfold val. f_equal. apply coords_ext. auto. }
  assert (EqK : forall k k' : dimclass * string, k = k' \/ k <> k').
  { intros [c1 n1] [c2 n2]. destruct (class_eq_dec c1 c2); destruct (string_dec n1 n2); [left|right|right|right]; congruence. }
  assert (Eself : forall k, upd (upd e kre (e kre)) kim (e kim) k = e k).
  { intros k. destruct (EqK k kim) as [->|N]; [now rewrite upd_same|]. rewrite upd_other by auto.
    destruct (EqK k kre) as [->|N']; [now rewrite upd_same|]. now rewrite upd_other. }
  assert (Eim : forall b k, upd (upd e kre (e kre)) kim b k = upd e kim b k).
  { intros b k. destruct (EqK k kim) as [->|N]; [now rewrite !upd_same|]. rewrite !(upd_other _ kim) by auto.
    destruct (EqK k kre) as [->|N']; [now rewrite upd_same|]. now rewrite upd_other. }
  assert (Ere : forall b k, upd (upd e kre b) kim (e kim) k = upd e kre b k).
  { intros b k. destruct (EqK k kim) as [->|N]; [|now rewrite (upd_other _ kim) by auto].
    rewrite upd_same. rewrite upd_other; auto. intros K; discriminate. }
  destruct (S4 e Hes) as [v [w [V1 [V2 V3]]]].
  split.
  - exists (cplx_elem E DComplex v (e kre) (e kim)), (cplx_elem E DComplex w (e kre) (e kim)).
    rewrite <- (Xv _ _ v Hr Hi V1), <- (Yv _ _ w Hr Hi V2).
    split; [apply Ext; intros; symmetry; apply Eself|]. split; [apply Ext; intros; symmetry; apply Eself|].
    destruct (T4 e He) as [q [Q1 Q2]]. rewrite V3 in Q1. injection Q1 as <-. rewrite Q2, S5, Dx, Dy, Rt.
    f_equal. now apply cplx_elem_add.
  - exists (cplx_elem E DComplex v (e kre) 0), (cplx_elem E DComplex v (e kre) 1),
           (cplx_elem E DComplex w 0 (e kim)), (cplx_elem E DComplex w 1 (e kim)).
    rewrite <- (Xv _ 0 v Hr ltac:(lia) V1), <- (Xv _ 1 v Hr ltac:(lia) V1).
    rewrite <- (Yv 0 _ w ltac:(lia) Hi V2), <- (Yv 1 _ w ltac:(lia) Hi V2).
    repeat (split; [apply Ext; intros; symmetry; first [apply Eim | apply Ere]|]).
    assert (HeP : valid e (h_dims P)) by (rewrite U3, P3, <- S3, <- T3; auto).
    assert (Hep : valid e (h_dims p)) by (rewrite P3, <- S3; auto).
    destruct (P4 e Hep) as [v' [w' [W1 [W2 W3]]]]. rewrite V1 in W1. rewrite V2 in W2. injection W1 as <-. injection W2 as <-.
    destruct (U4 e HeP) as [q [Q1 Q2]]. rewrite W3 in Q1. injection Q1 as <-. rewrite Q2, P5, Dx, Dy, Rt.
    f_equal. now apply cplx_elem_mul.
Qed.
End Complex.

Lemma filter_subseq : forall {X} (f : X -> bool) l, subseq (filter f l) l.
Proof. intros X f l. induction l as [|x l IH]; simpl; [constructor|]. destruct (f x); constructor; auto. Qed.

Lemma haskey_false : forall ds d, haskey ds d = false <-> ~ In (key d) (map key ds).
Proof. intros ds d. rewrite <- haskey_In. destruct (haskey ds d); split; congruence. Qed.

Lemma Sorted_nth : forall l i j d d', Sorted prio_le l -> i < j -> nth_error l i = Some d -> nth_error l j = Some d' ->
  sortprio (d_class d) <= sortprio (d_class d').
Proof.
  intros l i j d d' H. apply Sorted_StronglySorted in H; [|intros x y z; unfold prio_le; lia].
  revert i j. induction H as [|x l H IH F]; intros i j L Hi Hj; [destruct i; discriminate|].
  destruct j as [|j]; [lia|]. destruct i as [|i]; simpl in *.
  - injection Hi as <-. rewrite Forall_forall in F. apply F. eapply nth_error_In; eauto.
  - apply (IH i j); auto; lia.
Qed.

Lemma dims_union_spec : forall a b, coherent (a ++ b) -> NoDup (map key b) -> is_union a b (dims_union a [b]).
Proof.
  intros a b H ND. rewrite dims_union_eq by auto. exists (new_dims a b). split; [apply filter_subseq|].
  split. { intros d. unfold new_dims. rewrite filter_In, negb_true_iff, haskey_false. tauto. }
  split. { intros p. apply sort_prio_filter. }
  split. { intros i j d d'. apply Sorted_nth. apply sort_prio_sorted. }
  rewrite <- app_length. apply Permutation_length. apply sort_prio_perm.
Qed.

Lemma reorder_ok : forall {A} (x : hf A) order, wf x -> incl order (h_dims x) -> NoDup (map key order) ->
  exists y rest, reorder_dimensions order x = Ok y /\ wf y /\
    h_dims y = order ++ rest /\ subseq rest (h_dims x) /\
    (forall d, In d rest <-> In d (h_dims x) /\ ~ In d order) /\
    (forall e, val y e = val x e) /\ h_unit y = h_unit x /\ h_fmt y = h_fmt x /\ h_dt y = h_dt x.
Proof.
  intros A x order Hx Hi ND. destruct (reorder_spec x order Hx Hi ND) as [y [H1 [H2 [H3 H4]]]].
  exists y, (filter (fun d => negb (haskey order d)) (h_dims x)). split; auto. split; auto. split; auto.
  split; [apply filter_subseq|]. split; auto.
  intros d. rewrite filter_In, negb_true_iff, haskey_false. split; intros [I N]; split; auto; intros K; apply N.
  - now apply in_map.
  - apply in_map_iff in K as [d' [K1 K2]]. destruct Hx as [_ [_ NDx]].
    rewrite <- (NoDup_key_inj (h_dims x) d' d NDx); auto.
Qed.

Lemma transpose_all_ok : forall {A} (x : hf A) o, wf x -> Permutation o (seq 0 (h_ndim x)) ->
  exists y, transpose (map Z.of_nat o) x = Ok y /\ wf y /\
    h_dims y = map (fun k => nth k (h_dims x) dim0) o /\ (forall e, val y e = val x e).
Proof.
  intros A x o Hx Hp. apply Permutation_is_perm in Hp. pose proof Hx as [Hw [Hl ND]]. pose proof (wf_ndim x Hl) as Hn.
  destruct (transpose_nat_ok x o Hw Hn Hp) as [y [H1 [H2 [H3 [H4 _]]]]]. exists y. split; auto.
  destruct (transpose_spec x y _ Hx H1) as [Wy [_ [V _]]]. auto.
Qed.

Lemma transpose_inverse : forall {A} (x y : hf A) o o', wf x -> Permutation o (seq 0 (h_ndim x)) ->
  length o' = length o -> (forall k, k < length o -> nth (nth k o' 0) o 0 = k /\ nth k o' 0 < length o) ->
  transpose (map Z.of_nat o) x = Ok y -> transpose (map Z.of_nat o') y = Ok x.
Proof.
  intros A x y o o' Hx Hp HL Hinv Hy. apply Permutation_is_perm in Hp.
  destruct (transpose_roundtrip x o Hx Hp) as [y' [H1 H2]]. rewrite Hy in H1. injection H1 as <-.
  replace o' with (inverse_order o); auto. unfold inverse_order. apply list_nth_ext.
  - now rewrite map_length, seq_length.
  - intros k Hk. rewrite map_length, seq_length in Hk. rewrite nth_map_seq by auto.
    destruct (Hinv k Hk) as [I1 I2]. rewrite <- I1 at 1. apply index_of_nth; auto. eapply perm_NoDup; eauto.
Qed.

Lemma val_nd_eq : forall {A} (x y : hf A), wf x -> wf y -> map key (h_dims x) = map key (h_dims y) ->
  h_shape x = h_shape y -> (forall e, valid e (h_dims x) -> val x e = val y e) -> h_nd x = h_nd y.
Proof.
  intros A x y [Wx [Lx Nx]] [Wy [Ly Ny]] K S V. apply nd_ext; auto.
  intros ix Hix. pose proof (inb_length _ _ Hix) as L.
  assert (L' : length ix = length (h_dims x)) by (rewrite (wf_ndim x Lx); exact L).
  set (e := override (fun _ => 0) (h_dims x) ix).
  assert (C : coords e (h_dims x) = ix) by (apply override_coords; auto).
  assert (Ve : valid e (h_dims x)).
  { intros d Hd. apply In_nth_error in Hd as [k Hk]. pose proof (labels_nth x k d Lx Hk) as Q.
    pose proof (proj1 (inb_nth _ _) Hix) as [_ P].
    assert (k < length (nd_shape (h_nd x))) by (apply nth_error_Some; unfold h_shape in Q; congruence).
    specialize (P k H). rewrite <- C in P. rewrite (coords_nth _ e k d Hk) in P.
    apply nth_error_nth with (d := 0) in Q. unfold h_shape in Q. lia. }
  specialize (V e Ve). unfold val in V. rewrite C in V. rewrite (coords_keys e _ _ (eq_sym K)), C in V. exact V.
Qed.

Lemma mat_t_twice : forall {A} (x : hf A) di dj, wf x ->
  In di (h_dims x) -> In dj (h_dims x) -> d_class di = CMatrix_i -> d_class dj = CMatrix_j ->
  (forall d, In d (h_dims x) -> d_class d = CMatrix_i -> d = di) ->
  (forall d, In d (h_dims x) -> d_class d = CMatrix_j -> d = dj) ->
  (forall d, In d (h_dims x) -> d_name d = d_name di -> d = di) ->
  (forall d, In d (h_dims x) -> d_name d = d_name dj -> d = dj) ->
  exists y z, mat_t x = Ok y /\ mat_t y = Ok z /\ h_nd z = h_nd x /\
    map key (h_dims z) = map key (h_dims x) /\ map d_data (h_dims z) = map d_data (h_dims x) /\
    h_unit z = h_unit x /\ h_fmt z = h_fmt x.
Proof.
  intros A x di dj Hx Ii Ij Ci Cj Ui Uj Ni Nj.
  destruct (mat_t_ok x di dj Hx Ii Ij Ci Cj Ui Uj Ni Nj) as [y [Y1 [Y2 [Y3 [Y4 [Y5 [Y6 Y7]]]]]]].
  set (f := fun d => _) in Y3.
  set (di' := mkDim CMatrix_i (d_name di) (d_data dj) None None) in *.
  set (dj' := mkDim CMatrix_j (d_name dj) (d_data di) None None) in *.
  assert (Fi : f di = di') by (unfold f; now rewrite Ci).
  assert (Fj : f dj = dj') by (unfold f; now rewrite Cj).
  assert (Fc : forall d, d_class (f d) = d_class d).
  { intros d. unfold f. destruct (class_eqb (d_class d) CMatrix_i) eqn:Q; [apply class_eqb_eq in Q; now rewrite Q|].
    destruct (class_eqb (d_class d) CMatrix_j) eqn:Q2; [apply class_eqb_eq in Q2; now rewrite Q2|]. auto. }
  assert (Fn : forall d, In d (h_dims x) -> d_name (f d) = d_name d).
  { intros d Hd. unfold f. destruct (class_eqb (d_class d) CMatrix_i) eqn:Q; [apply class_eqb_eq in Q; now rewrite (Ui d Hd Q)|].
    destruct (class_eqb (d_class d) CMatrix_j) eqn:Q2; [apply class_eqb_eq in Q2; now rewrite (Uj d Hd Q2)|]. auto. }
  destruct (mat_t_ok y di' dj' Y2) as [z [Z1 [Z2 [Z3 [Z4 [Z5 [Z6 Z7]]]]]]].
  - rewrite Y3, <- Fi. now apply in_map.
  - rewrite Y3, <- Fj. now apply in_map.
  - reflexivity.
  - reflexivity.
  - intros d Hd Q. rewrite Y3 in Hd. apply in_map_iff in Hd as [d0 [<- Hd]]. rewrite Fc in Q. now rewrite (Ui d0 Hd Q).
  - intros d Hd Q. rewrite Y3 in Hd. apply in_map_iff in Hd as [d0 [<- Hd]]. rewrite Fc in Q. now rewrite (Uj d0 Hd Q).
  - intros d Hd Q. rewrite Y3 in Hd. apply in_map_iff in Hd as [d0 [<- Hd]]. rewrite Fn in Q by auto. now rewrite (Ni d0 Hd Q).
  - intros d Hd Q. rewrite Y3 in Hd. apply in_map_iff in Hd as [d0 [<- Hd]]. rewrite Fn in Q by auto. now rewrite (Nj d0 Hd Q).
  - exists y, z. split; auto. split; auto.
    assert (KD : map key (h_dims z) = map key (h_dims x) /\ map d_data (h_dims z) = map d_data (h_dims x)).
    { rewrite Z3, Y3. rewrite !map_map.
      split; apply map_ext_in; intros d Hd; rewrite Fc.
      - destruct (class_eqb (d_class d) CMatrix_i) eqn:Q.
        { apply class_eqb_eq in Q. rewrite (Ui d Hd Q). unfold key. simpl. now rewrite Ci. }
        destruct (class_eqb (d_class d) CMatrix_j) eqn:Q2.
        { apply class_eqb_eq in Q2. rewrite (Uj d Hd Q2). unfold key. simpl. now rewrite Cj. }
        unfold f. now rewrite Q, Q2.
      - destruct (class_eqb (d_class d) CMatrix_i) eqn:Q.
        { apply class_eqb_eq in Q. now rewrite (Ui d Hd Q). }
        destruct (class_eqb (d_class d) CMatrix_j) eqn:Q2.
        { apply class_eqb_eq in Q2. now rewrite (Uj d Hd Q2). }
        unfold f. now rewrite Q, Q2. }
    destruct KD as [K D]. split; [|repeat split; auto; congruence].
    symmetry. apply val_nd_eq; auto.
    + destruct Hx as [_ [Lx _]]. destruct Z2 as [_ [Lz _]]. unfold labels_match in *. rewrite <- Lx, <- Lz.
      rewrite <- (map_map d_data (@length label)), <- (map_map d_data (@length label) (h_dims z)). now rewrite D.
    + intros e He. rewrite Z4, Y4. unfold val. f_equal. apply coords_ext. intros d Hd.
      change (key di') with (CMatrix_i, d_name di). change (key dj') with (CMatrix_j, d_name dj).
      assert (Ki : key di = (CMatrix_i, d_name di)) by (unfold key; now rewrite Ci).
      assert (Kj : key dj = (CMatrix_j, d_name dj)) by (unfold key; now rewrite Cj).
      rewrite <- Ki, <- Kj. assert (NK : key di <> key dj) by (rewrite Ki, Kj; intros Q; discriminate).
      unfold swap_key.
      destruct (string_dec (d_name d) (d_name dj)) as [E1|E1].
      { rewrite (Nj d Hd E1). rewrite upd_same. rewrite upd_other by auto. now rewrite upd_same. }
      destruct (string_dec (d_name d) (d_name di)) as [E2|E2].
      { rewrite (Ni d Hd E2). rewrite upd_other by auto. rewrite !upd_same. auto. }
      rewrite !upd_other; auto; rewrite ?Ki, ?Kj; unfold key; congruence.
Qed.
