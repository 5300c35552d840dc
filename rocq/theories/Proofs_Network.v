(** Two-port conversions. *)
From Coq Require Import Ring Field List Bool.
From Verif Require Import Model_NdArray Model_Network Spec_Network.
Import ListNotations.

Ltac pairs := repeat match goal with |- (_, _) = (_, _) => apply (f_equal2 pair) end.

Section P.
  Context {K : fld}.
  Local Open Scope fld_scope.
  Add Field Kfield : (fth K).

  Lemma feqb_neq : forall x y : K, feqb x y = false <-> x <> y.
  Proof. intros x y. rewrite <- not_true_iff_false, feqb_eq. tauto. Qed.
  Lemma feqb_refl : forall x : K, feqb x x = true.
  Proof. intros. now apply feqb_eq. Qed.
  Lemma f1_neq_0 : (1 : K) <> 0.
  Proof. exact (F_1_neq_0 (fth K)). Qed.
  Lemma fmul_0 : forall x y : K, x * y = 0 -> x = 0 \/ y = 0.
  Proof.
    intros x y H. destruct (feqb x 0) eqn:E; [left; now apply feqb_eq|right]. apply feqb_neq in E.
    assert (y = (x * y) / x) as -> by (field; auto). rewrite H. field. auto.
  Qed.
  Lemma fmul_neq : forall x y : K, x <> 0 -> y <> 0 -> x * y <> 0.
  Proof. intros x y H H' E. apply fmul_0 in E. tauto. Qed.
  Lemma mul1_neq : forall x y : K, x * y = 1 -> x <> 0 /\ y <> 0.
  Proof.
    intros x y H. split; intros ->.
    - apply f1_neq_0. rewrite <- H. ring.
    - apply f1_neq_0. rewrite <- H. ring.
  Qed.

  Lemma m2_eq : forall a b : M2 K, e11 a = e11 b -> e12 a = e12 b -> e21 a = e21 b -> e22 a = e22 b -> a = b.
  Proof. intros [] []; simpl; congruence. Qed.
  Ltac m2 := apply m2_eq; cbn [e11 e12 e21 e22 m2_mul m2_add m2_sub m2_opp m2_scale m2_0 m2_1 m2_adj].
  Lemma m2_mul_assoc : forall a b c : M2 K, m2_mul (m2_mul a b) c = m2_mul a (m2_mul b c).
  Proof. intros; m2; ring. Qed.
  Lemma m2_mul_1_l : forall a : M2 K, m2_mul m2_1 a = a.
  Proof. intros; m2; ring. Qed.
  Lemma m2_mul_1_r : forall a : M2 K, m2_mul a m2_1 = a.
  Proof. intros; m2; ring. Qed.

  Lemma m2_inv_ok : forall a b : M2 K, m2_inv a = Ok b -> m2_mul a b = m2_1 /\ m2_mul b a = m2_1 /\ m2_det a <> 0.
  Proof.
    intros a b H. unfold m2_inv in H. destruct (feqb (m2_det a) 0) eqn:E; [discriminate|]. apply feqb_neq in E.
    injection H as <-. unfold m2_det in *. split; [|split; auto]; m2; field; auto.
  Qed.
  Lemma m2_inv_def : forall a : M2 K, m2_det a <> 0 -> exists b, m2_inv a = Ok b.
  Proof. intros a H. unfold m2_inv. apply feqb_neq in H. rewrite H. eauto. Qed.

  (** ** Vectors *)
  Definition mv (m : M2 K) (x : K * K) : K * K := (e11 m * fst x + e12 m * snd x, e21 m * fst x + e22 m * snd x).
  Definition vadd (x y : K * K) : K * K := (fst x + fst y, snd x + snd y).
  Definition vopp (x : K * K) : K * K := (- fst x, - snd x).
  Lemma mv_mul : forall a b x, mv (m2_mul a b) x = mv a (mv b x).
  Proof. intros. unfold mv. cbn [m2_mul e11 e12 e21 e22 fst snd]. f_equal; ring. Qed.
  Lemma mv_1 : forall x, mv m2_1 x = x.
  Proof. intros []. unfold mv. cbn. f_equal; ring. Qed.
  Lemma lin_mv : forall m y1 y2 x1 x2, lin m y1 y2 x1 x2 <-> (y1, y2) = mv m (x1, x2).
  Proof. intros. unfold lin, mv. cbn [fst snd]. split; [intros [-> ->]; auto|intros E; injection E as -> ->; auto]. Qed.
  (** two-by-two blocks *)
  Definition mv4 (p : M4 K) (w : (K * K) * (K * K)) : (K * K) * (K * K) :=
    (vadd (mv (tl2 p) (fst w)) (mv (tr2 p) (snd w)), vadd (mv (bl2 p) (fst w)) (mv (br2 p) (snd w))).
  Lemma mv4_mul : forall p q w, mv4 (m4_mul p q) w = mv4 p (mv4 q w).
  Proof.
    intros p q [[a b] [c d]]. unfold mv4, mv, vadd.
    cbn [fst snd m4_mul tl2 tr2 bl2 br2 m2_mul m2_add e11 e12 e21 e22]. pairs; ring.
  Qed.
  Lemma mv4_1 : forall w, mv4 m4_1 w = w.
  Proof. intros [[a b] [c d]]. unfold mv4, mv, vadd. cbn. pairs; ring. Qed.

  Lemma m4_eq : forall a b : M4 K, tl2 a = tl2 b -> tr2 a = tr2 b -> bl2 a = bl2 b -> br2 a = br2 b -> a = b.
  Proof. intros [] []; simpl; congruence. Qed.
  Lemma m4_mul_assoc : forall a b c : M4 K, m4_mul (m4_mul a b) c = m4_mul a (m4_mul b c).
  Proof. intros. apply m4_eq; cbn [m4_mul tl2 tr2 bl2 br2]; m2; ring. Qed.
  Lemma m4_mul_1_r : forall a : M4 K, m4_mul a m4_1 = a.
  Proof. intros. apply m4_eq; cbn [m4_mul tl2 tr2 bl2 br2 m4_1]; m2; ring. Qed.
  Lemma m4_mul_1_l : forall a : M4 K, m4_mul m4_1 a = a.
  Proof. intros. apply m4_eq; cbn [m4_mul tl2 tr2 bl2 br2 m4_1]; m2; ring. Qed.

  Lemma m4_inv_ok : forall a b : M4 K, m4_inv a = Ok b -> m4_mul a b = m4_1 /\ m4_mul b a = m4_1.
  Proof.
    intros [[a00 a01 a10 a11] [a02 a03 a12 a13] [a20 a21 a30 a31] [a22 a23 a32 a33]] b H. unfold m4_inv in H.
    unfold m4_det_adj in H. cbn [m4_rows tl2 tr2 bl2 br2 e11 e12 e21 e22] in H.
    match type of H with (if feqb ?d _ then _ else _) = _ => remember d as D eqn:HD end.
    destruct (feqb D 0) eqn:E; [discriminate|].
    apply feqb_neq in E. injection H as <-.
    assert (Q : forall x, x = D -> 1 / D * x = 1) by (intros x ->; field; auto).
    assert (Z : forall x, x = 0 -> 1 / D * x = 0) by (intros x ->; ring).
    assert (F : forall c e f g h, c * (1 / D * e) + f * (1 / D * g) + h = 1 / D * (c * e + f * g) + h) by (intros; ring).
    split; apply m4_eq; cbn [m4_mul m4_1 tl2 tr2 bl2 br2 m4_scale]; m2.
    all: match goal with
      | |- ?c0 * (?i * ?d0) + ?c1 * (?i * ?d1) + (?c2 * (?i * ?d2) + ?c3 * (?i * ?d3)) = _ =>
          transitivity (i * (c0 * d0 + c1 * d1 + c2 * d2 + c3 * d3)); [ring|]
      | |- ?i * ?d0 * ?c0 + ?i * ?d1 * ?c1 + (?i * ?d2 * ?c2 + ?i * ?d3 * ?c3) = _ =>
          transitivity (i * (c0 * d0 + c1 * d1 + c2 * d2 + c3 * d3)); [ring|]
      end.
    all: first [apply Q; rewrite HD; unfold minor; ring | apply Z; unfold minor; ring].
  Qed.

  (** ** convert *)
  Lemma vadd_eq_mv : forall (t1 s1 : M2 K) u1 u2 a (t2 s2 : M2 K),
    vadd (mv t1 u1) (mv s1 u2) = mv a (vadd (mv t2 u1) (mv s2 u2)) <->
    mv (m2_sub t1 (m2_mul a t2)) u1 = mv (m2_add (m2_opp s1) (m2_mul a s2)) u2.
  Proof.
    assert (MV : forall x y z w : K, x = y <-> x + z = y + z).
    { intros x y z w. split; [congruence|]. intros H. assert (x = (x + z) - z) as -> by ring. rewrite H. ring. }
    intros t1 s1 [x1 x2] [y1 y2] a t2 s2. unfold vadd, mv. cbn [fst snd m2_sub m2_mul m2_add m2_opp e11 e12 e21 e22].
    assert (PE : forall a b c d : K, (a, b) = (c, d) <-> a = c /\ b = d) by (intros; split; [intros E; injection E; auto|intros [-> ->]; auto]).
    rewrite !PE.
    assert (DIF : forall p q p' q' : K, p - q = p' - q' -> (p = q <-> p' = q')).
    { intros p q p' q' H. split; intros E.
      - assert (p' = (p' - q') + q') as -> by ring. rewrite <- H, E. ring.
      - assert (p = (p - q) + q) as -> by ring. rewrite H, E. ring. }
    split; intros [H1 H2]; split.
    all: match type of H1 with ?p = ?q => match type of H2 with ?r = ?s => match goal with |- ?p' = ?q' =>
      first [assert (W : p - q = p' - q') by ring; apply (DIF _ _ _ _ W); exact H1
            |assert (W : r - s = p' - q') by ring; apply (DIF _ _ _ _ W); exact H2] end end end.
  Qed.

  Lemma convert_inv : forall (PF PT : M4 K) a r A B, convert PF PT a = Ok (r, A, B) ->
    exists PB, m4_mul PT PB = m4_1 /\ m4_mul PB PT = m4_1 /\ r = m2_mul A B /\
      (let P := m4_mul PF PB in
       m2_mul (m2_sub (tl2 P) (m2_mul a (bl2 P))) A = m2_1 /\ m2_mul A (m2_sub (tl2 P) (m2_mul a (bl2 P))) = m2_1 /\
       B = m2_add (m2_opp (tr2 P)) (m2_mul a (br2 P))).
  Proof.
    intros PF PT a r A B H. unfold convert in H. destruct (m4_inv PT) as [PB|] eqn:E1; [|discriminate]. cbn [bind] in H.
    destruct (m2_inv _) as [A'|] eqn:E2 in H; [|discriminate]. cbn [bind] in H. injection H as <- <- <-.
    apply m4_inv_ok in E1 as [I1 I2]. apply m2_inv_ok in E2 as [J1 [J2 _]]. exists PB. repeat split; auto.
  Qed.
  Definition rel (P : M4 K) (a : M2 K) (w : (K * K) * (K * K)) : Prop := fst (mv4 P w) = mv a (snd (mv4 P w)).
  Lemma convert_rel : forall PF PT a r A B, convert PF PT a = Ok (r, A, B) -> forall w, rel PF a w <-> rel PT r w.
  Proof.
    intros PF PT a r A B H w. apply convert_inv in H as [PB [I1 [I2 [-> [J1 [J2 ->]]]]]].
    unfold rel. set (u := mv4 PT w). assert (E : mv4 PF w = mv4 (m4_mul PF PB) u).
    { unfold u. rewrite mv4_mul, <- (mv4_mul PB PT), I2, mv4_1. auto. }
    rewrite E. destruct u as [u1 u2]. unfold mv4. cbn [fst snd]. rewrite vadd_eq_mv. rewrite mv_mul. split; intros H.
    - rewrite <- H, <- mv_mul, J2. now rewrite mv_1.
    - rewrite H, <- mv_mul, J1. now rewrite mv_1.
  Qed.

  Lemma det0_kernel : forall m : M2 K, m2_det m = 0 -> exists x, x <> (f0, f0) /\ mv m x = (f0, f0).
  Proof.
    intros m H. unfold m2_det in H.
    assert (D : forall x y : K, feqb x 0 && feqb y 0 = false -> (x, y) <> (f0, f0)).
    { intros x y E1 E2. injection E2 as -> ->. rewrite !feqb_refl in E1. discriminate. }
    destruct (feqb (e11 m) 0 && feqb (e12 m) 0) eqn:E1.
    - apply andb_true_iff in E1 as [E1 E2]. apply feqb_eq in E1, E2.
      destruct (feqb (e21 m) 0 && feqb (e22 m) 0) eqn:E3.
      + apply andb_true_iff in E3 as [E3 E4]. apply feqb_eq in E3, E4. exists (f1, f0). split.
        * intros E. injection E as E. now apply f1_neq_0. * unfold mv. cbn [fst snd]. rewrite E1, E2, E3, E4. f_equal; ring.
      + exists (e22 m, - e21 m). split.
        * intros E. injection E as Ea Eb. apply D in E3. apply E3. f_equal; auto. assert (e21 m = - - e21 m) as -> by ring. rewrite Eb. ring.
        * unfold mv. cbn [fst snd]. rewrite E1, E2. f_equal; ring.
    - exists (e12 m, - e11 m). split.
      + intros E. injection E as Ea Eb. apply D in E1. apply E1. f_equal; auto. assert (e11 m = - - e11 m) as -> by ring. rewrite Eb. ring.
      + unfold mv. cbn [fst snd]. f_equal; [ring|]. assert (e21 m * e12 m + e22 m * - e11 m = - (e11 m * e22 m - e12 m * e21 m)) as -> by ring.
        rewrite H. ring.
  Qed.

  (** If a matrix describing the network for [PT] exists, convert finds it. *)
  Lemma convert_def : forall PF PT PB a m, m4_inv PT = Ok PB -> (forall w, rel PF a w <-> rel PT m w) ->
    exists A B, convert PF PT a = Ok (m, A, B).
  Proof.
    intros PF PT PB a m I H. pose proof I as I'. apply m4_inv_ok in I' as [I1 I2]. set (P := m4_mul PF PB).
    assert (G : forall u1 u2, mv (m2_sub (tl2 P) (m2_mul a (bl2 P))) u1 = mv (m2_add (m2_opp (tr2 P)) (m2_mul a (br2 P))) u2 <-> u1 = mv m u2).
    { intros u1 u2. specialize (H (mv4 PB (u1, u2))). unfold rel in H. rewrite <- !mv4_mul, I1, mv4_1 in H. fold P in H. cbn [fst snd] in H.
      rewrite <- H. unfold mv4. cbn [fst snd]. symmetry. apply vadd_eq_mv. }
    assert (Dn : m2_det (m2_sub (tl2 P) (m2_mul a (bl2 P))) <> 0).
    { intros D0. apply det0_kernel in D0 as [x [N Ex]]. apply N.
      assert (Z : forall q : M2 K, mv q (f0, f0) = (f0, f0)) by (intros; unfold mv; cbn; f_equal; ring).
      destruct (G x (f0, f0)) as [G1 _]. rewrite !Z in G1. auto. }
    destruct (m2_inv_def _ Dn) as [A EA]. exists A, (m2_add (m2_opp (tr2 P)) (m2_mul a (br2 P))).
    unfold convert. rewrite I. cbn [bind]. fold P. rewrite EA. cbn [bind]. do 3 f_equal. apply m2_inv_ok in EA as [J1 [J2 _]].
    assert (U : forall u2, mv (m2_mul A (m2_add (m2_opp (tr2 P)) (m2_mul a (br2 P)))) u2 = mv m u2).
    { intros u2. apply G. rewrite <- mv_mul, <- m2_mul_assoc, J1, m2_mul_1_l. auto. }
    pose proof (U (f1, f0)) as U1. pose proof (U (f0, f1)) as U2. unfold mv in U1, U2. cbn [fst snd] in U1, U2.
    injection U1 as A1 A2. injection U2 as A3 A4. set (q := m2_mul A _) in *.
    assert (S1 : forall x y : K, x * 1 + y * 0 = x) by (intros; ring). assert (S2 : forall x y : K, x * 0 + y * 1 = y) by (intros; ring).
    rewrite !S1 in A1, A2. rewrite !S2 in A3, A4. now apply m2_eq.
  Qed.

  Lemma rel_unique : forall P PB m m', m4_inv P = Ok PB -> (forall w, rel P m w <-> rel P m' w) -> m = m'.
  Proof.
    intros P PB m m' I H. apply m4_inv_ok in I as [I1 _].
    assert (U : forall u2, mv m u2 = mv m' u2).
    { intros u2. specialize (H (mv4 PB (mv m u2, u2))). unfold rel in H. rewrite <- !mv4_mul, I1, mv4_1 in H. cbn [fst snd] in H. tauto. }
    pose proof (U (f1, f0)) as U1. pose proof (U (f0, f1)) as U2. unfold mv in U1, U2. cbn [fst snd] in U1, U2.
    injection U1 as A1 A2. injection U2 as A3 A4.
    assert (S1 : forall x y : K, x * 1 + y * 0 = x) by (intros; ring). assert (S2 : forall x y : K, x * 0 + y * 1 = y) by (intros; ring).
    rewrite !S1 in A1, A2. rewrite !S2 in A3, A4. now apply m2_eq.
  Qed.

  (** ** The P matrices *)
  Variable sq : K -> K.
  Hypothesis two : (1 + 1 : K) <> 0.

  Lemma good_neq : forall z, good_z sq z -> sq z <> 0 /\ z <> 0.
  Proof. intros z [H1 H2]. apply mul1_neq in H2 as [_ H2]. split; auto. rewrite <- H1. now apply fmul_neq. Qed.
  Lemma good_inv : forall z, good_z sq z -> sq (1 / z) = 1 / sq z.
  Proof. intros z G. destruct (good_neq z G) as [N _]. destruct G as [_ H]. assert (sq (1 / z) = (sq (1 / z) * sq z) / sq z) as -> by (field; auto). rewrite H. auto. Qed.

  Lemma Pmat_inv : forall k z, good_z sq z -> exists PB, m4_inv (Pmat sq k z) = Ok PB.
  Proof.
    intros k z G. destruct (good_neq z G) as [N _]. pose proof (good_inv z G) as I. unfold m4_inv.
    destruct (m4_det_adj (Pmat sq k z)) as [d adj] eqn:E.
    assert (d <> 0) as Hd.
    { assert (d = fst (m4_det_adj (Pmat sq k z))) as -> by (now rewrite E). clear E adj.
      unfold m4_det_adj, Pmat. rewrite I. set (r := sq z) in *.
      assert (T : exists c : K, c <> 0 /\ forall x, c * x = 1 -> x <> 0). { exists 1. split; [apply f1_neq_0|]. intros x H. now apply mul1_neq in H. }
      assert (C : forall c x : K, c * x = 1 -> x <> 0) by (intros c x H; now apply mul1_neq in H).
      destruct k; cbn [m4_rows m4_1 m2_1 m2_0 tl2 tr2 bl2 br2 e11 e12 e21 e22 fst]; unfold minor.
      1,2,4,5,6: first [apply (C 1); ring | apply (C (- (1))); ring].
      all: first [apply (C ((1 + 1) * (1 + 1))); field; auto | apply (C (- ((1 + 1) * (1 + 1)))); field; auto]. }
    apply feqb_neq in Hd. rewrite Hd. eauto.
  Qed.

  Lemma Pmat_ports : forall k z v1 v2 i1 i2, good_z sq z ->
    mv4 (Pmat sq k z) ((v1, v2), (i1, i2)) = (outs (sq z) k v1 v2 i1 i2, ins (sq z) k v1 v2 i1 i2).
  Proof.
    intros k z v1 v2 i1 i2 G. destruct (good_neq z G) as [N _]. pose proof (good_inv z G) as I.
    destruct k; unfold mv4, Pmat, vadd, mv; rewrite ?I;
      cbn [m4_1 m2_1 m2_0 tl2 tr2 bl2 br2 e11 e12 e21 e22 fst snd outs ins]; unfold inc, refl; pairs; try ring; field; auto.
  Qed.
  Lemma admits_rel : forall n v1 v2 i1 i2, good_z sq (n_z0 n) ->
    (admits sq n v1 v2 i1 i2 <-> rel (Pmat sq (n_kind n) (n_z0 n)) (n_m n) ((v1, v2), (i1, i2))).
  Proof.
    intros n v1 v2 i1 i2 G. unfold admits, admits_r, rel. rewrite Pmat_ports by auto. rewrite lin_mv. cbn [fst snd].
    now rewrite <- !surjective_pairing.
  Qed.
End P.
