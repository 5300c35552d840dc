(** Networks: constructors, chains, cascades. *)
From Coq Require Import Ring Field List Bool.
From Verif Require Import Model_NdArray Model_Network Spec_Network Proofs_Network.
Import ListNotations.

Lemma kind_eqb_eq : forall a b, kind_eqb a b = true <-> a = b.
Proof. intros [] []; simpl; split; congruence. Qed.

Section P.
  Context {K : fld}.
  Local Open Scope fld_scope.
  Add Field Kfield2 : (fth K).
  Variables (sq : K -> K) (z50 : K).
  Hypothesis two : (1 + 1 : K) <> 0.
  Hypothesis g50 : good_z sq z50.

  Lemma lin_inv : forall m b : M2 K, m2_inv m = Ok b -> forall y1 y2 x1 x2, lin m y1 y2 x1 x2 <-> lin b x1 x2 y1 y2.
  Proof.
    intros m b H y1 y2 x1 x2. apply m2_inv_ok in H as [H1 [H2 _]]. rewrite !lin_mv. split; intros E.
    - rewrite E, <- mv_mul, H2. now rewrite mv_1.
    - rewrite E, <- mv_mul, H1. now rewrite mv_1.
  Qed.

  (** The reference impedance of the result. *)
  Lemma construct_z : forall k zarg n n', construct sq z50 k zarg (Net n) = Ok n' -> n_kind n' = k /\
    (n_z0 n' = z50 \/ (k <> KS /\ n_z0 n' = n_z0 n) \/ (k = KS /\ zarg = Some (n_z0 n'))).
  Proof.
    intros k zarg n n' H. unfold construct in H.
    destruct (_ || _). { destruct (m2_inv _); [|discriminate]. injection H as <-. auto. }
    destruct (_ && _). { injection H as <-. auto. }
    destruct (convert _ _ _) as [[[r A] B]|]; [|discriminate]. cbn [bind fst] in H. injection H as <-. cbn [n_kind n_z0]. split; auto.
    destruct k; try (right; left; split; [discriminate|reflexivity]). destruct zarg; auto.
  Qed.
  Lemma construct_good : forall k zarg n n', construct sq z50 k zarg (Net n) = Ok n' -> good_z sq (n_z0 n) ->
    (forall z, zarg = Some z -> good_z sq z) -> good_z sq (n_z0 n').
  Proof.
    intros k zarg n n' H G GZ. apply construct_z in H as [_ [->|[[_ ->]|[_ E]]]]; auto.
  Qed.

  Lemma construct_same : forall k zarg n n', construct sq z50 k zarg (Net n) = Ok n' -> good_z sq (n_z0 n) ->
    (forall z, zarg = Some z -> good_z sq z) -> same_network sq n n'.
  Proof.
    intros k zarg n n' H G GZ. pose proof (construct_good _ _ _ _ H G GZ) as G'. unfold construct in H.
    destruct (kind_eqb k KZ && kind_eqb (n_kind n) KY || kind_eqb k KY && kind_eqb (n_kind n) KZ) eqn:E1.
    { destruct (m2_inv (n_m n)) as [b|] eqn:EI; [|discriminate]. injection H as <-. intros v1 v2 i1 i2. unfold admits. cbn [n_kind n_z0 n_m].
      apply orb_true_iff in E1 as [E1|E1]; apply andb_true_iff in E1 as [E1 E2]; apply kind_eqb_eq in E1, E2; subst; rewrite E2;
        cbn [admits_r outs ins fst snd]; unfold admits_r; cbn [outs ins fst snd]; now apply lin_inv. }
    destruct (kind_eqb k (n_kind n) && feqb z50 (n_z0 n)) eqn:E2.
    { apply andb_true_iff in E2 as [E2 E3]. apply kind_eqb_eq in E2. apply feqb_eq in E3. injection H as <-. subst k. rewrite E3.
      destruct n. intros v1 v2 i1 i2. reflexivity. }
    destruct (convert _ _ _) as [[[r A] B]|] eqn:EC; [|discriminate]. cbn [bind fst] in H. injection H as <-.
    intros v1 v2 i1 i2. rewrite !admits_rel by auto. cbn [n_kind n_z0 n_m]. eapply convert_rel; eauto.
  Qed.

  Lemma same_unique : forall n n', n_kind n = n_kind n' -> n_z0 n = n_z0 n' -> good_z sq (n_z0 n) -> same_network sq n n' -> n = n'.
  Proof.
    intros [k z m] [k' z' m']. cbn [n_kind n_z0 n_m]. intros <- <- G S. f_equal. destruct (Pmat_inv sq two k z G) as [PB I].
    eapply rel_unique; eauto. intros [[v1 v2] [i1 i2]]. specialize (S v1 v2 i1 i2). rewrite !admits_rel in S by auto. exact S.
  Qed.
  Lemma same_sym : forall n n', same_network sq n n' -> same_network sq n' n.
  Proof. intros n n' H v1 v2 i1 i2. symmetry. apply H. Qed.
  Lemma same_trans : forall a b c, same_network sq a b -> same_network sq b c -> same_network sq a c.
  Proof. intros a b c H H' v1 v2 i1 i2. now rewrite (H v1 v2 i1 i2). Qed.

  Lemma construct_def : forall k n m, good_z sq (n_z0 n) ->
    same_network sq n (mkNet k (match k with KS => z50 | _ => n_z0 n end) m) ->
    exists n', construct sq z50 k None (Net n) = Ok n' /\ n_m n' = m.
  Proof.
    intros k n m G S. set (z := match k with KS => z50 | _ => n_z0 n end) in *.
    assert (Gz : good_z sq z) by (unfold z; destruct k; auto).
    assert (EX : exists n', construct sq z50 k None (Net n) = Ok n').
    { unfold construct.
      destruct (kind_eqb k KZ && kind_eqb (n_kind n) KY || kind_eqb k KY && kind_eqb (n_kind n) KZ) eqn:E1.
      { assert (D : m2_det (n_m n) <> 0).
        { intros D0. apply det0_kernel in D0 as [x [N Ex]]. apply N. destruct x as [x1 x2].
          apply orb_true_iff in E1 as [E1|E1]; apply andb_true_iff in E1 as [E1 E2]; apply kind_eqb_eq in E1, E2; subst k.
          - destruct (S x1 x2 0 0) as [S1 _]. unfold admits, admits_r in S1. rewrite E2 in S1. cbn [outs ins fst snd n_kind n_m] in S1. rewrite !lin_mv in S1.
            rewrite Ex in S1. rewrite (S1 eq_refl). unfold mv. cbn [fst snd]. f_equal; ring.
          - destruct (S 0 0 x1 x2) as [S1 _]. unfold admits, admits_r in S1. rewrite E2 in S1. cbn [outs ins fst snd n_kind n_m] in S1. rewrite !lin_mv in S1.
            rewrite Ex in S1. rewrite (S1 eq_refl). unfold mv. cbn [fst snd]. f_equal; ring. }
        apply m2_inv_def in D as [b ->]. cbn [bind]. eauto. }
      destruct (kind_eqb k (n_kind n) && feqb z50 (n_z0 n)) eqn:E2; [eauto|].
      change (match k with KS => z50 | _ => n_z0 n end) with z.
      destruct (Pmat_inv sq two k z Gz) as [PB I].
      destruct (convert_def (Pmat sq (n_kind n) (n_z0 n)) (Pmat sq k z) PB (n_m n) m I) as [A [B C]].
      { intros [[v1 v2] [i1 i2]]. specialize (S v1 v2 i1 i2). rewrite !admits_rel in S by auto. exact S. }
      rewrite C. cbn [bind]. eauto. }
    destruct EX as [n' E]. exists n'. split; auto.
    pose proof (construct_same _ _ _ _ E G) as S'. specialize (S' ltac:(discriminate)).
    pose proof (construct_z _ _ _ _ E) as [Kk Zz].
    pose proof (same_trans _ _ _ (same_sym _ _ S') S) as S2.
    assert (M : forall z' m', (k = KZ \/ k = KY \/ k = KG \/ k = KH \/ k = KABCD) \/ z' = z -> good_z sq z' ->
       same_network sq (mkNet k z' m') (mkNet k z m) -> m' = m).
    { intros z' m' Hk G1 S1. assert (mkNet k z m' = mkNet k z m) as EQ; [|congruence].
      apply same_unique; auto. destruct Hk as [Hk| ->]; auto.
      intros v1 v2 i1 i2. rewrite <- (S1 v1 v2 i1 i2). unfold admits. unfold admits_r. cbn [n_kind n_z0 n_m].
      destruct Hk as [->|[->|[->|[->| ->]]]]; reflexivity. }
    destruct n' as [k' z' m']. cbn [n_kind n_z0 n_m] in *. subst k'.
    assert (G' : good_z sq z'). { destruct Zz as [->|[[_ ->]|[_ X]]]; auto; discriminate. }
    apply (M z'); auto. destruct k; auto 6; right; unfold z.
    - destruct Zz as [->|[[X _]|[_ X]]]; congruence.
    - unfold construct in E. cbn [kind_eqb andb orb] in E. destruct (n_kind n); cbn [kind_eqb andb] in E;
        try (destruct (convert _ _ _); [|discriminate]; cbn [bind] in E; injection E as <- _; reflexivity).
      destruct (feqb z50 (n_z0 n)) eqn:F; [|destruct (convert _ _ _); [|discriminate]; cbn [bind] in E; injection E as <- _; reflexivity].
      injection E as <- _. now apply feqb_eq.
    - unfold construct in E. cbn [kind_eqb andb orb] in E. destruct (n_kind n); cbn [kind_eqb andb] in E;
        try (destruct (convert _ _ _); [|discriminate]; cbn [bind] in E; injection E as <- _; reflexivity).
      destruct (feqb z50 (n_z0 n)) eqn:F; [|destruct (convert _ _ _); [|discriminate]; cbn [bind] in E; injection E as <- _; reflexivity].
      injection E as <- _. now apply feqb_eq.
  Qed.

  (** ** Chains of conversions *)
  Fixpoint chain (ks : list kind) (n : net K) : result (net K) :=
    match ks with [] => Ok n | k :: ks' => do n' <- construct sq z50 k None (Net n); chain ks' n' end.
  Lemma chain_same : forall ks n n', chain ks n = Ok n' -> good_z sq (n_z0 n) -> same_network sq n n' /\ good_z sq (n_z0 n') /\
    (n_z0 n = z50 -> n_z0 n' = z50).
  Proof.
    induction ks as [|k ks IH]; intros n n' H G; cbn [chain] in H.
    - injection H as <-. split; [intros ? ? ? ?; reflexivity|]. auto.
    - destruct (construct _ _ _ _ _) as [n1|] eqn:E; [|discriminate]. cbn [bind] in H.
      assert (G1 : good_z sq (n_z0 n1)) by (eapply construct_good; eauto; discriminate).
      destruct (IH _ _ H G1) as [S [G2 Z]]. split.
      + eapply same_trans; eauto. eapply construct_same; eauto. discriminate.
      + split; auto. intros Zn. apply Z. apply construct_z in E as [_ [->|[[_ ->]|[_ X]]]]; auto. discriminate.
  Qed.

  (** ** Waves *)
  Lemma cascade_waves : forall S1 S2 : M2 K, 1 - e22 S1 * e11 S2 <> 0 ->
    forall b1 b2 a1 a2, connected_waves S1 S2 b1 b2 a1 a2 <-> lin (cascadeS S1 S2) b1 b2 a1 a2.
  Proof.
    intros [p11 p12 p21 p22] [q11 q12 q21 q22] D b1 b2 a1 a2. cbn [e11 e22] in D. unfold connected_waves, lin, cascadeS, m2_det.
    cbn [e11 e12 e21 e22]. split.
    - intros [x [y [[H1 H2] [H3 H4]]]].
      assert (Hy : y = (p21 * a1 + p22 * q12 * a2) / (1 - p22 * q11)).
      { assert (E : y * (1 - p22 * q11) = (y - (p21 * a1 + p22 * x)) + (p21 * a1 + p22 * q12 * a2)) by (rewrite H3; ring).
        assert (Z : y - (p21 * a1 + p22 * x) = 0) by (rewrite <- H2; ring). rewrite Z in E.
        assert (y = y * (1 - p22 * q11) / (1 - p22 * q11)) as -> by (field; auto). rewrite E. field. auto. }
      subst x. subst y. split; [rewrite H1|rewrite H4]; field; auto.
    - intros [H1 H2]. set (y := (p21 * a1 + p22 * q12 * a2) / (1 - p22 * q11)). exists (q11 * y + q12 * a2), y.
      rewrite H1, H2. unfold y. repeat split; try reflexivity; field; auto.
  Qed.

  (** ** Noise sources *)
  Definition resid (P : M4 K) (a : M2 K) (w : (K * K) * (K * K)) : K * K := vadd (fst (mv4 P w)) (vopp (mv a (snd (mv4 P w)))).
  Lemma mv_vadd : forall (m : M2 K) x y, mv m (vadd x y) = vadd (mv m x) (mv m y).
  Proof. intros m [] []. unfold mv, vadd. cbn [fst snd]. f_equal; ring. Qed.
  Lemma convert_resid : forall PF PT (a r A B : M2 K), convert PF PT a = Ok (r, A, B) ->
    forall w, mv A (resid PF a w) = resid PT r w.
  Proof.
    intros PF PT a r A B H w. apply convert_inv in H as [PB [I1 [I2 [-> [J1 [J2 ->]]]]]].
    unfold resid. set (u := mv4 PT w). assert (E : mv4 PF w = mv4 (m4_mul PF PB) u).
    { unfold u. rewrite mv4_mul, <- (mv4_mul PB PT), I2, mv4_1. auto. }
    rewrite E. destruct u as [u1 u2]. unfold mv4. cbn [fst snd]. set (P := m4_mul PF PB) in *.
    assert (R : vadd (vadd (mv (tl2 P) u1) (mv (tr2 P) u2)) (vopp (mv a (vadd (mv (bl2 P) u1) (mv (br2 P) u2)))) =
      vadd (mv (m2_sub (tl2 P) (m2_mul a (bl2 P))) u1) (vopp (mv (m2_add (m2_opp (tr2 P)) (m2_mul a (br2 P))) u2))).
    { destruct u1, u2. unfold vadd, vopp, mv. cbn [fst snd m2_sub m2_mul m2_add m2_opp e11 e12 e21 e22]. f_equal; ring. }
    assert (VO : forall (m : M2 K) (x : K * K), mv m (vopp x) = vopp (mv m x)) by (intros m []; unfold mv, vopp; cbn [fst snd]; f_equal; ring).
    rewrite R, mv_vadd, VO. rewrite <- !mv_mul, J2, mv_1. reflexivity.
  Qed.
  Lemma resid_onto : forall (P PB : M4 K) a e, m4_inv P = Ok PB -> exists w, resid P a w = e.
  Proof.
    intros P PB a e H. apply m4_inv_ok in H as [H _]. exists (mv4 PB (e, (f0, f0))). unfold resid. rewrite <- mv4_mul, H, mv4_1.
    destruct e. unfold vadd, vopp, mv. cbn [fst snd]. f_equal; ring.
  Qed.
  Lemma mv_ext : forall m m' : M2 K, (forall x, mv m x = mv m' x) -> m = m'.
  Proof.
    intros m m' U. pose proof (U (f1, f0)) as U1. pose proof (U (f0, f1)) as U2. unfold mv in U1, U2. cbn [fst snd] in U1, U2.
    injection U1 as A1 A2. injection U2 as A3 A4.
    assert (S1 : forall x y : K, x * 1 + y * 0 = x) by (intros; ring). assert (S2 : forall x y : K, x * 0 + y * 1 = y) by (intros; ring).
    rewrite !S1 in A1, A2. rewrite !S2 in A3, A4. now apply m2_eq.
  Qed.
  Lemma noisy_resid : forall n e1 e2 v1 v2 i1 i2, good_z sq (n_z0 n) ->
    (admits_noisy sq n e1 e2 v1 v2 i1 i2 <-> resid (Pmat sq (n_kind n) (n_z0 n)) (n_m n) ((v1, v2), (i1, i2)) = (e1, e2)).
  Proof.
    intros n e1 e2 v1 v2 i1 i2 G. unfold admits_noisy, resid. rewrite Pmat_ports by auto. cbn [fst snd].
    destruct (outs _ _ _ _ _ _) as [o1 o2]. destruct (ins _ _ _ _ _ _) as [x1 x2]. unfold lin, mv, vadd, vopp. cbn [fst snd].
    assert (DIF : forall p q s : K, p - s = q <-> p + - q = s).
    { intros p q s. split; intros H; [rewrite <- H|rewrite <- H]; ring. }
    rewrite (DIF o1), (DIF o2). split; [intros [-> ->]; auto|intros H; injection H as -> ->; auto].
  Qed.

  Variable conj : K -> K.
  Hypothesis conj_add : forall x y, conj (x + y) = conj x + conj y.
  Hypothesis conj_mul : forall x y, conj (x * y) = conj x * conj y.
  Hypothesis conj_conj : forall x, conj (conj x) = x.
  Lemma hconj_mul : forall a b : M2 K, hconj conj (m2_mul a b) = m2_mul (hconj conj b) (hconj conj a).
  Proof. intros. apply m2_eq; cbn [hconj m2_mul e11 e12 e21 e22]; rewrite conj_add, !conj_mul; ring. Qed.
  Lemma hconj_hconj : forall a : M2 K, hconj conj (hconj conj a) = a.
  Proof. intros. apply m2_eq; cbn [hconj e11 e12 e21 e22]; auto. Qed.

  Lemma noisy_convert_inv : forall dest x y, noisy_convert sq z50 conj dest x = Ok y -> good_z sq (n_z0 (ny_net x)) ->
    hconj conj (ny_c x) = ny_c x ->
    construct sq z50 dest None (Net (ny_net x)) = Ok (ny_net y) /\ hconj conj (ny_c y) = ny_c y /\
    exists T, ny_c y = m2_mul (m2_mul T (ny_c x)) (hconj conj T) /\
      forall w, mv T (resid (Pmat sq (n_kind (ny_net x)) (n_z0 (ny_net x))) (n_m (ny_net x)) w) =
        resid (Pmat sq (n_kind (ny_net y)) (n_z0 (ny_net y))) (n_m (ny_net y)) w.
  Proof.
    intros dest x y H G HC. unfold noisy_convert in H. destruct (construct _ _ _ _ _) as [N|] eqn:EN; [|discriminate]. cbn [bind] in H.
    destruct (convert _ _ _) as [[[r T] B]|] eqn:EC; [|discriminate]. cbn [bind fst snd] in H. injection H as <-. cbn [ny_net ny_c].
    split; auto.
    match goal with |- hconj conj ?M = _ /\ _ => set (C' := M) end.
    set (C := m2_mul (m2_mul T (ny_c x)) (hconj conj T)).
    assert (HCC : hconj conj C = C). { unfold C. rewrite !hconj_mul, hconj_hconj, HC, m2_mul_assoc. reflexivity. }
    assert (RE : forall c, conj c = c -> re conj c = c) by (intros c E; unfold re; rewrite E; field; auto).
    assert (EC2 : mkM2 (re conj (e11 C)) (e12 C) (e21 C) (re conj (e22 C)) = C).
    { rewrite !RE; [destruct C; reflexivity| |].
      - rewrite <- HCC at 2. reflexivity. - rewrite <- HCC at 2. reflexivity. }
    assert (C' = C) as -> by exact EC2. split; auto. exists T. split; auto.
    assert (Er : r = n_m N).
    { assert (GN : good_z sq (n_z0 N)) by (eapply construct_good; eauto; discriminate).
      destruct (Pmat_inv sq two (n_kind N) (n_z0 N) GN) as [PB I]. eapply rel_unique; [exact I|].
      intros [[v1 v2] [i1 i2]]. rewrite <- (convert_rel _ _ _ _ _ _ EC). rewrite <- admits_rel by auto.
      rewrite <- (admits_rel sq two N) by auto. eapply construct_same; eauto. discriminate. }
    rewrite <- Er. intros w. eapply convert_resid; eauto.
  Qed.

  Fixpoint noisy_chain (ks : list kind) (x : noisy) : result noisy :=
    match ks with [] => Ok x | k :: ks' => do y <- noisy_convert sq z50 conj k x; noisy_chain ks' y end.
  Hypothesis conj_1 : conj 1 = 1.
  Hypothesis conj_0 : conj 0 = 0.
  Lemma noisy_chain_ok : forall ks x y, noisy_chain ks x = Ok y -> good_z sq (n_z0 (ny_net x)) -> hconj conj (ny_c x) = ny_c x ->
    chain ks (ny_net x) = Ok (ny_net y) /\ hconj conj (ny_c y) = ny_c y /\
    exists T, ny_c y = m2_mul (m2_mul T (ny_c x)) (hconj conj T) /\
      forall w, mv T (resid (Pmat sq (n_kind (ny_net x)) (n_z0 (ny_net x))) (n_m (ny_net x)) w) =
        resid (Pmat sq (n_kind (ny_net y)) (n_z0 (ny_net y))) (n_m (ny_net y)) w.
  Proof.
    induction ks as [|k ks IH]; intros x y H G HC; cbn [noisy_chain chain] in *.
    - injection H as <-. split; auto. split; auto. exists m2_1. split.
      + assert (hconj conj m2_1 = m2_1) as -> by (apply m2_eq; cbn [hconj m2_1 e11 e12 e21 e22]; auto). now rewrite m2_mul_1_l, m2_mul_1_r.
      + intros. now rewrite mv_1.
    - destruct (noisy_convert _ _ _ _ _) as [x1|] eqn:E; [|discriminate]. cbn [bind] in H.
      destruct (noisy_convert_inv _ _ _ E G HC) as [N1 [H1 [T1 [C1 R1]]]].
      assert (G1 : good_z sq (n_z0 (ny_net x1))) by (eapply construct_good; eauto; discriminate).
      destruct (IH _ _ H G1 H1) as [N2 [H2 [T2 [C2 R2]]]].
      rewrite N1. cbn [bind]. split; auto. split; auto. exists (m2_mul T2 T1). split.
      + rewrite C2, C1, hconj_mul, !m2_mul_assoc. reflexivity.
      + intros w. now rewrite mv_mul, R1, R2.
  Qed.
End P.
