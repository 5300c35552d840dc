(** Noise parameters and passive noise. *)
From Coq Require Import Ring Field Reals Lra List Bool.
From Verif Require Import Model_NdArray Model_Network Model_Noise Spec_Network Proofs_Network Proofs_Network2.
Import ListNotations.

(** ** Passive noise, over any field *)
Section Passive.
  Context {K : fld}.
  Add Field Kpas : (fth K).
  Local Open Scope fld_scope.
  Variables (sq : K -> K) (z50 : K) (conj : K -> K).
  Hypothesis two : (1 + 1 : K) <> 0.
  Hypothesis g50 : good_z sq z50.
  Hypothesis conj_add : forall x y, conj (x + y) = conj x + conj y.
  Hypothesis conj_mul : forall x y, conj (x * y) = conj x * conj y.
  Hypothesis conj_conj : forall x, conj (conj x) = x.
  Hypothesis conj_1 : conj 1 = 1.

  Lemma conj_0 : conj 0 = 0.
  Proof.
    assert (E : conj 0 + conj 0 = conj 0) by (rewrite <- conj_add; f_equal; ring).
    assert (conj 0 = (conj 0 + conj 0) - conj 0) as -> by ring. rewrite E. ring.
  Qed.
  Lemma conj_opp : forall x, conj (- x) = - conj x.
  Proof.
    intros x. assert (E : conj (- x) + conj x = 0) by (rewrite <- conj_add, <- conj_0; f_equal; ring).
    assert (conj (- x) = (conj (- x) + conj x) - conj x) as -> by ring. rewrite E. ring.
  Qed.
  Lemma conj_sub : forall x y, conj (x - y) = conj x - conj y.
  Proof. intros. assert (x - y = x + - y) as -> by ring. rewrite conj_add, conj_opp. ring. Qed.

  (** resid w = Rv v + Ri i *)
  Definition Rv (P : M4 K) (a : M2 K) : M2 K := m2_sub (tl2 P) (m2_mul a (bl2 P)).
  Definition Ri (P : M4 K) (a : M2 K) : M2 K := m2_sub (tr2 P) (m2_mul a (br2 P)).
  Lemma resid_blocks : forall P a v i, resid P a (v, i) = vadd (mv (Rv P a) v) (mv (Ri P a) i).
  Proof.
    intros P a [v1 v2] [i1 i2]. unfold resid, mv4, Rv, Ri, vadd, vopp, mv. cbn [fst snd m2_sub m2_mul e11 e12 e21 e22]. f_equal; ring.
  Qed.
  Lemma mv_0 : forall m : M2 K, mv m (0, 0) = (0, 0).
  Proof. intros. unfold mv. cbn [fst snd]. f_equal; ring. Qed.
  Lemma blocks_map : forall P a P' a' T, (forall w, mv T (resid P a w) = resid P' a' w) ->
    Rv P' a' = m2_mul T (Rv P a) /\ Ri P' a' = m2_mul T (Ri P a).
  Proof.
    intros P a P' a' T H.
    assert (Z1 : forall x : K * K, vadd x (0, 0) = x) by (intros []; unfold vadd; cbn [fst snd]; f_equal; ring).
    assert (Z2 : forall x : K * K, vadd (0, 0) x = x) by (intros []; unfold vadd; cbn [fst snd]; f_equal; ring).
    split; apply mv_ext; intros x; rewrite mv_mul.
    - specialize (H (x, (0, 0))). rewrite !resid_blocks, !mv_0, !Z1 in H. auto.
    - specialize (H ((0, 0), x)). rewrite !resid_blocks, !mv_0, !Z2 in H. auto.
  Qed.
  (** The Hermitian form of the power entering the ports. *)
  Definition form (A B : M2 K) : M2 K := m2_add (m2_mul A (hconj conj B)) (m2_mul B (hconj conj A)).
  Lemma form_map : forall T A B, form (m2_mul T A) (m2_mul T B) = m2_mul (m2_mul T (form A B)) (hconj conj T).
  Proof.
    intros. unfold form. rewrite !(hconj_mul conj conj_add conj_mul). apply m2_eq; cbn [m2_add m2_mul e11 e12 e21 e22]; ring.
  Qed.
  Lemma scale_map : forall c T A, m2_scale c (m2_mul (m2_mul T A) (hconj conj T)) = m2_mul (m2_mul T (m2_scale c A)) (hconj conj T).
  Proof. intros. apply m2_eq; cbn [m2_scale m2_mul e11 e12 e21 e22]; ring. Qed.

  Lemma good_y : sq (1 / z50) = 1 / sq z50.
  Proof. now apply (good_inv sq). Qed.
  Hypothesis real_r : conj (sq z50) = sq z50.
  Lemma conj_inv_r : conj (1 / sq z50) = 1 / sq z50.
  Proof.
    destruct (good_neq sq z50 g50) as [N _].
    assert (E : conj (1 / sq z50) * sq z50 = 1).
    { assert (E : conj (1 / sq z50) * conj (sq z50) = 1).
      { rewrite <- conj_mul. assert (1 / sq z50 * sq z50 = 1) as -> by (field; auto). exact conj_1. }
      now rewrite real_r in E. }
    assert (conj (1 / sq z50) = conj (1 / sq z50) * sq z50 / sq z50) as -> by (field; auto). rewrite E. reflexivity.
  Qed.
  Lemma conj_half : forall x, conj (x / (1 + 1)) = conj x / (1 + 1).
  Proof.
    intros x. assert (E : conj (x / (1 + 1)) * (1 + 1) = conj x).
    { assert (C2 : conj (1 + 1) = 1 + 1) by (rewrite conj_add, conj_1; reflexivity).
      assert (E : conj (x / (1 + 1)) * conj (1 + 1) = conj x) by (rewrite <- conj_mul; f_equal; field; auto). now rewrite C2 in E. }
    rewrite <- E. field. auto.
  Qed.
  Variable kT : K.
  (** The correlation matrix of a passive network, uniformly. *)
  Lemma passive_form : forall n x, n_z0 n = z50 -> passive_noise conj kT n = Ok x ->
    ny_net x = n /\
    let P := Pmat sq (n_kind n) (n_z0 n) in
    ny_c x = m2_scale (- ((1 + 1) * kT)) (form (Rv P (n_m n)) (Ri P (n_m n))).
  Proof.
    intros [k z m] x E H. cbn [n_z0 n_kind n_m] in *. subst z. unfold passive_noise in H. cbn [n_kind n_m] in H.
    destruct (good_neq sq z50 g50) as [N _].
    assert (c0 := conj_0). assert (ci := conj_inv_r).
    destruct k; try discriminate; injection H as <-; cbn [ny_net ny_c]; (split; [reflexivity|]);
      apply m2_eq; unfold form, Rv, Ri, Pmat;
      cbn [m2_scale m2_add m2_sub m2_mul m2_0 m2_1 hconj m4_1 tl2 tr2 bl2 br2 e11 e12 e21 e22];
      rewrite ?good_y, ?conj_sub, ?conj_add, ?conj_mul, ?conj_sub, ?conj_add, ?conj_mul, ?conj_opp, ?conj_half, ?conj_sub, ?conj_add, ?conj_mul, ?conj_opp, ?ci, ?real_r, ?c0, ?conj_1;
      try ring; field; auto.
  Qed.
  (** A conversion succeeds if the network construction does. *)
  Lemma noisy_convert_def : forall dest x n', good_z sq (n_z0 (ny_net x)) -> construct sq z50 dest None (Net (ny_net x)) = Ok n' ->
    exists y, noisy_convert sq z50 conj dest x = Ok y.
  Proof.
    intros dest x n' G H. unfold noisy_convert. rewrite H. cbn [bind].
    assert (G' : good_z sq (n_z0 n')) by (refine (construct_good sq z50 g50 _ _ _ _ H G _); discriminate).
    pose proof (construct_same sq z50 two g50 _ _ _ _ H G) as S. specialize (S ltac:(discriminate)).
    destruct (Pmat_inv sq two (n_kind n') (n_z0 n') G') as [PB I].
    destruct (convert_def (Pmat sq (n_kind (ny_net x)) (n_z0 (ny_net x))) _ PB (n_m (ny_net x)) (n_m n') I) as [A [B C]].
    { intros [[v1 v2] [i1 i2]]. specialize (S v1 v2 i1 i2). rewrite !(admits_rel sq two) in S by auto. exact S. }
    rewrite C. cbn [bind]. eauto.
  Qed.
  Hypothesis real_kT : conj kT = kT.
  Lemma passive_hermitian : forall n x, passive_noise conj kT n = Ok x -> hconj conj (ny_c x) = ny_c x.
  Proof.
    intros n x H. unfold passive_noise in H. assert (C2 : conj (1 + 1) = 1 + 1) by (rewrite conj_add, conj_1; reflexivity). assert (c0 := conj_0).
    destruct (n_kind n); try discriminate; injection H as <-; cbn [ny_c]; apply m2_eq;
      cbn [hconj m2_scale m2_add m2_sub m2_mul m2_1 e11 e12 e21 e22];
      rewrite ?conj_mul, ?conj_sub, ?conj_add, ?conj_mul, ?conj_conj, ?C2, ?real_kT, ?c0, ?conj_1; ring.
  Qed.
  Lemma passive_convert : forall n x dest y z, n_z0 n = z50 -> passive_noise conj kT n = Ok x -> noisy_convert sq z50 conj dest x = Ok y ->
    passive_noise conj kT (ny_net y) = Ok z -> z = y.
  Proof.
    intros n x dest y z Z Hx Hy Hz. destruct (passive_form n x Z Hx) as [En Cx]. subst n.
    assert (G : good_z sq (n_z0 (ny_net x))) by (now rewrite Z).
    destruct (noisy_convert_inv sq z50 two g50 conj conj_add conj_mul conj_conj dest x y Hy G (passive_hermitian _ _ Hx)) as [N [_ [T [C R]]]].
    assert (Zy : n_z0 (ny_net y) = z50).
    { destruct (construct_z _ _ _ _ _ _ N) as [_ [E|[[_ E]|[_ E]]]]; congruence. }
    destruct (passive_form _ z Zy Hz) as [Ez Cz]. destruct z as [zn zc], y as [yn yc]. cbn [ny_net ny_c] in *. subst zn. f_equal.
    destruct (blocks_map _ _ _ _ _ R) as [B1 B2]. rewrite Cz, B1, B2, form_map, scale_map, C, Cx. reflexivity.
  Qed.
End Passive.

(** ** Noise parameters *)
Local Open Scope R_scope.
Lemma Cpair : forall x y : Cx, fst x = fst y -> snd x = snd y -> x = y.
Proof. intros [] []. cbn [fst snd]. congruence. Qed.
Lemma Cconj_add : forall x y, Cconj (Cadd x y) = Cadd (Cconj x) (Cconj y).
Proof. intros. apply Cpair; cbn; ring. Qed.
Lemma Cconj_mul : forall x y, Cconj (Cmul x y) = Cmul (Cconj x) (Cconj y).
Proof. intros. apply Cpair; cbn; ring. Qed.
Lemma Cconj_conj : forall x, Cconj (Cconj x) = x.
Proof. intros. apply Cpair; cbn; ring. Qed.
Lemma Ctwo : @fadd fC f1 f1 <> f0.
Proof. intros E. cbn in E. injection E as E _. lra. Qed.
Lemma Cabs2_nonneg : forall x, 0 <= Cabs2 x.
Proof. intros. unfold Cabs2. pose proof (Rle_0_sqr (fst x)). pose proof (Rle_0_sqr (snd x)). unfold Rsqr in *. lra. Qed.
Lemma Csqrt_real : forall x, 0 <= x -> Csqrt (RtoC x) = RtoC (sqrt x).
Proof.
  intros x H. unfold Csqrt, RtoC, Cabs2. cbn [fst snd]. assert (x * x + 0 * 0 = x * x) as -> by ring. rewrite sqrt_square by auto.
  destruct (Rlt_dec 0 0); [lra|]. f_equal; [f_equal; field|]. assert ((x - x) / 2 = 0) as -> by field. apply sqrt_0.
Qed.
Lemma good50 : @good_z fC Csqrt z50.
Proof.
  split.
  - unfold z50. rewrite Csqrt_real by lra. apply Cpair; cbn; [|ring]. rewrite Rmult_0_l, Rminus_0_r. apply sqrt_sqrt. lra.
  - assert (E : @fdiv fC f1 z50 = RtoC (1 / 50)) by (apply Cpair; cbn; unfold Cabs2; cbn; field).
    rewrite E. unfold z50. rewrite !Csqrt_real by lra. apply Cpair; cbn; [|ring]. rewrite Rmult_0_l, Rminus_0_r.
    rewrite <- sqrt_mult by lra. assert (1 / 50 * 50 = 1) as -> by field. apply sqrt_1.
Qed.

Add Field Cf : Cfth.
Ltac ringC := match goal with |- @eq _ ?l ?r => change (@eq Cx l r) end; ring.
Lemma Cabs_mul : forall x, RtoC (sqrt (Cabs2 x) * sqrt (Cabs2 x)) = Cmul x (Cconj x).
Proof. intros x. rewrite sqrt_sqrt by apply Cabs2_nonneg. apply Cpair; unfold Cabs2, Cmul, Cconj, RtoC; cbn [fst snd]; ring. Qed.

(** The sources of an ABCD description seen in the Y description. *)
Lemma ABCD_to_Y : forall (x y : net fC) T, n_kind x = KABCD -> n_kind y = KY ->
  (forall w, mv T (resid (@Pmat fC Csqrt (n_kind x) (n_z0 x)) (n_m x) w) = resid (@Pmat fC Csqrt (n_kind y) (n_z0 y)) (n_m y) w) ->
  T = @mkM2 fC (Copp (e11 (n_m y))) (1, 0) (Copp (e21 (n_m y))) (0, 0) /\ e21 (n_m y) <> (0, 0).
Proof.
  intros [kx zx mx] [ky zy my] T E1 E2 H. cbn [n_kind n_z0 n_m] in *. subst kx ky.
  assert (ET : T = @mkM2 fC (Copp (e11 my)) (1, 0) (Copp (e21 my)) (0, 0)).
  { apply mv_ext. intros [v i]. specialize (H ((v, (0, 0)), (i, (0, 0)))).
    assert (R1 : resid (@Pmat fC Csqrt KABCD zx) mx ((v, (0, 0)), (i, (0, 0))) = (v, i)).
    { unfold resid, mv4, Pmat, vadd, vopp, mv. apply injective_projections; cbn [fst snd m2_sub m2_mul m2_add m2_0 m2_1 tl2 tr2 bl2 br2 e11 e12 e21 e22 f0 f1 fadd fmul fsub fopp fC]; ringC. }
    rewrite R1 in H. rewrite H. unfold resid, mv4, Pmat, vadd, vopp, mv. apply injective_projections; cbn [fst snd m2_sub m2_mul m2_add m2_0 m2_1 tl2 tr2 bl2 br2 e11 e12 e21 e22 f0 f1 fadd fmul fsub fopp fC]; ringC. }
  split; auto. intros E0.
  destruct (Pmat_inv (K := fC) Csqrt Ctwo KY z50 good50) as [PB I].
  destruct (resid_onto _ _ my ((0, 0), (1, 0)) I) as [w Ew].
  specialize (H w). assert (EP : @Pmat fC Csqrt KY zy = @Pmat fC Csqrt KY z50) by reflexivity. rewrite EP, Ew, ET in H.
  unfold mv in H. cbn [e11 e12 e21 e22] in H. rewrite E0 in H. apply (f_equal snd) in H. cbn [snd] in H.
  assert (Z : @fadd fC (@fmul fC (Copp (0, 0)) (fst (resid (@Pmat fC Csqrt KABCD zx) mx w))) (@fmul fC (0, 0) (snd (resid (@Pmat fC Csqrt KABCD zx) mx w))) = (0, 0)).
  { cbn [fadd fmul fC]. ringC. }
  rewrite Z in H. apply (f_equal fst) in H. cbn [fst] in H. lra.
Qed.

Section NP.
  Variable kT : R.
  Hypothesis kT_pos : 0 < kT.
  Variables (S : M2 fC) (p : noisepar).
  Hypothesis Rn_pos : 0 < np_Rn p.
  Let Y := Yopt_of (np_Gopt p).
  Hypothesis Y_real : 0 <= fst Y.
  Hypothesis G_ok : np_Gopt p <> (-1, 0).

  Lemma Gopt_Yopt : Gopt_of Y = np_Gopt p.
  Proof.
    assert (N : Cadd (1, 0) (np_Gopt p) <> (0, 0)).
    { intros E. apply G_ok. apply Cpair; [apply (f_equal fst) in E|apply (f_equal snd) in E]; unfold Cadd in E; cbn [fst snd] in *; lra. }
    assert (N2 : Cadd (RtoC (1 / 50)) Y <> (0, 0)).
    { intros E. apply (f_equal fst) in E. unfold Cadd, RtoC in E. cbn [fst snd] in E. lra. }
    revert N N2. unfold Y, Gopt_of, Yopt_of. set (G := np_Gopt p). set (c := RtoC (1 / 50)). intros N N2.
    assert (Nc : c <> (0, 0)). { unfold c. intros E. injection E as E. lra. }
    assert (E : Cadd c (Cdiv (Cmul c (Csub (1, 0) G)) (Cadd (1, 0) G)) = Cdiv (Cmul (Cadd (1, 0) (1, 0)) c) (Cadd (1, 0) G)) by (field; auto).
    assert (E' : Csub c (Cdiv (Cmul c (Csub (1, 0) G)) (Cadd (1, 0) G)) = Cdiv (Cmul (Cmul (Cadd (1, 0) (1, 0)) c) G) (Cadd (1, 0) G)) by (field; auto).
    rewrite E, E'. field. repeat split; auto. exact Ctwo.
  Qed.
  Lemma from_inv : forall x, from_noisepar kT S p = Ok x -> n_kind (ny_net x) = KABCD /\ n_z0 (ny_net x) = z50 /\
    ny_c x = @mkM2 fC (Cmul (RtoC (4 * kT)) (RtoC (np_Rn p)))
      (Cmul (RtoC (4 * kT)) (Cconj (Csub (RtoC (1 / 2 * (np_Fmin p - 1))) (Cmul (RtoC (np_Rn p)) Y))))
      (Cmul (RtoC (4 * kT)) (Csub (RtoC (1 / 2 * (np_Fmin p - 1))) (Cmul (RtoC (np_Rn p)) Y)))
      (Cmul (RtoC (4 * kT)) (Cmul (RtoC (np_Rn p)) (Cmul Y (Cconj Y)))).
  Proof.
    intros x H. unfold from_noisepar in H. destruct (construct _ _ _ _ _) as [N|] eqn:E; [|discriminate]. cbn [bind] in H.
    injection H as <-. cbn [ny_net ny_c]. apply construct_z in E as [Ek [Ez|[[_ Ez]|[C _]]]]; try discriminate;
      (split; [exact Ek|split; [exact Ez|]]); fold Y; rewrite <- Cabs_mul;
      assert (M : RtoC (np_Rn p * (sqrt (Cabs2 Y) * sqrt (Cabs2 Y))) = Cmul (RtoC (np_Rn p)) (RtoC (sqrt (Cabs2 Y) * sqrt (Cabs2 Y))))
        by (apply Cpair; unfold Cmul, RtoC; cbn [fst snd]; ring);
      rewrite <- M; reflexivity.
  Qed.
  Lemma from_hermitian : forall x, from_noisepar kT S p = Ok x -> @hconj fC Cconj (ny_c x) = ny_c x.
  Proof.
    intros x H. destruct (from_inv x H) as [_ [_ ->]]. apply m2_eq; cbn [hconj e11 e12 e21 e22]; rewrite ?Cconj_mul, ?Cconj_conj;
      unfold Cconj, RtoC, Cmul; cbn [fst snd]; try (apply Cpair; cbn [fst snd]; ring).
  Qed.
  Lemma R4 : RtoC (4 * kT) <> (0, 0).
  Proof. intros E. injection E as E. lra. Qed.
  Lemma RR : RtoC (np_Rn p) <> (0, 0).
  Proof. intros E. injection E as E. lra. Qed.

  Lemma noise_ABCD : forall x, from_noisepar kT S p = Ok x -> noise_parameters kT x = Ok (mkNP (np_Fmin p) (2 * np_Rn p) (np_Gopt p)).
  Proof.
    intros x H. destruct (from_inv x H) as [Ek [_ Ec]]. unfold noise_parameters. rewrite Ek, Ec. cbn [e11 e12 e21 e22].
    assert (SC : forall c, Cdiv (Cmul (RtoC (4 * kT)) c) (RtoC (2 * kT)) = Cmul (RtoC 2) c).
    { intros c. assert (RtoC (4 * kT) = Cmul (RtoC 2) (RtoC (2 * kT))) as -> by (apply Cpair; unfold Cmul, RtoC; cbn [fst snd]; ring).
      field. intros E. injection E as E. lra. }
    rewrite !SC. set (R := np_Rn p) in *. set (F := np_Fmin p) in *.
    assert (E12 : Cmul (RtoC 2) (Cconj (Csub (RtoC (1 / 2 * (F - 1))) (Cmul (RtoC R) Y))) = ((F - 1) - 2 * R * fst Y, 2 * R * snd Y)).
    { apply Cpair; unfold Cmul, Cconj, Csub, RtoC; cbn [fst snd]; field. }
    assert (E11 : Cmul (RtoC 2) (RtoC R) = RtoC (2 * R)). { apply Cpair; unfold Cmul, RtoC; cbn [fst snd]; ring. }
    rewrite E12, E11. cbn [fst snd].
    assert (NR : RtoC (2 * R) <> (0, 0)). { intros E. injection E as E. lra. }
    assert (Q : Cdiv (RtoC (2 * R * snd Y)) (RtoC (2 * R)) = RtoC (snd Y)).
    { assert (RtoC (2 * R * snd Y) = Cmul (RtoC (2 * R)) (RtoC (snd Y))) as -> by (apply Cpair; unfold Cmul, RtoC; cbn [fst snd]; ring). field. auto. }
    assert (Q2 : Cdiv (Cmul (RtoC 2) (Cmul (RtoC R) (Cmul Y (Cconj Y)))) (RtoC (2 * R)) = RtoC (Cabs2 Y)).
    { rewrite <- E11 in *. assert (RtoC (Cabs2 Y) = Cmul Y (Cconj Y)) as -> by (apply Cpair; unfold Cmul, Cconj, Cabs2, RtoC; cbn [fst snd]; ring).
      field. split; [exact RR|]. intros E. injection E as E. lra. }
    rewrite Q, Q2.
    assert (Q3 : Csub (RtoC (Cabs2 Y)) (Cmul (RtoC (snd Y)) (RtoC (snd Y))) = RtoC (fst Y * fst Y)).
    { apply Cpair; unfold Cmul, Csub, Cabs2, RtoC; cbn [fst snd]; ring. }
    rewrite Q3, Csqrt_real, sqrt_square by (auto; apply Rle_0_sqr).
    assert (Q4 : Cadd (RtoC (fst Y)) (Cmul (0, 1) (RtoC (snd Y))) = Y).
    { apply Cpair; unfold Cmul, Cadd, RtoC; cbn [fst snd]; ring. }
    rewrite Q4, Gopt_Yopt. f_equal. f_equal. unfold Cmul, Cadd, Cconj, RtoC. cbn [fst snd]. ring.
  Qed.

  Lemma noise_other : forall x y dest q, dest <> KABCD -> from_noisepar kT S p = Ok x ->
    @noisy_convert fC Csqrt z50 Cconj dest x = Ok y -> noise_parameters kT y = Ok q -> q = p.
  Proof.
    intros x y dest q D H Hy Hq. destruct (from_inv x H) as [Ek [Ez Ec]]. pose proof (from_hermitian x H) as HH.
    assert (Kd : n_kind (ny_net y) = dest).
    { unfold noisy_convert in Hy. destruct (construct _ _ _ _ _) eqn:E; [|discriminate]. cbn [bind] in Hy. destruct (convert _ _ _); [|discriminate].
      cbn [bind] in Hy. injection Hy as <-. cbn [ny_net]. exact (proj1 (construct_z _ _ _ _ _ _ E)). }
    unfold noise_parameters in Hq. rewrite Kd in Hq.
    destruct (@noisy_convert fC Csqrt z50 Cconj KY y) as [N|] eqn:EN.
    2:{ destruct dest; try discriminate. congruence. }
    assert (CH : @noisy_chain fC Csqrt z50 Cconj [dest; KY] x = Ok N).
    { cbn [noisy_chain]. rewrite Hy. cbn [bind]. rewrite EN. reflexivity. }
    assert (G : @good_z fC Csqrt (n_z0 (ny_net x))) by (rewrite Ez; exact good50).
    assert (c1 : Cconj (1, 0) = (1, 0)) by (apply Cpair; unfold Cconj; cbn [fst snd]; ring).
    assert (c0 : Cconj (0, 0) = (0, 0)) by (apply Cpair; unfold Cconj; cbn [fst snd]; ring).
    destruct (@noisy_chain_ok fC Csqrt z50 Ctwo good50 Cconj Cconj_add Cconj_mul Cconj_conj c1 c0 _ _ _ CH G HH) as [NN [_ [T [TC TR]]]].
    assert (KN : n_kind (ny_net N) = KY).
    { unfold noisy_convert in EN. destruct (construct _ _ _ _ _) eqn:E; [|discriminate]. cbn [bind] in EN. destruct (convert _ _ _); [|discriminate].
      cbn [bind] in EN. injection EN as <-. cbn [ny_net]. exact (proj1 (construct_z _ _ _ _ _ _ E)). }
    destruct (ABCD_to_Y _ _ _ Ek KN TR) as [ET N21].
    rewrite Ec, ET in TC. clear Hy EN CH TR NN.
    set (y11 := e11 (n_m (ny_net N))) in *. set (y21 := e21 (n_m (ny_net N))) in *.
    cbn [m2_mul hconj e11 e12 e21 e22 fadd fmul fC] in TC.
    assert (Hq' : q = par_of_Y kT N) by (destruct dest; cbn [bind] in Hq; congruence). clear Hq. revert Hq'.
    unfold par_of_Y. fold y11 y21. rewrite TC. cbn [e11 e12 e21 e22 m2_mul hconj fadd fmul fC]. clear TC ET.
    set (R := np_Rn p) in *. set (F := np_Fmin p) in *. set (k4 := RtoC (4 * kT)) in *.
    assert (N4 : k4 <> (0, 0)) by exact R4. assert (NR : RtoC R <> (0, 0)) by exact RR.
    set (c21 := Csub (RtoC (1 / 2 * (F - 1))) (Cmul (RtoC R) Y)) in *.
    assert (CO : Cconj (Copp y21) = Copp (Cconj y21)) by (apply Cpair; unfold Cconj, Copp; cbn [fst snd]; ring).
    assert (CO1 : Cconj (Copp y11) = Copp (Cconj y11)) by (apply Cpair; unfold Cconj, Copp; cbn [fst snd]; ring).
    rewrite CO, CO1, c1, c0.
    assert (NC : Cconj y21 <> (0, 0)). { intros E. apply N21. rewrite <- (Cconj_conj y21), E. exact c0. }
    repeat match goal with |- context [Cdiv ?a k4] =>
      lazymatch a with context [Copp y11] =>
        lazymatch a with
        | context [Copp (Cconj y11)] => let E := fresh "E" in assert (E : Cdiv a k4 = Cadd (Csub (Csub (Cmul (Cmul y11 (Cconj y11)) (RtoC R)) (Cmul y11 (Cconj c21))) (Cmul (Cconj y11) c21)) (Cmul (RtoC R) (Cmul Y (Cconj Y)))) by (field; auto); rewrite E; clear E
        | _ => let E := fresh "E" in assert (E : Cdiv a k4 = Cmul (Cconj y21) (Csub (Cmul y11 (RtoC R)) c21)) by (field; auto); rewrite E; clear E
        end
      | _ => let E := fresh "E" in assert (E : Cdiv a k4 = Cmul (Cmul y21 (Cconj y21)) (RtoC R)) by (field; auto); rewrite E; clear E
      end end.
    rewrite !Cabs_mul.
    assert (E1 : Cdiv (Cmul (Cmul y21 (Cconj y21)) (RtoC R)) (Cmul y21 (Cconj y21)) = RtoC R) by (field; auto).
    assert (E2 : Csub y11 (Cmul (Cdiv (Cmul (Cconj y21) (Csub (Cmul y11 (RtoC R)) c21)) (Cmul (Cmul y21 (Cconj y21)) (RtoC R))) y21) = Cdiv c21 (RtoC R)) by (field; auto).
    rewrite E1, E2. change (fst (RtoC R)) with R.
    set (d := Cdiv c21 (RtoC R)).
    assert (Ed : c21 = Cmul (RtoC R) d) by (unfold d; field; auto).
    assert (Ed2 : d = ((F - 1) / (2 * R) - fst Y, - snd Y)).
    { unfold d, Cdiv, Cinv, Cabs2, c21, Csub, Cmul, RtoC. cbn [fst snd]. apply Cpair; cbn [fst snd]; field; lra. }
    assert (GN : Csub (Cadd (Csub (Csub (Cmul (Cmul y11 (Cconj y11)) (RtoC R)) (Cmul y11 (Cconj c21))) (Cmul (Cconj y11) c21)) (Cmul (RtoC R) (Cmul Y (Cconj Y))))
      (Cmul (Cmul (Csub y11 d) (Cconj (Csub y11 d))) (RtoC R)) = Cmul (RtoC R) (Csub (Cmul Y (Cconj Y)) (Cmul d (Cconj d)))).
    { assert (CS : Cconj (Csub y11 d) = Csub (Cconj y11) (Cconj d)) by (apply Cpair; unfold Cconj, Csub; cbn [fst snd]; ring).
      assert (CR : Cconj (RtoC R) = RtoC R) by (apply Cpair; unfold Cconj, RtoC; cbn [fst snd]; ring).
      rewrite CS, Ed, Cconj_mul, CR. ring. }
    rewrite GN.
    assert (SQ : fst (Cmul (RtoC R) (Csub (Cmul Y (Cconj Y)) (Cmul d (Cconj d)))) / R + fst d * fst d = fst Y * fst Y).
    { rewrite Ed2. unfold Cmul, Csub, Cconj, RtoC. cbn [fst snd]. field. lra. }
    rewrite SQ, sqrt_square by auto.
    assert (YY : Csub (RtoC (fst Y)) (Cmul (0, 1) (RtoC (snd d))) = Y).
    { rewrite Ed2. apply Cpair; unfold Csub, Cmul, RtoC; cbn [fst snd]; ring. }
    rewrite YY, Gopt_Yopt.
    assert (FF : 1 + 2 * R * (fst d + fst Y) = F). { rewrite Ed2. cbn [fst]. field. lra. }
    rewrite FF. unfold R, F. intros ->. destruct p as [f r g]. reflexivity.
  Qed.
End NP.
