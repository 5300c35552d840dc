(** Properties of noisy two-ports: C32, C55. *)
From Coq Require Import Ring Field Reals Lra List Bool.
From Verif Require Import Model_NdArray Model_Network Model_Noise Spec_Network Proofs_Network Proofs_Network2 Proofs_Noise Prop_Network.
Import ListNotations.

(** ** C55 *)

(** Thermal noise of a passive network: converting the noisy network gives the
    noisy network of the converted matrix, for each of Y, Z and S. *)
Theorem C55_passive : forall (K : fld) (sq : K -> K) z50 (conj : K -> K), fadd f1 f1 <> (f0 : K) -> good_z sq z50 ->
  (forall x y, conj (fadd x y) = fadd (conj x) (conj y)) -> (forall x y, conj (fmul x y) = fmul (conj x) (conj y)) ->
  (forall x, conj (conj x) = x) -> conj f1 = f1 -> conj (sq z50) = sq z50 ->
  forall kT, conj kT = kT -> forall n x dest y z, n_z0 n = z50 ->
  passive_noise conj kT n = Ok x -> noisy_convert sq z50 conj dest x = Ok y -> passive_noise conj kT (ny_net y) = Ok z -> z = y.
Proof. intros K sq z50 conj two g ca cm cc c1 cr kT ck n x dest y z. now apply passive_convert. Qed.
Print Assumptions C55_passive.
(** It is defined for these kinds and no other. *)
Theorem C55_kinds : forall (K : fld) (conj : K -> K) kT n,
  (exists x, passive_noise conj kT n = Ok x) <-> (n_kind n = KY \/ n_kind n = KZ \/ n_kind n = KS).
Proof.
  intros. unfold passive_noise. destruct (n_kind n); split; intros H; eauto; try (now destruct H); try tauto;
    destruct H as [H|[H|H]]; discriminate.
Qed.
Print Assumptions C55_kinds.
Example C55_example : let id := fun x : fQ => x in
  ny_list (do x <- passive_noise id (q 3 1) nS; noisy_convert sqQ z4 id KY x) =
  ny_list (do n <- construct sqQ z4 KY None (Net nS); passive_noise id (q 3 1) n) /\
  ny_list (do x <- passive_noise id (q 3 1) nS; noisy_convert sqQ z4 id KZ x) =
  ny_list (do n <- construct sqQ z4 KZ None (Net nS); passive_noise id (q 3 1) n) /\
  ny_list (do x <- passive_noise id (q 3 1) nS; noisy_convert sqQ z4 id KY x) <> None.
Proof. vm_compute. repeat split; discriminate. Qed.

(** ** C32 *)
Local Open Scope R_scope.
(** Physically meaningful noise parameters. *)
Definition meaningful (p : noisepar) : Prop :=
  0 < np_Rn p /\ fst (np_Gopt p) * fst (np_Gopt p) + snd (np_Gopt p) * snd (np_Gopt p) <= 1 /\ np_Gopt p <> (-1, 0).
Lemma meaningful_Y : forall p, meaningful p -> 0 <= fst (Yopt_of (np_Gopt p)).
Proof.
  intros p [_ [H N]]. destruct (np_Gopt p) as [a b]. cbn [fst snd] in *.
  assert (D : 0 < (1 + a) * (1 + a) + b * b).
  { assert (0 <= (1 + a) * (1 + a)) by apply Rle_0_sqr. assert (0 <= b * b) by apply Rle_0_sqr.
    destruct (Req_dec ((1 + a) * (1 + a) + b * b) 0) as [E|E]; [|lra]. exfalso. apply N.
    assert (1 + a = 0) by (apply Rsqr_0_uniq; unfold Rsqr; lra). assert (b = 0) by (apply Rsqr_0_uniq; unfold Rsqr; lra). f_equal; lra. }
  assert (E : fst (Yopt_of (a, b)) = (1 - (a * a + b * b)) / (50 * ((1 + a) * (1 + a) + b * b))).
  { unfold Yopt_of, Cdiv, Cinv, Cmul, Csub, Cadd, Cabs2, RtoC. cbn [fst snd]. rewrite Rplus_0_l. field. lra. }
  rewrite E. apply Rmult_le_pos; [lra|]. left. apply Rinv_0_lt_compat. lra.
Qed.

(** From the parameters to a noisy network, to any other description, and back
    to the parameters. *)
Theorem C32_round_trip : forall kT S p x dest y q, 0 < kT -> meaningful p -> dest <> KABCD ->
  from_noisepar kT S p = Ok x -> noisy_convert (K := fC) Csqrt z50 Cconj dest x = Ok y -> noise_parameters kT y = Ok q -> q = p.
Proof. intros kT S p x dest y q Hk M D Hx Hy Hq. pose proof (meaningful_Y p M). destruct M as [M1 [_ M2]]. exact (noise_other kT Hk S p M1 H M2 x y dest q D Hx Hy Hq). Qed.
Print Assumptions C32_round_trip.
(** Reading the parameters works whenever the admittance matrix exists. *)
Theorem C32_readable : forall kT y n, n_z0 (ny_net y) = z50 -> construct (K := fC) Csqrt z50 KY None (Net (ny_net y)) = Ok n ->
  exists q, noise_parameters kT y = Ok q.
Proof.
  intros kT y n Z H. unfold noise_parameters.
  destruct (noisy_convert_def (K := fC) Csqrt z50 Cconj Ctwo good50 KY y n) as [N E]; auto; [rewrite Z; exact good50|].
  rewrite E. destruct (n_kind (ny_net y)); cbn [bind]; eauto.
Qed.
Print Assumptions C32_readable.
(** Straight from the ABCD description Fmin and Gopt come back, and twice Rn. *)
Theorem C32_ABCD : forall kT S p x, 0 < kT -> meaningful p -> from_noisepar kT S p = Ok x ->
  noise_parameters kT x = Ok (mkNP (np_Fmin p) (2 * np_Rn p) (np_Gopt p)).
Proof. intros kT S p x Hk M Hx. pose proof (meaningful_Y p M). destruct M as [M1 [_ M2]]. exact (noise_ABCD kT Hk S p M1 H M2 x Hx). Qed.
Print Assumptions C32_ABCD.

(** A resistor of twice the reference impedance in series. *)
Section Series.
  Context {K : fld}.
  Add Field Kser : (fth K).
  Local Open Scope fld_scope.
  Variables (sq : K -> K) (z : K).
  Hypothesis two : (1 + 1 : K) <> 0.
  Hypothesis gz : good_z sq z.
  Let h : K := 1 / (1 + 1).
  Let g : K := 1 / ((1 + 1) * z).
  Definition serS := mkNet KS z (mkM2 h h h h).
  Definition serA := mkNet KABCD z (mkM2 1 ((1 + 1) * z) 0 1).
  Definition serY := mkNet KY z (mkM2 g (- g) (- g) g).
  Lemma sub0 : forall x y : K, x - y = 0 <-> x = y.
  Proof. intros x y. split; [intros H|intros ->; ring]. assert (x = (x - y) + y) as -> by ring. rewrite H. ring. Qed.
  Lemma ser_SA : same_network sq serS serA.
  Proof.
    intros v1 v2 i1 i2. destruct (good_neq sq z gz) as [N Nz]. destruct gz as [Hz _]. unfold admits, admits_r, serS, serA, lin.
    cbn [n_kind n_z0 n_m outs ins fst snd e11 e12 e21 e22]. set (r := sq z) in *. rewrite <- Hz. unfold inc, refl, h.
    split; intros [H1 H2]; apply sub0 in H1, H2.
    - split; apply sub0.
      + match type of H1 with ?a = _ => match type of H2 with ?b = _ => assert (E : v1 - (1 * v2 + (1 + 1) * (r * r) * - i2) = (1 + 1) * r * (a - b) - r * (a + b)) end end.
        { field. auto. } rewrite E, H1, H2. ring.
      + match type of H1 with ?a = _ => match type of H2 with ?b = _ => assert (E : i1 - (0 * v2 + 1 * - i2) = - (a + b) / r) end end.
        { field. auto. } rewrite E, H1, H2. field. auto.
    - assert (v1 = (v1 - (1 * v2 + (1 + 1) * (r * r) * - i2)) + (v2 - (1 + 1) * (r * r) * i2)) as -> by ring.
      assert (i1 = (i1 - (0 * v2 + 1 * - i2)) - i2) as -> by ring. rewrite H1, H2. split; field; auto.
  Qed.
  Lemma ser_AY : same_network sq serA serY.
  Proof.
    intros v1 v2 i1 i2. destruct (good_neq sq z gz) as [N Nz]. unfold admits, admits_r, serY, serA, lin.
    cbn [n_kind n_z0 n_m outs ins fst snd e11 e12 e21 e22]. unfold g.
    split; intros [H1 H2]; apply sub0 in H1, H2.
    - assert (v1 = (v1 - (1 * v2 + (1 + 1) * z * - i2)) + (v2 - (1 + 1) * z * i2)) as -> by ring.
      assert (i1 = (i1 - (0 * v2 + 1 * - i2)) - i2) as -> by ring. rewrite H1, H2. split; field; auto.
    - match type of H1 with ?a = _ => assert (i1 = a + (v1 - v2) / ((1 + 1) * z)) as E1 by (field; auto); rewrite H1 in E1 end.
      match type of H2 with ?a = _ => assert (i2 = a - (v1 - v2) / ((1 + 1) * z)) as E2 by (field; auto); rewrite H2 in E2 end.
      rewrite E1, E2. split; field; auto.
  Qed.
End Series.
Definition Sser : M2 fC := n_m (serS (K := fC) z50).
Lemma ser_from : forall kT p, exists x, from_noisepar kT Sser p = Ok x /\ ny_net x = serA (K := fC) z50.
Proof.
  intros kT p. destruct (construct_def (K := fC) Csqrt z50 Ctwo good50 KABCD (serS z50) (n_m (serA (K := fC) z50)) good50 (ser_SA _ _ Ctwo good50)) as [n [E M]].
  unfold from_noisepar. change (mkNet KS z50 Sser) with (serS (K := fC) z50). rewrite E. cbn [bind]. eexists. split; [reflexivity|]. cbn [ny_net].
  pose proof (construct_z (K := fC) Csqrt z50 KABCD None (serS z50) n E) as [Ek Ez]. destruct n as [k z m]. cbn [n_kind n_z0 n_m] in *. subst k m.
  destruct Ez as [->|[[_ ->]|[C _]]]; try discriminate; reflexivity.
Qed.
Definition p0 : noisepar := mkNP 2 10 (1 / 2, 1 / 3).
Lemma p0_ok : meaningful p0.
Proof. unfold meaningful, p0. cbn [np_Rn np_Gopt fst snd]. split; [lra|]. split; [lra|]. intros E. injection E as E _. lra. Qed.
Example C32_example : exists x y, from_noisepar 1 Sser p0 = Ok x /\ noisy_convert (K := fC) Csqrt z50 Cconj KY x = Ok y /\
  noise_parameters 1 y = Ok p0 /\ noise_parameters 1 x = Ok (mkNP 2 20 (1 / 2, 1 / 3)).
Proof.
  destruct (ser_from 1 p0) as [x [E N]]. exists x.
  destruct (construct_def (K := fC) Csqrt z50 Ctwo good50 KY (ny_net x) (n_m (serY (K := fC) z50))) as [n [En M]].
  { rewrite N. exact good50. } { rewrite N. exact (ser_AY _ _ Ctwo good50). }
  destruct (noisy_convert_def (K := fC) Csqrt z50 Cconj Ctwo good50 KY x n) as [y Ey]; auto. { rewrite N. exact good50. }
  exists y. split; auto. split; auto. split.
  - assert (Ky : ny_net y = n).
    { unfold noisy_convert in Ey. rewrite En in Ey. cbn [bind] in Ey. destruct (convert _ _ _); [|discriminate]. cbn [bind] in Ey. now injection Ey as <-. }
    assert (Zn : n_z0 n = z50). { destruct (construct_z _ _ _ _ _ _ En) as [_ [->|[[_ ->]|[C _]]]]; try discriminate; auto. rewrite N. reflexivity. }
    assert (Yy : exists n2, construct (K := fC) Csqrt z50 KY None (Net (ny_net y)) = Ok n2).
    { rewrite Ky. unfold construct. destruct (construct_z _ _ _ _ _ _ En) as [Kn _]. rewrite Kn, Zn. cbn [kind_eqb andb orb].
      rewrite (proj2 (feqb_eq fC z50 z50) eq_refl). eauto. }
    destruct Yy as [n2 Y2]. destruct (C32_readable 1 y n2) as [q Hq]; auto. { now rewrite Ky. }
    rewrite Hq. f_equal. eapply C32_round_trip; eauto using p0_ok; [lra|discriminate].
  - rewrite (C32_ABCD 1 Sser p0 x); [|lra|exact p0_ok|auto]. unfold p0. cbn [np_Fmin np_Rn np_Gopt]. do 2 f_equal.
Qed.
Theorem C32_Rn_refuted : exists kT S p x q, 0 < kT /\ meaningful p /\ from_noisepar kT S p = Ok x /\ noise_parameters kT x = Ok q /\ np_Rn q <> np_Rn p.
Proof.
  destruct (ser_from 1 p0) as [x [E _]]. exists 1, Sser, p0, x, (mkNP (np_Fmin p0) (2 * np_Rn p0) (np_Gopt p0)).
  split; [lra|]. split; [exact p0_ok|]. split; auto. split; [apply (C32_ABCD 1 Sser); auto using p0_ok; lra|]. unfold p0. cbn [np_Rn]. lra.
Qed.
Print Assumptions C32_Rn_refuted.
