(** Properties of angles and phase unwrapping: C35. *)
From Coq Require Import Reals Lra List Bool Lia.
From Verif Require Import Model_NdArray Model_Noise Model_Phase.
Import ListNotations.
Local Open Scope R_scope.

(** t is an angle of the (non zero) number z. *)
Definition at_angle (z : Cx) (t : R) : Prop := exists rho, 0 < rho /\ z = (rho * cos t, rho * sin t).
(** Neighbours differ by at most half a turn. *)
Definition small_steps (r : list R) : Prop := forall i, (S i < length r)%nat -> - PI < nth (S i) r 0 - nth i r 0 <= PI.
Definition nonzero (z : Cx) : Prop := z <> (0, 0).

(** ** Polar form *)
Lemma pair_eq : forall a b c d : R, a = c -> b = d -> (a, b) = (c, d).
Proof. intros; now f_equal. Qed.
Lemma cs1 : forall t, cos t * cos t + sin t * sin t = 1.
Proof. intros t. pose proof (sin2_cos2 t). unfold Rsqr in H. lra. Qed.
Lemma Cmod_polar : forall rho t, 0 < rho -> Cmod (rho * cos t, rho * sin t) = rho.
Proof.
  intros rho t H. unfold Cmod, Cabs2. cbn [fst snd].
  replace (rho * cos t * (rho * cos t) + rho * sin t * (rho * sin t)) with (rho * rho * (cos t * cos t + sin t * sin t)) by ring.
  rewrite cs1, Rmult_1_r. apply sqrt_square. lra.
Qed.
Lemma polar_nonzero : forall z t, at_angle z t -> nonzero z.
Proof.
  intros z t [rho [H ->]] E. injection E as E1 E2. pose proof (cs1 t).
  assert (cos t = 0) by (apply Rmult_integral in E1; lra). assert (sin t = 0) by (apply Rmult_integral in E2; lra). rewrite H1, H2 in H0. lra.
Qed.
Lemma polar_unique : forall z t, at_angle z t -> - PI < t <= PI -> npangle z = t.
Proof.
  intros z t A B. pose proof (polar_nonzero z t A) as N. destruct A as [rho [H ->]]. unfold npangle.
  destruct (Ceqb _ (0, 0)) eqn:E; [apply Ceqb_eq in E; contradiction|]. rewrite Cmod_polar by auto. cbn [fst snd].
  replace (rho * cos t / rho) with (cos t) by (field; lra). destruct (Rle_dec 0 (rho * sin t)) as [L|L].
  - destruct (Rle_dec 0 t) as [T|T]; [apply acos_cos; lra|].
    assert (sin (- t) > 0) by (apply sin_gt_0; lra). rewrite sin_neg in H0. exfalso. assert (rho * (- sin t) > 0) by (apply Rmult_lt_0_compat; auto). lra.
  - destruct (Rle_dec 0 t) as [T|T].
    + exfalso. apply L. apply Rmult_le_pos; [lra|]. apply sin_ge_0; lra.
    + rewrite <- (cos_neg t). rewrite acos_cos by lra. ring.
Qed.
Lemma Cabs2_pos : forall z, nonzero z -> 0 < Cabs2 z.
Proof. intros [x y] N. pose proof (Cabs2_neq _ N). unfold Cabs2 in *. cbn [fst snd] in *. assert (0 <= x * x) by apply Rle_0_sqr. assert (0 <= y * y) by apply Rle_0_sqr. lra. Qed.
Lemma polar_exists : forall z, nonzero z -> at_angle z (npangle z) /\ - PI < npangle z <= PI.
Proof.
  intros z N. pose proof (Cabs2_pos z N) as P. assert (Hm : 0 < Cmod z) by (apply sqrt_lt_R0; auto). assert (Em : Cmod z * Cmod z = Cabs2 z) by (apply sqrt_sqrt; lra).
  destruct z as [x y]. unfold npangle. destruct (Ceqb _ (0, 0)) eqn:E; [apply Ceqb_eq in E; contradiction|]. cbn [fst snd].
  set (m := Cmod (x, y)) in *. unfold Cabs2 in Em, P. cbn [fst snd] in *.
  assert (B : -1 <= x / m <= 1).
  { assert (0 <= y * y) by apply Rle_0_sqr. assert (X : Rabs x <= Rabs m) by (apply Rsqr_le_abs_0; unfold Rsqr; lra). rewrite (Rabs_right m) in X by lra.
    apply Rabs_le_inv in X || (pose proof (Rle_abs x); pose proof (Rle_abs (- x)); rewrite Rabs_Ropp in *).
    split; [apply Rmult_le_reg_r with m|apply Rmult_le_reg_r with m]; auto; unfold Rdiv; rewrite Rmult_assoc, Rinv_l by lra; lra. }
  assert (S2 : sqrt (1 - (x / m)²) = Rabs y / m).
  { replace (1 - (x / m)²) with ((Rabs y / m) * (Rabs y / m)).
    - apply sqrt_square. apply Rmult_le_pos; [apply Rabs_pos|]. left. apply Rinv_0_lt_compat. auto.
    - replace (Rabs y / m * (Rabs y / m)) with (Rabs y * Rabs y / (m * m)) by (field; lra).
      replace (Rabs y * Rabs y) with (y * y) by (rewrite <- Rabs_mult, Rabs_right; auto; apply Rle_ge, Rle_0_sqr). unfold Rsqr.
      replace (y * y) with (m * m - x * x) by lra. field. lra. }
  pose proof (acos_bound (x / m)) as AB. pose proof PI_RGT_0 as PP. destruct (Rle_dec 0 y) as [L|L].
  - split; [|lra]. exists m. split; auto. rewrite cos_acos, sin_acos by auto. rewrite S2, Rabs_right by lra. apply pair_eq; field; lra.
  - split.
    + exists m. split; auto. rewrite cos_neg, sin_neg, cos_acos, sin_acos by auto. rewrite S2, Rabs_left by lra. apply pair_eq; field; lra.
    + split; [|lra]. destruct (Req_dec (acos (x / m)) PI) as [C|C]; [|lra]. exfalso.
      assert (sin (acos (x / m)) = 0) by (rewrite C; apply sin_PI). rewrite sin_acos, S2, Rabs_left in H by (auto; lra).
      assert (- y / m > 0) by (apply Rmult_lt_0_compat; [lra|apply Rinv_0_lt_compat; auto]). lra.
Qed.
Lemma at_angle_mul : forall z w a b, at_angle z a -> at_angle w b -> at_angle (Cmul z w) (a + b).
Proof.
  intros z w a b [r [R ->]] [s [S ->]]. exists (r * s). split; [now apply Rmult_lt_0_compat|]. unfold Cmul. cbn [fst snd]. rewrite cos_plus, sin_plus. apply pair_eq; ring.
Qed.
Lemma at_angle_inv : forall z a, at_angle z a -> at_angle (Cinv z) (- a).
Proof.
  intros z a [r [R ->]]. exists (/ r). split; [now apply Rinv_0_lt_compat|]. rewrite cos_neg, sin_neg. unfold Cinv, Cabs2. cbn [fst snd].
  replace (r * cos a * (r * cos a) + r * sin a * (r * sin a)) with (r * r * (cos a * cos a + sin a * sin a)) by ring. rewrite cs1. apply pair_eq; field; lra.
Qed.
Lemma at_angle_div : forall z w a b, at_angle z a -> at_angle w b -> at_angle (Cdiv z w) (a - b).
Proof. intros. apply at_angle_mul; auto. now apply at_angle_inv. Qed.
Lemma at_angle_expi : forall t, at_angle (expi t) t.
Proof. intros t. exists 1. split; [lra|]. unfold expi. apply pair_eq; ring. Qed.
Lemma at_angle_turn : forall z t k, at_angle z t -> at_angle z (t + 2 * IZR k * PI).
Proof.
  intros z t k [r [R ->]]. exists r. split; auto.
  assert (E : cos (2 * IZR k * PI) = 1 /\ sin (2 * IZR k * PI) = 0).
  { assert (Z : sin (IZR k * PI) = 0) by (apply sin_eq_0_1; eauto). replace (2 * IZR k * PI) with (2 * (IZR k * PI)) by ring.
    rewrite cos_2a_sin, sin_2a, Z. split; ring. }
  rewrite cos_plus, sin_plus. destruct E as [-> ->]. apply pair_eq; ring.
Qed.
(** Angles of a number differ by whole turns. *)
Lemma whole_turns : forall z a b, at_angle z a -> at_angle z b -> exists k, a = b + 2 * IZR k * PI.
Proof.
  intros z a b A B. assert (D : at_angle (Cdiv z z) (a - b)) by now apply at_angle_div. assert (D0 : at_angle (Cdiv z z) (b - b)) by now apply at_angle_div.
  destruct D as [r [R E]]. destruct D0 as [s [S0 E0]]. rewrite E in E0. injection E0 as E1 E2.
  replace (b - b) with 0 in E1, E2 by ring. rewrite sin_0 in E2. rewrite cos_0 in E1.
  assert (Z : sin (a - b) = 0) by (rewrite Rmult_0_r in E2; apply Rmult_integral in E2; lra).
  assert (C : cos (a - b) = 1).
  { pose proof (cs1 (a - b)). rewrite Z in H. assert (0 < cos (a - b)) by (apply Rmult_lt_reg_l with r; lra). assert ((cos (a - b) - 1) * (cos (a - b) + 1) = 0) by lra. apply Rmult_integral in H1. lra. }
  replace (a - b) with (2 * ((a - b) / 2)) in C by field. rewrite cos_2a_sin in C.
  assert (sin ((a - b) / 2) = 0) by (assert (X : sin ((a - b) / 2) * sin ((a - b) / 2) = 0) by lra; apply Rmult_integral in X; tauto).
  apply sin_eq_0_0 in H as [k K]. exists k. lra.
Qed.

(** ** C35 *)
(** The angle of a number, and the interval it lies in. *)
Theorem C35_angle : forall b z, nonzero z -> at_angle z (angle_branch b z) /\ b < angle_branch b z <= b + 2 * PI.
Proof.
  intros b z N. unfold angle_branch. set (B := b - - PI). 
  assert (NZ : nonzero (Cdiv z (expi B))). { destruct (polar_exists z N) as [A _]. eapply polar_nonzero, at_angle_div; [exact A|apply at_angle_expi]. }
  destruct (polar_exists _ NZ) as [A I]. assert (HB : B = b + PI) by (unfold B; ring). clearbody B. split; [|lra].
  assert (M : at_angle (Cmul (Cdiv z (expi B)) (expi B)) (npangle (Cdiv z (expi B)) + B)) by (apply at_angle_mul; auto; apply at_angle_expi).
  replace (Cmul (Cdiv z (expi B)) (expi B)) with z in M; auto.
  pose proof (cs1 B) as CS. destruct z as [x y]. unfold Cdiv, Cinv, Cmul, Cabs2, expi. cbn [fst snd]. rewrite CS. apply pair_eq.
  - transitivity (x * (cos B * cos B + sin B * sin B)); [rewrite CS; ring|field].
  - transitivity (y * (cos B * cos B + sin B * sin B)); [rewrite CS; ring|field].
Qed.
Print Assumptions C35_angle.
(** The same in degrees. *)
Theorem C35_angle_deg : forall b z, nonzero z -> at_angle z (angle_deg_branch b z * (PI / 180)) /\ b < angle_deg_branch b z <= b + 360.
Proof.
  intros b z N. pose proof PI_RGT_0 as PP. assert (E : angle_deg_branch b z = angle_branch (b / 180 * PI) z * (180 / PI)).
  { unfold angle_deg_branch, angle_branch. cbv zeta. replace ((b - - 180) / 180 * PI) with (b / 180 * PI - - PI) by field. field. lra. }
  destruct (C35_angle (b / 180 * PI) z N) as [A [I1 I2]]. rewrite E. split.
  - replace (angle_branch (b / 180 * PI) z * (180 / PI) * (PI / 180)) with (angle_branch (b / 180 * PI) z) by (field; lra). auto.
  - set (t := angle_branch (b / 180 * PI) z) in *. split.
    + apply Rmult_lt_reg_r with (PI / 180); [lra|]. replace (t * (180 / PI) * (PI / 180)) with t by (field; lra). lra.
    + apply Rmult_le_reg_r with (PI / 180); [lra|]. replace (t * (180 / PI) * (PI / 180)) with t by (field; lra). lra.
Qed.
Print Assumptions C35_angle_deg.

Lemma angle_spec : forall z, nonzero z -> at_angle z (angle z) /\ - PI < angle z <= PI.
Proof. intros z N. destruct (C35_angle (- PI) z N) as [A B]. split; auto. unfold angle. lra. Qed.
Lemma angle_unique : forall z t, at_angle z t -> - PI < t <= PI -> angle z = t.
Proof.
  intros z t A B. pose proof (polar_nonzero z t A) as N. destruct (angle_spec z N) as [A' B']. rewrite <- (polar_unique z t A B). symmetry. now apply polar_unique.
Qed.
Lemma nonzero_div : forall z w, nonzero z -> nonzero w -> nonzero (Cdiv z w).
Proof. intros z w Z W. destruct (angle_spec z Z) as [A _]. destruct (angle_spec w W) as [B _]. eapply polar_nonzero, at_angle_div; eauto. Qed.

Lemma accumulate_angles : forall l prev acc t, at_angle prev (acc + t) -> Forall nonzero l ->
  Forall2 at_angle l (map (fun s => s + t) (accumulate acc (map angle (ratios prev l)))).
Proof.
  induction l as [|z l IH]; intros prev acc t A F; cbn; [constructor|]. inversion F; subst. pose proof (polar_nonzero _ _ A) as P.
  assert (AZ : at_angle z (acc + angle (Cdiv z prev) + t)).
  { destruct (angle_spec (Cdiv z prev) (nonzero_div _ _ H1 P)) as [A1 _]. pose proof (at_angle_mul _ _ _ _ A1 A) as M.
    replace (acc + angle (Cdiv z prev) + t) with (angle (Cdiv z prev) + (acc + t)) by ring. replace (Cmul (Cdiv z prev) prev) with z in M; auto.
    pose proof (Cabs2_neq _ P) as NQ. destruct z as [x y], prev as [u v]. unfold Cdiv, Cinv, Cmul, Cabs2 in *. cbn [fst snd] in *. apply pair_eq; field; auto. }
  constructor; auto.
Qed.
Lemma accumulate_length : forall l acc, length (accumulate acc l) = length l.
Proof. induction l; intros; cbn; auto. Qed.
Lemma ratios_length : forall l p, length (ratios p l) = length l.
Proof. induction l; intros; cbn; auto. Qed.
Lemma steps_cons : forall a b r, - PI < b - a <= PI -> small_steps (b :: r) -> small_steps (a :: b :: r).
Proof. intros a b r H S [|i] L; cbn [nth]; auto. apply (S i). cbn in *. lia. Qed.
Lemma accumulate_steps : forall l prev acc t, nonzero prev -> Forall nonzero l ->
  small_steps ((acc + t) :: map (fun s => s + t) (accumulate acc (map angle (ratios prev l)))).
Proof.
  induction l as [|z l IH]; intros prev acc t P F; cbn; [intros i L; cbn in L; lia|]. inversion F; subst.
  destruct (angle_spec (Cdiv z prev) (nonzero_div _ _ H1 P)) as [_ B]. apply steps_cons; [lra|]. now apply IH.
Qed.
Lemma raw_spec : forall z l, Forall nonzero (z :: l) -> Forall2 at_angle (z :: l) (unwrap_raw z l) /\ small_steps (unwrap_raw z l).
Proof.
  intros z l F. inversion F; subst. destruct (angle_spec z H1) as [A _]. unfold unwrap_raw. split.
  - constructor; auto. apply accumulate_angles; auto. now rewrite Rplus_0_l.
  - pose proof (accumulate_steps l z 0 (angle z) H1 H2) as X. now rewrite Rplus_0_l in X.
Qed.
(** The shift of one column. *)
Lemma shifted_spec : forall a a0 r, - PI < a <= PI -> - PI < a0 <= PI -> exists k, (k = 0 \/ k = 1 \/ k = -1)%Z /\ shifted a a0 r = map (fun x => x + 2 * IZR k * PI) r /\
  (Rabs (a - a0) <= 2 * PI - 2 -> k = 0%Z) /\ (2 * PI - 2 < Rabs (a - a0) -> Rabs (a + 2 * IZR k * PI - a0) < 2).
Proof.
  intros a a0 r A A0. pose proof PI_RGT_0. pose proof PI2_1 as P2. unfold shifted. cbv zeta.
  assert (P3 : 2 < PI) by lra.
  assert (LT : forall x c, Rabs x < c <-> - c < x < c) by (intros x c; split; [intros HR; apply Rabs_def2 in HR; lra|intros [? ?]; apply Rabs_def1; lra]).
  destruct (Rlt_dec (Rabs (a - a0 + 2 * PI)) 2) as [L1|L1]; [destruct (Rlt_dec (Rabs (a - a0 - 2 * PI)) 2) as [L2|L2]|destruct (Rlt_dec (Rabs (a - a0 - 2 * PI)) 2) as [L2|L2]].
  - exfalso. apply LT in L1. apply LT in L2. lra.
  - exists 1%Z. split; [auto|]. split; [apply map_ext; intros; ring|]. split.
    + intros C. exfalso. apply LT in L1. rewrite Rabs_left in C by lra. lra.
    + intros _. replace (a + 2 * 1 * PI - a0) with (a - a0 + 2 * PI) by ring. auto.
  - exists (-1)%Z. split; [auto|]. split; [apply map_ext; intros; ring|]. split.
    + intros C. exfalso. apply LT in L2. rewrite Rabs_right in C by lra. lra.
    + intros _. replace (a + 2 * -1 * PI - a0) with (a - a0 - 2 * PI) by ring. auto.
  - exists 0%Z. split; [auto|]. split; [rewrite <- (map_id r) at 1; apply map_ext; intros; ring|]. split; auto.
    intros C. exfalso. rewrite LT in L1, L2. destruct (Rle_dec 0 (a - a0)); [rewrite Rabs_right in C by lra|rewrite Rabs_left in C by lra]; lra.
Qed.
Lemma steps_shift : forall c r, small_steps r -> small_steps (map (fun x => x + c) r).
Proof.
  intros c r S i L. rewrite map_length in L. rewrite !(nth_indep _ 0 (0 + c)) by (rewrite map_length; lia). rewrite !(map_nth (fun x => x + c)). specialize (S i L). lra.
Qed.
(** What unwrapping gives for one column: angles of the samples, small steps, a
    first sample that is the principal angle unless it is a turn away from the
    first sample of the whole array. *)
Definition unwrapped (a0 : R) (col : list Cx) (r : list R) : Prop :=
  Forall2 at_angle col r /\ small_steps r /\
  (forall z, hd_error col = Some z -> (Rabs (angle z - a0) <= 2 * PI - 2 -> hd_error r = Some (angle z)) /\
     (2 * PI - 2 < Rabs (angle z - a0) -> exists r0, hd_error r = Some r0 /\ Rabs (r0 - a0) < 2)).
Lemma col_spec : forall a0 z l, - PI < a0 <= PI -> Forall nonzero (z :: l) -> exists r, unwrap_col a0 (z :: l) = Ok r /\ unwrapped a0 (z :: l) r.
Proof.
  intros a0 z l A0 F. destruct (raw_spec z l F) as [R1 R2]. inversion F; subst. destruct (angle_spec z H1) as [_ B]. unfold unwrap_col.
  destruct (shifted_spec (angle z) a0 (unwrap_raw z l) B A0) as [k [_ [E [K1 K2]]]]. eexists. split; [reflexivity|]. rewrite E. split; [|split].
  - clear - R1. induction R1 as [|z1 r1 lz lr HA R1 IH]; cbn; constructor; auto. now apply at_angle_turn.
  - now apply steps_shift.
  - intros z' HZ. inversion HZ; subst z'. unfold unwrap_raw. cbn [map hd_error]. split.
    + intros C. rewrite (K1 C). f_equal. ring.
    + intros C. eexists. split; [reflexivity|]. now apply K2.
Qed.
Theorem C35_unwrap : forall z l cols, Forall (Forall nonzero) ((z :: l) :: cols) -> Forall (fun c => c <> []) cols ->
  exists rs, unwrap_phase ((z :: l) :: cols) = Ok rs /\ Forall2 (unwrapped (angle z)) ((z :: l) :: cols) rs.
Proof.
  intros z l cols F N. unfold unwrap_phase. assert (A0 : - PI < angle z <= PI) by (inversion F as [|? ? F1 F2]; inversion F1; now apply angle_spec).
  assert (N' : Forall (fun c => c <> []) ((z :: l) :: cols)) by (constructor; auto; discriminate). revert F N'. generalize ((z :: l) :: cols) as cs.
  induction cs as [|c cs IH]; intros F N'; [exists []; split; [reflexivity|constructor]|]. inversion F; inversion N'; subst. destruct c as [|c0 c]; [congruence|].
  destruct (col_spec (angle z) c0 c A0 H1) as [r [E U]]. destruct (IH H2 H6) as [rs [E2 U2]]. exists (r :: rs). split; [|now constructor].
  cbn [mapM]. rewrite E. cbn [bind]. rewrite E2. reflexivity.
Qed.
Print Assumptions C35_unwrap.
(** Each sample changes by whole turns. *)
Theorem C35_turns : forall a0 col r, unwrapped a0 col r -> Forall nonzero col -> Forall2 (fun z t => exists k, t = angle z + 2 * IZR k * PI) col r.
Proof.
  intros a0 col r [F [_ _]] N. induction F as [|z t col r H F IH]; constructor; inversion N; subst; auto. destruct (angle_spec z H2) as [A _]. eapply whole_turns; eauto.
Qed.
Print Assumptions C35_turns.
(** One sweep: the first sample is kept, and any sequence of angles with small
    steps is recovered from the numbers. *)
Lemma steps_tail : forall a r, small_steps (a :: r) -> small_steps r.
Proof. intros a r S i L. apply (S (Datatypes.S i)). cbn. lia. Qed.
Lemma restore : forall th l prev t0 acc t, at_angle prev t0 -> t0 = acc + t -> Forall2 at_angle l th -> small_steps (t0 :: th) ->
  map (fun s => s + t) (accumulate acc (map angle (ratios prev l))) = th.
Proof.
  induction th as [|t1 th IH]; intros l prev t0 acc t A E F S; inversion F as [|z ? l' ? AZ F']; subst; cbn; auto.
  assert (G : angle (Cdiv z prev) = t1 - (acc + t)).
  { apply angle_unique; [now apply at_angle_div|]. apply (S 0%nat). cbn. lia. }
  f_equal; [rewrite G; ring|]. apply (IH l' z t1); auto; [rewrite G; ring|]. eapply steps_tail; eauto.
Qed.
Theorem C35_restored : forall t0 th z l, - PI < t0 <= PI -> small_steps (t0 :: th) -> Forall2 at_angle (z :: l) (t0 :: th) ->
  unwrap_phase [z :: l] = Ok [t0 :: th].
Proof.
  intros t0 th z l B S F. inversion F as [|? ? ? ? AZ F']; subst. assert (E : angle z = t0) by (now apply angle_unique).
  unfold unwrap_phase. cbn [mapM]. unfold unwrap_col. rewrite E. unfold shifted. cbv zeta. pose proof PI2_1 as P2.
  destruct (Rlt_dec (Rabs (t0 - t0 + 2 * PI)) 2) as [C|_]; [rewrite Rabs_right in C by lra; lra|].
  destruct (Rlt_dec (Rabs (t0 - t0 - 2 * PI)) 2) as [C|_]; [rewrite Rabs_left in C by lra; lra|]. cbn [bind]. unfold unwrap_raw. rewrite E. do 3 f_equal.
  apply (restore th l z t0); auto. ring.
Qed.
Print Assumptions C35_restored.
Example C35_example : let th := [0; 3 * PI / 4; 3 * PI / 2; PI] in
  small_steps th /\ Forall2 at_angle (map expi th) th /\ unwrap_phase [map expi th] = Ok [th].
Proof.
  cbv zeta. assert (S : small_steps [0; 3 * PI / 4; 3 * PI / 2; PI]).
  { pose proof PI_RGT_0. intros i L. cbn in L. destruct i as [|[|[|i]]]; cbn [nth]; try lra. lia. }
  assert (F : Forall2 at_angle (map expi [0; 3 * PI / 4; 3 * PI / 2; PI]) [0; 3 * PI / 4; 3 * PI / 2; PI]) by (repeat constructor; apply at_angle_expi).
  split; auto. split; auto. apply (C35_restored 0 [3 * PI / 4; 3 * PI / 2; PI] (expi 0) (map expi [3 * PI / 4; 3 * PI / 2; PI])); auto. pose proof PI_RGT_0. lra.
Qed.
(** The same in degrees. *)
Theorem C35_degrees : forall cols rs, unwrap_phase cols = Ok rs -> unwrap_phase_deg cols = Ok (map (map (fun x => x * (180 / PI))) rs).
Proof. intros cols rs E. unfold unwrap_phase_deg. rewrite E. cbn [bind]. f_equal. apply map_ext. intros r. apply map_ext. intros x. field. pose proof PI_RGT_0. lra. Qed.
Print Assumptions C35_degrees.
(** The square root with continuous phase: the squares are the numbers, and
    neighbours are at most a quarter turn apart. *)
Theorem C35_sqrt : forall z l cols, Forall (Forall nonzero) ((z :: l) :: cols) -> Forall (fun c => c <> []) cols ->
  exists Qs, continous_phase_sqrt ((z :: l) :: cols) = Ok Qs /\
  Forall2 (fun col Q => map (fun w => Cmul w w) Q = col /\
    forall i, (S i < length Q)%nat -> exists t, at_angle (Cdiv (nth (S i) Q (0, 0)) (nth i Q (0, 0))) t /\ Rabs t <= PI / 2) ((z :: l) :: cols) Qs.
Proof.
  intros z l cols F N. destruct (C35_unwrap z l cols F N) as [rs [E U]]. unfold continous_phase_sqrt. rewrite E. cbn [bind]. eexists. split; [reflexivity|]. clear E.
  assert (HALF : forall q t, at_angle q t -> Cmul (phase_sqrt q t) (phase_sqrt q t) = q /\ at_angle (phase_sqrt q t) (t / 2)).
  { intros q t [rho [P ->]]. unfold phase_sqrt. rewrite Cmod_polar by auto. split.
    - unfold Cmul, RtoC, expi. cbn [fst snd]. pose proof (sqrt_sqrt rho ltac:(lra)) as SS. set (s := sqrt rho) in *.
      replace (cos t) with (cos (t / 2) * cos (t / 2) - sin (t / 2) * sin (t / 2)) by (rewrite <- cos_2a; f_equal; field).
      replace (sin t) with (2 * sin (t / 2) * cos (t / 2)) by (rewrite <- sin_2a; f_equal; field). apply pair_eq; rewrite <- SS; ring.
    - exists (sqrt rho). split; [now apply sqrt_lt_R0|]. unfold Cmul, RtoC, expi. cbn [fst snd]. apply pair_eq; ring. }
  revert U F. clear N. generalize ((z :: l) :: cols) as cs, (angle z) as a0. intros cs a0 U. induction U as [|col r cs rs U0 U IH]; intros F; cbn [combine map]; constructor.
  - cbn [fst snd]. destruct U0 as [A [S _]]. clear IH F U. split.
    + clear S. induction A as [|q t col r HA A IH]; cbn [combine map]; auto. cbn [fst snd]. rewrite IH. f_equal. now apply HALF.
    + assert (Q2 : Forall2 at_angle (map (fun x => phase_sqrt (fst x) (snd x)) (combine col r)) (map (fun t => t / 2) r)).
      { clear S. induction A as [|q t col r HA A IH]; cbn [combine map fst snd]; constructor; auto. now apply HALF. }
      assert (LEN : length (map (fun x => phase_sqrt (fst x) (snd x)) (combine col r)) = length r).
      { clear - A. induction A; cbn; auto. }
      intros i L. rewrite LEN in L. specialize (S i L).
      assert (NTH : forall j, (j < length r)%nat -> at_angle (nth j (map (fun x => phase_sqrt (fst x) (snd x)) (combine col r)) (0, 0)) (nth j r 0 / 2)).
      { clear - Q2. revert Q2. generalize (map (fun x => phase_sqrt (fst x) (snd x)) (combine col r)) as Q. induction r as [|t r IH]; intros Q Q2 j J; [cbn in J; lia|].
        inversion Q2; subst. destruct j as [|j]; cbn [nth]; auto. apply IH; auto. cbn in J. lia. }
      exists (nth (Datatypes.S i) r 0 / 2 - nth i r 0 / 2). split; [apply at_angle_div; apply NTH; lia|]. apply Rabs_le. lra.
  - apply IH. now inversion F.
Qed.
Print Assumptions C35_sqrt.
(** The group delay of a pure delay, when the steps are fine enough. *)
Theorem C35_delay : forall tau A fs f0, nonzero A -> 
  (forall i, (S i < length (f0 :: fs))%nat -> let d := nth (S i) (f0 :: fs) 0 - nth i (f0 :: fs) 0 in d <> 0 /\ Rabs (2 * PI * tau * d) < PI) ->
  let v := fun f => Cmul A (expi (- (2 * PI * tau * f))) in
  map snd (delay f0 (v f0) (map (fun f => (f, v f)) fs)) = map (fun _ => tau) fs /\
  (forall i, (i < length fs)%nat -> nth i (map fst (delay f0 (v f0) (map (fun f => (f, v f)) fs))) 0 = (nth i (f0 :: fs) 0 + nth (S i) (f0 :: fs) 0) / 2).
Proof.
  intros tau A fs f0 NA. revert f0. induction fs as [|f fs IH]; intros f0 H v; [split; cbn; auto; intros; lia|].
  assert (H' : forall i, (S i < length (f :: fs))%nat -> let d := nth (S i) (f :: fs) 0 - nth i (f :: fs) 0 in d <> 0 /\ Rabs (2 * PI * tau * d) < PI).
  { intros i L. apply (H (S i)). cbn in *. lia. }
  destruct (IH f H') as [I1 I2]. cbv zeta in I1, I2. cbn [map delay]. cbn [map snd fst]. split.
  - f_equal; [|exact I1]. destruct (H 0%nat ltac:(cbn; lia)) as [D1 D2]. cbn [nth] in *. apply Rabs_def2 in D2. destruct (angle_spec A NA) as [AA _].
    rewrite (angle_unique (Cdiv (v f) (v f0)) (- (2 * PI * tau * (f - f0)))).
    + field. pose proof PI_RGT_0. split; lra.
    + replace (- (2 * PI * tau * (f - f0))) with ((angle A + - (2 * PI * tau * f)) - (angle A + - (2 * PI * tau * f0))) by ring. apply at_angle_div; apply at_angle_mul; auto; apply at_angle_expi.
    + lra.
  - intros [|i] L; [cbn [nth]; field|]. cbn [nth]. rewrite I2 by (cbn in L; lia). reflexivity.
Qed.
Print Assumptions C35_delay.
Example C35_delay_example : map snd (delay 0 (Cmul (1, 0) (expi (- (2 * PI * (1 / 10) * 0)))) (map (fun f => (f, Cmul (1, 0) (expi (- (2 * PI * (1 / 10) * f))))) [1; 2; 3])) = [1 / 10; 1 / 10; 1 / 10].
Proof.
  apply (C35_delay (1 / 10) (1, 0) [1; 2; 3] 0).
  - intros E. injection E as E. lra.
  - intros i L. pose proof PI_RGT_0. cbn in L. destruct i as [|[|[|i]]]; try lia; cbn [nth]; (split; [lra|]); rewrite Rabs_right; lra.
Qed.
(** Steps of more than half a turn cannot be seen. *)
Theorem C35_large_step_refuted : exists th, unwrap_phase [map expi th] <> Ok [th].
Proof.
  exists [0; 2 * PI]. intros E. pose proof PI_RGT_0.
  assert (F : Forall2 at_angle (map expi [0; 2 * PI]) [0; 0]).
  { repeat constructor; [apply at_angle_expi|]. exists 1. split; [lra|]. unfold expi. rewrite cos_2PI, sin_2PI, cos_0, sin_0. apply pair_eq; ring. }
  pose proof (C35_restored 0 [0] (expi 0) [expi (2 * PI)] ltac:(lra)) as R. cbn [map] in E, F.
  rewrite R in E; auto; [injection E; lra|]. intros i L. cbn in L. destruct i as [|i]; [cbn [nth]; lra|lia].
Qed.
Print Assumptions C35_large_step_refuted.
