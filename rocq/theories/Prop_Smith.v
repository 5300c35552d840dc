(** C68: the circles of a Smith chart. *)
From Coq Require Import Reals Lra Bool.
From Verif Require Import Model_Noise Model_Phase Model_Smith Spec_Smith Prop_Phase.
Local Open Scope R_scope.

Lemma sum_sq : forall a b, a <> 0 \/ b <> 0 -> a * a + b * b <> 0.
Proof.
  intros a b H E. pose proof (Rle_0_sqr a) as A. pose proof (Rle_0_sqr b) as B. unfold Rsqr in *.
  destruct H as [H|H]; apply H; [assert (K : a * a = 0) by lra|assert (K : b * b = 0) by lra]; destruct (Rmult_integral _ _ K); auto.
Qed.
Lemma reflects_iff : forall r x u v, reflects (r, x) (u, v) <-> ((r + 1 <> 0 \/ x <> 0) /\ u * (r + 1) - v * x = r - 1 /\ u * x + v * (r + 1) = x).
Proof.
  intros r x u v. unfold reflects, Cmul, Cadd, Csub. cbn [fst snd]. rewrite Rplus_0_r, Rminus_0_r. split.
  - intros [N E]. injection E as E1 E2. split; [|split; assumption]. destruct (Req_dec (r + 1) 0); [|auto]. destruct (Req_dec x 0); [|auto]. exfalso. apply N. now f_equal.
  - intros [N [E1 E2]]. split; [|now f_equal]. intros K. injection K as K1 K2. destruct N; auto.
Qed.
Lemma reflects_y_iff : forall g b u v, reflects_y (g, b) (u, v) <-> reflects (g, b) (- u, - v).
Proof.
  intros g b u v. unfold reflects_y, reflects, Cmul, Cadd, Csub. cbn [fst snd]. rewrite Rplus_0_r, Rminus_0_r.
  split; intros [N E]; (split; [exact N|]); injection E as E1 E2; f_equal; lra.
Qed.

(** ** Whole circles *)
Theorem C68_r_circle : forall r, r <> -1 -> exists rad, RCircle r None None = Circle (r / (r + 1)) 0 rad None /\ 0 < rad /\
  on_circle (r / (r + 1)) 0 rad (1, 0) /\
  forall p, p <> (1, 0) -> (on_circle (r / (r + 1)) 0 rad p <-> exists x, reflects (r, x) p).
Proof.
  intros r N. assert (A : r + 1 <> 0) by lra. exists (Rabs (1 / (r + 1))). split; [reflexivity|].
  split; [apply Rabs_pos_lt; unfold Rdiv; rewrite Rmult_1_l; now apply Rinv_neq_0_compat|].
  assert (Q : Rabs (1 / (r + 1)) * Rabs (1 / (r + 1)) = 1 / ((r + 1) * (r + 1))).
  { rewrite <- Rabs_mult, Rabs_pos_eq; [field; exact A|]. apply Rle_0_sqr. }
  assert (OC : forall u v, on_circle (r / (r + 1)) 0 (Rabs (1 / (r + 1))) (u, v) <-> (r + 1) * (u * u + v * v) - 2 * r * u + (r - 1) = 0).
  { intros u v. unfold on_circle. rewrite Q. cbn [fst snd]. rewrite Rminus_0_r.
    assert (I : (u - r / (r + 1)) * (u - r / (r + 1)) + v * v - 1 / ((r + 1) * (r + 1)) = ((r + 1) * (u * u + v * v) - 2 * r * u + (r - 1)) / (r + 1)) by (field; exact A).
    split; intros H.
    - assert (E : ((r + 1) * (u * u + v * v) - 2 * r * u + (r - 1)) / (r + 1) = 0) by lra.
      apply (Rmult_eq_compat_r (r + 1)) in E. unfold Rdiv in E. rewrite Rmult_assoc, Rinv_l, Rmult_1_r, Rmult_0_l in E by exact A. exact E.
    - rewrite H in I. unfold Rdiv in I at 4. rewrite Rmult_0_l in I. lra. }
  split; [apply OC; ring|]. intros [u v] NP. rewrite OC.
  assert (D : (1 - u) * (1 - u) + v * v <> 0).
  { apply sum_sq. destruct (Req_dec v 0) as [->|]; auto. left. intros K. apply NP. f_equal; lra. }
  split.
  - intros H. exists (2 * v / ((1 - u) * (1 - u) + v * v)). apply reflects_iff. split; [auto|]. set (d := (1 - u) * (1 - u) + v * v) in *.
    assert (E : (r + 1) * d = 2 * (1 - u)) by (unfold d; lra).
    assert (E2 : r + 1 = 2 * (1 - u) / d) by (apply (Rmult_eq_reg_r d); auto; rewrite E; field; exact D).
    assert (E3 : r - 1 = 2 * (1 - u) / d - 2) by lra. rewrite E3, E2. split; field_simplify; auto; unfold d; field; exact D.
  - intros [x H]. apply reflects_iff in H as [_ [H1 H2]].
    assert (X : x * (1 - u) = v * (r + 1)) by lra. assert (Y : v * x = u * (r + 1) - (r - 1)) by lra.
    assert (I : (v * x) * (1 - u) = v * (v * (r + 1))) by (rewrite <- X; ring). rewrite Y in I. lra.
Qed.
Print Assumptions C68_r_circle.

Theorem C68_x_circle : forall x, x <> 0 -> exists rad, XCircle x None None = Circle 1 (1 / x) rad None /\ 0 < rad /\
  on_circle 1 (1 / x) rad (1, 0) /\
  forall p, p <> (1, 0) -> (on_circle 1 (1 / x) rad p <-> exists r, reflects (r, x) p).
Proof.
  intros x N. exists (Rabs (1 / x)). split; [unfold XCircle; destruct (Req_EM_T x 0); [contradiction|reflexivity]|].
  split; [apply Rabs_pos_lt; unfold Rdiv; rewrite Rmult_1_l; now apply Rinv_neq_0_compat|].
  assert (Q : Rabs (1 / x) * Rabs (1 / x) = 1 / (x * x)).
  { rewrite <- Rabs_mult, Rabs_pos_eq; [field; exact N|]. apply Rle_0_sqr. }
  assert (OC : forall u v, on_circle 1 (1 / x) (Rabs (1 / x)) (u, v) <-> x * ((u - 1) * (u - 1) + v * v) = 2 * v).
  { intros u v. unfold on_circle. rewrite Q. cbn [fst snd].
    assert (I : x * ((u - 1) * (u - 1) + (v - 1 / x) * (v - 1 / x) - 1 / (x * x)) = x * ((u - 1) * (u - 1) + v * v) - 2 * v) by (field; exact N).
    split; intros H.
    - replace ((u - 1) * (u - 1) + (v - 1 / x) * (v - 1 / x) - 1 / (x * x)) with 0 in I by lra. lra.
    - assert (E : x * ((u - 1) * (u - 1) + (v - 1 / x) * (v - 1 / x) - 1 / (x * x)) = 0) by lra. apply Rmult_integral in E as [E|E]; [contradiction|lra]. }
  split; [apply OC; ring|]. intros [u v] NP. rewrite OC.
  assert (D : (u - 1) * (u - 1) + v * v <> 0).
  { apply sum_sq. destruct (Req_dec v 0) as [->|]; auto. left. intros K. apply NP. f_equal; lra. }
  split.
  - intros H. exists (2 * (1 - u) / ((u - 1) * (u - 1) + v * v) - 1). apply reflects_iff. split; [auto|]. set (d := (u - 1) * (u - 1) + v * v) in *.
    assert (E2 : x = 2 * v / d) by (apply (Rmult_eq_reg_r d); auto; rewrite H; field; exact D).
    clear H. subst x. split; field_simplify; auto; unfold d; field; exact D.
  - intros [r H]. apply reflects_iff in H as [_ [H1 H2]].
    assert (Y : (u - 1) * (r + 1) = v * x - 2) by lra.
    assert (I : (u - 1) * (u - 1) * x = (u - 1) * (- (v * (r + 1)))) by (replace (- (v * (r + 1))) with ((u - 1) * x) by lra; ring).
    replace ((u - 1) * - (v * (r + 1))) with (- v * ((u - 1) * (r + 1))) in I by ring. rewrite Y in I. lra.
Qed.
Print Assumptions C68_x_circle.

(** The same for admittances: mirrored. *)
Lemma on_mirror : forall x y r u v, on_circle (- x) (- y) r (u, v) <-> on_circle x y r (- u, - v).
Proof.
  intros. unfold on_circle. cbn [fst snd]. replace (- u - x) with (- (u - - x)) by ring. replace (- v - y) with (- (v - - y)) by ring.
  rewrite !Rmult_opp_opp. tauto.
Qed.
Theorem C68_g_circle : forall g, g <> -1 -> exists rad, GCircle g None None = Circle (- g / (g + 1)) 0 rad None /\ 0 < rad /\
  on_circle (- g / (g + 1)) 0 rad (-1, 0) /\
  forall p, p <> (-1, 0) -> (on_circle (- g / (g + 1)) 0 rad p <-> exists b, reflects_y (g, b) p).
Proof.
  intros g N. destruct (C68_r_circle g N) as [rad [E [P [O H]]]]. exists rad. injection E as E. subst rad. split; [reflexivity|]. split; [exact P|].
  assert (Eg : - g / (g + 1) = - (g / (g + 1))) by (field; lra). rewrite Eg.
  assert (OM : forall u v, on_circle (- (g / (g + 1))) 0 (Rabs (1 / (g + 1))) (u, v) <-> on_circle (g / (g + 1)) 0 (Rabs (1 / (g + 1))) (- u, - v)) by (intros u v; rewrite <- on_mirror, Ropp_0; tauto).
  split.
  - apply OM. rewrite Ropp_0. replace (- -1) with 1 by ring. exact O.
  - intros [u v] NP. rewrite OM, H by (intros K; injection K as K1 K2; apply NP; f_equal; lra).
    split; intros [b Hb]; exists b; now apply reflects_y_iff.
Qed.
Print Assumptions C68_g_circle.
Theorem C68_b_circle : forall b, b <> 0 -> exists rad, BCircle b None None = Circle (-1) (-1 / b) rad None /\ 0 < rad /\
  on_circle (-1) (-1 / b) rad (-1, 0) /\
  forall p, p <> (-1, 0) -> (on_circle (-1) (-1 / b) rad p <-> exists g, reflects_y (g, b) p).
Proof.
  intros b N. destruct (C68_x_circle b N) as [rad [E [P [O H]]]]. exists rad. unfold XCircle in E. unfold BCircle. destruct (Req_EM_T b 0); [contradiction|]. injection E as E. subst rad.
  split; [destruct (Rle_dec 0 b); reflexivity|]. split; [exact P|].
  assert (Eb : -1 / b = - (1 / b)) by (field; exact N). rewrite Eb.
  assert (OM : forall u v, on_circle (-1) (- (1 / b)) (Rabs (1 / b)) (u, v) <-> on_circle 1 (1 / b) (Rabs (1 / b)) (- u, - v)) by (intros u v; rewrite <- on_mirror; tauto).
  split.
  - apply OM. rewrite Ropp_0. replace (- -1) with 1 by ring. exact O.
  - intros [u v] NP. rewrite OM, H by (intros K; injection K as K1 K2; apply NP; f_equal; lra).
    split; intros [g Hb]; exists g; now apply reflects_y_iff.
Qed.
Print Assumptions C68_b_circle.

(** Zero reactance: the diameter, or the part of it between two resistances. *)
Lemma real_reflects : forall r u, r <> -1 -> (reflects (r, 0) (u, 0) <-> u = (r - 1) / (r + 1)).
Proof.
  intros r u N. rewrite reflects_iff. split.
  - intros [_ [H _]]. apply (Rmult_eq_reg_r (r + 1)); [|lra]. field_simplify; lra.
  - intros ->. split; [left; lra|]. split; [field; lra|ring].
Qed.
Theorem C68_x_line : forall r1 r2, -1 < r1 -> -1 < r2 -> exists u1 u2,
  XCircle 0 (Some (Fin r1)) (Some (Fin r2)) = Line u1 0 u2 0 /\ reflects (r1, 0) (u1, 0) /\ reflects (r2, 0) (u2, 0) /\
  (forall u, Rmin u1 u2 <= u <= Rmax u1 u2 <-> exists r, Rmin r1 r2 <= r <= Rmax r1 r2 /\ reflects (r, 0) (u, 0)) /\
  XCircle 0 None None = Line (-1) 0 1 0 /\ XCircle 0 (Some (Fin 0)) (Some PInf) = Line (-1) 0 1 0.
Proof.
  intros r1 r2 N1 N2. exists ((r1 - 1) / (r1 + 1)), ((r2 - 1) / (r2 + 1)).
  assert (G : forall r, -1 < r -> fst (z2gamma (Fin r) (Fin 0)) = (r - 1) / (r + 1)).
  { intros r N. unfold z2gamma, Cdiv, Cmul, Cinv, Cabs2, Csub, Cadd. cbn [fst snd]. field. assert (0 < (r + 1) * (r + 1)) by (apply Rmult_lt_0_compat; lra). repeat split; try lra. }
  unfold XCircle. destruct (Req_EM_T 0 0) as [_|K]; [|contradiction]. rewrite !G by lra. split; [reflexivity|].
  split; [apply real_reflects; lra|]. split; [apply real_reflects; lra|]. split.
  2: { split; [reflexivity|]. cbn [z2gamma]. unfold rx_nonneg. destruct (Rle_dec 0 0); [|lra]. cbn [fst]. f_equal. field. }
  assert (M : forall a b, -1 < a -> -1 < b -> ((a - 1) / (a + 1) <= (b - 1) / (b + 1) <-> a <= b)).
  { intros a b A B. assert (E : (b - 1) / (b + 1) - (a - 1) / (a + 1) = 2 * (b - a) / ((a + 1) * (b + 1))) by (field; lra).
    assert (P : 0 < (a + 1) * (b + 1)) by (apply Rmult_lt_0_compat; lra). split; intros H.
    - assert (K : 0 <= 2 * (b - a) / ((a + 1) * (b + 1))) by lra. apply (Rmult_le_compat_r ((a + 1) * (b + 1))) in K; [|lra].
      unfold Rdiv in K. rewrite Rmult_assoc, Rinv_l, Rmult_0_l in K by lra. lra.
    - assert (K : 0 <= 2 * (b - a) / ((a + 1) * (b + 1))); [|lra]. apply Rmult_le_pos; [lra|]. left. now apply Rinv_0_lt_compat. }
  intros u. split.
  - intros H. assert (U : u < 1).
    { assert (K : forall r, -1 < r -> (r - 1) / (r + 1) < 1). { intros r N. assert (E : 1 - (r - 1) / (r + 1) = 2 / (r + 1)) by (field; lra). assert (0 < 2 / (r + 1)) by (apply Rdiv_lt_0_compat; lra). lra. }
      pose proof (K r1 N1). pose proof (K r2 N2). unfold Rmax in H. destruct (Rle_dec _ _) in H; lra. }
    set (r := (1 + u) / (1 - u)). assert (R1 : r + 1 = 2 / (1 - u)) by (unfold r; field; lra).
    assert (RP : -1 < r) by (assert (0 < 2 / (1 - u)) by (apply Rdiv_lt_0_compat; lra); lra).
    assert (U2 : u = (r - 1) / (r + 1)) by (unfold r; field; lra). exists r. split; [|apply real_reflects; lra]. rewrite U2 in H. clear - H M N1 N2 RP.
    unfold Rmin, Rmax in *. destruct (Rle_dec r1 r2) as [L|L], (Rle_dec ((r1 - 1) / (r1 + 1)) ((r2 - 1) / (r2 + 1))) as [K|K]; rewrite M in * by auto; try contradiction; rewrite !M in H by auto; auto.
  - intros [r [H1 H2]]. assert (RP : -1 < r) by (unfold Rmin in H1; destruct (Rle_dec r1 r2) in H1; lra). apply real_reflects in H2; [|lra]. subst u.
    unfold Rmin, Rmax in *. destruct (Rle_dec r1 r2) as [L|L], (Rle_dec ((r1 - 1) / (r1 + 1)) ((r2 - 1) / (r2 + 1))) as [K|K]; rewrite M in * by auto; try contradiction; rewrite !M by auto; auto.
Qed.
Print Assumptions C68_x_line.

(** Inside the chart are the impedances of non-negative resistance. *)
Theorem C68_passive : forall r x p, reflects (r, x) p -> (Cabs2 p <= 1 <-> 0 <= r).
Proof.
  intros r x [u v] H. apply reflects_iff in H as [N [H1 H2]]. unfold Cabs2. cbn [fst snd].
  assert (D : 0 < (r + 1) * (r + 1) + x * x).
  { pose proof (sum_sq (r + 1) x N). pose proof (Rle_0_sqr (r + 1)). pose proof (Rle_0_sqr x). unfold Rsqr in *. lra. }
  assert (E : (u * u + v * v) * ((r + 1) * (r + 1) + x * x) = (r - 1) * (r - 1) + x * x).
  { transitivity ((u * (r + 1) - v * x) * (u * (r + 1) - v * x) + (u * x + v * (r + 1)) * (u * x + v * (r + 1))); [ring|]. now rewrite H1, H2. }
  split; intros H.
  - assert (K : (u * u + v * v) * ((r + 1) * (r + 1) + x * x) <= 1 * ((r + 1) * (r + 1) + x * x)) by (apply Rmult_le_compat_r; lra). lra.
  - apply (Rmult_le_reg_r ((r + 1) * (r + 1) + x * x)); auto. lra.
Qed.
Print Assumptions C68_passive.

(** ** Arcs *)
(** angle: the angle between the branch and the branch plus a turn. *)
Lemma sm_angle_unique : forall z t branch, at_angle z (t / 180 * PI) -> branch <= t < branch + 360 -> sm_angle z branch = t.
Proof.
  intros z t branch A B. unfold sm_angle. pose proof PI_RGT_0 as P.
  assert (D : at_angle (Cdiv z (expi (branch / 180 * PI))) (t / 180 * PI - branch / 180 * PI)) by (apply at_angle_div; auto; apply at_angle_expi).
  replace (t / 180 * PI - branch / 180 * PI) with ((t - branch) / 180 * PI) in D by field.
  assert (S1 : forall s, - 180 < s <= 180 -> at_angle (Cdiv z (expi (branch / 180 * PI))) (s / 180 * PI) -> npangle (Cdiv z (expi (branch / 180 * PI))) * (180 / PI) = s).
  { intros s Hs As. rewrite (polar_unique _ (s / 180 * PI)); auto; [field; lra|].
    split; [apply (Rmult_lt_reg_r (180 / PI))|apply (Rmult_le_reg_r (180 / PI))]; try (apply Rdiv_lt_0_compat; lra).
    - replace (- PI * (180 / PI)) with (- 180) by (field; lra). replace (s / 180 * PI * (180 / PI)) with s by (field; lra). lra.
    - replace (PI * (180 / PI)) with 180 by (field; lra). replace (s / 180 * PI * (180 / PI)) with s by (field; lra). lra. }
  destruct (Rle_dec (t - branch) 180) as [L|L].
  - rewrite (S1 (t - branch)) by (auto; lra). destruct (Rlt_dec (t - branch) 0); lra.
  - rewrite (S1 (t - branch - 360)); [destruct (Rlt_dec (t - branch - 360) 0); lra|lra|].
    pose proof (at_angle_turn _ _ (-1)%Z D) as D'. replace ((t - branch) / 180 * PI + 2 * -1 * PI) with ((t - branch - 360) / 180 * PI) in D' by field. exact D'.
Qed.
(** Twice an arc tangent. *)
Lemma cos_2atan : forall w, cos (2 * atan w) = (1 - w * w) / (1 + w * w).
Proof.
  intros w. rewrite cos_2a, cos_atan, sin_atan. assert (P : 0 < 1 + w * w) by (pose proof (Rle_0_sqr w); unfold Rsqr in *; lra).
  assert (Q : sqrt (1 + w * w) * sqrt (1 + w * w) = 1 + w * w) by (apply sqrt_sqrt; lra). assert (N : sqrt (1 + w * w) <> 0) by (intros K; rewrite K in Q; lra).
  unfold Rsqr. rewrite <- Q at 5. field. exact N.
Qed.
Lemma sin_2atan : forall w, sin (2 * atan w) = 2 * w / (1 + w * w).
Proof.
  intros w. rewrite sin_2a, cos_atan, sin_atan. assert (P : 0 < 1 + w * w) by (pose proof (Rle_0_sqr w); unfold Rsqr in *; lra).
  assert (Q : sqrt (1 + w * w) * sqrt (1 + w * w) = 1 + w * w) by (apply sqrt_sqrt; lra). assert (N : sqrt (1 + w * w) <> 0) by (intros K; rewrite K in Q; lra).
  unfold Rsqr. rewrite <- Q at 3. field. exact N.
Qed.
Definition deg (t : R) : R := t * (180 / PI).
Lemma deg_rad : forall t, deg t / 180 * PI = t.
Proof. intros t. unfold deg. pose proof PI_RGT_0. field. lra. Qed.
Lemma deg_le : forall a b, a <= b <-> deg a <= deg b.
Proof.
  intros a b. unfold deg. assert (0 < 180 / PI) by (apply Rdiv_lt_0_compat; [lra|apply PI_RGT_0]). split; intros K; [apply Rmult_le_compat_r; lra|apply (Rmult_le_reg_r (180 / PI)); auto].
Qed.
Lemma deg_lt : forall a b, a < b <-> deg a < deg b.
Proof.
  intros a b. unfold deg. assert (0 < 180 / PI) by (apply Rdiv_lt_0_compat; [lra|apply PI_RGT_0]). split; intros K; [apply Rmult_lt_compat_r; lra|apply (Rmult_lt_reg_r (180 / PI)); auto].
Qed.
Lemma deg_pi : forall q, deg (q * PI) = q * 180.
Proof. intros q. unfold deg. pose proof PI_RGT_0. field. lra. Qed.
Lemma atan_le : forall a b, a <= b -> atan a <= atan b.
Proof. intros a b [H| ->]; [left; now apply atan_increasing|lra]. Qed.
Lemma atan_le_iff : forall a b, atan a <= atan b <-> a <= b.
Proof. intros a b. split; [|apply atan_le]. intros H. destruct (Rle_dec a b); auto. exfalso. pose proof (atan_increasing b a ltac:(lra)). lra. Qed.

(** The direction from the centre of its circle to a reflection coefficient, for a
    circle of resistance and one of reactance. *)
Definition phi_r (r x : R) : R := 1 * PI - 2 * atan (x / (r + 1)).
Definition phi_x (x r : R) : R := (if Rlt_dec 0 x then 3 / 2 else 1 / 2) * PI - 2 * atan (x / (r + 1)).
Lemma r_point : forall r x, -1 < r -> forall p, reflects (r, x) p <-> p = point_at (r / (r + 1)) 0 (Rabs (1 / (r + 1))) (deg (phi_r r x)).
Proof.
  intros r x N [u v]. rewrite reflects_iff. unfold point_at. rewrite deg_rad. unfold phi_r. rewrite Rmult_1_l.
  rewrite cos_minus, sin_minus, cos_PI, sin_PI, cos_2atan, sin_2atan. rewrite Rabs_pos_eq by (left; apply Rdiv_lt_0_compat; lra).
  assert (D : (r + 1) * (r + 1) + x * x <> 0) by (apply sum_sq; left; lra).
  set (a := r + 1) in *. assert (A : a <> 0) by (unfold a; lra). replace r with (a - 1) by (unfold a; ring). clearbody a. clear N.
  assert (D2 : 1 + x / a * (x / a) <> 0).
  { replace (1 + x / a * (x / a)) with ((a * a + x * x) / (a * a)) by (field; exact A). unfold Rdiv. apply Rmult_integral_contrapositive_currified; auto. apply Rinv_neq_0_compat. now apply Rmult_integral_contrapositive_currified. }
  split.
  - intros [_ [H1 H2]]. assert (U : u * (a * a + x * x) = (a - 2) * a + x * x) by (transitivity (a * (u * a - v * x) + x * (u * x + v * a)); [ring|rewrite H1, H2; ring]).
    assert (V : v * (a * a + x * x) = 2 * x) by (transitivity (a * (u * x + v * a) - x * (u * a - v * x)); [ring|rewrite H1, H2; ring]).
    apply pair_eq; apply (Rmult_eq_reg_r (a * a + x * x)); auto; rewrite ?U, ?V; field; auto.
  - intros E. injection E as -> ->. split; [auto|]. split; field; auto.
Qed.
Lemma x_point : forall x r, -1 < r -> x <> 0 -> forall p, reflects (r, x) p <-> p = point_at 1 (1 / x) (Rabs (1 / x)) (deg (phi_x x r)).
Proof.
  intros x r N X [u v]. rewrite reflects_iff. unfold point_at. rewrite deg_rad. unfold phi_x.
  assert (D : (r + 1) * (r + 1) + x * x <> 0) by (apply sum_sq; left; lra).
  assert (E : (Rabs (1 / x) * cos ((if Rlt_dec 0 x then 3 / 2 else 1 / 2) * PI - 2 * atan (x / (r + 1))) = - (1 / x) * sin (2 * atan (x / (r + 1)))) /\
              (Rabs (1 / x) * sin ((if Rlt_dec 0 x then 3 / 2 else 1 / 2) * PI - 2 * atan (x / (r + 1))) = - (1 / x) * cos (2 * atan (x / (r + 1))))).
  { rewrite cos_minus, sin_minus. destruct (Rlt_dec 0 x) as [L|L].
    - rewrite Rabs_pos_eq by (left; apply Rdiv_lt_0_compat; lra). replace (3 / 2 * PI) with (3 * (PI / 2)) by field. rewrite cos_3PI2, sin_3PI2. split; ring.
    - rewrite Rabs_left by (unfold Rdiv; rewrite Rmult_1_l; apply Rinv_lt_0_compat; lra). replace (1 / 2 * PI) with (PI / 2) by field. rewrite cos_PI2, sin_PI2. split; ring. }
  destruct E as [E1 E2]. rewrite E1, E2. clear E1 E2. rewrite cos_2atan, sin_2atan.
  set (a := r + 1) in *. assert (A : a <> 0) by (unfold a; lra). replace r with (a - 1) by (unfold a; ring). clearbody a. clear N.
  assert (D2 : 1 + x / a * (x / a) <> 0).
  { replace (1 + x / a * (x / a)) with ((a * a + x * x) / (a * a)) by (field; exact A). unfold Rdiv. apply Rmult_integral_contrapositive_currified; auto. apply Rinv_neq_0_compat. now apply Rmult_integral_contrapositive_currified. }
  split.
  - intros [_ [H1 H2]]. assert (U : u * (a * a + x * x) = (a - 2) * a + x * x) by (transitivity (a * (u * a - v * x) + x * (u * x + v * a)); [ring|rewrite H1, H2; ring]).
    assert (V : v * (a * a + x * x) = 2 * x) by (transitivity (a * (u * x + v * a) - x * (u * a - v * x)); [ring|rewrite H1, H2; ring]).
    apply pair_eq; apply (Rmult_eq_reg_r (a * a + x * x)); auto; rewrite ?U, ?V; field; auto.
  - intros E. injection E as -> ->. split; [auto|]. split; field; auto.
Qed.
Lemma turn_between : forall k w1 w2 t, k * PI - 2 * atan w2 <= t <= k * PI - 2 * atan w1 -> exists w, w1 <= w <= w2 /\ t = k * PI - 2 * atan w.
Proof.
  intros k w1 w2 t H. exists (tan ((k * PI - t) / 2)). pose proof (atan_bound w1). pose proof (atan_bound w2).
  assert (E : atan (tan ((k * PI - t) / 2)) = (k * PI - t) / 2) by (apply atan_tan; lra).
  split; [|rewrite E; field]. rewrite <- (atan_le_iff w1), <- (atan_le_iff _ w2), E. lra.
Qed.
Lemma z2gamma_ok : forall r x, (r + 1 <> 0 \/ x <> 0) -> reflects (r, x) (z2gamma (Fin r) (Fin x)).
Proof.
  intros r x N. cbn [z2gamma]. unfold Cdiv, Cinv, Cmul, Csub, Cadd, Cabs2. cbn [fst snd]. apply reflects_iff. split; auto.
  pose proof (sum_sq _ _ N) as D. rewrite !Rminus_0_r, !Rplus_0_r. split; field; exact D.
Qed.
Lemma y2gamma_ok : forall g b, (g + 1 <> 0 \/ b <> 0) -> reflects_y (g, b) (y2gamma (Fin g) (Fin b)).
Proof.
  intros r x N. cbn [y2gamma]. unfold Cdiv, Cinv, Cmul, Csub, Cadd, Cabs2. cbn [fst snd]. apply reflects_y_iff, reflects_iff. split; auto.
  pose proof (sum_sq _ _ N) as D. rewrite !(Rplus_comm 1), !Rminus_0_l, !Rplus_0_l. split; field; exact D.
Qed.
Lemma seen_at : forall x y r t, 0 < r -> at_angle (Csub (point_at x y r t) (x, y)) (t / 180 * PI).
Proof. intros x y r t P. exists r. split; auto. unfold Csub, point_at. cbn [fst snd]. apply pair_eq; ring. Qed.
Lemma rx_min_fin : forall a b, rx_min (Fin a) (Fin b) = Fin (Rmin a b).
Proof. intros a b. unfold rx_min, rx_leb, Rmin. destruct (Rle_dec a b); reflexivity. Qed.
Lemma rx_max_fin : forall a b, rx_max (Fin a) (Fin b) = Fin (Rmax a b).
Proof. intros a b. unfold rx_max, rx_leb, Rmax. destruct (Rle_dec a b); reflexivity. Qed.
Lemma rad_pos : forall a, a <> 0 -> 0 < Rabs (1 / a).
Proof. intros a N. apply Rabs_pos_lt. unfold Rdiv. rewrite Rmult_1_l. now apply Rinv_neq_0_compat. Qed.

Lemma div_le : forall a u v, 0 < a -> (u / a <= v / a <-> u <= v).
Proof.
  intros a u v P. split; intros H.
  - apply (Rmult_le_compat_r a) in H; [|lra]. unfold Rdiv in H. rewrite !Rmult_assoc, !Rinv_l, !Rmult_1_r in H by lra. exact H.
  - unfold Rdiv. apply Rmult_le_compat_r; auto. left. now apply Rinv_0_lt_compat.
Qed.
(** The arc of a circle of resistance between two reactances, in any order. *)
Theorem C68_r_arc : forall r x1 x2, -1 < r -> exists rad t1 t2,
  RCircle r (Some (Fin x1)) (Some (Fin x2)) = Circle (r / (r + 1)) 0 rad (Some (t1, t2)) /\ RCircle r None None = Circle (r / (r + 1)) 0 rad None /\
  0 < t1 <= t2 /\ t2 < 360 /\
  forall p, on_arc (r / (r + 1)) 0 rad t1 t2 p <-> exists x, Rmin x1 x2 <= x <= Rmax x1 x2 /\ reflects (r, x) p.
Proof.
  intros r x1 x2 N. exists (Rabs (1 / (r + 1))), (deg (phi_r r (Rmax x1 x2))), (deg (phi_r r (Rmin x1 x2))).
  pose proof PI_RGT_0 as P.
  assert (B : forall x, 0 < deg (phi_r r x) < 360).
  { intros x. unfold phi_r. pose proof (atan_bound (x / (r + 1))). replace 0 with (deg (0 * PI)) at 1 by (rewrite deg_pi; ring). replace 360 with (deg (2 * PI)) by (rewrite deg_pi; ring). rewrite <- !deg_lt. lra. }
  assert (A : forall x, sm_angle (Csub (z2gamma (Fin r) (Fin x)) (r / (r + 1), 0)) 0 = deg (phi_r r x)).
  { intros x. pose proof (z2gamma_ok r x ltac:(left; lra)) as Z. apply r_point in Z; auto. rewrite Z. apply sm_angle_unique; [apply seen_at, rad_pos; lra|]. pose proof (B x). lra. }
  assert (MM : Rmin x1 x2 <= Rmax x1 x2) by (pose proof (Rmin_l x1 x2); pose proof (Rmax_l x1 x2); lra).
  split; [unfold RCircle; now rewrite rx_min_fin, rx_max_fin, !A|]. split; [reflexivity|].
  split; [split; [apply B|]|split; [apply B|]].
  - rewrite <- deg_le. unfold phi_r. assert (K : atan (Rmin x1 x2 / (r + 1)) <= atan (Rmax x1 x2 / (r + 1))) by (apply atan_le, div_le; lra). lra.
  - intros p. split.
    + intros [t [[H1 H2] ->]]. rewrite <- (deg_rad t) in H1, H2. assert (T : t = deg (t / 180 * PI)) by (unfold deg; field; lra).
      rewrite T in H1, H2. rewrite deg_rad in H1, H2. rewrite <- deg_le in H1, H2. unfold phi_r in H1, H2.
      destruct (turn_between 1 _ _ _ (conj H1 H2)) as [w [W E]]. exists (w * (r + 1)).
      assert (EW : w * (r + 1) / (r + 1) = w) by (field; lra). split; [split; apply (div_le (r + 1)); rewrite ?EW; tauto || lra|].
      apply r_point; auto. f_equal. rewrite T. f_equal. rewrite E. unfold phi_r. now rewrite EW.
    + intros [x [[H1 H2] H3]]. apply r_point in H3; auto. exists (deg (phi_r r x)). split; auto. rewrite <- !deg_le. unfold phi_r.
      assert (K1 : atan (Rmin x1 x2 / (r + 1)) <= atan (x / (r + 1))) by (apply atan_le, div_le; lra). assert (K2 : atan (x / (r + 1)) <= atan (Rmax x1 x2 / (r + 1))) by (apply atan_le, div_le; lra). lra.
Qed.
Print Assumptions C68_r_arc.

Lemma arc_family : forall (k cx cy rad w1 w2 lo hi : R) (w : R -> R) (Refl : R -> Cx -> Prop),
  (forall u, lo <= u <= hi -> forall p, Refl u p <-> p = point_at cx cy rad (deg (k * PI - 2 * atan (w u)))) ->
  (forall v, w1 <= v <= w2 <-> exists u, lo <= u <= hi /\ w u = v) ->
  forall p, on_arc cx cy rad (deg (k * PI - 2 * atan w2)) (deg (k * PI - 2 * atan w1)) p <-> exists u, lo <= u <= hi /\ Refl u p.
Proof.
  intros k cx cy rad w1 w2 lo hi w Refl HR HW p. pose proof PI_RGT_0 as P. split.
  - intros [t [[H1 H2] ->]]. assert (T : t = deg (t / 180 * PI)) by (unfold deg; field; lra).
    rewrite T in H1, H2. rewrite <- deg_le in H1, H2. destruct (turn_between k _ _ _ (conj H1 H2)) as [v [V E]].
    destruct (proj1 (HW v) V) as [u [U <-]]. exists u. split; auto. apply HR; auto. now rewrite <- E, <- T.
  - intros [u [U H]]. apply HR in H; auto. exists (deg (k * PI - 2 * atan (w u))). split; auto. rewrite <- !deg_le.
    assert (V : w1 <= w u <= w2) by (apply HW; eauto). destruct V as [V1 V2]. apply atan_le in V1, V2. lra.
Qed.
Lemma ratio_le : forall x a b, 0 < a -> 0 < b -> (0 < x -> (x / b <= x / a <-> a <= b)) /\ (x < 0 -> (x / a <= x / b <-> a <= b)).
Proof.
  intros x a b A B. assert (P : 0 < a * b) by (apply Rmult_lt_0_compat; auto).
  assert (E : x / a - x / b = x * (b - a) / (a * b)) by (field; lra).
  assert (S1 : forall q, 0 <= q / (a * b) <-> 0 <= q).
  { intros q. replace 0 with (0 / (a * b)) at 1 by (unfold Rdiv; ring). now apply div_le. }
  split; intros X; split; intros H.
  - assert (K : 0 <= x * (b - a)) by (apply S1; rewrite <- E; lra). destruct (Rle_dec a b); auto. exfalso. assert (0 < x * (a - b)) by (apply Rmult_lt_0_compat; lra). lra.
  - assert (K : 0 <= x * (b - a)) by (apply Rmult_le_pos; lra). apply S1 in K. lra.
  - assert (K : 0 <= - x * (b - a)). { apply S1. replace (- x * (b - a) / (a * b)) with (- (x / a - x / b)) by (rewrite E; field; lra). lra. }
    destruct (Rle_dec a b); auto. exfalso. assert (0 < - x * (a - b)) by (apply Rmult_lt_0_compat; lra). lra.
  - assert (K : 0 <= - x * (b - a)) by (apply Rmult_le_pos; lra). apply S1 in K. replace (- x * (b - a) / (a * b)) with (- (x / a - x / b)) in K by (rewrite E; field; lra). lra.
Qed.
Lemma ratio_pos : forall x a b, 0 < x -> 0 < a -> 0 < b -> (x / b <= x / a <-> a <= b).
Proof. intros x a b X A B. now apply ratio_le. Qed.
Lemma ratio_neg : forall x a b, x < 0 -> 0 < a -> 0 < b -> (x / a <= x / b <-> a <= b).
Proof. intros x a b X A B. now apply ratio_le. Qed.
Lemma ratio_between : forall x r1 r2, x <> 0 -> -1 < r1 -> r1 <= r2 ->
  let w1 := Rmin (x / (r1 + 1)) (x / (r2 + 1)) in let w2 := Rmax (x / (r1 + 1)) (x / (r2 + 1)) in
  w1 = (if Rlt_dec 0 x then x / (r2 + 1) else x / (r1 + 1)) /\ w2 = (if Rlt_dec 0 x then x / (r1 + 1) else x / (r2 + 1)) /\
  forall v, w1 <= v <= w2 <-> exists r, r1 <= r <= r2 /\ x / (r + 1) = v.
Proof.
  intros x r1 r2 X N L w1 w2.
  assert (A : w1 = (if Rlt_dec 0 x then x / (r2 + 1) else x / (r1 + 1)) /\ w2 = (if Rlt_dec 0 x then x / (r1 + 1) else x / (r2 + 1))).
  { unfold w1, w2. destruct (Rlt_dec 0 x) as [P|P].
    - assert (K : x / (r2 + 1) <= x / (r1 + 1)) by (apply ratio_pos; lra). split; [now apply Rmin_right|now apply Rmax_left].
    - assert (K : x / (r1 + 1) <= x / (r2 + 1)) by (apply ratio_neg; lra). split; [now apply Rmin_left|now apply Rmax_right]. }
  destruct A as [-> ->]. split; auto. split; auto. intros v.
  assert (Q : forall a, 0 < a -> x / a <> 0) by (intros a Ha; unfold Rdiv; apply Rmult_integral_contrapositive_currified; auto; apply Rinv_neq_0_compat; lra).
  split.
  - intros V. assert (V0 : 0 < x * v).
    { destruct (Rlt_dec 0 x) as [P|P].
      - assert (0 < x / (r2 + 1)) by (apply Rdiv_lt_0_compat; lra). apply Rmult_lt_0_compat; lra.
      - assert (0 < - x / (r2 + 1)) by (apply Rdiv_lt_0_compat; lra). replace (- x / (r2 + 1)) with (- (x / (r2 + 1))) in * by (field; lra). replace (x * v) with (- x * - v) by ring. apply Rmult_lt_0_compat; lra. }
    assert (V1 : v <> 0) by (intros ->; lra). assert (S0 : 0 < x / v). { replace (x / v) with (x * v / (v * v)) by (field; auto). apply Rdiv_lt_0_compat; auto. pose proof (Rle_0_sqr v). unfold Rsqr in *. assert (v * v <> 0) by now apply Rmult_integral_contrapositive_currified. lra. }
    assert (E : x / (x / v) = v) by (field; auto). exists (x / v - 1). replace (x / v - 1 + 1) with (x / v) by ring. split; auto.
    rewrite <- E in V. destruct (Rlt_dec 0 x) as [P|P].
    + destruct V as [V2 V3]. apply (ratio_pos x (x / v) (r2 + 1)) in V2; try lra. apply (ratio_pos x (r1 + 1) (x / v)) in V3; lra.
    + destruct V as [V2 V3]. apply (ratio_neg x (r1 + 1) (x / v)) in V2; try lra. apply (ratio_neg x (x / v) (r2 + 1)) in V3; lra.
  - intros [r [R <-]]. destruct (Rlt_dec 0 x) as [P|P]; split; [apply ratio_pos|apply ratio_pos|apply ratio_neg|apply ratio_neg]; lra.
Qed.

(** The arc of a circle of reactance between two resistances, in any order. *)
Theorem C68_x_arc : forall x r1 r2, x <> 0 -> -1 < r1 -> -1 < r2 -> exists rad t1 t2,
  XCircle x (Some (Fin r1)) (Some (Fin r2)) = Circle 1 (1 / x) rad (Some (t1, t2)) /\ XCircle x None None = Circle 1 (1 / x) rad None /\
  90 < t1 <= t2 /\ t2 < 270 /\
  forall p, on_arc 1 (1 / x) rad t1 t2 p <-> exists r, Rmin r1 r2 <= r <= Rmax r1 r2 /\ reflects (r, x) p.
Proof.
  intros x r1 r2 X N1 N2. pose proof PI_RGT_0 as P. set (lo := Rmin r1 r2). set (hi := Rmax r1 r2).
  assert (LN : -1 < lo) by (unfold lo, Rmin; destruct (Rle_dec r1 r2); auto).
  assert (LH : lo <= hi) by (unfold lo, hi; pose proof (Rmin_l r1 r2); pose proof (Rmax_l r1 r2); lra).
  destruct (ratio_between x lo hi X LN LH) as [W1 [W2 W]]. set (w1 := Rmin (x / (lo + 1)) (x / (hi + 1))) in *. set (w2 := Rmax (x / (lo + 1)) (x / (hi + 1))) in *.
  set (k := if Rlt_dec 0 x then 3 / 2 else 1 / 2).
  exists (Rabs (1 / x)), (deg (k * PI - 2 * atan w2)), (deg (k * PI - 2 * atan w1)).
  assert (B : forall r, -1 < r -> 90 < deg (phi_x x r) < 270).
  { intros r Hr. unfold phi_x. pose proof (atan_bound (x / (r + 1))). replace 90 with (deg (1 / 2 * PI)) by (rewrite deg_pi; field). replace 270 with (deg (3 / 2 * PI)) by (rewrite deg_pi; field). rewrite <- !deg_lt.
    destruct (Rlt_dec 0 x) as [Q|Q].
    - assert (0 < x / (r + 1)) by (apply Rdiv_lt_0_compat; lra). pose proof (atan_increasing 0 (x / (r + 1)) H0). rewrite atan_0 in *. lra.
    - assert (0 < - x / (r + 1)) by (apply Rdiv_lt_0_compat; lra). replace (- x / (r + 1)) with (- (x / (r + 1))) in H0 by (field; lra).
      pose proof (atan_increasing (x / (r + 1)) 0 ltac:(lra)). rewrite atan_0 in *. lra. }
  assert (A : forall r, -1 < r -> sm_angle (Csub (z2gamma (Fin r) (Fin x)) (1, 1 / x)) 0 = deg (phi_x x r)).
  { intros r Hr. pose proof (z2gamma_ok r x ltac:(left; lra)) as Z. apply x_point in Z; auto. rewrite Z. apply sm_angle_unique; [apply seen_at, rad_pos; auto|]. pose proof (B r Hr). lra. }
  assert (S2 : sorted2 (deg (phi_x x hi)) (deg (phi_x x lo)) = (deg (k * PI - 2 * atan w2), deg (k * PI - 2 * atan w1))).
  { unfold sorted2, phi_x, k. rewrite W1, W2. destruct (Rlt_dec 0 x) as [Q|Q].
    - assert (K : atan (x / (hi + 1)) <= atan (x / (lo + 1))) by (apply atan_le, ratio_pos; lra). destruct (Rle_dec _ _) as [L|L]; auto. rewrite <- deg_le in L. assert (E : atan (x / (hi + 1)) = atan (x / (lo + 1))) by lra. now rewrite E.
    - assert (K : atan (x / (lo + 1)) <= atan (x / (hi + 1))) by (apply atan_le, ratio_neg; lra). destruct (Rle_dec _ _) as [L|L]; auto. exfalso. apply L. rewrite <- deg_le. lra. }
  unfold XCircle. destruct (Req_EM_T x 0); [contradiction|]. rewrite rx_min_fin, rx_max_fin. fold lo hi. cbn [fst snd]. rewrite !A by lra. split; [now rewrite S2|]. split; [reflexivity|].
  assert (EE : forall v, w1 <= v <= w2 -> 90 < deg (k * PI - 2 * atan v) < 270). { intros v V. apply W in V as [r [R <-]]. apply (B r). lra. }
  assert (WW : w1 <= w2) by (unfold w1, w2; pose proof (Rmin_l (x / (lo + 1)) (x / (hi + 1))); pose proof (Rmax_l (x / (lo + 1)) (x / (hi + 1))); lra).
  split; [split; [apply EE; lra|rewrite <- deg_le; pose proof (atan_le _ _ WW); lra]|]. split; [apply EE; lra|].
  apply (arc_family k _ _ _ w1 w2 lo hi (fun r => x / (r + 1)) (fun r => reflects (r, x))); auto. intros r R p. apply x_point; auto. lra.
Qed.
Print Assumptions C68_x_arc.

Lemma mirror_point : forall x y r t p, p = point_at (- x) (- y) r (deg (t + PI)) <-> (- fst p, - snd p) = point_at x y r (deg t).
Proof.
  intros x y r t [u v]. unfold point_at. rewrite !deg_rad, neg_cos, neg_sin. cbn [fst snd]. split; intros E; injection E as E1 E2; apply pair_eq; lra.
Qed.
Lemma mirror_point' : forall x y r t p, p = point_at (- x) (- y) r (deg (t - PI)) <-> (- fst p, - snd p) = point_at x y r (deg t).
Proof.
  intros x y r t [u v]. replace t with (t - PI + PI) at 2 by ring. unfold point_at. rewrite !deg_rad, neg_cos, neg_sin. cbn [fst snd]. split; intros E; injection E as E1 E2; apply pair_eq; lra.
Qed.
Lemma reflects_y_mirror : forall y p, reflects_y y p <-> reflects y (- fst p, - snd p).
Proof. intros [g b] [u v]. apply reflects_y_iff. Qed.

(** Circles of conductance: the limits have to be ascending. *)
Theorem C68_g_arc : forall g b1 b2, -1 < g -> b1 <= b2 -> exists rad t1 t2,
  GCircle g (Some (Fin b1)) (Some (Fin b2)) = Circle (- g / (g + 1)) 0 rad (Some (t1, t2)) /\ GCircle g None None = Circle (- g / (g + 1)) 0 rad None /\
  180 < t1 <= t2 /\ t2 < 540 /\
  forall p, on_arc (- g / (g + 1)) 0 rad t1 t2 p <-> exists b, b1 <= b <= b2 /\ reflects_y (g, b) p.
Proof.
  intros g b1 b2 N L. pose proof PI_RGT_0 as P. exists (Rabs (1 / (g + 1))), (deg (2 * PI - 2 * atan (b2 / (g + 1)))), (deg (2 * PI - 2 * atan (b1 / (g + 1)))).
  assert (B : forall b, 180 < deg (2 * PI - 2 * atan (b / (g + 1))) < 540).
  { intros b. pose proof (atan_bound (b / (g + 1))). replace 180 with (deg (1 * PI)) by (rewrite deg_pi; ring). replace 540 with (deg (3 * PI)) by (rewrite deg_pi; ring). rewrite <- !deg_lt. lra. }
  assert (Eg : - g / (g + 1) = - (g / (g + 1))) by (field; lra).
  assert (GP : forall b p, reflects_y (g, b) p <-> p = point_at (- g / (g + 1)) 0 (Rabs (1 / (g + 1))) (deg (2 * PI - 2 * atan (b / (g + 1))))).
  { intros b p. rewrite reflects_y_mirror, r_point, <- mirror_point by auto. rewrite Eg, Ropp_0. unfold phi_r. replace (1 * PI - 2 * atan (b / (g + 1)) + PI) with (2 * PI - 2 * atan (b / (g + 1))) by ring. tauto. }
  assert (A : forall b, sm_angle (Csub (y2gamma (Fin g) (Fin b)) (- g / (g + 1), 0)) 180 = deg (2 * PI - 2 * atan (b / (g + 1)))).
  { intros b. pose proof (y2gamma_ok g b ltac:(left; lra)) as Z. apply GP in Z. rewrite Z. apply sm_angle_unique; [apply seen_at, rad_pos; lra|]. pose proof (B b). lra. }
  split; [unfold GCircle; now rewrite !A|]. split; [reflexivity|].
  assert (K : b1 / (g + 1) <= b2 / (g + 1)) by (apply div_le; lra).
  split; [split; [apply B|rewrite <- deg_le; pose proof (atan_le _ _ K); lra]|]. split; [apply B|].
  apply (arc_family 2 _ _ _ (b1 / (g + 1)) (b2 / (g + 1)) b1 b2 (fun b => b / (g + 1)) (fun b => reflects_y (g, b))); [intros b _ p; apply GP|].
  intros v. split.
  - intros V. exists (v * (g + 1)). assert (E : v * (g + 1) / (g + 1) = v) by (field; lra). split; auto. split; apply (div_le (g + 1)); rewrite ?E; lra.
  - intros [b [Hb <-]]. split; apply div_le; lra.
Qed.
Print Assumptions C68_g_arc.

Theorem C68_b_arc : forall b g1 g2, b <> 0 -> -1 < g1 -> g1 <= g2 -> exists rad t1 t2,
  BCircle b (Some (Fin g1)) (Some (Fin g2)) = Circle (-1) (-1 / b) rad (Some (t1, t2)) /\ BCircle b None None = Circle (-1) (-1 / b) rad None /\
  t1 <= t2 < t1 + 180 /\
  forall p, on_arc (-1) (-1 / b) rad t1 t2 p <-> exists g, g1 <= g <= g2 /\ reflects_y (g, b) p.
Proof.
  intros b g1 g2 X N L. pose proof PI_RGT_0 as P.
  destruct (ratio_between b g1 g2 X N L) as [W1 [W2 W]]. set (w1 := Rmin (b / (g1 + 1)) (b / (g2 + 1))) in *. set (w2 := Rmax (b / (g1 + 1)) (b / (g2 + 1))) in *.
  set (k := if Rlt_dec 0 b then 5 / 2 else - (1 / 2)).
  exists (Rabs (1 / b)), (deg (k * PI - 2 * atan w2)), (deg (k * PI - 2 * atan w1)).
  assert (Eb : -1 / b = - (1 / b)) by (field; auto).
  assert (GP : forall g, -1 < g -> forall p, reflects_y (g, b) p <-> p = point_at (-1) (-1 / b) (Rabs (1 / b)) (deg (k * PI - 2 * atan (b / (g + 1))))).
  { intros g Hg p. rewrite reflects_y_mirror, x_point by auto. rewrite Eb. replace (-1) with (- (1)) by ring. unfold phi_x, k. destruct (Rlt_dec 0 b).
    - rewrite <- mirror_point. replace (3 / 2 * PI - 2 * atan (b / (g + 1)) + PI) with (5 / 2 * PI - 2 * atan (b / (g + 1))) by field. tauto.
    - rewrite <- mirror_point'. replace (1 / 2 * PI - 2 * atan (b / (g + 1)) - PI) with (- (1 / 2) * PI - 2 * atan (b / (g + 1))) by field. tauto. }
  assert (B : forall g, -1 < g -> (k * 180 - 180 < deg (k * PI - 2 * atan (b / (g + 1))) < k * 180) /\ 0 < b \/ (k * 180 < deg (k * PI - 2 * atan (b / (g + 1))) < k * 180 + 180) /\ b < 0).
  { intros g Hg. pose proof (atan_bound (b / (g + 1))). replace (k * 180 - 180) with (deg ((k - 1) * PI)) by (rewrite deg_pi; ring). replace (k * 180 + 180) with (deg ((k + 1) * PI)) by (rewrite deg_pi; ring).
    replace (k * 180) with (deg (k * PI)) by apply deg_pi. rewrite <- !deg_lt.
    destruct (Rlt_dec 0 b) as [Q|Q].
    - left. assert (K : 0 < b / (g + 1)) by (apply Rdiv_lt_0_compat; lra). pose proof (atan_increasing 0 (b / (g + 1)) K). rewrite atan_0 in *. lra.
    - right. assert (K : 0 < - b / (g + 1)) by (apply Rdiv_lt_0_compat; lra). replace (- b / (g + 1)) with (- (b / (g + 1))) in K by (field; lra).
      pose proof (atan_increasing (b / (g + 1)) 0 ltac:(lra)). rewrite atan_0 in *. lra. }
  assert (A : forall g, -1 < g -> sm_angle (Csub (y2gamma (Fin g) (Fin b)) (-1, -1 / b)) (if Rlt_dec 0 b then 90 else -90) = deg (k * PI - 2 * atan (b / (g + 1)))).
  { intros g Hg. pose proof (y2gamma_ok g b ltac:(left; lra)) as Z. apply GP in Z; auto. rewrite Z. apply sm_angle_unique; [apply seen_at, rad_pos; auto|].
    pose proof (B g Hg) as Bg. unfold k in *. destruct (Rlt_dec 0 b); destruct Bg as [[Bg1 Bg2]|[Bg1 Bg2]]; lra. }
  assert (WW : w1 <= w2) by (unfold w1, w2; pose proof (Rmin_l (b / (g1 + 1)) (b / (g2 + 1))); pose proof (Rmax_l (b / (g1 + 1)) (b / (g2 + 1))); lra).
  assert (EE : forall v, w1 <= v <= w2 -> (k * 180 - 180 < deg (k * PI - 2 * atan v) < k * 180) /\ 0 < b \/ (k * 180 < deg (k * PI - 2 * atan v) < k * 180 + 180) /\ b < 0).
  { intros v V. apply W in V as [g [G <-]]. apply B. lra. }
  unfold BCircle. destruct (Req_EM_T b 0); [contradiction|]. cbn [fst snd].
  split; [|split; [destruct (Rle_dec 0 b); reflexivity|split]].
  - destruct (Rle_dec 0 b) as [Q|Q]; destruct (Rlt_dec 0 b) as [Q'|Q']; try lra; rewrite !A by lra; rewrite W1, W2; reflexivity.
  - split; [rewrite <- deg_le; pose proof (atan_le _ _ WW); lra|]. pose proof (EE w1 ltac:(lra)). pose proof (EE w2 ltac:(lra)). lra.
  - apply (arc_family k _ _ _ w1 w2 g1 g2 (fun g => b / (g + 1)) (fun g => reflects_y (g, b))); auto. intros g G p. apply GP. lra.
Qed.
Print Assumptions C68_b_arc.

(** ** Infinite limits, as the grid uses them *)
(** All reactances: from 0 to a hair before 360 degrees. *)
Theorem C68_r_whole : forall r, -1 < r -> exists t2, RCircle r (Some NInf) (Some PInf) = Circle (r / (r + 1)) 0 (1 / (r + 1)) (Some (0, t2)) /\
  270 < t2 < 360 /\ tan ((360 - t2) / 180 * PI) = (r + 1) / 10 ^ 15.
Proof.
  intros r N. pose proof PI_RGT_0 as P. set (w := (r + 1) / 10 ^ 15). assert (W : 0 < w) by (apply Rdiv_lt_0_compat; [lra|apply pow_lt; lra]).
  pose proof (atan_bound w) as B. pose proof (atan_increasing 0 w W) as B0. rewrite atan_0 in B0.
  exists (deg (2 * PI - atan w)).
  assert (B2 : 270 < deg (2 * PI - atan w) < 360).
  { replace 270 with (deg (3 / 2 * PI)) by (rewrite deg_pi; field). replace 360 with (deg (2 * PI)) by (rewrite deg_pi; ring). rewrite <- !deg_lt. lra. }
  split; [|split; auto].
  - unfold RCircle, rx_min, rx_max, rx_leb. cbn [z2gamma rx_nonneg]. rewrite Rabs_pos_eq by (left; apply Rdiv_lt_0_compat; lra).
    replace (sm_angle (Csub (1, 0) (r / (r + 1), 0)) 0) with 0.
    2: { symmetry. apply sm_angle_unique; [|lra]. exists (1 / (r + 1)). split; [apply Rdiv_lt_0_compat; lra|]. replace (0 / 180 * PI) with 0 by field. rewrite cos_0, sin_0. unfold Csub. cbn [fst snd]. apply pair_eq; field; lra. }
    do 3 f_equal. apply sm_angle_unique; [|lra]. rewrite deg_rad. pose proof (cos_atan w) as CA. pose proof (sin_atan w) as SA.
    assert (Q : 0 < sqrt (1 + w²)) by (apply sqrt_lt_R0; pose proof (Rle_0_sqr w); lra).
    exists (sqrt (1 + w²) / (r + 1)). split; [apply Rdiv_lt_0_compat; lra|]. unfold Csub. cbn [fst snd].
    replace (2 * PI - atan w) with (- atan w + 2 * INR 1 * PI) by (cbn [INR]; ring). rewrite cos_period, sin_period, cos_neg, sin_neg, CA, SA.
    assert (T : tiny = w / (r + 1)). { unfold tiny, w, Rdiv. assert (10 ^ 15 <> 0) by (apply pow_nonzero; lra). field; lra. }
    rewrite T. apply pair_eq; field; lra.
  - replace ((360 - deg (2 * PI - atan w)) / 180 * PI) with (atan w) by (unfold deg; field; lra). apply tan_atan.
Qed.
Print Assumptions C68_r_whole.

(** All resistances from one on: up to the point of infinite impedance. *)
Theorem C68_x_whole : forall x r1, x <> 0 -> - 10 ^ 15 < x -> -1 < r1 -> exists rad t1 t2,
  XCircle x (Some (Fin r1)) (Some PInf) = Circle 1 (1 / x) rad (Some (t1, t2)) /\ XCircle x None None = Circle 1 (1 / x) rad None /\ 90 <= t1 <= t2 /\ t2 <= 270 /\
  forall p, on_arc 1 (1 / x) rad t1 t2 p <-> p = (1, 0) \/ exists r, r1 <= r /\ reflects (r, x) p.
Proof.
  intros x r1 X XT N. pose proof PI_RGT_0 as P. set (k := if Rlt_dec 0 x then 3 / 2 else 1 / 2). set (f := deg (phi_x x r1)).
  assert (B : forall r, -1 < r -> 90 < deg (phi_x x r) < 270).
  { intros r Hr. unfold phi_x. pose proof (atan_bound (x / (r + 1))). replace 90 with (deg (1 / 2 * PI)) by (rewrite deg_pi; field). replace 270 with (deg (3 / 2 * PI)) by (rewrite deg_pi; field). rewrite <- !deg_lt.
    destruct (Rlt_dec 0 x) as [Q|Q].
    - assert (K : 0 < x / (r + 1)) by (apply Rdiv_lt_0_compat; lra). pose proof (atan_increasing 0 (x / (r + 1)) K). rewrite atan_0 in *. lra.
    - assert (K : 0 < - x / (r + 1)) by (apply Rdiv_lt_0_compat; lra). replace (- x / (r + 1)) with (- (x / (r + 1))) in K by (field; lra).
      pose proof (atan_increasing (x / (r + 1)) 0 ltac:(lra)). rewrite atan_0 in *. lra. }
  assert (A : sm_angle (Csub (z2gamma (Fin r1) (Fin x)) (1, 1 / x)) 0 = f).
  { pose proof (z2gamma_ok r1 x ltac:(left; lra)) as Z. apply x_point in Z; auto. rewrite Z. apply sm_angle_unique; [apply seen_at, rad_pos; auto|]. fold f. pose proof (B r1 N). fold f in H. lra. }
  assert (A2 : sm_angle (Csub (z2gamma PInf (Fin x)) (1, 1 / x)) 0 = k * 180).
  { apply sm_angle_unique; [|unfold k; destruct (Rlt_dec 0 x); lra]. replace (k * 180 / 180 * PI) with (k * PI) by field. cbn [z2gamma rx_nonneg]. unfold k. destruct (Rlt_dec 0 x) as [Q|Q].
    - destruct (Rle_dec 0 x); [|lra]. exists (1 / x). split; [apply Rdiv_lt_0_compat; lra|]. replace (3 / 2 * PI) with (3 * (PI / 2)) by field. rewrite cos_3PI2, sin_3PI2. unfold Csub. cbn [fst snd]. apply pair_eq; ring.
    - destruct (Rle_dec 0 x); [lra|]. exists (- (1 / x) - tiny). split.
      + unfold tiny. assert (T : 0 < 10 ^ 15) by (apply pow_lt; lra). assert (K : / 10 ^ 15 < / (- x)) by (apply Rinv_lt_contravar; [apply Rmult_lt_0_compat; lra|lra]).
        replace (- (1 / x)) with (/ - x) by (field; lra). lra.
      + replace (1 / 2 * PI) with (PI / 2) by field. rewrite cos_PI2, sin_PI2. unfold Csub. cbn [fst snd]. apply pair_eq; ring. }
  assert (F : 90 < f < 270) by (apply B; auto).
  assert (PT : point_at 1 (1 / x) (Rabs (1 / x)) (k * 180) = (1, 0)).
  { unfold point_at. replace (k * 180 / 180 * PI) with (k * PI) by field. unfold k. destruct (Rlt_dec 0 x) as [Q|Q].
    - rewrite Rabs_pos_eq by (left; apply Rdiv_lt_0_compat; lra). replace (3 / 2 * PI) with (3 * (PI / 2)) by field. rewrite cos_3PI2, sin_3PI2. apply pair_eq; ring.
    - rewrite Rabs_left by (unfold Rdiv; rewrite Rmult_1_l; apply Rinv_lt_0_compat; lra). replace (1 / 2 * PI) with (PI / 2) by field. rewrite cos_PI2, sin_PI2. apply pair_eq; ring. }
  exists (Rabs (1 / x)), (Rmin f (k * 180)), (Rmax f (k * 180)).
  assert (KF : (0 < x -> Rmin f (k * 180) = f /\ Rmax f (k * 180) = 270) /\ (x < 0 -> Rmin f (k * 180) = 90 /\ Rmax f (k * 180) = f)).
  { unfold k. split; intros Q; (destruct (Rlt_dec 0 x); [|lra]) || (destruct (Rlt_dec 0 x); [lra|]).
    - split; [rewrite Rmin_left|rewrite Rmax_right]; lra.
    - split; [rewrite Rmin_right|rewrite Rmax_left]; lra. }
  assert (PN : 0 < x \/ x < 0) by lra.
  split; [|split; [|split; [|split]]].
  - unfold XCircle. destruct (Req_EM_T x 0); [contradiction|]. change (rx_min (Fin r1) PInf) with (Fin r1). change (rx_max (Fin r1) PInf) with PInf. cbn [fst snd]. rewrite A, A2. unfold sorted2, Rmin, Rmax.
    destruct (Rle_dec (k * 180) f), (Rle_dec f (k * 180)); auto; [assert (f = k * 180) by lra; congruence|lra].
  - unfold XCircle. destruct (Req_EM_T x 0); [contradiction|reflexivity].
  - destruct KF as [K1 K2]. destruct PN as [Q|Q]; [destruct (K1 Q) as [-> ->]|destruct (K2 Q) as [-> ->]]; lra.
  - destruct KF as [K1 K2]. destruct PN as [Q|Q]; [destruct (K1 Q) as [_ ->]|destruct (K2 Q) as [_ ->]]; lra.
  - intros p. assert (RNG : forall r, r1 <= r -> Rmin f (k * 180) <= deg (phi_x x r) <= Rmax f (k * 180)).
    { intros r Hr. pose proof (B r ltac:(lra)) as Br. destruct KF as [K1 K2]. destruct PN as [Q|Q].
      - destruct (K1 Q) as [-> ->]. split; [|lra]. unfold f. rewrite <- deg_le. unfold phi_x. assert (K : atan (x / (r + 1)) <= atan (x / (r1 + 1))) by (apply atan_le, ratio_pos; lra). lra.
      - destruct (K2 Q) as [-> ->]. split; [lra|]. unfold f. rewrite <- deg_le. unfold phi_x. assert (K : atan (x / (r1 + 1)) <= atan (x / (r + 1))) by (apply atan_le, ratio_neg; lra). lra. }
    split.
    + intros [t [H ->]]. destruct (Req_dec t (k * 180)) as [->|TN]; [now left|right].
      assert (T : t = deg (t / 180 * PI)) by (unfold deg; field; lra). set (t' := t / 180 * PI) in *.
      assert (TB : exists w, 0 < x * w /\ Rmin w (x / (r1 + 1)) = (if Rlt_dec 0 x then w else x / (r1 + 1)) /\ t' = k * PI - 2 * atan w).
      { assert (KT : k * 180 = deg (k * PI)) by (rewrite deg_pi; ring). exists (tan ((k * PI - t') / 2)). destruct KF as [K1 K2].
        pose proof (atan_bound (x / (r1 + 1))) as AB. unfold f, phi_x in *. fold k in H, K1, K2 |- *. rewrite KT in *. rewrite T in H, TN. destruct (Rlt_dec 0 x) as [Q|Q].
        - destruct (K1 Q) as [e1 e2]. rewrite e1, e2 in H. clear e1 e2 K1 K2. unfold k in *. replace 270 with (deg (3 / 2 * PI)) in H by (rewrite deg_pi; field). rewrite <- !deg_le in H.
          assert (TN' : t' <> 3 / 2 * PI) by (intros E; apply TN; now rewrite E).
          assert (E : atan (tan ((3 / 2 * PI - t') / 2)) = (3 / 2 * PI - t') / 2) by (apply atan_tan; lra).
          assert (W1 : 0 < tan ((3 / 2 * PI - t') / 2)) by (apply tan_gt_0; lra).
          split; [apply Rmult_lt_0_compat; lra|]. split; [|rewrite E; field]. apply Rmin_left. apply atan_le_iff. rewrite E. lra.
        - destruct (K2 ltac:(lra)) as [e1 e2]. rewrite e1, e2 in H. clear e1 e2 K1 K2. unfold k in *. replace 90 with (deg (1 / 2 * PI)) in H by (rewrite deg_pi; field). rewrite <- !deg_le in H.
          assert (TN' : t' <> 1 / 2 * PI) by (intros E; apply TN; now rewrite E).
          assert (E : atan (tan ((1 / 2 * PI - t') / 2)) = (1 / 2 * PI - t') / 2) by (apply atan_tan; lra).
          assert (W1 : 0 < tan (- ((1 / 2 * PI - t') / 2))) by (apply tan_gt_0; lra). rewrite tan_neg in W1.
          split; [replace (x * tan ((1 / 2 * PI - t') / 2)) with (- x * - tan ((1 / 2 * PI - t') / 2)) by ring; apply Rmult_lt_0_compat; lra|]. split; [|rewrite E; field]. apply Rmin_right. apply atan_le_iff. rewrite E. lra. }
      destruct TB as [w [W0 [W1 W2]]]. assert (V1 : w <> 0) by (intros ->; lra).
      assert (S0 : 0 < x / w). { replace (x / w) with (x * w / (w * w)) by (field; auto). apply Rdiv_lt_0_compat; auto. pose proof (Rle_0_sqr w). unfold Rsqr in *. assert (w * w <> 0) by now apply Rmult_integral_contrapositive_currified. lra. }
      assert (E : x / (x / w) = w) by (field; auto). exists (x / w - 1). assert (R1 : x / w - 1 + 1 = x / w) by ring. split.
      * assert (K : r1 + 1 <= x / w); [|lra]. destruct (Rlt_dec 0 x) as [Q|Q].
        -- apply (ratio_pos x (r1 + 1) (x / w)); try lra. rewrite E. rewrite <- W1. apply Rmin_r.
        -- apply (ratio_neg x (r1 + 1) (x / w)); try lra. rewrite E. rewrite <- W1. apply Rmin_l.
      * apply x_point; auto; [lra|]. f_equal. rewrite T. f_equal. rewrite W2. unfold phi_x. fold k. now rewrite R1, E.
    + intros [->|[r [Hr H]]].
      * exists (k * 180). split; [split; [apply Rmin_r|apply Rmax_r]|now rewrite PT].
      * apply x_point in H; auto; [|lra]. exists (deg (phi_x x r)). split; auto.
Qed.
Print Assumptions C68_x_whole.

(** ** What does not hold *)
(** Descending limits of a circle of conductance: an empty range of angles. *)
Theorem C68_g_descending : forall g b1 b2, -1 < g -> b2 < b1 -> exists x rad t1 t2,
  GCircle g (Some (Fin b1)) (Some (Fin b2)) = Circle x 0 rad (Some (t1, t2)) /\ t2 < t1 /\ forall p, ~ on_arc x 0 rad t1 t2 p.
Proof.
  intros g b1 b2 N L. destruct (C68_g_arc g b1 b1 N (Rle_refl _)) as [rad1 [s1 [s1' [E1 [Z1 [H1 [H1' _]]]]]]].
  destruct (C68_g_arc g b2 b2 N (Rle_refl _)) as [rad2 [s2 [s2' [E2 [Z2 [H2 [H2' _]]]]]]]. destruct (C68_g_arc g b2 b1 N ltac:(lra)) as [rad [t1 [t2 [E [Z [H [H' A]]]]]]].
  unfold GCircle in E, E1, E2 |- *. injection E as Er Et1 Et2. injection E1 as E1r E1t1 E1t2. injection E2 as E2r E2t1 E2t2.
  exists (- g / (g + 1)), rad, t2, t1. cbn [y2gamma] in *. rewrite Et1, Et2, Er. split; [reflexivity|].
  assert (K : t1 < t2).
  { destruct H as [_ H]. destruct H as [H|H]; auto. exfalso. clear - A H N L. subst t2.
    assert (Q1 : on_arc (- g / (g + 1)) 0 rad t1 t1 (point_at (- g / (g + 1)) 0 rad t1)) by (exists t1; split; [lra|reflexivity]).
    assert (G : forall b, b2 <= b <= b1 -> reflects_y (g, b) (point_at (- g / (g + 1)) 0 rad t1)).
    { intros b Hb. assert (OA : on_arc (- g / (g + 1)) 0 rad t1 t1 (y2gamma (Fin g) (Fin b))) by (apply A; exists b; split; auto; apply y2gamma_ok; left; lra).
      unfold on_arc in OA; destruct OA as [t [Ht OA]]. assert (t = t1) by lra. subst t. rewrite <- OA. apply y2gamma_ok. left; lra. }
    pose proof (G b1 ltac:(lra)) as G1. pose proof (G b2 ltac:(lra)) as G2. destruct (point_at (- g / (g + 1)) 0 rad t1) as [u v].
    apply reflects_y_iff, reflects_iff in G1 as [_ [G1 G1']]. apply reflects_y_iff, reflects_iff in G2 as [_ [G2 G2']].
    assert (v * (b1 - b2) = 0) by lra. assert ((u + 1) * (b1 - b2) = 0) by lra. apply Rmult_integral in H as [Hv|Hv]; [|lra]. apply Rmult_integral in H0 as [Hu|Hu]; [|lra].
    subst v. assert (u = -1) by lra. subst u. lra. }
  split; auto. intros p [t [Ht _]]. lra.
Qed.
Print Assumptions C68_g_descending.
(** The line of zero susceptance between two conductances ends at the reflection
    coefficients of resistances. *)
Theorem C68_b_line_refuted : exists g1 g2 u1 u2, 0 <= g1 /\ g1 < g2 /\ BCircle 0 (Some (Fin g1)) (Some (Fin g2)) = Line u1 0 u2 0 /\
  ~ reflects_y (g1, 0) (u1, 0) /\ ~ reflects_y (g1, 0) (u2, 0).
Proof.
  exists 0, 1, (-1), 0. split; [lra|]. split; [lra|]. split.
  - unfold BCircle. destruct (Req_EM_T 0 0); [|contradiction]. cbn [z2gamma]. unfold Cdiv, Cmul, Cinv, Cabs2, Csub, Cadd. cbn [fst snd]. f_equal; field.
  - split; rewrite reflects_y_iff, reflects_iff; lra.
Qed.
Print Assumptions C68_b_line_refuted.

Example C68_ex : RCircle 0 (Some (Fin 1)) (Some (Fin (-1))) = Circle 0 0 1 (Some (90, 270)) /\ reflects (3, 0) (1 / 2, 0) /\ reflects (1, 2) (1 / 2, 1 / 2) /\ reflects_y (3, 0) (- 1 / 2, 0).
Proof.
  pose proof PI_RGT_0 as P. split; [|split; [|split]; try apply reflects_y_iff; apply reflects_iff; lra].
  unfold RCircle. rewrite rx_min_fin, rx_max_fin. rewrite Rmin_right, Rmax_left by lra. replace (0 / (0 + 1)) with 0 by field. replace (1 / (0 + 1)) with 1 by field. rewrite Rabs_R1.
  replace (z2gamma (Fin 0) (Fin 1)) with (0, 1) by (cbn [z2gamma]; unfold Cdiv, Cmul, Cinv, Cabs2, Csub, Cadd; cbn [fst snd]; apply pair_eq; field).
  replace (z2gamma (Fin 0) (Fin (-1))) with (0, -1) by (cbn [z2gamma]; unfold Cdiv, Cmul, Cinv, Cabs2, Csub, Cadd; cbn [fst snd]; apply pair_eq; field).
  rewrite (sm_angle_unique _ 90), (sm_angle_unique _ 270); auto; try lra.
  - exists 1. split; [lra|]. replace (270 / 180 * PI) with (3 * (PI / 2)) by field. rewrite cos_3PI2, sin_3PI2. unfold Csub. cbn [fst snd]. apply pair_eq; ring.
  - exists 1. split; [lra|]. replace (90 / 180 * PI) with (PI / 2) by field. rewrite cos_PI2, sin_PI2. unfold Csub. cbn [fst snd]. apply pair_eq; ring.
Qed.

(** The order of finite and infinite numbers: [x] is at most [y] when every number below [x] is below [y];
    min and max choose by it. *)
Definition above (z : R) (x : rx) : Prop := match x with Fin a => z <= a | PInf => True | NInf => False end.
Theorem C68_order : forall x y, (rx_leb x y = true <-> forall z, above z x -> above z y) /\
  (forall z, above z (rx_min x y) <-> above z x /\ above z y) /\ (forall z, above z (rx_max x y) <-> above z x \/ above z y).
Proof.
  assert (L : forall x y, rx_leb x y = true <-> forall z, above z x -> above z y).
  { intros [a| |] [b| |]; cbn [rx_leb above]; try tauto.
    - destruct (Rle_dec a b); split; intros H; try reflexivity; try discriminate H; [intros; lra|]. exfalso. specialize (H a). lra.
    - split; intros H; [discriminate H|]. exfalso. apply (H a). lra.
    - split; intros H; [discriminate H|]. exfalso. specialize (H (b + 1) I). lra.
    - split; intros H; [discriminate H|]. exfalso. apply (H 0 I). }
  assert (T : forall x y, rx_leb x y = false -> rx_leb y x = true).
  { intros [a| |] [b| |]; cbn [rx_leb]; try discriminate; auto. destruct (Rle_dec a b); [discriminate|]. destruct (Rle_dec b a); [reflexivity|lra]. }
  intros x y. split; [apply L|]. unfold rx_min, rx_max. destruct (rx_leb x y) eqn:E.
  - pose proof (proj1 (L x y) E) as K. split; intros z; specialize (K z); tauto.
  - pose proof (proj1 (L y x) (T x y E)) as K. split; intros z; specialize (K z); tauto.
Qed.
Print Assumptions C68_order.
(** Towards an infinite resistance, reactance, conductance or susceptance: the point is within 10^-15 of 1
    (for impedances) or -1 (for admittances), and an admittance is put on the same side of the real axis as
    the finite ones with this susceptance. *)
Definition infinite (x : rx) : Prop := x = PInf \/ x = NInf.
Theorem C68_far : forall re im, infinite re \/ infinite im ->
  (fst (z2gamma re im) = 1 /\ Rabs (snd (z2gamma re im)) <= / 10 ^ 15) /\
  (fst (y2gamma re im) = -1 /\ Rabs (snd (y2gamma re im)) <= / 10 ^ 15).
Proof.
  intros re im H. assert (T : 0 < tiny) by (unfold tiny; apply Rinv_0_lt_compat; apply pow_lt; lra).
  assert (Z : z2gamma re im = if rx_nonneg im then (1, 0) else (1, - tiny)) by (destruct re, im; auto; destruct H as [[H|H]|[H|H]]; discriminate H).
  assert (Y : y2gamma re im = if rx_nonpos im then (-1, tiny) else (-1, - tiny)) by (destruct re, im; auto; destruct H as [[H|H]|[H|H]]; discriminate H).
  rewrite Z, Y. fold tiny. split; [destruct (rx_nonneg im)|destruct (rx_nonpos im)]; cbn [fst snd]; (split; [reflexivity|]); rewrite ?Rabs_Ropp, ?Rabs_R0; rewrite ?Rabs_pos_eq by lra; lra.
Qed.
Print Assumptions C68_far.
Theorem C68_far_side : forall g b re p, b <> 0 -> -1 < g -> infinite re -> reflects_y (g, b) p -> 0 < snd p * snd (y2gamma re (Fin b)).
Proof.
  intros g b re [u v] B G H R. apply reflects_y_iff, reflects_iff in R. destruct R as (_ & R1 & R2). cbn [snd].
  assert (T : 0 < tiny) by (unfold tiny; apply Rinv_0_lt_compat; apply pow_lt; lra).
  assert (Y : y2gamma re (Fin b) = if rx_nonpos (Fin b) then (-1, tiny) else (-1, - tiny)) by (destruct H as [-> | ->]; reflexivity). rewrite Y. cbn [rx_nonpos].
  assert (V : v * ((g + 1) * (g + 1) + b * b) = -2 * b) by nra. assert (P : 0 < (g + 1) * (g + 1) + b * b) by nra.
  destruct (Rle_dec b 0) as [L|L]; cbn [snd].
  - assert (0 < v) by (apply (Rmult_lt_reg_r ((g + 1) * (g + 1) + b * b)); [exact P|]; rewrite V; lra). now apply Rmult_lt_0_compat.
  - assert (v < 0) by (apply (Rmult_lt_reg_r ((g + 1) * (g + 1) + b * b)); [exact P|]; rewrite V; lra). replace (v * - tiny) with (- v * tiny) by ring. apply Rmult_lt_0_compat; lra.
Qed.
Print Assumptions C68_far_side.
Example C68_far_ex : infinite PInf /\ reflects_y (1, 1) (- (1 / 5), - (2 / 5)) /\ snd (y2gamma PInf (Fin 1)) = - tiny.
Proof. split; [now left|]. split; [apply reflects_y_iff, reflects_iff; lra|]. cbn. destruct (Rle_dec 1 0); [lra|reflexivity]. Qed.
