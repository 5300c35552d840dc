(** C58: corrections of measured S-parameters. *)
From Coq Require Import Reals Lra List Bool Arith Lia Ring Field.
From Verif Require Import Model_NdArray Model_Network Model_Noise Model_Phase Prop_Phase Model_Passive Spec_Passive.
Import ListNotations.
Local Open Scope R_scope.

Definition C0 : Cx := (0, 0).
Definition C1 : Cx := (1, 0).
Lemma Crt : ring_theory C0 C1 Cadd Cmul Csub Copp (@eq Cx).
Proof. exact (F_R Cfth). Qed.
Add Ring Cring : Crt.

(** ** Sums *)
Fixpoint Rsum (n : nat) (f : nat -> R) : R := match n with O => 0 | S k => Rsum k f + f k end.
Lemma csum_Csum : forall n f, csum n f = Csum n f.
Proof.
  intros n f. unfold csum. induction n as [|n IH]; [reflexivity|]. rewrite seq_S, map_app, fold_right_app. cbn [map fold_right Csum plus]. rewrite <- IH.
  generalize (map f (seq 0 n)). intros l. induction l as [|x l IHl]; cbn [fold_right].
  - change (Cadd (f n) C0 = Cadd C0 (f n)). ring.
  - rewrite IHl. ring.
Qed.
Lemma rsum_Rsum : forall n f, rsum n f = Rsum n f.
Proof.
  intros n f. unfold rsum. induction n as [|n IH]; [reflexivity|]. rewrite seq_S, map_app, fold_right_app. cbn [map fold_right Rsum plus]. rewrite <- IH.
  generalize (map f (seq 0 n)). intros l. induction l as [|x l IHl]; cbn [fold_right]; [ring|]. rewrite IHl. ring.
Qed.
Lemma Csum_ext : forall n f g, (forall i, (i < n)%nat -> f i = g i) -> Csum n f = Csum n g.
Proof. induction n as [|n IH]; intros f g H; cbn; auto. rewrite (IH f g), H by auto. auto. Qed.
Lemma Rsum_ext : forall n f g, (forall i, (i < n)%nat -> f i = g i) -> Rsum n f = Rsum n g.
Proof. induction n as [|n IH]; intros f g H; cbn; auto. rewrite (IH f g), H by auto. auto. Qed.
Lemma Csum_scale : forall n c f, Cmul c (Csum n f) = Csum n (fun i => Cmul c (f i)).
Proof. induction n as [|n IH]; intros c f; cbn; [change (Cmul c C0 = C0); ring|]. rewrite <- IH. ring. Qed.
Lemma Csum_scale_r : forall n c f, Cmul (Csum n f) c = Csum n (fun i => Cmul (f i) c).
Proof. induction n as [|n IH]; intros c f; cbn; [change (Cmul C0 c = C0); ring|]. rewrite <- IH. ring. Qed.
Lemma Csum_add : forall n f g, Cadd (Csum n f) (Csum n g) = Csum n (fun i => Cadd (f i) (g i)).
Proof. induction n as [|n IH]; intros f g; cbn; [change (Cadd C0 C0 = C0); ring|]. rewrite <- IH. ring. Qed.
Lemma Csum_sub : forall n f g, Csub (Csum n f) (Csum n g) = Csum n (fun i => Csub (f i) (g i)).
Proof. induction n as [|n IH]; intros f g; cbn; [change (Csub C0 C0 = C0); ring|]. rewrite <- IH. ring. Qed.
Lemma Csum_zero : forall n, Csum n (fun _ => C0) = C0.
Proof. induction n as [|n IH]; cbn; auto. rewrite IH. ring. Qed.
Lemma Csum_swap : forall n m f, Csum n (fun i => Csum m (fun j => f i j)) = Csum m (fun j => Csum n (fun i => f i j)).
Proof.
  induction n as [|n IH]; intros m f; cbn [Csum]. { symmetry. apply Csum_zero. } rewrite IH, Csum_add. reflexivity.
Qed.
Lemma Csum_delta : forall n k f, (k < n)%nat -> Csum n (fun i => Cmul (eye i k) (f i)) = f k.
Proof.
  induction n as [|n IH]; intros k f H; [lia|]. cbn [Csum]. destruct (Nat.eq_dec k n) as [->|N].
  - rewrite (Csum_ext n _ (fun _ => C0)). { rewrite Csum_zero. unfold eye. rewrite Nat.eqb_refl. change (1, 0) with C1. ring. }
    intros i Hi. unfold eye. destruct (Nat.eqb_spec i n); [lia|]. change (0, 0) with C0. ring.
  - rewrite IH by lia. unfold eye. destruct (Nat.eqb_spec n k); [lia|]. change (0, 0) with C0. ring.
Qed.
Lemma Cconj_sum : forall n f, Cconj (Csum n f) = Csum n (fun i => Cconj (f i)).
Proof. induction n as [|n IH]; intros f; cbn [Csum]. { unfold Cconj. cbn. f_equal. ring. } rewrite <- IH. unfold Cconj, Cadd. cbn. f_equal. ring. Qed.
Lemma Cconj_mul : forall a b, Cconj (Cmul a b) = Cmul (Cconj a) (Cconj b).
Proof. intros [a b] [c d]. unfold Cconj, Cmul. cbn. f_equal; ring. Qed.
Lemma Cconj_conj : forall a, Cconj (Cconj a) = a.
Proof. intros [a b]. unfold Cconj. cbn. f_equal. ring. Qed.
Lemma Cabs2_conj : forall a, RtoC (Cabs2 a) = Cmul (Cconj a) a.
Proof. intros [a b]. unfold RtoC, Cabs2, Cconj, Cmul. cbn. f_equal; ring. Qed.
Lemma RtoC_inj : forall a b, RtoC a = RtoC b -> a = b.
Proof. intros a b H. now injection H. Qed.
Lemma RtoC_sum : forall n f, RtoC (Rsum n f) = Csum n (fun i => RtoC (f i)).
Proof. induction n as [|n IH]; intros f; cbn [Rsum Csum]; auto. rewrite <- IH. unfold RtoC, Cadd. cbn. f_equal. ring. Qed.
Lemma Rsum_le : forall n f g, (forall i, (i < n)%nat -> f i <= g i) -> Rsum n f <= Rsum n g.
Proof. induction n as [|n IH]; intros f g H; cbn; [lra|]. assert (Rsum n f <= Rsum n g) by (apply IH; auto). specialize (H n ltac:(lia)). lra. Qed.
Lemma Cabs2_mul : forall a b, Cabs2 (Cmul a b) = Cabs2 a * Cabs2 b.
Proof. intros [a b] [c d]. unfold Cabs2, Cmul. cbn. ring. Qed.
Lemma Cabs2_nonneg : forall a, 0 <= Cabs2 a.
Proof. intros [a b]. unfold Cabs2. cbn. nra. Qed.

(** ** Unitary matrices keep the power *)
Lemma power_inner : forall n x, RtoC (power n x) = Csum n (fun i => Cmul (Cconj (x i)) (x i)).
Proof. intros n x. unfold power. rewrite rsum_Rsum, RtoC_sum. apply Csum_ext. intros. apply Cabs2_conj. Qed.
Lemma power_ext : forall n x y, (forall i, (i < n)%nat -> x i = y i) -> power n x = power n y.
Proof. intros n x y H. unfold power. rewrite !rsum_Rsum. apply Rsum_ext. intros i I. now rewrite H. Qed.
Lemma unitary_power : forall n U x, unitary n U -> power n (answer n U x) = power n x.
Proof.
  intros n U x [H _]. apply RtoC_inj. rewrite !power_inner. unfold answer.
  transitivity (Csum n (fun j => Csum n (fun k => Cmul (eye j k) (Cmul (Cconj (x j)) (x k))))).
  - transitivity (Csum n (fun i => Csum n (fun j => Csum n (fun k => Cmul (Cmul (Cconj (U i j)) (U i k)) (Cmul (Cconj (x j)) (x k)))))).
    + apply Csum_ext. intros i _. rewrite csum_Csum, Cconj_sum, Csum_scale_r. apply Csum_ext. intros j _. rewrite Csum_scale. apply Csum_ext. intros k _.
      rewrite Cconj_mul. ring.
    + rewrite Csum_swap. apply Csum_ext. intros j Hj. rewrite Csum_swap. apply Csum_ext. intros k Hk. rewrite <- (H j k) by auto. rewrite csum_Csum, Csum_scale_r. reflexivity.
  - rewrite Csum_swap. apply Csum_ext. intros k Hk. now rewrite Csum_delta.
Qed.

(** ** make_passive_svd *)
Definition trimmed (s : R) : R := s - clip s.
Lemma clip_zero : forall s, 0 <= s <= 1 -> clip s = 0.
Proof. intros s H. unfold clip. rewrite Rabs_right by lra. destruct (Rlt_dec (s - 1) 0); lra. Qed.
Lemma trimmed_ok : forall s, 0 <= s -> 0 <= trimmed s <= 1.
Proof. intros s H. unfold trimmed, clip. rewrite Rabs_right by lra. destruct (Rlt_dec (s - 1) 0); lra. Qed.
Definition clipped (n : nat) (A U : cmat) (s : nat -> R) (V : cmat) : cmat :=
  fun i j => Csub (A i j) (cmul n (cmul n U (cdiag (fun i => clip (s i)))) V i j).
Lemma cmul_diag : forall n U s i k, (k < n)%nat -> cmul n U (cdiag s) i k = Cmul (U i k) (RtoC (s k)).
Proof.
  intros n U s i k H. unfold cmul. rewrite (Csum_ext n _ (fun l => Cmul (eye l k) (Cmul (U i l) (RtoC (s l))))).
  - now rewrite Csum_delta.
  - intros l _. unfold cdiag, eye. destruct (Nat.eqb l k); [change (1, 0) with C1|change (0, 0) with C0]; ring.
Qed.
Lemma RtoC_sub : forall a b, RtoC (a - b) = Csub (RtoC a) (RtoC b).
Proof. intros a b. unfold RtoC, Csub. cbn. f_equal. ring. Qed.
Lemma clipped_factor : forall n A U s V, is_svd n A U s V -> same n (clipped n A U s V) (fun i j => Csum n (fun k => Cmul (Cmul (U i k) (RtoC (trimmed (s k)))) (V k j))).
Proof.
  intros n A U s V [_ [_ [_ E]]] i j Hi Hj. unfold clipped. rewrite (E i j) by auto. rewrite csum_Csum. unfold cmul at 1. rewrite Csum_sub. apply Csum_ext. intros k Hk.
  rewrite cmul_diag by auto. unfold trimmed. rewrite RtoC_sub. ring.
Qed.
Lemma answer_same : forall n A B x i, same n A B -> (i < n)%nat -> answer n A x i = answer n B x i.
Proof. intros n A B x i H Hi. unfold answer. rewrite !csum_Csum. apply Csum_ext. intros j Hj. now rewrite H. Qed.
Lemma answer_factor : forall n U t V x i,
  answer n (fun i j => Csum n (fun k => Cmul (Cmul (U i k) (RtoC (t k))) (V k j))) x i = answer n U (fun k => Cmul (RtoC (t k)) (answer n V x k)) i.
Proof.
  intros n U t V x i. unfold answer. rewrite !csum_Csum.
  transitivity (Csum n (fun j => Csum n (fun k => Cmul (Cmul (Cmul (U i k) (RtoC (t k))) (V k j)) (x j)))).
  { apply Csum_ext. intros j _. apply Csum_scale_r. }
  rewrite Csum_swap. apply Csum_ext. intros k _. rewrite csum_Csum, !Csum_scale. apply Csum_ext. intros j _. ring.
Qed.
Lemma clipped_passive : forall n A U s V, is_svd n A U s V -> passive n (clipped n A U s V).
Proof.
  intros n A U s V H x. pose proof H as [HU [HV [Hs _]]].
  rewrite (power_ext n (answer n (clipped n A U s V) x) (answer n U (fun k => Cmul (RtoC (trimmed (s k))) (answer n V x k)))).
  2: { intros i Hi. rewrite (answer_same n _ _ x i (clipped_factor n A U s V H) Hi). apply answer_factor. }
  rewrite unitary_power by auto. rewrite <- (unitary_power n V x HV). unfold power. rewrite !rsum_Rsum. apply Rsum_le. intros i Hi.
  rewrite Cabs2_mul. destruct (trimmed_ok (s i) (Hs i)) as [T1 T2]. pose proof (Cabs2_nonneg (answer n V x i)) as P.
  assert (Q : Cabs2 (RtoC (trimmed (s i))) <= 1). { unfold Cabs2, RtoC. cbn. nra. } pose proof (Cabs2_nonneg (RtoC (trimmed (s i)))). nra.
Qed.
Lemma passive_small : forall n A U s V k, is_svd n A U s V -> passive n A -> (k < n)%nat -> s k <= 1.
Proof.
  intros n A U s V k H P Hk. pose proof H as [[HU _] [[_ HV] [Hs HA]]].
  set (x := fun j => Cconj (V k j)).
  assert (Ev : forall l, (l < n)%nat -> answer n V x l = eye l k). { intros l Hl. unfold answer, x. now rewrite (HV l k). }
  assert (Px : power n x = 1).
  { apply RtoC_inj. rewrite power_inner. unfold x. rewrite (Csum_ext n _ (fun j => Cmul (V k j) (Cconj (V k j)))) by (intros; now rewrite Cconj_conj).
    rewrite <- csum_Csum. rewrite (HV k k) by auto. unfold eye. now rewrite Nat.eqb_refl. }
  assert (Ey : forall i, (i < n)%nat -> answer n A x i = Cmul (RtoC (s k)) (U i k)).
  { intros i Hi. rewrite (answer_same n A (fun i j => Csum n (fun k => Cmul (Cmul (U i k) (RtoC (s k))) (V k j)))); auto.
    2: { intros a b Ha Hb. rewrite (HA a b) by auto. apply csum_Csum. }
    rewrite answer_factor. unfold answer at 1. rewrite csum_Csum.
    rewrite (Csum_ext n _ (fun l => Cmul (eye l k) (Cmul (U i l) (RtoC (s l))))). { rewrite Csum_delta by auto. ring. }
    intros l Hl. rewrite Ev by auto. ring. }
  specialize (P x). rewrite Px in P. rewrite (power_ext n _ _ Ey) in P.
  assert (E : power n (fun i => Cmul (RtoC (s k)) (U i k)) = s k * s k).
  { apply RtoC_inj. rewrite power_inner. rewrite (Csum_ext n _ (fun i => Cmul (RtoC (s k * s k)) (Cmul (Cconj (U i k)) (U i k)))).
    - rewrite <- Csum_scale, <- csum_Csum. rewrite (HU k k) by auto. unfold eye. rewrite Nat.eqb_refl. change (1, 0) with C1. ring.
    - intros i _. rewrite Cconj_mul. assert (C : Cconj (RtoC (s k)) = RtoC (s k)) by (unfold Cconj, RtoC; cbn; f_equal; ring). rewrite C.
      assert (D : RtoC (s k * s k) = Cmul (RtoC (s k)) (RtoC (s k))) by (unfold RtoC, Cmul; cbn; f_equal; ring). rewrite D. ring. }
  rewrite E in P. pose proof (Hs k). nra.
Qed.

Lemma mapM_ok : forall {X Y} (f : X -> Y) l, mapM (fun x => Ok (f x)) l = Ok (map f l).
Proof. intros X Y f l. induction l as [|x l IH]; cbn; auto. now rewrite IH. Qed.

(** With a matrix product the method works: every matrix becomes passive, those
    that were passive stay as they are. *)
Theorem C58_svd : forall svd n S, (forall A, In A S -> let '(U, s, V) := svd n A in is_svd n A U s V) ->
  exists S', passive_svd (fun a b => Ok (cmul n a b)) svd n S = Ok S' /\
    Forall2 (fun A B => passive n B /\ (passive n A -> same n A B)) S S'.
Proof.
  intros svd n S H. exists (map (fun A => let '(U, s, V) := svd n A in clipped n A U s V) S). split.
  - unfold passive_svd. rewrite <- mapM_ok. clear H. induction S as [|A S IH]; cbn [mapM]; auto. rewrite IH. destruct (svd n A) as [[U s] V]. reflexivity.
  - induction S as [|A S IH]; cbn [map]; constructor; [|apply IH; intros; apply H; now right]. specialize (H A (or_introl eq_refl)). destruct (svd n A) as [[U s] V].
    split; [now apply clipped_passive|]. intros P i j Hi Hj. rewrite (clipped_factor n A U s V H i j) by auto. pose proof H as [_ [_ [Hs HA]]]. rewrite (HA i j) by auto.
    rewrite csum_Csum. apply Csum_ext. intros k Hk. unfold trimmed. rewrite clip_zero, Rminus_0_r; auto. split; [apply Hs|]. eapply passive_small; eauto.
Qed.
Print Assumptions C58_svd.

(** As it is written it never gives anything. *)
Theorem C58_svd_fails : forall svd n S, S <> [] -> make_passive_svd svd n S = Err AttributeError.
Proof. intros svd n [|A S] H; [contradiction|]. unfold make_passive_svd, passive_svd. cbn [mapM]. destruct (svd n A) as [[U s] V]. reflexivity. Qed.
Print Assumptions C58_svd_fails.

(** ** make_passive_eig and check_passive *)
Lemma Cmod_nonneg : forall z, 0 <= Cmod z.
Proof. intros z. apply sqrt_pos. Qed.
Lemma Cmod_mul : forall a b, Cmod (Cmul a b) = Cmod a * Cmod b.
Proof. intros a b. unfold Cmod. rewrite Cabs2_mul. apply sqrt_mult; apply Cabs2_nonneg. Qed.
Lemma Cmod_real : forall x, 0 <= x -> Cmod (RtoC x) = x.
Proof. intros x H. unfold Cmod, Cabs2, RtoC. cbn [fst snd]. replace (x * x + 0 * 0) with (x * x) by ring. now apply sqrt_square. Qed.
Lemma max_abs_ok : forall l, l <> [] -> (exists z, In z l /\ max_abs l = Cmod z) /\ (forall z, In z l -> Cmod z <= max_abs l).
Proof.
  induction l as [|a l IH]; intros H; [contradiction|]. destruct l as [|b l].
  - cbn. split; [exists a; auto|]. intros z [<-|[]]. lra.
  - destruct IH as [[z [I E]] B]; [discriminate|].
    assert (D : max_abs (a :: b :: l) = Rmax (Cmod a) (max_abs (b :: l))) by reflexivity. rewrite D. split.
    + destruct (Rle_dec (Cmod a) (max_abs (b :: l))) as [L|L].
      * exists z. split; [now right|]. rewrite Rmax_right; auto.
      * exists a. split; [now left|]. rewrite Rmax_left; lra.
    + intros y [<-|J]; [apply Rmax_l|]. eapply Rle_trans; [apply B; auto|apply Rmax_r].
Qed.
Lemma eig_scale : forall n A c l, c <> 0 -> eigenvalue n A l -> eigenvalue n (fun i j => Cmul (RtoC c) (A i j)) (Cmul (RtoC c) l).
Proof.
  intros n A c l Nc [x [X H]]. exists x. split; auto. intros i Hi. specialize (H i Hi). unfold answer in *. rewrite csum_Csum in *.
  rewrite (Csum_ext n _ (fun j => Cmul (RtoC c) (Cmul (A i j) (x j)))) by (intros; ring). rewrite <- Csum_scale, H. ring.
Qed.
Lemma RtoC_mul : forall a b, RtoC (a * b) = Cmul (RtoC a) (RtoC b).
Proof. intros a b. unfold RtoC, Cmul. cbn. f_equal; ring. Qed.
Lemma eig_unscale : forall n A c l, c <> 0 -> eigenvalue n (fun i j => Cmul (RtoC c) (A i j)) l -> exists m, eigenvalue n A m /\ l = Cmul (RtoC c) m.
Proof.
  intros n A c l Nc H. assert (K : Cmul (RtoC c) (RtoC (/ c)) = C1). { rewrite <- RtoC_mul. rewrite Rinv_r by auto. reflexivity. }
  exists (Cmul (RtoC (/ c)) l). split.
  - assert (Nc' : / c <> 0) by now apply Rinv_neq_0_compat. destruct (eig_scale n _ (/ c) l Nc' H) as [x [X E]]. exists x. split; auto. intros i Hi. rewrite <- (E i Hi).
    unfold answer. rewrite !csum_Csum. apply Csum_ext. intros j _.
    transitivity (Cmul (Cmul (Cmul (RtoC c) (RtoC (/ c))) (A i j)) (x j)); [rewrite K|]; ring.
  - transitivity (Cmul (Cmul (RtoC c) (RtoC (/ c))) l); [rewrite K|]; ring.
Qed.
Lemma eig_ext : forall n A B l, (forall i j, A i j = B i j) -> eigenvalue n A l -> eigenvalue n B l.
Proof. intros n A B l H [x [X E]]. exists x. split; auto. intros i Hi. rewrite <- (E i Hi). apply answer_same; auto. intros a b _ _. symmetry. apply H. Qed.
Lemma Cdiv_real : forall z x, x <> 0 -> Cdiv z (RtoC x) = Cmul (RtoC (/ x)) z.
Proof. intros [a b] x H. unfold Cdiv, Cinv, Cmul, RtoC, Cabs2. cbn. f_equal; field; auto. Qed.

(** No matrix keeps an eigenvalue beyond the unit circle; a matrix with one is
    scaled so that the largest becomes 1 - delta; others stay as they are. *)
Theorem C58_eig : forall eigvals delta n S, delta < 1 -> (forall A, In A S -> is_eigvals n A (eigvals n A)) ->
  Forall2 (fun A B =>
    ((forall l, eigenvalue n A l -> Cmod l <= 1) -> B = A) /\
    (forall l0, eigenvalue n A l0 -> 1 < Cmod l0 ->
       (exists c, 0 < c /\ forall i j, B i j = Cmul (RtoC c) (A i j)) /\
       (exists l, eigenvalue n B l /\ Cmod l = 1 - delta) /\ (forall l, eigenvalue n B l -> Cmod l <= 1 - delta)))
    S (make_passive_eig eigvals delta n S).
Proof.
  intros eigvals delta n S D H. unfold make_passive_eig. induction S as [|A S IH]; cbn [map]; constructor; [|apply IH; intros; apply H; now right].
  destruct (H A (or_introl eq_refl)) as [NE EV]. destruct (max_abs_ok _ NE) as [[z [Iz Ez]] MX]. set (m := max_abs (eigvals n A)) in *.
  assert (Vz : eigenvalue n A z) by now apply EV. destruct (Rlt_dec 1 m) as [L|L].
  - split. { intros K. exfalso. specialize (K z Vz). lra. }
    intros l0 _ _. set (c := (1 - delta) / m). assert (Pc : 0 < c) by (apply Rdiv_lt_0_compat; lra).
    assert (EB : forall i j, Cmul (Cdiv (A i j) (RtoC m)) (RtoC (1 - delta)) = Cmul (RtoC c) (A i j)).
    { intros i j. rewrite Cdiv_real by lra. unfold c, Rdiv. rewrite RtoC_mul. ring. }
    split; [exists c; auto|]. split.
    + exists (Cmul (RtoC c) z). split.
      * apply (eig_ext n (fun i j => Cmul (RtoC c) (A i j))); [intros; symmetry; apply EB|]. apply eig_scale; auto. lra.
      * rewrite Cmod_mul, Cmod_real by lra. rewrite <- Ez. unfold c. field. lra.
    + intros l V. assert (V' : eigenvalue n (fun i j => Cmul (RtoC c) (A i j)) l) by (eapply eig_ext; [|exact V]; exact EB).
      destruct (eig_unscale n A c l) as [mu [Vm ->]]; auto; [lra|]. rewrite Cmod_mul, Cmod_real by lra.
      assert (Cmod mu <= m) by (apply MX; now apply EV). apply Rle_trans with (c * m); [apply Rmult_le_compat_l; lra|]. unfold c. right. field. lra.
  - split; [auto|]. intros l0 V G. exfalso. assert (Cmod l0 <= m) by (apply MX; now apply EV). lra.
Qed.
Print Assumptions C58_eig.

(** check_passive is the largest magnitude of the eigenvalues. *)
Theorem C58_check : forall eigvals n S, (forall A, In A S -> is_eigvals n A (eigvals n A)) ->
  Forall2 (fun A m => (exists l, eigenvalue n A l /\ Cmod l = m) /\ (forall l, eigenvalue n A l -> Cmod l <= m)) S (check_passive eigvals n S).
Proof.
  intros eigvals n S H. unfold check_passive. induction S as [|A S IH]; cbn [map]; constructor; [|apply IH; intros; apply H; now right].
  destruct (H A (or_introl eq_refl)) as [NE EV]. destruct (max_abs_ok _ NE) as [[z [Iz Ez]] MX].
  split; [exists z; split; [now apply EV|auto]|]. intros l V. apply MX. now apply EV.
Qed.
Print Assumptions C58_check.

(** A passive matrix has no eigenvalue beyond the unit circle, so the check never
    rejects one. *)
Lemma power_nonneg : forall n x, 0 <= power n x.
Proof. intros n x. unfold power. rewrite rsum_Rsum. induction n as [|n IH]; cbn; [lra|]. pose proof (Cabs2_nonneg (x n)). lra. Qed.
Lemma power_pos : forall n x, nonzero_wave n x -> 0 < power n x.
Proof.
  intros n x [i [Hi Ni]]. unfold power. rewrite rsum_Rsum. induction n as [|n IH]; [lia|]. cbn [Rsum].
  assert (P : forall m, 0 <= Rsum m (fun i => Cabs2 (x i))) by (intros m; rewrite <- rsum_Rsum; apply power_nonneg).
  destruct (Nat.eq_dec i n) as [->|N].
  - assert (0 < Cabs2 (x n)) by (now apply Cabs2_pos). specialize (P n). lra.
  - assert (0 < Rsum n (fun i => Cabs2 (x i))) by (apply IH; lia). pose proof (Cabs2_nonneg (x n)). lra.
Qed.
Lemma power_scale : forall n c x, power n (fun i => Cmul c (x i)) = Cabs2 c * power n x.
Proof. intros n c x. unfold power. rewrite !rsum_Rsum. induction n as [|n IH]; cbn [Rsum]; [ring|]. rewrite IH, Cabs2_mul. ring. Qed.
Lemma passive_eig : forall n A l, passive n A -> eigenvalue n A l -> Cmod l <= 1.
Proof.
  intros n A l P [x [X E]]. specialize (P x). rewrite (power_ext n _ _ E), power_scale in P. pose proof (power_pos n x X).
  assert (Cabs2 l <= 1) by nra. unfold Cmod. rewrite <- sqrt_1. apply sqrt_le_1; [apply Cabs2_nonneg|lra|auto].
Qed.
Theorem C58_check_passive : forall eigvals n S, (forall A, In A S -> is_eigvals n A (eigvals n A)) -> (forall A, In A S -> passive n A) ->
  Forall (fun m => m <= 1) (check_passive eigvals n S) /\ make_passive_eig eigvals 0 n S = S.
Proof.
  intros eigvals n S H P. unfold check_passive, make_passive_eig.
  assert (K : forall A, In A S -> max_abs (eigvals n A) <= 1).
  { intros A I. destruct (H A I) as [NE EV]. destruct (max_abs_ok _ NE) as [[z [Iz Ez]] _]. rewrite Ez. apply (passive_eig n A); auto. now apply EV. }
  split.
  - apply Forall_forall. intros m I. apply in_map_iff in I as [A [<- I]]. now apply K.
  - rewrite <- (map_id S) at 2. apply map_ext_in. intros A I. destruct (Rlt_dec 1 (max_abs (eigvals n A))) as [L|L]; auto. specialize (K A I). lra.
Qed.
Print Assumptions C58_check_passive.
(** But eigenvalues do not tell: an amplifier with no feedback is reported as
    passive and not changed, whatever the (correct) eigenvalue routine. *)
Definition amplifier : cmat := fun i j => match i, j with 1%nat, 0%nat => (2, 0) | _, _ => (0, 0) end.
Lemma amplifier_eig : forall l, eigenvalue 2 amplifier l -> l = (0, 0).
Proof.
  intros l [x [[k [Hk Nk]] E]]. pose proof (E 0%nat ltac:(lia)) as E0. pose proof (E 1%nat ltac:(lia)) as E1.
  unfold answer in E0, E1. rewrite csum_Csum in E0, E1. cbn [Csum amplifier] in E0, E1.
  change (0, 0) with C0 in *. assert (Z0 : Cmul l (x 0%nat) = C0) by (rewrite <- E0; ring). assert (Z1 : Cmul l (x 1%nat) = Cmul (2, 0) (x 0%nat)) by (rewrite <- E1; ring).
  assert (INT : forall a b, Cmul a b = C0 -> a = C0 \/ b = C0).
  { intros a b H. destruct (Ceqb a C0) eqn:Q; [left; now apply Ceqb_eq|]. right. assert (Na : a <> C0) by (intros ->; rewrite (proj2 (Ceqb_eq C0 C0) eq_refl) in Q; discriminate).
    assert (Cabs2 a * Cabs2 b = 0) by (rewrite <- Cabs2_mul, H; unfold Cabs2, C0; cbn; ring). pose proof (Cabs2_pos a Na).
    apply Rmult_integral in H0 as [H0|H0]; [lra|]. destruct (Ceqb b C0) eqn:Qb; [now apply Ceqb_eq|]. exfalso.
    assert (Nb : b <> C0) by (intros ->; rewrite (proj2 (Ceqb_eq C0 C0) eq_refl) in Qb; discriminate). pose proof (Cabs2_pos b Nb). lra. }
  apply INT in Z0 as [Z0|Z0]; auto. rewrite Z0 in Z1. assert (Z2 : Cmul l (x 1%nat) = C0) by (rewrite Z1; ring).
  apply INT in Z2 as [Z2|Z2]; auto. exfalso. apply Nk. destruct k as [|[|k]]; auto; lia.
Qed.
Theorem C58_eig_refuted : forall eigvals delta, is_eigvals 2 amplifier (eigvals 2%nat amplifier) ->
  ~ passive 2 amplifier /\ check_passive eigvals 2 [amplifier] = [0] /\ make_passive_eig eigvals delta 2 [amplifier] = [amplifier].
Proof.
  intros eigvals delta [NE EV]. split.
  - intros P. specialize (P (fun i => match i with 0%nat => (1, 0) | _ => (0, 0) end)). unfold power, answer in P. rewrite !rsum_Rsum in P. cbn [Rsum] in P. rewrite !csum_Csum in P.
    cbn [Csum amplifier] in P. unfold Cabs2, Cadd, Cmul in P. cbn [fst snd] in P. lra.
  - destruct (max_abs_ok _ NE) as [[z [Iz Ez]] _]. apply EV in Iz. apply amplifier_eig in Iz. subst z.
    assert (Em : max_abs (eigvals 2%nat amplifier) = 0). { rewrite Ez. unfold Cmod, Cabs2. cbn. replace (0 * 0 + 0 * 0) with 0 by ring. apply sqrt_0. }
    unfold check_passive, make_passive_eig. cbn [map]. rewrite Em. split; auto. destruct (Rlt_dec 1 0); [lra|]. reflexivity.
Qed.
Print Assumptions C58_eig_refuted.

(** ** switch_correct *)
(** The waves of the excitations are the columns of [a] and [b]. *)
Theorem C58_switch : forall linv n S a b ia, linv n a = Some ia -> same n (fun i j => csum n (fun k => Cmul (a i k) (ia k j))) eye ->
  (forall e i, (i < n)%nat -> (e < n)%nat -> b i e = answer n S (fun j => a j e) i) ->
  exists Sm, switch_correct linv n b a = Some Sm /\ same n Sm S.
Proof.
  intros linv n S a b ia L I B. unfold switch_correct. rewrite L. eexists. split; [reflexivity|]. intros i j Hi Hj. unfold cmul.
  transitivity (Csum n (fun e => Csum n (fun l => Cmul (S i l) (Cmul (a l e) (ia e j))))).
  { apply Csum_ext. intros e He. rewrite (B e i Hi He). unfold answer. rewrite csum_Csum, Csum_scale_r. apply Csum_ext. intros. ring. }
  rewrite Csum_swap. transitivity (Csum n (fun l => Cmul (eye l j) (S i l))).
  { apply Csum_ext. intros l Hl. rewrite <- Csum_scale, <- csum_Csum. rewrite (I l j) by auto. ring. }
  now apply Csum_delta.
Qed.
Print Assumptions C58_switch.

(** ** make_reciprocal *)
Lemma Csqrt_sq : forall z, Cmul (Csqrt z) (Csqrt z) = z.
Proof.
  intros [x y]. unfold Csqrt. cbn [fst snd]. set (m := sqrt (Cabs2 (x, y))).
  assert (Em : m * m = x * x + y * y). { unfold m. apply sqrt_sqrt. unfold Cabs2. cbn. nra. }
  assert (Pm : 0 <= m) by apply sqrt_pos. assert (B : - m <= x <= m) by nra.
  assert (P1 : 0 <= (m + x) / 2) by lra. assert (P2 : 0 <= (m - x) / 2) by lra.
  pose proof (sqrt_sqrt _ P1) as S1. pose proof (sqrt_sqrt _ P2) as S2. pose proof (sqrt_pos ((m + x) / 2)) as Q1. pose proof (sqrt_pos ((m - x) / 2)) as Q2.
  set (p := sqrt ((m + x) / 2)) in *. set (q := sqrt ((m - x) / 2)) in *.
  assert (E : (2 * p * q) * (2 * p * q) = y * y). { replace (2 * p * q * (2 * p * q)) with (4 * (p * p) * (q * q)) by ring. rewrite S1, S2. replace (4 * ((m + x) / 2) * ((m - x) / 2)) with (m * m - x * x) by field. lra. }
  assert (Ppq : 0 <= 2 * p * q) by nra.
  assert (F : 2 * p * q = Rabs y) by (apply Rsqr_inj; [auto|apply Rabs_pos|]; rewrite <- Rsqr_abs; unfold Rsqr; exact E).
  destruct (Rlt_dec y 0) as [L|L]; unfold Cmul; cbn [fst snd]; [rewrite Rabs_left in F by lra|rewrite Rabs_right in F by lra]; apply pair_eq; lra.
Qed.
Lemma Csq_pm : forall w s, Cmul w w = Cmul s s -> w = s \/ w = Copp s.
Proof.
  intros w s H. assert (Z : Cmul (Csub w s) (Cadd w s) = C0). { transitivity (Csub (Cmul w w) (Cmul s s)); [ring|]. rewrite H. ring. }
  assert (A : Cabs2 (Csub w s) * Cabs2 (Cadd w s) = 0) by (rewrite <- Cabs2_mul, Z; unfold Cabs2, C0; cbn; ring).
  assert (N : forall u v : Cx, Cabs2 (Csub u v) = 0 -> u = v). { intros [a b] [c d] E. unfold Cabs2, Csub in E. cbn in E. pose proof (Rle_0_sqr (a - c)) as X1. pose proof (Rle_0_sqr (b - d)) as X2. unfold Rsqr in *. assert (Y1 : (a - c) * (a - c) = 0) by lra. assert (Y2 : (b - d) * (b - d) = 0) by lra. apply Rmult_integral in Y1, Y2. apply pair_eq; lra. }
  apply Rmult_integral in A as [A|A]; [left; now apply N|right]. apply N. rewrite <- A. f_equal. ring.
Qed.
Lemma Cdiv_self : forall s, s <> (0, 0) -> Cdiv s s = C1.
Proof. intros s N. unfold Cdiv. apply (Finv_l Cfth) in N. transitivity (Cmul (Cinv s) s); [ring|exact N]. Qed.
Lemma npangle_one : npangle C1 = 0.
Proof. apply polar_unique; [|pose proof PI_RGT_0; lra]. exists 1. split; [lra|]. rewrite cos_0, sin_0. apply pair_eq; ring. Qed.
Lemma npangle_minus : npangle (Copp C1) = PI.
Proof. apply polar_unique; [|pose proof PI_RGT_0; lra]. exists 1. split; [lra|]. rewrite cos_PI, sin_PI. unfold Copp, C1. cbn. apply pair_eq; ring. Qed.

(** The result is reciprocal, the square of its transmission is the product of
    the two, nothing else changes, and reciprocal matrices stay as they are. *)
Theorem C58_reciprocal : forall S,
  Forall2 (fun A B : cmat =>
    B 0%nat 1%nat = B 1%nat 0%nat /\ Cmul (B 0%nat 1%nat) (B 1%nat 0%nat) = Cmul (A 0%nat 1%nat) (A 1%nat 0%nat) /\
    (forall i j, (i, j) <> (0, 1)%nat -> (i, j) <> (1, 0)%nat -> B i j = A i j) /\
    (A 0%nat 1%nat = A 1%nat 0%nat -> forall i j, B i j = A i j)) S (make_reciprocal S).
Proof.
  intros S. unfold make_reciprocal. induction S as [|A S IH]; cbn [map]; constructor; auto. clear IH S.
  set (S12 := Csqrt (Cmul (A 0%nat 1%nat) (A 1%nat 0%nat))).
  set (A12 := if Rlt_dec (npangle (Cdiv S12 (A 0%nat 1%nat))) 1 then S12 else Copp S12).
  assert (SQ : Cmul A12 A12 = Cmul (A 0%nat 1%nat) (A 1%nat 0%nat)).
  { transitivity (Cmul S12 S12); [|apply Csqrt_sq]. unfold A12. destruct (Rlt_dec _ _); ring. }
  split; [reflexivity|]. split; [exact SQ|]. split.
  { intros i j N1 N2. destruct i as [|[|i]], j as [|[|j]]; auto; [exfalso; now apply N1|exfalso; now apply N2]. }
  intros E.
  assert (R : A12 = A 0%nat 1%nat).
  { rewrite <- E in SQ. destruct (Ceqb (A 0%nat 1%nat) (0, 0)) eqn:Z.
    - apply Ceqb_eq in Z. destruct (Csq_pm _ _ SQ) as [Q|Q]; auto. rewrite Q, Z. unfold Copp. cbn. apply pair_eq; ring.
    - assert (N : A 0%nat 1%nat <> (0, 0)) by (intros Q; rewrite Q, (proj2 (Ceqb_eq (0, 0) (0, 0)) eq_refl) in Z; discriminate).
      assert (SS : Cmul S12 S12 = Cmul (A 0%nat 1%nat) (A 0%nat 1%nat)) by (unfold S12; rewrite Csqrt_sq, <- E; reflexivity).
      unfold A12. destruct (Csq_pm _ _ SS) as [Q|Q]; rewrite Q.
      + rewrite Cdiv_self, npangle_one by auto. destruct (Rlt_dec 0 1); [auto|lra].
      + assert (D : Cdiv (Copp (A 0%nat 1%nat)) (A 0%nat 1%nat) = Copp C1). { transitivity (Copp (Cdiv (A 0%nat 1%nat) (A 0%nat 1%nat))); [unfold Cdiv; ring|]. now rewrite Cdiv_self. }
        rewrite D, npangle_minus. destruct (Rlt_dec PI 1) as [L|L]; [pose proof PI2_3_2; lra|]. ring. }
  intros i j. destruct i as [|[|i]], j as [|[|j]]; auto. rewrite R. auto.
Qed.
Print Assumptions C58_reciprocal.

(** The sign: the limit of one radian makes the result point away from both
    transmissions, although its negative points the same way as both. *)
Definition dot (a b : Cx) : R := fst a * fst b + snd a * snd b.
Definition skewed : cmat := fun i j => match i, j with 0%nat, 1%nat => (1, 0) | 1%nat, 0%nat => (-119 / 169, 120 / 169) | _, _ => (0, 0) end.
Lemma Csqrt_unique : forall w, 0 < fst w -> Csqrt (Cmul w w) = w.
Proof.
  intros w P. destruct (Csq_pm _ _ (Csqrt_sq (Cmul w w))) as [H|H]; auto. exfalso. assert (F : fst (Csqrt (Cmul w w)) = - fst w) by (rewrite H; reflexivity).
  unfold Csqrt in F. cbn [fst] in F. pose proof (sqrt_pos ((sqrt (Cabs2 (Cmul w w)) + fst (Cmul w w)) / 2)). unfold Cmul in *. cbn [fst snd] in *. lra.
Qed.
Theorem C58_sign_refuted : exists A, let B := nth 0 (make_reciprocal [A]) A in
  dot (B 0%nat 1%nat) (A 0%nat 1%nat) < 0 /\ dot (B 0%nat 1%nat) (A 1%nat 0%nat) < 0.
Proof.
  exists skewed. unfold make_reciprocal. cbn [map nth skewed].
  set (w := (5 / 13, 12 / 13) : Cx).
  assert (E : Cmul (1, 0) (-119 / 169, 120 / 169) = Cmul w w) by (unfold w, Cmul; cbn; apply pair_eq; lra). rewrite E.
  rewrite Csqrt_unique by (unfold w; cbn; lra).
  assert (D : Cdiv w (1, 0) = w). { unfold Cdiv, Cinv, Cabs2, Cmul, w. cbn. apply pair_eq; field. } rewrite D.
  assert (N : nonzero w) by (unfold nonzero, w; intros Q; injection Q; lra).
  destruct (polar_exists w N) as [[rho [Pr Er]] B]. set (t := npangle w) in *. injection Er as E1 E2.
  assert (R1 : rho = 1). { pose proof (cs1 t). assert (rho * rho * (cos t * cos t + sin t * sin t) = 1) by (replace (rho * rho * (cos t * cos t + sin t * sin t)) with ((rho * cos t) * (rho * cos t) + (rho * sin t) * (rho * sin t)) by ring; rewrite <- E1, <- E2; lra). rewrite H in H0. nra. }
  rewrite R1, Rmult_1_l in E1, E2.
  destruct (Rlt_dec t 1) as [L|L].
  - exfalso. destruct (Rle_dec 0 t) as [T|T].
    + assert (cos t >= cos 1). { apply Rle_ge. apply cos_decr_1; pose proof PI2_3_2; lra. }
      assert (cos 1 > 1 / 2). { rewrite <- cos_PI3. apply cos_decreasing_1; pose proof PI2_3_2; lra. } lra.
    + assert (sin (- t) >= 0) by (apply Rle_ge, sin_ge_0; lra). rewrite sin_neg in H. lra.
  - unfold dot, Copp, w. cbn. lra.
Qed.
Print Assumptions C58_sign_refuted.

(** ** Examples *)
Definition active : cmat := fun i j => match i, j with 0%nat, 0%nat => (2, 0) | 1%nat, 1%nat => (1 / 2, 0) | _, _ => (0, 0) end.
Definition active_s (i : nat) : R := match i with 0%nat => 2 | _ => 1 / 2 end.
Lemma eye_unitary : unitary 2 eye.
Proof. split; intros [|[|i]] [|[|j]] Hi Hj; try lia; rewrite csum_Csum; cbn; unfold eye, Cconj, Cmul, Cadd; cbn; apply pair_eq; ring. Qed.
Example C58_example : is_svd 2 active eye active_s eye /\ is_eigvals 2 active [(2, 0); (1 / 2, 0)] /\
  is_eigvals 2 amplifier [(0, 0)] /\
  same 2 (clipped 2 active eye active_s eye) (fun i j => match i, j with 0%nat, 0%nat => (1, 0) | 1%nat, 1%nat => (1 / 2, 0) | _, _ => (0, 0) end).
Proof.
  split; [|split; [|split]].
  - split; [apply eye_unitary|]. split; [apply eye_unitary|]. split; [intros [|i]; cbn; lra|].
    intros [|[|i]] [|[|j]] Hi Hj; try lia; rewrite csum_Csum; cbn; unfold eye, Cmul, Cadd, RtoC; cbn; apply pair_eq; field.
  - split; [discriminate|]. intros l. split.
    + intros [<-|[<-|[]]].
      * exists (fun i => eye i 0). split; [exists 0%nat; split; [lia|cbn; intros Q; injection Q; lra]|].
        intros [|[|i]] Hi; try lia; unfold answer; rewrite csum_Csum; cbn; unfold eye, Cmul, Cadd; cbn; apply pair_eq; ring.
      * exists (fun i => eye i 1). split; [exists 1%nat; split; [lia|cbn; intros Q; injection Q; lra]|].
        intros [|[|i]] Hi; try lia; unfold answer; rewrite csum_Csum; cbn; unfold eye, Cmul, Cadd; cbn; apply pair_eq; ring.
    + intros [x [[k [Hk Nk]] E]]. pose proof (E 0%nat ltac:(lia)) as E0. pose proof (E 1%nat ltac:(lia)) as E1.
      unfold answer in E0, E1. rewrite csum_Csum in E0, E1. cbn [Csum active] in E0, E1.
      assert (CANC : forall a b z : Cx, z <> (0, 0) -> Cmul a z = Cmul b z -> a = b).
      { intros a b z N H. apply (Finv_l Cfth) in N. transitivity (Cmul (Cmul a z) (Cinv z)).
        - transitivity (Cmul a (Cmul (Cinv z) z)); [rewrite N; change (1, 0) with C1|]; ring.
        - rewrite H. transitivity (Cmul b (Cmul (Cinv z) z)); [ring|]. rewrite N. change (1, 0) with C1. ring. }
      destruct k as [|[|k]]; [left|right; left|lia].
      * apply (CANC _ _ (x 0%nat)); auto. rewrite <- E0. change (0, 0) with C0. ring.
      * apply (CANC _ _ (x 1%nat)); auto. rewrite <- E1. change (0, 0) with C0. ring.
  - split; [discriminate|]. intros l. split.
    + intros [<-|[]]. exists (fun i => eye i 1). split; [exists 1%nat; split; [lia|cbn; intros Q; injection Q; lra]|].
      intros [|[|i]] Hi; try lia; unfold answer; rewrite csum_Csum; cbn; unfold eye, Cmul, Cadd; cbn; apply pair_eq; ring.
    + intros H. left. symmetry. now apply amplifier_eig.
  - intros i j Hi Hj. unfold clipped, cmul, cdiag, clip. cbn [Csum].
    assert (C2 : Rabs 2 - 1 = 1) by (rewrite Rabs_right; lra). assert (Ch : Rabs (1 / 2) - 1 = - (1 / 2)) by (rewrite Rabs_right; lra).
    destruct i as [|[|i]], j as [|[|j]]; try lia; cbn [active active_s eye Nat.eqb]; rewrite ?C2, ?Ch; destruct (Rlt_dec 1 0); try lra; destruct (Rlt_dec (- (1 / 2)) 0); try lra;
      unfold eye, RtoC, Cmul, Cadd, Csub; cbn [fst snd Nat.eqb]; apply pair_eq; field.
Qed.
