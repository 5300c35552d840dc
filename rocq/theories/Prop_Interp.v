(** Properties of interpolation: C24. *)
From Coq Require Import List Arith ZArith QArith Bool Lia Lqa.
From Verif Require Import Model_NdArray Model_Math Prop_Math.
Import ListNotations.
Local Open Scope Q_scope.
Local Open Scope list_scope.

Notation "x .[ k ]" := (nth k%nat x 0) (at level 2, left associativity, format "x .[ k ]").
(** A grid. *)
Definition ascending (x : list Q) : Prop := forall i j, (i < j)%nat -> (j < length x)%nat -> x.[i] < x.[j].
(** The line through two points. *)
Definition line (x0 y0 x1 y1 x : Q) : Q := y0 + (x - x0) * ((y1 - y0) / (x1 - x0)).

Lemma Qltb_iff : forall a b, Qltb a b = true <-> a < b.
Proof. intros a b. unfold Qltb. rewrite negb_true_iff. split; intros H. - apply Qnot_le_lt. intros C. apply Qle_bool_iff in C. congruence. - destruct (Qle_bool b a) eqn:E; auto. apply Qle_bool_iff in E. lra. Qed.
Lemma Qltb_false : forall a b, Qltb a b = false <-> b <= a.
Proof. intros a b. unfold Qltb. rewrite negb_false_iff. apply Qle_bool_iff. Qed.
Lemma search_spec : forall l x, let k := searchsorted l x in
  (k <= length l)%nat /\ (forall j, (j < k)%nat -> l.[j] < x) /\ ((k < length l)%nat -> x <= l.[k]).
Proof.
  induction l as [|a l IH]; intros x; cbn [searchsorted]; [cbn; repeat split; lia|]. destruct (Qltb a x) eqn:E.
  - apply Qltb_iff in E. destruct (IH x) as [H1 [H2 H3]]. cbv zeta. split; [cbn; lia|]. split.
    + intros [|j] J; cbn; auto. apply H2. lia.
    + intros L. cbn in *. apply H3. lia.
  - apply Qltb_false in E. cbv zeta. split; [lia|]. split; [lia|auto].
Qed.
Section Grid.
  Variables x y : list Q.
  Hypothesis asc : ascending x.
  Hypothesis two : (2 <= length x)%nat.
  Lemma lt_at (i j : nat) : (i < j)%nat -> (j < length x)%nat -> x.[i] < x.[j].
  Proof. apply asc. Qed.
  Arguments lt_at (i j)%nat_scope.
  Lemma idx_spec : forall xi, let k := searchsorted (slice 1 (length x - 1) x) xi in
    (k + 1 < length x)%nat /\ (k = 0%nat \/ x.[k] < xi) /\ ((k + 2 = length x)%nat \/ xi <= x.[k + 1]).
  Proof.
    intros xi. destruct (search_spec (slice 1 (length x - 1) x) xi) as [H1 [H2 H3]]. cbv zeta in *. set (k := searchsorted _ xi) in *. rewrite slice_length in * by lia.
    split; [lia|]. split.
    - destruct k as [|k]; auto. right. specialize (H2 k ltac:(lia)). rewrite slice_nth in H2 by lia. exact H2.
    - destruct (Nat.eq_dec (k + 2) (length x)); auto. right. specialize (H3 ltac:(lia)). rewrite slice_nth in H3 by lia. now rewrite Nat.add_comm in H3.
  Qed.
  Lemma value_at : forall xi, let k := searchsorted (slice 1 (length x - 1) x) xi in
    linear_extrapolate x y xi == line x.[k] y.[k] x.[k + 1] y.[k + 1] xi.
  Proof.
    intros xi. destruct (idx_spec xi) as [H _]. unfold linear_extrapolate. cbv zeta in *. set (k := searchsorted _ xi) in *. unfold line.
    pose proof (lt_at k (k + 1) ltac:(lia) ltac:(lia)). field. lra.
  Qed.
  Lemma line_left : forall x0 y0 x1 y1, line x0 y0 x1 y1 x0 == y0.
  Proof. intros. unfold line. setoid_replace (x0 - x0) with 0 by ring. ring. Qed.
  Lemma line_right : forall x0 y0 x1 y1, x0 < x1 -> line x0 y0 x1 y1 x1 == y1.
  Proof. intros. unfold line. field. lra. Qed.
  Lemma line_ext : forall x0 y0 x1 y1 a b, a == b -> line x0 y0 x1 y1 a == line x0 y0 x1 y1 b.
  Proof. intros. unfold line. rewrite H. reflexivity. Qed.
  (** Between two neighbours of the grid: the line through them. *)
  Theorem C24_segment : forall k xi, (k + 1 < length x)%nat -> x.[k] <= xi <= x.[k + 1] ->
    linear_extrapolate x y xi == line x.[k] y.[k] x.[k + 1] y.[k + 1] xi.
  Proof.
    intros j xi J [B1 B2]. rewrite value_at. destruct (idx_spec xi) as [K1 [K2 K3]]. cbv zeta in *. set (k := searchsorted _ xi) in *. clearbody k.
    destruct (lt_eq_lt_dec k j) as [[L| ->]|G]; [| reflexivity |].
    - destruct K3 as [K3|K3]; [lia|].
      assert (E : j = (k + 1)%nat). { destruct (Nat.eq_dec j (k + 1)); auto. pose proof (lt_at (k + 1) j ltac:(lia) ltac:(lia)). lra. }
      subst j. assert (X : xi == x.[k + 1]) by lra. rewrite (line_ext _ _ _ _ _ _ X). rewrite (line_ext (x.[k + 1]) _ _ _ _ _ X). rewrite line_left, line_right; [reflexivity|].
      apply asc; lia.
    - destruct K2 as [K2|K2]; [lia|]. exfalso. destruct (Nat.eq_dec k (j + 1)) as [->|N]; [lra|]. pose proof (lt_at (j + 1) k ltac:(lia) ltac:(lia)). lra.
  Qed.
  (** Outside the grid: the first and last lines are continued. *)
  Theorem C24_outside : forall xi,
    (xi <= x.[0] -> linear_extrapolate x y xi == line x.[0] y.[0] x.[1] y.[1] xi) /\
    (x.[length x - 1] <= xi -> linear_extrapolate x y xi == line x.[length x - 2] y.[length x - 2] x.[length x - 1] y.[length x - 1] xi).
  Proof.
    intros xi. rewrite value_at. destruct (idx_spec xi) as [K1 [K2 K3]]. cbv zeta in *. set (k := searchsorted _ xi) in *. clearbody k. split; intros B.
    - destruct k as [|k]; [reflexivity|]. destruct K2 as [K2|K2]; [lia|]. pose proof (lt_at 0 (S k) ltac:(lia) ltac:(lia)). lra.
    - assert (E : (k + 2 = length x)%nat).
      { destruct K3 as [K3|K3]; auto. destruct (Nat.eq_dec (k + 2) (length x)); auto. pose proof (lt_at (k + 1) (length x - 1) ltac:(lia) ltac:(lia)). lra. }
      replace (length x - 2)%nat with k by lia. replace (length x - 1)%nat with (k + 1)%nat by lia. reflexivity.
  Qed.
  (** At the points of the grid: the data. *)
  Theorem C24_grid : forall k, (k < length x)%nat -> linear_extrapolate x y x.[k] == y.[k].
  Proof.
    intros k K. destruct (Nat.eq_dec (k + 1) (length x)) as [E|E].
    - pose proof (lt_at (k - 1) k ltac:(lia) ltac:(lia)). rewrite (C24_segment (k - 1)); replace (k - 1 + 1)%nat with k by lia; [apply line_right; auto|lia|lra].
    - pose proof (lt_at k (k + 1) ltac:(lia) ltac:(lia)). rewrite (C24_segment k); [apply line_left|lia|lra].
  Qed.
  (** Never outside the two neighbouring values. *)
  Theorem C24_between : forall k xi lo hi, (k + 1 < length x)%nat -> x.[k] <= xi <= x.[k + 1] -> lo <= y.[k] <= hi -> lo <= y.[k + 1] <= hi ->
    lo <= linear_extrapolate x y xi <= hi.
  Proof.
    intros k xi lo hi K B Y0 Y1. rewrite !(C24_segment k) by auto. unfold line. pose proof (lt_at k (k + 1) ltac:(lia) K) as A.
    set (t := (xi - x.[k]) / (x.[k + 1] - x.[k])). assert (T : 0 <= t <= 1).
    { unfold t. split; [apply Qle_shift_div_l|apply Qle_shift_div_r]; lra. }
    assert (E : y.[k] + (xi - x.[k]) * ((y.[k + 1] - y.[k]) / (x.[k + 1] - x.[k])) == y.[k] + t * (y.[k + 1] - y.[k])) by (unfold t; field; lra).
    split; rewrite E; nra.
  Qed.
  (** Straight lines are reproduced, inside and outside. *)
  Theorem C24_straight : forall a b, (forall k, (k < length x)%nat -> y.[k] == a + b * x.[k]) -> forall xi, linear_extrapolate x y xi == a + b * xi.
  Proof.
    intros a b H xi. rewrite value_at. destruct (idx_spec xi) as [K1 _]. cbv zeta in *. set (k := searchsorted _ xi) in *. clearbody k.
    unfold line. pose proof (lt_at k (k + 1) ltac:(lia) K1). rewrite (H k), (H (k + 1)%nat) by lia. field. lra.
  Qed.
  (** interpolate refuses points outside the grid, and only these. *)
  Lemma fold_min : forall l a, let m := fold_left (fun a b => if Qle_bool a b then a else b) l a in m <= a /\ Forall (fun b => m <= b) l /\ (m = a \/ In m l).
  Proof.
    induction l as [|b l IH]; intros a; cbn [fold_left]; cbv zeta; [split; [lra|auto]|]. destruct (Qle_bool a b) eqn:E.
    - apply Qle_bool_iff in E. destruct (IH a) as [H1 [H2 H3]]. cbv zeta in *. split; auto. split; [constructor; auto; lra|]. destruct H3; auto. right. now right.
    - destruct (IH b) as [H1 [H2 H3]]. cbv zeta in *. assert (L : b <= a) by (destruct (Qlt_le_dec a b); auto; exfalso; apply Qlt_le_weak, Qle_bool_iff in q; congruence).
      split; [lra|]. split; [constructor; auto|]. right. destruct H3 as [H3|H3]; [left; auto|right; auto].
  Qed.
  Lemma fold_max : forall l a, let m := fold_left (fun a b => if Qle_bool b a then a else b) l a in a <= m /\ Forall (fun b => b <= m) l /\ (m = a \/ In m l).
  Proof.
    induction l as [|b l IH]; intros a; cbn [fold_left]; cbv zeta; [split; [lra|auto]|]. destruct (Qle_bool b a) eqn:E.
    - apply Qle_bool_iff in E. destruct (IH a) as [H1 [H2 H3]]. cbv zeta in *. split; auto. split; [constructor; auto; lra|]. destruct H3; auto. right. now right.
    - destruct (IH b) as [H1 [H2 H3]]. cbv zeta in *. assert (L : a <= b) by (destruct (Qlt_le_dec b a); auto; exfalso; apply Qlt_le_weak, Qle_bool_iff in q; congruence).
      split; [lra|]. split; [constructor; auto|]. right. destruct H3 as [H3|H3]; [left; auto|right; auto].
  Qed.
  Lemma min_spec : forall l, l <> [] -> In (list_min l) l /\ Forall (fun b => list_min l <= b) l.
  Proof. intros [|a l] N; [congruence|]. unfold list_min. destruct (fold_min (a :: l) a) as [_ [H2 H3]]. cbv zeta in *. cbn [nth]. split; auto. destruct H3 as [->|H3]; [now left|auto]. Qed.
  Lemma max_spec : forall l, l <> [] -> In (list_max l) l /\ Forall (fun b => b <= list_max l) l.
  Proof. intros [|a l] N; [congruence|]. unfold list_max. destruct (fold_max (a :: l) a) as [_ [H2 H3]]. cbv zeta in *. cbn [nth]. split; auto. destruct H3 as [->|H3]; [now left|auto]. Qed.
  Lemma asc_bounds : forall k, (k < length x)%nat -> x.[0] <= x.[k] <= x.[length x - 1].
  Proof.
    intros k K. split; [destruct (Nat.eq_dec k 0) as [->|N]; [lra|]; apply Qlt_le_weak, asc; lia|].
    destruct (Nat.eq_dec k (length x - 1)) as [->|N]; [lra|]; apply Qlt_le_weak, asc; lia.
  Qed.
  Theorem C24_refuses : forall xi, xi <> [] ->
    (interpolate x y xi = Err ValueError <-> exists q, In q xi /\ (q < x.[0] \/ x.[length x - 1] < q)) /\
    ((forall q, In q xi -> x.[0] <= q <= x.[length x - 1]) -> interpolate x y xi = Ok (map (linear_extrapolate x y) xi)).
  Proof.
    intros xi N. assert (Nx : x <> []) by (intros ->; cbn in two; lia).
    assert (MX : list_max x == x.[length x - 1]).
    { destruct (max_spec x Nx) as [I F]. rewrite Forall_forall in F. apply (In_nth _ _ 0) in I as [k [K E]]. pose proof (asc_bounds k K). rewrite E in H.
      assert (In x.[length x - 1] x) by (apply nth_In; lia). specialize (F _ H0). cbn in F. lra. }
    assert (MN : list_min x == x.[0]).
    { destruct (min_spec x Nx) as [I F]. rewrite Forall_forall in F. apply (In_nth _ _ 0) in I as [k [K E]]. pose proof (asc_bounds k K). rewrite E in H.
      assert (In x.[0] x) by (apply nth_In; lia). specialize (F _ H0). cbn in F. lra. }
    destruct (min_spec xi N) as [In1 F1]. destruct (max_spec xi N) as [In2 F2]. rewrite Forall_forall in F1, F2.
    assert (OUT : interpolate x y xi = Err ValueError \/ (interpolate x y xi = Ok (map (linear_extrapolate x y) xi) /\ forall q, In q xi -> x.[0] <= q <= x.[length x - 1])).
    { unfold interpolate. destruct (Qltb (list_min xi) (list_min x)) eqn:E1; auto. destruct (Qltb (list_max x) (list_max xi)) eqn:E2; auto. right. split; auto.
      apply Qltb_false in E1, E2. intros q I. specialize (F1 q I). specialize (F2 q I). cbn in *. lra. }
    split; [split|].
    - unfold interpolate. destruct (Qltb (list_min xi) (list_min x)) eqn:E1; [intros _; apply Qltb_iff in E1; exists (list_min xi); split; auto; left; lra|].
      destruct (Qltb (list_max x) (list_max xi)) eqn:E2; [intros _; apply Qltb_iff in E2; exists (list_max xi); split; auto; right; lra|discriminate].
    - intros [q [I H]]. destruct OUT as [|[_ B]]; auto. specialize (B q I). lra.
    - intros B. destruct OUT as [E|[E _]]; auto. exfalso. unfold interpolate in E. destruct (Qltb (list_min xi) (list_min x)) eqn:E1.
      + apply Qltb_iff in E1. specialize (B _ In1). lra.
      + destruct (Qltb (list_max x) (list_max xi)) eqn:E2; [|discriminate]. apply Qltb_iff in E2. specialize (B _ In2). lra.
  Qed.
End Grid.
Print Assumptions C24_segment.
Print Assumptions C24_outside.
Print Assumptions C24_grid.
Print Assumptions C24_between.
Print Assumptions C24_straight.
Print Assumptions C24_refuses.
Example C24_example : let x := [0; 1; 3; 4] in let y := [1; 2; 6; 0] in ascending x /\ (2 <= length x)%nat /\
  map (fun q => Qred (linear_extrapolate x y q)) [0; 2; 4; 5; -1] = [1; 4; 0; -6; 0] /\ interpolate x y [5] = Err ValueError.
Proof.
  cbv zeta. split; [|repeat split; vm_compute; auto]. intros i j H L. cbn in L. destruct j as [|[|[|[|j]]]]; try lia; destruct i as [|[|[|i]]]; try lia; vm_compute; reflexivity.
Qed.

(** ** Mode "none": picking grid points *)
Fixpoint sorted_lt (l : list Q) : Prop := match l with [] => True | a :: l' => Forall (fun b => a < b) l' /\ sorted_lt l' end.
Lemma Qin_iff : forall a l, Qin a l = true <-> exists b, In b l /\ a == b.
Proof. intros a l. unfold Qin. rewrite existsb_exists. split; intros [b [I E]]; exists b; split; auto; now apply Qeq_bool_iff. Qed.
Lemma Qin_false : forall a l, Qin a l = false <-> forall b, In b l -> ~ a == b.
Proof. intros a l. rewrite <- not_true_iff_false, Qin_iff. split; [intros H b I E; apply H; eauto|intros H [b [I E]]; eapply H; eauto]. Qed.
(** The new points, in ascending order, are picked with their rows; a point that
    is not in the grid is refused. *)
Theorem C24_none : forall {A} (oldx newx : list Q) (rows : list A), sorted_lt oldx -> sorted_lt newx -> length rows = length oldx ->
  (Forall (fun q => exists o, In o oldx /\ q == o) newx ->
     exists r, interpolate_none oldx newx rows = Ok r /\ length r = length newx /\
     forall j k d, (j < length newx)%nat -> (k < length oldx)%nat -> newx.[j] == oldx.[k] -> nth j r d = nth k rows d) /\
  (~ Forall (fun q => exists o, In o oldx /\ q == o) newx -> interpolate_none oldx newx rows = Err ValueError).
Proof.
  intros A oldx newx rows SO SN L.
  assert (CNT : forall old new, sorted_lt old -> sorted_lt new -> (length (filter (fun b => b) (map (fun o => Qin o new) old)) <= length new)%nat /\
    ((length (filter (fun b : bool => b) (map (fun o => Qin o new) old)) = length new)%nat -> Forall (fun q => exists o, In o old /\ q == o) new)).
  { clear. induction old as [|o old IH]; intros new SO SN; cbn [map filter].
    - split; [cbn; lia|]. cbn. destruct new; [auto|discriminate].
    - destruct SO as [FO SO]. 
      assert (DROP : forall n new', new = n :: new' -> n < o \/ n == o -> map (fun o => Qin o new) old = map (fun o => Qin o new') old).
      { intros n new' -> H. apply map_ext_in. intros a I. rewrite Forall_forall in FO. specialize (FO a I). cbn. destruct (Qeq_bool a n) eqn:E; auto. apply Qeq_bool_iff in E. lra. }
      assert (G : forall new, sorted_lt new -> (length (filter (fun b : bool => b) (map (fun o => Qin o new) (o :: old))) <= length new)%nat /\
        (length (filter (fun b : bool => b) (map (fun o => Qin o new) (o :: old))) = length new -> Forall (fun q => exists o', In o' (o :: old) /\ q == o') new)%nat).
      { clear new SN DROP. induction new as [|n new IHn]; intros SN.
        - cbn [map Qin existsb filter]. destruct (IH [] SO I) as [H1 H2]. split; auto.
        - destruct SN as [FN SN]. assert (DR : n < o \/ n == o -> map (fun o => Qin o (n :: new)) old = map (fun o => Qin o new) old).
          { intros H. apply map_ext_in. intros a I. rewrite Forall_forall in FO. specialize (FO a I). unfold Qin. cbn. destruct (Qeq_bool a n) eqn:E; auto. apply Qeq_bool_iff in E. lra. }
          destruct (Q_dec n o) as [[H|H]|H].
          + (* n is not in the grid *)
            cbn [map filter]. rewrite DR by auto. replace (Qin o (n :: new)) with (Qin o new) by (unfold Qin; cbn; destruct (Qeq_bool o n) eqn:E; auto; apply Qeq_bool_iff in E; lra).
            destruct (IHn SN) as [H1 _]. cbn [map filter] in H1. cbn [length]. split; [lia|]. intros C. exfalso. lia.
          + (* o is not wanted *)
            cbn [map filter]. assert (Z : Qin o (n :: new) = false).
            { apply Qin_false. rewrite Forall_forall in FN. intros b [<-|I] E; [lra|]. specialize (FN b I). lra. }
            rewrite Z. destruct (IH (n :: new) SO (conj FN SN)) as [H1 H2]. split; auto. intros C. specialize (H2 C). eapply Forall_impl; [|exact H2]. intros q [o' [I E]]. exists o'. split; auto. now right.
          + cbn [map filter]. assert (Z : Qin o (n :: new) = true) by (apply Qin_iff; exists n; split; [now left|lra]). rewrite Z, DR by (right; lra). cbn [length].
            destruct (IH new SO SN) as [H1 H2]. split; [lia|]. intros C. constructor; [exists o; split; [now left|auto]|].
            eapply Forall_impl; [|apply H2; lia]. intros q [o' [I E]]. exists o'. split; auto. now right. }
      exact (G new SN). }
  assert (FULL : forall old new (rs : list A), sorted_lt old -> sorted_lt new -> length rs = length old -> Forall (fun q => exists o, In o old /\ q == o) new ->
    length (filter (fun b => b) (map (fun o => Qin o new) old)) = length new /\ length (compress (map (fun o => Qin o new) old) rs) = length new /\
    forall j k d, (j < length new)%nat -> (k < length old)%nat -> new.[j] == old.[k] -> nth j (compress (map (fun o => Qin o new) old) rs) d = nth k rs d).
  { clear. induction old as [|o old IH]; intros new rs SO SN L F.
    - destruct new as [|n new]; [|inversion F as [|? ? [o [[] _]] _]]. split; auto. split; auto. intros. cbn in *. lia.
    - destruct SO as [FO SO]. destruct rs as [|r rs]; [discriminate|]. cbn in L. destruct new as [|n new].
      + assert (Z : map (fun o => Qin o []) (o :: old) = map (fun _ => false) (o :: old)) by reflexivity. rewrite Z.
        assert (E1 : forall l, filter (fun b : bool => b) (map (fun _ : Q => false) l) = []) by (induction l; auto).
        assert (E2 : forall l (m : list A), compress (map (fun _ : Q => false) l) m = []) by (induction l as [|? l IHl]; intros [|? m]; cbn; auto).
        rewrite E1, E2. split; auto. split; auto. intros. cbn in *. lia.
      + destruct SN as [FN SN]. rewrite Forall_forall in FO, FN. inversion F as [|? ? [o' [Io' Eo']] F']; subst.
        destruct (Qeq_dec n o) as [E|NE].
        * assert (DR : map (fun o => Qin o (n :: new)) old = map (fun o => Qin o new) old).
          { apply map_ext_in. intros a I. specialize (FO a I). unfold Qin. cbn. destruct (Qeq_bool a n) eqn:Q; auto. apply Qeq_bool_iff in Q. lra. }
          cbn [map]. assert (Z : Qin o (n :: new) = true) by (apply Qin_iff; exists n; split; [now left|lra]). rewrite Z, DR. cbn [filter compress length].
          destruct (IH new rs SO SN ltac:(lia)) as [H1 [H2 H3]].
          { rewrite Forall_forall in *. intros q I. destruct (F' q I) as [o2 [[<-|I2] E2]]; [|eauto]. specialize (FN q I). lra. }
          split; [lia|]. split; [lia|]. intros j k d J K EQ. destruct j as [|j], k as [|k]; cbn [nth] in *; auto.
          -- exfalso. assert (In old.[k] old) by (apply nth_In; lia). specialize (FO _ H). lra.
          -- exfalso. assert (In new.[j] new) by (apply nth_In; lia). specialize (FN _ H). lra.
          -- apply H3; auto; lia.
        * destruct Io' as [<-|Io']; [contradiction|]. pose proof (FO o' Io') as LT.
          cbn [map]. assert (Z : Qin o (n :: new) = false) by (apply Qin_false; intros b [<-|I] C; [lra|]; specialize (FN b I); lra). rewrite Z. cbn [filter compress].
          assert (SNN : sorted_lt (n :: new)) by (split; auto; now apply Forall_forall). destruct (IH (n :: new) rs SO SNN ltac:(lia)) as [H1 [H2 H3]].
          { constructor; [eauto|]. rewrite Forall_forall in *. intros q I. destruct (F' q I) as [o2 [[<-|I2] E2]]; [|eauto]. specialize (FN q I). lra. }
          split; auto. split; auto. intros j k d J K EQ. destruct k as [|k].
          -- exfalso. cbn in EQ. destruct j as [|j]; cbn in EQ, J; [lra|]. assert (In new.[j] new) by (apply nth_In; lia). specialize (FN _ H). lra.
          -- cbn [nth] in *. apply H3; auto. cbn in K. lia. }
  unfold interpolate_none. rewrite map_length, L, Nat.eqb_refl. cbn [negb]. split; intros F.
  - destruct (FULL oldx newx rows SO SN L F) as [H1 [H2 H3]]. rewrite H1, Nat.eqb_refl. cbn [negb]. eauto.
  - destruct (length _ =? length newx)%nat eqn:E; [|reflexivity]. apply Nat.eqb_eq in E. exfalso. apply F. now apply CNT.
Qed.
Print Assumptions C24_none.
Example C24_none_example : sorted_lt [1; 2; 3; 5] /\ sorted_lt [2; 5] /\ interpolate_none [1; 2; 3; 5] [2; 5] [10; 20; 30; 50]%nat = Ok [20; 50]%nat /\
  interpolate_none [1; 2; 3; 5] [2; 4] [10; 20; 30; 50]%nat = Err ValueError.
Proof. cbn. repeat split; repeat constructor. Qed.
(** In another order the rows keep the old order and get the wrong labels. *)
Theorem C24_none_order_refuted : exists oldx newx (rows r : list nat), interpolate_none oldx newx rows = Ok r /\
  newx.[0] == oldx.[2] /\ nth 0 r 0%nat <> nth 2 rows 0%nat.
Proof. exists [1; 2; 3], [3; 1], [10; 20; 30]%nat, [10; 30]%nat. repeat split. discriminate. Qed.
Print Assumptions C24_none_order_refuted.
