(** Properties of smoothing and interpolation: C36, C24. *)
From Coq Require Import List Arith ZArith QArith Bool Lia Lqa.
From Verif Require Import Model_NdArray Model_Math.
Import ListNotations.
Local Open Scope nat_scope.
Local Open Scope list_scope.

(** ** Slices and sums *)
Lemma slice_snoc : forall {A} s t (l : list A) d, s <= t -> t < length l -> slice s (S t) l = slice s t l ++ [nth t l d].
Proof.
  intros A s t l d Hs Ht. unfold slice. replace (S t - s) with (S (t - s)) by lia.
  assert (G : forall k (m : list A), k < length m -> firstn (S k) m = firstn k m ++ [nth k m d]).
  { induction k as [|k IH]; intros [|x m] L; cbn in L; try lia; [reflexivity|]. change (firstn (S (S k)) (x :: m)) with (x :: firstn (S k) m). rewrite IH by lia. reflexivity. }
  rewrite G by (rewrite skipn_length; lia). f_equal. f_equal.
  rewrite <- (firstn_skipn s l) at 2. rewrite app_nth2; rewrite firstn_length, Nat.min_l by lia; auto.
Qed.
Lemma slice_nil : forall {A} s (l : list A), slice s s l = [].
Proof. intros. unfold slice. now rewrite Nat.sub_diag. Qed.
Lemma slice_length : forall {A} s t (l : list A), s <= t <= length l -> length (slice s t l) = t - s.
Proof. intros A s t l H. unfold slice. rewrite firstn_length, skipn_length. lia. Qed.
Lemma slice_nth : forall {A} s t (l : list A) d j, s <= t <= length l -> j < t - s -> nth j (slice s t l) d = nth (s + j) l d.
Proof.
  intros A s t l d j H J. unfold slice. assert (G : forall k (m : list A) j, j < k -> nth j (firstn k m) d = nth j m d).
  { induction k as [|k IH]; intros [|x m] j' L; try lia; [destruct j'; reflexivity|]. destruct j' as [|j']; [reflexivity|]. cbn. apply IH. lia. }
  rewrite G by lia. rewrite <- (firstn_skipn s l) at 2. rewrite app_nth2; rewrite firstn_length, Nat.min_l by lia; [f_equal; lia|lia].
Qed.
Lemma slice_in : forall {A} s t (l : list A) x, In x (slice s t l) -> In x l.
Proof.
  intros A s t l x I. unfold slice in I. rewrite <- (firstn_skipn s l). apply in_app_iff. right.
  rewrite <- (firstn_skipn (t - s) (skipn s l)). apply in_app_iff. auto.
Qed.
Lemma sumQ_app : forall a b, (sumQ (a ++ b) == sumQ a + sumQ b)%Q.
Proof. induction a as [|x a IH]; intros b; cbn [app sumQ]; [ring|]. rewrite IH. ring. Qed.
Definition nQ (n : nat) : Q := inject_Z (Z.of_nat n).
Lemma nQ_S : forall n, (nQ (S n) == nQ n + 1)%Q.
Proof. intros n. unfold nQ. rewrite Nat2Z.inj_succ, <- Z.add_1_r, inject_Z_plus. reflexivity. Qed.
Lemma nQ_plus : forall m n, (nQ (m + n) == nQ m + nQ n)%Q.
Proof. intros m n. unfold nQ. rewrite Nat2Z.inj_add, inject_Z_plus. reflexivity. Qed.
Lemma nQ_nonneg : forall n, (0 <= nQ n)%Q.
Proof. intros n. unfold nQ. change 0%Q with (inject_Z 0). rewrite <- Zle_Qle. lia. Qed.
Lemma nQ_pos : forall n, 0 < n -> (0 < nQ n)%Q.
Proof. intros n H. unfold nQ. change 0%Q with (inject_Z 0). rewrite <- Zlt_Qlt. lia. Qed.

(** ** smooth *)
Section Smooth.
  (** Every sample becomes the mean of a contiguous window of the data around it. *)
  Theorem C36_smooth_window : forall data aperture i, i < length data -> exists s t,
    s <= i < t /\ t <= length data /\ (nth i (smooth data aperture) 0 == mean (slice s t data))%Q /\
    (* it has as many samples as asked for, if it fits *)
    (1 <= aperture -> aperture / 2 <= i -> i + aperture / 2 < length data -> t - s = aperture) /\
    t - s <= Nat.max 1 aperture /\ (t - s < aperture -> s = 0 \/ length data - 1 <= t) /\
    (* and is symmetric for odd numbers of samples *)
    (aperture mod 2 = 1 -> i - s = t - 1 - i).
  Proof.
    intros data a i L. unfold smooth. rewrite (nth_indep _ 0%Q (smooth_at data a 0)) by (rewrite map_length, seq_length; auto).
    rewrite map_nth, seq_nth by auto. cbn [plus]. unfold smooth_at. pose proof (Nat.div_mod a 2 ltac:(lia)) as DM. pose proof (Nat.mod_upper_bound a 2 ltac:(lia)) as MB.
    set (w := smooth_wid (length data) a i). assert (W : w = Nat.min (Nat.min i (a / 2)) (length data - 1 - i)) by reflexivity.
    assert (O : odd a = a mod 2) by (unfold odd; destruct (Nat.eqb_spec (a mod 2) 0); lia).
    destruct (Nat.eqb_spec w 0) as [Z|Z].
    - exists i, (S i). split; [lia|]. split; [lia|]. split.
      + rewrite (slice_snoc i i data 0%Q) by lia. rewrite slice_nil. unfold mean. cbn. field.
      + repeat split; try lia. 
    - exists (i - w), (i + w + odd a). split; [lia|]. split; [lia|]. split; [reflexivity|]. rewrite O. repeat split; try lia.
  Qed.
  Lemma sumQ_bounds : forall lo hi l, Forall (fun x => lo <= x <= hi)%Q l -> (nQ (length l) * lo <= sumQ l <= nQ (length l) * hi)%Q.
  Proof.
    intros lo hi l F. induction F as [|x l [H1 H2] F [I1 I2]]; [change (nQ (length (@nil Q))) with 0%Q; cbn [sumQ]; lra|].
    pose proof (nQ_S (length l)) as HS. change (length (x :: l)) with (S (length l)). change (sumQ (x :: l)) with (x + sumQ l)%Q. split; rewrite HS; lra.
  Qed.
  Lemma mean_bounds : forall lo hi l, l <> [] -> Forall (fun x => lo <= x <= hi)%Q l -> (lo <= mean l <= hi)%Q.
  Proof.
    intros lo hi l N F. pose proof (sumQ_bounds lo hi l F) as [H1 H2]. unfold mean. fold (nQ (length l)).
    assert (P : (0 < nQ (length l))%Q) by (apply nQ_pos; destruct l; [congruence|cbn; lia]).
    split; [apply Qle_shift_div_l; auto; lra|apply Qle_shift_div_r; auto; lra].
  Qed.
  (** Smoothing never leaves the range of the data; in particular constants stay. *)
  Theorem C36_smooth_bounds : forall data aperture lo hi, Forall (fun x => lo <= x <= hi)%Q data ->
    length (smooth data aperture) = length data /\ Forall (fun x => lo <= x <= hi)%Q (smooth data aperture).
  Proof.
    intros data a lo hi F. assert (LS : length (smooth data a) = length data) by (unfold smooth; now rewrite map_length, seq_length). split; auto.
    apply Forall_forall. intros x I. apply (In_nth _ _ 0%Q) in I as [i [L E]]. rewrite LS in L.
    destruct (C36_smooth_window data a i L) as [s [t [H1 [H2 [H3 _]]]]]. rewrite E in H3. rewrite !H3. apply mean_bounds.
    - intros C. apply (f_equal (@length _)) in C. rewrite slice_length in C by lia. cbn in C. lia.
    - rewrite Forall_forall in *. intros y Iy. apply F. eapply slice_in; eauto.
  Qed.
  (** Odd apertures keep straight lines. *)
  Definition straight (data : list Q) (a b : Q) : Prop := forall j, j < length data -> (nth j data 0 == a + b * nQ j)%Q.
  Lemma straight_sum : forall data a b s k, straight data a b -> s + k <= length data ->
    (2 * sumQ (slice s (s + k) data) == nQ k * (2 * a + b * (2 * nQ s + nQ k - 1)))%Q.
  Proof.
    intros data a b s k ST. induction k as [|k IH]; intros L.
    - rewrite Nat.add_0_r, slice_nil. cbn. unfold nQ. cbn. ring.
    - replace (s + S k) with (S (s + k)) by lia. rewrite (slice_snoc s (s + k) data 0%Q) by lia. rewrite sumQ_app. cbn [sumQ].
      rewrite (ST (s + k)) by lia. rewrite nQ_plus, nQ_S. specialize (IH ltac:(lia)).
      setoid_replace (2 * (sumQ (slice s (s + k) data) + (a + b * (nQ s + nQ k) + 0)))%Q with (2 * sumQ (slice s (s + k) data) + 2 * (a + b * (nQ s + nQ k)))%Q by ring.
      rewrite IH. ring.
  Qed.
  Theorem C36_smooth_straight : forall data aperture a b, aperture mod 2 = 1 -> straight data a b ->
    forall i, i < length data -> (nth i (smooth data aperture) 0 == nth i data 0)%Q.
  Proof.
    intros data ap a b O ST i L. destruct (C36_smooth_window data ap i L) as [s [t [H1 [H2 [H3 [_ [_ [_ H4]]]]]]]]. specialize (H4 O). rewrite H3, (ST i L).
    pose proof (straight_sum data a b s (t - s) ST ltac:(lia)) as SU. replace (s + (t - s)) with t in SU by lia.
    unfold mean. rewrite slice_length by lia. fold (nQ (t - s)). assert (P : (0 < nQ (t - s))%Q) by (apply nQ_pos; lia).
    assert (E : (nQ i * 2 == 2 * nQ s + nQ (t - s) - 1)%Q).
    { replace (t - s) with (S ((i - s) + (i - s))) by lia. rewrite nQ_S, nQ_plus. replace i with (s + (i - s)) at 1 by lia. rewrite nQ_plus. ring. }
    rewrite <- E in SU. apply (Qmult_inj_r _ _ (2 * nQ (t - s))); [lra|]. setoid_replace (sumQ (slice s t data) / nQ (t - s) * (2 * nQ (t - s)))%Q with (2 * sumQ (slice s t data))%Q by (field; lra).
    rewrite SU. ring.
  Qed.
End Smooth.
Print Assumptions C36_smooth_window.
Print Assumptions C36_smooth_bounds.
Print Assumptions C36_smooth_straight.
(** Even apertures move them. *)
Theorem C36_smooth_even_refuted : exists data aperture a b i, straight data a b /\ i < length data /\ ~ (nth i (smooth data aperture) 0 == nth i data 0)%Q.
Proof.
  exists [0; 1; 2; 3; 4]%Q, 2, 0%Q, 1%Q, 2. split; [|split; [cbn; lia|vm_compute; discriminate]].
  intros j L. cbn in L. do 5 (destruct j as [|j]; [vm_compute; reflexivity|]). lia.
Qed.
Print Assumptions C36_smooth_even_refuted.
Example C36_smooth_example : map Qred (smooth [0; 6; 3; 9; 0; 3]%Q 3) = [0; 3; 6; 4; 4; 3]%Q.
Proof. reflexivity. Qed.

(** ** poly_smooth *)
(** The window of every sample, for every aperture: the assertion never fails. *)
Theorem C36_poly_window : forall n aperture i, i < n ->
  let s := poly_start n aperture i in let t := poly_stop n aperture i in
  t = s + aperture /\
  (aperture < n -> t <= n - 1 /\ (1 <= aperture -> i < n - 1 -> s <= i < t)) /\
  (n <= aperture -> s = 0 /\ n <= t).
Proof.
  intros n a i L. unfold poly_start, poly_stop. pose proof (Nat.div_mod a 2 ltac:(lia)) as DM. pose proof (Nat.mod_upper_bound a 2 ltac:(lia)) as MB.
  assert (O : odd a = a mod 2) by (unfold odd; destruct (Nat.eqb_spec (a mod 2) 0); lia). rewrite O. cbv zeta. repeat split; lia.
Qed.
Print Assumptions C36_poly_window.
Section PolyFit.
  Local Open Scope Q_scope.
  Fixpoint sse (p : list Q) (xs ys : list Q) : Q :=
    match xs, ys with x :: xs', y :: ys' => (polyval p x - y) * (polyval p x - y) + sse p xs' ys' | _, _ => 0 end.
  (** A least squares polynomial of degree N. *)
  Definition least_squares (xs ys : list Q) (N : nat) (p : list Q) : Prop :=
    length p = S N /\ forall q, length q = S N -> sse p xs ys <= sse q xs ys.
  (** *** Polynomials with more roots than their degree vanish *)
  Fixpoint ev (p : list Q) (x : Q) : Q := match p with [] => 0 | c :: p' => c + x * ev p' x end.
  Lemma polyval_ev : forall p x, polyval p x == ev (rev p) x.
  Proof.
    intros p x. unfold polyval. induction p as [|c p IH] using rev_ind; [reflexivity|]. rewrite fold_left_app, rev_app_distr. cbn [fold_left rev app ev]. rewrite IH. ring.
  Qed.
  Fixpoint addl (p q : list Q) : list Q := match p, q with [], _ => q | _, [] => p | a :: p', b :: q' => (a + b) :: addl p' q' end.
  Lemma ev_addl : forall p q x, ev (addl p q) x == ev p x + ev q x.
  Proof. induction p as [|a p IH]; intros [|b q] x; cbn [addl ev]; try ring. rewrite IH. ring. Qed.
  Lemma ev_scale : forall r p x, ev (map (Qmult r) p) x == r * ev p x.
  Proof. intros r p x. induction p as [|a p IH]; cbn [map ev]; [ring|]. rewrite IH. ring. Qed.
  Fixpoint quot (p : list Q) (r : Q) : list Q := match p with [] => [] | _ :: p' => addl p' (map (Qmult r) (quot p' r)) end.
  Lemma ev_quot : forall p r x, ev p x - ev p r == (x - r) * ev (quot p r) x.
  Proof.
    intros p r x. induction p as [|c p IH]; cbn [quot ev]; [ring|]. rewrite ev_addl, ev_scale.
    setoid_replace (c + x * ev p x - (c + r * ev p r)) with ((x - r) * ev p x + r * (ev p x - ev p r)) by ring. rewrite IH. ring.
  Qed.
  Lemma addl_length : forall p q, length (addl p q) = Nat.max (length p) (length q).
  Proof. induction p as [|a p IH]; intros [|b q]; cbn; auto. Qed.
  Lemma quot_length : forall p r, length (quot p r) = pred (length p).
  Proof. intros p r. induction p as [|c p IH]; cbn [quot length pred]; auto. rewrite addl_length, map_length, IH. lia. Qed.
  Fixpoint distinct (l : list Q) : Prop := match l with [] => True | x :: l' => Forall (fun y => ~ x == y) l' /\ distinct l' end.
  Lemma roots_vanish : forall rs p, (length p <= length rs)%nat -> distinct rs -> Forall (fun r => ev p r == 0) rs -> forall x, ev p x == 0.
  Proof.
    induction rs as [|r rs IH]; intros p L D F x; [destruct p; [reflexivity|cbn in L; lia]|]. destruct D as [Dr D]. inversion F as [|? ? Fr F']; subst.
    assert (Q : forall y, ev p y == (y - r) * ev (quot p r) y) by (intros y; rewrite <- ev_quot, Fr; ring).
    rewrite Q. rewrite IH; [ring| |auto|].
    - rewrite quot_length. cbn in L. lia.
    - rewrite Forall_forall in *. intros y I. specialize (F' y I). specialize (Dr y I). rewrite Q in F'. apply Qmult_integral in F' as [C|]; auto. exfalso. apply Dr. lra.
  Qed.
  Lemma sq_nonneg : forall e, 0 <= e * e.
  Proof. intros e. nra. Qed.
  Lemma sse_nonneg : forall p xs ys, 0 <= sse p xs ys.
  Proof. intros p xs. induction xs as [|x xs IH]; intros [|y ys]; cbn [sse]; try lra. specialize (IH ys). pose proof (sq_nonneg (polyval p x - y)). lra. Qed.
  Lemma sse_zero : forall p xs ys, length xs = length ys -> sse p xs ys <= 0 -> forall j, (j < length xs)%nat -> polyval p (nth j xs 0) == nth j ys 0.
  Proof.
    intros p xs. induction xs as [|x xs IH]; intros [|y ys] L H j J; cbn in L, J; try lia. cbn [sse] in H. pose proof (sse_nonneg p xs ys) as P.
    set (e := polyval p x - y) in *. pose proof (sq_nonneg e) as S. destruct j as [|j]; cbn [nth].
    - assert (Z : e * e == 0) by lra. apply Qmult_integral in Z. assert (e == 0) by tauto. unfold e in H0. lra.
    - apply IH; lia || lra.
  Qed.
  Lemma sse_exact : forall q xs ys, length xs = length ys -> (forall j, (j < length xs)%nat -> nth j ys 0 == polyval q (nth j xs 0)) -> sse q xs ys == 0.
  Proof.
    intros q xs. induction xs as [|x xs IH]; intros [|y ys] L H; cbn in L; try lia; cbn [sse]; [reflexivity|].
    rewrite IH; [|lia|intros j J; apply (H (S j)); cbn; lia]. specialize (H 0%nat ltac:(cbn; lia)). cbn in H. rewrite H. ring.
  Qed.
  (** A least squares polynomial through enough points of a polynomial is it. *)
  Lemma fit_unique : forall xs ys N p q, length xs = length ys -> (N < length xs)%nat -> distinct xs -> least_squares xs ys N p ->
    length q = S N -> (forall j, (j < length xs)%nat -> nth j ys 0 == polyval q (nth j xs 0)) -> forall x, polyval p x == polyval q x.
  Proof.
    intros xs ys N p q L LN D [Lp M] Lq E x. specialize (M q Lq). rewrite (sse_exact q xs ys L E) in M. pose proof (sse_zero p xs ys L M) as Z.
    assert (V : forall y, ev (addl (rev p) (map (Qmult (-1)) (rev q))) y == 0).
    { apply (roots_vanish xs); auto.
      - rewrite addl_length, map_length, !rev_length. lia.
      - apply Forall_forall. intros r I. apply (In_nth _ _ 0) in I as [j [J <-]]. rewrite ev_addl, ev_scale, <- !polyval_ev, (Z j J), (E j J). ring. }
    specialize (V x). rewrite ev_addl, ev_scale, <- !polyval_ev in V. lra.
  Qed.
  Variable polyfit : list Q -> list Q -> nat -> result (list Q).
  Lemma distinct_app : forall l m, distinct (l ++ m) -> distinct l /\ distinct m.
  Proof. induction l as [|x l IH]; intros m D; [cbn; auto|]. cbn [app distinct] in *. destruct D as [F D]. apply Forall_app in F as [F _]. destruct (IH m D). auto. Qed.
  Lemma distinct_slice : forall s t l, distinct l -> distinct (slice s t l).
  Proof.
    intros s t l D. unfold slice. rewrite <- (firstn_skipn s l) in D. apply distinct_app in D as [_ D]. rewrite <- (firstn_skipn (t - s) (skipn s l)) in D. now apply distinct_app in D.
  Qed.
  (** Polynomials up to the degree of the fit are reproduced, if the fit is a
      least squares fit on the windows and these have enough samples. *)
  Theorem C36_poly_reproduces : forall x y aperture N q, length x = length y -> distinct x -> (N < aperture)%nat -> (N < length x)%nat ->
    (forall i, (i < length x)%nat -> let s := poly_start (length x) aperture i in let t := poly_stop (length x) aperture i in
       exists p, polyfit (slice s t x) (slice s t y) N = Ok p /\ least_squares (slice s t x) (slice s t y) N p) ->
    length q = S N -> (forall j, (j < length x)%nat -> nth j y 0 == polyval q (nth j x 0)) ->
    exists r, poly_smooth polyfit x y aperture N = Ok r /\ Forall2 Qeq r y.
  Proof.
    intros x y a N q L D Na Nn FIT Lq E. unfold poly_smooth.
    assert (AT : forall i, (i < length x)%nat -> exists v, poly_smooth_at polyfit x y a N i = Ok v /\ v == nth i y 0).
    { intros i I. unfold poly_smooth_at. destruct (C36_poly_window (length x) a i I) as [W1 [W2 W3]]. cbv zeta in W1, W2, W3.
      destruct (FIT i I) as [p [F LS]]. set (s := poly_start (length x) a i) in *. set (t := poly_stop (length x) a i) in *.
      rewrite (proj2 (Nat.eqb_eq t (s + a)) W1), F. cbn [bind]. exists (polyval p (nth i x 0)). split; auto. rewrite (E i I).
      assert (WL : (length (slice s t x) = Nat.min a (length x) /\ length (slice s t y) = length (slice s t x))%nat).
      { unfold slice. rewrite !firstn_length, !skipn_length, <- L. destruct (Nat.lt_ge_cases a (length x)) as [H|H]; [destruct (W2 H)|destruct (W3 H)]; lia. }
      apply (fit_unique (slice s t x) (slice s t y) N p q); auto; try lia.
      - now apply distinct_slice.
      - intros j J. assert (SL : (s + j < length x)%nat) by (unfold slice in J; rewrite firstn_length, skipn_length in J; lia).
        assert (JT : (j < t - s)%nat) by (unfold slice in J; rewrite firstn_length in J; lia).
        assert (NS : forall l : list Q, length l = length x -> nth j (slice s t l) 0 = nth (s + j) l 0).
        { intros l Ll. unfold slice. clear -JT SL Ll. 
          assert (G : forall k (m : list Q) i, (i < k)%nat -> nth i (firstn k m) 0 = nth i m 0).
          { induction k as [|k IH]; intros [|z m] i' Li; try lia; [destruct i'; reflexivity|]. destruct i' as [|i']; [reflexivity|]. cbn. apply IH. lia. }
          rewrite G by auto. rewrite <- (firstn_skipn s l) at 2. rewrite app_nth2; rewrite firstn_length, Nat.min_l by lia; [f_equal; lia|lia]. }
        rewrite (NS y), (NS x) by auto. now apply E. }
    assert (LP : forall k s0, (s0 + k <= length x)%nat -> exists r, poly_loop polyfit x y a N (seq s0 k) = Ok r /\ Forall2 Qeq r (firstn k (skipn s0 y))).
    { induction k as [|k IH]; intros s0 B; cbn [seq poly_loop]; [exists []; split; auto; constructor|].
      destruct (AT s0) as [v [Hv Ev]]; [lia|]. destruct (IH (S s0)) as [r [Hr Er]]; [lia|]. rewrite Hv, Hr. cbn [bind]. exists (v :: r). split; auto.
      assert (S : skipn s0 y = nth s0 y 0 :: skipn (S s0) y).
      { assert (B' : (s0 < length y)%nat) by lia. clear -B'. revert y B'. induction s0 as [|s0 IH]; intros [|z y] B'; cbn in B'; try lia; [reflexivity|]. cbn [skipn nth]. apply IH. lia. }
      rewrite S. cbn [firstn]. constructor; auto. }
    destruct (LP (length x) 0%nat) as [r [Hr Er]]; [lia|]. exists r. split; auto. rewrite L in Er. cbn [skipn] in Er. now rewrite firstn_all in Er.
  Qed.
  (** The last sample is never used, unless the window is all data. *)
  Theorem C36_poly_last_ignored : forall x y y0 y1 aperture N, (aperture < length x)%nat -> length x = S (length y) ->
    poly_smooth polyfit x (y ++ [y0]) aperture N = poly_smooth polyfit x (y ++ [y1]) aperture N.
  Proof.
    intros x y y0 y1 a N A L. unfold poly_smooth. assert (G : forall is, Forall (fun i => (i < length x)%nat) is -> poly_loop polyfit x (y ++ [y0]) a N is = poly_loop polyfit x (y ++ [y1]) a N is).
    { induction is as [|i is IH]; intros F; [reflexivity|]. inversion F as [|? ? Fi F']; subst. cbn [poly_loop]. rewrite (IH F'). f_equal.
      unfold poly_smooth_at. destruct (C36_poly_window (length x) a i Fi) as [W1 [W2 _]]. cbv zeta in W1, W2. destruct (W2 A) as [W _].
      set (s := poly_start (length x) a i) in *. set (t := poly_stop (length x) a i) in *. destruct (t =? s + a)%nat; auto.
      assert (SE : forall z, slice s t (y ++ [z]) = slice s t y).
      { intros z. unfold slice. rewrite skipn_app. assert (Hs : (s <= length y)%nat) by lia. replace (s - length y)%nat with 0%nat by lia. cbn [skipn]. rewrite firstn_app, skipn_length.
        replace (t - s - (length y - s))%nat with 0%nat by lia. cbn [firstn]. now rewrite app_nil_r. }
      now rewrite !SE. }
    apply G. apply Forall_forall. intros i I. apply in_seq in I. lia.
  Qed.
End PolyFit.
Print Assumptions C36_poly_reproduces.
Print Assumptions C36_poly_last_ignored.
(** The sample need not be in its own window: the last one never is. *)
Theorem C36_poly_contains_refuted : exists n aperture i, i < n /\ aperture < n /\ ~ (poly_start n aperture i <= i < poly_stop n aperture i).
Proof. exists 6, 3, 5. split; [lia|]. split; [lia|]. vm_compute. lia. Qed.
Print Assumptions C36_poly_contains_refuted.
Example C36_poly_example : let x := [0; 1; 2; 3; 4]%Q in let y := [1; 3; 5; 7; 9]%Q in let fit := fun _ _ _ => Ok [2; 1]%Q in
  distinct x /\ (forall i, i < 5 -> exists p, fit (slice (poly_start 5 3 i) (poly_stop 5 3 i) x) (slice (poly_start 5 3 i) (poly_stop 5 3 i) y) 1 = Ok p /\
     least_squares (slice (poly_start 5 3 i) (poly_stop 5 3 i) x) (slice (poly_start 5 3 i) (poly_stop 5 3 i) y) 1 p) /\
  exists r, poly_smooth fit x y 3 1 = Ok r /\ map Qred r = y.
Proof.
  cbv zeta. split; [cbn; repeat split; repeat constructor; discriminate|]. split.
  - intros i I. exists [2; 1]%Q. split; auto. split; auto. intros q _. do 5 (destruct i as [|i]; [eapply Qle_trans; [|apply sse_nonneg]; vm_compute; discriminate|]). lia.
  - eexists. split; reflexivity.
Qed.
