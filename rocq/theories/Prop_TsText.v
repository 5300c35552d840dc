(** C25: Touchstone files as text, written and read again. *)
From Coq Require Import Ascii String List Arith ZArith Bool Lia.
From Verif Require Import Model_NdArray Model_Text Model_Words Model_Touchstone Model_TsText Spec_Touchstone Spec_TsText
  Proofs_Text Proofs_Words Proofs_Touchstone Proofs_TsText Prop_Touchstone.
Import ListNotations.
Local Open Scope string_scope.
Local Open Scope nat_scope.
Local Open Scope list_scope.

(** The complex number two numbers stand for. *)
Definition value {R C} (A : tsops R C) (fm : fmt3) : R -> R -> C := match fm with RI => ts_ri A | DB => ts_db A | MA => ts_ma A end.
(** The reference resistance, 1 if none is given. *)
Definition resistance {R C} (A : tsops R C) (z0 : option (list ascii)) (z : R) : Prop :=
  match z0 with None => z = ts_one A | Some t => ts_float A t = Ok z end.

Lemma mats_ok : forall {R C} (A : tsops R C) fm n (o : list (list R)), 1 <= n -> Forall (fun r => length r = 2 * n ^ 2 + 1) o ->
  let ms := map (fun r => to_matrix (pair_up (fmt_fun A fm) (tl r))) o in
  length ms = length o /\ (forall m, In m ms -> length m = n /\ forall r, In r m -> length r = n) /\
  forall p i j r x y, nth_error o p = Some r -> i < n -> j < n ->
    nth_error r (1 + 2 * place n i j) = Some x -> nth_error r (2 + 2 * place n i j) = Some y ->
    cell ms p i j = Some (value A fm x y).
Proof.
  intros R C A fm n o Hn HF ms. assert (Q : forall r, In r o -> length (pair_up (fmt_fun A fm) (tl r)) = n * n).
  { intros r Hr. rewrite Forall_forall in HF. specialize (HF r Hr). apply pair_up_length. destruct r; cbn [length tl] in *; cbn [Nat.pow] in HF; lia. }
  split; [apply map_length|]. split.
  - intros m Hm. apply in_map_iff in Hm as [r [<- Hr]]. destruct (to_matrix_ok n _ Hn (Q r Hr)) as [H1 [H2 _]]. auto.
  - intros p i j r x y Hp Hi Hj Hx Hy. unfold cell, ms. rewrite nth_error_map, Hp. cbn [option_map].
    assert (Hr : In r o) by (eapply nth_error_In; eauto). destruct (to_matrix_ok n _ Hn (Q r Hr)) as [_ [_ H3]]. rewrite H3 by auto.
    destruct r as [|f r]; [destruct (1 + 2 * place n i j); discriminate|]. cbn [tl]. destruct fm; apply pair_up_nth; auto.
Qed.

(** A file of comments, blank lines, exactly one option line and the lines of at
    least two records of an n-port is read: the frequencies in the unit of the
    option line, element i,j from its place in the record and in the format given. *)
Theorem C25_read : forall {R C} (A : tsops R C) lines coms l rows k kind fm z0 z o n line,
  ts_file (ts_float A) lines coms [l] rows -> option_line l k kind fm z0 -> resistance A z0 z ->
  1 <= n -> framed (2 * n ^ 2 + 1) rows o -> rising (ts_leb A) o -> 2 <= length o ->
  hd_error rows = Some line -> 2 * (n - 1) ^ 2 + 1 < length line ->
  exists b, ts_read A lines = Ok b /\ t_name b = chars kind /\ t_z0 b = z /\ t_comments b = coms /\ t_noise b = None /\
    t_freq b = map (fun r => ts_scale A k (hd z r)) o /\
    length (t_mats b) = length o /\ (forall m, In m (t_mats b) -> length m = n /\ forall r, In r m -> length r = n) /\
    forall p i j r x y, nth_error o p = Some r -> i < n -> j < n ->
      nth_error r (1 + 2 * place n i j) = Some x -> nth_error r (2 + 2 * place n i j) = Some y ->
      cell (t_mats b) p i j = Some (value A fm x y).
Proof.
  intros R C A lines coms l rows k kind fm z0 z o n line HF HO Hz Hn F RS H2 Hh HL.
  pose proof (file_rows_full A _ _ _ _ HF) as FR. pose proof (framed_full _ _ _ F) as FL.
  assert (Fo : Forall (fun r : list R => r <> []) o) by (eapply Forall_impl; [|exact FL]; intros r E ->; cbn in E; lia).
  pose proof (C26_records (ts_leb A) n rows o line FR Hn F RS H2 Hh HL) as HP.
  eexists. split; [eapply (read_block A); eauto|]. cbn [t_name t_z0 t_comments t_noise t_freq t_mats].
  split; auto. split; auto. split; auto. split; auto. split; auto. now apply mats_ok.
Qed.
Print Assumptions C25_read.

(** The same for a two-port with noise data. *)
Theorem C25_read_noise : forall {R C} (A : tsops R C) lines coms l rows k kind fm z0 z l1 l2 o nz line r1 a b0,
  ts_file (ts_float A) lines coms [l] rows -> option_line l k kind fm z0 -> resistance A z0 z ->
  rows = l1 ++ l2 -> framed 9 l1 o -> rising (ts_leb A) o -> framed 5 l2 nz -> rising (ts_leb A) nz ->
  hd_error l1 = Some line -> 3 < length line -> 17 <= length (concat rows) ->
  hd_error nz = Some r1 -> hd_error r1 = Some a -> hd_error (last o []) = Some b0 -> ts_leb A a b0 = true ->
  exists b nn, ts_read A lines = Ok b /\ t_name b = chars kind /\ t_z0 b = z /\ t_comments b = coms /\ t_noise b = Some nn /\
    t_freq b = map (fun r => ts_scale A k (hd z r)) o /\
    (n_own nn = None \/ n_own nn = Some (map (fun r => ts_scale A k (hd z r)) nz)) /\
    (n_own nn = None -> length nz = length o /\ ts_close A (t_freq b) (map (fun r => ts_scale A k (hd z r)) nz) = true) /\
    (forall p f x1 x2 x3 x4, nth_error nz p = Some [f; x1; x2; x3; x4] ->
       nth_error (n_fmin nn) p = Some (ts_undb A x1) /\ nth_error (n_gopt nn) p = Some (value A fm x2 x3) /\ nth_error (n_rn nn) p = Some (ts_mul A x4 z)) /\
    length (t_mats b) = length o /\
    forall p i j r x y, nth_error o p = Some r -> i < 2 -> j < 2 ->
      nth_error r (1 + 2 * place 2 i j) = Some x -> nth_error r (2 + 2 * place 2 i j) = Some y ->
      cell (t_mats b) p i j = Some (value A fm x y).
Proof.
  intros R C A lines coms l rows k kind fm z0 z l1 l2 o nz line r1 a b0 HF HO Hz Er F1 R1 F2 R2 Hh HL HT Hn Ha Hb Hl.
  pose proof (file_rows_full A _ _ _ _ HF) as FR. pose proof (framed_full _ _ _ F1) as FL. pose proof (framed_full _ _ _ F2) as FN.
  assert (Fo : Forall (fun r : list R => r <> []) o) by (eapply Forall_impl; [|exact FL]; intros r E ->; cbn in E; lia).
  assert (Fn : Forall (fun r : list R => r <> []) nz) by (eapply Forall_impl; [|exact FN]; intros r E ->; cbn in E; lia).
  subst rows. pose proof (C27_split (ts_leb A) l1 l2 o nz line r1 a b0 FR F1 R1 F2 R2 Hh HL HT Hn Ha Hb Hl) as HP.
  pose proof (read_block A lines coms l (l1 ++ l2) k kind fm z0 z o nz HF HO Hz HP Fo Fn) as RB.
  destruct nz as [|n1 nz]; [discriminate|]. cbv zeta in RB. eexists. eexists. split; [exact RB|]. cbn [t_name t_z0 t_comments t_noise t_freq t_mats n_own n_rn n_fmin n_gopt].
  split; auto. split; auto. split; auto. split; [reflexivity|]. split; auto. cbn [n_own n_rn n_fmin n_gopt].
  match goal with |- context [if ?c then _ else _] => set (cc := c); assert (Ec : cc = c) by reflexivity; clearbody cc end.
  split; [destruct cc; auto|]. split.
  - destruct cc; [|discriminate]. intros _. symmetry in Ec. apply andb_true_iff in Ec as [E1 E2]. apply Nat.eqb_eq in E1. rewrite !map_length in E1. auto.
  - split; [|destruct (mats_ok A fm 2 o ltac:(lia) FL) as [M1 [_ M3]]; split; [exact M1|exact M3]].
    intros p f x1 x2 x3 x4 Hp. rewrite !nth_error_map, Hp. cbn. destruct fm; auto.
Qed.
Print Assumptions C25_read_noise.

(** No or more than one option line is an error. *)
Theorem C25_options : forall {R C} (A : tsops R C) lines coms opts rows, ts_file (ts_float A) lines coms opts rows -> length opts <> 1 ->
  ts_read A lines = Err GenericError.
Proof.
  intros R C A lines coms opts rows HF HL. unfold ts_read. destruct opts as [|l [|l' opts]]; [| cbn in HL; lia|].
  - rewrite (loop_none A _ _ _ HF). reflexivity.
  - rewrite (loop_two A _ _ _ _ HF) by (cbn; lia). reflexivity.
Qed.
Print Assumptions C25_options.

(** *** What is written *)
Lemma trim_exists : forall c, trimmed_of c (strip c).
Proof.
  intros c. destruct (strip_split c) as [a [b [E [SA SB]]]]. exists a, b. split; auto. split; auto. split; auto.
  unfold strip. destruct (rstrip (lstrip c)) as [|x s] eqn:Es; [auto|]. right. split.
  - exists x, s. split; auto. unfold rstrip in Es. destruct (drop_while_split (rev (lstrip c))) as [q [Eq _]].
    assert (K : lstrip c = (x :: s) ++ rev q) by (rewrite <- (rev_involutive (lstrip c)), Eq, rev_app_distr, Es; auto).
    unfold lstrip in K. apply drop_while_hd in K. auto.
  - destruct (drop_while is_space (rev (lstrip c))) as [|y t] eqn:Et.
    + unfold rstrip in Es. rewrite Et in Es. discriminate.
    + exists y, (rev t). split; [rewrite <- Es; unfold rstrip; rewrite Et; reflexivity|]. now apply drop_while_hd in Et.
Qed.

Definition numbers {R} (n : nat) (p : R * (nat -> nat -> R * R)) : list R :=
  fst p :: flat_map (fun i => flat_map (fun j => [fst (snd p j i); snd (snd p j i)]) (seq 0 n)) (seq 0 n).

Lemma Forall2_flat_map : forall {X Y Z} (P : Y -> Z -> Prop) (f : X -> list Y) (g : X -> list Z) l,
  (forall x, Forall2 P (f x) (g x)) -> Forall2 P (flat_map f l) (flat_map g l).
Proof. intros X Y Z P f g l H. induction l as [|x l IH]; cbn [flat_map]; [constructor|]. apply Forall2_app; auto. Qed.

Lemma row_printed : forall {R} (P : list ascii -> R -> Prop) prf prs n p, (forall x, P (prf x) x) -> (forall x, P (prs x) x) ->
  Forall2 P (ts_row prf prs n p) (numbers n p).
Proof.
  intros R P prf prs n [f m] Hf Hs. unfold ts_row, numbers. cbn [fst snd]. constructor; auto.
  apply Forall2_flat_map. intros i. apply Forall2_flat_map. intros j. constructor; [auto|]. constructor; [auto|constructor].
Qed.

Lemma row_line : forall {R} (float : list ascii -> result R) prf prs n p, prints float prf -> prints float prs ->
  number_line float (join [tab] (ts_row prf prs n p)) (numbers n p).
Proof.
  intros R float prf prs n p Pf Ps.
  assert (RP : Forall2 (fun w x => solid w /\ ~ In "!"%char w /\ ~ In "#"%char w /\ float w = Ok x) (ts_row prf prs n p) (numbers n p)) by (apply row_printed; auto).
  assert (W : Forall (fun w => solid w /\ ~ In "!"%char w /\ ~ In "#"%char w) (ts_row prf prs n p)).
  { clear - RP. induction RP as [|w x ws xs [H1 [H2 [H3 _]]] H IH]; constructor; auto. }
  exists (join [tab] (ts_row prf prs n p)), [], (ts_row prf prs n p). rewrite app_nil_r. split; auto. split; [|split; [auto|split; [|split; [|split]]]].
  - intros H. apply join_In in H as [[H|[]]|[w [H1 H2]]]; [discriminate|]. rewrite Forall_forall in W. destruct (W w H1) as [_ [K _]]. auto.
  - rewrite <- (words_join [tab] (ts_row prf prs n p) tab_blank) at 1; [apply words_spaced|]. eapply Forall_impl; [|exact W]. intros w [[K1 K2] _]. split; auto.
  - destruct p as [f m]. discriminate.
  - destruct p as [f m]. cbn [ts_row hd]. destruct (Pf f) as [_ [_ [K _]]]. destruct (prf f) as [|c w]; [discriminate|]. cbn. intros E. injection E as ->. apply K. left; auto.
  - clear - RP. induction RP as [|w x ws xs [_ [_ [_ H]]] F IH]; constructor; auto.
Qed.

Lemma written_option : option_line (chars "#HZ S RI R 50") 0 "S" RI (Some (chars "50")).
Proof.
  exists "HZ", "RI", (chars "HZ"), (chars "S"), (chars "RI"), [chars "R"; chars "50"], [], [], (chars "HZ S RI R 50").
  split; [reflexivity|]. split; [intros ? []|]. split; [intros ? []|]. split; [left; auto|]. split; [left; auto|]. split; [left; auto|].
  assert (SC : forall l, Forall2 same_char l l) by (induction l; constructor; auto; left; auto).
  split; [apply SC|]. split; [apply SC|]. split; [apply SC|]. split; [apply (words_spaced (chars "HZ S RI R 50"))|]. split; [eexists; eexists; split; reflexivity|].
  exists (chars "R"), (chars "50"). split; [reflexivity|]. split; [apply SC|]. intros c H. cbn in H. destruct H as [<-|[<-|[]]]; cbn; lia.
Qed.

Lemma written_file : forall {R} (float : list ascii -> result R) prf prs comments scalars n pts, prints float prf -> prints float prs ->
  ts_file float (ts_save prf prs comments scalars n pts)
    (map strip (comments ++ map (fun kv => fst kv ++ chars ": " ++ snd kv) scalars)) [chars "#HZ S RI R 50"] (map (numbers n) pts).
Proof.
  intros R float prf prs comments scalars n pts Pf Ps. unfold ts_save. rewrite map_app.
  assert (K1 : ts_file float (map (fun p => join [tab] (ts_row prf prs n p)) pts) [] [] (map (numbers n) pts)).
  { induction pts as [|p pts IH]; cbn [map]; [constructor|]. apply tsf_numbers; auto. now apply row_line. }
  assert (K2 : ts_file float ([chars "#HZ S RI R 50"] ++ map (fun p => join [tab] (ts_row prf prs n p)) pts) [] [chars "#HZ S RI R 50"] (map (numbers n) pts)).
  { cbn [app]. eapply tsf_option; [apply written_option|exact K1]. }
  assert (K3 : ts_file float (map (fun kv => "!"%char :: fst kv ++ chars ": " ++ snd kv) scalars ++ [chars "#HZ S RI R 50"] ++ map (fun p => join [tab] (ts_row prf prs n p)) pts)
     (map strip (map (fun kv => fst kv ++ chars ": " ++ snd kv) scalars)) [chars "#HZ S RI R 50"] (map (numbers n) pts)).
  { induction scalars as [|[a b] sc IH]; [exact K2|]. cbn [map app]. apply (tsf_comment float [] (fst (a, b) ++ chars ": " ++ snd (a, b))); [intros ? []|apply trim_exists|exact IH]. }
  induction comments as [|c cs IH]; [exact K3|]. cbn [map app]. apply (tsf_comment float [] c); [intros ? []|apply trim_exists|exact IH].
Qed.

Lemma numbers_length : forall {R} n (p : R * (nat -> nat -> R * R)), length (numbers n p) = 2 * n ^ 2 + 1.
Proof.
  intros R n p. unfold numbers. cbn [length].
  assert (E1 : forall i l, length (flat_map (fun j => [fst (snd p j i); snd (snd p j i)]) l) = 2 * length l) by (intros i l; induction l as [|x l IH]; cbn [flat_map length app]; rewrite ?IH; lia).
  assert (E2 : forall l, length (flat_map (fun i => flat_map (fun j => [fst (snd p j i); snd (snd p j i)]) (seq 0 n)) l) = 2 * n * length l).
  { induction l as [|x l IH]; cbn [flat_map length]; [lia|]. rewrite app_length, IH, E1, seq_length. lia. }
  rewrite E2, seq_length. cbn [Nat.pow]. lia.
Qed.

(** Element q1,q2 (counted by columns) stands at this place. *)
Lemma pairs_nth : forall {R} (f : nat -> R * R) k b, b < k ->
  nth_error (flat_map (fun j => [fst (f j); snd (f j)]) (seq 0 k)) (2 * b) = Some (fst (f b)) /\
  nth_error (flat_map (fun j => [fst (f j); snd (f j)]) (seq 0 k)) (S (2 * b)) = Some (snd (f b)).
Proof.
  intros R f k b Hb.
  assert (G : forall k s b, b < k -> nth_error (flat_map (fun j => [fst (f j); snd (f j)]) (seq s k)) (2 * b) = Some (fst (f (s + b))) /\
     nth_error (flat_map (fun j => [fst (f j); snd (f j)]) (seq s k)) (S (2 * b)) = Some (snd (f (s + b)))); [|apply (G k 0 b Hb)].
  clear. induction k as [|k IH]; intros s b Hb; [lia|]. cbn [seq flat_map app]. destruct b as [|b]; [rewrite Nat.add_0_r; split; reflexivity|].
  replace (2 * S b) with (S (S (2 * b))) by lia. replace (s + S b) with (S s + b) by lia. apply IH. lia.
Qed.
Lemma blocks_nth : forall {R} (g : nat -> list R) w k a c, (forall i, length (g i) = w) -> a < k -> c < w ->
  nth_error (flat_map g (seq 0 k)) (w * a + c) = nth_error (g a) c.
Proof.
  intros R g w k a c HL Ha Hc.
  assert (G : forall k s a, a < k -> nth_error (flat_map g (seq s k)) (w * a + c) = nth_error (g (s + a)) c); [|apply (G k 0 a Ha)].
  clear Ha k. induction k as [|k IH]; intros s b Hb; [lia|]. cbn [seq flat_map]. destruct b as [|b].
  - rewrite Nat.mul_0_r, Nat.add_0_r. cbn [Nat.add]. apply nth_error_app1. rewrite HL. lia.
  - rewrite nth_error_app2 by (rewrite HL; lia). rewrite HL. replace (w * S b + c - w) with (w * b + c) by lia. rewrite IH by lia. f_equal. f_equal. lia.
Qed.
Lemma numbers_nth : forall {R} n (p : R * (nat -> nat -> R * R)) a b, a < n -> b < n ->
  nth_error (numbers n p) (1 + 2 * (n * a + b)) = Some (fst (snd p b a)) /\ nth_error (numbers n p) (2 + 2 * (n * a + b)) = Some (snd (snd p b a)).
Proof.
  intros R n p a b Ha Hb. unfold numbers.   set (g := fun i => flat_map (fun j => [fst (snd p j i); snd (snd p j i)]) (seq 0 n)).
  assert (HL : forall i, length (g i) = 2 * n).
  { intros i. unfold g. rewrite <- (seq_length n 0) at 2. generalize (seq 0 n). induction l as [|x l IH]; cbn [flat_map length app]; rewrite ?IH; lia. }
  change (nth_error (flat_map g (seq 0 n)) (2 * (n * a + b)) = Some (fst (snd p b a)) /\ nth_error (flat_map g (seq 0 n)) (S (2 * (n * a + b))) = Some (snd (snd p b a))).
  replace (S (2 * (n * a + b))) with (2 * n * a + S (2 * b)) by lia. replace (2 * (n * a + b)) with (2 * n * a + 2 * b) by lia.
  rewrite (blocks_nth g (2 * n) n a (2 * b) HL Ha) by lia. rewrite (blocks_nth g (2 * n) n a (S (2 * b)) HL Ha) by lia.
  unfold g. apply (pairs_nth (fun j => snd p j a) n b Hb).
Qed.

(** Frequencies go up. *)
Definition sweep {R} (leb : R -> R -> bool) (fs : list R) : Prop :=
  forall i a b, nth_error fs i = Some a -> nth_error fs (S i) = Some b -> leb b a = false.

Lemma written_read : forall {R C} (A : tsops R C) prf prs comments scalars n pts z50, prints (ts_float A) prf -> prints (ts_float A) prs ->
  (forall x, ts_scale A 0 x = x) -> ts_float A (chars "50") = Ok z50 -> 1 <= n -> 2 <= length pts -> sweep (ts_leb A) (map fst pts) ->
  exists b, ts_read A (ts_save prf prs comments scalars n pts) = Ok b /\ t_name b = chars "S" /\ t_z0 b = z50 /\ t_noise b = None /\
    Forall2 trimmed_of (comments ++ map (fun kv => fst kv ++ chars ": " ++ snd kv) scalars) (t_comments b) /\
    t_freq b = map fst pts /\ length (t_mats b) = length pts /\ (forall m, In m (t_mats b) -> length m = n /\ forall r, In r m -> length r = n) /\
    forall p f m i j, nth_error pts p = Some (f, m) -> i < n -> j < n ->
      cell (t_mats b) p i j = Some (if n <=? 2 then ts_ri A (fst (m i j)) (snd (m i j)) else ts_ri A (fst (m j i)) (snd (m j i))).
Proof.
  intros R C A prf prs comments scalars n pts z50 Pf Ps Hs H50 Hn H2 HS.
  pose proof (written_file (ts_float A) prf prs comments scalars n pts Pf Ps) as WF.
  assert (F : framed (2 * n ^ 2 + 1) (map (numbers n) pts) (map (numbers n) pts)).
  { clear. induction pts as [|p pts IH]; cbn [map]; [constructor|]. apply (framed_cons _ [numbers n p] (numbers n p)); [discriminate|cbn; now rewrite app_nil_r|apply numbers_length|exact IH]. }
  assert (RS : rising (ts_leb A) (map (numbers n) pts)).
  { intros i r r' a a' H1 H3 H4 H5. rewrite nth_error_map in H1, H3. destruct (nth_error pts i) as [p|] eqn:E1; [|discriminate]. destruct (nth_error pts (S i)) as [p'|] eqn:E2; [|discriminate].
    cbn in H1, H3. injection H1 as <-. injection H3 as <-. cbn in H4, H5. injection H4 as <-. injection H5 as <-. apply (HS i); now rewrite nth_error_map, ?E1, ?E2. }
  destruct pts as [|p0 pts]; [cbn in H2; lia|].
  destruct (C25_read A _ _ _ _ 0 "S" RI (Some (chars "50")) z50 _ n (numbers n p0) WF written_option H50 Hn F RS) as [b [HR [Hnm [Hz [Hc [Hno [Hfr [HL [HD Hcell]]]]]]]]].
  - rewrite map_length. exact H2.
  - reflexivity.
  - rewrite numbers_length. assert ((n - 1) ^ 2 < n ^ 2) by (apply Nat.pow_lt_mono_l; lia). lia.
  - exists b. split; auto. split; auto. split; auto. split; auto. split; [|split; [|split; [|split; [auto|]]]].
    + rewrite Hc. generalize (comments ++ map (fun kv => fst kv ++ chars ": " ++ snd kv) scalars). induction l as [|c l IH]; cbn [map]; constructor; auto. apply trim_exists.
    + rewrite Hfr, map_map. apply map_ext. intros p. rewrite Hs. reflexivity.
    + rewrite HL. apply map_length.
    + intros p f m i j Hp Hi Hj.
      assert (Hr : nth_error (map (numbers n) (p0 :: pts)) p = Some (numbers n (f, m))) by (rewrite nth_error_map, Hp; reflexivity).
      destruct (Nat.leb_spec n 2) as [Le|Gt].
      * assert (Ep : place n i j = n * j + i). { unfold place. destruct (Nat.eqb_spec n 2) as [->|]; auto. assert (n = 1) as -> by lia. lia. }
        destruct (numbers_nth n (f, m) j i Hj Hi) as [N1 N2]. apply (Hcell p i j _ (fst (m i j)) (snd (m i j)) Hr Hi Hj); rewrite Ep; assumption.
      * assert (Ep : place n i j = n * i + j) by (unfold place; destruct (Nat.eqb_spec n 2); [lia|auto]).
        destruct (numbers_nth n (f, m) i j Hi Hj) as [N1 N2]. apply (Hcell p i j _ (fst (m j i)) (snd (m j i)) Hr Hi Hj); rewrite Ep; assumption.
Qed.

(** One and two ports, at least two frequencies: what was written is read. *)
Theorem C25_roundtrip : forall {R C} (A : tsops R C) prf prs comments scalars n pts z50, prints (ts_float A) prf -> prints (ts_float A) prs ->
  (forall x, ts_scale A 0 x = x) -> ts_float A (chars "50") = Ok z50 -> 1 <= n <= 2 -> 2 <= length pts -> sweep (ts_leb A) (map fst pts) ->
  exists b, ts_read A (ts_save prf prs comments scalars n pts) = Ok b /\ t_name b = chars "S" /\ t_z0 b = z50 /\ t_noise b = None /\
    Forall2 trimmed_of (comments ++ map (fun kv => fst kv ++ chars ": " ++ snd kv) scalars) (t_comments b) /\
    t_freq b = map fst pts /\ length (t_mats b) = length pts /\ (forall m, In m (t_mats b) -> length m = n /\ forall r, In r m -> length r = n) /\
    forall p f m i j, nth_error pts p = Some (f, m) -> i < n -> j < n -> cell (t_mats b) p i j = Some (ts_ri A (fst (m i j)) (snd (m i j))).
Proof.
  intros R C A prf prs comments scalars n pts z50 Pf Ps Hs H50 [Hn Hn2] H2 HS.
  destruct (written_read A prf prs comments scalars n pts z50 Pf Ps Hs H50 Hn H2 HS) as [b [H3 [H4 [H5 [H6 [H7 [H8 [H9 [H10 H11]]]]]]]]].
  exists b. repeat (split; [assumption|]). intros p f m i j Hp Hi Hj. rewrite (H11 p f m i j Hp Hi Hj). destruct (Nat.leb_spec n 2); [reflexivity|lia].
Qed.
Print Assumptions C25_roundtrip.

(** Three and more ports: the matrices come back transposed. *)
Theorem C25_transposed : forall {R C} (A : tsops R C) prf prs comments scalars n pts z50, prints (ts_float A) prf -> prints (ts_float A) prs ->
  (forall x, ts_scale A 0 x = x) -> ts_float A (chars "50") = Ok z50 -> 3 <= n -> 2 <= length pts -> sweep (ts_leb A) (map fst pts) ->
  exists b, ts_read A (ts_save prf prs comments scalars n pts) = Ok b /\ t_name b = chars "S" /\ t_z0 b = z50 /\ t_noise b = None /\
    Forall2 trimmed_of (comments ++ map (fun kv => fst kv ++ chars ": " ++ snd kv) scalars) (t_comments b) /\
    t_freq b = map fst pts /\ length (t_mats b) = length pts /\ (forall m, In m (t_mats b) -> length m = n /\ forall r, In r m -> length r = n) /\
    forall p f m i j, nth_error pts p = Some (f, m) -> i < n -> j < n -> cell (t_mats b) p i j = Some (ts_ri A (fst (m j i)) (snd (m j i))).
Proof.
  intros R C A prf prs comments scalars n pts z50 Pf Ps Hs H50 Hn H2 HS.
  destruct (written_read A prf prs comments scalars n pts z50 Pf Ps Hs H50 ltac:(lia) H2 HS) as [b [H3 [H4 [H5 [H6 [H7 [H8 [H9 [H10 H11]]]]]]]]].
  exists b. repeat (split; [assumption|]). intros p f m i j Hp Hi Hj. rewrite (H11 p f m i j Hp Hi Hj). destruct (Nat.leb_spec n 2); [lia|reflexivity].
Qed.
Print Assumptions C25_transposed.

(** One frequency: what was written cannot be read. *)
Theorem C25_single : forall {R C} (A : tsops R C) prf prs comments scalars n p, prints (ts_float A) prf -> prints (ts_float A) prs -> 1 <= n ->
  ts_read A (ts_save prf prs comments scalars n [p]) = Err GenericError.
Proof.
  intros R C A prf prs comments scalars n p Pf Ps Hn.
  pose proof (written_file (ts_float A) prf prs comments scalars n [p] Pf Ps) as WF.
  destruct (option_token _ _ _ _ _ written_option) as [i [u [f [r [Et _]]]]]. unfold ts_read. rewrite (loop_one A _ _ _ _ WF i [] [] Et). cbn [bind app map].
  rewrite (C26_single _ n) by (auto using numbers_length). reflexivity.
Qed.
Print Assumptions C25_single.

(** *** Examples *)
Definition nat_float (l : list ascii) : result nat :=
  if forallb is_digit l && negb (eqb_chars l []) then Ok (digits_value l) else Err ValueError.
Definition exA : tsops nat (nat * nat) := {| ts_float := nat_float; ts_leb := Nat.leb; ts_ri := pair; ts_db := pair; ts_ma := pair;
  ts_scale := fun k x => 10 ^ k * x; ts_one := 1; ts_mul := Nat.mul; ts_undb := fun x => x; ts_close := fun _ _ => false |}.
Lemma exA_prints : prints (ts_float exA) print_nat.
Proof.
  intros x. pose proof (print_nat_digits x) as D. rewrite Forall_forall in D. split; [split; [apply print_nat_nonempty|intros c H; apply digit_not_space; auto]|].
  split; [intros H; apply D in H; discriminate|]. split; [intros H; apply D in H; discriminate|]. cbn [ts_float exA]. unfold nat_float.
  assert (E : forallb is_digit (print_nat x) = true) by (apply forallb_forall; auto). rewrite E. cbn [andb].
  assert (E2 : eqb_chars (print_nat x) [] = false). { unfold eqb_chars. destruct (list_eq_dec ascii_dec (print_nat x) []) as [K|]; auto. now apply print_nat_nonempty in K. }
  rewrite E2. cbn [negb]. now rewrite print_nat_value.
Qed.
Definition exm (i j : nat) : nat * nat := (10 * i + j, i + j).
Definition expts : list (nat * (nat -> nat -> nat * nat)) := [(1, exm); (2, fun i j => exm j i); (5, exm)].
Example C25_ex : prints (ts_float exA) print_nat /\ sweep (ts_leb exA) (map fst expts) /\
  match ts_read exA (ts_save print_nat print_nat [chars " made "] [(chars "T", chars "25")] 2 expts) with
  | Ok b => (t_freq b, t_mats b, t_z0 b, t_comments b) =
     ([1; 2; 5], [[[(0, 0); (1, 1)]; [(10, 1); (11, 2)]]; [[(0, 0); (10, 1)]; [(1, 1); (11, 2)]]; [[(0, 0); (1, 1)]; [(10, 1); (11, 2)]]], 50, [chars "made"; chars "T: 25"])
  | Err _ => False end.
Proof.
  split; [exact exA_prints|]. split; [|vm_compute; reflexivity].
  intros i a b. destruct i as [|[|[|i]]]; cbn; intros H1 H2; try discriminate; injection H1 as <-; injection H2 as <-; reflexivity.
Qed.
Example C25_read_ex : match ts_read exA [chars "! two ports with noise"; chars " # kHz S ma R 50"; []; chars "1 11 0 21 0 12 0 22 0 ! first"; chars "2 11 0 21 0 12 0 22 0"; chars "1 3 4 5 6"] with
  | Ok b => (t_freq b, nth 0 (t_mats b) [], option_map n_own (t_noise b), option_map n_rn (t_noise b)) =
     ([1000; 2000], [[(11, 0); (12, 0)]; [(21, 0); (22, 0)]], Some (Some [1000]), Some [300])
  | Err _ => False end.
Proof. vm_compute. reflexivity. Qed.

(** A three-port whose matrix comes back changed. *)
Theorem C25_threeport_refuted : exists b, ts_read exA (ts_save print_nat print_nat [] [] 3 [(1, exm); (2, exm)]) = Ok b /\
  cell (t_mats b) 0 0 1 <> Some (ts_ri exA (fst (exm 0 1)) (snd (exm 0 1))).
Proof. eexists. split; [vm_compute; reflexivity|]. vm_compute. discriminate. Qed.
Print Assumptions C25_threeport_refuted.
