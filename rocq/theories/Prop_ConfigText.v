(** C69: numbers, times and intervals in configuration files. *)
From Coq Require Import Ascii String List Arith ZArith QArith Qround Bool Lia Lqa.
From Verif Require Import Model_NdArray Model_Text Model_Words Model_Comments Model_Si Model_ConfigText Spec_ConfigText Proofs_ConfigText.
Import ListNotations.
Local Open Scope string_scope.
Local Open Scope char_scope.
Local Open Scope nat_scope.
Local Open Scope list_scope.

(** ** Intervals *)
Fixpoint total (value : text -> Q) (us : list (Q * list text)) (os : list (option text)) : Q :=
  match us, os with
  | (size, _) :: us', Some n :: os' => value n * size + total value us' os'
  | _ :: us', None :: os' => total value us' os'
  | _, _ => 0
  end%Q.
Lemma parts_written : forall value us wss, Forall2 (fun ws (u : Q * list text) => forall w, In w ws <-> In w (snd u)) wss us ->
  forall l os, parts wss l os -> written value us l (total value us os).
Proof.
  induction us as [|[size uw] us IH]; intros wss F l os P; inversion F as [|ws ? wss' ? FW F']; subst; inversion P; subst; cbn [total].
  - constructor. auto.
  - constructor; eauto. intros ->. inversion F'. subst. auto.
  - constructor; eauto; [apply FW; auto|]. intros ->. inversion F'. subst. auto.
Qed.
Lemma written_parts : forall value us l q, written value us l q -> forall wss, Forall2 (fun ws (u : Q * list text) => forall w, In w ws <-> In w (snd u)) wss us ->
  exists os, parts wss l os /\ q = total value us os.
Proof.
  induction 1 as [l E|u us b l q B N W IH|size uw us n b w b' l q Pn B I B' N W IH]; intros wss F; inversion F as [|ws ? wss' ? FW F']; subst.
  - exists []. split; [constructor; auto|reflexivity].
  - destruct (IH _ F') as [os [P ->]]. exists (None :: os). split; [constructor; auto|destruct u; reflexivity].
    intros ->. inversion F'. subst. auto.
  - destruct (IH _ F') as [os [P ->]]. exists (Some n :: os). split; [constructor; auto|reflexivity].
    + apply FW. auto. + intros ->. inversion F'. subst. auto.
Qed.
Lemma words_units : Forall2 (fun ws (u : Q * list text) => forall w, In w ws <-> In w (snd u)) interval_words interval_units.
Proof. repeat (apply Forall2_cons; [intros w; cbn; tauto|]); apply Forall2_nil. Qed.
Definition letterb (c : ascii) : bool := negb (inb c (figures ++ ["."; " "; newline])).
Lemma letterb_ok : forall w, forallb letterb w = true -> Forall letter w.
Proof.
  intros w H. apply Forall_forall. intros c I. rewrite forallb_forall in H. specialize (H c I). unfold letterb in H. apply negb_true_iff in H.
  assert (N : ~ In c (figures ++ ["."; " "; newline])) by (rewrite <- inb_iff, H; discriminate). rewrite in_app_iff in N. cbn [In] in N.
  repeat split; intros K; apply N; auto.
Qed.
Lemma interval_separated : separated interval_words.
Proof.
  split.
  - intros ws w I1 I2. assert (H : forallb (fun ws => forallb (fun w => negb (eqb_chars w []) && forallb letterb w) ws) interval_words = true) by (vm_compute; reflexivity).
    rewrite forallb_forall in H. specialize (H ws I1). rewrite forallb_forall in H. specialize (H w I2). apply andb_true_iff in H as [H1 H2].
    split; [intros ->; discriminate H1|apply letterb_ok; exact H2].
  - repeat (apply FOP_cons; [repeat (apply Forall_cons; [intros w A B; cbn in A, B; intuition (subst; discriminate)|]); apply Forall_nil|]); apply FOP_nil.
Qed.
Lemma read_parts : forall l os, parts interval_words l os -> re_interval interval_words [] l = Some os.
Proof.
  intros l os P. destruct (re_interval interval_words [] l) as [x|] eqn:E; [|exfalso; exact (re_interval_complete _ _ _ P [] E)].
  destruct (re_interval_sound _ _ _ _ E) as [os' [-> P']]. cbn [app]. apply f_equal.
  apply (parts_unique_gen _ interval_separated _ _ _ _ P' P [] [] l); auto; intros c [].
Qed.
Lemma parts_length : forall wss l os, parts wss l os -> length os = length wss.
Proof. induction 1; cbn; auto. Qed.
Lemma total_sum : forall value a b c d,
  (amount value a * (3600 * 24) + amount value b * 3600 + amount value c * 60 + amount value d == total value interval_units [a; b; c; d])%Q.
Proof. intros value [a|] [b|] [c|] [d|]; cbn [amount total interval_units]; ring. Qed.
Lemma constructor_parts : forall value l os, parts interval_words l os -> exists q, timeintervall_constructor value l = Ok q /\ (q == total value interval_units os)%Q.
Proof.
  intros value l os P. pose proof (parts_length _ _ _ P) as L. unfold timeintervall_constructor. rewrite (read_parts _ _ P).
  destruct os as [|a [|b [|c [|d [|e os]]]]]; try discriminate L. eexists. split; [reflexivity|]. apply total_sum.
Qed.

(** Reading an interval gives what is written, and fails on all other texts. *)
Theorem C69_interval_read : forall value l,
  (forall q, timeintervall_constructor value l = Ok q -> exists v, written value interval_units l v /\ (q == v)%Q) /\
  (forall v, written value interval_units l v -> exists q, timeintervall_constructor value l = Ok q /\ (q == v)%Q) /\
  (forall e, timeintervall_constructor value l = Err e -> e = AttributeError /\ forall v, ~ written value interval_units l v).
Proof.
  intros value l.
  assert (K : forall v, written value interval_units l v -> exists q, timeintervall_constructor value l = Ok q /\ (q == v)%Q).
  { intros v W. destruct (written_parts _ _ _ _ W _ words_units) as [os [P ->]]. apply constructor_parts. exact P. }
  split; [|split; [exact K|]].
  - intros q H. unfold timeintervall_constructor in H. destruct (re_interval interval_words [] l) as [x|] eqn:E; [|discriminate H].
    destruct (re_interval_sound _ _ _ _ E) as [os [-> P]]. cbn [app] in H.
    destruct (constructor_parts value _ _ P) as [q' [H' E']]. unfold timeintervall_constructor in H'. rewrite E in H'. cbn [app] in H'. rewrite H in H'.
    injection H' as <-. exists (total value interval_units os). split; [|exact E']. eapply parts_written; [apply words_units|exact P].
  - intros e H. split.
    + unfold timeintervall_constructor in H. destruct (re_interval interval_words [] l) as [[|a [|b [|c [|d [|? ?]]]]]|]; try discriminate H; injection H as <-; reflexivity.
    + intros v W. destruct (K v W) as [q [H' _]]. rewrite H in H'. discriminate H'.
Qed.
Print Assumptions C69_interval_read.

Lemma written_chars : forall value us l q, written value us l q -> forall c, In c l ->
  In c figures \/ c = "." \/ c = " " \/ c = newline \/ exists u w, In u us /\ In w (snd u) /\ In c w.
Proof.
  induction 1 as [l E|u us b l q B N W IH|size uw us n b w b' l q Pn B I B' N W IH]; intros c K.
  - destruct E as [->| ->]; [destruct K|]. destruct K as [<-|[]]. auto.
  - apply in_app_iff in K as [K|K]; [destruct (B c K) as [<-|[]]; auto|].
    destruct (IH c K) as [J|[J|[J|[J|[u' [w [J1 [J2 J3]]]]]]]]; auto. do 4 right. exists u', w. split; [right|]; auto.
  - rewrite !in_app_iff in K. destruct K as [K|[K|[K|[K|K]]]].
    + destruct (plain_numeric n Pn) as [_ [_ [_ [_ F]]]]. rewrite Forall_forall in F. destruct (F c K); auto.
    + destruct (B c K) as [<-|[]]; auto.
    + do 4 right. exists (size, uw), w. split; [left|]; auto.
    + destruct (B' c K) as [<-|[]]; auto.
    + destruct (IH c K) as [J|[J|[J|[J|[u' [w' [J1 [J2 J3]]]]]]]]; auto. do 4 right. exists u', w'. split; [right|]; auto.
Qed.
(** No text with a minus is an interval: neither a negative number nor a negative
    exponent. *)
Theorem C69_interval_minus : forall value l, In "-" l -> timeintervall_constructor value l = Err AttributeError.
Proof.
  intros value l I. destruct (C69_interval_read value l) as [A [_ C]]. destruct (timeintervall_constructor value l) as [q|e].
  - exfalso. destruct (A q eq_refl) as [v [W _]].
    assert (H : forallb (fun u => forallb (fun w => negb (inb "-" w)) (snd u)) interval_units = true) by (vm_compute; reflexivity).
    destruct (written_chars _ _ _ _ W _ I) as [J|[J|[J|[J|[u [w [J1 [J2 J3]]]]]]]]; try discriminate J; [cbn in J; intuition discriminate|].
    rewrite forallb_forall in H. specialize (H u J1). rewrite forallb_forall in H. specialize (H w J2). apply inb_iff in J3. rewrite J3 in H. discriminate H.
  - destruct (C e eq_refl) as [-> _]. reflexivity.
Qed.
Print Assumptions C69_interval_minus.

(** *** Writing intervals *)
Lemma floor_bounds : forall a b, (0 < b)%Q -> (0 <= a - floordiv a b * b)%Q /\ (a - floordiv a b * b < b)%Q.
Proof.
  intros a b B. unfold floordiv. set (z := Qfloor (a / b)).
  assert (A1 : (inject_Z z <= a / b)%Q) by apply Qfloor_le.
  assert (A2 : (a / b < inject_Z (z + 1))%Q) by apply Qlt_floor.
  assert (E : (a == (a / b) * b)%Q) by (field; intros E; rewrite E in B; discriminate B).
  rewrite inject_Z_plus in A2. change (inject_Z 1) with 1%Q in A2.
  split.
  - setoid_rewrite E at 1. apply (Qmult_le_compat_r _ _ b) in A1; [lra|apply Qlt_le_weak; exact B].
  - setoid_rewrite E at 1. apply (Qmult_lt_compat_r _ _ b) in A2; [lra|exact B].
Qed.
Lemma floor_range : forall a b k, (0 < b)%Q -> (0 <= a)%Q -> (a < inject_Z k * b)%Q -> (0 <= Qfloor (a / b) < k)%Z.
Proof.
  intros a b k B A L. assert (L' : (a / b < inject_Z k)%Q) by (apply Qlt_shift_div_r; assumption).
  split.
  - apply (Qfloor_resp_le 0 (a / b)). apply Qle_shift_div_l; [exact B|lra].
  - pose proof (Qfloor_le (a / b)). rewrite Zlt_Qlt. lra.
Qed.

(** The text gives days, hours, minutes and seconds, leaving out those that are
    zero: whole numbers of days, less than 24 hours, less than 60 minutes and less
    than 60 seconds. *)
Theorem C69_interval_shown : forall show t, exists (d h m : Z) (s : Q),
  (t == inject_Z d * 86400 + inject_Z h * 3600 + inject_Z m * 60 + s)%Q /\ (0 <= h < 24)%Z /\ (0 <= m < 60)%Z /\ (0 <= s /\ s < 60)%Q /\
  timeintervall_representer show t =
    join [" "] (flat_map (fun p : Q * string => if Qeq_bool (fst p) 0 then [] else [show (fst p) ++ txt (snd p)])
      [(inject_Z d, " days"); (inject_Z h, " hours"); (inject_Z m, " minutes"); (s, " seconds")]%string).
Proof.
  intros show t. unfold timeintervall_representer. set (d := Qfloor (t / (3600 * 24))).
  assert (D : (0 <= t - inject_Z d * 3600 * 24)%Q /\ (t - inject_Z d * 3600 * 24 < 86400)%Q).
  { destruct (floor_bounds t (3600 * 24)) as [A B]; [reflexivity|]. unfold floordiv in A, B. fold d in A, B. split; lra. }
  change (floordiv t (3600 * 24)) with (inject_Z d). set (t1 := (t - inject_Z d * 3600 * 24)%Q) in *. destruct D as [D1 D2].
  assert (H : (0 <= Qfloor (t1 / 3600) < 24)%Z) by (apply floor_range; [reflexivity|exact D1|change (inject_Z 24 * 3600)%Q with 86400%Q; exact D2]).
  set (h := Qfloor (t1 / 3600)) in *. change (floordiv t1 3600) with (inject_Z h).
  destruct (floor_bounds t1 3600) as [E1 E2]; [reflexivity|]. change (floordiv t1 3600) with (inject_Z h) in E1, E2.
  set (t2 := (t1 - inject_Z h * 3600)%Q) in *.
  assert (M : (0 <= Qfloor (t2 / 60) < 60)%Z) by (apply floor_range; [reflexivity|exact E1|change (inject_Z 60 * 60)%Q with 3600%Q; exact E2]).
  set (m := Qfloor (t2 / 60)) in *. change (floordiv t2 60) with (inject_Z m).
  destruct (floor_bounds t2 60) as [F1 F2]; [reflexivity|]. change (floordiv t2 60) with (inject_Z m) in F1, F2.
  exists d, h, m, (t2 - inject_Z m * 60)%Q. split; [unfold t2, t1; ring|]. split; [exact H|]. split; [exact M|]. split; [split; assumption|].
  unfold said. cbn [flat_map fst snd]. rewrite app_nil_r. reflexivity.
Qed.
Print Assumptions C69_interval_shown.

Lemma join_cons : forall sep x y l, join sep (x :: y :: l) = x ++ sep ++ join sep (y :: l).
Proof. reflexivity. Qed.
Lemma written_pieces : forall value show (items : list (Q * Q * string)) us,
  Forall2 (fun (i : Q * Q * string) (u : Q * list text) => snd (fst i) = fst u /\ In (txt (snd i)) (snd u)) items us ->
  Forall (fun i : Q * Q * string => (fst (fst i) == 0)%Q \/ (plain (show (fst (fst i))) /\ (value (show (fst (fst i))) == fst (fst i))%Q)) items ->
  exists q, written value us (join [" "] (flat_map (fun i : Q * Q * string => if Qeq_bool (fst (fst i)) 0 then [] else [show (fst (fst i)) ++ " " :: txt (snd i)]) items)) q /\
    (q == fold_right (fun (i : Q * Q * string) a => fst (fst i) * snd (fst i) + a) 0 items)%Q.
Proof.
  intros value show. induction items as [|[[x size] w] items IH]; intros us F P; inversion F as [|? [size' ws] ? us' [E1 I] F' T1 T2]; subst us.
  - exists 0%Q. split; [constructor; left; reflexivity|reflexivity].
  - cbn [fst snd] in E1, I. subst size'. apply Forall_cons_iff in P as [P1 P]. cbn [fst snd] in P1. destruct (IH _ F' P) as [q [W E]].
    cbn [flat_map fst snd fold_right]. destruct (Qeq_bool x 0) eqn:Z0.
    + apply Qeq_bool_iff in Z0. exists q. split; [|rewrite E, Z0; ring]. cbn [app].
      apply (written_without value (size, ws) us' [] _ q); auto. intros c [].
    + destruct P1 as [P1|[P1 P2]]; [apply Qeq_bool_iff in P1; congruence|].
      exists (value (show x) * size + q)%Q. split; [|rewrite E, P2; reflexivity].
      set (fm := flat_map (fun i : Q * Q * string => if Qeq_bool (fst (fst i)) 0 then [] else [show (fst (fst i)) ++ " " :: txt (snd i)]) items) in *.
      destruct fm as [|y fm'] eqn:FM.
      * cbn [app join]. replace (show x ++ " " :: txt w) with (show x ++ [" "] ++ txt w ++ [] ++ []) by (cbn; rewrite app_nil_r; reflexivity).
        apply written_with; auto; [intros c K; exact K|intros c []].
      * cbn [app]. rewrite join_cons.
        replace ((show x ++ " " :: txt w) ++ [" "] ++ join [" "] (y :: fm')) with (show x ++ [" "] ++ txt w ++ [" "] ++ join [" "] (y :: fm')) by (cbn [app]; rewrite <- app_assoc; reflexivity).
        apply written_with; auto; try (intros c K; exact K).
        intros ->. assert (EI : items = []) by (inversion F'; reflexivity). clear - FM EI. subst items. cbn in FM. discriminate FM.
Qed.

(** Intervals that are not negative are read back, if whole numbers and the
    seconds are written plainly. *)
Theorem C69_interval_roundtrip : forall value show t, (0 <= t)%Q ->
  (forall x y, (x == y)%Q -> show x = show y) ->
  (forall z, (0 < z)%Z -> plain (show (inject_Z z)) /\ (value (show (inject_Z z)) == inject_Z z)%Q) ->
  (forall z s, (t == inject_Z z * 60 + s)%Q -> (0 < s)%Q -> (s < 60)%Q -> plain (show s) /\ (value (show s) == s)%Q) ->
  exists q, timeintervall_constructor value (timeintervall_representer show t) = Ok q /\ (q == t)%Q.
Proof.
  intros value show t T X WH SE. destruct (C69_interval_shown show t) as [d [h [m [s [E [H [M [[S1 S2] R]]]]]]]]. rewrite R.
  assert (D : (0 <= d)%Z).
  { assert (K : (-1 < d)%Z); [|lia]. rewrite Zlt_Qlt. assert (HQ : (inject_Z h <= 23)%Q) by (change 23%Q with (inject_Z 23); rewrite <- Zle_Qle; lia).
    assert (MQ : (inject_Z m <= 59)%Q) by (change 59%Q with (inject_Z 59); rewrite <- Zle_Qle; lia). change (inject_Z (-1)) with (-1)%Q. lra. }
  set (items := [((inject_Z d, 86400%Q), "days"%string); ((inject_Z h, 3600%Q), "hours"%string); ((inject_Z m, 60%Q), "minutes"%string); ((s, 1%Q), "seconds"%string)]).
  assert (ZP : forall z, (0 <= z)%Z -> (inject_Z z == 0)%Q \/ (plain (show (inject_Z z)) /\ (value (show (inject_Z z)) == inject_Z z)%Q)).
  { intros z Hz. destruct (Z.eq_dec z 0) as [->|N]; [left; reflexivity|right; apply WH; lia]. }
  destruct (written_pieces value show items interval_units) as [q [W Eq]].
  - repeat (apply Forall2_cons; [split; [reflexivity|cbn; tauto]|]). apply Forall2_nil.
  - repeat (apply Forall_cons; [cbn [fst snd]; try (apply ZP; lia)|]); [|apply Forall_nil].
    destruct (Qeq_bool s 0) eqn:Z0; [left; apply Qeq_bool_iff; exact Z0|right]. apply Qeq_bool_neq in Z0.
    apply (SE (d * 1440 + h * 60 + m)%Z).
    + rewrite E, !inject_Z_plus, !inject_Z_mult. change (inject_Z 1440) with 1440%Q. change (inject_Z 60) with 60%Q. ring.
    + destruct (Qle_lt_or_eq _ _ S1) as [L|L]; [exact L|]. exfalso. apply Z0. symmetry. exact L.
    + exact S2.
  - destruct (proj1 (proj2 (C69_interval_read value _)) q W) as [q' [C Q']]. exists q'. split; [exact C|]. rewrite Q', Eq, E. cbn [fold_right items fst snd]. ring.
Qed.
Print Assumptions C69_interval_roundtrip.

(** Negative intervals are not: their days are negative. Nor are those whose
    seconds are written with a negative exponent, such as 5e-05. *)
Theorem C69_interval_negative : forall value show t, (t < 0)%Q ->
  (forall x, (x < 0)%Q -> In "-" (show x)) ->
  timeintervall_constructor value (timeintervall_representer show t) = Err AttributeError.
Proof.
  intros value show t T N. apply C69_interval_minus. destruct (C69_interval_shown show t) as [d [h [m [s [E [H [M [[S1 S2] R]]]]]]]]. rewrite R.
  assert (HQ : (0 <= inject_Z h)%Q) by (change 0%Q with (inject_Z 0); rewrite <- Zle_Qle; lia).
  assert (MQ : (0 <= inject_Z m)%Q) by (change 0%Q with (inject_Z 0); rewrite <- Zle_Qle; lia).
  assert (D : (inject_Z d < 0)%Q) by lra. cbn [flat_map fst snd app].
  destruct (Qeq_bool (inject_Z d) 0) eqn:Z0; [apply Qeq_bool_iff in Z0; lra|]. cbn [app].
  match goal with |- In _ (join _ (_ :: ?more)) => destruct more as [|y l] end.
  - cbn [join]. apply in_app_iff. left. apply N. exact D.
  - rewrite join_cons. rewrite !in_app_iff. left. left. apply N. exact D.
Qed.
Theorem C69_interval_exponent : forall value show t, (0 < t)%Q -> (t < 60)%Q -> In "-" (show t) ->
  (forall x y, (x == y)%Q -> show x = show y) ->
  timeintervall_constructor value (timeintervall_representer show t) = Err AttributeError.
Proof.
  intros value show t T1 T2 N X. apply C69_interval_minus. destruct (C69_interval_shown show t) as [d [h [m [s [E [H [M [[S1 S2] R]]]]]]]]. rewrite R.
  assert (Z3 : d = 0%Z /\ h = 0%Z /\ m = 0%Z).
  { assert (K : (d * 1440 + h * 60 + m = 0)%Z); [|lia].
    assert (E' : (t == inject_Z (d * 1440 + h * 60 + m) * 60 + s)%Q) by (rewrite E, !inject_Z_plus, !inject_Z_mult; change (inject_Z 1440) with 1440%Q; change (inject_Z 60) with 60%Q; ring).
    assert (A : (-1 < d * 1440 + h * 60 + m)%Z) by (rewrite Zlt_Qlt; change (inject_Z (-1)) with (-1)%Q; lra).
    assert (B : (d * 1440 + h * 60 + m < 1)%Z) by (rewrite Zlt_Qlt; change (inject_Z 1) with 1%Q; lra). lia. }
  destruct Z3 as [-> [-> ->]]. change (inject_Z 0) with 0%Q in *. cbn [flat_map fst snd]. change (Qeq_bool 0 0) with true. cbn [app].
  assert (Es : (s == t)%Q) by (rewrite E; ring). destruct (Qeq_bool s 0) eqn:Z0; [apply Qeq_bool_iff in Z0; lra|]. cbn [app join].
  apply in_app_iff. left. rewrite (X s t Es). exact N.
Qed.
Print Assumptions C69_interval_negative.
Print Assumptions C69_interval_exponent.

(** ** Numbers with units *)
Lemma number_last : forall n, number n -> exists m c, n = m ++ [c] /\ In c figures.
Proof.
  assert (L : forall f : text, f <> [] -> incl f figures -> exists m c, f = m ++ [c] /\ In c figures).
  { intros f N I. destruct (exists_last N) as [m [c ->]]. exists m, c. split; [reflexivity|]. apply I. apply in_app_iff. right. left. reflexivity. }
  intros n [s [d [p [f [e [-> [S1 [D [P [F1 [F2 E]]]]]]]]]]]. destruct E as [->|[x [s' [f' [-> [X [S2 [F3 F4]]]]]]]].
  - destruct (L f F1 F2) as [m [c [-> I]]]. exists (s ++ d ++ p ++ m), c. rewrite app_nil_r, <- !app_assoc. auto.
  - destruct (L f' F3 F4) as [m [c [-> I]]]. exists (s ++ d ++ p ++ f ++ x :: s' ++ m), c. split; [|exact I].
    rewrite <- !app_assoc. cbn [app]. rewrite <- app_assoc. reflexivity.
Qed.
Lemma cut_number : forall n1 r1 n2 r2, number n1 -> number n2 -> (forall c, In c r1 -> ~ In c figures) -> (forall c, In c r2 -> ~ In c figures) ->
  n1 ++ r1 = n2 ++ r2 -> n1 = n2 /\ r1 = r2.
Proof.
  intros n1 r1 n2 r2 N1 N2 R1 R2 E. destruct (number_last _ N1) as [m1 [c1 [-> I1]]]. destruct (number_last _ N2) as [m2 [c2 [-> I2]]].
  apply (f_equal (@rev ascii)) in E. rewrite !rev_app_distr in E. cbn [rev app] in E.
  apply (cut (fun c => ~ In c figures)) in E as [E1 E2].
  - apply (f_equal (@rev ascii)) in E1. rewrite !rev_involutive in E1. injection E2 as -> E2. apply (f_equal (@rev ascii)) in E2. rewrite !rev_involutive in E2.
    subst. auto.
  - apply Forall_forall. intros c I. apply R1, in_rev. exact I.
  - apply Forall_forall. intros c I. apply R2, in_rev. exact I.
  - intros c l X K. injection X as <- _. auto.
  - intros c l X K. injection X as <- _. auto.
Qed.
Lemma blanks_iff : forall l, Forall (fun c => blank c = true) l <-> gap l.
Proof.
  intros l. rewrite Forall_forall. unfold gap, incl. split; intros H c I; specialize (H c I).
  - unfold blank in H. apply orb_true_iff in H as [H|H]; apply is_iff in H as ->; cbn; auto.
  - unfold blank. apply orb_true_iff. destruct H as [<-|[<-|[]]]; [left|right]; apply is_iff; reflexivity.
Qed.
Lemma gap_not_digit : forall b c, gap b -> In c b -> ~ In c figures.
Proof. intros b c G I. destruct (G c I) as [<-|[<-|[]]]; cbn; intuition discriminate. Qed.
Lemma ending_not_digit : forall e c, ending e -> In c e -> ~ In c figures.
Proof. intros e c [->| ->] I; [destruct I|]. destruct I as [<-|[]]. cbn. intuition discriminate. Qed.
(** Between the gap and the end. *)
Lemma cut_middle : forall b1 k1 e1 b2 k2 e2, gap b1 -> gap b2 -> ending e1 -> ending e2 ->
  (forall c, In c k1 -> c <> newline /\ c <> " " /\ c <> ascii_of_nat 9) -> (forall c, In c k2 -> c <> newline /\ c <> " " /\ c <> ascii_of_nat 9) ->
  b1 ++ k1 ++ e1 = b2 ++ k2 ++ e2 -> k1 = k2.
Proof.
  assert (H : forall k e, ending e -> (forall c, In c k -> c <> newline /\ c <> " " /\ c <> ascii_of_nat 9) ->
     forall c l, k ++ e = c :: l -> ~ In c [" "; ascii_of_nat 9]).
  { intros k e E K c l X I. destruct k as [|d k].
    - cbn [app] in X. subst e. destruct E as [E|E]; [discriminate E|]. injection E as -> _. cbn in I. intuition discriminate.
    - injection X as -> _. destruct (K c (or_introl eq_refl)) as [_ [K1 K2]]. cbn [In] in I. intuition congruence. }
  intros b1 k1 e1 b2 k2 e2 G1 G2 E1 E2 K1 K2 X. apply (cut (fun c => In c [" "; ascii_of_nat 9])) in X as [_ X]; eauto.
  - apply (cut (fun c => c <> newline)) in X as [-> _]; auto.
    + apply Forall_forall. intros c I. apply K1. exact I.
    + apply Forall_forall. intros c I. apply K2. exact I.
    + intros c l ->. destruct E1 as [E|E]; [discriminate E|]. injection E as -> _. auto.
    + intros c l ->. destruct E2 as [E|E]; [discriminate E|]. injection E as -> _. auto.
  - apply Forall_forall. intros c I. apply G1. exact I.
  - apply Forall_forall. intros c I. apply G2. exact I.
Qed.
Definition tame (k : text) : bool := forallb (fun c => negb (inb c (newline :: " " :: ascii_of_nat 9 :: figures))) k.
Lemma tame_ok : forall k, tame k = true -> (forall c, In c k -> c <> newline /\ c <> " " /\ c <> ascii_of_nat 9) /\ (forall c, In c k -> ~ In c figures).
Proof.
  intros k T. unfold tame in T. rewrite forallb_forall in T. split; intros c I; specialize (T c I); apply negb_true_iff in T.
  - assert (N : ~ In c (newline :: " " :: ascii_of_nat 9 :: figures)) by (rewrite <- inb_iff, T; discriminate). cbn [In] in N. repeat split; intros ->; apply N; auto.
  - intros K. assert (N : In c (newline :: " " :: ascii_of_nat 9 :: figures)) by (cbn [In]; auto). apply inb_iff in N. congruence.
Qed.
Lemma in_tame : forall (ks : list text) k, forallb tame ks = true -> In k ks -> tame k = true.
Proof. intros ks k F I. rewrite forallb_forall in F. auto. Qed.
Lemma nodigits : forall b k e, gap b -> tame k = true -> ending e -> forall c, In c (b ++ k ++ e) -> ~ In c figures.
Proof.
  intros b k e G T E c I. rewrite !in_app_iff in I. destruct I as [I|[I|I]]; [eapply gap_not_digit|apply (tame_ok k T)|eapply ending_not_digit]; eauto.
Qed.

Lemma percent_sound : forall l v kind, reg_percent_value l = Some (v, kind) ->
  exists b e, l = v ++ b ++ kind ++ e /\ number v /\ gap b /\ In kind percent_kinds /\ ending e.
Proof.
  intros l v kind H. destruct (proj1 number_den _ _ _ _ _ H) as [n [l1 [-> [N H1]]]]. cbn [app] in H1.
  destruct (proj1 (many_den blank) _ _ _ _ _ H1) as [b [l2 [-> [B H2]]]].
  destruct (proj1 (alt_den percent_kinds) _ _ _ _ _ H2) as [k [l3 [-> [K H3]]]]. cbn [app] in H3.
  destruct (at_end l3) eqn:E; [|discriminate H3]. injection H3 as -> ->. exists b, l3. apply blanks_iff in B. apply at_end_iff in E. auto 6.
Qed.
Lemma percent_complete : forall v b kind e, number v -> gap b -> In kind percent_kinds -> ending e -> reg_percent_value (v ++ b ++ kind ++ e) <> None.
Proof.
  intros v b kind e N G K E. apply (proj2 number_den); [exact N|]. apply (proj2 (many_den blank)); [apply blanks_iff; exact G|].
  apply (proj2 (alt_den percent_kinds)); [exact K|]. apply at_end_iff in E. rewrite E. discriminate.
Qed.
Lemma eqb_chars_iff : forall a b, eqb_chars a b = true <-> a = b.
Proof. intros a b. unfold eqb_chars. destruct (list_eq_dec ascii_dec a b); split; congruence. Qed.
Lemma percent_read : forall v b kind e, number v -> gap b -> In kind percent_kinds -> ending e -> reg_percent_value (v ++ b ++ kind ++ e) = Some (v, kind).
Proof.
  intros v b kind e N G K E. destruct (reg_percent_value (v ++ b ++ kind ++ e)) as [[v' kind']|] eqn:H; [|exfalso; exact (percent_complete _ _ _ _ N G K E H)].
  destruct (percent_sound _ _ _ H) as [b' [e' [X [N' [G' [K' E']]]]]].
  assert (T : tame kind = true) by (eapply in_tame; [|exact K]; vm_compute; reflexivity).
  assert (T' : tame kind' = true) by (eapply in_tame; [|exact K']; vm_compute; reflexivity).
  apply cut_number in X as [-> X]; auto; try (apply nodigits; auto).
  apply cut_middle in X as ->; auto; apply tame_ok; auto.
Qed.
(** Percentages: hundredths, millionths and billionths of a number. *)
Theorem C69_percent : forall value l,
  (forall q, percentvalue_constructor value l = Ok q <->
     exists n b kind factor e, l = n ++ b ++ kind ++ e /\ number n /\ gap b /\ In (kind, factor) percents /\ ending e /\ q = (value n * factor)%Q) /\
  (forall e, percentvalue_constructor value l = Err e -> e = AttributeError).
Proof.
  assert (K : forall value n b kind factor e, number n -> gap b -> In (kind, factor) percents -> ending e -> percentvalue_constructor value (n ++ b ++ kind ++ e) = Ok (value n * factor)%Q).
  { intros value n b kind factor e N G I E. unfold percentvalue_constructor. rewrite percent_read; auto.
    - cbn in I. destruct I as [I|[I|[I|[]]]]; injection I as <- <-; reflexivity.
    - apply (in_map fst) in I. exact I. }
  assert (S1 : forall value l v kind, reg_percent_value l = Some (v, kind) -> exists factor, In (kind, factor) percents /\ percentvalue_constructor value l = Ok (value v * factor)%Q).
  { intros value l v kind R. destruct (percent_sound _ _ _ R) as [b [e [-> [N [G [I E]]]]]].
    assert (exists factor, In (kind, factor) percents) as [factor F].
    { cbn in I. destruct I as [<-|[<-|[<-|[]]]]; eexists; cbn; eauto. }
    exists factor. split; [exact F|]. apply K; auto. }
  intros value l. split.
  - intros q. split.
    + intros H. destruct (reg_percent_value l) as [[v kind]|] eqn:R; [|unfold percentvalue_constructor in H; rewrite R in H; discriminate H].
      destruct (S1 value l v kind R) as [factor [F C]]. rewrite C in H. injection H as <-.
      destruct (percent_sound _ _ _ R) as [b [e [-> [N [G [I E]]]]]]. exists v, b, kind, factor, e. auto 8.
    + intros [n [b [kind [factor [e [-> [N [G [I [E ->]]]]]]]]]]. apply K; auto.
  - intros e H. destruct (reg_percent_value l) as [[v kind]|] eqn:R.
    + destruct (S1 value l v kind R) as [factor [F C]]. rewrite C in H. discriminate H.
    + unfold percentvalue_constructor in H. rewrite R in H. injection H as <-. reflexivity.
Qed.
Print Assumptions C69_percent.

(** *** SI units *)
Lemma prefix_iff : forall c, one_of si_prefix_letters c = true <-> exists z, In (c, z) prefixes.
Proof.
  intros c. assert (H : Bool.eqb (one_of si_prefix_letters c) (inb c (map fst prefixes)) = true) by (revert c; apply all_chars; vm_compute; reflexivity).
  apply eqb_prop in H. rewrite H, inb_iff, in_map_iff. split.
  - intros [[c' z] [<- I]]. eauto.
  - intros [z I]. exists (c, z). auto.
Qed.
Lemma prefix_value : forall c z, In (c, z) prefixes -> assoc_char c siprefixes = Some z.
Proof. intros c z I. cbn in I. repeat (destruct I as [I|I]; [injection I as <- <-; reflexivity|]). destruct I. Qed.
Definition si_pieces (l num : text) (e u : option text) : Prop :=
  exists b t, l = num ++ b ++ match e with None => [] | Some p => p end ++ match u with None => [] | Some w => w end ++ t /\
    number num /\ gap b /\ ending t /\ (e = None \/ exists c z, e = Some [c] /\ In (c, z) prefixes) /\ (u = None \/ exists w, u = Some w /\ In w units).
Lemma si_sound : forall l num e u, reg_si_value l = Some (num, e, u) -> si_pieces l num e u.
Proof.
  intros l num e u H. destruct (proj1 number_den _ _ _ _ _ H) as [n [l1 [-> [N H1]]]]. cbn [app] in H1.
  destruct (proj1 (many_den blank) _ _ _ _ _ H1) as [b [l2 [-> [B H2]]]].
  destruct (proj1 (maybe_den _ _ (single_den (one_of si_prefix_letters))) _ _ _ _ _ H2) as [p [l3 [-> [P H3]]]].
  destruct (proj1 (maybe_den _ _ (alt_den config_units)) _ _ _ _ _ H3) as [w [l4 [-> [W H4]]]]. cbn [app] in H4.
  destruct (at_end l4) eqn:E; [|discriminate H4]. injection H4 as <- <- <-. apply blanks_iff in B. apply at_end_iff in E.
  exists b, l4. split; [f_equal; f_equal; destruct p, w; reflexivity|]. split; [exact N|]. split; [exact B|]. split; [exact E|]. split.
  - destruct P as [->|[c [-> P]]]; [left; reflexivity|right]. apply prefix_iff in P as [z P]. exists c, z. auto.
  - destruct W as [->|W]; [left; reflexivity|]. destruct w as [|c w]; [left; reflexivity|right]. exists (c :: w). auto.
Qed.
Lemma units_tame : forall w, In w units -> tame w = true /\ w <> [].
Proof.
  intros w I. split; [eapply in_tame; [|exact I]; vm_compute; reflexivity|]. intros ->. cbn in I. intuition discriminate.
Qed.
Lemma prefix_tame : forall c z, In (c, z) prefixes -> tame [c] = true.
Proof.
  intros c z I. assert (F : forallb (fun p => tame [fst p]) prefixes = true) by (vm_compute; reflexivity). rewrite forallb_forall in F. exact (F _ I).
Qed.
Lemma tame_app : forall a b, tame (a ++ b) = tame a && tame b.
Proof. intros a b. apply forallb_app. Qed.
Lemma si_unique : forall l n1 e1 u1 n2 e2 u2, si_pieces l n1 e1 u1 -> si_pieces l n2 e2 u2 ->
  n1 = n2 /\ match e1 with None => [] | Some p => p end ++ match u1 with None => [] | Some w => w end = match e2 with None => [] | Some p => p end ++ match u2 with None => [] | Some w => w end.
Proof.
  assert (T : forall e u, (e = None \/ exists c z, e = Some [c] /\ In (c, z) prefixes) -> (u = None \/ exists w, u = Some w /\ In w units) ->
    tame (match e with None => [] | Some p => p end ++ match u with None => [] | Some w => w end) = true).
  { intros e u E U. rewrite tame_app. apply andb_true_iff. split.
    - destruct E as [->|[c [z [-> I]]]]; [reflexivity|eapply prefix_tame; eauto].
    - destruct U as [->|[w [-> I]]]; [reflexivity|apply units_tame; exact I]. }
  intros l n1 e1 u1 n2 e2 u2 [b1 [t1 [-> [N1 [G1 [E1 [P1 U1]]]]]]] [b2 [t2 [X [N2 [G2 [E2 [P2 U2]]]]]]].
  specialize (T _ _ P1 U1) as T1. specialize (T _ _ P2 U2) as T2. clear T P1 P2 U1 U2.
  rewrite (app_assoc _ _ t1), (app_assoc _ _ t2) in X. apply cut_number in X as [-> X]; auto; try (apply nodigits; auto).
  split; [reflexivity|]. apply cut_middle in X; auto; apply tame_ok; auto.
Qed.
Lemma si_complete : forall l n e u, si_pieces l n e u -> reg_si_value l <> None.
Proof.
  intros l n e u [b [t [-> [N [G [E [P U]]]]]]]. apply (proj2 number_den); [exact N|]. apply (proj2 (many_den blank)); [apply blanks_iff; exact G|].
  apply (proj2 (maybe_den _ _ (single_den (one_of si_prefix_letters)))).
  - destruct P as [->|[c [z [-> P]]]]; [left; reflexivity|right]. exists c. split; [reflexivity|]. apply prefix_iff. eauto.
  - apply (proj2 (maybe_den _ _ (alt_den config_units))).
    + destruct U as [->|[w [-> U]]]; [left; reflexivity|right; exact U].
    + apply at_end_iff in E. rewrite E. discriminate.
Qed.
(** With and without a prefix only metre and milli- look the same. *)
Lemma only_metre : forall c z w w', In (c, z) prefixes -> (w = [] \/ In w units) -> In w' units -> c :: w = w' -> c = "m" /\ w = [] /\ w' = txt "m".
Proof.
  intros c z w w' P W W' E.
  assert (F : forallb (fun p => forallb (fun w => forallb (fun w' => implb (eqb_chars (fst p :: w) w') (eqb_chars (fst p :: w) (txt "m"))) units) ([] :: units)) prefixes = true)
    by (vm_compute; reflexivity).
  rewrite forallb_forall in F. specialize (F _ P). cbn [fst] in F. rewrite forallb_forall in F. assert (IW : In w ([] :: units)) by (destruct W as [->|W]; cbn [In]; auto).
  specialize (F w IW). rewrite forallb_forall in F. specialize (F w' W'). rewrite (proj2 (eqb_chars_iff _ _) E) in F. cbn [implb] in F.
  apply eqb_chars_iff in F. rewrite F in E. injection F as -> ->. auto.
Qed.
Lemma si_not_metre : forall l n, reg_si_value l = Some (n, None, Some (txt "m")) -> False.
Proof.
  intros l n H. destruct (proj1 number_den _ _ _ _ _ H) as [n' [l1 [-> [N H1]]]]. cbn [app] in H1.
  destruct (proj1 (many_den blank) _ _ _ _ _ H1) as [b [l2 [-> [B H2]]]]. clear H H1.
  match type of H2 with maybe ?g ?k ?a ?l = _ => unfold maybe at 1 in H2; destruct (g k a l) as [y|] eqn:E end.
  - injection H2 as ->. destruct (proj1 (single_den _) _ _ _ _ _ E) as [p [l3 [-> [[c [-> P]] H3]]]]. cbn [app] in H3.
    destruct (proj1 (maybe_den _ _ (alt_den config_units)) _ _ _ _ _ H3) as [w [l4 [-> [W H4]]]].
    destruct (at_end l4); [|discriminate H4]. discriminate H4.
  - destruct (proj1 (maybe_den _ _ (alt_den config_units)) _ _ _ _ _ H2) as [w [l4 [-> [W H4]]]]. cbn [app] in H4.
    destruct (at_end l4) eqn:EN; [|discriminate H4]. injection H4 as -> H4. destruct w as [|c w]; [discriminate H4|]. injection H4 as -> ->.
    revert E. apply (proj2 (single_den (one_of si_prefix_letters)) _ _ [] ["m"] l4); [exists "m"; split; reflexivity|].
    apply (proj2 (maybe_den _ _ (alt_den config_units)) _ _ [] [] l4); [left; reflexivity|]. rewrite EN. discriminate.
Qed.
Lemma si_read : forall l n e u, si_pieces l n e u -> ~ (e = None /\ u = Some (txt "m")) -> reg_si_value l = Some (n, e, u).
Proof.
  intros l n e u P NM. destruct (reg_si_value l) as [[[n' e'] u']|] eqn:H; [|exfalso; exact (si_complete _ _ _ _ P H)].
  assert (NM' : ~ (e' = None /\ u' = Some (txt "m"))) by (intros [-> ->]; exact (si_not_metre _ _ H)).
  pose proof (si_sound _ _ _ _ H) as P'. destruct (si_unique _ _ _ _ _ _ _ P P') as [-> E].
  destruct P as [_ [_ [_ [_ [_ [_ [PE PU]]]]]]]. destruct P' as [_ [_ [_ [_ [_ [_ [PE' PU']]]]]]].
  assert (U : forall u u', (u = None \/ exists w, u = Some w /\ In w units) -> (u' = None \/ exists w, u' = Some w /\ In w units) ->
     match u with None => [] | Some w => w end = match u' with None => [] | Some w => w end -> u = u').
  { clear. intros u u' [->|[w [-> I]]] [->|[w' [-> I']]] E; auto.
    - apply units_tame in I' as [_ I']. congruence.
    - apply units_tame in I as [_ I]. congruence.
    - congruence. }
  destruct PE as [->|[c [z [-> I]]]]; destruct PE' as [->|[c' [z' [-> I']]]]; cbn [app] in E.
  - rewrite (U u u'); auto.
  - exfalso. destruct PU as [->|[w [-> W]]]; [discriminate E|]. symmetry in E. apply (only_metre c' z' _ w I') in E as [_ [_ ->]]; auto.
    destruct PU' as [->|[w' [-> W']]]; auto.
  - exfalso. destruct PU' as [->|[w [-> W]]]; [discriminate E|]. apply (only_metre c z _ w I) in E as [_ [_ ->]]; auto.
    destruct PU as [->|[w' [-> W']]]; auto.
  - injection E as -> E. rewrite (U u u'); auto.
Qed.
(** Numbers with SI units: a number, blanks, a prefix and a unit, of which prefix
    and unit may be missing; but an m alone is not the unit metre. *)
Theorem C69_si : forall value l,
  (forall x u, convert_si_value value l = Some (x, u) <->
     exists n b p w t, l = n ++ b ++ p ++ w ++ t /\ number n /\ gap b /\ ending t /\
       ((p = [] /\ x = value n) \/ exists c z, p = [c] /\ In (c, z) prefixes /\ x = (value n * 10 ^ z)%Q) /\
       ((w = [] /\ u = None) \/ (In w units /\ u = Some w)) /\ ~ (p = [] /\ w = txt "m")) /\
  (convert_si_value value l = None -> new_sivalue value l = (value l, None)) /\
  (forall r, convert_si_value value l = Some r -> new_sivalue value l = r).
Proof.
  intros value l. split; [|unfold new_sivalue; split; [intros ->; reflexivity|intros r ->; reflexivity]].
  assert (V : forall n e u, si_pieces l n e u -> reg_si_value l = Some (n, e, u) ->
     forall x u', convert_si_value value l = Some (x, u') <-> u' = u /\ x = match e with Some [c] => match assoc_char c siprefixes with Some z => (value n * 10 ^ z)%Q | None => 0%Q end | _ => value n end).
  { intros n e u P H x u'. unfold convert_si_value. rewrite H. destruct P as [_ [_ [_ [_ [_ [_ [[->|[c [z [-> I]]]] _]]]]]]].
    - split; [intros K; injection K as <- <-; auto|intros [-> ->]; reflexivity].
    - rewrite (prefix_value _ _ I). split; [intros K; injection K as <- <-; auto|intros [-> ->]; reflexivity]. }
  intros x u. split.
  - intros H. destruct (reg_si_value l) as [[[n e] u0]|] eqn:R; [|unfold convert_si_value in H; rewrite R in H; discriminate H].
    pose proof (si_sound _ _ _ _ R) as P. apply (V _ _ _ P eq_refl) in H as [-> ->]. destruct P as [b [t [-> [N [G [E [PE PU]]]]]]].
    exists n, b, (match e with None => [] | Some p => p end), (match u0 with None => [] | Some w => w end), t.
    split; [reflexivity|]. split; [exact N|]. split; [exact G|]. split; [exact E|]. split; [|split].
    + destruct PE as [->|[c [z [-> I]]]]; [left; auto|right]. exists c, z. rewrite (prefix_value _ _ I). auto.
    + destruct PU as [->|[w [-> I]]]; auto.
    + intros [E1 E2]. destruct PE as [->|[c [z [-> I]]]]; [|discriminate E1]. destruct PU as [->|[w [-> I]]]; [discriminate E2|]. subst w.
      exact (si_not_metre _ _ R).
  - intros [n [b [p [w [t [-> [N [G [E [PE [PU NM]]]]]]]]]]].
    set (e := match p with [] => None | _ => Some p end). set (u0 := u).
    assert (Ee : p = match e with None => [] | Some p => p end) by (unfold e; destruct p; reflexivity).
    assert (Eu : w = match u with None => [] | Some w => w end) by (destruct PU as [[-> ->]|[_ ->]]; reflexivity).
    assert (P : si_pieces (n ++ b ++ p ++ w ++ t) n e u).
    { exists b, t. split; [rewrite Eu at 1; rewrite Ee at 1; reflexivity|]. split; [exact N|]. split; [exact G|]. split; [exact E|]. split.
      - destruct PE as [[-> _]|[c [z [-> [I _]]]]]; [left; reflexivity|right; exists c, z; auto].
      - destruct PU as [[_ ->]|[I ->]]; [auto|right; eauto]. }
    assert (R : reg_si_value (n ++ b ++ p ++ w ++ t) = Some (n, e, u)).
    { apply si_read; [exact P|]. intros [E1 ->]. apply NM. rewrite Ee, E1. auto. }
    apply (V _ _ _ P R). split; [reflexivity|]. destruct PE as [[-> ->]|[c [z [-> [I ->]]]]]; [reflexivity|]. cbn [e]. rewrite (prefix_value _ _ I). reflexivity.
Qed.
Print Assumptions C69_si.

(** A number of metres is read as thousandths without a unit. *)
Theorem C69_metre : forall value n b t, number n -> gap b -> ending t ->
  convert_si_value value (n ++ b ++ txt "m" ++ t) = Some ((value n * 10 ^ (-3))%Q, None).
Proof.
  intros value n b t N G E. apply C69_si. exists n, b, (txt "m"), [], t. split; [reflexivity|]. split; [exact N|]. split; [exact G|]. split; [exact E|].
  split; [right; exists "m", (-3)%Z; cbn; auto 14|]. split; [auto|]. intros [K _]. discriminate K.
Qed.
Print Assumptions C69_metre.
(** What is written is read back, but for metres. *)
Theorem C69_si_roundtrip : forall value show x u, number (show x) -> (u = None \/ exists w, u = Some w /\ In w units /\ w <> txt "m") ->
  new_sivalue value (sivalue_representer show (x, u)) = (value (show x), u).
Proof.
  intros value show x u N U. apply C69_si. apply C69_si. unfold sivalue_representer. cbn [fst snd].
  destruct U as [->|[w [-> [I M]]]].
  - exists (show x), [], [], [], []. rewrite !app_nil_r. repeat split; auto; try (intros c []); [left; reflexivity|]. intros [_ K]. discriminate K.
  - exists (show x), [], [], w, []. rewrite !app_nil_r. repeat split; auto; try (intros c []); [left; reflexivity|]. intros [_ K]. exact (M K).
Qed.
Theorem C69_si_metres : forall value show x, number (show x) ->
  new_sivalue value (sivalue_representer show (x, Some (txt "m"))) = ((value (show x) * 10 ^ (-3))%Q, None).
Proof.
  intros value show x N. apply C69_si. unfold sivalue_representer. cbn [fst snd].
  pose proof (C69_metre value (show x) [] [] N (fun c I => match I with end) (or_introl eq_refl)) as H. rewrite app_nil_r in H. exact H.
Qed.
Print Assumptions C69_si_roundtrip.
Print Assumptions C69_si_metres.

(** ** Times of the day *)
Lemma figure_nth : forall c, In c figures -> exists a, nth_error figures a = Some c /\ digit_value c = a /\ a < 10.
Proof.
  intros c I. cbn in I. repeat (destruct I as [<-|I]; [first [exists 0; repeat split; (reflexivity || lia)|exists 1; repeat split; (reflexivity || lia)|exists 2; repeat split; (reflexivity || lia)
    |exists 3; repeat split; (reflexivity || lia)|exists 4; repeat split; (reflexivity || lia)|exists 5; repeat split; (reflexivity || lia)|exists 6; repeat split; (reflexivity || lia)
    |exists 7; repeat split; (reflexivity || lia)|exists 8; repeat split; (reflexivity || lia)|exists 9; repeat split; (reflexivity || lia)]|]). destruct I.
Qed.
Lemma two_digits_iff : forall n l, two_digits n l <-> exists x y, l = [x; y] /\ is_digit x = true /\ is_digit y = true /\ n = Z.of_nat (digits_value l).
Proof.
  intros n l. split.
  - intros [a [b [x [y [A [B [-> ->]]]]]]]. pose proof (nth_error_In _ _ A) as IA. pose proof (nth_error_In _ _ B) as IB.
    exists x, y. split; [reflexivity|]. split; [apply digit_iff; exact IA|]. split; [apply digit_iff; exact IB|]. f_equal.
    destruct (figure_nth _ IA) as [a' [A1 [A2 A3]]]. destruct (figure_nth _ IB) as [b' [B1 [B2 B3]]].
    assert (ND : NoDup figures) by (cbn; repeat (apply NoDup_cons; [cbn; intuition discriminate|]); apply NoDup_nil).
    assert (a' = a) by (apply (proj1 (NoDup_nth_error figures) ND); [change (length figures) with 10; exact A3|congruence]).
    assert (b' = b) by (apply (proj1 (NoDup_nth_error figures) ND); [change (length figures) with 10; exact B3|congruence]).
    unfold digits_value. cbn [fold_left]. lia.
  - intros [x [y [-> [X [Y ->]]]]]. apply digit_iff in X. apply digit_iff in Y. destruct (figure_nth _ X) as [a [A1 [A2 A3]]]. destruct (figure_nth _ Y) as [b [B1 [B2 B3]]].
    exists a, b, x, y. split; [exact A1|]. split; [exact B1|]. split; [reflexivity|]. f_equal. unfold digits_value. cbn [fold_left]. lia.
Qed.
Lemma regtime_iff : forall l h m s, regtime l = Some (h, m, s) <->
  exists a b c d r, l = a :: b :: ":" :: c :: d :: r /\ is_digit a = true /\ is_digit b = true /\ is_digit c = true /\ is_digit d = true /\
    h = [a; b] /\ m = [c; d] /\
    ((exists e f r', s = Some [e; f] /\ r = ":" :: e :: f :: r' /\ is_digit e = true /\ is_digit f = true) \/
     (s = None /\ forall e f r', r = ":" :: e :: f :: r' -> is_digit e = true -> is_digit f = true -> False)).
Proof.
  assert (C : forall x, is ":" x = true <-> x = ":") by (intros x; apply is_iff).
  intros l h m s. unfold regtime, re_2digits, re_colon, Model_ConfigText.seq, single. split.
  - intros H. destruct l as [|a l]; [discriminate H|]. destruct (is_digit a) eqn:A; [|discriminate H].
    destruct l as [|b l]; [discriminate H|]. destruct (is_digit b) eqn:B; [|discriminate H].
    destruct l as [|x l]; [discriminate H|]. destruct (is ":" x) eqn:X; [|discriminate H]. apply C in X as ->.
    destruct l as [|c l]; [discriminate H|]. destruct (is_digit c) eqn:Cc; [|discriminate H].
    destruct l as [|d r]; [discriminate H|]. destruct (is_digit d) eqn:D; [|discriminate H].
    exists a, b, c, d, r. cbn [app] in H. split; [reflexivity|]. do 4 (split; [assumption|]).
    assert (K : forall o, o = match r with
        | [] => None
        | c0 :: l' => if is ":" c0 then match l' with
            | [] => None
            | c1 :: l'0 => if is_digit c1 then match l'0 with [] => None | c2 :: _ => if is_digit c2 then Some ([a; b], [c; d], Some [c1; c2]) else None end else None
            end else None
        end -> (exists e f r', o = Some ([a; b], [c; d], Some [e; f]) /\ r = ":" :: e :: f :: r' /\ is_digit e = true /\ is_digit f = true) \/
               (o = None /\ forall e f r', r = ":" :: e :: f :: r' -> is_digit e = true -> is_digit f = true -> False)).
    { clear - C. intros o E. destruct r as [|y r]; [right; split; [exact E|intros; discriminate]|]. destruct (is ":" y) eqn:Y.
      - apply C in Y as ->. destruct r as [|e r]; [right; split; [exact E|intros; discriminate]|]. destruct (is_digit e) eqn:Ee.
        + destruct r as [|f r]; [right; split; [exact E|intros; discriminate]|]. destruct (is_digit f) eqn:Ef.
          * left. exists e, f, r. auto.
          * right. split; [exact E|]. intros e' f' r' Q E1 F1. injection Q as <- <- <-. congruence.
        + right. split; [exact E|]. intros e' f' r' Q E1 F1. injection Q as <- Q. congruence.
      - right. split; [exact E|]. intros e' f' r' Q. injection Q as -> _. rewrite (proj2 (C ":") eq_refl) in Y. discriminate Y. }
    match type of H with match ?o with _ => _ end = _ => destruct (K o eq_refl) as [[e [f [r' [Eo [-> [Ee Ef]]]]]]|[Eo N]] end.
    + rewrite Eo in H. injection H as <- <- <-. split; [reflexivity|]. split; [reflexivity|]. left. exists e, f, r'. auto.
    + rewrite Eo in H. injection H as <- <- <-. split; [reflexivity|]. split; [reflexivity|]. right. auto.
  - intros [a [b [c [d [r [-> [A [B [Cc [D [-> [-> O]]]]]]]]]]]]. cbn [app]. rewrite A, B, Cc, D. change (is ":" ":") with true. cbv beta iota.
    destruct O as [[e [f [r' [-> [-> [Ee Ef]]]]]]|[-> N]].
    + change (is ":" ":") with true. cbv beta iota. rewrite Ee. cbv beta iota. rewrite Ef. reflexivity.
    + destruct r as [|y r]; [reflexivity|]. destruct (is ":" y) eqn:Y; [|reflexivity]. apply C in Y as ->. destruct r as [|e r]; [reflexivity|].
      destruct (is_digit e) eqn:Ee; [|reflexivity]. destruct r as [|f r]; [reflexivity|]. destruct (is_digit f) eqn:Ef; [|reflexivity].
      exfalso. eapply N; eauto.
Qed.
Lemma regtime_shows : forall l h m s, regtime l = Some (h, m, s) ->
  shows_time l (Z.of_nat (digits_value h)) (Z.of_nat (digits_value m)) (Z.of_nat match s with None => 0 | Some t => digits_value t end).
Proof.
  intros l h m s H. apply regtime_iff in H as [a [b [c [d [r [-> [A [B [C [D [-> [-> O]]]]]]]]]]]].
  destruct O as [[e [f [r' [-> [-> [E F]]]]]]|[-> N]].
  - exists [a; b], [c; d], r'. split; [apply two_digits_iff; exists a, b; auto|]. split; [apply two_digits_iff; exists c, d; auto|].
    left. exists [e; f]. split; [apply two_digits_iff; exists e, f; auto|reflexivity].
  - exists [a; b], [c; d], r. split; [apply two_digits_iff; exists a, b; auto|]. split; [apply two_digits_iff; exists c, d; auto|].
    right. split; [reflexivity|]. split; [reflexivity|]. intros n ts rest' T E. apply two_digits_iff in T as [x [y [-> [X [Y _]]]]]. exact (N x y rest' E X Y).
Qed.
Lemma shows_regtime : forall l h m s, shows_time l h m s -> exists th tm ts, regtime l = Some (th, tm, ts) /\
  h = Z.of_nat (digits_value th) /\ m = Z.of_nat (digits_value tm) /\ s = Z.of_nat match ts with None => 0 | Some t => digits_value t end.
Proof.
  intros l h m s [th [tm [rest [H [M O]]]]]. apply two_digits_iff in H as [a [b [-> [A [B ->]]]]]. apply two_digits_iff in M as [c [d [-> [C [D ->]]]]].
  destruct O as [[ts [T ->]]|[-> [-> N]]].
  - apply two_digits_iff in T as [e [f [-> [E [F ->]]]]]. exists [a; b], [c; d], (Some [e; f]). split; [|auto].
    apply regtime_iff. exists a, b, c, d, (":" :: e :: f :: rest). split; [reflexivity|]. do 4 (split; [assumption|]). split; [reflexivity|]. split; [reflexivity|].
    left. exists e, f, rest. auto.
  - exists [a; b], [c; d], None. split; [|auto]. apply regtime_iff. exists a, b, c, d, rest. split; [reflexivity|]. do 4 (split; [assumption|]).
    split; [reflexivity|]. split; [reflexivity|]. right. split; [reflexivity|]. intros e f r' -> E F.
    apply (N (Z.of_nat (digits_value [e; f])) [e; f] r'); [|reflexivity]. apply two_digits_iff. exists e, f. auto.
Qed.
(** A time of the day is the next moment at which the clock shows it. *)
Theorem C69_time : forall now l,
  (forall r, time_constructor now l = Ok r <-> exists h m s, shows_time l h m s /\ (h < 24)%Z /\ (m < 60)%Z /\ (s < 60)%Z /\ next_time now h m s r) /\
  ((forall h m s, ~ shows_time l h m s) -> time_constructor now l = Err AttributeError) /\
  (forall h m s, shows_time l h m s -> (24 <= h \/ 60 <= m \/ 60 <= s)%Z -> time_constructor now l = Err ValueError).
Proof.
  intros now l.
  assert (K : forall th tm ts, regtime l = Some (th, tm, ts) -> forall h m s, h = Z.of_nat (digits_value th) -> m = Z.of_nat (digits_value tm) ->
     s = Z.of_nat match ts with None => 0 | Some t => digits_value t end ->
     ((h < 24 /\ m < 60 /\ s < 60)%Z /\ exists r, time_constructor now l = Ok r /\ next_time now h m s r) \/
     ((24 <= h \/ 60 <= m \/ 60 <= s)%Z /\ time_constructor now l = Err ValueError)).
  { intros th tm ts R h m s -> -> ->. unfold time_constructor. rewrite R. set (h := digits_value th). set (m := digits_value tm). set (s := match ts with None => 0 | Some t => digits_value t end).
    unfold clock_time. destruct (h <? 24) eqn:H; [destruct (m <? 60) eqn:M; [destruct (s <? 60) eqn:S1|]|]; cbn [andb bind].
    - left. apply Nat.ltb_lt in H. apply Nat.ltb_lt in M. apply Nat.ltb_lt in S1. split; [lia|]. eexists. split; [reflexivity|].
      unfold next_time, day, second. set (t := ((Z.of_nat h * 3600 + Z.of_nat m * 60 + Z.of_nat s) * 1000000)%Z).
      change (86400 * 1000000)%Z with 86400000000%Z. change (24 * 60 * 60 * 1000000)%Z with 86400000000%Z.
      assert (T : (0 <= t < 86400000000)%Z) by (unfold t; lia).
      assert (E : (((Z.of_nat h * 60 + Z.of_nat m) * 60 + Z.of_nat s) * 1000000 = t)%Z) by (unfold t; ring). rewrite E.
      pose proof (Z.div_mod now 86400000000 ltac:(lia)) as DM. pose proof (Z.mod_pos_bound now 86400000000 ltac:(lia)) as MB.
      destruct (now / 86400000000 * 86400000000 + t <? now)%Z eqn:L.
      + apply Z.ltb_lt in L. split; [|lia]. replace (now / 86400000000 * 86400000000 + t + 86400000000)%Z with (t + (now / 86400000000 + 1) * 86400000000)%Z by ring.
        rewrite Z.mod_add by lia. apply Z.mod_small. exact T.
      + apply Z.ltb_ge in L. split; [|lia]. rewrite Z.add_comm, Z.mod_add by lia. apply Z.mod_small. exact T.
    - right. apply Nat.ltb_ge in S1. split; [lia|reflexivity].
    - right. apply Nat.ltb_ge in M. split; [lia|reflexivity].
    - right. apply Nat.ltb_ge in H. split; [lia|reflexivity]. }
  assert (U : forall h m s r r', next_time now h m s r -> next_time now h m s r' -> r = r').
  { intros h m s r r' [A1 [A2 A3]] [B1 [B2 B3]]. change (24 * 60 * 60 * 1000000)%Z with 86400000000%Z in *.
    pose proof (Z.div_mod r 86400000000 ltac:(lia)) as D1. pose proof (Z.div_mod r' 86400000000 ltac:(lia)) as D2.
    assert (r / 86400000000 = r' / 86400000000)%Z by lia. lia. }
  split; [|split].
  - intros r. split.
    + intros H. destruct (regtime l) as [[[th tm] ts]|] eqn:R; [|unfold time_constructor in H; rewrite R in H; discriminate H].
      pose proof (regtime_shows _ _ _ _ R) as S1. destruct (K _ _ _ eq_refl _ _ _ eq_refl eq_refl eq_refl) as [[[A [B C]] [r' [E N]]]|[_ E]]; rewrite E in H; [|discriminate H].
      injection H as <-. do 3 eexists. split; [exact S1|]. auto.
    + intros [h [m [s [S1 [A [B [C N]]]]]]]. destruct (shows_regtime _ _ _ _ S1) as [th [tm [ts [R [E1 [E2 E3]]]]]].
      destruct (K _ _ _ R _ _ _ E1 E2 E3) as [[_ [r' [E N']]]|[O _]]; [|lia]. rewrite E. f_equal. eapply U; eauto.
  - intros H. unfold time_constructor. destruct (regtime l) as [[[th tm] ts]|] eqn:R; [|reflexivity]. exfalso. exact (H _ _ _ (regtime_shows _ _ _ _ R)).
  - intros h m s S1 O. destruct (shows_regtime _ _ _ _ S1) as [th [tm [ts [R [E1 [E2 E3]]]]]]. destruct (K _ _ _ R _ _ _ E1 E2 E3) as [[I _]|[_ E]]; [lia|exact E].
Qed.
Print Assumptions C69_time.
(** What YAML takes for an integer is a time of the day if it begins like one. *)
Theorem C69_int : forall V (moment : Z -> V) yaml_int now l,
  ((forall h m s, ~ shows_time l h m s) -> overrideint moment yaml_int now l = yaml_int l) /\
  (forall h m s, shows_time l h m s -> overrideint moment yaml_int now l = bind (time_constructor now l) (fun t => Ok (moment t))).
Proof.
  intros V moment yaml_int now l. unfold overrideint. split.
  - intros H. destruct (regtime l) as [[[th tm] ts]|] eqn:R; [|reflexivity]. exfalso. exact (H _ _ _ (regtime_shows _ _ _ _ R)).
  - intros h m s S1. destruct (shows_regtime _ _ _ _ S1) as [th [tm [ts [R _]]]]. rewrite R. reflexivity.
Qed.
Print Assumptions C69_int.

(** ** Concrete texts *)
From Verif Require Import Proofs_Text.
(** Reading and writing of whole numbers ("3.0" for three), enough for the cases
    below. *)
Definition ex_value (l : text) : Q := inject_Z (Z.of_nat (digits_value (take_while is_digit l))).
Definition ex_show (x : Q) : text := (if Qle_bool 0 x then [] else ["-"]) ++ print_nat (Z.to_nat (Z.abs (Qfloor x))) ++ [ "."; "0"].
Lemma take_digits : forall d r, Forall (fun c => is_digit c = true) d -> take_while is_digit (d ++ "." :: r) = d.
Proof. induction 1 as [|c d C D IH]; [reflexivity|]. cbn [app take_while]. rewrite C, IH. reflexivity. Qed.
Lemma ex_show_whole : forall z, (0 < z)%Z -> plain (ex_show (inject_Z z)) /\ (ex_value (ex_show (inject_Z z)) == inject_Z z)%Q.
Proof.
  intros z H. unfold ex_show. replace (Qle_bool 0 (inject_Z z)) with true by (symmetry; apply Qle_bool_iff; change 0%Q with (inject_Z 0); rewrite <- Zle_Qle; lia).
  rewrite Qfloor_Z. cbn [app]. split.
  - exists (print_nat (Z.to_nat (Z.abs z))). split; [apply print_nat_nonempty|]. split; [apply digits_iff, print_nat_digits|]. right. exists ["0"]. split; [|reflexivity].
    intros c [<-|[]]. left. reflexivity.
  - unfold ex_value. rewrite take_digits by apply print_nat_digits. rewrite print_nat_value. replace (Z.of_nat (Z.to_nat (Z.abs z))) with z by lia. reflexivity.
Qed.
Example C69_interval_ex :
  timeintervall_representer ex_show 93784 = chars "1.0 days 2.0 hours 3.0 minutes 4.0 seconds" /\
  (exists q, timeintervall_constructor ex_value (timeintervall_representer ex_show 93784) = Ok q /\ (q == 93784)%Q) /\
  timeintervall_representer ex_show (-60) = chars "-1.0 days 23.0 hours 59.0 minutes" /\
  timeintervall_constructor ex_value (timeintervall_representer ex_show (-60)) = Err AttributeError /\
  timeintervall_constructor ex_value (chars "5e-05 seconds") = Err AttributeError /\
  written ex_value interval_units (chars "  3hours 1 second") 10801.
Proof.
  split; [vm_compute; reflexivity|]. split.
  - apply C69_interval_roundtrip; [discriminate| | |].
    + intros x y E. unfold ex_show. rewrite (Qfloor_comp _ _ E). f_equal. destruct (Qle_bool 0 x) eqn:A, (Qle_bool 0 y) eqn:B; auto.
      * apply Qle_bool_iff in A. rewrite E in A. apply Qle_bool_iff in A. congruence.
      * apply Qle_bool_iff in B. rewrite <- E in B. apply Qle_bool_iff in B. congruence.
    + apply ex_show_whole.
    + intros z s E S1 S2. assert (K : z = 1563%Z).
      { assert (A : (1562 < z)%Z) by (rewrite Zlt_Qlt; change (inject_Z 1562) with 1562%Q; lra).
        assert (B : (z < 1564)%Z) by (rewrite Zlt_Qlt; change (inject_Z 1564) with 1564%Q; lra). lia. }
      subst z. change (inject_Z 1563) with 1563%Q in E. assert (Es : (s == inject_Z 4)%Q) by (change (inject_Z 4) with 4%Q; lra).
      destruct (ex_show_whole 4 eq_refl) as [P1 P2].
      replace (ex_show s) with (ex_show (inject_Z 4)).
      * split; [exact P1|]. rewrite P2. symmetry. exact Es.
      * unfold ex_show. rewrite <- (Qfloor_comp _ _ Es). f_equal. replace (Qle_bool 0 s) with true; [reflexivity|]. symmetry. apply Qle_bool_iff. lra.
  - split; [vm_compute; reflexivity|]. split; [apply C69_interval_negative; [reflexivity|]|split; [apply C69_interval_minus; cbn; tauto|]].
    + intros x X. unfold ex_show. destruct (Qle_bool 0 x) eqn:A; [apply Qle_bool_iff in A; lra|]. left. reflexivity.
    + change (chars "  3hours 1 second") with ([" "; " "] ++ ["3"] ++ [] ++ txt "hours" ++ [" "] ++ [] ++ ["1"] ++ [" "] ++ txt "second" ++ [] ++ []).
      apply written_without; [intros c I; cbn in *; tauto|discriminate|].
      apply (written_with ex_value 3600 [txt "hour"; txt "hours"]) with (q := (1)%Q); try (intros c I; cbn in *; tauto); try discriminate.
      * exists ["3"]. split; [discriminate|]. split; [intros c I; cbn in *; tauto|left; reflexivity].
      * cbn; auto.
      * apply written_without; [intros c []|discriminate|].
        apply (written_with ex_value 1 [txt "second"; txt "seconds"]) with (q := 0%Q) (us := []) (b' := []); try (intros c I; cbn in *; tauto); auto.
        -- exists ["1"]. split; [discriminate|]. split; [intros c I; cbn in *; tauto|left; reflexivity].
        -- cbn; auto.
        -- constructor. left. reflexivity.
Qed.
Example C69_ex :
  percentvalue_constructor ex_value (chars "25 %") = Ok (25 * (1 # 100))%Q /\
  convert_si_value ex_value (chars "25 GHz") = Some ((25 * 10 ^ 9)%Q, Some (chars "Hz")) /\
  convert_si_value ex_value (chars "25 m") = Some ((25 * 10 ^ (-3))%Q, None) /\
  convert_si_value ex_value (chars "25 F") = None /\
  number (chars "-2.5e+3") /\
  time_constructor (30 * 3600 * 1000000) (chars "05:30") = Ok (107 * 1800 * 1000000)%Z /\
  time_constructor (30 * 3600 * 1000000) (chars "07:00:01") = Ok (31 * 3600 * 1000000 + 1000000)%Z /\
  time_constructor 0 (chars "25:00") = Err ValueError /\ time_constructor 0 (chars "5:00") = Err AttributeError.
Proof.
  repeat split; try (vm_compute; reflexivity).
  exists ["-"], ["2"], ["."], ["5"], (chars "e+3"). split; [reflexivity|]. split; [cbn; auto|]. split; [intros c I; cbn in *; tauto|]. split; [auto|].
  split; [discriminate|]. split; [intros c I; cbn in *; tauto|]. right. exists "e", ["+"], ["3"]. split; [reflexivity|]. split; [auto|].
  split; [cbn; auto|]. split; [discriminate|]. intros c I; cbn in *; tauto.
Qed.
