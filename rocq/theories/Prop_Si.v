(** Properties of SI units: C37. *)
From Coq Require Import Ascii String List Arith ZArith QArith Qabs Qpower Bool Lia Lqa.
From Verif Require Import Model_NdArray Model_Text Model_Si.
Import ListNotations.
Local Open Scope Z_scope.
Local Open Scope list_scope.

(** ** The tables, independently *)
(** What the letters mean and which units there are. *)
Inductive prefix : ascii -> Z -> Prop :=
| P_deci : prefix "d" (-1) | P_centi : prefix "c" (-2) | P_milli : prefix "m" (-3) | P_micro : prefix "u" (-6)
| P_nano : prefix "n" (-9) | P_pico : prefix "p" (-12) | P_femto : prefix "f" (-15) | P_atto : prefix "a" (-18)
| P_kilo : prefix "k" 3 | P_mega : prefix "M" 6 | P_giga : prefix "G" 9 | P_tera : prefix "T" 12 | P_peta : prefix "P" 15 | P_exa : prefix "E" 18.
Definition base_unit (u : list ascii) : Prop :=
  In u (map chars ["Hz"; "s"; "S"; "Ohm"; "m"; "V"; "A"; "F"; "W"]%string).

Lemma prefix_assoc : forall c e, prefix c e <-> assoc_char c siprefixes = Some e.
Proof.
  intros c e. split; [destruct 1; reflexivity|]. intros H. unfold siprefixes in H. cbn [assoc_char] in H.
  repeat (match type of H with (if Ascii.eqb c ?k then _ else _) = _ => let Q := fresh in destruct (Ascii.eqb c k) eqn:Q; [apply Ascii.eqb_eq in Q; subst c; injection H as H; subst e; constructor|] end). discriminate.
Qed.
Lemma base_mem : forall u, base_unit u <-> mem_chars u siunit_names = true.
Proof.
  intros u. unfold mem_chars. rewrite existsb_exists. unfold base_unit, siunit_names. split.
  - intros I. exists u. split; auto. unfold eqb_chars. destruct (list_eq_dec ascii_dec u u); congruence.
  - intros [v [I E]]. unfold eqb_chars in E. destruct (list_eq_dec ascii_dec u v); [congruence|discriminate].
Qed.
(** Text without space at its ends. *)
Definition trimmed (u : list ascii) : Prop := strip u = u.
Lemma lstrip_none : forall s, (forall c t, s = c :: t -> is_space c = false) -> lstrip s = s.
Proof. intros [|c s] H; [reflexivity|]. unfold lstrip. cbn [drop_while]. now rewrite (H c s eq_refl). Qed.
Lemma trimmed_all : forall u, Forall (fun c => is_space c = false) u -> trimmed u.
Proof.
  intros u F. unfold trimmed, strip, rstrip. rewrite (lstrip_none u) by (intros c t ->; inversion F; auto).
  change (drop_while is_space (rev u)) with (lstrip (rev u)). rewrite (lstrip_none (rev u)); [apply rev_involutive|].
  intros c t E. apply Forall_rev in F. rewrite E in F. inversion F. auto.
Qed.
Lemma base_trimmed : forall u, base_unit u -> Forall (fun c => is_space c = false) u /\ u <> [].
Proof.
  intros u I. cbn in I. repeat (destruct I as [<-|I]; [split; [repeat constructor|discriminate]|]). destruct I.
Qed.
Lemma prefix_nospace : forall c e, prefix c e -> is_space c = false.
Proof. destruct 1; reflexivity. Qed.

(** ** unit_to_multiplier *)
(** A prefix in front of a base unit is understood. *)
Theorem C37_prefixed : forall c e u, prefix c e -> base_unit u -> unit_to_multiplier (c :: u) = (e, Some u).
Proof.
  intros c e u P B. destruct (base_trimmed u B) as [F N]. unfold unit_to_multiplier. rewrite (trimmed_all (c :: u)) by (constructor; [eapply prefix_nospace; eauto|auto]).
  destruct u as [|d u]; [congruence|]. apply prefix_assoc in P. apply base_mem in B. now rewrite P, B.
Qed.
Print Assumptions C37_prefixed.
(** Nothing else is changed, in particular no unit loses its own first letter. *)
Theorem C37_only_prefixes : forall u, trimmed u ->
  (u = chars "%" /\ unit_to_multiplier u = (-2, None)) \/ (u = chars "#" /\ unit_to_multiplier u = (0, None)) \/
  (exists c e b, u = c :: b /\ prefix c e /\ base_unit b /\ unit_to_multiplier u = (e, Some b)) \/
  (unit_to_multiplier u = (0, Some u) /\ forall c e b, u = c :: b -> prefix c e -> ~ base_unit b).
Proof.
  intros u T. unfold unit_to_multiplier. rewrite T. destruct u as [|c u].
  { right. right. right. split; auto. discriminate. }
  destruct u as [|d u].
  - destruct (Ascii.eqb c "%") eqn:Q1; [apply Ascii.eqb_eq in Q1; subst; auto|].
    destruct (Ascii.eqb c "#") eqn:Q2; [apply Ascii.eqb_eq in Q2; subst; auto|].
    right. right. right. split; auto. intros c' e b [= _ <-] _ B. apply base_trimmed in B as [_ B]. congruence.
  - right. right. destruct (assoc_char c siprefixes) as [e|] eqn:P.
    + destruct (mem_chars (d :: u) siunit_names) eqn:M.
      * left. exists c, e, (d :: u). rewrite prefix_assoc, base_mem. auto.
      * right. split; auto. intros c' e' b [= <- <-] _ B. apply base_mem in B. congruence.
    + right. split; auto. intros c' e' b [= <- <-] P'. apply prefix_assoc in P'. congruence.
Qed.
Print Assumptions C37_only_prefixes.
Theorem C37_base_kept : forall u, base_unit u -> unit_to_multiplier u = (0, Some u).
Proof. intros u I. cbn in I. repeat (destruct I as [<-|I]; [reflexivity|]). destruct I. Qed.
Print Assumptions C37_base_kept.
(** No prefixed unit is itself a base unit, and none can be read in two ways. *)
Theorem C37_unambiguous : forall c e u c' e' u', prefix c e -> base_unit u -> prefix c' e' -> base_unit u' ->
  ~ base_unit (c :: u) /\ (c :: u = c' :: u' -> e = e' /\ u = u').
Proof.
  intros c e u c' e' u' P B P' B'. split.
  - intros C. apply C37_base_kept in C. rewrite (C37_prefixed c e u P B) in C. injection C as _ C. apply (f_equal (@length _)) in C. cbn in C. lia.
  - intros [= <- <-]. apply prefix_assoc in P, P'. split; congruence.
Qed.
Print Assumptions C37_unambiguous.
Theorem C37_spaces : forall u, unit_to_multiplier (strip u) = unit_to_multiplier u.
Proof.
  intros u. unfold unit_to_multiplier. assert (E : strip (strip u) = strip u); [|now rewrite E].
  unfold strip, rstrip.
  assert (D : forall s c t, lstrip s = c :: t -> is_space c = false).
  { induction s as [|x s IH]; intros c t; unfold lstrip; cbn [drop_while]; [discriminate|]. destruct (is_space x) eqn:Q; [apply IH|]. intros [= <- _]. auto. }
  assert (S : forall s, exists p, s = p ++ lstrip s).
  { induction s as [|x s [p IH]]; [exists []; auto|]. unfold lstrip. cbn [drop_while]. destruct (is_space x); [exists (x :: p); cbn; f_equal; exact IH|exists []; auto]. }
  set (a := lstrip u). set (b := lstrip (rev a)). change (drop_while is_space (rev a)) with b.
  assert (L : lstrip (rev b) = rev b).
  { apply lstrip_none. intros c t E. destruct (S (rev a)) as [p E2]. fold b in E2. apply (f_equal (@rev _)) in E2. rewrite rev_involutive, rev_app_distr, E in E2. cbn in E2.
    eapply D. fold a. exact E2. }
  rewrite L, rev_involutive. f_equal. change (drop_while is_space b) with (lstrip b). apply lstrip_none. intros c t E. eapply D. exact E.
Qed.
Print Assumptions C37_spaces.
Example C37_unit_example : prefix "m" (-3) /\ base_unit (chars "m") /\ unit_to_multiplier (chars "mm") = (-3, Some (chars "m")) /\
  unit_to_multiplier (chars "m") = (0, Some (chars "m")) /\ unit_to_multiplier (chars " GHz ") = (9, Some (chars "Hz")) /\ unit_to_multiplier (chars "dB") = (0, Some (chars "dB")).
Proof. repeat split; try constructor; cbn; tauto. Qed.

(** ** Reading *)
Section Read.
  Variable num : Type.
  Variable to_float : list ascii -> option num.
  Lemma span_app : forall f a b, Forall (fun c => f c = true) a -> (forall c t, b = c :: t -> f c = false) -> span f (a ++ b) = (a, b).
  Proof.
    intros f a b F H. induction F as [|c a C F IH]; cbn [app span].
    - destruct b as [|c b]; [reflexivity|]. cbn [span]. now rewrite (H c b eq_refl).
    - now rewrite C, IH.
  Qed.
  Lemma num_not_exp : forall c, is_numchar c = false -> is_expchar c = false.
  Proof. intros c. unfold is_numchar, is_expchar. destruct (is_digit c), (Ascii.eqb c "-"), (Ascii.eqb c "+"); cbn; auto. Qed.
  (** A number without exponent, a unit, and spaces between them unless the unit
      begins with e or E. *)
  Theorem C37_read : forall n sp u v, Forall (fun c => is_numchar c = true) n -> n <> [] -> Forall (fun c => is_space c = true) sp ->
    Forall (fun c => is_unitchar c = true) u -> u <> [] -> (sp <> [] \/ forall c t, u = c :: t -> is_e c = false) -> to_float n = Some v ->
    string_number_with_unit_to_value num to_float (n ++ sp ++ u) = Ok (v, fst (unit_to_multiplier u), snd (unit_to_multiplier u)).
  Proof.
    assert (SN : forall c, is_space c = true -> is_numchar c = false /\ is_e c = false /\ is_expchar c = false /\ is_unitchar c = false /\ Ascii.eqb "[" c = false).
    { intros [[] [] [] [] [] [] [] []]; vm_compute; intuition congruence. }
    assert (UN : forall c, is_unitchar c = true -> is_numchar c = false /\ is_expchar c = false /\ is_space c = false /\ Ascii.eqb "[" c = false).
    { intros [[] [] [] [] [] [] [] []]; vm_compute; intuition congruence. }
    intros n sp u v Fn Nn Fs Fu Nu D TF. unfold string_number_with_unit_to_value, match_value.
    assert (HD : forall c t, sp ++ u = c :: t -> is_numchar c = false /\ is_e c = false /\ is_expchar c = false).
    { intros c t E. destruct sp as [|x sp]; cbn in E.
      - subst u. inversion Fu; subst. destruct D as [D|D]; [congruence|]. destruct (UN c) as [? [? _]]; auto. rewrite (D c t eq_refl). auto.
      - injection E as -> _. inversion Fs; subst. destruct (SN c) as [? [? [? _]]]; auto. }
    rewrite span_app by (auto; intros c t E; eapply HD; eauto). destruct n as [|x n]; [congruence|].
    assert (S1 : forall f, (forall c t, sp ++ u = c :: t -> f c = false) -> span1 f (sp ++ u) = ([], sp ++ u)).
    { intros f H. destruct (sp ++ u) as [|c t]; [reflexivity|]. cbn [span1]. now rewrite (H c t eq_refl). }
    rewrite (S1 is_e), (S1 is_expchar) by (intros c t E; eapply HD; eauto). rewrite !app_nil_r, TF. f_equal.
    assert (MU : match_unit (sp ++ u) = Some (sp ++ u)).
    { unfold match_unit. rewrite (span_app is_space) by (auto; intros c t ->; inversion Fu; subst; now apply UN).
      destruct u as [|d u]; [congruence|]. inversion Fu as [|? ? Ud Fu']; subst. cbn [span1]. destruct (UN d Ud) as [_ [_ [_ ->]]].
      rewrite <- (app_nil_r (d :: u)), (span_app is_unitchar) by (auto; discriminate). cbn [span1]. now rewrite !app_nil_r. }
    rewrite MU. unfold convert_with_unit.
    assert (ST : strip (sp ++ u) = u).
    { unfold strip, rstrip. assert (L : lstrip (sp ++ u) = u).
      { clear -Fs Fu UN. induction Fs as [|c sp C Fs IH]; [apply lstrip_none; intros c t ->; inversion Fu; subst; now apply UN|]. cbn [app]. unfold lstrip. cbn [drop_while]. rewrite C. exact IH. }
      rewrite L. change (drop_while is_space (rev u)) with (lstrip (rev u)). rewrite (lstrip_none (rev u)); [apply rev_involutive|].
      intros c t E. apply Forall_rev in Fu. rewrite E in Fu. inversion Fu; subst. now apply UN. }
    rewrite ST. destruct u as [|d u]; [congruence|]. destruct (unit_to_multiplier (d :: u)) as [e w]. reflexivity.
  Qed.
  Theorem C37_read_plain : forall n v, Forall (fun c => is_numchar c = true) n -> n <> [] -> to_float n = Some v ->
    string_number_with_unit_to_value num to_float n = Ok (v, 0, None).
  Proof.
    intros n v F N T. unfold string_number_with_unit_to_value, match_value. rewrite <- (app_nil_r n) at 1. rewrite span_app by (auto; discriminate).
    destruct n as [|c n]; [congruence|]. cbn [span1]. rewrite !app_nil_r, T. reflexivity.
  Qed.
End Read.
Print Assumptions C37_read.
Print Assumptions C37_read_plain.
(** A reader of decimal integers with exponents, for the witnesses. *)
Definition int_float (s : list ascii) : option (Z * Z) :=
  let '(a, r) := span is_digit s in
  match a, r with
  | [], _ => None
  | _, [] => Some (Z.of_nat (digits_value a), 0)
  | _, c :: r' => if is_e c then let '(b, r'') := span is_digit r' in
                                match b, r'' with [], _ => None | _, [] => Some (Z.of_nat (digits_value a), Z.of_nat (digits_value b)) | _, _ => None end
                  else None
  end.
Example C37_read_example : string_number_with_unit_to_value _ int_float (chars "25 GHz") = Ok ((25, 0), 9, Some (chars "Hz")).
Proof. reflexivity. Qed.
(** Exponents of two digits are cut after the first and the unit is lost: 1e10 Hz
    is read as 10; a negative exponent is refused. *)
Theorem C37_exponent_refuted : exists s, int_float (chars "1e10") = Some (1, 10) /\ s = chars "1e10 Hz" /\
  string_number_with_unit_to_value _ int_float s = Ok ((1, 1), 0, None) /\
  string_number_with_unit_to_value _ int_float (chars "1e-3 Hz") = Err ValueError.
Proof. exists (chars "1e10 Hz"). repeat split; reflexivity. Qed.
Print Assumptions C37_exponent_refuted.
(** A unit in brackets is not recognised; a unit that begins with E is not
    recognised directly after the number. *)
Theorem C37_brackets_refuted : exists s, s = chars "25 [GHz]" /\ string_number_with_unit_to_value _ int_float s = Ok ((25, 0), 0, Some (chars "[GHz]")) /\
  string_number_with_unit_to_value _ int_float (chars "25Em") = Err ValueError.
Proof. exists (chars "25 [GHz]"). repeat split; reflexivity. Qed.
Print Assumptions C37_brackets_refuted.

(** ** Writing *)
Local Open Scope Q_scope.
(** The decimal exponent of a number. *)
Definition decimal_exponent (x : Q) (e : Z) : Prop := pow10 e <= Qabs x < pow10 (e + 1).
Lemma ten_nz : ~ 10 == 0.
Proof. discriminate. Qed.
Lemma pow10_plus : forall a b, pow10 (a + b) == pow10 a * pow10 b.
Proof. intros. unfold pow10. apply Qpower_plus. apply ten_nz. Qed.
Lemma pow10_pos : forall a, 0 < pow10 a.
Proof. intros. unfold pow10. apply Qpower_0_lt. reflexivity. Qed.
Lemma prefix_entries : forall k p, assoc_Z k si_exp_to_prefixes = Some p -> (-24 <= k <= 21 /\ k mod 3 = 0)%Z.
Proof.
  intros k p H. unfold si_exp_to_prefixes in H. cbn [map fst snd assoc_Z] in H.
  repeat (match type of H with (if (k =? ?j)%Z then _ else _) = _ => destruct (Z.eqb_spec k j); [subst k; split; [lia|reflexivity]|] end). discriminate.
Qed.
Lemma prefix_defined : forall k, (-24 <= k <= 21)%Z -> (k mod 3 = 0)%Z -> exists p, assoc_Z k si_exp_to_prefixes = Some p.
Proof.
  intros k R M. assert (E : exists j, (k = 3 * j /\ -8 <= j <= 7)%Z) by (exists (k / 3)%Z; Z.to_euclidean_division_equations; lia). destruct E as [j [-> Rj]].
  assert (C : In j [-8; -7; -6; -5; -4; -3; -2; -1; 0; 1; 2; 3; 4; 5; 6; 7]%Z) by (cbn; lia).
  cbn in C. repeat (destruct C as [<-|C]; [eexists; reflexivity|]). destruct C.
Qed.
Lemma help_sci : forall x e, ~ x == 0 -> decimal_exponent x e -> exists m, help_format_sci x e = (m, (e - e mod 3)%Z) /\
  m * pow10 (e - e mod 3) == x /\ 1 <= Qabs m < 1000.
Proof.
  intros x e N D. unfold help_format_sci, mantissa. destruct (Qeq_bool x 0) eqn:Q0; [apply Qeq_bool_iff in Q0; contradiction|].
  assert (MR : (0 <= e mod 3 < 3)%Z) by (apply Z.mod_pos_bound; lia).
  assert (G : forall m, m * pow10 (e - e mod 3) == x -> 1 <= Qabs m < 1000).
  { intros m E. assert (A : Qabs m * pow10 (e - e mod 3) == Qabs x).
    { rewrite <- E, Qabs_Qmult. rewrite (Qabs_pos (pow10 _)) by (apply Qlt_le_weak, pow10_pos). reflexivity. }
    destruct D as [D1 D2]. pose proof (pow10_pos (e - e mod 3)) as P.
    assert (E1 : pow10 e == pow10 (e mod 3) * pow10 (e - e mod 3)) by (rewrite <- pow10_plus; now replace (e mod 3 + (e - e mod 3))%Z with e by lia).
    assert (E2 : pow10 (e + 1) == pow10 (e mod 3 + 1) * pow10 (e - e mod 3)) by (rewrite <- pow10_plus; now replace (e mod 3 + 1 + (e - e mod 3))%Z with (e + 1)%Z by lia).
    rewrite E1, <- A in D1. rewrite E2, <- A in D2. apply Qmult_le_r in D1; auto. apply Qmult_lt_r in D2; auto.
    assert (K : (e mod 3 = 0 \/ e mod 3 = 1 \/ e mod 3 = 2)%Z) by lia. split.
    - eapply Qle_trans; [|exact D1]. destruct K as [-> | [-> | ->]]; vm_compute; discriminate.
    - eapply Qlt_le_trans; [exact D2|]. destruct K as [-> | [-> | ->]]; vm_compute; discriminate. }
  destruct ((0 <=? e)%Z && (e <? 3)%Z) eqn:B.
  - apply andb_true_iff in B as [B1 B2]. apply Z.leb_le in B1. apply Z.ltb_lt in B2. assert (E : (e mod 3 = e)%Z) by (apply Z.mod_small; lia).
    exists (x / pow10 e * pow10 (e mod 3)). assert (X : x / pow10 e * pow10 (e mod 3) * pow10 (e - e mod 3) == x).
    { rewrite E, Z.sub_diag. change (pow10 0) with 1. field. pose proof (pow10_pos e). lra. }
    split; [rewrite E, Z.sub_diag; reflexivity|]. split; auto.
  - exists (x * pow10 (- (e - e mod 3))). assert (X : x * pow10 (- (e - e mod 3)) * pow10 (e - e mod 3) == x).
    { rewrite <- Qmult_assoc, <- pow10_plus. replace (- (e - e mod 3) + (e - e mod 3))%Z with 0%Z by lia. change (pow10 0) with 1. ring. }
    auto.
Qed.
(** The printed number times the value of the printed prefix is the number, and
    it lies between 1 and 1000. *)
Theorem C37_format : forall x e unit, ~ x == 0 -> decimal_exponent x e -> (-24 <= e < 24)%Z ->
  exists m k p, format_number x e unit = Ok (m, p ++ unit) /\ In (k, p) si_exp_to_prefixes /\ m * pow10 k == x /\ 1 <= Qabs m < 1000.
Proof.
  intros x e unit N D R. destruct (help_sci x e N D) as [m [H [E B]]]. unfold format_number. rewrite H.
  destruct (prefix_defined (e - e mod 3)) as [p P].
  { Z.to_euclidean_division_equations; lia. } { Z.to_euclidean_division_equations; lia. }
  rewrite P. cbn [of_option bind]. exists m, (e - e mod 3)%Z, p. split; auto. split; auto.
  clear -P. revert P. generalize (e - e mod 3)%Z. intros k. induction si_exp_to_prefixes as [|[j q] l IH]; cbn; [discriminate|].
  destruct (Z.eqb_spec k j); [subst; intros [= <-]; auto|auto].
Qed.
Print Assumptions C37_format.
Theorem C37_format_range : forall x e unit, ~ x == 0 -> decimal_exponent x e -> (e < -24 \/ 24 <= e)%Z -> format_number x e unit = Err KeyError.
Proof.
  intros x e unit N D R. destruct (help_sci x e N D) as [m [H _]]. unfold format_number. rewrite H. destruct (assoc_Z (e - e mod 3) si_exp_to_prefixes) as [p|] eqn:P; [|reflexivity].
  apply prefix_entries in P as [P _]. exfalso. Z.to_euclidean_division_equations; lia.
Qed.
Print Assumptions C37_format_range.
Theorem C37_format_zero : forall x e unit, x == 0 -> exists m, format_number x e unit = Ok (m, unit) /\ m == 0.
Proof.
  intros x e unit E. unfold format_number, help_format_sci, mantissa. apply Qeq_bool_iff in E. rewrite E. cbn. eexists. split; [reflexivity|]. reflexivity.
Qed.
Print Assumptions C37_format_zero.
(** The written prefix is read with the same value, between atto and exa. *)
Theorem C37_round_trip : forall x e u, ~ x == 0 -> decimal_exponent x e -> base_unit u -> (-18 <= e < 21)%Z ->
  exists m k w, format_number x e u = Ok (m, w) /\ unit_to_multiplier w = (k, Some u) /\ m * pow10 k == x.
Proof.
  intros x e u N D B R. destruct (C37_format x e u N D) as [m [k [p [F [I [E M]]]]]]; [lia|]. exists m, k, (p ++ u). split; auto. split; auto.
  assert (K : (-18 <= k <= 18)%Z).
  { destruct (help_sci x e N D) as [m' [H _]]. unfold format_number in F. rewrite H in F. destruct (assoc_Z (e - e mod 3) si_exp_to_prefixes) as [q|] eqn:P; [|discriminate]. cbn in F. injection F as _ F.
    apply app_inv_tail in F. subst q. assert (k = (e - e mod 3)%Z); [|subst k; Z.to_euclidean_division_equations; lia].
    assert (A : assoc_Z (e - e mod 3) si_exp_to_prefixes = Some p) by exact P. revert A I. generalize (e - e mod 3)%Z. clear. intros j A I.
    cbn in I. repeat (destruct I as [[= <- <-]|I]; [clear -A; unfold si_exp_to_prefixes in A; cbn [map fst snd assoc_Z] in A;
      repeat (match type of A with (if (j =? ?i)%Z then _ else _) = _ => destruct (Z.eqb_spec j i); [first [subst; reflexivity|discriminate]|] end); discriminate|]). destruct I. }
  cbn in I. repeat (destruct I as [[= <- <-]|I]; [first [exfalso; clear -K; lia | cbn [app chars list_ascii_of_string]; first [apply C37_base_kept; exact B | apply C37_prefixed; [constructor|exact B]]]|]). destruct I.
Qed.
Print Assumptions C37_round_trip.
Example C37_format_example : decimal_exponent (25000000000 # 1) 10 /\ exists m, format_number (25000000000 # 1) 10 (chars "Hz") = Ok (m, chars "GHz") /\ m == 25.
Proof. split; [split; vm_compute; congruence|]. eexists. split; vm_compute; reflexivity. Qed.
(** zetta, zepto and yocto are written but not read; there is no yotta. *)
Theorem C37_zetta_refuted : exists x e m w, decimal_exponent x e /\ format_number x e (chars "Hz") = Ok (m, w) /\ unit_to_multiplier w = (0%Z, Some w) /\ ~ m * pow10 0 == x.
Proof.
  exists (pow10 21), 21%Z. eexists _, _. split; [split; vm_compute; congruence|]. split; [vm_compute; reflexivity|]. split; [reflexivity|]. vm_compute. discriminate.
Qed.
Print Assumptions C37_zetta_refuted.
