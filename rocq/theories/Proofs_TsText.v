(** Reading Touchstone text. *)
From Coq Require Import Ascii String List Arith ZArith Bool Lia.
From Verif Require Import Model_NdArray Model_Text Model_Words Model_Touchstone Model_TsText Spec_Touchstone Spec_TsText
  Proofs_Text Proofs_Words Proofs_Touchstone.
Import ListNotations.
Local Open Scope string_scope.
Local Open Scope nat_scope.
Local Open Scope list_scope.

(** *** Words *)
Lemma words_from_trail : forall l cur b, spaces b -> words_from cur (l ++ b) = words_from cur l.
Proof.
  induction l as [|c l IH]; intros cur b B.
  - cbn [app]. destruct b as [|c b]; auto. cbn [words_from]. rewrite (B c) by (left; auto).
    rewrite <- (app_nil_r b). rewrite words_from_blank by (intros; apply B; right; auto). cbn. now rewrite app_nil_r.
  - cbn [app words_from]. destruct (is_space c); [f_equal|]; auto.
Qed.
Lemma words_around : forall a l b, spaces a -> spaces b -> words (a ++ l ++ b) = words l.
Proof. intros. unfold words. rewrite words_from_blank by auto. now apply words_from_trail. Qed.
Lemma spaced_words : forall ws l, spaced ws l -> words l = ws.
Proof.
  intros ws l H. induction H as [b B|b w ws l B [W1 W2] H IH E].
  - unfold words. rewrite <- (app_nil_r b). rewrite words_from_blank by auto. reflexivity.
  - unfold words in *. rewrite words_from_blank by auto. rewrite words_from_word by auto. cbn [app]. destruct E as [->|[c [l' [-> E]]]].
    + cbn in IH |- *. subst ws. destruct w; [congruence|auto].
    + cbn [words_from] in IH |- *. rewrite E in *. cbn [flush app] in IH. rewrite IH. destruct w; [congruence|auto].
Qed.

Lemma drop_spaces : forall b l, spaces b -> drop_while is_space (b ++ l) = drop_while is_space l.
Proof. induction b as [|c b IH]; intros l B; auto. cbn [app drop_while]. rewrite (B c) by (left; auto). apply IH. intros x H; apply B; right; auto. Qed.
Lemma drop_while_tail : forall l c, is_space c = false -> exists l', drop_while is_space (l ++ [c]) = l' ++ [c].
Proof.
  induction l as [|x l IH]; intros c Hc; cbn [app drop_while].
  - rewrite Hc. exists []. reflexivity.
  - destruct (is_space x); auto. exists (x :: l). reflexivity.
Qed.
Lemma strip_hd : forall b c l, spaces b -> is_space c = false -> exists l', strip (b ++ c :: l) = c :: l'.
Proof.
  intros b c l B Hc. unfold strip, lstrip, rstrip. rewrite drop_spaces by auto. cbn [drop_while]. rewrite Hc. cbn [rev].
  destruct (drop_while_tail (rev l) c Hc) as [l' ->]. rewrite rev_app_distr. cbn. eauto.
Qed.
Lemma drop_while_split : forall l, exists b, l = b ++ drop_while is_space l /\ spaces b.
Proof.
  induction l as [|c l [b [E B]]]; [exists []; split; [auto|intros ? []]|]. cbn [drop_while]. destruct (is_space c) eqn:Ec.
  - exists (c :: b). split; [cbn; now rewrite <- E|]. intros x [<-|H]; auto.
  - exists []. split; [auto|intros ? []].
Qed.
Lemma strip_hd2 : forall b c l, spaces b -> is_space c = false -> exists l' b', strip (b ++ c :: l) = c :: l' /\ l = l' ++ b' /\ spaces b'.
Proof.
  intros b c l B Hc. unfold strip, lstrip, rstrip. rewrite drop_spaces by auto. cbn [drop_while]. rewrite Hc. cbn [rev].
  destruct (drop_while_split (rev l ++ [c])) as [b' [E B']]. destruct (drop_while_tail (rev l) c Hc) as [l' El]. rewrite El in *.
  rewrite app_assoc in E. apply app_inj_tail in E as [E _]. rewrite rev_app_distr. cbn [rev app]. exists (rev l'), (rev b'). split; auto. split.
  - rewrite <- (rev_involutive l), E, rev_app_distr. auto.
  - intros x H. apply B'. now apply in_rev.
Qed.
Lemma strip_split : forall l, exists a b, l = a ++ strip l ++ b /\ spaces a /\ spaces b.
Proof.
  intros l. destruct (drop_while_split l) as [a [Ea A]]. destruct (drop_while_split (rev (lstrip l))) as [b [Eb B]].
  exists a, (rev b). split; [|split; auto; intros c H; apply B; now apply in_rev].
  rewrite Ea at 1. f_equal. unfold strip, rstrip. fold (lstrip l). rewrite <- (rev_involutive (lstrip l)) at 1. rewrite Eb at 1. now rewrite rev_app_distr.
Qed.
Lemma words_strip : forall l, words (strip l) = words l.
Proof. intros l. destruct (strip_split l) as [a [b [E [A B]]]]. rewrite E at 2. now rewrite words_around. Qed.
Lemma strip_spaces : forall b, spaces b -> strip b = [].
Proof.
  intros b B. unfold strip, lstrip, rstrip. rewrite <- (app_nil_r b). rewrite drop_spaces by auto. reflexivity.
Qed.
Lemma strip_trimmed_of : forall c t, trimmed_of c t -> strip c = t.
Proof.
  intros c t [a [b [-> [A [B [->|[[x [l [E Hx]]] [y [l2 [E2 Hy]]]]]]]]]].
  - apply strip_spaces. intros x H. apply in_app_iff in H as [H|H]; auto.
  - unfold strip, lstrip, rstrip. rewrite drop_spaces by auto. rewrite E at 1. cbn [app drop_while]. rewrite Hx. change (x :: l ++ b) with ((x :: l) ++ b). rewrite <- E.
    rewrite rev_app_distr, drop_spaces by (intros z H; apply B; now apply in_rev). rewrite E2, rev_app_distr. cbn [rev app drop_while]. rewrite Hy. cbn [rev]. now rewrite rev_involutive.
Qed.

Lemma before_app : forall c a l, ~ In c a -> before c (a ++ l) = a ++ before c l.
Proof.
  intros c a l. unfold before. induction a as [|x a IH]; intros H; auto. cbn [app take_while]. destruct (Ascii.eqb_spec x c) as [E|NE].
  - exfalso. apply H. left; auto.
  - cbn [negb]. rewrite IH; auto. intros K. apply H. right; auto.
Qed.
Lemma before_stop : forall c l, before c (c :: l) = [].
Proof. intros c l. unfold before. cbn [take_while]. now rewrite Ascii.eqb_refl. Qed.

Lemma before_words : forall l, words (before "!" (strip l)) = words (before "!" l).
Proof.
  intros l. destruct (strip_split l) as [a [b [E [A B]]]]. rewrite E at 2.
  assert (NA : forall x, spaces x -> ~ In "!"%char x) by (intros x X H; specialize (X _ H); discriminate).
  rewrite before_app by auto. destruct (in_dec ascii_dec "!"%char (strip l)) as [H|H].
  - apply in_split in H as [p [q Ep]]. (* first occurrence *)
    assert (K : before "!" (strip l ++ b) = before "!" (strip l)).
    { clear - Ep. revert Ep. generalize (strip l). intros s ->. induction p as [|x p IH]; [reflexivity|]. unfold before in *. cbn [app take_while]. destruct (negb (x =? "!")%char); [f_equal; exact IH|reflexivity]. }
    rewrite K. rewrite <- (app_nil_r (before _ _)) at 2. rewrite words_around; auto. intros ? [].
  - rewrite before_app by auto. rewrite (before_none _ _ H). rewrite before_none by auto. now rewrite words_around.
Qed.

(** *** Capitals *)
Lemma ascii_eq : forall a b, nat_of_ascii a = nat_of_ascii b -> a = b.
Proof. intros a b H. rewrite <- (ascii_nat_embedding a), <- (ascii_nat_embedding b). now rewrite H. Qed.
Lemma upper_same : forall a b, same_char a b -> upper_char a = upper_char b.
Proof.
  intros a b [->|[H1 H2]]; auto. unfold upper_char. apply ascii_eq. pose proof (nat_ascii_bounded a).
  destruct (Nat.leb_spec 97 (nat_of_ascii a)); [|lia]. destruct (Nat.leb_spec (nat_of_ascii a) 122); [|lia]. cbn [andb].
  destruct (Nat.leb_spec 97 (nat_of_ascii b)); [lia|]. cbn [andb]. rewrite nat_ascii_embedding by lia. lia.
Qed.
Lemma upper_all : forall l m, Forall2 same_char l m -> upper l = upper m.
Proof. intros l m H. induction H as [|a b l m H F IH]; auto. cbn. f_equal; auto. now apply upper_same. Qed.
Lemma upper_space : forall c, is_space (upper_char c) = is_space c.
Proof. intros c. destruct c as [b0 b1 b2 b3 b4 b5 b6 b7]. destruct b0, b1, b2, b3, b4, b5, b6, b7; reflexivity. Qed.
Lemma upper_spaces : forall b, spaces b -> spaces (upper b).
Proof. intros b B c H. apply in_map_iff in H as [x [<- H]]. rewrite upper_space. auto. Qed.
Lemma spaced_upper : forall ws l, spaced ws l -> spaced (map upper ws) (upper l).
Proof.
  intros ws l H. induction H as [b B|b w ws l B [W1 W2] H IH E].
  - constructor. now apply upper_spaces.
  - assert (Eu : upper (b ++ w ++ l) = upper b ++ upper w ++ upper l) by (unfold upper; now rewrite !map_app). rewrite Eu. cbn [map]. apply spaced_cons; auto.
    + now apply upper_spaces.
    + split; [destruct w; [congruence|discriminate]|]. intros c K. apply in_map_iff in K as [x [<- K]]. rewrite upper_space. auto.
    + destruct E as [->|[c [l' [-> E]]]]; [left; auto|]. right. exists (upper_char c), (upper l'). split; auto. now rewrite upper_space.
Qed.
Lemma spaced_lead : forall ws l, spaced ws l -> spaced ws (drop_while is_space l).
Proof.
  intros ws l H. inversion H as [b B|b w ws' l' B [W1 W2] H' E]; subst.
  - rewrite <- (app_nil_r l). rewrite drop_spaces by auto. constructor. intros ? [].
  - rewrite drop_spaces by auto. destruct w as [|c w]; [congruence|]. cbn [app drop_while]. rewrite (W2 c) by (left; auto).
    change (c :: w ++ l') with ([] ++ (c :: w) ++ l'). apply spaced_cons; auto; [intros ? []|split; auto].
Qed.
Lemma spaced_inv : forall w ws l, spaced (w :: ws) l -> exists b l2, l = b ++ w ++ l2 /\ spaces b /\ solid w /\ spaced ws l2 /\
  (l2 = [] \/ exists c l', l2 = c :: l' /\ is_space c = true).
Proof. intros w ws l H. inversion H; subst. eauto 10. Qed.
Lemma spaced_nonempty : forall w ws l, spaced (w :: ws) l -> l <> [].
Proof. intros w ws l H E. apply spaced_inv in H as [b [l2 [E2 [_ [[W _] _]]]]]. rewrite E in E2. apply eq_sym, app_eq_nil in E2 as [_ Q]. apply app_eq_nil in Q as [Q _]. congruence. Qed.
(** A text of at least two words which begins with the first word. *)
Lemma spaced_first : forall w ws l c l', spaced (w :: ws) l -> l = c :: l' -> is_space c = false ->
  exists l2, l = w ++ l2 /\ spaced ws l2 /\ (ws <> [] -> exists s l3, l2 = s :: l3 /\ is_space s = true).
Proof.
  intros w ws l c l' H E Hc. apply spaced_inv in H as [b [l2 [E1 [B [W [H' E2]]]]]]. destruct b as [|x b].
  - cbn [app] in *. exists l2. split; auto. split; auto. intros NE. destruct E2 as [->|E2]; auto.
    destruct ws as [|w' ws]; [congruence|]. now apply spaced_nonempty in H'.
  - exfalso. rewrite E in E1. cbn [app] in E1. injection E1 as -> _. rewrite (B x) in Hc by (left; auto). discriminate.
Qed.
Lemma spaced_next : forall w ws s l, spaced (w :: ws) (s :: l) -> is_space s = true ->
  exists l2, drop_while is_space l = w ++ l2 /\ spaced ws l2 /\ (ws <> [] -> exists s l3, l2 = s :: l3 /\ is_space s = true).
Proof.
  intros w ws s l H Hs. apply spaced_lead in H. cbn [drop_while] in H. rewrite Hs in H. destruct (drop_while is_space l) as [|c l'] eqn:E.
  - now apply spaced_nonempty in H.
  - assert (Hc : is_space c = false).
    { clear - E. induction l as [|x l IH]; cbn [drop_while] in E; [discriminate|]. destruct (is_space x) eqn:Ex; auto. now injection E as -> _. }
    now apply (spaced_first _ _ _ c l').
Qed.

Lemma spaced_space : forall b ws l, spaces b -> spaced ws l -> spaced ws (b ++ l).
Proof.
  intros b ws l B H. destruct H as [b' B'|b' w ws l B' W H E].
  - constructor. intros c K. apply in_app_iff in K as [K|K]; auto.
  - rewrite app_assoc. apply spaced_cons; auto. intros c K. apply in_app_iff in K as [K|K]; auto.
Qed.
Lemma words_from_spaced : forall l cur, (forall c, In c cur -> is_space c = false) -> spaced (words_from cur l) (cur ++ l).
Proof.
  induction l as [|c l IH]; intros cur H; cbn [words_from].
  - destruct cur as [|x cur]; [constructor; intros ? []|]. apply (spaced_cons [] (x :: cur) [] []); [intros ? []|split; [discriminate|auto]|constructor; intros ? []|auto].
  - destruct (is_space c) eqn:Ec.
    + specialize (IH [] ltac:(intros ? [])). cbn [app] in IH.
      assert (K : spaced (words_from [] l) (c :: l)) by (apply (spaced_space [c]); auto; intros x [<-|[]]; auto).
      destruct cur as [|x cur]; [exact K|]. apply (spaced_cons [] (x :: cur)); [intros ? []|split; [discriminate|auto]|exact K|right; eauto].
    + specialize (IH (cur ++ [c])). rewrite <- app_assoc in IH. apply IH. intros x Hx. apply in_app_iff in Hx as [Hx|[<-|[]]]; auto.
Qed.
Lemma words_spaced : forall l, spaced (words l) l.
Proof. intros l. apply (words_from_spaced l []). intros ? []. Qed.
Lemma drop_while_hd : forall l c l', drop_while is_space l = c :: l' -> is_space c = false.
Proof. induction l as [|x l IH]; intros c l' E; cbn [drop_while] in E; [discriminate|]. destruct (is_space x) eqn:Ex; eauto. now injection E as -> _. Qed.

(** *** The option line *)
Definition fmt_fun {R C} (A : tsops R C) (f : fmt3) : R -> R -> C := match f with RI => ts_ri A | DB => ts_db A | MA => ts_ma A end.

Lemma upper_caps : forall w s, in_capitals w s -> upper (chars s) = chars s -> upper w = chars s.
Proof. intros w s H E. rewrite <- E. now apply upper_all. Qed.
Lemma upper_id : forall z, (forall c, In c z -> ~ 97 <= nat_of_ascii c <= 122) -> upper z = z.
Proof.
  induction z as [|c z IH]; intros H; auto. cbn [upper map]. f_equal; [|apply IH; intros; apply H; right; auto].
  unfold upper_char. specialize (H c (or_introl eq_refl)). destruct (Nat.leb_spec 97 (nat_of_ascii c)); auto. destruct (Nat.leb_spec (nat_of_ascii c) 122); auto. exfalso. lia.
Qed.
Lemma units_caps : forall u k, In (u, k) units -> upper (chars u) = chars u.
Proof. intros u k H. cbn [units In] in H. repeat (destruct H as [H|H]; [injection H as <- _; reflexivity|]). destruct H. Qed.
Lemma fmts_caps : forall f m, In (f, m) fmts -> upper (chars f) = chars f.
Proof. intros u k H. cbn [fmts In] in H. repeat (destruct H as [H|H]; [injection H as <- _; reflexivity|]). destruct H. Qed.
Lemma kinds_caps : forall k, In k kinds -> upper (chars k) = chars k.
Proof. intros k H. cbn [kinds In] in H. repeat (destruct H as [H|H]; [subst k; reflexivity|]). destruct H. Qed.

Lemma is_touchstone_ok : forall u k kind f fm l l2, In (u, k) units -> In kind kinds -> In (f, fm) fmts ->
  spaced (chars u :: chars kind :: chars f :: l2) (upper l) -> (exists c l', upper l = c :: l' /\ is_space c = false) ->
  forall b1, spaces b1 -> is_touchstone ("#"%char :: b1 ++ l) = true.
Proof.
  intros u k kind f fm l l2 Hu Hk Hf H [c [l' [E Hc]]] b1 B. unfold is_touchstone. cbn [drop_while].
  change (is_space "#") with false. cbv iota. change ("#" =? "#")%char with true. cbv iota.
  assert (Eu : upper (b1 ++ l) = upper b1 ++ upper l) by (unfold upper; apply map_app). rewrite Eu, drop_spaces by now apply upper_spaces.
  assert (Ed : drop_while is_space (upper l) = upper l) by (rewrite E; cbn [drop_while]; now rewrite Hc). rewrite Ed.
  destruct (spaced_first _ _ _ _ _ H E Hc) as [m1 [E1 [H1 S1]]]. destruct S1 as [s1 [m1' [-> Hs1]]]; [discriminate|].
  destruct (spaced_next _ _ _ _ H1 Hs1) as [m2 [E2 [H2 S2]]]. destruct S2 as [s2 [m2' [-> Hs2]]]; [discriminate|].
  destruct (spaced_next _ _ _ _ H2 Hs2) as [m3 [E3 [H3 S3]]].
  rewrite E1. clear E E1 Ed H Hc. cbn [units In] in Hu.
  assert (Z : (if is_space s1 then
              match drop_while is_space m1' with
              | k :: s' :: l6 =>
                  if one_of "SZYGH" k && is_space s' then
                    match drop_while is_space l6 with
                    | a :: b :: _ => upper_letter a && upper_letter b
                    | _ => false
                    end
                  else false
              | _ => false
              end else false) = true).
  { rewrite Hs1, E2. cbn [kinds In] in Hk. repeat (destruct Hk as [Hk|Hk]; [subst kind; cbn [chars list_ascii_of_string app]; rewrite Hs2, E3; cbn [fmts In] in Hf;
      repeat (destruct Hf as [Hf|Hf]; [injection Hf as <- _; reflexivity|]); destruct Hf|]). destruct Hk. }
  repeat (destruct Hu as [Hu|Hu]; [injection Hu as <- _; cbn [chars list_ascii_of_string app]; exact Z|]). destruct Hu.
Qed.

Lemma option_token : forall line k kind fm z0, option_line line k kind fm z0 ->
  exists i u f r, ts_tokenize line = Ok (Some (TInfo i)) /\ In (u, k) units /\ In kind kinds /\ In (f, fm) fmts /\
    words (upper i) = [chars u; chars kind; chars f] ++ match z0 with None => [] | Some z => [r; z] end.
Proof.
  intros line k kind fm z0 [u [f [wu [wk [wf [rest [b0 [b1 [l [-> [B0 [B1 [Hu [Hk [Hf [Cu [Ck [Cf [SP [[c [l' [E Hc]]] Z]]]]]]]]]]]]]]]]]]]].
  destruct (strip_hd2 b0 "#" (b1 ++ l) B0 eq_refl) as [s [b' [Es [El B']]]].
  assert (Ed : upper (b1 ++ l) = upper b1 ++ upper l) by (unfold upper; apply map_app).
  assert (Ew0 : words (upper s) = map upper (wu :: wk :: wf :: rest)).
  { transitivity (words (upper (b1 ++ l))).
      + rewrite El. unfold upper. rewrite map_app. symmetry. apply (words_around [] (map upper_char s)); [intros ? []|now apply upper_spaces].
      + rewrite Ed. rewrite <- (app_nil_r (upper l)). rewrite words_around; [|now apply upper_spaces|intros ? []].
        apply spaced_words. now apply spaced_upper. }
  assert (Ew : words (upper (strip s)) = map upper (wu :: wk :: wf :: rest)).
  { rewrite <- Ew0. destruct (strip_split s) as [x [y [Ex [X Y]]]]. rewrite Ex at 2. unfold upper. rewrite !map_app. symmetry. apply words_around; now apply upper_spaces. }
  cbn [map] in Ew. rewrite (upper_caps wu u Cu (units_caps _ _ Hu)), (upper_caps wk kind Ck (kinds_caps _ Hk)), (upper_caps wf f Cf (fmts_caps _ _ Hf)) in Ew.
  exists (strip s), u, f, (upper (hd [] rest)). split; [|split; [auto|split; [auto|split; [auto|]]]].
  - unfold ts_tokenize. rewrite Es. change ("#" =? "!")%char with false. change ("#" =? "#")%char with true. cbv iota.
    destruct (drop_while_split s) as [b2 [E2 B2]].
    assert (Ew2 : words (upper (drop_while is_space s)) = map upper (wu :: wk :: wf :: rest)).
    { rewrite <- Ew0. rewrite E2 at 2. unfold upper. rewrite map_app. symmetry. rewrite <- (app_nil_r (map upper_char (drop_while _ _))).
      rewrite words_around; [now rewrite app_nil_r|now apply upper_spaces|intros ? []]. }
    assert (K2 : is_touchstone ("#"%char :: s) = true); [|now rewrite K2].
    rewrite E2. apply (is_touchstone_ok u k kind f fm (drop_while is_space s) (map upper rest)); auto.
    + cbn [map] in Ew2. rewrite (upper_caps wu u Cu (units_caps _ _ Hu)), (upper_caps wk kind Ck (kinds_caps _ Hk)), (upper_caps wf f Cf (fmts_caps _ _ Hf)) in Ew2.
      rewrite <- Ew2. apply words_spaced.
    + destruct (drop_while is_space s) as [|c2 s2] eqn:E3; [discriminate|]. apply drop_while_hd in E3. exists (upper_char c2), (upper s2). split; auto. now rewrite upper_space.
  - rewrite Ew. destruct z0 as [z|].
    + destruct Z as [r [z' [-> [Z1 Z2]]]]. cbn [map hd app]. now rewrite (upper_all _ _ Z1), (upper_id _ Z2).
    + now rewrite Z.
Qed.

(** *** Other lines *)
Lemma blank_token : forall b, spaces b -> ts_tokenize b = Ok None.
Proof. intros b B. unfold ts_tokenize. now rewrite strip_spaces. Qed.
Lemma comment_token : forall b c t, spaces b -> trimmed_of c t -> ts_tokenize (b ++ "!"%char :: c) = Ok (Some (TComment t)).
Proof.
  intros b c t B T. unfold ts_tokenize. destruct (strip_hd2 b "!" c B eq_refl) as [s [b' [Es [El B']]]]. rewrite Es.
  change ("!" =? "!")%char with true. cbv iota. f_equal. f_equal. f_equal. rewrite <- (strip_trimmed_of c t T), El.
  clear - B'. unfold strip, lstrip. destruct (drop_while_split s) as [x [Ex X]]. rewrite Ex at 2. rewrite <- app_assoc, drop_spaces by auto.
  destruct (drop_while is_space s) as [|y r] eqn:E.
  - cbn [app]. rewrite <- (app_nil_r b'), drop_spaces by auto. reflexivity.
  - apply drop_while_hd in E. cbn [app drop_while]. rewrite E. unfold rstrip. change (y :: r ++ b') with ((y :: r) ++ b'). rewrite rev_app_distr.
    rewrite drop_spaces; auto. intros z Hz. apply B'. now apply in_rev.
Qed.
Lemma mapM_Forall2 : forall {A B} (f : A -> result B) l m, Forall2 (fun x y => f x = Ok y) l m -> mapM f l = Ok m.
Proof. intros A B f l m H. induction H as [|x y l m E H IH]; auto. cbn [mapM]. rewrite E. cbn [bind]. rewrite IH. reflexivity. Qed.
Lemma number_token : forall {R} (float : list ascii -> result R) line xs, number_line float line xs ->
  exists d, ts_tokenize line = Ok (Some (TData d)) /\ mapM float (words d) = Ok xs /\ xs <> [].
Proof.
  intros R float line xs [body [tail [ws [-> [NB [T [SP [NE [H1 F]]]]]]]]].
  destruct ws as [|w ws]; [congruence|]. pose proof SP as SP0. apply spaced_inv in SP as [b [l2 [E [B [[W1 W2] _]]]]].
  destruct w as [|c w]; [congruence|]. cbn [hd hd_error] in H1.
  assert (Hc : is_space c = false) by (apply W2; left; auto).
  destruct (strip_hd b c (w ++ l2 ++ tail) B Hc) as [s Es].
  assert (El : body ++ tail = b ++ c :: w ++ l2 ++ tail) by (rewrite E; rewrite <- app_assoc; cbn [app]; now rewrite <- app_assoc).
  assert (Ew : words (strip (before "!" (c :: s))) = (c :: w) :: ws).
  { rewrite words_strip. rewrite <- Es, <- El, before_words. rewrite before_app by auto.
    assert (Et : before "!" tail = []) by (destruct T as [->|[t ->]]; [reflexivity|apply before_stop]). rewrite Et, app_nil_r. now apply spaced_words. }
  exists (strip (before "!" (c :: s))). split; [|split].
  - unfold ts_tokenize. rewrite El, Es.
    destruct (Ascii.eqb_spec c "!") as [->|_]. { exfalso. apply NB. rewrite E. apply in_app_iff. right. left. auto. }
    destruct (Ascii.eqb_spec c "#") as [->|_]; [congruence|]. reflexivity.
  - rewrite Ew. now apply mapM_Forall2.
  - inversion F; subst. discriminate.
Qed.

Section Loop.
Context {R C : Type} (A : tsops R C).
Lemma loop_none : forall lines coms rows, ts_file (ts_float A) lines coms [] rows -> forall cs info data,
  ts_loop A lines cs info data = Ok (cs ++ coms, info, data ++ rows).
Proof.
  intros lines coms rows H. remember [] as opts eqn:Eo in H. induction H as [|b lines coms opts rows B H IH|b c t lines coms opts rows B T H IH|l k kind fm z0 lines coms opts rows O H IH|l xs lines coms opts rows N H IH]; intros cs info data.
  - cbn. now rewrite !app_nil_r.
  - cbn [ts_loop]. rewrite (blank_token _ B). cbn [bind]. auto.
  - cbn [ts_loop]. rewrite (comment_token _ _ _ B T). cbn [bind]. rewrite (IH Eo). now rewrite <- app_assoc.
  - discriminate.
  - cbn [ts_loop]. destruct (number_token _ _ _ N) as [d [E1 [E2 _]]]. rewrite E1. cbn [bind]. rewrite E2. cbn [bind]. rewrite (IH Eo). now rewrite <- app_assoc.
Qed.
Lemma loop_one : forall lines coms l rows, ts_file (ts_float A) lines coms [l] rows -> forall i cs data, ts_tokenize l = Ok (Some (TInfo i)) ->
  ts_loop A lines cs None data = Ok (cs ++ coms, Some i, data ++ rows).
Proof.
  intros lines coms l rows H. remember [l] as opts eqn:Eo in H. induction H as [|b lines coms opts rows B H IH|b c t lines coms opts rows B T H IH|l' k kind fm z0 lines coms opts rows O H IH|l' xs lines coms opts rows N H IH]; intros i cs data Hi.
  - discriminate.
  - cbn [ts_loop]. rewrite (blank_token _ B). cbn [bind]. auto.
  - cbn [ts_loop]. rewrite (comment_token _ _ _ B T). cbn [bind]. rewrite (IH Eo i) by auto. now rewrite <- app_assoc.
  - injection Eo as -> ->. cbn [ts_loop]. rewrite Hi. cbn [bind]. now apply loop_none.
  - cbn [ts_loop]. destruct (number_token _ _ _ N) as [d [E1 [E2 _]]]. rewrite E1. cbn [bind]. rewrite E2. cbn [bind]. rewrite (IH Eo i) by auto. now rewrite <- app_assoc.
Qed.
Lemma loop_more : forall lines coms opts rows, ts_file (ts_float A) lines coms opts rows -> opts <> [] -> forall cs i data,
  ts_loop A lines cs (Some i) data = Err GenericError.
Proof.
  intros lines coms opts rows H. induction H as [|b lines coms opts rows B H IH|b c t lines coms opts rows B T H IH|l' k kind fm z0 lines coms opts rows O H IH|l' xs lines coms opts rows N H IH]; intros NE cs i data.
  - congruence.
  - cbn [ts_loop]. rewrite (blank_token _ B). cbn [bind]. auto.
  - cbn [ts_loop]. rewrite (comment_token _ _ _ B T). cbn [bind]. auto.
  - cbn [ts_loop]. destruct (option_token _ _ _ _ _ O) as [j [u [f [r [E _]]]]]. rewrite E. reflexivity.
  - cbn [ts_loop]. destruct (number_token _ _ _ N) as [d [E1 [E2 _]]]. rewrite E1. cbn [bind]. rewrite E2. cbn [bind]. auto.
Qed.
Lemma loop_two : forall lines coms opts rows, ts_file (ts_float A) lines coms opts rows -> 2 <= length opts -> forall cs data,
  ts_loop A lines cs None data = Err GenericError.
Proof.
  intros lines coms opts rows H. induction H as [|b lines coms opts rows B H IH|b c t lines coms opts rows B T H IH|l' k kind fm z0 lines coms opts rows O H IH|l' xs lines coms opts rows N H IH]; intros NE cs data.
  - cbn in NE. lia.
  - cbn [ts_loop]. rewrite (blank_token _ B). cbn [bind]. auto.
  - cbn [ts_loop]. rewrite (comment_token _ _ _ B T). cbn [bind]. auto.
  - cbn [ts_loop]. destruct (option_token _ _ _ _ _ O) as [j [u [f [r [E _]]]]]. rewrite E. cbn [bind]. apply (loop_more _ _ _ _ H). intros ->. cbn in NE. lia.
  - cbn [ts_loop]. destruct (number_token _ _ _ N) as [d [E1 [E2 _]]]. rewrite E1. cbn [bind]. rewrite E2. cbn [bind]. auto.
Qed.
Lemma file_rows_full : forall lines coms opts rows, ts_file (ts_float A) lines coms opts rows -> Forall (fun r => r <> []) rows.
Proof.
  intros lines coms opts rows H. induction H as [|b lines coms opts rows B H IH|b c t lines coms opts rows B T H IH|l' k kind fm z0 lines coms opts rows O H IH|l' xs lines coms opts rows N H IH]; auto.
  constructor; auto. now destruct (number_token _ _ _ N) as [d [_ [_ K]]].
Qed.

(** *** The matrices *)
Lemma pair_up_nth : forall (f : R -> R -> C) q l x y, nth_error l (2 * q) = Some x -> nth_error l (S (2 * q)) = Some y -> nth_error (pair_up f l) q = Some (f x y).
Proof.
  intros f q. induction q as [|q IH]; intros l x y Hx Hy.
  - destruct l as [|a [|b l]]; cbn in Hx, Hy; try discriminate. cbn. congruence.
  - replace (2 * S q) with (S (S (2 * q))) in * by lia. destruct l as [|a [|b l]]; cbn [nth_error] in Hx, Hy; try discriminate.
    cbn [pair_up nth_error]. now apply IH.
Qed.
Lemma pair_up_length : forall (f : R -> R -> C) q l, length l = 2 * q -> length (pair_up f l) = q.
Proof.
  intros f q. induction q as [|q IH]; intros l E; [destruct l; [auto|discriminate]|]. destruct l as [|a [|b l]]; cbn [length] in E; try lia. cbn [pair_up length]. rewrite IH; lia.
Qed.
Lemma chunks_nth : forall n k (l : list C) i, i < k -> nth_error (chunks n k l) i = Some (firstn n (skipn (n * i) l)).
Proof.
  intros n k. induction k as [|k IH]; intros l i Hi; [lia|]. cbn [chunks]. destruct i as [|i]; [now rewrite Nat.mul_0_r|]. cbn [nth_error]. rewrite IH by lia.
  f_equal. f_equal. replace (n * S i) with (n + n * i) by lia. clear. revert l. induction n as [|n IHn] in i |- *.
  - intros l. reflexivity.
  - intros l. generalize (S n * i). intros m. clear. generalize (S n). intros a. revert l. induction a as [|a IHa]; intros l; auto. destruct l; [now destruct m|]. cbn [skipn Nat.add]. apply IHa.
Qed.
Lemma chunks_length : forall n k (l : list C), length (chunks n k l) = k.
Proof. intros n k. induction k as [|k IH]; intros l; auto. cbn. now rewrite IH. Qed.
Lemma nth_skip : forall (l : list C) m j, nth_error (skipn m l) j = nth_error l (m + j).
Proof. intros l m. revert l. induction m as [|m IH]; intros l j; auto. destruct l; [now destruct j|]. cbn. apply IH. Qed.
Lemma nth_first : forall (l : list C) n j, j < n -> nth_error (firstn n l) j = nth_error l j.
Proof. intros l n. revert l. induction n as [|n IH]; intros l j Hj; [lia|]. destruct l; [now destruct j|]. destruct j; auto. cbn. apply IH. lia. Qed.
Lemma to_matrix_ok : forall n (z : list C), 1 <= n -> length z = n * n ->
  length (to_matrix z) = n /\ (forall r, In r (to_matrix z) -> length r = n) /\
  forall i j, i < n -> j < n -> match nth_error (to_matrix z) i with Some r => nth_error r j | None => None end = nth_error z (place n i j).
Proof.
  intros n z Hn HL. destruct (Nat.eq_dec n 1) as [->|N1].
  { destruct z as [|a [|b z]]; cbn in HL; try lia. split; auto. split; [intros r [<-|[]]; auto|]. intros i j Hi Hj. assert (i = 0) as -> by lia. assert (j = 0) as -> by lia. reflexivity. }
  destruct (Nat.eq_dec n 2) as [->|N2].
  { destruct z as [|a [|b [|c [|d [|e z]]]]]; cbn in HL; try lia. split; auto. split; [intros r [<-|[<-|[]]]; auto|]. intros i j Hi Hj.
    destruct i as [|[|i]]; [| |lia]; destruct j as [|[|j]]; try lia; reflexivity. }
  assert (H9 : 9 <= length z) by (rewrite HL; nia).
  assert (E : to_matrix z = chunks n n z).
  { assert (Q : Nat.sqrt (length z) = n) by (rewrite HL; apply Nat.sqrt_square). unfold to_matrix.
    destruct z as [|a [|b [|c [|d [|e z]]]]]; cbn [length] in H9; try lia. now rewrite Q. }
  rewrite E. rewrite chunks_length. split; auto. split.
  - intros r Hr. apply In_nth_error in Hr as [i Hi]. assert (Hl : i < n) by (rewrite <- (chunks_length n n z); apply nth_error_Some; congruence).
    rewrite chunks_nth in Hi by auto. injection Hi as <-. rewrite firstn_length, skipn_length, HL. nia.
  - intros i j Hi Hj. rewrite chunks_nth by auto. rewrite nth_first, nth_skip by auto. unfold place. destruct (Nat.eqb_spec n 2); [lia|]. reflexivity.
Qed.

(** *** The block *)
Lemma eqb_chars_refl : forall l, eqb_chars l l = true.
Proof. intros l. unfold eqb_chars. destruct (list_eq_dec ascii_dec l l); congruence. Qed.
Lemma freq_mult_ok : forall u k, In (u, k) units -> freq_mult (chars u) = Ok k.
Proof. intros u k H. cbn [units In] in H. repeat (destruct H as [H|H]; [injection H as <- <-; reflexivity|]). destruct H. Qed.
Lemma conv_of_ok : forall f fm, In (f, fm) fmts -> conv_of A (chars f) = Ok (fmt_fun A fm).
Proof. intros u k H. cbn [fmts In] in H. repeat (destruct H as [H|H]; [injection H as <- <-; reflexivity|]). destruct H. Qed.
Lemma heads : forall d (o : list (list R)), Forall (fun r => r <> []) o -> mapM (fun r => of_option IndexError (hd_error r)) o = Ok (map (fun r => hd d r) o).
Proof.
  intros d o H. apply mapM_Forall2. induction H as [|r o NE H IH]; cbn [map]; constructor; auto. destruct r; [congruence|reflexivity].
Qed.

Lemma read_block : forall lines coms l rows k kind fm z0 z o nz, ts_file (ts_float A) lines coms [l] rows -> option_line l k kind fm z0 ->
  match z0 with None => z = ts_one A | Some t => ts_float A t = Ok z end ->
  process_data (ts_leb A) rows = Ok (o, nz) -> Forall (fun r => r <> []) o -> Forall (fun r => r <> []) nz ->
  ts_read A lines = Ok {| t_name := chars kind; t_freq := map (fun r => ts_scale A k (hd z r)) o;
    t_mats := map (fun r => to_matrix (pair_up (fmt_fun A fm) (tl r))) o;
    t_noise := match nz with [] => None | _ =>
      let f := map (fun r => ts_scale A k (hd z r)) o in let fn := map (fun r => ts_scale A k (hd z r)) nz in
      Some {| n_own := if Nat.eqb (length f) (length fn) && ts_close A f fn then None else Some fn;
              n_rn := map (fun r => ts_mul A (last r z) z) nz; n_fmin := map (fun r => ts_undb A (nth 1 r z)) nz;
              n_gopt := map (fun r => fmt_fun A fm (nth 2 r z) (nth 3 r z)) nz |} end;
    t_z0 := z; t_comments := coms |}.
Proof.
  intros lines coms l rows k kind fm z0 z o nz HF HO Hz HP Fo Fn.
  destruct (option_token _ _ _ _ _ HO) as [i [u [f [r [Et [Hu [Hk [Hf Ew]]]]]]]]. unfold ts_read. rewrite (loop_one _ _ _ _ HF i [] []) by auto. cbn [bind app].
  rewrite HP. cbn [bind]. unfold proc_info. rewrite Ew. destruct z0 as [t|]; cbn [app].
  - rewrite Hz. cbn [bind]. rewrite (freq_mult_ok _ _ Hu). cbn [bind]. rewrite (heads z o Fo), (heads z nz Fn). cbn [bind]. rewrite (conv_of_ok _ _ Hf). cbn [bind]. rewrite !map_map. reflexivity.
  - subst z. cbn [bind]. rewrite (freq_mult_ok _ _ Hu). cbn [bind]. rewrite (heads (ts_one A) o Fo), (heads (ts_one A) nz Fn). cbn [bind]. rewrite (conv_of_ok _ _ Hf). cbn [bind]. rewrite !map_map. reflexivity.
Qed.
End Loop.
