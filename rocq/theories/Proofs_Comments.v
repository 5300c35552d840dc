(** Lemmas about the regular expression of comments. *)
From Coq Require Import Ascii String List Arith ZArith Bool Lia.
From Verif Require Import Model_NdArray Model_Text Model_Block Model_Comments Spec_Comments.
Import ListNotations.
Local Open Scope nat_scope.
Local Open Scope list_scope.

Section Re.
  Context {R : Type}.
  Implicit Types (p : ascii -> bool) (k : list ascii -> list ascii -> option R).
  Lemma star_some : forall p k l acc x, star p k acc l = Some x ->
    exists a r, l = a ++ r /\ Forall (fun c => p c = true) a /\ k (acc ++ a) r = Some x.
  Proof.
    intros p k; induction l as [|c l IH]; intros acc x H; simpl in H.
    - exists [], []. repeat split; auto; rewrite ?app_nil_r; auto.
    - destruct (p c) eqn:P.
      + destruct (star p k (acc ++ [c]) l) as [y|] eqn:E.
        * injection H as <-. destruct (IH _ _ E) as [a [r [E1 [E2 E3]]]].
          exists (c :: a), r. subst l. rewrite <- app_assoc in E3. repeat split; auto.
        * exists [], (c :: l). repeat split; auto; rewrite ?app_nil_r; auto.
      + exists [], (c :: l). repeat split; auto; rewrite ?app_nil_r; auto.
  Qed.
  Lemma star_max : forall p k a acc r x, Forall (fun c => p c = true) a ->
    (forall c r', r = c :: r' -> p c = false) -> k (acc ++ a) r = Some x -> star p k acc (a ++ r) = Some x.
  Proof.
    intros p k; induction a as [|c a IH]; intros acc r x F N K.
    - rewrite app_nil_r in K. destruct r as [|c r]; simpl; auto. rewrite (N c r eq_refl). exact K.
    - apply Forall_cons_iff in F as [F1 F2]. cbn [app star]. rewrite F1.
      rewrite (IH (acc ++ [c]) r x F2 N); auto. now rewrite <- app_assoc.
  Qed.
  Lemma lazy_some : forall p k l acc x, lazy p k acc l = Some x ->
    exists a r, l = a ++ r /\ Forall (fun c => p c = true) a /\ k (acc ++ a) r = Some x /\
      (forall a' b', a = a' ++ b' -> b' <> [] -> k (acc ++ a') (b' ++ r) = None).
  Proof.
    intros p k; induction l as [|c l IH]; intros acc x H; simpl in H.
    - destruct (k acc []) as [y|] eqn:K; try discriminate. injection H as <-.
      exists [], []. repeat split; auto; rewrite ?app_nil_r; auto. intros a' b' E N. symmetry in E. apply app_eq_nil in E. tauto.
    - destruct (k acc (c :: l)) as [y|] eqn:K.
      + injection H as <-. exists [], (c :: l). repeat split; auto; rewrite ?app_nil_r; auto.
        intros a' b' E N. symmetry in E. apply app_eq_nil in E. tauto.
      + destruct (p c) eqn:P; try discriminate. destruct (IH _ _ H) as [a [r [E1 [E2 [E3 E4]]]]].
        subst l. exists (c :: a), r. rewrite <- app_assoc in E3. repeat split; auto.
        intros a' b' E N. destruct a' as [|c' a'].
        * simpl in E. subst b'. rewrite app_nil_r. exact K.
        * cbn [app] in E. injection E as <- E. specialize (E4 a' b' E N). rewrite <- app_assoc in E4. exact E4.
  Qed.
  Lemma lazy_first : forall p k a acc r x, Forall (fun c => p c = true) a -> k (acc ++ a) r = Some x ->
    (forall a' b', a = a' ++ b' -> b' <> [] -> k (acc ++ a') (b' ++ r) = None) -> lazy p k acc (a ++ r) = Some x.
  Proof.
    intros p k; induction a as [|c a IH]; intros acc r x F K N.
    - rewrite app_nil_r in K. cbn [app]. destruct r; simpl; now rewrite K.
    - apply Forall_cons_iff in F as [F1 F2]. cbn [app lazy].
      pose proof (N [] (c :: a) eq_refl ltac:(discriminate)) as N0. rewrite app_nil_r in N0. cbn [app] in N0. rewrite N0, F1.
      apply IH; auto.
      + now rewrite <- app_assoc.
      + intros a' b' E NB. rewrite <- app_assoc. apply (N (c :: a') b'); auto. simpl. now rewrite E.
  Qed.
  Lemma plus_some : forall p k l x, plus p k l = Some x ->
    exists a r, l = a ++ r /\ a <> [] /\ Forall (fun c => p c = true) a /\ k a r = Some x.
  Proof.
    intros p k [|c l] x H; simpl in H; try discriminate. destruct (p c) eqn:P; try discriminate.
    destruct (star_some _ _ _ _ _ H) as [a [r [E1 [E2 E3]]]]. exists (c :: a), r. subst l.
    repeat split; auto; discriminate.
  Qed.
  Lemma plus_max : forall p k a r x, a <> [] -> Forall (fun c => p c = true) a ->
    (forall c r', r = c :: r' -> p c = false) -> k a r = Some x -> plus p k (a ++ r) = Some x.
  Proof.
    intros p k [|c a] r x NE F N K; try congruence. apply Forall_cons_iff in F as [F1 F2].
    cbn [app plus]. rewrite F1. apply star_max; auto.
  Qed.
  Lemma one_some : forall p (k : list ascii -> option R) l x, one p k l = Some x -> exists c r, l = c :: r /\ p c = true /\ k r = Some x.
  Proof. intros p k [|c l] x H; simpl in H; try discriminate. destruct (p c) eqn:P; try discriminate. eauto 6. Qed.
  (** Longer matches fail. *)
  Lemma star_some_max : forall p k l acc x, star p k acc l = Some x ->
    exists a r, l = a ++ r /\ Forall (fun c => p c = true) a /\ k (acc ++ a) r = Some x /\
      (forall b r', r = b ++ r' -> b <> [] -> Forall (fun c => p c = true) b -> k (acc ++ a ++ b) r' = None).
  Proof.
    intros p k; induction l as [|c l IH]; intros acc x H; simpl in H.
    - exists [], []. repeat split; auto; rewrite ?app_nil_r; auto.
      intros b r' E N _. symmetry in E. apply app_eq_nil in E. tauto.
    - destruct (p c) eqn:P.
      + destruct (star p k (acc ++ [c]) l) as [y|] eqn:E.
        * injection H as <-. destruct (IH _ _ E) as [a [r [E1 [E2 [E3 E4]]]]].
          exists (c :: a), r. subst l. rewrite <- app_assoc in E3. repeat split; auto.
          intros b r' F N B. specialize (E4 b r' F N B). rewrite <- app_assoc in E4. exact E4.
        * exists [], (c :: l). repeat split; auto; rewrite ?app_nil_r; auto.
          intros b r' F N B. destruct b as [|c' b]; try congruence. cbn [app] in F. injection F as <- F.
          apply Forall_cons_iff in B as [_ B]. subst l. cbn [app]. clear IH H.
          assert (G : forall b acc r', Forall (fun c => p c = true) b -> star p k acc (b ++ r') = None -> k (acc ++ b) r' = None).
          { clear. induction b as [|c b IH]; intros acc r' B S.
            - rewrite app_nil_r. cbn [app] in S. destruct r' as [|c r']; simpl in S; auto.
              destruct (p c); auto. destruct (star p k (acc ++ [c]) r'); congruence.
            - apply Forall_cons_iff in B as [B1 B2]. cbn [app star] in S. rewrite B1 in S.
              destruct (star p k (acc ++ [c]) (b ++ r')) eqn:E; try discriminate.
              rewrite <- (IH (acc ++ [c]) r' B2 E). now rewrite <- app_assoc. }
          specialize (G b (acc ++ [c]) r' B E). rewrite <- app_assoc in G. exact G.
      + exists [], (c :: l). repeat split; auto; rewrite ?app_nil_r; auto.
        intros b r' F N B. destruct b as [|c' b]; try congruence. cbn [app] in F. injection F as <- F.
        apply Forall_cons_iff in B as [B _]. congruence.
  Qed.
  Lemma star_complete : forall p k a acc r, Forall (fun c => p c = true) a -> k (acc ++ a) r <> None -> star p k acc (a ++ r) <> None.
  Proof.
    intros p k; induction a as [|c a IH]; intros acc r F K.
    - rewrite app_nil_r in K. cbn [app]. destruct r as [|c r]; simpl; auto. destruct (p c); auto.
      destruct (star p k (acc ++ [c]) r); auto; discriminate.
    - apply Forall_cons_iff in F as [F1 F2]. cbn [app star]. rewrite F1.
      destruct (star p k (acc ++ [c]) (a ++ r)) eqn:E; try discriminate.
      exfalso. apply (IH (acc ++ [c]) r F2); auto. now rewrite <- app_assoc.
  Qed.
  Lemma lazy_complete : forall p k a acc r, Forall (fun c => p c = true) a -> k (acc ++ a) r <> None -> lazy p k acc (a ++ r) <> None.
  Proof.
    intros p k; induction a as [|c a IH]; intros acc r F K.
    - rewrite app_nil_r in K. cbn [app]. destruct r; simpl; destruct (k acc _); auto; discriminate.
    - apply Forall_cons_iff in F as [F1 F2]. cbn [app lazy].
      destruct (k acc (c :: a ++ r)); try discriminate. rewrite F1. apply IH; auto. now rewrite <- app_assoc.
  Qed.
  Lemma plus_complete : forall p k a r, a <> [] -> Forall (fun c => p c = true) a -> k a r <> None -> plus p k (a ++ r) <> None.
  Proof.
    intros p k [|c a] r NE F K; try congruence. apply Forall_cons_iff in F as [F1 F2].
    cbn [app plus]. rewrite F1. apply star_complete; auto.
  Qed.
End Re.

(** ** Character classes *)
Lemma sep_iff : forall c, is_sep c = true <-> separator c.
Proof. intros c. unfold is_sep, separator. rewrite orb_true_iff, !Ascii.eqb_eq. reflexivity. Qed.
Lemma sep_not_space : forall c, separator c -> is_space c = false.
Proof. intros c [-> | ->]; reflexivity. Qed.
Lemma nl_iff : forall l, one_line l <-> Forall (fun c => not_nl c = true) l.
Proof.
  intros l. unfold one_line. rewrite Forall_forall. unfold not_nl. split.
  - intros H c I. apply negb_true_iff, Ascii.eqb_neq. intros ->. auto.
  - intros H I. specialize (H _ I). now rewrite Ascii.eqb_refl in H.
Qed.
Lemma unit_iff : forall c, in_unit c = true <->
  is_alpha c = true \/ is_digit c = true \/ is_space c = true \/ separator c \/ In c (chars "%#/").
Proof.
  intros c. unfold in_unit, is_word. rewrite !orb_true_iff, sep_iff, !Ascii.eqb_eq.
  change (In c (chars "%#/")) with (("%"%char = c \/ "#"%char = c \/ "/"%char = c \/ False)).
  split; intros; intuition (subst; auto).
Qed.

(** First character that is not white space. *)
Definition head_char (l : list ascii) : option ascii := hd_error (drop_while is_space l).
Lemma drop_blank : forall w l, blank w -> drop_while is_space (w ++ l) = drop_while is_space l.
Proof. induction w as [|c w IH]; intros l F; auto. apply Forall_cons_iff in F as [F1 F2]. cbn [app drop_while]. rewrite F1. auto. Qed.
Lemma head_blank : forall w c l, blank w -> is_space c = false -> head_char (w ++ c :: l) = Some c.
Proof. intros w c l B N. unfold head_char. rewrite drop_blank by auto. cbn [drop_while]. now rewrite N. Qed.

Lemma value_some : forall name u l x, re_value name u l = Some x ->
  exists w s w' v r, l = w ++ s :: w' ++ v ++ r /\ blank w /\ separator s /\ blank w' /\ v <> [] /\ one_line v /\ x = (name, u, v) /\
    (forall c r', r = c :: r' -> not_nl c = false).
Proof.
  intros name u l x H. unfold re_value in H.
  destruct (star_some _ _ _ _ _ H) as [w [l1 [E1 [E2 E3]]]].
  destruct (one_some _ _ _ _ E3) as [s [l2 [E4 [E5 E6]]]].
  destruct (star_some _ _ _ _ _ E6) as [w' [l3 [E7 [E8 E9]]]].
  assert (exists v r, l3 = v ++ r /\ v <> [] /\ one_line v /\ x = (name, u, v) /\ (forall c r', r = c :: r' -> not_nl c = false))
    as [v [r [E10 [E11 [E12 [E13 E14]]]]]].
  { destruct l3 as [|c l3]; simpl in E9; try discriminate. destruct (not_nl c) eqn:P; try discriminate.
    destruct (star_some_max _ _ _ _ _ E9) as [a [r [F1 [F2 [F3 F4]]]]]. exists (c :: a), r. subst l3.
    repeat split; auto; try discriminate; try (apply nl_iff; now constructor); try (cbn [app] in F3; congruence).
    intros c' r' ->. destruct (not_nl c') eqn:Q; auto.
    specialize (F4 [c'] r' eq_refl ltac:(discriminate) ltac:(now constructor)). discriminate. }
  subst. exists w, s, w', v, r. repeat split; auto; now apply sep_iff.
Qed.
Lemma value_ok : forall name u w s w' v, blank w -> separator s -> blank w' -> good_value v ->
  re_value name u (w ++ s :: w' ++ v) = Some (name, u, v).
Proof.
  intros name u w s w' v B S B' [V1 [V2 V3]]. unfold re_value. apply star_max; auto.
  { intros c r' E. injection E as <- <-. now apply sep_not_space. }
  unfold one. rewrite (proj2 (sep_iff s) S). apply star_max; auto.
  rewrite <- (app_nil_r v) at 1. apply plus_max; auto; [now apply nl_iff|discriminate].
Qed.

(** A tail begins with a bracket or a separator. *)
Lemma tail_head : forall name l x, re_tail name l = Some x ->
  exists c, head_char l = Some c /\ (c = "["%char \/ separator c).
Proof.
  intros name l x H. unfold re_tail in H.
  destruct (star_some _ _ _ _ _ H) as [w [l1 [E1 [E2 E3]]]]. subst l.
  destruct (one (Ascii.eqb "[") _ l1) as [y|] eqn:E.
  - destruct (one_some _ _ _ _ E) as [c [l2 [F1 [F2 F3]]]]. apply Ascii.eqb_eq in F2. subst.
    exists "["%char. split; auto. now apply head_blank.
  - destruct (value_some _ _ _ _ E3) as [w' [s [w2 [v [r [F1 [F2 [F3 _]]]]]]]]. subst l1.
    exists s. split; auto. rewrite app_assoc. apply head_blank; [apply Forall_app; split; auto|now apply sep_not_space].
Qed.
Lemma suffix_head : forall name a' b' rest, good_name name -> name = a' ++ b' -> b' <> [] ->
  exists c, head_char (b' ++ rest) = Some c /\ In c name /\ is_space c = false.
Proof.
  intros name a' b' rest [N1 [[T1 T2] _]] E NB.
  assert (exists w c r, b' = w ++ c :: r /\ blank w /\ is_space c = false) as [w [c [r [E1 [E2 E3]]]]].
  { destruct (exists_last NB) as [b0 [c0 E0]]. specialize (T2 c0 (a' ++ b0)).
    rewrite E, E0, <- app_assoc in T2. specialize (T2 eq_refl). clear E NB. subst b'.
    induction b0 as [|c b0 IH]; [exists [], c0, []; repeat split; auto; constructor|].
    destruct (is_space c) eqn:S.
    - destruct IH as [w [c1 [r [E1 [E2 E3]]]]]. exists (c :: w), c1, r. cbn [app]. rewrite E1. repeat split; auto. now constructor.
    - exists [], c, (b0 ++ [c0]). repeat split; auto. constructor. }
  exists c. subst b'. rewrite <- app_assoc. split; [now apply head_blank|]. split; auto.
  rewrite E. apply in_or_app; right; apply in_or_app; right; now left.
Qed.

Lemma name_ok : forall name rest x w1, good_name name -> blank w1 -> re_tail name rest = Some x ->
  reg_comment_all (w1 ++ name ++ rest) = Some x.
Proof.
  intros name rest x w1 G B T. unfold reg_comment_all. apply star_max; auto.
  - intros c r' E. destruct G as [N1 [[T1 _] _]]. destruct name as [|c' n]; try congruence.
    injection E as <- _. now apply (T1 c' n).
  - apply lazy_first; auto.
    + apply nl_iff. apply G.
    + intros a' b' E NB. cbn [app]. destruct (re_tail a' (b' ++ rest)) as [y|] eqn:F; auto. exfalso.
      destruct (tail_head _ _ _ F) as [c [H1 H2]]. destruct (suffix_head _ _ _ rest G E NB) as [c' [H3 [H4 H5]]].
      assert (c = c') as -> by congruence. destruct G as [_ [_ [_ G4]]]. destruct (G4 _ H4). tauto.
Qed.
Lemma tail_plain : forall name w s w' v, blank w -> separator s -> blank w' -> good_value v ->
  re_tail name (w ++ s :: w' ++ v) = Some (name, None, v).
Proof.
  intros name w s w' v B S B' G. unfold re_tail. apply star_max; auto.
  - intros c r' E. injection E as <- <-. now apply sep_not_space.
  - assert (E : one (R:=groups) (Ascii.eqb "[") (plus in_unit (fun u l2 => one (Ascii.eqb "]") (re_value name (Some u)) l2)) (s :: w' ++ v) = None).
    { unfold one. destruct S as [-> | ->]; reflexivity. }
    rewrite E. apply (value_ok name None [] s w' v); auto. constructor.
Qed.
Lemma tail_unit : forall name w u w1 s w' v, blank w -> good_unit u -> blank w1 -> separator s -> blank w' -> good_value v ->
  re_tail name (w ++ "["%char :: u ++ "]"%char :: w1 ++ s :: w' ++ v) = Some (name, Some u, v).
Proof.
  intros name w u w1 s w' v B [U1 U2] B1 S B' G. unfold re_tail. apply star_max; auto.
  - intros c r' E. injection E as <- <-. reflexivity.
  - assert (E : one (R:=groups) (Ascii.eqb "[") (plus in_unit (fun u l2 => one (Ascii.eqb "]") (re_value name (Some u)) l2))
        ("["%char :: u ++ "]"%char :: w1 ++ s :: w' ++ v) = Some (name, Some u, v)).
    { unfold one at 1. rewrite Ascii.eqb_refl. apply plus_max; auto.
      - apply Forall_forall. intros c I. apply unit_iff. auto.
      - intros c r' E. injection E as <- <-. reflexivity.
      - unfold one. rewrite Ascii.eqb_refl. now apply value_ok. }
    now rewrite E.
Qed.

(** Converse. *)
Lemma tail_some : forall name l x, re_tail name l = Some x ->
  (exists w s w' v r, l = w ++ s :: w' ++ v ++ r /\ blank w /\ separator s /\ blank w' /\ v <> [] /\ one_line v /\ x = (name, None, v) /\
    (forall c r', r = c :: r' -> not_nl c = false)) \/
  (exists w0 u w s w' v r, l = w0 ++ "["%char :: u ++ "]"%char :: w ++ s :: w' ++ v ++ r /\ blank w0 /\ good_unit u /\
      blank w /\ separator s /\ blank w' /\ v <> [] /\ one_line v /\ x = (name, Some u, v) /\
      (forall c r', r = c :: r' -> not_nl c = false)).
Proof.
  intros name l x H. unfold re_tail in H.
  destruct (star_some _ _ _ _ _ H) as [w0 [l1 [E1 [E2 E3]]]]. subst l.
  destruct (one (Ascii.eqb "[") _ l1) as [y|] eqn:E.
  - right. injection E3 as ->. destruct (one_some _ _ _ _ E) as [c [l2 [F1 [F2 F3]]]]. apply Ascii.eqb_eq in F2. subst c l1.
    destruct (plus_some _ _ _ _ F3) as [u [l3 [G1 [G2 [G3 G4]]]]]. subst l2.
    destruct (one_some _ _ _ _ G4) as [c [l4 [H1 [H2 H3]]]]. apply Ascii.eqb_eq in H2. subst c l3.
    destruct (value_some _ _ _ _ H3) as [w [s [w' [v [r [I1 [I2 [I3 [I4 [I5 [I6 [I7 I8]]]]]]]]]]]]. subst l4.
    exists w0, u, w, s, w', v, r. repeat split; auto. intros c I. apply unit_iff. rewrite Forall_forall in G3. auto.
  - left. destruct (value_some _ _ _ _ E3) as [w [s [w' [v [r [I1 [I2 [I3 [I4 [I5 [I6 [I7 I8]]]]]]]]]]]]. subst l1.
    exists (w0 ++ w), s, w', v, r. rewrite <- app_assoc. repeat split; auto. apply Forall_app; auto.
Qed.

Lemma value_complete : forall name u w s w' v r, blank w -> separator s -> blank w' -> v <> [] -> one_line v ->
  re_value name u (w ++ s :: w' ++ v ++ r) <> None.
Proof.
  intros name u w s w' v r B S B' NV L. unfold re_value. apply star_complete; auto.
  unfold one. rewrite (proj2 (sep_iff s) S). apply star_complete; auto.
  apply plus_complete; auto; [now apply nl_iff|discriminate].
Qed.
Lemma tail_complete_plain : forall name w s w' v r, blank w -> separator s -> blank w' -> v <> [] -> one_line v ->
  re_tail name (w ++ s :: w' ++ v ++ r) <> None.
Proof.
  intros name w s w' v r B S B' NV L. unfold re_tail. apply star_complete; auto.
  destruct (one _ _ _); try discriminate. apply (value_complete name None [] s w' v r); auto. constructor.
Qed.
Lemma tail_complete_unit : forall name w0 u w s w' v r, blank w0 -> good_unit u -> blank w -> separator s -> blank w' -> v <> [] -> one_line v ->
  re_tail name (w0 ++ "["%char :: u ++ "]"%char :: w ++ s :: w' ++ v ++ r) <> None.
Proof.
  intros name w0 u w s w' v r B0 [U1 U2] B S B' NV L. unfold re_tail. apply star_complete; auto.
  assert (E : one (R:=groups) (Ascii.eqb "[") (plus in_unit (fun u l2 => one (Ascii.eqb "]") (re_value name (Some u)) l2))
        ("["%char :: u ++ "]"%char :: w ++ s :: w' ++ v ++ r) <> None).
  { unfold one at 1. rewrite Ascii.eqb_refl. apply plus_complete; auto.
    - apply Forall_forall. intros c I. apply unit_iff. auto.
    - unfold one. rewrite Ascii.eqb_refl. now apply value_complete. }
  destruct (one _ _ _); try discriminate. congruence.
Qed.
(** What follows does not depend on the name, nor on white space before it. *)
Lemma tail_any : forall name name' l w, blank w -> re_tail name l <> None -> re_tail name' (w ++ l) <> None.
Proof.
  intros name name' l w B H. destruct (re_tail name l) as [x|] eqn:E; try congruence.
  destruct (tail_some _ _ _ E) as [(w1 & s & w' & v & r & -> & H1 & H2 & H3 & H4 & H5 & _)|
    (w0 & u & w1 & s & w' & v & r & -> & H0 & HU & H1 & H2 & H3 & H4 & H5 & _)];
    rewrite app_assoc; [apply tail_complete_plain|apply tail_complete_unit]; auto; apply Forall_app; auto.
Qed.
Lemma reg_some : forall l x, reg_comment_all l = Some x ->
  exists w name rest, l = w ++ name ++ rest /\ blank w /\ one_line name /\ re_tail name rest = Some x /\ trimmed name /\
    (forall c, In c name -> ~ separator c).
Proof.
  intros l x H. unfold reg_comment_all in H.
  destruct (star_some_max _ _ _ _ _ H) as [w [l1 [E1 [E2 [E3 E4]]]]].
  destruct (lazy_some _ _ _ _ _ E3) as [name [rest [F1 [F2 [F3 F4]]]]]. cbn [app] in F3, F4, E4.
  exists w, name, rest. subst l l1. repeat split; auto; [now apply nl_iff| | |].
  - intros c r E. destruct (is_space c) eqn:S; auto. exfalso. subst name.
    specialize (E4 [c] (r ++ rest) eq_refl ltac:(discriminate) ltac:(now constructor)).
    apply Forall_cons_iff in F2 as [_ F2]. revert E4. apply lazy_complete; auto. cbn [app].
    apply (tail_any (c :: r) r rest []); [constructor|congruence].
  - intros c r E. destruct (is_space c) eqn:S; auto. exfalso. subst name.
    specialize (F4 r [c] eq_refl ltac:(discriminate)). revert F4.
    apply (tail_any (r ++ [c]) r rest [c]); [now constructor|congruence].
  - intros c I S. apply in_split in I as [a [b E]]. specialize (F4 a (c :: b) E ltac:(discriminate)). revert F4.
    assert (exists q z, b ++ rest = q ++ z /\ q <> [] /\ exists w' v r, b ++ rest = w' ++ v ++ r /\ blank w' /\ v <> [] /\ one_line v)
      as [q [z [_ [_ [w' [v [r [G1 [G2 [G3 G4]]]]]]]]]].
    { destruct (tail_head _ _ _ F3) as [c0 [H0 _]]. unfold head_char in H0.
      assert (D : forall t c1, hd_error (drop_while is_space t) = Some c1 -> forall b', exists w' v r, b' ++ t = w' ++ v ++ r /\ blank w' /\ v <> [] /\ one_line v).
      { clear. intros t c1 H b'.
        assert (exists w c r, b' ++ t = w ++ c :: r /\ blank w /\ is_space c = false) as [w [c [r [E1 [E2 E3]]]]].
        { induction b' as [|c b' IH].
          - cbn [app]. induction t as [|c t IH]; try discriminate. cbn [drop_while] in H. destruct (is_space c) eqn:S.
            + destruct (IH H) as [w [c' [r [E1 [E2 E3]]]]]. exists (c :: w), c', r. rewrite E1. repeat split; auto. now constructor.
            + exists [], c, t. repeat split; auto. constructor.
          - destruct (is_space c) eqn:S.
            + destruct IH as [w [c' [r [E1 [E2 E3]]]]]. exists (c :: w), c', r. cbn [app]. rewrite E1. repeat split; auto. now constructor.
            + exists [], c, (b' ++ t). repeat split; auto. constructor. }
        exists w, [c], r. repeat split; auto; try discriminate. intros [E0|[]]. subst c. discriminate E3. }
      destruct (D rest c0 H0 b) as [w' [v [r [D1 [D2 [D3 D4]]]]]].
      exists (b ++ rest), []. rewrite app_nil_r. repeat split; auto.
      - rewrite D1. intros E0. apply app_eq_nil in E0 as [_ E0]. apply app_eq_nil in E0. tauto.
      - eauto 8. }
    cbn [app]. rewrite G1. apply (tail_complete_plain a [] c w' v r); auto. constructor.
Qed.
