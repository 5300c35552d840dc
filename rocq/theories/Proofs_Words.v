(** Facts about splitting and joining text. *)
From Coq Require Import Ascii String List Arith ZArith Bool Lia.
From Verif Require Import Model_NdArray Model_Text Model_Words Proofs_Text.
Import ListNotations.
Local Open Scope nat_scope.
Local Open Scope list_scope.

(** A word: something without white space. *)
Definition word (w : list ascii) : Prop := w <> [] /\ forall c, In c w -> is_space c = false.
Definition blank (w : list ascii) : Prop := w <> [] /\ forall c, In c w -> is_space c = true.

Lemma words_from_word : forall w cur l, (forall c, In c w -> is_space c = false) -> words_from cur (w ++ l) = words_from (cur ++ w) l.
Proof.
  induction w as [|c w IH]; intros cur l H; [now rewrite app_nil_r|].
  cbn [app words_from]. rewrite (H c) by (left; auto). rewrite IH by (intros; apply H; right; auto). now rewrite <- app_assoc.
Qed.
Lemma words_from_blank : forall s l, (forall c, In c s -> is_space c = true) -> words_from [] (s ++ l) = words_from [] l.
Proof. induction s as [|c s IH]; intros l H; auto. cbn [app words_from flush]. rewrite (H c) by (left; auto). apply IH. intros; apply H; right; auto. Qed.

Lemma words_cons : forall w s l, word w -> blank s -> words (w ++ s ++ l) = w :: words l.
Proof.
  intros w s l [W1 W2] [B1 B2]. unfold words. rewrite words_from_word by auto. cbn [app]. destruct s as [|c s]; [congruence|].
  cbn [app words_from]. rewrite (B2 c) by (left; auto). rewrite words_from_blank by (intros; apply B2; right; auto).
  destruct w; [congruence|]. reflexivity.
Qed.
Lemma words_word : forall w, word w -> words w = [w].
Proof. intros w [W1 W2]. unfold words. rewrite <- (app_nil_r w) at 1. rewrite words_from_word by auto. cbn. destruct w; [congruence|auto]. Qed.
Lemma words_join : forall s ws, blank s -> Forall word ws -> words (join s ws) = ws.
Proof.
  intros s ws B. induction ws as [|w ws IH]; intros F; [reflexivity|]. inversion F as [|? ? W F']; subst.
  destruct ws as [|w' ws]; [now apply words_word|]. change (join s (w :: w' :: ws)) with (w ++ s ++ join s (w' :: ws)).
  rewrite words_cons by auto. f_equal. auto.
Qed.

Lemma join_In : forall s ws c, In c (join s ws) -> In c s \/ exists w, In w ws /\ In c w.
Proof.
  intros s ws c. induction ws as [|w ws IH]; [intros []|]. destruct ws as [|w' ws].
  - intros H. right. exists w. split; [left; auto|exact H].
  - change (join s (w :: w' :: ws)) with (w ++ s ++ join s (w' :: ws)). rewrite !in_app_iff. intros [H|[H|H]].
    + right. exists w. split; [left; auto|auto].
    + auto.
    + apply IH in H as [H|[u [H1 H2]]]; auto. right. exists u. split; [right; auto|auto].
Qed.

Lemma strip_ends : forall a l b, is_space a = false -> is_space b = false -> (forall l', l = l' -> strip (a :: l' ++ [b]) = a :: l' ++ [b]).
Proof.
  intros a l b Ha Hb l' _. unfold strip, lstrip, rstrip. cbn [drop_while]. rewrite Ha.
  rewrite app_comm_cons, rev_app_distr. cbn [rev app drop_while]. rewrite Hb. cbn [rev]. rewrite rev_app_distr, rev_involutive. reflexivity.
Qed.

(** Text which begins and ends with something else than white space. *)
Definition trimmed (l : list ascii) : Prop :=
  (exists a l', l = a :: l' /\ is_space a = false) /\ (exists b l', l = l' ++ [b] /\ is_space b = false).
Lemma strip_trimmed : forall l, trimmed l -> strip l = l.
Proof.
  intros l [[a [l1 [E1 Ha]]] [b [l2 [E2 Hb]]]]. unfold strip, lstrip, rstrip. rewrite E1. cbn [drop_while]. rewrite Ha. rewrite <- E1, E2.
  rewrite rev_app_distr. cbn [rev app drop_while]. rewrite Hb. cbn [rev]. now rewrite rev_involutive.
Qed.
Lemma strip_nl : forall l b, trimmed l -> is_space b = true -> strip (l ++ [b]) = l.
Proof.
  intros l b T Hb. pose proof T as T0. destruct T as [[a [l1 [E1 Ha]]] T2]. unfold strip, lstrip, rstrip. rewrite E1. cbn [app drop_while]. rewrite Ha.
  rewrite app_comm_cons, <- E1, rev_app_distr. cbn [rev app drop_while]. rewrite Hb.
  destruct T2 as [c [l2 [E2 Hc]]]. rewrite E2, rev_app_distr. cbn [rev app drop_while]. rewrite Hc. cbn [rev]. now rewrite rev_involutive.
Qed.
Lemma word_trimmed : forall w, word w -> trimmed w.
Proof.
  intros w [W1 W2]. split.
  - destruct w as [|a w]; [congruence|]. exists a, w. split; auto. apply W2. left; auto.
  - destruct (exists_last W1) as [l' [b E]]. exists b, l'. split; auto. apply W2. rewrite E. apply in_app_iff. right; left; auto.
Qed.
Lemma trimmed_app : forall a m b, trimmed a -> trimmed b -> trimmed (a ++ m ++ b).
Proof.
  intros a m b [[x [a' [Ea Hx]]] _] [_ [y [b' [Eb Hy]]]]. split.
  - exists x, (a' ++ m ++ b). split; [now rewrite Ea|auto].
  - exists y, (a ++ m ++ b'). split; [rewrite Eb; now rewrite !app_assoc|auto].
Qed.
Lemma join_trimmed : forall s ws, Forall word ws -> ws <> [] -> trimmed (join s ws).
Proof.
  intros s ws. induction ws as [|w ws IH]; intros F NE; [congruence|]. inversion F as [|? ? W F']; subst. destruct ws as [|w' ws]; [now apply word_trimmed|].
  change (join s (w :: w' :: ws)) with (w ++ s ++ join s (w' :: ws)). apply trimmed_app; [now apply word_trimmed|]. apply IH; [auto|discriminate].
Qed.

Lemma before_none : forall c l, ~ In c l -> before c l = l.
Proof.
  intros c l. unfold before. induction l as [|x l IH]; intros H; auto. cbn [take_while]. destruct (Ascii.eqb_spec x c) as [E|NE]; cbn.
  - exfalso. apply H. left; auto.
  - rewrite IH; auto. intros K. apply H. right; auto.
Qed.

Lemma tab_blank : blank [tab].
Proof. split; [discriminate|]. intros c [<-|[]]. reflexivity. Qed.
