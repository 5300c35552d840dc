(** Properties of paths: C50. *)
From Coq Require Import Ascii String List Arith Bool Lia.
From Verif Require Import Model_NdArray Model_Text Model_Path.
Import ListNotations.
Local Open Scope nat_scope.
Local Open Scope list_scope.

(** A path component: no slash, not empty, neither "." nor "..". *)
Definition plain_seg (s : list ascii) : Prop := s <> [] /\ ~ In sep s /\ s <> curdir /\ s <> pardir.
(** The path with these components under a root of slashes. *)
Definition written (n : nat) (l : list (list ascii)) : list ascii := repeat sep n ++ join_sep l.

Lemma eqbc : forall a b, eqb_chars a b = true <-> a = b.
Proof. intros a b. unfold eqb_chars. destruct (list_eq_dec ascii_dec a b); split; congruence. Qed.
Lemma eqbc_refl : forall a, eqb_chars a a = true.
Proof. intros. now apply eqbc. Qed.
Lemma eqbc_neq : forall a b, a <> b -> eqb_chars a b = false.
Proof. intros a b N. destruct (eqb_chars a b) eqn:E; auto. apply eqbc in E. contradiction. Qed.
Lemma is_sep_iff : forall c, is_sep c = true <-> c = sep.
Proof. intros. unfold is_sep. apply Ascii.eqb_eq. Qed.
Lemma not_sep : forall c s, ~ In sep s -> In c s -> is_sep c = false.
Proof. intros c s N I. destruct (is_sep c) eqn:E; auto. apply is_sep_iff in E. subst. contradiction. Qed.

Lemma split_noslash : forall s, ~ In sep s -> split_sep s = [s].
Proof.
  induction s as [|c s IH]; intros N; cbn [split_sep]; auto. rewrite (not_sep c (c :: s)) by (auto; now left). rewrite IH; auto. intros I. apply N. now right.
Qed.
Lemma split_app : forall s t, ~ In sep s -> split_sep (s ++ sep :: t) = s :: split_sep t.
Proof.
  induction s as [|c s IH]; intros t N; cbn [app split_sep]; [reflexivity|].
  rewrite (not_sep c (c :: s)) by (auto; now left). rewrite IH; auto. intros I. apply N. now right.
Qed.
Lemma split_join : forall l, l <> [] -> Forall (fun s => ~ In sep s) l -> split_sep (join_sep l) = l.
Proof.
  induction l as [|s l IH]; intros N F; [congruence|]. inversion F as [|? ? Fs F']; subst. destruct l as [|s' l]; [now apply split_noslash|].
  cbn [join_sep]. rewrite split_app by auto. f_equal. apply IH; [discriminate|auto].
Qed.
Lemma split_nonempty : forall p, split_sep p <> [].
Proof. destruct p as [|c p]; cbn; [discriminate|]. destruct (is_sep c); [discriminate|]. destruct (split_sep p); discriminate. Qed.
Lemma split_noslashes : forall p, Forall (fun s => ~ In sep s) (split_sep p).
Proof.
  induction p as [|c p IH]; cbn [split_sep]; [repeat constructor; auto|]. destruct (is_sep c) eqn:E; [constructor; auto|].
  destruct (split_sep p) as [|s ss]; [repeat constructor|inversion IH; subst; constructor; auto]; intros [->|I]; cbn in *; try discriminate; auto.
Qed.

(** ** normpath of paths with a root *)
Definition clean (acc : list (list ascii)) : Prop := Forall plain_seg acc.
Lemma loop_rooted_clean : forall cs acc, Forall (fun s => ~ In sep s) cs -> clean acc -> clean (norm_loop true cs acc).
Proof.
  induction cs as [|c cs IH]; intros acc F C; cbn [norm_loop]; [now apply Forall_rev|]. inversion F as [|? ? Fc F']; subst.
  destruct (eqb_chars c [] || eqb_chars c curdir) eqn:E1; auto. apply orb_false_iff in E1 as [E1 E2].
  destruct (eqb_chars c pardir) eqn:E3; cbn [negb orb andb].
  - assert (M : match acc with a :: _ => eqb_chars a pardir | [] => false end = false).
    { destruct acc as [|a acc]; auto. inversion C as [|? ? [_ [_ [_ H]]] _]; subst. now apply eqbc_neq. }
    rewrite M. apply IH; auto. destruct acc; auto. inversion C; auto.
  - apply IH; auto. constructor; auto. repeat split; auto; intros ->; rewrite eqbc_refl in *; discriminate.
Qed.
Lemma loop_plain : forall rooted cs rest acc, Forall plain_seg cs -> norm_loop rooted (cs ++ rest) acc = norm_loop rooted rest (rev cs ++ acc).
Proof.
  intros rooted. induction cs as [|c cs IH]; intros rest acc F; auto. inversion F as [|? ? [N1 [_ [N2 N3]]] F']; subst. cbn [app norm_loop].
  rewrite !eqbc_neq by auto. cbn [negb orb]. rewrite IH by auto. cbn [rev]. now rewrite <- app_assoc.
Qed.
Lemma loop_up : forall n rest acc, clean acc -> n <= length acc -> norm_loop true (repeat pardir n ++ rest) acc = norm_loop true rest (skipn n acc).
Proof.
  induction n as [|n IH]; intros rest acc C L; auto. destruct acc as [|a acc]; [cbn in L; lia|]. inversion C as [|? ? [_ [_ [_ N]]] C']; subst. cbn [repeat app norm_loop].
  rewrite eqbc_refl, !eqbc_neq by (auto; discriminate). cbn [negb orb andb tl skipn]. apply IH; auto. cbn in L. lia.
Qed.
Lemma loop_empty : forall rooted n rest acc, norm_loop rooted (repeat [] n ++ rest) acc = norm_loop rooted rest acc.
Proof. intros rooted n. induction n as [|n IH]; intros rest acc; auto. cbn [repeat app norm_loop]. rewrite eqbc_refl. cbn [orb]. apply IH. Qed.
Lemma split_slashes : forall n p, split_sep (repeat sep n ++ p) = repeat [] n ++ split_sep p.
Proof. induction n as [|n IH]; intros p; auto. cbn [repeat app split_sep]. unfold is_sep. rewrite Ascii.eqb_refl. now rewrite IH. Qed.

Definition root_ok (n : nat) : Prop := n = 1 \/ n = 2.
Lemma initial_written : forall n s, root_ok n -> (forall c t, s = c :: t -> is_sep c = false) -> initial_slashes (repeat sep n ++ s) = n.
Proof.
  intros n s [->| ->] H; cbn [repeat app initial_slashes]; change (is_sep sep) with true; destruct s as [|c s]; auto; rewrite (H c s eq_refl); auto. now destruct s.
Qed.
Lemma join_head : forall l, Forall plain_seg l -> forall c t, join_sep l = c :: t -> is_sep c = false.
Proof.
  intros [|s l] F c t E; [discriminate|]. inversion F as [|? ? [N [NS _]] _]; subst. destruct s as [|d s]; [congruence|].
  assert (d = c) by (destruct l; cbn in E; congruence). subst. eapply not_sep; eauto. now left.
Qed.
Lemma initial_abs : forall p, isabs p = true -> root_ok (initial_slashes p).
Proof.
  intros [|a [|b [|c p]]] H; cbn in *; try discriminate; rewrite ?H; unfold root_ok; auto; destruct (is_sep b); auto; destruct (is_sep c); auto.
Qed.
Lemma written_nonempty : forall n l, root_ok n -> written n l <> [].
Proof. intros n l [-> | ->]; discriminate. Qed.
Lemma normpath_abs : forall p, isabs p = true -> exists n l, root_ok n /\ Forall plain_seg l /\ normpath p = written n l.
Proof.
  intros p H. pose proof (initial_abs p H) as R. exists (initial_slashes p), (norm_loop true (split_sep p) []).
  split; auto. split; [apply loop_rooted_clean; [apply split_noslashes|constructor]|].
  unfold normpath. destruct p as [|c p]; [discriminate|]. set (n := initial_slashes (c :: p)) in *.
  assert (E : negb (Nat.eqb n 0) = true) by (destruct R as [-> | ->]; reflexivity). rewrite E.
  pose proof (written_nonempty n (norm_loop true (split_sep (c :: p)) []) R) as W. unfold written in *. destruct (repeat sep n ++ _); [congruence|reflexivity].
Qed.
Lemma normpath_comps : forall n s cs l, root_ok n -> (forall c t, s = c :: t -> is_sep c = false) -> norm_loop true (split_sep s) [] = l -> cs = l ->
  normpath (repeat sep n ++ s) = written n cs.
Proof.
  intros n s cs l R H E ->. unfold normpath. pose proof (initial_written n s R H) as I. pose proof (split_slashes n s) as SS.
  destruct (repeat sep n ++ s) as [|c p] eqn:Q; [destruct R as [-> | ->]; discriminate|]. rewrite I, SS.
  assert (Z : negb (Nat.eqb n 0) = true) by (destruct R as [-> | ->]; reflexivity). rewrite Z, loop_empty, E.
  pose proof (written_nonempty n l R) as W. unfold written in *. destruct (repeat sep n ++ join_sep l); [congruence|reflexivity].
Qed.
Lemma split_join_loop : forall l r, Forall (fun s => ~ In sep s) l -> norm_loop r (split_sep (join_sep l)) [] = norm_loop r l [].
Proof. intros [|s l] r F; [reflexivity|]. rewrite split_join; auto. discriminate. Qed.
Lemma plain_noslash : forall l, Forall plain_seg l -> Forall (fun s => ~ In sep s) l.
Proof. intros l F. eapply Forall_impl; [|exact F]. intros s [_ [H _]]. auto. Qed.
Lemma loop_plain_nil : forall r l, Forall plain_seg l -> norm_loop r l [] = l.
Proof. intros r l F. rewrite <- (app_nil_r l) at 1. rewrite loop_plain by auto. cbn. now rewrite app_nil_r, rev_involutive. Qed.
Lemma normpath_written : forall n l, root_ok n -> Forall plain_seg l -> normpath (written n l) = written n l.
Proof.
  intros n l R F. unfold written at 1. eapply normpath_comps; eauto; [apply join_head; auto|]. rewrite split_join_loop by now apply plain_noslash. symmetry. now apply loop_plain_nil.
Qed.

(** ** splitall *)
Lemma take_while_all : forall {A} (f : A -> bool) a b, (forall x, In x a -> f x = true) -> (forall x t, b = x :: t -> f x = false) ->
  take_while f (a ++ b) = a /\ drop_while f (a ++ b) = b.
Proof.
  intros A f a b Ha Hb. induction a as [|x a IH]; cbn.
  - destruct b as [|x b]; cbn; auto. now rewrite (Hb x b eq_refl).
  - rewrite (Ha x) by now left. destruct IH as [-> ->]; [intros; apply Ha; now right|]. auto.
Qed.
Lemma join_snoc : forall l s, l <> [] -> join_sep (l ++ [s]) = join_sep l ++ sep :: s.
Proof.
  induction l as [|a l IH]; intros s N; [congruence|]. destruct l as [|b l]; [reflexivity|].
  change (join_sep ((a :: b :: l) ++ [s])) with (a ++ sep :: join_sep ((b :: l) ++ [s])). rewrite IH by discriminate. cbn [join_sep]. now rewrite <- app_assoc.
Qed.
Lemma forallb_repeat : forall n, forallb is_sep (repeat sep n) = true.
Proof. induction n; auto. Qed.
Lemma join_last : forall l s, s <> [] -> ~ In sep s -> exists t c, join_sep (l ++ [s]) = t ++ [c] /\ is_sep c = false.
Proof.
  intros l s N NS. destruct s as [|c s _] using rev_ind; [congruence|].
  assert (C : is_sep c = false) by (eapply not_sep; eauto; apply in_app_iff; right; now left).
  destruct l as [|a l]; [exists s, c; auto|]. rewrite join_snoc by discriminate. exists (join_sep (a :: l) ++ sep :: s), c. split; auto. now rewrite <- app_assoc.
Qed.
Lemma os_split_written : forall n l s, Forall plain_seg (l ++ [s]) -> os_split (written n (l ++ [s])) = (written n l, s).
Proof.
  intros n l s F. apply Forall_app in F as [F Fs]. inversion Fs as [|? ? [N [NS _]] _]; subst. unfold os_split.
  assert (SH : exists h, written n (l ++ [s]) = h ++ s /\ (l = [] /\ h = repeat sep n \/ l <> [] /\ h = written n l ++ [sep])).
  { unfold written. destruct l as [|a l]; [exists (repeat sep n); auto|]. rewrite join_snoc by discriminate. exists (repeat sep n ++ join_sep (a :: l) ++ [sep]).
    split; [|right; split; [discriminate|now rewrite app_assoc]]. rewrite <- !app_assoc. reflexivity. }
  destruct SH as [h [-> D]]. rewrite rev_app_distr.
  assert (H1 : forall x, In x (rev s) -> negb (is_sep x) = true) by (intros x I; apply in_rev in I; rewrite (not_sep x s NS I); auto).
  assert (H2 : forall x t, rev h = x :: t -> negb (is_sep x) = false).
  { intros x t E. destruct D as [[_ ->]|[_ ->]].
    - assert (I : In x (rev (repeat sep n))) by (rewrite E; now left). apply in_rev, repeat_spec in I. subst. reflexivity.
    - rewrite rev_app_distr in E. cbn in E. injection E as <- _. reflexivity. }
  destruct (take_while_all _ (rev s) (rev h) H1 H2) as [-> ->]. rewrite !rev_involutive. destruct D as [[-> ->]|[NL ->]].
  - rewrite forallb_repeat. unfold written. cbn [join_sep]. now rewrite app_nil_r.
  - destruct l as [|b l _] using rev_ind; [congruence|]. apply Forall_app in F as [_ Fb]. inversion Fb as [|? ? [Nb [NSb _]] _]; subst.
    destruct (join_last l b Nb NSb) as [t [c [Et Ec]]]. unfold written. rewrite Et.
    assert (FB : forallb is_sep ((repeat sep n ++ t ++ [c]) ++ [sep]) = false).
    { rewrite !forallb_app. cbn [forallb]. rewrite Ec. cbn. now rewrite !andb_false_r. }
    rewrite FB, rev_app_distr. cbn [rev app drop_while]. change (is_sep sep) with true. cbv iota. rewrite !rev_app_distr. cbn [rev app drop_while]. rewrite Ec.
    cbn [rev]. rewrite rev_app_distr, !rev_involutive. now rewrite <- app_assoc.
Qed.
Lemma os_split_root : forall n, os_split (repeat sep n) = (repeat sep n, []).
Proof.
  intros n. unfold os_split. assert (R : rev (repeat sep n) = repeat sep n). { induction n; auto. cbn. rewrite IHn. clear. induction n; cbn; congruence. }
  assert (T : take_while (fun c => negb (is_sep c)) (repeat sep n) = [] /\ drop_while (fun c => negb (is_sep c)) (repeat sep n) = repeat sep n) by (destruct n; auto).
  rewrite R. destruct T as [-> ->]. rewrite R, forallb_repeat. reflexivity.
Qed.
Lemma written_not_dot : forall n l, Forall plain_seg l -> eqb_chars (written n l) curdir || eqb_chars (written n l) pardir = false.
Proof.
  intros n l F. rewrite !eqbc_neq; auto; intros E; unfold written in E.
  - destruct n; [cbn in E|discriminate]. destruct l as [|s [|s' l]]; [discriminate| |].
    + inversion F as [|? ? [_ [_ [_ H]]] _]; auto.
    + cbn [join_sep] in E. assert (I : In sep pardir) by (rewrite <- E; apply in_app_iff; right; now left). cbn in I. intuition discriminate.
  - destruct n; [cbn in E|discriminate]. destruct l as [|s [|s' l]]; [discriminate| |].
    + inversion F as [|? ? [_ [_ [H _]]] _]; auto.
    + cbn [join_sep] in E. assert (I : In sep curdir) by (rewrite <- E; apply in_app_iff; right; now left). cbn in I. intuition discriminate.
Qed.
Lemma written_length : forall n l, Forall plain_seg l -> length l <= length (written n l).
Proof.
  intros n l F. unfold written. rewrite app_length. enough (length l <= length (join_sep l)) by lia.
  induction l as [|s l IH]; auto. inversion F as [|? ? [N _] F']; subst. specialize (IH F'). destruct s as [|c s]; [congruence|]. destruct l as [|s' l]; [cbn; lia|].
  change (join_sep ((c :: s) :: s' :: l)) with ((c :: s) ++ sep :: join_sep (s' :: l)). rewrite app_length. cbn [length] in *. lia.
Qed.
Lemma splitall_loop_ok : forall n l fuel parts, Forall plain_seg l -> length l < fuel -> splitall_loop fuel (written n l) parts = repeat sep n :: l ++ parts.
Proof.
  intros n l. induction l as [|s l IH] using rev_ind; intros fuel parts F L; (destruct fuel as [|f]; [lia|]); cbn [splitall_loop]; rewrite written_not_dot by auto.
  - unfold written. cbn [join_sep]. rewrite app_nil_r, os_split_root, eqbc_refl. reflexivity.
  - rewrite os_split_written by auto. rewrite app_length in L. cbn in L. apply Forall_app in F as [F Fs]. rewrite eqbc_neq.
    + rewrite IH by (auto; lia). now rewrite <- app_assoc.
    + intros E. inversion Fs as [|? ? [N _] _]; subst. unfold written in E. apply app_inv_head in E. destruct l as [|a l].
      * cbn in E. congruence.
      * rewrite join_snoc in E by discriminate. rewrite <- (app_nil_r (join_sep (a :: l))) in E at 1. apply app_inv_head in E. discriminate.
Qed.
Lemma splitall_written : forall n l, Forall plain_seg l -> splitall (written n l) = repeat sep n :: l.
Proof. intros n l F. unfold splitall. rewrite splitall_loop_ok; auto; [now rewrite app_nil_r|]. pose proof (written_length n l F). lia. Qed.

(** ** join *)
Lemma join1_seg : forall a s, a <> [] -> (forall t d, a = t ++ [d] -> is_sep d = false) -> s <> [] -> ~ In sep s -> os_join1 a s = a ++ sep :: s.
Proof.
  intros a s N E Ns NS. unfold os_join1. destruct s as [|c s]; [congruence|]. rewrite (not_sep c (c :: s)) by (auto; now left).
  destruct a as [|d a _] using rev_ind; [congruence|]. rewrite rev_app_distr. cbn [rev app]. now rewrite (E a d eq_refl).
Qed.
Lemma os_join_segs : forall ss s, Forall (fun x => x <> [] /\ ~ In sep x) (s :: ss) -> os_join s ss = join_sep (s :: ss).
Proof.
  intros ss. unfold os_join. induction ss as [|x ss IH] using rev_ind; intros s F; [reflexivity|]. rewrite fold_left_app. cbn [fold_left].
  rewrite app_comm_cons in F. apply Forall_app in F as [F Fx]. inversion Fx as [|? ? [Nx NSx] _]; subst. rewrite (IH s F).
  rewrite app_comm_cons, join_snoc by discriminate. apply join1_seg; auto.
  - inversion F as [|? ? [Ns _] _]; subst. destruct s; [congruence|]. destruct ss; discriminate.
  - intros t d E. destruct (s :: ss) as [|y l _] eqn:Q using rev_ind; [discriminate|]. apply Forall_app in F as [_ F]. inversion F as [|? ? [Ny NSy] _]; subst.
    destruct (join_last l y Ny NSy) as [t' [c [Et Ec]]]. rewrite Et in E. apply app_inj_tail in E as [_ <-]. auto.
Qed.
(** Joining something relative to a rooted path. *)
Lemma join_written : forall n l r, root_ok n -> Forall plain_seg l -> r <> [] -> (forall c t, r = c :: t -> is_sep c = false) ->
  os_join1 (written n l) r = repeat sep n ++ join_sep (l ++ [r]).
Proof.
  intros n l r R F N H. unfold os_join1. destruct r as [|c r]; [congruence|]. rewrite (H c r eq_refl). unfold written. destruct l as [|s l _] using rev_ind.
  - cbn [join_sep app]. rewrite app_nil_r. assert (E : exists m, rev (repeat sep n) = sep :: m).
    { destruct R as [-> | ->]; [exists []|exists [sep]]; reflexivity. }
    destruct E as [m ->]. change (is_sep sep) with true. reflexivity.
  - apply Forall_app in F as [_ F]. inversion F as [|? ? [Ns [NS _]] _]; subst. destruct (join_last l s Ns NS) as [t [d [Et Ed]]].
    rewrite (join_snoc (l ++ [s])) by (destruct l; discriminate). rewrite Et, !app_assoc, rev_app_distr. cbn [rev app]. rewrite Ed. now rewrite <- !app_assoc.
Qed.
Lemma common_ok : forall a b, let i := common a b in i <= length a /\ i <= length b /\ firstn i a = firstn i b.
Proof.
  induction a as [|x a IH]; intros [|y b]; cbn; try (now repeat split; lia || auto). destruct (eqb_chars x y) eqn:E; [|cbn; repeat split; lia || auto].
  apply eqbc in E. subst. specialize (IH b). cbv zeta in IH. destruct IH as [H1 [H2 H3]]. cbn [firstn]. split; [lia|]. split; [lia|]. rewrite H3. reflexivity.
Qed.
Lemma norm_join : forall n l segs, root_ok n -> Forall plain_seg l -> Forall (fun x => x <> [] /\ ~ In sep x) segs -> segs <> [] ->
  normpath (os_join1 (written n l) (join_sep segs)) = written n (norm_loop true (l ++ segs) []).
Proof.
  intros n l segs R F FS NS. assert (HD : forall c t, join_sep segs = c :: t -> is_sep c = false).
  { destruct segs as [|s segs]; [congruence|]. inversion FS as [|? ? [N1 N2] _]; subst. destruct s as [|d s]; [congruence|]. intros c t E.
    assert (d = c) by (destruct segs; cbn in E; congruence). subst. eapply not_sep; eauto. now left. }
  assert (NE : join_sep segs <> []).
  { destruct segs as [|s segs]; [congruence|]. inversion FS as [|? ? [N1 N2] _]; subst. destruct s; [congruence|]. destruct segs; discriminate. }
  rewrite join_written by auto.
  assert (JJ : join_sep (l ++ [join_sep segs]) = join_sep (l ++ segs)).
  { clear -NS. induction l as [|a l IH]; [reflexivity|]. cbn [app]. assert (J2 : forall x y z, join_sep (x :: y :: z) = x ++ sep :: join_sep (y :: z)) by reflexivity.
    destruct (l ++ [join_sep segs]) eqn:E; [destruct l; discriminate|].
    destruct (l ++ segs) eqn:E2; [destruct l; [cbn in E2; congruence|discriminate]|]. now rewrite !J2, IH. }
  rewrite JJ. eapply normpath_comps; eauto.
  - intros c t E. destruct l as [|a l]; [eapply HD; eauto|]. inversion F as [|? ? [N1 [N2 _]] _]; subst. destruct a as [|d a]; [congruence|].
    assert (d = c) by (cbn [app join_sep] in E; destruct (l ++ segs); cbn in E; congruence). subst. eapply not_sep; eauto. now left.
  - symmetry. apply split_join_loop. apply Forall_app. split; [now apply plain_noslash|]. eapply Forall_impl; [|exact FS]. cbn. tauto.
Qed.
Lemma abspath_written : forall cwd p, isabs cwd = true -> exists n l, root_ok n /\ Forall plain_seg l /\ abspath cwd p = written n l.
Proof.
  intros cwd p H. unfold abspath. apply normpath_abs. destruct (isabs p) eqn:E; auto. destruct cwd as [|c cwd]; [discriminate|]. unfold os_join1.
  destruct p as [|d p].
  - destruct (rev (c :: cwd)) eqn:Q; [apply (f_equal (@length _)) in Q; rewrite rev_length in Q; discriminate|]. destruct (is_sep a); auto.
  - cbn in E. rewrite E. destruct (rev (c :: cwd)) eqn:Q; [apply (f_equal (@length _)) in Q; rewrite rev_length in Q; discriminate|]. destruct (is_sep a); auto.
Qed.

(** ** C50 *)
(** From any path to any other: the relative path, joined to the first and
    normalised, is the second. *)
Theorem C50_leads_to : forall cwd p q, isabs cwd = true ->
  normpath (os_join1 (abspath cwd p) (relpathto cwd p q)) = abspath cwd q.
Proof.
  intros cwd p q A. destruct (abspath_written cwd p A) as [n [l [R [F E]]]]. destruct (abspath_written cwd q A) as [m [k [Rm [Fk Ek]]]].
  unfold relpathto. rewrite E, Ek, !splitall_written by auto. destruct (eqb_chars (repeat sep n) (repeat sep m)) eqn:Q; cbn [negb].
  - apply eqbc in Q. assert (n = m) by (apply (f_equal (@length _)) in Q; now rewrite !repeat_length in Q). subst m. clear Q Ek E.
    cbn [common]. rewrite eqbc_refl. cbn [length skipn]. rewrite Nat.sub_succ. destruct (common_ok l k) as [H1 [H2 H3]]. set (i := common l k) in *. clearbody i.
    assert (FS : Forall (fun x => x <> [] /\ ~ In sep x) (repeat pardir (length l - i) ++ skipn i k)).
    { apply Forall_app. split.
      - apply Forall_forall. intros x I. apply repeat_spec in I. subst. split; [discriminate|]. cbn. intuition discriminate.
      - rewrite <- (firstn_skipn i k) in Fk. apply Forall_app in Fk as [_ Fk]. eapply Forall_impl; [|exact Fk]. intros s [? [? _]]. auto. }
    assert (NL : norm_loop true (l ++ repeat pardir (length l - i) ++ skipn i k) [] = k).
    { rewrite loop_plain by auto. rewrite app_nil_r, loop_up.
      - rewrite <- (app_nil_r (skipn i k)). rewrite loop_plain.
        + cbn [norm_loop]. rewrite rev_app_distr, rev_involutive, skipn_rev, rev_involutive. replace (length l - (length l - i)) with i by lia. rewrite H3. apply firstn_skipn.
        + rewrite <- (firstn_skipn i k) in Fk. now apply Forall_app in Fk as [_ Fk].
      - now apply Forall_rev.
      - rewrite rev_length. lia. }
    destruct (repeat pardir (length l - i) ++ skipn i k) as [|s ss] eqn:SG.
    + change curdir with (join_sep [curdir]). rewrite norm_join; auto; [|constructor; auto; split; [discriminate|cbn; intuition discriminate]|discriminate].
      f_equal. rewrite <- NL, app_nil_r, loop_plain by auto. cbn [norm_loop]. rewrite eqbc_refl, orb_true_r. rewrite (loop_plain_nil true l F), app_nil_r. apply rev_involutive.
    + rewrite os_join_segs by auto. rewrite norm_join; auto; [|discriminate]. now rewrite NL.
  - assert (J : os_join1 (written n l) (written m k) = written m k).
    { unfold os_join1. destruct Rm as [-> | ->]; reflexivity. }
    rewrite J. now apply normpath_written.
Qed.
Print Assumptions C50_leads_to.
(** From a path to itself: the current directory. *)
Theorem C50_same : forall cwd p q, isabs cwd = true -> abspath cwd p = abspath cwd q -> relpathto cwd p q = curdir.
Proof.
  intros cwd p q A E. destruct (abspath_written cwd q A) as [n [l [R [F Eq]]]]. unfold relpathto. rewrite E, Eq, splitall_written by auto. rewrite eqbc_refl. cbn [negb].
  assert (C : forall a, common a a = length a) by (induction a; cbn; rewrite ?eqbc_refl; auto). rewrite C, Nat.sub_diag, skipn_all. reflexivity.
Qed.
Print Assumptions C50_same.
(** It is relative unless the roots ("/" and "//") differ. *)
Theorem C50_relative : forall cwd p q, isabs cwd = true -> (isabs (relpathto cwd p q) = true -> relpathto cwd p q = abspath cwd q) /\
  (initial_slashes (abspath cwd p) = initial_slashes (abspath cwd q) -> isabs (relpathto cwd p q) = false).
Proof.
  intros cwd p q A. destruct (abspath_written cwd p A) as [n [l [R [F E]]]]. destruct (abspath_written cwd q A) as [m [k [Rm [Fk Ek]]]].
  rewrite E, Ek. unfold written at 2 3. rewrite !initial_written by (auto; apply join_head; auto).
  unfold relpathto. rewrite E, Ek, !splitall_written by auto. destruct (eqb_chars (repeat sep n) (repeat sep m)) eqn:Q; cbn [negb].
  - assert (X : isabs match repeat pardir (length (repeat sep n :: l) - common (repeat sep n :: l) (repeat sep m :: k)) ++ skipn (common (repeat sep n :: l) (repeat sep m :: k)) (repeat sep m :: k) with [] => curdir | s :: ss => os_join s ss end = false).
    { cbn [common]. rewrite Q. cbn [length skipn]. rewrite Nat.sub_succ. set (i := common l k). clearbody i.
      assert (FS : Forall (fun x => x <> [] /\ ~ In sep x) (repeat pardir (length l - i) ++ skipn i k)).
      { apply Forall_app. split.
        - apply Forall_forall. intros x I. apply repeat_spec in I. subst. split; [discriminate|]. cbn. intuition discriminate.
        - rewrite <- (firstn_skipn i k) in Fk. apply Forall_app in Fk as [_ Fk']. eapply Forall_impl; [|exact Fk']. intros s [? [? _]]. auto. }
      destruct (repeat pardir (length l - i) ++ skipn i k) as [|s ss]; [reflexivity|]. rewrite os_join_segs by auto. inversion FS as [|? ? [N1 N2] _]; subst.
      destruct s as [|c s]; [congruence|]. assert (C : is_sep c = false) by (eapply not_sep; eauto; now left). destruct ss; exact C. }
    rewrite X. split; [discriminate|auto].
  - split; auto. intros <-. rewrite eqbc_refl in Q. discriminate.
Qed.
Print Assumptions C50_relative.
(** splitall takes a normalised absolute path apart, joinpath puts it together. *)
Theorem C50_splitall : forall cwd p, isabs cwd = true -> exists root segs, splitall (abspath cwd p) = root :: segs /\
  (root = [sep] \/ root = [sep; sep]) /\ Forall plain_seg segs /\ os_join root segs = abspath cwd p.
Proof.
  intros cwd p A. destruct (abspath_written cwd p A) as [n [l [R [F E]]]]. rewrite E, splitall_written by auto. exists (repeat sep n), l. split; auto. split; [destruct R as [-> | ->]; auto|].
  split; auto. unfold os_join. clear E. induction l as [|s l IH] using rev_ind; [unfold written; cbn; now rewrite app_nil_r|]. rewrite fold_left_app. cbn [fold_left].
  apply Forall_app in F as [F Fs]. rewrite (IH F). inversion Fs as [|? ? [N [NS _]] _]; subst. rewrite join_written; auto. intros c t ->. eapply not_sep; eauto. now left.
Qed.
Print Assumptions C50_splitall.
(** Not every path is put together again. *)
Theorem C50_splitall_refuted : exists p, match splitall p with a :: l => os_join a l | [] => [] end <> p.
Proof. exists (chars "a//b"). vm_compute. discriminate. Qed.
Print Assumptions C50_splitall_refuted.
Example C50_example : isabs (chars "/home/me") = true /\
  relpathto (chars "/home/me") (chars "/a/b/c") (chars "/a/x/../d") = chars "../../d" /\
  relpathto (chars "/home/me") (chars "doc") (chars "/home/you") = chars "../../you" /\
  relpathto (chars "/home/me") (chars "/a") (chars "//b") = chars "//b".
Proof. repeat split; vm_compute; reflexivity. Qed.
