From Coq Require Import Ascii String List Arith ZArith QArith Qround Bool Lia.
From Verif Require Import Model_NdArray Model_Text Model_Words Model_Comments Model_Si Proofs_Comments Model_ConfigText Spec_ConfigText.
Import ListNotations.
Local Open Scope string_scope.
Local Open Scope char_scope.
Local Open Scope nat_scope.
Local Open Scope list_scope.

(** ** Pieces of regular expressions as sets of texts *)
Definition lang : Type := list ascii -> Prop.
Definition sound (g : forall R, piece R) (L : lang) : Prop :=
  forall R (k : list ascii -> list ascii -> option R) acc l x, g R k acc l = Some x ->
    exists a r, l = a ++ r /\ L a /\ k (acc ++ a) r = Some x.
Definition complete (g : forall R, piece R) (L : lang) : Prop :=
  forall R (k : list ascii -> list ascii -> option R) acc a r, L a -> k (acc ++ a) r <> None -> g R k acc (a ++ r) <> None.
Definition denotes g L := sound g L /\ complete g L.

Definition cat (L1 L2 : lang) : lang := fun l => exists a b, l = a ++ b /\ L1 a /\ L2 b.

Lemma single_den : forall p, denotes (fun R => single p) (fun l => exists c, l = [c] /\ p c = true).
Proof.
  split.
  - intros R k acc l x H. destruct l as [|c l]; [discriminate H|]. unfold single in H. destruct (p c) eqn:P; [|discriminate H].
    exists [c], l. split; [reflexivity|]. split; [exists c; auto|exact H].
  - intros R k acc a r [c [-> P]] K. cbn [app single]. rewrite P. exact K.
Qed.
Lemma many_den : forall p, denotes (fun R => many p) (Forall (fun c => p c = true)).
Proof.
  split.
  - intros R k acc l x H. unfold many in H. destruct (star_some _ _ _ _ _ H) as [a [r [E1 [E2 E3]]]]. exists a, r. auto.
  - intros R k acc a r F K. unfold many. apply star_complete; auto.
Qed.
Lemma seq_den : forall g h L1 L2, denotes g L1 -> denotes h L2 -> denotes (fun R => seq (g R) (h R)) (cat L1 L2).
Proof.
  intros g h L1 L2 [S1 C1] [S2 C2]. split.
  - intros R k acc l x H. unfold seq in H. destruct (S1 _ _ _ _ _ H) as [a [r [-> [A K]]]].
    destruct (S2 _ _ _ _ _ K) as [b [r' [-> [B K']]]]. exists (a ++ b), r'. rewrite !app_assoc in *. rewrite <- !app_assoc in *.
    split; [rewrite app_assoc; reflexivity|]. split; [exists a, b; auto|exact K'].
  - intros R k acc l r [a [b [-> [A B]]]] K. unfold seq. rewrite <- app_assoc. apply C1; [exact A|]. apply C2; [exact B|].
    rewrite <- app_assoc. exact K.
Qed.
Lemma maybe_den : forall g L, denotes g L -> denotes (fun R => maybe (g R)) (fun l => l = [] \/ L l).
Proof.
  intros g L [S1 C1]. split.
  - intros R k acc l x H. unfold maybe in H. destruct (g R k acc l) as [y|] eqn:E.
    + injection H as ->. destruct (S1 _ _ _ _ _ E) as [a [r [-> [A K]]]]. exists a, r. auto.
    + exists [], l. rewrite app_nil_r. auto.
  - intros R k acc a r A K. unfold maybe. destruct (g R k acc (a ++ r)) eqn:E; [discriminate|].
    destruct A as [->|A]; [rewrite app_nil_r in K; exact K|]. exfalso. revert E. apply C1; auto.
Qed.
Lemma starts_with_iff : forall w l, starts_with w l = true <-> exists r, l = w ++ r.
Proof.
  induction w as [|c w IH]; intros l.
  - split; [intros _; exists l; reflexivity|destruct l; reflexivity].
  - destruct l as [|d l]; cbn [starts_with]; split; intros H; try discriminate H.
    + destruct H as [r H]; discriminate H.
    + apply andb_true_iff in H as [H1 H2]. apply Ascii.eqb_eq in H1 as ->. apply IH in H2 as [r ->]. exists r. reflexivity.
    + destruct H as [r H]. injection H as -> ->. rewrite Ascii.eqb_refl. cbn. apply IH. eauto.
Qed.
Lemma skipn_pre : forall (w r : list ascii), skipn (length w) (w ++ r) = r.
Proof. induction w; intros; cbn; auto. Qed.
Lemma word_den : forall w, denotes (fun R => word w) (eq w).
Proof.
  split.
  - intros R k acc l x H. unfold word in H. destruct (starts_with w l) eqn:E; [|discriminate H]. apply starts_with_iff in E as [r ->].
    rewrite skipn_pre in H. exists w, r. auto.
  - intros R k acc a r <- K. unfold word. replace (starts_with w (w ++ r)) with true by (symmetry; apply starts_with_iff; eauto).
    rewrite skipn_pre. exact K.
Qed.
Lemma alt_den : forall ws, denotes (fun R => alt ws) (fun l => In l ws).
Proof.
  induction ws as [|w ws [S1 C1]]; split.
  - intros R k acc l x H. discriminate H.
  - intros R k acc a r [].
  - intros R k acc l x H. cbn [alt] in H. destruct (word w k acc l) as [y|] eqn:E.
    + injection H as ->. destruct (proj1 (word_den w) _ _ _ _ _ E) as [a [r [-> [<- K]]]]. exists w, r. cbn. auto.
    + destruct (S1 _ _ _ _ _ H) as [a [r [-> [A K]]]]. exists a, r. cbn. auto.
  - intros R k acc a r A K. cbn [alt]. destruct (word w k acc (a ++ r)) eqn:E; [discriminate|].
    destruct A as [<-|A]; [exfalso; revert E; apply (proj2 (word_den w)); auto|]. apply C1; auto.
Qed.
Lemma den_ext : forall g L L', (forall l, L l <-> L' l) -> denotes g L -> denotes g L'.
Proof.
  intros g L L' E [S1 C1]. split.
  - intros R k acc l x H. destruct (S1 _ _ _ _ _ H) as [a [r [E1 [E2 E3]]]]. exists a, r. rewrite <- E. auto.
  - intros R k acc a r A K. apply C1; auto. apply E; auto.
Qed.

(** ** Classes of characters *)
Lemma all_chars : forall f : ascii -> bool, forallb f (map ascii_of_nat (List.seq 0 256)) = true -> forall c, f c = true.
Proof.
  intros f H c. rewrite forallb_forall in H. apply H. apply in_map_iff. exists (nat_of_ascii c). split; [apply ascii_nat_embedding|].
  apply in_seq. pose proof (nat_ascii_bounded c). lia.
Qed.
Definition inb (c : ascii) (l : list ascii) : bool := existsb (Ascii.eqb c) l.
Lemma inb_iff : forall c l, inb c l = true <-> In c l.
Proof.
  intros c l. unfold inb. rewrite existsb_exists. split.
  - intros [x [I E]]. apply Ascii.eqb_eq in E as ->. exact I.
  - intros I. exists c. rewrite Ascii.eqb_refl. auto.
Qed.
Lemma digit_iff : forall c, is_digit c = true <-> In c figures.
Proof.
  intros c. rewrite <- inb_iff. assert (H : Bool.eqb (is_digit c) (inb c figures) = true) by (revert c; apply all_chars; vm_compute; reflexivity).
  apply eqb_prop in H. rewrite H. reflexivity.
Qed.
Lemma digits_iff : forall l, Forall (fun c => is_digit c = true) l <-> incl l figures.
Proof.
  intros l. rewrite Forall_forall. split; intros H c I; apply digit_iff; auto.
Qed.
Lemma is_iff : forall a c, is a c = true <-> c = a.
Proof. intros a c. unfold is. rewrite Ascii.eqb_eq. split; auto. Qed.
Lemma spaces_iff : forall l, Forall (fun c => is " " c = true) l <-> incl l [" "].
Proof.
  intros l. rewrite Forall_forall. split; intros H c I.
  - left. symmetry. apply is_iff. auto.
  - apply is_iff. destruct (H c I) as [<-|[]]. reflexivity.
Qed.
Lemma e_iff : forall c, is_e c = true <-> c = "e" \/ c = "E".
Proof. intros c. unfold is_e. rewrite orb_true_iff, !Ascii.eqb_eq. reflexivity. Qed.

Lemma some_den : forall p, denotes (fun R => some p) (fun l => l <> [] /\ Forall (fun c => p c = true) l).
Proof.
  intros p. eapply den_ext; [|apply (seq_den _ _ _ _ (single_den p) (many_den p))].
  intros l. split.
  - intros [a [b [-> [[c [-> P]] F]]]]. split; [discriminate|]. cbn. constructor; auto.
  - intros [N F]. destruct l as [|c l]; [congruence|]. apply Forall_cons_iff in F as [F1 F2]. exists [c], l. split; [reflexivity|]. eauto.
Qed.
Lemma digits_den : denotes (fun R => some is_digit) (fun l => l <> [] /\ incl l figures).
Proof. eapply den_ext; [|apply some_den]. intros l. cbv beta. rewrite digits_iff. reflexivity. Qed.
Lemma sign_den : denotes (fun R => re_sign) sign.
Proof.
  eapply den_ext; [|apply maybe_den, single_den]. intros l. cbv beta. unfold sign. cbn [In].
  assert (P : forall c, is "-" c || is "+" c = true <-> c = "-" \/ c = "+") by (intros c; rewrite orb_true_iff, !is_iff; reflexivity).
  split.
  - intros [->|[c [-> H]]]; [left; reflexivity|]. apply P in H as [->| ->]; auto.
  - intros [<-|[<-|[<-|[]]]]; [left; reflexivity| |]; right; eexists; (split; [reflexivity|]); apply P; auto.
Qed.
Lemma number_den : denotes (fun R => re_number) number.
Proof.
  pose proof (maybe_den _ _ (seq_den _ _ _ _ (single_den is_e) (seq_den _ _ _ _ sign_den digits_den))) as X.
  pose proof (seq_den _ _ _ _ sign_den (seq_den _ _ _ _ (many_den is_digit) (seq_den _ _ _ _ (maybe_den _ _ (single_den (is "."))) (seq_den _ _ _ _ digits_den X)))) as D.
  eapply den_ext; [|exact D]. clear. intros l. split.
  - intros [s [l1 [-> [S1 [d [l2 [-> [S2 [p [l3 [-> [S3 [f [e [-> [[S4 S5] S6]]]]]]]]]]]]]]]].
    exists s, d, p, f, e. rewrite digits_iff in S2. split; [reflexivity|]. split; [exact S1|]. split; [exact S2|]. split.
    + destruct S3 as [S3|[c [-> S3]]]; [auto|]. apply is_iff in S3 as ->. auto.
    + split; [exact S4|]. split; [exact S5|]. destruct S6 as [S6|[x [l4 [-> [[c [-> E]] [s' [f' [-> [E1 [E2 E3]]]]]]]]]]; [auto|].
      right. apply e_iff in E. exists c, s', f'. auto.
  - intros [s [d [p [f [e [-> [S1 [S2 [S3 [S4 [S5 S6]]]]]]]]]]].
    exists s, (d ++ p ++ f ++ e). split; [reflexivity|]. split; [exact S1|]. exists d, (p ++ f ++ e). split; [reflexivity|].
    split; [apply digits_iff; exact S2|]. exists p, (f ++ e). split; [reflexivity|]. split.
    + destruct S3 as [->| ->]; [auto|]. right. exists ".". split; [reflexivity|]. apply is_iff. reflexivity.
    + exists f, e. split; [reflexivity|]. split; [auto|]. destruct S6 as [->|[x [s' [f' [-> [E [E1 [E2 E3]]]]]]]]; [auto|].
      right. exists [x], (s' ++ f'). split; [reflexivity|]. split; [exists x; split; [reflexivity|]; apply e_iff; exact E|].
      exists s', f'. auto.
Qed.
Lemma plain_den : denotes (fun R => re_plain) plain.
Proof.
  eapply den_ext; [|apply (seq_den _ _ _ _ digits_den (maybe_den _ _ (seq_den _ _ _ _ (single_den (is ".")) (many_den is_digit))))].
  intros l. split.
  - intros [d [r [-> [[D1 D2] [->|[a [f [-> [[c [-> C]] F]]]]]]]]]; exists d; (split; [exact D1|]; split; [exact D2|]).
    + left. apply app_nil_r.
    + right. exists f. apply is_iff in C as ->. rewrite digits_iff in F. auto.
  - intros [d [D1 [D2 [->|[f [F ->]]]]]].
    + exists d, []. rewrite app_nil_r. auto.
    + exists d, ("." :: f). split; [reflexivity|]. split; [auto|]. right. exists ["."], f. split; [reflexivity|]. split.
      * exists ".". split; [reflexivity|]. apply is_iff. reflexivity.
      * apply digits_iff. exact F.
Qed.

Lemma at_end_iff : forall l, at_end l = true <-> l = [] \/ l = [newline].
Proof.
  intros [|c [|d l]]; cbn [at_end]; split; intros H; auto; try discriminate H.
  - apply Ascii.eqb_eq in H as ->. auto.
  - destruct H as [H|H]; [discriminate H|]. injection H as ->. reflexivity.
  - destruct H as [H|H]; discriminate H.
Qed.

(** ** Intervals *)
Inductive parts : list (list text) -> text -> list (option text) -> Prop :=
| parts_end : forall l, l = [] \/ l = [newline] -> parts [] l []
| parts_none : forall ws wss b l os, incl b [" "] -> (wss = [] -> b = []) -> parts wss l os -> parts (ws :: wss) (b ++ l) (None :: os)
| parts_some : forall ws wss n b w b' l os, plain n -> incl b [" "] -> In w ws -> incl b' [" "] -> (wss = [] -> b' = []) ->
    parts wss l os -> parts (ws :: wss) (n ++ b ++ w ++ b' ++ l) (Some n :: os).

Lemma amount_words_den : forall ws, denotes (fun R => Model_ConfigText.seq (many (is " ")) (alt ws)) (cat (fun l => incl l [" "]) (fun l => In l ws)).
Proof. intros ws. apply seq_den; [|apply alt_den]. eapply den_ext; [|apply many_den]. intros l. apply spaces_iff. Qed.

Lemma re_amount_sound : forall R ws (k : option text -> text -> option R) l x, re_amount ws k l = Some x ->
  k None l = Some x \/ exists n b w l', l = n ++ b ++ w ++ l' /\ plain n /\ incl b [" "] /\ In w ws /\ k (Some n) l' = Some x.
Proof.
  intros R ws k l x H. unfold re_amount in H. destruct (re_plain _ [] l) as [y|] eqn:E; [|auto]. injection H as ->. right.
  destruct (proj1 plain_den _ _ _ _ _ E) as [n [r [-> [P K]]]]. destruct (proj1 (amount_words_den ws) _ _ _ _ _ K) as [a [l' [-> [[b [w [-> [B W]]]] K']]]].
  exists n, b, w, l'. rewrite <- app_assoc. auto 6.
Qed.
Lemma re_amount_none : forall R ws (k : option text -> text -> option R) l, k None l <> None -> re_amount ws k l <> None.
Proof. intros R ws k l H. unfold re_amount. destruct (re_plain _ [] l); [discriminate|exact H]. Qed.
Lemma re_amount_some : forall R ws (k : option text -> text -> option R) n b w l', plain n -> incl b [" "] -> In w ws -> k (Some n) l' <> None ->
  re_amount ws k (n ++ b ++ w ++ l') <> None.
Proof.
  intros R ws k n b w l' P B W K. unfold re_amount. destruct (re_plain _ [] (n ++ b ++ w ++ l')) as [y|] eqn:E; [discriminate|].
  exfalso. revert E. apply (proj2 plain_den); [exact P|]. rewrite (app_assoc b w l'). apply (proj2 (amount_words_den ws)); [exists b, w; auto|exact K].
Qed.

Lemma re_interval_sound : forall wss got l x, re_interval wss got l = Some x -> exists os, x = got ++ os /\ parts wss l os.
Proof.
  induction wss as [|ws wss IH]; intros got l x H; cbn [re_interval] in H.
  - destruct (at_end l) eqn:E; [|discriminate H]. injection H as <-. exists []. rewrite app_nil_r. split; [reflexivity|]. constructor. apply at_end_iff; auto.
  - assert (G : forall o l', match wss with
        | [] => if at_end l' then Some (got ++ [o]) else None
        | _ => many (is " ") (fun _ l'' => re_interval wss (got ++ [o]) l'') [] l'
        end = Some x -> exists b l'' os, l' = b ++ l'' /\ incl b [" "] /\ (wss = [] -> b = []) /\ x = (got ++ [o]) ++ os /\ parts wss l'' os).
    { intros o l' K. destruct wss as [|ws' wss'].
      - destruct (at_end l') eqn:E; [|discriminate K]. injection K as <-. exists [], l', []. rewrite app_nil_r.
        split; [reflexivity|]. split; [intros c []|]. split; [auto|]. split; [reflexivity|]. constructor. apply at_end_iff; auto.
      - destruct (proj1 (many_den _) _ _ _ _ _ K) as [b [l'' [-> [B K']]]]. destruct (IH _ _ _ K') as [os [-> P]].
        exists b, l'', os. apply spaces_iff in B. split; [reflexivity|]. split; [exact B|]. split; [discriminate|]. auto. }
    destruct (re_amount_sound _ _ _ _ _ H) as [K|[n [b [w [l' [-> [P [B [W K]]]]]]]]].
    + destruct (G None l K) as [b [l'' [os [-> [B [N [-> Q]]]]]]]. exists (None :: os). rewrite <- app_assoc. split; [reflexivity|]. constructor; auto.
    + destruct (G (Some n) l' K) as [b' [l'' [os [-> [B' [N [-> Q]]]]]]]. exists (Some n :: os). rewrite <- app_assoc. split; [reflexivity|]. constructor; auto.
Qed.
Lemma re_interval_complete : forall wss l os, parts wss l os -> forall got, re_interval wss got l <> None.
Proof.
  assert (G : forall wss b l, incl b [" "] -> (wss = [] -> b = []) -> (forall got, re_interval wss got l <> None) -> forall got o,
     match wss with
        | [] => if at_end (b ++ l) then Some (got ++ [o]) else None
        | _ => many (is " ") (fun _ l'' => re_interval wss (got ++ [o]) l'') [] (b ++ l)
        end <> None).
  { intros wss b l B N K got o. destruct wss as [|ws wss].
    - rewrite N by reflexivity. cbn [app]. specialize (K got). cbn [re_interval] in K. destruct (at_end l); [discriminate|congruence].
    - apply (proj2 (many_den (is " "))); [apply spaces_iff; exact B|]. apply K. }
  induction 1 as [l E|ws wss b l os B N P IH|ws wss n b w b' l os Pn B W B' N P IH]; intros got; cbn [re_interval].
  - apply at_end_iff in E. rewrite E. discriminate.
  - apply re_amount_none. apply G; auto.
  - apply re_amount_some; auto.
Qed.

(** *** A text can be understood in one way only *)
Definition letter (c : ascii) : Prop := ~ In c figures /\ c <> "." /\ c <> " " /\ c <> newline.
Definition numeric (c : ascii) : Prop := In c figures \/ c = ".".
Lemma plain_numeric : forall n, plain n -> exists c n', n = c :: n' /\ In c figures /\ Forall numeric n.
Proof.
  intros n [d [D1 [D2 E]]]. destruct d as [|c d]; [congruence|].
  assert (F : Forall numeric (c :: d)) by (apply Forall_forall; intros x I; left; auto).
  destruct E as [->|[f [F' ->]]].
  - exists c, d. split; [reflexivity|]. split; [apply D2; left; reflexivity|exact F].
  - exists c, (d ++ "." :: f). split; [reflexivity|]. split; [apply D2; left; reflexivity|]. apply Forall_app. split; [exact F|].
    constructor; [right; reflexivity|]. apply Forall_forall. intros x I; left; auto.
Qed.
(** A prefix of characters of one kind before something else. *)
Lemma cut : forall (P : ascii -> Prop) a1 a2 r1 r2, Forall P a1 -> Forall P a2 ->
  (forall c l, r1 = c :: l -> ~ P c) -> (forall c l, r2 = c :: l -> ~ P c) -> a1 ++ r1 = a2 ++ r2 -> a1 = a2 /\ r1 = r2.
Proof.
  intros P. induction a1 as [|c a1 IH]; intros [|d a2] r1 r2 F1 F2 N1 N2 E; cbn [app] in E.
  - auto.
  - exfalso. apply Forall_cons_iff in F2 as [F _]. exact (N1 _ _ E F).
  - exfalso. apply Forall_cons_iff in F1 as [F _]. symmetry in E. exact (N2 _ _ E F).
  - injection E as -> E. apply Forall_cons_iff in F1 as [_ F1]. apply Forall_cons_iff in F2 as [_ F2].
    destruct (IH _ _ _ F1 F2 N1 N2 E) as [-> ->]. auto.
Qed.
Lemma parts_head : forall wss l os, parts wss l os -> forall c r, l = c :: r -> ~ letter c.
Proof.
  induction 1 as [l E|ws wss b l os B N P IH|ws wss n b w b' l os Pn B W B' N P IH]; intros c r X [L1 [L2 [L3 L4]]].
  - destruct E as [->| ->]; [discriminate X|]. injection X as <- _. congruence.
  - destruct b as [|d b]; [exact (IH _ _ X (conj L1 (conj L2 (conj L3 L4))))|]. injection X as -> _.
    destruct (B c (or_introl eq_refl)) as [<-|[]]. congruence.
  - destruct (plain_numeric n Pn) as [d [n' [-> [D _]]]]. injection X as -> _. auto.
Qed.
Definition separated (wss : list (list text)) : Prop :=
  (forall ws w, In ws wss -> In w ws -> w <> [] /\ Forall letter w) /\
  ForallOrdPairs (fun ws1 ws2 => forall w, In w ws1 -> ~ In w ws2) wss.
Lemma spaces_not : forall (b : text) (P : ascii -> Prop) r, incl b [" "] -> ~ P " " -> (forall c l, r = c :: l -> ~ P c) -> forall c l, b ++ r = c :: l -> ~ P c.
Proof.
  intros [|d b] P r B N K c l E; [exact (K c l E)|]. injection E as -> _. destruct (B c (or_introl eq_refl)) as [<-|[]]. exact N.
Qed.
Lemma word_head : forall w r, w <> [] -> Forall letter w -> forall c l, w ++ r = c :: l -> letter c.
Proof. intros [|d w] r N F c l E; [congruence|]. injection E as -> _. apply Forall_cons_iff in F. tauto. Qed.
Lemma letter_not_numeric : forall c, letter c -> ~ numeric c.
Proof. intros c [A [B _]] [I| ->]; auto. Qed.
Lemma letter_not_space : forall c, letter c -> ~ (c = " ").
Proof. intros c [A [B [C _]]]. exact C. Qed.
(** The first amount of a text is determined. *)
Lemma first_amount : forall n1 b1 w1 r1 n2 b2 w2 r2, plain n1 -> plain n2 -> incl b1 [" "] -> incl b2 [" "] ->
  w1 <> [] -> w2 <> [] -> Forall letter w1 -> Forall letter w2 ->
  (forall c l, r1 = c :: l -> ~ letter c) -> (forall c l, r2 = c :: l -> ~ letter c) ->
  n1 ++ b1 ++ w1 ++ r1 = n2 ++ b2 ++ w2 ++ r2 -> n1 = n2 /\ w1 = w2 /\ r1 = r2.
Proof.
  intros n1 b1 w1 r1 n2 b2 w2 r2 P1 P2 B1 B2 W1 W2 L1 L2 R1 R2 E.
  destruct (plain_numeric _ P1) as [_ [_ [_ [_ F1]]]]. destruct (plain_numeric _ P2) as [_ [_ [_ [_ F2]]]].
  assert (NS : ~ numeric " ") by (intros [I|I]; [cbn in I; intuition discriminate|discriminate I]).
  apply (cut numeric) in E as [-> E]; auto;
    [|apply spaces_not; auto; intros c l X; apply letter_not_numeric; eapply word_head; [| |exact X]; auto..].
  apply (cut (fun c => c = " ")) in E as [_ E].
  - apply (cut letter) in E as [-> ->]; auto.
  - apply Forall_forall. intros c I. destruct (B1 c I) as [<-|[]]. reflexivity.
  - apply Forall_forall. intros c I. destruct (B2 c I) as [<-|[]]. reflexivity.
  - intros c l X. apply letter_not_space. eapply word_head; [| |exact X]; auto.
  - intros c l X. apply letter_not_space. eapply word_head; [| |exact X]; auto.
Qed.
Lemma not_digit_space : ~ In " " figures.
Proof. cbn. intuition discriminate. Qed.
(** The word of the first amount belongs to one of the units. *)
Lemma parts_word : forall wss l os, parts wss l os -> separated wss -> forall b n b1 w r, incl b [" "] -> plain n -> incl b1 [" "] -> w <> [] -> Forall letter w ->
  (forall c l, r = c :: l -> ~ letter c) -> l = b ++ n ++ b1 ++ w ++ r -> exists ws, In ws wss /\ In w ws.
Proof.
  induction 1 as [l E|ws wss b l os B N P IH|ws wss m b w b' l os Pn B W B' N P IH]; intros SP b0 n b1 w0 r B0 Pn0 B1 W0 L0 R X.
  - exfalso. destruct (plain_numeric _ Pn0) as [c [n' [-> [D _]]]]. destruct E as [->| ->].
    + symmetry in X. apply app_eq_nil in X as [_ X]. discriminate X.
    + destruct b0 as [|d b0].
      * injection X as <- _. cbn in D. intuition discriminate.
      * injection X as _ X. destruct b0; discriminate X.
  - assert (SP' : separated wss) by (destruct SP as [S1 S2]; split; [intros; eapply S1; [right; eauto|eauto]|inversion S2; auto]).
    assert (exists b2, incl b2 [" "] /\ l = b2 ++ n ++ b1 ++ w0 ++ r) as [b2 [B2 X2]].
    { destruct (plain_numeric _ Pn0) as [c [n' [-> [D _]]]]. clear - X B B0 D. revert b0 B0 X. induction b as [|d b IHb]; intros b0 B0 X.
      - exists b0. auto.
      - destruct b0 as [|d0 b0]; cbn [app] in X.
        + exfalso. injection X as -> _. destruct (B c (or_introl eq_refl)) as [<-|[]]. apply not_digit_space in D. exact D.
        + injection X as _ X. apply (IHb (fun c I => B c (or_intror I)) b0); auto. intros c' I. apply B0. right. exact I. }
    destruct (IH SP' b2 n b1 w0 r B2 Pn0 B1 W0 L0 R X2) as [ws' [I1 I2]]. exists ws'. split; [right; exact I1|exact I2].
  - destruct b0 as [|d0 b0]; cbn [app] in X.
    + destruct (proj1 SP ws w (or_introl eq_refl) W) as [W1 W2].
      assert (H : m = n /\ w = w0 /\ b' ++ l = r).
      { apply (first_amount m b w (b' ++ l) n b1 w0 r); auto. apply spaces_not; auto; [intros K; apply letter_not_space in K; congruence|].
        intros c l'. eapply parts_head; eauto. }
      destruct H as [_ [<- _]]. exists ws. split; [left; reflexivity|exact W].
    + exfalso. destruct (plain_numeric _ Pn) as [c [n' [-> [D _]]]]. injection X as -> _. destruct (B0 d0 (or_introl eq_refl)) as [<-|[]].
      apply not_digit_space in D. exact D.
Qed.
Lemma space_not_letter : ~ letter " ".
Proof. intros K. apply letter_not_space in K. congruence. Qed.
Lemma parts_unique_gen : forall wss, separated wss -> forall l1 os1 l2 os2, parts wss l1 os1 -> parts wss l2 os2 ->
  forall b1 b2 r, incl b1 [" "] -> incl b2 [" "] -> l1 = b1 ++ r -> l2 = b2 ++ r -> os1 = os2.
Proof.
  induction wss as [|ws wss IH]; intros SP l1 os1 l2 os2 P1 P2 b1 b2 r B1 B2 E1 E2.
  - inversion P1; inversion P2; subst. reflexivity.
  - assert (SP' : separated wss) by (destruct SP as [S1 S2]; split; [intros; eapply S1; [right; eauto|eauto]|inversion S2; auto]).
    assert (DJ : forall ws', In ws' wss -> forall w, In w ws -> ~ In w ws').
    { destruct SP as [_ S2]. inversion S2 as [|? ? D _]. subst. rewrite Forall_forall in D. exact D. }
    assert (SPLIT : forall (b b0 l r0 : text), incl b [" "] -> incl b0 [" "] -> b ++ l = b0 ++ r0 ->
       exists b' b0' r', incl b' [" "] /\ incl b0' [" "] /\ l = b' ++ r' /\ r0 = b0' ++ r' ).
    { clear. induction b as [|d b IHb]; intros b0 l r0 B B0 X.
      - exists b0, [], r0. split; [exact B0|]. split; [intros c []|]. auto.
      - destruct b0 as [|d0 b0]; cbn [app] in X.
        + exists [], (d :: b), l. split; [intros c []|]. split; [exact B|]. auto.
        + injection X as _ X. apply (IHb b0); auto; intros c I; [apply B|apply B0]; right; exact I. }
    assert (MIX : forall l os la n b w b' lb osb, parts wss l os -> parts wss lb osb -> plain n -> incl b [" "] -> In w ws -> incl b' [" "] ->
       incl la [" "] -> l = la ++ n ++ b ++ w ++ b' ++ lb -> False).
    { intros l os la n b w b' lb osb Q1 Q2 Pn B W B' LA X. destruct (proj1 SP ws w (or_introl eq_refl) W) as [W1 W2].
      destruct (parts_word wss l os Q1 SP' la n b w (b' ++ lb)) as [ws' [I1 I2]]; auto.
      - apply spaces_not; auto using space_not_letter. intros c l'. eapply parts_head; eauto.
      - exact (DJ ws' I1 w W I2). }
    subst l1 l2.
    inversion P1 as [|? ? c1 l1' os1' C1 N1 Q1 J1 EQ1 J2|? ? n1 c1 w1 d1 l1' os1' Pn1 C1 W1 D1 N1 Q1 J1 EQ1 J2]; subst os1;
    inversion P2 as [|? ? c2 l2' os2' C2 N2 Q2 J3 EQ2 J4|? ? n2 c2 w2 d2 l2' os2' Pn2 C2 W2 D2 N2 Q2 J3 EQ2 J4]; subst os2.
    + f_equal. destruct (SPLIT _ _ _ _ C1 B1 EQ1) as [x1 [y1 [r1 [X1 [Y1 [Z1 T1]]]]]].
      destruct (SPLIT _ _ _ _ C2 B2 EQ2) as [x2 [y2 [r2 [X2 [Y2 [Z2 T2]]]]]].
      rewrite T1 in T2. destruct (SPLIT _ _ _ _ Y1 Y2 T2) as [x3 [y3 [r3 [X3 [Y3 [Z3 T3]]]]]].
      apply (IH SP' l1' os1' l2' os2' Q1 Q2 (x1 ++ x3) (x2 ++ y3) r3).
      * apply incl_app; auto. * apply incl_app; auto.
      * rewrite Z1, Z3, app_assoc. reflexivity. * rewrite Z2, T3, app_assoc. reflexivity.
    + exfalso. destruct b2 as [|d0 b2].
      * cbn [app] in EQ2. subst r. destruct (SPLIT _ _ _ _ C1 B1 EQ1) as [x1 [y1 [r1 [X1 [Y1 [Z1 T1]]]]]].
        destruct (plain_numeric _ Pn2) as [c [n' [-> [D _]]]]. destruct y1 as [|d0 y1].
        -- cbn [app] in T1. apply (MIX l1' os1' x1 (c :: n') c2 w2 d2 l2' os2'); auto. rewrite Z1, <- T1. reflexivity.
        -- injection T1 as -> _. destruct (Y1 d0 (or_introl eq_refl)) as [<-|[]]. apply not_digit_space in D. exact D.
      * destruct (plain_numeric _ Pn2) as [c [n' [-> [D _]]]]. injection EQ2 as -> _. destruct (B2 d0 (or_introl eq_refl)) as [<-|[]].
        apply not_digit_space in D. exact D.
    + exfalso. destruct b1 as [|d0 b1].
      * cbn [app] in EQ1. subst r. destruct (SPLIT _ _ _ _ C2 B2 EQ2) as [x1 [y1 [r1 [X1 [Y1 [Z1 T1]]]]]].
        destruct (plain_numeric _ Pn1) as [c [n' [-> [D _]]]]. destruct y1 as [|d0 y1].
        -- cbn [app] in T1. apply (MIX l2' os2' x1 (c :: n') c1 w1 d1 l1' os1'); auto. rewrite Z1, <- T1. reflexivity.
        -- injection T1 as -> _. destruct (Y1 d0 (or_introl eq_refl)) as [<-|[]]. apply not_digit_space in D. exact D.
      * destruct (plain_numeric _ Pn1) as [c [n' [-> [D _]]]]. injection EQ1 as -> _. destruct (B1 d0 (or_introl eq_refl)) as [<-|[]].
        apply not_digit_space in D. exact D.
    + assert (K : forall n (b : text) r0 b0 r1, plain n -> incl b0 [" "] -> n ++ r0 = b0 ++ r1 -> b0 = []).
      { clear. intros n b r0 [|d0 b0] r1 Pn B0 X; [reflexivity|]. destruct (plain_numeric _ Pn) as [c [n' [-> [D _]]]]. injection X as -> _.
        destruct (B0 d0 (or_introl eq_refl)) as [<-|[]]. apply not_digit_space in D. contradiction. }
      assert (b1 = []) as -> by (eapply K; [exact []|exact Pn1|exact B1|exact EQ1]).
      assert (b2 = []) as -> by (eapply K; [exact []|exact Pn2|exact B2|exact EQ2]).
      cbn [app] in EQ1, EQ2. rewrite <- EQ2 in EQ1.
      destruct (proj1 SP ws w1 (or_introl eq_refl) W1) as [V1 V2]. destruct (proj1 SP ws w2 (or_introl eq_refl) W2) as [U1 U2].
      apply first_amount in EQ1 as [-> [_ E]]; auto.
      * f_equal. destruct (SPLIT _ _ _ _ D1 D2 E) as [x3 [y3 [r3 [X3 [Y3 [Z3 T3]]]]]].
        apply (IH SP' l1' os1' l2' os2' Q1 Q2 x3 y3 r3); auto.
      * apply spaces_not; auto using space_not_letter. intros c l'. eapply parts_head; eauto.
      * apply spaces_not; auto using space_not_letter. intros c l'. eapply parts_head; eauto.
Qed.
