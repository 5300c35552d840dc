From Coq Require Import Ascii String List Arith Bool Lia.
From Verif Require Import Model_NdArray Model_Text Model_Words Model_Comments Model_ConfigText Model_ReadData Spec_ConfigText Spec_ReadData Proofs_ConfigText.
Import ListNotations.
Local Open Scope string_scope.
Local Open Scope char_scope.
Local Open Scope nat_scope.
Local Open Scope list_scope.

Lemma matches_iff : forall (g : forall R, piece R) L, denotes g L -> forall l, matches (g unit) l = true <-> exists a r, l = a ++ r /\ L a.
Proof.
  intros g L [S1 C1] l. unfold matches. split.
  - destruct (g unit (fun _ _ => Some tt) [] l) as [x|] eqn:E; [|intros H; discriminate H]. intros _.
    destruct (S1 _ _ _ _ _ E) as [a [r [-> [H _]]]]. exists a, r; auto.
  - intros [a [r [-> H]]]. pose proof (C1 unit (fun _ _ => Some tt) [] a r H ltac:(discriminate)) as K.
    destruct (g unit (fun _ _ => Some tt) [] (a ++ r)); [reflexivity|congruence].
Qed.

Lemma class_iff : forall (p : ascii -> bool) cs, (forall c, p c = inb c cs) -> forall c, p c = true <-> In c cs.
Proof. intros p cs H c. rewrite H. apply inb_iff. Qed.
Lemma class_all : forall (p : ascii -> bool) cs, (forall c, p c = inb c cs) -> forall l, Forall (fun c => p c = true) l <-> incl l cs.
Proof.
  intros p cs H l. rewrite Forall_forall. unfold incl. split; intros K c I; apply (class_iff p cs H); auto.
Qed.
Ltac class := intros c; apply eqb_prop; revert c; apply all_chars; vm_compute; reflexivity.
Lemma letter_class : forall c, az_char c = inb c alphabet. Proof. class. Qed.
Lemma name_class : forall c, name_char c = inb c (alphabet ++ figures ++ ["_"; "."]). Proof. class. Qed.
Lemma space_class : forall c, re_space c = inb c whites. Proof. class. Qed.
Lemma blank_class : forall c, blank c = inb c [" "; ascii_of_nat 9]. Proof. class. Qed.
Lemma prefix_class : forall c, any_case "KMGTP" c = inb c (txt "kmgtpKMGTP"). Proof. class. Qed.
Lemma h_class : forall c, any_case "H" c = inb c (txt "hH"). Proof. class. Qed.
Lemma z_class : forall c, any_case "Z" c = inb c (txt "zZ"). Proof. class. Qed.
Lemma kind_class : forall c, any_case "SZYGH" c = inb c (txt "szyghSZYGH"). Proof. class. Qed.

Lemma one_den : forall p cs, (forall c, p c = inb c cs) -> denotes (fun R => single p) (fun l => exists c, l = [c] /\ In c cs).
Proof. intros p cs H. eapply den_ext; [|apply single_den]. intros l. split; intros [c [-> K]]; exists c; split; auto; apply (class_iff p cs H); auto. Qed.
Lemma run_den : forall p cs, (forall c, p c = inb c cs) -> denotes (fun R => many p) (fun l => incl l cs).
Proof. intros p cs H. eapply den_ext; [|apply many_den]. intros l. apply (class_all p cs H). Qed.
Lemma runs_den : forall p cs, (forall c, p c = inb c cs) -> denotes (fun R => some p) (fun l => l <> [] /\ incl l cs).
Proof. intros p cs H. eapply den_ext; [|apply some_den]. intros l. cbv beta. rewrite (class_all p cs H). tauto. Qed.
Lemma char_den : forall a, denotes (fun R => single (is a)) (fun l => l = [a]).
Proof. intros a. eapply den_ext; [|apply single_den]. intros l. split; [intros [c [-> K]]; apply is_iff in K; now subst|intros ->; exists a; split; auto; now apply is_iff]. Qed.

Ltac assoc := repeat first [rewrite <- app_assoc | progress cbn [app]].
Ltac take_cat H a :=
  let r := fresh "r" in let E := fresh "E" in let Ha := fresh "H" a in
  destruct H as [a [r [E [Ha H]]]]; subst.

Lemma mdif_den : denotes (fun R => reg_mdif) (fun a => exists b1 b2 n t, a = b1 ++ txt "VAR" ++ b2 ++ n ++ "(" :: t ++ [")"] /\
    gap b1 /\ gap b2 /\ n <> [] /\ plain_name n /\ t <> [] /\ incl t alphabet).
Proof.
  eapply den_ext; [|exact (seq_den _ _ _ _ (run_den _ _ blank_class) (seq_den _ _ _ _ (word_den (chars "VAR")) (seq_den _ _ _ _ (run_den _ _ blank_class)
      (seq_den _ _ _ _ (runs_den _ _ name_class) (seq_den _ _ _ _ (char_den "(") (seq_den _ _ _ _ (runs_den _ _ letter_class) (char_den ")")))))))].
  intros a. split.
  - intros H. take_cat H b1. take_cat H v. take_cat H b2. take_cat H n. take_cat H p. take_cat H t. subst. destruct Hn, Ht.
    exists b1, b2, n, t. repeat split; auto.
  - intros [b1 [b2 [n [t [-> [B1 [B2 [N1 [N2 [T1 T2]]]]]]]]]].
    exists b1, (txt "VAR" ++ b2 ++ n ++ "(" :: t ++ [")"]). split; [auto|]. split; [auto|].
    exists (txt "VAR"), (b2 ++ n ++ "(" :: t ++ [")"]). split; [auto|]. split; [auto|].
    exists b2, (n ++ "(" :: t ++ [")"]). split; [auto|]. split; [auto|].
    exists n, ("(" :: t ++ [")"]). split; [auto|]. split; [auto|].
    exists ["("], (t ++ [")"]). split; [auto|]. split; [auto|].
    exists t, [")"]. split; [auto|]. split; auto.
Qed.
Lemma is_mdif_iff : forall l, is_mdif l = true <-> mdif_mark l.
Proof.
  intros l. unfold is_mdif. rewrite (matches_iff _ _ mdif_den). split.
  - intros [a [r [-> [b1 [b2 [n [t [-> H]]]]]]]]. exists b1, b2, n, t, r. split; [|exact H]. now assoc.
  - intros [b1 [b2 [n [t [r [-> H]]]]]]. exists (b1 ++ txt "VAR" ++ b2 ++ n ++ "(" :: t ++ [")"]), r. split; [now assoc|].
    exists b1, b2, n, t. split; [reflexivity|exact H].
Qed.

Lemma is_touchstone_iff : forall l, is_touchstone l = true <-> touchstone_mark l.
Proof.
  intros l. unfold is_touchstone.
  rewrite (matches_iff (fun R => reg_touch) _
    (seq_den _ _ _ _ (run_den _ _ space_class) (seq_den _ _ _ _ (char_den "#") (seq_den _ _ _ _ (run_den _ _ space_class)
      (seq_den _ _ _ _ (maybe_den _ _ (one_den _ _ prefix_class)) (seq_den _ _ _ _ (one_den _ _ h_class) (seq_den _ _ _ _ (one_den _ _ z_class)
      (seq_den _ _ _ _ (runs_den _ _ space_class) (seq_den _ _ _ _ (one_den _ _ kind_class) (seq_den _ _ _ _ (runs_den _ _ space_class)
      (seq_den _ _ _ _ (one_den _ _ letter_class) (seq_den _ _ _ _ (one_den _ _ letter_class)
        (maybe_den _ _ (seq_den _ _ _ _ (some_den re_space) (seq_den _ _ _ _ (single_den (any_case "R")) (seq_den _ _ _ _ (some_den re_space) (some_den is_digit))))))))))))))))).
  split.
  - intros [a [r [-> H]]]. take_cat H b1. take_cat H hash. take_cat H b2. take_cat H p. take_cat H h. take_cat H z. take_cat H b3. take_cat H k. take_cat H b4. take_cat H x. take_cat H y.
    destruct Hh as [h' [-> Hh]], Hz as [z' [-> Hz]], Hk as [k' [-> Hk]], Hx as [x' [-> Hx]], Hy as [y' [-> Hy]], Hb3, Hb4.
    eexists b1, b2, p, h', z', b3, k', b4, x', y', _. split; [assoc; reflexivity|]. repeat split; auto.
  - intros [b1 [b2 [p [h [z [b3 [k [b4 [x [y [rest [-> [B1 [B2 [P [Hh [Hz [B3 [B3' [Hk [B4 [B4' [Hx Hy]]]]]]]]]]]]]]]]]]]]]]].
    exists (b1 ++ ["#"] ++ b2 ++ p ++ [h] ++ [z] ++ b3 ++ [k] ++ b4 ++ [x] ++ [y] ++ []), rest. split; [now assoc|].
    do 11 (eexists _, _; split; [reflexivity|]; split; [eauto|]). left; reflexivity.
Qed.

Lemma is_citi_iff : forall l, is_citi l = true <-> citi_mark l.
Proof. intros l. apply starts_with_iff. Qed.
Lemma is_matlab_iff : forall l, is_muwave_matlabdata l = true <-> matlab_mark l.
Proof. intros l. apply starts_with_iff. Qed.

(** ** No line bears two marks *)
Lemma head_in : forall (b : text) cs c r l, incl b cs -> b ++ c :: r = l -> exists x l', l = x :: l' /\ (In x cs \/ x = c).
Proof. intros [|x b] cs c r l I <-; [exists c, r; auto|]. exists x, (b ++ c :: r). split; auto. left. apply I; left; auto. Qed.
(** The first character that is not white space, as far as [cs] is white. *)
Lemma first_solid : forall (cs ds : text) b1 b2 c1 c2 r1 r2, incl b1 cs -> incl b2 ds -> ~ In c1 ds -> ~ In c2 cs -> b1 ++ c1 :: r1 = b2 ++ c2 :: r2 -> c1 = c2.
Proof.
  intros cs ds. induction b1 as [|x b1 IH]; intros [|y b2] c1 c2 r1 r2 I1 I2 N1 N2 E; cbn [app] in E; injection E as E1 E2; subst; auto.
  - exfalso. apply N1, I2. left; auto.
  - exfalso. apply N2, I1. left; auto.
  - apply (IH b2 c1 c2 r1 r2); auto; intros z Hz; [apply I1|apply I2]; right; auto.
Qed.
Lemma not_inb : forall c l, inb c l = false -> ~ In c l.
Proof. intros c l H K. apply inb_iff in K. congruence. Qed.

Inductive starts : text -> ascii -> Prop := Starts : forall b c r, incl b whites -> ~ In c whites -> starts (b ++ c :: r) c.
Lemma starts_one : forall l c d, starts l c -> starts l d -> c = d.
Proof.
  intros l c d H1 H2. inversion H1 as [b c' r B C E1 E1']; inversion H2 as [b' d' r' B' D' E2 E2']. subst.
  apply (first_solid whites whites b b' c d r r'); auto.
Qed.
Lemma gap_whites : forall b, gap b -> incl b whites.
Proof. intros b B c H. destruct (B c H) as [<-|[<-|[]]]; cbn; tauto. Qed.
Lemma mdif_starts : forall l, mdif_mark l -> starts l "V".
Proof. intros l [b1 [b2 [n [t [rest [-> [B1 _]]]]]]]. apply (Starts b1 "V"); [now apply gap_whites|now apply not_inb]. Qed.
Lemma touchstone_starts : forall l, touchstone_mark l -> starts l "#".
Proof. intros l [b1 [b2 [p [h [z [b3 [k [b4 [x [y [rest [-> [B1 _]]]]]]]]]]]]]. apply (Starts b1 "#"); [auto|now apply not_inb]. Qed.
Lemma citi_starts : forall l, citi_mark l -> starts l "C".
Proof. intros l [r ->]. apply (Starts [] "C" (txt "ITIFILE" ++ r)); [intros ? []|now apply not_inb]. Qed.
Lemma matlab_starts : forall l, matlab_mark l -> starts l "M".
Proof. intros l [r ->]. apply (Starts [] "M" (txt "ATLAB 5.0 MAT-file" ++ r)); [intros ? []|now apply not_inb]. Qed.
Lemma mark_starts : forall g l, mark False g l -> exists c, In c (txt "V#CM") /\ starts l c.
Proof.
  intros [] l H; cbn [mark] in H; try contradiction.
  - exists "V". split; [cbn; tauto|now apply mdif_starts].
  - exists "C". split; [cbn; tauto|now apply citi_starts].
  - exists "#". split; [cbn; tauto|now apply touchstone_starts].
  - exists "M". split; [cbn; tauto|now apply matlab_starts].
Qed.
Lemma mark_same : forall f g l, mark False f l -> mark False g l -> f = g.
Proof.
  intros f g l Hf Hg.
  assert (K : forall f l, mark False f l -> starts l (match f with Mdif => "V" | Citi => "C" | Touchstone => "#" | _ => "M" end)).
  { intros [] m H; cbn [mark] in H; try contradiction; [now apply mdif_starts|now apply citi_starts|now apply touchstone_starts|now apply matlab_starts]. }
  pose proof (starts_one _ _ _ (K f l Hf) (K g l Hg)) as E. destruct f, g; auto; cbn [mark] in *; try contradiction; discriminate E.
Qed.

(** ** The choice *)
Definition format_of (r : reader) : format :=
  match r with ReadMdif => Mdif | ReadHdf5 => Hdf5 | ReadCiti => Citi | ReadTouchstone => Touchstone | ReadMatlab => Matlab | ReadSpdata => Spdata end.
Lemma no_mark : forall l, mark False Spdata l -> False. Proof. auto. Qed.
Lemma iff_false : forall (b : bool) P, (b = true <-> P) -> b = false -> ~ P.
Proof. intros [] P H E K; [discriminate E|]. apply H in K. discriminate K. Qed.

Definition decides (h : bool) (l : text) (r : reader) : Prop :=
  mark (h = true) (format_of r) l /\ (h = true -> r = ReadHdf5 \/ r = ReadMdif) /\ (r = ReadHdf5 -> ~ mdif_mark l).
Lemma find_decides : forall h l, match find fst (isfile h l) with Some p => decides h l (snd p) | None => forall g, ~ mark (h = true) g l end.
Proof.
  intros h l. unfold isfile. cbn [find fst].
  pose proof (is_mdif_iff l) as M. pose proof (is_citi_iff l) as C. pose proof (is_touchstone_iff l) as T. pose proof (is_matlab_iff l) as A.
  destruct (is_mdif l) eqn:EM.
  { cbn [snd]. split; [cbn; tauto|]. split; [auto|discriminate]. }
  pose proof (iff_false _ _ M eq_refl) as NM.
  destruct h. { cbn [snd]. split; [reflexivity|]. split; auto. }
  destruct (is_citi l). { cbn [snd]. split; [cbn; tauto|]. split; discriminate. }
  pose proof (iff_false _ _ C eq_refl) as NC.
  destruct (is_touchstone l). { cbn [snd]. split; [cbn; tauto|]. split; discriminate. }
  pose proof (iff_false _ _ T eq_refl) as NT.
  destruct (is_muwave_matlabdata l). { cbn [snd]. split; [cbn; tauto|]. split; discriminate. }
  pose proof (iff_false _ _ A eq_refl) as NA.
  intros []; cbn [mark]; auto.
Qed.
Lemma decides_one : forall h l r r', decides h l r -> decides h l r' -> r = r'.
Proof.
  intros h l r r' [M1 [H1 N1]] [M2 [H2 N2]]. destruct h.
  - destruct (H1 eq_refl) as [->| ->], (H2 eq_refl) as [->| ->]; auto; exfalso; [now apply N1|now apply N2].
  - assert (E : forall f, mark (false = true) f l -> mark False f l) by (intros []; cbn [mark]; auto; discriminate).
    pose proof (mark_same _ _ _ (E _ M1) (E _ M2)) as K. destruct r, r'; try discriminate K; reflexivity.
Qed.

Lemma guess_sound : forall h lines, recognised (h = true) lines (format_of (guess h lines)).
Proof.
  intros h. induction lines as [|l ls IH]; [right; split; [reflexivity|intros l g []]|]. cbn [guess].
  pose proof (find_decides h l) as D. destruct (find fst (isfile h l)) as [p|].
  - destruct D as [M [H N]]. left. exists [], l, ls. split; [reflexivity|]. split; [intros ? ? []|]. split; [exact M|]. split.
    + intros E. destruct (H E) as [-> | ->]; auto.
    + intros E. apply N. destruct (snd p); try discriminate E; reflexivity.
  - destruct IH as [[pre [x [post [-> [B R]]]]]|[E B]].
    + left. exists (l :: pre), x, post. split; [reflexivity|]. split; [|exact R]. intros l' g [<-|I]; [apply D|now apply B].
    + right. split; [exact E|]. intros l' g [<-|I]; [apply D|now apply B].
Qed.
Lemma recognised_one : forall (h : bool) lines f g, recognised (h = true) lines f -> recognised (h = true) lines g -> f = g.
Proof.
  intros h lines f g R1 R2. set (P := h = true) in *.
  assert (T : forall (pre pre' : list text) x x' post post', pre ++ x :: post = pre' ++ x' :: post' ->
     (forall l g, In l pre -> ~ mark P g l) -> (forall l g, In l pre' -> ~ mark P g l) -> (exists g, mark P g x) -> (exists g, mark P g x') -> x = x').
  { clear. induction pre as [|y pre IH]; intros [|y' pre'] x x' post post' E B B' [k K] [k' K']; cbn [app] in E; injection E as E1 E2; subst; auto.
    - exfalso. apply (B' y' k); [left; auto|auto].
    - exfalso. apply (B x' k'); [left; auto|auto].
    - apply (IH pre' x x' post post'); eauto; intros l g0 I; [apply B|apply B']; right; auto. }
  destruct R1 as [[pre [x [post [E1 [B [M [H N]]]]]]]|[E1 B]], R2 as [[pre' [x' [post' [E2 [B' [M' [H' N']]]]]]]|[E2 B']].
  - assert (X : x = x'). { apply (T pre pre' x x' post post'); [congruence|auto..]; eexists; eauto. }
    subst x'. destruct h.
    + destruct (H eq_refl) as [->| ->], (H' eq_refl) as [->| ->]; auto; exfalso; [now apply N|now apply N'].
    + assert (E : forall f, mark P f x -> mark False f x) by (intros []; cbn [mark]; auto; discriminate). apply (mark_same f g x); auto.
  - exfalso. apply (B' x f); [rewrite E1; apply in_or_app; right; left; auto|auto].
  - exfalso. apply (B x' g); [rewrite E2; apply in_or_app; right; left; auto|auto].
  - congruence.
Qed.

(** ** Lines *)
Lemma lines_of_line : forall l t, ~ In newline l -> lines_of (l ++ newline :: t) = (l ++ [newline]) :: lines_of t.
Proof.
  induction l as [|c l IH]; intros t N; cbn [app lines_of].
  - change (ascii_of_nat 10) with newline. now rewrite Ascii.eqb_refl.
  - destruct (Ascii.eqb_spec c (ascii_of_nat 10)) as [->|K]; [exfalso; apply N; left; auto|].
    rewrite IH; [reflexivity|]. intros I; apply N; right; auto.
Qed.
Lemma lines_of_text : forall ls, (forall l, In l ls -> ~ In newline l) -> lines_of (text_of ls) = map (fun l => l ++ [newline]) ls.
Proof.
  induction ls as [|l ls IH]; intros H; [reflexivity|]. unfold text_of in *. cbn [flat_map map]. rewrite <- app_assoc. cbn [app].
  rewrite lines_of_line by (apply H; left; auto). f_equal. apply IH. intros x I; apply H; right; auto.
Qed.
