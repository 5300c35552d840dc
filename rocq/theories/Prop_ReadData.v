(** C71: which reader read_data calls. *)
From Coq Require Import Ascii String List Arith ZArith Bool Lia.
From Verif Require Import Model_NdArray Model_Text Model_Words Model_Comments Model_ConfigText Model_ReadData Spec_ConfigText Spec_ReadData Proofs_ConfigText Proofs_ReadData.
From Verif Require Proofs_Text Model_Citi Model_TsText Model_MdifWrite Model_Spdata.
Import ListNotations.
Local Open Scope string_scope.
Local Open Scope char_scope.
Local Open Scope nat_scope.
Local Open Scope list_scope.

(** The tests of lines: which texts they accept. *)
Theorem C71_marks : forall l,
  (is_mdif l = true <-> mdif_mark l) /\ (is_citi l = true <-> citi_mark l) /\
  (is_touchstone l = true <-> touchstone_mark l) /\ (is_muwave_matlabdata l = true <-> matlab_mark l).
Proof. intros l. split; [apply is_mdif_iff|]. split; [apply is_citi_iff|]. split; [apply is_touchstone_iff|apply is_matlab_iff]. Qed.
Print Assumptions C71_marks.
Example C71_ex_marks :
  is_mdif (txt "VAR SWEEP.Vgs(real) = 1") = true /\ is_mdif (txt "VAR Vgs(0) = 1") = false /\
  is_touchstone (txt " # ghz  S ma R 50") = true /\ is_touchstone (txt "# THz X RI") = false /\ is_citi (txt "CITIFILE A.01.01") = true /\
  touchstone_mark (txt "#Hz S RI").
Proof.
  repeat (split; [vm_compute; reflexivity|]). apply is_touchstone_iff. vm_compute. reflexivity.
Qed.

(** The first line with a mark decides, and a line bears at most one mark, so that
    the order of the tests matters for HDF5 files only. *)
Theorem C71_choice : forall hdf5 lines r, guess hdf5 lines = r <-> recognised (hdf5 = true) lines (format_of r).
Proof.
  intros h lines r. split; [intros <-; apply guess_sound|]. intros R. pose proof (recognised_one _ _ _ _ (guess_sound h lines) R) as E.
  destruct (guess h lines), r; try discriminate E; reflexivity.
Qed.
Print Assumptions C71_choice.
Theorem C71_exclusive : forall l f g, mark False f l -> mark False g l -> f = g.
Proof. intros l f g. apply mark_same. Qed.
Print Assumptions C71_exclusive.
Example C71_ex_choice :
  recognised False [txt "! hello"; txt "#HZ S RI R 50"; txt "VAR a(real)"] Touchstone /\
  guess false [txt "! hello"; txt "#HZ S RI R 50"; txt "VAR a(real)"] = ReadTouchstone /\ guess false [] = ReadSpdata.
Proof.
  split; [|split; vm_compute; reflexivity].
  pose proof (proj1 (C71_choice false [txt "! hello"; txt "#HZ S RI R 50"; txt "VAR a(real)"] ReadTouchstone)) as K.
  assert (E : guess false [txt "! hello"; txt "#HZ S RI R 50"; txt "VAR a(real)"] = ReadTouchstone) by (vm_compute; reflexivity).
  specialize (K E). cbn [format_of] in K. destruct K as [[pre [l [post [E1 [B [M [H N]]]]]]]|[K _]]; [|discriminate K].
  left. exists pre, l, post. split; [exact E1|]. split; [|split; [exact M|split; [intros []|exact N]]].
  intros l' g I Q. apply (B l' g I). destruct g; cbn [mark] in *; auto.
Qed.

(** The file that is looked at is the first match of the first name that has one;
    all the names are handed on to the reader. *)
Theorem C71_file : forall glob content hdf5 names,
  (forall x, read_data glob content hdf5 names = Ok x <->
     exists before p after f fs, names = before ++ p :: after /\ (forall q, In q before -> glob q = []) /\ glob p = f :: fs /\
       recognised (hdf5 f = true) (lines_of (content f)) (format_of (fst x)) /\ snd x = names) /\
  (forall e, read_data glob content hdf5 names = Err e <-> e = GenericError /\ forall q, In q names -> glob q = []).
Proof.
  intros glob content hdf5 names. unfold read_data.
  assert (K : match first_file glob names with
              | Some f => exists before p after fs, names = before ++ p :: after /\ (forall q, In q before -> glob q = []) /\ glob p = f :: fs
              | None => forall q, In q names -> glob q = [] end).
  { induction names as [|p ps IH]; cbn [first_file]; [intros q []|]. destruct (glob p) as [|f fs] eqn:E.
    - destruct (first_file glob ps) as [f|].
      + destruct IH as [before [p' [after [fs [-> [B G]]]]]]. exists (p :: before), p', after, fs. split; [reflexivity|]. split; [|exact G].
        intros q [<-|I]; auto.
      + intros q [<-|I]; auto.
    - exists [], p, ps, fs. split; [reflexivity|]. split; [intros q []|exact E]. }
  assert (U : forall (before before' : list (list ascii)) p p' after after', before ++ p :: after = before' ++ p' :: after' ->
     (forall q, In q before -> glob q = []) -> (forall q, In q before' -> glob q = []) -> glob p <> [] -> glob p' <> [] -> p = p').
  { clear. induction before as [|y before IH]; intros [|y' before'] p p' after after' E B B' N N'; cbn [app] in E; injection E as E1 E2; subst; auto.
    - exfalso. apply N, B'. left; auto.
    - exfalso. apply N', B. left; auto.
    - apply (IH before' p p' after after'); auto; intros q I; [apply B|apply B']; right; auto. }
  destruct (first_file glob names) as [f|]; cbn [of_option bind].
  - destruct K as [before [p [after [fs [E [B G]]]]]]. split.
    + intros [r ns]. split.
      * intros H. injection H as <- <-. exists before, p, after, f, fs. cbn [fst snd]. repeat (split; auto). apply C71_choice. reflexivity.
      * intros [before' [p' [after' [f' [fs' [E' [B' [G' [R S1]]]]]]]]]. cbn [fst snd] in *.
        assert (X : p = p') by (apply (U before before' p p' after after'); [congruence|auto|auto|congruence|congruence]). subst p'. rewrite G in G'. injection G' as <- <-.
        apply C71_choice in R. now rewrite R, S1.
    + intros e. split; [intros H; discriminate H|]. intros [_ H]. rewrite (H p) in G; [discriminate G|]. rewrite E. apply in_or_app; right; left; auto.
  - split.
    + intros x. split; [intros H; discriminate H|]. intros [before [p [after [f [fs [E [B [G _]]]]]]]]. rewrite (K p) in G; [discriminate G|].
      rewrite E. apply in_or_app; right; left; auto.
    + intros e. split; [intros H; injection H as <-; auto|]. intros [-> _]. reflexivity.
Qed.
Print Assumptions C71_file.
Example C71_ex_file :
  read_data (fun p => if eqb_chars p (txt "*.cti") then [txt "a.cti"; txt "b.cti"] else []) (fun _ => txt "CITIFILE") (fun _ => false) [txt "*.s2p"; txt "*.cti"]
    = Ok (ReadCiti, [txt "*.s2p"; txt "*.cti"]) /\
  read_data (fun _ => []) (fun _ => []) (fun _ => false) [txt "*.s2p"] = Err GenericError.
Proof. split; vm_compute; reflexivity. Qed.

(** ** What the writers write *)
Lemma guess_first : forall h l ls r, decides h l r -> guess h (l :: ls) = r.
Proof.
  intros h l ls r D. cbn [guess]. pose proof (find_decides h l) as F. destruct (find fst (isfile h l)) as [p|].
  - apply (decides_one h l); auto.
  - exfalso. apply (F (format_of r)), D.
Qed.
Lemma guess_skip : forall l ls, (forall c, starts l c -> ~ In c (txt "V#CM")) -> guess false (l :: ls) = guess false ls.
Proof.
  intros l ls S1. cbn [guess]. pose proof (find_decides false l) as F. destruct (find fst (isfile false l)) as [p|]; [|reflexivity].
  exfalso. destruct F as [M _]. assert (M' : mark False (format_of (snd p)) l) by (destruct (snd p); cbn [format_of mark] in *; auto; discriminate M).
  destruct (mark_starts _ _ M') as [c [I K]]. exact (S1 c K I).
Qed.
Lemma starts_head : forall x l c, starts (x :: l) c -> ~ In x whites -> c = x.
Proof. intros x l c H N. apply (starts_one _ _ _ H). apply (Starts [] x l); [intros ? []|auto]. Qed.
Lemma skip_head : forall x l ls, ~ In x (whites ++ txt "V#CM") -> guess false ((x :: l) :: ls) = guess false ls.
Proof.
  intros x l ls N. apply guess_skip. intros c K I. apply starts_head in K; [|intros W; apply N, in_or_app; auto]. subst. apply N, in_or_app; auto.
Qed.
Lemma skip_all : forall ls rest, (forall l, In l ls -> exists x l', l = x :: l' /\ ~ In x (whites ++ txt "V#CM")) -> guess false (ls ++ rest) = guess false rest.
Proof.
  induction ls as [|l ls IH]; intros rest H; [reflexivity|]. destruct (H l (or_introl eq_refl)) as [x [l' [-> N]]]. cbn [app]. rewrite skip_head by auto.
  apply IH. intros m I. apply H. right; auto.
Qed.
Lemma bang : ~ In "!" (whites ++ txt "V#CM"). Proof. now apply not_inb. Qed.

Lemma lines_cons : forall l ls, ~ In newline l -> lines_of (text_of (l :: ls)) = (l ++ [newline]) :: lines_of (text_of ls).
Proof. intros l ls N. unfold text_of. cbn [flat_map]. rewrite <- app_assoc. cbn [app]. now apply lines_of_line. Qed.

(** CITI files, whatever the block. *)
Theorem C71_citi : forall V (b : Model_Citi.wblock V), guess false (lines_of (text_of (Model_Citi.ci_write b))) = ReadCiti.
Proof.
  intros V b. unfold Model_Citi.ci_write, text_of. cbn [app flat_map]. rewrite <- app_assoc. cbn [app].
  rewrite lines_of_line by now apply not_inb. apply guess_first.
  split; [|split; [discriminate|discriminate]]. exists (txt " A.01.01" ++ [newline]). reflexivity.
Qed.
Print Assumptions C71_citi.
Example C71_ex_citi : guess false (lines_of (text_of (Model_Citi.ci_write (Model_Citi.mkWBlock (V := nat) (txt "b") [txt "#HZ S RI"] [])))) = ReadCiti.
Proof. vm_compute. reflexivity. Qed.

(** Touchstone files without newlines in comments and names. *)
Definition one_line (l : text) : Prop := ~ In newline l.
Theorem C71_touchstone : forall R (prf prs : R -> text) comments scalars n pts,
  Forall one_line comments -> Forall (fun kv => one_line (fst kv) /\ one_line (snd kv)) scalars -> 
  guess false (lines_of (text_of (Model_TsText.ts_save prf prs comments scalars n pts))) = ReadTouchstone.
Proof.
  intros R prf prs comments scalars n pts C1 S1. unfold Model_TsText.ts_save.
  assert (L : forall (ls : list text) rest, Forall one_line ls -> (forall l, In l ls -> exists l', l = "!" :: l') ->
     guess false (lines_of (text_of (ls ++ rest))) = guess false (lines_of (text_of rest))).
  { induction ls as [|l ls IH]; intros rest F B; [reflexivity|]. inversion F as [|? ? F1 F2]; subst. destruct (B l (or_introl eq_refl)) as [l' ->].
    cbn [app]. rewrite lines_cons by auto. cbn [app]. rewrite skip_head by apply bang. apply IH; auto. intros l I. apply B. right; auto. }
  rewrite L; [rewrite L|..].
  - unfold text_of. cbn [flat_map app]. rewrite <- app_assoc. cbn [app]. rewrite lines_of_line by now apply not_inb. apply guess_first.
    split; [|split; [discriminate|discriminate]]. apply is_touchstone_iff. vm_compute. reflexivity.
  - apply Forall_forall. intros l I. apply in_map_iff in I as [[k v] [<- I]]. rewrite Forall_forall in S1. destruct (S1 _ I) as [K1 K2]. cbn [fst snd] in *.
    intros [E|J]; [discriminate E|]. apply in_app_iff in J as [J|J]; [now apply K1|]. apply in_app_iff in J as [J|J]; [|now apply K2]. revert J. now apply not_inb.
  - intros l I. apply in_map_iff in I as [[k v] [<- I]]. eauto.
  - apply Forall_forall. intros l I. apply in_map_iff in I as [c [<- I]]. rewrite Forall_forall in C1. intros [E|J]; [discriminate E|]. now apply (C1 c).
  - intros l I. apply in_map_iff in I as [c [<- I]]. eauto.
Qed.
Print Assumptions C71_touchstone.
Example C71_ex_touchstone :
  Forall one_line [txt "CITIFILE"] /\
  guess false (lines_of (text_of (Model_TsText.ts_save (fun _ : nat => txt "1") (fun _ => txt "2") [txt "CITIFILE"] [(txt "Vgs", txt "1 V")] 1 [(1, fun _ _ => (1, 2))]))) = ReadTouchstone.
Proof. split; [repeat constructor; now apply not_inb|vm_compute; reflexivity]. Qed.
(** A comment of two lines can hide the format. *)
Theorem C71_comment_refuted : exists R (prf prs : R -> text) comments scalars n pts,
  guess false (lines_of (text_of (Model_TsText.ts_save prf prs comments scalars n pts))) <> ReadTouchstone.
Proof.
  exists nat, (fun _ : nat => txt "1"), (fun _ : nat => txt "2"), [txt "copied from a" ++ newline :: txt "CITIFILE"], [], 1, [(1, fun _ _ => (1, 2))].
  vm_compute. intros E; discriminate E.
Qed.
Print Assumptions C71_comment_refuted.

(** MDIF files with at least one swept variable besides the first one of the tables. *)
Lemma alphabet_plain : forall n, plain_name n -> ~ In newline n.
Proof. intros n P I. apply P in I. revert I. now apply not_inb. Qed.
Theorem C71_mdif : forall V as_index (asctime : text) d0 d1 ds b rest lines,
  Model_MdifWrite.save_mdif (V := V) as_index asctime ((d0 :: d1 :: ds, b) :: rest) = Ok lines ->
  one_line asctime -> plain_name (Model_MdifWrite.wd_name d1) -> (forall x, one_line (Model_MdifWrite.wd_fmt d1 x)) ->
  (forall d, In d (d1 :: ds) -> Model_MdifWrite.wd_vals d <> []) ->
  guess false (lines_of (text_of lines)) = ReadMdif.
Proof.
  intros V as_index asctime d0 d1 ds b rest lines H A N F E.
  assert (W : forall ls : list (list V), (forall l, In l ls -> l <> []) -> exists c cs, Model_MdifWrite.wproduct ls = c :: cs).
  { clear. induction ls as [|l ls IH]; intros K; [exists [], []; reflexivity|]. cbn [Model_MdifWrite.wproduct].
    destruct IH as [c [cs ->]]; [intros m I; apply K; right; auto|]. destruct l as [|x l]; [exfalso; apply (K []); [left|]; auto|]. cbn. eauto. }
  assert (P : exists v c cs, Model_MdifWrite.wproduct (map Model_MdifWrite.wd_vals (d1 :: ds)) = (v :: c) :: cs).
  { destruct (W (map Model_MdifWrite.wd_vals ds)) as [c [cs Ec]].
    { intros l I. apply in_map_iff in I as [d [<- I]]. apply E. right; auto. }
    cbn [map Model_MdifWrite.wproduct]. rewrite Ec. destruct (Model_MdifWrite.wd_vals d1) as [|x l] eqn:E1; [exfalso; apply (E d1); [left; auto|auto]|].
    cbn [flat_map map app]. eauto. }
  destruct P as [v [c [cs P]]].
  unfold Model_MdifWrite.save_mdif in H. cbn [mapM fst snd] in H. unfold Model_MdifWrite.fmt_block at 1 in H. rewrite P in H. cbn [Model_MdifWrite.fmt_coords] in H.
  match type of H with context [Model_MdifWrite.fmt_coord ?a ?b' ?c' ?d ?e ?f] => destruct (Model_MdifWrite.fmt_coord a b' c' d e f) as [t|er] eqn:FC end; [|discriminate H].
  cbn [bind] in H.
  match type of H with context [Model_MdifWrite.fmt_coords ?a ?b' ?c' ?d ?e ?f] => destruct (Model_MdifWrite.fmt_coords a b' c' d e f) as [t2|er] end; [|discriminate H].
  cbn [bind] in H. match type of H with context [mapM ?f ?l] => destruct (mapM f l) as [t3|er] end; [|discriminate H].
  cbn [bind] in H. injection H as <-. cbn [concat].
  assert (T : exists t', t = Model_MdifWrite.wvarline (Model_MdifWrite.wd_name d1) (Model_MdifWrite.wd_fmt d1) v :: t').
  { unfold Model_MdifWrite.fmt_coord in FC. destruct (filter _ _) as [|a al]; [discriminate FC|].
    match type of FC with bind ?r _ = _ => destruct r as [ats|er] end; [|discriminate FC]. cbn [bind] in FC.
    destruct (filter _ _) as [|a' al']; [discriminate FC|].
    match type of FC with bind ?r _ = _ => destruct r as [ix|er] end; [|discriminate FC]. cbn [bind] in FC. injection FC as <-.
    cbn [map Model_MdifWrite.wvarlines app]. eexists; reflexivity. }
  destruct T as [t' ->]. rewrite lines_cons.
  2:{ intros I. repeat (destruct I as [I|I]; [discriminate I|]). now apply A. }
  cbn [chars list_ascii_of_string app]. rewrite skip_head by apply bang.
  rewrite lines_cons.
  2:{ unfold Model_MdifWrite.wvarline. intros I. apply in_app_iff in I as [I|I]; [revert I; now apply not_inb|].
      apply in_app_iff in I as [I|I]; [exact (alphabet_plain _ N I)|]. apply in_app_iff in I as [I|I]; [revert I; now apply not_inb|exact (F _ I)]. }
  apply guess_first. split; [|split; [discriminate|discriminate]]. cbn [format_of mark].
  exists [], [" "], (txt "SWEEP." ++ Model_MdifWrite.wd_name d1), (txt "real"), (txt " = " ++ Model_MdifWrite.wd_fmt d1 v ++ [newline]).
  split; [unfold Model_MdifWrite.wvarline; change (chars "VAR SWEEP.") with (txt "VAR" ++ [" "] ++ txt "SWEEP."); change (chars "(real) = ") with ("(" :: txt "real" ++ ")" :: txt " = "); now assoc|].
  split; [intros ? []|]. split; [intros x [<-|[]]; left; auto|]. split; [discriminate|].
  split; [|split; [discriminate|]].
  - intros x I. apply in_app_iff in I as [I|I]; [|now apply N]. revert x I. apply (proj1 (class_all _ _ name_class _)). repeat constructor.
  - apply (proj1 (class_all _ _ letter_class _)). repeat constructor.
Qed.
Print Assumptions C71_mdif.

(** Those with a single variable for the whole table are not recognised. *)
Definition no_white (n : text) : Prop := forall c, In c n -> ~ In c whites.
Definition numeral (t : text) : Prop := one_line t /\ exists c r, t = c :: r /\ In c (figures ++ ["-"; "+"; "."]).
Lemma attribute_line : forall name r, no_white name -> ~ touchstone_mark ("#" :: " " :: name ++ "(" :: r).
Proof.
  intros name r N [b1 [b2 [p [h [z [b3 [k [b4 [x [y [rest [E [B1 [B2 [P [Hh [Hz [B3 [B3' _]]]]]]]]]]]]]]]]]]].
  assert (G : forall w n s r1 r2, ~ In "(" w -> no_white n -> In s whites -> w ++ s :: r1 = n ++ "(" :: r2 -> False).
  { clear. induction w as [|c w IH]; intros [|d n] s r1 r2 W N S1 E; cbn [app] in E; injection E as E1 E2; subst.
    - revert S1. now apply not_inb.
    - apply (N d); [left; auto|auto].
    - apply W. left; auto.
    - apply (IH n s r1 r2); auto; [intros I; apply W; right; auto|intros x I; apply N; right; auto]. }
  destruct b1 as [|c b1].
  2:{ cbn [app] in E. injection E as <- _. pose proof (B1 "#" (or_introl eq_refl)) as K. revert K. now apply not_inb. }
  cbn [app] in E. injection E as E.
  destruct b3 as [|s b3]; [congruence|]. pose proof (B3' s (or_introl eq_refl)) as Sw.
  destruct b2 as [|c b2].
  - cbn [app] in E. destruct P as [->|[c [-> Hc]]]; cbn [app] in E; injection E as E1 E.
    + subst h. revert Hh. now apply not_inb.
    + subst c. revert Hc. now apply not_inb.
  - cbn [app] in E. injection E as E1 E. destruct b2 as [|c' b2].
    + cbn [app] in E.
      assert (Hw : ~ In "(" (p ++ [h; z])).
      { intros I. apply in_app_iff in I as [I|[I|[I|[]]]].
        - destruct P as [->|[c' [-> Hc]]]; [destruct I|]. destruct I as [I|[]]. subst c'. revert Hc. now apply not_inb.
        - subst h. revert Hh. now apply not_inb.
        - subst z. revert Hz. now apply not_inb. }
      apply (G (p ++ [h; z]) name s (b3 ++ k :: b4 ++ x :: y :: rest) r Hw N Sw). rewrite <- app_assoc. cbn [app] in *. auto.
    + cbn [app] in E. pose proof (B2 c' (or_intror (or_introl eq_refl))) as K. destruct name as [|d name]; cbn [app] in E; injection E as E2 E; subst.
      * revert K. now apply not_inb.
      * apply (N c'); [left; auto|auto].
Qed.

Lemma guess_unmarked : forall ls, (forall l g, In l ls -> ~ mark False g l) -> guess false ls = ReadSpdata.
Proof.
  intros ls H. apply C71_choice. right. split; [reflexivity|]. intros l g I M. apply (H l g I). destruct g; cbn [mark] in *; auto; discriminate M.
Qed.
Lemma unmarked_start : forall x l g, ~ In x (whites ++ txt "V#CM") -> ~ mark False g (x :: l).
Proof.
  intros x l g N M. destruct (mark_starts _ _ M) as [c [I K]]. apply starts_head in K; [|intros W; apply N, in_or_app; auto]. subst. apply N, in_or_app; auto.
Qed.
Lemma numeral_start : forall c, In c (figures ++ ["-"; "+"; "."]) -> ~ In c (whites ++ txt "V#CM").
Proof.
  intros c I. apply inb_iff in I. intros J. apply inb_iff in J.
  assert (K : forall c, implb (inb c (figures ++ ["-"; "+"; "."])) (negb (inb c (whites ++ txt "V#CM"))) = true) by (apply all_chars; vm_compute; reflexivity).
  specialize (K c). rewrite I, J in K. discriminate K.
Qed.
Lemma Ok_same : forall A (x y : A), Ok x = Ok y -> x = y.
Proof. intros A x y H. now injection H. Qed.
Lemma join_one_line : forall s ls, ~ In newline s -> (forall l, In l ls -> one_line l) -> one_line (join s ls).
Proof.
  intros s ls Hs. induction ls as [|l ls IH]; intros H; [intros []|]. destruct ls as [|m ls]; [apply H; left; auto|].
  change (join s (l :: m :: ls)) with (l ++ s ++ join s (m :: ls)). intros I. apply in_app_iff in I as [I|I]; [exact (H l (or_introl eq_refl) I)|].
  apply in_app_iff in I as [I|I]; [auto|]. apply IH; auto. intros x J. apply H. right; auto.
Qed.
Lemma join_head : forall s l ls, exists r, join s (l :: ls) = l ++ r.
Proof. intros s l [|m ls]; [exists []; now rewrite app_nil_r|exists (s ++ join s (m :: ls)); reflexivity]. Qed.

Definition plain_block {V} (s : list (Model_MdifWrite.wdim V) * Model_MdifWrite.wblock V) : Prop :=
  (exists d, fst s = [d] /\ no_white (Model_MdifWrite.wd_name d) /\ forall x, numeral (Model_MdifWrite.wd_fmt d x)) /\
  (forall n, Model_MdifWrite.wb_name (snd s) = Some n -> one_line n) /\
  (forall v, In v (Model_MdifWrite.wb_vars (snd s)) -> no_white (Model_MdifWrite.wv_name v) /\ forall x, numeral (Model_MdifWrite.wv_fmt v x)).

Theorem C71_mdif_one_dimension : forall V as_index (asctime : text) subsets lines,
  Model_MdifWrite.save_mdif (V := V) as_index asctime subsets = Ok lines ->
  one_line asctime -> Forall plain_block subsets -> guess false (lines_of (text_of lines)) = ReadSpdata.
Proof.
  intros V as_index asctime subsets lines H A F.
  assert (N0 : forall n, no_white n -> one_line n) by (intros n N I; apply (N newline); [auto|cbn; tauto]).
  assert (Q : forall l, In l lines -> one_line l /\ forall g, ~ mark False g (l ++ [newline])).
  { unfold Model_MdifWrite.save_mdif in H. match type of H with bind ?r _ = _ => destruct r as [ts|er] eqn:ET end; [|discriminate H]. cbn [bind] in H. injection H as <-.
    intros l [<-|I].
    { split; [intros I; repeat (destruct I as [I|I]; [discriminate I|]); now apply A|]. intros g. cbn [chars list_ascii_of_string app]. apply unmarked_start, bang. }
    assert (T : forall t, In t ts -> exists s, In s subsets /\ Model_MdifWrite.fmt_block as_index (fst s) (snd s) = Ok t).
    { clear - ET. revert ts ET. induction subsets as [|s ss IH]; intros ts ET.
      - injection ET as <-. intros t [].
      - cbn [mapM] in ET. destruct (Model_MdifWrite.fmt_block as_index (fst s) (snd s)) as [t0|] eqn:E0; [|discriminate ET]. cbn [bind] in ET.
        destruct (mapM _ ss) as [ts'|]; [|discriminate ET]. injection ET as <-. intros t [<-|I].
        + exists s. split; [left|]; auto.
        + destruct (IH ts' eq_refl t I) as [s' [I' E']]. exists s'. split; [right|]; auto. }
    apply in_concat in I as [t [It I]]. destruct (T t It) as [s [Is E]]. rewrite Forall_forall in F. destruct (F s Is) as [[d [Ed [Nd Fd]]] [Nb Nv]].
    destruct s as [dims b]. cbn [fst snd] in *. subst dims. unfold Model_MdifWrite.fmt_block in E. cbn [map Model_MdifWrite.wproduct Model_MdifWrite.fmt_coords] in E.
    match type of E with bind ?r _ = _ => destruct r as [t1|er] eqn:FC end; [|discriminate E]. cbn [bind] in E. injection E as E. rewrite app_nil_r in E. subst t1.
    unfold Model_MdifWrite.fmt_coord in FC. cbn [map Model_MdifWrite.wvarlines] in FC.
    set (atts := filter (Model_MdifWrite.over []) (Model_MdifWrite.wb_vars b)) in FC. assert (At : forall v, In v atts -> In v (Model_MdifWrite.wb_vars b)) by (intros v Iv; apply filter_In in Iv; tauto).
    set (cols := filter (Model_MdifWrite.over [Model_MdifWrite.wd_name d]) (Model_MdifWrite.wb_vars b)) in FC.
    assert (Co : forall v, In v cols -> In v (Model_MdifWrite.wb_vars b)) by (intros v Iv; apply filter_In in Iv; tauto).
    assert (FC' : exists ats ix, mapM (Model_MdifWrite.wattrib as_index [] []) atts = Ok ats /\
      t = [chars "BEGIN " ++ match Model_MdifWrite.wb_name b with Some n => n | None => chars "DATABLOCK" end] ++ ats ++
          [chars "% " ++ join [" "] ((Model_MdifWrite.wd_name d ++ chars "(real)") :: map Model_MdifWrite.wheader cols)] ++
          map (fun kv => join [tab] (Model_MdifWrite.wd_fmt d (snd kv) :: flat_map (fun c => Model_MdifWrite.welems c (fst kv :: ix)) cols))
              (combine (List.seq 0 (List.length (Model_MdifWrite.wd_vals d))) (Model_MdifWrite.wd_vals d)) ++ [chars "END"]).
    { destruct atts as [|a al]; [discriminate FC|]. match type of FC with bind ?r _ = _ => destruct r as [ats|er] eqn:EA0 end; [|discriminate FC]. cbn [bind] in FC.
      destruct cols as [|c cl]; [discriminate FC|]. match type of FC with bind ?r _ = _ => destruct r as [ix|er] end; [|discriminate FC]. cbn [bind] in FC.
      apply Ok_same in FC. rewrite <- FC. exists ats, ix. split; reflexivity. }
    destruct FC' as [ats [ix [EA ->]]]. clear FC.
    apply in_app_iff in I as [[<-|[]]|I]; [|apply in_app_iff in I as [I|I]; [|apply in_app_iff in I as [[<-|[]]|I]; [|apply in_app_iff in I as [I|[<-|[]]]]]].
    - split; [|intros g; cbn [chars list_ascii_of_string app]; apply unmarked_start; now apply not_inb].
      intros I. apply in_app_iff in I as [I|I]; [revert I; now apply not_inb|]. destruct (Model_MdifWrite.wb_name b) as [n|]; [exact (Nb n eq_refl I)|]. revert I. now apply not_inb.
    - assert (Ha : exists v, In v atts /\ Model_MdifWrite.wattrib as_index [] [] v = Ok l).
      { clear - EA I. revert ats EA I. induction atts as [|v vs IH]; intros ats EA I; [injection EA as <-; destruct I|].
        cbn [mapM] in EA. destruct (Model_MdifWrite.wattrib as_index [] [] v) as [l0|] eqn:E0; [|discriminate EA]. cbn [bind] in EA.
        destruct (mapM _ vs) as [ls|]; [|discriminate EA]. injection EA as <-. destruct I as [<-|I]; [exists v; split; [left|]; auto|].
        destruct (IH ls eq_refl I) as [v' [I' E']]. exists v'. split; [right|]; auto. }
      destruct Ha as [v [Iv E]]. destruct (Nv v (At v Iv)) as [Nn Nf]. unfold Model_MdifWrite.wattrib in E. cbn [Model_MdifWrite.positions_of bind] in E.
      destruct (Model_MdifWrite.wv_data v) as [f|f] eqn:Ed; [|discriminate E]. apply Ok_same in E. subst l. unfold Model_MdifWrite.wheader. rewrite Ed.
      split.
      + intros J. apply in_app_iff in J as [J|J]; [revert J; now apply not_inb|]. apply in_app_iff in J as [J|J].
        * apply in_app_iff in J as [J|J]; [exact (N0 _ Nn J)|revert J; now apply not_inb].
        * apply in_app_iff in J as [J|J]; [revert J; now apply not_inb|exact (proj1 (Nf _) J)].
      + intros g M. destruct (mark_starts _ _ M) as [c [_ K]]. assert (X : c = "#") by (apply (starts_head _ _ _ K); now apply not_inb). subst c.
        assert (g = Touchstone).
        { assert (Y : forall f l, mark False f l -> starts l (match f with Mdif => "V" | Citi => "C" | Touchstone => "#" | _ => "M" end)).
          { intros [] m Hm; cbn [mark] in Hm; try contradiction; [now apply mdif_starts|now apply citi_starts|now apply touchstone_starts|now apply matlab_starts]. }
          pose proof (starts_one _ _ _ (Y g _ M) K) as Z1. destruct g; auto; discriminate Z1. }
        subst g. cbn [mark] in M. revert M. cbn [chars list_ascii_of_string app]. rewrite <- !app_assoc. cbn [app]. now apply attribute_line.
    - split; [|intros g; cbn [chars list_ascii_of_string app]; apply unmarked_start; now apply not_inb].
      intros J. apply in_app_iff in J as [J|J]; [revert J; now apply not_inb|]. revert J. apply join_one_line; [now apply not_inb|].
      intros m [<-|I].
      + intros J. apply in_app_iff in J as [J|J]; [exact (N0 _ Nd J)|revert J; now apply not_inb].
      + apply in_map_iff in I as [v [<- Iv]]. unfold Model_MdifWrite.wheader. intros J.
        apply in_app_iff in J as [J|J]; [exact (N0 _ (proj1 (Nv v (Co v Iv))) J)|]. destruct (Model_MdifWrite.wv_data v); revert J; now apply not_inb.
    - apply in_map_iff in I as [[k x] [<- I]]. cbn [fst snd]. split.
      + apply join_one_line; [now apply not_inb|]. intros m [<-|J]; [apply Fd|]. apply in_flat_map in J as [v [Iv J]]. destruct (Nv v (Co v Iv)) as [_ Nf].
        unfold Model_MdifWrite.welems in J. destruct (Model_MdifWrite.wv_data v); [destruct J as [<-|[]]|destruct J as [<-|[<-|[]]]]; apply Nf.
      + intros g. destruct (join_head [tab] (Model_MdifWrite.wd_fmt d x) (flat_map (fun c => Model_MdifWrite.welems c (k :: ix)) cols)) as [r ->].
        destruct (Fd x) as [_ [c [r' [-> Ic]]]]. cbn [app]. apply unmarked_start. now apply numeral_start.
    - split; [now apply not_inb|]. intros g. cbn [chars list_ascii_of_string app]. apply unmarked_start. now apply not_inb. }
  rewrite lines_of_text by (intros l I; apply Q; auto). apply guess_unmarked. intros l g I. apply in_map_iff in I as [m [<- I]]. now apply Q.
Qed.
Print Assumptions C71_mdif_one_dimension.
(** A block over a frequency and a voltage, and one over a frequency only. *)
Section Ex.
Let num (x : nat) : text := match x with 0 => txt "0" | _ => txt "1" end.
Let freq := Model_MdifWrite.mkWDim (txt "freq") [0; 1] num.
Let vgs := Model_MdifWrite.mkWDim (txt "Vgs") [0; 1] num.
Let b2 := Model_MdifWrite.mkWBlock None [Model_MdifWrite.mkWVar (txt "T") [txt "Vgs"] (Model_MdifWrite.WReal (fun _ => 0)) num;
   Model_MdifWrite.mkWVar (txt "S") [txt "freq"; txt "Vgs"] (Model_MdifWrite.WComplex (fun _ => (0, 1))) num].
Let b1 := Model_MdifWrite.mkWBlock None [Model_MdifWrite.mkWVar (txt "T") [] (Model_MdifWrite.WReal (fun _ => 0)) num;
   Model_MdifWrite.mkWVar (txt "S") [txt "freq"] (Model_MdifWrite.WComplex (fun _ => (0, 1))) num].
Example C71_ex_mdif : exists lines,
  Model_MdifWrite.save_mdif (fun n => Some (Z.of_nat n)) (txt "Mon") [([freq; vgs], b2)] = Ok lines /\
  plain_name (Model_MdifWrite.wd_name vgs) /\ (forall x, one_line (Model_MdifWrite.wd_fmt vgs x)) /\ guess false (lines_of (text_of lines)) = ReadMdif.
Proof.
  eexists. split; [vm_compute; reflexivity|]. split; [apply (proj1 (class_all _ _ name_class _)); repeat constructor|].
  split; [intros [|x]; now apply not_inb|vm_compute; reflexivity].
Qed.
Example C71_ex_mdif_one_dimension : exists lines,
  Model_MdifWrite.save_mdif (fun n => Some (Z.of_nat n)) (txt "Mon") [([freq], b1)] = Ok lines /\ plain_block ([freq], b1) /\ guess false (lines_of (text_of lines)) = ReadSpdata.
Proof.
  assert (N : forall x, numeral (num x)).
  { intros [|x]; (split; [now apply not_inb|]); [exists "0", []|exists "1", []]; (split; [reflexivity|cbn; tauto]). }
  assert (W : forall n : text, forallb (fun c => negb (inb c whites)) n = true -> no_white n).
  { intros n H c I K. rewrite forallb_forall in H. specialize (H c I). apply inb_iff in K. rewrite K in H. discriminate H. }
  eexists. split; [vm_compute; reflexivity|]. split; [|vm_compute; reflexivity]. split; [|split].
  - exists freq. split; [reflexivity|]. split; [apply W; reflexivity|exact N].
  - intros n H; discriminate H.
  - intros v [<-|[<-|[]]]; (split; [apply W; reflexivity|exact N]).
Qed.
End Ex.

(** HDF5 files, which begin with their signature. *)
Theorem C71_hdf5 : forall rest, guess true (lines_of (map ascii_of_nat [137; 72; 68; 70; 13; 10] ++ rest)) = ReadHdf5.
Proof.
  intros rest. change (map ascii_of_nat [137; 72; 68; 70; 13; 10] ++ rest) with (map ascii_of_nat [137; 72; 68; 70; 13] ++ newline :: rest).
  rewrite lines_of_line by now apply not_inb. apply guess_first. split; [reflexivity|]. split; [auto|]. intros _ M.
  apply mdif_starts in M. apply starts_head in M; [discriminate M|]. now apply not_inb.
Qed.
Print Assumptions C71_hdf5.

(** Files of SP-data: the columns begin with that of the sweep. *)
Lemma word_in_name : forall w (name r s : text), (forall c, In c w -> ~ In c whites) -> (forall c r', r = c :: r' -> In c whites) -> name ++ r = w ++ s -> exists s', name = w ++ s'.
Proof.
  induction w as [|x w IH]; intros name r s W R E; [exists name; reflexivity|]. destruct name as [|y name]; cbn [app] in E.
  - exfalso. apply (W x); [left; auto|]. apply (R x (w ++ s)). auto.
  - injection E as <- E. destruct (IH name r s) as [s' ->]; auto; [intros c I; apply W; right; auto|]. exists s'. reflexivity.
Qed.
Definition sweep_name (n : text) : Prop :=
  one_line n /\ (exists c r, n = c :: r /\ ~ In c ("#" :: whites)) /\ forall w r, In w [txt "VAR"; txt "CITIFILE"; txt "MATLAB"] -> n <> w ++ r.
Lemma named_unmarked : forall n r g, sweep_name n -> (forall c r', r = c :: r' -> In c whites) -> ~ mark False g (n ++ r).
Proof.
  intros n r g [_ [[c [n' [-> Nc]]] W]] R M.
  assert (K : forall w s, In w [txt "VAR"; txt "CITIFILE"; txt "MATLAB"] -> (c :: n') ++ r = w ++ s -> False).
  { intros w s I E. destruct (word_in_name w (c :: n') r s) as [s' E']; auto; [|exact (W w s' I E')].
    intros d Id. destruct I as [<-|[<-|[<-|[]]]]; cbn in Id; intros Q;
      repeat (destruct Id as [<-|Id]; [revert Q; now apply not_inb|]); destruct Id. }
  destruct g; cbn [mark] in M.
  - destruct M as [b1 [b2 [m [t [rest [E [B1 _]]]]]]]. destruct b1 as [|d b1].
    + exact (K (txt "VAR") _ (or_introl eq_refl) E).
    + cbn [app] in E. injection E as <- _. apply Nc. right. apply gap_whites in B1. apply B1. left; auto.
  - exact M.
  - destruct M as [s E]. exact (K (txt "CITIFILE") s (or_intror (or_introl eq_refl)) E).
  - apply touchstone_starts in M. apply starts_head in M; [subst c; apply Nc; left; auto|]. intros Q; apply Nc; right; auto.
  - destruct M as [s E]. apply (K (txt "MATLAB") (txt " 5.0 MAT-file" ++ s) (or_intror (or_intror (or_introl eq_refl)))). rewrite E. reflexivity.
  - exact M.
Qed.

Definition plain_column {V} (c : Model_Spdata.sp_col V) : Prop :=
  one_line (Model_Spdata.c_name c) /\ one_line (Model_Spdata.c_unit c) /\ forall x, one_line (Model_Spdata.c_print c x).
Definition plain_out {V} (o : Model_Spdata.sp_out V) : Prop :=
  Forall one_line (Model_Spdata.o_comments o) /\ Forall (fun kv => one_line (fst kv) /\ one_line (snd kv)) (Model_Spdata.o_sweepvars o) /\
  exists c cs f, Model_Spdata.o_cols o = c :: cs /\ Model_Spdata.c_data c = Model_Spdata.Real f /\ sweep_name (Model_Spdata.c_name c) /\
    (forall x, numeral (Model_Spdata.c_print c x)) /\ Forall plain_column (c :: cs).

Lemma digits_one_line : forall n, one_line (print_nat n).
Proof. intros n I. pose proof (Proofs_Text.print_nat_digits n) as F. rewrite Forall_forall in F. specialize (F _ I). discriminate F. Qed.
Lemma elements_plain : forall V (c : Model_Spdata.sp_col V), plain_column c -> Forall plain_column (Model_Spdata.sp_elements c).
Proof.
  intros V c [N [U P]]. unfold Model_Spdata.sp_elements.
  assert (K : forall i j d, plain_column (Model_Spdata.Build_sp_col (Model_Spdata.c_name c ++ print_nat (S i) ++ print_nat (S j)) (Model_Spdata.c_unit c) (Model_Spdata.c_width c) (Model_Spdata.c_print c) d)).
  { intros i j d. split; [|split; auto]. cbn [Model_Spdata.c_name]. intros I. apply in_app_iff in I as [I|I]; [now apply N|]. apply in_app_iff in I as [I|I]; revert I; apply digits_one_line. }
  destruct (Model_Spdata.c_data c).
  - constructor; [split; auto|constructor].
  - constructor; [split; auto|constructor].
  - apply Forall_forall. intros x I. apply in_flat_map in I as [i [_ I]]. apply in_map_iff in I as [j [<- _]]. apply K.
  - apply Forall_forall. intros x I. apply in_flat_map in I as [i [_ I]]. apply in_map_iff in I as [j [<- _]]. apply K.
Qed.
Lemma head_one_line : forall V (c : Model_Spdata.sp_col V), plain_column c -> forall h, In h (Model_Spdata.sp_head c) -> one_line h.
Proof.
  intros V c [N [U P]].
  assert (K : forall n w, one_line n -> one_line (Model_Spdata.padhead (Model_Spdata.unit_header n (Model_Spdata.c_unit c)) w)).
  { intros n w H I. unfold Model_Spdata.padhead in I. apply in_app_iff in I as [I|I]; [|apply repeat_spec in I; discriminate I].
    unfold Model_Spdata.unit_header in I. destruct (Model_Spdata.c_unit c) as [|u us] eqn:E; [now apply H|]. apply in_app_iff in I as [I|I]; [now apply H|].
    apply in_app_iff in I as [I|I]; [revert I; now apply not_inb|]. apply in_app_iff in I as [I|I]; [now apply U|revert I; now apply not_inb]. }
  assert (W : forall s, ~ In newline s -> one_line (s ++ Model_Spdata.c_name c ++ chars ")")).
  { intros s H I. apply in_app_iff in I as [I|I]; [now apply H|]. apply in_app_iff in I as [I|I]; [now apply N|revert I; now apply not_inb]. }
  intros h I. unfold Model_Spdata.sp_head in I.
  destruct (Model_Spdata.c_data c); cbn [In] in I; [destruct I as [<-|[]]|destruct I as [<-|[<-|[]]]|destruct I as [<-|[]]|destruct I as [<-|[<-|[]]]]; apply K; auto; apply W; now apply not_inb.
Qed.
Lemma cells_one_line : forall V (c : Model_Spdata.sp_col V), plain_column c -> forall k h, In h (Model_Spdata.sp_cells k c) -> one_line h.
Proof. intros V c [N [U P]] k h I. unfold Model_Spdata.sp_cells in I. destruct (Model_Spdata.c_data c); cbn [In] in I; [destruct I as [<-|[]]|destruct I as [<-|[<-|[]]]|destruct I|destruct I]; apply P. Qed.

Lemma sp_format_lines : forall V (o : Model_Spdata.sp_out V), plain_out o ->
  forall l, In l (Model_Spdata.sp_format (Model_Spdata.o_comments o) (Model_Spdata.o_sweepvars o) (Model_Spdata.o_points o) (Model_Spdata.o_cols o)) ->
  one_line l /\ forall g, ~ mark False g (l ++ [newline]).
Proof.
  intros V o [C [S1 [c [cs [f [EC [ED [SN [NU F]]]]]]]]] l I. unfold Model_Spdata.sp_format in I. rewrite EC in I.
  assert (ES : exists es, flat_map Model_Spdata.sp_elements (c :: cs) = c :: es /\ Forall plain_column (c :: es)).
  { exists (flat_map Model_Spdata.sp_elements cs). split; [cbn [flat_map]; unfold Model_Spdata.sp_elements at 1; rewrite ED; reflexivity|].
    inversion F as [|? ? F1 F2]; subst. constructor; auto. apply Forall_forall. intros x J. apply in_flat_map in J as [y [Iy J]].
    rewrite Forall_forall in F2. pose proof (elements_plain V y (F2 y Iy)) as Q. rewrite Forall_forall in Q. auto. }
  destruct ES as [es [ES PE]]. cbv zeta in I. rewrite ES in I. rewrite Forall_forall in PE.
  apply in_app_iff in I as [I|I]; [|apply in_app_iff in I as [I|I]; [|apply in_app_iff in I as [[<-|[]]|I]]].
  - apply in_map_iff in I as [x [<- I]]. split; [|intros g; cbn [app]; apply unmarked_start, bang].
    intros [E|J]; [discriminate E|]. rewrite Forall_forall in C. apply (C x I). clear - J.
    induction x as [|y x IH]; [auto|]. cbn [Model_Text.drop_while] in J. destruct (Ascii.eqb "!" y); [right; auto|exact J].
  - apply in_map_iff in I as [[k v] [<- I]]. rewrite Forall_forall in S1. destruct (S1 _ I) as [K1 K2]. cbn [fst snd] in *.
    split; [|intros g; cbn [chars list_ascii_of_string app]; apply unmarked_start, bang].
    intros J. apply in_app_iff in J as [J|J]; [revert J; now apply not_inb|]. apply in_app_iff in J as [J|J]; [now apply K1|].
    apply in_app_iff in J as [J|J]; [revert J; now apply not_inb|now apply K2].
  - split.
    + apply join_one_line; [now apply not_inb|]. intros h J. apply in_flat_map in J as [x [Ix J]]. apply (head_one_line V x (PE x Ix) h J).
    + intros g. cbn [flat_map]. unfold Model_Spdata.sp_head at 1. rewrite ED. cbn [app].
      destruct (join_head [tab] (Model_Spdata.padhead (Model_Spdata.unit_header (Model_Spdata.c_name c) (Model_Spdata.c_unit c)) (Model_Spdata.c_width c)) (flat_map Model_Spdata.sp_head es)) as [r E].
      assert (Q : exists q, join [tab] (Model_Spdata.padhead (Model_Spdata.unit_header (Model_Spdata.c_name c) (Model_Spdata.c_unit c)) (Model_Spdata.c_width c) :: flat_map Model_Spdata.sp_head es) ++ [newline]
                  = Model_Spdata.c_name c ++ q /\ forall x q', q = x :: q' -> In x whites).
      { assert (J : exists q, join [tab] (Model_Spdata.padhead (Model_Spdata.unit_header (Model_Spdata.c_name c) (Model_Spdata.c_unit c)) (Model_Spdata.c_width c) :: flat_map Model_Spdata.sp_head es)
                  = Model_Spdata.padhead (Model_Spdata.unit_header (Model_Spdata.c_name c) (Model_Spdata.c_unit c)) (Model_Spdata.c_width c) ++ q /\ forall x q', q = x :: q' -> In x whites).
        { destruct (flat_map Model_Spdata.sp_head es) as [|h hs]; [exists []; split; [cbn; now rewrite app_nil_r|discriminate]|].
          exists (tab :: join [tab] (h :: hs)). split; [reflexivity|]. intros x q' Eq. injection Eq as <- _. cbn; tauto. }
        destruct J as [q [-> Hq]]. unfold Model_Spdata.padhead, Model_Spdata.unit_header.
        destruct (Model_Spdata.c_unit c) as [|u us].
        - match goal with |- context [repeat " " ?n] => set (k := n) end. eexists. split; [rewrite <- !app_assoc; reflexivity|].
          intros x q' Eq. destruct k as [|k]; [|injection Eq as <- _; cbn; tauto]. cbn [repeat app] in Eq. destruct q as [|y q]; [injection Eq as <- _; cbn; tauto|].
          injection Eq as <- _. apply (Hq y q); auto.
        - match goal with |- context [repeat " " ?n] => set (k := n) end. eexists. split; [rewrite <- !app_assoc; reflexivity|].
          intros x q' Eq. cbn in Eq. injection Eq as <- _. cbn; tauto. }
      destruct Q as [q [-> Hq]]. apply named_unmarked; auto.
  - apply in_map_iff in I as [k [<- I]]. split.
    + apply join_one_line; [now apply not_inb|]. intros h J. apply in_flat_map in J as [x [Ix J]]. apply (cells_one_line V x (PE x Ix) k h J).
    + intros g. cbn [flat_map]. unfold Model_Spdata.sp_cells at 1. rewrite ED. cbn [app].
      destruct (join_head [tab] (Model_Spdata.c_print c (f k)) (flat_map (Model_Spdata.sp_cells k) es)) as [r ->].
      destruct (NU (f k)) as [_ [x [r' [-> Ix]]]]. cbn [app]. apply unmarked_start. now apply numeral_start.
Qed.
Theorem C71_spdata : forall V (bs : list (Model_Spdata.sp_out V)), Forall plain_out bs -> guess false (lines_of (text_of (Model_Spdata.sp_save bs))) = ReadSpdata.
Proof.
  intros V bs F.
  assert (Q : forall l, In l (Model_Spdata.sp_save bs) -> one_line l /\ forall g, ~ mark False g (l ++ [newline])).
  { induction F as [|o bs P F IH]; [intros l []|]. intros l I. destruct bs as [|o' bs]; [exact (sp_format_lines V o P l I)|].
    change (In l (Model_Spdata.sp_format (Model_Spdata.o_comments o) (Model_Spdata.o_sweepvars o) (Model_Spdata.o_points o) (Model_Spdata.o_cols o) ++ [[]] ++ Model_Spdata.sp_save (o' :: bs))) in I.
    apply in_app_iff in I as [I|I]; [exact (sp_format_lines V o P l I)|]. apply in_app_iff in I as [[<-|[]]|I]; [|now apply IH].
    split; [intros []|]. intros g M. destruct (mark_starts _ _ M) as [c [Ic K]]. inversion K as [b c' r B C E E']. destruct b as [|x b].
    - cbn [app] in E. injection E as E1 E2. apply C. rewrite <- E', E1. cbn; tauto.
    - cbn [app] in E. injection E as E1 E2. destruct b; discriminate E2. }
  rewrite lines_of_text by (intros l I; apply Q; auto). apply guess_unmarked. intros l g I. apply in_map_iff in I as [m [<- I]]. now apply Q.
Qed.
Print Assumptions C71_spdata.
Example C71_ex_spdata :
  let o := Model_Spdata.Build_sp_out (V := nat) [txt "VAR a(real)"] [(txt "Vgs", txt "1")] 2
    [Model_Spdata.Build_sp_col (V := nat) (txt "Vds") (txt "V") 9 (fun _ => txt "1.0") (Model_Spdata.Real (fun k => k));
     Model_Spdata.Build_sp_col (V := nat) (txt "S") [] 9 (fun _ => txt "1.0") (Model_Spdata.MCplx 2 2 (fun k i j => (i, j)))] in
  plain_out o /\ guess false (lines_of (text_of (Model_Spdata.sp_save [o; o]))) = ReadSpdata.
Proof.
  cbv zeta. split; [|vm_compute; reflexivity]. split; [repeat constructor; now apply not_inb|]. split; [repeat constructor; now apply not_inb|].
  eexists _, _, _. split; [reflexivity|]. split; [reflexivity|]. split; [|split].
  - split; [now apply not_inb|]. split; [exists "V", (txt "ds"); split; [reflexivity|now apply not_inb]|].
    intros w r [<-|[<-|[<-|[]]]] E; discriminate E.
  - intros x. split; [now apply not_inb|]. exists "1", (txt ".0"). split; [reflexivity|cbn; tauto].
  - repeat (apply Forall_cons || apply Forall_nil); (split; [now apply not_inb|split; [now apply not_inb|intros x; now apply not_inb]]).
Qed.
