(** C41: MDIF files. *)
From Coq Require Import Ascii String List Arith ZArith Bool Lia.
From Verif Require Import Model_NdArray Model_Text Model_Words Model_Spdata Model_Stream Model_Mdif Spec_TsText Spec_Mdif
  Proofs_Text Proofs_Words Proofs_TsText Prop_TsText Prop_Spdata Prop_Stream.
Import ListNotations.
Local Open Scope string_scope.
Local Open Scope nat_scope.
Local Open Scope list_scope.

(** *** Grouping *)
Definition lead (tags : list string) (l : list (string * list ascii)) : Prop := exists k ks, l = k :: ks /\ In (fst k) tags.

(** ManyOptional on tokens which begin like a run of lines with the tag and [l],
    where [more] is missing: it comes to the end or gives the run. *)
Lemma many_md : forall {W} tag (f : list ascii -> W) ls l more ts tags, lead tags l -> ~ In tag tags ->
  map mkind ts ++ more = tagged_as tag ls ++ l ->
  (many_optional _ _ tag f ts = (Err StopIter, []) /\ more <> []) \/
  (exists vs, many_optional _ _ tag f ts = (Ok vs, []) /\ more <> []) \/
  (exists ts', many_optional _ _ tag f ts = (Ok (map f ls), ts') /\ ts' <> [] /\ map mkind ts' ++ more = l).
Proof.
  intros W tag f ls l more ts tags [k [ks [-> I]]] N E. destruct ts as [|t ts]; [left; split; [reflexivity|]; cbn [map app] in E; rewrite E; destruct ls; discriminate|]. right.
  destruct (C42_many (list ascii) W tag f (t :: ts) ltac:(discriminate)) as [pre [rest [H1 [H2 [H3 H4]]]]]. rewrite H1 in E. rewrite H4. clear H1 H4.
  revert ls E. induction H2 as [|p pre P F IH]; intros ls E.
  - cbn [app map] in *. destruct rest as [|t' r].
    + left. exists []. split; auto. cbn [map app] in E. rewrite E. destruct ls; discriminate.
    + right. exists (t' :: r). destruct ls as [|x ls].
      * split; [reflexivity|]. split; [discriminate|exact E].
      * exfalso. cbn [map app tagged_as] in E. injection E as E1 _. eapply H3; [reflexivity|]. unfold tagged. now rewrite <- E1 || (unfold mkind in E1; congruence).
  - cbn [app map] in E |- *. destruct ls as [|x ls].
    + cbn [tagged_as map app] in E. exfalso. injection E as E1 _. apply N. rewrite <- E1 in I. unfold tagged in P. cbn [fst mkind] in I. rewrite P in I. exact I.
    + cbn [tagged_as map app] in E. injection E as E1 E2 E3. destruct (IH ls E3) as [[vs [K1 K2]]|[ts' [K1 [K2 K3]]]].
      * left. injection K1 as -> ->. eexists. split; [reflexivity|exact K2].
      * right. injection K1 as K1 ->. exists ts'. cbn [map]. rewrite E2, K1. auto.
Qed.
Lemma one_md : forall tag x l more ts, map mkind ts ++ more = (tag, x) :: l ->
  (ts = [] /\ more <> []) \/ exists ts', one _ (list ascii) tag (fun x => x) ts = (Ok [x], ts') /\ map mkind ts' ++ more = l.
Proof.
  intros tag x l more ts E. destruct ts as [|t ts]; [left; split; auto; cbn [map app] in E; rewrite E; discriminate|right]. cbn [map app] in E. injection E as E1 E2 E3. exists ts. split; [|exact E3].
  unfold one, one_of. cbn [s_next existsb]. rewrite E1, String.eqb_refl. cbn [orb]. now rewrite E2.
Qed.

Definition cook (r : lines_of_group) : mgroup :=
  mkGroup (l_comments r) (map split_eq (l_vars r)) (l_name r) (map split_eq (l_attribs r)) (map words (l_headers r)) (l_data r).
Lemma lead_tagged : forall tag ls l tags, In tag tags -> lead tags l -> lead tags (tagged_as tag ls ++ l).
Proof. intros tag ls l tags I H. destruct ls as [|x ls]; [exact H|]. exists (tag, x), (tagged_as tag ls ++ l). split; auto. Qed.
Lemma lead_weak : forall t1 t2 l, incl t1 t2 -> lead t1 l -> lead t2 l.
Proof. intros t1 t2 l I [k [ks [E K]]]. exists k, ks. split; auto. Qed.
Ltac not_in := cbn; intuition discriminate.

Lemma group_run : forall r rest more ts, map mkind ts ++ more = group_kinds r ++ rest ->
  (exists s, md_group ts = (Err StopIter, s) /\ more <> []) \/ (exists ts', md_group ts = (Ok (cook r), ts') /\ map mkind ts' ++ more = rest).
Proof.
  intros r rest more ts E. unfold group_kinds in E. repeat rewrite <- app_assoc in E. unfold md_group.
  set (L5 := [("END", l_end r)] ++ rest) in E. assert (D5 : lead ["END"] L5) by (eexists; eexists; split; [reflexivity|cbn; auto]).
  set (L4 := tagged_as "DATA" (l_data r) ++ L5) in E. assert (D4 : lead ["DATA"; "END"] L4) by (apply lead_tagged; [cbn; auto|]; eapply lead_weak; [|exact D5]; intros x [<-|[]]; cbn; auto).
  set (L3 := tagged_as "HEADER" (l_headers r) ++ L4) in E. assert (D3 : lead ["HEADER"; "DATA"; "END"] L3) by (apply lead_tagged; [cbn; auto|]; eapply lead_weak; [|exact D4]; intros x K; cbn in *; tauto).
  set (L2 := [("BEGIN", l_name r)] ++ tagged_as "ATTRIB" (l_attribs r) ++ L3) in E. assert (D2 : lead ["BEGIN"] L2) by (eexists; eexists; split; [reflexivity|cbn; auto]).
  assert (D1 : lead ["VAR"; "BEGIN"] (tagged_as "VAR" (l_vars r) ++ L2)) by (apply lead_tagged; [cbn; auto|]; eapply lead_weak; [|exact D2]; intros x K; cbn in *; tauto).
  destruct (many_md "COMMENT" (fun x => x) _ _ _ _ _ D1 ltac:(not_in) E) as [[K M]|[[vs [K M]]|[t1 [K [N1 E1]]]]]; rewrite K; cbn [mbind]; [left; eauto|left; eexists; split; [reflexivity|exact M]|].
  destruct (many_md "VAR" split_eq _ _ _ _ _ D2 ltac:(not_in) E1) as [[K2 M]|[[vs [K2 M]]|[t2 [K2 [N2 E2]]]]]; rewrite K2; cbn [mbind]; [left; eauto|left; eexists; split; [reflexivity|exact M]|].
  unfold L2 in E2. cbn [app] in E2. destruct (one_md _ _ _ _ _ E2) as [[K3 M]|[t3 [K3 E3]]]; [contradiction|]. rewrite K3. cbn [mbind].
  destruct (many_md "ATTRIB" split_eq _ _ _ _ _ D3 ltac:(not_in) E3) as [[K4 M]|[[vs [K4 M]]|[t4 [K4 [N4 E4]]]]]; rewrite K4; cbn [mbind]; [left; eauto|left; eexists; split; [reflexivity|exact M]|].
  unfold L3 in E4. destruct (many_md "HEADER" words _ _ _ _ _ D4 ltac:(not_in) E4) as [[K5 M]|[[vs [K5 M]]|[t5 [K5 [N5 E5]]]]]; rewrite K5; cbn [mbind]; [left; eauto|left; eexists; split; [reflexivity|exact M]|].
  unfold L4 in E5. destruct (many_md "DATA" (fun x => x) _ _ _ _ _ D5 ltac:(not_in) E5) as [[K6 M]|[[vs [K6 M]]|[t6 [K6 [N6 E6]]]]]; rewrite K6; cbn [mbind]; [left; eauto|left; eexists; split; [reflexivity|exact M]|].
  unfold L5 in E6. cbn [app] in E6. destruct (one_md _ _ _ _ _ E6) as [[K7 M]|[t7 [K7 E7]]]; [contradiction|]. rewrite K7. cbn [mbind hd]. right. exists t7. split; [|exact E7].
  unfold cook. now rewrite !map_id.
Qed.

Lemma many_inv : forall {W} tag (f : list ascii -> W) ts r ts', many_optional _ _ tag f ts = (r, ts') ->
  (r = Err StopIter /\ ts = [] /\ ts' = []) \/ (exists ls, r = Ok (map f ls) /\ map mkind ts = tagged_as tag ls ++ map mkind ts').
Proof.
  intros W tag f ts r ts' H. destruct ts as [|t ts]; [left; cbn in H; injection H as <- <-; auto|right].
  destruct (C42_many (list ascii) W tag f (t :: ts) ltac:(discriminate)) as [pre [rest [H1 [H2 [_ H4]]]]]. rewrite H4 in H. injection H as <- <-. exists (map (@t_rad _) pre). rewrite map_map. split; [reflexivity|].
  rewrite H1, map_app. f_equal. clear - H2. induction H2 as [|p pre P F IH]; auto. cbn [map tagged_as]. rewrite IH. unfold tagged in P. unfold mkind. now rewrite P.
Qed.
Lemma one_inv : forall tag ts r ts', one _ (list ascii) tag (fun x => x) ts = (r, ts') ->
  (r = Err StopIter /\ ts = []) \/ (exists x, r = Ok [x] /\ map mkind ts = (tag, x) :: map mkind ts') \/ (exists k l, r = Err GenericError /\ map mkind ts = k :: l /\ fst k <> tag).
Proof.
  intros tag ts r ts' H. destruct (C42_one_of (list ascii) (list ascii) [tag] (fun x => x) ts) as [[-> K]|[t [s [-> [[I K]|[I K]]]]]]; unfold one in H; rewrite K in H; injection H as <- <-.
  - left. auto.
  - right. left. exists (t_rad t). split; auto. destruct I as [I|[]]. cbn [map]. unfold mkind at 1. now rewrite <- I.
  - right. right. exists (mkind t), (map mkind s). split; auto. split; auto. intros X. apply I. left. symmetry. exact X.
Qed.

Lemma group_inv : forall ts r s, md_group ts = (r, s) ->
  (exists g, r = Ok (cook g) /\ map mkind ts = group_kinds g ++ map mkind s) \/ (r = Err StopIter /\ unfinished (map mkind ts)) \/ r = Err GenericError.
Proof.
  intros ts r s H. unfold md_group in H.
  assert (UN : forall c v a h d, forall x : list ascii, unfinished (tagged_as "COMMENT" c ++ tagged_as "VAR" v ++ [("BEGIN", x)] ++ tagged_as "ATTRIB" a ++ tagged_as "HEADER" h ++ tagged_as "DATA" d)).
  { intros c v a h d x. exists (mkLines c v x a h d []), [("END", [])]. split; [discriminate|]. unfold group_kinds. cbn [l_comments l_vars l_name l_attribs l_headers l_data l_end]. repeat rewrite <- app_assoc. reflexivity. }
  assert (UV : forall c v, unfinished (tagged_as "COMMENT" c ++ tagged_as "VAR" v)).
  { intros c v. exists (mkLines c v [] [] [] [] []), [("BEGIN", []); ("END", [])]. split; [discriminate|]. unfold group_kinds. cbn [l_comments l_vars l_name l_attribs l_headers l_data l_end]. repeat rewrite <- app_assoc. reflexivity. }
  destruct (many_optional _ _ "COMMENT" (fun x => x) ts) as [r1 t1] eqn:K1. destruct (many_inv _ _ _ _ _ K1) as [[-> [-> ->]]|[c [-> E1]]]; cbn [mbind] in H.
  { injection H as <- <-. right. left. split; auto. exact (UV [] []). }
  destruct (many_optional _ _ "VAR" split_eq t1) as [r2 t2] eqn:K2. destruct (many_inv _ _ _ _ _ K2) as [[-> [-> ->]]|[v [-> E2]]]; cbn [mbind] in H.
  { injection H as <- <-. right. left. split; auto. rewrite E1. exact (UV c []). }
  destruct (one _ (list ascii) "BEGIN" (fun x => x) t2) as [r3 t3] eqn:K3. destruct (one_inv _ _ _ _ K3) as [[-> ->]|[[x [-> E3]]|[k [l [-> _]]]]]; cbn [mbind] in H.
  { injection H as <- <-. right. left. split; auto. rewrite E1, E2. cbn [map]. rewrite app_nil_r. exact (UV c v). }
  2:{ injection H as <- <-. auto. }
  destruct (many_optional _ _ "ATTRIB" split_eq t3) as [r4 t4] eqn:K4. destruct (many_inv _ _ _ _ _ K4) as [[-> [-> ->]]|[a [-> E4]]]; cbn [mbind] in H.
  { injection H as <- <-. right. left. split; auto. rewrite E1, E2, E3. exact (UN c v [] [] [] x). }
  destruct (many_optional _ _ "HEADER" words t4) as [r5 t5] eqn:K5. destruct (many_inv _ _ _ _ _ K5) as [[-> [-> ->]]|[h [-> E5]]]; cbn [mbind] in H.
  { injection H as <- <-. right. left. split; auto. rewrite E1, E2, E3, E4. exact (UN c v a [] [] x). }
  destruct (many_optional _ _ "DATA" (fun x => x) t5) as [r6 t6] eqn:K6. destruct (many_inv _ _ _ _ _ K6) as [[-> [-> ->]]|[d [-> E6]]]; cbn [mbind] in H.
  { injection H as <- <-. right. left. split; auto. rewrite E1, E2, E3, E4, E5. generalize (UN c v a h [] x). cbn [tagged_as map app]. auto. }
  destruct (one _ (list ascii) "END" (fun x => x) t6) as [r7 t7] eqn:K7. destruct (one_inv _ _ _ _ K7) as [[-> ->]|[[y [-> E7]]|[k [l [-> _]]]]]; cbn [mbind] in H.
  { injection H as <- <-. right. left. split; auto. rewrite E1, E2, E3, E4, E5, E6. cbn [map]. rewrite app_nil_r. exact (UN c v a h d x). }
  2:{ injection H as <- <-. auto. }
  injection H as <- <-. left. exists (mkLines c v x a h d y). unfold cook, group_kinds. cbn [l_comments l_vars l_name l_attribs l_headers l_data l_end hd]. rewrite !map_id. split; [reflexivity|].
  rewrite E1, E2, E3, E4, E5, E6, E7. repeat rewrite <- app_assoc. reflexivity.
Qed.

Lemma group_kinds_long : forall r, 2 <= length (group_kinds r).
Proof. intros r. unfold group_kinds. rewrite !app_length. cbn [length]. lia. Qed.
Lemma groups_spec : forall n ts, length ts < n -> exists rs tail,
  fst (md_groups n ts) = map cook rs /\ map mkind ts = flat_map group_kinds rs ++ tail /\ no_group tail /\
  (snd (md_groups n ts) = StopIter /\ unfinished tail \/ snd (md_groups n ts) = GenericError /\ ~ unfinished tail).
Proof.
  induction n as [|n IH]; intros ts L; [lia|]. cbn [md_groups]. destruct (md_group ts) as [r s] eqn:G. destruct (group_inv _ _ _ G) as [[g [-> E]]|H].
  - assert (LS : length s < n). { apply (f_equal (@length _)) in E. rewrite app_length, !map_length in E. pose proof (group_kinds_long g). lia. }
    destruct (IH s LS) as [rs [tail [H1 [H2 H3]]]]. exists (g :: rs), tail. destruct (md_groups n s) as [gs e]. cbn [fst snd map flat_map] in *. split; [now rewrite H1|]. split; [rewrite E, H2; apply app_assoc|exact H3].
  - assert (NG : no_group (map mkind ts)).
    { intros r' rest K. assert (K' : map mkind ts ++ [] = group_kinds r' ++ rest) by (rewrite app_nil_r; exact K). destruct (group_run r' rest [] ts K') as [[s' [_ X]]|[s' [X _]]]; [congruence|]. rewrite X in G. injection G as <- <-. destruct H as [[H _]|H]; discriminate. }
    exists [], (map mkind ts). destruct H as [[-> U]| ->]; cbn [fst snd map flat_map app]; (split; [reflexivity|]; split; [reflexivity|]; split; [exact NG|]); [left; auto|right; split; auto].
    intros [r' [more [M K]]]. destruct (group_run r' [] more ts) as [[s' [X _]]|[s' [X _]]]; [rewrite app_nil_r; auto|rewrite X in G; discriminate|rewrite X in G; discriminate].
Qed.
Lemma split_on_spec : forall c l, split_on c l <> [] /\ l = join [c] (split_on c l) /\ Forall (fun s => ~ In c s) (split_on c l).
Proof.
  intros c l. induction l as [|x l [N [E F]]]; [split; [discriminate|]; split; [reflexivity|repeat constructor; auto]|]. cbn [split_on]. destruct (Ascii.eqb_spec x c) as [->|NE].
  - split; [discriminate|]. split; [|constructor; auto]. destruct (split_on c l) as [|s ss] eqn:ES; [congruence|]. change (join [c] ([] :: s :: ss)) with (c :: join [c] (s :: ss)). now rewrite <- E.
  - destruct (split_on c l) as [|s ss] eqn:ES; [congruence|]. split; [discriminate|]. apply Forall_cons_iff in F as [F1 F2]. split; [|constructor; auto; intros [K|K]; [congruence|auto]].
    rewrite E at 1. destruct ss as [|s' ss]; reflexivity.
Qed.
Lemma pieces_split : forall l, pieces l (split_eq l).
Proof.
  intros l. destruct (split_on_spec "=" l) as [N [E F]]. exists (split_on "=" l). split; [exact N|]. split; [exact E|]. split; [exact F|]. unfold split_eq.
  induction (split_on "=" l) as [|x xs IH] in |- *; constructor; [apply trim_exists|exact IH].
Qed.
Lemma cook_group : forall r, group_of r (cook r).
Proof.
  intros r. unfold group_of, cook. cbn [g_comments g_vars g_name g_attribs g_header g_data]. split; [reflexivity|]. split; [induction (l_vars r); constructor; auto using pieces_split|]. split; [reflexivity|].
  split; [induction (l_attribs r); constructor; auto using pieces_split|]. split; [|reflexivity]. induction (l_headers r); constructor; auto using words_spaced.
Qed.

(** The tokens are taken apart into complete groups and a rest which does not begin
    with one; there is one block for each group, in order, with all its lines; and
    the reader stops without error exactly if the rest is the beginning of a group
    (or empty). *)
Theorem C41_groups : forall ts gs e, md_blocks ts = (gs, e) -> exists rs tail,
  map mkind ts = flat_map group_kinds rs ++ tail /\ no_group tail /\ Forall2 group_of rs gs /\
  (e = StopIter /\ unfinished tail \/ e = GenericError /\ ~ unfinished tail).
Proof.
  intros ts gs e H. unfold md_blocks in H. destruct (groups_spec (S (length ts)) ts) as [rs [tail [H1 [H2 [H3 H4]]]]]; [lia|]. rewrite H in *. cbn [fst snd] in *. exists rs, tail. split; [exact H2|]. split; [exact H3|]. split; [|exact H4].
  rewrite H1. clear. induction rs; constructor; auto using cook_group.
Qed.
Print Assumptions C41_groups.

(** There is only one way to take tokens apart. *)
Lemma groups_unique : forall rs rs' tail tail', flat_map group_kinds rs ++ tail = flat_map group_kinds rs' ++ tail' -> no_group tail -> no_group tail' -> map cook rs = map cook rs' /\ tail = tail'.
Proof.
  assert (ML : forall ks, exists ts : list mtoken, map mkind ts = ks) by (intros ks; exists (map (fun k => mkTok (fst k) 0 (snd k)) ks); rewrite map_map; rewrite <- (map_id ks) at 2; apply map_ext; intros [a b]; reflexivity).
  induction rs as [|r rs IH]; intros rs' tail tail' E N N'.
  - destruct rs' as [|r' rs']; [auto|]. exfalso. cbn [flat_map app] in E. rewrite <- app_assoc in E. eapply N. exact E.
  - destruct rs' as [|r' rs']; [exfalso; cbn [flat_map app] in E; rewrite <- app_assoc in E; eapply N'; symmetry; exact E|].
    cbn [flat_map] in E. rewrite <- !app_assoc in E. destruct (ML (group_kinds r ++ flat_map group_kinds rs ++ tail)) as [ts HT].
    destruct (group_run r (flat_map group_kinds rs ++ tail) [] ts) as [[s [_ X]]|[s1 [X1 Y1]]]; [rewrite app_nil_r; exact HT|congruence|]. destruct (group_run r' (flat_map group_kinds rs' ++ tail') [] ts) as [[s [_ X]]|[s2 [X2 Y2]]]; [rewrite app_nil_r, HT; exact E|congruence|].
    rewrite X1 in X2. injection X2 as HC1 HC2 HC3 HC4 HC5 HC6 HS. subst s2. rewrite Y1 in Y2. destruct (IH rs' tail tail' Y2 N N') as [H1 H2]. split; [|exact H2]. cbn [map]. rewrite H1. f_equal. unfold cook. congruence.
Qed.
(** So complete groups one after another are all found, whatever unfinished lines
    follow. *)
Theorem C41_complete : forall rs tail ts, map mkind ts = flat_map group_kinds rs ++ tail -> no_group tail ->
  length (fst (md_blocks ts)) = length rs /\ Forall2 group_of rs (fst (md_blocks ts)).
Proof.
  intros rs tail ts E N. unfold md_blocks. destruct (groups_spec (S (length ts)) ts) as [rs' [tail' [H1 [H2 [H3 _]]]]]; [lia|]. rewrite H1. rewrite E in H2. destruct (groups_unique _ _ _ _ H2 N H3) as [K _]. rewrite <- K. split; [apply map_length|].
  clear. induction rs; constructor; auto using cook_group.
Qed.
Print Assumptions C41_complete.

(** *** Attributes *)
Section Data.
Context {V : Type} (float : list ascii -> result V).

Lemma spaces_not : forall b c, spaces b -> is_space c = false -> ~ In c b.
Proof. intros b c B N I. apply B in I. congruence. Qed.
Lemma strip_mid : forall a t b x l y m, spaces a -> spaces b -> t = x :: l -> is_space x = false -> t = m ++ [y] -> is_space y = false -> strip (a ++ t ++ b) = t.
Proof. intros a t b x l y m A B E1 X E2 Y. apply strip_trimmed_of. exists a, b. split; [auto|]. split; [exact A|]. split; [exact B|]. right. split; [exists x, l; auto|exists y, m; auto]. Qed.
(** A line that assigns a value to a name gives the name and the value. *)
Theorem C41_attribute : forall l name v, assigns float l name v -> proc_var float (split_eq l) = Ok (name, v).
Proof.
  intros l name v [b0 [pre [b1 [b2 [value [b3 [-> [B0 [B1 [B2 [B3 [HP [HN [[c [r [EN NC]]] [HV [VN HF]]]]]]]]]]]]]]]].
  set (key := pre ++ name ++ chars "(real)").
  assert (EL : b0 ++ pre ++ name ++ chars "(real)" ++ b1 ++ "="%char :: b2 ++ value ++ b3 = (b0 ++ key ++ b1) ++ "="%char :: (b2 ++ value ++ b3)) by (unfold key; rewrite <- !app_assoc; reflexivity).
  assert (PE : ~ In "="%char pre) by (destruct HP as [-> |[-> _]]; cbn; intuition discriminate).
  assert (PP : ~ In "("%char pre) by (destruct HP as [-> |[-> _]]; cbn; intuition discriminate).
  assert (KE : ~ In "="%char key).
  { unfold key. intros I. apply in_app_or in I as [I|I]; [auto|]. apply in_app_or in I as [I|I]; [destruct (HN _ I); auto|]. cbn in I. intuition discriminate. }
  rewrite EL. unfold split_eq. rewrite split_on_app.
  2:{ intros I. apply in_app_or in I as [I|I]; [exact (spaces_not b0 "="%char B0 eq_refl I)|]. apply in_app_or in I as [I|I]; [auto|exact (spaces_not b1 "="%char B1 eq_refl I)]. }
  rewrite split_on_none.
  2:{ intros I. apply in_app_or in I as [I|I]; [exact (spaces_not b2 "="%char B2 eq_refl I)|]. apply in_app_or in I as [I|I]; [destruct (HV _ I); auto|exact (spaces_not b3 "="%char B3 eq_refl I)]. }
  cbn [map].
  assert (K1 : strip (b0 ++ key ++ b1) = key).
  { assert (H : exists x l0, key = x :: l0 /\ is_space x = false). { unfold key. destruct HP as [-> |[-> _]]; [eexists; eexists; split; reflexivity|]. rewrite EN. cbn [app]. eexists; eexists; split; [reflexivity|exact NC]. }
    destruct H as [x [l0 [H1 H2]]]. eapply (strip_mid b0 key b1 x l0 ")"%char (pre ++ name ++ chars "(real")); auto. unfold key. rewrite <- !app_assoc. reflexivity. }
  assert (K2 : strip (b2 ++ value ++ b3) = value).
  { destruct value as [|x l0]; [congruence|]. destruct (exists_last (l := x :: l0) ltac:(discriminate)) as [m [y EY]]. eapply (strip_mid b2 (x :: l0) b3 x l0 y m); auto; [apply HV; left; auto|]. apply HV. rewrite EY. apply in_or_app. right; left; auto. }
  rewrite K1, K2. cbn [proc_var].
  assert (K3 : split_on "(" key = [pre ++ name; chars "real)"]).
  { unfold key. rewrite app_assoc. change (chars "(real)") with ("("%char :: chars "real)"). rewrite split_on_app; [reflexivity|]. intros I. apply in_app_or in I as [I|I]; [auto|]. destruct (HN _ I); auto. }
  rewrite K3. change (eqb_chars (strip_char ")" (chars "real)")) (chars "real")) with true. cbn iota. rewrite HF. cbn [bind].
  destruct HP as [-> |[-> HS]].
  - rewrite starts_with_app. reflexivity.
  - cbn [app]. rewrite HS. reflexivity.
Qed.

(** *** Headers and values *)
Lemma scan_none : forall l pre, ~ In "("%char l -> scan_head pre l = None.
Proof.
  induction l as [|c l IH]; intros pre N; auto. cbn [scan_head]. rewrite IH by (intros I; apply N; right; auto).
  assert (T : type_at (c :: l) = None). { unfold type_at. assert (F : forall p, starts_with ("("%char :: p) (c :: l) = false) by (intros p; cbn [starts_with]; destruct (Ascii.eqb_spec "(" c) as [E|]; [exfalso; apply N; left; auto|reflexivity]). unfold chars. cbn [list_ascii_of_string]. now rewrite !F. }
  rewrite T. destruct pre; reflexivity.
Qed.
Lemma scan_here : forall t pre, pre <> [] -> scan_head pre (chars "(" ++ chars (type_name t) ++ chars ")") = Some (pre, t).
Proof.
  intros t pre N. cbn [chars list_ascii_of_string app scan_head]. rewrite scan_none by (destruct t; cbn; intuition discriminate). destruct pre as [|x pre]; [congruence|]. destruct t; reflexivity.
Qed.
Lemma scan_name_ok : forall t n pre, (pre <> [] \/ n <> []) -> scan_head pre (n ++ chars "(" ++ chars (type_name t) ++ chars ")") = Some (pre ++ n, t).
Proof.
  intros t n. induction n as [|c n IH]; intros pre N.
  - rewrite app_nil_r. cbn [app]. apply scan_here. destruct N; congruence.
  - change ((c :: n) ++ chars "(" ++ chars (type_name t) ++ chars ")") with (c :: (n ++ chars "(" ++ chars (type_name t) ++ chars ")")). cbn [scan_head]. rewrite IH; [now rewrite <- app_assoc|]. left. destruct pre; discriminate.
Qed.
Lemma head_ok : forall h p, head_of h p -> parse_header h = Ok p.
Proof. intros h [t n] [-> [N _]]. unfold parse_header. cbn [fst snd]. rewrite scan_name_ok by (right; exact N). reflexivity. Qed.

Lemma drop_all : forall {X} (f : X -> bool) a l, (forall x, In x a -> f x = true) -> drop_while f (a ++ l) = drop_while f l.
Proof. intros X f a l H. induction a as [|x a IH]; auto. cbn [app drop_while]. rewrite H by (left; auto). apply IH. intros y I. apply H. right; auto. Qed.
Lemma unquote_ok : forall w u, quoted w u -> unquote w = u.
Proof.
  intros w u [a [b [-> [Q H]]]]. unfold unquote. set (f := fun c => Ascii.eqb c quote). assert (QF : forall c, c = quote -> f c = true) by (intros c ->; reflexivity).
  assert (QN : forall c, c <> quote -> f c = false) by (intros c N; unfold f; destruct (Ascii.eqb_spec c quote); congruence).
  rewrite drop_all by (intros x I; apply QF, Q; apply in_or_app; left; auto). destruct H as [[-> ->]|[[c [r [E N]]] [d [s [E' N']]]]].
  - reflexivity.
  - assert (D1 : drop_while f (u ++ b) = u ++ b) by (rewrite E; cbn [app drop_while]; now rewrite QN). rewrite D1. rewrite rev_app_distr. rewrite drop_all by (intros x I; apply QF, Q; apply in_or_app; right; now apply in_rev).
    assert (D2 : drop_while f (rev u) = rev u) by (rewrite E', rev_app_distr; cbn [rev app drop_while]; now rewrite QN). rewrite D2. apply rev_involutive.
Qed.
Lemma value_ok : forall t ws v rest, value_of float t ws v rest -> get_value float t ws = Ok (v, rest).
Proof.
  intros t ws v rest H. destruct H as [w u rest Q | w u v rest Q F | w u z rest Q F | w1 u1 w2 u2 v1 v2 rest Q1 Q2 F1 F2]; unfold get_value, get_real; cbn [pop bind fst snd].
  - now rewrite (unquote_ok _ _ Q).
  - now rewrite (unquote_ok _ _ Q), F.
  - now rewrite (unquote_ok _ _ Q), F.
  - rewrite (unquote_ok _ _ Q1), F1. cbn [bind fst snd pop]. now rewrite (unquote_ok _ _ Q2), F2.
Qed.
Lemma line_ok : forall ps ws vs acc, line_values float ps ws vs -> read_words float ps ws acc = Ok (fold_left (fun acc nv => md_add (fst nv) (snd nv) acc) (combine (map snd ps) vs) acc).
Proof.
  intros ps ws vs acc H. revert acc. induction H as [ws|t n ps ws v ws' vs H1 H2 IH]; intros acc; auto. cbn [read_words map snd combine fold_left fst]. rewrite (value_ok _ _ _ _ H1). cbn [bind fst snd]. apply IH.
Qed.
Lemma line_length : forall ps ws vs, line_values float ps ws vs -> length vs = length ps.
Proof. intros ps ws vs H. induction H; cbn; auto. Qed.
Lemma combine_app : forall {A B} (a a' : list A) (b b' : list B), length a = length b -> combine (a ++ a') (b ++ b') = combine a b ++ combine a' b'.
Proof. intros A B. induction a as [|x a IH]; intros a' [|y b] b' L; try discriminate; auto. cbn. f_equal. apply IH. auto. Qed.
Definition adds (acc : list (list ascii * list (mval V))) (nvs : list (list ascii * mval V)) := fold_left (fun acc nv => md_add (fst nv) (snd nv) acc) nvs acc.
Lemma record_ok : forall hs lines vs rest acc, record_values float hs lines vs ->
  read_record float hs (lines ++ rest) acc = Ok (adds acc (combine (map snd (concat hs)) vs), rest) /\ length vs = length (concat hs).
Proof.
  intros hs lines vs rest acc [vss [-> [F L]]]. revert lines vss acc F L. induction hs as [|h hs IH]; intros [|l lines] vss acc F L; try discriminate.
  - cbn [combine] in F. inversion F; subst. split; reflexivity.
  - cbn [combine] in F. inversion F as [|x vs xs vss' [ws [S0 HL]] F']; subst. cbn [fst snd] in *. cbn [app read_record]. rewrite (spaced_words _ _ S0). rewrite (line_ok _ _ _ _ HL). cbn [bind].
    destruct (IH lines vss' (fold_left (fun acc nv => md_add (fst nv) (snd nv) acc) (combine (map snd h) vs) acc) F' ltac:(auto)) as [H1 H2]. rewrite H1. cbn [concat]. rewrite map_app. split.
    + f_equal. f_equal. unfold adds. rewrite combine_app by (rewrite map_length; symmetry; eapply line_length; exact HL). now rewrite fold_left_app.
    + rewrite !app_length, H2. f_equal. eapply line_length. exact HL.
Qed.

Lemma add_new : forall n v (P : list (list ascii * list (mval V))), ~ In n (map fst P) -> md_add n v P = P ++ [(n, [v])].
Proof.
  intros n v P. induction P as [|[m w] P IH]; intros N; auto. cbn [md_add]. destruct (eqb_chars m n) eqn:E; [apply eqb_chars_spec in E; exfalso; apply N; left; auto|].
  cbn [app]. rewrite IH; auto. intros K. apply N. right; auto.
Qed.
Lemma add_old : forall n v c (P R : list (list ascii * list (mval V))), ~ In n (map fst P) -> md_add n v (P ++ (n, c) :: R) = P ++ (n, c ++ [v]) :: R.
Proof.
  intros n v c P R. induction P as [|[m w] P IH]; intros N.
  - cbn [app md_add]. now rewrite eqb_chars_refl.
  - cbn [app md_add]. destruct (eqb_chars m n) eqn:E; [apply eqb_chars_spec in E; exfalso; apply N; left; auto|]. f_equal. apply IH. intros K. apply N. right; auto.
Qed.
Lemma adds_first : forall ns vs P, length vs = length ns -> NoDup (map fst P ++ ns) -> adds P (combine ns vs) = P ++ combine ns (map (fun v => [v]) vs).
Proof.
  induction ns as [|n ns IH]; intros [|v vs] P L N; try discriminate; [cbn; now rewrite app_nil_r|]. cbn [combine map]. unfold adds. cbn [fold_left fst snd]. rewrite add_new.
  - fold (adds (P ++ [(n, [v])]) (combine ns vs)). rewrite IH; [now rewrite <- app_assoc|auto|]. rewrite map_app. cbn [map fst]. rewrite <- app_assoc. exact N.
  - apply NoDup_remove_2 in N. intros I. apply N. apply in_or_app. left; auto.
Qed.
Definition snocs (cols : list (list (mval V))) (vs : list (mval V)) : list (list (mval V)) := map (fun p => fst p ++ [snd p]) (combine cols vs).
Lemma adds_next : forall ns vs cols P, length vs = length ns -> length cols = length ns -> NoDup (map fst P ++ ns) ->
  adds (P ++ combine ns cols) (combine ns vs) = P ++ combine ns (snocs cols vs).
Proof.
  induction ns as [|n ns IH]; intros [|v vs] [|c cols] P L L' N; try discriminate; [cbn; now rewrite app_nil_r|]. cbn [combine map]. unfold adds. cbn [fold_left fst snd]. rewrite add_old.
  - change (P ++ (n, c ++ [v]) :: combine ns cols) with (P ++ ([(n, c ++ [v])] ++ combine ns cols)). rewrite app_assoc. fold (adds ((P ++ [(n, c ++ [v])]) ++ combine ns cols) (combine ns vs)). rewrite IH; [rewrite <- app_assoc; reflexivity|auto|auto|]. rewrite map_app. cbn [map fst]. rewrite <- app_assoc. exact N.
  - apply NoDup_remove_2 in N. intros I. apply N. apply in_or_app. left; auto.
Qed.
(** The columns of the records read so far. *)
Definition columns (m : nat) (rows : list (list (mval V))) (cols : list (list (mval V))) : Prop :=
  length cols = m /\ forall i col, nth_error cols i = Some col -> length col = length rows /\
    forall k vs, nth_error rows k = Some vs -> nth_error col k = nth_error vs i.
Lemma columns_first : forall vs m, length vs = m -> columns m [vs] (map (fun v => [v]) vs).
Proof.
  intros vs m L. split; [now rewrite map_length|]. intros i col H. rewrite nth_error_map in H. destruct (nth_error vs i) as [v|] eqn:E; [|discriminate]. injection H as <-. split; [reflexivity|].
  intros [|k] w K; cbn in K; [injection K as <-; cbn; auto|destruct k; discriminate].
Qed.
Lemma nth_combine : forall {A B} (a : list A) (b : list B) i, nth_error (combine a b) i = match nth_error a i, nth_error b i with Some x, Some y => Some (x, y) | _, _ => None end.
Proof.
  intros A B. induction a as [|x a IH]; intros b i; [destruct i; reflexivity|]. destruct b as [|y b]; [cbn; destruct i; cbn; [reflexivity|destruct (nth_error a i); reflexivity]|]. destruct i; cbn; auto.
Qed.
Lemma columns_next : forall m rows cols vs, columns m rows cols -> length vs = m -> columns m (rows ++ [vs]) (snocs cols vs).
Proof.
  intros m rows cols vs [L H] LV. split; [unfold snocs; rewrite map_length, combine_length; lia|]. intros i col K. unfold snocs in K. rewrite nth_error_map, nth_combine in K.
  destruct (nth_error cols i) as [c|] eqn:EC; [|discriminate]. destruct (nth_error vs i) as [v|] eqn:EV; [|discriminate]. injection K as <-. destruct (H i c EC) as [H1 H2]. cbn [fst snd]. rewrite !app_length. cbn [length]. split; [lia|].
  intros k w E. destruct (Nat.lt_ge_cases k (length rows)) as [Lt|Ge].
  - rewrite nth_error_app1 in E by exact Lt. rewrite nth_error_app1 by lia. auto.
  - rewrite nth_error_app2 in E by exact Ge. rewrite nth_error_app2 by lia. rewrite H1. destruct (k - length rows) as [|q]; cbn in *; [injection E as <-; auto|destruct q; discriminate].
Qed.

Lemma records_next : forall hs recs vss n cols rows, hs <> [] -> NoDup (map snd (concat hs)) -> Forall2 (record_values float hs) recs vss -> recs <> [] -> length recs <= n ->
  columns (length (concat hs)) rows cols -> exists cols', read_records float n hs (concat recs) (combine (map snd (concat hs)) cols) = Ok (combine (map snd (concat hs)) cols') /\ columns (length (concat hs)) (rows ++ vss) cols'.
Proof.
  intros hs recs vss n cols rows NH ND F. revert n cols rows. induction F as [|rec vs recs vss R F IH]; intros n cols rows NE L C; [congruence|]. destruct n as [|n]; [cbn in L; lia|]. cbn [concat read_records].
  destruct (record_ok hs rec vs (concat recs) (combine (map snd (concat hs)) cols) R) as [H1 H2]. rewrite H1. cbn [bind fst snd].
  pose proof (adds_next (map snd (concat hs)) vs cols []) as HA. cbn [app map] in HA. rewrite HA; [|now rewrite map_length|rewrite map_length; exact (proj1 C)|exact ND].
  pose proof (columns_next _ _ _ vs C H2) as C'. destruct recs as [|rec' recs].
  - inversion F; subst. cbn [concat]. eexists. split; [reflexivity|exact C'].
  - assert (NN : concat (rec' :: recs) <> []). { inversion F as [|? ? ? ? [? [_ [_ LR]]] _]; subst. cbn [concat]. destruct hs; [congruence|]. destruct rec'; [discriminate|discriminate]. }
    destruct (concat (rec' :: recs)) as [|x l] eqn:EC; [congruence|]. destruct (IH n _ _ ltac:(discriminate) ltac:(cbn in *; lia) C') as [cols' [K1 K2]]. exists cols'. split; [exact K1|]. rewrite <- app_assoc in K2. exact K2.
Qed.
Lemma records_ok : forall hs recs vss n, hs <> [] -> NoDup (map snd (concat hs)) -> Forall2 (record_values float hs) recs vss -> recs <> [] -> length recs <= n ->
  exists cols, read_records float n hs (concat recs) [] = Ok (combine (map snd (concat hs)) cols) /\ columns (length (concat hs)) vss cols.
Proof.
  intros hs recs vss n NH ND F NE L. destruct F as [|rec vs recs vss R F]; [congruence|]. destruct n as [|n]; [cbn in L; lia|]. cbn [concat read_records].
  destruct (record_ok hs rec vs (concat recs) [] R) as [H1 H2]. rewrite H1. cbn [bind fst snd]. pose proof (adds_first (map snd (concat hs)) vs []) as HA. cbn [app map] in HA. rewrite HA; [|now rewrite map_length|exact ND].
  pose proof (columns_first vs _ H2) as C'. destruct recs as [|rec' recs].
  - inversion F; subst. cbn [concat]. eexists. split; [reflexivity|exact C'].
  - assert (NN : concat (rec' :: recs) <> []). { inversion F as [|? ? ? ? [? [_ [_ LR]]] _]; subst. cbn [concat]. destruct hs; [congruence|]. destruct rec'; [discriminate|discriminate]. }
    destruct (concat (rec' :: recs)) as [|x l] eqn:EC; [congruence|]. rewrite <- EC. destruct (records_next hs _ _ n _ _ NH ND F ltac:(discriminate) ltac:(cbn in *; lia) C') as [cols' [K1 K2]]. exists cols'. split; [exact K1|exact K2].
Qed.
Lemma records_len : forall hs recs vss, hs <> [] -> Forall2 (record_values float hs) recs vss -> length recs <= length (concat recs).
Proof.
  intros hs recs vss NH F. induction F as [|rec vs recs vss [? [_ [_ LR]]] F IH]; auto. cbn [concat length]. rewrite app_length. destruct hs; [congruence|]. cbn [length] in LR. lia.
Qed.
Lemma headers_ok : forall ls hs, Forall2 (fun l h => exists ws, spaced ws l /\ Forall2 head_of ws h) ls hs -> mapM (mapM parse_header) (map words ls) = Ok hs.
Proof.
  intros ls hs F. apply mapM_Forall2. induction F as [|l h ls hs [ws [S0 H]] F IH]; cbn [map]; constructor; auto. rewrite (spaced_words _ _ S0). apply mapM_Forall2. clear IH S0. induction H as [|w p ws ps E H IH]; [apply Forall2_nil|apply Forall2_cons; [apply head_ok; exact E|exact IH]].
Qed.
(** With different names in the header and one line of data for each header line
    in each record, every column has a value for each record, and all values are
    in their places. *)
Theorem C41_columns : forall ls hs recs vss, Forall2 (fun l h => exists ws, spaced ws l /\ Forall2 head_of ws h) ls hs -> hs <> [] ->
  NoDup (map snd (concat hs)) -> Forall2 (record_values float hs) recs vss -> recs <> [] ->
  exists cols, parse_data float (map words ls) (concat recs) = Ok (combine (map snd (concat hs)) cols) /\
  length cols = length (concat hs) /\ forall i col, nth_error cols i = Some col -> length col = length recs /\
    forall k vs, nth_error vss k = Some vs -> nth_error col k = nth_error vs i.
Proof.
  intros ls hs recs vss HH NH ND F NE. unfold parse_data. rewrite (headers_ok _ _ HH). cbn [bind]. destruct (records_ok hs recs vss (S (length (concat recs))) NH ND F NE) as [cols [H1 [H2 H3]]]; [pose proof (records_len _ _ _ NH F); lia|].
  exists cols. split; [exact H1|]. split; [exact H2|]. intros i col E. destruct (H3 i col E) as [K1 K2]. split; [|exact K2]. rewrite K1. clear - F. induction F; cbn; auto.
Qed.

(** Lines left over after the last complete record, or no line at all, are an
    error. *)
Lemma record_short : forall hs lines acc, length lines < length hs -> (forall h l ac, In h hs -> In l lines -> exists ac', read_words float h (words l) ac = Ok ac') -> read_record float hs lines acc = Err IndexError.
Proof.
  induction hs as [|h hs IH]; intros lines acc L H; [cbn in L; lia|]. destruct lines as [|l lines]; [reflexivity|]. cbn [read_record]. destruct (H h l acc (or_introl eq_refl) (or_introl eq_refl)) as [ac' E]. rewrite E. cbn [bind]. apply IH; [cbn in L; lia|].
  intros h' l' ac I J. apply H; right; auto.
Qed.
Theorem C41_ragged : forall ls hs recs vss left, Forall2 (fun l h => exists ws, spaced ws l /\ Forall2 head_of ws h) ls hs ->
  Forall2 (record_values float hs) recs vss -> length left < length hs -> left <> [] \/ recs = [] ->
  (forall h l, In h hs -> In l left -> exists ws vs, spaced ws l /\ line_values float h ws vs) ->
  parse_data float (map words ls) (concat recs ++ left) = Err IndexError.
Proof.
  intros ls hs recs vss left HH F LL NE HL. unfold parse_data. rewrite (headers_ok _ _ HH). cbn [bind].
  assert (NH : hs <> []) by (destruct hs; [cbn in LL; lia|discriminate]).
  assert (G : forall n acc, length recs <= n -> read_records float (S n) hs (concat recs ++ left) acc = Err IndexError).
  { clear HH ls. induction F as [|rec vs recs vss R F IH]; intros n acc LN.
    - cbn [concat app read_records]. rewrite record_short; [reflexivity|exact LL|]. intros h l ac I J. destruct (HL h l I J) as [ws [vs [S0 LV]]]. rewrite (spaced_words _ _ S0), (line_ok _ _ _ _ LV). eauto.
    - destruct n as [|n]; [cbn in LN; lia|]. cbn [concat]. rewrite <- app_assoc. remember (S n) as sn. cbn [read_records]. destruct (record_ok hs rec vs (concat recs ++ left) acc R) as [H1 H2]. rewrite H1. cbn [bind fst snd].
      destruct (concat recs ++ left) as [|x l] eqn:EC.
      + exfalso. apply app_eq_nil in EC as [EC1 EC2]. subst left. destruct NE as [NE|NE]; [congruence|discriminate].
      + subst sn. apply IH; [|cbn in LN; lia]. destruct NE as [NE|NE]; [left; exact NE|discriminate]. }
  apply G. rewrite app_length. pose proof (records_len _ _ _ NH F). lia.
Qed.
(** Without a header data are never used up. *)
Theorem C41_no_header : forall data n, data <> [] -> read_records float n [] data [] = Err GenericError.
Proof. intros data n N. induction n as [|n IH]; auto. cbn [read_records read_record bind snd fst]. destruct data; [congruence|exact IH]. Qed.

Lemma lower_spec : Forall2 (fun d D => forall c, Ascii.eqb d (lower_char c) = true <-> same_char c D) (chars "sweep.") (chars "SWEEP.").
Proof.
  assert (D : forall a b, same_char a b <-> (Ascii.eqb a b || (97 <=? nat_of_ascii a) && (nat_of_ascii a <=? 122) && (nat_of_ascii b =? nat_of_ascii a - 32)) = true).
  { intros a b. unfold same_char. rewrite orb_true_iff, !andb_true_iff, Ascii.eqb_eq, !Nat.leb_le, Nat.eqb_eq. tauto. }
  assert (G : forall d D0, forallb (fun n => Bool.eqb (Ascii.eqb d (lower_char (ascii_of_nat n))) (let a := ascii_of_nat n in Ascii.eqb a D0 || (97 <=? nat_of_ascii a) && (nat_of_ascii a <=? 122) && (nat_of_ascii D0 =? nat_of_ascii a - 32))) (seq 0 256) = true ->
    forall c, Ascii.eqb d (lower_char c) = true <-> same_char c D0).
  { intros d D0 H c. rewrite D. rewrite forallb_forall in H. specialize (H (nat_of_ascii c)). rewrite ascii_nat_embedding in H. cbn zeta in H. apply Bool.eqb_prop in H; [rewrite H; reflexivity|]. apply in_seq. pose proof (nat_ascii_bounded c). lia. }
  repeat (apply Forall2_cons; [apply G; vm_compute; reflexivity|]). apply Forall2_nil.
Qed.
Lemma starts_lower : forall ds Ds l, Forall2 (fun d D => forall c, Ascii.eqb d (lower_char c) = true <-> same_char c D) ds Ds ->
  starts_with ds (map lower_char l) = true <-> exists pre r, Forall2 same_char pre Ds /\ l = pre ++ r.
Proof.
  intros ds Ds l F. revert l. induction F as [|d D ds Ds H F IH]; intros l.
  - split; [intros _; exists [], l; split; [constructor|reflexivity]|destruct l; reflexivity].
  - destruct l as [|c l]; cbn [map starts_with].
    + split; [discriminate|]. intros [pre [r [K E]]]. inversion K; subst. discriminate.
    + rewrite andb_true_iff, H, IH. split.
      * intros [K [pre [r [K1 ->]]]]. exists (c :: pre), r. split; [constructor; auto|reflexivity].
      * intros [pre [r [K E]]]. inversion K as [|x y xs ys K1 K2]; subst. injection E as -> ->. split; [exact K1|]. exists xs, r. auto.
Qed.
Lemma drop_sweep_ok : forall full n, sweep_named full n -> drop_sweep full = n.
Proof.
  intros full n H. unfold drop_sweep. pose proof (starts_lower (chars "sweep.") (chars "SWEEP.") full lower_spec) as SL. destruct H as [[pre [C ->]]|[-> H]].
  - rewrite (proj2 SL) by eauto. assert (L : length pre = 6) by (change 6 with (length (chars "SWEEP.")); clear - C; unfold in_capitals in C; induction C; cbn; auto). rewrite skipn_app, L, skipn_all2 by lia. reflexivity.
  - destruct (starts_with (chars "sweep.") (map lower_char full)) eqn:E; [|reflexivity]. destruct (proj1 SL eq_refl) as [pre [r [C K]]]. exfalso. exact (H pre r C K).
Qed.
Lemma del_none : forall n (l : list (list ascii * list (mval V))), ~ In n (map fst l) -> md_del n l = l.
Proof.
  intros n l. induction l as [|[m c] l IH]; intros N; auto. unfold md_del in *. cbn [filter fst]. destruct (eqb_chars m n) eqn:E; [apply eqb_chars_spec in E; exfalso; apply N; left; auto|]. cbn [negb]. f_equal. apply IH. intros I. apply N. right; auto.
Qed.
Lemma nth_ext' : forall {A} (a b : list A), length a = length b -> (forall i x, nth_error a i = Some x -> nth_error b i = Some x) -> a = b.
Proof.
  intros A. induction a as [|x a IH]; intros [|y b] L H; try discriminate; auto. pose proof (H 0 x eq_refl) as H0. injection H0 as ->. f_equal. apply IH; [now injection L|]. intros i z E. exact (H (S i) z E).
Qed.
Lemma columns_unique : forall m rows c1 c2, (forall vs, In vs rows -> length vs = m) -> columns m rows c1 -> columns m rows c2 -> c1 = c2.
Proof.
  intros m rows c1 c2 LR [L1 H1] [L2 H2]. apply nth_ext'; [congruence|]. intros i x E. destruct (nth_error c2 i) as [y|] eqn:E2; [|apply nth_error_None in E2; assert (i < length c1) by (apply nth_error_Some; congruence); lia].
  f_equal. destruct (H1 i x E) as [A1 A2]. destruct (H2 i y E2) as [B1 B2]. symmetry. apply nth_ext'; [congruence|]. intros k v K. assert (KL : k < length rows) by (rewrite <- A1; apply nth_error_Some; congruence).
  apply nth_error_Some in KL. destruct (nth_error rows k) as [vs|] eqn:EV; [|congruence]. rewrite (B2 k vs EV). rewrite <- (A2 k vs EV). exact K.
Qed.
Lemma combine_fst_snd : forall {A B} (l : list (A * B)), combine (map fst l) (map snd l) = l.
Proof. intros A B. induction l as [|[a b] l IH]; cbn; [auto|now rewrite IH]. Qed.

Lemma mapM_map_ok : forall (P : list ascii -> list ascii * V -> Prop) (f : list (list ascii) -> result (list ascii * V)) l m, Forall2 P l m -> (forall x y, P x y -> f (split_eq x) = Ok y) -> mapM f (map split_eq l) = Ok m.
Proof. intros P f l m F H. induction F as [|x y l m E F IH]; auto. cbn [map mapM]. rewrite (H x y E). cbn [bind]. rewrite IH. reflexivity. Qed.
Lemma attributes_ok : forall l m, Forall2 (fun l nv => assigns float l (fst nv) (snd nv)) l m -> mapM (proc_var float) (map split_eq l) = Ok m.
Proof. intros l m F. apply (mapM_map_ok _ _ _ _ F). intros x [n v] A. apply C41_attribute. exact A. Qed.
(** A group that describes a block is read as that block. *)
Lemma block_ok : forall r b, describes float r b -> md_parse float (cook r) = Ok b.
Proof.
  intros r b D.
  destruct D as [hs [p0 [h0 [hs' [recs [vss [HH [EH [ND [ED [NE [F [EN [EC [SW [COL [NM [PV PA]]]]]]]]]]]]]]]]]]. cbn zeta in COL.
  assert (NH : hs <> []) by (rewrite EH; discriminate). unfold md_parse. cbn [cook g_header g_data g_vars g_attribs g_name g_comments]. rewrite ED.
  destruct (C41_columns (l_headers r) hs recs vss HH NH ND F NE) as [cols [P1 P2]]. rewrite P1. cbn [bind].
  assert (LR : forall vs, In vs vss -> length vs = length (concat hs)).
  { clear - F. induction F as [|rec vs recs vss R F IH]; intros w I; [destruct I|]. destruct I as [<-|I]; [exact (proj2 (record_ok hs rec vs [] [] R))|auto]. }
  assert (LV : length recs = length vss) by (clear - F; induction F; cbn; auto).
  assert (EQ : cols = snd (m_sweep b) :: map snd (m_cols b)).
  { apply (columns_unique (length (concat hs)) vss); [exact LR| |]; unfold columns; rewrite <- LV; assumption. }
  subst cols. assert (EC' : combine (map snd (concat hs)) (snd (m_sweep b) :: map snd (m_cols b)) = (snd p0, snd (m_sweep b)) :: m_cols b).
  { rewrite EH. cbn [concat app map combine]. rewrite <- NM, combine_fst_snd. reflexivity. }
  rewrite EC'. destruct HH as [|l h ls hs2 [ws [S0 HW]] HH]; [congruence|]. injection EH as -> ->. cbn [map]. rewrite (spaced_words _ _ S0). inversion HW as [|w p ws' h1 W0 HW' E1 E2]; subst. rewrite (head_ok _ _ W0). cbn [bind md_lookup]. rewrite eqb_chars_refl. cbn [bind].
  assert (DEL : md_del (snd p0) ((snd p0, snd (m_sweep b)) :: m_cols b) = m_cols b).
  { unfold md_del. cbn [filter fst]. rewrite eqb_chars_refl. cbn [negb]. apply del_none. rewrite NM. cbn [concat app map] in ND. now inversion ND. }
  rewrite DEL. assert (LEN : forallb (fun c => length (snd c) =? length (snd (m_sweep b))) (m_cols b) = true).
  { apply forallb_forall. intros [n c] I. cbn [snd]. apply Nat.eqb_eq. destruct COL as [_ COL]. destruct (In_nth_error _ _ I) as [i Ei]. destruct (COL (S i) c) as [K1 _]; [cbn; now rewrite nth_error_map, Ei|]. destruct (COL 0 (snd (m_sweep b)) eq_refl) as [K2 _]. congruence. }
  rewrite LEN. rewrite (attributes_ok _ _ PV), (attributes_ok _ _ PA). cbn [bind]. rewrite (drop_sweep_ok _ _ SW), <- EN, <- EC. destruct b as [nm cm [sn sv] cl pt at0]. reflexivity.
Qed.
(** The blocks of a file are the blocks its complete groups describe, in the order
    of the file. *)
Theorem C41_blocks : forall rs bs tail ts, map mkind ts = flat_map group_kinds rs ++ tail -> no_group tail -> Forall2 (describes float) rs bs ->
  mapM (md_parse float) (fst (md_blocks ts)) = Ok bs.
Proof.
  intros rs bs tail ts E N F. unfold md_blocks. destruct (groups_spec (S (length ts)) ts) as [rs' [tail' [H1 [H2 [H3 _]]]]]; [lia|]. rewrite H1. rewrite E in H2. destruct (groups_unique _ _ _ _ H2 N H3) as [K _]. rewrite <- K. clear - F.
  induction F as [|r b rs bs D F IH]; auto. cbn [map mapM]. rewrite (block_ok r b D). cbn [bind]. rewrite IH. reflexivity.
Qed.
End Data.
Print Assumptions C41_blocks. Print Assumptions C41_attribute. Print Assumptions C41_columns. Print Assumptions C41_ragged. Print Assumptions C41_no_header.

(** *** Lines *)
Lemma lstrip_lead : forall b c l, spaces b -> is_space c = false -> lstrip (b ++ c :: l) = c :: l.
Proof. intros b c l B C. unfold lstrip. induction b as [|x b IH]; cbn [app drop_while]; [now rewrite C|]. rewrite (B x) by (left; auto). apply IH. intros y I. apply B. right; auto. Qed.
Lemma tokenize_lead : forall b c r, spaces b -> is_space c = false -> md_tokenize (b ++ c :: r) = md_tokenize (c :: r).
Proof. intros b c r B C. unfold md_tokenize. rewrite (lstrip_lead b c r B C). pose proof (lstrip_lead [] c r) as H. cbn [app] in H. rewrite H; [reflexivity|intros x []|exact C]. Qed.
Lemma starts_with_spec : forall p l, starts_with p l = true -> exists r, l = p ++ r.
Proof.
  induction p as [|a p IH]; intros l H; [exists l; reflexivity|]. destruct l as [|b l]; [discriminate|]. cbn [starts_with] in H. apply andb_true_iff in H as [E H]. apply Ascii.eqb_eq in E. subst b. destruct (IH l H) as [r ->]. now exists r.
Qed.
Lemma starts_false : forall s l, (forall r, l <> chars s ++ r) -> starts_with (chars s) l = false.
Proof. intros s l H. destruct (starts_with (chars s) l) eqn:E; [|reflexivity]. apply starts_with_spec in E as [r E]. exfalso. exact (H r E). Qed.
Lemma line_token : forall l k, line_says l k -> md_tokenize l = k.
Proof.
  intros l k [b B|b c tag r t B I T|b c r t B T|b c r B|b B|b c r B|b c r B C N H].
  - unfold md_tokenize. assert (E : lstrip b = []); [|now rewrite E]. unfold lstrip. induction b as [|x b IH]; auto. cbn [drop_while]. rewrite (B x) by (left; auto). apply IH. intros y I. apply B. right; auto.
  - assert (C : is_space c = false) by (cbn in I; destruct I as [I|[I|[I|[]]]]; injection I as <- _; reflexivity). rewrite tokenize_lead by auto. unfold md_tokenize. pose proof (lstrip_lead [] c r) as HL. cbn [app] in HL. rewrite HL; [|intros x []|exact C].
    rewrite (strip_trimmed_of _ _ T). cbn in I. destruct I as [I|[I|[I|[]]]]; injection I as <- <-; reflexivity.
  - change (chars "BEGIN" ++ c :: r) with ("B"%char :: chars "EGIN" ++ c :: r). rewrite tokenize_lead by auto. rewrite <- (strip_trimmed_of _ _ T). reflexivity.
  - change (chars "END" ++ c :: r) with ("E"%char :: chars "ND" ++ c :: r). rewrite tokenize_lead by auto. reflexivity.
  - change (chars "END") with ("E"%char :: chars "ND"). rewrite tokenize_lead by auto. reflexivity.
  - change (chars "VAR" ++ c :: r) with ("V"%char :: chars "AR" ++ c :: r). rewrite tokenize_lead by auto. reflexivity.
  - rewrite tokenize_lead by auto. unfold md_tokenize. pose proof (lstrip_lead [] c r) as HL. cbn [app] in HL. rewrite HL; [|intros x []|exact C].
    assert (E : forall x, In x ["!"%char; "%"%char; "#"%char] -> Ascii.eqb c x = false). { intros x I. destruct (Ascii.eqb c x) eqn:E; [|reflexivity]. apply Ascii.eqb_eq in E. subst. exfalso; auto. }
    rewrite !E by (cbn; auto). rewrite !starts_false by (intros l0; apply H; cbn; auto). reflexivity.
Qed.
(** The tokens are what the lines say, one for each line which is not blank, in the
    order of the file. *)
Theorem C41_lines : forall lines ks n, Forall2 line_says lines ks -> map mkind (md_tokens n lines) = flat_map opt_list ks.
Proof.
  intros lines ks n F. revert n. induction F as [|l k lines ks E F IH]; intros n; auto. cbn [md_tokens flat_map]. rewrite (line_token l k E). destruct k as [[tag r]|]; [|apply IH]. cbn [map opt_list app]. f_equal. apply IH.
Qed.
Print Assumptions C41_lines.

(** *** Examples *)
Definition file41 : list (list ascii) := map chars
  ["! a comment"; "VAR Vgs(real) = 1"; "BEGIN NMOS"; "# temp(real) = 25"; "% Sweep.Vds(real) Ids(complex)"; "% kind(string)"; " 1 10 20"; " x"; " 2 30 40"; " y"; "END";
   ""; "VAR Vgs(real) = 2"; "BEGIN NMOS"; "% Vds(real)"; " 7"; "END"; "BEGIN LAST"; "% Vds(real)"; " 9"].
Definition row41 : lines_of_group := mkLines [chars "a comment"] [chars "Vgs(real) = 1"] (chars "NMOS") [chars "temp(real) = 25"]
  [chars "Sweep.Vds(real) Ids(complex)"; chars "kind(string)"] (map chars ["1 10 20"; "x"; "2 30 40"; "y"]) [].
Definition row41' : lines_of_group := mkLines [] [chars "Vgs(real) = 2"] (chars "NMOS") [] [chars "Vds(real)"] [chars "7"] [].
Definition block41 : mblock nat := mkMBlock (chars "NMOS") [chars "a comment"] (chars "Vds", [MReal 1; MReal 2])
  [(chars "Ids", [MComplex 10 20; MComplex 30 40]); (chars "kind", [MStr (chars "x"); MStr (chars "y")])] [(chars "Vgs", 1)] [(chars "temp", 25)].
Definition block41' : mblock nat := mkMBlock (chars "NMOS") [] (chars "Vds", [MReal 7]) [] [(chars "Vgs", 2)] [].
Example C41_ex : map mkind (md_tokens 0 file41) = flat_map group_kinds [row41; row41'] ++ [("BEGIN", chars "LAST"); ("HEADER", chars "Vds(real)"); ("DATA", chars "9")] /\
  mapM (md_parse nat_float) (fst (md_blocks (md_tokens 0 file41))) = Ok [block41; block41'].
Proof. split; vm_compute; reflexivity. Qed.
(** The group which is not ended is left out without an error. *)
Theorem C41_truncated_refuted : exists ts g, snd (md_blocks (ts ++ [mkTok "END" 3 []])) = StopIter /\ fst (md_blocks (ts ++ [mkTok "END" 3 []])) = [g] /\ md_blocks ts = ([], StopIter).
Proof. exists (md_tokens 0 [chars "BEGIN A"; chars "% x(real)"; chars "1"]), (mkGroup [] [] (chars "A") [] [[chars "x(real)"]] [chars "1"]). repeat split; vm_compute; reflexivity. Qed.
Print Assumptions C41_truncated_refuted.
(** The second block of the example is described by its group. *)
Lemma plain : forall u : list ascii, (exists c r, u = c :: r /\ c <> quote) -> (exists c r, u = r ++ [c] /\ c <> quote) -> quoted u u.
Proof. intros u A B. exists [], []. split; [now rewrite app_nil_r|]. split; [intros c []|right; auto]. Qed.
Example C41_ex_describes : describes nat_float row41' block41'.
Proof.
  exists [[(TReal, chars "Vds")]], (TReal, chars "Vds"), [], [], [[chars "7"]], [[MReal 7]]. cbn [row41' block41' l_headers l_data l_name l_comments l_vars l_attribs m_name m_comments m_sweep m_cols m_partials m_attribs fst snd].
  split; [constructor; [|constructor]; exists [chars "Vds(real)"]; split; [exact (words_spaced (chars "Vds(real)"))|constructor; [|constructor]; split; [reflexivity|split; [discriminate|cbn; intuition (subst; discriminate)]]]|].
  split; [reflexivity|]. split; [constructor; [intros []|constructor]|]. split; [reflexivity|]. split; [discriminate|].
  split; [constructor; [|constructor]; exists [[MReal 7]]; split; [reflexivity|]; split; [|reflexivity]; constructor; [|constructor]; exists [chars "7"]; split; [exact (words_spaced (chars "7"))|]; cbn [fst]; econstructor; [eapply vo_real; [apply plain; [exists "7"%char, []|exists "7"%char, []]; split; [reflexivity|discriminate|reflexivity|discriminate]|reflexivity]|constructor]|].
  split; [reflexivity|]. split; [reflexivity|]. split; [right; split; [reflexivity|]; intros pre r C E; inversion C as [|a d l1 l2 S1 C1]; subst; injection E as <- _; destruct S1 as [S1|[S1 _]]; [discriminate|vm_compute in S1; lia]|].
  split; [split; [reflexivity|]; intros [|i] col E; cbn in E; [injection E as <-; split; [reflexivity|]; intros [|k] vs K; cbn in K; [injection K as <-; reflexivity|destruct k; discriminate]|destruct i; discriminate]|].
  split; [reflexivity|]. split; [|constructor]. constructor; [|constructor]. exists [], [], [" "%char], [" "%char], (chars "2"), [].
  split; [reflexivity|]. split; [intros c []|]. split; [intros c [<-|[]]; reflexivity|]. split; [intros c [<-|[]]; reflexivity|]. split; [intros c []|]. split; [right; split; reflexivity|].
  split; [cbn; intuition (subst; discriminate)|]. split; [exists "V"%char, (chars "gs"); split; reflexivity|]. split; [cbn; intuition (subst; try discriminate; reflexivity)|]. split; [discriminate|reflexivity].
Qed.
