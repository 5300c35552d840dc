(** C43: SP-data files. *)
From Coq Require Import Ascii String List Arith ZArith Bool Lia.
From Verif Require Import Model_NdArray Model_Text Model_Words Model_Spdata Spec_TsText Spec_Spdata Proofs_Text Proofs_Words Proofs_TsText.
Import ListNotations.
Local Open Scope string_scope.
Local Open Scope nat_scope.
Local Open Scope list_scope.

(** *** Grouping *)
Definition mode_tokens (m : sp_mode) : list sp_token :=
  match m with Before cs => map SComment cs | After cs h ds => group_tokens (cs, h, ds) end.

Lemma groups_prefix : forall ts m gs e, sp_groups m ts = (gs, e) ->
  exists rest, mode_tokens m ++ ts = flat_map group_tokens gs ++ rest /\ (e = None -> rest = []).
Proof.
  induction ts as [|t ts IH]; intros m gs e H.
  - destruct m as [[|c cs]|cs h ds]; cbn [sp_groups] in H; injection H as <- <-; cbn [flat_map app].
    + exists []. split; auto.
    + exists (mode_tokens (Before (c :: cs)) ++ []). split; [auto|discriminate].
    + exists []. split; [cbn [mode_tokens]; now rewrite !app_nil_r|auto].
  - destruct m as [cs|cs h ds]; destruct t as [c|h'|d].
    + assert (E : sp_groups (Before cs) (SComment c :: ts) = sp_groups (Before (cs ++ [c])) ts) by (destruct cs; reflexivity). rewrite E in H.
      destruct (IH _ _ _ H) as [rest [H1 H2]]. exists rest. split; auto. rewrite <- H1. cbn [mode_tokens]. rewrite map_app, <- app_assoc. reflexivity.
    + destruct ts as [|t ts].
      * assert (E : sp_groups (Before cs) [SHeader h'] = ([], Some HFError)) by (destruct cs; reflexivity). rewrite E in H. injection H as <- <-.
        eexists. split; [reflexivity|discriminate].
      * assert (E : sp_groups (Before cs) (SHeader h' :: t :: ts) = sp_groups (After cs h' []) (t :: ts)) by (destruct cs; reflexivity). rewrite E in H.
        destruct (IH _ _ _ H) as [rest [H1 H2]]. exists rest. split; auto. rewrite <- H1. cbn [mode_tokens group_tokens map]. now rewrite <- !app_assoc.
    + assert (E : sp_groups (Before cs) (SData d :: ts) = ([], Some HFError)) by (destruct cs; reflexivity). rewrite E in H. injection H as <- <-.
      eexists. split; [reflexivity|discriminate].
    + cbn [sp_groups] in H. destruct (sp_groups (Before [c]) ts) as [gs' e'] eqn:E. injection H as <- <-. destruct (IH _ _ _ E) as [rest [H1 H2]]. exists rest. split; auto.
      cbn [flat_map mode_tokens]. rewrite <- app_assoc, <- H1. reflexivity.
    + destruct ts as [|t ts].
      * cbn [sp_groups] in H. injection H as <- <-. exists [SHeader h']. split; [cbn [flat_map mode_tokens]; now rewrite app_nil_r|discriminate].
      * change (sp_groups (After cs h ds) (SHeader h' :: t :: ts)) with (let '(gs, e) := sp_groups (After [] h' []) (t :: ts) in ((cs, h, ds) :: gs, e)) in H.
        destruct (sp_groups (After [] h' []) (t :: ts)) as [gs' e'] eqn:E. injection H as <- <-. destruct (IH _ _ _ E) as [rest [H1 H2]]. exists rest. split; auto.
        cbn [flat_map mode_tokens]. rewrite <- app_assoc, <- H1. reflexivity.
    + cbn [sp_groups] in H. destruct (IH _ _ _ H) as [rest [H1 H2]]. exists rest. split; auto. rewrite <- H1. cbn [mode_tokens group_tokens]. rewrite map_app, <- !app_assoc. reflexivity.
Qed.

Lemma last_cons : forall {X} (x : X) l d, l <> [] -> last (x :: l) d = last l d.
Proof. intros X x l d H. destruct l; [congruence|reflexivity]. Qed.
Lemma groups_last : forall ts m gs, sp_groups m ts = (gs, None) -> match m with After _ _ ds => ds <> [] \/ ts <> [] | _ => True end ->
  gs <> [] /\ has_data (last gs ([], [], [])).
Proof.
  induction ts as [|t ts IH]; intros m gs H HM.
  - destruct m as [[|c cs]|cs h ds]; cbn [sp_groups] in H; try discriminate. injection H as <-. split; [discriminate|]. cbn. unfold has_data. cbn. destruct HM; congruence.
  - destruct m as [cs|cs h ds]; destruct t as [c|h'|d].
    + assert (E : sp_groups (Before cs) (SComment c :: ts) = sp_groups (Before (cs ++ [c])) ts) by (destruct cs; reflexivity). rewrite E in H. eapply IH; [exact H|exact I].
    + destruct ts as [|t ts]; [destruct cs; discriminate|]. assert (E : sp_groups (Before cs) (SHeader h' :: t :: ts) = sp_groups (After cs h' []) (t :: ts)) by (destruct cs; reflexivity). rewrite E in H.
      eapply IH; [exact H|right; discriminate].
    + destruct cs; discriminate.
    + cbn [sp_groups] in H. destruct (sp_groups (Before [c]) ts) as [gs' e'] eqn:E. injection H as <- ->. destruct (IH _ _ E I) as [H1 H2]. split; [discriminate|]. now rewrite last_cons.
    + destruct ts as [|t ts]; [discriminate|].
      change (sp_groups (After cs h ds) (SHeader h' :: t :: ts)) with (let '(gs, e) := sp_groups (After [] h' []) (t :: ts) in ((cs, h, ds) :: gs, e)) in H.
      destruct (sp_groups (After [] h' []) (t :: ts)) as [gs' e'] eqn:E. injection H as <- ->. assert (NN : @nil (list ascii) <> [] \/ t :: ts <> []) by (right; discriminate). destruct (IH _ _ E NN) as [H1 H2]. split; [discriminate|]. now rewrite last_cons.
    + cbn [sp_groups] in H. eapply IH; [exact H|]. left. now destruct ds.
Qed.

Lemma run_comments : forall cs' cs ts, sp_groups (Before cs) (map SComment cs' ++ ts) = sp_groups (Before (cs ++ cs')) ts.
Proof.
  induction cs' as [|c cs' IH]; intros cs ts; [now rewrite app_nil_r|]. cbn [map app].
  assert (E : forall ts, sp_groups (Before cs) (SComment c :: ts) = sp_groups (Before (cs ++ [c])) ts) by (destruct cs; reflexivity). rewrite E, IH. now rewrite <- app_assoc.
Qed.
Lemma run_data : forall ds' cs h ds ts, sp_groups (After cs h ds) (map SData ds' ++ ts) = sp_groups (After cs h (ds ++ ds')) ts.
Proof. induction ds' as [|d ds' IH]; intros cs h ds ts; [now rewrite app_nil_r|]. cbn [map app sp_groups]. rewrite IH. now rewrite <- app_assoc. Qed.
Lemma run_group : forall cs h ds ts, ts <> [] \/ ds <> [] -> sp_groups (Before []) (group_tokens (cs, h, ds) ++ ts) = sp_groups (After cs h ds) ts.
Proof.
  intros cs h ds ts H. cbn [group_tokens]. rewrite <- !app_assoc, run_comments. cbn [app].
  assert (E : forall t, t <> [] -> sp_groups (Before cs) (SHeader h :: t) = sp_groups (After cs h []) t) by (intros t; destruct t as [|x t]; [congruence|intros _; destruct cs; reflexivity]).
  rewrite E; [now rewrite run_data|]. intros K. apply app_eq_nil in K as [K1 K2]. destruct H; [auto|]. destruct ds; [auto|discriminate].
Qed.
Lemma after_next : forall cs h ds g ts, ts <> [] \/ snd g <> [] -> sp_groups (After cs h ds) (group_tokens g ++ ts) = let '(gs, e) := sp_groups (Before []) (group_tokens g ++ ts) in ((cs, h, ds) :: gs, e).
Proof.
  intros cs h ds [[cs' h'] ds'] ts H. cbn [group_tokens]. destruct cs' as [|c cs']; [|reflexivity]. cbn [map app snd] in *. destruct (map SData ds' ++ ts) as [|t r] eqn:E; [|reflexivity].
  apply app_eq_nil in E as [K1 K2]. destruct H; [contradiction|]. destruct ds'; [congruence|discriminate].
Qed.
Lemma groups_of : forall gs, gs <> [] -> has_data (last gs ([], [], [])) -> sp_groups (Before []) (flat_map group_tokens gs) = (gs, None).
Proof.
  induction gs as [|[[cs h] ds] gs IH]; intros NE HL; [congruence|]. cbn [flat_map]. destruct gs as [|g gs].
  - cbn in HL. cbn [flat_map]. rewrite run_group by (right; exact HL). reflexivity.
  - rewrite last_cons in HL by discriminate.
    assert (K : flat_map group_tokens gs <> [] \/ snd g <> []).
    { destruct gs as [|g' gs]; [right; exact HL|left]. cbn [flat_map]. destruct g' as [[[|? ?] ?] ?]; discriminate. }
    rewrite run_group.
    + cbn [flat_map]. rewrite (after_next cs h ds g (flat_map group_tokens gs) K). specialize (IH ltac:(discriminate) HL). cbn [flat_map] in IH. rewrite IH. reflexivity.
    + left. cbn [flat_map]. destruct g as [[[|? ?] ?] ?]; discriminate.
Qed.

(** The lines are grouped without error exactly if they are groups of comments, a
    header and data lines, the last group with data; and then into these groups. *)
Theorem C43_groups : forall ts gs,
  sp_groups (Before []) ts = (gs, None) <-> ts = flat_map group_tokens gs /\ gs <> [] /\ has_data (last gs ([], [], [])).
Proof.
  intros ts gs. split.
  - intros H. destruct (groups_prefix _ _ _ _ H) as [rest [H1 H2]]. rewrite (H2 eq_refl), app_nil_r in H1. destruct (groups_last _ _ _ H I) as [H3 H4]. auto.
  - intros [-> [H1 H2]]. now apply groups_of.
Qed.
Print Assumptions C43_groups.

(** Whatever happens the groups given are the beginning of the file. *)
Theorem C43_order : forall ts gs e, sp_groups (Before []) ts = (gs, e) -> exists rest, ts = flat_map group_tokens gs ++ rest.
Proof. intros ts gs e H. destruct (groups_prefix _ _ _ _ H) as [rest [H1 _]]. exists rest. exact H1. Qed.
Print Assumptions C43_order.

(** *** Columns *)
Lemma split_on_none : forall c s, ~ In c s -> split_on c s = [s].
Proof.
  intros c s. induction s as [|x s IH]; intros N; cbn [split_on]; auto. destruct (Ascii.eqb_spec x c) as [E|NE]; [exfalso; apply N; left; auto|].
  rewrite IH; auto. intros K. apply N. right; auto.
Qed.
Lemma split_on_app : forall c s t, ~ In c s -> split_on c (s ++ c :: t) = s :: split_on c t.
Proof.
  intros c s t. induction s as [|x s IH]; intros N; cbn [app split_on]; [now rewrite Ascii.eqb_refl|]. destruct (Ascii.eqb_spec x c) as [E|NE]; [exfalso; apply N; left; auto|].
  rewrite IH; auto. intros K. apply N. right; auto.
Qed.
Lemma split_on_join : forall c ws, ws <> [] -> Forall (fun s => ~ In c s) ws -> split_on c (join [c] ws) = ws.
Proof.
  intros c ws NE F. induction F as [|w ws W F IH]; [congruence|]. destruct ws as [|w' ws]; [now apply split_on_none|].
  change (join [c] (w :: w' :: ws)) with (w ++ c :: join [c] (w' :: ws)). rewrite split_on_app by auto. f_equal. apply IH. discriminate.
Qed.

Section Parse.
Context {V : Type} (num : list ascii -> V).

Lemma zip_star_tab : forall {X Y} (f : X -> Y -> V) L ks, ks <> [] ->
  zip_star (map (fun k => map (fun c => f c k) L) ks) = map (fun c => map (fun k => f c k) ks) L.
Proof.
  intros X Y f L ks. induction ks as [|k ks IH]; intros NE; [congruence|]. destruct ks as [|k' ks].
  - cbn. rewrite map_map. reflexivity.
  - cbn [map zip_star] in *. cbn [map] in IH. rewrite (IH ltac:(discriminate)). clear. induction L as [|c L IH]; auto. cbn [map combine fst snd]. f_equal. exact IH.
Qed.
Lemma eqb_chars_spec : forall a b, eqb_chars a b = true <-> a = b.
Proof. intros a b. unfold eqb_chars. destruct (list_eq_dec ascii_dec a b); split; congruence. Qed.
Lemma add_new : forall n (c : list V) acc, ~ In n (map fst acc) -> add_col n c acc = acc ++ [(n, [c])].
Proof.
  intros n c acc. induction acc as [|[m cs] acc IH]; intros N; auto. cbn [add_col]. destruct (eqb_chars m n) eqn:E.
  - apply eqb_chars_spec in E. exfalso. apply N. left; auto.
  - cbn [app]. rewrite IH; auto. intros K. apply N. right; auto.
Qed.
Lemma fold_new : forall (l : list (list ascii * list V)) acc, NoDup (map fst acc ++ map fst l) ->
  fold_left (fun acc p => add_col (fst p) (snd p) acc) l acc = acc ++ map (fun p => (fst p, [snd p])) l.
Proof.
  induction l as [|[n c] l IH]; intros acc ND; [now rewrite app_nil_r|]. cbn [fold_left map fst snd] in *. rewrite add_new.
  - rewrite IH.
    + now rewrite <- app_assoc.
    + rewrite map_app. cbn. rewrite <- app_assoc. exact ND.
  - intros K. apply NoDup_remove_2 in ND. apply ND. apply in_app_iff. auto.
Qed.

(** All columns of this name, in the order they were found. *)
Definition cols_of (n : list ascii) (acc : list (list ascii * list (list V))) : list (list V) :=
  concat (map snd (filter (fun p => eqb_chars (fst p) n) acc)).
Lemma eqb_chars_neq : forall a b, a <> b -> eqb_chars a b = false.
Proof. intros a b H. destruct (eqb_chars a b) eqn:E; auto. apply eqb_chars_spec in E. congruence. Qed.
Lemma add_keys : forall n (c : list V) acc m, In m (map fst (add_col n c acc)) <-> m = n \/ In m (map fst acc).
Proof.
  intros n c acc m. induction acc as [|[k cs] acc IH]; cbn [add_col map In]; [intuition auto|].
  destruct (eqb_chars k n) eqn:E; cbn [map In fst].
  - apply eqb_chars_spec in E. subst k. intuition auto.
  - rewrite IH. intuition auto.
Qed.
Lemma add_NoDup : forall n (c : list V) acc, NoDup (map fst acc) -> NoDup (map fst (add_col n c acc)).
Proof.
  intros n c acc. induction acc as [|[k cs] acc IH]; intros ND; cbn [add_col map fst]; [constructor; [intros []|constructor]|].
  cbn in ND. inversion ND as [|? ? N1 N2]; subst. destruct (eqb_chars k n) eqn:E; cbn [map fst].
  - constructor; auto.
  - constructor; auto. intros K. apply add_keys in K as [->|K]; auto. rewrite eqb_chars_refl in E. discriminate.
Qed.
Lemma cols_absent : forall n acc, ~ In n (map fst acc) -> cols_of n acc = [].
Proof.
  intros n acc. unfold cols_of. induction acc as [|[k cs] acc IH]; intros N; auto. cbn [filter fst]. rewrite eqb_chars_neq by (intros ->; apply N; left; auto). apply IH. intros K; apply N; right; auto.
Qed.
Lemma add_cols : forall m n (c : list V) acc, NoDup (map fst acc) -> cols_of m (add_col n c acc) = cols_of m acc ++ (if eqb_chars n m then [c] else []).
Proof.
  intros m n c acc. induction acc as [|[k cs] acc IH]; intros ND; cbn [add_col].
  - unfold cols_of. cbn [filter fst]. destruct (eqb_chars n m); reflexivity.
  - cbn in ND. inversion ND as [|? ? N1 N2]; subst. destruct (eqb_chars k n) eqn:E.
    + apply eqb_chars_spec in E. subst k. unfold cols_of. cbn [filter fst]. destruct (eqb_chars n m) eqn:Em; [|now rewrite app_nil_r].
      cbn [map concat snd]. apply eqb_chars_spec in Em. subst m. fold (cols_of n acc). rewrite (cols_absent n acc N1), !app_nil_r. reflexivity.
    + unfold cols_of in *. cbn [filter fst]. destruct (eqb_chars k m); cbn [map concat snd]; rewrite IH by auto; [now rewrite app_assoc|reflexivity].
Qed.
Lemma fold_cols : forall (l : list (list ascii * list V)) acc, NoDup (map fst acc) ->
  let r := fold_left (fun acc p => add_col (fst p) (snd p) acc) l acc in
  NoDup (map fst r) /\ (forall m, In m (map fst r) <-> In m (map fst acc) \/ In m (map fst l)) /\
  (forall m, cols_of m r = cols_of m acc ++ map snd (filter (fun p => eqb_chars (fst p) m) l)) /\
  (forall x, hd_error (map fst acc) = Some x -> hd_error (map fst r) = Some x).
Proof.
  induction l as [|[n c] l IH]; intros acc ND; cbn [fold_left fst snd].
  - split; auto. split; [intros m; cbn; intuition auto|]. split; [intros m; now rewrite app_nil_r|auto].
  - destruct (IH (add_col n c acc) (add_NoDup n c acc ND)) as [H1 [H2 [H3 H4]]]. split; auto. split; [|split].
    + intros m. rewrite H2, add_keys. cbn [map In fst]. intuition auto.
    + intros m. rewrite H3, add_cols by auto. rewrite <- app_assoc. f_equal. cbn [filter fst]. destruct (eqb_chars n m); reflexivity.
    + intros x Hx. apply H4. destruct acc as [|[k cs] acc]; [discriminate|]. cbn [add_col]. destruct (eqb_chars k n); exact Hx.
Qed.

Lemma cols_in : forall n cs acc, NoDup (map fst acc) -> In (n, cs) acc -> cols_of n acc = cs.
Proof.
  intros n cs acc. induction acc as [|[k ks] acc IH]; intros ND H; [destruct H|]. cbn in ND. inversion ND as [|? ? N1 N2]; subst. unfold cols_of. cbn [filter fst]. destruct H as [H|H].
  - injection H as -> ->. rewrite eqb_chars_refl. cbn [map concat snd]. fold (cols_of n acc). rewrite cols_absent by auto. apply app_nil_r.
  - rewrite eqb_chars_neq; [now apply IH|]. intros ->. apply N1. now apply in_map with (f := fst) in H.
Qed.

Lemma map_fst_combine : forall {X Y} (l : list X) (m : list Y), length m = length l -> map fst (combine l m) = l.
Proof. intros X Y l. induction l as [|x l IH]; intros m E; auto. destruct m as [|y m]; [discriminate|]. cbn. f_equal. apply IH. now injection E. Qed.

(** Complete lines give the columns under their names; columns of the same name
    are gathered in order. *)
Theorem C43_columns : forall cs titles rows, titles <> [] -> Forall (fun t => tidy t /\ no_tab t) titles -> rows <> [] ->
  Forall (fun r => length r = length titles /\ Forall no_tab r) rows ->
  exists b, sp_parse num (cs, join [tab] titles, map (join [tab]) rows) = Ok b /\ s_comments b = cs /\
    let all := s_sweep b :: s_vars b in
    NoDup (map fst all) /\ (forall t, In t (map fst all) <-> In t titles) /\ hd_error titles = Some (fst (s_sweep b)) /\
    forall t ts, In (t, ts) all -> forall i, nth_error ts i =
      match nth_error (filter (fun j => eqb_chars (nth j titles []) t) (seq 0 (length titles))) i with
      | Some j => Some (map (fun r => num (nth j r [])) rows)
      | None => None
      end.
Proof.
  intros cs titles rows NT FT NR FR. unfold sp_parse.
  assert (E1 : map (fun d => map num (split_on tab d)) (map (join [tab]) rows) = map (map num) rows).
  { rewrite map_map. apply map_ext_in. intros r Hr. rewrite Forall_forall in FR. destruct (FR r Hr) as [L F]. rewrite split_on_join; auto. intros ->. destruct titles; [congruence|discriminate]. }
  assert (T : trimmed (join [tab] titles)).
  { clear - NT FT. induction FT as [|t ts [T _] F IH]; [congruence|]. destruct ts as [|t' ts]; [exact T|]. change (join [tab] (t :: t' :: ts)) with (t ++ [tab] ++ join [tab] (t' :: ts)). apply trimmed_app; [exact T|]. apply IH. discriminate. }
  assert (E2 : map strip (split_on tab (strip (join [tab] titles))) = titles).
  { rewrite (strip_trimmed _ T). rewrite split_on_join; auto; [|eapply Forall_impl; [|exact FT]; intros t [_ H]; exact H]. rewrite <- (map_id titles) at 2. apply map_ext_in. intros t Ht. rewrite Forall_forall in FT. destruct (FT t Ht). now apply strip_trimmed. }
  rewrite E1, E2. destruct rows as [|r0 rows']; [congruence|]. set (rows := r0 :: rows') in *. cbn [map hd_error of_option bind rows].
  assert (L0 : length titles = length (map num r0)). { rewrite map_length. rewrite Forall_forall in FR. destruct (FR r0) as [L _]; [left; auto|]. auto. }
  rewrite L0, Nat.eqb_refl. cbn [negb].
  assert (E3 : map (map num) rows = map (fun r => map (fun j => num (nth j r [])) (seq 0 (length titles))) rows).
  { apply map_ext_in. intros r Hr. rewrite Forall_forall in FR. destruct (FR r Hr) as [L _]. rewrite <- L.
    clear. rewrite <- (map_map (fun j => nth j r []) num). f_equal. induction r as [|x r IH]; auto. cbn [length seq map nth]. f_equal. rewrite <- seq_shift, map_map. exact IH. }
  change (map num r0 :: map (map num) rows') with (map (map num) rows). rewrite E3, (zip_star_tab (fun j r => num (nth j r []))) by discriminate.
  set (cols := map (fun c => map (fun r => num (nth c r [])) rows) (seq 0 (length titles))).
  assert (LC : length cols = length titles) by (unfold cols; now rewrite map_length, seq_length).
  destruct (fold_cols (combine titles cols) [] (NoDup_nil _)) as [H1 [H2 [H3 H4]]].
  assert (MF : map fst (combine titles cols) = titles) by (now apply map_fst_combine).
  destruct titles as [|t0 titles']; [congruence|]. set (titles := t0 :: titles') in *.
  destruct cols as [|c0 cols'] eqn:Ec; [discriminate|]. rewrite <- Ec in *.
  assert (HD : hd_error (map fst (fold_left (fun acc p => add_col (fst p) (snd p) acc) (combine titles cols) [])) = Some t0).
  { rewrite Ec. unfold titles. cbn [combine fold_left fst snd add_col]. destruct (fold_cols (combine titles' cols') [(t0, [c0])]) as [_ [_ [_ K]]]; [constructor; [intros []|constructor]|]. apply K. reflexivity. }
  destruct (fold_left (fun acc p => add_col (fst p) (snd p) acc) (combine titles cols) []) as [|s vs] eqn:Er; [discriminate|].
  eexists. split; [reflexivity|]. cbn [s_comments s_sweep s_vars]. split; auto. cbv zeta. split; auto. split; [|split].
  - intros t. rewrite H2, MF. cbn [map In]. intuition auto.
  - cbn in HD. injection HD as ->. reflexivity.
  - intros t ts Hin i. pose proof (cols_in t ts (s :: vs) H1 Hin) as E. rewrite <- E, H3. cbn [app cols_of filter map concat].
    assert (G : forall tl cl s, length cl = length tl -> (forall j, j < length tl -> nth_error cl j = Some (map (fun r => num (nth (s + j) r [])) rows)) ->
      map snd (filter (fun p => eqb_chars (fst p) t) (combine tl cl)) = map (fun j => map (fun r => num (nth j r [])) rows) (filter (fun j => eqb_chars (nth (j - s) tl []) t) (seq s (length tl)))).
    { clear. induction tl as [|x tl IH]; intros cl s L H; [reflexivity|]. destruct cl as [|c cl]; [discriminate|]. cbn [combine filter fst length seq]. rewrite Nat.sub_diag. change (nth 0 (x :: tl) []) with x.
      assert (Ef : filter (fun j => eqb_chars (nth (j - s) (x :: tl) []) t) (seq (S s) (length tl)) = filter (fun j => eqb_chars (nth (j - S s) tl []) t) (seq (S s) (length tl))).
      { apply filter_ext_in. intros j Hj. apply in_seq in Hj. replace (j - s) with (S (j - S s)) by lia. reflexivity. }
      rewrite Ef. assert (R : map snd (filter (fun p => eqb_chars (fst p) t) (combine tl cl)) = map (fun j => map (fun r => num (nth j r [])) rows) (filter (fun j => eqb_chars (nth (j - S s) tl []) t) (seq (S s) (length tl)))).
      { apply IH; [now injection L|]. intros j Hj. specialize (H (S j) ltac:(cbn; lia)). cbn [nth_error] in H. rewrite H. f_equal. apply map_ext. intros r. f_equal. f_equal. lia. }
      specialize (H 0 ltac:(cbn; lia)). cbn in H. injection H as ->. rewrite Nat.add_0_r. destruct (eqb_chars x t); cbn [map snd]; now rewrite R. }
    rewrite (G titles cols 0 LC).
    + rewrite nth_error_map. assert (Ef : filter (fun j => eqb_chars (nth (j - 0) titles []) t) (seq 0 (length titles)) = filter (fun j => eqb_chars (nth j titles []) t) (seq 0 (length titles))) by (apply filter_ext; intros j; now rewrite Nat.sub_0_r).
      rewrite Ef, <- L0. destruct (nth_error (filter (fun j => eqb_chars (nth j titles []) t) (seq 0 (length titles))) i); reflexivity.
    + intros j Hj. unfold cols. rewrite nth_error_map.
      assert (Es : nth_error (seq 0 (length titles)) j = Some j) by (rewrite (nth_error_nth' _ 0) by (rewrite seq_length; lia); rewrite seq_nth by lia; reflexivity).
      rewrite Es. reflexivity.
Qed.
End Parse.
Print Assumptions C43_columns.

(** *** Writing and reading *)
(** A single column as it stands in the file: title, values, width, printer. *)
Record fcol (V : Type) := { fc_title : list ascii; fc_val : nat -> V; fc_width : nat; fc_print : V -> list ascii }.
Arguments fc_title {V}. Arguments fc_val {V}. Arguments fc_width {V}. Arguments fc_print {V}.

Section Write.
Context {V : Type} (num : list ascii -> V).
Definition flat_of (c : sp_col V) : list (fcol V) :=
  map (fun tf => {| fc_title := fst tf; fc_val := snd tf; fc_width := c_width c; fc_print := c_print c |}) (fields c).
Definition simple (c : sp_col V) : Prop := match c_data c with Real _ | Cplx _ => True | _ => False end.

Lemma list_prod_flat : forall {X Y} (l : list X) (m : list Y), list_prod l m = flat_map (fun x => map (pair x) m) l.
Proof. intros X Y l m. induction l as [|x l IH]; auto. cbn. f_equal. exact IH. Qed.
Lemma flat_map_map' : forall {X Y Z} (f : X -> Y) (g : Y -> list Z) l, flat_map g (map f l) = flat_map (fun x => g (f x)) l.
Proof. intros X Y Z f g l. induction l as [|x l IH]; auto. cbn. f_equal. exact IH. Qed.
Lemma flat_map_flat_map : forall {X Y Z} (f : X -> list Y) (g : Y -> list Z) l, flat_map g (flat_map f l) = flat_map (fun x => flat_map g (f x)) l.
Proof. intros X Y Z f g l. induction l as [|x l IH]; auto. cbn. rewrite flat_map_app. f_equal. exact IH. Qed.

Lemma elements_simple : forall c e, In e (sp_elements c) -> simple e.
Proof.
  intros c e H. unfold sp_elements in H. destruct (c_data c) eqn:E; cbn in H.
  - destruct H as [<-|[]]. unfold simple. now rewrite E.
  - destruct H as [<-|[]]. unfold simple. now rewrite E.
  - apply in_flat_map in H as [i [_ H]]. apply in_map_iff in H as [j [<- _]]. exact I.
  - apply in_flat_map in H as [i [_ H]]. apply in_map_iff in H as [j [<- _]]. exact I.
Qed.
Lemma elements_flat : forall c, flat_map flat_of (sp_elements c) = flat_of c.
Proof.
  intros c. unfold sp_elements. destruct (c_data c) eqn:E; cbn [flat_map]; try apply app_nil_r.
  - unfold flat_of at 2, fields. rewrite E. rewrite list_prod_flat, map_map, flat_map_flat_map. rewrite flat_map_concat_map, (flat_map_concat_map _ (seq 0 n)), concat_map. f_equal. rewrite map_map.
    apply map_ext. intros i. rewrite flat_map_map', map_map. rewrite flat_map_concat_map. induction (seq 0 m) as [|j l IH]; auto. cbn [map concat]. rewrite IH. cbn [app]. unfold flat_of, fields, element_title. cbn. rewrite !Nat.add_1_r. reflexivity.
  - unfold flat_of at 2, fields. rewrite E. rewrite list_prod_flat, flat_map_flat_map, flat_map_flat_map. rewrite flat_map_concat_map, (flat_map_concat_map _ (seq 0 n)), concat_map. f_equal. rewrite map_map.
    apply map_ext. intros i. rewrite !flat_map_map'. induction (seq 0 m) as [|j l IH]; auto. cbn [flat_map]. rewrite map_app, IH. f_equal. unfold flat_of, fields, element_title, parts. cbn. rewrite !Nat.add_1_r. reflexivity.
Qed.
Lemma simple_head : forall c, simple c -> sp_head c = map (fun x => padhead (fc_title x) (fc_width x)) (flat_of c).
Proof. intros c H. unfold simple in H. unfold sp_head, flat_of, fields. destruct (c_data c); try contradiction; reflexivity. Qed.
Lemma simple_cells : forall k c, simple c -> sp_cells k c = map (fun x => fc_print x (fc_val x k)) (flat_of c).
Proof. intros k c H. unfold simple in H. unfold sp_cells, flat_of, fields. destruct (c_data c); try contradiction; reflexivity. Qed.
Lemma flat_map_In_ext : forall {X Y} (f g : X -> list Y) l, (forall x, In x l -> f x = g x) -> flat_map f l = flat_map g l.
Proof. intros X Y f g l H. induction l as [|x l IH]; auto. cbn. rewrite H by (left; auto). f_equal. apply IH. intros; apply H; right; auto. Qed.
Lemma map_flat_map' : forall {X Y Z} (f : Y -> Z) (g : X -> list Y) l, map f (flat_map g l) = flat_map (fun x => map f (g x)) l.
Proof. intros X Y Z f g l. induction l as [|x l IH]; auto. cbn. rewrite map_app. f_equal. exact IH. Qed.

(** The file in terms of single columns. *)
Lemma format_flat : forall comments sv n cols, let F := flat_map flat_of cols in
  sp_format comments sv n cols = map (fun c => "!"%char :: drop_while (Ascii.eqb "!") c) comments
    ++ map (fun kv => chars "!@" ++ fst kv ++ chars "=" ++ snd kv) sv
    ++ [join [tab] (map (fun x => padhead (fc_title x) (fc_width x)) F)]
    ++ map (fun k => join [tab] (map (fun x => fc_print x (fc_val x k)) F)) (seq 0 n).
Proof.
  intros comments sv n cols F. unfold sp_format.
  assert (EF : F = flat_map flat_of (flat_map sp_elements cols)). { unfold F. rewrite flat_map_flat_map. apply flat_map_ext. intros c. symmetry. apply elements_flat. }
  assert (SM : forall e, In e (flat_map sp_elements cols) -> simple e) by (intros e H; apply in_flat_map in H as [c [_ H]]; now apply elements_simple in H).
  f_equal. f_equal. f_equal.
  - rewrite EF, map_flat_map'. f_equal. f_equal. apply flat_map_In_ext. intros e He. now apply simple_head, SM.
  - apply map_ext. intros k. rewrite EF, map_flat_map'. f_equal. apply flat_map_In_ext. intros e He. now apply simple_cells, SM.
Qed.

Definition sound_f (x : fcol V) : Prop := tidy (fc_title x) /\ no_tab (fc_title x) /\ forall v, tidy (fc_print x v) /\ no_tab (fc_print x v) /\ num (fc_print x v) = v.

Lemma titled_tidy : forall n u, tidy n -> tidy (titled n u).
Proof.
  intros n u T. unfold titled. destruct u as [|c u]; auto. set (w := c :: u). clearbody w. change (tidy (n ++ chars " [" ++ w ++ chars "]")). rewrite (app_assoc (chars " [")). apply trimmed_app; auto.
  split; [exists "]"%char, []; split; reflexivity|exists "]"%char, []; split; reflexivity].
Qed.
Lemma part_tidy : forall p n, p = "Re" \/ p = "Im" -> tidy (part p n).
Proof.
  intros p n H. unfold part. rewrite (app_assoc (chars "(")), <- (app_nil_r (chars p ++ _)), <- app_assoc. rewrite app_nil_r.
  apply (trimmed_app (chars p) (chars "(" ++ n) (chars ")")).
  - destruct H as [-> | ->]; (split; [eexists; eexists; split; reflexivity|]); [exists "e"%char, (chars "R")|exists "m"%char, (chars "I")]; split; reflexivity.
  - split; [exists ")"%char, []; split; reflexivity|exists ")"%char, []; split; reflexivity].
Qed.
Lemma element_tidy : forall n i j, tidy n -> tidy (element_title n i j).
Proof.
  intros n i j T. unfold element_title. apply trimmed_app; auto. apply word_trimmed. split; [apply print_nat_nonempty|]. intros c H. apply digit_not_space. pose proof (print_nat_digits (j + 1)) as D. rewrite Forall_forall in D. auto.
Qed.
Lemma no_tab_app : forall a b, no_tab a -> no_tab b -> no_tab (a ++ b).
Proof. intros a b A B H. apply in_app_iff in H as [H|H]; [exact (A H)|exact (B H)]. Qed.
Lemma no_tab_nat : forall n, no_tab (print_nat n).
Proof. intros n H. pose proof (print_nat_digits n) as D. rewrite Forall_forall in D. apply D in H. discriminate. Qed.
Ltac notab_lit := let H := fresh in intros H; cbn in H; repeat (destruct H as [H|H]; [discriminate|]); exact H.
Lemma titled_notab : forall n u, no_tab n -> no_tab u -> no_tab (titled n u).
Proof. intros n u N U. unfold titled. destruct u as [|c u]; auto. apply no_tab_app; auto. apply no_tab_app; [notab_lit|]. apply no_tab_app; auto. notab_lit. Qed.
Lemma part_notab : forall p n, p = "Re" \/ p = "Im" -> no_tab n -> no_tab (part p n).
Proof. intros p n H N. unfold part. apply no_tab_app; [destruct H as [-> | ->]; notab_lit|]. apply no_tab_app; [notab_lit|]. apply no_tab_app; auto. notab_lit. Qed.
Lemma element_notab : forall n i j, no_tab n -> no_tab (element_title n i j).
Proof. intros n i j N. unfold element_title. apply no_tab_app; auto. apply no_tab_app; apply no_tab_nat. Qed.

Lemma sound_flat : forall c x, sound_col num c -> In x (flat_of c) -> sound_f x.
Proof.
  intros c x [T [N [U P]]] H. unfold flat_of in H. apply in_map_iff in H as [[t f] [<- H]]. unfold sound_f. cbn [fc_title fc_print].
  assert (K : tidy t /\ no_tab t); [|destruct K; auto]. cbn [fst]. unfold fields in H.
  assert (PT : forall name f', tidy name -> no_tab name -> In (t, f) (parts name (c_unit c) f') -> tidy t /\ no_tab t).
  { intros name f' T' N' K. destruct K as [K|[K|[]]]; injection K as <- _; split; (apply titled_tidy, part_tidy; auto) || (apply titled_notab; auto; apply part_notab; auto). }
  destruct (c_data c).
  - destruct H as [H|[]]. injection H as <- _. split; [now apply titled_tidy|now apply titled_notab].
  - eapply PT; eauto.
  - apply in_map_iff in H as [ij [H _]]. injection H as <- _. split; [apply titled_tidy; now apply element_tidy|apply titled_notab; auto; now apply element_notab].
  - apply in_flat_map in H as [ij [_ H]]. eapply PT; [| |exact H]; [now apply element_tidy|now apply element_notab].
Qed.

Lemma join_tidy : forall ws, ws <> [] -> Forall tidy ws -> tidy (join [tab] ws).
Proof.
  intros ws NE F. induction F as [|t ts T F IH]; [congruence|]. destruct ts as [|t' ts]; [exact T|]. change (join [tab] (t :: t' :: ts)) with (t ++ [tab] ++ join [tab] (t' :: ts)). apply trimmed_app; [exact T|]. apply IH. discriminate.
Qed.
Lemma join_snoc : forall s ws w, ws <> [] -> join s (ws ++ [w]) = join s ws ++ s ++ w.
Proof.
  intros s ws w NE. induction ws as [|x ws IH]; [congruence|]. destruct ws as [|y ws]; [reflexivity|].
  change (join s ((x :: y :: ws) ++ [w])) with (x ++ s ++ join s ((y :: ws) ++ [w])). rewrite IH by discriminate. change (join s (x :: y :: ws)) with (x ++ s ++ join s (y :: ws)). now rewrite <- !app_assoc.
Qed.
Lemma spaces_repeat : forall n, spaces (repeat " "%char n).
Proof. intros n c H. apply repeat_spec in H. now subst c. Qed.
Lemma strip_trail : forall l b, tidy l -> spaces b -> strip (l ++ b) = l.
Proof.
  intros l b T B. apply strip_trimmed_of. exists [], b. split; auto. split; [intros ? []|]. split; auto.
Qed.

(** The header line without the padding of the last title. *)
Lemma header_strip : forall (F : list (fcol V)), F <> [] -> Forall sound_f F ->
  exists ts, strip (join [tab] (map (fun x => padhead (fc_title x) (fc_width x)) F)) = join [tab] ts /\ ts <> [] /\ Forall no_tab ts /\ map strip ts = map fc_title F /\ tidy (join [tab] ts) /\
    exists b, join [tab] (map (fun x => padhead (fc_title x) (fc_width x)) F) = join [tab] ts ++ b.
Proof.
  intros F NE FS. destruct (exists_last NE) as [F' [x ->]]. apply Forall_app in FS as [FS' FX]. apply Forall_inv in FX. destruct FX as [Tx [Nx _]].
  set (p := fun x : fcol V => padhead (fc_title x) (fc_width x)). rewrite map_app. cbn [map].
  assert (NP : forall y, sound_f y -> no_tab (p y)). { intros y [_ [N _]]. unfold p, padhead. apply no_tab_app; auto. intros H. apply repeat_spec in H. discriminate. }
  assert (SP : forall y, sound_f y -> strip (p y) = fc_title y) by (intros y [T _]; unfold p, padhead; apply strip_trail; auto; apply spaces_repeat).
  assert (HD : forall y, sound_f y -> exists a l, p y = a :: l /\ is_space a = false). { intros y [[[a [l [E Ha]]] _] _]. unfold p, padhead. rewrite E. cbn [app]. eauto. }
  exists (map p F' ++ [fc_title x]).
  assert (EJ : join [tab] (map p F' ++ [p x]) = join [tab] (map p F' ++ [fc_title x]) ++ repeat " "%char (Nat.max (length (fc_title x)) (fc_width x) - length (fc_title x))).
  { destruct F' as [|y F']; [reflexivity|]. rewrite !join_snoc by discriminate. unfold p at 2, padhead. now rewrite <- !app_assoc. }
  assert (TJ : tidy (join [tab] (map p F' ++ [fc_title x]))).
  { split.
    - destruct F' as [|y F']; [cbn [map app join]; apply Tx|]. inversion FS' as [|? ? Sy _]; subst. destruct (HD y Sy) as [a [l [E Ha]]].
      rewrite join_snoc by discriminate. cbn [map]. destruct (map p F'); cbn [join]; rewrite E; cbn [app]; eauto.
    - destruct Tx as [_ [b [l [E Hb]]]]. destruct F' as [|y F']; [cbn [map app join]; eauto|]. rewrite join_snoc by discriminate. rewrite E. exists b. eexists. split; [rewrite !app_assoc; reflexivity|auto]. }
  split; [rewrite EJ; apply strip_trail; auto; apply spaces_repeat|]. split; [intros H; apply app_eq_nil in H as [_ H]; discriminate|]. split; [|split; [|split; [auto|eexists; exact EJ]]].
  - apply Forall_app. split; [|constructor; auto]. rewrite Forall_forall in FS' |- *. intros t Ht. apply in_map_iff in Ht as [y [<- Hy]]. auto.
  - rewrite !map_app. cbn [map]. rewrite (strip_trimmed _ Tx). f_equal. rewrite map_map. apply map_ext_in. intros y Hy. rewrite Forall_forall in FS'. auto.
Qed.

(** *** Tokens of what is written *)
Lemma drop_bangs : forall c, exists p, c = p ++ drop_while (Ascii.eqb "!") c /\ (forall x, In x p -> x = "!"%char) /\ hd_error (drop_while (Ascii.eqb "!") c) <> Some "!"%char.
Proof.
  induction c as [|x c [p [E [P H]]]]; [exists []; repeat split; [intros ? []|discriminate]|]. cbn [drop_while]. destruct (Ascii.eqb_spec "!" x) as [<-|NE].
  - exists ("!"%char :: p). split; [cbn; now rewrite <- E|]. split; [intros y [<-|Hy]; auto|exact H].
  - exists []. split; auto. split; [intros ? []|]. cbn. congruence.
Qed.
Lemma trim_exists' : forall c, trimmed_of c (strip c).
Proof.
  intros c. destruct (strip_split c) as [a [b [E [SA SB]]]]. exists a, b. split; auto. split; auto. split; auto.
  unfold strip. destruct (rstrip (lstrip c)) as [|x s] eqn:Es; [auto|]. right. split.
  - exists x, s. split; auto. unfold rstrip in Es. destruct (drop_while_split (rev (lstrip c))) as [q [Eq _]].
    assert (K : lstrip c = (x :: s) ++ rev q) by (rewrite <- (rev_involutive (lstrip c)), Eq, rev_app_distr, Es; auto).
    unfold lstrip in K. apply drop_while_hd in K. auto.
  - destruct (drop_while is_space (rev (lstrip c))) as [|y t] eqn:Et.
    + unfold rstrip in Es. rewrite Et in Es. discriminate.
    + exists y, (rev t). split; [rewrite <- Es; unfold rstrip; rewrite Et; reflexivity|]. now apply drop_while_hd in Et.
Qed.
Lemma comment_tok : forall c, (forall t, comment_text c t -> starts_with (chars "Fullcomments") t = false) ->
  exists t, comment_text c t /\ sp_tokenize ("!"%char :: drop_while (Ascii.eqb "!") c) = [SComment t].
Proof.
  intros c H. destruct (drop_bangs c) as [p [Ep [P HB]]]. set (d := drop_while (Ascii.eqb "!") c) in *.
  destruct (strip_hd2 [] "!" d) as [s [b [Es [Ed B]]]]; [intros ? []|reflexivity|]. cbn [app] in Es.
  pose proof (trim_exists' ("!"%char :: d)) as T. rewrite Es in T. destruct T as [_ [_ [_ [_ [_ [T|[_ [y [l [E Hy]]]]]]]]]]; [discriminate|].
  assert (CT : comment_text c s).
  { exists p, b. split; [rewrite Ep, Ed; auto|]. split; auto. split; auto. split.
    - rewrite Ed in HB. destruct s as [|x s]; [discriminate|exact HB].
    - destruct l as [|x l]; [left; now injection E|]. right. exists y, l. injection E as _ E. auto. }
  exists s. split; auto. unfold sp_tokenize. rewrite Es. change (starts_with (chars "!Fullcomments") ("!"%char :: s)) with (starts_with (chars "Fullcomments") s). now rewrite (H s CT).
Qed.
Lemma var_tok : forall k v, tidy v -> sp_tokenize (chars "!@" ++ k ++ chars "=" ++ v) = [SComment (chars "@" ++ k ++ chars "=" ++ v)].
Proof.
  intros k v T. unfold sp_tokenize.
  assert (E : strip (chars "!@" ++ k ++ chars "=" ++ v) = chars "!@" ++ k ++ chars "=" ++ v).
  { apply strip_trimmed. rewrite (app_assoc k). apply trimmed_app; auto. split; [exists "!"%char, (chars "@"); split; reflexivity|exists "@"%char, (chars "!"); split; reflexivity]. }
  rewrite E. reflexivity.
Qed.
Lemma line_tok : forall a l, tidy (a :: l) -> a <> "!"%char -> sp_tokenize (a :: l) = [if head_char a then SHeader (a :: l) else SData (a :: l)].
Proof.
  intros a l T NB. unfold sp_tokenize. rewrite (strip_trimmed _ T). cbn [chars list_ascii_of_string starts_with].
  destruct (Ascii.eqb_spec "!" a) as [E|_]; [congruence|]. cbn [andb]. destruct (Ascii.eqb_spec a "!") as [E|_]; [congruence|]. now destruct (head_char a).
Qed.
Lemma join_head : forall s w ws, exists r, join s (w :: ws) = w ++ r.
Proof. intros s w ws. destruct ws as [|w' ws]; [exists []; now rewrite app_nil_r|eexists; reflexivity]. Qed.

(** The block [r] read is the block [o] written. *)
Definition reads (o : sp_out V) (r : sp_block V) : Prop :=
  (exists cs, Forall2 comment_text (o_comments o) cs /\
     s_comments r = cs ++ map (fun kv => chars "@" ++ fst kv ++ chars "=" ++ snd kv) (o_sweepvars o)) /\
  s_sweep r :: s_vars r = map (fun tf => (fst tf, [map (snd tf) (seq 0 (o_points o))])) (flat_map fields (o_cols o)).

Lemma block_read : forall o, writable num o -> exists g r, 
  flat_map sp_tokenize (sp_format (o_comments o) (o_sweepvars o) (o_points o) (o_cols o)) = group_tokens g /\ has_data g /\
  sp_parse num g = Ok r /\ reads o r.
Proof.
  intros o [WP WC [c0 [f0 [cs0 [Ec [Ed [[a0 [l0 [En Ha]]] HP]]]]]] WT WM WV]. rewrite format_flat.
  set (F := flat_map flat_of (o_cols o)).
  assert (SF : Forall sound_f F).
  { apply Forall_forall. intros x Hx. apply in_flat_map in Hx as [c [Hc Hx]]. rewrite Forall_forall in WC. eapply sound_flat; eauto. }
  assert (EF : exists F', F = {| fc_title := titled (c_name c0) (c_unit c0); fc_val := f0; fc_width := c_width c0; fc_print := c_print c0 |} :: F').
  { unfold F. rewrite Ec. cbn [flat_map]. unfold flat_of at 1, fields. rewrite Ed. cbn. eauto. }
  destruct EF as [F' EF]. assert (NF : F <> []) by (rewrite EF; discriminate).
  destruct (header_strip F NF SF) as [ts [Hs [Nts [NTts [Mts [Tts [bb Ebb]]]]]]].
  assert (C1 : exists cs, Forall2 comment_text (o_comments o) cs /\ flat_map sp_tokenize (map (fun c => "!"%char :: drop_while (Ascii.eqb "!") c) (o_comments o)) = map SComment cs).
  { assert (K : forall l, (forall c t, In c l -> comment_text c t -> starts_with (chars "Fullcomments") t = false) ->
      exists cs, Forall2 comment_text l cs /\ flat_map sp_tokenize (map (fun c => "!"%char :: drop_while (Ascii.eqb "!") c) l) = map SComment cs); [|exact (K _ WM)].
    induction l as [|c l IH]; intros W; [exists []; split; [constructor|reflexivity]|].
    destruct (comment_tok c) as [t [T1 T2]]; [intros t; apply W; left; auto|]. destruct IH as [cs [I1 I2]]; [intros; eapply W; [right; eauto|auto]|].
    exists (t :: cs). split; [constructor; auto|]. cbn [map flat_map]. rewrite T2, I2. reflexivity. }
  destruct C1 as [cs [CT C2]].
  assert (V2 : flat_map sp_tokenize (map (fun kv => chars "!@" ++ fst kv ++ chars "=" ++ snd kv) (o_sweepvars o)) = map SComment (map (fun kv => chars "@" ++ fst kv ++ chars "=" ++ snd kv) (o_sweepvars o))).
  { clear - WV. induction WV as [|kv l T W IH]; auto. cbn [map flat_map]. rewrite var_tok by auto. rewrite IH. reflexivity. }
  assert (H2 : sp_tokenize (join [tab] (map (fun x => padhead (fc_title x) (fc_width x)) F)) = [SHeader (join [tab] ts)]).
  { assert (E : exists r, join [tab] ts = a0 :: r).
    { assert (E2 : exists r, join [tab] (map (fun x => padhead (fc_title x) (fc_width x)) F) = a0 :: r).
      { rewrite EF. cbn [map]. destruct (join_head [tab] (padhead (titled (c_name c0) (c_unit c0)) (c_width c0)) (map (fun x => padhead (fc_title x) (fc_width x)) F')) as [r Er]. cbn [fc_title fc_width]. rewrite Er.
        unfold padhead, titled. destruct (c_unit c0); rewrite En; cbn [app]; eauto. }
      destruct E2 as [r E2]. rewrite Ebb in E2. destruct (join [tab] ts) as [|x y]; [destruct Tts as [[? [? [K _]]] _]; discriminate|]. cbn in E2. injection E2 as -> _. eauto. }
    destruct E as [r E]. unfold sp_tokenize. rewrite Hs, E. cbn [chars list_ascii_of_string starts_with].
    assert (NB : a0 <> "!"%char) by (intros ->; discriminate Ha). destruct (Ascii.eqb_spec "!" a0) as [K|_]; [congruence|]. cbn [andb]. destruct (Ascii.eqb_spec a0 "!") as [K|_]; [congruence|]. now rewrite Ha. }
  set (rows := map (fun k => map (fun x => fc_print x (fc_val x k)) F) (seq 0 (o_points o))).
  assert (D2 : flat_map sp_tokenize (map (fun k => join [tab] (map (fun x => fc_print x (fc_val x k)) F)) (seq 0 (o_points o))) = map SData (map (join [tab]) rows)).
  { unfold rows. rewrite map_map, map_map. induction (seq 0 (o_points o)) as [|k l IH]; auto. cbn [map flat_map]. rewrite IH.
    assert (E : sp_tokenize (join [tab] (map (fun x => fc_print x (fc_val x k)) F)) = [SData (join [tab] (map (fun x => fc_print x (fc_val x k)) F))]); [|rewrite E; reflexivity].
    assert (T : tidy (join [tab] (map (fun x => fc_print x (fc_val x k)) F))).
    { apply join_tidy; [rewrite EF; discriminate|]. rewrite Forall_forall in SF |- *. intros t Ht. apply in_map_iff in Ht as [x [<- Hx]]. destruct (SF x Hx) as [_ [_ K]]. apply K. }
    rewrite EF in *. cbn [map fc_print fc_val] in *. destruct (join_head [tab] (c_print c0 (f0 k)) (map (fun x => fc_print x (fc_val x k)) F')) as [r Er]. rewrite Er in *.
    apply Forall_inv in SF. destruct SF as [_ [_ K]]. cbn [fc_print] in K. destruct (K (f0 k)) as [[[a [l' [E _]]] _] _]. destruct (HP (f0 k) a l' E) as [Q1 Q2]. rewrite E in *. cbn [app] in *. rewrite line_tok by auto. now rewrite Q1. }
  set (svs := map (fun kv => chars "@" ++ fst kv ++ chars "=" ++ snd kv) (o_sweepvars o)) in *.
  exists (cs ++ svs, join [tab] ts, map (join [tab]) rows).
  assert (NR : rows <> []) by (unfold rows; destruct (o_points o); [lia|discriminate]).
  assert (PR : sp_parse num (cs ++ svs, join [tab] ts, map (join [tab]) rows) =
     match map (fun x => (fc_title x, [map (fun k => fc_val x k) (seq 0 (o_points o))])) F with s :: vs => Ok {| s_comments := cs ++ svs; s_sweep := s; s_vars := vs |} | [] => Err KeyError end).
  { unfold sp_parse.
    assert (E1 : map (fun d => map num (split_on tab d)) (map (join [tab]) rows) = map (fun k => map (fun x => fc_val x k) F) (seq 0 (o_points o))).
    { unfold rows. rewrite !map_map. apply map_ext. intros k. rewrite split_on_join.
      - rewrite map_map. apply map_ext_in. intros x Hx. rewrite Forall_forall in SF. destruct (SF x Hx) as [_ [_ K]]. apply K.
      - rewrite EF. discriminate.
      - rewrite Forall_forall in SF |- *. intros t Ht. apply in_map_iff in Ht as [x [<- Hx]]. destruct (SF x Hx) as [_ [_ K]]. apply K. }
    rewrite E1. rewrite (strip_trimmed _ Tts), split_on_join by auto. rewrite Mts. destruct (seq 0 (o_points o)) as [|k0 ks] eqn:Eq; [destruct (o_points o); [lia|discriminate]|].
    cbn [map hd_error of_option bind]. rewrite !map_length, Nat.eqb_refl. cbn [negb].
    change (map (fun x => fc_val x k0) F :: map (fun k => map (fun x => fc_val x k) F) ks) with (map (fun k => map (fun x => fc_val x k) F) (k0 :: ks)).
    rewrite (zip_star_tab (fun x k => fc_val x k)) by discriminate.
    assert (EC : combine (map fc_title F) (map (fun c => map (fun k => fc_val c k) (k0 :: ks)) F) = map (fun x => (fc_title x, map (fun k => fc_val x k) (k0 :: ks))) F).
    { clear. induction F as [|x F IH]; auto. cbn [map combine]. f_equal. exact IH. }
    rewrite EC. rewrite fold_new.
    - cbn [app]. rewrite map_map. reflexivity.
    - cbn [map app]. rewrite map_map. cbn [fst].
      assert (ET : map (fun x : fcol V => fc_title x) F = map fst (flat_map fields (o_cols o))).
      { unfold F. rewrite !map_flat_map'. apply flat_map_ext. intros c. unfold flat_of. rewrite map_map. reflexivity. }
      rewrite ET. exact WT. }
  assert (ER : map (fun x => (fc_title x, [map (fun k => fc_val x k) (seq 0 (o_points o))])) F = map (fun tf => (fst tf, [map (snd tf) (seq 0 (o_points o))])) (flat_map fields (o_cols o))).
  { unfold F. rewrite !map_flat_map'. apply flat_map_ext. intros c. unfold flat_of. rewrite map_map. reflexivity. }
  rewrite ER in PR. destruct (map (fun tf => (fst tf, [map (snd tf) (seq 0 (o_points o))])) (flat_map fields (o_cols o))) as [|s vs] eqn:El.
  - exfalso. rewrite EF in ER. discriminate ER.
  - exists {| s_comments := cs ++ svs; s_sweep := s; s_vars := vs |}. split; [|split; [|split; [exact PR|]]].
    + rewrite !flat_map_app, C2, V2, D2. cbn [flat_map]. rewrite H2, app_nil_r. cbn [group_tokens]. rewrite map_app, <- !app_assoc. reflexivity.
    + unfold has_data. cbn [snd]. destruct rows; [congruence|discriminate].
    + split; [exists cs; split; [exact CT|reflexivity]|]. cbn [s_sweep s_vars]. now rewrite El.
Qed.

Lemma save_tokens : forall bs, bs <> [] -> Forall (writable num) bs -> exists gs rs, flat_map sp_tokenize (sp_save bs) = flat_map group_tokens gs /\ Forall has_data gs /\ length gs = length bs /\
  sp_blocks num gs None = (rs, None) /\ Forall2 reads bs rs.
Proof.
  intros bs NE F. induction F as [|b bs W F IH]; [congruence|]. destruct (block_read b W) as [g [r [T [D [P R]]]]]. destruct bs as [|b' bs].
  - exists [g], [r]. cbn [sp_save flat_map]. rewrite T, app_nil_r. split; auto. split; [constructor; auto|]. split; auto. split; [cbn; rewrite P; reflexivity|constructor; auto].
  - destruct IH as [gs [rs [T' [D' [L' [P' R']]]]]]; [discriminate|]. exists (g :: gs), (r :: rs).
    change (sp_save (b :: b' :: bs)) with (sp_format (o_comments b) (o_sweepvars b) (o_points b) (o_cols b) ++ [[]] ++ sp_save (b' :: bs)).
    rewrite !flat_map_app, T, T'. cbn [flat_map app]. split; auto. split; [constructor; auto|]. split; [cbn; now rewrite L'|]. split; [cbn [sp_blocks]; rewrite P, P'; reflexivity|constructor; auto].
Qed.

(** What is written is read: the same blocks in the same order, the same titles
    and values, and the comments. *)
Theorem C43_roundtrip : forall bs, bs <> [] -> Forall (writable num) bs ->
  exists rs, sp_read num (sp_save bs) = (rs, None) /\ Forall2 reads bs rs.
Proof.
  intros bs NE F. destruct (save_tokens bs NE F) as [gs [rs [T [D [L [P R]]]]]]. exists rs. split; auto. unfold sp_read.
  assert (E : sp_groups (Before []) (flat_map sp_tokenize (sp_save bs)) = (gs, None)); [|rewrite E; exact P].
  assert (NG : gs <> []) by (intros ->; destruct bs; [congruence|discriminate]).
  apply C43_groups. split; auto. split; auto.
  destruct (exists_last NG) as [gs' [g ->]]. rewrite last_last. apply Forall_app in D as [_ D]. now apply Forall_inv in D.
Qed.
End Write.
Print Assumptions C43_roundtrip.

(** *** Examples and deviations *)
Definition xcol (s u : string) (w : nat) (d : sp_data nat) : sp_col nat := {| c_name := chars s; c_unit := chars u; c_width := w; c_print := print_nat; c_data := d |}.
Definition xout : sp_out nat := {| o_comments := [chars "!! made today "]; o_sweepvars := [(chars "T", chars "25")]; o_points := 2;
  o_cols := [xcol "freq" "Hz" 8 (Real (fun k => 10 + k)); xcol "S" "" 0 (MCplx 1 2 (fun k i j => (100 * k + 10 * i + j, k)))] |}.
Lemma digits_tidy : forall v, tidy (print_nat v) /\ no_tab (print_nat v) /\ digits_value (print_nat v) = v.
Proof.
  intros v. pose proof (print_nat_digits v) as D. rewrite Forall_forall in D. split; [|split; [apply no_tab_nat|apply print_nat_value]].
  apply word_trimmed. split; [apply print_nat_nonempty|]. intros c H. apply digit_not_space. auto.
Qed.
Lemma digit_plain : forall c, is_digit c = true -> head_char c = false /\ c <> "!"%char.
Proof. intros c H. split; [|intros ->; discriminate]. destruct c as [b0 b1 b2 b3 b4 b5 b6 b7]. destruct b0, b1, b2, b3, b4, b5, b6, b7; try reflexivity; discriminate. Qed.
Example C43_writable_ex : writable digits_value xout.
Proof.
  constructor.
  - cbn. lia.
  - constructor; [|constructor; [|constructor]]; (split; [|split; [|split; [|apply digits_tidy]]]).
    + split; [eexists; eexists; split; reflexivity|]. exists "q"%char, (chars "fre"). split; reflexivity.
    + intros H; cbn in H; repeat (destruct H as [H|H]; [discriminate|]); exact H.
    + intros H; cbn in H; repeat (destruct H as [H|H]; [discriminate|]); exact H.
    + split; [eexists; eexists; split; reflexivity|]. exists "S"%char, []. split; reflexivity.
    + intros H; cbn in H; repeat (destruct H as [H|H]; [discriminate|]); exact H.
    + intros H; cbn in H; repeat (destruct H as [H|H]; [discriminate|]); exact H.
  - eexists. eexists. eexists. split; [reflexivity|]. split; [reflexivity|]. split; [eexists; eexists; split; reflexivity|].
    intros v a l E. pose proof (print_nat_digits v) as D. cbn [c_print xcol] in E. rewrite E in D. apply Forall_inv in D. now apply digit_plain.
  - apply (NoDup_count_occ' (list_eq_dec ascii_dec)). intros x H. vm_compute in H. repeat (destruct H as [H|H]; [subst x; vm_compute; reflexivity|]). destruct H.
  - intros c t [<-|[]] [p [b [E [P _]]]]. cbn [o_comments xout] in E. destruct t as [|x t]; [reflexivity|].
    assert (K : In x (chars "!! made today ") /\ True) by (split; auto; rewrite E; apply in_app_iff; right; left; auto).
    destruct (starts_with (chars "Fullcomments") (x :: t)) eqn:S1; auto. exfalso. change (Ascii.eqb "F" x && starts_with (chars "ullcomments") t = true) in S1. apply andb_true_iff in S1 as [S1 _]. apply Ascii.eqb_eq in S1. subst x. destruct K as [K _]. cbn in K. repeat (destruct K as [K|K]; [discriminate|]). exact K.
  - constructor; [|constructor]. cbn [snd]. split; [exists "2"%char, (chars "5"); split; reflexivity|exists "5"%char, (chars "2"); split; reflexivity].
Qed.
Example C43_ex : sp_save [xout; xout] <> [] /\
  match sp_read digits_value (sp_save [xout; xout]) with
  | ([b; _], None) => s_comments b = [chars " made today"; chars "@T=25"] /\ s_sweep b = (chars "freq [Hz]", [[10; 11]]) /\
      s_vars b = [(chars "Re(S11)", [[0; 100]]); (chars "Im(S11)", [[0; 1]]); (chars "Re(S12)", [[1; 101]]); (chars "Im(S12)", [[0; 1]])]
  | _ => False
  end.
Proof. split; [discriminate|]. vm_compute. auto. Qed.

(** A data line beginning with a letter is taken for a header: a sweep value
    printed as nan is lost and the file is not accepted. *)
Theorem C43_letter_refuted : exists (num : list ascii -> option nat) pr, (forall v, num (pr v) = v) /\
  snd (sp_read num (sp_format [] [] 2 [{| c_name := chars "f"; c_unit := []; c_width := 0; c_print := pr; c_data := Real (fun k => if Nat.eqb k 0 then Some 1 else None) |}])) = Some HFError.
Proof.
  exists (fun l => if eqb_chars l (chars "nan") then None else Some (digits_value l)), (fun v => match v with None => chars "nan" | Some n => print_nat n end).
  split; [|vm_compute; reflexivity]. intros [n|]; [|reflexivity]. rewrite print_nat_value.
  rewrite eqb_chars_neq; [reflexivity|]. intros E. pose proof (print_nat_digits n) as D. rewrite E in D. apply Forall_inv in D. discriminate.
Qed.
Print Assumptions C43_letter_refuted.

(** Without points nothing can be read. *)
Theorem C43_empty_refuted : snd (sp_read digits_value (sp_format [] [] 0 [xcol "f" "" 0 (Real (fun k => k))])) = Some HFError.
Proof. vm_compute. reflexivity. Qed.
Print Assumptions C43_empty_refuted.

(** A later line with fewer cells removes variables without a word, one with more
    loses its last cells. *)
Theorem C43_ragged_refuted : exists h d1 d2 d3,
  (exists b, sp_parse digits_value ([], h, [d1; d2]) = Ok b /\ s_vars b = []) /\
  (exists b, sp_parse digits_value ([], h, [d1; d3]) = Ok b /\ s_vars b = [(chars "y", [[2; 4]])]) /\
  length (split_on tab h) = 2 /\ length (split_on tab d1) = 2 /\ length (split_on tab d3) = 3.
Proof.
  exists (join [tab] [chars "x"; chars "y"]), (join [tab] [chars "1"; chars "2"]), (chars "3"), (join [tab] [chars "3"; chars "4"; chars "5"]).
  split; [eexists; split; vm_compute; reflexivity|]. split; [eexists; split; vm_compute; reflexivity|]. vm_compute. auto.
Qed.
Print Assumptions C43_ragged_refuted.
