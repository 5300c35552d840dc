(** C44: CITI files. *)
From Coq Require Import Ascii String List Arith ZArith Bool Lia.
From Verif Require Import Model_NdArray Model_Text Model_Words Model_Spdata Model_Stream Model_Citi Spec_TsText Spec_Spdata Spec_Citi
  Proofs_NdArray Proofs_Text Proofs_Words Proofs_TsText Prop_TsText Prop_Spdata.
Import ListNotations.
Local Open Scope string_scope.
Local Open Scope nat_scope.
Local Open Scope list_scope.

(** *** Combinators *)
Lemma many_loop_run : forall tag rads cur ts acc k ks,
  map kind (cur :: ts) = map (fun r => (tag, r)) rads ++ k :: ks -> fst k <> tag ->
  exists ts', many_loop rad rad tag (fun x => x) cur ts acc = (Ok (acc ++ rads), ts') /\ map kind ts' = k :: ks.
Proof.
  intros tag rads. induction rads as [|r rads IH]; intros cur ts acc k ks E N.
  - cbn [map app] in E. injection E as E1 E2. exists (cur :: ts). destruct ts as [|t ts]; cbn [many_loop];
    assert (F : String.eqb (t_tag cur) tag = false) by (apply String.eqb_neq; intros K; apply N; rewrite <- E1; exact K); rewrite F, app_nil_r; split; auto; cbn [map]; rewrite E1; f_equal; exact E2.
  - cbn [map app] in E. injection E as E1 E2 E3. destruct ts as [|t ts]; [destruct rads; discriminate|].
    change (many_loop rad rad tag (fun x => x) cur (t :: ts) acc) with (if String.eqb (t_tag cur) tag then many_loop rad rad tag (fun x => x) t ts (acc ++ [t_rad cur]) else (Ok acc, cur :: t :: ts)).
    rewrite E1, String.eqb_refl. destruct (IH t ts (acc ++ [t_rad cur]) k ks E3 N) as [ts' [H1 H2]]. exists ts'. split; auto. rewrite H1, E2, <- app_assoc. reflexivity.
Qed.
Lemma many_ok : forall tag rads k ks ts, map kind ts = map (fun r => (tag, r)) rads ++ k :: ks -> fst k <> tag -> fst k <> "?" ->
  exists ts', many tag ts = (Ok rads, ts') /\ map kind ts' = k :: ks.
Proof.
  intros tag rads k ks ts E N Q. destruct ts as [|t ts]; [destruct rads; discriminate|]. destruct (many_loop_run tag rads t ts [] k ks E N) as [ts' [H1 H2]]. exists ts'. split; auto.
  unfold many, many_optional. cbn [s_next]. rewrite H1. cbn [app guard]. destruct ts' as [|t' ts']; auto.
  assert (F : String.eqb (t_tag t') "?" = false) by (apply String.eqb_neq; intros K; apply Q; cbn [map] in H2; injection H2 as H2 _; rewrite <- H2; exact K). now rewrite F.
Qed.
Lemma one_ok : forall tags tag r ks ts, map kind ts = (tag, r) :: ks -> In tag tags -> tag <> "?" ->
  exists ts', one_in tags ts = (Ok [r], ts') /\ map kind ts' = ks.
Proof.
  intros tags tag r ks ts E I Q. destruct ts as [|t ts]; [discriminate|]. cbn [map] in E. injection E as E1 E2 E3. exists ts. split; auto. unfold one_in, one_of. cbn [s_next].
  rewrite E1. assert (F : String.eqb tag "?" = false) by (now apply String.eqb_neq). rewrite F. assert (G : existsb (String.eqb tag) tags = true) by (apply existsb_exists; exists tag; split; [exact I|apply String.eqb_refl]).
  rewrite G, E2. reflexivity.
Qed.
Lemma opt_some : forall tag r ks ts, map kind ts = (tag, r) :: ks -> tag <> "?" -> exists ts', opt tag ts = (Ok (Some r), ts') /\ map kind ts' = ks.
Proof.
  intros tag r ks ts E Q. destruct ts as [|t ts]; [discriminate|]. cbn [map] in E. injection E as E1 E2 E3. exists ts. split; auto. unfold opt, optional. cbn [s_next]. rewrite E1.
  assert (F : String.eqb tag "?" = false) by (now apply String.eqb_neq). rewrite F, String.eqb_refl, E2. reflexivity.
Qed.
Lemma opt_none : forall tag k ks ts, map kind ts = k :: ks -> fst k <> tag -> fst k <> "?" -> opt tag ts = (Ok None, ts).
Proof.
  intros tag k ks ts E N Q. destruct ts as [|t ts]; [discriminate|]. cbn [map] in E. injection E as E1 E2. unfold opt, optional. cbn [s_next]. rewrite <- E1 in N, Q. cbn [fst kind] in N, Q.
  apply String.eqb_neq in N. apply String.eqb_neq in Q. now rewrite N, Q.
Qed.

Section Parse.
Context {V : Type} (float : list ascii -> result V) (polar : V -> V -> V * V) (linspace : V -> V -> Z -> result (list V)).

Lemma Forall2_imp : forall {X Y} (P Q : X -> Y -> Prop) l m, (forall x y, P x y -> Q x y) -> Forall2 P l m -> Forall2 Q l m.
Proof. intros X Y P Q l m H F. induction F; constructor; auto. Qed.
Lemma two_floats_ok : forall l r i x y, pair_text l r i -> float r = Ok x -> float i = Ok y -> two_floats float l = Ok (x, y).
Proof.
  intros l r i x y [H [H1 H2]] X Y. unfold two_floats. rewrite (strip_trimmed_of _ _ H). rewrite split_on_app by exact H1. rewrite split_on_none by exact H2. rewrite X. cbn [bind]. rewrite Y. reflexivity.
Qed.
Lemma handle_ok : forall typ rows vs, values float polar typ rows vs -> handle_data float polar rows typ = Ok vs.
Proof.
  intros typ rows vs [K F]. unfold handle_data. destruct K as [-> | [-> | ->]].
  - cbn [eqb_chars]. rewrite eqb_chars_refl. apply mapM_Forall2. refine (Forall2_imp _ _ _ _ _ F). intros l v H. inversion H; subst. rewrite H0. reflexivity.
  - change (eqb_chars (chars "RI") (chars "MAG")) with false. cbn iota. rewrite eqb_chars_refl. apply mapM_Forall2. refine (Forall2_imp _ _ _ _ _ F). intros l v H. inversion H; subst. rewrite (two_floats_ok _ _ _ _ _ H0 H1 H2). reflexivity.
  - change (eqb_chars (chars "MAGANGLE") (chars "MAG")) with false. change (eqb_chars (chars "MAGANGLE") (chars "RI")) with false. cbn iota. rewrite eqb_chars_refl. apply mapM_Forall2. refine (Forall2_imp _ _ _ _ _ F). intros l v H. inversion H; subst. rewrite (two_floats_ok _ _ _ _ _ H0 H1 H2). reflexivity.
Qed.

Lemma map_rad : forall rows : list (list ascii), map rad_text (map Text rows) = rows.
Proof. intros rows. rewrite map_map. cbn [rad_text]. apply map_id. Qed.
Lemma rows_kinds_map : forall rows, rows_kinds rows = map (fun r => ("DATA", r)) (map Text rows).
Proof. intros rows. unfold rows_kinds. now rewrite map_map. Qed.
Lemma coms_map : forall cs, coms cs = map (fun r => ("COMMENT", r)) (map Text cs).
Proof. intros cs. unfold coms. now rewrite map_map. Qed.

Definition sweep_def (s : csweep) : rad := Words [s_name s; s_typ s; s_n s].
Definition data_def (d : cdata) : rad := Words [da_name d; da_typ d].

Lemma sweep_ok : forall sws vss iv ts ks, Forall2 (sweep_is float polar linspace) sws vss -> map kind ts = flat_map sweep_kinds sws ++ ks ->
  exists ts', sweep_loop float polar linspace (map sweep_def sws) iv ts = (Ok (fold_left (fun iv p => iv_set (s_name (fst p)) (snd p) iv) (combine sws vss) iv), ts') /\ map kind ts' = ks.
Proof.
  intros sws vss iv ts ks F. revert iv ts. induction F as [|s vs sws vss [HN H] F IH]; intros iv ts E; [exists ts; split; auto|].
  cbn [map flat_map] in *. rewrite <- app_assoc in E. cbn [sweep_loop sweep_def rad_words]. destruct HN as [n HN]. rewrite HN. cbn [lift]. unfold sweep_kinds at 1 in E. destruct (s_src s) as [rows|l].
  - destruct H as [H1 H2]. cbn [app] in E. destruct (one_ok ["VAR_LIST_BEGIN"; "SEG_LIST_BEGIN"] _ _ _ _ E ltac:(left; reflexivity) ltac:(discriminate)) as [t1 [K1 E1]]. rewrite K1. cbn [pbind hd rad_text].
    rewrite H1. rewrite rows_kinds_map, <- app_assoc in E1. cbn [app] in E1. destruct (many_ok _ _ _ _ _ E1 ltac:(discriminate) ltac:(discriminate)) as [t2 [K2 E2]]. rewrite K2. cbn [pbind].
    rewrite map_rad, (handle_ok _ _ _ H2). cbn [lift]. destruct (one_ok ["VAR_LIST_END"] _ _ _ _ E2 ltac:(left; reflexivity) ltac:(discriminate)) as [t3 [K3 E3]]. rewrite K3. cbn [pbind].
    destruct (IH (iv_set (s_name s) vs iv) t3 E3) as [t4 [K4 E4]]. exists t4. split; auto.
  - destruct H as [H1 [w [u1 [u2 [u3 [a [b [k [xs [HS [A [B [C [D ->]]]]]]]]]]]]]]. cbn [app] in E. destruct (one_ok ["VAR_LIST_BEGIN"; "SEG_LIST_BEGIN"] _ _ _ _ E ltac:(right; left; reflexivity) ltac:(discriminate)) as [t1 [K1 E1]]. rewrite K1. cbn [pbind hd rad_text].
    rewrite H1. destruct (one_ok ["SEG"] _ _ _ _ E1 ltac:(left; reflexivity) ltac:(discriminate)) as [t2 [K2 E2]]. rewrite K2. cbn [pbind hd rad_text]. rewrite words_strip, (spaced_words _ _ HS). rewrite A. cbn [bind]. rewrite B. cbn [bind]. rewrite C. cbn [bind]. rewrite D. cbn [lift].
    destruct (one_ok ["SEG_LIST_END"] _ _ _ _ E2 ltac:(left; reflexivity) ltac:(discriminate)) as [t3 [K3 E3]]. rewrite K3. cbn [pbind].
    destruct (IH (iv_set (s_name s) (map Re xs) iv) t3 E3) as [t4 [K4 E4]]. exists t4. split; auto.
Qed.

Lemma iv_set_new : forall n v (iv : list (list ascii * list (cnum V))), ~ In n (map fst iv) -> iv_set n v iv = iv ++ [(n, v)].
Proof.
  intros n v iv. induction iv as [|[m w] iv IH]; intros N; auto. cbn [iv_set]. destruct (eqb_chars m n) eqn:E; [apply eqb_chars_spec in E; exfalso; apply N; left; auto|].
  cbn [app]. rewrite IH; auto. intros K. apply N. right; auto.
Qed.
Lemma iv_fold : forall (sws : list csweep) (vss : list (list (cnum V))) iv, length sws = length vss -> NoDup (map fst iv ++ map s_name sws) ->
  fold_left (fun iv p => iv_set (s_name (fst p)) (snd p) iv) (combine sws vss) iv = iv ++ combine (map s_name sws) vss.
Proof.
  induction sws as [|s sws IH]; intros [|vs vss] iv L N; try discriminate; [cbn; now rewrite app_nil_r|]. cbn [combine fold_left map fst snd]. rewrite iv_set_new.
  - rewrite IH; [now rewrite <- app_assoc|auto|]. rewrite map_app. cbn [map fst]. rewrite <- app_assoc. exact N.
  - cbn [map] in N. apply NoDup_remove_2 in N. intros K. apply N. apply in_or_app. left; auto.
Qed.
Lemma iv_get_in : forall n v (iv : list (list ascii * list (cnum V))), NoDup (map fst iv) -> In (n, v) iv -> iv_get n iv = Ok v.
Proof.
  intros n v iv. induction iv as [|[m w] iv IH]; intros N I; [destruct I|]. cbn [iv_get]. cbn [map fst] in N. inversion N; subst. destruct I as [E|I].
  - injection E as -> ->. now rewrite eqb_chars_refl.
  - destruct (eqb_chars m n) eqn:E; [|auto]. apply eqb_chars_spec in E. subst. exfalso. apply H1. apply in_map_iff. exists (n, v). auto.
Qed.
Lemma combine_fst : forall {X Y} (a : list X) (b : list Y), length a = length b -> map fst (combine a b) = a.
Proof. intros X Y. induction a as [|x a IH]; intros [|y b] L; try discriminate; auto. cbn. f_equal. apply IH. auto. Qed.
Lemma shape_ok : forall (ns : list (list ascii)) (vss : list (list (cnum V))), length ns = length vss -> NoDup ns ->
  mapM (fun n => do v <- iv_get n (combine ns vss); Ok (length v)) ns = Ok (map (@length _) vss).
Proof.
  intros ns vss L N. assert (G : forall n v, In (n, v) (combine ns vss) -> iv_get n (combine ns vss) = Ok v) by (intros n v I; apply iv_get_in; [rewrite combine_fst; auto|exact I]).
  apply mapM_Forall2. revert G. generalize (combine ns vss) at 2 3 as iv. revert vss L. clear N. induction ns as [|n ns IH]; intros [|v vss] L iv G; try discriminate; [constructor|].
  cbn [map combine] in *. constructor; [rewrite (G n v); [reflexivity|left; reflexivity]|]. apply IH; auto. intros m w I. apply G. right; exact I.
Qed.

Lemma data_ok : forall dims shape das vss acc ts ks, Forall2 (fun d vs => values float polar (da_typ d) (da_rows d) vs) das vss ->
  Forall (fun vs => length vs = prodn shape) vss -> map kind ts = flat_map data_kinds das ++ ks ->
  exists ts', data_loop float polar (map data_def das) dims shape acc ts = (Ok (acc ++ map (fun p => mkCVar (da_name (fst p)) dims shape (snd p)) (combine das vss)), ts') /\ map kind ts' = ks.
Proof.
  intros dims shape das vss acc ts ks F. revert acc ts. induction F as [|d vs das vss H F IH]; intros acc ts L E; [exists ts; split; auto; cbn; now rewrite app_nil_r|].
  cbn [map flat_map] in *. rewrite <- app_assoc in E. cbn [data_loop data_def rad_words]. unfold data_kinds at 1 in E. cbn [app] in E.
  destruct (one_ok ["DATA_LIST_BEGIN"] _ _ _ _ E ltac:(left; reflexivity) ltac:(discriminate)) as [t1 [K1 E1]]. rewrite K1. cbn [pbind].
  rewrite rows_kinds_map, <- app_assoc in E1. cbn [app] in E1. destruct (many_ok _ _ _ _ _ E1 ltac:(discriminate) ltac:(discriminate)) as [t2 [K2 E2]]. rewrite K2. cbn [pbind].
  rewrite map_rad, (handle_ok _ _ _ H). cbn [lift]. inversion L; subst. rewrite H2, Nat.eqb_refl. destruct (one_ok ["DATA_LIST_END"] _ _ _ _ E2 ltac:(left; reflexivity) ltac:(discriminate)) as [t3 [K3 E3]]. rewrite K3. cbn [pbind].
  destruct (IH (acc ++ [mkCVar (da_name d) dims shape vs]) t3 H3 E3) as [t4 [K4 E4]]. exists t4. split; [|exact E4]. refine (eq_trans K4 _). cbn [combine map fst snd]. now rewrite <- app_assoc.
Qed.

(** A [many] whose run may be empty, before a list whose head is known. *)
Definition starts (tags : list string) (l : list (string * rad)) : Prop := exists k ks, l = k :: ks /\ In (fst k) tags.
Lemma many_run : forall tag rads l ts tags, map kind ts = map (fun r => (tag, r)) rads ++ l -> starts tags l -> ~ In tag tags -> ~ In "?" tags ->
  exists ts', many tag ts = (Ok rads, ts') /\ map kind ts' = l.
Proof. intros tag rads l ts tags E [k [ks [-> I]]] N Q. apply (many_ok tag rads k ks ts E); intros K; rewrite K in I; auto. Qed.
Lemma starts_map : forall {X} tag (f : X -> rad) xs l tags, In tag tags -> starts tags l -> starts tags (map (fun x => (tag, f x)) xs ++ l).
Proof. intros X tag f xs l tags I H. destruct xs as [|x xs]; [exact H|]. exists (tag, f x), (map (fun x => (tag, f x)) xs ++ l). split; auto. Qed.
Lemma starts_flat : forall {X} (f : X -> list (string * rad)) xs l tags, (forall x, starts tags (f x)) -> starts tags l -> starts tags (flat_map f xs ++ l).
Proof.
  intros X f xs l tags I H. destruct xs as [|x xs]; [exact H|]. destruct (I x) as [k [ks [E K]]]. cbn [flat_map]. rewrite E. exists k, ((ks ++ flat_map f xs) ++ l). split; [rewrite <- !app_assoc; reflexivity|exact K].
Qed.
Lemma starts_weak : forall t1 t2 l, incl t1 t2 -> starts t1 l -> starts t2 l.
Proof. intros t1 t2 l I [k [ks [E K]]]. exists k, ks. split; auto. Qed.
Lemma starts_nonempty : forall {X} (f : X -> list (string * rad)) xs l tags, (forall x, starts tags (f x)) -> xs <> [] -> starts tags (flat_map f xs ++ l).
Proof.
  intros X f xs l tags I H. destruct xs as [|x xs]; [congruence|]. destruct (I x) as [k [ks [E K]]]. cbn [flat_map]. rewrite E. exists k, ((ks ++ flat_map f xs) ++ l). split; [rewrite <- !app_assoc; reflexivity|exact K].
Qed.
Lemma starts_map_ne : forall {X} tag (f : X -> rad) xs l, xs <> [] -> starts [tag] (map (fun x => (tag, f x)) xs ++ l).
Proof. intros X tag f xs l H. destruct xs as [|x xs]; [congruence|]. exists (tag, f x), (map (fun x => (tag, f x)) xs ++ l). split; [auto|left; auto]. Qed.
Lemma sweep_starts : forall s, starts ["VAR_LIST_BEGIN"; "SEG_LIST_BEGIN"] (sweep_kinds s).
Proof. intros s. unfold sweep_kinds. destruct (s_src s); eexists; eexists; split; try reflexivity; cbn; auto. Qed.
Lemma data_starts : forall d, starts ["DATA_LIST_BEGIN"] (data_kinds d).
Proof. intros d. unfold data_kinds. eexists; eexists; split; try reflexivity; cbn; auto. Qed.

Lemma time_read : forall cs cm, Forall2 comment_read cs cm -> mapM time_comment cs = Ok cm.
Proof.
  intros cs cm F. apply mapM_Forall2. induction F as [|c t cs cm H F IH]; constructor; auto.
  unfold time_comment. destruct H as [c H|l y m d h mi se H]; [now rewrite H|].
  rewrite starts_with_app, words_strip, (spaced_words _ _ H). reflexivity.
Qed.

Lemma parse_head : forall f cm sw da ts rest,
  says float polar linspace f cm sw da -> map kind ts = file_kinds f ++ rest -> exists ts', map kind ts' = flat_map data_kinds (f_data f) ++ rest /\
  ci_parse float polar linspace ts =
  pbind (data_loop float polar (map data_def (f_data f)) (map s_name (f_sweeps f)) (map (@length _) sw) [] ts') (fun vs s =>
    (Ok (mkCBlock (f_name f) cm (combine (map s_name (f_sweeps f)) sw) vs), s)).
Proof.
  intros f cm sw da ts rest [SD SC2 SC46 ST SN SS SV] E. unfold file_kinds in E. rewrite !coms_map in E.
  assert (LS : length (f_sweeps f) = length sw) by (clear - SS; induction SS; cbn; auto).
  repeat rewrite <- app_assoc in E.
  set (T6 := flat_map data_kinds (f_data f) ++ rest) in E.
  assert (S6 : starts ["DATA_LIST_BEGIN"] T6) by (apply starts_nonempty; [exact data_starts|exact SD]).
  set (T5 := flat_map sweep_kinds (f_sweeps f) ++ map (fun r => ("COMMENT", r)) (map Text (f_c6 f)) ++ T6) in E.
  assert (S5 : starts ["VAR_LIST_BEGIN"; "SEG_LIST_BEGIN"; "DATA_LIST_BEGIN"] T5).
  { unfold T5. destruct (f_sweeps f) as [|s ss] eqn:EF.
    - destruct (SC46 eq_refl) as [_ ->]. cbn [flat_map map app]. eapply starts_weak; [|exact S6]. intros x [<-|[]]. cbn; auto.
    - eapply starts_weak; [|apply starts_nonempty; [exact sweep_starts|discriminate]]. intros x I. cbn in *. tauto. }
  set (T4 := map (fun d : cdata => ("DATADEF", Words [da_name d; da_typ d])) (f_data f) ++ map (fun r => ("COMMENT", r)) (map Text (f_c5 f)) ++ T5) in E.
  assert (S4 : starts ["DATADEF"] T4) by (apply (starts_map_ne "DATADEF" (fun d => Words [da_name d; da_typ d])); exact SD).
  set (T3 := map (fun s : csweep => ("VARDEF", Words [s_name s; s_typ s; s_n s])) (f_sweeps f) ++ map (fun r => ("COMMENT", r)) (map Text (f_c4 f)) ++ T4) in E.
  assert (S3 : starts ["VARDEF"; "DATADEF"] T3).
  { unfold T3. destruct (f_sweeps f) as [|s ss] eqn:EF.
    - destruct (SC46 eq_refl) as [-> _]. cbn [flat_map map app]. eapply starts_weak; [|exact S4]. intros x [<-|[]]. cbn; auto.
    - eapply starts_weak; [|apply (starts_map_ne "VARDEF" (fun s => Words [s_name s; s_typ s; s_n s])); discriminate]. intros x I. cbn in *. tauto. }
  set (T2 := [("NAME", Text (f_name f))] ++ map (fun r => ("COMMENT", r)) (map Text (f_c3 f)) ++ T3) in E.
  set (T1 := (match f_ver f with Some v => [("CITIFILE", Text v)] | None => [] end) ++ map (fun r => ("COMMENT", r)) (map Text (f_c2 f)) ++ T2) in E.
  assert (S1 : starts ["CITIFILE"; "NAME"] T1).
  { unfold T1. destruct (f_ver f) as [v|]; [eexists; eexists; split; [reflexivity|cbn; auto]|]. rewrite SC2 by reflexivity. eexists; eexists; split; [reflexivity|cbn; auto]. }
  unfold ci_parse.
  destruct (many_run "COMMENT" _ _ _ _ E S1 ltac:(cbn; intuition discriminate) ltac:(cbn; intuition discriminate)) as [t1 [K1 E1]]. rewrite K1. cbn [pbind].
  assert (HO : exists r t2, opt "CITIFILE" t1 = (Ok r, t2) /\ map kind t2 = map (fun r => ("COMMENT", r)) (map Text (f_c2 f)) ++ T2).
  { unfold T1 in E1. destruct (f_ver f) as [v|].
    - cbn [app] in E1. destruct (opt_some _ _ _ _ E1 ltac:(discriminate)) as [t2 [K2 E2]]. eauto.
    - cbn [app] in E1. rewrite SC2 in * by reflexivity. cbn [map app] in E1. unfold T2 in E1. cbn [app] in E1. exists None, t1. split; [apply (opt_none _ _ _ _ E1); discriminate|]. rewrite E1. reflexivity. }
  destruct HO as [r [t2 [K2 E2]]]. rewrite K2. cbn [pbind].
  assert (S2 : starts ["NAME"] T2) by (eexists; eexists; split; [reflexivity|cbn; auto]).
  destruct (many_run "COMMENT" _ _ _ _ E2 S2 ltac:(cbn; intuition discriminate) ltac:(cbn; intuition discriminate)) as [t3 [K3 E3]]. rewrite K3. cbn [pbind].
  unfold T2 in E3. cbn [app] in E3. destruct (one_ok ["NAME"] _ _ _ _ E3 ltac:(left; reflexivity) ltac:(discriminate)) as [t4 [K4 E4]]. rewrite K4. cbn [pbind].
  destruct (many_run "COMMENT" _ _ _ _ E4 S3 ltac:(cbn; intuition discriminate) ltac:(cbn; intuition discriminate)) as [t5 [K5 E5]]. rewrite K5. cbn [pbind].
  unfold T3 in E5. change (fun s : csweep => ("VARDEF", Words [s_name s; s_typ s; s_n s])) with (fun s => ("VARDEF", sweep_def s)) in E5. rewrite <- (map_map sweep_def (fun r => ("VARDEF", r))) in E5.
  assert (S4' : starts ["COMMENT"; "DATADEF"] (map (fun r => ("COMMENT", r)) (map Text (f_c4 f)) ++ T4)).
  { apply (starts_map "COMMENT" (fun r : rad => r)); [cbn; auto|]. eapply starts_weak; [|exact S4]. intros x [<-|[]]. cbn; auto. }
  destruct (many_run "VARDEF" _ _ _ _ E5 S4' ltac:(cbn; intuition discriminate) ltac:(cbn; intuition discriminate)) as [t6 [K6 E6]]. rewrite K6. cbn [pbind].
  destruct (many_run "COMMENT" _ _ _ _ E6 S4 ltac:(cbn; intuition discriminate) ltac:(cbn; intuition discriminate)) as [t7 [K7 E7]]. rewrite K7. cbn [pbind].
  unfold T4 in E7. change (fun d : cdata => ("DATADEF", Words [da_name d; da_typ d])) with (fun d => ("DATADEF", data_def d)) in E7. rewrite <- (map_map data_def (fun r => ("DATADEF", r))) in E7.
  assert (S5' : starts ["COMMENT"; "VAR_LIST_BEGIN"; "SEG_LIST_BEGIN"; "DATA_LIST_BEGIN"] (map (fun r => ("COMMENT", r)) (map Text (f_c5 f)) ++ T5)).
  { apply (starts_map "COMMENT" (fun r : rad => r)); [cbn; auto|]. eapply starts_weak; [|exact S5]. intros x I. cbn in *. tauto. }
  destruct (many_run "DATADEF" _ _ _ _ E7 S5' ltac:(cbn; intuition discriminate) ltac:(cbn; intuition discriminate)) as [t8 [K8 E8]]. rewrite K8. cbn [pbind].
  destruct (many_run "COMMENT" _ _ _ _ E8 S5 ltac:(cbn; intuition discriminate) ltac:(cbn; intuition discriminate)) as [t9 [K9 E9]]. rewrite K9. cbn [pbind].
  unfold T5 in E9. destruct (sweep_ok _ _ [] _ _ SS E9) as [t10 [K10 E10]]. rewrite K10. cbn [pbind].
  destruct (many_run "COMMENT" _ _ _ _ E10 S6 ltac:(cbn; intuition discriminate) ltac:(cbn; intuition discriminate)) as [t11 [K11 E11]]. rewrite K11. cbn [pbind].
  rewrite !map_app, !map_rad. rewrite (time_read _ _ ST). cbn [lift].
  rewrite iv_fold; [|exact LS|exact SN]. cbn [app].
  assert (EN : map (fun d => hd [] (rad_words d)) (map sweep_def (f_sweeps f)) = map s_name (f_sweeps f)) by (rewrite map_map; apply map_ext; reflexivity). rewrite EN.
  rewrite shape_ok; [|rewrite map_length; exact LS|exact SN]. cbn [lift].
  exists t11. split; [exact E11|reflexivity].
Qed.
(** A file which is in order is read as what it says, whatever follows the last
    END. *)
Theorem C44_parse : forall f cm sw da ts rest,
  says float polar linspace f cm sw da -> map kind ts = file_kinds f ++ rest ->
  Forall (fun vs => length vs = prodn (map (@length _) sw)) da ->
  fst (ci_parse float polar linspace ts) =
  Ok (mkCBlock (f_name f) cm (combine (map s_name (f_sweeps f)) sw)
       (map (fun p => mkCVar (da_name (fst p)) (map s_name (f_sweeps f)) (map (@length _) sw) (snd p)) (combine (f_data f) da))).
Proof.
  intros f cm sw da ts rest S0 E L. destruct (parse_head _ _ _ _ _ _ S0 E) as [t [ET EP]]. rewrite EP. destruct S0 as [_ _ _ _ _ _ SV].
  destruct (data_ok (map s_name (f_sweeps f)) (map (@length _) sw) _ _ [] _ _ SV L ET) as [t12 [K12 E12]]. rewrite K12. reflexivity.
Qed.

Lemma data_bad : forall dims shape das vss acc ts ks, Forall2 (fun d vs => values float polar (da_typ d) (da_rows d) vs) das vss ->
  ~ Forall (fun vs => length vs = prodn shape) vss -> map kind ts = flat_map data_kinds das ++ ks ->
  exists ts', data_loop float polar (map data_def das) dims shape acc ts = (Err ValueError, ts').
Proof.
  intros dims shape das vss acc ts ks F. revert acc ts. induction F as [|d vs das vss H F IH]; intros acc ts L E; [exfalso; apply L; constructor|].
  cbn [map flat_map] in *. rewrite <- app_assoc in E. cbn [data_loop data_def rad_words]. unfold data_kinds at 1 in E. cbn [app] in E.
  destruct (one_ok ["DATA_LIST_BEGIN"] _ _ _ _ E ltac:(left; reflexivity) ltac:(discriminate)) as [t1 [K1 E1]]. rewrite K1. cbn [pbind].
  rewrite rows_kinds_map, <- app_assoc in E1. cbn [app] in E1. destruct (many_ok _ _ _ _ _ E1 ltac:(discriminate) ltac:(discriminate)) as [t2 [K2 E2]]. rewrite K2. cbn [pbind].
  rewrite map_rad, (handle_ok _ _ _ H). cbn [lift]. destruct (Nat.eqb_spec (length vs) (prodn shape)) as [EL|NL]; [|eexists; reflexivity].
  destruct (one_ok ["DATA_LIST_END"] _ _ _ _ E2 ltac:(left; reflexivity) ltac:(discriminate)) as [t3 [K3 E3]]. rewrite K3. cbn [pbind].
  apply (IH _ t3); [|exact E3]. intros K. apply L. constructor; auto.
Qed.

(** An array whose number of values is not that of all sweeps together makes the
    file unreadable. *)
Theorem C44_sizes : forall f cm sw da ts rest,
  says float polar linspace f cm sw da -> map kind ts = file_kinds f ++ rest ->
  ~ Forall (fun vs => length vs = prodn (map (@length _) sw)) da ->
  fst (ci_parse float polar linspace ts) = Err ValueError.
Proof.
  intros f cm sw da ts rest S0 E L. destruct (parse_head _ _ _ _ _ _ S0 E) as [t [ET EP]]. rewrite EP. destruct S0 as [_ _ _ _ _ _ SV].
  destruct (data_bad (map s_name (f_sweeps f)) (map (@length _) sw) _ _ [] _ _ SV L ET) as [t12 K12]. rewrite K12. reflexivity.
Qed.
End Parse.
Print Assumptions C44_parse.
Print Assumptions C44_sizes.

(** *** Writing *)
Section Write.
Context {V : Type} (float : list ascii -> result V) (polar : V -> V -> V * V) (linspace : V -> V -> Z -> result (list V)).

Lemma tokens_kinds : forall lines n, map kind (ci_tokens n lines) = flat_map (fun l => opt_list (ci_tokenize l)) lines.
Proof.
  induction lines as [|l lines IH]; intros n; auto. cbn [ci_tokens flat_map]. destruct (ci_tokenize l) as [[tag r]|]; [|apply IH]. cbn [map opt_list app]. f_equal. apply IH.
Qed.

Definition num_start (c : ascii) : Prop := is_digit c = true \/ c = "-"%char \/ c = "."%char.
Lemma num_start_key : forall c k, num_start c -> In k ["N"; "V"; "D"; "S"; "B"; "E"]%char -> Ascii.eqb k c = false.
Proof.
  intros c k N I. destruct (Ascii.eqb_spec k c) as [<-|]; auto. exfalso. destruct N as [N|[N|N]]; cbn in I; decompose [or] I; subst; try discriminate; try contradiction.
Qed.
Lemma num_start_solid : forall c, num_start c -> is_space c = false.
Proof. intros c [N|[->| ->]]; [now apply digit_not_space|reflexivity|reflexivity]. Qed.
Lemma num_start_data : forall c, num_start c -> data_char c = true.
Proof. intros c [N|[->| ->]]; [unfold data_char; rewrite N; reflexivity|reflexivity|reflexivity]. Qed.
Lemma starts_key : forall k p c l, Ascii.eqb k c = false -> starts_with (k :: p) (c :: l) = false.
Proof. intros k p c l H. cbn [starts_with]. now rewrite H. Qed.
Lemma data_token : forall a c l, spaces a -> num_start c -> ci_tokenize (a ++ c :: l) = Some ("DATA", Text (c :: l)).
Proof.
  intros a c l A N. assert (EL : lstrip (a ++ c :: l) = c :: l) by (unfold lstrip; rewrite drop_spaces by exact A; cbn [drop_while]; now rewrite num_start_solid by exact N).
  unfold ci_tokenize. rewrite EL. cbv zeta beta. f_equal.
  pose proof (fun k => num_start_key c k N) as K.
  assert (KN := K "N"%char ltac:(cbn; auto 8)). assert (KV := K "V"%char ltac:(cbn; auto 8)). assert (KD := K "D"%char ltac:(cbn; auto 8)).
  assert (KS := K "S"%char ltac:(cbn; auto 8)). assert (KB := K "B"%char ltac:(cbn; auto 8)). assert (KE := K "E"%char ltac:(cbn; auto 8)).
  unfold chars. cbn [list_ascii_of_string]. rewrite !(starts_key "N") by exact KN. rewrite !(starts_key "V") by exact KV. rewrite !(starts_key "D") by exact KD. rewrite !(starts_key "S") by exact KS. rewrite !(starts_key "B") by exact KB. rewrite !(starts_key "E") by exact KE.
  rewrite num_start_data by exact N. reflexivity.
Qed.
Lemma spaces_app : forall a b, spaces a -> spaces b -> spaces (a ++ b).
Proof. intros a b A B c I. apply in_app_or in I as [I|I]; auto. Qed.
Lemma spaces_nil : spaces [].
Proof. intros c []. Qed.

Lemma printed_row : forall p v e, printed float p v -> spaces e ->
  ci_tokenize (p ++ e) = Some ("DATA", Text (lstrip (p ++ e))) /\ row_value float polar (chars "MAG") (lstrip (p ++ e)) (Re v).
Proof.
  intros p v e [a [core [b [-> [A [B [NC [[c [r [EC N]]] [_ F]]]]]]]]] E. assert (EL : lstrip ((a ++ core ++ b) ++ e) = core ++ b ++ e).
  { unfold lstrip. rewrite <- !app_assoc, drop_spaces by exact A. rewrite EC. cbn [app drop_while]. now rewrite num_start_solid. }
  rewrite EL. split.
  - rewrite <- !app_assoc, EC. cbn [app]. now rewrite data_token.
  - constructor. specialize (F [] (b ++ e) spaces_nil (spaces_app _ _ B E)). cbn [app] in F. exact F.
Qed.
Lemma printed_pair : forall p q x y e, printed float p x -> printed float q y -> spaces e ->
  ci_tokenize ((p ++ chars "," ++ q) ++ e) = Some ("DATA", Text (lstrip ((p ++ chars "," ++ q) ++ e))) /\
  row_value float polar (chars "RI") (lstrip ((p ++ chars "," ++ q) ++ e)) (Co x y).
Proof.
  intros p q x y e [a [core [b [-> [A [B [NC [[c [r [EC N]]] [_ F]]]]]]]]] [a' [core' [b' [-> [A' [B' [NC' [_ [[z [r' [EZ NZ]]] F']]]]]]]]] E.
  set (rest := b ++ chars "," ++ a' ++ core' ++ b' ++ e).
  assert (EA : ((a ++ core ++ b) ++ chars "," ++ a' ++ core' ++ b') ++ e = a ++ core ++ rest) by (unfold rest; rewrite <- !app_assoc; reflexivity). rewrite EA.
  assert (EL : lstrip (a ++ core ++ rest) = core ++ rest).
  { unfold lstrip. rewrite drop_spaces by exact A. rewrite EC. cbn [app drop_while]. now rewrite num_start_solid. }
  rewrite EL. split; [rewrite EC; cbn [app]; now rewrite data_token|].
  assert (NB : forall l, spaces l -> ~ In ","%char l) by (intros l HL I; apply HL in I; discriminate).
  apply (rv_ri float polar _ (core ++ b) (a' ++ core')).
  - split; [|split].
    + exists [], (b' ++ e). split; [unfold rest; cbn [app chars list_ascii_of_string]; rewrite <- !app_assoc; cbn [app]; rewrite <- !app_assoc; reflexivity|]. split; [exact spaces_nil|]. split; [now apply spaces_app|]. right. split.
      * exists c, (r ++ b ++ ","%char :: a' ++ core'). split; [rewrite EC; cbn [app]; rewrite <- !app_assoc; reflexivity|now apply num_start_solid].
      * exists z, ((core ++ b) ++ ","%char :: a' ++ r'). split; [|exact NZ]. rewrite EZ. rewrite <- !app_assoc. cbn [app]. rewrite <- !app_assoc. reflexivity.
    + intros I. apply in_app_or in I as [I|I]; [auto|]. eapply NB; [exact B|exact I].
    + intros I. apply in_app_or in I as [I|I]; [|auto]. eapply NB; [exact A'|exact I].
  - exact (F [] b spaces_nil B).
  - specialize (F' a' [] A' spaces_nil). rewrite app_nil_r in F'. exact F'.
Qed.

Lemma spaced3 : forall w1 w2 w3 e, solid w1 -> solid w2 -> solid w3 -> spaces e -> words (" "%char :: w1 ++ " "%char :: w2 ++ " "%char :: w3 ++ e) = [w1; w2; w3].
Proof.
  intros w1 w2 w3 e H1 H2 H3 E. assert (SB : spaces [" "%char]) by (intros c [<-|[]]; reflexivity). apply spaced_words.
  apply (spaced_cons [" "%char] w1 [w2; w3] (" "%char :: w2 ++ " "%char :: w3 ++ e)); auto; [|right; eexists; eexists; split; reflexivity].
  apply (spaced_cons [" "%char] w2 [w3] (" "%char :: w3 ++ e)); auto; [|right; eexists; eexists; split; reflexivity].
  apply (spaced_cons [" "%char] w3 [] e); auto; [constructor; exact E|]. destruct e as [|c e]; [left; auto|right; exists c, e; split; [auto|apply E; left; auto]].
Qed.
Lemma spaced2 : forall w1 w2 e, solid w1 -> solid w2 -> spaces e -> words (" "%char :: w1 ++ " "%char :: w2 ++ e) = [w1; w2].
Proof.
  intros w1 w2 e H1 H2 E. assert (SB : spaces [" "%char]) by (intros c [<-|[]]; reflexivity). apply spaced_words.
  apply (spaced_cons [" "%char] w1 [w2] (" "%char :: w2 ++ e)); auto; [|right; eexists; eexists; split; reflexivity].
  apply (spaced_cons [" "%char] w2 [] e); auto; [constructor; exact E|]. destruct e as [|c e]; [left; auto|right; exists c, e; split; [auto|apply E; left; auto]].
Qed.
Lemma digits_solid : forall n, solid (print_nat n).
Proof. intros n. split; [apply print_nat_nonempty|]. intros c I. apply digit_not_space. pose proof (print_nat_digits n) as D. rewrite Forall_forall in D. auto. Qed.
Lemma solid_app : forall a b, solid a -> (forall c, In c b -> is_space c = false) -> solid (a ++ b).
Proof. intros a b [A A'] B. split; [destruct a; [congruence|discriminate]|]. intros c I. apply in_app_or in I as [I|I]; auto. Qed.
Lemma solid_chars : forall s, s = "MAG" \/ s = "RI" -> solid (chars s).
Proof. intros s [-> | ->]; (split; [discriminate|]; intros c I; cbn in I; decompose [or] I; subst; try reflexivity; contradiction). Qed.

Lemma var_token : forall nm n e, solid nm -> spaces e -> ci_tokenize ((chars "VAR " ++ nm ++ chars " MAG " ++ print_nat n) ++ e) = Some ("VARDEF", Words [nm; chars "MAG"; print_nat n]).
Proof.
  intros nm n e S0 E. transitivity (Some ("VARDEF", Words (words (strip (" "%char :: (nm ++ chars " MAG " ++ print_nat n) ++ e))))); [reflexivity|]. rewrite words_strip. do 3 f_equal.
  rewrite <- !app_assoc. cbn [chars list_ascii_of_string app]. apply (spaced3 nm (chars "MAG") (print_nat n) e); auto; [apply solid_chars; auto|apply digits_solid].
Qed.
Lemma data_def_token : forall nm typ e, solid nm -> solid typ -> spaces e -> ci_tokenize ((chars "DATA " ++ nm ++ chars " " ++ typ) ++ e) = Some ("DATADEF", Words [nm; typ]).
Proof.
  intros nm typ e S0 S1 E. transitivity (Some ("DATADEF", Words (words (strip (" "%char :: (nm ++ chars " " ++ typ) ++ e))))); [reflexivity|]. rewrite words_strip. do 3 f_equal.
  rewrite <- !app_assoc. cbn [chars list_ascii_of_string app]. now apply spaced2.
Qed.

(** The copy's dimensions. *)
Lemma has_dim_in : forall (d : wdim V) acc, In d acc -> has_dim (d_nm d) acc = true.
Proof. intros d acc I. apply existsb_exists. exists d. split; [exact I|apply eqb_chars_refl]. Qed.
Lemma add_dims_new : forall (ds acc : list (wdim V)), NoDup (map d_nm acc ++ map d_nm ds) -> add_dims acc ds = acc ++ ds.
Proof.
  induction ds as [|d ds IH]; intros acc N; [cbn; now rewrite app_nil_r|]. unfold add_dims. cbn [fold_left]. assert (F : has_dim (d_nm d) acc = false).
  { apply Bool.not_true_is_false. intros K. apply existsb_exists in K as [x [I K]]. apply eqb_chars_spec in K. cbn [map] in N. apply NoDup_remove_2 in N. apply N. apply in_or_app. left. rewrite <- K. apply in_map. exact I. }
  rewrite F. change (add_dims (acc ++ [d]) ds = acc ++ d :: ds). rewrite IH; [now rewrite <- app_assoc|]. rewrite map_app. cbn [map]. rewrite <- app_assoc. exact N.
Qed.
Lemma add_dims_keep : forall (ds D acc : list (wdim V)), (forall d, In d ds -> In d D \/ d_num d = false) -> (forall d, In d D -> In d acc) -> filter d_num acc = D ->
  filter d_num (add_dims acc ds) = D /\ forall d, In d D -> In d (add_dims acc ds).
Proof.
  induction ds as [|d ds IH]; intros D acc H HI HF; [split; auto|]. unfold add_dims. cbn [fold_left]. fold (add_dims (if has_dim (d_nm d) acc then acc else acc ++ [d]) ds). apply IH.
  - intros x I. apply H. right; auto.
  - intros x I. destruct (has_dim (d_nm d) acc); [auto|]. apply in_or_app. left; auto.
  - destruct (has_dim (d_nm d) acc) eqn:E; [auto|]. rewrite filter_app, HF. cbn [filter]. destruct (H d (or_introl eq_refl)) as [K|K].
    + rewrite (has_dim_in d acc (HI d K)) in E. discriminate.
    + rewrite K. apply app_nil_r.
Qed.
Lemma all_dims_fold : forall (vs : list (wvar V)) D acc, (forall v d, In v vs -> In d (w_dims v) -> In d D \/ d_num d = false) -> (forall d, In d D -> In d acc) -> filter d_num acc = D ->
  filter d_num (fold_left (fun acc v => add_dims acc (w_dims v)) vs acc) = D.
Proof.
  induction vs as [|v vs IH]; intros D acc H HI HF; auto. cbn [fold_left]. destruct (add_dims_keep (w_dims v) D acc) as [K1 K2]; auto; [intros d I; apply (H v d); [left; auto|exact I]|].
  apply IH; auto. intros w d I J. apply (H w d); [right; auto|exact J].
Qed.
Lemma filter_all : forall {X} (f : X -> bool) l, (forall x, In x l -> f x = true) -> filter f l = l.
Proof. intros X f l H. induction l as [|x l IH]; auto. cbn [filter]. rewrite H by (left; auto). f_equal. apply IH. intros y I. apply H. right; auto. Qed.
Lemma written_dims : forall b ds, citi_writable float b ds -> filter d_num (all_dims (b_vars b)) = ds.
Proof.
  intros b ds [[v [vs [EV [NV _]]]] WV WO WD WN _ _]. unfold all_dims. rewrite EV. cbn [fold_left]. assert (E : w_dims v = ds) by (apply WV; [rewrite EV; left; auto|exact NV]).
  rewrite E, add_dims_new by exact WN. cbn [app]. apply all_dims_fold; auto.
  - intros w d I J. destruct (WO w d) as [K|[K _]]; auto. rewrite EV. right; auto.
  - apply filter_all. intros d I. now apply WD.
Qed.

(** What a variable is written as, in terms of the file. *)
Variable e : list ascii.
Hypothesis E : spaces e.
Definition real_data (v : wvar V) (nm : list ascii) (f : list nat -> V) : cdata :=
  mkData nm (chars "MAG") (map (fun ix => lstrip (w_pr v (f ix) ++ e)) (indices (shape_of v))) (chars "BEGIN" ++ e) (chars "END" ++ e).
Definition cplx_data (v : wvar V) (nm : list ascii) (f : list nat -> V * V) : cdata :=
  mkData nm (chars "RI") (map (fun ix => lstrip ((w_pr v (fst (f ix)) ++ chars "," ++ w_pr v (snd (f ix))) ++ e)) (indices (shape_of v))) (chars "BEGIN" ++ e) (chars "END" ++ e).
Definition var_data (v : wvar V) : list cdata :=
  match w_data v with
  | WReal f => [real_data v (w_nm v) f]
  | WCplx f => [cplx_data v (w_nm v) f]
  | WMReal n m f => map (fun ij => real_data v (element (w_nm v) ij) (fun ix => f ix (fst ij) (snd ij))) (list_prod (seq 0 n) (seq 0 m))
  | WMCplx n m f => map (fun ij => cplx_data v (element (w_nm v) ij) (fun ix => f ix (fst ij) (snd ij))) (list_prod (seq 0 n) (seq 0 m))
  end.
Definition tk (l : list ascii) : list (string * rad) := opt_list (ci_tokenize (l ++ e)).
Lemma grid_prod : forall n m, grid n m = list_prod (seq 0 n) (seq 0 m).
Proof. intros n m. unfold grid. induction (seq 0 n) as [|i l IH]; auto. cbn [flat_map list_prod]. now rewrite IH. Qed.
Lemma begin_tk : tk (chars "BEGIN") = [("DATA_LIST_BEGIN", Text (chars "BEGIN" ++ e))].
Proof. reflexivity. Qed.
Lemma end_tk : tk (chars "END") = [("DATA_LIST_END", Text (chars "END" ++ e))].
Proof. reflexivity. Qed.
Lemma rows_tk : forall {X} (pr : X -> list ascii) (xs : list X), (forall x, In x xs -> ci_tokenize (pr x ++ e) = Some ("DATA", Text (lstrip (pr x ++ e)))) ->
  flat_map tk (map pr xs) = rows_kinds (map (fun x => lstrip (pr x ++ e)) xs).
Proof.
  intros X pr xs H. induction xs as [|x xs IH]; auto. cbn [map flat_map]. unfold tk at 1. rewrite H by (left; auto). cbn [opt_list app rows_kinds map]. f_equal. apply IH. intros y I. apply H. right; auto.
Qed.
Lemma real_tk : forall v nm f, (forall ix, inb (shape_of v) ix = true -> printed float (w_pr v (f ix)) (f ix)) -> flat_map tk (real_list v f) = data_kinds (real_data v nm f).
Proof.
  intros v nm f H. unfold real_list. rewrite !flat_map_app. cbn [flat_map]. rewrite begin_tk, end_tk, !app_nil_r. unfold data_kinds, real_data. cbn [da_head da_rows da_foot app]. f_equal. f_equal.
  apply (rows_tk (fun ix => w_pr v (f ix))). intros ix I. apply in_indices in I. now apply printed_row with (v := f ix); [apply H|].
Qed.
Lemma cplx_tk : forall v nm f, (forall ix, inb (shape_of v) ix = true -> printed float (w_pr v (fst (f ix))) (fst (f ix)) /\ printed float (w_pr v (snd (f ix))) (snd (f ix))) ->
  flat_map tk (cplx_list v f) = data_kinds (cplx_data v nm f).
Proof.
  intros v nm f H. unfold cplx_list. rewrite !flat_map_app. cbn [flat_map]. rewrite begin_tk, end_tk, !app_nil_r. unfold data_kinds, cplx_data. cbn [da_head da_rows da_foot app]. f_equal. f_equal.
  apply (rows_tk (fun ix => w_pr v (fst (f ix)) ++ chars "," ++ w_pr v (snd (f ix)))). intros ix I. apply in_indices in I. destruct (H ix I) as [H1 H2]. now destruct (printed_pair _ _ _ _ _ H1 H2 E).
Qed.
Definition good (v : wvar V) : Prop := solid (w_nm v) /\ forall x, occurs v x -> printed float (w_pr v x) x.
Lemma occurs_real : forall v nm f g, In (nm, g) (entries v) -> (forall ix, g ix = Re (f ix)) -> good v ->
  forall ix, inb (shape_of v) ix = true -> printed float (w_pr v (f ix)) (f ix).
Proof. intros v nm f g I HG [_ G] ix HI. apply G. exists (nm, g), ix. split; [exact I|]. split; [exact HI|]. left. cbn [snd]. apply HG. Qed.
Lemma occurs_cplx : forall v nm f g, In (nm, g) (entries v) -> (forall ix, g ix = Co (fst (f ix)) (snd (f ix))) -> good v ->
  forall ix, inb (shape_of v) ix = true -> printed float (w_pr v (fst (f ix))) (fst (f ix)) /\ printed float (w_pr v (snd (f ix))) (snd (f ix)).
Proof.
  intros v nm f g I HG [_ G] ix HI. split; apply G; exists (nm, g), ix; (split; [exact I|]; split; [exact HI|]); right; cbn [snd]; rewrite HG; [exists (snd (f ix)); left|exists (fst (f ix)); right]; reflexivity.
Qed.
Lemma flat_map_tk : forall {X} (f : X -> list (list ascii)) (xs : list X), flat_map tk (flat_map f xs) = flat_map (fun x => flat_map tk (f x)) xs.
Proof. intros X f xs. induction xs as [|x xs IH]; auto. cbn [flat_map]. rewrite flat_map_app. now f_equal. Qed.
Lemma flat_map_eq_in : forall {X Y} (f g : X -> list Y) xs, (forall x, In x xs -> f x = g x) -> flat_map f xs = flat_map g xs.
Proof. intros X Y f g xs H. induction xs as [|x xs IH]; auto. cbn [flat_map]. rewrite H by (left; auto). f_equal. apply IH. intros y I. apply H. right; auto. Qed.
Lemma flat_map_map2 : forall {X Y Z} (f : Y -> list Z) (g : X -> Y) xs, flat_map f (map g xs) = flat_map (fun x => f (g x)) xs.
Proof. intros X Y Z f g xs. induction xs as [|x xs IH]; auto. cbn. now f_equal. Qed.
Lemma lists_tk : forall v, good v -> flat_map tk (data_lists v) = flat_map data_kinds (var_data v).
Proof.
  intros v G. unfold data_lists, var_data. pose proof (occurs_real v) as HR. pose proof (occurs_cplx v) as HC. unfold entries in HR, HC. destruct (w_data v) as [f|f|n m f|n m f].
  - cbn [flat_map]. rewrite app_nil_r. apply real_tk. eapply HR; [left; reflexivity|reflexivity|exact G].
  - cbn [flat_map]. rewrite app_nil_r. apply cplx_tk. eapply HC; [left; reflexivity|reflexivity|exact G].
  - rewrite grid_prod, flat_map_tk, flat_map_map2. apply flat_map_eq_in. intros ij I. apply real_tk. eapply (HR _ (fun ix => f ix (fst ij) (snd ij))); [apply in_map_iff; exists ij; split; [reflexivity|exact I]|reflexivity|exact G].
  - rewrite grid_prod, flat_map_tk, flat_map_map2. apply flat_map_eq_in. intros ij I. apply cplx_tk. eapply (HC _ (fun ix => f ix (fst ij) (snd ij))); [apply in_map_iff; exists ij; split; [reflexivity|exact I]|reflexivity|exact G].
Qed.
Lemma element_solid : forall nm ij, solid nm -> solid (element nm ij).
Proof. intros nm ij S0. unfold element. apply solid_app; auto. intros c I. apply in_app_or in I as [I|I]; [exact (proj2 (digits_solid _) c I)|exact (proj2 (digits_solid _) c I)]. Qed.
Lemma def_tk : forall nm typ, solid nm -> solid typ -> tk (chars "DATA " ++ nm ++ chars " " ++ typ) = [("DATADEF", Words [nm; typ])].
Proof. intros nm typ S0 S1. unfold tk. rewrite data_def_token; auto. Qed.
Lemma names_tk : forall v, good v -> flat_map tk (map (fun n => chars "DATA " ++ n ++ chars " " ++ data_type v) (data_names v)) = map (fun d => ("DATADEF", Words [da_name d; da_typ d])) (var_data v).
Proof.
  intros v [S0 _]. unfold data_names, data_type, var_data.
  assert (M : solid (chars "MAG")) by (apply solid_chars; auto). assert (R : solid (chars "RI")) by (apply solid_chars; auto).
  destruct (w_data v) as [f|f|n m f|n m f].
  - cbn [map flat_map]. rewrite def_tk; auto.
  - cbn [map flat_map]. rewrite def_tk; auto.
  - rewrite grid_prod, !map_map. cbn [da_name da_typ real_data]. rewrite flat_map_map2. induction (list_prod (seq 0 n) (seq 0 m)) as [|ij l IH]; auto. cbn [flat_map map]. rewrite IH. change (elem_name (w_nm v) (fst ij) (snd ij)) with (element (w_nm v) ij). rewrite def_tk; auto using element_solid.
  - rewrite grid_prod, !map_map. cbn [da_name da_typ cplx_data]. rewrite flat_map_map2. induction (list_prod (seq 0 n) (seq 0 m)) as [|ij l IH]; auto. cbn [flat_map map]. rewrite IH. change (elem_name (w_nm v) (fst ij) (snd ij)) with (element (w_nm v) ij). rewrite def_tk; auto using element_solid.
Qed.
Definition entry_values (v : wvar V) : list (list (cnum V)) := map (fun p => map (snd p) (indices (shape_of v))) (entries v).
Lemma Forall2_map_in : forall {X A B} (R : A -> B -> Prop) (f : X -> A) (g : X -> B) xs, (forall x, In x xs -> R (f x) (g x)) -> Forall2 R (map f xs) (map g xs).
Proof. intros X A B R f g xs H. induction xs as [|x xs IH]; cbn; constructor; [apply H; left; auto|]. apply IH. intros y I. apply H. right; auto. Qed.
Lemma real_values : forall v nm f, (forall ix, inb (shape_of v) ix = true -> printed float (w_pr v (f ix)) (f ix)) ->
  values float polar (da_typ (real_data v nm f)) (da_rows (real_data v nm f)) (map (fun ix => Re (f ix)) (indices (shape_of v))).
Proof. intros v nm f H. split; [left; reflexivity|]. cbn [da_rows da_typ real_data]. apply Forall2_map_in. intros ix I. apply in_indices in I. now apply printed_row; [apply H|]. Qed.
Lemma cplx_values : forall v nm f, (forall ix, inb (shape_of v) ix = true -> printed float (w_pr v (fst (f ix))) (fst (f ix)) /\ printed float (w_pr v (snd (f ix))) (snd (f ix))) ->
  values float polar (da_typ (cplx_data v nm f)) (da_rows (cplx_data v nm f)) (map (fun ix => Co (fst (f ix)) (snd (f ix))) (indices (shape_of v))).
Proof. intros v nm f H. split; [right; left; reflexivity|]. cbn [da_rows da_typ cplx_data]. apply Forall2_map_in. intros ix I. apply in_indices in I. destruct (H ix I) as [H1 H2]. now destruct (printed_pair _ _ _ _ _ H1 H2 E). Qed.
Lemma var_values : forall v, good v -> Forall2 (fun d vs => values float polar (da_typ d) (da_rows d) vs) (var_data v) (entry_values v).
Proof.
  intros v G. unfold entry_values, var_data. pose proof (occurs_real v) as HR. pose proof (occurs_cplx v) as HC. unfold entries in *. destruct (w_data v) as [f|f|n m f|n m f]; cbn [map snd].
  - constructor; [|constructor]. apply real_values. eapply HR; [left; reflexivity|reflexivity|exact G].
  - constructor; [|constructor]. apply cplx_values. eapply HC; [left; reflexivity|reflexivity|exact G].
  - rewrite map_map. cbn [snd]. apply Forall2_map_in. intros ij I. apply (real_values v (element (w_nm v) ij) (fun ix => f ix (fst ij) (snd ij))). eapply (HR _ (fun ix => f ix (fst ij) (snd ij))); [apply in_map_iff; exists ij; split; [reflexivity|exact I]|reflexivity|exact G].
  - rewrite map_map. cbn [snd]. apply Forall2_map_in. intros ij I. apply (cplx_values v (element (w_nm v) ij) (fun ix => f ix (fst ij) (snd ij))). eapply (HC _ (fun ix => f ix (fst ij) (snd ij))); [apply in_map_iff; exists ij; split; [reflexivity|exact I]|reflexivity|exact G].
Qed.
Lemma var_names : forall v, map da_name (var_data v) = map fst (entries v).
Proof. intros v. unfold var_data, entries. destruct (w_data v); cbn [map]; rewrite ?map_map; reflexivity. Qed.

(** The file written. *)
Definition dim_sweep (d : wdim V) : csweep :=
  mkSweep (d_nm d) (chars "MAG") (print_nat (length (d_vals d))) (Listed (map (fun x => lstrip (d_pr d x ++ e)) (d_vals d))) (chars "VAR_LIST_BEGIN" ++ e) (chars "VAR_LIST_END" ++ e).
Definition written (b : wblock V) (ds : list (wdim V)) : cfile :=
  mkFile [] (Some (strip (chars " A.01.01" ++ e))) (map (fun c => strip (drop_bang c ++ e)) (b_comments b)) (strip (" "%char :: b_nm b ++ e)) []
    (map dim_sweep ds) [] [] [] (flat_map var_data (filter w_num (b_vars b))).
Lemma dims_tk : forall ds, (forall d, In d ds -> solid (d_nm d)) ->
  flat_map tk (map (fun d : wdim V => chars "VAR " ++ d_nm d ++ chars " MAG " ++ print_nat (length (d_vals d))) ds) = map (fun s => ("VARDEF", Words [s_name s; s_typ s; s_n s])) (map dim_sweep ds).
Proof.
  intros ds H. induction ds as [|d ds IH]; auto. cbn [map flat_map]. rewrite IH by (intros x I; apply H; right; auto). unfold tk at 1. rewrite var_token; auto. apply H. left; auto.
Qed.
Lemma sweeps_tk : forall ds, (forall d v, In d ds -> In v (d_vals d) -> printed float (d_pr d v) v) ->
  flat_map tk (flat_map (fun d : wdim V => [chars "VAR_LIST_BEGIN"] ++ map (d_pr d) (d_vals d) ++ [chars "VAR_LIST_END"]) ds) = flat_map sweep_kinds (map dim_sweep ds).
Proof.
  intros ds H. rewrite flat_map_tk, flat_map_map2. apply flat_map_eq_in. intros d I. rewrite !flat_map_app. rewrite (rows_tk (d_pr d)).
  - unfold sweep_kinds. cbn [dim_sweep s_src s_head s_foot]. reflexivity.
  - intros x J. now apply (printed_row _ x e (H d x I J)).
Qed.
Lemma written_kinds : forall b ds, citi_writable float b ds -> flat_map tk (ci_write b) = file_kinds (written b ds).
Proof.
  intros b ds W. unfold ci_write. rewrite (written_dims b ds W). destruct W as [_ _ _ WD _ WW _].
  assert (G : forall v, In v (filter w_num (b_vars b)) -> good v) by (intros v I; apply filter_In in I as [I1 I2]; exact (WW v I1 I2)).
  rewrite !flat_map_app. unfold file_kinds, written. cbn [f_c1 f_ver f_c2 f_name f_c3 f_sweeps f_c4 f_c5 f_c6 f_data coms map app].
  rewrite dims_tk by (intros d I; exact (proj1 (proj2 (WD d I)))). rewrite sweeps_tk by (intros d v I; exact (proj2 (proj2 (WD d I)) v)).
  rewrite !flat_map_tk.
  assert (E1 : flat_map (fun v => flat_map tk (map (fun n => chars "DATA " ++ n ++ chars " " ++ data_type v) (data_names v))) (filter w_num (b_vars b)) =
    map (fun d => ("DATADEF", Words [da_name d; da_typ d])) (flat_map var_data (filter w_num (b_vars b)))).
  { generalize dependent (filter w_num (b_vars b)). intros l G. induction l as [|v l IH]; auto. cbn [flat_map]. rewrite map_app, names_tk by (apply G; left; auto). f_equal. apply IH. intros w I. apply G. right; auto. }
  assert (E2 : flat_map (fun v => flat_map tk (data_lists v)) (filter w_num (b_vars b)) = flat_map data_kinds (flat_map var_data (filter w_num (b_vars b)))).
  { clear E1. generalize dependent (filter w_num (b_vars b)). intros l G. induction l as [|v l IH]; auto. cbn [flat_map]. rewrite flat_map_app, lists_tk by (apply G; left; auto). f_equal. apply IH. intros w I. apply G. right; auto. }
  rewrite E1, E2. 
  assert (E3 : flat_map tk (map (fun c => chars "!" ++ drop_bang c) (b_comments b)) = coms (map (fun c => strip (drop_bang c ++ e)) (b_comments b))).
  { clear. induction (b_comments b) as [|c cs IH]; auto. cbn [map flat_map]. rewrite IH. reflexivity. }
  rewrite E3. reflexivity.
Qed.

Lemma bang_text : forall c t, citi_comment c t -> strip (drop_bang c ++ e) = t.
Proof.
  intros c t [p [u [-> [P [N T]]]]]. assert (ED : drop_bang (p ++ u) = u).
  { unfold drop_bang. induction p as [|x p IH]; cbn [app drop_while].
    - destruct u as [|y u]; auto. cbn [drop_while]. destruct (Ascii.eqb_spec y "!"); [subst; exfalso; apply N; reflexivity|reflexivity].
    - rewrite (P x (or_introl eq_refl)). cbn. apply IH. intros y I. apply P. right; auto. }
  rewrite ED. apply strip_trimmed_of. destruct T as [a [b [-> [A [B T]]]]]. exists a, (b ++ e). split; [now rewrite <- !app_assoc|]. split; [exact A|]. split; [now apply spaces_app|exact T].
Qed.
Lemma bang_exists : forall c, exists t, citi_comment c t.
Proof.
  intros c. assert (H : exists p u, c = p ++ u /\ (forall x, In x p -> x = "!"%char) /\ hd_error u <> Some "!"%char).
  { induction c as [|x c IH]; [exists [], []; split; [auto|split; [intros y []|discriminate]]|]. destruct (Ascii.ascii_dec x "!") as [->|N].
    - destruct IH as [p [u [-> [P Q]]]]. exists ("!"%char :: p), u. split; [auto|]. split; [intros y [<-|I]; auto|exact Q].
    - exists [], (x :: c). split; [auto|split; [intros y []|cbn; congruence]]. }
  destruct H as [p [u [-> [P Q]]]]. exists (strip u), p, u. split; [auto|]. split; [exact P|]. split; [exact Q|]. apply trim_exists.
Qed.
End Write.

Lemma Forall2_flat : forall {X A B} (R : A -> B -> Prop) (f : X -> list A) (g : X -> list B) xs, (forall x, In x xs -> Forall2 R (f x) (g x)) -> Forall2 R (flat_map f xs) (flat_map g xs).
Proof. intros X A B R f g xs H. induction xs as [|x xs IH]; [constructor|]. cbn [flat_map]. apply Forall2_app; [apply H; left; auto|]. apply IH. intros y I. apply H. right; auto. Qed.
Lemma Forall2_len : forall {A B} (R : A -> B -> Prop) l m, Forall2 R l m -> length l = length m.
Proof. intros A B R l m F. induction F; cbn; auto. Qed.
Lemma combine_app : forall {A B} (a a' : list A) (b b' : list B), length a = length b -> combine (a ++ a') (b ++ b') = combine a b ++ combine a' b'.
Proof. intros A B. induction a as [|x a IH]; intros a' [|y b] b' L; try discriminate; auto. cbn. f_equal. apply IH. auto. Qed.

(** What the writer writes for a block that can be written, with white space such
    as a line end after each line, is read as the block: its name and comments
    without surrounding white space, its sweeps in order, and all numeric arrays
    in order with the dimensions and data. *)
Theorem C44_roundtrip : forall {V} (float : list ascii -> result V) polar linspace (b : wblock V) ds e,
  citi_writable float b ds -> spaces e -> exists k,
  ci_read float polar linspace (map (fun l => l ++ e) (ci_write b)) = Ok k /\
  trimmed_of (b_nm b) (k_name k) /\
  Forall2 citi_comment (b_comments b) (k_comments k) /\
  k_sweeps k = map (fun d => (d_nm d, map Re (d_vals d))) ds /\
  Forall2 (read_as ds) (flat_map entries (filter w_num (b_vars b))) (k_vars k).
Proof.
  intros V float polar linspace b ds e W HE. pose proof (written_kinds float polar e HE b ds W) as HK. destruct W as [[v0 [vs0 [EV [NV EN0]]]] WV WO WD WN WW WC].
  set (vars := filter w_num (b_vars b)) in *.
  assert (G : forall v, In v vars -> good float v) by (intros v I; apply filter_In in I as [I1 I2]; exact (WW v I1 I2)).
  assert (GD : forall v, In v vars -> w_dims v = ds) by (intros v I; apply filter_In in I as [I1 I2]; exact (WV v I1 I2)).
  assert (IV0 : In v0 vars) by (apply filter_In; split; [rewrite EV; left; auto|exact NV]).
  assert (SY : says float polar linspace (written e b ds) (map (fun c => strip (drop_bang c ++ e)) (b_comments b)) (map (fun d => map Re (d_vals d)) ds) (flat_map entry_values vars)).
  { split; cbn [written f_data f_ver f_c1 f_c2 f_c3 f_c4 f_c5 f_c6 f_sweeps].
    - fold vars. intros K. assert (KD : var_data e v0 = []).
      { destruct (var_data e v0) as [|d l] eqn:ED; auto. exfalso. assert (In d (flat_map (var_data e) vars)) by (apply in_flat_map; exists v0; split; [exact IV0|rewrite ED; left; auto]). rewrite K in H. destruct H. }
      pose proof (var_names e v0) as HN. rewrite KD in HN. destruct (entries v0); [congruence|discriminate].
    - discriminate.
    - auto.
    - cbn [app]. rewrite app_nil_r. apply Forall2_map_in. intros c0 I. apply cr_plain. destruct (bang_exists c0) as [t T]. rewrite (bang_text e HE _ _ T). exact (WC _ _ I T).
    - rewrite map_map. exact WN.
    - apply Forall2_map_in. intros d I. split; [exists (Z.of_nat (length (d_vals d))); apply py_int_print|]. cbn [dim_sweep s_src s_head s_typ]. split; [reflexivity|]. split; [left; reflexivity|]. apply Forall2_map_in. intros x J. apply (printed_row float polar); [exact (proj2 (proj2 (WD d I)) x J)|exact HE].
    - apply Forall2_flat. intros v I. apply var_values; auto. }
  assert (ESH : map (@length _) (map (fun d : wdim V => map (@Re V) (d_vals d)) ds) = sizes ds) by (rewrite map_map; apply map_ext; intros d; apply map_length).
  assert (LN : Forall (fun vs => length vs = prodn (map (@length _) (map (fun d : wdim V => map (@Re V) (d_vals d)) ds))) (flat_map entry_values vars)).
  { rewrite ESH. apply Forall_forall. intros vs I. apply in_flat_map in I as [v [I J]]. apply in_map_iff in J as [p [<- J]]. rewrite map_length, indices_length. unfold shape_of. rewrite (GD v I). reflexivity. }
  assert (EK : map kind (ci_tokens 0 (map (fun l => l ++ e) (ci_write b))) = file_kinds (written e b ds) ++ []) by (rewrite app_nil_r, <- HK, tokens_kinds; rewrite flat_map_map2; reflexivity).
  pose proof (C44_parse float polar linspace _ _ _ _ _ _ SY EK LN) as HP. eexists. split; [exact HP|]. cbn [k_name k_comments k_sweeps k_vars written f_name f_c1 f_c2 f_c3 f_c4 f_c5 f_c6 f_sweeps f_data app]. rewrite ESH.
  split; [|split; [|split]].
  - pose proof (trim_exists (b_nm b)) as T.
    assert (ES : strip (" "%char :: b_nm b ++ e) = strip (b_nm b)); [|rewrite ES; exact T].
    apply strip_trimmed_of. destruct T as [a [c [EA [A [C T]]]]]. exists (" "%char :: a), (c ++ e). split; [rewrite EA at 1; cbn [app]; rewrite <- !app_assoc; reflexivity|]. split; [intros z [<-|I]; [reflexivity|auto]|]. split; [now apply spaces_app|exact T].
  - clear - HE. induction (b_comments b) as [|c cs IH]; cbn [map]; constructor; auto. destruct (bang_exists c) as [t T]. rewrite (bang_text e HE _ _ T). exact T.
  - clear. induction ds as [|d ds IH]; auto. cbn [map combine]. now rewrite IH.
  - rewrite map_map. cbn [dim_sweep s_name]. change (map (fun x : wdim V => s_name (dim_sweep e x)) ds) with (map d_nm ds). fold vars. clear - GD. 
    induction vars as [|v vars IH]; [constructor|]. cbn [flat_map]. rewrite combine_app.
    + rewrite map_app. apply Forall2_app; [|apply IH; intros w I; apply GD; right; auto]. clear IH. pose proof (var_names e v) as HN. unfold entry_values, shape_of. rewrite (GD v (or_introl eq_refl)). clear GD. fold (sizes ds).
      revert HN. generalize (var_data e v) as das. induction (entries v) as [|[nm f] es IH]; intros [|d das] HN; try discriminate; [constructor|]. cbn [map fst snd combine] in *. injection HN as HN1 HN2. constructor; [|apply IH; exact HN2].
      split; [exact HN1|]. split; [reflexivity|]. split; [reflexivity|]. cbn [v_flat snd]. split; [now rewrite map_length, indices_length|]. intros ix HI. apply map_nth_error. now apply nth_error_indices.
    + pose proof (f_equal (@length _) (var_names e v)) as HL. rewrite !map_length in HL. unfold entry_values. now rewrite map_length.
Qed.
Print Assumptions C44_roundtrip.

(** *** Lines *)
Lemma lstrip_key : forall b c l, spaces b -> is_space c = false -> lstrip (b ++ c :: l) = c :: l.
Proof. intros b c l B N. unfold lstrip. rewrite drop_spaces by exact B. cbn [drop_while]. now rewrite N. Qed.
Lemma tokenize_line : forall line tok, line_is line tok -> ci_tokenize line = tok.
Proof.
  intros line tok H. destruct H as [b B|b t n B T|b t ws B T|b t ws B T|b k tag t B I|b c t B N|b c t n B C T|b c t n B T|b t n B T|b t n B T].
  - unfold ci_tokenize, lstrip. rewrite <- (app_nil_r b), drop_spaces by exact B. reflexivity.
  - unfold ci_tokenize. cbn [chars list_ascii_of_string app]. rewrite lstrip_key by auto.
    change (Some ("NAME", Text (strip t)) = Some ("NAME", Text n)). now rewrite (strip_trimmed_of _ _ T).
  - unfold ci_tokenize. cbn [chars list_ascii_of_string app]. rewrite lstrip_key by auto.
    change (Some ("VARDEF", Words (words (strip (" "%char :: t)))) = Some ("VARDEF", Words ws)).
    rewrite words_strip. change (words (" "%char :: t)) with (words t). now rewrite (spaced_words _ _ T).
  - unfold ci_tokenize. cbn [chars list_ascii_of_string app]. rewrite lstrip_key by auto.
    change (Some ("DATADEF", Words (words (strip t))) = Some ("DATADEF", Words ws)).
    now rewrite words_strip, (spaced_words _ _ T).
  - unfold ci_tokenize. repeat destruct I as [I|I]; try contradiction; injection I as <- <-;
      cbn [chars list_ascii_of_string app]; rewrite lstrip_key by auto; reflexivity.
  - now apply data_token.
  - unfold ci_tokenize. destruct C as [-> | ->]; rewrite lstrip_key by auto; cbn [skipn starts_with chars list_ascii_of_string Ascii.eqb Bool.eqb andb data_char is_digit existsb orb].
    + change (Some ("COMMENT", Text (strip t)) = Some ("COMMENT", Text n)). now rewrite (strip_trimmed_of _ _ T).
    + change (Some ("COMMENT", Text (strip t)) = Some ("COMMENT", Text n)). now rewrite (strip_trimmed_of _ _ T).
  - unfold ci_tokenize. cbn [chars list_ascii_of_string app]. rewrite lstrip_key by auto.
    change (Some ("COMMENT", Text (strip t)) = Some ("COMMENT", Text n)). now rewrite (strip_trimmed_of _ _ T).
  - unfold ci_tokenize. cbn [chars list_ascii_of_string app] in T |- *. rewrite lstrip_key by auto. 
    transitivity (Some ("COMMENT", Text (strip ("C" :: "O" :: "N" :: "S" :: "T" :: "A" :: "N" :: "T" :: t)%char))); [reflexivity|].
    now rewrite (strip_trimmed_of _ _ T).
  - unfold ci_tokenize. cbn [chars list_ascii_of_string app]. rewrite lstrip_key by auto.
    change (Some ("CITIFILE", Text (strip t)) = Some ("CITIFILE", Text n)). now rewrite (strip_trimmed_of _ _ T).
Qed.
(** A text file whose lines are those of a file in order, with blank lines anywhere
    and anything after the last END, is read as what it says. *)
Theorem C44_read : forall {V} (float : list ascii -> result V) polar linspace lines more toks f cm sw da,
  Forall2 line_is lines toks -> flat_map opt_list toks = file_kinds f ->
  says float polar linspace f cm sw da -> Forall (fun vs => length vs = prodn (map (@length _) sw)) da ->
  ci_read float polar linspace (lines ++ more) =
  Ok (mkCBlock (f_name f) cm (combine (map s_name (f_sweeps f)) sw)
       (map (fun p => mkCVar (da_name (fst p)) (map s_name (f_sweeps f)) (map (@length _) sw) (snd p)) (combine (f_data f) da))).
Proof.
  intros V float polar linspace lines more toks f cm sw da F E S0 L. unfold ci_read.
  apply (C44_parse float polar linspace f cm sw da _ (flat_map (fun l => opt_list (ci_tokenize l)) more)); auto.
  rewrite tokens_kinds, flat_map_app, <- E. f_equal. clear -F.
  induction F as [|l t lines toks H F IH]; auto. cbn [flat_map]. now rewrite IH, (tokenize_line _ _ H).
Qed.
Print Assumptions C44_read.

(** *** Examples and deviations *)
Definition fl (l : list ascii) : result nat := nat_float (strip l).
Definition pol (r i : nat) : nat * nat := (r, i).
Definition lins (a b : nat) (k : Z) : result (list nat) := Ok (map (fun i => a + i * ((b - a) / (Z.to_nat k - 1))) (seq 0 (Z.to_nat k))).
Lemma print_nat_ends : forall n, exists c r, print_nat n = r ++ [c] /\ is_space c = false.
Proof.
  intros n. pose proof (print_nat_digits n) as D. rewrite Forall_forall in D. destruct (exists_last (print_nat_nonempty n)) as [r [c E]]. exists c, r. split; [exact E|]. apply digit_not_space. apply D. rewrite E. apply in_or_app. right; left; auto.
Qed.
Lemma fl_printed : forall n, printed fl (print_nat n) n.
Proof.
  intros n. pose proof (print_nat_digits n) as D. rewrite Forall_forall in D. exists [], (print_nat n), []. split; [now rewrite app_nil_r|]. split; [exact spaces_nil|]. split; [exact spaces_nil|].
  split; [intros I; apply D in I; discriminate|]. split; [|split; [apply print_nat_ends|]].
  - destruct (print_nat n) as [|c r] eqn:E; [now apply print_nat_nonempty in E|]. exists c, r. split; [auto|]. left. apply D. left; auto.
  - intros a b A B. unfold fl. assert (T : trimmed_of (a ++ print_nat n ++ b) (print_nat n)).
    { exists a, b. split; [auto|]. split; [exact A|]. split; [exact B|]. right. split.
      - destruct (print_nat n) as [|c r] eqn:E; [now apply print_nat_nonempty in E|]. exists c, r. split; [auto|]. apply digit_not_space. apply D. left; auto.
      - destruct (print_nat_ends n) as [c [r [H1 H2]]]. exists c, r. auto. }
    rewrite (strip_trimmed_of _ _ T). destruct (exA_prints n) as [_ [_ [_ K]]]. exact K.
Qed.
Definition exf : wdim nat := mkWDim (chars "freq") true [10; 20; 30] print_nat.
Definition exv : wdim nat := mkWDim (chars "Vg") true [1; 2] print_nat.
Definition exS : wvar nat := mkWVar (chars "S") true [exv; exf] print_nat (WMCplx 2 2 (fun ix i j => (100 * i + 10 * j + nth 0 ix 0, nth 1 ix 0))).
Definition exI : wvar nat := mkWVar (chars "Id") true [exv; exf] print_nat (WReal (fun ix => 10 * nth 0 ix 0 + nth 1 ix 0)).
Definition exT : wvar nat := mkWVar (chars "Op") false [exf] print_nat (WReal (fun ix => 0)).
Definition exB : wblock nat := mkWBlock (chars "amp 1") [chars "!! first sample"] [exS; exT; exI].
Definition newline : list ascii := [ascii_of_nat 10].
Example C44_example : citi_writable fl exB [exv; exf] /\ spaces newline /\
  length (ci_write exB) = 59 /\
  match ci_read fl pol lins (map (fun l => l ++ newline) (ci_write exB)) with
  | Ok k => (k_name k, k_comments k, map fst (k_sweeps k), map (@v_name nat) (k_vars k)) = (chars "amp 1", [chars "first sample"], [chars "Vg"; chars "freq"], [chars "S11"; chars "S12"; chars "S21"; chars "S22"; chars "Id"])
  | Err _ => False
  end.
Proof.
  split; [|split; [intros c [<-|[]]; reflexivity|vm_compute; auto]]. split.
  - exists exS, [exT; exI]. repeat split. discriminate.
  - intros v [<-|[<-|[<-|[]]]] H; try reflexivity. discriminate.
  - intros v d [<-|[<-|[<-|[]]]] I; left; cbn in I |- *; tauto.
  - intros d [<-|[<-|[]]]; (split; [reflexivity|]; split; [split; [discriminate|]; intros c I; cbn in I; decompose [or] I; subst; try reflexivity; contradiction|intros x _; apply fl_printed]).
  - repeat constructor; cbn; intuition discriminate.
  - intros v [<-|[<-|[<-|[]]]] H; try discriminate; (split; [split; [discriminate|]; intros c I; cbn in I; decompose [or] I; subst; try reflexivity; contradiction|intros x _; apply fl_printed]).
  - intros c t [<-|[]] [p [u [E [P [N T]]]]]. assert (HU : u = chars " first sample").
    { destruct p as [|x p]; [cbn in E; subst u; exfalso; apply N; reflexivity|]. destruct p as [|y p]; [cbn in E; injection E as E1 E2; subst u; exfalso; apply N; reflexivity|].
      destruct p as [|z p]; [cbn in E; injection E as E1 E2 E3; subst u; reflexivity|]. cbn in E. injection E as E1 E2 E3 E4. assert (K := P z (or_intror (or_intror (or_introl eq_refl)))). subst. discriminate. }
    subst u. rewrite <- (strip_trimmed_of _ _ T). reflexivity.
Qed.

(** Sweeps by segments, lines ahead of the version and a second block after the
    first, which is ignored. *)
Definition exfile : list string :=
  ["! made by hand"; "CITIFILE A.01.00"; "CONSTANT TIME 2010 03 09 14 05 59"; "COMMENT two"; ""; "NAME DATA "; "VAR FREQ MAG 3"; "DATA S[1,1] RI"; "SEG_LIST_BEGIN"; "SEG 100 300 3"; "SEG_LIST_END";
   "BEGIN"; "1,2"; " 3 , 4 "; "5,6"; "END"; "CITIFILE A.01.00"; "NAME second"; "nonsense"].
Example C44_read_example : ci_read fl pol lins (map (fun s => chars s ++ newline) exfile) =
  Ok (mkCBlock (chars "DATA") [chars "made by hand"; chars "Measurement time: 2010-03-09 14:05:59"; chars "two"] [(chars "FREQ", [Re 100; Re 200; Re 300])]
       [mkCVar (chars "S[1,1]") [chars "FREQ"] [3] [Co 1 2; Co 3 4; Co 5 6]]).
Proof. vm_compute. reflexivity. Qed.

(** The dimensions of a variable are not written: a variable over the same sweeps
    in another order is read with its values at other places. *)
Definition exW : wvar nat := mkWVar (chars "X") true [exf; exv] print_nat (WReal (fun ix => 10 * nth 0 ix 0 + nth 1 ix 0)).
Theorem C44_order_refuted : exists (b : wblock nat) v f k c,
  In v (b_vars b) /\ w_data v = WReal f /\ map d_nm (w_dims v) = [chars "freq"; chars "Vg"] /\
  ci_read fl pol lins (ci_write b) = Ok k /\ In c (k_vars k) /\ v_name c = w_nm v /\ v_dims c = [chars "Vg"; chars "freq"] /\
  nth_error (v_flat c) (ravel [2; 3] [0; 2]) <> Some (Re (f [2; 0])).
Proof.
  exists (mkWBlock (chars "b") [] [exI; exW]), exW, (fun ix => 10 * nth 0 ix 0 + nth 1 ix 0).
  assert (E : exists k c, ci_read fl pol lins (ci_write (mkWBlock (chars "b") [] [exI; exW])) = Ok k /\ k_vars k = [hd c (k_vars k); c] /\ v_name c = chars "X" /\ v_dims c = [chars "Vg"; chars "freq"] /\ nth_error (v_flat c) 2 = Some (Re 10)).
  { eexists. eexists. split; [vm_compute; reflexivity|]. split; [vm_compute; reflexivity|]. vm_compute. auto. }
  destruct E as [k [c [E1 [E2 [E3 [E4 E5]]]]]]. exists k, c. split; [right; left; reflexivity|]. split; [reflexivity|]. split; [reflexivity|]. split; [exact E1|]. split; [rewrite E2; right; left; reflexivity|].
  split; [exact E3|]. split; [exact E4|]. change (ravel [2; 3] [0; 2]) with 2. rewrite E5. vm_compute. discriminate.
Qed.
(** A variable over fewer sweeps than the block has makes the file unreadable. *)
Theorem C44_fewer_refuted : exists b : wblock nat,
  (forall v, In v (b_vars b) -> w_num v = true /\ exists d, In d (w_dims v)) /\ ci_read fl pol lins (ci_write b) = Err ValueError.
Proof.
  exists (mkWBlock (chars "b") [] [exI; mkWVar (chars "Y") true [exf] print_nat (WReal (fun ix => nth 0 ix 0))]). split; [|vm_compute; reflexivity].
  intros v [<-|[<-|[]]]; (split; [reflexivity|]); [exists exv; left; reflexivity|exists exf; left; reflexivity].
Qed.
(** A name with a blank in it makes the file unreadable. *)
Theorem C44_blank_refuted : exists b : wblock nat,
  (forall v, In v (b_vars b) -> w_num v = true /\ w_dims v = [exf]) /\ ci_read fl pol lins (ci_write b) = Err ValueError.
Proof.
  exists (mkWBlock (chars "b") [] [mkWVar (chars "drain current") true [exf] print_nat (WReal (fun ix => nth 0 ix 0))]). split; [|vm_compute; reflexivity].
  intros v [<-|[]]. auto.
Qed.
(** Not a number and infinity are printed as words, which are not lines of data. *)
Definition onat_print (x : option nat) : list ascii := match x with Some n => print_nat n | None => chars "nan" end.
Definition onat_float (l : list ascii) : result (option nat) :=
  if eqb_chars (strip l) (chars "nan") then Ok None else do n <- fl l; Ok (Some n).
Theorem C44_nan_refuted : exists b : wblock (option nat),
  (forall x, onat_float (onat_print x) = Ok x) /\ length (b_vars b) = 1 /\
  (forall v, In v (b_vars b) -> w_num v = true /\ w_pr v = onat_print) /\
  ci_read onat_float (fun r i => (r, i)) (fun _ _ _ => Ok []) (ci_write b) = Err HFError.
Proof.
  exists (mkWBlock (chars "b") [] [mkWVar (chars "x") true [mkWDim (chars "f") true [Some 1; Some 2] onat_print] onat_print (WReal (fun ix => match ix with [0] => None | _ => Some 5 end))]).
  split; [|split; [reflexivity|split; [intros v [<-|[]]; auto|vm_compute; reflexivity]]].
  intros [n|]; [|vm_compute; reflexivity]. unfold onat_float, onat_print. destruct (fl_printed n) as [a [core [b [E [A [B [_ [[c [r [EC HC]]] [HZ F]]]]]]]]].
  assert (K : eqb_chars (strip (print_nat n)) (chars "nan") = false).
  { destruct (eqb_chars (strip (print_nat n)) (chars "nan")) eqn:K; auto. apply eqb_chars_spec in K. assert (T : strip (print_nat n) = print_nat n).
    { pose proof (print_nat_digits n) as D. rewrite Forall_forall in D. apply strip_id. intros x I. apply digit_not_space. auto. }
    rewrite T in K. pose proof (print_nat_digits n) as D. rewrite K in D. inversion D. discriminate. }
  rewrite K, E, (F a b A B). reflexivity.
Qed.
(** A block without a numeric variable cannot be read. *)
Theorem C44_empty_refuted : exists b : wblock nat, (forall v, In v (b_vars b) -> w_num v = false) /\ ci_read fl pol lins (ci_write b) = Err StopIter.
Proof. exists (mkWBlock (chars "b") [chars "nothing"] [exT]). split; [intros v [<-|[]]; reflexivity|vm_compute; reflexivity]. Qed.
Print Assumptions C44_order_refuted. Print Assumptions C44_fewer_refuted. Print Assumptions C44_blank_refuted.
Print Assumptions C44_nan_refuted. Print Assumptions C44_empty_refuted.
