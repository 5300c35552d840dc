(** C72: going through directories. *)
From Coq Require Import Ascii String List Arith Bool Sorted Permutation Lia.
From Verif Require Import Model_NdArray Model_Text Model_Path Model_Walk Spec_Walk Prop_Path.
Import ListNotations.
Local Open Scope nat_scope.
Local Open Scope list_scope.

Fixpoint node_ind2 (P : node -> Prop) (F : P File) (S1 : P Special) (C : P Closed) (D : forall es, Forall (fun e => P (snd e)) es -> P (Dir es)) (n : node) : P n :=
  match n with
  | File => F | Special => S1 | Closed => C
  | Dir es => D es ((fix go (es : list (list ascii * node)) : Forall (fun e => P (snd e)) es :=
      match es with [] => Forall_nil _ | e :: es' => Forall_cons e (node_ind2 P F S1 C D (snd e)) (go es') end) es)
  end.

(** ** What happens, with places instead of paths *)
Definition deeper (i : nat) (name : list ascii) (t : tag) : tag := ((i :: fst (fst t), name :: snd (fst t)), snd t).
Section Tags.
Context (sel : node -> bool) (good : list ascii -> bool).
Fixpoint tags (n : node) : list tag :=
  match n with
  | Dir es =>
      (fix loop (i : nat) (es : list (list ascii * node)) : list tag :=
         match es with
         | [] => []
         | (name, k) :: es' =>
             (if sel k && good name then [(([i], [name]), false)] else []) ++ (if isdir k then map (deeper i name) (tags k) else []) ++ loop (S i) es'
         end) 0 es
  | _ => [(([], []), true)]
  end.
Fixpoint tloop (i : nat) (es : list (list ascii * node)) : list tag :=
  match es with
  | [] => []
  | (name, k) :: es' =>
      (if sel k && good name then [(([i], [name]), false)] else []) ++ (if isdir k then map (deeper i name) (tags k) else []) ++ tloop (S i) es'
  end.
Lemma tags_dir : forall es, tags (Dir es) = tloop 0 es.
Proof. reflexivity. Qed.

Lemma tloop_in : forall es i t, In t (tloop i es) <-> exists j name k, nth_error es j = Some (name, k) /\
  ((t = (([i + j], [name]), false) /\ sel k = true /\ good name = true) \/ (isdir k = true /\ exists t', In t' (tags k) /\ t = deeper (i + j) name t')).
Proof.
  induction es as [|[name k] es IH]; intros i t; cbn [tloop].
  - split; [intros []|]. intros [[|j] [nm [k [E _]]]]; discriminate E.
  - rewrite !in_app_iff, IH. split.
    + intros [H|[H|[j [nm [k' [E H]]]]]].
      * exists 0, name, k. split; [reflexivity|]. left. rewrite Nat.add_0_r. destruct (sel k), (good name); cbn in H; try destruct H as [H|[]]; try contradiction; auto.
      * exists 0, name, k. split; [reflexivity|]. right. rewrite Nat.add_0_r. destruct (isdir k); [|destruct H]. split; [reflexivity|]. apply in_map_iff in H as [t' [<- H]]. eauto.
      * exists (S j), nm, k'. split; [exact E|]. rewrite Nat.add_succ_r. exact H.
    + intros [[|j] [nm [k' [E H]]]]; cbn [nth_error] in E.
      * injection E as <- <-. rewrite Nat.add_0_r in H. destruct H as [[-> [A B]]|[D [t' [H ->]]]].
        -- left. rewrite A, B. left; reflexivity.
        -- right; left. rewrite D. now apply in_map.
      * right; right. exists j, nm, k'. split; [exact E|]. rewrite Nat.add_succ_r in H. exact H.
Qed.

Lemma sorted_app : forall (A : Type) (R : A -> A -> Prop) l m, StronglySorted R l -> StronglySorted R m -> (forall x y, In x l -> In y m -> R x y) -> StronglySorted R (l ++ m).
Proof.
  intros A R l m Sl Sm H. induction Sl as [|x l Sl IH F]; [exact Sm|]. cbn [app]. constructor.
  - apply IH. intros a b Ia. apply H. right; auto.
  - apply Forall_app. split; [exact F|]. apply Forall_forall. intros y Iy. apply H; [left; auto|auto].
Qed.
Lemma sorted_map : forall (A B : Type) (R : A -> A -> Prop) (R' : B -> B -> Prop) f l, (forall x y, R x y -> R' (f x) (f y)) -> StronglySorted R l -> StronglySorted R' (map f l).
Proof. intros A B R R' f l H Sl. induction Sl as [|x l Sl IH F]; [constructor|]. cbn [map]. constructor; auto. rewrite Forall_map. eapply Forall_impl; [|exact F]. cbv beta. auto. Qed.
Lemma tags_sorted : forall n, StronglySorted tag_before (tags n).
Proof.
  apply node_ind2. 1-3: cbn; repeat constructor. intros es F. rewrite tags_dir. generalize 0 as i. induction es as [|[name k] es IH]; intros i; cbn [tloop]; [constructor|].
  inversion F as [|? ? F1 F2]; subst. cbn [snd] in F1. apply sorted_app; [|apply sorted_app|].
  - destruct (sel k && good name); repeat constructor.
  - destruct (isdir k); [|constructor]. revert F1. apply sorted_map. intros x y [H|[H1 H2]]; [left; cbn; now constructor|right; cbn]. rewrite H1. tauto.
  - apply IH; auto.
  - intros x y Ix Iy. destruct (isdir k); [|destruct Ix]. apply in_map_iff in Ix as [x' [<- _]]. apply tloop_in in Iy as [j [nm [k' [_ [[-> _]|[_ [t' [_ ->]]]]]]]]; left; cbn; apply before_next; lia.
  - intros x y Ix Iy. destruct (sel k && good name); [|destruct Ix]. destruct Ix as [<-|[]]. apply in_app_iff in Iy as [Iy|Iy].
    + destruct (isdir k); [|destruct Iy]. apply in_map_iff in Iy as [[[[|p ps] nm] w] [<- It]]; cbn.
      * destruct w; [right; cbn; tauto|]. exfalso. clear - It. destruct k as [| | |es]; try (destruct It as [It|[]]; discriminate It).
        rewrite tags_dir in It. apply tloop_in in It as [j [n' [k [_ [[H _]|[_ [t' [_ H]]]]]]]]; discriminate H.
      * left. cbn. apply before_same, before_inside.
    + apply tloop_in in Iy as [j [nm [k' [_ [[-> _]|[_ [t' [_ ->]]]]]]]]; left; cbn; apply before_next; lia.
Qed.
Lemma tags_yield : forall n pos names, In ((pos, names), false) (tags n) <->
  exists names' name k, names = names' ++ [name] /\ item n pos names k /\ sel k = true /\ good name = true /\ (pos <> [] -> isdir n = true).
Proof.
  apply (node_ind2 (fun n => forall pos names, In ((pos, names), false) (tags n) <->
    exists names' name k, names = names' ++ [name] /\ item n pos names k /\ sel k = true /\ good name = true /\ (pos <> [] -> isdir n = true))).
  1-3: intros pos names; split; [intros [H|[]]; discriminate H|]; intros [names' [name [k [-> [H _]]]]]; inversion H; destruct names'; discriminate.
  intros es F pos names. rewrite tags_dir, tloop_in. split.
  - intros [j [nm [k [E [[H [A B]]|[D [t' [I H]]]]]]]].
    + injection H as -> ->. exists [], nm, k. repeat split; auto. cbn [Nat.add]. econstructor; [exact E|constructor].
    + destruct t' as [[pos' names'] w]. unfold deeper in H. cbn [fst snd] in H. injection H as -> -> <-.
      rewrite Forall_forall in F. apply (F (nm, k)) in I; [|eapply nth_error_In; eauto]. destruct I as [ns [n' [k' [-> [It [A [B _]]]]]]].
      exists (nm :: ns), n', k'. repeat split; auto. cbn [Nat.add app]. econstructor; eauto.
  - intros [names' [name [k [-> [It [A [B _]]]]]]]. inversion It as [? Hn Hp Hm|es' i nm k1 pos' ns k' E It' E1 E2 E3 E4]; subst; [destruct names'; discriminate|].
    exists i, nm, k1. split; [exact E|]. destruct names' as [|m names']; cbn [app] in E3; injection E3 as -> ->.
    + left. inversion It'; subst. auto.
    + right. assert (Hd : isdir k1 = true) by (inversion It'; subst; [match goal with H : _ = _ ++ [_] |- _ => destruct names'; discriminate H end|reflexivity]).
      split; [exact Hd|]. exists ((pos', names' ++ [name]), false). split; [|reflexivity]. rewrite Forall_forall in F. apply (F (m, k1)); [eapply nth_error_In; eauto|].
      exists names', name, k. auto.
Qed.
Lemma tags_warn : forall n, isdir n = true -> forall pos names, In ((pos, names), true) (tags n) <-> item n pos names Closed.
Proof.
  apply (node_ind2 (fun n => isdir n = true -> forall pos names, In ((pos, names), true) (tags n) <-> item n pos names Closed)); try discriminate.
  - intros _ pos names. split; [intros [H|[]]; injection H as <- <-; constructor|]. intros H. inversion H; subst. left; reflexivity.
  - intros es F _ pos names. rewrite tags_dir, tloop_in. split.
    + intros [j [nm [k [E [[H _]|[D [t' [I H]]]]]]]]; [discriminate H|].
      destruct t' as [[pos' names'] w]. unfold deeper in H. cbn [fst snd] in H. injection H as -> -> <-.
      rewrite Forall_forall in F. apply (F (nm, k)) in I; [|eapply nth_error_In; eauto|exact D]. cbn [Nat.add]. econstructor; eauto.
    + intros It. inversion It as [|es' i nm k1 pos' ns k' E It' E1 E2 E3 E4]; subst. exists i, nm, k1. split; [exact E|]. right.
      assert (Hd : isdir k1 = true) by (inversion It'; subst; reflexivity). split; [exact Hd|]. exists ((pos', ns), true). split; [|reflexivity].
      rewrite Forall_forall in F. apply (F (nm, k1)); [eapply nth_error_In; eauto|exact Hd|exact It'].
Qed.
End Tags.

(** ** The three traversals *)
Definition is_yield (e : event) : bool := match e with Yield _ => true | Warned _ => false end.
Fixpoint cut (es : list event) : trace :=
  match es with
  | [] => ([], None)
  | Warned _ :: _ => ([], Some GenericError)
  | e :: es' => (e :: fst (cut es'), snd (cut es'))
  end.
Definition run (errs : errors) (es : list event) : trace :=
  match errs with Warn => (es, None) | Ignore => (filter is_yield es, None) | _ => cut es end.
Lemma cut_app : forall a b, cut (a ++ b) = andthen (cut a) (cut b).
Proof.
  induction a as [|[p|p] a IH]; intros b; cbn [app cut].
  - unfold andthen. cbn. now destruct (cut b).
  - rewrite IH. unfold andthen. cbn [fst snd]. destruct (cut a) as [x [e|]]; reflexivity.
  - reflexivity.
Qed.
Lemma run_app : forall errs a b, run errs (a ++ b) = andthen (run errs a) (run errs b).
Proof. intros [] a b; cbn [run]; try apply cut_app; unfold andthen; cbn; [reflexivity|now rewrite filter_app]. Qed.
Lemma run_nil : forall errs, run errs [] = nothing.
Proof. intros []; reflexivity. Qed.
Lemma run_yield : forall errs (b : bool) p, run errs (if b then [Yield p] else []) = yield_if b p.
Proof. intros [] [] p; reflexivity. Qed.
Lemma run_unlistable : forall errs self, errs <> Invalid -> run errs [Warned self] = unlistable errs self.
Proof. intros [] self H; reflexivity || now destruct H. Qed.
Lemma ev_deeper : forall root i name t, ev root (deeper i name t) = ev (os_join1 root name) t.
Proof. intros root i name [[pos names] w]. reflexivity. Qed.

Lemma base_name : forall root name, name <> [] -> ~ In sep name -> snd (os_split (os_join1 root name)) = name.
Proof.
  intros root name N S1.
  assert (K : forall p, (p = [] \/ exists q, p = q ++ [sep]) -> snd (os_split (p ++ name)) = name).
  { intros p P. unfold os_split.
    assert (T : take_while (fun c => negb (is_sep c)) (rev (p ++ name)) = rev name).
    { rewrite rev_app_distr. apply take_while_all.
      - intros x I. apply in_rev in I. now rewrite (not_sep x name S1 I).
      - intros x t E. destruct P as [->|[q ->]]; [discriminate E|]. rewrite rev_app_distr in E. injection E as <- _. reflexivity. }
    rewrite T, rev_involutive. destruct (forallb _ _); reflexivity. }
  unfold os_join1. destruct name as [|c name]; [congruence|]. rewrite (not_sep c (c :: name) S1) by (left; auto).
  destruct (rev root) as [|d r] eqn:E.
  - apply (K []). now left.
  - destruct (is_sep d) eqn:D.
    + apply K. right. exists (rev r). apply is_sep_iff in D. subst d. rewrite <- (rev_involutive root), E. reflexivity.
    + change (root ++ sep :: c :: name) with (root ++ [sep] ++ (c :: name)). rewrite app_assoc. apply K. right. now exists root.
Qed.

Section Three.
Context (fnmatch : list ascii -> list ascii -> bool) (pattern : option (list ascii)).
Definition good (name : list ascii) : bool := match pattern with None => true | Some t => fnmatch name t end.
Lemma wanted_good : forall root name, name <> [] /\ ~ In sep name -> wanted fnmatch pattern (os_join1 root name) = good name.
Proof. intros root name [N S1]. unfold wanted, good, path_fnmatch. destruct pattern; [|reflexivity]. now rewrite base_name. Qed.

Lemma proper_child : forall es i name k, proper (Dir es) -> nth_error es i = Some (name, k) -> (name <> [] /\ ~ In sep name) /\ proper k.
Proof.
  intros es i name k P E. split.
  - pose proof (P [i] [name] k ltac:(econstructor; [exact E|constructor])) as F. now inversion F.
  - intros pos names k' It. pose proof (P (i :: pos) (name :: names) k' ltac:(econstructor; eauto)) as F. now inversion F.
Qed.
Lemma proper_tail : forall e es, proper (Dir (e :: es)) -> proper (Dir es).
Proof.
  intros e es P pos names k It. inversion It as [|? ? ? ? ? ? ? E It']; subst; [constructor|].
  eapply (P (S _ :: _)). econstructor; [|exact It']. cbn [nth_error]. exact E.
Qed.

Lemma shift_events : forall sel root i name k, map (ev root) (map (deeper i name) (tags sel good k)) = map (ev (os_join1 root name)) (tags sel good k).
Proof. intros. rewrite map_map. apply map_ext. intros t. apply ev_deeper. Qed.
Lemma first_events : forall (b : bool) root i name, map (ev root) (if b then [(([i], [name]), false)] else []) = if b then [Yield (os_join1 root name)] else [].
Proof. intros [] root i name; reflexivity. Qed.

Lemma walk_tags : forall n errs root, errs <> Invalid -> proper n -> walk fnmatch pattern errs root n = run errs (map (ev root) (tags (fun _ => true) good n)).
Proof.
  apply (node_ind2 (fun n => forall errs root, errs <> Invalid -> proper n -> walk fnmatch pattern errs root n = run errs (map (ev root) (tags (fun _ => true) good n))));
    try (intros errs root V _; cbn [tags map]; change (ev root ([], [], true)) with (Warned root); rewrite run_unlistable by exact V; destruct errs; [reflexivity..|congruence]).
  intros es F errs root V P. rewrite tags_dir. destruct errs; [| | |congruence].
  all: generalize 0 as i; revert P; induction es as [|[name k] es IH]; intros P i; [reflexivity|].
  all: inversion F as [|? ? F1 F2]; subst; cbn [snd] in F1.
  all: destruct (proper_child _ 0 name k P eq_refl) as [Hk Pk]; specialize (IH F2 (proper_tail _ _ P) (S i)); cbn [tloop]; rewrite !map_app, !run_app.
  all: cbn [walk]; cbn [walk] in IH; rewrite wanted_good by exact Hk; cbn [andb]; rewrite first_events, run_yield; f_equal; f_equal; [|exact IH].
  all: destruct (isdir k); [|reflexivity]; rewrite shift_events; apply F1; [discriminate|exact Pk].
Qed.
Lemma walkdirs_tags : forall n errs root, errs <> Invalid -> proper n -> walkdirs fnmatch pattern errs root n = run errs (map (ev root) (tags isdir good n)).
Proof.
  apply (node_ind2 (fun n => forall errs root, errs <> Invalid -> proper n -> walkdirs fnmatch pattern errs root n = run errs (map (ev root) (tags isdir good n))));
    try (intros errs root V _; cbn [tags map]; change (ev root ([], [], true)) with (Warned root); rewrite run_unlistable by exact V; destruct errs; [reflexivity..|congruence]).
  intros es F errs root V P. rewrite tags_dir. destruct errs; [| | |congruence].
  all: generalize 0 as i; revert P; induction es as [|[name k] es IH]; intros P i; [reflexivity|].
  all: inversion F as [|? ? F1 F2]; subst; cbn [snd] in F1.
  all: destruct (proper_child _ 0 name k P eq_refl) as [Hk Pk]; specialize (IH F2 (proper_tail _ _ P) (S i)); cbn [tloop]; rewrite !map_app, !run_app.
  all: cbn [walkdirs]; cbn [walkdirs] in IH; destruct (isdir k).
  all: try (cbn [andb map]; rewrite run_nil; unfold andthen, nothing; cbn [fst snd app]; rewrite <- surjective_pairing; exact IH).
  all: rewrite wanted_good by exact Hk; cbn [andb]; rewrite first_events, run_yield; f_equal; f_equal; [|exact IH].
  all: rewrite shift_events; apply F1; [discriminate|exact Pk].
Qed.
Lemma walkfiles_tags : forall n errs root, errs <> Invalid -> proper n -> walkfiles fnmatch pattern errs root n = run errs (map (ev root) (tags isfile good n)).
Proof.
  apply (node_ind2 (fun n => forall errs root, errs <> Invalid -> proper n -> walkfiles fnmatch pattern errs root n = run errs (map (ev root) (tags isfile good n))));
    try (intros errs root V _; cbn [tags map]; change (ev root ([], [], true)) with (Warned root); rewrite run_unlistable by exact V; destruct errs; [reflexivity..|congruence]).
  intros es F errs root V P. rewrite tags_dir. destruct errs; [| | |congruence].
  all: generalize 0 as i; revert P; induction es as [|[name k] es IH]; intros P i; [reflexivity|].
  all: inversion F as [|? ? F1 F2]; subst; cbn [snd] in F1.
  all: destruct (proper_child _ 0 name k P eq_refl) as [Hk Pk]; specialize (IH F2 (proper_tail _ _ P) (S i)); cbn [tloop]; rewrite !map_app, !run_app.
  all: cbn [walkfiles]; cbn [walkfiles] in IH.
  all: assert (N : forall t : trace, andthen nothing t = t) by (intros [x y]; reflexivity).
  all: destruct k as [| | |es']; cbn [isfile isdir andb].
  all: try (rewrite wanted_good by exact Hk; rewrite first_events, run_yield; cbn [map]; rewrite run_nil, N; f_equal; exact IH).
  all: try (cbn [map]; rewrite run_nil, !N; exact IH).
  all: cbn [map]; rewrite run_nil, N, shift_events, <- F1 by (discriminate || exact Pk); rewrite <- IH; reflexivity.
Qed.
End Three.

(** ** The claims *)
Lemma item_names : forall n pos names k, item n pos names k -> forall names' k', item n pos names' k' -> names = names' /\ k = k'.
Proof.
  intros n pos names k It. induction It as [n|es i name k pos names k' E It IH]; intros names2 k2 H; inversion H as [|? ? ? ? ? ? ? E' It']; subst; auto.
  rewrite E in E'. injection E' as <- <-. destruct (IH _ _ It') as [-> ->]. auto.
Qed.
Lemma before_irrefl : forall p, ~ before p p.
Proof. induction p as [|i p IH]; intros H; inversion H; subst; [lia|auto]. Qed.
Lemma before_trans : forall p q r, before p q -> before q r -> before p r.
Proof.
  intros p q r H. revert r. induction H as [i p|i j p q L|i p q H IH]; intros r K; inversion K; subst; try (apply before_next; lia); try apply before_inside; apply before_same; auto.
Qed.

Lemma yields_in : forall ts pos names, In (pos, names) (yields ts) <-> In ((pos, names), false) ts.
Proof.
  intros ts pos names. unfold yields. rewrite in_map_iff. split.
  - intros [[p w] [E I]]. cbn [fst] in E. subst p. apply filter_In in I as [I J]. cbn [snd] in J. destruct w; [discriminate J|exact I].
  - intros I. exists ((pos, names), false). split; [reflexivity|]. apply filter_In. auto.
Qed.
Lemma warns_in : forall ts pos names, In (pos, names) (warns ts) <-> In ((pos, names), true) ts.
Proof.
  intros ts pos names. unfold warns. rewrite in_map_iff. split.
  - intros [[p w] [E I]]. cbn [fst] in E. subst p. apply filter_In in I as [I J]. cbn [snd] in J. subst w. exact I.
  - intros I. exists ((pos, names), true). split; [reflexivity|]. apply filter_In. auto.
Qed.
Lemma part_sorted : forall (w : bool) (f : tag -> bool) ts, (forall t, f t = true -> snd t = w) -> StronglySorted tag_before ts ->
  StronglySorted (fun a b : place => before (fst a) (fst b)) (map fst (filter f ts)).
Proof.
  intros w f ts H S1. induction S1 as [|t ts S1 IH F]; [constructor|]. cbn [filter]. destruct (f t) eqn:E; [|exact IH]. cbn [map]. constructor; [exact IH|].
  apply Forall_forall. intros p I. apply in_map_iff in I as [t' [<- I]]. apply filter_In in I as [I J]. rewrite Forall_forall in F. destruct (F t' I) as [B|[_ [B C]]]; [exact B|].
  rewrite (H _ E) in B. rewrite (H _ J) in C. congruence.
Qed.
Lemma yields_events : forall root ts, filter is_yield (map (ev root) ts) = map (fun p => Yield (path_of root p)) (yields ts).
Proof. intros root. induction ts as [|[p []] ts IH]; [reflexivity|exact IH|]. unfold yields in *. cbn. now rewrite IH. Qed.
Lemma warns_events : forall root ts, filter (fun e => negb (is_yield e)) (map (ev root) ts) = map (fun p => Warned (path_of root p)) (warns ts).
Proof. intros root. induction ts as [|[p []] ts IH]; [reflexivity| |exact IH]. unfold warns in *. cbn. now rewrite IH. Qed.
Lemma cut_events : forall root ts, StronglySorted tag_before ts ->
  cut (map (ev root) ts) = match warns ts with
    | [] => (map (fun p => Yield (path_of root p)) (yields ts), None)
    | c :: _ => (map (fun p => Yield (path_of root p)) (firstn (length (fst (cut (map (ev root) ts)))) (yields ts)), Some GenericError) end /\
  forall c cs', warns ts = c :: cs' -> forall p, In p (firstn (length (fst (cut (map (ev root) ts)))) (yields ts)) <-> In p (yields ts) /\ (before (fst p) (fst c) \/ fst p = fst c).
Proof.
  intros root ts S1. induction S1 as [|t ts S1 [IH1 IH2] F]; [split; [reflexivity|discriminate]|].
  destruct t as [q []].
  - cbn [map ev snd fst cut]. change (warns ((q, true) :: ts)) with (q :: warns ts). change (yields ((q, true) :: ts)) with (yields ts). cbn [fst length firstn map].
    split; [reflexivity|]. intros c cs' E p. injection E as <- <-. split; [intros []|]. intros [I B]. exfalso. destruct p as [pos names]. apply yields_in in I.
    rewrite Forall_forall in F. destruct (F _ I) as [K|[K [K' _]]]; [|discriminate K']. cbn [fst] in *. destruct B as [B|B].
    + exact (before_irrefl _ (before_trans _ _ _ K B)).
    + rewrite B in K. exact (before_irrefl _ K).
  - cbn [map ev snd fst cut]. change (warns ((q, false) :: ts)) with (warns ts). change (yields ((q, false) :: ts)) with (q :: yields ts). cbn [fst snd length firstn map].
    split.
    + destruct (warns ts) as [|c cs]; rewrite IH1 at 1 2; cbn [fst snd]; reflexivity.
    + intros c cs' E p. specialize (IH2 c cs' E p). cbn [In]. rewrite IH2. assert (B : before (fst q) (fst c) \/ fst q = fst c).
      { assert (I : In ((fst c, snd c), true) ts) by (apply warns_in; rewrite E; left; destruct c; auto). rewrite Forall_forall in F.
        destruct (F _ I) as [K|[K _]]; cbn [fst] in K; auto. }
      split; [intros [<-|H]; tauto|]. intros [[<-|H] K]; tauto.
Qed.

Lemma isdir_iff : forall k, isdir k = true <-> directory k.
Proof. intros k. unfold directory. destruct k; cbn; split; intros H; try discriminate; try reflexivity; try (destruct H as [H|[es H]]; discriminate H); eauto. Qed.
Lemma firstn_split : forall (A : Type) (l : list A) n, exists rest, l = firstn n l ++ rest.
Proof. intros A l n. exists (skipn n l). symmetry. apply firstn_skipn. Qed.

Lemma traversal_tags : forall fnmatch go sel (P : node -> Prop), (forall k, sel k = true <-> P k) ->
  (forall pattern n errs root, errs <> Invalid -> proper n -> go pattern errs root n = run errs (map (ev root) (tags sel (good fnmatch pattern) n))) -> traversal fnmatch go P.
Proof.
  intros fnmatch go sel P HP G pattern root n D Pn. apply isdir_iff in D. set (ts := tags sel (good fnmatch pattern) n).
  pose proof (tags_sorted sel (good fnmatch pattern) n) as TS. fold ts in TS. destruct (cut_events root ts TS) as [C1 C2].
  exists ts, (yields ts), (warns ts). split; [exact TS|]. split; [reflexivity|]. split; [reflexivity|]. split; [|split; [|split; [|split; [|split]]]].
  - split; [apply (part_sorted false); auto; intros t H; now destruct (snd t)|]. intros pos names. rewrite yields_in. unfold ts. rewrite tags_yield. split.
    + intros [ns [nm [k [-> [It [A [B _]]]]]]]. exists ns, nm, k. split; [reflexivity|]. split; [exact It|]. split; [now apply HP|]. intros t E. unfold good in B. now rewrite E in B.
    + intros [ns [nm [k [-> [It [A B]]]]]]. exists ns, nm, k. repeat split; auto; [now apply HP|]. unfold good. destruct pattern as [t|]; auto.
  - split; [apply (part_sorted true); auto|]. intros pos names. rewrite warns_in. now apply tags_warn.
  - rewrite G by (discriminate || exact Pn). fold ts. cbn [run]. now rewrite yields_events.
  - rewrite G by (discriminate || exact Pn). reflexivity.
  - intros E. rewrite G by (discriminate || exact Pn). fold ts. cbn [run]. rewrite C1, E. reflexivity.
  - intros c cs' E. rewrite G by (discriminate || exact Pn). fold ts. cbn [run]. destruct (firstn_split _ (yields ts) (length (fst (cut (map (ev root) ts))))) as [rest R].
    eexists _, rest. split; [exact R|]. split; [|exact (C2 c cs' E)]. rewrite C1 at 1. rewrite E. reflexivity.
Qed.

(** ** The claims *)
Theorem C72_walk : forall fnmatch, traversal fnmatch (walk fnmatch) any.
Proof. intros f. apply (traversal_tags f _ (fun _ => true)); [unfold any; tauto|]. intros. now apply walk_tags. Qed.
Print Assumptions C72_walk.
Theorem C72_walkdirs : forall fnmatch, traversal fnmatch (walkdirs fnmatch) directory.
Proof. intros f. apply (traversal_tags f _ isdir); [exact isdir_iff|intros; now apply walkdirs_tags]. Qed.
Print Assumptions C72_walkdirs.
Theorem C72_walkfiles : forall fnmatch, traversal fnmatch (walkfiles fnmatch) file.
Proof.
  intros f. apply (traversal_tags f _ isfile); [|intros; now apply walkfiles_tags]. intros k. unfold file. destruct k; cbn; split; intros H; try discriminate; reflexivity.
Qed.
Print Assumptions C72_walkfiles.
Theorem C72_invalid : forall fnmatch pattern root n,
  walk fnmatch pattern Invalid root n = ([], Some ValueError) /\ walkdirs fnmatch pattern Invalid root n = ([], Some ValueError) /\
  walkfiles fnmatch pattern Invalid root n = ([], Some ValueError).
Proof. intros f p root []; repeat split. Qed.
Print Assumptions C72_invalid.

(** The order and the places determine each other; different places have different paths. *)
Definition prefix_of (root : list ascii) : list ascii := match rev root with [] => [] | d :: _ => if is_sep d then root else root ++ [sep] end.
Lemma join1_prefix : forall root s, s <> [] -> ~ In sep s -> os_join1 root s = prefix_of root ++ s.
Proof.
  intros root [|c s] N S1; [congruence|]. unfold os_join1, prefix_of. rewrite (not_sep c (c :: s) S1) by (left; auto).
  destruct (rev root) as [|d r] eqn:E; [reflexivity|]. destruct (is_sep d); [reflexivity|]. now rewrite <- app_assoc.
Qed.
Lemma prefix_name : forall p s, s <> [] -> ~ In sep s -> prefix_of (p ++ s) = p ++ s ++ [sep].
Proof.
  intros p s N S1. unfold prefix_of. rewrite rev_app_distr. destruct (rev s) as [|d r] eqn:E; [apply (f_equal (@rev _)) in E; rewrite rev_involutive in E; subst; contradiction|].
  cbn [app]. rewrite (not_sep d s S1) by (apply in_rev; rewrite E; left; auto). now rewrite <- app_assoc.
Qed.
Lemma join_names : forall names root, names <> [] -> Forall (fun s => s <> [] /\ ~ In sep s) names -> os_join root names = prefix_of root ++ join_sep names.
Proof.
  induction names as [|s names IH]; intros root N F; [congruence|]. inversion F as [|? ? [F1 F1'] F2]; subst. unfold os_join in *. cbn [fold_left].
  rewrite join1_prefix by auto. destruct names as [|s' names]; [reflexivity|]. rewrite IH by (discriminate || auto). rewrite prefix_name by auto.
  change (join_sep (s :: s' :: names)) with (s ++ sep :: join_sep (s' :: names)). now rewrite <- !app_assoc.
Qed.
Lemma item_place : forall n pos names k, item n pos names k -> unambiguous n -> forall pos' k', item n pos' names k' -> pos = pos'.
Proof.
  intros n pos names k It. induction It as [n|es i name k pos names k' E It IH]; intros U pos2 k2 H; inversion H as [|? j ? k1 ? ? ? E' It']; subst; auto.
  pose proof (U [] [] es (item_here _)) as ND.
  assert (i = j).
  { apply (proj1 (NoDup_nth_error (map fst es)) ND); [rewrite map_length; apply nth_error_Some; congruence|]. rewrite !nth_error_map, E, E'. reflexivity. }
  subst j. rewrite E in E'. injection E' as <-. f_equal. apply (IH ltac:(intros p ns es' X; apply (U (i :: p) (name :: ns)); econstructor; eauto) _ _ It').
Qed.
Theorem C72_distinct : forall root n P ps, unambiguous n -> proper n -> listed n P ps -> NoDup (map (path_of root) ps).
Proof.
  intros root n P ps U Pn [S1 M].
  assert (K : forall p q, In p ps -> In q ps -> path_of root p = path_of root q -> fst p = fst q).
  { intros [pos names] [pos' names'] I J E. apply M in I as [ns [nm [k [-> [It _]]]]]. apply M in J as [ns' [nm' [k' [-> [It' _]]]]]. cbn [fst].
    unfold path_of in E. cbn [snd] in E. rewrite !join_names in E by (try (intros X; destruct ns, ns'; discriminate X); eapply Pn; eauto). apply app_inv_head in E.
    assert (Q : forall l, l <> [] -> Forall (fun s => s <> [] /\ ~ In sep s) l -> split_sep (join_sep l) = l).
    { intros l N F. apply split_join; auto. eapply Forall_impl; [|exact F]. cbv beta. tauto. }
    assert (X : ns ++ [nm] = ns' ++ [nm']).
    { rewrite <- (Q (ns ++ [nm])), <- (Q (ns' ++ [nm'])), E; auto; try (intros X; destruct ns, ns'; discriminate X); eapply Pn; eauto. }
    rewrite X in It. exact (item_place _ _ _ _ It U _ _ It'). }
  clear M. induction S1 as [|p ps S1 IH F]; [constructor|]. cbn [map]. constructor.
  - intros I. apply in_map_iff in I as [q [E I]]. rewrite Forall_forall in F. pose proof (F q I) as B. rewrite (K p q) in B; [now apply before_irrefl in B|left; reflexivity|right; exact I|symmetry; exact E].
  - apply IH. intros a b I J. apply K; right; auto.
Qed.
Print Assumptions C72_distinct.

(** A directory: what it contains, which of it are directories and files. *)
Theorem C72_listing : forall fnmatch self es pattern,
  let lists (l : option (list (list ascii * node))) kind := exists xs, l = Some xs /\ forall p k, In (p, k) xs <-> exists name, In (name, k) es /\ picks fnmatch pattern kind name k /\ p = os_join1 self name in
  lists (listdir fnmatch self (Dir es) pattern) any /\ lists (dirs fnmatch self (Dir es) pattern) directory /\ lists (files fnmatch self (Dir es) pattern) file.
Proof.
  intros fnmatch self es pattern lists.
  assert (G : forall kind b, (forall k, b k = true <-> kind k) -> lists (match listdir fnmatch self (Dir es) pattern with Some xs => Some (filter (fun e => b (snd e)) xs) | None => None end) kind).
  { intros kind b B. eexists. split; [reflexivity|]. intros p k. rewrite filter_In, in_map_iff. cbn [snd]. rewrite B. split.
    - intros [[[nm k'] [E I]] K]. cbn [fst snd] in E. injection E as <- <-. apply filter_In in I as [I J]. cbn [fst] in J. exists nm. split; [exact I|]. split; [|reflexivity].
      split; [exact K|]. intros t ->. exact J.
    - intros [nm [I [[K J] ->]]]. split; [|exact K]. exists (nm, k). split; [reflexivity|]. apply filter_In. split; [exact I|]. cbn [fst]. destruct pattern as [t|]; auto. }
  split; [|split; [apply (G directory isdir isdir_iff)|apply (G file isfile); intros []; unfold file; cbn; split; intros H; try discriminate; reflexivity]].
  destruct (G any (fun _ => true) ltac:(unfold any; tauto)) as [xs [E H]]. exists xs. split; [|exact H]. cbn [listdir] in E |- *. injection E as <-. f_equal.
  symmetry. match goal with |- filter _ ?l = _ => generalize l end. intros l. induction l as [|x l IH]; [reflexivity|]. cbn [filter]. now rewrite IH.
Qed.
Print Assumptions C72_listing.

Definition ex_tree : node := Dir [(["a"%char], Dir [(["b"%char], File); (["c"%char], Closed)]); (["d"%char], File); (["e"%char], Special)].
Example C72_ex :
  directory ex_tree /\ proper ex_tree /\ unambiguous ex_tree /\
  walk (fun _ _ => true) None Warn ["r"%char] ex_tree =
    (let p s := list_ascii_of_string s in [Yield (p "r/a"); Yield (p "r/a/b"); Yield (p "r/a/c"); Warned (p "r/a/c"); Yield (p "r/d"); Yield (p "r/e")], None)%string /\
  fst (walkfiles (fun _ _ => true) None Strict ["r"%char] ex_tree) = [Yield (list_ascii_of_string "r/a/b")].
Proof.
  assert (A : forall c : ascii, is_sep c = false -> [c] <> [] /\ ~ In sep [c]) by (intros c E; split; [discriminate|intros [->|[]]; discriminate E]).
  assert (I : forall pos names k, item ex_tree pos names k ->
     In (names, k) [([], ex_tree); ([["a"%char]], Dir [(["b"%char], File); (["c"%char], Closed)]); ([["a"%char]; ["b"%char]], File); ([["a"%char]; ["c"%char]], Closed); ([["d"%char]], File); ([["e"%char]], Special)]).
  { intros pos names k H. inversion H as [|es i nm k1 p ns k2 E H1]; subst; [left; auto|].
    destruct i as [|[|[|i]]]; cbn [nth_error] in E; [| | |destruct i; discriminate E]; injection E as <- <-.
    - inversion H1 as [|es' i' nm' k1' p' ns' k2' E' H1']; subst; [cbn; tauto|]. destruct i' as [|[|i']]; cbn [nth_error] in E'; [| |destruct i'; discriminate E']; injection E' as <- <-; inversion H1'; subst; cbn; tauto.
    - inversion H1; subst; cbn; tauto.
    - inversion H1; subst; cbn; tauto. }
  split; [right; eexists; reflexivity|]. split; [|split; [|split; vm_compute; reflexivity]].
  - intros pos names k H. apply I in H. cbn in H. repeat (destruct H as [H|H]; [injection H as <- <-; repeat constructor; apply A; reflexivity|]). destruct H.
  - intros pos names es H. apply I in H. cbn in H. repeat (destruct H as [H|H]; [first [discriminate H|injection H as <- <-; cbn; repeat constructor; cbn; intuition discriminate]|]). destruct H.
Qed.
