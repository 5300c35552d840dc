(** C59: comments and the properties read from them. *)
From Coq Require Import Ascii String List Arith ZArith Bool Lia Permutation.
From Verif Require Import Model_NdArray Model_Text Model_Block Model_Comments Spec_Comments Proofs_Comments.
Import ListNotations.
Local Open Scope nat_scope.
Local Open Scope list_scope.

(** A comment "name: value" is taken apart into the name and the value. *)
Theorem C59_plain : forall l name value, good_name name -> good_value value -> plain_comment l name value ->
  reg_comment_all l = Some (name, None, value).
Proof.
  intros l name v G GV (w1 & w2 & s & w3 & -> & B1 & B2 & S & B3). apply name_ok; auto. now apply tail_plain.
Qed.
Print Assumptions C59_plain.

(** A comment "name [unit]: value" is taken apart into name, unit and value. *)
Theorem C59_unit : forall l name u value, good_name name -> good_unit u -> good_value value -> unit_comment l name u value ->
  reg_comment_all l = Some (name, Some u, value).
Proof.
  intros l name u v G GU GV (w1 & w2 & w3 & s & w4 & -> & B1 & B2 & B3 & S & B4). apply name_ok; auto. now apply tail_unit.
Qed.
Print Assumptions C59_unit.

(** Whatever is taken apart has one of these forms, with the first separator after
    the name. *)
Theorem C59_sound : forall l name u v, one_line l -> reg_comment_all l = Some (name, u, v) ->
  trimmed name /\ (forall c, In c name -> ~ separator c) /\ v <> [] /\
  match u with
  | None => plain_comment l name v
  | Some u => good_unit u /\ unit_comment l name u v
  end.
Proof.
  intros l name u v L H. destruct (reg_some _ _ H) as (w & name' & rest & -> & B & L' & T & TR & NS).
  destruct (tail_some _ _ _ T) as [(w1 & s & w' & v' & r & -> & H1 & H2 & H3 & H4 & H5 & E & N)|
    (w0 & u' & w1 & s & w' & v' & r & -> & H0 & HU & H1 & H2 & H3 & H4 & H5 & E & N)]; injection E as <- -> ->.
  - assert (r = []) as ->.
    { destruct r as [|c r]; auto. exfalso. specialize (N c r eq_refl). apply nl_iff in L. rewrite Forall_forall in L.
      rewrite (L c) in N; try discriminate. rewrite !in_app_iff. right; right; right. cbn [In]. rewrite !in_app_iff. right; right; right. now left. }
    rewrite app_nil_r. do 3 (split; auto). exists w, w1, s, w'. auto.
  - assert (r = []) as ->.
    { destruct r as [|c r]; auto. exfalso. specialize (N c r eq_refl). apply nl_iff in L. rewrite Forall_forall in L.
      rewrite (L c) in N; try discriminate. rewrite !in_app_iff. right; right; right. cbn [In]. rewrite in_app_iff. cbn [In]. rewrite in_app_iff. cbn [In].
      rewrite !in_app_iff. cbn [In]. tauto. }
    rewrite app_nil_r. do 3 (split; auto). split; auto. exists w, w0, w1, s, w'. auto 10.
Qed.
Print Assumptions C59_sound.

(** A comment gives a value exactly if something follows a separator. *)
Theorem C59_matches : forall l, one_line l ->
  ((exists g, reg_comment_all l = Some g) <-> exists a s b, l = a ++ s :: b /\ separator s /\ b <> []).
Proof.
  intros l L. split.
  - intros [[[name u] v] H]. destruct (C59_sound _ _ _ _ L H) as (_ & _ & NV & F). destruct u as [u|].
    + destruct F as (_ & w1 & w2 & w3 & s & w4 & -> & _ & _ & _ & S & _).
      exists (w1 ++ name ++ w2 ++ "["%char :: u ++ "]"%char :: w3), s, (w4 ++ v). repeat split; auto.
      * now repeat (rewrite <- ?app_assoc; cbn [app]).
      * intros E. apply app_eq_nil in E. tauto.
    + destruct F as (w1 & w2 & s & w3 & -> & _ & _ & S & _).
      exists (w1 ++ name ++ w2), s, (w3 ++ v). repeat split; auto.
      * now repeat (rewrite <- ?app_assoc; cbn [app]).
      * intros E. apply app_eq_nil in E. tauto.
  - intros (a & s & b & -> & S & NB). destruct (reg_comment_all (a ++ s :: b)) as [g|] eqn:E; [now exists g|]. exfalso.
    revert E. unfold reg_comment_all. apply (star_complete _ _ [] [] (a ++ s :: b)); [constructor|].
    apply nl_iff in L. apply Forall_app in L as [L1 L2]. apply Forall_cons_iff in L2 as [_ L2].
    apply lazy_complete; auto. cbn [app]. pose proof (tail_complete_plain a [] s [] b [] (Forall_nil _) S (Forall_nil _) NB) as Q.
    cbn [app] in Q. rewrite app_nil_r in Q. apply Q. now apply nl_iff.
Qed.
Print Assumptions C59_matches.

(** ** Exclamation marks and white space around the comment *)
Lemma drop_all : forall {X} (f : X -> bool) a l, Forall (fun x => f x = true) a -> drop_while f (a ++ l) = drop_while f l.
Proof. intros X f; induction a as [|x a IH]; intros l F; auto. apply Forall_cons_iff in F as [F1 F2]. cbn [app drop_while]. rewrite F1. auto. Qed.
Lemma drop_stop : forall {X} (f : X -> bool) l, (forall x r, l = x :: r -> f x = false) -> drop_while f l = l.
Proof. intros X f [|x l] H; auto. cbn [drop_while]. now rewrite (H x l eq_refl). Qed.
Lemma drop_split : forall {X} (f : X -> bool) l, exists a, l = a ++ drop_while f l /\ Forall (fun x => f x = true) a /\
  (forall x r, drop_while f l = x :: r -> f x = false).
Proof.
  intros X f; induction l as [|x l [a [E1 [E2 E3]]]].
  - exists []. repeat split; auto. discriminate.
  - cbn [drop_while]. destruct (f x) eqn:F.
    + exists (x :: a). cbn [app]. rewrite <- E1. repeat split; auto.
    + exists []. repeat split; auto. intros y r E. injection E as <- <-. exact F.
Qed.
Lemma strip_ok : forall w1 b w2, blank w1 -> blank w2 -> trimmed b -> (b = [] -> w2 = []) -> strip (w1 ++ b ++ w2) = b.
Proof.
  intros w1 b w2 B1 B2 [T1 T2] N. unfold strip, lstrip. rewrite drop_all by auto.
  destruct b as [|c b]. { rewrite (N eq_refl). reflexivity. }
  rewrite (drop_stop _ ((c :: b) ++ w2)). 2: { intros x r E. injection E as <- _. now apply (T1 c b). }
  unfold rstrip. rewrite rev_app_distr, drop_all by (apply Forall_rev; auto).
  destruct (exists_last (l := c :: b) ltac:(discriminate)) as [b0 [c0 E0]]. rewrite E0 in *.
  rewrite rev_app_distr. cbn [rev app drop_while]. rewrite (T2 c0 b0 eq_refl). cbn [rev]. now rewrite rev_involutive.
Qed.
Lemma strip_split : forall l, exists w1 w2, l = w1 ++ strip l ++ w2 /\ blank w1 /\ blank w2 /\ trimmed (strip l) /\ (strip l = [] -> w2 = []).
Proof.
  intros l. unfold strip, lstrip. destruct (drop_split is_space l) as [w1 [E1 [B1 N1]]]. set (m := drop_while is_space l) in *.
  unfold rstrip. destruct (drop_split is_space (rev m)) as [w2 [E2 [B2 N2]]]. set (q := drop_while is_space (rev m)) in *.
  assert (M : m = rev q ++ rev w2). { rewrite <- (rev_involutive m), E2, rev_app_distr. reflexivity. }
  exists w1, (rev w2). rewrite E1 at 1. rewrite M at 1. repeat split; auto; [now apply Forall_rev| | |].
  - intros c r E. apply (N1 c (r ++ rev w2)). rewrite M, E. reflexivity.
  - intros c r E. apply (N2 c (rev r)). rewrite <- (rev_involutive q), E, rev_app_distr. reflexivity.
  - intros E. rewrite E in M. cbn [app] in M. destruct (rev w2) as [|c z] eqn:W; auto. exfalso.
    assert (is_space c = true). { assert (F : blank (c :: z)) by (rewrite <- W; now apply Forall_rev). now apply Forall_cons_iff in F. }
    rewrite (N1 c z) in H; [discriminate|]. exact M.
Qed.
Theorem C59_stripped : forall c b, bare_comment c = b <-> stripped c b.
Proof.
  intros c b. split.
  - intros <-. unfold bare_comment. destruct (drop_split (Ascii.eqb "!") c) as [a [E [A N]]].
    destruct (strip_split (drop_while (Ascii.eqb "!") c)) as (w1 & w2 & E2 & B1 & B2 & T & Z).
    exists (length a), w1, w2. repeat split; auto; try apply T.
    + rewrite E at 1. rewrite E2 at 1. f_equal. clear -A. induction A as [|x a X A IH]; auto. cbn. apply Ascii.eqb_eq in X. subst. now rewrite <- IH.
    + intros -> H. destruct (strip _) as [|c0 r] eqn:Q; try discriminate. injection H as ->. cbn [app] in E2.
      specialize (N _ _ E2). now rewrite Ascii.eqb_refl in N.
  - intros (n & w1 & w2 & -> & B1 & B2 & T & Z & H). unfold bare_comment. rewrite drop_all.
    2: { apply Forall_forall. intros x I. apply repeat_spec in I. subst. apply Ascii.eqb_refl. }
    rewrite drop_stop; [now apply strip_ok|]. intros x r E. destruct (Ascii.eqb "!" x) eqn:Q; auto. exfalso. apply Ascii.eqb_eq in Q. subst x.
    destruct w1 as [|y w1].
    + cbn [app] in E. destruct b as [|y b]; [rewrite (Z eq_refl) in E; discriminate|]. injection E as -> E. now apply H.
    + injection E as -> E. apply Forall_cons_iff in B1 as [B1 _]. discriminate.
Qed.
Print Assumptions C59_stripped.

(** ** Values *)
Section Values.
  Context {V : Type}.
  Variable convs : list (list ascii -> result V).
  Variable conv_unit : list ascii -> list ascii -> result V.
  Variable text : list ascii -> V.
  Definition accepts (f : list ascii -> result V) (v : list ascii) (x : V) : Prop := f v = Ok x.
  Definition refuses (f : list ascii -> result V) (v : list ascii) : Prop := f v = Err ValueError.
  (** Value without unit, value with unit. *)
  Definition means (u : option (list ascii)) (v : list ascii) (x : V) : Prop :=
    match u with
    | None => converted (map accepts convs) (map refuses convs) text v x
    | Some u => converted [accepts (conv_unit u)] [refuses (conv_unit u)] text v x
    end.

  Lemma convert_ok : forall fs v x, or_text text (convert fs v) v = Ok x <-> converted (map accepts fs) (map refuses fs) text v x.
  Proof.
    intros fs v x. unfold converted. induction fs as [|f fs IH].
    - cbn. split.
      + intros E. injection E as <-. right. split; auto. contradiction.
      + intros [(i & f & E & _)|[_ ->]]; auto. destruct i; discriminate.
    - cbn [map convert]. destruct (f v) as [y|e] eqn:F.
      + split.
        * intros E. injection E as <-. left. exists 0, (accepts f). repeat split; auto. intros j r L; lia.
        * intros [(i & g & E & A & B)|[B _]].
          -- destruct i as [|i]. { injection E as <-. unfold accepts in A. cbn. congruence. }
             specialize (B 0 _ ltac:(lia) eq_refl). unfold refuses in B. congruence.
          -- specialize (B _ (or_introl eq_refl)). unfold refuses in B. congruence.
      + assert (D : e = ValueError \/ e <> ValueError) by (destruct e; auto; right; discriminate). destruct D as [->|D].
        * rewrite IH. split; (intros [(i & g & E & A & B)|[B ->]]; [left|right]).
          -- exists (S i), g. repeat split; auto. intros [|j] r L E'; [injection E' as <-; exact F|]. apply (B j r); auto; lia.
          -- split; auto. intros r [<-|I]; [exact F|exact (B r I)].
          -- destruct i as [|i]. { injection E as <-. unfold accepts in A. congruence. }
             exists i, g. repeat split; auto. intros j r L E'. apply (B (S j) r); auto; lia.
          -- split; auto. intros r I. apply (B r). now right.
        * split.
          -- intros E. destruct e; cbn in E; congruence.
          -- intros [(i & g & E & A & B)|[B _]].
             ++ destruct i as [|i]. { injection E as <-. unfold accepts in A. congruence. }
                specialize (B 0 _ ltac:(lia) eq_refl). unfold refuses in B. congruence.
             ++ specialize (B _ (or_introl eq_refl)). unfold refuses in B. congruence.
  Qed.

  Lemma says_groups : forall c name u v, says c name u v -> reg_comment_all (bare_comment c) = Some (name, u, v) /\ bare_comment c <> [].
  Proof.
    intros c name u v (G & GV & b & S & F). apply C59_stripped in S. rewrite S. destruct u as [u|].
    - destruct F as [GU F]. split; [now apply C59_unit|]. destruct F as (w1 & w2 & w3 & s & w4 & -> & _).
      intros E. apply app_eq_nil in E as [_ E]. apply app_eq_nil in E as [E _]. destruct G; auto.
    - split; [now apply C59_plain|]. destruct F as (w1 & w2 & s & w4 & -> & _).
      intros E. apply app_eq_nil in E as [_ E]. apply app_eq_nil in E as [E _]. destruct G; auto.
  Qed.
  Lemma bare_match : forall {B} (l : list ascii) (a : B) f, l <> [] -> match l with [] => a | b => f b end = f l.
  Proof. intros B [|c l] a f H; congruence. Qed.

  (** One line sets its name to its value. *)
  Lemma add_ok : forall d c name u v d', says c name u v ->
    (add_from_comment convs conv_unit text d c = Ok d' <-> exists x, means u v x /\ d' = put name x d).
  Proof.
    intros d c name u v d' H. apply says_groups in H as [R NE]. unfold add_from_comment.
    assert (P : forall d', (do kvs <- process_comment convs conv_unit text (bare_comment c);
       Ok (fold_left (fun d kv => put (fst kv) (snd kv) d) kvs d)) = Ok d' <-> exists x, means u v x /\ d' = put name x d).
    { intros d0. unfold process_comment. rewrite R. unfold means. destruct u as [u|].
      - setoid_rewrite <- (convert_ok [conv_unit u]). destruct (or_text _ _ _) as [x|e]; cbn; split.
        + intros E. injection E as <-. eauto.
        + intros (y & E & ->). injection E as <-. auto.
        + discriminate.
        + intros (y & E & _). discriminate.
      - setoid_rewrite <- convert_ok. destruct (or_text _ _ _) as [x|e]; cbn; split.
        + intros E. injection E as <-. eauto.
        + intros (y & E & ->). injection E as <-. auto.
        + discriminate.
        + intros (y & E & _). discriminate. }
    rewrite <- P. destruct (bare_comment c); [congruence|reflexivity].
  Qed.
  Lemma lookup_put : forall k x (d : list (list ascii * V)) k', lookup k' (put k x d) = if list_eq_dec ascii_dec k' k then Some x else lookup k' d.
  Proof.
    intros k x d k'. induction d as [|[k0 x0] d IH]; cbn [put lookup]; [reflexivity|].
    unfold eqb_chars. destruct (list_eq_dec ascii_dec k k0) as [->|N]; cbn [lookup].
    - destruct (list_eq_dec ascii_dec k' k0); auto.
    - rewrite IH. destruct (list_eq_dec ascii_dec k' k0) as [->|N2]; auto.
      destruct (list_eq_dec ascii_dec k0 k); congruence.
  Qed.

  (** Lines which say names and values: the last line with a name gives its value,
      other names keep theirs. *)
  Theorem C59_properties : forall cs said d d',
    Forall2 (fun c s => says c (fst (fst s)) (snd (fst s)) (snd s)) cs said ->
    add_from_comments convs conv_unit text d cs = Ok d' ->
    forall k x, lookup k d' = Some x <->
      (exists before u v after, said = before ++ (k, u, v) :: after /\ ~ In k (map (fun s => fst (fst s)) after) /\
          (forall y, means u v y <-> y = x)) \/
      (~ In k (map (fun s => fst (fst s)) said) /\ lookup k d = Some x).
  Proof.
    intros cs said d d' F. revert d d'. induction F as [|c [[n u] v] cs said S F IH]; intros d d' H k x.
    - injection H as <-. split.
      + intros L. right. split; auto.
      + intros [(b & u & v & a & E & _)|[_ L]]; auto. destruct b; discriminate.
    - cbn [add_from_comments] in H. destruct (add_from_comment convs conv_unit text d c) as [d1|] eqn:A; try discriminate. cbn [bind] in H.
      cbn [fst snd] in S. pose proof (proj1 (add_ok d c n u v d1 S) A) as (x0 & M & ->).
      assert (U : forall y, means u v y <-> y = x0).
      { intros y. split; [|intros ->; auto]. intros M'. pose proof (proj2 (add_ok d c n u v _ S) (ex_intro _ y (conj M' eq_refl))) as A'.
        rewrite A in A'. injection A' as E. assert (lookup n (put n x0 d) = lookup n (put n y d)) as E' by now rewrite E.
        rewrite !lookup_put in E'. destruct (list_eq_dec ascii_dec n n); congruence. }
      rewrite (IH _ _ H k x). clear IH. split.
      + intros [(b & u' & v' & a & -> & NI & M')|[NI L]].
        * left. exists ((n, u, v) :: b), u', v', a. auto.
        * rewrite lookup_put in L. destruct (list_eq_dec ascii_dec k n) as [->|N].
          -- injection L as <-. left. exists [], u, v, said. auto.
          -- right. split; auto. cbn. intros [E|I]; auto.
      + intros [(b & u' & v' & a & E & NI & M')|[NI L]].
        * destruct b as [|s b].
          -- injection E as -> -> -> ->. right. split; auto. rewrite lookup_put. destruct (list_eq_dec ascii_dec k k); try congruence.
             f_equal. symmetry. apply U, M'. reflexivity.
          -- injection E as <- ->. left. exists b, u', v', a. auto.
        * right. cbn in NI. split; [tauto|]. rewrite lookup_put. destruct (list_eq_dec ascii_dec k n) as [->|N]; auto. tauto.
  Qed.

  (** Such lines are read without error if the converters refuse only by ValueError. *)
  Theorem C59_reads : forall cs said d,
    Forall2 (fun c s => says c (fst (fst s)) (snd (fst s)) (snd s)) cs said ->
    (forall f v, In f convs -> (exists x, f v = Ok x) \/ f v = Err ValueError) ->
    (forall u v, (exists x, conv_unit u v = Ok x) \/ conv_unit u v = Err ValueError) ->
    exists d', add_from_comments convs conv_unit text d cs = Ok d'.
  Proof.
    intros cs said d F C CU. revert d. induction F as [|c [[n u] v] cs said S F IH]; intros d.
    - exists d. reflexivity.
    - cbn [fst snd] in S.
      assert (exists x, means u v x) as [x M].
      { assert (G : forall fs, (forall f, In f fs -> (exists x, f v = Ok x) \/ f v = Err ValueError) -> exists x, or_text text (convert fs v) v = Ok x).
        { induction fs as [|f fs IHf]; intros Q; [cbn; eauto|]. cbn [convert]. destruct (Q f (or_introl eq_refl)) as [[y E]|E]; rewrite E.
          - cbn; eauto.
          - apply IHf. intros g I. apply Q. now right. }
        unfold means. destruct u as [u|].
        - destruct (G [conv_unit u]) as [x E]; [intros f [<-|[]]; apply CU|]. exists x. now apply (convert_ok [conv_unit u]).
        - destruct (G convs) as [x E]; [intros; now apply C|]. exists x. now apply convert_ok. }
      pose proof (proj2 (add_ok d c n u v _ S) (ex_intro _ x (conj M eq_refl))) as A.
      cbn [add_from_comments]. rewrite A. cbn [bind]. apply IH.
  Qed.

  (** A line without a separator changes nothing. *)
  Theorem C59_no_value : forall d c b, stripped c b -> one_line b -> (forall x, In x b -> ~ separator x) ->
    add_from_comment convs conv_unit text d c = Ok d.
  Proof.
    intros d c b S L N. apply C59_stripped in S. unfold add_from_comment. rewrite S.
    assert (E : reg_comment_all b = None).
    { destruct (reg_comment_all b) as [g|] eqn:E; auto. exfalso.
      destruct (proj1 (C59_matches b L) (ex_intro _ g E)) as (a & s & r & -> & Q & _). apply (N s); auto. apply in_elt. }
    destruct b as [|y b]; [reflexivity|]. unfold process_comment. rewrite E. reflexivity.
  Qed.

  (** The full comments of a dataset are the stripped lines which are not empty. *)
  Theorem C59_full : forall cs st st', ds_add_from_comments convs conv_unit text st cs = Ok st' ->
    exists bs, Forall2 stripped cs bs /\ fst st' = fst st ++ filter (fun b => match b with [] => false | _ => true end) bs.
  Proof.
    induction cs as [|c cs IH]; intros st st' H; cbn [ds_add_from_comments] in H.
    - injection H as <-. exists []. split; [constructor|]. now rewrite app_nil_r.
    - destruct (ds_add_from_comment convs conv_unit text st c) as [st1|] eqn:A; try discriminate. cbn [bind] in H.
      destruct (IH _ _ H) as [bs [F E]]. exists (bare_comment c :: bs). split; [constructor; auto; now apply C59_stripped|].
      rewrite E. unfold ds_add_from_comment in A. destruct (bare_comment c) as [|x b].
      + injection A as <-. reflexivity.
      + destruct (ds_process_comment convs conv_unit text (x :: b)); try discriminate. injection A as <-. cbn [fst filter]. now rewrite <- app_assoc.
  Qed.

  (** Reading the full comments again, each after an exclamation mark as the writers
      print them, gives the same comments and properties. *)
  Theorem C59_reread : forall cs full d, ds_add_from_comments convs conv_unit text ([], []) cs = Ok (full, d) ->
    (forall c b, In c cs -> stripped c b -> hd_error b <> Some "!"%char) ->
    ds_add_from_comments convs conv_unit text ([], []) (map (cons "!"%char) full) = Ok (full, d).
  Proof.
    intros cs full d H N.
    enough (G : forall cs st st', ds_add_from_comments convs conv_unit text st cs = Ok st' ->
       (forall c b, In c cs -> stripped c b -> hd_error b <> Some "!"%char) ->
       exists added, fst st' = fst st ++ added /\ ds_add_from_comments convs conv_unit text st (map (cons "!"%char) added) = Ok st').
    { destruct (G _ _ _ H N) as [added [E1 E2]]. cbn [fst app] in E1. now subst. }
    clear. induction cs as [|c cs IH]; intros st st' H N; cbn [ds_add_from_comments] in H.
    - injection H as <-. exists []. split; [now rewrite app_nil_r|reflexivity].
    - destruct (ds_add_from_comment convs conv_unit text st c) as [st1|] eqn:A; try discriminate. cbn [bind] in H.
      destruct (IH _ _ H) as [ad [E1 E2]]. { intros c' b I. apply N. now right. }
      pose proof (N c (bare_comment c) (or_introl eq_refl) (proj1 (C59_stripped _ _) eq_refl)) as NB.
      unfold ds_add_from_comment in A. destruct (bare_comment c) as [|x b] eqn:B.
      + injection A as <-. exists ad. auto.
      + exists ((x :: b) :: ad). cbn [map ds_add_from_comments].
        assert (B' : bare_comment ("!"%char :: x :: b) = x :: b).
        { apply C59_stripped. apply C59_stripped in B. destruct B as (n & w1 & w2 & _ & _ & _ & T & _).
          exists 1, [], []. cbn [repeat app]. rewrite app_nil_r. repeat split; auto; try constructor; apply T. }
        unfold ds_add_from_comment. rewrite B'. destruct (ds_process_comment convs conv_unit text (x :: b)) as [kvs|]; try discriminate.
        injection A as <-. cbn [bind]. rewrite E1, E2. cbn [fst]. rewrite <- app_assoc. auto.
  Qed.

  (** Extending comments by others: all full comments, and the properties of the
      other where it has any. *)
  Theorem C59_extend : forall (st other : comments (V := V)) items, Permutation items (snd other) -> NoDup (map fst (snd other)) ->
    fst (extend st other items) = fst st ++ fst other /\
    forall k, lookup k (snd (extend st other items)) = match lookup k (snd other) with Some x => Some x | None => lookup k (snd st) end.
  Proof.
    intros st other items P ND. split; [reflexivity|]. intros k. unfold extend. cbn [snd].
    assert (ND' : NoDup (map fst items)). { revert ND. apply Permutation_NoDup. apply Permutation_map. now apply Permutation_sym. }
    assert (LP : lookup k (snd other) = lookup k items).
    { clear -P ND ND'.
      assert (IN : forall (d : list (list ascii * V)) x, NoDup (map fst d) -> lookup k d = Some x <-> In (k, x) d).
      { clear. induction d as [|[k' x'] d IH]; intros x N; cbn [lookup In map] in *.
        - split; [discriminate|contradiction].
        - apply NoDup_cons_iff in N as [N1 N2]. destruct (list_eq_dec ascii_dec k k') as [->|NE].
          + split; [intros E; injection E as <-; auto|]. intros [E|I]; [congruence|]. exfalso. apply N1. apply (in_map fst) in I. exact I.
          + rewrite (IH x N2). split; auto. intros [E|I]; auto. congruence. }
      destruct (lookup k (snd other)) as [x|] eqn:E1.
      - symmetry. apply IN; auto. apply (Permutation_in _ (Permutation_sym P)). now apply IN.
      - destruct (lookup k items) as [x|] eqn:E2; auto. apply IN in E2; auto. apply (Permutation_in _ P) in E2. apply IN in E2; auto. congruence. }
    rewrite LP. clear P ND LP. destruct st as [f d]. cbn [snd]. clear f. revert d.
    induction items as [|[n x] items IH]; intros d; [reflexivity|]. cbn [map] in ND'. apply NoDup_cons_iff in ND' as [N1 N2].
    cbn [fold_left fst snd lookup]. rewrite IH by auto. rewrite lookup_put.
    destruct (list_eq_dec ascii_dec k n) as [->|NE]; auto.
    destruct (lookup n items) as [y|] eqn:L; auto. exfalso. apply N1. clear -L.
    induction items as [|[n' x'] items IH]; cbn in *; try discriminate. destruct (list_eq_dec ascii_dec n n'); auto.
  Qed.
End Values.
Print Assumptions C59_properties.
Print Assumptions C59_reads.
Print Assumptions C59_no_value.
Print Assumptions C59_full.
Print Assumptions C59_reread.
Print Assumptions C59_extend.

(** The two classes differ: a value which is not a number but has a unit is kept as
    text by the class of the file formats, while the class of the datasets raises. *)
Theorem C59_classes : forall {V} convs (conv_unit : list ascii -> list ascii -> result V) text d full c name u v,
  says c name (Some u) v -> conv_unit u v = Err ValueError ->
  add_from_comment convs conv_unit text d c = Ok (put name (text v) d) /\
  ds_add_from_comment convs conv_unit text (full, d) c = Err ValueError.
Proof.
  intros V convs cu text d full c name u v H F. split.
  - apply (add_ok convs cu text d c name (Some u) v); auto. exists (text v). split; auto. right. split; auto.
    intros r [<-|[]]. exact F.
  - apply says_groups in H as [R NE]. unfold ds_add_from_comment, ds_process_comment.
    destruct (bare_comment c) as [|x b]; try congruence. rewrite R. cbn [convert]. now rewrite F.
Qed.
Print Assumptions C59_classes.

(** ** Examples *)
Local Open Scope string_scope.
Definition number_of (v : list ascii) : result (nat + list ascii) :=
  match py_int v with Ok z => Ok (inl (Z.to_nat z)) | Err e => Err e end.
Definition number_unit (u v : list ascii) : result (nat + list ascii) :=
  match number_of v with Ok (inl n) => Ok (inl (if eqb_chars u (chars "k") then 1000 * n else n)) | r => r end.
Definition ex_lines : list (list ascii) :=
  map chars ["!Power [k] = 2 "; "! Serial: A12"; "!"; "!!Bias : 7"; "! a remark"; "Serial=B7"; "!Mode [C] : fast"].
Example C59_read_ex : add_from_comments [number_of] number_unit inr [] ex_lines =
  Ok [(chars "Power", inl 2000); (chars "Serial", inr (chars "B7")); (chars "Bias", inl 7); (chars "Mode", inr (chars "fast"))].
Proof. vm_compute. reflexivity. Qed.
Example C59_says_ex : says (chars "!!Bias : 7") (chars "Bias") None (chars "7").
Proof.
  split; [|split].
  - repeat split; try discriminate.
    + intros c r E. injection E as <- _. reflexivity.
    + intros c r E. change (chars "Bias") with (chars "Bia" ++ chars "s")%list in E. apply app_inj_tail in E as [_ <-]. reflexivity.
    + intros I. vm_compute in I. repeat destruct I as [I|I]; try discriminate; contradiction.
    + intros [-> | ->]; vm_compute in H; repeat destruct H as [H|H]; try discriminate; contradiction.
    + intros ->. vm_compute in H; repeat destruct H as [H|H]; try discriminate; contradiction.
  - repeat split; try discriminate.
    + intros c r E. injection E as <- _. reflexivity.
    + intros I. vm_compute in I. repeat destruct I as [I|I]; try discriminate; contradiction.
  - exists (chars "Bias : 7"). split; [apply C59_stripped; vm_compute; reflexivity|].
    exists [], (chars " "), ":"%char, (chars " "). repeat split; auto; repeat constructor.
Qed.
Example C59_reread_ex : exists full d,
  ds_add_from_comments [number_of] number_unit inr ([], []) (map chars ["!Power [k] = 2 "; "! a remark"]) = Ok (full, d) /\
  full = map chars ["Power [k] = 2"; "a remark"].
Proof. eexists; eexists. vm_compute. split; reflexivity. Qed.

(** A comment with an exclamation mark of its own loses it when read again. *)
Theorem C59_bang_refuted : exists cs full d full' d',
  ds_add_from_comments [number_of] number_unit inr ([], []) cs = Ok (full, d) /\
  ds_add_from_comments [number_of] number_unit inr ([], []) (map (cons "!"%char) full) = Ok (full', d') /\ full <> full'.
Proof.
  exists [chars "! !x"], [chars "!x"], [], [chars "x"], []. vm_compute. repeat split. discriminate.
Qed.
Print Assumptions C59_bang_refuted.
