(** C79: shortening of dotted names. *)
From Coq Require Import Ascii String List Arith Bool Lia.
From Verif Require Import Model_NdArray Model_DataDict Spec_DataDict Proofs_DataDict Model_Words Model_Spdata Prop_Spdata Prop_Mdif Model_MdifNames Spec_MdifNames.
Import ListNotations.
Local Open Scope nat_scope.
Local Open Scope list_scope.

(** ** Tails *)
Definition ltail (s n : list ascii) : Prop := s = n \/ exists pre, n = pre ++ "."%char :: s.
Lemma app_dot : forall (w pre s t : list ascii), ~ In "."%char w -> w ++ "."%char :: t = pre ++ "."%char :: s ->
  s = t \/ exists pre', t = pre' ++ "."%char :: s.
Proof.
  induction w as [|a w IH]; intros pre s t N E; destruct pre as [|b pre]; cbn [app] in E.
  - injection E as E. auto.
  - injection E as _ E. right. eauto.
  - injection E as E _. exfalso. apply N. left. auto.
  - injection E as _ E. apply (IH pre); auto. intros K. apply N. right. auto.
Qed.
Lemma ltail_join : forall ws t, ws <> [] -> Forall (fun s => ~ In "."%char s) ws ->
  (ltail t (join ["."%char] ws) <-> exists k, k < length ws /\ t = join ["."%char] (skipn k ws)).
Proof.
  induction ws as [|w ws IH]; intros t NE F; [congruence|]. inversion F as [|? ? W F']; subst. destruct ws as [|w' ws].
  - cbn [join]. split.
    + intros [->|[pre E]]; [exists 0; split; [cbn; lia|reflexivity]|]. exfalso. apply W. rewrite E. apply in_or_app. right. left. auto.
    + intros (k & L & ->). cbn [length] in L. replace k with 0 by lia. left. reflexivity.
  - assert (J : join ["."%char] (w :: w' :: ws) = w ++ "."%char :: join ["."%char] (w' :: ws)) by reflexivity.
    assert (IH' := IH t ltac:(discriminate) F'). split.
    + intros [->|[pre E]]; [exists 0; split; [cbn; lia|reflexivity]|]. rewrite J in E. destruct (app_dot _ _ _ _ W E) as [X|X].
      * exists 1. split; [cbn; lia|]. exact X.
      * destruct (proj1 IH') as (k & L & ->); [right; exact X|]. exists (S k). split; [cbn [length] in *; lia|reflexivity].
    + intros ([|k] & L & ->); [left; reflexivity|]. cbn [skipn]. cbn [length] in L. right. rewrite J.
      destruct (proj2 (IH (join ["."%char] (skipn k (w' :: ws))) ltac:(discriminate) F')) as [->|[pre ->]]; [exists k; split; [cbn [length]; lia|reflexivity]|eauto|].
      exists (w ++ "."%char :: pre). now rewrite <- app_assoc.
Qed.
Lemma join_tail_length : forall ws : list (list ascii), length (join ["."%char] (tl ws)) <= length (join ["."%char] ws).
Proof. intros [|w [|w' ws]]; cbn [tl]; [auto|cbn; lia|]. change (join ["."%char] (w :: w' :: ws)) with (w ++ "."%char :: join ["."%char] (w' :: ws)). rewrite app_length. cbn [length]. lia. Qed.
Lemma skipn_tl : forall {X} k (l : list X), skipn (S k) l = tl (skipn k l).
Proof. induction k as [|k IH]; intros [|x l]; cbn [skipn tl]; auto. rewrite <- IH. destruct l; reflexivity. Qed.
Lemma join_skipn_length : forall (ws : list (list ascii)) k k', k <= k' -> length (join ["."%char] (skipn k' ws)) <= length (join ["."%char] (skipn k ws)).
Proof. intros ws k k' L. induction L as [|k' L IH]; auto. rewrite skipn_tl. pose proof (join_tail_length (skipn k' ws)). lia. Qed.
Lemma letters_back : forall l, letters (string_of_list_ascii l) = l.
Proof. apply list_ascii_of_string_of_list_ascii. Qed.
Lemma back_letters : forall s, string_of_list_ascii (letters s) = s.
Proof. apply string_of_list_ascii_of_string. Qed.
Lemma letters_inj : forall s t, letters s = letters t -> s = t.
Proof. intros s t E. now rewrite <- (back_letters s), E, back_letters. Qed.
Lemma letters_length : forall s, length (letters s) = String.length s.
Proof. induction s; cbn; auto. Qed.
Lemma tail_letters : forall s n, tail_of s n <-> ltail (letters s) (letters n).
Proof. intros s n. unfold tail_of, ltail. split; intros [E|E]; auto; left; [now subst|now apply letters_inj]. Qed.

(** ** Dictionaries with one entry picked out *)
Section D.
  Context {V : Type}.
  Implicit Type d : ddict V.
  Lemma contains_abs : forall k d, Inv d -> dd_contains k d = true <-> In k (map fst (dabs d)).
  Proof. intros k d H. unfold dd_contains. rewrite pd_has_In. change (map fst (dabs d)) with (keys (dabs d)). rewrite keys_abs by auto. symmetry. apply H. Qed.
  Lemma contains_false : forall k d, Inv d -> dd_contains k d = false <-> ~ In k (map fst (dabs d)).
  Proof. intros k d H. rewrite <- (contains_abs k d H). destruct (dd_contains k d); split; congruence. Qed.
  Lemma mid_nodup : forall d l1 k (x : V) l2, Inv d -> dabs d = l1 ++ (k, x) :: l2 -> ~ In k (map fst (l1 ++ l2)) /\ NoDup (map fst (l1 ++ l2)).
  Proof. intros d l1 k x l2 H E. pose proof (abs_NoDup d H) as N. rewrite E in N. unfold keys in N. rewrite map_app in *. cbn [map fst] in N. split; [now apply NoDup_remove_2|now apply NoDup_remove_1 in N]. Qed.
  Lemma mid_get : forall (l1 l2 : list (string * V)) k x, ~ In k (map fst l1) -> lookup k (l1 ++ (k, x) :: l2) = Some x.
  Proof.
    intros l1 l2 k x N. rewrite lookup_get. induction l1 as [|[a v] l1 IH]; cbn [app pd_get]; [now rewrite String.eqb_refl|].
    destruct (String.eqb_spec k a) as [->|]; [exfalso; apply N; left; auto|]. apply IH. intros K. apply N. right. auto.
  Qed.
  Lemma relabel_other : forall old new (l : list (string * V)), ~ In old (map fst l) -> relabel old new l = l.
  Proof. intros old new l N. unfold relabel. induction l as [|[a v] l IH]; cbn [map fst snd]; auto. destruct (string_dec a old) as [->|]; [exfalso; apply N; left; auto|]. rewrite IH; auto. intros K. apply N. right. auto. Qed.
  Lemma rename_mid : forall d l1 k (x : V) l2 new, Inv d -> dabs d = l1 ++ (k, x) :: l2 -> k <> new -> ~ In new (map fst (l1 ++ l2)) ->
    exists d', dd_rename k new d = Ok d' /\ Inv d' /\ dabs d' = l1 ++ (new, x) :: l2.
  Proof.
    intros d l1 k x l2 new H E NE NN. destruct (mid_nodup _ _ _ _ _ H E) as [NK _]. rewrite map_app, in_app_iff in NK, NN.
    assert (G : lookup k (dabs d) = Some x) by (rewrite E; apply mid_get; tauto).
    destruct (rename_ok k new x d H G) as (d' & R & H' & A). exists d'. split; [exact R|]. split; [exact H'|]. rewrite A. cbn [spec_step]. rewrite G.
    destruct (string_dec k new); [congruence|].
    assert (GN : lookup new (dabs d) = None).
    { rewrite lookup_get. apply pd_get_none. rewrite E. unfold keys. rewrite map_app, in_app_iff. cbn [map fst In]. tauto. }
    rewrite GN, E. unfold relabel. rewrite map_app. cbn [map fst snd]. destruct (string_dec k k); [|congruence]. fold (relabel k new l1). fold (relabel k new l2). now rewrite !relabel_other by tauto.
  Qed.
  Lemma del_mid : forall d l1 k (x : V) l2, Inv d -> dabs d = l1 ++ (k, x) :: l2 ->
    exists d', dd_del k d = Ok d' /\ Inv d' /\ dabs d' = l1 ++ l2.
  Proof.
    intros d l1 k x l2 H E. destruct (mid_nodup _ _ _ _ _ H E) as [NK _]. rewrite map_app, in_app_iff in NK. destruct H as (H1 & H2 & H3).
    pose proof (del_ok k d H1 H2) as D. eexists. split; [exact D|]. assert (HI : Inv d) by (repeat split; auto; apply H3). split; [now apply (del_Inv k d)|].
    rewrite (del_abs k d _ HI D), E. unfold remove. rewrite filter_app. cbn [filter fst]. destruct (string_dec k k); [|congruence].
    assert (F : forall l : list (string * V), ~ In k (map fst l) -> filter (fun p => if string_dec (fst p) k then false else true) l = l).
    { induction l as [|[a v] l IH]; intros N; cbn [filter fst]; auto. destruct (string_dec a k) as [->|]; [exfalso; apply N; left; auto|]. rewrite IH; auto. intros K. apply N. right. auto. }
    now rewrite !F by tauto.
  Qed.

  (** ** One name *)
  Lemma shorten_ok : forall d l1 name (x : V) l2, Inv d -> dabs d = l1 ++ (name, x) :: l2 ->
    exists s d', shorten_name d name = Ok (s, d') /\ Inv d' /\ dabs d' = l1 ++ (s, x) :: l2 /\ shortest_free (map fst (l1 ++ l2)) name s.
  Proof.
    intros d l1 name x l2 H E. destruct (mid_nodup _ _ _ _ _ H E) as [NK _]. unfold shorten_name.
    change (list_ascii_of_string name) with (letters name). destruct (split_on_spec "."%char (letters name)) as (NE & J & F).
    set (ws := split_on "."%char (letters name)) in *.
    set (T := fun k => string_of_list_ascii (join ["."%char] (skipn k ws))).
    assert (TT : forall t, tail_of t name <-> exists k, k < length ws /\ t = T k).
    { intros t. rewrite tail_letters, J, ltail_join by auto. unfold T. split; intros (k & L & X); exists k; (split; [exact L|]); [now rewrite <- X, back_letters|now rewrite X, letters_back]. }
    assert (T0 : T 0 = name) by (unfold T; cbn [skipn]; rewrite <- J; apply back_letters).
    assert (TL : forall k k', k <= k' -> String.length (T k') <= String.length (T k)).
    { intros k k' L. unfold T. rewrite <- !letters_length, !letters_back. now apply join_skipn_length. }
    assert (KD : forall t, In t (map fst (dabs d)) <-> t = name \/ In t (map fst (l1 ++ l2))).
    { intros t. rewrite E, !map_app, !in_app_iff. cbn [map fst In]. split; [intros [?|[?|?]]|intros [?|[?|?]]]; auto. }
    assert (LP : 0 < length ws) by (destruct ws; [congruence|cbn; lia]).
    assert (SF0 : (forall k, k < length ws -> In (T k) (map fst (dabs d))) -> shortest_free (map fst (l1 ++ l2)) name name).
    { intros A. split; [left; reflexivity|]. split; [exact NK|]. intros t Ht Nt. apply TT in Ht as (k & L & ->). apply A in L. apply KD in L as [->|L]; [auto|contradiction]. }
    assert (LOOP : forall m i, i + m = length ws -> (forall j, j < i -> In (T (length ws - (j + 1))) (map fst (dabs d))) ->
      exists s d', shorten_loop ws name (seq i m) d = Ok (s, d') /\ Inv d' /\ dabs d' = l1 ++ (s, x) :: l2 /\ shortest_free (map fst (l1 ++ l2)) name s).
    { induction m as [|m IH]; intros i L A; cbn [seq shorten_loop].
      - exists name, d. split; [reflexivity|]. split; [exact H|]. split; [exact E|]. apply SF0. intros k Lk. replace k with (length ws - ((length ws - (k + 1)) + 1)) by lia. apply A. lia.
      - fold (T (length ws - (i + 1))). destruct (dd_contains (T (length ws - (i + 1))) d) eqn:C.
        + apply IH; [lia|]. intros j Lj. destruct (Nat.eq_dec j i) as [->|]; [now apply contains_abs|apply A; lia].
        + apply (contains_false _ _ H) in C. rewrite KD in C. destruct (rename_mid d l1 name x l2 (T (length ws - (i + 1))) H E) as (d' & R & H' & A'); [intros X; apply C; auto|tauto|].
          rewrite R. cbn [bind]. eexists; eexists. split; [reflexivity|]. split; [exact H'|]. split; [exact A'|]. split; [apply TT; exists (length ws - (i + 1)); split; [lia|reflexivity]|]. split; [tauto|].
          intros t Ht Nt. apply TT in Ht as (k & Lk & ->). destruct (le_lt_dec k (length ws - (i + 1))) as [L'|L']; [now apply TL|].
          assert (X : In (T k) (map fst (dabs d))) by (replace k with (length ws - ((length ws - (k + 1)) + 1)) by lia; apply A; lia).
          apply KD in X as [X|X]; [|contradiction]. rewrite X, <- T0. apply TL. lia. }
    destruct (Nat.leb_spec (length ws) 1) as [L1|L1]; [|apply LOOP; [reflexivity|lia]].
    exists name, d. split; [reflexivity|]. split; [exact H|]. split; [exact E|]. apply SF0. intros k Lk. replace k with 0 by lia. rewrite T0. apply KD. auto.
  Qed.

  (** ** All names *)
  Lemma ends_marked : forall c v, ends_dot c (letters v) = true -> marked c v (string_of_list_ascii (cut2 (letters v))).
  Proof.
    intros c v H. unfold ends_dot in H. unfold marked. rewrite letters_back. unfold cut2. destruct (rev (letters v)) as [|a [|b r]] eqn:R; try discriminate H.
    apply andb_prop in H as [Ha Hb]. apply Ascii.eqb_eq in Ha, Hb. subst. apply (f_equal (@rev _)) in R. rewrite rev_involutive in R. cbn [rev] in R. rewrite <- app_assoc in R. cbn [app] in R.
    rewrite R, app_length. cbn [length]. replace (length (rev r) + 2 - 2) with (length (rev r)) by lia. now rewrite firstn_app, Nat.sub_diag, firstn_all, firstn_O, app_nil_r.
  Qed.
  Lemma marked_ends : forall c v w, marked c v w -> ends_dot c (letters v) = true.
  Proof. intros c v w M. unfold ends_dot. rewrite M, rev_app_distr. cbn [rev app]. now rewrite !Ascii.eqb_refl. Qed.

  Lemma fix_ok : forall orig rest past done d, NoDup orig -> clear orig -> orig = past ++ map fst rest ->
    Inv d -> dabs d = done ++ rest -> (forall s, In s (map fst done) -> exists n b, In n past /\ ~ dropped n /\ stands_for n b /\ tail_of s b) ->
    exists d', fix_all (map fst rest) d = Ok d' /\ Inv d' /\ fixed done rest (dabs d').
  Proof.
    intros orig rest. induction rest as [|[n x] rest IH]; intros past done d ND CL EO H E DN.
    - exists d. split; [reflexivity|]. split; [exact H|]. rewrite E, app_nil_r. constructor.
    - cbn [map fst fix_all]. cbn [map fst] in EO.
      assert (EO' : orig = (past ++ [n]) ++ map fst rest) by (rewrite <- app_assoc; exact EO).
      assert (IN : In n orig) by (rewrite EO; apply in_or_app; right; left; auto).
      assert (NO : ~ In n (past ++ map fst rest)) by (rewrite EO in ND; now apply NoDup_remove_2).
      rewrite in_app_iff in NO. unfold fix_step. cbv zeta. change (list_ascii_of_string n) with (letters n).
      destruct (ends_dot "s"%char (letters n)) eqn:ES.
      { destruct (del_mid _ _ _ _ _ H E) as (d1 & -> & H1 & E1). cbn [bind]. destruct (IH (past ++ [n]) done d1 ND CL EO' H1 E1) as (d' & R & H' & X).
        - intros s Hs. destruct (DN s Hs) as (n' & b & I' & Y). exists n', b. rewrite in_app_iff. auto.
        - exists d'. split; [exact R|]. split; [exact H'|]. apply fixed_drop; [|exact X]. eexists. now apply ends_marked. }
      assert (NDR : ~ dropped n) by (intros [b M]; apply marked_ends in M; congruence).
      assert (ST : exists w d1, (if ends_dot "m"%char (letters n) then (do d' <- dd_rename n (string_of_list_ascii (cut2 (letters n))) d; Ok (string_of_list_ascii (cut2 (letters n)), d')) else Ok (n, d)) = Ok (w, d1)
        /\ stands_for n w /\ Inv d1 /\ dabs d1 = done ++ (w, x) :: rest).
      { destruct (ends_dot "m"%char (letters n)) eqn:EM.
        - pose proof (ends_marked _ _ EM) as M. set (w := string_of_list_ascii (cut2 (letters n))) in *.
          destruct (rename_mid d done n x rest w H E) as (d1 & -> & H1 & E1).
          + intros X. unfold marked in M. rewrite <- X in M. apply (f_equal (@length _)) in M. rewrite app_length in M. cbn in M. lia.
          + rewrite map_app, in_app_iff. intros [K|K].
            * destruct (DN w K) as (n' & b & I' & D' & S' & T'). assert (NE : n' <> n) by (intros ->; tauto).
              destruct (CL n w IN M n') as [_ Q]; [rewrite EO; apply in_or_app; auto|exact NE|]. exact (Q D' b S' T').
            * destruct (CL n w IN M w) as [Q _]; [rewrite EO; apply in_or_app; right; right; exact K| |congruence].
              intros X. apply NO. right. rewrite <- X. exact K.
          + exists w, d1. split; [reflexivity|]. split; [left; exact M|auto].
        - exists n, d. split; [reflexivity|]. split; [right; split; [reflexivity|]|auto]. intros b M. apply marked_ends in M. congruence. }
      destruct ST as (w & d1 & -> & SW & H1 & E1). cbn [bind fst snd]. destruct (shorten_ok d1 done w x rest H1 E1) as (s & d2 & -> & H2 & E2 & SF). cbn [bind fst snd].
      destruct (IH (past ++ [n]) (done ++ [(s, x)]) d2 ND CL EO' H2) as (d' & R & H' & X); [now rewrite <- app_assoc|..].
      + intros t Ht. rewrite map_app, in_app_iff in Ht. destruct Ht as [Ht|[<-|[]]].
        * destruct (DN t Ht) as (n' & b & I' & Y). exists n', b. rewrite in_app_iff. auto.
        * exists n, w. rewrite in_app_iff. cbn [In fst]. split; [auto|]. split; [exact NDR|]. split; [exact SW|apply SF].
      + exists d'. split; [exact R|]. split; [exact H'|]. apply (fixed_keep done n x rest (dabs d') w s); auto.
  Qed.
End D.

(** A variable gets the shortest tail of its name that no other variable has;
    its place and value and all other variables stay. *)
Theorem C79_shorten : forall V (d : ddict V) l1 name x l2, Inv d -> dd_items d = Ok (l1 ++ (name, x) :: l2) ->
  exists s d', shorten_name d name = Ok (s, d') /\ Inv d' /\ dd_items d' = Ok (l1 ++ (s, x) :: l2) /\ shortest_free (map fst (l1 ++ l2)) name s.
Proof.
  intros V d l1 name x l2 H E. rewrite items_abs in E by auto. injection E as E. destruct (shorten_ok d l1 name x l2 H E) as (s & d' & R & H' & A & S').
  exists s, d'. split; [exact R|]. split; [exact H'|]. split; [rewrite items_abs by auto; now rewrite A|exact S'].
Qed.
Print Assumptions C79_shorten.

(** All variables of a block. *)
Theorem C79_fixnames : forall V (d : ddict V) l, Inv d -> dd_items d = Ok l -> clear (map fst l) ->
  exists d' out, fixnames d = Ok d' /\ Inv d' /\ dd_items d' = Ok out /\ fixed [] l out.
Proof.
  intros V d l H E CL. rewrite items_abs in E by auto. injection E as <-. pose proof (abs_NoDup d H) as ND.
  destruct (fix_ok (map fst (dabs d)) (dabs d) [] [] d ND CL eq_refl H eq_refl) as (d' & R & H' & X); [intros s []|].
  exists d', (dabs d'). unfold fixnames. rewrite Inv_iter by auto. rewrite <- (keys_abs d H). split; [exact R|]. split; [exact H'|]. split; [now apply items_abs|exact X].
Qed.
Print Assumptions C79_fixnames.

(** So no value is lost or moved, but those of the dropped names. *)
Inductive kept_values {V} : list (string * V) -> list (string * V) -> Prop :=
| kv_nil : kept_values [] []
| kv_drop n x l o : dropped n -> kept_values l o -> kept_values ((n, x) :: l) o
| kv_keep n b s x l o : ~ dropped n -> stands_for n b -> tail_of s b -> kept_values l o -> kept_values ((n, x) :: l) ((s, x) :: o).
Theorem C79_kept : forall V (d : ddict V) l, Inv d -> dd_items d = Ok l -> clear (map fst l) ->
  exists d' out, fixnames d = Ok d' /\ dd_items d' = Ok out /\ kept_values l out /\ NoDup (map fst out).
Proof.
  intros V d l H E CL. destruct (C79_fixnames V d l H E CL) as (d' & out & R & H' & E' & X). exists d', out. split; [exact R|]. split; [exact E'|]. split.
  - assert (G : forall done (r o : list (string * V)), fixed done r o -> exists o', o = done ++ o' /\ kept_values r o').
    { intros done r o F. induction F as [done|done n x r o D F (o' & -> & K)|done n x r o b s D S' SF F (o' & -> & K)].
      - exists []. rewrite app_nil_r. split; [reflexivity|constructor].
      - exists o'. split; [reflexivity|]. now constructor.
      - exists ((s, x) :: o'). rewrite <- app_assoc. split; [reflexivity|]. apply (kv_keep n b); auto. apply SF. }
    destruct (G _ _ _ X) as (o' & -> & K). exact K.
  - rewrite items_abs in E' by auto. injection E' as <-. now apply abs_NoDup.
Qed.
Print Assumptions C79_kept.

(** ** Concrete cases *)
Local Open Scope string_scope.
Local Open Scope list_scope.
Definition mk79 (l : list (string * nat)) : ddict nat := fold_left (fun d p => dd_set (fst p) (snd p) d) l dd_empty.
Definition ex79 := mk79 [("SP.S", 1); ("HB.out.Vd", 2); ("x.s", 3); ("DC.out.Vd", 4); ("Id.m", 5)].
Example C79_example : (do d <- fixnames ex79; dd_items d) = Ok [("S", 1); ("Vd", 2); ("out.Vd", 4); ("Id", 5)].
Proof. vm_compute. reflexivity. Qed.
(** The hypotheses hold of it. *)
Example C79_example_clear : Inv ex79 /\ clear (map fst [("SP.S", 1); ("HB.out.Vd", 2); ("x.s", 3); ("DC.out.Vd", 4); ("Id.m", 5)]).
Proof.
  split.
  - unfold ex79, mk79. cbn [fold_left]. repeat apply set_Inv. apply empty_Inv.
  - intros n w IN M n' IN' NE. unfold marked, letters in M. cbn [map fst In] in IN.
    destruct IN as [<-|[<-|[<-|[<-|[<-|[]]]]]];
      try (exfalso; apply (f_equal (@rev ascii)) in M; rewrite rev_app_distr in M; vm_compute in M; discriminate M).
    assert (W : w = "Id").
    { apply letters_inj. apply (f_equal (@rev ascii)) in M. rewrite rev_app_distr in M. cbn in M. injection M as M. apply (f_equal (@rev ascii)) in M. rewrite rev_involutive in M. unfold letters. rewrite <- M. reflexivity. }
    subst w. split.
    + intros ->. cbn [map fst In] in IN'. repeat (destruct IN' as [X|IN']; [discriminate X|]). destruct IN'.
    + intros _ w' [M'|[-> _]] T.
      * exfalso. unfold marked, letters in M'. cbn [map fst In] in IN'. apply (f_equal (@rev ascii)) in M'. rewrite rev_app_distr in M'. cbn [rev app] in M'.
        destruct IN' as [<-|[<-|[<-|[<-|[<-|[]]]]]]; vm_compute in M'; try discriminate M'. apply NE. reflexivity.
      * destruct T as [<-|[pre T]]; cbn [map fst In] in IN'; [repeat (destruct IN' as [X|IN']; [discriminate X|]); destruct IN'|].
        unfold letters in T. apply (f_equal (@rev ascii)) in T. rewrite rev_app_distr in T. cbn in T.
        destruct IN' as [<-|[<-|[<-|[<-|[<-|[]]]]]]; vm_compute in T; discriminate T.
Qed.

(** Without that, a variable can be lost, and the reader can raise KeyError. *)
Theorem C79_lost_refuted : exists (d d' : ddict nat), Inv d /\ dd_items d = Ok [("a", 1); ("a.m", 2)] /\ fixnames d = Ok d' /\ dd_items d' = Ok [("a", 2)].
Proof. exists (mk79 [("a", 1); ("a.m", 2)]). eexists. split; [unfold mk79; cbn [fold_left]; repeat apply set_Inv; apply empty_Inv|]. split; [reflexivity|]. split; vm_compute; reflexivity. Qed.
Print Assumptions C79_lost_refuted.
Theorem C79_raises_refuted : exists (d : ddict nat), Inv d /\ dd_items d = Ok [("p.a.m", 1); ("p.a", 2)] /\ fixnames d = Err KeyError.
Proof. exists (mk79 [("p.a.m", 1); ("p.a", 2)]). split; [unfold mk79; cbn [fold_left]; repeat apply set_Inv; apply empty_Inv|]. split; vm_compute; reflexivity. Qed.
Print Assumptions C79_raises_refuted.
