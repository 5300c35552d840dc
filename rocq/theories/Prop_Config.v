(** Properties of configuration dictionaries: C46, C47. *)
From Coq Require Import String List Arith Bool Lia.
From Verif Require Import Model_NdArray Model_DataDict Proofs_DataDict Model_Config.
Import ListNotations.
Local Open Scope nat_scope.
Local Open Scope list_scope.

Section Spec.
  Context {V : Type}.
  Implicit Type h : heap V.
  (** The binding of a key in a dictionary itself. *)
  Definition own h (a : nat) (k : string) (v : V) : Prop := exists m p, nth_error h a = Some (mkObj (CDict m) p) /\ In (k, v) m.
  Definition is_dict h (a : nat) : Prop := exists m p, nth_error h a = Some (mkObj (CDict m) p).
  Definition parent h (a p : nat) : Prop := exists o, nth_error h a = Some o /\ o_parent o = Some p.
  (** The nearest dictionary strictly above an object. *)
  Inductive encloses h : nat -> nat -> Prop :=
  | E_parent : forall a p, parent h a p -> is_dict h p -> encloses h p a
  | E_skip : forall a p d, parent h a p -> ~ is_dict h p -> encloses h d p -> encloses h d a.
  (** The nearest enclosing dictionary that defines the key. *)
  Inductive nearest h : nat -> string -> V -> Prop :=
  | N_own : forall a k v, own h a k v -> nearest h a k v
  | N_up : forall a d k v, is_dict h a -> (forall u, ~ own h a k u) -> encloses h d a -> nearest h d k v -> nearest h a k v.
  (** Heaps in which keys are distinct and objects are younger than what they
      refer to, as when they are made from the outside in. *)
  Definition wf h : Prop := forall a o, nth_error h a = Some o ->
    (forall p, o_parent o = Some p -> p < a) /\
    match o_cell o with CDict m => NoDup (map fst m) | CList _ => True | CMerged ds => Forall (fun d => d < a) ds end.

  Lemma pd_get_own : forall (m : list (string * V)) k v, NoDup (map fst m) -> (pd_get k m = Some v <-> In (k, v) m).
  Proof.
    induction m as [|[k' v'] m IH]; intros k v N; cbn; [split; [discriminate|tauto]|]. inversion N as [|? ? NI N']; subst.
    destruct (String.eqb k k') eqn:E.
    - apply String.eqb_eq in E. subst k'. split; [intros [= ->]; auto|]. intros [[= ->]|I]; auto. exfalso. apply NI. now apply (in_map fst) in I.
    - apply String.eqb_neq in E. rewrite IH by auto. split; auto. intros [[= <- _]|I]; auto. congruence.
  Qed.
  Lemma own_get : forall h a m p k v, wf h -> nth_error h a = Some (mkObj (CDict m) p) -> (own h a k v <-> pd_get k m = Some v).
  Proof.
    intros h a m p k v W E. destruct (W _ _ E) as [_ N]. cbn in N. rewrite pd_get_own by auto. split.
    - intros [m' [p' [E' I]]]. rewrite E in E'. injection E' as <- <-. auto.
    - intros I. exists m, p. auto.
  Qed.
  Lemma own_none : forall h a m p k, wf h -> nth_error h a = Some (mkObj (CDict m) p) -> pd_get k m = None -> forall u, ~ own h a k u.
  Proof. intros h a m p k W E G u O. rewrite own_get in O; eauto. congruence. Qed.
  Lemma encloses_fun : forall h a d d', encloses h d a -> encloses h d' a -> d = d'.
  Proof.
    intros h a d d' H. revert d'. induction H as [a p [o [E P]] D|a p d [o [E P]] ND H IH]; intros d' H'; inversion H' as [? ? [o' [E' P']] D'|? ? ? [o' [E' P']] ND' H2]; subst;
      rewrite E in E'; injection E' as <-; rewrite P in P'; injection P' as <-; auto; contradiction.
  Qed.
  Lemma encloses_lt : forall h a d, wf h -> encloses h d a -> d < a /\ is_dict h d.
  Proof.
    intros h a d W H. induction H as [a p [o [E P]] D|a p d [o [E P]] ND H IH]; destruct (W _ _ E) as [L _]; specialize (L _ P); [auto|]. split; [lia|tauto].
  Qed.
  Lemma find_next_ok : forall h fuel a, wf h -> a < fuel ->
    match find_next_dict fuel h a with Some d => encloses h d a | None => forall d, ~ encloses h d a end.
  Proof.
    intros h fuel. induction fuel as [|f IH]; intros a W L; [lia|]. cbn [find_next_dict].
    destruct (nth_error h a) as [o|] eqn:E.
    2: { intros d H. inversion H as [? ? [o [E' _]] _|? ? ? [o [E' _]] _ _]; congruence. }
    destruct (o_parent o) as [p|] eqn:P.
    2: { intros d H. inversion H as [? ? [o' [E' P']] _|? ? ? [o' [E' P']] _ _]; congruence. }
    assert (PA : parent h a p) by (exists o; auto). destruct (W _ _ E) as [L' _]. specialize (L' _ P).
    assert (Q : is_dict h p \/ ~ is_dict h p).
    { unfold is_dict. destruct (nth_error h p) as [[[m|l|ds] pp]|]; [left; eauto|right|right|right]; intros [m [q C]]; discriminate. }
    assert (GEN : ~ is_dict h p -> match find_next_dict f h p with Some d => encloses h d a | None => forall d, ~ encloses h d a end).
    { intros ND. specialize (IH p W ltac:(lia)). destruct (find_next_dict f h p) as [d|]; [eapply E_skip; eauto|].
      intros d H. inversion H as [? ? [o' [E' P']] D'|? ? ? [o' [E' P']] _ H2]; subst; rewrite E in E'; injection E' as <-; rewrite P in P'; injection P' as <-; [contradiction|].
      eapply IH; eauto. }
    destruct (nth_error h p) as [[[m|l|ds] pp]|] eqn:EP; [|apply GEN|apply GEN|apply GEN]; try (intros [m' [q C]]; congruence).
    apply E_parent; auto. exists m, pp. auto.
  Qed.
  Lemma nearest_dict : forall h a k v, nearest h a k v -> is_dict h a.
  Proof. intros h a k v [? ? ? [m [p [E _]]]|]; auto. exists m, p. auto. Qed.
  Lemma getitem_dict : forall h fuel a k, wf h -> a < fuel -> is_dict h a ->
    (exists v, getitem fuel h a k = Ok v /\ nearest h a k v) \/ (getitem fuel h a k = Err KeyError /\ forall v, ~ nearest h a k v).
  Proof.
    intros h fuel. induction fuel as [|f IH]; intros a k W L [m [p E]]; [lia|]. cbn [getitem]. rewrite E.
    destruct (pd_get k m) as [v|] eqn:G.
    { left. exists v. split; auto. apply N_own. eapply own_get; eauto. }
    pose proof (own_none _ _ _ _ _ W E G) as NO.
    assert (NN : (forall d, ~ encloses h d a) -> forall v, ~ nearest h a k v).
    { intros NE v H. inversion H as [? ? ? O|? d ? ? _ _ EN _]; subst; [eapply NO; eauto|eapply NE; eauto]. }
    destruct p as [p|].
    2: { right. split; auto. apply NN. intros d H. inversion H as [? ? [o' [E' P']] _|? ? ? [o' [E' P']] _ _]; subst; rewrite E in E'; injection E' as <-; discriminate. }
    pose proof (find_next_ok h (S f) a W ltac:(lia)) as F. destruct (find_next_dict (S f) h a) as [d|]; [|right; auto].
    destruct (encloses_lt _ _ _ W F) as [Ld D]. destruct (IH d k W ltac:(lia) D) as [[v [H1 H2]]|[H1 H2]].
    - left. exists v. split; auto. eapply N_up; eauto. exists m, (Some p). auto.
    - right. split; auto. intros v H. inversion H as [? ? ? O|? d' ? ? _ _ EN H3]; subst; [eapply NO; eauto|].
      rewrite (encloses_fun _ _ _ _ EN F) in H3. eapply H2; eauto.
  Qed.

  (** *** C46 *)
  (** Lookup gives the value of the nearest enclosing dictionary that has the
      key and raises KeyError if none has. *)
  Theorem C46_lookup : forall h fuel a k, wf h -> is_dict h a -> a < fuel ->
    (forall v, getitem fuel h a k = Ok v <-> nearest h a k v) /\
    (getitem fuel h a k = Err KeyError <-> forall v, ~ nearest h a k v).
  Proof.
    intros h fuel a k W D L. destruct (getitem_dict h fuel a k W L D) as [[v [H1 H2]]|[H1 H2]]; rewrite H1.
    - split; [|split; [discriminate|intros N; exfalso; eapply N; eauto]]. intros u. split; [congruence|]. intros H.
      f_equal. revert u H. clear L H1 D. induction H2 as [a k v O|a d k v D NO EN H2 IH]; intros u H; inversion H as [? ? ? O'|? d' ? ? D' NO' EN' H3]; subst.
      + destruct O as [m [p [E I]]]. pose proof (proj1 (own_get h a m p k v W E) ltac:(exists m, p; auto)). pose proof (proj1 (own_get h a m p k u W E) O'). congruence.
      + exfalso. eapply NO'; eauto.
      + exfalso. eapply NO; eauto.
      + apply IH. now rewrite (encloses_fun _ _ _ _ EN EN').
    - split; [|tauto]. intros u. split; [discriminate|]. intros H. exfalso. eapply H2; eauto.
  Qed.
  Lemma nearest_fun : forall h a k v u, wf h -> nearest h a k v -> nearest h a k u -> v = u.
  Proof.
    intros h a k v u W H H'. destruct (C46_lookup h (S a) a k W (nearest_dict _ _ _ _ H) ltac:(lia)) as [L _].
    apply L in H, H'. congruence.
  Qed.

  (** Membership agrees with lookup when every enclosing object is a dictionary
      that is not empty. *)
  Definition plain h : Prop := forall a p, parent h a p -> exists b m q, nth_error h p = Some (mkObj (CDict (b :: m)) q).
  Theorem C46_contains : forall h fuel a k, wf h -> plain h -> is_dict h a -> a < fuel ->
    (contains fuel h a k = true <-> exists v, nearest h a k v).
  Proof.
    intros h fuel. induction fuel as [|f IH]; intros a k W PL [m [p E]] L; [lia|]. cbn [contains]. rewrite E.
    rewrite orb_true_iff. unfold pd_has. destruct (pd_get k m) as [v|] eqn:G.
    { split; auto. intros _. exists v. apply N_own. eapply own_get; eauto. }
    pose proof (own_none _ _ _ _ _ W E G) as NO. destruct p as [p|].
    - assert (PA : parent h a p) by (exists (mkObj (CDict m) (Some p)); auto). destruct (PL _ _ PA) as [b [m' [q Ep]]].
      assert (D : is_dict h p) by (exists (b :: m'), q; auto). unfold truthy. rewrite Ep. cbn [andb]. destruct (W _ _ E) as [L' _].
      specialize (L' p eq_refl). rewrite IH by (auto; lia). split.
      + intros [C|[v H]]; [discriminate|]. exists v. eapply N_up; eauto; [exists m, (Some p); auto|]. now apply E_parent.
      + intros [v H]. right. exists v. inversion H as [? ? ? O|? d ? ? _ _ EN H2]; subst; [exfalso; eapply NO; eauto|].
        rewrite (encloses_fun h a p d); auto. now apply E_parent.
    - split; [intros [|]; discriminate|]. intros [v H]. inversion H as [? ? ? O|? d ? ? _ _ EN H2]; subst; [exfalso; eapply NO; eauto|].
      inversion EN as [? ? [o' [E' P']] _|? ? ? [o' [E' P']] _ _]; subst; rewrite E in E'; injection E' as <-; discriminate.
  Qed.

  (** *** Assignment *)
  Lemma nth_heap_set : forall h a o b, a < length h -> nth_error (heap_set a o h) b = if Nat.eqb b a then Some o else nth_error h b.
  Proof.
    intros h a o b L. unfold heap_set. destruct (Nat.eqb b a) eqn:E.
    - apply Nat.eqb_eq in E. subst b. rewrite nth_error_app2, firstn_length, Nat.min_l by (rewrite ?firstn_length; lia). now rewrite Nat.sub_diag.
    - apply Nat.eqb_neq in E. destruct (Nat.lt_ge_cases b a).
      + rewrite nth_error_app1 by (rewrite firstn_length; lia). rewrite <- (firstn_skipn a h) at 2. now rewrite nth_error_app1 by (rewrite firstn_length; lia).
      + rewrite nth_error_app2, firstn_length, Nat.min_l by (rewrite ?firstn_length; lia). destruct (b - a) as [|n] eqn:D; [lia|]. cbn [nth_error].
        rewrite <- (firstn_skipn (S a) h) at 2. rewrite nth_error_app2, firstn_length, Nat.min_l by (rewrite ?firstn_length; lia). f_equal. lia.
  Qed.
  Lemma setitem_inv : forall h a k v h', setitem h a k v = Ok h' -> exists m p, nth_error h a = Some (mkObj (CDict m) p) /\
    forall b, nth_error h' b = if Nat.eqb b a then Some (mkObj (CDict (pd_set k v m)) p) else nth_error h b.
  Proof.
    intros h a k v h' H. unfold setitem in H. destruct (nth_error h a) as [[[m|l|ds] p]|] eqn:E; try discriminate. injection H as <-.
    exists m, p. split; auto. intros b. apply nth_heap_set. apply nth_error_Some. congruence.
  Qed.
  Lemma set_shape : forall h a k v h', setitem h a k v = Ok h' ->
    (forall b, is_dict h' b <-> is_dict h b) /\ (forall b p, parent h' b p <-> parent h b p).
  Proof.
    intros h a k v h' H. destruct (setitem_inv _ _ _ _ _ H) as [m [q [E N]]]. split.
    - intros b. unfold is_dict. rewrite N. destruct (Nat.eqb b a) eqn:Q; [|tauto]. apply Nat.eqb_eq in Q. subst b. split; intros _; eauto.
    - intros b p. unfold parent. rewrite N. destruct (Nat.eqb b a) eqn:Q; [|tauto]. apply Nat.eqb_eq in Q. subst b. rewrite E.
      split; intros [o [[= <-] P]]; eexists; split; eauto.
  Qed.
  Lemma set_encloses : forall h a k v h', setitem h a k v = Ok h' -> forall d b, encloses h' d b <-> encloses h d b.
  Proof.
    intros h a k v h' H d b. destruct (set_shape _ _ _ _ _ H) as [D P]. split; induction 1 as [x p PA DI|x p e PA ND _ IH].
    - apply E_parent; [now apply P|now apply D].
    - eapply E_skip; [apply P; eauto|now rewrite <- D|auto].
    - apply E_parent; [now apply P|now apply D].
    - eapply E_skip; [apply P; eauto|now rewrite D|auto].
  Qed.
  Lemma set_own : forall h a k v h', wf h -> setitem h a k v = Ok h' -> forall b k' u,
    own h' b k' u <-> (if Nat.eqb b a && String.eqb k' k then u = v else own h b k' u).
  Proof.
    intros h a k v h' W H b k' u. destruct (setitem_inv _ _ _ _ _ H) as [m [q [E N]]]. unfold own at 1. rewrite N.
    destruct (Nat.eqb b a) eqn:Q; cbn [andb]; [|reflexivity]. apply Nat.eqb_eq in Q. subst b.
    assert (ND : NoDup (map fst (pd_set k v m))). { destruct (W _ _ E) as [_ ND]. cbn in ND. apply (keys_set_NoDup (V := V)). exact ND. }
    pose proof (own_get h a m q k' u W E) as OG.
    transitivity (pd_get k' (pd_set k v m) = Some u).
    - rewrite pd_get_own by auto. split; [intros [m' [p' [[= <- <-] I]]]; auto|]. intros I. exists (pd_set k v m), q. auto.
    - destruct (String.eqb k' k) eqn:S.
      + apply String.eqb_eq in S. subst k'. rewrite pd_get_set_same. split; congruence.
      + apply String.eqb_neq in S. rewrite pd_get_set_other by auto. tauto.
  Qed.
  Lemma set_wf : forall h a k v h', wf h -> setitem h a k v = Ok h' -> wf h'.
  Proof.
    intros h a k v h' W H b o E'. destruct (setitem_inv _ _ _ _ _ H) as [m [q [E N]]]. rewrite N in E'. destruct (Nat.eqb b a) eqn:Q.
    - apply Nat.eqb_eq in Q. subst b. injection E' as <-. destruct (W _ _ E) as [L ND]. cbn in *. split; auto. apply (keys_set_NoDup (V := V)). exact ND.
    - apply (W _ _ E').
  Qed.
  (** Object [b] looks through [a]: [a] is [b] or a dictionary enclosing it. *)
  Inductive reaches h : nat -> nat -> Prop :=
  | R_refl : forall a, reaches h a a
  | R_up : forall a d b, encloses h d b -> reaches h d a -> reaches h b a.
  (** ... and no dictionary on the way from [b], before [a], has the key. *)
  Inductive unshadowed h (k : string) (a : nat) : nat -> Prop :=
  | U_refl : unshadowed h k a a
  | U_up : forall d b, is_dict h b -> (forall u, ~ own h b k u) -> encloses h d b -> unshadowed h k a d -> unshadowed h k a b.
  Lemma nearest_mono : forall h h' k (P : nat -> Prop), (forall b, is_dict h b -> is_dict h' b) -> (forall d b, encloses h d b -> encloses h' d b) ->
    (forall b d, P b -> encloses h d b -> P d) -> (forall b u, P b -> (own h b k u <-> own h' b k u)) ->
    forall b u, P b -> nearest h b k u -> nearest h' b k u.
  Proof.
    intros h h' k P D EN PP O b u HP H. induction H as [b k v Ow|b d k v Db NO Ed H IH].
    - apply N_own. now apply O.
    - eapply N_up; eauto. intros w C. apply O in C; auto. eapply NO; eauto.
  Qed.
  Theorem C46_assign : forall h a k v h', wf h -> setitem h a k v = Ok h' ->
    wf h' /\
    (* seen from a and from everything that looks through it *)
    nearest h' a k v /\ (forall b, unshadowed h k a b -> nearest h' b k v) /\
    (* other keys, anywhere *)
    (forall b k' u, k' <> k -> (nearest h' b k' u <-> nearest h b k' u)) /\
    (* the same key, from dictionaries that do not look through a: in particular the outer ones *)
    (forall b u, ~ reaches h b a -> (nearest h' b k u <-> nearest h b k u)).
  Proof.
    intros h a k v h' W H. destruct (set_shape _ _ _ _ _ H) as [D P]. pose proof (set_encloses _ _ _ _ _ H) as EN.
    pose proof (set_own _ _ _ _ _ W H) as O.
    assert (NA : nearest h' a k v). { apply N_own. apply O. now rewrite Nat.eqb_refl, String.eqb_refl. }
    split; [eapply set_wf; eauto|]. split; auto. split; [|split].
    - intros b U. induction U as [|d b Db NO Ed U IH]; auto.
      assert (DC : nearest h' d k v) by auto.
      destruct (Nat.eqb b a) eqn:Q; [apply Nat.eqb_eq in Q; subst; auto|].
      apply (N_up _ b d); [now apply D| |now apply EN|exact DC]. intros u C. apply O in C. rewrite Q in C. cbn in C. eapply NO; eauto.
    - intros b k' u NE.
      assert (OO : forall b u, own h' b k' u <-> own h b k' u).
      { intros b' u'. rewrite O. destruct (Nat.eqb b' a); cbn; [|tauto]. apply String.eqb_neq in NE. rewrite NE. tauto. }
      split; apply (nearest_mono _ _ k' (fun _ => True)); auto; intros; try (now apply D); try (now apply EN); try (now rewrite OO); now rewrite <- OO.
    - intros b u NR.
      assert (PP : forall b d, ~ reaches h b a -> encloses h d b -> ~ reaches h d a) by (intros b' d' N E C; apply N; eapply R_up; eauto).
      assert (OO : forall b u, ~ reaches h b a -> (own h' b k u <-> own h b k u)).
      { intros b' u' N. rewrite O. destruct (Nat.eqb b' a) eqn:Q; [|cbn; tauto]. apply Nat.eqb_eq in Q. subst b'. exfalso. apply N. constructor. }
      split; apply (nearest_mono _ _ k (fun b => ~ reaches h b a)); auto; intros; try (now apply D); try (now apply EN).
      + eapply PP; eauto. now apply EN.
      + now rewrite OO.
  Qed.
  (** Outer dictionaries never look through inner ones. *)
  Theorem C46_outer : forall h a b, wf h -> encloses h b a -> ~ reaches h b a.
  Proof.
    intros h a b W E. assert (G : forall x y, reaches h x y -> y <= x).
    { induction 1 as [|x d y E' H IH]; auto. destruct (encloses_lt _ _ _ W E'). lia. }
    intros R. apply G in R. destruct (encloses_lt _ _ _ W E). lia.
  Qed.
  (** A copy has the dictionary's own bindings only. *)
  Theorem C46_copy : forall h a h' c k, wf h -> copy_dict h a = Ok (h', c) ->
    (forall b, b < length h -> nth_error h' b = nth_error h b) /\ (forall v, nearest h' c k v <-> own h a k v).
  Proof.
    intros h a h' c k W H. unfold copy_dict in H. destruct (nth_error h a) as [[[m|l|ds] p]|] eqn:E; try discriminate. injection H as <- <-. split.
    - intros b L. now rewrite nth_error_app1.
    - intros v. assert (EC : nth_error (h ++ [mkObj (CDict m) None]) (length h) = Some (mkObj (CDict m) None)) by (rewrite nth_error_app2, Nat.sub_diag by auto; auto).
      split.
      + intros N. inversion N as [? ? ? [m' [p' [E' I]]]|? d ? ? _ _ EN _]; subst.
        * rewrite EC in E'. injection E' as <- <-. exists m, p. auto.
        * inversion EN as [? ? [o' [E' P']] _|? ? ? [o' [E' P']] _ _]; subst; rewrite EC in E'; injection E' as <-; discriminate.
      + intros [m' [p' [E' I]]]. rewrite E in E'. injection E' as <- <-. apply N_own. exists m, None. auto.
  Qed.

  (** *** C47 *)
  (** The last dictionary given that gives the key a value decides. *)
  Definition last_wins h (dicts : list nat) (k : string) (v : V) : Prop :=
    exists before d after, dicts = before ++ d :: after /\ nearest h d k v /\ forall d' u, In d' after -> ~ nearest h d' k u.
  Definition nowhere h (dicts : list nat) (k : string) : Prop := forall d u, In d dicts -> ~ nearest h d k u.
  Lemma last_cons : forall h ds d k v, wf h -> last_wins h (ds ++ [d]) k v <->
    (nearest h d k v \/ ((forall u, ~ nearest h d k u) /\ last_wins h ds k v)).
  Proof.
    intros h ds d k v W. split.
    - intros [b [x [a [E [N NA]]]]]. destruct a as [|y a _] using rev_ind.
      + apply app_inj_tail in E as [-> ->]. auto.
      + rewrite app_comm_cons, app_assoc in E. apply app_inj_tail in E as [-> ->]. right. split.
        * intros u. apply NA. apply in_app_iff. right. now left.
        * exists b, x, a. repeat split; auto. intros d' u I. apply NA. apply in_app_iff. auto.
    - intros [N|[ND [b [x [a [-> [N NA]]]]]]].
      + exists ds, d, []. repeat split; auto.
      + exists b, x, (a ++ [d]). rewrite <- app_assoc. repeat split; auto. intros d' u I. apply in_app_iff in I as [I|[<-|[]]]; auto.
  Qed.
  Lemma last_nil : forall h k v, ~ last_wins h [] k v.
  Proof. intros h k v [b [d [a [E _]]]]. destruct b; discriminate. Qed.
  Lemma nowhere_snoc : forall h ds d k, nowhere h (ds ++ [d]) k <-> (forall u, ~ nearest h d k u) /\ nowhere h ds k.
  Proof.
    intros h ds d k. unfold nowhere. split.
    - intros H. split; intros; apply H; apply in_app_iff; cbn; auto.
    - intros [H1 H2] x u I. apply in_app_iff in I as [I|[<-|[]]]; auto.
  Qed.
  (** Lookup in a MergedDicts of dictionaries, and what it falls back on. *)
  Theorem C47_lookup : forall h fuel a dicts par k, wf h -> nth_error h a = Some (mkObj (o_cell (merged (V := V) dicts)) par) ->
    Forall (is_dict h) dicts -> a < fuel ->
    (forall v, last_wins h dicts k v -> getitem fuel h a k = Ok v) /\
    (nowhere h dicts k -> getitem fuel h a k =
       match par with Some p => if truthy h p then getitem (pred fuel) h p k else Err KeyError | None => Err KeyError end) /\
    ((exists v, last_wins h dicts k v) \/ nowhere h dicts k).
  Proof.
    intros h [|f] a dicts par k W E F L; [lia|]. cbn [getitem pred]. rewrite E. cbn [merged o_cell].
    assert (LT : Forall (fun d => d < f) dicts).
    { destruct (W _ _ E) as [_ M]. cbn in M. rewrite Forall_forall in *. intros d I. apply in_rev in I. specialize (M d I). cbn in M. lia. }
    clear E. induction dicts as [|d ds IH] using rev_ind.
    - cbn [rev]. split; [intros v H; now apply last_nil in H|]. split; auto. right. intros d u [].
    - rewrite rev_app_distr. cbn [rev app]. apply Forall_app in F as [F Fd]. apply Forall_app in LT as [LT Ld]. inversion Fd as [|? ? Dd _]; subst. inversion Ld as [|? ? Ldd _]; subst.
      specialize (IH F LT). destruct IH as [I1 [I2 I3]].
      destruct (getitem_dict h f d k W Ldd Dd) as [[v [H1 H2]]|[H1 H2]]; rewrite H1.
      + split; [|split].
        * intros u H. apply last_cons in H as [H|[H _]]; auto; [f_equal; eapply nearest_fun; eauto|exfalso; eapply H; eauto].
        * intros H. apply nowhere_snoc in H as [H _]. exfalso. eapply H; eauto.
        * left. exists v. apply last_cons; auto.
      + split; [|split].
        * intros u H. apply last_cons in H as [H|[_ H]]; auto. exfalso. eapply H2; eauto.
        * intros H. apply nowhere_snoc in H as [_ H]. auto.
        * destruct I3 as [[v H]|H]; [left; exists v; apply last_cons; auto|right; apply nowhere_snoc; auto].
  Qed.
  (** keys() is the union of the dictionaries' own keys. *)
  Theorem C47_keys : forall h dicts k, wf h -> In k (merged_keys h dicts) <-> exists d v, In d dicts /\ own h d k v.
  Proof.
    intros h dicts k W. unfold merged_keys, own_keys. rewrite in_flat_map. split.
    - intros [d [I K]]. destruct (nth_error h d) as [[[m|l|ds] p]|] eqn:E; try contradiction. apply in_map_iff in K as [[k' v] [<- K]]. exists d, v. split; auto. exists m, p. auto.
    - intros [d [v [I [m [p [E K]]]]]]. exists d. split; auto. rewrite E. now apply (in_map fst) in K.
  Qed.
  (** With dictionaries that have no parents, membership, keys() and lookup agree. *)
  Theorem C47_agree : forall h fuel a dicts k, wf h -> nth_error h a = Some (merged (V := V) dicts) ->
    Forall (fun d => exists m, nth_error h d = Some (mkObj (CDict m) None)) dicts -> a < fuel ->
    (contains fuel h a k = true <-> In k (merged_keys h dicts)) /\
    ((exists v, getitem fuel h a k = Ok v) <-> In k (merged_keys h dicts)) /\
    (getitem fuel h a k = Err KeyError <-> ~ In k (merged_keys h dicts)).
  Proof.
    intros h fuel a dicts k W E F L.
    assert (FD : Forall (is_dict h) dicts) by (eapply Forall_impl; [|exact F]; intros d [m Ed]; exists m, None; auto).
    assert (NO : forall d v, In d dicts -> (nearest h d k v <-> own h d k v)).
    { intros d v I. rewrite Forall_forall in F. destruct (F d I) as [m Ed]. split; [|apply N_own]. intros N. inversion N as [|? x ? ? _ _ EN _]; subst; auto.
      inversion EN as [? ? [o' [E' P']] _|? ? ? [o' [E' P']] _ _]; subst; rewrite Ed in E'; injection E' as <-; discriminate. }
    destruct (C47_lookup h fuel a dicts None k W E FD L) as [L1 [L2 L3]].
    assert (KL : In k (merged_keys h dicts) <-> exists v, last_wins h dicts k v).
    { rewrite C47_keys by auto. split.
      - intros [d [v [I O]]]. destruct L3 as [|N]; auto. exfalso. eapply N; eauto. apply NO; eauto.
      - intros [v [b [d [c [-> [N _]]]]]]. exists d, v. assert (I : In d (b ++ d :: c)) by (apply in_app_iff; right; now left). split; auto. now apply NO. }
    split; [|split].
    - rewrite C47_keys by auto. destruct fuel as [|f]; [lia|]. cbn [contains]. rewrite E. cbn [merged]. rewrite orb_false_r. rewrite existsb_exists.
      destruct (W _ _ E) as [_ M]. cbn in M. rewrite Forall_forall in F, M. split.
      + intros [d [I C]]. apply in_rev in I. destruct (F d I) as [m Ed]. destruct f as [|f]; [discriminate|]. cbn [contains] in C. rewrite Ed in C. rewrite orb_false_r in C.
        unfold pd_has in C. destruct (pd_get k m) as [v|] eqn:G; [|discriminate]. exists d, v. split; auto. eapply own_get; eauto.
      + intros [d [v [I O]]]. exists d. rewrite <- in_rev. split; auto. destruct (F d I) as [m Ed]. assert (Id : In d (rev dicts)) by now rewrite <- in_rev.
        specialize (M d Id). destruct f as [|f]; [lia|]. cbn [contains]. rewrite Ed. apply (own_get _ _ _ _ _ _ W Ed) in O. unfold pd_has. now rewrite O.
    - rewrite KL. split; [|intros [v H]; eauto]. intros [v G]. destruct L3 as [|N]; auto. rewrite (L2 N) in G. discriminate.
    - rewrite KL. split.
      + intros G [v H]. rewrite (L1 v H) in G. discriminate.
      + intros N. destruct L3 as [|N2]; [contradiction|]. now rewrite (L2 N2).
  Qed.
End Spec.
Print Assumptions C46_lookup.
Print Assumptions C46_contains.
Print Assumptions C46_assign.
Print Assumptions C46_outer.
Print Assumptions C46_copy.
Print Assumptions C47_lookup.
Print Assumptions C47_keys.
Print Assumptions C47_agree.

(** 0 {a: 1, b: 2} with child list 1, in it dictionary 2 {b: 3} with child dictionary 3 {c: 4}; 4 is empty, in 2; 5 {} in 4. *)
Definition cfg : heap nat :=
  [mkObj (CDict [("a"%string, 1); ("b"%string, 2)]) None; mkObj (CList [Some "x"%string; None]) (Some 0);
   mkObj (CDict [("b"%string, 3)]) (Some 1); mkObj (CDict [("c"%string, 4)]) (Some 2);
   mkObj (CDict []) (Some 0); mkObj (CDict []) (Some 4)].
Lemma cfg_wf : wf cfg.
Proof.
  intros a o E. do 6 (destruct a as [|a]; [injection E as <-; cbn; split; [intros p P; try discriminate; injection P as <-; lia|]; repeat constructor; cbn; intuition discriminate|]).
  destruct a; discriminate.
Qed.
Example C46_example : wf cfg /\ is_dict cfg 3 /\ getitem 6 cfg 3 "a" = Ok 1 /\ getitem 6 cfg 3 "b" = Ok 3 /\ getitem 6 cfg 3 "z" = Err KeyError /\
  (exists h', setitem cfg 2 "a" 9 = Ok h' /\ getitem 6 h' 3 "a" = Ok 9 /\ getitem 6 h' 0 "a" = Ok 1).
Proof. split; [exact cfg_wf|]. split; [eexists _, _; reflexivity|]. repeat (split; [reflexivity|]). eexists. split; [reflexivity|]. split; reflexivity. Qed.
Example C46_contains_example : let h := [mkObj (CDict [("a"%string, 1)]) None; mkObj (CDict []) (Some 0)] in
  plain h /\ contains 2 h 1 "a" = true /\ contains 2 h 1 "b" = false.
Proof.
  split; [|split; reflexivity]. intros a p [o [E P]]. destruct a as [|[|a]]; cbn in E; [| |destruct a; discriminate]; injection E as <-; cbn in P; [discriminate|].
  injection P as <-. cbn. eauto.
Qed.
(** Membership does not look past an empty dictionary, whatever is around it;
    nor does a lookup in merged dictionaries. *)
Theorem C46_empty_parent : forall {V} (h : heap V) a m p q k fuel, nth_error h a = Some (mkObj (CDict m) (Some p)) -> ~ In k (map fst m) ->
  nth_error h p = Some (mkObj (CDict []) q) -> contains fuel h a k = false.
Proof.
  intros V h a m p q k fuel E N P. destruct fuel as [|fuel]; [reflexivity|]. cbn [contains]. rewrite E. cbv zeta. unfold truthy. rewrite P. cbn [andb]. rewrite orb_false_r.
  unfold pd_has. destruct (pd_get k m) eqn:G; auto. exfalso. apply N. clear - G. induction m as [|[k' v'] m IH]; cbn [pd_get] in G; [discriminate G|]. destruct (String.eqb_spec k k') as [->|]; [left; reflexivity|right; auto].
Qed.
Theorem C47_empty_parent : forall {V} (h : heap V) a ds p q k fuel, nth_error h a = Some (mkObj (CMerged ds) (Some p)) ->
  nth_error h p = Some (mkObj (CDict []) q) -> Forall (fun d => getitem fuel h d k = Err KeyError) ds -> getitem (S fuel) h a k = Err KeyError.
Proof.
  intros V h a ds p q k fuel E P F. cbn [getitem]. rewrite E. clear E. induction F as [|d ds D F IH]; [unfold truthy; now rewrite P|]. rewrite D. exact IH.
Qed.
Print Assumptions C46_empty_parent. Print Assumptions C47_empty_parent.
Example C47_empty_parent_ex : let h := [mkObj (CDict [("a"%string, 1)]) None; mkObj (CDict []) (Some 0); mkObj (CDict []) None; mkObj (CMerged [2]) (Some 1)] in
  getitem 6 h 1 "a" = Ok 1 /\ getitem 6 h 3 "a" = Err KeyError.
Proof. vm_compute. split; reflexivity. Qed.
(** Membership is not lookup: below an empty dictionary inherited keys are
    denied, below a list the strings in the list are claimed. *)
Theorem C46_contains_refuted : exists (h : heap nat) a k b k', wf h /\
  getitem 6 h a k = Ok 1 /\ contains 6 h a k = false /\
  getitem 6 h b k' = Err KeyError /\ contains 6 h b k' = true.
Proof. exists cfg, 5, "a"%string, 2, "x"%string. split; [exact cfg_wf|]. repeat split; reflexivity. Qed.
Print Assumptions C46_contains_refuted.
(** A copy forgets inherited keys. *)
Theorem C46_copy_refuted : exists (h : heap nat) a k h' c, copy_dict h a = Ok (h', c) /\ getitem 7 h' a k = Ok 1 /\ getitem 7 h' c k = Err KeyError.
Proof. exists cfg, 3, "a"%string. eexists _, _. split; [reflexivity|]. split; reflexivity. Qed.
Print Assumptions C46_copy_refuted.

Definition mcfg : heap nat :=
  [mkObj (CDict [("a"%string, 1); ("b"%string, 2)]) None; mkObj (CDict [("b"%string, 3); ("c"%string, 4)]) None; merged [0; 1]].
Example C47_example : wf mcfg /\ nth_error mcfg 2 = Some (merged [0; 1]) /\ Forall (is_dict mcfg) [0; 1] /\
  getitem 3 mcfg 2 "b" = Ok 3 /\ getitem 3 mcfg 2 "a" = Ok 1 /\ getitem 3 mcfg 2 "d" = Err KeyError /\ merged_keys mcfg [0; 1] = ["a"; "b"; "b"; "c"]%string.
Proof.
  split.
  { intros a o E. do 3 (destruct a as [|a]; [injection E as <-; cbn; split; [intros p P; discriminate|]; repeat constructor; cbn; intuition discriminate|]). destruct a; discriminate. }
  split; auto. split; [repeat constructor; eexists _, _; reflexivity|]. repeat split.
Qed.
(** keys() misses the keys that the dictionaries inherit. *)
Theorem C47_keys_refuted : exists (h : heap nat) a dicts k, wf h /\ nth_error h a = Some (merged dicts) /\ Forall (is_dict h) dicts /\
  getitem 7 h a k = Ok 1 /\ ~ In k (merged_keys h dicts).
Proof.
  exists (cfg ++ [merged [3]]), 6, [3], "a"%string. split; [|split; [reflexivity|]].
  - intros a o E. destruct (Nat.lt_ge_cases a 6) as [L|G].
    + rewrite nth_error_app1 in E by exact L. exact (cfg_wf a o E).
    + rewrite nth_error_app2 in E by exact G. cbn [length cfg] in E. destruct (a - 6) as [|n] eqn:Q; [|destruct n; discriminate]. injection E as <-. cbn. split; [discriminate|].
      constructor; auto. lia.
  - split; [repeat constructor; eexists _, _; reflexivity|]. split; [reflexivity|]. cbn. intuition discriminate.
Qed.
Print Assumptions C47_keys_refuted.
