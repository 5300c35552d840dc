(** C78: reading a configuration *)
From Coq Require Import String List Arith Bool Lia.
From Verif Require Import Model_NdArray Model_DataDict Proofs_DataDict Model_Config Model_ConfigLoad Spec_ConfigLoad Prop_Config Proofs_ConfigLoad.
Import ListNotations.
Local Open Scope nat_scope.
Local Open Scope list_scope.

Section C78.
Context {T : Type}.
Implicit Types (n : node T) (v w : value T) (h : lheap T).

Lemma lwf_nil : lwf ([] : lheap T).
Proof. intros [|a] o E; discriminate E. Qed.
Lemma loaded : forall n v h, construct n [] = (v, h) -> lwf h /\ rep h 0 None v n.
Proof. intros n v h E. destruct (construct_made n [] lwf_nil) as (_ & W & R). rewrite E in W, R. auto. Qed.

(** Every place of the document is read as what is there, and nothing else is. *)
Theorem C78_same : forall n v h p, construct n [] = (v, h) ->
  match at_node p n, at_value h p v with
  | Some c, Some w => read_as h c w
  | None, None => True
  | _, _ => False
  end.
Proof.
  intros n v h p E. destruct (loaded n v h E) as [W R]. pose proof (at_rep p h 0 None v n R) as A. destruct (at_node p n) as [c|].
  - destruct A as (w & lo & par & -> & Rw). eapply rep_read; eauto.
  - now rewrite A.
Qed.
(** The parent of a dictionary or list is the dictionary or list that it is in;
    the outermost has none. *)
Definition has_parent h v (par : option nat) : Prop := match v with VScalar _ => True | VObj a => exists o, nth_error h a = Some o /\ l_parent o = par end.
Lemma rep_parent : forall h lo par v n, rep h lo par v n -> has_parent h v par.
Proof. intros h lo par v n R. inversion R; subst; cbn [has_parent]; auto; eexists; split; eauto. Qed.
Theorem C78_parent : forall n v h, construct n [] = (v, h) ->
  has_parent h v None /\
  forall p s w, at_value h (p ++ [s]) v = Some w -> exists a, at_value h p v = Some (VObj a) /\ has_parent h w (Some a).
Proof.
  intros n v h E. destruct (loaded n v h E) as [W R]. split; [eapply rep_parent; eauto|]. intros p s w A.
  pose proof (at_rep (p ++ [s]) h 0 None v n R) as B. destruct (at_node (p ++ [s]) n) as [c|] eqn:N; [|congruence].
  destruct (at_parent p s h 0 None v n c R N) as (a & w' & m & A1 & A2 & _ & A3). rewrite A in A2. injection A2 as <-. exists a. split; auto. eapply rep_parent; eauto.
Qed.

(** ** Looking up keys *)
Variable text : T -> option string.
Lemma nth_forget : forall h a, nth_error (forget text h) a = option_map (fun o => mkObj (match l_content o with
    | LDict m => CDict m
    | LList l => CList (map (fun v => match v with VScalar s => text s | VObj _ => None end) l)
    end) (l_parent o)) (nth_error h a).
Proof. intros h a. apply nth_error_map. Qed.
Lemma wf_forget : forall h, lwf h -> wf (forget text h).
Proof.
  intros h W a o E. rewrite nth_forget in E. destruct (nth_error h a) as [[c p]|] eqn:N; [|discriminate E]. cbn in E. injection E as <-. destruct (W _ _ N) as [P K]. cbn in *.
  split; [exact P|]. destruct c; auto.
Qed.
Lemma is_dict_forget : forall h a, is_dict (forget text h) a <-> exists m p, nth_error h a = Some (mkL (LDict m) p).
Proof.
  intros h a. unfold is_dict. rewrite nth_forget. split.
  - intros (m & p & E). destruct (nth_error h a) as [[[m'|l] p']|]; try discriminate E. eauto.
  - intros (m & p & ->). cbn. eauto.
Qed.
Lemma parent_forget : forall h a p, parent (forget text h) a p <-> exists o, nth_error h a = Some o /\ l_parent o = Some p.
Proof.
  intros h a p. unfold parent. rewrite nth_forget. split.
  - intros (o & E & P). destruct (nth_error h a) as [[c p']|]; [|discriminate E]. injection E as <-. cbn in P. eauto.
  - intros (o & -> & P). cbn. eauto.
Qed.

Lemma around_refl : forall p, around p p.
Proof. intros p. exists []. now rewrite app_nil_r. Qed.
Lemma around_trans : forall p q r, around p q -> around q r -> around p r.
Proof. intros p q r [x ->] [y ->]. exists (x ++ y). now rewrite app_assoc. Qed.
Lemma around_len : forall p q, around p q -> length p <= length q.
Proof. intros p q [x ->]. rewrite app_length. lia. Qed.
Lemma around_antisym : forall p q, around p q -> around q p -> p = q.
Proof. intros p q [x ->] B. apply around_len in B. rewrite app_length in B. destruct x; [now rewrite app_nil_r|cbn in B; lia]. Qed.
Lemma around_snoc : forall q p s, around q (p ++ [s]) -> q = p ++ [s] \/ around q p.
Proof.
  intros q p s [x E]. destruct x as [|y x] using rev_ind; [left; now rewrite app_nil_r in E|]. clear IHx. right.
  rewrite app_assoc in E. apply app_inj_tail in E as [-> _]. now exists x.
Qed.
Lemma around_snoc_r : forall p s, around p (p ++ [s]).
Proof. intros p s. now exists [s]. Qed.

Section Loaded.
Variables (n : node T) (v : value T) (h : lheap T).
Hypothesis W : lwf h.
Hypothesis R : rep h 0 None v n.
Definition mapping_at (q : place) (d : nat) : Prop := exists l, at_node q n = Some (NMap l) /\ at_value h q v = Some (VObj d).
Lemma mapping_dict : forall q d, mapping_at q d -> is_dict (forget text h) d.
Proof.
  intros q d (l & A & B). pose proof (at_rep q h 0 None v n R) as C. rewrite A in C. destruct C as (w & lo & par & C1 & C2). rewrite B in C1. injection C1 as <-.
  inversion C2; subst. apply is_dict_forget. eauto.
Qed.
Lemma enclosing : forall p c a, at_node p n = Some c -> at_value h p v = Some (VObj a) ->
  (exists q d, around q p /\ q <> p /\ mapping_at q d /\ encloses (forget text h) d a /\
     forall q' l, around q' p -> q' <> p -> at_node q' n = Some (NMap l) -> around q' q) \/
  ((forall q' l, around q' p -> q' <> p -> at_node q' n <> Some (NMap l)) /\ forall d, ~ encloses (forget text h) d a).
Proof.
  intros p. induction p as [|s p IH] using rev_ind; intros c a A B.
  - right. split.
    + intros q' l [x E] N. destruct q'; [congruence|discriminate E].
    + cbn [at_value] in B. injection B as ->. intros d E. pose proof (rep_parent _ _ _ _ _ R) as (o & O & P).
      inversion E as [? p' PA _|? p' ? PA _ _]; subst; apply parent_forget in PA as (o' & O' & P'); congruence.
  - destruct (at_parent p s h 0 None v n c R A) as (b & w & m & A1 & A2 & A3 & A4). rewrite B in A2. injection A2 as <-.
    pose proof (rep_parent _ _ _ _ _ A4) as HP. cbn [has_parent] in HP. assert (PA : parent (forget text h) a b) by (apply parent_forget; exact HP).
    assert (NE : p <> p ++ [s]) by (intros C; apply (f_equal (@length step)) in C; rewrite app_length in C; cbn in C; lia).
    pose proof (at_rep p h 0 None v n R) as C. rewrite A3, A1 in C. destruct C as (w & lo & par & C1 & C2). injection C1 as <-.
    destruct m as [t|l|l].
    + inversion C2.
    + left. exists p, b. split; [apply around_snoc_r|]. split; [exact NE|]. assert (M : mapping_at p b) by (exists l; auto). split; [exact M|]. split; [apply E_parent; auto; eapply mapping_dict; eauto|].
      intros q' l' AR N _. apply around_snoc in AR as [->|AR]; [congruence|exact AR].
    + assert (ND : ~ is_dict (forget text h) b). { rewrite is_dict_forget. intros (m & q & Q). inversion C2; subst. congruence. }
      destruct (IH (NSeq l) b A3 A1) as [(q & d & I1 & I2 & I3 & I4 & I5)|[I1 I2]].
      * left. exists q, d. split; [eapply around_trans; [exact I1|apply around_snoc_r]|]. split.
        { intros ->. apply around_len in I1. rewrite app_length in I1. cbn in I1. lia. }
        split; [exact I3|]. split; [eapply E_skip; eauto|]. intros q' l' AR N Q. apply around_snoc in AR as [->|AR]; [congruence|].
        apply (I5 q' l' AR); auto. intros ->. congruence.
      * right. split.
        { intros q' l' AR N Q. apply around_snoc in AR as [->|AR]; [congruence|]. apply (I1 q' l' AR); auto. intros ->. congruence. }
        { intros d E. inversion E as [? p' PB D|? p' ? PB D E']; subst; apply parent_forget in PB as (o & O & P); destruct HP as (o' & O' & P');
            rewrite O in O'; injection O' as <-; rewrite P in P'; injection P' as ->; [contradiction|eapply I2; eauto]. }
Qed.
Lemma own_key : forall p l a k, at_node p n = Some (NMap l) -> at_value h p v = Some (VObj a) ->
  (In k (map fst l) -> exists w, at_value h (p ++ [Key k]) v = Some w /\ own (forget text h) a k w) /\
  (~ In k (map fst l) -> forall u, ~ own (forget text h) a k u).
Proof.
  intros p l a k A B. pose proof (at_rep p h 0 None v n R) as C. rewrite A, B in C. destruct C as (w & lo & par & C1 & C2). injection C1 as <-.
  pose proof (rep_read _ _ _ _ _ W C2) as (m & par' & N & ND & KE & _). rewrite at_value_app, B. cbn [at_value member]. rewrite N. split; intros I.
  - apply KE in I. apply in_map_iff in I as ([k' u] & E & I). cbn in E. subst k'. pose proof I as I'. apply (pd_get_own m k u ND) in I'. rewrite I'. exists u. split; auto.
    exists m, par'. rewrite nth_forget, N. auto.
  - intros u (m' & p' & E & I'). rewrite nth_forget, N in E. cbn in E. injection E as <- <-. apply I, KE. now apply (in_map fst) in I'.
Qed.
Lemma lookup_near : forall k len p l a, length p <= len -> at_node p n = Some (NMap l) -> at_value h p v = Some (VObj a) ->
  (forall q, innermost n k p q -> exists w, at_value h (q ++ [Key k]) v = Some w /\ nearest (forget text h) a k w) /\
  ((forall q, around q p -> ~ defines n k q) -> forall w, ~ nearest (forget text h) a k w).
Proof.
  intros k. induction len as [|len IH]; intros p l a L A B;
    destruct (own_key p l a k A B) as [O1 O2]; destruct (in_dec string_dec k (map fst l)) as [I|NI].
  1,3: (split; [intros q (Q1 & Q2 & Q3)|intros H; exfalso; apply (H p (around_refl p)); exists l; auto];
      assert (q = p) by (apply around_antisym; [exact Q1|apply Q3; [apply around_refl|exists l; auto]]); subst q;
      destruct (O1 I) as (w & W1 & W2); exists w; split; [exact W1|now apply N_own]).
  - assert (p = []) by (destruct p; [auto|cbn in L; lia]). subst p. split.
    + intros q (Q1 & (l' & Q2 & Q2') & _). apply around_len in Q1. destruct q; [|cbn in Q1; lia]. rewrite A in Q2. injection Q2 as <-. contradiction.
    + intros _ w N. inversion N as [? ? ? O|? d ? ? _ _ EN _]; subst; [eapply O2; eauto|].
      destruct (enclosing [] _ a A B) as [(q & d' & E1 & E2 & _)|[_ E]]; [|eapply E; eauto].
      apply around_len in E1. destruct q; [congruence|cbn in E1; lia].
  - assert (Same : forall q, q <> p \/ ~ defines n k q -> True) by auto. clear Same.
    assert (NP : ~ defines n k p) by (intros (l' & Q & Q'); rewrite A in Q; injection Q as <-; contradiction).
    assert (MD : is_dict (forget text h) a) by (eapply mapping_dict; exists l; eauto).
    destruct (enclosing p _ a A B) as [(q & d & E1 & E2 & (lq & E3 & E3') & E4 & E5)|[E1 E2]].
    + assert (Lq : length q <= len). { destruct E1 as [x X]. destruct x; [rewrite app_nil_r in X; congruence|]. rewrite X, app_length in L. cbn in L. lia. }
      destruct (IH q lq d Lq E3 E3') as [I1 I2]. split.
      * intros q0 (Q1 & Q2 & Q3).
        assert (N0 : q0 <> p) by (intros ->; contradiction).
        destruct (I1 q0) as (w & W1 & W2).
        { split; [|split; [exact Q2|]].
          - destruct Q2 as (l0 & Q2 & _). exact (E5 q0 l0 Q1 N0 Q2).
          - intros q' AR D. apply Q3; auto. eapply around_trans; eauto. }
        exists w. split; [exact W1|]. eapply N_up; eauto.
      * intros H w N. inversion N as [? ? ? O|? d' ? ? _ _ EN H3]; subst; [eapply O2; eauto|]. rewrite (encloses_fun _ _ _ _ EN E4) in H3.
        eapply I2; [|exact H3]. intros q' AR. apply H. eapply around_trans; eauto.
    + split.
      * intros q0 (Q1 & (l0 & Q2 & Q2') & Q3). exfalso. assert (N0 : q0 <> p) by (intros ->; apply NP; exists l0; auto). apply (E1 q0 l0 Q1 N0 Q2).
      * intros _ w N. inversion N as [? ? ? O|? d' ? ? _ _ EN H3]; subst; [eapply O2; eauto|eapply E2; eauto].
Qed.
End Loaded.
(** Looking up a key in the dictionary at a place gives the value from the
    innermost mapping around the place that defines the key; lists on the way are
    passed over. *)
Theorem C78_lookup : forall n v h p l a k fuel, construct n [] = (v, h) -> at_node p n = Some (NMap l) -> at_value h p v = Some (VObj a) -> a < fuel ->
  (forall q, innermost n k p q -> exists w, getitem fuel (forget text h) a k = Ok w /\ at_value h (q ++ [Key k]) v = Some w) /\
  ((forall q, around q p -> ~ defines n k q) -> getitem fuel (forget text h) a k = Err KeyError).
Proof.
  intros n v h p l a k fuel E A B L. destruct (loaded n v h E) as [W R].
  destruct (lookup_near n v h W R k (length p) p l a (le_n _) A B) as [H1 H2].
  assert (D : is_dict (forget text h) a) by (eapply mapping_dict; [exact R|exists l; eauto]).
  destruct (C46_lookup (forget text h) fuel a k (wf_forget h W) D L) as [C1 C2]. split.
  - intros q I. destruct (H1 q I) as (w & W1 & W2). exists w. split; [now apply C1|exact W1].
  - intros N. apply C2. now apply H2.
Qed.

(** ** The configuration *)
Lemma rep_more : forall n v h x, rep h 0 None v n -> rep (h ++ x) 0 None v n.
Proof. intros n v h x. apply rep_ext. intros b o _ E. rewrite nth_error_app1; [exact E|]. eapply nth_some; eauto. Qed.
Lemma config_parts : forall n h c, load_config n = Ok (h, c) -> exists a m h0, construct n [] = (VObj a, h0) /\
  nth_error h0 a = Some (mkL (LDict m) None) /\ h = h0 ++ [mkL (LDict m) None] /\ c = length h0 /\ lwf h /\ rep h 0 None (VObj a) n.
Proof.
  intros n h c E. unfold load_config in E. destruct (construct n []) as [v h0] eqn:C. destruct (loaded n v h0 C) as [W R]. cbn [fst snd] in E. destruct v as [s|a]; [discriminate E|].
  destruct (nth_error h0 a) as [[[m|l] par]|] eqn:N; try discriminate E. fold (assign m) in E. destruct (W _ _ N) as [_ ND]. cbn in ND.
  rewrite (assign_nodup m ND) in E. injection E as <- <-. pose proof (rep_parent _ _ _ _ _ R) as (o & O & P). rewrite N in O. injection O as <-. cbn in P. subst par.
  exists a, m, h0. split; auto. split; [exact N|]. split; auto. split; auto. split; [now apply lwf_new|now apply rep_more].
Qed.
(** A configuration can be read exactly if the document is a mapping. *)
Theorem C78_mapping : forall n, match n with NMap _ => exists r, load_config n = Ok r | _ => load_config n = Err AttributeError end.
Proof.
  intros n. unfold load_config. destruct (construct n []) as [v h] eqn:C. destruct (loaded n v h C) as [W R]. cbn [fst snd].
  inversion R as [|? ? a l vs La N F|? ? a l vs La N F]; subst; auto; rewrite N; eauto.
Qed.
Lemma config_member : forall n h c, load_config n = Ok (h, c) -> exists a, rep h 0 None (VObj a) n /\ lwf h /\
  (forall s, member h s (VObj c) = member h s (VObj a)) /\ (forall p, p <> [] -> at_value h p (VObj c) = at_value h p (VObj a)) /\
  exists m, nth_error h c = Some (mkL (LDict m) None) /\ nth_error h a = Some (mkL (LDict m) None) /\ S c = length h.
Proof.
  intros n h c E. destruct (config_parts n h c E) as (a & m & h0 & C & N & H & Hc & W & R). exists a. split; [exact R|]. split; [exact W|].
  assert (N1 : nth_error h c = Some (mkL (LDict m) None)) by (subst; apply nth_new).
  assert (N2 : nth_error h a = Some (mkL (LDict m) None)) by (subst; rewrite nth_error_app1; [exact N|eapply nth_some; eauto]).
  assert (M : forall s, member h s (VObj c) = member h s (VObj a)) by (intros s; cbn [member]; now rewrite N1, N2).
  split; [exact M|]. split.
  - intros [|s p] NE; [congruence|]. cbn [at_value]. now rewrite M.
  - exists m. split; auto. split; auto. subst. rewrite app_length. cbn. lia.
Qed.
(** The configuration itself and what is in it: the same places, and the same
    rule for keys. *)
Theorem C78_config : forall n h c p, load_config n = Ok (h, c) ->
  match at_node p n, at_value h p (VObj c) with
  | Some m, Some w => read_as h m w
  | None, None => True
  | _, _ => False
  end.
Proof.
  intros n h c p E. destruct (config_member n h c E) as (a & R & W & M & P & m & N1 & N2 & _).
  pose proof (at_rep p h 0 None (VObj a) n R) as A. destruct p as [|s p].
  - cbn [at_node at_value] in *. destruct A as (w & lo & par & A & Rw). injection A as <-. pose proof (rep_read _ _ _ _ _ W Rw) as Q. unfold read_as in *. rewrite N1. rewrite N2 in Q. exact Q.
  - rewrite P by discriminate. destruct (at_node (s :: p) n) as [d|]; [|now rewrite A]. destruct A as (w & lo & par & -> & Rw). eapply rep_read; eauto.
Qed.
Theorem C78_config_lookup : forall n h c p l a k fuel, load_config n = Ok (h, c) -> at_node p n = Some (NMap l) -> at_value h p (VObj c) = Some (VObj a) -> a < fuel ->
  (forall q, innermost n k p q -> exists w, getitem fuel (forget text h) a k = Ok w /\ at_value h (q ++ [Key k]) (VObj c) = Some w) /\
  ((forall q, around q p -> ~ defines n k q) -> getitem fuel (forget text h) a k = Err KeyError).
Proof.
  intros n h c p l a k fuel E A B L. destruct (config_member n h c E) as (r & R & W & M & P & m & N1 & N2 & Lc).
  assert (PK : forall q, at_value h (q ++ [Key k]) (VObj c) = at_value h (q ++ [Key k]) (VObj r)) by (intros q; apply P; now destruct q).
  destruct p as [|s p].
  - cbn [at_value] in B. injection B as <-. cbn [at_node] in A. injection A as ->.
    assert (G : getitem fuel (forget text h) c k = match pd_get k m with Some w => Ok w | None => Err KeyError end).
    { destruct fuel as [|f]; [lia|]. cbn [getitem]. rewrite nth_forget, N1. cbn. destruct (pd_get k m); auto. }
    assert (ND : NoDup (map fst m)) by (destruct (W _ _ N1); auto).
    assert (K : In k (map fst l) <-> In k (map fst m)).
    { pose proof (rep_read _ _ _ _ _ W R) as Q. cbn [read_as] in Q. destruct Q as (m' & par & Q1 & _ & Q2 & _). rewrite N2 in Q1. injection Q1 as <- _. symmetry. apply Q2. }
    rewrite G. split.
    + intros q (Q1 & (l' & Q2 & Q3) & _). apply around_len in Q1. destruct q; [|cbn in Q1; lia]. cbn [at_node] in Q2. injection Q2 as <-. apply K in Q3.
      destruct (pd_get_in k m Q3) as (w & Gw). rewrite Gw. exists w. split; auto. cbn [app at_value member]. now rewrite N1, Gw.
    + intros H. destruct (pd_get k m) as [w|] eqn:Gw; auto. exfalso. apply (H [] (around_refl [])). exists l. split; auto. apply K.
      apply (pd_get_own m k w ND) in Gw. now apply (in_map fst) in Gw.
  - rewrite P in B by discriminate. destruct (lookup_near n (VObj r) h W R k (length (s :: p)) (s :: p) l a (le_n _) A B) as [H1 H2].
    assert (D : is_dict (forget text h) a) by (eapply mapping_dict; [exact R|exists l; eauto]).
    destruct (C46_lookup (forget text h) fuel a k (wf_forget h W) D L) as [C1 C2]. split.
    + intros q I. destruct (H1 q I) as (w & W1 & W2). exists w. rewrite PK. split; [now apply C1|exact W1].
    + intros N. apply C2. now apply H2.
Qed.

(** An assignment to the configuration is seen in the configuration but not from
    the dictionaries in it. *)
Lemma no_parent_last : forall (h : heap (value T)) c, wf h -> S c = length h -> forall d b, encloses h d b -> d <> c.
Proof.
  intros h c W L d b E. induction E as [b p (o & O & P) D|b p d (o & O & P) ND E IH]; auto.
  destruct (W _ _ O) as [Q _]. specialize (Q _ P). pose proof (nth_some _ _ _ O). lia.
Qed.
Theorem C78_detached : forall n h c k w (h2 : heap (value T)) p l a fuel, load_config n = Ok (h, c) -> setitem (forget text h) c k w = Ok h2 ->
  at_node p n = Some (NMap l) -> at_value h p (VObj c) = Some (VObj a) -> a < fuel ->
  (p = [] -> getitem fuel h2 a k = Ok w) /\
  (p <> [] -> forall k', getitem fuel h2 a k' = getitem fuel (forget text h) a k').
Proof.
  intros n h c k w h2 p l a fuel E S A B L. destruct (config_member n h c E) as (r & R & W & M & P & m & N1 & N2 & Lc).
  pose proof (wf_forget h W) as WF. destruct (C46_assign (forget text h) c k w h2 WF S) as (W2 & Nk & _ & Other & Out).
  assert (Lf : length (forget text h) = length h) by apply map_length.
  assert (D2 : forall b, is_dict (forget text h) b -> is_dict h2 b).
  { intros b (mb & pb & Eb). unfold setitem in S. rewrite nth_forget, N1 in S. cbn in S. injection S as <-. unfold heap_set.
    destruct (Nat.eq_dec b c) as [->|NE].
    - exists (pd_set k w m), None. rewrite nth_error_app2; rewrite firstn_length, Nat.min_l by lia; [|lia]. now rewrite Nat.sub_diag.
    - exists mb, pb. pose proof (nth_some _ _ _ Eb). rewrite nth_error_app1 by (rewrite firstn_length; lia). rewrite nth_first by lia. exact Eb. }
  split; intros Hp.
  - subst p. cbn [at_value] in B. injection B as <-. apply (C46_lookup h2 fuel c k W2); auto. apply D2. apply is_dict_forget. eauto.
  - intros k'. rewrite P in B by exact Hp. assert (D : is_dict (forget text h) a) by (eapply mapping_dict; [exact R|exists l; eauto]).
    assert (NC : a <> c).
    { destruct p as [|s p _] using rev_ind; [congruence|]. destruct (at_parent p s h 0 None _ n _ R A) as (b & u & m' & _ & A2 & _ & A3). rewrite B in A2. injection A2 as <-.
      pose proof (rep_parent _ _ _ _ _ A3) as (o & O & PO). intros ->. rewrite N1 in O. injection O as <-. discriminate PO. }
    assert (NR : ~ reaches (forget text h) a c).
    { intros Q. apply NC. assert (G : forall x y, reaches (forget text h) x y -> y = c -> x = c); [|exact (G _ _ Q eq_refl)].
      induction 1 as [|y d x Ed Q' IH]; intros Y; auto. exfalso. apply (no_parent_last (forget text h) c WF ltac:(lia) d x Ed). now apply IH. }
    assert (Iff : forall u, nearest h2 a k' u <-> nearest (forget text h) a k' u).
    { intros u. destruct (string_dec k' k) as [->|NE]; [now apply Out|now apply Other]. }
    destruct (C46_lookup h2 fuel a k' W2 (D2 a D) L) as [X1 X2]. destruct (C46_lookup (forget text h) fuel a k' WF D L) as [Y1 Y2].
    destruct (getitem fuel (forget text h) a k') as [u|e] eqn:G.
    + apply X1, Iff, Y1. reflexivity.
    + destruct (getitem_dict (forget text h) fuel a k' WF L D) as [(u & U & _)|[U NU]]; [congruence|]. rewrite G in U. injection U as ->. apply X2. intros u Q. apply (NU u). now apply Iff.
Qed.

(** ** Writing *)
Fixpoint norm (n : node T) : node T :=
  match n with
  | NScalar s => NScalar s
  | NMap l => NMap (assign (map (fun e => (fst e, norm (snd e))) l))
  | NSeq l => NSeq (map norm l)
  end.
Definition std_map (f : nat) h := fix loop (m : list (string * value T)) : option (list (string * node T)) :=
  match m with
  | [] => Some []
  | (k, w) :: m' => match standard f h w, loop m' with Some c, Some r => Some ((k, c) :: r) | _, _ => None end
  end.
Definition std_seq (f : nat) h := fix loop (l : list (value T)) : option (list (node T)) :=
  match l with
  | [] => Some []
  | w :: l' => match standard f h w, loop l' with Some c, Some r => Some (c :: r) | _, _ => None end
  end.
Lemma standard_obj : forall f h a, standard (S f) h (VObj a) = match nth_error h a with
  | Some (mkL (LDict m) _) => option_map NMap (std_map f h m)
  | Some (mkL (LList l) _) => option_map NSeq (std_seq f h l)
  | None => None
  end.
Proof. reflexivity. Qed.
Definition std_entry (f : nat) h (e : string * value T) (e' : string * node T) : Prop := fst e = fst e' /\ standard f h (snd e) = Some (snd e').
Lemma std_map_ok : forall f h m m', Forall2 (std_entry f h) m m' -> std_map f h m = Some m'.
Proof.
  intros f h m m' F. induction F as [|[k w] [k' c] m m' [E1 E2] F IH]; cbn [std_map]; auto. cbn [fst snd] in *. subst k'. now rewrite E2, IH.
Qed.
Lemma std_seq_ok : forall f h l l', Forall2 (fun w c => standard f h w = Some c) l l' -> std_seq f h l = Some l'.
Proof. intros f h l l' F. induction F as [|w c l l' E F IH]; cbn [std_seq]; auto. now rewrite E, IH. Qed.
Lemma pd_set_entries : forall f h k w c m m', standard f h w = Some c -> Forall2 (std_entry f h) m m' -> Forall2 (std_entry f h) (pd_set k w m) (pd_set k c m').
Proof.
  intros f h k w c m m' E F. induction F as [|[k1 w1] [k2 c2] m m' [E1 E2] F IH]; cbn [pd_set]; [constructor; [split; auto|constructor]|].
  cbn [fst snd] in *. subst k2. destruct (String.eqb k k1); constructor; auto; split; auto.
Qed.
Lemma assign_entries : forall f h l l', Forall2 (std_entry f h) l l' -> Forall2 (std_entry f h) (assign l) (assign l').
Proof.
  intros f h l l' F. unfold assign. assert (G : Forall2 (std_entry f h) [] []) by constructor. revert G. generalize (@nil (string * value T)). generalize (@nil (string * node T)).
  induction F as [|[k w] [k' c] l l' [E1 E2] F IH]; intros d' d G; cbn [fold_left fst snd]; auto. cbn [fst snd] in *. subst k'. apply IH. now apply pd_set_entries.
Qed.
Definition writes h v n : Prop := exists f0, forall f, f0 <= f -> standard f h v = Some (norm n).
Lemma writes_all : forall h vs cs, Forall2 (writes h) vs cs -> exists f0, forall f, f0 <= f -> Forall2 (fun w c => standard f h w = Some (norm c)) vs cs.
Proof.
  intros h vs cs F. induction F as [|w c vs cs (f1 & H1) F (f2 & H2)]; [exists 0; constructor|].
  exists (f1 + f2). intros f L. constructor; [apply H1; lia|apply H2; lia].
Qed.
Lemma std_rep : forall n h lo par v, rep h lo par v n -> writes h v n.
Proof.
  induction n as [s|l F|l F] using node_induct; intros h lo par v R; inversion R as [|? ? a l' vs La N Fr|? ? a l' vs La N Fr]; subst.
  - exists 1. intros [|f] L; [lia|]. reflexivity.
  - assert (WA : Forall2 (writes h) vs (map snd l)).
    { eapply Forall2_weaken; [|exact Fr]. eapply Forall_impl; [|exact F]. intros c IH w Rw. exact (IH _ _ _ _ Rw). }
    apply writes_all in WA as (f0 & H). exists (S f0). intros [|f] L; [lia|]. rewrite standard_obj, N. cbn [norm].
    rewrite (std_map_ok f h _ (assign (map (fun e => (fst e, norm (snd e))) l))); [reflexivity|]. apply assign_entries.
    specialize (H f ltac:(lia)). clear - H. revert vs H. induction l as [|[k c] l IH]; intros vs H; inversion H as [|w ? vs' ? E H' E1 E2]; subst; cbn [map combine fst snd]; constructor; auto.
    split; auto.
  - assert (WA : Forall2 (writes h) vs l).
    { eapply Forall2_weaken; [|exact Fr]. eapply Forall_impl; [|exact F]. intros c IH w Rw. exact (IH _ _ _ _ Rw). }
    apply writes_all in WA as (f0 & H). exists (S f0). intros [|f] L; [lia|]. rewrite standard_obj, N. cbn [norm].
    rewrite (std_seq_ok f h _ (map norm l)); [reflexivity|]. specialize (H f ltac:(lia)). clear - H. induction H; cbn [map]; constructor; auto.
Qed.
Lemma find_rev_nodup : forall k (l : list (string * node T)), NoDup (map fst l) -> option_map snd (find (fun e => String.eqb k (fst e)) (rev l)) = pd_get k l.
Proof. intros k l N. rewrite <- assign_get. now rewrite assign_nodup. Qed.
Lemma assign_unique : forall {V} (l : list (string * V)), NoDup (map fst (assign l)).
Proof. intros V l. induction l as [|[k v] l IH] using rev_ind; [constructor|]. rewrite assign_snoc. now apply pd_set_nodup. Qed.
Lemma find_norm : forall k (l : list (string * node T)), find (fun e => String.eqb k (fst e)) (map (fun e => (fst e, norm (snd e))) l) =
  option_map (fun e => (fst e, norm (snd e))) (find (fun e => String.eqb k (fst e)) l).
Proof. intros k. induction l as [|[k' c] l IH]; cbn [map find fst snd]; auto. destruct (String.eqb k k'); auto. Qed.
Lemma child_norm : forall s n, child s (norm n) = option_map norm (child s n).
Proof.
  intros [k|i] [t|l|l]; cbn [norm child]; auto.
  - unfold under. rewrite find_rev_nodup by apply assign_unique. rewrite assign_get, <- map_rev, find_norm. destruct (find _ (rev l)) as [e|]; reflexivity.
  - now rewrite nth_error_map.
Qed.
Lemma at_norm : forall p n, at_node p (norm n) = option_map norm (at_node p n).
Proof.
  induction p as [|s p IH]; intros n; cbn [at_node]; auto. rewrite child_norm. destruct (child s n); cbn [option_map]; auto.
Qed.
(** What is to be written has the same places with the same scalars; of keys
    given several times one is left. *)
Definition alike (m m' : node T) : Prop :=
  match m, m' with
  | NScalar s, NScalar s' => s = s'
  | NMap l, NMap l' => NoDup (map fst l') /\ (forall k, In k (map fst l') <-> In k (map fst l)) /\ (NoDup (map fst l) -> map fst l' = map fst l)
  | NSeq l, NSeq l' => length l = length l'
  | _, _ => False
  end.
Theorem C78_standard : forall n h c, load_config n = Ok (h, c) ->
  exists n' f0, (forall f, f0 <= f -> standard f h (VObj c) = Some n') /\
  forall p, match at_node p n, at_node p n' with
            | Some m, Some m' => alike m m'
            | None, None => True
            | _, _ => False
            end.
Proof.
  intros n h c E. destruct (config_member n h c E) as (a & R & W & _ & _ & m & N1 & N2 & _).
  destruct (std_rep n h 0 None (VObj a) R) as (f0 & H). exists (norm n), (S f0). split.
  - intros [|f] L; [lia|]. rewrite <- (H (S f)) by lia. rewrite !standard_obj, N1, N2. reflexivity.
  - intros p. rewrite at_norm. destruct (at_node p n) as [q|]; cbn [option_map]; auto. destruct q as [s|l|l]; cbn [norm alike]; auto.
    + split; [apply assign_unique|]. assert (K : map fst (map (fun e : string * node T => (fst e, norm (snd e))) l) = map fst l) by (rewrite map_map; reflexivity).
      split; [intros k; now rewrite assign_keys, K|]. intros ND. rewrite assign_nodup by (now rewrite K). exact K.
    + now rewrite map_length.
Qed.
End C78.

(** a: 1; sub: [{b: 2}, 5]; top: {a: 7}; a given once more *)
Local Open Scope string_scope.
Definition doc78 : node nat :=
  NMap [("a", NScalar 1); ("sub", NSeq [NMap [("b", NScalar 2)]; NScalar 5]); ("top", NMap [("a", NScalar 7)]); ("a", NScalar 3)].
Definition heap78 : lheap nat :=
  [mkL (LDict [("a", VScalar 3); ("sub", VObj 1); ("top", VObj 3)]) None; mkL (LList [VObj 2; VScalar 5]) (Some 0);
   mkL (LDict [("b", VScalar 2)]) (Some 1); mkL (LDict [("a", VScalar 7)]) (Some 0)].
Example C78_ex_load : construct doc78 [] = (VObj 0, heap78) /\
  load_config doc78 = Ok ((heap78 ++ [mkL (LDict [("a", VScalar 3); ("sub", VObj 1); ("top", VObj 3)]) None])%list, 4).
Proof. vm_compute. split; reflexivity. Qed.
Definition nt78 (s : nat) : option string := None.
Example C78_ex_lookup : forall h, load_config doc78 = Ok (h, 4) ->
  at_value h [Key "sub"; Item 0] (VObj 4) = Some (VObj 2) /\
  innermost doc78 "a" [Key "sub"; Item 0] [] /\ getitem 5 (forget nt78 h) 2 "a" = Ok (VScalar 3) /\
  getitem 5 (forget nt78 h) 3 "a" = Ok (VScalar 7) /\ getitem 5 (forget nt78 h) 2 "c" = Err KeyError.
Proof.
  intros h E. vm_compute in E. injection E as <-. split; [reflexivity|]. split; [|repeat split; vm_compute; reflexivity].
  split; [now exists [Key "sub"; Item 0]|]. split; [exists [("a", NScalar 1); ("sub", NSeq [NMap [("b", NScalar 2)]; NScalar 5]); ("top", NMap [("a", NScalar 7)]); ("a", NScalar 3)]; split; [reflexivity|now left]|].
  intros q' [r Q] (l & A & I). destruct q' as [|s1 [|s2 [|s3 q']]]; [now exists []|exfalso|exfalso|exfalso].
  - injection Q as <- _. vm_compute in A. discriminate A.
  - injection Q as <- <- _. vm_compute in A. injection A as <-. destruct I as [I|[]]. discriminate I.
  - discriminate Q.
Qed.
(** After config["a"] = 9 the dictionary in the list still sees 3. *)
Example C78_ex_detached : forall h, load_config doc78 = Ok (h, 4) -> exists h2, setitem (forget nt78 h) 4 "a" (VScalar 9) = Ok h2 /\
  getitem 5 h2 4 "a" = Ok (VScalar 9) /\ getitem 5 h2 2 "a" = Ok (VScalar 3).
Proof. intros h E. vm_compute in E. injection E as <-. eexists. split; [vm_compute; reflexivity|]. split; vm_compute; reflexivity. Qed.
Example C78_ex_standard : forall h, load_config doc78 = Ok (h, 4) -> standard 4 h (VObj 4) =
  Some (NMap [("a", NScalar 3); ("sub", NSeq [NMap [("b", NScalar 2)]; NScalar 5]); ("top", NMap [("a", NScalar 7)])]).
Proof. intros h E. vm_compute in E. injection E as <-. vm_compute. reflexivity. Qed.
Print Assumptions C78_same.
Print Assumptions C78_parent.
Print Assumptions C78_lookup.
Print Assumptions C78_mapping.
Print Assumptions C78_config.
Print Assumptions C78_config_lookup.
Print Assumptions C78_detached.
Print Assumptions C78_standard.
