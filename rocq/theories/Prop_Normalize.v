(** C57: the names of a measurement are normalized without touching data. *)
From Coq Require Import Ascii String List Arith ZArith Bool Lia Permutation.
From Verif Require Import Model_NdArray Proofs_NdArray Model_Dim Model_Array Spec_Array Proofs_Array
  Model_DataDict Spec_DataDict Proofs_DataDict Model_Text Model_Block Proofs_Block Proofs_Block2 Proofs_Block3 Prop_Array Prop_Block
  Model_Normalize Spec_Normalize Proofs_Normalize.
Import ListNotations.
Local Open Scope nat_scope.
Local Open Scope string_scope.
Local Open Scope list_scope.

(** ** The table *)
Lemma table_standard : forall n m, In (n, m) trtable -> standard n m.
Proof.
  intros n m H. unfold trtable in H. cbn [In] in H.
  repeat destruct H as [H|H]; try contradiction; injection H as <- <-.
  - apply (st_raw "b" "a" "1" "1"); simpl; auto.
  - apply (st_raw "b" "a" "1" "2"); simpl; auto.
  - apply (st_raw "b" "a" "2" "1"); simpl; auto.
  - apply (st_raw "b" "a" "2" "2"); simpl; auto.
  - apply (st_wave "1" " raw"); simpl; auto.
  - apply (st_waves "1" "2" " raw"); simpl; auto.
  - apply (st_waves "2" "1" " raw"); simpl; auto.
  - apply (st_wave "2" " raw"); simpl; auto.
  - apply (st_ratio "b" "a" "1" "1"); simpl; auto.
  - apply (st_ratio "b" "a" "1" "2"); simpl; auto.
  - apply (st_ratio "b" "a" "2" "1"); simpl; auto.
  - apply (st_ratio "b" "a" "2" "2"); simpl; auto.
  - apply (st_wave "1" ""); simpl; auto.
  - apply (st_waves "1" "2" ""); simpl; auto.
  - apply (st_waves "2" "1" ""); simpl; auto.
  - apply (st_wave "2" ""); simpl; auto.
  - apply st_freq; simpl; auto.
  - apply st_freq; simpl; auto.
  - apply st_freq; simpl; auto.
Qed.
Lemma standard_table : forall n m, standard n m -> In (n, m) trtable.
Proof.
  intros n m H. destruct H as [x y i j X I J|x y i j X I J|i r I R|i j r I R|n H];
    repeat match goal with
    | H : In _ (_ :: _) |- _ => destruct H as [H|H]
    | H : In _ [] |- _ => destruct H
    | H : (_, _) = (_, _) |- _ => injection H as <- <-
    | H : _ = ?v |- _ => is_var v; subst v
    end; simpl; tauto.
Qed.
Definition old_names := map fst trtable.
Lemma old_NoDup : NoDup old_names.
Proof. unfold old_names. cbn [trtable map fst]. repeat (apply NoDup_cons; [simpl; intuition discriminate|]). apply NoDup_nil. Qed.
Lemma new_not_old : forall n m, standard n m -> ~ In m old_names.
Proof. intros n m H. apply standard_table in H. unfold trtable in H. cbn [In] in H. repeat destruct H as [H|H]; try contradiction; injection H as <- <-; unfold old_names; simpl; intuition discriminate. Qed.
Lemma standard_fun : forall n m m', standard n m -> standard n m' -> m = m'.
Proof.
  intros n m m' H H'. apply standard_table in H, H'. pose proof old_NoDup as ND. unfold old_names in ND. induction trtable as [|[a c] l IH]; [destruct H|].
  cbn [map fst] in ND. apply NoDup_cons_iff in ND as [N1 N2].
  assert (K : forall x, In (a, x) l -> False) by (intros x I; apply N1; apply in_map_iff; exists (a, x); auto).
  destruct H as [H|H], H' as [H'|H'].
  - congruence.
  - injection H as <- <-. exfalso. eauto.
  - injection H' as <- <-. exfalso. eauto.
  - auto.
Qed.

Lemma standard_get : forall n m, standard n m -> pd_get n trtable = Some m.
Proof.
  intros n m H. apply standard_table in H. unfold trtable in H. cbn [In] in H. repeat destruct H as [H|H]; try contradiction; injection H as <- <-; reflexivity.
Qed.

(** ** The regular expression *)
Lemma span_app : forall a l, forallb is_word a = true -> span_word (a ++ "("%char :: l) = (a, "("%char :: l).
Proof. induction a as [|c a IH]; intros l H; [reflexivity|]. cbn [forallb] in H. apply andb_prop in H as [H1 H2]. cbn [app span_word]. rewrite H1, IH; auto. Qed.
Lemma span_split : forall l a r, span_word l = (a, r) -> l = a ++ r.
Proof.
  induction l as [|c l IH]; intros a r H; [injection H as <- <-; reflexivity|]. cbn [span_word] in H. destruct (is_word c); [|injection H as <- <-; reflexivity].
  destruct (span_word l) as [a' r'] eqn:E. injection H as <- <-. cbn. f_equal. now apply IH.
Qed.
Lemma chars_append : forall s t, chars (String.append s t) = chars s ++ chars t.
Proof. intros s t. unfold chars. induction s as [|c s IH]; simpl; auto. now rewrite IH. Qed.
Lemma of_chars : forall s, string_of_list_ascii (chars s) = s.
Proof. exact string_of_list_ascii_of_string. Qed.
Lemma chars_of : forall l, chars (string_of_list_ascii l) = l.
Proof. exact list_ascii_of_string_of_list_ascii. Qed.
Lemma chars_inj : forall s t, chars s = chars t -> s = t.
Proof. intros s t E. rewrite <- (of_chars s), <- (of_chars t). now rewrite E. Qed.

Lemma existsb_newline : forall l, existsb (Ascii.eqb newline) l = true <-> In (ascii_of_nat 10) l.
Proof.
  intros l. rewrite existsb_exists. split; [intros [c [I E]]; apply Ascii.eqb_eq in E; now subst|intros I]. exists (ascii_of_nat 10). split; auto.
Qed.
Lemma match_in : forall f s body, f <> "" -> forallb is_word (chars f) = true -> encloses f s body -> match_enclosing (chars s) = Some (chars f, chars body).
Proof.
  intros f s body Nf Wf [-> [Nb Nl]]. rewrite !chars_append. change (chars "(") with ["("%char]. change (chars ")") with [")"%char].
  unfold match_enclosing. cbn [app]. rewrite span_app by auto. destruct (chars f) as [|c f'] eqn:Ef; [exfalso; apply Nf; apply chars_inj; auto|].
  rewrite rev_app_distr. cbn [rev app]. destruct (rev (chars body)) as [|c' l] eqn:Er.
  { exfalso. apply Nb. apply chars_inj. apply (f_equal (@rev _)) in Er. rewrite rev_involutive in Er. rewrite Er. reflexivity. }
  assert (Eb : rev (c' :: l) = chars body) by (rewrite <- Er; apply rev_involutive).
  destruct (existsb (Ascii.eqb newline) (c' :: l)) eqn:X.
  { exfalso. apply existsb_newline in X. apply Nl. rewrite <- Eb. now apply -> in_rev. }
  cbn [rev] in Eb. now rewrite Eb.
Qed.
Lemma match_out : forall s f body, match_enclosing (chars s) = Some (f, body) -> encloses (string_of_list_ascii f) s (string_of_list_ascii body).
Proof.
  intros s f body H. unfold match_enclosing in H. destruct (span_word (chars s)) as [a r] eqn:Es. destruct a as [|c a]; [discriminate|].
  apply span_split in Es. destruct r as [|p r]; [discriminate|]. destruct (ascii_dec p "("%char) as [->|Np].
  2: { destruct p as [[] [] [] [] [] [] [] []]; try discriminate; exfalso; apply Np; reflexivity. }
  destruct (rev r) as [|q rr] eqn:Er; [discriminate|]. destruct (ascii_dec q ")"%char) as [->|Nq].
  2: { destruct q as [[] [] [] [] [] [] [] []]; try discriminate; exfalso; apply Nq; reflexivity. }
  destruct rr as [|b0 bb]; [discriminate|]. destruct (existsb (Ascii.eqb newline) (b0 :: bb)) eqn:X; [discriminate|]. injection H as <- <-.
  assert (Er' : r = rev (b0 :: bb) ++ [")"%char]). { apply (f_equal (@rev _)) in Er. rewrite rev_involutive in Er. rewrite Er. cbn [rev]. reflexivity. }
  split; [|split].
  - apply chars_inj. rewrite Es, !chars_append, !chars_of. rewrite Er'. reflexivity.
  - intros E. apply (f_equal chars) in E. rewrite chars_of in E. cbn [rev] in E. destruct (rev bb); discriminate.
  - rewrite chars_of. intros I. change (In (ascii_of_nat 10) (rev (b0 :: bb))) in I. apply in_rev in I. apply existsb_newline in I. congruence.
Qed.
Lemma unwrap_ok : forall f pre n m, f <> "" -> forallb is_word (chars f) = true -> (unwrap f pre n m <-> m = remove_enclosing f pre n).
Proof.
  intros f pre n m Nf Wf. unfold remove_enclosing. split.
  - intros [[body [E ->]]|[E ->]].
    + rewrite (match_in _ _ _ Nf Wf E), !of_chars, String.eqb_refl. reflexivity.
    + destruct (match_enclosing (chars n)) as [[f' body]|] eqn:M; auto. destruct (String.eqb_spec (string_of_list_ascii f') f) as [<-|]; auto.
      exfalso. apply (E (string_of_list_ascii body)). now apply match_out.
  - intros ->. destruct (match_enclosing (chars n)) as [[f' body]|] eqn:M.
    + destruct (String.eqb_spec (string_of_list_ascii f') f) as [<-|Ne].
      * left. exists (string_of_list_ascii body). split; auto. now apply match_out.
      * right. split; auto. intros body' E. rewrite (match_in _ _ _ Nf Wf E) in M. injection M as <- _. apply Ne. apply of_chars.
    + right. split; auto. intros body' E. rewrite (match_in _ _ _ Nf Wf E) in M. discriminate.
Qed.

Section N.
  Context {A : Type}.
  Implicit Types b : block A.

  Lemma in_block_names : forall n b, BInv b -> (in_block n b <-> In n (names b)).
  Proof. intros n b [H1 [H2 _]]. unfold in_block, names. rewrite in_app_iff, !contains_keys by auto. reflexivity. Qed.

  (** ** The loop over the table *)
  Definition tname (tr : list (string * string)) b (n : string) : string :=
    match pd_get n tr with Some new => if b_contains new b then n else new | None => n end.
  Lemma pd_get_app : forall {V} (l m : list (string * V)) k, pd_get k (l ++ m) = match pd_get k l with Some v => Some v | None => pd_get k m end.
  Proof. induction l as [|[k' v] l IH]; intros m k; simpl; auto. destruct (String.eqb k k'); auto. Qed.
  Lemma pd_get_In : forall {V} (l : list (string * V)) k v, pd_get k l = Some v -> In (k, v) l.
  Proof. induction l as [|[k' w] l IH]; simpl; intros k v H; [discriminate|]. destruct (String.eqb_spec k k'); [left; congruence|right; auto]. Qed.

  Lemma table_loop : forall b, WF b -> no_rivals b -> forall tr dn out,
    NoDup (map fst (dn ++ tr)) -> (forall p, In p (dn ++ tr) -> In p trtable) -> WF out -> ren (tname dn b) (tname dn b) b out ->
    exists b', rename_table tr b out = Ok b' /\ WF b' /\ ren (tname (dn ++ tr) b) (tname (dn ++ tr) b) b b'.
  Proof.
    intros b W NR. pose proof W as [HB _]. induction tr as [|[old new] tr IH]; intros dn out ND HT Wo R.
    { exists out. rewrite app_nil_r. auto. }
    assert (HT0 : standard old new) by (apply table_standard, HT, in_or_app; right; now left).
    assert (Nd : pd_get old dn = None).
    { apply pd_get_none. intros I. unfold keys in I. rewrite map_app in ND. cbn [map fst] in ND. apply NoDup_remove_2 in ND. apply ND, in_or_app. now left. }
    assert (Eapp : dn ++ (old, new) :: tr = (dn ++ [(old, new)]) ++ tr) by (rewrite <- app_assoc; reflexivity).
    (* the new name of everything but [old] is unchanged *)
    assert (T1 : forall n, n <> old -> tname (dn ++ [(old, new)]) b n = tname dn b n).
    { intros n N. unfold tname. rewrite pd_get_app. destruct (pd_get n dn); auto. cbn. destruct (String.eqb_spec n old); congruence. }
    assert (T2 : tname (dn ++ [(old, new)]) b old = if b_contains new b then old else new).
    { unfold tname. rewrite pd_get_app, Nd. cbn. now rewrite String.eqb_refl. }
    assert (T3 : tname dn b old = old) by (unfold tname; now rewrite Nd).
    assert (T4 : forall n, tname dn b n = n \/ (exists t, tname dn b n = t /\ standard n t /\ b_contains t b = false)).
    { intros n. unfold tname. destruct (pd_get n dn) as [t|] eqn:E; auto. destruct (b_contains t b) eqn:C; auto. right. exists t. split; auto. split; auto.
      apply table_standard, HT, in_or_app. left. now apply pd_get_In. }
    assert (T5 : forall n, In n (names b) -> tname dn b n = old -> n = old).
    { intros n I E. destruct (T4 n) as [F|[t [F [S1 _]]]]; [congruence|]. exfalso. apply (new_not_old _ _ S1). rewrite <- F, E. unfold old_names. apply in_map_iff. exists (old, new). split; auto. now apply standard_table. }
    cbn [rename_table]. rewrite Eapp in *.
    destruct (b_contains old b && b_contains new b) eqn:C.
    - apply andb_prop in C as [C1 C2]. apply IH; auto.
      assert (EX : forall n, tname dn b n = tname (dn ++ [(old, new)]) b n).
      { intros n. destruct (string_dec n old) as [->|N]; [rewrite T2, C2, T3; auto|symmetry; now apply T1]. }
      apply (ren_ext (tname dn b) (tname dn b)); auto.
    - assert (HN : ~ In new (names out) \/ ~ In old (names out)).
      { rewrite (ren_names _ _ _ R). destruct (b_contains old b) eqn:C1.
        - cbn in C. left. intros I. apply in_map_iff in I as [n [E I]].
          assert (Nn : ~ In new (names b)). { intros K. apply contains_names in K; auto. congruence. }
          destruct (T4 n) as [F|[t [F [S1 S2]]]]; [congruence|].
          assert (Et : t = new) by congruence. rewrite Et in *.
          assert (En : n = old).
          { apply (NR n old new); [exact S1|exact HT0|now apply in_block_names|apply in_block_names; [exact HB|now apply contains_names]|]. intros K. apply in_block_names in K; auto. }
          subst n. rewrite T3 in F. apply Nn. rewrite <- F. now apply contains_names.
        - right. intros I. apply in_map_iff in I as [n [E I]]. assert (n = old) by (now apply T5). subst n. apply contains_names in I; auto. congruence. }
      destruct (rename_step old new out Wo HN) as [o1 [R1 [W1 N1]]]. rewrite R1. cbn [bind]. apply IH; auto.
      assert (EX : forall n, In n (names b) -> sub old new (tname dn b n) = tname (dn ++ [(old, new)]) b n).
      { intros n I. unfold sub. destruct (String.eqb_spec old (tname dn b n)) as [E|E].
        - symmetry in E. apply T5 in E; auto. subst n. rewrite T2. apply contains_names in I; auto. rewrite I in C. cbn in C. now rewrite C.
        - symmetry. apply T1. intros ->. now rewrite T3 in E. }
      apply (ren_ext (fun n => sub old new (tname dn b n)) (fun n => sub old new (tname dn b n))); auto.
      + intros n I. apply EX. unfold names. apply in_or_app. now left.
      + intros n I. apply EX. unfold names. apply in_or_app. now right.
      + eapply ren_comp; [exact R|exact N1].
  Qed.

  Lemma tname_target : forall b tr n m, BInv b -> Permutation tr trtable -> target b n m -> m = tname tr b n.
  Proof.
    intros b tr n m HB P [T1 [T2 T3]]. unfold tname. destruct (pd_get n tr) as [new|] eqn:E.
    - apply pd_get_In in E. apply (Permutation_in _ P) in E. apply table_standard in E. destruct (b_contains new b) eqn:C.
      + apply (T1 new); auto. apply in_block_names; auto. now apply contains_names.
      + apply T2; auto. intros K. apply in_block_names in K; auto. apply contains_names in K; auto. congruence.
    - apply T3. intros new K. apply standard_table in K. apply (Permutation_in _ (Permutation_sym P)) in K. apply pd_get_none in E. apply E. unfold keys. apply in_map_iff. exists (n, new). auto.
  Qed.
  Lemma table_stage : forall b tr, WF b -> no_rivals b -> Permutation tr trtable ->
    exists b', rename_table tr b b = Ok b' /\ WF b' /\ ren (tname tr b) (tname tr b) b b'.
  Proof.
    intros b tr W NR P. destruct (table_loop b W NR tr [] b) as [b' H]; auto.
    - cbn. apply (Permutation_NoDup (l := old_names)); [|apply old_NoDup]. apply Permutation_map. now apply Permutation_sym.
    - cbn. intros p I. now apply (Permutation_in _ P).
    - apply ren_id.
    - exists b'. exact H.
  Qed.

  (** ** The loops over the variables *)
  Definition partly (F : string -> string) (dn : list string) (n : string) : string := if l_in n dn then F n else n.
  Lemma fun_loop : forall (F : string -> string) b, WF b ->
    (forall n, In n (keys (dabs (b_var b))) -> F n <> n -> ~ In (F n) (names b)) ->
    (forall n m, In n (keys (dabs (b_var b))) -> In m (keys (dabs (b_var b))) -> F n = F m -> n = m) ->
    forall ks dn out, dn ++ ks = keys (dabs (b_var b)) -> WF out -> ren (partly F dn) (fun n => n) b out ->
    exists b', rename_functions F ks out = Ok b' /\ WF b' /\ ren (partly F (dn ++ ks)) (fun n => n) b b'.
  Proof.
    intros F b W F1 F2. pose proof W as [HB [O1 [O2 O3]]]. pose proof HB as [H1 [H2 H3]].
    pose proof (abs_NoDup _ H1) as NDv.
    induction ks as [|k ks IH]; intros dn out E Wo R. { exists out. rewrite app_nil_r. auto. }
    assert (Eapp : dn ++ k :: ks = (dn ++ [k]) ++ ks) by (rewrite <- app_assoc; reflexivity).
    assert (Kv : In k (keys (dabs (b_var b)))) by (rewrite <- E; apply in_or_app; right; now left).
    assert (Kd : ~ In k dn). { intros I. rewrite <- E in NDv. apply NoDup_remove_2 in NDv. apply NDv, in_or_app. now left. }
    assert (Kd' : l_in k dn = false) by now apply l_in_false.
    assert (Dv : forall n, In n dn -> In n (keys (dabs (b_var b)))) by (intros n I; rewrite <- E; apply in_or_app; now left).
    assert (P1 : forall n, n <> k -> partly F (dn ++ [k]) n = partly F dn n).
    { intros n N. unfold partly, l_in. rewrite existsb_app. cbn. destruct (String.eqb_spec n k); [contradiction|]. now rewrite !orb_false_r. }
    assert (P2 : partly F (dn ++ [k]) k = F k).
    { unfold partly. assert (L : l_in k (dn ++ [k]) = true) by (apply l_in_In, in_or_app; right; now left). now rewrite L. }
    assert (P3 : partly F dn k = k) by (unfold partly; now rewrite Kd').
    cbn [rename_functions]. rewrite Eapp in *. destruct (String.eqb_spec (F k) k) as [Ek|Ek].
    - apply IH; auto. apply (ren_ext (partly F dn) (fun n => n)); auto. intros n I. destruct (string_dec n k) as [->|N]; [now rewrite P2, P3|symmetry; now apply P1].
    - assert (Nb : ~ In (F k) (names b)) by now apply F1.
      assert (Nv : ~ In (F k) (keys (dabs (b_var out)))).
      { rewrite (ren_keys_v _ _ _ _ R). intros I. apply in_map_iff in I as [n [En I]]. unfold partly in En. destruct (l_in n dn) eqn:L.
        - apply l_in_In in L. apply F2 in En; auto. now subst.
        - apply Nb. unfold names. rewrite <- En. apply in_or_app. now left. }
      assert (Ni : ~ In (F k) (keys (dabs (b_ivar out)))).
      { rewrite (ren_keys_i _ _ _ _ R), map_id. intros I. apply Nb. unfold names. apply in_or_app. now right. }
      destruct (dd_contains (F k) (b_var out)) eqn:C. { exfalso. apply Nv. apply contains_keys; auto. apply Wo. }
      assert (HN : ~ In (F k) (names out) \/ ~ In k (names out)). { left. unfold names. intros I. apply in_app_or in I as [I|I]; auto. }
      destruct (rename_step k (F k) out Wo HN) as [o1 [R1 [W1 N1]]]. rewrite R1. cbn [bind]. apply IH; auto.
      apply (ren_ext (fun n => sub k (F k) (partly F dn n)) (fun n => sub k (F k) n)); auto.
      + intros n I. unfold sub. destruct (String.eqb_spec k (partly F dn n)) as [Q|Q].
        * assert (n = k). { unfold partly in Q. destruct (l_in n dn) eqn:L; auto. destruct (string_dec (F n) n) as [Z|Z]; [congruence|].
            exfalso. apply (F1 n I Z). rewrite <- Q. unfold names. apply in_or_app. now left. }
          subst n. now rewrite P2.
        * symmetry. apply P1. intros ->. now rewrite P3 in Q.
      + intros n I. unfold sub. destruct (String.eqb_spec k n) as [<-|]; auto. exfalso. apply contains_keys in Kv; auto. apply O1 in Kv. apply contains_keys in I; auto. congruence.
      + eapply (ren_comp (partly F dn) (fun n => n)); [exact R|exact N1].
  Qed.
  Lemma iter_keys : forall {V} (d : ddict V), Inv d -> dd_iter d = keys (dabs d).
  Proof. intros V d H. now rewrite Inv_iter, keys_abs. Qed.
  Lemma fun_stage : forall (F : string -> string) b, WF b ->
    (forall n, In n (keys (dabs (b_var b))) -> F n <> n -> ~ In (F n) (names b)) ->
    (forall n m, In n (keys (dabs (b_var b))) -> In m (keys (dabs (b_var b))) -> F n = F m -> n = m) ->
    exists b', rename_functions F (dd_iter (b_var b)) b = Ok b' /\ WF b' /\ ren F (fun n => n) b b'.
  Proof.
    intros F b W F1 F2. rewrite iter_keys by apply W. destruct (fun_loop F b W F1 F2 (keys (dabs (b_var b))) [] b) as [b' [R1 [R2 R3]]]; auto.
    { apply (ren_ext (fun n => n) (fun n => n)); auto. apply ren_id. }
    exists b'. split; auto. split; auto. apply (ren_ext (partly F ([] ++ keys (dabs (b_var b)))) (fun n => n)); auto.
    intros n I. unfold partly. cbn [app]. apply l_in_In in I. now rewrite I.
  Qed.

  (** The loops never end in anything but success or the ValueError, and end in
      the error if the name wanted is that of a variable that stays. *)
  Lemma fun_total : forall (F : string -> string) ks (out : block A), NoDup ks -> Inv (b_var out) ->
    (forall k, In k ks -> dd_contains k (b_var out) = true /\ dd_contains k (b_ivar out) = false) ->
    (exists b', rename_functions F ks out = Ok b') \/ rename_functions F ks out = Err ValueError.
  Proof.
    intros F. induction ks as [|k ks IH]; intros out ND H K; [left; eexists; reflexivity|]. apply NoDup_cons_iff in ND as [N1 N2]. cbn [rename_functions].
    destruct (String.eqb (F k) k); [apply IH; auto; intros; apply K; now right|]. destruct (dd_contains (F k) (b_var out)) eqn:C; [right; reflexivity|].
    destruct (K k) as [K1 K2]; [now left|]. unfold b_rename.
    destruct (pd_get k (dd_map (b_ivar out))) eqn:E. { unfold dd_contains, pd_has in K2. now rewrite E in K2. }
    rewrite K1. destruct (rename_total k (F k) (b_var out) H K1) as [v R]. rewrite R. cbn [bind].
    destruct (rename_get _ _ _ _ H R) as [I1 [w [_ I3]]]. apply IH; auto.
    intros k' I. destruct (K k') as [J1 J2]; [now right|]. split; auto. cbn [b_var]. apply contains_get. rewrite I3.
    destruct (String.eqb_spec k' (F k)); [eauto|]. destruct (String.eqb_spec k' k); [subst; contradiction|]. now apply contains_get.
  Qed.
  Lemma fun_clash : forall (F : string -> string) ks (out : block A) n m, NoDup ks -> Inv (b_var out) ->
    (forall k, In k ks -> dd_contains k (b_var out) = true /\ dd_contains k (b_ivar out) = false) ->
    In n ks -> F n = m -> m <> n -> F m = m -> dd_contains m (b_var out) = true ->
    rename_functions F ks out = Err ValueError.
  Proof.
    intros F. induction ks as [|k ks IH]; intros out n m ND H K I En N Em C; [destruct I|]. apply NoDup_cons_iff in ND as [N1 N2]. cbn [rename_functions].
    destruct (string_dec k n) as [->|Nk].
    - rewrite En. destruct (String.eqb_spec m n); [contradiction|]. now rewrite C.
    - destruct I as [I|I]; [contradiction|]. destruct (String.eqb_spec (F k) k) as [Q|Q]; [eapply IH; eauto; intros; apply K; now right|].
      destruct (dd_contains (F k) (b_var out)) eqn:D; [reflexivity|]. destruct (K k) as [K1 K2]; [now left|]. unfold b_rename.
      destruct (pd_get k (dd_map (b_ivar out))) eqn:E. { unfold dd_contains, pd_has in K2. now rewrite E in K2. }
      rewrite K1. destruct (rename_total k (F k) (b_var out) H K1) as [v R]. rewrite R. cbn [bind].
      destruct (rename_get _ _ _ _ H R) as [I1 [w [_ I3]]].
      assert (KEEP : forall k', k' <> k -> dd_contains k' (b_var out) = true -> dd_contains k' v = true).
      { intros k' Nk' J. apply contains_get. rewrite I3. destruct (String.eqb_spec k' (F k)); [eauto|]. destruct (String.eqb_spec k' k); [contradiction|]. now apply contains_get. }
      apply (IH _ n m); auto.
      + intros k' J. destruct (K k') as [J1 J2]; [now right|]. split; auto. cbn [b_var]. apply KEEP; auto. intros ->. contradiction.
      + cbn [b_var]. apply KEEP; auto. intros ->. congruence.
  Qed.

  Lemma brun_WF : forall (lab : A -> label) os, orderly (brun lab os) -> WF (brun lab os).
  Proof. intros lab os H. split; auto. apply brun_BInv. Qed.
  Lemma word_mean : forallb is_word (chars "Mean") = true. Proof. reflexivity. Qed.
  Lemma word_std : forallb is_word (chars "Std") = true. Proof. reflexivity. Qed.
  Lemma mean_ok : forall n m, unwrap "Mean" "" n m -> m = meantr n.
  Proof. intros n m H. apply unwrap_ok in H; auto; discriminate. Qed.
  Lemma std_ok : forall n m, unwrap "Std" "s_" n m -> m = stdtr n.
  Proof. intros n m H. apply unwrap_ok in H; auto; discriminate. Qed.
  Lemma var_keys : forall b n, BInv b -> (dd_contains n (b_var b) = true <-> In n (keys (dabs (b_var b)))).
  Proof. intros b n [H _]. now apply contains_keys. Qed.
  Lemma ivar_keys : forall b n, BInv b -> (dd_contains n (b_ivar b) = true <-> In n (keys (dabs (b_ivar b)))).
  Proof. intros b n [_ [H _]]. now apply contains_keys. Qed.
End N.

(** ** The claims *)

(** Standard names first: whatever the order of the table, each name that has a
    standard form gets it, nothing else changes. *)
Theorem C57_standard : forall {A} (lab : A -> label) os tr g, let b := brun lab os in orderly b -> no_rivals b -> Permutation tr trtable ->
  (forall n, in_block n b -> target b n (g n)) ->
  exists b', rename_table tr b b = Ok b' /\ renamed g g b b'.
Proof.
  intros A lab os tr g b O NR P T. pose proof (brun_WF lab os O) as W. fold b in W. pose proof W as [HB _].
  destruct (table_stage b tr W NR P) as [b' [R1 [[HB' _] R3]]]. exists b'. split; auto. apply ren_renamed; auto.
  assert (E : forall n, In n (names b) -> tname tr b n = g n). { intros n I. symmetry. apply tname_target; auto. apply T. now apply in_block_names. }
  apply (ren_ext (tname tr b) (tname tr b)); auto; intros n I; apply E; unfold names; apply in_or_app; auto.
Qed.
Print Assumptions C57_standard.

(** All of it.  [g], [u] and [v] are the names after the three stages. *)
Theorem C57_normalize : forall {A} (lab : A -> label) os tr g u v, let b := brun lab os in orderly b -> no_rivals b -> Permutation tr trtable ->
  (forall n, in_block n b -> target b n (g n)) ->
  (forall n, dd_contains n (b_var b) = true -> unwrap "Mean" "" (g n) (u n) /\ unwrap "Std" "s_" (u n) (v n)) ->
  (forall n m, dd_contains n (b_var b) = true -> u n <> g n -> in_block m b -> u n <> g m) ->
  (forall n m, dd_contains n (b_var b) = true -> dd_contains m (b_var b) = true -> u n = u m -> n = m) ->
  (forall n m, dd_contains n (b_var b) = true -> v n <> u n -> dd_contains m (b_var b) = true -> v n <> u m) ->
  (forall n i, dd_contains n (b_var b) = true -> v n <> u n -> dd_contains i (b_ivar b) = true -> v n <> g i) ->
  (forall n m, dd_contains n (b_var b) = true -> dd_contains m (b_var b) = true -> v n = v m -> n = m) ->
  exists b', normalize_names tr b = Ok b' /\ renamed v g b b'.
Proof.
  intros A lab os tr g u v b O NR P T UV U1 U2 V1 V2 V3. pose proof (brun_WF lab os O) as W. fold b in W. pose proof W as [HB _].
  destruct (table_stage b tr W NR P) as [b1 [Q1 [W1 R1]]]. pose proof W1 as [HB1 _].
  assert (E : forall n, In n (names b) -> tname tr b n = g n). { intros n I. symmetry. apply tname_target; auto. apply T. now apply in_block_names. }
  assert (Rg : ren g g b b1). { apply (ren_ext (tname tr b) (tname tr b)); auto; intros n I; apply E; unfold names; apply in_or_app; auto. }
  assert (Um : forall n, In n (keys (dabs (b_var b))) -> u n = meantr (g n)) by (intros n I; apply mean_ok, UV, var_keys; auto).
  assert (Vm : forall n, In n (keys (dabs (b_var b))) -> v n = stdtr (u n)) by (intros n I; apply std_ok, UV, var_keys; auto).
  destruct (fun_stage meantr b1 W1) as [b2 [Q2 [W2 R2]]].
  { intros n I N. rewrite (ren_keys_v _ _ _ _ Rg) in I. apply in_map_iff in I as [n0 [En I]]. rewrite (ren_names _ _ _ Rg). intros J. apply in_map_iff in J as [m [Em J]].
    apply (U1 n0 m); [apply var_keys; auto|rewrite Um by auto; congruence|apply in_block_names; auto|rewrite Um by auto; congruence]. }
  { intros n m I J Enm. rewrite (ren_keys_v _ _ _ _ Rg) in I, J. apply in_map_iff in I as [n0 [En I]]. apply in_map_iff in J as [m0 [Em J]].
    assert (n0 = m0). { apply U2; [apply var_keys; auto|apply var_keys; auto|]. rewrite !Um by auto. congruence. } congruence. }
  pose proof W2 as [HB2 _].
  assert (Ru : ren u g b b2). { apply (ren_ext (fun n => meantr (g n)) (fun n => g n)); auto. { intros n I. symmetry. now apply Um. } eapply (ren_comp g g meantr (fun n => n)); eauto. }
  destruct (fun_stage stdtr b2 W2) as [b3 [Q3 [W3 R3]]].
  { intros n I N. rewrite (ren_keys_v _ _ _ _ Ru) in I. apply in_map_iff in I as [n0 [En I]]. unfold names. rewrite (ren_keys_v _ _ _ _ Ru), (ren_keys_i _ _ _ _ Ru). intros J.
    assert (VN : v n0 <> u n0) by (rewrite Vm by auto; congruence). apply in_app_or in J as [J|J]; apply in_map_iff in J as [m [Em J]].
    - apply (V1 n0 m); [apply var_keys; auto|exact VN|apply var_keys; auto|rewrite Vm by auto; congruence].
    - apply (V2 n0 m); [apply var_keys; auto|exact VN|apply ivar_keys; auto|rewrite Vm by auto; congruence]. }
  { intros n m I J Enm. rewrite (ren_keys_v _ _ _ _ Ru) in I, J. apply in_map_iff in I as [n0 [En I]]. apply in_map_iff in J as [m0 [Em J]].
    assert (n0 = m0). { apply V3; [apply var_keys; auto|apply var_keys; auto|]. rewrite !Vm by auto. congruence. } congruence. }
  exists b3. split; [unfold normalize_names; rewrite Q1; cbn [bind]; rewrite Q2; exact Q3|].
  apply ren_renamed; [exact HB|apply W3|]. apply (ren_ext (fun n => stdtr (u n)) (fun n => g n)); auto. { intros n I. symmetry. now apply Vm. }
  eapply (ren_comp u g stdtr (fun n => n)); eauto.
Qed.
Print Assumptions C57_normalize.

(** A variable Mean(x) beside a variable x is reported, not written over. *)
Theorem C57_clash : forall {A} (lab : A -> label) os tr g n m body, let b := brun lab os in orderly b -> no_rivals b -> Permutation tr trtable ->
  (forall n, in_block n b -> target b n (g n)) ->
  dd_contains n (b_var b) = true -> encloses "Mean" (g n) body -> dd_contains m (b_var b) = true -> g m = body -> (forall inner, ~ encloses "Mean" body inner) ->
  normalize_names tr b = Err ValueError.
Proof.
  intros A lab os tr g n m body b O NR P T Cn En Cm Em NE. pose proof (brun_WF lab os O) as W. fold b in W. pose proof W as [HB _].
  destruct (table_stage b tr W NR P) as [b1 [Q1 [W1 R1]]]. pose proof W1 as [HB1 [O1 _]]. pose proof HB1 as [I1 [I2 _]].
  assert (E : forall n, In n (names b) -> tname tr b n = g n). { intros k I. symmetry. apply tname_target; auto. apply T. now apply in_block_names. }
  assert (Rg : ren g g b b1). { apply (ren_ext (tname tr b) (tname tr b)); auto; intros k I; apply E; unfold names; apply in_or_app; auto. }
  unfold normalize_names. rewrite Q1. cbn [bind]. rewrite iter_keys by auto.
  assert (Kn : In (g n) (keys (dabs (b_var b1)))). { rewrite (ren_keys_v _ _ _ _ Rg). apply in_map. now apply var_keys. }
  assert (Km : In (g m) (keys (dabs (b_var b1)))). { rewrite (ren_keys_v _ _ _ _ Rg). apply in_map. now apply var_keys. }
  assert (Fn : meantr (g n) = body). { symmetry. apply mean_ok. left. exists body. auto. }
  assert (Fm : meantr body = body). { symmetry. apply mean_ok. right. auto. }
  rewrite (fun_clash meantr (keys (dabs (b_var b1))) b1 (g n) body); auto.
  - now apply abs_NoDup.
  - intros k I. apply contains_keys in I; auto.
  - intros Q. apply (NE body). rewrite Q at 1. exact En.
  - rewrite <- Em. apply contains_keys; auto.
Qed.
Print Assumptions C57_clash.

Lemma tname_is_target : forall {A} (b : block A) n, BInv b -> target b n (tname trtable b n).
Proof.
  intros A b n HB. unfold tname. destruct (pd_get n trtable) as [t|] eqn:E.
  - apply pd_get_In in E. apply table_standard in E. split; [|split].
    + intros new S1 I. rewrite (standard_fun _ _ _ E S1). apply in_block_names in I; auto. apply contains_names in I; auto. now rewrite I.
    + intros new S1 I. rewrite (standard_fun _ _ _ E S1). destruct (b_contains new b) eqn:C; auto. exfalso. apply I. apply in_block_names; auto. now apply contains_names.
    + intros H. exfalso. exact (H t E).
  - assert (N : forall new, ~ standard n new). { intros new S1. apply standard_table in S1. apply pd_get_none in E. apply E. unfold keys. apply in_map_iff. exists (n, new). auto. }
    split; [|split]; intros; auto; exfalso; eapply N; eauto.
Qed.

(** A measurement with a frequency axis, a wave ratio, a mean and its
    uncertainty. *)
Definition dFr : dim := mkDim CDimSweep "Freq[Hz]" [LZ 10; LZ 20] (Some "Hz") None.
Definition exn : block Z := brun labZ [BSet "b1/a1 raw" (arr [dFr]); BSet "Mean(x)" (arr [dFr; dR]); BSet "Std(x)" (arr [dFr])].
Lemma exn_names : forall n, in_block n exn -> In n ["b1/a1 raw"; "Mean(x)"; "Std(x)"; "Freq[Hz]"; "rep"].
Proof. intros n H. apply in_block_names in H; [|apply brun_BInv]. exact H. Qed.
Lemma exn_vars : forall n, dd_contains n (b_var exn) = true -> In n ["b1/a1 raw"; "Mean(x)"; "Std(x)"].
Proof. intros n H. apply var_keys in H; [|apply brun_BInv]. exact H. Qed.
Lemma exn_ivars : forall n, dd_contains n (b_ivar exn) = true -> In n ["Freq[Hz]"; "rep"].
Proof. intros n H. apply ivar_keys in H; [|apply brun_BInv]. exact H. Qed.
Example C57_example : let g := tname trtable exn in let u n := meantr (g n) in let v n := stdtr (u n) in
  orderly exn /\ no_rivals exn /\
  (forall n, in_block n exn -> target exn n (g n)) /\
  (forall n, dd_contains n (b_var exn) = true -> unwrap "Mean" "" (g n) (u n) /\ unwrap "Std" "s_" (u n) (v n)) /\
  (forall n m, dd_contains n (b_var exn) = true -> u n <> g n -> in_block m exn -> u n <> g m) /\
  (forall n m, dd_contains n (b_var exn) = true -> dd_contains m (b_var exn) = true -> u n = u m -> n = m) /\
  (forall n m, dd_contains n (b_var exn) = true -> v n <> u n -> dd_contains m (b_var exn) = true -> v n <> u m) /\
  (forall n i, dd_contains n (b_var exn) = true -> v n <> u n -> dd_contains i (b_ivar exn) = true -> v n <> g i) /\
  (forall n m, dd_contains n (b_var exn) = true -> dd_contains m (b_var exn) = true -> v n = v m -> n = m) /\
  (exists b', normalize_names trtable exn = Ok b' /\ dd_iter (b_var b') = ["b11"; "x"; "s_x"] /\ dd_iter (b_ivar b') = ["freq"; "rep"]).
Proof.
  intros g u v.
  Ltac cases := repeat match goal with H : In _ (_ :: _) |- _ => destruct H as [H|H]; [subst|] | H : In _ [] |- _ => destruct H end.
  split. { split; [|split].
    - intros k H. apply exn_vars in H. cases; reflexivity.
    - intros n d H. assert (C : dd_contains n (b_ivar exn) = true) by (apply contains_get; exists d; now apply get_pd). apply exn_ivars in C.
      cases; vm_compute in H; injection H as <-; (split; [reflexivity|left; discriminate]).
    - intros k x d i H I G. assert (C : dd_contains k (b_var exn) = true) by (apply contains_get; exists x; now apply get_pd). apply exn_vars in C.
      cases; vm_compute in H; injection H as <-; cbn [h_dims In] in I; repeat destruct I as [I|I]; try contradiction; subst d; vm_compute in G; injection G as <-; auto. }
  split. { intros n m new S1 S2 I1 I2 _. apply standard_get in S1, S2. apply exn_names in I1, I2.
    cases; auto; vm_compute in S1, S2; congruence. }
  split. { intros n _. apply tname_is_target. apply brun_BInv. }
  split. { intros n _. split; apply unwrap_ok; auto; discriminate. }
  split. { intros n m I N J. apply exn_vars in I. apply exn_names in J. cases; try (exfalso; apply N; reflexivity); vm_compute; discriminate. }
  split. { intros n m I J E. apply exn_vars in I, J. cases; auto; vm_compute in E; discriminate. }
  split. { intros n m I N J. apply exn_vars in I, J. cases; try (exfalso; apply N; reflexivity); vm_compute; discriminate. }
  split. { intros n m I N J. apply exn_vars in I. apply exn_ivars in J. cases; try (exfalso; apply N; reflexivity); vm_compute; discriminate. }
  split. { intros n m I J E. apply exn_vars in I, J. cases; auto; vm_compute in E; discriminate. }
  eexists. split; [vm_compute; reflexivity|]. split; reflexivity.
Qed.
Example C57_clash_example : let b := brun labZ [BSet "Mean(x)" xFR; BSet "x" xFR] in
  encloses "Mean" "Mean(x)" "x" /\ normalize_names trtable b = Err ValueError.
Proof. split; [split; [reflexivity|split; [discriminate|simpl; intuition discriminate]]|vm_compute; reflexivity]. Qed.

(** Two names with the same standard name: only one of them survives, which one
    depends on the order of the dict. *)
Theorem C57_rivals_refuted : exists (b : block Z) tr1 tr2 b1 b2 x1 x2, Permutation tr1 trtable /\ Permutation tr2 trtable /\
  dd_contains "a1" (b_var b) = true /\ dd_contains "a1 raw" (b_var b) = true /\
  normalize_names tr1 b = Ok b1 /\ normalize_names tr2 b = Ok b2 /\
  dd_iter (b_var b1) = ["a11"] /\ dd_get "a11" (b_var b1) = Ok x1 /\ dd_get "a11" (b_var b2) = Ok x2 /\ h_nd x1 <> h_nd x2.
Proof.
  exists (brun labZ [BSet "a1" (arr [dF]); BSet "a1 raw" (arr [dR])]), trtable, (rev trtable). do 4 eexists.
  split; [apply Permutation_refl|]. split; [apply Permutation_sym, Permutation_rev|]. split; [reflexivity|]. split; [reflexivity|].
  split; [vm_compute; reflexivity|]. split; [vm_compute; reflexivity|]. split; [reflexivity|]. split; [reflexivity|]. split; [reflexivity|]. discriminate.
Qed.
Print Assumptions C57_rivals_refuted.

(** The name of a dimension is not looked at: Mean(freq) becomes a variable with
    the name of the dimension. *)
Theorem C57_dimension_refuted : exists (b b' : block Z), orderly b /\ normalize_names trtable b = Ok b' /\
  dd_contains "freq" (b_var b') = true /\ dd_contains "freq" (b_ivar b') = true.
Proof.
  exists (brun labZ [BSet "Mean(freq)" (arr [dF])]). eexists. split; [|split; [vm_compute; reflexivity|split; reflexivity]].
  split; [|split].
  - intros k H. apply var_keys in H; [|apply brun_BInv]. vm_compute in H. destruct H as [<-|[]]. reflexivity.
  - intros n d H. assert (C : In n ["freq"]). { change (In n (keys (dabs (b_ivar (brun labZ [BSet "Mean(freq)" (arr [dF])]))))). apply ivar_keys; [apply brun_BInv|]. apply contains_get. exists d. now apply get_pd. }
    destruct C as [<-|[]]. vm_compute in H. injection H as <-. split; [reflexivity|left; discriminate].
  - intros k x d i H I G. assert (C : In k ["Mean(freq)"]). { change (In k (keys (dabs (b_var (brun labZ [BSet "Mean(freq)" (arr [dF])]))))). apply var_keys; [apply brun_BInv|]. apply contains_get. exists x. now apply get_pd. }
    destruct C as [<-|[]]. vm_compute in H. injection H as <-. destruct I as [<-|[]]. vm_compute in G. injection G as <-. auto.
Qed.
Print Assumptions C57_dimension_refuted.
