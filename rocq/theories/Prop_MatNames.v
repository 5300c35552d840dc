(** Property C49: recognising the elements of a matrix. *)
From Coq Require Import Ascii String List Arith Bool Lia Permutation Sorted.
From Verif Require Import Model_Text Proofs_Text Model_Utils Model_Block Model_MatNames Proofs_MatNames.
Import ListNotations.
Local Open Scope string_scope.
Local Open Scope nat_scope.
Local Open Scope list_scope.

(** ** A matrix is found exactly if its elements fill a rectangle

    [matcher] reads a name as an element; no two of the names are read as the
    same element.  The result maps [v] to (elems, is, js) exactly if is and js
    are ascending, elems are the names of all elements of v, and they stand for
    all pairs of is and js row by row; at least two of them. *)
Theorem C49_match : forall matcher names v elems is js, NoDup names ->
  (forall n m r, In n names -> In m names -> matcher n = Some r -> matcher m = Some r -> n = m) ->
  (In (v, (elems, is, js)) (match_matrix_elements names matcher) <->
   StronglySorted lt is /\ StronglySorted lt js /\ 1 < length elems /\
   incl elems names /\ (forall n i j, In n names -> matcher n = Some (v, i, j) -> In n elems) /\
   map matcher elems = map (fun p => Some (v, fst p, snd p)) (list_prod is js)).
Proof.
  intros matcher names v elems is js ND U. unfold match_matrix_elements. cbv zeta.
  set (W := with_name matcher v names).
  assert (NW : NoDup (map place W)) by (now apply with_name_NoDup).
  rewrite in_flat_map. split.
  - intros [[w ts] [H1 H2]]. cbn [fst snd] in H2.
    destruct (matrix_elements ts) as [[[es i] j]|] eqn:E; [|destruct H2]. destruct (Nat.ltb_spec 1 (length es)) as [L|L]; [|destruct H2].
    destruct H2 as [H2|[]]. injection H2 as -> -> -> ->. apply groups_In in H1 as [H1 H2]. fold W in H1. subst ts.
    apply (matrix_elements_iff W elems is js H2 NW) in E as [S1 [S2 [l' [P [E1 E2]]]]].
    assert (HIn : forall i j n, In (i, j, n) l' <-> In n names /\ matcher n = Some (v, i, j)).
    { intros i j n. rewrite <- with_name_In. fold W. split; apply Permutation_in; [|apply Permutation_sym]; exact P. }
    split; auto. split; auto. split; auto. subst elems. split; [|split].
    + intros n Hn. apply in_map_iff in Hn as [[[i j] m] [<- Hn]]. now apply HIn in Hn.
    + intros n i j H3 H4. apply in_map_iff. exists (i, j, n). split; auto. apply HIn. auto.
    + rewrite <- E1, !map_map. apply map_ext_in. intros [[i j] n] Hn. apply HIn in Hn. cbn. tauto.
  - intros [S1 [S2 [L [H1 [H2 H3]]]]].
    assert (Len : length elems = length (list_prod is js)) by (apply (f_equal (@length _)) in H3; now rewrite !map_length in H3).
    set (l' := combine (list_prod is js) elems).
    assert (E1 : map place l' = list_prod is js).
    { unfold l', place. clear - Len. revert elems Len. generalize (list_prod is js). induction l as [|p l IH]; intros [|e es] Len; simpl in *; auto; try lia.
      f_equal. apply IH. lia. }
    assert (E2 : elems = map snd l').
    { unfold l'. clear - Len. revert elems Len. generalize (list_prod is js). induction l as [|p l IH]; intros [|e es] Len; simpl in *; auto; try lia.
      f_equal. apply IH. lia. }
    assert (M : forall i j n, In (i, j, n) l' -> matcher n = Some (v, i, j)).
    { unfold l'. clear - H3. revert elems H3. generalize (list_prod is js). induction l as [|p l IH]; intros [|e es] H3 i j n H; simpl in *; try tauto; try discriminate.
      injection H3 as H3 H4. destruct H as [H|H]; [|eapply IH; eauto]. injection H as -> ->. cbn in *. auto. }
    assert (P : Permutation l' W).
    { assert (N1 : NoDup l').
      { apply (NoDup_map_inv place). rewrite E1. apply NoDup_list_prod; now apply strict_irrefl. }
      assert (N2 : NoDup W) by (now apply (NoDup_map_inv place)).
      apply NoDup_Permutation; auto. intros [[i j] n]. unfold W. rewrite with_name_In. split.
      - intros H. split; [|now apply M]. apply H1. rewrite E2. apply in_map_iff. now exists (i, j, n).
      - intros [G1 G2]. specialize (H2 n i j G1 G2). rewrite E2 in H2. apply in_map_iff in H2 as [[[i' j'] n'] [E H2]]. cbn in E. subst n'.
        rewrite (M _ _ _ H2) in G2. injection G2 as -> ->. auto. }
    assert (NE : W <> []). { intros E. rewrite E in P. apply Permutation_sym, Permutation_nil in P. rewrite P in E2. subst elems. simpl in L. lia. }
    exists (v, W). split; [apply groups_In; auto|]. cbn [fst snd].
    rewrite (proj2 (matrix_elements_iff W elems is js NE NW)).
    + destruct (Nat.ltb_spec 1 (length elems)); [now left|lia].
    + split; auto. split; auto. exists l'. auto.
Qed.
Print Assumptions C49_match.

(** ** No name is listed twice *)
Theorem C49_keys : forall matcher names, NoDup (map fst (match_matrix_elements names matcher)).
Proof.
  intros matcher names. unfold match_matrix_elements. cbv zeta.
  destruct (groups_ok matcher names []) as [G1 _]; [constructor|constructor|].
  set (g := fold_left _ names []) in *. clearbody g. induction g as [|[v ts] g IH]; simpl; [constructor|].
  simpl in G1. apply NoDup_cons_iff in G1 as [G1 G2]. rewrite map_app.
  assert (Sub : forall w, In w (map fst (flat_map (fun p : list ascii * list elem => match matrix_elements (snd p) with
      | Some (elems, i, j) => if 1 <? length elems then [(fst p, (elems, i, j))] else [] | None => [] end) g)) -> In w (map fst g)).
  { intros w H. apply in_map_iff in H as [[w' r] [E H]]. cbn in E. subst w'. apply in_flat_map in H as [[u us] [H1 H2]]. cbn [fst snd] in H2.
    destruct (matrix_elements us) as [[[es i] j]|]; [|destruct H2]. destruct (1 <? length es); [|destruct H2].
    destruct H2 as [H2|[]]. injection H2 as -> _. now apply (in_map fst) in H1. }
  cbn [snd]. destruct (matrix_elements ts) as [[[es i] j]|]; auto. destruct (1 <? length es); auto. simpl. constructor; auto.
Qed.
Print Assumptions C49_keys.

(** ** The pattern of the readers: letters and two digits *)
Theorem C49_pattern : forall n v i j, elem_match n = Some (v, i, j) <->
  v <> [] /\ Forall (fun c => is_alpha c = true) v /\ i < 10 /\ j < 10 /\ n = v ++ [digit_char i; digit_char j].
Proof.
  intros n v i j. unfold elem_match. split.
  - assert (D : n = take_while is_alpha n ++ drop_while is_alpha n).
    { clear. induction n as [|c n IH]; simpl; auto. destruct (is_alpha c); simpl; auto. now rewrite <- IH. }
    assert (T : Forall (fun c => is_alpha c = true) (take_while is_alpha n)).
    { clear. induction n as [|c n IH]; simpl; auto. destruct (is_alpha c) eqn:E; auto. }
    intros H. destruct (take_while is_alpha n) as [|c0 v0]; [discriminate|].
    destruct (drop_while is_alpha n) as [|c1 [|c2 [|c3 r]]]; try discriminate.
    destruct (is_digit c1) eqn:E1; [|discriminate]. destruct (is_digit c2) eqn:E2; [|discriminate]. cbn [andb] in H. injection H as <- <- <-.
    assert (DV : forall c, is_digit c = true -> digit_value c < 10 /\ digit_char (digit_value c) = c).
    { intros c E. unfold is_digit in E. apply andb_prop in E as [E3 E4]. apply Nat.leb_le in E3, E4. unfold digit_value, digit_char. split; [lia|].
      replace (48 + (nat_of_ascii c - 48)) with (nat_of_ascii c) by lia. apply ascii_nat_embedding. }
    destruct (DV _ E1) as [A1 A2]. destruct (DV _ E2) as [B1 B2]. rewrite A2, B2. split; [discriminate|]. auto.
  - intros [N [Al [Hi [Hj ->]]]].
    destruct (digit_char_is i Hi) as [Di Vi]. destruct (digit_char_is j Hj) as [Dj Vj].
    assert (NA : is_alpha (digit_char i) = false) by (do 10 (destruct i as [|i]; [reflexivity|]); lia).
    assert (T : take_while is_alpha (v ++ [digit_char i; digit_char j]) = v).
    { clear - Al NA. induction Al as [|c v Hc Al IH]; cbn [app take_while]; [now rewrite NA|]. rewrite Hc. now f_equal. }
    assert (D : drop_while is_alpha (v ++ [digit_char i; digit_char j]) = [digit_char i; digit_char j]).
    { clear - Al NA. induction Al as [|c v Hc Al IH]; cbn [app drop_while]; [now rewrite NA|]. now rewrite Hc. }
    rewrite T, D. destruct v as [|c0 v0]; [congruence|]. rewrite Di, Dj, Vi, Vj. reflexivity.
Qed.
Print Assumptions C49_pattern.

(** ... so that different names are different elements and C49_match applies
    to any names without repetition. *)
Theorem C49_pattern_unique : forall n m r, elem_match n = Some r -> elem_match m = Some r -> n = m.
Proof.
  intros n m [[v i] j] H1 H2. apply C49_pattern in H1 as [_ [_ [_ [_ ->]]]]. apply C49_pattern in H2 as [_ [_ [_ [_ ->]]]]. reflexivity.
Qed.
Print Assumptions C49_pattern_unique.

Lemma set_eqb_spec : forall a b, set_eqb a b = true <-> forall x, In x a <-> In x b.
Proof.
  intros a b. unfold set_eqb. rewrite andb_true_iff, !forallb_forall. split.
  - intros [H1 H2] x. split; intros H; [apply H1 in H|apply H2 in H]; apply existsb_exists in H as [y [H3 H4]]; apply Nat.eqb_eq in H4; now subst.
  - intros H. split; intros x Hx; apply existsb_exists; exists x; split; try apply Nat.eqb_refl; now apply H.
Qed.

(** ** MDIF columns: an m by n matrix exactly if the indices, none given twice,
    are all the pairs of 1..m and 1..n; a vector exactly if they are 1..n in any
    order. *)
Theorem C49_mdif_matrix : forall l, l <> [] -> NoDup l ->
  (mdif_is_matrix l = true <-> exists m n, Permutation l (list_prod (seq 1 m) (seq 1 n))).
Proof.
  intros l NE ND. unfold mdif_is_matrix. cbv zeta. rewrite !andb_true_iff, Nat.eqb_eq, !set_eqb_spec.
  assert (GC := grid_count l (int_set (map fst l)) (int_set (map snd l)) ND (NoDup_nodup _ _) (NoDup_nodup _ _)
    (fun i => int_set_In (map fst l) i) (fun j => int_set_In (map snd l) j)).
  rewrite GC. split.
  - intros [[H1 H2] H3]. exists (length (int_set (map fst l))), (length (int_set (map snd l))).
    apply NoDup_Permutation; auto; [apply NoDup_list_prod; apply seq_NoDup|]. intros [i j]. rewrite in_prod_iff, <- H2, <- H3. split.
    + intros H. split; apply int_set_In; [now apply (in_map fst) in H|now apply (in_map snd) in H].
    + intros [H4 H5]. now apply H1.
  - intros [m [n P]].
    assert (Hin : forall i j, In (i, j) l <-> In i (seq 1 m) /\ In j (seq 1 n)).
    { intros i j. rewrite <- in_prod_iff. split; apply Permutation_in; [|apply Permutation_sym]; exact P. }
    assert (Hm : m <> 0 /\ n <> 0).
    { split; intros ->; apply NE; [apply Permutation_nil, Permutation_sym, P|].
      assert (list_prod (seq 1 m) (seq 1 0) = []) as E by (clear; simpl; generalize (seq 1 m); induction l; simpl; auto).
      rewrite E in P. now apply Permutation_nil, Permutation_sym. }
    assert (HI : forall i, In i (int_set (map fst l)) <-> In i (seq 1 m)).
    { intros i. rewrite int_set_In. split; intros H.
      - apply in_map_iff in H as [[u w] [<- H]]. now apply Hin in H.
      - apply in_map_iff. exists (i, 1). split; auto. apply Hin. split; auto. apply in_seq. lia. }
    assert (HJ : forall j, In j (int_set (map snd l)) <-> In j (seq 1 n)).
    { intros j. rewrite int_set_In. split; intros H.
      - apply in_map_iff in H as [[u w] [<- H]]. now apply Hin in H.
      - apply in_map_iff. exists (1, j). split; auto. apply Hin. split; auto. apply in_seq. lia. }
    assert (LI : length (int_set (map fst l)) = m).
    { rewrite <- (seq_length m 1). apply Permutation_length, NoDup_Permutation; auto; [apply NoDup_nodup|apply seq_NoDup]. }
    assert (LJ : length (int_set (map snd l)) = n).
    { rewrite <- (seq_length n 1). apply Permutation_length, NoDup_Permutation; auto; [apply NoDup_nodup|apply seq_NoDup]. }
    rewrite LI, LJ. split; [split|]; auto. intros i j H1 H2. apply Hin. split; [now apply HI|now apply HJ].
Qed.
Print Assumptions C49_mdif_matrix.
Theorem C49_mdif_vector : forall l, mdif_is_vector l = true <-> Permutation l (seq 1 (length l)).
Proof.
  intros l. unfold mdif_is_vector. rewrite set_eqb_spec. split.
  - intros H. assert (NoDup l).
    { apply (NoDup_incl_NoDup (l := seq 1 (length l))); [apply seq_NoDup|rewrite seq_length; auto|]. intros x. apply H. }
    apply NoDup_Permutation; auto. apply seq_NoDup.
  - intros P x. split; apply Permutation_in; [|apply Permutation_sym]; exact P.
Qed.
Print Assumptions C49_mdif_vector.

(** Twice S[1,1] and no S[2,1] counts as a matrix. *)
Theorem C49_duplicate_refuted : exists l, mdif_is_matrix l = true /\ ~ In (2, 1) l /\ In (2, 2) l.
Proof. exists [(1, 1); (1, 1); (1, 2); (2, 2)]. split; [reflexivity|]. simpl. intuition congruence. Qed.

(** Rows and columns need not start at 1 and may have gaps (the readers number
    the axes of the matrix from 0). *)
Theorem C49_gaps_refuted : match_matrix_elements (map chars ["S11"; "S13"; "S31"; "S33"]) elem_match =
  [(chars "S", (map chars ["S11"; "S13"; "S31"; "S33"], [1; 3], [1; 3]))].
Proof. vm_compute. reflexivity. Qed.

(** S is complete, Y lacks Y21 and Z is a single element. *)
Example C49_ex : match_matrix_elements (map chars ["S21"; "Y11"; "Z11"; "S11"; "Y12"; "S22"; "x"; "Y22"; "S12"]) elem_match =
  [(chars "S", (map chars ["S11"; "S12"; "S21"; "S22"], [1; 2], [1; 2]))] /\
  NoDup (map chars ["S21"; "Y11"; "Z11"; "S11"; "Y12"; "S22"; "x"; "Y22"; "S12"]) /\
  mdif_is_matrix [(2, 1); (1, 1); (1, 2); (2, 2)] = true /\ mdif_is_matrix [(2, 1); (1, 1); (1, 2)] = false /\
  mdif_is_vector [2; 3; 1] = true /\ mdif_is_vector [2; 2; 1] = false.
Proof. split; [vm_compute; reflexivity|]. split; [repeat constructor; simpl; intuition discriminate|]. repeat split; reflexivity. Qed.
