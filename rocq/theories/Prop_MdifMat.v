(** C63: the columns of an MDIF file gathered to matrices and vectors. *)
From Coq Require Import Ascii String List Arith Bool Lia ZArith Permutation.
From Verif Require Import Model_NdArray Model_Dim Model_Array Model_DataDict Model_Text Model_Block Model_MatNames Model_Elements Model_MdifMat
  Spec_DataDict Spec_Array Spec_Elements Spec_MdifMat Proofs_NdArray Proofs_DataDict Prop_DataDict Proofs_Text Proofs_MatNames Prop_MatNames Proofs_Elements2 Proofs_MdifMat Proofs_MdifMat2.
Import ListNotations.
Local Open Scope char_scope.
Local Open Scope string_scope.
Local Open Scope nat_scope.
Local Open Scope list_scope.

(** ** Names *)
Theorem C63_written : forall c, proper c ->
  match_column (written c) = Some (c_name c, match c_at c with Plain => None | One i => Some (i, None) | Two i j => Some (i, Some j) end).
Proof. exact match_written. Qed.
Print Assumptions C63_written.

Lemma take_drop : forall {X} (f : X -> bool) l, l = take_while f l ++ drop_while f l.
Proof. induction l as [|x l IH]; simpl; auto. destruct (f x); simpl; congruence. Qed.
Lemma take_all : forall {X} (f : X -> bool) l x, In x (take_while f l) -> f x = true.
Proof. induction l as [|x l IH]; simpl; [tauto|]. intros y H. destruct (f x) eqn:E; [|destruct H]. destruct H as [<-|H]; auto. Qed.
Lemma type_end_inv : forall l, type_end l = true -> exists t, t <> [] /\ Forall letter_or_digit t /\ l = chars "(" ++ t ++ chars ")".
Proof.
  intros [|c l] H; [discriminate|]. destruct (ascii_dec c "("%char) as [->|N]; [|now rewrite type_end_other in H].
  cbn [type_end] in H. pose proof (take_drop is_alnum l) as E. pose proof (take_all is_alnum l) as T.
  destruct (take_while is_alnum l) as [|c0 t] eqn:Et; [discriminate|]. destruct (drop_while is_alnum l) as [|c1 r]; [discriminate|].
  destruct (ascii_dec c1 ")"%char) as [->|N]; [|destruct c1 as [[] [] [] [] [] [] [] []]; discriminate || (exfalso; now apply N)].
  destruct r; [|discriminate]. exists (c0 :: t). split; [discriminate|]. split; [rewrite Forall_forall; intros x Hx; apply alnum_spec; auto|].
  rewrite E. reflexivity.
Qed.

(** A word is taken as a column of a matrix or a vector only if it says so (the digits may have leading zeros). *)
Definition digits_for (ds : list ascii) (n : nat) : Prop := ds <> [] /\ Forall (fun c => is_digit c = true) ds /\ digits_value ds = n.

Lemma digits_taken : forall l, take_while is_digit l <> [] -> digits_for (take_while is_digit l) (digits_value (take_while is_digit l)).
Proof. intros l H. split; auto. split; auto. rewrite Forall_forall. apply take_all. Qed.

Theorem C63_matched : forall w v s, match_column w = Some (v, s) -> v <> [] /\ ~ In "["%char v /\
  exists t, t <> [] /\ Forall letter_or_digit t /\
  match s with
  | None => w = v ++ chars "(" ++ t ++ chars ")"
  | Some (i, None) => exists ds, digits_for ds i /\ w = v ++ chars "[" ++ ds ++ chars "](" ++ t ++ chars ")"
  | Some (i, Some j) => exists ds es, digits_for ds i /\ digits_for es j /\ w = v ++ chars "[" ++ ds ++ chars "," ++ es ++ chars "](" ++ t ++ chars ")"
  end.
Proof.
  intros w v s H. unfold match_column in H. cbv zeta in H. set (f := fun c => negb (Ascii.eqb c "[")) in *.
  pose proof (take_drop f w) as E. pose proof (take_all f w) as T.
  assert (NB : forall l, (forall x, In x l -> f x = true) -> ~ In "["%char l) by (intros l G Hx; apply G in Hx; discriminate).
  destruct (drop_while f w) as [|c r] eqn:D.
  - rewrite app_nil_r in E. destruct (scan_plain [] w) as [n|] eqn:P; [|discriminate]. cbn in H. injection H as -> <-.
    assert (G : forall l pre n, scan_plain pre l = Some n -> exists x y, n = pre ++ x /\ l = x ++ y /\ n <> [] /\ type_end y = true).
    { induction l as [|a l IH]; intros pre n Q; cbn [scan_plain] in Q; [discriminate|]. destruct (scan_plain (pre ++ [a]) l) as [n'|] eqn:R.
      - injection Q as <-. apply IH in R as [x [y [R1 [R2 [R3 R4]]]]]. exists (a :: x), y. rewrite R1, R2, <- app_assoc. repeat split; auto.
        destruct pre; discriminate.
      - destruct pre as [|p pre]; [discriminate|]. destruct (type_end (a :: l)) eqn:TE; [|discriminate]. injection Q as <-.
        exists [], (a :: l). rewrite app_nil_r. repeat split; auto. discriminate. }
    apply G in P as [x [y [-> [P1 [P2 P3]]]]]. cbn [app] in *. split; auto. split.
    + intros I. apply (NB (take_while f w) T). rewrite <- E, P1. apply in_or_app. auto.
    + apply type_end_inv in P3 as [t [T1 [T2 T3]]]. exists t. split; auto. split; auto. congruence.
  - destruct (take_while f w) as [|v0 v'] eqn:V; [discriminate|]. destruct (subscript_end (c :: r)) as [[i oj]|] eqn:P; [|discriminate].
    cbn in H. injection H as <- <-. split; [discriminate|]. split; [now apply NB|]. rewrite E. clear E D V T.
    destruct (ascii_dec c "["%char) as [->|N]; [|destruct c as [[] [] [] [] [] [] [] []]; discriminate || (exfalso; now apply N)].
    unfold subscript_end in P. cbv zeta in P. pose proof (take_drop is_digit r) as E1. pose proof (digits_taken r) as T1.
    destruct (take_while is_digit r) as [|d0 ds]; [discriminate|]. specialize (T1 ltac:(discriminate)). destruct (drop_while is_digit r) as [|c1 r1]; [discriminate|].
    destruct (ascii_dec c1 "]"%char) as [->|N1].
    + destruct (type_end r1) eqn:TE; [|discriminate]. injection P as <- <-. apply type_end_inv in TE as [t [Q1 [Q2 Q3]]]. exists t. split; auto. split; auto.
      exists (d0 :: ds). split; auto. rewrite E1, Q3. reflexivity.
    + destruct (ascii_dec c1 ","%char) as [->|N2].
      2:{ destruct c1 as [[] [] [] [] [] [] [] []]; discriminate || (exfalso; now apply N1) || (exfalso; now apply N2). }
      pose proof (take_drop is_digit r1) as E2. pose proof (digits_taken r1) as T2.
      destruct (take_while is_digit r1) as [|e0 es]; [discriminate|]. specialize (T2 ltac:(discriminate)). destruct (drop_while is_digit r1) as [|c2 r2]; [discriminate|].
      destruct (ascii_dec c2 "]"%char) as [->|N3].
      2:{ destruct c2 as [[] [] [] [] [] [] [] []]; discriminate || (exfalso; now apply N3). }
      destruct (type_end r2) eqn:TE; [|discriminate]. injection P as <- <-. apply type_end_inv in TE as [t [Q1 [Q2 Q3]]]. exists t. split; auto. split; auto.
      exists (d0 :: ds), (e0 :: es). split; auto. split; auto. rewrite E1, E2, Q3. reflexivity.
Qed.
Print Assumptions C63_matched.

(** ** Values *)
Section Values.
Context {A : Type}.

Lemma matrix_groups : forall h v l, Forall proper h -> NoDup (map column_label h) ->
  (In (v, l) (match_matrices (map written h)) <-> l = pairs_of v h /\ exists m n, is_matrix h v m n).
Proof.
  intros h v l P N. unfold match_matrices. rewrite filter_In, all_matrices_ok by auto. cbn [snd]. rewrite (proj2 (grouped_ok (mats h))), pairs_values.
  pose proof (pairs_NoDup v h N) as NP. split.
  - intros [[-> H1] H2]. split; auto. apply (C49_mdif_matrix _ H1 NP) in H2 as [m [n H2]]. exists m, n. unfold is_matrix.
    assert (0 < m * n).
    { apply Permutation_length in H2. rewrite prod_length, !seq_length in H2. destruct (pairs_of v h); [congruence|]. cbn in H2. lia. }
    split; [|split]; auto; nia.
  - intros [-> [m [n [H1 [H2 H3]]]]]. assert (NE : pairs_of v h <> []).
    { intros E. apply Permutation_length in H3. rewrite E, prod_length, !seq_length in H3. cbn in H3. nia. }
    split; auto. apply C49_mdif_matrix; eauto.
Qed.
Lemma vector_groups : forall h v l, Forall proper h ->
  (In (v, l) (match_vectors (map written h)) <-> l = numbers_of v h /\ exists n, is_vector h v n).
Proof.
  intros h v l P. unfold match_vectors. rewrite filter_In, all_vectors_ok by auto. cbn [snd]. rewrite (proj2 (grouped_ok (vecs h))), numbers_values. split.
  - intros [[-> H1] H2]. split; auto. apply C49_mdif_vector in H2. exists (length (numbers_of v h)). split; auto. destruct (numbers_of v h); [congruence|simpl; lia].
  - intros [-> [n [H1 H2]]]. pose proof (Permutation_length H2) as L. rewrite seq_length in L. split.
    + split; auto. intros E. rewrite E in L. simpl in L. lia.
    + apply C49_mdif_vector. now rewrite L.
Qed.
Lemma groups_NoDup : forall h, Forall proper h -> NoDup (map fst (match_matrices (map written h))) /\ NoDup (map fst (match_vectors (map written h))).
Proof.
  assert (G : forall {X} (f : list ascii * X -> bool) l, NoDup (map fst l) -> NoDup (map fst (filter f l))).
  { intros X f. induction l as [|p l IH]; simpl; intros N; [constructor|]. apply NoDup_cons_iff in N as [N1 N2]. destruct (f p); simpl; auto. constructor; auto.
    intros H. apply N1. apply in_map_iff in H as [q [E H]]. apply filter_In in H as [H _]. rewrite <- E. now apply in_map. }
  intros h P. unfold match_matrices, match_vectors. rewrite all_matrices_ok, all_vectors_ok by auto. split; apply G; apply grouped_ok.
Qed.

Variable common : list dtype -> dtype.
Variable cast : dtype -> A -> A.
Notation str := string_of_list_ascii.

Theorem C63_gather : forall ordm ordv (h : list column) (d : ddict (hf A)) vs fi target,
  (forall l, Permutation (ordm l) l) -> (forall l, Permutation (ordv l) l) ->
  Forall proper h -> NoDup (map column_label h) -> reached d vs -> d_class fi = CDimSweep ->
  (forall c, In c h -> c_at c <> Plain -> exists x, In (column_label c, x) vs /\ wf x /\ h_dims x = [fi]) ->
  (forall v, (exists m n, is_matrix h v m n) \/ (exists n, is_vector h v n) -> ~ In (str v) (map fst vs)) ->
  (forall v m n k, is_matrix h v m n -> ~ is_vector h v k) -> goes_to h target ->
  exists d' vs', make_matrices common cast ordm ordv (map written h) d = Ok d' /\ dd_items d' = Ok vs' /\
    map fst vs' = firsts (map target (map fst vs)) /\
    (forall k x, In (k, x) vs -> target k = k -> In (k, x) vs') /\
    (forall v m n, is_matrix h v m n -> exists y, In (str v, y) vs' /\
       matrix_over cast fi m n (fun i j x => In (str (v ++ brackets (Two i j)), x) vs) y) /\
    (forall v n, is_vector h v n -> exists y, In (str v, y) vs' /\
       vector_over cast fi n (fun i x => In (str (v ++ brackets (One i)), x) vs) y).
Proof.
  intros ordm ordv h d vs fi target PM PV HP HN HR HF HX HV HB HT.
  destruct (reached_abs d vs HR) as [HI HA]. destruct (groups_NoDup h HP) as [GM GV].
  assert (KS : forall k x, In (k, x) vs <-> pd_get k (dd_map d) = Some x).
  { intros k x. rewrite <- (abs_get d k HI), HA. pose proof (abs_NoDup d HI) as NK. rewrite HA in NK. split.
    - intros H. clear - H NK. induction vs as [|[k0 x0] vs IH]; [destruct H|]. cbn in *. apply NoDup_cons_iff in NK as [N1 N2]. destruct H as [H|H].
      + injection H as -> ->. now rewrite String.eqb_refl.
      + destruct (String.eqb_spec k k0); auto. subst. exfalso. apply N1. now apply (in_map fst) in H.
    - intros H. clear - H. induction vs as [|[k0 x0] vs IH]; [discriminate|]. cbn in H. destruct (String.eqb_spec k k0).
      + injection H as <-. subst. now left.
      + right. auto. }
  assert (OV : dd_order d = map fst vs) by (rewrite <- HA; symmetry; apply (keys_abs d HI)).
  set (ms := ordm (match_matrices (map written h))). set (ws := ordv (match_vectors (map written h))).
  assert (IM : forall v l, In (v, l) ms <-> l = pairs_of v h /\ exists m n, is_matrix h v m n).
  { intros v l. rewrite <- (matrix_groups h v l HP HN). split; apply Permutation_in; [|apply Permutation_sym]; apply PM. }
  assert (IV : forall v l, In (v, l) ws <-> l = numbers_of v h /\ exists n, is_vector h v n).
  { intros v l. rewrite <- (vector_groups h v l HP). split; apply Permutation_in; [|apply Permutation_sym]; apply PV. }
  (* columns of the groups *)
  assert (CM : forall v m n i j, is_matrix h v m n -> In (i, j) (list_prod (seq 1 m) (seq 1 n)) -> exists c, In c h /\ c_name c = v /\ c_at c = Two i j /\ column_label c = matrix_column v i j).
  { intros v m n i j [M1 [M2 M3]] H. apply (Permutation_in _ (Permutation_sym M3)) in H. apply pairs_In in H as [c [H1 [H2 H3]]]. exists c. split; auto. split; auto. split; auto.
    unfold column_label. rewrite H2, H3. reflexivity. }
  assert (CV : forall v n i, is_vector h v n -> In i (seq 1 n) -> exists c, In c h /\ c_name c = v /\ c_at c = One i /\ column_label c = vector_column v i).
  { intros v n i [M2 M3] H. apply (Permutation_in _ (Permutation_sym M3)) in H. apply numbers_In in H as [c [H1 [H2 H3]]]. exists c. split; auto. split; auto. split; auto.
    unfold column_label. rewrite H2, H3. reflexivity. }
  assert (PR : forall c, In c h -> proper c) by (rewrite Forall_forall in HP; auto).
  set (gs := map matrix_group ms ++ map vector_group ws).
  assert (GMn : forall v l m n, In (v, l) ms -> is_matrix h v m n -> g_names (matrix_group (v, l)) = map (fun q => matrix_column v (fst q) (snd q)) (list_prod (seq 1 m) (seq 1 n)) /\
    g_tail (matrix_group (v, l)) = [mdim_i m; mdim_j n]).
  { intros v l m n H [M1 [M2 M3]]. apply IM in H as [-> _]. destruct (matrix_sizes _ m n M1 M2 M3) as [E1 [E2 E3]]. unfold matrix_group. cbn [g_names g_tail fst snd]. now rewrite E1, E2, E3. }
  assert (GVn : forall v l n, In (v, l) ws -> is_vector h v n -> g_names (vector_group (v, l)) = map (vector_column v) (seq 1 n) /\ g_tail (vector_group (v, l)) = [mdim_j n]).
  { intros v l n H [M2 M3]. apply IV in H as [-> _]. destruct (vector_sorted _ n M3) as [E1 E2]. unfold vector_group. cbn [g_names g_tail fst snd]. now rewrite E1, E2. }
  (* a name in a group is the label of a column *)
  assert (GN : forall g k, In g gs -> In k (g_names g) -> exists c, In c h /\ c_at c <> Plain /\ column_label c = k /\ g_to g = str (c_name c) /\ part_of h (c_name c) k /\
     match c_at c with Two _ _ => g = matrix_group (c_name c, pairs_of (c_name c) h) | One _ => g = vector_group (c_name c, numbers_of (c_name c) h) | Plain => False end).
  { intros g k Hg Hk. apply in_app_or in Hg as [Hg|Hg]; apply in_map_iff in Hg as [[v l] [<- Hg]].
    - pose proof Hg as Hg'. apply IM in Hg' as [-> [m [n Mx]]]. destruct (GMn v _ m n Hg Mx) as [E1 _]. rewrite E1 in Hk. apply in_map_iff in Hk as [[i j] [<- Hk]].
      destruct (CM v m n i j Mx Hk) as [c [C1 [C2 [C3 C4]]]]. exists c. rewrite C2, C3. split; auto. split; [discriminate|]. split; auto. split; auto. split; auto.
      exists c. rewrite C3. repeat split; eauto.
    - pose proof Hg as Hg'. apply IV in Hg' as [-> [n Mx]]. destruct (GVn v _ n Hg Mx) as [E1 _]. rewrite E1 in Hk. apply in_map_iff in Hk as [i [<- Hk]].
      destruct (CV v n i Mx Hk) as [c [C1 [C2 [C3 C4]]]]. exists c. rewrite C2, C3. split; auto. split; [discriminate|]. split; auto. split; auto. split; auto.
      exists c. rewrite C3. repeat split; eauto. }
  assert (INJ : forall c c', In c h -> In c' h -> column_label c = column_label c' -> c_name c = c_name c' /\ c_at c = c_at c').
  { intros c c' H1 H2. apply label_inj; auto. }
  assert (sinj : forall a b, str a = str b -> a = b) by (intros a b; apply chars_inj).
  destruct (gather_all_ok common cast gs d fi HI) as [d' [F1 [F2 [F3 [F4 F5]]]]].
  - unfold gs. rewrite map_app, !map_map. cbn [matrix_group vector_group g_to].
    assert (NA : forall {X} (l : list (list ascii * X)), NoDup (map fst l) -> NoDup (map (fun p => str (fst p)) l)).
    { intros X l N. rewrite <- (map_map fst str). apply FinFun.Injective_map_NoDup; auto. }
    apply NoDup_app_intro.
    + apply NA. apply (Permutation_NoDup (l := map fst (match_matrices (map written h)))); auto. apply Permutation_map. apply Permutation_sym, PM.
    + apply NA. apply (Permutation_NoDup (l := map fst (match_vectors (map written h)))); auto. apply Permutation_map. apply Permutation_sym, PV.
    + intros s H1 H2. apply in_map_iff in H1 as [[v l] [E1 H1]]. apply in_map_iff in H2 as [[w l'] [E2 H2]]. cbn [fst] in *. assert (v = w) by (apply sinj; congruence). subst w.
      apply IM in H1 as [_ [m [n H1]]]. apply IV in H2 as [_ [k H2]]. now apply (HB v m n k).
  - intros g Hg. assert (XC : forall k, In k (g_names g) -> exists x, pd_get k (dd_map d) = Some x /\ wf x /\ h_dims x = [fi]).
    { intros k Hk. destruct (GN g k Hg Hk) as [c [C1 [C2 [<- _]]]]. destruct (HX c C1 C2) as [x [X1 [X2 X3]]]. exists x. split; auto. now apply KS. }
    apply in_app_or in Hg as [Hg|Hg]; apply in_map_iff in Hg as [[v l] [<- Hg]].
    + pose proof Hg as Hg'. apply IM in Hg' as [-> [m [n Mx]]]. destruct (GMn v _ m n Hg Mx) as [E1 E2]. rewrite E1, E2 in *. pose proof Mx as [M1 [M2 _]]. split; [|split; [|split; [|split; [auto|split]]]].
      * assert (Hinj : forall p q, In p (list_prod (seq 1 m) (seq 1 n)) -> In q (list_prod (seq 1 m) (seq 1 n)) -> matrix_column v (fst p) (snd p) = matrix_column v (fst q) (snd q) -> p = q).
        { intros [i j] [i' j'] H1 H2 E. cbn [fst snd] in E. destruct (CM v m n i j Mx H1) as [c [C1 [_ [C3 C4]]]]. destruct (CM v m n i' j' Mx H2) as [c' [C1' [_ [C3' C4']]]].
          destruct (INJ c c' C1 C1') as [_ Q]; [congruence|]. rewrite C3, C3' in Q. congruence. }
        assert (N0 : NoDup (list_prod (seq 1 m) (seq 1 n))) by (apply NoDup_list_prod; apply seq_NoDup). revert N0 Hinj. generalize (list_prod (seq 1 m) (seq 1 n)).
        clear. induction l as [|p l IH]; simpl; intros N Hinj; constructor; apply NoDup_cons_iff in N as [N1 N2]; auto.
        intros H. apply in_map_iff in H as [q [E H]]. apply N1. rewrite (Hinj p q); auto.
      * intros E. apply (f_equal (@length _)) in E. rewrite map_length, prod_length, !seq_length in E. cbn in E. nia.
      * rewrite OV. apply HV. left. eauto.
      * unfold lens. cbn. unfold range_labels. rewrite !map_length, prod_length, !seq_length. lia.
      * cbn. unfold key. cbn. rewrite HF. repeat (constructor; [cbn; intuition discriminate|]). constructor.
    + pose proof Hg as Hg'. apply IV in Hg' as [-> [n Mx]]. destruct (GVn v _ n Hg Mx) as [E1 E2]. rewrite E1, E2 in *. pose proof Mx as [M2 _]. split; [|split; [|split; [|split; [auto|split]]]].
      * assert (Hinj : forall p q, In p (seq 1 n) -> In q (seq 1 n) -> vector_column v p = vector_column v q -> p = q).
        { intros i i' H1 H2 E. destruct (CV v n i Mx H1) as [c [C1 [_ [C3 C4]]]]. destruct (CV v n i' Mx H2) as [c' [C1' [_ [C3' C4']]]].
          destruct (INJ c c' C1 C1') as [_ Q]; [congruence|]. rewrite C3, C3' in Q. congruence. }
        assert (N0 : NoDup (seq 1 n)) by apply seq_NoDup. revert N0 Hinj. generalize (seq 1 n).
        clear. induction l as [|p l IH]; simpl; intros N Hinj; constructor; apply NoDup_cons_iff in N as [N1 N2]; auto.
        intros H. apply in_map_iff in H as [q [E H]]. apply N1. rewrite (Hinj p q); auto.
      * intros E. apply (f_equal (@length _)) in E. rewrite map_length, seq_length in E. cbn in E. lia.
      * rewrite OV. apply HV. right. eauto.
      * unfold lens. cbn. unfold range_labels. rewrite !map_length, !seq_length. lia.
      * cbn. unfold key. cbn. rewrite HF. repeat (constructor; [cbn; intuition discriminate|]). constructor.
  - intros g g' k H1 H2 K1 K2. destruct (GN g k H1 K1) as [c [C1 [C2 [C3 [_ [_ C4]]]]]]. destruct (GN g' k H2 K2) as [c' [C1' [C2' [C3' [_ [_ C4']]]]]].
    destruct (INJ c c' C1 C1') as [Q1 Q2]; [congruence|]. rewrite <- Q1, <- Q2 in C4'. destruct (c_at c); [destruct C4|congruence|congruence].
  - exists d', (dabs d'). rewrite make_all. fold ms ws gs. split; auto. split; [now apply items_abs|].
    assert (TG : forall k, target_of gs k = target k).
    { intros k. unfold target_of. destruct (HT k) as [T1 T2]. destruct (find (fun g => l_in k (g_names g)) gs) as [g|] eqn:F.
      - apply find_some in F as [Q1 Q2]. apply l_in_In in Q2. destruct (GN g k Q1 Q2) as [c [_ [_ [_ [C4 [C5 _]]]]]]. rewrite C4. symmetry. now apply T1.
      - symmetry. apply T2. intros v [c [C1 [C2 [C3 C4]]]]. pose proof (find_none _ _ F) as FN. cbv beta in FN. destruct (c_at c) as [|i|i j] eqn:CA; [destruct C4| |].
        + destruct C4 as [n Mx]. assert (G : In (v, numbers_of v h) ws) by (apply IV; eauto).
          assert (Q : l_in k (g_names (vector_group (v, numbers_of v h))) = true).
          { apply l_in_In. destruct (GVn v _ n G Mx) as [-> _]. apply in_map_iff. exists i. split; [unfold column_label in C3; rewrite C2, CA in C3; exact C3|].
            apply (Permutation_in _ (proj2 Mx)). apply numbers_In. exists c. auto. }
          rewrite FN in Q; [discriminate|]. apply in_or_app. right. now apply in_map.
        + destruct C4 as [m [n Mx]]. assert (G : In (v, pairs_of v h) ms) by (apply IM; eauto).
          assert (Q : l_in k (g_names (matrix_group (v, pairs_of v h))) = true).
          { apply l_in_In. destruct (GMn v _ m n G Mx) as [-> _]. apply in_map_iff. exists (i, j). split; [unfold column_label in C3; rewrite C2, CA in C3; exact C3|].
            apply (Permutation_in _ (proj2 (proj2 Mx))). apply pairs_In. exists c. auto. }
          rewrite FN in Q; [discriminate|]. apply in_or_app. left. now apply in_map. }
    assert (KS' : forall k x, pd_get k (dd_map d') = Some x -> In (k, x) (dabs d')).
    { intros k x H. rewrite <- (abs_get d' k F2) in H. clear - H. induction (dabs d') as [|[k0 x0] l IH]; [discriminate|]. cbn in H. destruct (String.eqb_spec k k0).
      - injection H as <-. subst. now left.
      - right. auto. }
    split; [|split; [|split]].
    + change (map fst (dabs d')) with (keys (dabs d')). rewrite keys_abs, F3, OV by auto. apply firsts_same. auto.
    + intros k x H1 H2. apply KS'. rewrite F4; [now apply KS|]. intros g Hg. assert (NV : k <> g_to g).
      { intros ->. apply (in_map fst) in H1. cbn [fst] in H1. apply in_app_or in Hg as [Hg|Hg]; apply in_map_iff in Hg as [[v l] [<- Hg]]; cbn in H1.
        - apply IM in Hg as [_ Hg]. eapply (HV v); eauto.
        - apply IV in Hg as [_ Hg]. eapply (HV v); eauto. }
      split; auto. intros Hk. destruct (GN g k Hg Hk) as [c [_ [_ [_ [C4 [C5 _]]]]]]. apply (proj1 (HT k)) in C5. congruence.
    + intros v m n Mx. assert (G : In (v, pairs_of v h) ms) by (apply IM; eauto). destruct (GMn v _ m n G Mx) as [E1 E2].
      destruct (F5 (matrix_group (v, pairs_of v h))) as [y [Y1 [Y2 [Y3 Y4]]]]; [apply in_or_app; left; now apply in_map|]. rewrite E1, E2 in *. exists y. split; [now apply KS'|].
      split; auto. split; [exists (mdim_i m), (mdim_j n); repeat split; auto|]. intros i j x r Hi Hj H.
      assert (L : lens [mdim_i m; mdim_j n] = [m; n]) by (unfold lens; cbn; unfold range_labels; now rewrite !map_length, !seq_length).
      rewrite L in Y4. apply (Y4 (matrix_column v (S i) (S j)) x r [i; j]).
      * cbn. rewrite andb_true_r. apply andb_true_intro. split; now apply Nat.ltb_lt.
      * cbn [ravel prodn fold_right]. replace (i * (n * 1) + (j * 1 + 0)) with (i * n + j) by lia.
        apply (map_nth_error (fun q => matrix_column v (fst q) (snd q)) _ _ (nth_prod_seq m n i j Hi Hj)).
      * now apply KS.
    + intros v n Mx. assert (G : In (v, numbers_of v h) ws) by (apply IV; eauto). destruct (GVn v _ n G Mx) as [E1 E2].
      destruct (F5 (vector_group (v, numbers_of v h))) as [y [Y1 [Y2 [Y3 Y4]]]]; [apply in_or_app; right; now apply in_map|]. rewrite E1, E2 in *. exists y. split; [now apply KS'|].
      split; auto. split; [exists (mdim_j n); repeat split; auto|]. intros j x r Hj H.
      assert (L : lens [mdim_j n] = [n]) by (unfold lens; cbn; unfold range_labels; now rewrite !map_length, !seq_length).
      rewrite L in Y4. apply (Y4 (vector_column v (S j)) x r [j]).
      * cbn. rewrite andb_true_r. now apply Nat.ltb_lt.
      * cbn [ravel prodn fold_right]. replace (j * 1 + 0) with j by lia.
        apply (map_nth_error (vector_column v) j (seq 1 n)). rewrite nth_error_seq by auto. reflexivity.
      * now apply KS.
Qed.
End Values.
Print Assumptions C63_gather.

(** ** Cases *)
Definition exf : dim := mkDim CDimSweep "freq" [LZ 1; LZ 2] (Some "Hz") None.
Definition excol (a b : nat) : hf nat := mkHF (mkNd [2] [a; b]) DInt [exf] None "%d".
Definition excommon (l : list dtype) : dtype := DInt.
Definition excast (t : dtype) (n : nat) : nat := n.
Definition col (n : string) (s : indices_of) : column := mkColumn (chars n) s (chars "real").
Definition exh : list column :=
  [col "freq" Plain; col "S" (Two 2 1); col "S" (Two 1 1); col "g" Plain; col "S" (Two 1 2); col "S" (Two 2 2); col "a" (One 2); col "T" (Two 1 2); col "a" (One 1)].
Definition exvs : list (string * hf nat) :=
  [("S[2,1]", excol 1 2); ("S[1,1]", excol 3 4); ("g", excol 5 6); ("S[1,2]", excol 7 8); ("S[2,2]", excol 9 10);
   ("a[2]", excol 11 12); ("T[1,2]", excol 13 14); ("a[1]", excol 15 16)].
Definition exd (l : list (string * hf nat)) : ddict (hf nat) := fold_left dd_step (map (fun p => Store (fst p) (snd p)) l) dd_empty.
Definition made (h : list column) (l : list (string * hf nat)) : result (list (string * (list string * list nat))) :=
  do d <- make_matrices excommon excast (fun l => rev l) (fun l => l) (map written h) (exd l);
  do l <- dd_items d; Ok (map (fun p => (fst p, (map d_name (h_dims (snd p)), nd_elems (h_nd (snd p))))) l).

Example C63_ex : made exh exvs =
  Ok [("S", (["freq"; "i"; "j"], [3; 7; 1; 9; 4; 8; 2; 10])); ("g", (["freq"], [5; 6])); ("a", (["freq"; "j"], [15; 11; 16; 12])); ("T[1,2]", (["freq"], [13; 14]))].
Proof. vm_compute. reflexivity. Qed.

(** The hypotheses of the theorem hold of it. *)
Definition extarget (k : string) : string :=
  if l_in k ["S[2,1]"; "S[1,1]"; "S[1,2]"; "S[2,2]"] then "S" else if l_in k ["a[2]"; "a[1]"] then "a" else k.
Lemma exS : is_matrix exh (chars "S") 2 2.
Proof. split; [auto|]. split; [auto|]. apply NoDup_Permutation; [vm_compute; repeat constructor; simpl; intuition congruence|vm_compute; repeat constructor; simpl; intuition congruence|]. intros p. vm_compute. tauto. Qed.
Lemma exa : is_vector exh (chars "a") 2.
Proof. split; [auto|]. apply (perm_swap 1 2 []). Qed.
Lemma ex_matrix : forall v m n, is_matrix exh v m n -> v = chars "S".
Proof.
  intros v m n [H1 [H2 H3]]. assert (G : In (1, 1) (pairs_of v exh)).
  { apply (Permutation_in _ (Permutation_sym H3)). apply in_prod; apply in_seq; lia. }
  apply pairs_In in G as [c [G1 [<- G3]]]. cbn [exh In] in G1. repeat (destruct G1 as [<-|G1]; [try discriminate; reflexivity|]). destruct G1.
Qed.
Lemma ex_vector : forall v n, is_vector exh v n -> v = chars "a".
Proof.
  intros v n [H2 H3]. assert (G : In 1 (numbers_of v exh)) by (apply (Permutation_in _ (Permutation_sym H3)); apply in_seq; lia).
  apply numbers_In in G as [c [G1 [<- G3]]]. cbn [exh In] in G1. repeat (destruct G1 as [<-|G1]; [try discriminate; reflexivity|]). destruct G1.
Qed.

Example C63_ex_hyps : Forall proper exh /\ NoDup (map column_label exh) /\ reached (exd exvs) exvs /\ d_class exf = CDimSweep /\
  (forall c, In c exh -> c_at c <> Plain -> exists x, In (column_label c, x) exvs /\ wf x /\ h_dims x = [exf]) /\
  (forall v, (exists m n, is_matrix exh v m n) \/ (exists n, is_vector exh v n) -> ~ In (string_of_list_ascii v) (map fst exvs)) /\
  (forall v m n k, is_matrix exh v m n -> ~ is_vector exh v k) /\ goes_to exh extarget /\
  is_matrix exh (chars "S") 2 2 /\ is_vector exh (chars "a") 2.
Proof.
  assert (W : forall a b, wf (excol a b)) by (intros a b; split; [reflexivity|]; split; [reflexivity|]; repeat constructor; simpl; auto).
  split; [|split; [|split; [|split; [|split; [|split; [|split; [|split; [|split]]]]]]]].
  - assert (P : forall n s, chars n <> [] -> ~ In "["%char (chars n) -> proper (col n s)).
    { intros n s H1 H2. split; auto. split; auto. split; [discriminate|]. repeat (constructor; [apply alnum_spec; reflexivity|]). constructor. }
    repeat (constructor; [apply P; [discriminate|vm_compute; intuition discriminate]|]). constructor.
  - vm_compute. repeat constructor; simpl; intuition discriminate.
  - eexists. split; [reflexivity|]. vm_compute. reflexivity.
  - reflexivity.
  - intros c Hc Np. cbn [exh In] in Hc. repeat (destruct Hc as [<-|Hc]; [first [exfalso; now apply Np|eexists; split; [repeat (first [left; reflexivity|right])|]; split; [apply W|reflexivity]]|]). destruct Hc.
  - intros v [[m [n H]]|[n H]]; [apply ex_matrix in H|apply ex_vector in H]; subst v; vm_compute; intuition discriminate.
  - intros v m n k H1 H2. apply ex_matrix in H1. apply ex_vector in H2. subst v. discriminate.
  - intros k. split.
    + intros v [c [H1 [H2 [H3 H4]]]]. cbn [exh In] in H1. subst k.
      repeat (destruct H1 as [<-|H1]; [cbn [c_at col] in H4; try (destruct H4; fail); cbn in H2; subst v; try reflexivity|]); [|destruct H1].
      destruct H4 as [m [n H4]]. now apply ex_matrix in H4.
    + intros N. unfold extarget.
      assert (Q : forall c, In c exh -> match c_at c with Plain => False | One _ => exists n, is_vector exh (c_name c) n | Two _ _ => exists m n, is_matrix exh (c_name c) m n end -> column_label c <> k).
      { intros c H1 H2 E. apply (N (c_name c)). exists c. auto. }
      destruct (l_in k ["S[2,1]"; "S[1,1]"; "S[1,2]"; "S[2,2]"]) eqn:E1.
      * exfalso. apply l_in_In in E1. cbn [In] in E1. assert (M : exists m n, is_matrix exh (chars "S") m n) by (exists 2, 2; apply exS).
        destruct E1 as [E1|[E1|[E1|[E1|[]]]]]; subst k;
          [apply (Q (col "S" (Two 2 1)))|apply (Q (col "S" (Two 1 1)))|apply (Q (col "S" (Two 1 2)))|apply (Q (col "S" (Two 2 2)))]; try exact M; try reflexivity; simpl; auto 10.
      * destruct (l_in k ["a[2]"; "a[1]"]) eqn:E2; auto. exfalso. apply l_in_In in E2. cbn [In] in E2. assert (M : exists n, is_vector exh (chars "a") n) by (exists 2; apply exa).
        destruct E2 as [E2|[E2|[]]]; subst k; [apply (Q (col "a" (One 2)))|apply (Q (col "a" (One 1)))]; try exact M; try reflexivity; simpl; auto 10.
  - exact exS.
  - exact exa.
Qed.

(** A variable with the name of the matrix is lost. *)
Theorem C63_scalar_refuted : exists h l, NoDup (map column_label h) /\ In ("S", excol 5 6) l /\
  made h l = Ok [("g", (["freq"], [7; 8])); ("S", (["freq"; "i"; "j"], [3; 4]))].
Proof.
  exists [col "freq" Plain; col "S" Plain; col "S" (Two 1 1); col "g" Plain], [("S", excol 5 6); ("S[1,1]", excol 3 4); ("g", excol 7 8)].
  split; [vm_compute; repeat constructor; simpl; intuition discriminate|]. split; [simpl; auto|]. vm_compute. reflexivity.
Qed.
Print Assumptions C63_scalar_refuted.

(** Of a matrix and a vector with the same name only the vector is left. *)
Theorem C63_both_refuted : exists h l, NoDup (map column_label h) /\ is_matrix h (chars "S") 1 1 /\ is_vector h (chars "S") 1 /\
  made h l = Ok [("S", (["freq"; "j"], [5; 6]))].
Proof.
  exists [col "freq" Plain; col "S" (Two 1 1); col "S" (One 1)], [("S[1,1]", excol 3 4); ("S[1]", excol 5 6)].
  split; [vm_compute; repeat constructor; simpl; intuition discriminate|]. split; [repeat split; auto; vm_compute; auto|]. split; [split; auto; vm_compute; auto|].
  vm_compute. reflexivity.
Qed.
Print Assumptions C63_both_refuted.

(** An index with a leading zero counts, but its column is not found. *)
Theorem C63_zero_refuted : exists w l, match_column w = Some (chars "S", Some (1, Some 1)) /\ In ("S[01,1]", excol 3 4) l /\
  make_matrices excommon excast (fun l => l) (fun l => l) [w] (exd l) = Err KeyError.
Proof. exists (chars "S[01,1](real)"), [("S[01,1]", excol 3 4)]. split; [reflexivity|]. split; [simpl; auto|]. vm_compute. reflexivity. Qed.
Print Assumptions C63_zero_refuted.
