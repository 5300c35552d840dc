(** Lemmas for gathering columns to matrices: names in the header and all groups. *)
From Coq Require Import Ascii String List Arith Bool Lia ZArith Permutation Sorted.
From Verif Require Import Model_NdArray Model_Dim Model_Array Model_DataDict Model_Text Model_Block Model_MatNames Model_Elements Model_MdifMat
  Spec_Array Spec_Elements Spec_MdifMat Proofs_NdArray Proofs_Array Proofs_DataDict Proofs_Text Proofs_MatNames Prop_MatNames Proofs_Elements2 Proofs_MdifMat.
Import ListNotations.
Local Open Scope char_scope.
Local Open Scope string_scope.
Local Open Scope nat_scope.
Local Open Scope list_scope.

(** *** Words of a header *)
Lemma take_app : forall {X} (f : X -> bool) a c b, (forall x, In x a -> f x = true) -> f c = false -> take_while f (a ++ c :: b) = a.
Proof. induction a as [|x a IH]; simpl; intros c b H E; [now rewrite E|]. rewrite H by auto. f_equal. auto. Qed.
Lemma drop_app : forall {X} (f : X -> bool) a c b, (forall x, In x a -> f x = true) -> f c = false -> drop_while f (a ++ c :: b) = c :: b.
Proof. induction a as [|x a IH]; simpl; intros c b H E; [now rewrite E|]. rewrite H by auto. auto. Qed.
Lemma drop_none : forall {X} (f : X -> bool) a, (forall x, In x a -> f x = true) -> drop_while f a = [].
Proof. induction a as [|x a IH]; simpl; intros H; auto. rewrite H by auto. auto. Qed.
Lemma alnum_spec : forall c, is_alnum c = true <-> letter_or_digit c.
Proof.
  intros c. unfold is_alnum, is_digit, letter_or_digit. cbv zeta. rewrite !orb_true_iff, !andb_true_iff, !Nat.leb_le. tauto.
Qed.
Lemma alnum_not : forall c d, letter_or_digit c -> is_alnum d = false -> c <> d.
Proof. intros c d H E ->. apply alnum_spec in H. congruence. Qed.

Lemma type_end_ok : forall t, t <> [] -> Forall letter_or_digit t -> type_end (chars "(" ++ t ++ chars ")") = true.
Proof.
  intros t NE H. change (chars "(" ++ t ++ chars ")") with ("("%char :: t ++ ")"%char :: []). cbn [type_end].
  rewrite Forall_forall in H. assert (G : forall x, In x t -> is_alnum x = true) by (intros; apply alnum_spec; auto).
  rewrite take_app, drop_app by auto. destruct t; [congruence|reflexivity].
Qed.
Lemma type_end_other : forall c l, c <> "("%char -> type_end (c :: l) = false.
Proof. intros c l H. unfold type_end. destruct c as [[] [] [] [] [] [] [] []]; try reflexivity. exfalso. now apply H. Qed.
Lemma scan_nothing : forall l pre, (forall c, In c l -> c <> "("%char) -> scan_plain pre l = None.
Proof.
  induction l as [|c l IH]; intros pre H; cbn [scan_plain]; auto. rewrite IH by (intros; apply H; now right). destruct pre; auto.
  rewrite type_end_other; auto. apply H. now left.
Qed.
Lemma scan_ok : forall t x pre, t <> [] -> Forall letter_or_digit t -> pre ++ x <> [] -> scan_plain pre (x ++ chars "(" ++ t ++ chars ")") = Some (pre ++ x).
Proof.
  intros t x. induction x as [|c x IH]; intros pre NE H NP.
  - rewrite app_nil_r in *. cbn [app]. pose proof (type_end_ok t NE H) as T.
    change (chars "(" ++ t ++ chars ")") with ("("%char :: t ++ ")"%char :: []) in *. cbn [scan_plain]. rewrite scan_nothing.
    + destruct pre; [congruence|]. now rewrite T.
    + rewrite Forall_forall in H. intros c Hc. apply in_app_or in Hc as [Hc|[<-|[]]]; [|discriminate]. apply alnum_not; auto.
  - change ((c :: x) ++ chars "(" ++ t ++ chars ")") with (c :: (x ++ chars "(" ++ t ++ chars ")")). cbn [scan_plain].
    rewrite IH; auto; [now rewrite <- app_assoc|]. rewrite <- app_assoc. destruct pre; discriminate.
Qed.

Definition sub_of (s : indices_of) : subscript :=
  match s with Plain => None | One i => Some (i, None) | Two i j => Some (i, Some j) end.

Lemma digits_of : forall n c b, is_digit c = false ->
  take_while is_digit (print_nat n ++ c :: b) = print_nat n /\ drop_while is_digit (print_nat n ++ c :: b) = c :: b.
Proof.
  intros n c b E. pose proof (print_nat_digits n) as D. rewrite Forall_forall in D. split; [apply take_app|apply drop_app]; auto.
Qed.

Lemma match_written : forall c, proper c -> match_column (written c) = Some (c_name c, sub_of (c_at c)).
Proof.
  intros [v s t] [H1 [H2 [H3 H4]]]. cbn [c_name c_at c_type] in *. unfold written, match_column. cbn [c_name c_at c_type]. cbv zeta.
  assert (NV : forall x, In x v -> negb (Ascii.eqb x "[") = true).
  { intros x Hx. destruct (Ascii.eqb_spec x "["); auto. subst. tauto. }
  pose proof (type_end_ok t H3 H4) as T. set (ty := chars "(" ++ t ++ chars ")") in *. destruct s as [|i|i j]; cbn [brackets sub_of].
  - cbn [app]. rewrite drop_none.
    + unfold ty. now rewrite (scan_ok t v []).
    + intros x Hx. apply in_app_or in Hx as [Hx|Hx]; auto. rewrite Forall_forall in H4. unfold ty in Hx.
      apply in_app_or in Hx as [[<-|[]]|Hx]; [reflexivity|]. apply in_app_or in Hx as [Hx|[<-|[]]]; [|reflexivity].
      destruct (Ascii.eqb_spec x "["); auto. subst. specialize (H4 _ Hx). exfalso. eapply (alnum_not _ "["%char H4); reflexivity.
  - replace ((chars "[" ++ print_nat i ++ chars "]") ++ ty) with ("["%char :: print_nat i ++ "]"%char :: ty) by (cbn; now rewrite <- app_assoc).
    rewrite take_app, drop_app by auto. destruct v as [|v0 v']; [congruence|]. unfold subscript_end. cbv zeta.
    destruct (digits_of i "]"%char ty eq_refl) as [E1 E2]. rewrite E1, E2, T, print_nat_value.
    destruct (print_nat i) eqn:E; [now apply print_nat_nonempty in E|reflexivity].
  - replace ((chars "[" ++ print_nat i ++ chars "," ++ print_nat j ++ chars "]") ++ ty) with ("["%char :: print_nat i ++ ","%char :: print_nat j ++ "]"%char :: ty)
      by (cbn; rewrite <- !app_assoc; cbn; now rewrite <- !app_assoc).
    rewrite take_app, drop_app by auto. destruct v as [|v0 v']; [congruence|]. unfold subscript_end. cbv zeta.
    destruct (digits_of i ","%char (print_nat j ++ "]"%char :: ty) eq_refl) as [E1 E2]. rewrite E1, E2.
    destruct (digits_of j "]"%char ty eq_refl) as [E3 E4]. rewrite E3, E4, T, !print_nat_value.
    destruct (print_nat i) eqn:E; [now apply print_nat_nonempty in E|]. destruct (print_nat j) eqn:F; [now apply print_nat_nonempty in F|reflexivity].
Qed.

Lemma chars_inj : forall a b, string_of_list_ascii a = string_of_list_ascii b -> a = b.
Proof. intros a b H. rewrite <- (list_ascii_of_string_of_list_ascii a), <- (list_ascii_of_string_of_list_ascii b). now rewrite H. Qed.

Lemma label_inj : forall c c', proper c -> proper c' -> column_label c = column_label c' -> c_name c = c_name c' /\ c_at c = c_at c'.
Proof.
  intros c c' P P' E. unfold column_label in E. apply chars_inj in E.
  assert (Q : proper (mkColumn (c_name c') (c_at c') (c_type c))) by (destruct P as [_ [_ P]]; destruct P' as [P1 [P2 _]]; repeat split; cbn; try tauto).
  pose proof (match_written _ P) as M. pose proof (match_written _ Q) as M'. unfold written in *. cbn [c_name c_at c_type] in *.
  rewrite !app_assoc, <- E, <- !app_assoc, M in M'. injection M' as E1 E2. split; auto.
  destruct (c_at c), (c_at c'); cbn in E2; try discriminate; auto; injection E2; intros; subst; auto.
Qed.

(** *** Groups *)
Definition values {X} (v : list ascii) (l : list (list ascii * X)) : list X :=
  flat_map (fun p => if list_eq_dec ascii_dec (fst p) v then [snd p] else []) l.

Lemma add_to_ok : forall {X} v (x : X) g, NoDup (map fst g) -> NoDup (map fst (add_to v x g)) /\
  (forall w, In w (map fst (add_to v x g)) <-> w = v \/ In w (map fst g)) /\
  forall w l, In (w, l) (add_to v x g) <-> (w <> v /\ In (w, l) g) \/ (w = v /\ ((exists l', In (v, l') g /\ l = l' ++ [x]) \/ (~ In v (map fst g) /\ l = [x]))).
Proof.
  intros X v x. induction g as [|[u us] g IH]; intros N; cbn [add_to].
  - cbn. split; [constructor; [auto|constructor]|]. split; [intuition congruence|]. intros w l. split.
    + intros [E|[]]. injection E as <- <-. right. auto.
    + intros [[_ []]|[-> [[l' [[] _]]|[_ ->]]]]. auto.
  - cbn [map fst] in N. apply NoDup_cons_iff in N as [N1 N2]. unfold eqb_chars. destruct (list_eq_dec ascii_dec v u) as [->|D].
    + cbn [map fst]. split; [constructor; auto|]. split; [intros w; cbn; intuition congruence|]. intros w l. cbn [In]. split.
      * intros [E|H]; [injection E as <- <-; right; split; auto; left; exists us; auto|].
        left. split; [intros ->; apply N1; now apply (in_map fst) in H|auto].
      * intros [[D [E|H]]|[-> [[l' [[E|H] ->]]|[H _]]]].
        -- injection E as <- <-. congruence.
        -- auto.
        -- injection E as <-. auto.
        -- exfalso. apply N1. now apply (in_map fst) in H.
        -- exfalso. apply H. now left.
    + destruct (IH N2) as [I1 [I2 I3]]. cbn [map fst]. split; [constructor; auto; rewrite I2; intros [->|H]; [congruence|auto]|].
      split; [intros w; cbn [In]; rewrite I2; intuition congruence|]. intros w l. cbn [In]. rewrite I3. split.
      * intros [E|[[H1 H2]|[-> H]]].
        -- injection E as <- <-. left. split; auto.
        -- left. auto.
        -- right. split; auto. destruct H as [[l' [H1 H2]]|[H1 H2]]; [left; exists l'; auto|right; split; auto; intros [E|E]; congruence].
      * intros [[H1 [E|H2]]|[-> H]]; auto.
        right. right. split; auto. destruct H as [[l' [[E|H1] H2]]|[H1 H2]].
        -- injection E as <- <-. congruence.
        -- left. exists l'. auto.
        -- right. split; auto.
Qed.

Definition grouped {X} (l : list (list ascii * X)) : list (list ascii * list X) := fold_left (fun g p => add_to (fst p) (snd p) g) l [].
Lemma grouped_ok : forall {X} (l : list (list ascii * X)), NoDup (map fst (grouped l)) /\
  forall v xs, In (v, xs) (grouped l) <-> xs = values v l /\ xs <> [].
Proof.
  intros X l. unfold grouped. rewrite <- (fold_left_rev_right (fun p g => add_to (fst p) (snd p) g)).
  enough (G : forall m : list (list ascii * X), let g := fold_right (fun p g => add_to (fst p) (snd p) g) [] m in
    NoDup (map fst g) /\ forall v xs, In (v, xs) g <-> xs = values v (rev m) /\ xs <> []) by (specialize (G (rev l)); rewrite rev_involutive in G; exact G).
  clear l. intros m. cbv zeta. induction m as [|[v x] m IH]; cbn [fold_right fst snd].
  - split; [constructor|]. intros v xs. cbn. split; [intros []|intros [-> H]; congruence].
  - destruct IH as [I1 I2]. set (g := fold_right _ [] m) in *. destruct (add_to_ok v x g I1) as [A1 [A2 A3]]. split; [auto|].
    assert (V : forall w, values w (rev ((v, x) :: m)) = values w (rev m) ++ (if list_eq_dec ascii_dec v w then [x] else [])).
    { intros w. cbn [rev]. unfold values. rewrite flat_map_app. cbn. now rewrite app_nil_r. }
    intros w xs. rewrite A3, V, I2. split.
    + intros [[H1 [H2 H3]]|[-> H]].
      * destruct (list_eq_dec ascii_dec v w); [congruence|]. rewrite app_nil_r. auto.
      * destruct (list_eq_dec ascii_dec v v); [|congruence]. destruct H as [[l' [H1 ->]]|[H1 ->]].
        -- apply I2 in H1 as [-> H1]. split; auto. intros E. apply app_eq_nil in E. now destruct E.
        -- split; [|discriminate]. destruct (values v (rev m)) as [|y r] eqn:E; auto. exfalso. apply H1.
           assert (G : In (v, y :: r) g) by (apply I2; rewrite E; split; [auto|discriminate]). now apply (in_map fst) in G.
    + intros [H1 H2]. destruct (list_eq_dec ascii_dec v w) as [<-|D].
      * right. split; auto. destruct (values v (rev m)) as [|y r] eqn:E.
        -- right. split; auto. intros G. apply in_map_iff in G as [[w' ys] [E' G]]. cbn in E'. subst w'. apply I2 in G as [-> G]. congruence.
        -- left. exists (y :: r). split; auto. apply I2. rewrite E. split; [auto|discriminate].
      * rewrite app_nil_r in H1. left. auto.
Qed.

Definition mats (h : list column) : list (list ascii * (nat * nat)) :=
  flat_map (fun c => match c_at c with Two i j => [(c_name c, (i, j))] | _ => [] end) h.
Definition vecs (h : list column) : list (list ascii * nat) :=
  flat_map (fun c => match c_at c with One i => [(c_name c, i)] | _ => [] end) h.

Lemma all_matrices_ok : forall h, Forall proper h -> all_matrices (map written h) = grouped (mats h).
Proof.
  intros h H. unfold all_matrices, grouped. generalize (@nil (list ascii * list (nat * nat))). induction H as [|c h Hc H IH]; intros g; simpl; auto.
  rewrite match_written by auto. destruct (c_at c) eqn:E; simpl; auto.
Qed.
Lemma all_vectors_ok : forall h, Forall proper h -> all_vectors (map written h) = grouped (vecs h).
Proof.
  intros h H. unfold all_vectors, grouped. generalize (@nil (list ascii * list nat)). induction H as [|c h Hc H IH]; intros g; simpl; auto.
  rewrite match_written by auto. destruct (c_at c) eqn:E; simpl; auto.
Qed.
Lemma pairs_values : forall v h, values v (mats h) = pairs_of v h.
Proof.
  intros v. unfold values, mats, pairs_of. induction h as [|c h IH]; simpl; auto. rewrite flat_map_app, IH. f_equal.
  destruct (c_at c); simpl; destruct (list_eq_dec ascii_dec (c_name c) v); auto.
Qed.
Lemma numbers_values : forall v h, values v (vecs h) = numbers_of v h.
Proof.
  intros v. unfold values, vecs, numbers_of. induction h as [|c h IH]; simpl; auto. rewrite flat_map_app, IH. f_equal.
  destruct (c_at c); simpl; destruct (list_eq_dec ascii_dec (c_name c) v); auto.
Qed.

Lemma pairs_In : forall v h i j, In (i, j) (pairs_of v h) <-> exists c, In c h /\ c_name c = v /\ c_at c = Two i j.
Proof.
  intros v h i j. unfold pairs_of. rewrite in_flat_map. split.
  - intros [c [H1 H2]]. exists c. destruct (list_eq_dec ascii_dec (c_name c) v); [|destruct H2]. destruct (c_at c); try destruct H2 as []; auto.
    injection H as -> ->. auto. destruct H.
  - intros [c [H1 [H2 H3]]]. exists c. split; auto. destruct (list_eq_dec ascii_dec (c_name c) v); [|congruence]. rewrite H3. now left.
Qed.
Lemma numbers_In : forall v h i, In i (numbers_of v h) <-> exists c, In c h /\ c_name c = v /\ c_at c = One i.
Proof.
  intros v h i. unfold numbers_of. rewrite in_flat_map. split.
  - intros [c [H1 H2]]. exists c. destruct (list_eq_dec ascii_dec (c_name c) v); [|destruct H2]. destruct (c_at c); try destruct H2 as []; auto.
    subst. auto. destruct H.
  - intros [c [H1 [H2 H3]]]. exists c. split; auto. destruct (list_eq_dec ascii_dec (c_name c) v); [|congruence]. rewrite H3. now left.
Qed.

Lemma pairs_NoDup : forall v h, NoDup (map column_label h) -> NoDup (pairs_of v h).
Proof.
  intros v. induction h as [|c h IH]; intros N; [constructor|]. cbn [map] in N. apply NoDup_cons_iff in N as [N1 N2]. unfold pairs_of. cbn [flat_map].
  fold (pairs_of v h). destruct (list_eq_dec ascii_dec (c_name c) v) as [E|]; [|simpl; auto]. destruct (c_at c) as [| |i j] eqn:F; simpl; auto.
  constructor; auto. intros G. apply pairs_In in G as [c' [G1 [G2 G3]]]. apply N1. apply in_map_iff. exists c'. split; auto.
  unfold column_label. congruence.
Qed.

(** A matrix of the header: sizes, sorted indices. *)
Lemma set_of_seq : forall l n, (forall x, In x l <-> In x (seq 1 n)) -> length (int_set l) = n.
Proof.
  intros l n H. rewrite <- (seq_length n 1). apply Permutation_length. apply NoDup_Permutation; [apply NoDup_nodup|apply seq_NoDup|].
  intros x. rewrite int_set_In. apply H.
Qed.
Lemma matrix_sizes : forall l m n, 0 < m -> 0 < n -> Permutation l (list_prod (seq 1 m) (seq 1 n)) ->
  length (int_set (map fst l)) = m /\ length (int_set (map snd l)) = n /\ sort_by pair_ltb l = list_prod (seq 1 m) (seq 1 n).
Proof.
  intros l m n Hm Hn P. assert (I : forall i j, In (i, j) l <-> In i (seq 1 m) /\ In j (seq 1 n)).
  { intros i j. rewrite <- in_prod_iff. split; apply Permutation_in; auto. now apply Permutation_sym. }
  split; [|split].
  - apply set_of_seq. intros x. rewrite in_map_iff. split.
    + intros [[i j] [<- H]]. now apply I in H.
    + intros H. exists (x, 1). split; auto. apply I. split; auto. apply in_seq. lia.
  - apply set_of_seq. intros x. rewrite in_map_iff. split.
    + intros [[i j] [<- H]]. now apply I in H.
    + intros H. exists (1, x). split; auto. apply I. split; auto. apply in_seq. lia.
  - apply (ascending_unique pair_lt); unfold pair_lt; try (intros; lia).
    + apply (sort_sorted (nat * nat) pair_ltb pair_lt (fun _ => True)).
      * unfold pair_lt. intros; lia.
      * intros [i j] [i' j'] _ _. unfold pair_ltb, pair_lt. cbn [fst snd].
        destruct (Nat.ltb_spec i i') as [L|L]; cbn [orb]; [right; left; split; auto; lia|].
        destruct (Nat.eqb_spec i i') as [E|E]; cbn [andb]; [|right; right; split; auto; lia].
        destruct (Nat.ltb_spec j j') as [M|M]; [right; left; split; auto; lia|].
        destruct (Nat.eq_dec j j'); [left; congruence|right; right; split; auto; lia].
      * rewrite Forall_forall. auto.
      * apply (Permutation_NoDup (Permutation_sym P)). apply NoDup_list_prod; apply seq_NoDup.
    + assert (SS : forall n s, StronglySorted lt (seq s n)).
      { induction n0 as [|k IH]; intros s; simpl; constructor; auto. rewrite Forall_forall. intros x Hx. apply in_seq in Hx. lia. }
      now apply prod_sorted.
    + intros [i j]. split; intros H.
      * apply (Permutation_in _ (sort_by_perm _ _)) in H. now apply (Permutation_in _ P).
      * apply (Permutation_in _ (Permutation_sym (sort_by_perm _ _))). now apply (Permutation_in _ (Permutation_sym P)).
Qed.
Lemma vector_sorted : forall l n, Permutation l (seq 1 n) -> length l = n /\ sort_by Nat.ltb l = seq 1 n.
Proof.
  intros l n P. split; [now rewrite (Permutation_length P), seq_length|].
  apply (ascending_unique lt); try (intros; lia).
  - apply sort_nat_sorted. apply (Permutation_NoDup (Permutation_sym P)). apply seq_NoDup.
  - clear. generalize 1. induction n as [|k IH]; intros s; simpl; constructor; auto. rewrite Forall_forall. intros x Hx. apply in_seq in Hx. lia.
  - intros i. split; intros H.
    + apply (Permutation_in _ (sort_by_perm _ _)) in H. now apply (Permutation_in _ P).
    + apply (Permutation_in _ (Permutation_sym (sort_by_perm _ _))). now apply (Permutation_in _ (Permutation_sym P)).
Qed.

(** *** All groups one after the other *)
Section All.
Context {A : Type}.
Variable common : list dtype -> dtype.
Variable cast : dtype -> A -> A.

Record group : Type := mkGroup { g_to : string; g_names : list string; g_tail : list dim }.
Fixpoint gather_all (gs : list group) (d : ddict (hf A)) : result (ddict (hf A)) :=
  match gs with [] => Ok d | g :: gs' => do d' <- gather common cast (g_to g) (g_names g) (g_tail g) d; gather_all gs' d' end.
Definition target_of (gs : list group) (k : string) : string :=
  match find (fun g => l_in k (g_names g)) gs with Some g => g_to g | None => k end.

Lemma gather_all_app : forall gs gs' d, gather_all (gs ++ gs') d = do d' <- gather_all gs d; gather_all gs' d'.
Proof. induction gs as [|g gs IH]; intros gs' d; simpl; auto. destruct (gather _ _ _ _ _ d); simpl; auto. Qed.

Lemma gather_all_ok : forall gs (d : ddict (hf A)) fi, Inv d -> NoDup (map g_to gs) ->
  (forall g, In g gs -> NoDup (g_names g) /\ g_names g <> [] /\ ~ In (g_to g) (dd_order d) /\
     (forall k, In k (g_names g) -> exists x, pd_get k (dd_map d) = Some x /\ wf x /\ h_dims x = [fi]) /\
     prodn (lens (g_tail g)) = length (g_names g) /\ NoDup (map key (fi :: g_tail g))) ->
  (forall g g' k, In g gs -> In g' gs -> In k (g_names g) -> In k (g_names g') -> g = g') ->
  exists d', gather_all gs d = Ok d' /\ Inv d' /\ dd_order d' = firsts (map (target_of gs) (dd_order d)) /\
    (forall k, (forall g, In g gs -> ~ In k (g_names g) /\ k <> g_to g) -> pd_get k (dd_map d') = pd_get k (dd_map d)) /\
    (forall g, In g gs -> exists y, pd_get (g_to g) (dd_map d') = Some y /\ wf y /\ h_dims y = fi :: g_tail g /\
       forall k x r ix, inb (lens (g_tail g)) ix = true -> nth_error (g_names g) (ravel (lens (g_tail g)) ix) = Some k -> pd_get k (dd_map d) = Some x ->
         nd_get (h_nd y) (r :: ix) = option_map (cast (h_dt y)) (nd_get (h_nd x) [r])).
Proof.
  induction gs as [|g gs IH]; intros d fi HI ND HG HD.
  - exists d. simpl. split; auto. split; auto. split; [|split; [auto|intros g []]]. unfold target_of. simpl. rewrite map_id. symmetry. apply firsts_id. apply HI.
  - cbn [map] in ND. apply NoDup_cons_iff in ND as [ND1 ND2].
    destruct (HG g (or_introl eq_refl)) as [G1 [G2 [G3 [G4 [G5 G6]]]]].
    destruct (gather_ok common cast (g_to g) (g_names g) (g_tail g) d fi HI G1 G2 G3 G4 G5 G6) as [d1 [y [E1 [E2 [E3 [E4 [E5 [E6 [E7 E8]]]]]]]]].
    cbn [gather_all]. rewrite E1. cbn [bind].
    assert (IO : forall g' k, In g' (g :: gs) -> In k (g_names g') -> In k (dd_order d)).
    { intros g' k Hg Hk. destruct (HG g' Hg) as [_ [_ [_ [H _]]]]. destruct (H k Hk) as [x [Ex _]]. now apply (get_order d k x). }
    assert (Sep : forall g' k, In g' gs -> In k (g_names g') -> ~ In k (g_names g) /\ k <> g_to g).
    { intros g' k Hg Hk. split.
      - intros Hk'. assert (g = g') by (apply (HD g g' k); simpl; auto). subst g'. apply ND1. now apply in_map.
      - intros ->. apply G3. apply (IO g'); simpl; auto. }
    destruct (IH d1 fi) as [d' [F1 [F2 [F3 [F4 F5]]]]]; auto.
    + intros g' Hg. destruct (HG g') as [K1 [K2 [K3 [K4 [K5 K6]]]]]; [now right|]. split; auto. split; auto. split; [|split; [|auto]].
      * rewrite E3, firsts_In, in_map_iff. intros [k [Q1 Q2]]. destruct (l_in k (g_names g)).
        -- apply ND1. rewrite Q1. now apply in_map.
        -- subst k. auto.
      * intros k Hk. destruct (K4 k Hk) as [x [X1 X2]]. exists x. split; auto. destruct (Sep g' k Hg Hk). rewrite E4; auto.
    + intros g1 g2 k H1 H2. apply HD; now right.
    + exists d'. split; auto. split; auto. split; [|split].
      * rewrite F3, E3, firsts_map, map_map. apply firsts_same. intros k Hk. unfold target_of. cbn [find]. destruct (l_in k (g_names g)) eqn:L; auto.
        destruct (find (fun g0 => l_in (g_to g) (g_names g0)) gs) as [g'|] eqn:F; auto. apply find_some in F as [Q1 Q2]. apply l_in_In in Q2.
        exfalso. apply G3. apply (IO g'); simpl; auto.
      * intros k Hk. rewrite F4 by (intros; apply Hk; now right). destruct (Hk g (or_introl eq_refl)). now apply E4.
      * intros g' [<-|Hg].
        -- exists y. rewrite F4; auto. intros g' Hg. split; [|intros Q; apply ND1; rewrite Q; now apply in_map].
           intros Hk. now apply (Sep g' (g_to g) Hg Hk).
        -- destruct (F5 g' Hg) as [z [Z1 [Z2 [Z3 Z4]]]]. exists z. split; auto. split; auto. split; auto. intros k x r ix H1 H2 H3. apply (Z4 k x); auto.
           apply nth_error_In in H2. destruct (Sep g' k Hg H2). rewrite E4; auto.
Qed.

(** The groups that make_matrices goes through. *)
Definition matrix_group (p : list ascii * list (nat * nat)) : group :=
  mkGroup (string_of_list_ascii (fst p)) (map (fun q => matrix_column (fst p) (fst q) (snd q)) (sort_by pair_ltb (snd p)))
    [mdim_i (length (int_set (map fst (snd p)))); mdim_j (length (int_set (map snd (snd p))))].
Definition vector_group (p : list ascii * list nat) : group :=
  mkGroup (string_of_list_ascii (fst p)) (map (vector_column (fst p)) (sort_by Nat.ltb (snd p))) [mdim_j (length (snd p))].

Lemma make_all : forall ordm ordv header (d : ddict (hf A)), make_matrices common cast ordm ordv header d =
  gather_all (map matrix_group (ordm (match_matrices header)) ++ map vector_group (ordv (match_vectors header))) d.
Proof.
  intros ordm ordv header d. unfold make_matrices. rewrite gather_all_app.
  assert (E1 : forall g d, each_group (gather_matrix common cast) g d = gather_all (map matrix_group g) d).
  { induction g as [|[v l] g IH]; intros d0; simpl; auto. unfold gather_matrix. destruct (gather _ _ _ _ _ d0); simpl; auto. }
  assert (E2 : forall g d, each_group (gather_vector common cast) g d = gather_all (map vector_group g) d).
  { induction g as [|[v l] g IH]; intros d0; simpl; auto. unfold gather_vector. destruct (gather _ _ _ _ _ d0); simpl; auto. }
  rewrite E1. destruct (gather_all _ d); simpl; auto.
Qed.
End All.
