(** C23: matrix variables are split into variables for their elements and joined
    again. *)
From Coq Require Import Ascii String List Arith ZArith Bool Lia Permutation Sorted.
From Verif Require Import Model_NdArray Proofs_NdArray Model_Dim Proofs_Dim Model_Array Spec_Array Proofs_Array Proofs_Array2 Model_DataDict
  Spec_DataDict Proofs_DataDict Model_Text Proofs_Text Model_Block Spec_Block Proofs_Block Proofs_Block2 Proofs_Block3 Model_MatNames
  Proofs_MatNames Prop_MatNames Model_Elements Spec_Elements Proofs_Elements Proofs_Elements2 Prop_Array Prop_Block.
Import ListNotations.
Local Open Scope string_scope.
Local Open Scope nat_scope.
Local Open Scope list_scope.

(** Splitting replaces each matrix by its elements, row by row, under the names
    the format function gives, and keeps all other variables. *)
Theorem C23_split : forall {A} (lab : A -> label) fmt (b : block A) vs, dd_items (b_var b) = Ok vs ->
  Forall (fun p => ismatrix (snd p) = false \/ exists ds ni nj, matrix_of (snd p) ds ni nj) vs ->
  NoDup (flat_map (split_names fmt) vs) -> plain_names (flat_map (split_names fmt) vs) (dim_names vs) ->
  exists c outs, convert_to_elements lab fmt b = Ok c /\ Forall2 (split_into fmt) vs outs /\ dd_items (b_var c) = Ok (concat outs).
Proof.
  intros A lab fmt b vs H1 H2 H3 H4. destruct (convert_ok lab fmt b vs H1 H2 H3 H4) as [c [outs [C1 [C2 [C3 [C4 C5]]]]]].
  exists c, outs. split; auto. split; auto. rewrite items_abs by apply C3. now rewrite C4.
Qed.
Print Assumptions C23_split.

Lemma assoc_get : forall {V} (l : list (string * V)) k v, NoDup (map fst l) -> In (k, v) l -> pd_get k l = Some v.
Proof.
  induction l as [|[k0 v0] l IH]; intros k v N H; [destruct H|]. cbn in *. apply NoDup_cons_iff in N as [N1 N2]. destruct H as [H|H].
  - injection H as -> ->. now rewrite String.eqb_refl.
  - destruct (String.eqb_spec k k0) as [->|]; [|now apply IH]. exfalso. apply N1. now apply (in_map fst) in H.
Qed.
Lemma get_assoc : forall {V} (l : list (string * V)) k v, pd_get k l = Some v -> In (k, v) l.
Proof.
  induction l as [|[k0 v0] l IH]; intros k v H; [discriminate|]. cbn in *. destruct (String.eqb_spec k k0) as [->|]; [injection H as ->; auto|auto].
Qed.
Lemma NoDup_flat_map' : forall {X Y} (f : X -> list Y) l, (forall x, In x l -> NoDup (f x)) ->
  (forall x y z, In x l -> In y l -> In z (f x) -> In z (f y) -> x = y) -> NoDup l -> NoDup (flat_map f l).
Proof.
  intros X Y f l. induction l as [|x l IH]; intros H1 H2 N; simpl; [constructor|]. apply NoDup_cons_iff in N as [N1 N2].
  assert (Ap : forall (l1 l2 : list Y), NoDup l1 -> NoDup l2 -> (forall z, In z l1 -> ~ In z l2) -> NoDup (l1 ++ l2)).
  { clear. induction l1 as [|a l1 IH]; intros l2 A1 A2 A3; auto. apply NoDup_cons_iff in A1 as [B1 B2]. simpl. constructor.
    - rewrite in_app_iff. intros [H|H]; auto. apply (A3 a); [now left|auto].
    - apply IH; auto. intros z Hz. apply A3. now right. }
  apply Ap.
  - apply H1. now left.
  - apply IH; auto. intros y Hy. apply H1. now right. intros. apply (H2 x0 y z); auto; now right.
  - intros z Hz H. apply in_flat_map in H as [y [Hy H]]. apply N1. assert (x = y) as -> by (apply (H2 x y z); auto; [now left|now right]). auto.
Qed.

Lemma NoDup_map_intro : forall {X Y} (f : X -> Y) l, NoDup l -> (forall a b, In a l -> In b l -> f a = f b -> a = b) -> NoDup (map f l).
Proof.
  intros X Y f l. induction l as [|a l IH]; intros N H; [constructor|]. cbn [map]. apply NoDup_cons_iff in N as [N1 N2]. constructor.
  - intros C. apply in_map_iff in C as [b [E C]]. apply N1. rewrite (H a b); auto; [now left|now right].
  - apply IH; auto. intros x y Hx Hy. apply H; now right.
Qed.
Lemma seq_sorted : forall n s, StronglySorted lt (seq s n).
Proof. induction n as [|n IH]; intros s; simpl; constructor; auto. rewrite Forall_forall. intros k H. apply in_seq in H. lia. Qed.

Lemma lettered_alpha : forall k, lettered k -> chars k <> [] /\ Forall (fun c => is_alpha c = true) (chars k).
Proof.
  intros k [H1 H2]. split; [intros E; apply H1; now apply chars_inj|]. revert H2. apply Forall_impl. intros c H. unfold is_alpha. cbn zeta in *.
  rewrite !orb_true_iff, !andb_true_iff, !Nat.leb_le, Nat.eqb_eq. tauto.
Qed.
Lemma element_chars : forall k i j, i < 10 -> j < 10 -> chars (element_name k i j) = chars k ++ [digit_char i; digit_char j].
Proof.
  intros k i j Hi Hj. unfold element_name, chars. rewrite list_ascii_of_string_of_list_ascii. f_equal.
  assert (P : forall n, n < 10 -> print_nat n = [digit_char n]) by (intros n Hn; do 10 (destruct n as [|n]; [reflexivity|]); lia).
  now rewrite !P.
Qed.
Lemma element_match : forall k i j, lettered k -> i < 10 -> j < 10 -> elem_match (chars (element_name k i j)) = Some (chars k, i, j).
Proof. intros k i j H Hi Hj. destruct (lettered_alpha k H). apply C49_pattern. rewrite element_chars by auto. auto. Qed.
Lemma element_inj : forall k i j k' i' j', lettered k -> lettered k' -> i < 10 -> j < 10 -> i' < 10 -> j' < 10 ->
  element_name k i j = element_name k' i' j' -> k = k' /\ i = i' /\ j = j'.
Proof.
  intros k i j k' i' j' L L' Hi Hj Hi' Hj' E. pose proof (element_match k i j L Hi Hj) as M. rewrite E, (element_match k' i' j' L' Hi' Hj') in M.
  injection M as M -> ->. split; auto. now apply chars_inj.
Qed.
Lemma lettered_no_match : forall k, lettered k -> elem_match (chars k) = None.
Proof.
  intros k L. destruct (elem_match (chars k)) as [[[v i] j]|] eqn:E; auto. apply C49_pattern in E as [_ [_ [Hi [_ E]]]].
  destruct (lettered_alpha k L) as [_ H]. rewrite E, Forall_app in H. destruct H as [_ H]. apply Forall_inv in H.
  destruct (digit_char_is i Hi) as [D _]. exfalso. revert H D. generalize (digit_char i). clear. intros c H D.
  unfold is_alpha, is_digit in *. cbn zeta in *. apply andb_prop in D as [D1 D2]. apply Nat.leb_le in D1, D2.
  rewrite !orb_true_iff, !andb_true_iff, !Nat.leb_le, Nat.eqb_eq in H. lia.
Qed.
Lemma lettered_plain : forall k, lettered k -> is_matrix_name k = None.
Proof.
  intros k L. destruct (lettered_alpha k L) as [_ H]. unfold is_matrix_name. destruct (chars k) as [|c l] eqn:E; auto.
  assert (S0 : forall l pre, Forall (fun c => is_alpha c = true) l -> scan_name pre l = None).
  { clear. intros l. induction l as [|c l IH]; intros pre H; auto. pose proof (Forall_inv H) as Hc. pose proof (Forall_inv_tail H) as Hl.
    cbn [scan_name]. unfold is_word. rewrite Hc. cbn [orb negb]. rewrite IH by auto.
    assert (D : forall c, is_alpha c = true -> is_digit c = false).
    { clear. intros c H. destruct (is_digit c) eqn:D; auto. unfold is_alpha, is_digit in *. cbn zeta in *. apply andb_prop in D as [D1 D2].
      apply Nat.leb_le in D1, D2. rewrite !orb_true_iff, !andb_true_iff, !Nat.leb_le, Nat.eqb_eq in H. lia. }
    destruct pre as [|p pre]; auto; destruct l as [|c2 l]; rewrite ?(D c Hc), ?andb_false_r; auto. }
  rewrite S0 by auto. now destruct (is_alpha c).
Qed.

Definition row_major (k : string) (ni nj : nat) : list string :=
  map (fun ij => element_name k (fst ij) (snd ij)) (list_prod (seq 1 ni) (seq 1 nj)).
Definition to_group (p : list ascii * (list (list ascii) * list nat * list nat)) : group :=
  (string_of_list_ascii (fst p), (map string_of_list_ascii (fst (fst (snd p))), length (snd (fst (snd p))), length (snd (snd p)))).
Lemma build_loop_groups : forall {A} (lab : A -> label) junk g b, build_loop lab junk g b = build_groups lab junk (map to_group g) b.
Proof.
  intros A lab junk. induction g as [|[v [[es is] js]] g IH]; intros b; auto. cbn [build_loop map build_groups to_group g_elems g_ni g_nj fst snd].
  destruct (build_one _ _ _ _ _ _ _); cbn [bind]; auto.
Qed.

(** Not of the form: letters, digit, digit. *)
Definition not_element (k : string) : Prop := forall s i j, lettered s -> i < 10 -> j < 10 -> k <> element_name s i j.
Lemma not_element_match : forall k, not_element k -> elem_match (chars k) = None.
Proof.
  intros k N. destruct (elem_match (chars k)) as [[[v i] j]|] eqn:E; auto. apply C49_pattern in E as [E1 [E2 [Hi [Hj E3]]]]. exfalso.
  apply (N (string_of_list_ascii v) i j); auto.
  - split; [intros H; apply E1; rewrite <- (list_ascii_of_string_of_list_ascii v), H; reflexivity|].
    unfold chars. rewrite list_ascii_of_string_of_list_ascii. revert E2. apply Forall_impl. intros c H. unfold is_alpha in H. cbn zeta in *.
    rewrite !orb_true_iff, !andb_true_iff, !Nat.leb_le, Nat.eqb_eq in H. tauto.
  - apply chars_inj. rewrite E3, element_chars by auto. unfold chars. now rewrite list_ascii_of_string_of_list_ascii.
Qed.

(** Variables that survive the round trip: matrices named by letters, with at
    most nine rows and columns and more than one element, and variables that are
    not matrices and not named like elements. *)
Definition survives {A} (p : string * hf A) : Prop :=
  if ismatrix (snd p)
  then lettered (fst p) /\ exists ds ni nj, matrix_of (snd p) ds ni nj /\ ni <= 9 /\ nj <= 9 /\ 1 < ni * nj
  else not_element (fst p).

Lemma survives_split : forall {A} (vs : list (string * hf A)), Forall survives vs -> Forall can_split vs.
Proof.
  intros A vs. apply Forall_impl. intros [k x] H. unfold survives, can_split in *. cbn [fst snd] in *. destruct (ismatrix x); auto.
  destruct H as [_ [ds [ni [nj [H _]]]]]. right. eauto.
Qed.

Lemma split_cases : forall {A} (p : string * hf A) n, survives p -> In n (split_names element_name p) ->
  (ismatrix (snd p) = false /\ n = fst p /\ elem_match (chars n) = None) \/
  (ismatrix (snd p) = true /\ exists i j, In (i, j) (list_prod (seq 1 (axis_len (snd p) "i")) (seq 1 (axis_len (snd p) "j"))) /\
     n = element_name (fst p) i j /\ elem_match (chars n) = Some (chars (fst p), i, j)).
Proof.
  intros A [k x] n S0 H. unfold survives, split_names in *. cbn [fst snd] in *. destruct (ismatrix x).
  - right. split; auto. destruct S0 as [L [ds [ni [nj [M [Hi [Hj Hn]]]]]]]. destruct (matrix_axes x ds ni nj M) as [_ [Ai [Aj _]]]. rewrite Ai, Aj in *.
    apply in_map_iff in H as [[i j] [<- H]]. cbn [fst snd]. exists i, j. split; auto. split; auto. apply in_prod_iff in H as [H1 H2]. apply in_seq in H1, H2.
    apply element_match; auto; lia.
  - left. destruct H as [<-|[]]. split; auto. split; auto. now apply not_element_match.
Qed.

Lemma fst_inj : forall {X Y} (l : list (X * Y)) k a b, NoDup (map fst l) -> In (k, a) l -> In (k, b) l -> a = b.
Proof.
  induction l as [|[k0 v0] l IH]; intros k a b N Ha Hb; [destruct Ha|]. cbn in N. apply NoDup_cons_iff in N as [N1 N2].
  destruct Ha as [Ha|Ha], Hb as [Hb|Hb]; try congruence.
  - injection Ha as -> ->. exfalso. apply N1. now apply (in_map fst) in Hb.
  - injection Hb as -> ->. exfalso. apply N1. now apply (in_map fst) in Ha.
  - now apply (IH k).
Qed.

Lemma split_NoDup : forall {A} (vs : list (string * hf A)), Forall survives vs -> NoDup (map fst vs) -> NoDup (flat_map (split_names element_name) vs).
Proof.
  intros A vs HS ND. rewrite Forall_forall in HS. apply NoDup_flat_map'.
  - intros [k x] H. specialize (HS _ H). unfold split_names. unfold survives in HS. cbn [fst snd] in *. destruct (ismatrix x); [|repeat constructor; auto].
    destruct HS as [L [ds [ni [nj [M [Hi [Hj Hn]]]]]]]. destruct (matrix_axes x ds ni nj M) as [_ [Ai [Aj _]]]. rewrite Ai, Aj.
    assert (NP : NoDup (list_prod (seq 1 ni) (seq 1 nj))) by (apply NoDup_list_prod; apply seq_NoDup).
    apply NoDup_map_intro; auto. intros [i j] [i' j'] H1 H2 E. apply in_prod_iff in H1 as [H1 H1'], H2 as [H2 H2']. apply in_seq in H1, H1', H2, H2'. cbn [fst snd] in E.
    apply element_inj in E as [_ [-> ->]]; auto; lia.
  - intros [k x] [k' x'] n H H' Hn Hn'. destruct (split_cases _ n (HS _ H) Hn) as [[C1 [C2 C3]]|[C1 [i [j [C2 [C3 C4]]]]]];
      destruct (split_cases _ n (HS _ H') Hn') as [[D1 [D2 D3]]|[D1 [i' [j' [D2 [D3 D4]]]]]]; cbn [fst snd] in *; try congruence.
    + rewrite <- C2, <- D2 in *. f_equal. now apply (fst_inj vs n).
    + assert (k = k') as -> by (apply chars_inj; congruence). f_equal. now apply (fst_inj vs k').
  - apply (NoDup_map_inv fst). auto.
Qed.

(** What the reader recognises in the names after splitting: exactly the
    matrices. *)
Lemma groups_exact : forall {A} (vs : list (string * hf A)), Forall survives vs -> NoDup (map fst vs) ->
  let G := map to_group (match_matrix_elements (map chars (flat_map (split_names element_name) vs)) elem_match) in
  NoDup (map fst G) /\
  (forall k x, In (k, x) vs -> ismatrix x = true -> In (k, (row_major k (axis_len x "i") (axis_len x "j"), axis_len x "i", axis_len x "j")) G) /\
  (forall g, In g G -> exists k x, In (k, x) vs /\ ismatrix x = true /\
      g = (k, (row_major k (axis_len x "i") (axis_len x "j"), axis_len x "i", axis_len x "j"))).
Proof.
  intros A vs HS ND G. pose proof (split_NoDup vs HS ND) as NS. set (names := flat_map (split_names element_name) vs) in *.
  set (M := match_matrix_elements (map chars names) elem_match) in *.
  assert (NC : NoDup (map chars names)) by (apply NoDup_map_intro; auto; intros x y _ _; apply chars_inj).
  assert (U : forall n m r, In n (map chars names) -> In m (map chars names) -> elem_match n = Some r -> elem_match m = Some r -> n = m)
    by (intros n m r _ _; apply C49_pattern_unique).
  rewrite Forall_forall in HS.
  assert (Own : forall n v i j, In n names -> elem_match (chars n) = Some (v, i, j) -> exists k x, In (k, x) vs /\ ismatrix x = true /\ v = chars k /\
     In (i, j) (list_prod (seq 1 (axis_len x "i")) (seq 1 (axis_len x "j"))) /\ n = element_name k i j).
  { intros n v i j Hn Hm. apply in_flat_map in Hn as [[k x] [H1 H2]]. destruct (split_cases _ n (HS _ H1) H2) as [[C1 [C2 C3]]|[C1 [i' [j' [C2 [C3 C4]]]]]]; [congruence|].
    cbn [fst snd] in *. rewrite C4 in Hm. injection Hm as <- <- <-. exists k, x. auto. }
  assert (T : forall k x, In (k, x) vs -> ismatrix x = true ->
     In (chars k, (map chars (row_major k (axis_len x "i") (axis_len x "j")), seq 1 (axis_len x "i"), seq 1 (axis_len x "j"))) M).
  { intros k x Hk Hx. pose proof (HS _ Hk) as S0. unfold survives in S0. cbn [fst snd] in S0. rewrite Hx in S0.
    destruct S0 as [L [ds [ni [nj [Mx [Hi [Hj Hn]]]]]]]. destruct (matrix_axes x ds ni nj Mx) as [_ [Ai [Aj _]]]. rewrite Ai, Aj.
    apply C49_match; auto. split; [apply seq_sorted|]. split; [apply seq_sorted|]. unfold row_major. split; [|split; [|split]].
    - rewrite !map_length, prod_length, !seq_length. lia.
    - intros n H. apply in_map_iff in H as [m [<- H]]. apply in_map. apply in_flat_map. exists (k, x). split; auto. unfold split_names. cbn [fst snd].
      now rewrite Hx, Ai, Aj.
    - intros n i j Hn' Hm. apply in_map_iff in Hn' as [m [<- Hm']]. destruct (Own m _ _ _ Hm' Hm) as [k' [x' [O1 [O2 [O3 [O4 O5]]]]]].
      apply chars_inj in O3. subst k'. assert (x' = x) as -> by now apply (fst_inj vs k). rewrite Ai, Aj in O4. apply in_map. apply in_map_iff. exists (i, j). auto.
    - rewrite !map_map. apply map_ext_in. intros [i j] H. apply in_prod_iff in H as [H1 H2]. apply in_seq in H1, H2. cbn [fst snd]. apply element_match; auto; lia. }
  assert (KM : forall g, In g M -> exists k x, In (k, x) vs /\ ismatrix x = true /\
      g = (chars k, (map chars (row_major k (axis_len x "i") (axis_len x "j")), seq 1 (axis_len x "i"), seq 1 (axis_len x "j")))).
  { intros [v [[es is] js]] Hg. pose proof (proj1 (C49_match _ _ _ _ _ _ NC U) Hg) as [_ [_ [Ln [I1 [_ I3]]]]].
    destruct es as [|e es]; [simpl in Ln; lia|]. destruct (list_prod is js) as [|[i j] r]; [discriminate|]. injection I3 as I3 _.
    specialize (I1 e (or_introl eq_refl)). apply in_map_iff in I1 as [n [<- Hn]]. destruct (Own n _ _ _ Hn I3) as [k [x [O1 [O2 [O3 _]]]]].
    exists k, x. split; auto. split; auto. cbn [fst] in O3. subst v. f_equal. apply (fst_inj M (chars k)); auto. apply C49_keys. }
  assert (Str : forall l, map string_of_list_ascii (map chars l) = l).
  { intros l. rewrite map_map. rewrite <- (map_id l) at 2. apply map_ext. intros a. apply string_of_list_ascii_of_string. }
  assert (TG : forall k x, to_group (chars k, (map chars (row_major k (axis_len x "i") (axis_len x "j")), seq 1 (axis_len x "i"), seq 1 (axis_len x "j"))) =
    (k, (row_major k (@axis_len A x "i") (axis_len x "j"), axis_len x "i", axis_len x "j"))).
  { intros k x. unfold to_group. cbn [fst snd]. rewrite Str, !seq_length. f_equal. apply string_of_list_ascii_of_string. }
  split; [|split].
  - unfold G. rewrite map_map. unfold to_group. cbn [fst].
    assert (E : map (fun p : list ascii * (list (list ascii) * list nat * list nat) => string_of_list_ascii (fst p)) M = map string_of_list_ascii (map fst M)) by (rewrite map_map; auto).
    rewrite E. apply NoDup_map_intro; [apply C49_keys|]. intros a b _ _ H. apply (f_equal list_ascii_of_string) in H. now rewrite !list_ascii_of_string_of_list_ascii in H.
  - intros k x Hk Hx. rewrite <- TG. apply in_map. auto.
  - intros g Hg. apply in_map_iff in Hg as [m [<- Hm]]. destruct (KM m Hm) as [k [x [K1 [K2 ->]]]]. exists k, x. rewrite TG. auto.
Qed.

(** Splitting into elements and building matrices again gives back every
    matrix, keeps every other variable and adds none. *)
Theorem C23_roundtrip : forall {A} (lab : A -> label) junk (b : block A) vs, dd_items (b_var b) = Ok vs -> NoDup (map fst vs) ->
  Forall survives vs -> plain_names (flat_map (split_names element_name) vs) (dim_names vs) ->
  (forall k, In k (map fst vs) -> ~ In k (dim_names vs)) ->
  exists c c', convert_to_elements lab element_name b = Ok c /\ build_matrices lab junk c = Ok c' /\
    (forall k x, In (k, x) vs -> exists y, pd_get k (dd_map (b_var c')) = Some y /\ if ismatrix x then same_matrix x y else y = x) /\
    (forall k, pd_get k (dd_map (b_var c')) <> None -> In k (map fst vs)).
Proof.
  intros A lab junk b vs Hb ND HS HP HD. pose proof (split_NoDup vs HS ND) as NS.
  destruct (convert_ok lab element_name b vs Hb (survives_split vs HS) NS HP) as [c [outs [C1 [C2 [C3 [C4 C5]]]]]].
  destruct (groups_exact vs HS ND) as [G1 [G2 G3]]. exists c.
  assert (EN : map fst (concat outs) = flat_map (split_names element_name) vs) by now apply split_all_names.
  assert (IT : dd_iter (b_var c) = flat_map (split_names element_name) vs).
  { rewrite Inv_iter by apply C3. rewrite <- keys_abs by apply C3. rewrite C4. exact EN. }
  unfold build_matrices. rewrite IT, build_loop_groups. set (G := map to_group _) in *.
  assert (GV : forall k v, In (k, v) (concat outs) -> pd_get k (dd_map (b_var c)) = Some v).
  { intros k v H. rewrite <- abs_get by apply C3. rewrite C4. apply assoc_get; auto. now rewrite EN. }
  rewrite Forall_forall in HS.
  (* the parts of one matrix *)
  assert (Part : forall k x, In (k, x) vs -> ismatrix x = true -> exists ds ni nj o, matrix_of x ds ni nj /\ axis_len x "i" = ni /\ axis_len x "j" = nj /\
     lettered k /\ ni <= 9 /\ nj <= 9 /\ 1 < ni * nj /\
     (forall q, In q o -> In q (concat outs)) /\
     Forall2 (fun ij q => fst q = element_name k (fst ij) (snd ij) /\ element_of x ds (fst ij) (snd ij) (snd q)) (list_prod (seq 1 ni) (seq 1 nj)) o).
  { intros k x Hk Hx. assert (O : exists o, In o outs /\ split_into element_name (k, x) o).
    { clear - C2 Hk. induction C2 as [|p o l outs H1 H2 IH]; [destruct Hk|]. destruct Hk as [->|Hk]; [exists o; split; auto; now left|].
      destruct (IH Hk) as [o' [I1 I2]]. exists o'. split; auto. now right. }
    destruct O as [o [O1 [[O2 _]|[_ [ds [ni [nj [M F]]]]]]]]; cbn [fst snd] in *; [congruence|]. pose proof (HS _ Hk) as S0. unfold survives in S0. cbn [fst snd] in S0.
    rewrite Hx in S0. destruct S0 as [L [ds' [ni' [nj' [M' [Hi [Hj Hn]]]]]]].
    destruct (matrix_axes x ds ni nj M) as [_ [Ai [Aj _]]]. destruct (matrix_axes x ds' ni' nj' M') as [_ [Ai' [Aj' _]]].
    exists ds, ni, nj, o. split; auto. split; auto. split; auto. split; auto. split; [lia|]. split; [lia|]. split; [rewrite <- Ai, <- Aj, Ai', Aj'; auto|]. split; auto.
    intros q Hq. apply in_concat. eauto. }
  assert (F2 : forall {X Y} (R : X -> Y -> Prop) l l' n a, Forall2 R l l' -> nth_error l n = Some a -> exists b, nth_error l' n = Some b /\ R a b).
  { clear. intros X Y R l l' n a F. revert n. induction F as [|x y l l' H F IH]; intros [|n] E; try discriminate; cbn in *; [injection E as ->; eauto|auto]. }
  assert (KeyLen : forall (ds : list dim) ds', Forall2 (fun d d' => key d' = key d /\ d_unit d' = d_unit d /\ d_data d' = d_data d) ds ds' ->
     map key ds' = map key ds /\ map (fun d => length (d_data d)) ds' = map (fun d => length (d_data d)) ds).
  { clear. intros ds ds' F. induction F as [|d d' ds ds' [H1 [_ H2]] F [I1 I2]]; simpl; auto. rewrite H1, H2, I1, I2. auto. }
  assert (Elem : forall k x, In (k, x) vs -> ismatrix x = true -> forall n, In n (row_major k (axis_len x "i") (axis_len x "j")) -> In n (flat_map (split_names element_name) vs)).
  { intros k x Hk Hx n Hn. apply in_flat_map. exists (k, x). split; auto. unfold split_names. cbn [fst snd]. now rewrite Hx. }
  assert (IJ : forall k x, In (k, x) vs -> ismatrix x = true -> In "i" (dim_names vs) /\ In "j" (dim_names vs)).
  { intros k x Hk Hx. destruct (Part k x Hk Hx) as [ds [ni [nj [o [M _]]]]]. destruct (mo_dims x ds ni nj M) as [di [dj [Hd [Ki [Kj _]]]]].
    unfold ki, kj, key in Ki, Kj. injection Ki as _ Ni. injection Kj as _ Nj.
    split; apply in_flat_map; exists (k, x); (split; [exact Hk|]); cbn [snd]; rewrite Hd, map_app, in_app_iff; right; cbn; auto. }
  assert (GO : Forall (group_ok c) G).
  { rewrite Forall_forall. intros g Hg. destruct (G3 g Hg) as [k [x [Hk [Hx ->]]]]. destruct (Part k x Hk Hx) as [ds [ni [nj [o [M [Ai [Aj [L [Hi [Hj [Hn [Ho F]]]]]]]]]]]].
    destruct (mo_dims x ds ni nj M) as [di [dj [Hd [Ki [Kj _]]]]]. pose proof (mo_wf x ds ni nj M) as [_ [_ WK]]. destruct (IJ k x Hk Hx) as [Ii Ij].
    constructor; cbn [g_elems g_ni g_nj fst snd].
    - rewrite Ai, Aj. unfold row_major. intros E. apply map_eq_nil in E. apply (f_equal (@length _)) in E. rewrite prod_length, !seq_length in E. simpl in E. lia.
    - unfold row_major. now rewrite map_length, prod_length, !seq_length.
    - exists (map key ds), (map (fun d => length (d_data d)) ds).
      rewrite Hd, map_app in WK. cbn [map] in WK. rewrite Ki, Kj in WK.
      assert (W1 : ~ In ki (map key ds) /\ ~ In kj (map key ds)).
      { clear - WK. induction (map key ds) as [|a l IH]; [split; intros []|]. cbn in WK. apply NoDup_cons_iff in WK as [W1 W2]. destruct (IH W2) as [I1 I2].
        rewrite in_app_iff in W1. cbn in W1. split; intros [H|H]; intuition. }
      destruct W1 as [W1 W2]. split; auto. split; auto. intros n Hn'. split.
      + apply C5. apply HP. now apply (Elem k x).
      + rewrite Ai, Aj in Hn'. apply in_map_iff in Hn' as [[i j] [<- Hij]]. apply In_nth_error in Hij as [r Hr]. destruct (F2 _ _ _ _ _ _ _ F Hr) as [[m z] [Z1 [Z2 Z3]]].
        cbn [fst snd] in *. exists z. split; [apply GV; apply Ho; rewrite <- Z2; now apply nth_error_In in Z1|].
        destruct Z3 as [Z3 [_ [Z4 _]]]. destruct (KeyLen _ _ Z4). auto.
    - intros n [->|Hn'].
      + assert (~ In k (dim_names vs)) by (apply HD; now apply (in_map fst) in Hk). split; intros ->; tauto.
      + assert (~ In n (dim_names vs)) by (apply HP; now apply (Elem k x)). split; intros ->; tauto.
    - now apply lettered_plain.
    - apply C5. apply HD. now apply (in_map fst) in Hk. }
  assert (NoEl : forall k n x, In (k, x) vs -> ismatrix x = true -> In n (row_major k (axis_len x "i") (axis_len x "j")) ->
     exists i j, n = element_name k i j /\ elem_match (chars n) = Some (chars k, i, j)).
  { intros k n x Hk Hx Hn. assert (Hs : In n (split_names element_name (k, x))) by (unfold split_names; cbn [fst snd]; now rewrite Hx).
    destruct (split_cases (k, x) n (HS _ Hk) Hs) as [[C _]|[_ [i [j [_ [D1 D2]]]]]]; cbn [fst snd] in *; [congruence|eauto]. }
  assert (NG : NoDup (flat_map g_elems G ++ map fst G)).
  { apply NoDup_app_intro.
    - apply NoDup_flat_map'.
      + intros g Hg. destruct (G3 g Hg) as [k [x [Hk [Hx ->]]]]. cbn [g_elems fst snd]. clear - NS Hk Hx.
        assert (Hs : split_names element_name (k, x) = row_major k (axis_len x "i") (axis_len x "j")) by (unfold split_names; cbn [fst snd]; now rewrite Hx).
        rewrite <- Hs. clear Hs Hx. induction vs as [|p vs IH]; [destruct Hk|]. cbn [flat_map] in NS. destruct Hk as [->|Hk].
        * clear IH. induction (split_names element_name (k, x)) as [|a l IHl]; [constructor|]. cbn in NS. apply NoDup_cons_iff in NS as [N1 N2].
          constructor; auto. intros H. apply N1. apply in_or_app. auto.
        * apply IH; auto. clear - NS. induction (split_names element_name p) as [|a l IHl]; auto. cbn in NS. apply NoDup_cons_iff in NS as [_ N2]. auto.
      + intros g g' n Hg Hg' Hn Hn'. destruct (G3 g Hg) as [k [x [Hk [Hx ->]]]]. destruct (G3 g' Hg') as [k' [x' [Hk' [Hx' ->]]]]. cbn [g_elems fst snd] in *.
        destruct (NoEl k n x Hk Hx Hn) as [i [j [_ E]]]. destruct (NoEl k' n x' Hk' Hx' Hn') as [i' [j' [_ E']]]. rewrite E in E'. injection E' as E' _ _.
        apply chars_inj in E'. subst k'. assert (x' = x) as -> by now apply (fst_inj vs k). reflexivity.
      + now apply (NoDup_map_inv fst).
    - exact G1.
    - intros n H1 H2. apply in_flat_map in H1 as [g [Hg Hn]]. apply in_map_iff in H2 as [g' [<- Hg']]. destruct (G3 g Hg) as [k [x [Hk [Hx ->]]]].
      destruct (G3 g' Hg') as [k' [x' [Hk' [Hx' ->]]]]. cbn [g_elems fst snd] in *. destruct (NoEl k k' x Hk Hx Hn) as [i [j [_ E]]].
      destruct (Part k' x' Hk' Hx') as [_ [_ [_ [_ [_ [_ [_ [L _]]]]]]]]. rewrite (lettered_no_match k' L) in E. discriminate. }
  destruct (build_groups_ok lab junk G c C3 NG GO) as [c' [B1 [B2 [B3 [B4 B5]]]]]. exists c'. split; auto. split; auto. split.
  - intros k x Hk. destruct (ismatrix x) eqn:Hx.
    + rewrite Forall_forall in B5. destruct (B5 _ (G2 k x Hk Hx)) as [m [ex [J1 [J2 [J3 [J4 [J5 [J6 J7]]]]]]]]. cbn [g_elems g_ni g_nj fst snd] in *.
      destruct (Part k x Hk Hx) as [ds [ni [nj [o [M [Ai [Aj [L [Hi [Hj [Hn [Ho F]]]]]]]]]]]]. rewrite Ai, Aj in *.
      destruct (mo_dims x ds ni nj M) as [di [dj [Hd [Ki [Kj [Li Lj]]]]]].
      assert (P0 : 0 < ni /\ 0 < nj) by nia. destruct P0 as [P1 P2].
      assert (At : forall p q, p < ni -> q < nj -> exists z, pd_get (element_name k (S p) (S q)) (dd_map (b_var c)) = Some z /\ element_of x ds (S p) (S q) z).
      { intros p q Hp Hq. destruct (F2 _ _ _ _ _ _ _ F (nth_prod_seq ni nj p q Hp Hq)) as [[n z] [Z1 [Z2 Z3]]]. cbn [fst snd] in *. exists z. split; auto.
        apply GV, Ho. rewrite <- Z2. now apply nth_error_In in Z1. }
      assert (Nth : forall p q, p < ni -> q < nj -> nth_error (row_major k ni nj) (p * nj + q) = Some (element_name k (S p) (S q))).
      { intros p q Hp Hq. unfold row_major. rewrite nth_error_map, nth_prod_seq by auto. reflexivity. }
      assert (Hd0 : hd "" (row_major k ni nj) = element_name k 1 1).
      { pose proof (Nth 0 0 P1 P2) as N0. destruct (row_major k ni nj); [discriminate|]. now injection N0 as ->. }
      destruct (At 0 0 P1 P2) as [z0 [Z1 Z2]]. rewrite Hd0, Z1 in J2. injection J2 as <-. pose proof Z2 as [_ [_ [Z3 _]]].
      exists m. split; auto. split; auto. split.
      * exists ds, (h_dims z0), (mdim_i ni), (mdim_j nj), ni, nj. split; auto. split; auto. split; auto. split; [reflexivity|]. split; [reflexivity|]. split; apply range_length.
      * intros e He. rewrite J4 in He.
        assert (Pe : e ki < ni). { assert (Hin : In (mdim_i ni) (h_dims z0 ++ [mdim_i ni; mdim_j nj])) by (apply in_or_app; right; now left). specialize (He _ Hin). cbn [d_data mdim_i] in He. now rewrite range_length in He. }
        assert (Qe : e kj < nj). { assert (Hin : In (mdim_j nj) (h_dims z0 ++ [mdim_i ni; mdim_j nj])) by (apply in_or_app; right; right; now left). specialize (He _ Hin). cbn [d_data mdim_j] in He. now rewrite range_length in He. }
        destruct (At _ _ Pe Qe) as [z [Y1 Y2]]. rewrite (J7 e z); [|rewrite J4; exact He|exists (element_name k (S (e ki)) (S (e kj))); split; [now apply Nth|auto]].
        destruct Y2 as [_ [_ [Y3 Y4]]]. rewrite Y4.
        -- unfold val. f_equal. apply map_ext_in. intros d Hdx. unfold upd. cbn [fst snd ki kj].
           replace (S (e ki) - 1) with (e ki) by lia. replace (S (e kj) - 1) with (e kj) by lia.
           destruct (key d) as [kc kn] eqn:Ek. cbn [fst snd].
           destruct (class_eqb kc CMatrix_j && String.eqb kn "j")%bool eqn:E1.
           { apply andb_prop in E1 as [E1 E2]. apply String.eqb_eq in E2. destruct kc; try discriminate. now subst. }
           destruct (class_eqb kc CMatrix_i && String.eqb kn "i")%bool eqn:E2; auto.
           apply andb_prop in E2 as [E2 E3]. apply String.eqb_eq in E3. destruct kc; try discriminate. now subst.
        -- intros d Hdz. assert (V : valid e (h_dims z0)) by (intros d' Hd'; apply He; apply in_or_app; auto). clear - V Y3 Z3 Hdz.
           assert (Vd : valid e ds). { clear - V Z3. induction Z3 as [|a a' l l' [K1 [_ K2]] Z IH]; intros d Hdx; [destruct Hdx|].
             destruct Hdx as [<-|Hdx]; [rewrite <- K1, <- K2; apply V; now left|apply IH; auto; intros d' Hd'; apply V; now right]. }
           clear V Z3. induction Y3 as [|a a' l l' [K1 [_ K2]] Z IH]; [destruct Hdz|]. destruct Hdz as [<-|Hdz]; [rewrite K1, K2; apply Vd; now left|].
           apply IH; auto. intros d' Hd'. apply Vd. now right.
    + exists x. split; auto. assert (Hc : pd_get k (dd_map (b_var c)) = Some x).
      { apply GV. clear - C2 Hk Hx. induction C2 as [|p o l outs H1 H2 IH]; [destruct Hk|]. cbn [concat]. apply in_or_app. destruct Hk as [->|Hk]; [|right; auto]. left.
        destruct H1 as [[_ ->]|[H1 _]]; [now left|cbn in H1; congruence]. }
      rewrite B3; auto.
      * intros H. apply in_flat_map in H as [g [Hg Hn]]. destruct (G3 g Hg) as [k' [x' [Hk' [Hx' ->]]]]. cbn [g_elems fst snd] in Hn.
        destruct (NoEl k' k x' Hk' Hx' Hn) as [i [j [_ E]]]. pose proof (HS _ Hk) as S0. unfold survives in S0. cbn [fst snd] in S0. rewrite Hx in S0.
        rewrite (not_element_match k S0) in E. discriminate.
      * intros H. apply in_map_iff in H as [g [E Hg]]. destruct (G3 g Hg) as [k' [x' [Hk' [Hx' ->]]]]. cbn in E. subst k'.
        assert (x' = x) as -> by now apply (fst_inj vs k). congruence.
  - intros k Hk. destruct (in_dec string_dec k (map fst G)) as [H|H].
    + apply in_map_iff in H as [g [E Hg]]. destruct (G3 g Hg) as [k' [x' [Hk' [Hx' ->]]]]. cbn in E. subst k'. now apply (in_map fst) in Hk'.
    + destruct (in_dec string_dec k (flat_map g_elems G)) as [H'|H']; [rewrite B4 in Hk by auto; congruence|]. rewrite B3 in Hk by auto.
      destruct (pd_get k (dd_map (b_var c))) as [v|] eqn:E; [|congruence]. rewrite <- abs_get in E by apply C3. rewrite C4 in E.
      apply get_assoc, (in_map fst) in E. rewrite EN in E. cbn [fst] in E. apply in_flat_map in E as [[k' x'] [E1 E2]].
      destruct (split_cases _ k (HS _ E1) E2) as [[D1 [D2 _]]|[D1 _]]; cbn [fst snd] in *.
      * subst k'. now apply (in_map fst) in E1.
      * exfalso. apply H'. apply in_flat_map. eexists. split; [apply (G2 k' x' E1 D1)|]. cbn [g_elems fst snd]. unfold split_names in E2. cbn [fst snd] in E2. now rewrite D1 in E2.
Qed.
Print Assumptions C23_roundtrip.

(** *** Example and deviations *)
Definition exb23 := brun labZ [BSet "P" xFR; BSet "S" xM].
Definition there_and_back (b : block Z) : result (list (string * (list nat * list Z * option string))) :=
  do c <- convert_to_elements labZ element_name b;
  do c' <- build_matrices labZ 99%Z c;
  do l <- dd_items (b_var c');
  Ok (map (fun p => (fst p, (nd_shape (h_nd (snd p)), nd_elems (h_nd (snd p)), h_unit (snd p)))) l).
Definition split_only (b : block Z) : result (list (string * list Z)) :=
  do c <- convert_to_elements labZ element_name b;
  do l <- dd_items (b_var c);
  Ok (map (fun p => (fst p, nd_elems (h_nd (snd p)))) l).
Lemma xM_matrix : matrix_of xM [dF] 2 3.
Proof.
  constructor.
  - wf_lit.
  - repeat constructor; simpl; intuition discriminate.
  - constructor; [left; discriminate|constructor].
  - exists dI, dJ. repeat split.
Qed.
Example C23_ex :
  Forall survives [("P", xFR); ("S", xM)] /\
  plain_names (flat_map (split_names element_name) [("P", xFR); ("S", xM)]) (dim_names [("P", xFR); ("S", xM)]) /\
  split_only exb23 = Ok [("P", [0; 1; 2; 3; 4; 5]%Z); ("S11", [0; 6]%Z); ("S12", [1; 7]%Z); ("S13", [2; 8]%Z); ("S21", [3; 9]%Z); ("S22", [4; 10]%Z); ("S23", [5; 11]%Z)] /\
  there_and_back exb23 = Ok [("P", ([2; 3], [0; 1; 2; 3; 4; 5]%Z, Some "V")); ("S", ([2; 2; 3], [0; 1; 2; 3; 4; 5; 6; 7; 8; 9; 10; 11]%Z, None))].
Proof.
  split; [|split; [|split; vm_compute; reflexivity]].
  - constructor; [|constructor; [|constructor]]; unfold survives; cbn [fst snd ismatrix].
    + change (ismatrix xFR) with false. cbn iota. intros s i j L Hi Hj E. apply (f_equal (fun s => length (chars s))) in E.
      rewrite element_chars, app_length in E by auto. cbn in E. lia.
    + change (ismatrix xM) with true. cbn iota. split.
      * split; [discriminate|]. constructor; [cbn; lia|constructor].
      * exists [dF], 2, 3. split; [exact xM_matrix|lia].
  - split.
    + intros k Hk H. vm_compute in Hk, H. intuition congruence.
    + intros k m e Hk E H. vm_compute in Hk, H. destruct Hk as [<-|Hk]; [discriminate|].
      repeat (destruct Hk as [<-|Hk]; [vm_compute in E; injection E as <- <-; intuition congruence|]). destruct Hk.
Qed.

(** The unit of a matrix is not restored. *)
Theorem C23_unit_refuted : exists b r, h_unit xM = Some "V" /\ there_and_back b = Ok r /\ In ("S", ([2; 2; 3], nd_elems (h_nd xM), None)) r.
Proof. exists exb23. eexists. split; [reflexivity|]. split; [vm_compute; reflexivity|]. vm_compute. auto. Qed.
Print Assumptions C23_unit_refuted.

(** A matrix with one element stays split. *)
Definition x11 := arr [dF; mkDim CMatrix_i "i" [LZ 0] None None; mkDim CMatrix_j "j" [LZ 0] None None].
Theorem C23_single_refuted : exists b r, dd_items (b_var b) = Ok [("S", x11)] /\ there_and_back b = Ok r /\ map fst r = ["S11"].
Proof. exists (brun labZ [BSet "S" x11]). eexists. split; [vm_compute; reflexivity|]. split; vm_compute; reflexivity. Qed.
Print Assumptions C23_single_refuted.

(** A matrix whose name has a digit stays split. *)
Theorem C23_digit_refuted : exists b r, dd_items (b_var b) = Ok [("S2", xM)] /\ there_and_back b = Ok r /\
  map fst r = ["S211"; "S212"; "S213"; "S221"; "S222"; "S223"].
Proof. exists (brun labZ [BSet "S2" xM]). eexists. split; [vm_compute; reflexivity|]. split; vm_compute; reflexivity. Qed.
Print Assumptions C23_digit_refuted.

(** With eleven rows and columns two elements get the same name and one of them
    is lost. *)
Definition dI11 := mkDim CMatrix_i "i" (range_labels 11) None None.
Definition dJ11 := mkDim CMatrix_j "j" (range_labels 11) None None.
Definition x121 := arr [dI11; dJ11].
Theorem C23_large_refuted : exists b r, dd_items (b_var b) = Ok [("S", x121)] /\ split_only b = Ok r /\ length r < 121 /\
  element_name "S" 1 11 = element_name "S" 11 1.
Proof.
  exists (brun labZ [BSet "S" x121]). eexists. split; [vm_compute; reflexivity|]. split; [vm_compute; reflexivity|]. split; [|reflexivity].
  apply Nat.ltb_lt. vm_compute. reflexivity.
Qed.
Print Assumptions C23_large_refuted.
