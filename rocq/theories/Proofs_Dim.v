(** Equality, hash and generated names of dimensions. *)
From Coq Require Import Ascii String List Arith ZArith Bool Lia.
From Verif Require Import Model_NdArray Model_Dim Model_Text Proofs_Text Model_Array Spec_Array Proofs_Array Proofs_Array2.
Import ListNotations.
Local Open Scope nat_scope.

Lemma label_eqb_eq : forall a b, label_eqb a b = true <-> a = b.
Proof.
  intros a b. split.
  - destruct a, b; simpl; try discriminate; intros H.
    + apply Z.eqb_eq in H. congruence.
    + apply Z.eqb_eq in H. congruence.
    + apply String.eqb_eq in H. congruence.
  - intros ->. apply label_eqb_refl.
Qed.

Lemma list_eqb_eq : forall {A} (f : A -> A -> bool), (forall a b, f a b = true <-> a = b) ->
  forall x y, list_eqb f x y = true <-> x = y.
Proof.
  intros A f Hf. induction x as [|a x IH]; intros [|b y]; simpl; split; intros H; try discriminate; auto.
  - apply andb_prop in H as [H1 H2]. apply Hf in H1. apply IH in H2. congruence.
  - injection H as -> ->. apply andb_true_intro. split; [now apply Hf|now apply IH].
Qed.

Lemma option_eqb_eq : forall {A} (f : A -> A -> bool), (forall a b, f a b = true <-> a = b) ->
  forall x y, option_eqb f x y = true <-> x = y.
Proof.
  intros A f Hf [a|] [b|]; simpl; split; intros H; try discriminate; auto.
  - apply Hf in H. congruence.
  - injection H as ->. now apply Hf.
Qed.

Lemma dim_eqb_spec : forall a b, dim_eqb a b = true <->
  (d_class a = d_class b /\ d_name a = d_name b /\ d_data a = d_data b /\ d_unit a = d_unit b).
Proof.
  intros a b. unfold dim_eqb. rewrite !andb_true_iff, Nat.eqb_eq, String.eqb_eq, class_eqb_eq.
  rewrite (list_eqb_eq label_eqb label_eqb_eq), (option_eqb_eq String.eqb String.eqb_eq). intuition congruence.
Qed.

Lemma dim_eqb_equivalence : (forall a, dim_eqb a a = true) /\
  (forall a b, dim_eqb a b = true -> dim_eqb b a = true) /\
  (forall a b c, dim_eqb a b = true -> dim_eqb b c = true -> dim_eqb a c = true).
Proof.
  split; [|split]; intros *; rewrite ?dim_eqb_spec; intuition congruence.
Qed.

Lemma dim_hash_same_fmt : forall a b, dim_eqb a b = true -> d_fmt a = d_fmt b -> dim_hash_key a = dim_hash_key b.
Proof.
  intros a b H F. apply dim_eqb_spec in H as [H1 [H2 [H3 H4]]]. unfold dim_hash_key. congruence.
Qed.

(** *** Anonymous dimensions *)
Lemma chars_inj : forall a b, chars a = chars b -> a = b.
Proof.
  intros a b H. rewrite <- (string_of_list_ascii_of_string a), <- (string_of_list_ascii_of_string b).
  unfold chars in H. now rewrite H.
Qed.

Lemma max_ge : forall l n, In n l -> (n <= fold_right Z.max 0 l)%Z.
Proof. induction l as [|m l IH]; simpl; intros n H; [tauto|]. destruct H as [->|H]; [lia|]. apply IH in H. lia. Qed.
Lemma max_nonneg : forall l, (0 <= fold_right Z.max 0 l)%Z.
Proof. induction l; simpl; lia. Qed.

Lemma anon_numbers_In : forall ds ns d, anon_numbers ds = Ok ns -> In d ds ->
  subclass (d_class d) CDimAnonymous = true -> starts_with (chars "ANON") (chars (d_name d)) = true ->
  exists n, py_int (skipn 4 (chars (d_name d))) = Ok n /\ In n ns.
Proof.
  induction ds as [|d0 ds IH]; intros ns d H Hin Hc Hs; cbn [anon_numbers In] in *; [tauto|].
  destruct Hin as [->|Hin].
  - rewrite Hc, Hs in H. cbn [andb] in H.
    destruct (py_int _) as [n|]; simpl in H; [|discriminate].
    destruct (anon_numbers ds); simpl in H; [|discriminate]. injection H as <-. exists n. simpl. auto.
  - destruct (subclass (d_class d0) CDimAnonymous && _)%bool.
    + destruct (py_int (skipn 4 (chars (d_name d0)))) as [n0|]; simpl in H; [|discriminate].
      destruct (anon_numbers ds) as [r|]; simpl in H; [|discriminate]. injection H as <-.
      destruct (IH r d eq_refl Hin Hc Hs) as [n [H1 H2]]. exists n. simpl. auto.
    + eauto.
Qed.

Lemma anon_fresh : forall ds data u f d', get_new_anonymous_dim ds data u f = Ok d' ->
  d_class d' = CDimAnonymous /\ d_data d' = data /\ d_unit d' = u /\ d_fmt d' = f /\
  forall d, In d ds -> subclass (d_class d) CDimAnonymous = true -> d_name d <> d_name d'.
Proof.
  intros ds data u f d' H. unfold get_new_anonymous_dim in H.
  destruct (anon_numbers ds) as [ns|] eqn:E; simpl in H; [|discriminate]. injection H as <-.
  repeat split; auto. intros d Hd Hc EN. cbn [d_name] in EN.
  set (m := fold_right Z.max 0%Z ns) in *.
  assert (EC : chars (d_name d) = chars "ANON" ++ print_nat (Z.to_nat (m + 1))).
  { rewrite EN. unfold chars.
    simpl. now rewrite list_ascii_of_string_of_list_ascii. }
  destruct (anon_numbers_In ds ns d E Hd Hc) as [n [H1 H2]].
  { rewrite EC. apply starts_with_app. }
  rewrite EC in H1. change (skipn 4 (chars "ANON" ++ print_nat (Z.to_nat (m + 1)))) with (print_nat (Z.to_nat (m + 1))) in H1.
  rewrite py_int_print in H1. injection H1 as <-. apply max_ge in H2. fold m in H2.
  pose proof (max_nonneg ns). fold m in H. rewrite Z2Nat.id in H2 by lia. lia.
Qed.

(** Names made by the function itself never make it fail. *)
Definition generated (d : dim) : Prop := exists n, chars (d_name d) = chars "ANON" ++ print_nat n.

Lemma anon_succeeds : forall ds data u f, (forall d, In d ds -> subclass (d_class d) CDimAnonymous = true -> 
     starts_with (chars "ANON") (chars (d_name d)) = true -> generated d) ->
  exists d', get_new_anonymous_dim ds data u f = Ok d' /\ generated d'.
Proof.
  intros ds data u f H.
  assert (G : exists ns, anon_numbers ds = Ok ns).
  { induction ds as [|d ds IH]; cbn [anon_numbers]; [eauto|].
    destruct IH as [ns IH]; [intros; apply H; simpl; auto|].
    destruct (subclass (d_class d) CDimAnonymous && starts_with _ _)%bool eqn:E.
    - apply andb_prop in E as [E1 E2]. destruct (H d (or_introl eq_refl) E1 E2) as [n En].
      rewrite En. change (skipn 4 (chars "ANON" ++ print_nat n)) with (print_nat n). rewrite py_int_print, IH.
      simpl. eauto.
    - eauto. }
  destruct G as [ns G]. unfold get_new_anonymous_dim. rewrite G. cbn [bind]. eexists. split; [reflexivity|].
  eexists. unfold chars. cbn [d_name]. rewrite list_ascii_of_string_of_list_ascii. reflexivity.
Qed.

(** Repeated generation: every new dimension is added to the list. *)
Inductive anon_history : list dim -> list dim -> Prop :=
| ah_nil : forall ds, anon_history ds ds
| ah_new : forall ds ds' data u f d, anon_history ds ds' ->
    get_new_anonymous_dim ds' data u f = Ok d -> anon_history ds (d :: ds').

Lemma anon_history_NoDup : forall ds ds', anon_history ds ds' ->
  NoDup (map d_name (filter (fun d => subclass (d_class d) CDimAnonymous) ds)) ->
  NoDup (map d_name (filter (fun d => subclass (d_class d) CDimAnonymous) ds')).
Proof.
  intros ds ds' H. induction H as [|ds ds' data u f d H IH E]; intros ND; auto.
  apply anon_fresh in E as [C [_ [_ [_ F]]]]. simpl. rewrite C.
  replace (subclass CDimAnonymous CDimAnonymous) with true by reflexivity. simpl. constructor; auto.
  intros K. apply in_map_iff in K as [d0 [K1 K2]]. apply filter_In in K2 as [K2 K3]. apply (F d0); auto.
Qed.
