From Coq Require Import Ascii String List Arith ZArith Bool Lia.
From Verif Require Import Model_NdArray Model_Text.
Import ListNotations.
Local Open Scope nat_scope.

Lemma digit_lt_cases : forall n, n < 10 ->
  n = 0 \/ n = 1 \/ n = 2 \/ n = 3 \/ n = 4 \/ n = 5 \/ n = 6 \/ n = 7 \/ n = 8 \/ n = 9.
Proof. intros. lia. Qed.

Ltac digit_cases n H :=
  let K := fresh in pose proof (digit_lt_cases n H) as K;
  repeat (destruct K as [K|K]; [rewrite K|]); [..|rewrite K].

Lemma digit_char_is : forall n, n < 10 -> is_digit (digit_char n) = true /\ digit_value (digit_char n) = n.
Proof. intros n H. digit_cases n H; split; reflexivity. Qed.

Lemma digit_not_space : forall c, is_digit c = true -> is_space c = false.
Proof.
  intros c. unfold is_digit, is_space. cbv zeta. intros H. apply andb_prop in H as [H1 H2].
  apply Nat.leb_le in H1, H2.
  rewrite (proj2 (Nat.leb_gt (nat_of_ascii c) 13)), (proj2 (Nat.leb_gt (nat_of_ascii c) 32)) by lia.
  rewrite (proj2 (Nat.eqb_neq (nat_of_ascii c) 133)), (proj2 (Nat.eqb_neq (nat_of_ascii c) 160)) by lia.
  now rewrite !andb_false_r.
Qed.

Lemma digits_value_app : forall a c, digits_value (a ++ [c]) = 10 * digits_value a + digit_value c.
Proof. intros. unfold digits_value. now rewrite fold_left_app. Qed.

Lemma print_fuel_ok : forall f n, n <= f ->
  Forall (fun c => is_digit c = true) (print_fuel f n) /\ digits_value (print_fuel f n) = n /\ print_fuel f n <> [].
Proof.
  induction f; intros n H.
  - assert (n = 0) by lia. subst. simpl. repeat split; auto. discriminate.
  - cbn [print_fuel]. destruct (Nat.ltb_spec n 10).
    + destruct (digit_char_is n) as [D1 D2]; auto. repeat split; [auto| |discriminate].
      unfold digits_value. simpl. now rewrite D2.
    + assert (n / 10 <= f). { assert (n / 10 < n) by (apply Nat.div_lt; lia). lia. }
      destruct (IHf (n / 10)) as [I1 [I2 I3]]; auto.
      destruct (digit_char_is (n mod 10)) as [D1 D2]; [apply Nat.mod_upper_bound; lia|].
      repeat split.
      * apply Forall_app. auto.
      * rewrite digits_value_app, I2, D2. pose proof (Nat.div_mod n 10). lia.
      * intros K. apply app_eq_nil in K as [_ K]. discriminate.
Qed.

Lemma print_nat_digits : forall n, Forall (fun c => is_digit c = true) (print_nat n).
Proof. intros. apply (print_fuel_ok n n). lia. Qed.
Lemma print_nat_value : forall n, digits_value (print_nat n) = n.
Proof. intros. apply (print_fuel_ok n n). lia. Qed.
Lemma print_nat_nonempty : forall n, print_nat n <> [].
Proof. intros. apply (print_fuel_ok n n). lia. Qed.

Lemma print_nat_inj : forall a b, print_nat a = print_nat b -> a = b.
Proof. intros a b H. rewrite <- (print_nat_value a), <- (print_nat_value b). now rewrite H. Qed.

Lemma underscored_digits : forall l p, Forall (fun c => is_digit c = true) l -> (p = true \/ l <> []) -> underscored p l = Some l.
Proof.
  induction l as [|c l IH]; intros p H Hp; simpl.
  - destruct Hp as [->|Hp]; congruence.
  - inversion H; subst. rewrite H2, IH; auto.
Qed.

Lemma drop_while_none : forall {X} (f : X -> bool) l, (forall x, In x l -> f x = false) -> drop_while f l = l.
Proof. intros X f [|x l] H; simpl; auto. now rewrite (H x) by (simpl; auto). Qed.

Lemma strip_id : forall l, (forall c, In c l -> is_space c = false) -> strip l = l.
Proof.
  intros l H. unfold strip, rstrip, lstrip. rewrite (drop_while_none is_space l) by assumption.
  rewrite drop_while_none; [apply rev_involutive|]. intros c Hc. apply H. now apply in_rev.
Qed.

Lemma py_int_print : forall n, py_int (print_nat n) = Ok (Z.of_nat n).
Proof.
  intros n. unfold py_int. pose proof (print_nat_digits n) as D. rewrite Forall_forall in D.
  rewrite strip_id by (intros c Hc; apply digit_not_space; auto).
  pose proof (print_nat_nonempty n) as NE. pose proof (print_nat_value n) as V.
  destruct (print_nat n) as [|c l] eqn:E; [congruence|].
  assert (Dc : is_digit c = true) by (apply D; simpl; auto).
  destruct (Ascii.eqb_spec c "-"); [subst; discriminate|].
  destruct (Ascii.eqb_spec c "+"); [subst; discriminate|].
  rewrite underscored_digits; [now rewrite V|apply Forall_forall; auto|right; discriminate].
Qed.

Lemma starts_with_app : forall p l, starts_with p (p ++ l) = true.
Proof. induction p; intros; simpl; auto. now rewrite Ascii.eqb_refl, IHp. Qed.
