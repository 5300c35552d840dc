(** What the small notions that several statements share mean: characters,
    element names, shapes that fit, and the order of the elements of an array. *)
From Coq Require Import Ascii String List Arith Bool Lia ZArith Sorting.Sorted.
From Verif Require Import Model_NdArray Model_Dim Model_Array Model_DataDict Model_Text Model_Words Model_Block Model_Spdata Model_Stream Model_Citi Model_Si
  Model_TsText Model_Mdif Model_Cplx Spec_Array Proofs_NdArray Proofs_Text Proofs_Array4 Proofs_Block Proofs_BlockOps Prop_Si.
Import ListNotations.
Local Open Scope char_scope.
Local Open Scope string_scope.
Local Open Scope nat_scope.
Local Open Scope list_scope.

Definition letters : list ascii := chars "abcdefghijklmnopqrstuvwxyzABCDEFGHIJKLMNOPQRSTUVWXYZ".
Definition numerals : list ascii := chars "0123456789".

Lemma in_chars : forall c l, In c l <-> existsb (Ascii.eqb c) l = true.
Proof. intros c l. rewrite existsb_exists. split; [intros H; exists c; split; auto; apply Ascii.eqb_refl|intros [x [H E]]; apply Ascii.eqb_eq in E; now subst]. Qed.
Lemma in_codes : forall n l, In n l <-> existsb (Nat.eqb n) l = true.
Proof. intros c l. rewrite existsb_exists. split; [intros H; exists c; split; auto; apply Nat.eqb_refl|intros [x [H E]]; apply Nat.eqb_eq in E; now subst]. Qed.
Lemma by_bool : forall a b : bool, a = b -> (a = true <-> b = true).
Proof. intros a b ->. tauto. Qed.
Ltac every_char := intros c; rewrite ?in_chars, ?in_codes; repeat match goal with |- _ /\ _ => split end; apply by_bool;
  revert c; intros [[] [] [] [] [] [] [] []]; vm_compute; reflexivity.

(** ** Characters *)
(** Units are letters or a percent sign, numbers digits, signs and points. *)
Theorem C37_characters : forall c,
  (is_numchar c = true <-> In c (numerals ++ chars "+-.")) /\ (is_unitchar c = true <-> In c (letters ++ chars "%")) /\
  (is_e c = true <-> In c (chars "eE")) /\ (is_expchar c = true <-> In c (numerals ++ chars "+-")).
Proof. every_char. Qed.
Print Assumptions C37_characters.

Theorem C43_characters : forall c,
  (is_space c = true <-> In (nat_of_ascii c) [9; 10; 11; 12; 13; 28; 29; 30; 31; 32; 133; 160]) /\ (is_digit c = true <-> In c numerals) /\
  (Model_Spdata.head_char c = true <-> In c (letters ++ chars "_")).
Proof. every_char. Qed.
Print Assumptions C43_characters.

(** A line of a CITI file that begins with one of these is a line of data. *)
Theorem C44_characters : forall c, data_char c = true <-> In c (numerals ++ chars "-.eE").
Proof. every_char. Qed.
Print Assumptions C44_characters.

(** Numbers in decimal: digits without leading zero, with the right value. *)
Definition decimal (n : nat) (l : list ascii) : Prop :=
  l <> [] /\ incl l numerals /\ (length l = 1 \/ hd "0"%char l <> "0"%char) /\
  fold_left (fun acc c => 10 * acc + (nat_of_ascii c - 48)) l 0 = n.
Lemma print_fuel_head : forall f n, n <= f -> n <> 0 -> hd "0"%char (print_fuel f n) <> "0"%char /\ print_fuel f n <> [].
Proof.
  induction f as [|f IH]; intros n L N; [lia|]. cbn [print_fuel]. destruct (Nat.ltb_spec n 10) as [H|H].
  - split; [|discriminate]. cbn [hd]. do 10 (destruct n as [|n]; [vm_compute; congruence|]). lia.
  - destruct (IH (n / 10)) as [I1 I2]; [pose proof (Nat.div_lt n 10); lia| |].
    + intros E. apply Nat.div_small_iff in E; lia.
    + destruct (print_fuel f (n / 10)); [congruence|]. split; [exact I1|discriminate].
Qed.
Theorem C43_decimal : forall n l, decimal n l <-> l = print_nat n.
Proof.
  assert (P : forall n, decimal n (print_nat n)).
  { intros n. split; [apply print_nat_nonempty|]. split; [intros c H; apply C43_characters; revert c H; apply Forall_forall; apply print_nat_digits|]. split.
    - destruct (Nat.eq_dec n 0) as [->|N]; [now left|right]. now apply print_fuel_head.
    - apply print_nat_value. }
  intros n l. split; [|intros ->; apply P]. intros [H1 [H2 [H3 H4]]]. subst n.
  assert (D : forall l, incl l numerals -> l <> [] -> hd "0"%char l <> "0"%char -> print_nat (digits_value l) = l).
  { clear. induction l as [|c l IH] using rev_ind; intros I N Z; [congruence|].
    assert (C : is_digit c = true) by (apply C43_characters; apply I; apply in_or_app; right; now left).
    assert (Dc : digit_char (digit_value c) = c /\ digit_value c < 10).
    { revert C. clear. revert c. intros [[] [] [] [] [] [] [] []]; intros H; try discriminate H; split; try reflexivity; vm_compute; lia. }
    destruct Dc as [Dc Lc]. assert (PS : forall a, a <> 0 -> print_nat (10 * a + digit_value c) = print_nat a ++ [c]).
    { intros a Ha. unfold print_nat. assert (FU : forall f g n, n <= f -> n <= g -> print_fuel f n = print_fuel g n).
      { clear. induction f as [|f IH]; intros g n L1 L2.
        - assert (n = 0) as -> by lia. destruct g; reflexivity.
        - destruct g as [|g]; [assert (n = 0) as -> by lia; reflexivity|]. cbn [print_fuel]. destruct (Nat.ltb_spec n 10); auto.
          rewrite (IH g) ; auto; pose proof (Nat.div_lt n 10); lia. }
      set (n := 10 * a + digit_value c). destruct n as [|m] eqn:En; [lia|]. cbn [print_fuel]. rewrite <- En.
      assert (n <? 10 = false) as -> by (apply Nat.ltb_ge; lia).
      assert (n / 10 = a) as -> by (unfold n; rewrite (Nat.mul_comm 10 a), Nat.div_add_l, Nat.div_small by lia; lia).
      assert (n mod 10 = digit_value c) as ->.
      { unfold n. rewrite Nat.add_comm, Nat.mul_comm, Nat.mod_add, Nat.mod_small; lia. }
      rewrite Dc. f_equal. apply FU; lia. }
    rewrite digits_value_app. destruct l as [|c0 l].
    - unfold digits_value at 1. cbn [fold_left]. rewrite Nat.mul_0_r, Nat.add_0_l. cbn [app]. clear - Dc Lc.
      unfold print_nat. destruct (digit_value c) as [|n]; [now rewrite <- Dc|]. cbn [print_fuel]. destruct (Nat.ltb_spec (S n) 10); [|lia]. now rewrite Dc.
    - assert (IH' : print_nat (digits_value (c0 :: l)) = c0 :: l) by (apply IH; auto; [intros x Hx; apply I; apply in_or_app; now left|discriminate]).
      rewrite PS, IH'; [reflexivity|]. intros E. rewrite E in IH'. cbn in IH'. injection IH' as <- _. now apply Z. }
  change (fold_left _ l 0) with (digits_value l) in *. destruct H3 as [H3|H3]; [|symmetry; apply D; auto].
  destruct l as [|c [|c1 l]]; try discriminate H3. assert (C : is_digit c = true) by (apply C43_characters; apply H2; now left).
  clear - C. revert C. revert c. intros [[] [] [] [] [] [] [] []]; intros H; try discriminate H; reflexivity.
Qed.
Print Assumptions C43_decimal.

Theorem C43_prefix : forall p l, starts_with p l = true <-> exists r, l = p ++ r.
Proof.
  induction p as [|a p IH]; intros l.
  - split; [intros _; exists l; reflexivity|reflexivity].
  - destruct l as [|b l]; cbn [starts_with]; [split; [discriminate|intros [r H]; discriminate]|]. rewrite andb_true_iff, Ascii.eqb_eq, IH. split.
    + intros [-> [r ->]]. now exists r.
    + intros [r H]. injection H as -> ->. split; auto. now exists r.
Qed.
Print Assumptions C43_prefix.

(** ** The order of the elements: the last index runs fastest *)
Fixpoint lex (a b : list nat) : Prop :=
  match a, b with
  | x :: a', y :: b' => x < y \/ x = y /\ lex a' b'
  | _, _ => False
  end.
Theorem C01_row_major : forall {A} (a : nd A), nd_wf a -> exists l,
  (forall ix, In ix l <-> Forall2 lt ix (nd_shape a)) /\ StronglySorted lex l /\ map (nd_get a) l = map Some (nd_elems a) /\
  (forall ix, ~ In ix l -> nd_get a ix = None).
Proof.
  intros A a W. exists (indices (nd_shape a)).
  assert (IN : forall sh ix, In ix (indices sh) <-> Forall2 lt ix sh).
  { intros sh ix. rewrite in_indices. revert ix. induction sh as [|n sh IH]; intros [|i ix]; cbn [inb]; try (split; [discriminate|intros H; inversion H]); [split; constructor|].
    rewrite andb_true_iff, Nat.ltb_lt, IH. split; [intros [H1 H2]; now constructor|intros H; inversion H; subst; auto]. }
  split; [apply IN|]. split; [|split].
  - generalize (nd_shape a). clear. intros sh. induction sh as [|n sh IH]; [repeat constructor|]. cbn [indices]. generalize 0. induction n as [|n IHn]; intros s; [constructor|].
    cbn [seq flat_map].
    assert (AP : forall l1 l2, StronglySorted lex l1 -> StronglySorted lex l2 -> (forall x y, In x l1 -> In y l2 -> lex x y) -> StronglySorted lex (l1 ++ l2)).
    { clear. induction l1 as [|x l1 I]; intros l2 H1 H2 H3; auto. cbn [app]. apply StronglySorted_inv in H1 as [H1 H4]. constructor.
      - apply I; auto. intros u v Hu Hv. apply H3; auto. now right.
      - apply Forall_app. split; auto. apply Forall_forall. intros y Hy. apply H3; auto. now left. }
    apply AP; auto.
    + clear - IH. induction IH as [|x l H1 IH1 H2]; [constructor|]. cbn [map]. constructor; auto. apply Forall_forall. intros y Hy. apply in_map_iff in Hy as [z [<- Hz]].
      right. split; auto. rewrite Forall_forall in H2. auto.
    + intros x y Hx Hy. apply in_map_iff in Hx as [u [<- _]]. apply in_flat_map in Hy as [i [Hi Hy]]. apply in_map_iff in Hy as [w [<- _]]. left. apply in_seq in Hi. lia.
  - apply nth_error_ext. intros k. rewrite !nth_error_map.
    destruct (nth_error (indices (nd_shape a)) k) as [ix|] eqn:E.
    + assert (I : inb (nd_shape a) ix = true) by (apply in_indices; eapply nth_error_In; eauto).
      assert (K : ravel (nd_shape a) ix = k).
      { apply (proj1 (NoDup_nth_error (indices (nd_shape a))) (NoDup_indices _)).
        - rewrite indices_length. now apply ravel_lt.
        - rewrite E. now apply nth_error_indices. }
      cbn [option_map]. unfold nd_get. rewrite I, K. destruct (nth_error (nd_elems a) k) eqn:F; auto.
      exfalso. apply nth_error_None in F. rewrite W in F. pose proof (ravel_lt _ _ I). lia.
    + apply nth_error_None in E. rewrite indices_length in E. rewrite <- W in E. apply nth_error_None in E. now rewrite E.
  - intros ix N. apply nd_get_oob. destruct (inb (nd_shape a) ix) eqn:E; auto. exfalso. apply N. now apply in_indices.
Qed.
Print Assumptions C01_row_major.

(** ** Names of elements: letters and digits beginning and ending with a letter,
    then two digits, then anything; the longest such name counts *)
Definition letter (c : ascii) : Prop := In c (letters ++ chars "_").
Definition names_element (s m : list ascii) (i j : nat) : Prop :=
  exists a mid z r, (m = [a] /\ z = a \/ m = a :: mid ++ [z]) /\ letter a /\ letter z /\ Forall (fun c => letter c \/ In c numerals) mid /\
    i < 10 /\ j < 10 /\ s = m ++ print_nat i ++ print_nat j ++ r.
Lemma alpha_letter : forall c, is_alpha c = true <-> letter c.
Proof. unfold letter. every_char. Qed.
Lemma digit_numeral : forall c, is_digit c = true <-> In c numerals.
Proof. every_char. Qed.
Lemma word_spec : forall c, is_word c = true <-> letter c \/ In c numerals.
Proof. intros c. unfold is_word. now rewrite orb_true_iff, alpha_letter, digit_numeral. Qed.
Lemma one_digit : forall c, is_digit c = true -> print_nat (digit_value c) = [c] /\ digit_value c < 10.
Proof. intros [[] [] [] [] [] [] [] []] H; try discriminate H; split; try reflexivity; vm_compute; lia. Qed.
Lemma one_digit_char : forall n, n < 10 -> exists c, print_nat n = [c] /\ is_digit c = true /\ digit_value c = n.
Proof. intros n H. do 10 (destruct n as [|n]; [eexists; split; [reflexivity|split; reflexivity]|]). lia. Qed.

(** [scan_name pre l] finds a split of [rev pre ++ l] at or after the end of [pre]. *)
Definition split_at (pre l m : list ascii) (i j : nat) : Prop :=
  exists p x c d r, l = x ++ c :: d :: r /\ m = rev pre ++ x /\ Forall (fun c => is_word c = true) x /\ m = p ++ [last m "0"%char] /\
    is_alpha (last m "0"%char) = true /\ is_digit c = true /\ is_digit d = true /\ digit_value c = i /\ digit_value d = j.
Lemma last_rev : forall (p : ascii) pre d, last (rev (p :: pre)) d = p.
Proof. intros. cbn [rev]. now rewrite last_last. Qed.
Lemma scan_spec : forall l pre, match scan_name pre l with
  | Some (m, i, j) => split_at pre l m i j /\ forall m' i' j', split_at pre l m' i' j' -> length m' <= length m
  | None => forall m' i' j', ~ split_at pre l m' i' j'
  end.
Proof.
  induction l as [|c l IH]; intros pre; cbn [scan_name].
  - intros m i j [p [x [c [d [r [H _]]]]]]. destruct x; discriminate.
  - assert (SH : forall m i j, split_at pre (c :: l) m i j -> is_word c = true /\ (split_at (c :: pre) l m i j \/
      exists p pre' d r, pre = p :: pre' /\ l = d :: r /\ m = rev pre /\ is_alpha p = true /\ is_digit c = true /\ is_digit d = true /\ digit_value c = i /\ digit_value d = j)).
    { intros m i j [p [x [c1 [d [r [E1 [E2 [F [E3 [A1 [D1 [D2 [V1 V2]]]]]]]]]]]]]. destruct x as [|c0 x]; cbn [app] in E1; injection E1 as E0 E1.
      - subst c1. split; [unfold is_word; rewrite D1; apply orb_true_r|]. right. rewrite app_nil_r in E2. subst m. destruct pre as [|p0 pre']; [cbn in E3; destruct p; discriminate|].
        rewrite last_rev in A1. exists p0, pre', d, r. auto 10.
      - subst c0. inversion F as [|? ? W F']; subst. split; auto. left. exists p, x, c1, d, r. cbn [rev]. rewrite <- app_assoc. cbn [app]. rewrite <- E3. auto 10. }
    destruct (is_word c) eqn:W; cbn [negb]; [|intros m i j H; apply SH in H as [H _]; discriminate].
    assert (UP : forall m i j, split_at (c :: pre) l m i j -> split_at pre (c :: l) m i j).
    { intros m i j [p [x [c1 [d [r [E1 [E2 [F [E3 [A1 [D1 [D2 [V1 V2]]]]]]]]]]]]]. exists p, (c :: x), c1, d, r. cbn [rev] in E2. rewrite <- app_assoc in E2. subst l. auto 12. }
    specialize (IH (c :: pre)). destruct (scan_name (c :: pre) l) as [[[m i] j]|].
    + destruct IH as [I1 I2]. split; [now apply UP|]. intros m' i' j' H. apply SH in H as [_ [H|[p [pre' [d [r [-> [-> [-> _]]]]]]]]]; [now apply (I2 m' i' j')|].
      destruct I1 as [p1 [x [c1 [d1 [r1 [_ [-> _]]]]]]]. cbn [rev]. rewrite !app_length. cbn [length]. lia.
    + assert (NX : forall m i j, split_at pre (c :: l) m i j -> exists p pre' d r, pre = p :: pre' /\ l = d :: r /\ m = rev pre /\ is_alpha p = true /\ is_digit c = true /\ is_digit d = true /\ digit_value c = i /\ digit_value d = j).
      { intros m i j H. apply SH in H as [_ [H|H]]; [exfalso; now apply (IH m i j)|exact H]. }
      destruct pre as [|p pre]; [intros m i j H; apply NX in H as [? [? [? [? [H _]]]]]; discriminate|].
      destruct l as [|c2 l]; [intros m i j H; apply NX in H as [? [? [? [? [_ [H _]]]]]]; discriminate|].
      destruct (is_alpha p && is_digit c && is_digit c2) eqn:C.
      * apply andb_prop in C as [C C3]. apply andb_prop in C as [C1 C2]. split.
        -- exists (rev pre), [], c, c2, l. rewrite last_rev, app_nil_r. auto 12.
        -- intros m' i' j' H. apply NX in H as [? [? [? [? [_ [_ [-> _]]]]]]]. lia.
      * intros m i j H. apply NX in H as [p' [pre' [d [r [E1 [E2 [_ [A1 [D1 [D2 _]]]]]]]]]]. injection E1 as <- <-. injection E2 as <- <-. now rewrite A1, D1, D2 in C.
Qed.
Lemma split_names : forall s m i j, (exists a l, s = a :: l /\ is_alpha a = true) -> split_at [] s m i j <-> names_element s m i j.
Proof.
  intros s m i j [a0 [l0 [Es A0]]]. split.
  - intros [p [x [c [d [r [E1 [E2 [F [E3 [A1 [D1 [D2 [V1 V2]]]]]]]]]]]]]. cbn [rev app] in E2. subst x i j.
    destruct (one_digit c D1) as [P1 L1]. destruct (one_digit d D2) as [P2 L2].
    destruct m as [|a m]; [destruct p; discriminate|]. rewrite Es in E1. cbn [app] in E1. injection E1 as <- E1.
    exists a0, (removelast m), (last (a0 :: m) "0"%char), r. split; [|split; [now apply alpha_letter|split; [now apply alpha_letter|split; [|split; [auto|split; auto]]]]].
    + destruct m as [|b m]; [left; auto|right]. f_equal. change (last (a0 :: b :: m) "0"%char) with (last (b :: m) "0"%char). apply app_removelast_last. discriminate.
    + inversion F; subst. apply Forall_forall. intros y Hy. apply word_spec. rewrite Forall_forall in H2. apply H2.
      destruct m as [|b m]; [destruct Hy|]. rewrite (app_removelast_last "0"%char (l := b :: m)) by discriminate. apply in_or_app. now left.
    + rewrite Es, E1, P1, P2. reflexivity.
  - intros [a [mid [z [r [Em [La [Lz [F [Hi [Hj E]]]]]]]]]]. apply alpha_letter in La, Lz.
    destruct (one_digit_char i Hi) as [c [P1 [D1 V1]]]. destruct (one_digit_char j Hj) as [d [P2 [D2 V2]]]. rewrite P1, P2 in E. cbn [app] in E.
    assert (LM : last m "0"%char = z /\ exists p, m = p ++ [z]).
    { destruct Em as [[-> ->]| ->]; [split; [reflexivity|now exists []]|]. split; [rewrite app_comm_cons; apply last_last|exists (a :: mid); reflexivity]. }
    destruct LM as [LM [p Ep]]. exists p, m, c, d, r. split; auto. split; auto. split.
    + assert (WA : is_word a = true) by (unfold is_word; now rewrite La). assert (WZ : is_word z = true) by (unfold is_word; now rewrite Lz).
      destruct Em as [[-> _]| ->]; [auto|]. constructor; auto. apply Forall_app. split; auto. eapply Forall_impl; [|exact F]. intros y Hy. now apply word_spec.
    + rewrite LM. auto 10.
Qed.
Lemma length_string_of_list : forall l, String.length (string_of_list_ascii l) = length l.
Proof. induction l as [|c l IH]; cbn; auto. Qed.
Theorem C18_element_names : forall s, match is_matrix_name s with
  | Some (m, (i, j)) => exists i' j', i = (Z.of_nat i' - 1)%Z /\ j = (Z.of_nat j' - 1)%Z /\ names_element (chars s) (chars m) i' j' /\
      forall m' i2 j2, names_element (chars s) m' i2 j2 -> length m' <= String.length m
  | None => forall m i j, ~ names_element (chars s) m i j
  end.
Proof.
  intros s. unfold is_matrix_name. destruct (chars s) as [|c l] eqn:E.
  - intros m i j [a [mid [z [r [Em [_ [_ [_ [_ [_ H]]]]]]]]]]. destruct Em as [[-> _]| ->]; discriminate.
  - destruct (is_alpha c) eqn:Ac.
    + pose proof (scan_spec (c :: l) []) as Q. assert (SN : forall m i j, split_at [] (c :: l) m i j <-> names_element (c :: l) m i j) by (intros; apply split_names; eauto).
      destruct (scan_name [] (c :: l)) as [[[m i] j]|].
      * destruct Q as [Q1 Q2]. exists i, j. split; auto. split; auto. unfold chars. rewrite list_ascii_of_string_of_list_ascii. split; [now apply SN|].
        intros m' i2 j2 H. apply SN in H. apply Q2 in H. now rewrite length_string_of_list.
      * intros m i j H. apply SN in H. now apply Q in H.
    + intros m i j [a [mid [z [r [Em [La [_ [_ [_ [_ H]]]]]]]]]]. apply alpha_letter in La. destruct Em as [[-> _]| ->]; cbn [app] in H; injection H as -> _; congruence.
Qed.
Print Assumptions C18_element_names.
Example C18_element_names_ex : is_matrix_name "S2V12x34y" = Some ("S2V12x", (2, 3)%Z) /\ is_matrix_name "S1" = None /\ is_matrix_name "3S11" = None.
Proof. repeat split; reflexivity. Qed.

(** ** Values for an element of a matrix *)
(** numpy's rule: leading ones are dropped, missing leading axes are added, ones are repeated. *)
Definition broadcasts (s t : list nat) : Prop :=
  exists ones s' lead t', s = repeat 1 ones ++ s' /\ t = lead ++ t' /\ Forall2 (fun a b => a = b \/ a = 1) s' t'.
Lemma bcast_spec : forall s t, bcast_ok s t = true <-> exists lead t', t = lead ++ t' /\ Forall2 (fun a b => a = b \/ a = 1) s t'.
Proof.
  intros s t. unfold bcast_ok. rewrite andb_true_iff, Nat.leb_le.
  assert (F : forall s t, length s = length t -> (forallb (fun p => Nat.eqb (fst p) (snd p) || Nat.eqb (fst p) 1) (combine s t) = true <-> Forall2 (fun a b => a = b \/ a = 1) s t)).
  { clear. induction s as [|a s IH]; intros [|b t] L; try discriminate; cbn [combine forallb]; [split; auto|]. injection L as L.
    rewrite andb_true_iff, orb_true_iff, IH, !Nat.eqb_eq by auto. cbn [fst snd]. split; [intros [H1 H2]; now constructor|intros H; inversion H; subst; auto]. }
  split.
  - intros [L H]. exists (firstn (length t - length s) t), (skipn (length t - length s) t). split; [symmetry; apply firstn_skipn|]. apply F; auto.
    rewrite skipn_length. lia.
  - intros [lead [t' [-> H]]]. assert (L : length s = length t') by (clear F; induction H; cbn; auto). rewrite app_length. split; [lia|].
    replace (length lead + length t' - length s) with (length lead) by lia. rewrite skipn_app, skipn_all, Nat.sub_diag. cbn [skipn app]. now apply F.
Qed.
Lemma drop_lead_spec : forall n s, exists k, s = repeat 1 k ++ drop_lead n s /\ k <= n /\ (k = n \/ hd 0 (drop_lead n s) <> 1).
Proof.
  induction n as [|n IH]; intros s; [exists 0; destruct s; cbn; auto|]. destruct s as [|[|[|a]] s]; cbn [drop_lead]; try (exists 0; cbn; split; [reflexivity|split; [lia|right; lia]]).
  destruct (IH s) as [k [E [L H]]]. exists (S k). cbn [repeat app]. rewrite <- E. split; auto. split; [lia|]. destruct H as [->|H]; auto.
Qed.
Lemma broadcasts_dropped : forall s t, bcast_ok (drop_lead (length s - length t) s) t = true <-> broadcasts s t.
Proof.
  intros s t. rewrite bcast_spec. destruct (drop_lead_spec (length s - length t) s) as [k [E [L H]]]. set (s1 := drop_lead (length s - length t) s) in *. split.
  - intros [lead [t' [-> F]]]. exists k, s1, lead, t'. auto.
  - intros [ones [s' [lead [t' [E2 [-> F]]]]]]. assert (L2 : length s' = length t') by (clear - F; induction F; cbn; auto).
    assert (K : k <= ones).
    { apply (f_equal (@length nat)) in E2. rewrite app_length, repeat_length in E2. rewrite app_length in L. lia. }
    assert (E3 : s1 = repeat 1 (ones - k) ++ s').
    { rewrite E in E2. replace ones with (k + (ones - k)) in E2 by lia. rewrite repeat_app, <- app_assoc in E2. now apply app_inv_head in E2. }
    clearbody s1. assert (LL : ones - k <= length lead).
    { destruct H as [->|H].
      - apply (f_equal (@length nat)) in E2. rewrite app_length, repeat_length in E2. rewrite app_length in *. lia.
      - destruct (ones - k) as [|x]; [lia|]. rewrite E3 in H. cbn in H. lia. }
    exists (firstn (length lead - (ones - k)) lead), (skipn (length lead - (ones - k)) lead ++ t'). split; [now rewrite app_assoc, firstn_skipn|].
    rewrite E3. apply Forall2_app; auto.
    assert (Ln : length (skipn (length lead - (ones - k)) lead) = ones - k) by (rewrite skipn_length; lia).
    assert (G : forall (l : list nat) n, length l = n -> Forall2 (fun a b => a = b \/ a = 1) (repeat 1 n) l).
    { clear. intros l. induction l as [|a l IH]; intros [|n] L; try discriminate; cbn [repeat]; constructor; auto. }
    now apply G.
Qed.
(** A value is stored in an element of a matrix exactly if it fits into its other axes. *)
Theorem C18_element_shape : forall {A} (lab : A -> label) b k m i j p q (x v : hf A) t ni nj,
  is_matrix_name k = Some (m, (i, j)) -> dd_get m (b_var b) = Ok x -> h_shape x = t ++ [ni; nj] -> int_position ni i p -> int_position nj j q -> ismatrix v = false ->
  ((exists b', b_set lab k v b = Ok b') <-> broadcasts (h_shape v) t) /\ (~ broadcasts (h_shape v) t -> b_set lab k v b = Err ValueError).
Proof.
  intros A lab b k m i j p q x v t ni nj Hn Hx Hs Hp Hq Hv. apply int_position_py in Hp, Hq.
  assert (Hc : dd_contains m (b_var b) = true) by (unfold dd_contains, pd_has; unfold dd_get in Hx; destruct (pd_get m (dd_map (b_var b))); [auto|discriminate]).
  unfold b_set. rewrite Hn, Hc, Hv. cbn [andb negb]. rewrite Hx. cbn [bind]. unfold set_element. rewrite Hs, app_length. cbn [length fst snd].
  assert (length t + 2 <? 2 = false) as -> by (apply Nat.ltb_ge; lia). replace (length t + 2 - 2) with (length t) by lia. replace (length t + 2 - 1) with (S (length t)) by lia.
  rewrite firstn_app, firstn_all, Nat.sub_diag. cbn [firstn]. rewrite app_nil_r.
  rewrite !app_nth2 by lia. replace (length t - length t) with 0 by lia. replace (S (length t) - length t) with 1 by lia. cbn [nth]. rewrite Hp, Hq. cbn [of_option bind].
  change (h_ndim v) with (length (h_shape v)). pose proof (broadcasts_dropped (h_shape v) t) as B. destruct (bcast_ok _ t); cbn [bind].
  - split; [|intros N; exfalso; apply N; now apply B]. split; [intros _; now apply B|eauto].
  - split; [|auto]. split; [intros [b' H]; discriminate|intros H; apply B in H; discriminate].
Qed.
Print Assumptions C18_element_shape.

(** ** Numbers with an exponent of one character *)
Theorem C37_exponent : forall num (to_float : list ascii -> option num) n e x sp u v,
  n <> [] -> incl n (numerals ++ chars "+-.") -> In e (chars "eE") -> In x (numerals ++ chars "+-") -> sp <> [] -> Forall (fun c => is_space c = true) sp ->
  u <> [] -> incl u (letters ++ chars "%") -> to_float (n ++ [e; x]) = Some v ->
  string_number_with_unit_to_value num to_float (n ++ [e; x] ++ sp ++ u) = Ok (v, fst (unit_to_multiplier u), snd (unit_to_multiplier u)).
Proof.
  intros num to_float n e x sp u v Nn Fn He Hx Ns Fs Nu Fu TF.
  assert (Q : forall c, In c (chars "eE") -> is_numchar c = false) by (intros c; rewrite in_chars; revert c; intros [[] [] [] [] [] [] [] []]; vm_compute; congruence).
  assert (Fn' : Forall (fun c => is_numchar c = true) n) by (apply Forall_forall; intros c Hc; apply C37_characters; auto).
  assert (Fu' : Forall (fun c => is_unitchar c = true) u) by (apply Forall_forall; intros c Hc; apply C37_characters; auto).
  pose proof (C37_read num (fun _ => Some v) ["1"%char] sp u v) as R. unfold string_number_with_unit_to_value in *.
  assert (M1 : match_value (n ++ [e; x] ++ sp ++ u) = Some (n ++ [e; x], sp ++ u)).
  { unfold match_value. rewrite span_app; auto; [|intros c t E; injection E as <- _; auto]. destruct n as [|c n]; [congruence|].
    cbn [app span1]. rewrite (proj2 (proj1 (proj2 (proj2 (C37_characters e)))) He). cbn [span1]. rewrite (proj2 (proj2 (proj2 (proj2 (C37_characters x)))) Hx). reflexivity. }
  rewrite M1, TF.
  assert (M2 : match_value (["1"%char] ++ sp ++ u) = Some (["1"%char], sp ++ u)).
  { destruct sp as [|c sp]; [congruence|]. inversion Fs as [|? ? C Fs']; subst. assert (K : is_numchar c = false /\ is_e c = false /\ is_expchar c = false).
    { revert C. clear. revert c. intros [[] [] [] [] [] [] [] []]; vm_compute; intuition congruence. }
    destruct K as [K1 [K2 K3]]. unfold match_value. cbn [app span]. assert (is_numchar "1" = true) as -> by reflexivity. cbn [span]. rewrite K1. cbn [span1]. rewrite K2. cbn [span1]. now rewrite K3. }
  rewrite M2 in R. apply R; auto; try discriminate; repeat constructor.
Qed.
Print Assumptions C37_exponent.
Example C37_exponent_ex : string_number_with_unit_to_value _ int_float (chars "25E3 GHz") = Ok ((25, 3)%Z, 9%Z, Some (chars "Hz")).
Proof. reflexivity. Qed.

(** Capital letters, and small letters for them; upper of Touchstone lines. *)
Theorem C56_characters : forall c, upper_letter c = true <-> In c (chars "ABCDEFGHIJKLMNOPQRSTUVWXYZ").
Proof. every_char. Qed.
Print Assumptions C56_characters.
Theorem C41_characters : forall c,
  nth_error (chars "abcdefghijklmnopqrstuvwxyz") (nat_of_ascii c - 65) = Some (lower_char c) /\ In c (chars "ABCDEFGHIJKLMNOPQRSTUVWXYZ") \/
  lower_char c = c /\ ~ In c (chars "ABCDEFGHIJKLMNOPQRSTUVWXYZ").
Proof.
  intros c. rewrite in_chars. assert (K : forall b : bool, b = false -> ~ b = true) by (intros []; congruence).
  revert c; intros [[] [] [] [] [] [] [] []];
    first [left; vm_compute; split; reflexivity|right; split; [vm_compute; reflexivity|apply K; vm_compute; reflexivity]].
Qed.
Print Assumptions C41_characters.

(** ** The dimensions of an array made without *)
Theorem C01_default_dims : forall {A} (a : nd A) t u f,
  match nd_shape a with
  | [] => new_raw a t None u f = new_raw a t (Some []) u f
  | [n] => exists d, new_raw a t None u f = new_raw a t (Some [d]) u f /\ d_class d = CDimSweep /\ d_name d = "freq" /\ length (d_data d) = n /\
             forall i, i < n -> nth_error (d_data d) i = Some (LZ (Z.of_nat i))
  | [n; m] => exists d e, new_raw a t None u f = new_raw a t (Some [d; e]) u f /\ d_class d = CDimSweep /\ d_name d = "freq" /\ d_class e = CDimRep /\ d_name e = "rep" /\
             length (d_data d) = n /\ length (d_data e) = m /\
             (forall i, i < n -> nth_error (d_data d) i = Some (LZ (Z.of_nat i))) /\ (forall i, i < m -> nth_error (d_data e) i = Some (LZ (Z.of_nat i)))
  | _ => new_raw a t None u f = Err DimMismatchError
  end.
Proof.
  intros A a t u f.
  assert (R : forall n i, i < n -> nth_error (range_labels n) i = Some (LZ (Z.of_nat i))).
  { intros n i L. unfold range_labels. rewrite nth_error_map. rewrite (nth_error_nth' _ 0) by (rewrite seq_length; lia). rewrite seq_nth by lia. reflexivity. }
  assert (RL : forall n, length (range_labels n) = n) by (intros n; unfold range_labels; now rewrite map_length, seq_length).
  unfold new_raw. destruct (nd_shape a) as [|n [|m [|k r]]]; cbn [default_dims bind]; auto.
  - exists (mkDim CDimSweep "freq" (range_labels n) None None). cbn [d_class d_name d_data]. rewrite ?RL. auto 12.
  - exists (mkDim CDimSweep "freq" (range_labels n) None None), (mkDim CDimRep "rep" (range_labels m) None None). cbn [d_class d_name d_data]. rewrite ?RL. auto 12.
Qed.
Print Assumptions C01_default_dims.

(** ** Lines are counted from one *)
Theorem C44_line_numbers : forall lines t, In t (Model_Citi.ci_tokens 0 lines) -> exists k l, t_line t = S k /\ nth_error lines k = Some l /\
  Model_Citi.ci_tokenize l = Some (t_tag t, t_rad t).
Proof.
  assert (G : forall lines n t, In t (Model_Citi.ci_tokens n lines) -> exists k l, t_line t = S (n + k) /\ nth_error lines k = Some l /\ Model_Citi.ci_tokenize l = Some (t_tag t, t_rad t)).
  { induction lines as [|l ls IH]; intros n t H; cbn [Model_Citi.ci_tokens] in H; [destruct H|].
    assert (G' : In t (Model_Citi.ci_tokens (S n) ls) -> exists k l0, t_line t = S (n + k) /\ nth_error (l :: ls) k = Some l0 /\ Model_Citi.ci_tokenize l0 = Some (t_tag t, t_rad t)).
    { intros K. destruct (IH _ _ K) as [k [l0 [E1 [E2 E3]]]]. exists (S k), l0. rewrite E1. split; [lia|auto]. }
    destruct (Model_Citi.ci_tokenize l) as [[tag r]|] eqn:E; auto. destruct H as [<-|H]; auto. exists 0, l. cbn [t_line t_tag t_rad nth_error]. split; [lia|auto]. }
  intros lines t H. exact (G lines 0 t H).
Qed.
Print Assumptions C44_line_numbers.
Theorem C41_line_numbers : forall lines t, In t (md_tokens 0 lines) -> exists k l, t_line t = S k /\ nth_error lines k = Some l /\
  md_tokenize l = Some (t_tag t, t_rad t).
Proof.
  assert (G : forall lines n t, In t (md_tokens n lines) -> exists k l, t_line t = S (n + k) /\ nth_error lines k = Some l /\ md_tokenize l = Some (t_tag t, t_rad t)).
  { induction lines as [|l ls IH]; intros n t H; cbn [md_tokens] in H; [destruct H|].
    assert (G' : In t (md_tokens (S n) ls) -> exists k l0, t_line t = S (n + k) /\ nth_error (l :: ls) k = Some l0 /\ md_tokenize l0 = Some (t_tag t, t_rad t)).
    { intros K. destruct (IH _ _ K) as [k [l0 [E1 [E2 E3]]]]. exists (S k), l0. rewrite E1. split; [lia|auto]. }
    destruct (md_tokenize l) as [[tag r]|] eqn:E; auto. destruct H as [<-|H]; auto. exists 0, l. cbn [t_line t_tag t_rad nth_error]. split; [lia|auto]. }
  intros lines t H. exact (G lines 0 t H).
Qed.
Print Assumptions C41_line_numbers.

(** ** All names: the dimensions first, then the variables, each once *)
Theorem C45_allvarnames : forall {A} (b : block A) vs ivs, dd_items (b_var b) = Ok vs -> dd_items (b_ivar b) = Ok ivs ->
  NoDup (map fst vs) -> NoDup (map fst ivs) ->
  NoDup (allvarnames b) /\ (forall k, In k (allvarnames b) <-> In k (map fst ivs) \/ In k (map fst vs)) /\ exists r, allvarnames b = map fst ivs ++ r.
Proof.
  intros A b vs ivs HV HI NV NI. unfold allvarnames. rewrite <- (items_iter _ _ HV), <- (items_iter _ _ HI).
  assert (L : forall k l, l_in k l = true <-> In k l).
  { intros k l. unfold l_in. rewrite existsb_exists. split; [intros [x [H E]]; apply String.eqb_eq in E; now subst|intros H; exists k; split; auto; apply String.eqb_refl]. }
  split; [|split; [|eauto]].
  - assert (AP : forall l1 l2 : list string, NoDup l1 -> NoDup l2 -> (forall x, In x l1 -> In x l2 -> False) -> NoDup (l1 ++ l2)).
    { clear. induction l1 as [|x l1 IH]; intros l2 N1 N2 H; auto. apply NoDup_cons_iff in N1 as [N0 N1]. cbn [app]. constructor.
      - intros K. apply in_app_or in K as [K|K]; [auto|]. apply (H x); [now left|auto].
      - apply IH; auto. intros y Hy. apply H. now right. }
    apply AP; auto; [now apply NoDup_filter|]. intros k H1 H2. apply filter_In in H2 as [_ H2]. apply L in H1. rewrite H1 in H2. discriminate.
  - intros k. rewrite in_app_iff, filter_In, negb_true_iff. split; [tauto|]. intros [H|H]; [now left|]. destruct (l_in k (map fst ivs)) eqn:E; [left; now apply L|auto].
Qed.
Print Assumptions C45_allvarnames.
Example lines_ex :
  map t_line (Model_Citi.ci_tokens 0 [chars "!a"; []; chars "BEGIN"]) = [1; 3] /\ map t_line (md_tokens 0 [chars "!a"; []; chars "BEGIN x"]) = [1; 3].
Proof. split; vm_compute; reflexivity. Qed.
Example names_ex :
  (do b <- Proofs_Block.sets (fun x : label => x) [("S", mkHF (mkNd [1] [LZ 5]) DInt [mkDim CDimSweep "f" [LZ 1] None None] None "%d"); ("T", mkHF (mkNd [] [LZ 5]) DInt [] None "%d")] b_empty;
   Ok (allvarnames b)) = Ok ["f"; "S"; "T"].
Proof. vm_compute. reflexivity. Qed.
