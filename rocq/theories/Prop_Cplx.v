(** C45: pairs of variables Re(x), Im(x) and Mag(x), Arg(x) are joined to
    complex variables. *)
From Coq Require Import Ascii String List Arith ZArith Bool Lia.
From Verif Require Import Model_NdArray Proofs_NdArray Model_Dim Proofs_Dim Model_Array Spec_Array Proofs_Array Proofs_Array2 Proofs_Array8 Model_DataDict
  Spec_DataDict Proofs_DataDict Model_Text Proofs_Text Model_Block Spec_Block Proofs_Block Proofs_Block2 Proofs_Block3
  Model_Elements Proofs_Elements Model_Cplx Prop_Array Prop_Block.
Import ListNotations.
Local Open Scope string_scope.
Local Open Scope nat_scope.
Local Open Scope list_scope.

(** *** Specification *)
Definition letter (c : ascii) : Prop := let n := nat_of_ascii c in (65 <= n <= 90) \/ (97 <= n <= 122) \/ n = 95.
Definition digit (c : ascii) : Prop := let n := nat_of_ascii c in 48 <= n <= 57.
Definition identifier (f : list ascii) : Prop :=
  exists c r, f = c :: r /\ letter c /\ Forall (fun x => letter x \/ digit x) r.

(** [n] is written [f (v)] followed by a remark; the remark contains no closing
    parenthesis in its first line. *)
Definition applies (n f v : list ascii) : Prop :=
  exists sp rest more, identifier f /\ Forall (fun c => c = " "%char) sp /\ ~ In newline v /\
    ~ In newline rest /\ ~ In ")"%char rest /\ (more = [] \/ exists m, more = newline :: m) /\
    n = f ++ sp ++ ["("%char] ++ v ++ [")"%char] ++ rest ++ more.

Definition part (n f v : string) : Prop := applies (chars n) (chars f) (chars v).

(** The pair that [v] is made of: Re and Im, or else Mag and Arg. *)
Definition pair_for (names : list string) (v : string) (rect : bool) (r m : string) : Prop :=
  In r names /\ In m names /\
  if rect then part r "Re" v /\ part m "Im" v
  else part r "Mag" v /\ part m "Arg" v /\ ~ (exists p q, In p names /\ In q names /\ part p "Re" v /\ part q "Im" v).

(** *** Names *)
Lemma is_alpha_iff : forall c, is_alpha c = true <-> letter c.
Proof.
  intros c. unfold is_alpha, letter. cbn zeta. rewrite !orb_true_iff, !andb_true_iff, !Nat.leb_le, Nat.eqb_eq. tauto.
Qed.
Lemma is_word_iff : forall c, is_word c = true <-> letter c \/ digit c.
Proof. intros c. unfold is_word. rewrite orb_true_iff, is_alpha_iff. unfold is_digit, digit. cbn zeta. now rewrite andb_true_iff, !Nat.leb_le. Qed.

Lemma take_drop : forall {X} (f : X -> bool) l, l = take_while f l ++ drop_while f l.
Proof. induction l as [|c l IH]; simpl; auto. destruct (f c); simpl; auto. now rewrite <- IH. Qed.
Lemma take_all : forall {X} (f : X -> bool) l, Forall (fun c => f c = true) (take_while f l).
Proof. induction l as [|c l IH]; simpl; auto. destruct (f c) eqn:E; auto. Qed.
Lemma drop_head : forall {X} (f : X -> bool) l c r, drop_while f l = c :: r -> f c = false.
Proof. induction l as [|d l IH]; cbn [drop_while]; intros c r H; [discriminate|]. destruct (f d) eqn:E; eauto. injection H as -> _. auto. Qed.
Lemma take_app : forall {X} (f : X -> bool) a b, Forall (fun c => f c = true) a -> (b = [] \/ exists c r, b = c :: r /\ f c = false) ->
  take_while f (a ++ b) = a /\ drop_while f (a ++ b) = b.
Proof.
  induction a as [|c a IH]; intros b H Hb; cbn [app].
  - destruct Hb as [->|[c [r [-> E]]]]; cbn [take_while drop_while]; auto. now rewrite E.
  - pose proof (Forall_inv H) as H1. pose proof (Forall_inv_tail H) as H2. cbn beta in H1. cbn [take_while drop_while]. rewrite H1.
    destruct (IH b H2 Hb) as [-> ->]. auto.
Qed.

Lemma before_last_none : forall c l, ~ In c l -> before_last c l = None.
Proof.
  induction l as [|x l IH]; intros H; auto. cbn [before_last]. rewrite IH by (intros K; apply H; now right).
  destruct (Ascii.eqb_spec x c) as [->|]; auto. exfalso. apply H. now left.
Qed.
Lemma before_last_ok : forall c v rest, ~ In c rest -> before_last c (v ++ c :: rest) = Some v.
Proof.
  induction v as [|x v IH]; intros rest H; cbn [app before_last].
  - rewrite before_last_none, Ascii.eqb_refl by auto. reflexivity.
  - now rewrite IH.
Qed.
Lemma before_last_split : forall c l v, before_last c l = Some v -> exists rest, l = v ++ c :: rest /\ ~ In c rest.
Proof.
  intros c. induction l as [|x l IH]; intros v H; [discriminate|]. cbn [before_last] in H. destruct (before_last c l) as [w|] eqn:E.
  - injection H as <-. destruct (IH w eq_refl) as [rest [-> R]]. exists rest. auto.
  - destruct (Ascii.eqb_spec x c) as [->|]; [|discriminate]. injection H as <-. exists l. split; auto. intros K.
    clear - K E. induction l as [|y l IH]; [destruct K|]. cbn [before_last] in E. destruct (before_last c l); [discriminate|].
    destruct (Ascii.eqb_spec y c); [discriminate|]. destruct K as [K|K]; [congruence|auto].
Qed.

Lemma outer_empty : forall n f v, outer_function n = (f, v) -> f = [] -> v = n.
Proof.
  intros n f v H F. unfold outer_function in H. destruct (take_while is_word n); [congruence|]. destruct (is_alpha a); [|congruence].
  destruct (drop_while is_blank (drop_while is_word n)) as [|[b0 b1 b2 b3 b4 b5 b6 b7] r]; [congruence|].
  repeat match type of H with context [if ?b then _ else _] => destruct b end; try congruence.
  destruct (before_last ")" (take_while not_newline r)); congruence.
Qed.

(** The reader understands a name as function and argument exactly when it is
    written that way. *)
Theorem C45_name : forall n f v, f <> [] -> (outer_function n = (f, v) <-> applies n f v).
Proof.
  intros n f v F. split.
  - intros H. unfold outer_function in H. pose proof (take_drop is_word n) as D. pose proof (take_all is_word n) as T.
    destruct (take_while is_word n) as [|c t]; [congruence|]. destruct (is_alpha c) eqn:A; [|congruence].
    pose proof (take_drop is_blank (drop_while is_word n)) as D2. pose proof (take_all is_blank (drop_while is_word n)) as T2.
    destruct (drop_while is_blank (drop_while is_word n)) as [|p r]; [congruence|].
    assert (P : exists w, before_last ")" (take_while not_newline r) = Some w /\ p = "("%char /\ f = c :: t /\ v = w).
    { destruct p as [b0 b1 b2 b3 b4 b5 b6 b7]. repeat match type of H with context [if ?b then _ else _] => destruct b end; try congruence.
      destruct (before_last ")" (take_while not_newline r)) as [w|]; [|congruence]. injection H as <- <-. exists w. auto. }
    destruct P as [w [P1 [-> [-> ->]]]]. apply before_last_split in P1 as [rest [P1 P2]].
    pose proof (take_drop not_newline r) as D3. pose proof (take_all not_newline r) as T3. rewrite P1 in T3.
    exists (take_while is_blank (drop_while is_word n)), rest, (drop_while not_newline r).
    assert (NL : forall l, Forall (fun c => not_newline c = true) l -> ~ In newline l).
    { intros l Hl Hin. rewrite Forall_forall in Hl. specialize (Hl _ Hin). discriminate. }
    apply Forall_app in T3 as [T3 T4]. apply Forall_inv_tail in T4.
    split; [|split; [|split; [|split; [|split; [|split]]]]]; auto.
    + exists c, t. split; auto. split; [now apply is_alpha_iff|]. apply Forall_inv_tail in T. revert T. apply Forall_impl. intros. now apply is_word_iff.
    + revert T2. apply Forall_impl. intros a. apply Ascii.eqb_eq.
    + destruct (drop_while not_newline r) as [|x m] eqn:E; auto. right. exists m. apply drop_head in E. unfold not_newline in E.
      apply negb_false_iff, Ascii.eqb_eq in E. now subst.
    + rewrite P1 in D3. transitivity ((c :: t) ++ drop_while is_word n); [exact D|]. f_equal.
      transitivity (take_while is_blank (drop_while is_word n) ++ "("%char :: r); [exact D2|]. f_equal. cbn [app]. f_equal.
      transitivity ((w ++ ")"%char :: rest) ++ drop_while not_newline r); [exact D3|]. now rewrite <- app_assoc.
  - intros [sp [rest [more [[c [t [Ef [L Ft]]]] [S1 [N1 [N2 [N3 [M E]]]]]]]]]. unfold outer_function. subst f.
    assert (SP : forall x, sp ++ ["("%char] ++ x = [] \/ exists c' r', sp ++ ["("%char] ++ x = c' :: r' /\ is_word c' = false).
    { intros x. right. destruct sp as [|a sp]; [exists "("%char, x; auto|]. exists a, (sp ++ ["("%char] ++ x). split; auto.
      rewrite (Forall_inv S1). reflexivity. }
    assert (W : Forall (fun x => is_word x = true) (c :: t)).
    { constructor; [apply is_word_iff; auto|]. revert Ft. apply Forall_impl. intros. now apply is_word_iff. }
    destruct (take_app is_word (c :: t) _ W (SP (v ++ [")"%char] ++ rest ++ more))) as [T1 T2]. rewrite <- E in T1, T2. rewrite T1, T2.
    rewrite (proj2 (is_alpha_iff c) L).
    assert (B : Forall (fun x => is_blank x = true) sp) by (revert S1; apply Forall_impl; intros a ->; reflexivity).
    assert (HP : ["("%char] ++ v ++ [")"%char] ++ rest ++ more = [] \/ exists c' r', ["("%char] ++ v ++ [")"%char] ++ rest ++ more = c' :: r' /\ is_blank c' = false)
      by (right; eexists; eexists; split; reflexivity).
    destruct (take_app is_blank sp _ B HP) as [_ T3]. rewrite T3. cbn [app].
    assert (NL : forall l, ~ In newline l -> Forall (fun c => not_newline c = true) l).
    { intros l Hl. rewrite Forall_forall. intros a Ha. unfold not_newline. apply negb_true_iff. apply Ascii.eqb_neq. intros ->. auto. }
    assert (NV : Forall (fun c => not_newline c = true) (v ++ ")"%char :: rest)) by (apply Forall_app; split; auto).
    assert (HM : more = [] \/ exists c' r', more = c' :: r' /\ not_newline c' = false).
    { destruct M as [->|[m ->]]; auto. right. exists newline, m. split; reflexivity. }
    destruct (take_app not_newline (v ++ ")"%char :: rest) more NV HM) as [T4 _].
    replace (v ++ ")"%char :: rest ++ more) with ((v ++ ")"%char :: rest) ++ more) by (now rewrite <- app_assoc).
    rewrite T4, before_last_ok by auto. reflexivity.
Qed.
Print Assumptions C45_name.

(** *** Collecting the names *)
Definition look2 (v f : string) (g : alts) : option string :=
  match pd_get v g with Some a => pd_get f a | None => None end.
Definition outer_s (n : string) : string * string :=
  (string_of_list_ascii (fst (outer_function (chars n))), string_of_list_ascii (snd (outer_function (chars n)))).
Lemma look2_add : forall v f g n, look2 v f (alt_add g n) =
  if (String.eqb v (snd (outer_s n)) && String.eqb f (fst (outer_s n)))%bool then Some n else look2 v f g.
Proof.
  intros v f g n. unfold look2, alt_add, outer_s. cbv zeta. cbn [fst snd]. set (w := string_of_list_ascii (snd _)). set (h := string_of_list_ascii (fst _)).
  destruct (String.eqb_spec v w) as [->|N].
  - rewrite pd_get_set_same. cbn [andb]. destruct (String.eqb_spec f h) as [->|M]; [now rewrite pd_get_set_same|].
    rewrite pd_get_set_other by auto. now destruct (pd_get w g).
  - cbn [andb]. now rewrite pd_get_set_other.
Qed.
Lemma look2_some : forall names v f n, look2 v f (fold_left alt_add names []) = Some n -> In n names /\ outer_s n = (f, v).
Proof.
  assert (G : forall names g v f n, look2 v f (fold_left alt_add names g) = Some n -> look2 v f g = Some n \/ (In n names /\ outer_s n = (f, v))).
  { induction names as [|m names IH]; intros g v f n H; cbn [fold_left] in H; auto. apply IH in H as [H|[H1 H2]]; [|right; split; auto; now right].
    rewrite look2_add in H. destruct (String.eqb_spec v (snd (outer_s m))) as [E1|]; cbn [andb] in H; auto.
    destruct (String.eqb_spec f (fst (outer_s m))) as [E2|]; auto. injection H as ->. right. split; [now left|]. subst. now destruct (outer_s n). }
  intros names v f n H. apply G in H as [H|H]; auto. discriminate.
Qed.
Lemma look2_in : forall names v f n, In n names -> outer_s n = (f, v) -> exists m, look2 v f (fold_left alt_add names []) = Some m.
Proof.
  assert (K : forall names g v f m, look2 v f g = Some m -> exists m', look2 v f (fold_left alt_add names g) = Some m').
  { induction names as [|a names IH]; intros g v f m H; cbn [fold_left]; eauto.
    assert (exists m', look2 v f (alt_add g a) = Some m') as [m' H']. { rewrite look2_add. destruct (_ && _)%bool; eauto. } eauto. }
  assert (G : forall names g v f n, In n names -> outer_s n = (f, v) -> exists m, look2 v f (fold_left alt_add names g) = Some m).
  { induction names as [|a names IH]; intros g v f n H E; [destruct H|]. cbn [fold_left]. destruct H as [->|H]; [|eauto].
    apply (K names _ v f n). rewrite look2_add, E. cbn [fst snd]. now rewrite !String.eqb_refl. }
  intros. eapply G; eauto.
Qed.
Lemma alts_NoDup : forall names g, NoDup (map fst g) -> NoDup (map fst (fold_left alt_add names g)).
Proof.
  induction names as [|n names IH]; intros g H; cbn [fold_left]; auto. apply IH. unfold alt_add. cbv zeta.
  generalize (string_of_list_ascii (snd (outer_function (chars n)))) as v. intros v.
  generalize (pd_set (string_of_list_ascii (fst (outer_function (chars n)))) n match pd_get v g with Some a => a | None => [] end) as a. intros a.
  revert H. clear. induction g as [|[k x] g IH]; intros H; cbn in *; [repeat constructor; auto|]. apply NoDup_cons_iff in H as [H1 H2].
  destruct (String.eqb_spec v k) as [|NE]; cbn; constructor; auto. intros C. apply H1. clear - C NE.
  induction g as [|[k' x'] g IH]; cbn in *; [intuition congruence|]. destruct (String.eqb_spec v k'); cbn in *; intuition congruence.
Qed.

Lemma part_outer : forall n f v, f <> "" -> (part n f v <-> outer_s n = (f, v)).
Proof.
  intros n f v F. unfold part. rewrite <- C45_name by (intros E; apply F; apply chars_inj; auto). unfold outer_s. split.
  - intros ->. cbn [fst snd]. unfold chars. now rewrite !string_of_list_ascii_of_string.
  - intros H. injection H as H1 H2. rewrite <- H1, <- H2. unfold chars. rewrite !list_ascii_of_string_of_list_ascii. now destruct (outer_function _).
Qed.

(** *** The loop *)
Definition act : Type := (string * (bool * string * string))%type.
Definition a_parts (a : act) : list string := [snd (fst (snd a)); snd (snd a)].
Fixpoint do_acts {A} (O : cops A) (lab : A -> label) (l : list act) (b : block A) : result (block A) :=
  match l with
  | [] => Ok b
  | (v, (rect, r, m)) :: l' =>
      do b' <- (if b_contains v b then Ok b
                else
                  do x <- get_var r b;
                  do y <- get_var m b;
                  do z <- join_pair O rect x y;
                  do b1 <- b_set lab v z b;
                  do b2 <- b_del r b1;
                  b_del m b2);
      do_acts O lab l' b'
  end.
Definition acts_of (g : alts) : list act :=
  flat_map (fun p => match pair_of (snd p) with Some a => [(fst p, a)] | None => [] end) g.
Lemma cplx_loop_acts : forall {A} (O : cops A) lab g b, cplx_loop O lab g b = do_acts O lab (acts_of g) b.
Proof.
  intros A O lab. induction g as [|[v alt] g IH]; intros b; auto. cbn [cplx_loop acts_of flat_map fst snd]. fold (acts_of g).
  destruct (pair_of alt) as [[[rect r] m]|]; cbn [app bind do_acts]; auto.
  match goal with |- bind ?e _ = _ => destruct e; cbn [bind]; auto end.
Qed.

(** A pair that can be joined. *)
Definition joinable {A} (b : block A) (r m : string) : Prop :=
  exists x y, pd_get r (dd_map (b_var b)) = Some x /\ pd_get m (dd_map (b_var b)) = Some y /\
    pd_get r (dd_map (b_ivar b)) = None /\ pd_get m (dd_map (b_ivar b)) = None /\
    wf x /\ wf y /\ coherent (h_dims x ++ h_dims y) /\ isfullcomplex x = isfullcomplex y.

Definition combine {A} (O : cops A) (rect : bool) (u w : A) : A :=
  if rect then c_add O u (c_muli O w) else c_mul O u (c_cis O w).

(** [z] is [x] and [y] put together. *)
Definition joined_from {A} (O : cops A) (rect : bool) (x y z : hf A) : Prop :=
  wf z /\ is_union (h_dims x) (h_dims y) (h_dims z) /\ h_unit z = h_unit x /\
  forall e, valid e (h_dims z) -> exists u w, val x e = Some u /\ val y e = Some w /\ val z e = Some (combine O rect u w).

Lemma scalar_val : forall {A} rt (op : A -> A) (x : hf A) e, val (scalar_op rt op x) e = option_map op (val x e).
Proof.
  intros A rt op x e. unfold val, scalar_op. cbn [h_nd h_dims]. unfold nd_get, nd_map. cbn [nd_shape nd_elems].
  destruct (inb (nd_shape (h_nd x)) (coords e (h_dims x))); auto. apply nth_error_map.
Qed.
Lemma scalar_wf : forall {A} rt (op : A -> A) (x : hf A), wf x -> wf (scalar_op rt op x).
Proof.
  intros A rt op x [H1 [H2 H3]]. split; [|split; auto]. unfold nd_wf, scalar_op, nd_map in *. cbn. now rewrite map_length.
Qed.

Lemma join_pair_ok : forall {A} (O : cops A) rect (x y : hf A), wf x -> wf y -> coherent (h_dims x ++ h_dims y) -> isfullcomplex x = isfullcomplex y ->
  exists z, join_pair O rect x y = Ok z /\ joined_from O rect x y z /\ incl (h_dims z) (h_dims x ++ h_dims y).
Proof.
  intros A O rect x y Wx Wy Hc Hf. unfold join_pair, joined_from, combine.
  destruct rect;
  [set (y' := scalar_op (c_srt O) (c_muli O) y); set (op := c_add O) | set (y' := scalar_op (c_srt O) (c_cis O) y); set (op := c_mul O)];
  (destruct (binop_ok (c_el O) (c_rt O) op x y') as [z [Z1 [Z2 [Z3 [Z4 [Z5 [Z6 Z7]]]]]]]; [auto|now apply scalar_wf|exact Hc|exact Hf|]);
  exists z; (split; [exact Z1|]); cbn [h_dims y' scalar_op] in Z3;
  (split; [split; [auto|split; [rewrite Z3; apply dims_union_spec; auto; apply Wy|split; auto]]|rewrite Z3; apply union_incl; auto; apply Wy]);
  intros e He; destruct (Z7 e He) as [u [w [V1 [V2 V3]]]]; unfold y' in V2; rewrite scalar_val in V2;
  destruct (val y e) as [w'|]; [|discriminate| |discriminate]; injection V2 as <-; exists u, w'; auto.
Qed.

Definition absent {A} (v : string) (b : block A) : Prop := pd_get v (dd_map (b_var b)) = None /\ pd_get v (dd_map (b_ivar b)) = None.
Lemma contains_absent : forall {A} v (b : block A), b_contains v b = false <-> absent v b.
Proof.
  intros A v b. unfold b_contains, absent, dd_contains, pd_has. rewrite orb_false_iff.
  destruct (pd_get v (dd_map (b_var b))), (pd_get v (dd_map (b_ivar b))); intuition congruence.
Qed.

Lemma do_acts_ok : forall {A} (O : cops A) lab (l : list act) (b : block A), BInv b -> NoDup (map fst l) ->
  NoDup (flat_map a_parts l) -> (forall v, In v (map fst l) -> ~ In v (flat_map a_parts l)) ->
  (forall v rect r m, In (v, (rect, r, m)) l -> absent v b -> joinable b r m) ->
  (forall v w e, In v (map fst l) -> absent v b -> is_matrix_name v = Some (w, e) -> dd_contains w (b_var b) = false /\ ~ In w (map fst l)) ->
  exists b', do_acts O lab l b = Ok b' /\ BInv b' /\
    (forall v rect r m, In (v, (rect, r, m)) l -> absent v b ->
       exists x y z, pd_get r (dd_map (b_var b)) = Some x /\ pd_get m (dd_map (b_var b)) = Some y /\ joined_from O rect x y z /\
         pd_get v (dd_map (b_var b')) = Some z /\ pd_get r (dd_map (b_var b')) = None /\ pd_get m (dd_map (b_var b')) = None) /\
    (forall n, (forall v rect r m, In (v, (rect, r, m)) l -> absent v b -> n <> v /\ n <> r /\ n <> m) ->
       pd_get n (dd_map (b_var b')) = pd_get n (dd_map (b_var b))) /\
    (forall n, pd_get n (dd_map (b_ivar b')) = pd_get n (dd_map (b_ivar b))).
Proof.
  intros A O lab. induction l as [|[v [[rect r] m]] l IH]; intros b HB N1 N2 N3 HJ HM.
  - exists b. split; auto. split; auto. split; [intros ? ? ? ? []|]. auto.
  - cbn [do_acts]. cbn [map fst flat_map a_parts snd app] in N1, N2, N3.
    apply NoDup_cons_iff in N1 as [N1 N1']. apply NoDup_cons_iff in N2 as [Nr N2]. apply NoDup_cons_iff in N2 as [Nm N2].
    destruct (b_contains v b) eqn:C.
    + cbn [bind]. destruct (IH b HB N1' N2) as [b' [I1 [I2 [I3 [I4 I5]]]]].
      * intros w Hw H. apply (N3 w); [now right|]. right. now right.
      * intros w rect0 r0 m0 Hin Hab. apply (HJ w rect0 r0 m0); auto. now right.
      * intros w u e Hw Ha E. destruct (HM w u e (or_intror Hw) Ha E) as [H1 H2]. split; auto. intros H. apply H2. now right.
      * exists b'. split; auto. split; auto. assert (NA : ~ absent v b) by (intros H; apply contains_absent in H; congruence). split; [|split; auto].
        -- intros w rect' r' m' [E|H] Ha; [injection E as <- <- <- <-; tauto|]. eapply I3; eauto.
        -- intros n Hn. apply I4. intros w rect' r' m' H Ha. apply (Hn w rect' r' m'); auto. now right.
    + assert (Ha := proj1 (contains_absent v b) C). destruct (HJ v rect r m (or_introl eq_refl) Ha) as [x [y [X1 [Y1 [X2 [Y2 [Wx [Wy [Hc Hf]]]]]]]]].
      rewrite (get_var_ok r b x X2 X1), (get_var_ok m b y Y2 Y1). cbn [bind].
      destruct (join_pair_ok O rect x y Wx Wy Hc Hf) as [z [Z1 [Z2 Z3]]]. rewrite Z1. cbn [bind].
      (* the assignment *)
      assert (S1 : exists b1, b_set lab v z b = Ok b1 /\ b_var b1 = dd_set v z (b_var b) /\ b_ivar b1 = add_ivars (h_dims z) (b_ivar b)).
      { unfold b_set. assert (E : match is_matrix_name v with Some (w, e) => if dd_contains w (b_var b) && negb (ismatrix z) then Some (w, e) else None | None => None end = None).
        { destruct (is_matrix_name v) as [[w e]|] eqn:E; auto. destruct (HM v w e (or_introl eq_refl) Ha E) as [-> _]. reflexivity. }
        cbv zeta. rewrite E. destruct Ha as [_ ->]. cbn [bind]. eexists. split; [reflexivity|]. auto. }
      destruct S1 as [b1 [S1 [S2 S3]]]. rewrite S1. cbn [bind]. pose proof (b_set_BInv lab v z b b1 HB S1) as B1.
      destruct (b_del_ok r b1 B1) as [b2 [D1 [D2 [D3 [_ D5]]]]]. rewrite D1. cbn [bind].
      destruct (b_del_ok m b2 D2) as [b3 [F1 [F2 [F3 [_ F5]]]]]. rewrite F1. cbn [bind].
      assert (Iv : forall n, pd_get n (dd_map (b_ivar b3)) = pd_get n (dd_map (b_ivar b))).
      { intros n. rewrite F3, D3, S3. destruct (pd_get n (dd_map (b_ivar b))) as [d|] eqn:E; [now apply add_ivars_old|].
        apply add_ivars_none; auto. intros H. apply in_map_iff in H as [d [<- H]]. apply Z3 in H. destruct HB as [_ [_ HB]].
        assert (dd_contains (d_name d) (b_ivar b) = true) as K by (apply in_app_or in H as [H|H]; [exact (HB _ _ _ X1 H)|exact (HB _ _ _ Y1 H)]).
        unfold dd_contains, pd_has in K. rewrite E in K. discriminate. }
      assert (Vr : forall n, pd_get n (dd_map (b_var b3)) = if String.eqb n m then None else if String.eqb n r then None else if String.eqb n v then Some z else pd_get n (dd_map (b_var b))).
      { intros n. rewrite F5, D5, S2, get_set. reflexivity. }
      assert (Nv : v <> r /\ v <> m). { specialize (N3 v (or_introl eq_refl)). cbn in N3. split; intros ->; apply N3; auto. }
      assert (Same : forall w, In w (map fst l) -> (absent w b3 <-> absent w b)).
      { intros w Hw. unfold absent. rewrite Vr, Iv. specialize (N3 w (or_intror Hw)). cbn in N3.
        destruct (String.eqb_spec w m); [subst; tauto|]. destruct (String.eqb_spec w r); [subst; tauto|]. destruct (String.eqb_spec w v); [subst; tauto|]. tauto. }
      assert (Inl : forall w a, In (w, a) l -> In w (map fst l)) by (intros w a H; now apply (in_map fst) in H).
      assert (Part : forall w rect' r' m', In (w, (rect', r', m')) l -> (r' <> m /\ r' <> r) /\ (m' <> m /\ m' <> r)).
      { intros w rect' r' m' H. assert (Hp : In r' (flat_map a_parts l) /\ In m' (flat_map a_parts l)).
        { split; apply in_flat_map; exists (w, (rect', r', m')); split; auto; cbn; auto. }
        destruct Hp. cbn in Nr. repeat split; intros ->; tauto. }
      destruct (IH b3 F2 N1' N2) as [b' [I1 [I2 [I3 [I4 I5]]]]].
      * intros w Hw H. apply (N3 w); [now right|]. right. now right.
      * intros w rect' r' m' H Hab. apply Same in Hab; [|now apply Inl in H]. destruct (HJ w rect' r' m' (or_intror H) Hab) as [x' [y' [X1' [Y1' [X2' [Y2' Rest]]]]]].
        destruct (Part w rect' r' m' H) as [[P1 P2] [P3 P4]]. destruct Ha as [Ha1 Ha2].
        exists x', y'. rewrite !Vr, !Iv. destruct (String.eqb_spec r' m); [tauto|]. destruct (String.eqb_spec r' r); [tauto|]. destruct (String.eqb_spec m' m); [tauto|].
        destruct (String.eqb_spec m' r); [tauto|]. destruct (String.eqb_spec r' v); [congruence|]. destruct (String.eqb_spec m' v); [congruence|]. auto.
      * intros w u e Hw Hab E. apply Same in Hab; auto. destruct (HM w u e (or_intror Hw) Hab E) as [H1 H2]. split; [|intros H; apply H2; now right].
        unfold dd_contains, pd_has in *. rewrite Vr. destruct (String.eqb_spec u m); auto. destruct (String.eqb_spec u r); auto.
        destruct (String.eqb_spec u v); auto. subst. exfalso. apply H2. now left.
      * exists b'. split; auto. split; auto. split; [|split].
        -- intros w rect' r' m' [E|H] Hab.
           ++ injection E as <- <- <- <-. exists x, y, z. split; auto. split; auto. split; auto.
              assert (Keep : forall n, n = v \/ n = r \/ n = m -> pd_get n (dd_map (b_var b')) = pd_get n (dd_map (b_var b3))).
              { intros n Hn. apply I4. intros w rect' r' m' H Hab'. pose proof (Inl _ _ H) as Hw. destruct (Part w rect' r' m' H) as [[P1 P2] [P3 P4]].
                specialize (N3 w (or_intror Hw)) as N3'. cbn in N3'.
                assert (Hp : In r' (flat_map a_parts l) /\ In m' (flat_map a_parts l)).
                { split; apply in_flat_map; exists (w, (rect', r', m')); split; auto; cbn; auto. }
                specialize (N3 v (or_introl eq_refl)) as N3v. cbn in N3v. destruct Hp as [Hp1 Hp2].
                destruct Hn as [->|[->| ->]]; repeat split; intros ->; tauto. }
              rewrite !Keep by auto. rewrite !Vr. rewrite !String.eqb_refl. destruct (String.eqb_spec v m); [tauto|]. destruct (String.eqb_spec v r); [tauto|].
              split; auto. split; auto. now destruct (String.eqb_spec r m).
           ++ pose proof (Inl _ _ H) as Hw. destruct (I3 w rect' r' m' H (proj2 (Same w Hw) Hab)) as [x' [y' [z' [R1 [R2 R3]]]]].
              destruct (Part w rect' r' m' H) as [[P1 P2] [P3 P4]]. exists x', y', z'. rewrite Vr in R1, R2.
              destruct (HJ w rect' r' m' (or_intror H) Hab) as [x2 [y2 [X1' [Y1' _]]]]. destruct Ha as [Ha1 Ha2].
              destruct (String.eqb_spec r' m); [tauto|]. destruct (String.eqb_spec r' r); [tauto|]. destruct (String.eqb_spec m' m); [tauto|].
              destruct (String.eqb_spec m' r); [tauto|]. destruct (String.eqb_spec r' v); [congruence|]. destruct (String.eqb_spec m' v); [congruence|]. auto.
        -- intros n Hn. rewrite I4.
           ++ rewrite Vr. destruct (Hn v rect r m (or_introl eq_refl) Ha) as [H1 [H2 H3]]. destruct (String.eqb_spec n m); [tauto|].
              destruct (String.eqb_spec n r); [tauto|]. destruct (String.eqb_spec n v); [tauto|]. auto.
           ++ intros w rect' r' m' H Hab. apply (Hn w rect' r' m'); [now right|]. apply Same; auto. now apply Inl in H.
        -- intros n. now rewrite I5.
Qed.

(** *** The property *)
Lemma acts_iff : forall names, (forall f v n n', In n names -> In n' names -> f <> "" -> part n f v -> part n' f v -> n = n') ->
  forall v rect r m, In (v, (rect, r, m)) (acts_of (fold_left alt_add names [])) <-> pair_for names v rect r m.
Proof.
  intros names U v rect r m. set (g := fold_left alt_add names []).
  assert (NG : NoDup (map fst g)) by (apply alts_NoDup; constructor).
  assert (L : forall f n, f <> "" -> (look2 v f g = Some n <-> In n names /\ part n f v)).
  { intros f n F. split.
    - intros H. apply look2_some in H as [H1 H2]. split; auto. now apply part_outer.
    - intros [H1 H2]. destruct (look2_in names v f n H1 (proj1 (part_outer n f v F) H2)) as [n' H']. fold g in H'.
      pose proof (look2_some names v f n' H') as [H3 H4]. rewrite H'. f_equal. apply (U f v); auto. now apply part_outer. }
  assert (P : In (v, (rect, r, m)) (acts_of g) <-> exists alt, pd_get v g = Some alt /\ pair_of alt = Some (rect, r, m)).
  { unfold acts_of. rewrite in_flat_map. split.
    - intros [[w alt] [H1 H2]]. cbn [fst snd] in H2. destruct (pair_of alt) as [a|] eqn:E; [|destruct H2]. destruct H2 as [H2|[]]. injection H2 as -> ->.
      exists alt. split; auto. clear - NG H1. induction g as [|[k x] g IH]; [destruct H1|]. cbn in *. apply NoDup_cons_iff in NG as [N1 N2].
      destruct H1 as [H|H]; [injection H as -> ->; now rewrite String.eqb_refl|]. destruct (String.eqb_spec v k) as [->|]; auto.
      exfalso. apply N1. now apply (in_map fst) in H.
    - intros [alt [H1 H2]]. exists (v, alt). split; [|cbn [fst snd]; rewrite H2; now left]. clear - H1.
      induction g as [|[k x] g IH]; [discriminate|]. cbn in *. destruct (String.eqb_spec v k) as [->|]; auto. injection H1 as ->. auto. }
  rewrite P. unfold pair_for.
  assert (LR : forall n, look2 v "Re" g = Some n <-> In n names /\ part n "Re" v) by (intros; apply L; discriminate).
  assert (LI : forall n, look2 v "Im" g = Some n <-> In n names /\ part n "Im" v) by (intros; apply L; discriminate).
  assert (LM : forall n, look2 v "Mag" g = Some n <-> In n names /\ part n "Mag" v) by (intros; apply L; discriminate).
  assert (LA : forall n, look2 v "Arg" g = Some n <-> In n names /\ part n "Arg" v) by (intros; apply L; discriminate).
  clear L P U. unfold look2 in *. split.
  - intros [alt [H1 H2]]. rewrite H1 in *. unfold pair_of in H2.
    assert (MA : match pd_get "Mag" alt, pd_get "Arg" alt with Some m, Some a => Some (false, m, a) | _, _ => None end = Some (rect, r, m) ->
       (pd_get "Re" alt = None \/ pd_get "Im" alt = None) ->
       In r names /\ In m names /\ if rect then part r "Re" v /\ part m "Im" v
       else part r "Mag" v /\ part m "Arg" v /\ ~ (exists p q, In p names /\ In q names /\ part p "Re" v /\ part q "Im" v)).
    { intros H HN. destruct (pd_get "Mag" alt) as [m0|] eqn:E1; [|discriminate]. destruct (pd_get "Arg" alt) as [a0|] eqn:E2; [|discriminate]. injection H as <- <- <-.
      destruct (proj1 (LM m0) eq_refl), (proj1 (LA a0) eq_refl). split; auto. split; auto. split; auto. split; auto.
      intros [p [q [Q1 [Q2 [Q3 Q4]]]]]. pose proof (proj2 (LR p) (conj Q1 Q3)). pose proof (proj2 (LI q) (conj Q2 Q4)). destruct HN; congruence. }
    destruct (pd_get "Re" alt) as [r0|] eqn:ER; [|apply MA; auto]. destruct (pd_get "Im" alt) as [i0|] eqn:EI; [|apply MA; auto].
    injection H2 as <- <- <-. destruct (proj1 (LR r0) eq_refl), (proj1 (LI i0) eq_refl). auto.
  - intros [H1 [H2 H3]]. destruct rect.
    + destruct H3 as [H3 H4]. pose proof (proj2 (LR r) (conj H1 H3)) as E1. pose proof (proj2 (LI m) (conj H2 H4)) as E2.
      destruct (pd_get v g) as [alt|]; [|discriminate]. exists alt. split; auto. unfold pair_of. now rewrite E1, E2.
    + destruct H3 as [H3 [H4 H5]]. pose proof (proj2 (LM r) (conj H1 H3)) as E1. pose proof (proj2 (LA m) (conj H2 H4)) as E2.
      destruct (pd_get v g) as [alt|]; [|discriminate]. exists alt. split; auto. unfold pair_of. rewrite E1, E2.
      destruct (pd_get "Re" alt) as [p|]; auto. destruct (pd_get "Im" alt) as [q|]; auto.
      exfalso. apply H5. destruct (proj1 (LR p) eq_refl), (proj1 (LI q) eq_refl). exists p, q. auto.
Qed.

Theorem C45_join : forall {A} (O : cops A) lab (b : block A), BInv b ->
  (forall f v n n', In n (allvarnames b) -> In n' (allvarnames b) -> f <> "" -> part n f v -> part n' f v -> n = n') ->
  (forall v rect r m v' rect' r' m', pair_for (allvarnames b) v rect r m -> pair_for (allvarnames b) v' rect' r' m' -> v <> r' /\ v <> m') ->
  (forall v rect r m, pair_for (allvarnames b) v rect r m -> absent v b -> joinable b r m) ->
  (forall v rect r m w e, pair_for (allvarnames b) v rect r m -> absent v b -> is_matrix_name v = Some (w, e) ->
     dd_contains w (b_var b) = false /\ forall rect' r' m', ~ pair_for (allvarnames b) w rect' r' m') ->
  exists b', make_cplx O lab b = Ok b' /\
    (forall v rect r m, pair_for (allvarnames b) v rect r m -> absent v b ->
       exists x y z, pd_get r (dd_map (b_var b)) = Some x /\ pd_get m (dd_map (b_var b)) = Some y /\ joined_from O rect x y z /\
         pd_get v (dd_map (b_var b')) = Some z /\ pd_get r (dd_map (b_var b')) = None /\ pd_get m (dd_map (b_var b')) = None) /\
    (forall n, (forall v rect r m, pair_for (allvarnames b) v rect r m -> absent v b -> n <> v /\ n <> r /\ n <> m) ->
       pd_get n (dd_map (b_var b')) = pd_get n (dd_map (b_var b))) /\
    (forall n, pd_get n (dd_map (b_ivar b')) = pd_get n (dd_map (b_ivar b))).
Proof.
  intros A O lab b HB U NP HJ HM. unfold make_cplx. rewrite cplx_loop_acts. set (names := allvarnames b) in *.
  pose proof (acts_iff names U) as AI. set (l := acts_of (fold_left alt_add names [])) in *.
  assert (N1 : NoDup (map fst l)).
  { assert (NG : NoDup (map fst (fold_left alt_add names []))) by (apply alts_NoDup; constructor). unfold l, acts_of. clear - NG.
    induction (fold_left alt_add names []) as [|[k alt] g IH]; [constructor|]. cbn in *. apply NoDup_cons_iff in NG as [N1 N2].
    destruct (pair_of alt); cbn; auto. constructor; auto. intros H. apply N1. apply in_map_iff in H as [[k' a] [E H]]. cbn in E. subst k'.
    apply in_flat_map in H as [[k2 alt2] [H1 H2]]. cbn [fst snd] in H2. destruct (pair_of alt2); [|destruct H2]. destruct H2 as [H2|[]]. injection H2 as -> _.
    now apply (in_map fst) in H1. }
  assert (PO : forall v rect r m, pair_for names v rect r m -> snd (outer_s r) = v /\ snd (outer_s m) = v /\ r <> m).
  { intros v rect r m [_ [_ H]]. destruct rect.
    - destruct H as [H1 H2]. apply part_outer in H1; [|discriminate]. apply part_outer in H2; [|discriminate]. rewrite H1, H2. repeat split. intros ->. congruence.
    - destruct H as [H1 [H2 _]]. apply part_outer in H1; [|discriminate]. apply part_outer in H2; [|discriminate]. rewrite H1, H2. repeat split. intros ->. congruence. }
  destruct (do_acts_ok O lab l b HB N1) as [b' [I1 [I2 [I3 [I4 I5]]]]].
  - assert (PL : forall a, In a l -> snd (outer_s (snd (fst (snd a)))) = fst a /\ snd (outer_s (snd (snd a))) = fst a /\ snd (fst (snd a)) <> snd (snd a)).
    { intros [v [[rect r] m]] H. apply AI in H. cbn [fst snd]. now apply (PO v rect). }
    clear - N1 PL. induction l as [|a l IH]; [constructor|]. cbn [map] in N1. apply NoDup_cons_iff in N1 as [N1 N2].
    destruct (PL a (or_introl eq_refl)) as [P1 [P2 P3]].
    assert (NI : forall n, snd (outer_s n) = fst a -> ~ In n (flat_map a_parts l)).
    { intros n E H. apply in_flat_map in H as [a' [H1 H2]]. destruct (PL a' (or_intror H1)) as [Q1 [Q2 _]]. apply N1.
      assert (fst a = fst a') as -> by (cbn in H2; destruct H2 as [<-|[<-|[]]]; congruence). now apply in_map. }
    cbn [flat_map a_parts app]. constructor; [cbn; intros [H|H]; [congruence|now apply (NI _ P1)]|]. constructor; [now apply NI|].
    apply IH; auto. intros a' H. apply PL. now right.
  - intros v Hv H. apply in_map_iff in Hv as [[v0 [[rect r] m]] [E Hv]]. cbn in E. subst v0. apply in_flat_map in H as [[v' [[rect' r'] m']] [H1 H2]].
    apply AI in Hv, H1. destruct (NP _ _ _ _ _ _ _ _ Hv H1) as [H3 H4]. cbn in H2. destruct H2 as [H2|[H2|[]]]; congruence.
  - intros v rect r m H Ha. apply AI in H. now apply (HJ v rect).
  - intros v w e Hv Ha E. apply in_map_iff in Hv as [[v0 [[rect r] m]] [E0 Hv]]. cbn in E0. subst v0. apply AI in Hv.
    destruct (HM v rect r m w e Hv Ha E) as [H1 H2]. split; auto. intros H. apply in_map_iff in H as [[w0 [[rect' r'] m']] [E0 H]]. cbn in E0. subst w0.
    apply AI in H. now apply (H2 rect' r' m').
  - exists b'. split; auto. split; [|split; auto].
    + intros v rect r m H Ha. apply (I3 v rect r m); auto. now apply AI.
    + intros n Hn. apply I4. intros v rect r m H Ha. apply AI in H. now apply (Hn v rect).
Qed.
Print Assumptions C45_join.

(** *** Example and deviations *)
Definition copsZ : cops Z := mkCops Z elZ (fun t _ => t) (fun t => t) Z.add (Z.mul 1000) Z.mul (Z.add 7).
Definition summary (r : result (block Z)) : result (list (string * list Z)) :=
  do b <- r; do l <- dd_items (b_var b); Ok (map (fun p => (fst p, nd_elems (h_nd (snd p)))) l).
Definition exb45 := brun labZ [BSet "Re(S)" (arr [dF]); BSet "P" xFR; BSet "Im (S)" xFR; BSet "Mag(T)" (arr [dR]); BSet "Arg(T) deg" (arr [dR])].

Example C45_ex :
  part "Im (S)" "Im" "S" /\ part "Arg(T) deg" "Arg" "T" /\ part "Re(f(x))" "Re" "f(x)" /\
  pair_for (allvarnames exb45) "S" true "Re(S)" "Im (S)" /\ absent "S" exb45 /\ joinable exb45 "Re(S)" "Im (S)" /\
  summary (make_cplx copsZ labZ exb45) =
    Ok [("P", [0; 1; 2; 3; 4; 5]%Z); ("S", [0; 1000; 2000; 3001; 4001; 5001]%Z); ("T", [0; 8; 18]%Z)].
Proof.
  assert (P1 : part "Im (S)" "Im" "S") by (apply part_outer; [discriminate|reflexivity]).
  assert (P2 : part "Re(S)" "Re" "S") by (apply part_outer; [discriminate|reflexivity]).
  split; [exact P1|]. split; [apply part_outer; [discriminate|reflexivity]|]. split; [apply part_outer; [discriminate|reflexivity]|].
  split; [split; [vm_compute; tauto|split; [vm_compute; tauto|auto]]|]. split; [split; reflexivity|]. split; [|vm_compute; reflexivity].
  exists (arr [dF]), xFR. split; [reflexivity|]. split; [reflexivity|]. split; [reflexivity|]. split; [reflexivity|].
  split; [wf_lit|]. split; [wf_lit|]. split; [coherent_lit|reflexivity].
Qed.

(** If the name is taken the parts stay, so the values are not joined. *)
Theorem C45_taken_refuted : exists b, summary (make_cplx copsZ labZ b) =
  Ok [("S", [0; 1; 2]%Z); ("Re(S)", [0; 1]%Z); ("Im(S)", [0; 1]%Z)].
Proof. exists (brun labZ [BSet "S" (arr [dR]); BSet "Re(S)" (arr [dF]); BSet "Im(S)" (arr [dF])]). vm_compute. reflexivity. Qed.
Print Assumptions C45_taken_refuted.

(** Two names for the same part: the last one is used, the other one stays. *)
Theorem C45_twice_refuted : exists b, summary (make_cplx copsZ labZ b) =
  Ok [("Re(S) old", [0; 1]%Z); ("S", [0; 1001; 2002]%Z)].
Proof. exists (brun labZ [BSet "Re(S) old" (arr [dF]); BSet "Re(S)" (arr [dR]); BSet "Im(S)" (arr [dR])]). vm_compute. reflexivity. Qed.
Print Assumptions C45_twice_refuted.

(** The name of an element of a matrix that is present: the matrix is changed
    instead of a new variable. *)
Theorem C45_element_refuted : exists b, b_contains "S12" b = false /\ summary (make_cplx copsZ labZ b) =
  Ok [("S", [0; 0; 2; 3; 4; 1001; 6; 7]%Z)].
Proof. exists (brun labZ [BSet "Re(S12)" (arr [dF]); BSet "Im(S12)" (arr [dF]); BSet "S" xS]). split; vm_compute; reflexivity. Qed.
Print Assumptions C45_element_refuted.
