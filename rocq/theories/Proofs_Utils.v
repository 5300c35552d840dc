(** Strict total orders, sorting and stable_uniq. *)
From Coq Require Import Ascii String List Arith ZArith Bool Lia Permutation Sorted.
From Verif Require Import Model_NdArray Model_Text Model_Utils.
Import ListNotations.
Local Open Scope nat_scope.

(** ** Strict total orders *)
Record sto {A} (ltb : A -> A -> bool) : Prop := mkSto {
  sto_irrefl : forall a, ltb a a = false;
  sto_trans : forall a b c, ltb a b = true -> ltb b c = true -> ltb a c = true;
  sto_total : forall a b, ltb a b = false -> ltb b a = false -> a = b }.
Fixpoint lexlt {A} (eqb ltb : A -> A -> bool) (a b : list A) : bool :=
  match a, b with
  | _, [] => false
  | [], _ :: _ => true
  | x :: a', y :: b' => if eqb x y then lexlt eqb ltb a' b' else ltb x y
  end.
Lemma sto_asym : forall {A} (ltb : A -> A -> bool), sto ltb -> forall a b, ltb a b = true -> ltb b a = false.
Proof. intros A ltb S a b H. destruct (ltb b a) eqn:E; auto. pose proof (sto_trans _ S _ _ _ H E). now rewrite (sto_irrefl _ S) in H0. Qed.
Lemma lexlt_sto : forall {A} (eqb ltb : A -> A -> bool), (forall x y, eqb x y = true <-> x = y) -> sto ltb -> sto (lexlt eqb ltb).
Proof.
  intros A eqb ltb E S. assert (R : forall x, eqb x x = true) by (intros; now apply E). constructor.
  - induction a; cbn; auto. now rewrite R.
  - induction a as [|x a IH]; intros [|y b] [|z c]; cbn; auto; try discriminate.
    destruct (eqb x y) eqn:E1; [apply E in E1; subst y|].
    + destruct (eqb x z) eqn:E2; [apply E in E2; subst z|]; eauto. 
    + destruct (eqb y z) eqn:E2; [apply E in E2; subst z; rewrite E1; auto|]. intros H1 H2.
      destruct (eqb x z) eqn:E3; [|eapply (sto_trans _ S); eauto]. apply E in E3. subst z. rewrite (sto_asym _ S _ _ H1) in H2. discriminate.
  - induction a as [|x a IH]; intros [|y b]; cbn; auto; try discriminate.
    destruct (eqb x y) eqn:E1; [apply E in E1; subst y; rewrite R; intros; f_equal; auto|].
    destruct (eqb y x) eqn:E2; [apply E in E2; subst y; rewrite R in E1; discriminate|].
    intros H1 H2. pose proof (sto_total _ S _ _ H1 H2). subst y. now rewrite R in E1.
Qed.

(** ** The keys *)
Definition ascii_lt (x y : ascii) : bool := nat_of_ascii x <? nat_of_ascii y.
Lemma ascii_sto : sto ascii_lt.
Proof.
  constructor; unfold ascii_lt; intros.
  - apply Nat.ltb_irrefl.
  - apply Nat.ltb_lt in H, H0. apply Nat.ltb_lt. lia.
  - apply Nat.ltb_ge in H, H0. rewrite <- (ascii_nat_embedding a), <- (ascii_nat_embedding b). f_equal. lia.
Qed.
Lemma chars_lt_lex : forall a b, chars_lt a b = lexlt Ascii.eqb ascii_lt a b.
Proof. induction a as [|x a IH]; intros [|y b]; cbn; auto. now rewrite IH. Qed.
Lemma chars_sto : sto chars_lt.
Proof.
  pose proof (lexlt_sto Ascii.eqb ascii_lt Ascii.eqb_eq ascii_sto) as S.
  constructor; intros *; rewrite ?chars_lt_lex; [apply (sto_irrefl _ S)|apply (sto_trans _ S)|apply (sto_total _ S)].
Qed.
Lemma eqb_chars_eq : forall a b, eqb_chars a b = true <-> a = b.
Proof. intros a b. unfold eqb_chars. destruct (list_eq_dec ascii_dec a b); split; congruence. Qed.
Lemma piece_eqb_eq : forall a b, piece_eqb a b = true <-> a = b.
Proof.
  intros [m|s] [n|t]; cbn; split; intros H; try discriminate.
  - apply Nat.eqb_eq in H. congruence.
  - injection H as ->. apply Nat.eqb_refl.
  - apply eqb_chars_eq in H. congruence.
  - injection H as ->. now apply eqb_chars_eq.
Qed.
(** A total order on pieces, numbers first, for the proofs only. *)
Definition piece_ltb (a b : piece) : bool :=
  match a, b with
  | PNum m, PNum n => m <? n
  | PStr s, PStr t => chars_lt s t
  | PNum _, PStr _ => true
  | PStr _, PNum _ => false
  end.
Lemma piece_sto : sto piece_ltb.
Proof.
  constructor.
  - intros [m|s]; cbn; [apply Nat.ltb_irrefl|apply (sto_irrefl _ chars_sto)].
  - intros [m|s] [n|t] [k|u]; cbn; auto; try discriminate.
    + intros H H0. apply Nat.ltb_lt in H, H0. apply Nat.ltb_lt. lia.
    + apply (sto_trans _ chars_sto).
  - intros [m|s] [n|t]; cbn; try discriminate.
    + intros H H0. apply Nat.ltb_ge in H, H0. f_equal. lia.
    + intros H H0. f_equal. now apply (sto_total _ chars_sto).
Qed.
Definition pieces_ltb := lexlt piece_eqb piece_ltb.
Lemma pieces_sto : sto pieces_ltb.
Proof. apply lexlt_sto; [apply piece_eqb_eq|apply piece_sto]. Qed.
Definition key_ltb (a b : list piece * list ascii) : bool :=
  if pieces_ltb (fst a) (fst b) then true else if pieces_ltb (fst b) (fst a) then false else chars_lt (snd a) (snd b).
Lemma key_sto : sto key_ltb.
Proof.
  pose proof pieces_sto as P. pose proof chars_sto as C. constructor; unfold key_ltb.
  - intros a. rewrite (sto_irrefl _ P). apply (sto_irrefl _ C).
  - intros [a s] [b t] [c u]. cbn [fst snd].
    destruct (pieces_ltb a b) eqn:E1; [|destruct (pieces_ltb b a) eqn:E1'; [discriminate|]].
    + destruct (pieces_ltb b c) eqn:E2; [|destruct (pieces_ltb c b) eqn:E2'; [discriminate|]].
      * now rewrite (sto_trans _ P _ _ _ E1 E2).
      * rewrite <- (sto_total _ P _ _ E2 E2'), E1. auto.
    + rewrite (sto_total _ P _ _ E1 E1'). destruct (pieces_ltb b c) eqn:E2; [auto|]. destruct (pieces_ltb c b) eqn:E2'; [discriminate|].
      apply (sto_trans _ C).
  - intros [a s] [b t]. cbn [fst snd]. destruct (pieces_ltb a b) eqn:E1; [discriminate|]. destruct (pieces_ltb b a) eqn:E2; [discriminate|].
    intros H1 H2. f_equal; [apply (sto_total _ P)|apply (sto_total _ C)]; auto.
Qed.

(** ** Runs *)
Definition run_kind (r : list ascii) : option bool := match r with c :: _ => Some (is_digit c) | [] => None end.
(** A decomposition into maximal runs. *)
Definition run (r : list ascii) : Prop := exists k, run_kind r = Some k /\ Forall (fun c => is_digit c = k) r.
Fixpoint alternate (rs : list (list ascii)) : Prop :=
  match rs with
  | r :: ((r' :: _) as rs') => run_kind r <> run_kind r' /\ alternate rs'
  | _ => True
  end.
Definition runs_of (s : list ascii) (rs : list (list ascii)) : Prop := concat rs = s /\ Forall run rs /\ alternate rs.
Lemma runs_ok : forall s, runs_of s (runs s).
Proof.
  induction s as [|c s [H1 [H2 H3]]]; [repeat split; constructor|]. cbn [runs].
  assert (N : run [c]) by (exists (is_digit c); split; auto).
  destruct (runs s) as [|r rs]; [cbn in H1; subst; repeat split; auto|].
  inversion H2 as [|? ? R RS]; subst. destruct r as [|d r]; [destruct R as [k [R _]]; discriminate|].
  destruct (Bool.eqb (is_digit c) (is_digit d)) eqn:E.
  - apply Bool.eqb_prop in E. split; [reflexivity|]. split.
    + constructor; auto. destruct R as [k [R1 R2]]. injection R1 as R1. exists (is_digit c). split; auto. rewrite E, R1. constructor; [congruence|auto].
    + destruct rs as [|r2 rs]; auto. cbn [alternate] in *. cbn [run_kind] in *. now rewrite E.
  - apply Bool.eqb_false_iff in E. split; [reflexivity|]. split; [constructor; auto|]. cbn [alternate]. split; auto. cbn. congruence.
Qed.
Lemma run_split : forall r r' k x x', run_kind r = Some k -> run_kind r' = Some k -> Forall (fun c => is_digit c = k) r -> Forall (fun c => is_digit c = k) r' ->
  (forall c y, x = c :: y -> is_digit c <> k) -> (forall c y, x' = c :: y -> is_digit c <> k) -> r ++ x = r' ++ x' -> r = r' /\ x = x'.
Proof.
  intros r r' k x x' _ _. revert r'. induction r as [|a r IH]; intros [|b r'] F F' N N' E; cbn in E; auto.
  - inversion F'. exfalso. eapply N; eauto.
  - inversion F. exfalso. eapply N'; eauto.
  - injection E as <- E. inversion F; inversion F'; subst. destruct (IH r') as [-> ->]; auto.
Qed.
Lemma alternate_next : forall r rs k, run_kind r = Some k -> alternate (r :: rs) -> Forall run rs -> forall c y, concat rs = c :: y -> is_digit c <> k.
Proof.
  intros r [|r2 rs] k K A F c y E; [discriminate|]. cbn [alternate] in A. destruct A as [A _]. inversion F as [|? ? [k2 [R2 _]] _]; subst.
  destruct r2 as [|d r2]; [discriminate|]. cbn in E. injection E as -> _. cbn in A. congruence.
Qed.
Lemma runs_unique : forall rs rs', Forall run rs -> Forall run rs' -> alternate rs -> alternate rs' -> concat rs = concat rs' -> rs = rs'.
Proof.
  induction rs as [|r rs IH]; intros [|r' rs'] F F' A A' E; auto.
  - inversion F' as [|? ? [k [R _]] _]; subst. destruct r'; discriminate.
  - inversion F as [|? ? [k [R _]] _]; subst. destruct r; discriminate.
  - inversion F as [|? ? [k [R R2]] F1]; subst. inversion F' as [|? ? [k' [R' R2']] F1']; subst.
    assert (k' = k). { destruct r, r'; try discriminate. cbn in *. congruence. } subst k'.
    destruct (run_split r r' k (concat rs) (concat rs')) as [-> E2]; auto.
    { exact (alternate_next r rs k R A F1). } { exact (alternate_next r' rs' k R' A' F1'). }
    f_equal. apply IH; auto; [destruct rs|destruct rs']; cbn in *; tauto.
Qed.

(** Comparable strings: both begin with a digit or both do not. *)
Definition starts (k : bool) (s : list ascii) : Prop := forall c s', s = c :: s' -> is_digit c = k.
Lemma pieces_lt_ok : forall rs rs' k, Forall run rs -> Forall run rs' -> alternate rs -> alternate rs' -> starts k (concat rs) -> starts k (concat rs') ->
  let a := map to_piece rs in let b := map to_piece rs' in
  pieces_lt a b = Ok (if pieces_ltb a b then Some true else if pieces_ltb b a then Some false else None).
Proof.
  induction rs as [|r rs IH]; intros [|r' rs'] k F F' A A' S S'; auto. cbn [map pieces_lt].
  inversion F as [|? ? [k1 [R R2]] F1]; subst. inversion F' as [|? ? [k2 [R' R2']] F1']; subst.
  destruct r as [|c r]; [discriminate|]. destruct r' as [|c' r']; [discriminate|].
  cbn in R, R'. injection R as R. injection R' as R'.
  assert (Kc : is_digit c = k) by (eapply S; reflexivity). assert (Kc' : is_digit c' = k) by (eapply S'; reflexivity).
  unfold pieces_ltb. cbn [lexlt]. fold pieces_ltb.
  assert (SY : forall x y, piece_eqb x y = piece_eqb y x).
  { intros x y. destruct (piece_eqb x y) eqn:Q1, (piece_eqb y x) eqn:Q2; auto; apply piece_eqb_eq in Q1 || apply piece_eqb_eq in Q2; subst;
      rewrite (proj2 (piece_eqb_eq _ _) eq_refl) in *; discriminate. }
  rewrite (SY (to_piece (c' :: r'))). destruct (piece_eqb (to_piece (c :: r)) (to_piece (c' :: r'))) eqn:E.
  - apply (IH rs' (negb k)); auto.
    + destruct rs; cbn in *; tauto.
    + destruct rs'; cbn in *; tauto.
    + intros d y E2. pose proof (alternate_next (c :: r) rs k ltac:(cbn; congruence) A F1 d y E2). destruct (is_digit d), k; cbn; congruence.
    + intros d y E2. pose proof (alternate_next (c' :: r') rs' k ltac:(cbn; congruence) A' F1' d y E2). destruct (is_digit d), k; cbn; congruence.
  - assert (PL : piece_lt (to_piece (c :: r)) (to_piece (c' :: r')) = Ok (piece_ltb (to_piece (c :: r)) (to_piece (c' :: r')))).
    { cbn [to_piece]. rewrite Kc, Kc'. destruct k; reflexivity. }
    rewrite PL. cbn [bind]. f_equal. destruct (piece_ltb (to_piece (c :: r)) (to_piece (c' :: r'))) eqn:L; auto.
    destruct (piece_ltb (to_piece (c' :: r')) (to_piece (c :: r))) eqn:L2; auto.
    pose proof (sto_total _ piece_sto _ _ L L2) as X. rewrite X, (proj2 (piece_eqb_eq _ _) eq_refl) in E. discriminate.
Qed.
Lemma key_lt_ok : forall s t k, starts k s -> starts k t -> key_lt (split_num s) (split_num t) = Ok (key_ltb (split_num s) (split_num t)).
Proof.
  intros s t k Hs Ht. unfold key_lt, key_ltb, split_num. cbn [fst snd]. destruct (runs_ok s) as [E [F A]]. destruct (runs_ok t) as [E' [F' A']].
  rewrite (pieces_lt_ok _ _ k); auto; rewrite ?E, ?E'; auto. cbn [bind].
  destruct (pieces_ltb _ _); auto. destruct (pieces_ltb _ _); auto.
Qed.

(** ** Sorting *)
Definition natural_lt (s t : list ascii) : Prop := key_ltb (split_num s) (split_num t) = true.
Definition natural_le (s t : list ascii) : Prop := ~ natural_lt t s.
Lemma insert_key_ok : forall k s l, starts k s -> Forall (starts k) l -> StronglySorted natural_le l ->
  exists r, insert_key (split_num s) (map split_num l) = Ok (map split_num r) /\ Permutation (s :: l) r /\ StronglySorted natural_le r.
Proof.
  intros k s l Hs. pose proof key_sto as T. induction l as [|t l IH]; intros F ST; cbn [map insert_key].
  - exists [s]. repeat split; auto. constructor; constructor.
  - inversion F as [|? ? Ht F']; subst. inversion ST as [|? ? ST' SF]; subst. rewrite (key_lt_ok t s k) by auto. cbn [bind].
    destruct (key_ltb (split_num t) (split_num s)) eqn:E.
    + destruct (IH F' ST') as [r [Hr [P S]]]. rewrite Hr. cbn [bind]. exists (t :: r). repeat split.
      * rewrite perm_swap. now constructor.
      * constructor; auto. apply Forall_forall. intros x I. apply (Permutation_in _ (Permutation_sym P)) in I. destruct I as [<-|I].
        -- unfold natural_le, natural_lt. intros C. rewrite (sto_asym _ T _ _ E) in C. discriminate.
        -- rewrite Forall_forall in SF. auto.
    + exists (s :: t :: l). repeat split; auto. constructor; auto. constructor.
      * unfold natural_le, natural_lt. congruence.
      * rewrite Forall_forall in *. intros x I C. unfold natural_lt in C. specialize (SF x I). apply SF. unfold natural_lt.
        destruct (key_ltb (split_num x) (split_num t)) eqn:Q; auto. exfalso.
        destruct (key_ltb (split_num s) (split_num t)) eqn:Q2.
        -- rewrite (sto_trans _ T _ _ _ C Q2) in Q. discriminate.
        -- pose proof (sto_total _ T _ _ E Q2) as X. rewrite <- X in C. congruence.
Qed.
Lemma sort_keys_ok : forall k l, Forall (starts k) l ->
  exists r, sort_keys (map split_num l) = Ok (map split_num r) /\ Permutation l r /\ StronglySorted natural_le r.
Proof.
  intros k l. induction l as [|s l IH]; intros F; cbn [map sort_keys]; [exists []; repeat split; auto; constructor|].
  inversion F as [|? ? Hs F']; subst. destruct (IH F') as [r [Hr [P S]]]. rewrite Hr. cbn [bind].
  destruct (insert_key_ok k s r) as [r2 [H2 [P2 S2]]]; auto.
  { rewrite Forall_forall in *. intros x I. apply F'. eapply Permutation_in; [symmetry; exact P|auto]. }
  exists r2. rewrite H2. repeat split; auto. rewrite <- P2. now constructor.
Qed.

(** ** stable_uniq *)
Section Uniq.
  Context {A : Type} (eqb : A -> A -> bool).
  Hypothesis eqb_ok : forall x y, eqb x y = true <-> x = y.
  Lemma existsb_in : forall x l, existsb (eqb x) l = true <-> In x l.
  Proof.
    intros x l. rewrite existsb_exists. split; [intros [y [I E]]; apply eqb_ok in E; congruence|]. intros I. exists x. split; auto. now apply eqb_ok.
  Qed.
  Lemma uniq_loop_snoc : forall l x out, stable_uniq_loop eqb (l ++ [x]) out =
    (if existsb (eqb x) (stable_uniq_loop eqb l out) then stable_uniq_loop eqb l out else stable_uniq_loop eqb l out ++ [x]).
  Proof. induction l as [|a l IH]; intros x out; cbn [app stable_uniq_loop]; auto. Qed.
  Lemma uniq_snoc : forall l x, stable_uniq eqb (l ++ [x]) = (if existsb (eqb x) (stable_uniq eqb l) then stable_uniq eqb l else stable_uniq eqb l ++ [x]).
  Proof. intros. apply uniq_loop_snoc. Qed.
  Lemma uniq_in : forall l x, In x (stable_uniq eqb l) <-> In x l.
  Proof.
    intros l. induction l as [|y l IH] using rev_ind; intros x; [reflexivity|]. rewrite uniq_snoc, in_app_iff.
    destruct (existsb (eqb y) (stable_uniq eqb l)) eqn:E; [|rewrite in_app_iff, IH; tauto]. apply existsb_in, IH in E. rewrite IH. cbn.
    split; auto. intros [?|[->|[]]]; auto.
  Qed.
  Lemma NoDup_snoc : forall (l : list A) x, NoDup l -> ~ In x l -> NoDup (l ++ [x]).
  Proof. intros l x H N. apply (Permutation_NoDup (Permutation_app_comm [x] l)). constructor; auto. Qed.
  Lemma uniq_nodup : forall l, NoDup (stable_uniq eqb l).
  Proof.
    intros l. induction l as [|y l IH] using rev_ind; [constructor|]. rewrite uniq_snoc.
    destruct (existsb (eqb y) (stable_uniq eqb l)) eqn:E; auto. apply NoDup_snoc; auto. rewrite <- existsb_in. congruence.
  Qed.
  Definition first_before (l : list A) (x y : A) : Prop := exists a b, l = a ++ x :: b /\ ~ In y a /\ x <> y.
  Lemma first_before_snoc : forall l z x y, first_before (l ++ [z]) x y <-> first_before l x y \/ (z = x /\ ~ In y l /\ x <> y).
  Proof.
    intros l z x y. split.
    - intros [a [b [E [N D]]]]. destruct (rev_ind (fun b => b = [] \/ exists b' w, b = b' ++ [w]) (or_introl eq_refl) (fun w b' _ => or_intror (ex_intro _ b' (ex_intro _ w eq_refl))) b) as [->|[b' [w ->]]].
      + apply app_inj_tail in E as [-> ->]. right. auto.
      + rewrite app_comm_cons, app_assoc in E. apply app_inj_tail in E as [-> ->]. left. exists a, b'. auto.
    - intros [[a [b [-> [N D]]]]|[-> [N D]]]; [exists a, (b ++ [z])|exists l, []]; (split; [|split]); auto. rewrite <- app_assoc. reflexivity.
  Qed.
  Lemma in_first : forall l x y, In x l -> ~ In y l -> first_before l x y.
  Proof. intros l x y I N. apply in_split in I as [a [b ->]]. exists a, b. split; auto. rewrite in_app_iff in N. cbn in N. split; [tauto|]. intros ->. tauto. Qed.
  Lemma uniq_order : forall l x y, first_before (stable_uniq eqb l) x y <-> first_before l x y.
  Proof.
    intros l. induction l as [|z l IH] using rev_ind; intros x y; [reflexivity|]. rewrite uniq_snoc, first_before_snoc.
    destruct (existsb (eqb z) (stable_uniq eqb l)) eqn:E.
    - rewrite existsb_in, uniq_in in E by auto. rewrite IH. split; auto. intros [?|[-> [N D]]]; auto. now apply in_first.
    - rewrite first_before_snoc, IH, uniq_in. tauto.
  Qed.
End Uniq.
