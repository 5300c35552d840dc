(** Properties of stable_uniq, lex_order and flatten: C48. *)
From Coq Require Import Ascii String List Arith Bool Lia Permutation Sorted.
From Verif Require Import Model_NdArray Model_Text Model_Utils Proofs_Utils.
Import ListNotations.
Local Open Scope nat_scope.
Local Open Scope list_scope.

(** ** stable_uniq *)
(** No repetitions, the same elements, in the order in which they first appear. *)
Theorem C48_stable_uniq : forall {A} (eqb : A -> A -> bool) l, (forall x y, eqb x y = true <-> x = y) ->
  let r := stable_uniq eqb l in
  NoDup r /\ (forall x, In x r <-> In x l) /\
  (forall x y, (exists a b, r = a ++ x :: b /\ ~ In y a /\ x <> y) <-> (exists a b, l = a ++ x :: b /\ ~ In y a /\ x <> y)).
Proof. intros A eqb l E. split; [now apply uniq_nodup|]. split; [now apply uniq_in|now apply uniq_order]. Qed.
Print Assumptions C48_stable_uniq.
Example C48_uniq_example : stable_uniq Nat.eqb [3; 1; 3; 2; 1] = [3; 1; 2] /\ (forall x y, Nat.eqb x y = true <-> x = y).
Proof. split; [reflexivity|apply Nat.eqb_eq]. Qed.

(** ** Natural order *)
(** Dictionary order. *)
Definition dict_less {A} (less : A -> A -> Prop) (a b : list A) : Prop :=
  (exists u x a' y b', a = u ++ x :: a' /\ b = u ++ y :: b' /\ less x y) \/ (exists y b', b = a ++ y :: b').
Definition text_less : list ascii -> list ascii -> Prop := dict_less (fun x y => nat_of_ascii x < nat_of_ascii y).
(** Runs of digits are compared as numbers, other runs as text. *)
Definition piece_less (p q : piece) : Prop :=
  match p, q with PNum m, PNum n => m < n | PStr s, PStr t => text_less s t | _, _ => False end.
Definition natural_less (s t : list ascii) : Prop :=
  exists rs rt, runs_of s rs /\ runs_of t rt /\
    let ps := map to_piece rs in let pt := map to_piece rt in
    dict_less piece_less ps pt \/ (ps = pt /\ text_less s t).

Lemma dict_less_cons : forall {A} (less : A -> A -> Prop) x a b, dict_less less (x :: a) (x :: b) <-> (less x x \/ dict_less less a b).
Proof.
  intros A less x a b. split.
  - intros [[u [y [a' [z [b' [E [E' L]]]]]]]|[y [b' E]]].
    + destruct u as [|w u]; cbn in E, E'; inversion E; inversion E'; subst; auto. right. left. exists u, y, a', z, b'. auto.
    + injection E as ->. right. right. eauto.
  - intros [L|[[u [y [a' [z [b' [-> [-> L]]]]]]]|[y [b' ->]]]].
    + left. exists [], x, a, x, b. auto.
    + left. exists (x :: u), y, a', z, b'. auto.
    + right. exists y, b'. auto.
Qed.
Lemma lexlt_dict : forall {A} (eqb ltb : A -> A -> bool) (less : A -> A -> Prop), (forall x y, eqb x y = true <-> x = y) ->
  (forall x, ~ less x x) -> (forall x y, less x y -> ltb x y = true) -> forall a b, dict_less less a b -> lexlt eqb ltb a b = true.
Proof.
  intros A eqb ltb less E I L a. induction a as [|x a IH]; intros b D.
  - destruct D as [[[|w u] [y [a' [z [b' [E' _]]]]]]|[y [b' ->]]]; try discriminate. reflexivity.
  - destruct b as [|y b].
    + destruct D as [[[|w u] [y [a' [z [b' [_ [E' _]]]]]]]|[y [b' E']]]; discriminate.
    + cbn [lexlt]. destruct (eqb x y) eqn:Q.
      * apply E in Q. subst y. apply dict_less_cons in D as [D|D]; [now apply I in D|auto].
      * apply L. destruct D as [[[|w u] [z [a' [z' [b' [E1 [E2 LL]]]]]]]|[z [b' E2]]].
        -- inversion E1; inversion E2; subst. auto.
        -- inversion E1; inversion E2; subst. rewrite (proj2 (E w w) eq_refl) in Q. discriminate.
        -- inversion E2; subst. rewrite (proj2 (E x x) eq_refl) in Q. discriminate.
Qed.
Lemma lexlt_dict_inv : forall {A} (eqb ltb : A -> A -> bool) (less : A -> A -> Prop), (forall x y, eqb x y = true <-> x = y) ->
  (forall x y, ltb x y = true -> less x y) -> forall a b, lexlt eqb ltb a b = true -> dict_less less a b.
Proof.
  intros A eqb ltb less E L a. induction a as [|x a IH]; intros [|y b] H; try discriminate.
  - right. exists y, b. auto.
  - cbn [lexlt] in H. destruct (eqb x y) eqn:Q.
    + apply E in Q. subst y. apply dict_less_cons. auto.
    + left. exists [], x, a, y, b. auto.
Qed.
Lemma text_less_iff : forall s t, text_less s t <-> chars_lt s t = true.
Proof.
  intros s t. rewrite chars_lt_lex. split.
  - apply lexlt_dict; [apply Ascii.eqb_eq| |]; intros; try lia. now apply Nat.ltb_lt.
  - apply lexlt_dict_inv; [apply Ascii.eqb_eq|]. intros x y H. now apply Nat.ltb_lt.
Qed.
Lemma piece_less_lt : forall p q, piece_less p q -> piece_ltb p q = true.
Proof. intros [m|s] [n|t] H; cbn in *; try tauto; [now apply Nat.ltb_lt|now apply text_less_iff]. Qed.
Lemma runs_of_eq : forall s rs, runs_of s rs -> rs = runs s.
Proof. intros s rs [E [F A]]. destruct (runs_ok s) as [E' [F' A']]. apply runs_unique; auto. congruence. Qed.
Lemma natural_less_lt : forall s t, natural_less s t -> natural_lt s t.
Proof.
  intros s t [rs [rt [Hs [Ht H]]]]. apply runs_of_eq in Hs, Ht. subst. unfold natural_lt, key_ltb, split_num. cbn [fst snd].
  destruct H as [H|[E H]].
  - unfold pieces_ltb. rewrite (lexlt_dict piece_eqb piece_ltb piece_less piece_eqb_eq); auto.
    + intros [m|u] C; cbn in C; [lia|]. apply text_less_iff in C. now rewrite (sto_irrefl _ chars_sto) in C.
    + apply piece_less_lt.
  - rewrite E. rewrite (sto_irrefl _ pieces_sto). now apply text_less_iff.
Qed.
Lemma pieces_lt_dict : forall a b, pieces_lt a b = Ok (Some true) -> dict_less piece_less a b.
Proof.
  induction a as [|x a IH]; intros [|y b] H; try discriminate.
  - right. exists y, b. auto.
  - cbn [pieces_lt] in H. destruct (piece_eqb x y) eqn:Q.
    + apply piece_eqb_eq in Q. subst y. apply dict_less_cons. auto.
    + left. exists [], x, a, y, b. split; auto. split; auto. destruct x as [m|u], y as [n|v]; cbn in *; try discriminate.
      * injection H as H. now apply Nat.ltb_lt.
      * injection H as H. now apply text_less_iff.
Qed.
Lemma natural_lt_less : forall k s t, starts k s -> starts k t -> natural_lt s t -> natural_less s t.
Proof.
  intros k s t Hs Ht H. exists (runs s), (runs t). split; [apply runs_ok|]. split; [apply runs_ok|]. cbv zeta.
  pose proof (runs_ok s) as [E1 [F1 A1]]. pose proof (runs_ok t) as [E2 [F2 A2]].
  pose proof (pieces_lt_ok (runs s) (runs t) k F1 F2 A1 A2 ltac:(now rewrite E1) ltac:(now rewrite E2)) as P. cbv zeta in P.
  unfold natural_lt, key_ltb, split_num in H. cbn [fst snd] in H.
  destruct (pieces_ltb (map to_piece (runs s)) (map to_piece (runs t))) eqn:Q1; [left; now apply pieces_lt_dict|].
  destruct (pieces_ltb (map to_piece (runs t)) (map to_piece (runs s))) eqn:Q2; [discriminate|]. right. split.
  - now apply (sto_total _ pieces_sto).
  - now apply text_less_iff.
Qed.

(** The runs of a text exist and are unique. *)
Theorem C48_runs : forall s, exists! rs, runs_of s rs.
Proof. intros s. exists (runs s). split; [apply runs_ok|]. intros rs H. symmetry. now apply runs_of_eq. Qed.
Print Assumptions C48_runs.
(** On names that all begin with a digit, or all do not, natural order is total. *)
Theorem C48_total : forall k s t, starts k s -> starts k t -> natural_less s t \/ s = t \/ natural_less t s.
Proof.
  intros k s t Hs Ht. destruct (key_ltb (split_num s) (split_num t)) eqn:Q1; [left; eapply natural_lt_less; eauto|].
  destruct (key_ltb (split_num t) (split_num s)) eqn:Q2; [right; right; eapply natural_lt_less; eauto|].
  right. left. pose proof (sto_total _ key_sto _ _ Q1 Q2) as E. unfold split_num in E. congruence.
Qed.
Print Assumptions C48_total.
Theorem C48_strict : forall s t u, ~ natural_less s s /\ (natural_less s t -> ~ natural_less t s) /\
  (forall k, starts k s -> starts k t -> starts k u -> natural_less s t -> natural_less t u -> natural_less s u).
Proof.
  intros s t u. pose proof key_sto as T. split; [|split].
  - intros H. apply natural_less_lt in H. unfold natural_lt in H. now rewrite (sto_irrefl _ T) in H.
  - intros H H'. apply natural_less_lt in H, H'. unfold natural_lt in *. rewrite (sto_asym _ T _ _ H) in H'. discriminate.
  - intros k Hs Ht Hu H H'. apply natural_less_lt in H, H'. apply (natural_lt_less k); auto. eapply (sto_trans _ T); eauto.
Qed.
Print Assumptions C48_strict.
(** lex_order sorts such names in natural order. *)
Theorem C48_lex_order : forall k l, Forall (starts k) l ->
  exists r, lex_order l = Ok r /\ Permutation l r /\ StronglySorted (fun s t => ~ natural_less t s) r.
Proof.
  intros k l F. destruct (sort_keys_ok k l F) as [r [E [P S]]]. exists r. unfold lex_order. rewrite E. cbn [bind]. split; [|split; auto].
  - f_equal. rewrite map_map. cbn. now rewrite map_id.
  - clear -S. induction S as [|a l S IH F]; constructor; auto. eapply Forall_impl; [|exact F]. intros b N C. apply N. now apply natural_less_lt.
Qed.
Print Assumptions C48_lex_order.
(** Any order of the same names gives the same list. *)
Theorem C48_lex_order_canonical : forall k l l', Forall (starts k) l -> Permutation l l' -> lex_order l = lex_order l'.
Proof.
  intros k l l' F P. assert (F' : Forall (starts k) l') by (rewrite Forall_forall in *; intros x I; apply F; eapply Permutation_in; [symmetry|]; eauto).
  destruct (C48_lex_order k l F) as [r [E [P1 S]]]. destruct (C48_lex_order k l' F') as [r' [E' [P1' S']]]. rewrite E, E'. f_equal.
  assert (FR : Forall (starts k) r) by (rewrite Forall_forall in *; intros x I; apply F; eapply Permutation_in; [symmetry; exact P1|auto]).
  assert (PR : Permutation r r') by (rewrite <- P1, P; auto). clear -S S' FR PR. revert r' S' PR.
  induction S as [|a r S IH FA]; intros r' S' PR; [apply Permutation_nil in PR; auto|].
  destruct S' as [|b r' S' FB]; [apply Permutation_sym, Permutation_nil_cons in PR; tauto|].
  inversion FR as [|? ? Ka FR']; subst. assert (a = b).
  { assert (Ib : In b (a :: r)) by (eapply Permutation_in; [symmetry; exact PR|left; auto]).
    assert (Ia : In a (b :: r')) by (eapply Permutation_in; [exact PR|left; auto]).
    destruct Ib as [|Ib]; auto. destruct Ia as [|Ia]; auto. rewrite Forall_forall in FA, FB, FR'.
    destruct (C48_total k a b) as [L|[E|L]]; auto; exfalso; [eapply FB|eapply FA]; eauto. }
  subst b. f_equal. apply IH; auto. now apply Permutation_cons_inv in PR.
Qed.
Print Assumptions C48_lex_order_canonical.
(** Numbered names are put in the order of their numbers. *)
Lemma runs_number : forall p ds, Forall (fun c => is_digit c = true) ds -> ds <> [] -> (p = [] \/ exists q c, p = q ++ [c] /\ is_digit c = false) ->
  runs_of (p ++ ds) (runs p ++ [ds]).
Proof.
  intros p ds D N P. destruct (runs_ok p) as [E [F A]].
  assert (RD : run_kind ds = Some true) by (destruct ds as [|c ds]; [congruence|inversion D; cbn; congruence]).
  split; [rewrite concat_app, E; cbn; now rewrite app_nil_r|]. split.
  - apply Forall_app. split; auto. constructor; auto. exists true. auto.
  - assert (LastK : runs p = [] \/ exists rs r, runs p = rs ++ [r] /\ run_kind r = Some false).
    { destruct P as [->|[q [c [-> C]]]]; [left; reflexivity|]. right.
      destruct (runs (q ++ [c])) as [|r0 rs0] eqn:R using rev_ind; [cbn in E; destruct q; discriminate|]. clear IHrs0 || idtac.
      exists rs0, r0. split; auto. rewrite concat_app in E. cbn in E. rewrite app_nil_r in E. apply Forall_app in F as [_ F]. inversion F as [|? ? [k [K1 K2]] _]; subst.
      rewrite K1. f_equal. destruct r0 as [|c0 r0] using rev_ind; [discriminate|]. rewrite app_assoc in E. apply app_inj_tail in E as [_ ->].
      apply Forall_app in K2 as [_ K2]. inversion K2; congruence. }
    destruct LastK as [->|[rs [r [R K]]]]; [cbn; auto|]. rewrite R in *. clear -A K RD.
    induction rs as [|a rs IH]; cbn [app alternate] in *; [split; auto; congruence|].
    destruct (rs ++ [r]) as [|b x] eqn:Q; [destruct rs; discriminate|]. cbn [app]. split; [tauto|]. apply IH. tauto.
Qed.
Theorem C48_numbers : forall p ds es, Forall (fun c => is_digit c = true) ds -> Forall (fun c => is_digit c = true) es -> ds <> [] -> es <> [] ->
  (p = [] \/ exists q c, p = q ++ [c] /\ is_digit c = false) -> digits_value ds < digits_value es -> natural_less (p ++ ds) (p ++ es).
Proof.
  intros p ds es D E Nd Ne P L. exists (runs p ++ [ds]), (runs p ++ [es]). split; [now apply runs_number|]. split; [now apply runs_number|]. cbv zeta.
  left. left. rewrite !map_app. exists (map to_piece (runs p)), (to_piece ds), [], (to_piece es), []. split; auto. split; auto.
  destruct ds as [|d ds]; [congruence|]. destruct es as [|e es]; [congruence|]. cbn [to_piece]. inversion D as [|? ? Dd _]; inversion E as [|? ? Ee _]; subst.
  rewrite Dd, Ee. exact L.
Qed.
Print Assumptions C48_numbers.
Example C48_lex_example : Forall (starts false) [chars "S10"; chars "S9"; chars "R2"; chars "S9x"] /\
  lex_order [chars "S10"; chars "S9"; chars "R2"; chars "S9x"] = Ok [chars "R2"; chars "S9"; chars "S9x"; chars "S10"].
Proof. split; [repeat constructor; intros c s' [= <- _]; reflexivity|reflexivity]. Qed.
(** A name that begins with a digit beside one that does not cannot be sorted. *)
Theorem C48_mixed_refuted : exists l, (exists r, Permutation l r) /\ lex_order l = Err TypeError.
Proof. exists [chars "1a"; chars "a1"]. split; [eexists; reflexivity|reflexivity]. Qed.
Print Assumptions C48_mixed_refuted.
Theorem C48_mixed : forall s t, starts true s -> starts false t -> s <> [] -> t <> [] ->
  lex_order [s; t] = Err TypeError /\ lex_order [t; s] = Err TypeError.
Proof.
  intros [|c s] [|d t] Hs Ht Ns Nt; try congruence. specialize (Hs _ _ eq_refl). specialize (Ht _ _ eq_refl).
  assert (Q : forall c s, exists r rs, map to_piece (runs (c :: s)) = to_piece (c :: r) :: rs).
  { clear. intros c s. cbn [runs]. destruct (runs s) as [|[|d r] rs]; cbn [map]; eauto. destruct (Bool.eqb _ _); cbn [map]; eauto. }
  destruct (Q c s) as [r [rs E]]. destruct (Q d t) as [r' [rs' E']].
  unfold lex_order. cbn [map]. unfold split_num. rewrite E, E'. cbn [sort_keys bind insert_key]. unfold key_lt. cbn [fst pieces_lt to_piece].
  rewrite Hs, Ht. cbn. auto.
Qed.
Print Assumptions C48_mixed.

(** ** flatten *)
(** Every leaf, from left to right. *)
Inductive leaves {A} : nest A -> list A -> Prop :=
| L_leaf : forall a, leaves (Leaf a) [a]
| L_nil : leaves (Nest []) []
| L_cons : forall x l a b, leaves x a -> leaves (Nest l) b -> leaves (Nest (x :: l)) (a ++ b).
Theorem C48_flatten : forall {A} (l : list (nest A)) r, flatten l = r <-> leaves (Nest l) r.
Proof.
  intros A l r. split.
  - intros <-. unfold flatten. generalize (Nest l). clear. fix IH 1. intros [a|l]; [constructor|].
    induction l as [|x l IHl]; cbn; [constructor|]. constructor; [apply IH|exact IHl].
  - assert (G : forall (x : nest A) r, leaves x r -> flatten_nest x = r); [|apply G].
    intros x r' H. induction H; cbn; auto. now f_equal.
Qed.
Print Assumptions C48_flatten.
Theorem C48_flatten_flat : forall {A} (l : list (nest A)), flatten (map Leaf (flatten l)) = flatten l.
Proof. intros A l. generalize (flatten l). intros r. unfold flatten. induction r as [|a r IH]; cbn in *; congruence. Qed.
Print Assumptions C48_flatten_flat.
Example C48_flatten_example : flatten [Leaf 1; Nest [Leaf 2; Nest [Leaf 3]; Nest []]; Leaf 4] = [1; 2; 3; 4].
Proof. reflexivity. Qed.
