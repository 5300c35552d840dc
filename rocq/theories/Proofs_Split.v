From Coq Require Import String List Arith ZArith Bool Lia.
From Verif Require Import Model_NdArray Proofs_NdArray Model_Dim Proofs_Dim Model_Array Model_DataDict Spec_DataDict Proofs_DataDict Model_Block
  Spec_Block Proofs_Block Proofs_Block3 Model_Split Spec_Split.
Import ListNotations.
Local Open Scope nat_scope.
Local Open Scope list_scope.

Lemma dim_same_eq : forall a b, dim_same a b = true <-> a = b.
Proof.
  intros a b. unfold dim_same. rewrite andb_true_iff, dim_eqb_spec, (option_eqb_eq String.eqb String.eqb_eq).
  destruct a, b; cbn. split; [intros [[-> [-> [-> ->]]] ->]; auto|intros H; injection H as -> -> -> -> ->; auto].
Qed.
Lemma dims_same_eq : forall a b, dims_same a b = true <-> a = b.
Proof. exact (list_eqb_eq dim_same dim_same_eq). Qed.
Lemma dim_in_In : forall d l, dim_in d l = true <-> In d l.
Proof.
  intros d l. unfold dim_in. rewrite existsb_exists. split.
  - intros [x [H1 H2]]. apply dim_same_eq in H2. now subst.
  - intros H. exists d. split; auto. now apply dim_same_eq.
Qed.
Lemma dimset_eqb_same : forall a b, dimset_eqb a b = true <-> same_set a b.
Proof.
  intros a b. unfold dimset_eqb, same_set. rewrite andb_true_iff, !forallb_forall. split.
  - intros [H1 H2] d. split; intros H; [apply H1 in H|apply H2 in H]; now apply dim_in_In.
  - intros H. split; intros d Hd; apply dim_in_In, H, Hd.
Qed.
Lemma uniq_dims_le : forall l, length (uniq_dims l) <= length l.
Proof. induction l as [|d l IH]; simpl; auto. destruct (dim_in d l); simpl; lia. Qed.
Lemma uniq_dims_NoDup : forall l, length l = length (uniq_dims l) <-> NoDup l.
Proof.
  induction l as [|d l IH]; [split; constructor|]. simpl. destruct (dim_in d l) eqn:E.
  - apply dim_in_In in E. split; intros H.
    + exfalso. pose proof (uniq_dims_le l). lia.
    + inversion H; tauto.
  - assert (~ In d l) by (rewrite <- dim_in_In; congruence). simpl. split; intros G.
    + constructor; auto. apply IH. lia.
    + inversion G; subst. f_equal. now apply IH.
Qed.

Definition keeps {A} (L : list dim) (p : string * hf A) : bool := dimset_eqb (h_dims (snd p)) L || dimset_eqb (h_dims (snd p)) (tl L).
Lemma keeps_spec : forall {A} L (p : string * hf A), keeps L p = true <-> goes_with L (snd p).
Proof. intros A L p. unfold keeps, goes_with. now rewrite orb_true_iff, !dimset_eqb_same. Qed.

Lemma subset_loop_sets : forall {A} (lab : A -> label) L l (out : block A),
  subset_loop lab L l out = sets lab (filter (keeps L) l) out.
Proof.
  induction l as [|[k x] l IH]; intros out; auto. cbn [subset_loop filter]. unfold keeps at 1. cbn [snd].
  destruct (dimset_eqb (h_dims x) L); cbn [orb].
  - cbn [sets]. destruct (b_set lab k x out); cbn [bind]; auto.
  - destruct (dimset_eqb (h_dims x) (tl L)); cbn [bind sets]; auto. destruct (b_set lab k x out); cbn [bind]; auto.
Qed.

Lemma filter_fst_NoDup : forall {X Y} (f : X * Y -> bool) l, NoDup (map fst l) -> NoDup (map fst (filter f l)).
Proof.
  induction l as [|p l IH]; simpl; intros H; auto. inversion H; subst. destruct (f p); simpl; auto. constructor; auto.
  intros G. apply H2. apply in_map_iff in G as [q [G1 G2]]. apply filter_In in G2 as [G2 _]. rewrite <- G1. now apply in_map.
Qed.

Lemma plain_filter : forall {A} (f : string * hf A -> bool) l, plain_names (map fst l) (dim_names l) ->
  plain_names (map fst (filter f l)) (dim_names (filter f l)).
Proof.
  intros A f l [P1 P2].
  assert (S1 : forall k, In k (map fst (filter f l)) -> In k (map fst l)).
  { intros k H. apply in_map_iff in H as [q [H1 H2]]. apply filter_In in H2 as [H2 _]. subst. now apply in_map. }
  assert (S2 : forall k, In k (dim_names (filter f l)) -> In k (dim_names l)).
  { intros k H. unfold dim_names in *. apply in_flat_map in H as [q [H1 H2]]. apply filter_In in H1 as [H1 _].
    apply in_flat_map. eauto. }
  split.
  - intros k H G. apply (P1 k); auto.
  - intros k m e H E G. apply (P2 k m e); auto.
Qed.

Lemma items_dabs : forall {V} (d : ddict V) l, Inv d -> dd_items d = Ok l -> dabs d = l.
Proof. intros V d l H E. rewrite (items_abs d H) in E. congruence. Qed.

Lemma subset_ok : forall {A} (lab : A -> label) L (b : block A) vs, dd_items (b_var b) = Ok vs -> NoDup (map fst vs) ->
  plain_names (map fst vs) (dim_names vs) -> NoDup L ->
  exists c, subset_by_dims lab L b = Ok c /\ dd_items (b_var c) = Ok (filter (keeps L) vs).
Proof.
  intros A lab L b vs Hv ND P HL. unfold subset_by_dims. rewrite (proj2 (uniq_dims_NoDup L) HL), Nat.eqb_refl. cbn [negb].
  rewrite Hv. cbn [bind]. rewrite subset_loop_sets.
  destruct (sets_ok lab (filter (keeps L) vs) dd_empty None) as [c [C1 [C2 [C3 [C4 C5]]]]].
  - apply empty_Inv.
  - now apply filter_fst_NoDup.
  - cbn. rewrite app_nil_r. now apply plain_filter.
  - exists c. split; [exact C1|]. rewrite (items_abs _ C2). now rewrite C4.
Qed.

(** The order in which dimension lists are chosen. *)
Fixpoint chosen (pick : list (list dim) -> option (list dim)) (fuel : nat) (s : list (list dim)) : list (list dim) :=
  match fuel with
  | O => []
  | S n => match pick s with
           | None => []
           | Some L => L :: chosen pick n (let s1 := dset_discard L s in if Nat.ltb 1 (length L) then dset_discard (tl L) s1 else s1)
           end
  end.

Lemma discard_In : forall x y s, In y (dset_discard x s) <-> In y s /\ y <> x.
Proof.
  intros x y s. unfold dset_discard. rewrite filter_In, negb_true_iff. split; intros [H1 H2]; split; auto.
  - intros ->. assert (dims_same x x = true) by now apply dims_same_eq. congruence.
  - destruct (dims_same x y) eqn:E; auto. apply dims_same_eq in E. congruence.
Qed.
Lemma next_In : forall L y s, In y (let s1 := dset_discard L s in if Nat.ltb 1 (length L) then dset_discard (tl L) s1 else s1) <->
  In y s /\ y <> L /\ (1 < length L -> y <> tl L).
Proof.
  intros L y s. cbv zeta. destruct (Nat.ltb_spec 1 (length L)).
  - rewrite !discard_In. tauto.
  - rewrite discard_In. intuition lia.
Qed.
Lemma discard_le : forall x s, length (dset_discard x s) <= length s.
Proof. intros x s. unfold dset_discard. induction s as [|y s IH]; simpl; auto. destruct (dims_same x y); simpl; lia. Qed.
Lemma discard_lt : forall x s, In x s -> length (dset_discard x s) < length s.
Proof.
  intros x s. induction s as [|y s IH]; [intros []|]. intros [->|H].
  - unfold dset_discard. simpl. assert (dims_same x x = true) as -> by now apply dims_same_eq. cbn [negb].
    pose proof (discard_le x s). unfold dset_discard in *. lia.
  - specialize (IH H). unfold dset_discard in *. simpl. destruct (dims_same x y); simpl; lia.
Qed.
Lemma next_lt : forall L s, In L s ->
  length (let s1 := dset_discard L s in if Nat.ltb 1 (length L) then dset_discard (tl L) s1 else s1) < length s.
Proof.
  intros L s H. cbv zeta. pose proof (discard_lt L s H). destruct (Nat.ltb 1 (length L)); auto.
  pose proof (discard_le (tl L) (dset_discard L s)). lia.
Qed.

Section Chosen.
Variable pick : list (list dim) -> option (list dim).
Hypothesis PK : picks_longest pick.

Lemma pick_some : forall s L, pick s = Some L -> In L s /\ forall M, In M s -> length M <= length L.
Proof.
  intros s L H. destruct PK as [P0 P1]. destruct s as [|a s]; [congruence|].
  destruct (P1 (a :: s)) as [L' [H1 H2]]; [discriminate|]. rewrite H1 in H. injection H as ->. auto.
Qed.
Lemma pick_none : forall s, pick s = None -> s = [].
Proof.
  intros s H. destruct PK as [P0 P1]. destruct s as [|a s]; auto. destruct (P1 (a :: s)) as [L' [H1 H2]]; [discriminate|]. congruence.
Qed.

Lemma chosen_In : forall n s L, In L (chosen pick n s) -> In L s.
Proof.
  induction n as [|n IH]; intros s L H; [destruct H|]. cbn [chosen] in H. destruct (pick s) as [M|] eqn:E; [|destruct H].
  destruct H as [->|H]; [now apply (pick_some s L)|]. apply IH in H. apply next_In in H. tauto.
Qed.

(** Nothing is left out: a list is chosen itself or it is the tail of a chosen
    one. *)
Lemma chosen_all : forall n s L, length s <= n -> In L s ->
  In L (chosen pick n s) \/ exists M, In M (chosen pick n s) /\ 1 < length M /\ tl M = L.
Proof.
  induction n as [|n IH]; intros s L Hn H.
  - destruct s; [destruct H|simpl in Hn; lia].
  - cbn [chosen]. destruct (pick s) as [M|] eqn:E; [|rewrite (pick_none s E) in H; destruct H].
    destruct (pick_some s M E) as [HM _]. pose proof (next_lt M s HM) as LT.
    destruct (list_eq_dec (fun a b => match Bool.bool_dec (dim_same a b) true with
       | left e => left (proj1 (dim_same_eq a b) e) | right e => right (fun h => e (proj2 (dim_same_eq a b) h)) end) L M) as [->|N1].
    + left. now left.
    + destruct (list_eq_dec (fun a b => match Bool.bool_dec (dim_same a b) true with
       | left e => left (proj1 (dim_same_eq a b) e) | right e => right (fun h => e (proj2 (dim_same_eq a b) h)) end) L (tl M)) as [->|N2].
      * destruct (Nat.ltb_spec 1 (length M)) as [G|G].
        -- right. exists M. split; [now left|auto].
        -- destruct (IH (dset_discard M s) (tl M)) as [C|[M' [C1 C2]]].
           ++ cbv zeta in LT. destruct (Nat.ltb_spec 1 (length M)); lia.
           ++ apply discard_In. auto.
           ++ left. right. exact C.
           ++ right. exists M'. split; [right; exact C1|exact C2].
      * destruct (IH (let s1 := dset_discard M s in if Nat.ltb 1 (length M) then dset_discard (tl M) s1 else s1) L) as [C|[M' [C1 C2]]].
        -- lia.
        -- apply next_In. auto.
        -- left. right. exact C.
        -- right. exists M'. split; [right; exact C1|exact C2].
Qed.

Lemma chosen_NoDup : forall n s, NoDup (chosen pick n s).
Proof.
  induction n as [|n IH]; intros s; [constructor|]. cbn [chosen]. destruct (pick s) as [M|] eqn:E; [|constructor].
  constructor; auto. intros H. apply chosen_In in H. apply next_In in H. tauto.
Qed.

(** Longer lists come first. *)
Lemma chosen_longest : forall n s L M l, chosen pick n s = L :: l -> In M l -> length M <= length L.
Proof.
  intros [|n] s L M l H HM; [discriminate|]. cbn [chosen] in H. destruct (pick s) as [L'|] eqn:E; [|discriminate]. injection H as -> <-.
  apply chosen_In in HM. apply next_In in HM. apply (pick_some s L E). tauto.
Qed.

(** If a list is chosen, then a list it is the tail of is not. *)
Lemma chosen_tail : forall n s M, 1 < length M -> In M (chosen pick n s) -> ~ In (tl M) (chosen pick n s).
Proof.
  induction n as [|n IH]; intros s M HM H; [destruct H|]. cbn [chosen] in *. destruct (pick s) as [P|] eqn:E; [|destruct H].
  destruct H as [->|H].
  - intros [G|G].
    + assert (length (tl M) = length M) by congruence. destruct M; simpl in *; lia.
    + apply chosen_In, next_In in G as [_ [_ G]]. now apply G.
  - intros [G|G].
    + apply chosen_In, next_In in H as [H _]. destruct (pick_some s P E) as [_ PL]. specialize (PL M H).
      subst P. destruct M; simpl in *; lia.
    + now apply (IH _ M HM H).
Qed.
End Chosen.

Lemma yield_chosen : forall {A} (lab : A -> label) pick n (b : block A) vs s, picks_longest pick ->
  dd_items (b_var b) = Ok vs -> NoDup (map fst vs) -> plain_names (map fst vs) (dim_names vs) ->
  (forall L, In L s -> NoDup L) ->
  exists ys, yield_loop lab pick n b s = Ok ys /\ map fst ys = chosen pick n s /\
    Forall (fun y => dd_items (b_var (snd y)) = Ok (filter (keeps (fst y)) vs)) ys.
Proof.
  intros A lab pick n b vs s PK Hv ND P. revert s. induction n as [|n IH]; intros s HL.
  - exists []. repeat split; auto.
  - cbn [yield_loop chosen]. destruct (pick s) as [L|] eqn:E; [|exists []; repeat split; auto].
    destruct (pick_some pick PK s L E) as [HinL _].
    destruct (subset_ok lab L b vs Hv ND P (HL L HinL)) as [c [C1 C2]]. rewrite C1. cbn [bind].
    destruct (IH (let s1 := dset_discard L s in if Nat.ltb 1 (length L) then dset_discard (tl L) s1 else s1)) as [ys [Y1 [Y2 Y3]]].
    + intros M HM. apply next_In in HM. now apply HL.
    + cbv zeta in *. rewrite Y1. cbn [bind]. exists ((L, c) :: ys). split; auto. split; [cbn; now rewrite Y2|]. constructor; auto.
Qed.

Lemma dset_add_In : forall x s y, In y (dset_add x s) <-> y = x \/ In y s.
Proof.
  intros x s y. unfold dset_add. destruct (existsb (dims_same x) s) eqn:E.
  - apply existsb_exists in E as [z [E1 E2]]. apply dims_same_eq in E2. subst z. intuition (subst; auto).
  - rewrite in_app_iff. simpl. intuition.
Qed.
Lemma dset_all_In : forall {A} (vs : list (string * hf A)) s y,
  In y (fold_left (fun s p => dset_add (h_dims (snd p)) s) vs s) <-> In y s \/ exists p, In p vs /\ h_dims (snd p) = y.
Proof.
  induction vs as [|p vs IH]; intros s y; simpl.
  - split; auto. intros [H|[p [[] _]]]. auto.
  - rewrite IH, dset_add_In. split.
    + intros [[->|H]|[q [H1 H2]]]; eauto.
    + intros [H|[q [[->|H1] H2]]]; eauto.
Qed.

Lemma key_unique : forall {X Y} (l : list (X * Y)) k x y, NoDup (map fst l) -> In (k, x) l -> In (k, y) l -> x = y.
Proof.
  induction l as [|[k0 x0] l IH]; intros k x y N I1 I2; [destruct I1|]. simpl in N, I1, I2. apply NoDup_cons_iff in N as [N1 N2].
  destruct I1 as [I1|I1], I2 as [I2|I2].
  - congruence.
  - injection I1 as -> ->. exfalso. apply N1. now apply (in_map fst) in I2.
  - injection I2 as -> ->. exfalso. apply N1. now apply (in_map fst) in I1.
  - now apply (IH k).
Qed.
