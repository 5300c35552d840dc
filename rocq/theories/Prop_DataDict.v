(** Properties of DataDict: C16, C17 (the part about DataBlock is in Prop_Block.v). *)
From Coq Require Import String List Arith ZArith Bool Lia.
From Verif Require Import Model_NdArray Model_DataDict Spec_DataDict Proofs_DataDict.
Import ListNotations.
Local Open Scope string_scope.
Local Open Scope list_scope.

(** ** C16 *)

(** After every history the dictionary is the sequence of pairs the
    specification computes; an operation that raises changes nothing. *)
Theorem C16_history : forall {V} (os : list (op V)),
  let d := fold_left dd_step os dd_empty in
  let l := fold_left spec_step os [] in
  dd_items d = Ok l /\ dd_iter d = map fst l /\ NoDup (map fst l) /\ dd_len d = length l /\
  (forall k, dd_get k d = match lookup k l with Some v => Ok v | None => Err KeyError end) /\
  (forall k, dd_contains k d = true <-> In k (map fst l)).
Proof. intros V os. exact (history os). Qed.
Print Assumptions C16_history.

Example C16_example :
  let os := [Store "a" 1; Store "b" 2; Store "c" 3; Rename "b" "x"; SetDefault "a" 9; Store "a" 4;
             Rename "nope" "q"; Remove "c"; Store "c" 5; CopyOp S] in
  dd_items (fold_left dd_step os dd_empty) = Ok [("a", 5); ("x", 3); ("c", 6)].
Proof. reflexivity. Qed.

(** Also when [update] and construction from pairs, which bypass the order
    list, are used: every stored key is iterated exactly once, with its value. *)
Theorem C16_update_history : forall {V} (l0 : list (string * V)) (os : list (op2 V)),
  let d := fold_left dd_step2 os (dd_of_pairs l0) in
  NoDup (dd_iter d) /\ (forall k, In k (dd_iter d) <-> dd_contains k d = true) /\ length (dd_iter d) = dd_len d /\
  (exists l, dd_items d = Ok l /\ map fst l = dd_iter d /\ forall k v, In (k, v) l -> dd_get k d = Ok v).
Proof. intros V l0 os. exact (history2 l0 os). Qed.
Print Assumptions C16_update_history.

Example C16_update_example :
  dd_items (fold_left dd_step2 [Base (Store "x" 1); Update [("y", 2); ("x", 3)]; Base (Remove "a")]
              (dd_of_pairs [("a", 0); ("b", 7)])) = Ok [("x", 3); ("b", 7); ("y", 2)].
Proof. reflexivity. Qed.

(** The inherited [pop] (and popitem, clear) does not maintain the order list:
    iteration then yields a key that is not stored and items() raises. *)
Theorem C16_pop_refuted : exists (os : list (op nat)) k v d,
  dd_pop k (fold_left dd_step os dd_empty) = Ok (v, d) /\
  In k (dd_iter d) /\ dd_contains k d = false /\ dd_items d = Err KeyError.
Proof.
  exists [Store "a" 1; Store "b" 2], "a", 1. eexists. split; [reflexivity|]. split; [simpl; auto|]. split; reflexivity.
Qed.
Print Assumptions C16_pop_refuted.

(** ** C17 *)
Definition reached {V} (d : ddict V) (l : list (string * V)) : Prop :=
  exists os, d = fold_left dd_step os dd_empty /\ dd_items d = Ok l.

Lemma reached_abs : forall {V} (d : ddict V) l, reached d l -> Inv d /\ dabs d = l.
Proof.
  intros V d l [os [-> H]].
  assert (G : Inv (fold_left dd_step os dd_empty)).
  { assert (F : forall os (d : ddict V), Inv d -> Inv (fold_left dd_step os d)).
    { clear. induction os as [|o os IH]; simpl; auto. intros d H. apply IH. apply (step_ok d o H). }
    apply F, empty_Inv. }
  split; auto. rewrite items_abs in H by auto. congruence.
Qed.

Lemma lookup_mid : forall {V} k (v : V) l1 l2, ~ In k (map fst l1) -> lookup k (l1 ++ (k, v) :: l2) = Some v.
Proof.
  intros. rewrite lookup_get. induction l1 as [|[k' v'] l1 IH]; simpl in *; [now rewrite String.eqb_refl|].
  destruct (String.eqb_spec k k'); [subst; tauto|]. apply IH. tauto.
Qed.
Lemma lookup_notin : forall {V} k (l : list (string * V)), ~ In k (map fst l) -> lookup k l = None.
Proof. intros. rewrite lookup_get. now apply pd_get_none. Qed.
Lemma mid_notin : forall {V} (k : string) (v : V) l1 l2, NoDup (map fst (l1 ++ (k, v) :: l2)) ->
  ~ In k (map fst l1) /\ ~ In k (map fst l2).
Proof.
  intros V k v l1 l2 H. rewrite map_app in H. simpl in H. apply NoDup_remove_2 in H. rewrite in_app_iff in H. tauto.
Qed.
Lemma relabel_id : forall {V} old new (l : list (string * V)), ~ In old (map fst l) -> relabel old new l = l.
Proof.
  induction l as [|[k v] l IH]; simpl; auto. intros H. destruct (string_dec k old); [tauto|]. f_equal. apply IH. tauto.
Qed.
Lemma remove_id : forall {V} k (l : list (string * V)), ~ In k (map fst l) -> remove k l = l.
Proof.
  induction l as [|[k' v] l IH]; simpl; auto. intros H. destruct (string_dec k' k); [tauto|]. f_equal. apply IH. tauto.
Qed.
Lemma remove_mid : forall {V} k (v : V) l1 l2, ~ In k (map fst l1) -> ~ In k (map fst l2) ->
  remove k (l1 ++ (k, v) :: l2) = l1 ++ l2.
Proof.
  intros. unfold remove. rewrite filter_app. cbn [filter fst]. destruct (string_dec k k); [|congruence].
  fold (remove k l1). fold (remove k l2). now rewrite !remove_id.
Qed.
Lemma store_notin : forall {V} k (v : V) l, ~ In k (map fst l) -> store k v l = l ++ [(k, v)].
Proof. intros. rewrite store_set. now apply set_notin. Qed.

Lemma items_reached : forall {V} (d d' : ddict V) l old new, reached d l -> dd_rename old new d = Ok d' ->
  reached d' (spec_step l (Rename old new)).
Proof.
  intros V d d' l old new HR H. destruct (reached_abs d l HR) as [HI HA]. destruct HR as [os [E _]].
  exists (os ++ [Rename old new]). rewrite fold_left_app, <- E. cbn [fold_left dd_step]. rewrite H. split; auto.
  destruct (step_ok d (Rename old new) HI) as [S1 S2]. cbn [dd_step] in S1, S2. rewrite H in S1, S2.
  rewrite items_abs by auto. now rewrite S2, HA.
Qed.

(** A new name: same value, same place. *)
Theorem C17_rename : forall {V} (d : ddict V) l1 old v l2 new,
  reached d (l1 ++ (old, v) :: l2) -> ~ In new (map fst (l1 ++ (old, v) :: l2)) ->
  exists d', dd_rename old new d = Ok d' /\ dd_items d' = Ok (l1 ++ (new, v) :: l2).
Proof.
  intros V d l1 old v l2 new HR Hn. destruct (reached_abs _ _ HR) as [HI HA].
  pose proof (abs_NoDup d HI) as ND. rewrite HA in ND. destruct (mid_notin old v l1 l2 ND) as [N1 N2].
  assert (L : lookup old (dabs d) = Some v) by (rewrite HA; now apply lookup_mid).
  destruct (rename_ok old new v d HI L) as [d' [R1 [R2 R3]]]. exists d'. split; auto.
  destruct (items_reached _ _ _ old new HR R1) as [_ [_ Q]]. rewrite Q. f_equal. cbn [spec_step].
  rewrite lookup_mid, (lookup_notin new) by auto. destruct (string_dec old new).
  { subst. exfalso. apply Hn. rewrite map_app. apply in_or_app. right. now left. }
  unfold relabel. rewrite map_app. cbn [map fst snd]. destruct (string_dec old old); [|congruence].
  fold (relabel old new l1). fold (relabel old new l2). now rewrite !relabel_id.
Qed.
Print Assumptions C17_rename.

(** An existing other name: its value is replaced in its place and the old
    entry disappears; every other entry stays. *)
Theorem C17_rename_onto : forall {V} (d : ddict V) l old new v,
  reached d l -> old <> new -> dd_get old d = Ok v -> In new (map fst l) ->
  exists d' l', dd_rename old new d = Ok d' /\ dd_items d' = Ok l' /\
    map fst l' = filter (fun k => if string_dec k old then false else true) (map fst l) /\
    NoDup (map fst l') /\ dd_get new d' = Ok v /\
    (forall k, k <> old -> k <> new -> dd_get k d' = dd_get k d) /\ dd_get old d' = Err KeyError.
Proof.
  intros V d l old new v HR N Hv Hn. destruct (reached_abs _ _ HR) as [HI HA].
  assert (G : forall (d : ddict V) k, Inv d -> dd_get k d = of_option KeyError (lookup k (dabs d))).
  { intros d0 k H0. unfold dd_get. now rewrite lookup_get, abs_get. }
  assert (L : lookup old (dabs d) = Some v).
  { rewrite G in Hv by auto. destruct (lookup old (dabs d)); simpl in Hv; congruence. }
  destruct (rename_ok old new v d HI L) as [d' [R1 [R2 R3]]].
  assert (LN : exists w, lookup new (dabs d) = Some w).
  { rewrite lookup_get. apply pd_get_in. unfold keys. now rewrite HA. }
  destruct LN as [w LN].
  cbn [spec_step] in R3. rewrite L, LN in R3. destruct (string_dec old new) as [|_]; [congruence|].
  assert (IN : In new (keys (remove old (dabs d)))).
  { rewrite keys_remove, filter_In, negb_true_iff, String.eqb_neq. split; auto. unfold keys. now rewrite HA. }
  exists d', (dabs d'). split; auto. split; [now apply items_abs|].
  split. { rewrite R3, store_set. change (map fst) with (@keys V). rewrite keys_set_in by auto.
    rewrite keys_remove, HA. unfold keys. apply filter_ext. intros k. destruct (string_dec k old), (String.eqb_spec old k); simpl; congruence. }
  split; [now apply abs_NoDup|].
  split; [|split].
  - rewrite G by auto. rewrite R3, store_set, lookup_get, pd_get_set_same. reflexivity.
  - intros k K1 K2. rewrite !G by auto. rewrite R3, store_set, !lookup_get, pd_get_set_other by auto.
    rewrite get_remove. apply String.eqb_neq in K1. now rewrite K1.
  - rewrite G by auto. rewrite R3, store_set, lookup_get, pd_get_set_other by auto. rewrite get_remove, String.eqb_refl. reflexivity.
Qed.
Print Assumptions C17_rename_onto.

(** To itself: the entry moves to the end. *)
Theorem C17_rename_same : forall {V} (d : ddict V) l1 x v l2,
  reached d (l1 ++ (x, v) :: l2) ->
  exists d', dd_rename x x d = Ok d' /\ dd_items d' = Ok (l1 ++ l2 ++ [(x, v)]).
Proof.
  intros V d l1 x v l2 HR. destruct (reached_abs _ _ HR) as [HI HA].
  pose proof (abs_NoDup d HI) as ND. rewrite HA in ND. destruct (mid_notin x v l1 l2 ND) as [N1 N2].
  assert (L : lookup x (dabs d) = Some v) by (rewrite HA; now apply lookup_mid).
  destruct (rename_ok x x v d HI L) as [d' [R1 [R2 R3]]]. exists d'. split; auto.
  destruct (items_reached _ _ _ x x HR R1) as [_ [_ Q]]. rewrite Q. f_equal. cbn [spec_step].
  rewrite lookup_mid by auto. destruct (string_dec x x); [|congruence].
  rewrite remove_mid, store_notin by (auto; rewrite map_app, in_app_iff; tauto). now rewrite <- app_assoc.
Qed.
Print Assumptions C17_rename_same.

(** A name that is not there: KeyError. *)
Theorem C17_rename_missing : forall {V} (d : ddict V) l old new,
  reached d l -> ~ In old (map fst l) -> dd_rename old new d = Err KeyError.
Proof.
  intros V d l old new HR H. destruct (reached_abs _ _ HR) as [HI HA]. apply rename_err; auto. rewrite HA. now apply lookup_notin.
Qed.
Print Assumptions C17_rename_missing.

Definition exd : ddict nat := fold_left dd_step [Store "a" 1; Store "b" 2; Store "c" 3] dd_empty.
Example C17_example : reached exd ([("a", 1)] ++ ("b", 2) :: [("c", 3)]) /\
  (exists d, dd_rename "b" "x" exd = Ok d /\ dd_items d = Ok [("a", 1); ("x", 2); ("c", 3)]) /\
  (exists d, dd_rename "c" "a" exd = Ok d /\ dd_items d = Ok [("a", 3); ("b", 2)]) /\
  (exists d, dd_rename "a" "a" exd = Ok d /\ dd_items d = Ok [("b", 2); ("c", 3); ("a", 1)]) /\
  dd_rename "q" "a" exd = Err KeyError.
Proof.
  split; [eexists; split; reflexivity|]. repeat (split; [eexists; split; reflexivity|]). reflexivity.
Qed.
