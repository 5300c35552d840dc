(** What turning a flat sweep into several dimensions means. *)
From Coq Require Import String List Arith ZArith Bool Sorted.
From Verif Require Import Model_NdArray Model_Dim Model_Array Spec_Array.
Import ListNotations.
Local Open Scope nat_scope.

(** The columns have one entry per point and every combination of values that
    occur in them occurs at exactly one point. *)
Definition complete (n : nat) (cols : list (list label)) : Prop :=
  Forall (fun c => length c = n) cols /\
  forall combo, Forall2 (fun u c => In u c) combo cols ->
    exists p, p < n /\ Forall2 (fun u c => nth_error c p = Some u) combo cols /\
      forall q, Forall2 (fun u c => nth_error c q = Some u) combo cols -> q = p.

(** [U] lists the values of the column, each once, in ascending order. *)
Definition values_ascending (ltb : label -> label -> bool) (c U : list label) : Prop :=
  StronglySorted (fun u v => ltb u v = true) U /\ forall u, In u U <-> In u c.

(** Every value not seen before is greater than all the values seen before. *)
Definition appears_ascending (ltb : label -> label -> bool) (c : list label) : Prop :=
  forall l1 u l2, c = l1 ++ u :: l2 -> ~ In u l1 -> forall v, In v l1 -> ltb v u = true.

(** The point [p] of the flat sweep holds the combination that the coordinates
    [e] of the dimensions [news] stand for, the values of the columns being
    listed by [Us]. *)
Definition stands_for (e : assignment) (news : list dim) (Us cols : list (list label)) (p : nat) : Prop :=
  forall m d U c, nth_error news m = Some d -> nth_error Us m = Some U -> nth_error cols m = Some c ->
    exists u, nth_error U (e (key d)) = Some u /\ nth_error c p = Some u.

(** A variable with the dimension [rd] before and after. *)
Definition spread {A} (rd : dim) (news : list dim) (Us cols : list (list label)) (x y : hf A) : Prop :=
  exists ds1 d ds2, h_dims x = ds1 ++ d :: ds2 /\ key d = key rd /\ h_dims y = ds1 ++ news ++ ds2 /\
    nd_wf (h_nd y) /\ labels_match y /\ h_unit y = h_unit x /\
    forall e, valid e (h_dims y) ->
      exists p, stands_for e news Us cols p /\ p < length (d_data rd) /\ val y e = val x (upd e (key d) p).

(** The variables before and after: those without the dimension are kept (or
    left out), those that give the new dimensions their labels go away, the
    others are spread over the new dimensions. *)
Inductive converted {A} (all : bool) (news : list string) (rd : dim) (P : hf A -> hf A -> Prop)
    : list (string * hf A) -> list (string * hf A) -> Prop :=
| conv_nil : converted all news rd P [] []
| conv_keep : forall k x l l', ~ In (d_name rd) (map d_name (h_dims x)) -> all = true -> converted all news rd P l l' ->
    converted all news rd P ((k, x) :: l) ((k, x) :: l')
| conv_drop : forall k x l l', ~ In (d_name rd) (map d_name (h_dims x)) -> all = false -> converted all news rd P l l' ->
    converted all news rd P ((k, x) :: l) l'
| conv_key : forall k x l l', In (d_name rd) (map d_name (h_dims x)) -> In k news -> converted all news rd P l l' ->
    converted all news rd P ((k, x) :: l) l'
| conv_spread : forall k x y l l', In (d_name rd) (map d_name (h_dims x)) -> ~ In k news -> P x y -> converted all news rd P l l' ->
    converted all news rd P ((k, x) :: l) ((k, y) :: l').
