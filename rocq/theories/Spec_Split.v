(** Vocabulary for splitting a block by dimensions. *)
From Coq Require Import String List Arith ZArith Bool.
From Verif Require Import Model_NdArray Model_Dim Model_Array Model_DataDict Model_Block.
Import ListNotations.
Local Open Scope nat_scope.
Local Open Scope list_scope.

Definition same_set {X} (a b : list X) : Prop := forall d, In d a <-> In d b.

(** The variables that go with a list of dimensions: those over exactly these
    dimensions or over all but the first, in any order. *)
Definition goes_with {A} (L : list dim) (x : hf A) : Prop := same_set (h_dims x) L \/ same_set (h_dims x) (tl L).

(** A choice of a longest element. *)
Definition picks_longest {X} (pick : list (list X) -> option (list X)) : Prop :=
  pick [] = None /\
  forall s, s <> [] -> exists L, pick s = Some L /\ In L s /\ forall M, In M s -> length M <= length L.

(** The conditions under which no variable is handed out twice: dimensions
    always stand in the same order, no two of the dimension lists differ only in
    their first dimension, and there are no scalars. *)
Record consistent {A} (vs : list (string * hf A)) : Prop := {
  co_order : forall k x k' y, In (k, x) vs -> In (k', y) vs ->
    (same_set (h_dims x) (h_dims y) -> h_dims x = h_dims y) /\
    (same_set (h_dims x) (tl (h_dims y)) -> h_dims x = tl (h_dims y));
  co_first : forall k x k' y k'' z, In (k, x) vs -> In (k', y) vs -> In (k'', z) vs ->
    tl (h_dims y) = h_dims x -> tl (h_dims z) = h_dims x -> h_dims y = h_dims z;
  co_scalar : forall k x, In (k, x) vs -> h_dims x <> [] }.
