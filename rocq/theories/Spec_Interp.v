(** Vocabulary for statements about picking the values at new labels. *)
From Coq Require Import String List Arith ZArith Bool.
From Verif Require Import Model_NdArray Model_Dim Model_Array Spec_Array.
Import ListNotations.
Local Open Scope nat_scope.
Local Open Scope list_scope.

(** [z] is [y] at the labels of [newx]: the value of [z] where [newx] has the
    label [l] is the value of [y] where [oldx] has it. *)
Definition at_labels {A} (oldx newx : dim) (y z : hf A) : Prop :=
  forall e l p, valid e (h_dims z) -> nth_error (d_data newx) (e (key newx)) = Some l -> nth_error (d_data oldx) p = Some l ->
    val z e = val y (upd e (key oldx) p).
