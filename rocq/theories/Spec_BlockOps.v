(** Vocabulary for statements about operations on whole blocks. *)
From Coq Require Import String List Arith ZArith Bool.
From Verif Require Import Model_NdArray Model_Dim Model_Array Spec_Array Model_DataDict Model_Block Spec_Block.
Import ListNotations.
Local Open Scope nat_scope.
Local Open Scope list_scope.

(** The variables with the given names, in the order of the names. *)
Definition picked {V} (names : list string) (vs : list (string * V)) : list (string * V) :=
  flat_map (fun k => filter (fun p => String.eqb (fst p) k) vs) names.

(** The dimensions of the variables in order, of each name the first. *)
Fixpoint first_of {V} (l : list (string * V)) : list (string * V) :=
  match l with [] => [] | x :: l' => x :: filter (fun y => negb (String.eqb (fst x) (fst y))) (first_of l') end.
Definition dims_of {A} (vs : list (string * hf A)) : list (string * dim) :=
  first_of (map (fun d => (d_name d, d)) (flat_map (fun p => h_dims (snd p)) vs)).

(** [y] is [x] without its dimensions of length one. *)
Definition squeezed {A} (x y : hf A) : Prop :=
  wf y /\ h_dims y = filter (fun d => negb (Nat.eqb (length (d_data d)) 1)) (h_dims x) /\ h_unit y = h_unit x /\
  (forall e, valid e (h_dims x) -> val y e = val x e).

Definition a_rep (d : dim) : bool := subclass (d_class d) CDimRep.

(** [x] has all of [reps] beside each other and no other repetition, or none. *)
Definition has_reps {A} (reps : list dim) (x : hf A) : Prop :=
  exists pre post, (forall d, In d (pre ++ post) -> a_rep d = false) /\
    (h_dims x = pre ++ reps ++ post \/ h_dims x = pre ++ post).

(** [y] is [x] with [reps], if it has them, made into the dimension [dn]. *)
Definition made_one {A} (reps : list dim) (dn : dim) (x y : hf A) : Prop :=
  wf y /\
  ((y = x /\ forall d, In d (h_dims x) -> a_rep d = false) \/
   (exists pre post, h_dims x = pre ++ reps ++ post /\ h_dims y = pre ++ [dn] ++ post /\ collapses x y reps (key dn))).

(** A variable over [dn] that says which label of [r] belongs to a position. *)
Definition tells {A} (emb : label -> A) (reps : list dim) (dn r : dim) (y : hf A) : Prop :=
  wf y /\ h_dims y = [dn] /\
  forall e, valid e reps -> val y (upd e (key dn) (mixed reps e)) = option_map emb (nth_error (d_data r) (e (key r))).
