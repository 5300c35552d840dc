(** What merging into a hypercube means. *)
From Coq Require Import Ascii String List Arith ZArith Bool Sorted Permutation.
From Verif Require Import Model_NdArray Model_Dim Model_Array Model_Merge.
Import ListNotations.
Local Open Scope nat_scope.

(** The combinations [l] of [k] values each: none twice, and every combination of
    values which occur at their places is there. *)
Definition full_product {X} (k : nat) (l : list (list X)) : Prop :=
  (forall t, In t l -> length t = k) /\ NoDup l /\
  forall t, length t = k -> (forall j v, nth_error t j = Some v -> exists s, In s l /\ nth_error s j = Some v) -> In t l.
(** [ix] are the places of the values [vs] in the lists [us]. *)
Inductive located {X} : list (list X) -> list X -> list nat -> Prop :=
| loc_nil : located [] [] []
| loc_cons : forall u us v vs i ix, nth_error u i = Some v -> located us vs ix -> located (u :: us) (v :: vs) (i :: ix).
Definition values {A} (e : coord * hf A) : list label := map snd (fst e).
(** The values seen for each parameter, ascending, none twice. *)
Definition axes_of (ltb : label -> label -> bool) (l : list (list label)) (k : nat) (us : list (list label)) : Prop :=
  length us = k /\ forall j u, nth_error us j = Some u ->
    StronglySorted (fun a b => ltb a b = true) u /\ forall v, In v u <-> exists s, In s l /\ nth_error s j = Some v.

(** The coordinates of a block: its scalar parameters with their (first) value, by
    name. *)
Definition is_partial (p : string * dim) : bool := subclass (d_class (snd p)) CDimPartial.
Definition coordinates_of {A} (sltb : string -> string -> bool) (b : mblk A) (c : coord) : Prop :=
  exists l, Forall2 (fun p q => fst q = fst p /\ exists r, d_data (snd p) = snd q :: r) (filter is_partial (k_ivars b)) l /\
    Permutation l c /\ StronglySorted (fun x y => sltb (fst x) (fst y) = true) c.
(** What the blocks have of a variable, with their coordinates. *)
Definition entries {A} (v : string) (bs : list (mblk A)) (cs : list coord) : list (coord * hf A) :=
  flat_map (fun p => map (fun q => (snd p, snd q)) (filter (fun q => String.eqb (fst q) v) (k_vars (fst p)))) (combine bs cs).
