(** What reading a configuration means: the document as a tree and places in it. *)
From Coq Require Import String List Arith Bool.
From Verif Require Import Model_NdArray Model_DataDict Model_ConfigLoad.
Import ListNotations.
Local Open Scope nat_scope.
Local Open Scope list_scope.

(** A place is given by the keys and positions that lead to it from the top. *)
Inductive step : Type := Key (k : string) | Item (i : nat).
Definition place : Type := list step.

Section Places.
  Context {T : Type}.
  (** If a key is given several times in a mapping the last one counts. *)
  Definition under (k : string) (l : list (string * node T)) : option (node T) := option_map snd (find (fun e => String.eqb k (fst e)) (rev l)).
  Definition child (s : step) (n : node T) : option (node T) :=
    match n, s with
    | NMap l, Key k => under k l
    | NSeq l, Item i => nth_error l i
    | _, _ => None
    end.
  Fixpoint at_node (p : place) (n : node T) : option (node T) :=
    match p with
    | [] => Some n
    | s :: p' => match child s n with Some c => at_node p' c | None => None end
    end.
  (** The same steps with the objects: d[k], l[i]. *)
  Definition member (h : lheap T) (s : step) (v : value T) : option (value T) :=
    match v with
    | VScalar _ => None
    | VObj a => match nth_error h a, s with
                | Some (mkL (LDict m) _), Key k => pd_get k m
                | Some (mkL (LList l) _), Item i => nth_error l i
                | _, _ => None
                end
    end.
  Fixpoint at_value (h : lheap T) (p : place) (v : value T) : option (value T) :=
    match p with
    | [] => Some v
    | s :: p' => match member h s v with Some w => at_value h p' w | None => None end
    end.

  (** What a node is read as. *)
  Definition read_as (h : lheap T) (n : node T) (v : value T) : Prop :=
    match n, v with
    | NScalar s, VScalar s' => s = s'
    | NMap l, VObj a => exists m par, nth_error h a = Some (mkL (LDict m) par) /\ NoDup (map fst m) /\
        (forall k, In k (map fst m) <-> In k (map fst l)) /\ (NoDup (map fst l) -> map fst m = map fst l)
    | NSeq l, VObj a => exists vs par, nth_error h a = Some (mkL (LList vs) par) /\ length vs = length l
    | _, _ => False
    end.

  (** The mapping at place [q] gives the key a value; the innermost such mapping
      around the place [p]. *)
  Definition defines (n : node T) (k : string) (q : place) : Prop := exists l, at_node q n = Some (NMap l) /\ In k (map fst l).
  Definition around (q p : place) : Prop := exists r, p = q ++ r.
  Definition innermost (n : node T) (k : string) (p q : place) : Prop :=
    around q p /\ defines n k q /\ forall q', around q' p -> defines n k q' -> around q' q.
End Places.
