(** What shortening dotted names means. *)
From Coq Require Import Ascii String List Arith Bool.
Import ListNotations.
Local Open Scope nat_scope.
Local Open Scope list_scope.

Definition letters (s : string) : list ascii := list_ascii_of_string s.
(** The whole name, or what follows one of its dots. *)
Definition tail_of (s name : string) : Prop :=
  s = name \/ exists pre, letters name = pre ++ "."%char :: letters s.

(** [s] is the shortest of these that is not taken. *)
Definition shortest_free (taken : list string) (name s : string) : Prop :=
  tail_of s name /\ ~ In s taken /\ forall t, tail_of t name -> ~ In t taken -> String.length s <= String.length t.

(** Names that end in a dot and this character, and the name without it. *)
Definition marked (c : ascii) (name base : string) : Prop := letters name = letters base ++ ["."%char; c].
(** A name that is dropped; the name another one stands for. *)
Definition dropped (name : string) : Prop := exists base, marked "s" name base.
Definition stands_for (name base : string) : Prop :=
  marked "m" name base \/ (base = name /\ forall b, ~ marked "m" name b).

Section Fixed.
  Context {V : Type}.
  Let named_values := list (string * V).
  (** What becomes of the entries of a block, taken in order: entries of dropped
      names go, the others stay where they are, under the shortest tail of the
      name they stand for that no other entry has at that moment. [done] are the
      entries already treated. *)
  Inductive fixed : named_values -> named_values -> named_values -> Prop :=
  | fixed_end done : fixed done [] done
  | fixed_drop done n x rest out : dropped n -> fixed done rest out -> fixed done ((n, x) :: rest) out
  | fixed_keep done n x rest out base s : ~ dropped n -> stands_for n base ->
      shortest_free (map fst (done ++ rest)) base s ->
      fixed (done ++ [(s, x)]) rest out -> fixed done ((n, x) :: rest) out.
End Fixed.

(** No name is the base, or a tail of the base, that a marked name stands for. *)
Definition clear (names : list string) : Prop :=
  forall n w, In n names -> marked "m" n w ->
  forall n', In n' names -> n' <> n -> n' <> w /\ (~ dropped n' -> forall w', stands_for n' w' -> ~ tail_of w w').
