(** What the element attributes of a multiport are to mean. *)
From Coq Require Import Ascii String List Arith Bool.
From Verif Require Import Model_NdArray Model_Text.
Import ListNotations.
Local Open Scope nat_scope.
Local Open Scope list_scope.

(** The letters of a name written small, or large, the other characters being
    kept. *)
Definition small (a b : ascii) : Prop :=
  if (65 <=? nat_of_ascii a) && (nat_of_ascii a <=? 90) then nat_of_ascii b = nat_of_ascii a + 32 else b = a.
Definition large (a b : ascii) : Prop :=
  if (97 <=? nat_of_ascii a) && (nat_of_ascii a <=? 122) then nat_of_ascii b + 32 = nat_of_ascii a else b = a.
Definition written (s name : list ascii) : Prop := Forall2 small s name \/ Forall2 large s name \/ name = s.

(** The decimal numbers of row and column, counted from one, side by side. *)
Definition numbers (ij : nat * nat) : list ascii := print_nat (fst ij + 1) ++ print_nat (snd ij + 1).

(** [key] is a way to write the element [ij] of an array with [n] columns. *)
Definition names_element (s : list ascii) (n : nat) (key : list ascii) (ij : nat * nat) : Prop :=
  fst ij < n /\ snd ij < n /\ exists name, written s name /\ key = name ++ numbers ij.

Definition not_after (a b : nat * nat) : Prop := fst a < fst b \/ (fst a = fst b /\ snd a <= snd b).

(** [y] is the element [ij] over the leading axes of [x]. *)
Definition element_of {A} (x : nd A) (lead : list nat) (ij : nat * nat) (y : nd A) : Prop :=
  nd_shape y = lead /\ forall ix, inb lead ix = true -> nd_get y ix = nd_get x (ix ++ [fst ij; snd ij]).

(** [y] is [x] with the element [ij] replaced by [v ix] at every point [ix] of
    the leading axes. *)
Definition replaced {A} (x : nd A) (lead : list nat) (ij : nat * nat) (v : list nat -> option A) (y : nd A) : Prop :=
  nd_shape y = nd_shape x /\
  forall ix k l, inb lead ix = true ->
    nd_get y (ix ++ [k; l]) = if (k =? fst ij) && (l =? snd ij) then v ix else nd_get x (ix ++ [k; l]).
