(** What it means to read numbers as records. *)
From Coq Require Import List Arith.
Import ListNotations.

(** The lines are the rows: each row is made of one or more whole lines and has
    [N] numbers. *)
Inductive framed {R} (N : nat) : list (list R) -> list (list R) -> Prop :=
| framed_nil : framed N [] []
| framed_cons : forall ls row lines rows, ls <> [] -> concat ls = row -> length row = N ->
    framed N lines rows -> framed N (ls ++ lines) (row :: rows).

(** The first numbers of the rows go up: none is less than or equal to the one
    before it. *)
Definition rising {R} (leb : R -> R -> bool) (rows : list (list R)) : Prop :=
  forall i r r' a a', nth_error rows i = Some r -> nth_error rows (S i) = Some r' ->
    hd_error r = Some a -> hd_error r' = Some a' -> leb a' a = false.

(** The lines are records of [N] numbers; those of a two-port may be followed by
    noise records of five numbers, which begin where the frequency does not go
    up. *)
Definition reading {R} (leb : R -> R -> bool) (N : nat) (lines o nz : list (list R)) : Prop :=
  exists l1 l2, lines = l1 ++ l2 /\ framed N l1 o /\ rising leb o /\
    ((l2 = [] /\ nz = []) \/
     (N = 9 /\ framed 5 l2 nz /\ rising leb nz /\ nz <> [] /\
      exists r1 r2 a b, hd_error nz = Some r1 /\ o <> [] /\ r2 = last o [] /\
        hd_error r1 = Some a /\ hd_error r2 = Some b /\ leb a b = true)).
