(** What an arrangement of windows is to be. *)
From Coq Require Import ZArith List.
Import ListNotations.
Local Open Scope Z_scope.

(** A window: width, height, left, top. *)
Record window := mkWin { w_w : Z; w_h : Z; w_x : Z; w_y : Z }.
(** [b] is to the right of [a] or below it, with a gap. *)
Definition apart (xgap ygap : Z) (a b : window) : Prop :=
  w_x a + w_w a + xgap <= w_x b \/ w_y a + w_h a + ygap <= w_y b.
(** [b] stands in the same row, next to [a]. *)
Definition beside (xgap : Z) (a b : window) : Prop := w_y b = w_y a /\ w_x b = w_x a + w_w a + xgap.
(** The window is on the screen as far as its size allows. *)
Definition on_screen (W H : Z) (a : window) : Prop :=
  0 <= w_x a /\ 0 <= w_y a /\ (w_w a <= W -> w_x a + w_w a <= W) /\ (w_h a <= H -> w_y a + w_h a <= H).
