(** What the circles of a Smith chart are to be. *)
From Coq Require Import Reals.
From Verif Require Import Model_Noise.
Local Open Scope R_scope.

(** The reflection coefficient of an impedance (relative to the reference), and of
    an admittance, by the equation it satisfies. *)
Definition reflects (z p : Cx) : Prop := Cadd z (1, 0) <> (0, 0) /\ Cmul p (Cadd z (1, 0)) = Csub z (1, 0).
Definition reflects_y (y p : Cx) : Prop := Cadd y (1, 0) <> (0, 0) /\ Cmul p (Cadd y (1, 0)) = Csub (1, 0) y.

Definition on_circle (x y r : R) (p : Cx) : Prop := (fst p - x) * (fst p - x) + (snd p - y) * (snd p - y) = r * r.
(** The point of a circle at an angle in degrees. *)
Definition point_at (x y r t : R) : Cx := (x + r * cos (t / 180 * PI), y + r * sin (t / 180 * PI)).
(** The points passed when turning from t1 up to t2. *)
Definition on_arc (x y r t1 t2 : R) (p : Cx) : Prop := exists t, t1 <= t <= t2 /\ p = point_at x y r t.
