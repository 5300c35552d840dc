(** Angles of complex numbers and unwrapping: hftools/math.py lines 20-40 and
    118-188.  Complex numbers are pairs of reals (Model_Noise), rounding is not
    modelled. *)
From Coq Require Import Reals List Bool.
From Verif Require Import Model_NdArray Model_Noise.
Import ListNotations.
Local Open Scope R_scope.

(** numpy.exp(1j*t). *)
Definition expi (t : R) : Cx := (cos t, sin t).
(** abs of a complex number. *)
Definition Cmod (z : Cx) : R := sqrt (Cabs2 z).
(** numpy.angle: arctan2(imag, real); no signed zeros. *)
Definition npangle (z : Cx) : R :=
  if Ceqb z (0, 0) then 0
  else if Rle_dec 0 (snd z) then acos (fst z / Cmod z) else - acos (fst z / Cmod z).
(** math.py 20-40 angle, deg=False and deg=True; the branch is -pi (-180) when it
    is not given. *)
Definition angle_branch (b : R) (z : Cx) : R :=
  let B := b - - PI in npangle (Cdiv z (expi B)) + B.
Definition angle (z : Cx) : R := angle_branch (- PI) z.
Definition angle_deg_branch (b : R) (z : Cx) : R :=
  let B := b - - 180 in npangle (Cdiv z (expi (B / 180 * PI))) * (180 / PI) + B.

(** data[1:] / data[:-1] *)
Fixpoint ratios (prev : Cx) (l : list Cx) : list Cx :=
  match l with [] => [] | z :: l' => Cdiv z prev :: ratios z l' end.
(** np.add.accumulate(..., 0) *)
Fixpoint accumulate (acc : R) (l : list R) : list R :=
  match l with [] => [] | x :: l' => (acc + x) :: accumulate (acc + x) l' end.
(** math.py 139-141: one column before the shift. *)
Definition unwrap_raw (z0 : Cx) (l : list Cx) : list R :=
  angle z0 :: map (fun s => s + angle z0) (accumulate 0 (map angle (ratios z0 l))).
(** math.py 137-138 and 142-143. *)
Definition shifted (a a0 : R) (r : list R) : list R :=
  let r1 := if Rlt_dec (Rabs (a - a0 + 2 * PI)) 2 then map (fun x => x + 2 * PI) r else r in
  if Rlt_dec (Rabs (a - a0 - 2 * PI)) 2 then map (fun x => x - 2 * PI) r1 else r1.
Definition unwrap_col (a0 : R) (col : list Cx) : result (list R) :=
  match col with
  | [] => Err IndexError                                (* data[0] *)
  | z0 :: l => Ok (shifted (angle z0) a0 (unwrap_raw z0 l))
  end.
(** math.py 124-147 _unwrap_phase, deg=False.  The data is given by its columns
    (all axes but the first flattened); a0 is the angle of the first element. *)
Definition unwrap_phase (cols : list (list Cx)) : result (list (list R)) :=
  match cols with
  | [] => Err IndexError                                (* a.flat[0] *)
  | [] :: _ => Err IndexError
  | (z :: _) :: _ => mapM (unwrap_col (angle z)) cols
  end.
(** deg=True: math.py 144-145. *)
Definition unwrap_phase_deg (cols : list (list Cx)) : result (list (list R)) :=
  do r <- unwrap_phase cols; Ok (map (map (fun x => x / PI * 180)) r).
(** math.py 118-121 continous_phase_sqrt. *)
Definition phase_sqrt (q : Cx) (phase : R) : Cx := Cmul (RtoC (sqrt (Cmod q))) (expi (phase / 2)).
Definition continous_phase_sqrt (cols : list (list Cx)) : result (list (list Cx)) :=
  do ph <- unwrap_phase cols;
  Ok (map (fun qp => map (fun x => phase_sqrt (fst x) (snd x)) (combine (fst qp) (snd qp))) (combine cols ph)).
(** math.py 155-188 delay on one sweep, after make_same_dims. *)
Fixpoint delay (f0 : R) (z0 : Cx) (l : list (R * Cx)) : list (R * R) :=
  match l with
  | [] => []
  | (f, z) :: l' => ((f0 + f) / 2, angle (Cdiv z z0) / (2 * PI * (f0 - f))) :: delay f z l'
  end.
