(** Circles of the Smith chart: hftools/plotting/smith.py lines 48-240.  Complex
    numbers are pairs of reals (Model_Noise), rounding is not modelled; limits may
    be infinite, nan is left out. *)
From Coq Require Import Reals Bool.
From Verif Require Import Model_Noise Model_Phase.
Local Open Scope R_scope.

(** A float: finite or infinite. *)
Inductive rx : Type := Fin (x : R) | PInf | NInf.
Definition rx_nonneg (x : rx) : bool := match x with Fin x => if Rle_dec 0 x then true else false | PInf => true | NInf => false end.
Definition rx_nonpos (x : rx) : bool := match x with Fin x => if Rle_dec x 0 then true else false | PInf => false | NInf => true end.
Definition rx_leb (x y : rx) : bool :=
  match x, y with
  | NInf, _ | _, PInf => true
  | Fin x, Fin y => if Rle_dec x y then true else false
  | _, _ => false
  end.
Definition rx_min (x y : rx) : rx := if rx_leb x y then x else y.
Definition rx_max (x y : rx) : rx := if rx_leb x y then y else x.

(** angle (smith.py:48-63) of one complex number, deg=True. *)
Definition sm_angle (x : Cx) (branch : R) : R :=
  let a := npangle (Cdiv x (expi (branch / 180 * PI))) * (180 / PI) in
  (if Rlt_dec a 0 then a + 360 else a) + branch.

(** MyCircle (smith.py:66-74) with the angles of an arc, MyLine (100-105).  The
    artists made of them are not modelled. *)
Inductive shape : Type :=
| Circle (x y r : R) (arc : option (R * R))
| Line (x1 y1 x2 y2 : R).

Definition tiny : R := / 10 ^ 15.
(** z2gamma (smith.py:131-138) *)
Definition z2gamma (re im : rx) : Cx :=
  match re, im with
  | Fin r, Fin x => Cdiv (Csub (r, x) (1, 0)) (Cadd (r, x) (1, 0))
  | _, _ => if rx_nonneg im then (1, 0) else (1, - tiny)
  end.
(** y2gamma (smith.py:141-148) *)
Definition y2gamma (re im : rx) : Cx :=
  match re, im with
  | Fin g, Fin b => Cdiv (Csub (1, 0) (g, b)) (Cadd (1, 0) (g, b))
  | _, _ => if rx_nonpos im then (-1, tiny) else (-1, - tiny)
  end.

(** RCircle (smith.py:151-166) *)
Definition RCircle (r : R) (x1 x2 : option rx) : shape :=
  let x0 := r / (r + 1) in
  let radius := Rabs (1 / (r + 1)) in
  match x1, x2 with
  | Some x1, Some x2 =>
      let c1 := z2gamma (Fin r) (rx_min x1 x2) in
      let c2 := z2gamma (Fin r) (rx_max x1 x2) in
      Circle x0 0 radius (Some (sm_angle (Csub c2 (x0, 0)) 0, sm_angle (Csub c1 (x0, 0)) 0))
  | _, _ => Circle x0 0 radius None
  end.

(** sorted of two angles (smith.py:190) *)
Definition sorted2 (a b : R) : R * R := if Rle_dec a b then (a, b) else (b, a).
(** XCircle (smith.py:169-191) *)
Definition XCircle (x : R) (r1 r2 : option rx) : shape :=
  if Req_EM_T x 0 then
    match r1, r2 with
    | Some r1, Some r2 => Line (fst (z2gamma r1 (Fin 0))) 0 (fst (z2gamma r2 (Fin 0))) 0
    | _, _ => Line (-1) 0 1 0
    end
  else
    let c0 := (1, 1 / x) in
    let radius := Rabs (1 / x) in
    match r1, r2 with
    | Some r1, Some r2 =>
        let c1 := z2gamma (rx_min r1 r2) (Fin x) in
        let c2 := z2gamma (rx_max r1 r2) (Fin x) in
        Circle (fst c0) (snd c0) radius (Some (sorted2 (sm_angle (Csub c2 c0) 0) (sm_angle (Csub c1 c0) 0)))
    | _, _ => Circle (fst c0) (snd c0) radius None
    end.

(** GCircle (smith.py:195-209) *)
Definition GCircle (g : R) (b1 b2 : option rx) : shape :=
  let x0 := - g / (g + 1) in
  let radius := Rabs (1 / (g + 1)) in
  match b1, b2 with
  | Some b1, Some b2 =>
      let c1 := y2gamma (Fin g) b2 in
      let c2 := y2gamma (Fin g) b1 in
      Circle x0 0 radius (Some (sm_angle (Csub c1 (x0, 0)) 180, sm_angle (Csub c2 (x0, 0)) 180))
  | _, _ => Circle x0 0 radius None
  end.

(** BCircle (smith.py:212-240); for b = 0 it uses z2gamma. *)
Definition BCircle (b : R) (g1 g2 : option rx) : shape :=
  if Req_EM_T b 0 then
    match g1, g2 with
    | Some g1, Some g2 => Line (fst (z2gamma g1 (Fin 0))) 0 (fst (z2gamma g2 (Fin 0))) 0
    | _, _ => Line (-1) 0 1 0
    end
  else
    let pos := if Rle_dec 0 b then true else false in
    let branch := if pos then 90 else -90 in
    let '(g1, g2) := if pos then (g2, g1) else (g1, g2) in
    let c0 := (-1, -1 / b) in
    let radius := Rabs (1 / b) in
    match g1, g2 with
    | Some g1, Some g2 =>
        let c1 := y2gamma g1 (Fin b) in
        let c2 := y2gamma g2 (Fin b) in
        Circle (fst c0) (snd c0) radius (Some (sm_angle (Csub c2 c0) branch, sm_angle (Csub c1 c0) branch))
    | _, _ => Circle (fst c0) (snd c0) radius None
    end.
