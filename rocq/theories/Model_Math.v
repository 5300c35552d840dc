(** Smoothing and interpolation (math.py, and interpolate of dataset.py, of
    /repo/hftools). Numbers are rational numbers instead of floating point. *)
From Coq Require Import List Arith ZArith QArith Bool Lia.
From Verif Require Import Model_NdArray.
Import ListNotations.
Local Open Scope nat_scope.

(** l[s:t]. *)
Definition slice {A} (s t : nat) (l : list A) : list A := firstn (t - s) (skipn s l).
Fixpoint sumQ (l : list Q) : Q := match l with [] => 0%Q | x :: l' => (x + sumQ l')%Q end.
(** np.mean. *)
Definition mean (l : list Q) : Q := (sumQ l / inject_Z (Z.of_nat (length l)))%Q.

(** ** smooth (math.py:191-219), along the first axis, of a vector.
    The slice does not respect another axis, which is not modelled. *)
Definition odd (aperture : nat) : nat := if aperture mod 2 =? 0 then 0 else 1.
Definition smooth_wid (n aperture i : nat) : nat := Nat.min (Nat.min i (aperture / 2)) (n - 1 - i).
Definition smooth_at (data : list Q) (aperture i : nat) : Q :=
  let wid := smooth_wid (length data) aperture i in
  if wid =? 0 then nth i data 0%Q else mean (slice (i - wid) (i + wid + odd aperture) data).
Definition smooth (data : list Q) (aperture : nat) : list Q := map (smooth_at data aperture) (seq 0 (length data)).

(** ** poly_smooth (math.py:222-260) *)
(** scipy.polyval: the coefficient of the highest power first. *)
Definition polyval (p : list Q) (x : Q) : Q := fold_left (fun acc c => (acc * x + c)%Q) p 0%Q.
Definition poly_start (n aperture i : nat) : nat := Nat.min (i - aperture / 2) (n - 1 - aperture).
Definition poly_stop (n aperture i : nat) : nat := Nat.max (Nat.min (i + aperture / 2 + odd aperture) (n - 1)) aperture.
Section Poly.
  (** scipy.polyfit. *)
  Variable polyfit : list Q -> list Q -> nat -> result (list Q).
  Definition poly_smooth_at (x y : list Q) (aperture N i : nat) : result Q :=
    let start := poly_start (length x) aperture i in
    let stop := poly_stop (length x) aperture i in
    if stop =? start + aperture then
      do poly <- polyfit (slice start stop x) (slice start stop y) N;
      Ok (polyval poly (nth i x 0%Q))
    else Err AssertError.
  Fixpoint poly_loop (x y : list Q) (aperture N : nat) (is : list nat) : result (list Q) :=
    match is with
    | [] => Ok []
    | i :: is' => do v <- poly_smooth_at x y aperture N i; do r <- poly_loop x y aperture N is'; Ok (v :: r)
    end.
  Definition poly_smooth (x y : list Q) (aperture N : nat) : result (list Q) := poly_loop x y aperture N (seq 0 (length x)).
End Poly.

(** ** linear_extrapolate and interpolate (math.py:283-308), of one point *)
Definition Qltb (x y : Q) : bool := negb (Qle_bool y x).
(** np.searchsorted(l, x), side left, of an ascending list. *)
Fixpoint searchsorted (l : list Q) (x : Q) : nat :=
  match l with
  | [] => 0
  | a :: l' => if Qltb a x then S (searchsorted l' x) else 0
  end.
Definition linear_extrapolate (x y : list Q) (xi : Q) : Q :=
  let idx0 := searchsorted (slice 1 (length x - 1) x) xi in
  let idx1 := idx0 + 1 in
  let x0 := nth idx0 x 0%Q in let x1 := nth idx1 x 0%Q in
  let y0 := nth idx0 y 0%Q in let y1 := nth idx1 y 0%Q in
  let d0 := (xi - x0)%Q in let d1 := (x1 - xi)%Q in let d := (x1 - x0)%Q in
  ((d0 * y1 + d1 * y0) / d)%Q.
(** min() and max() of an array that is not empty. *)
Definition list_min (l : list Q) : Q := fold_left (fun a b => if Qle_bool a b then a else b) l (nth 0 l 0%Q).
Definition list_max (l : list Q) : Q := fold_left (fun a b => if Qle_bool b a then a else b) l (nth 0 l 0%Q).
Definition interpolate (x y : list Q) (xi : list Q) : result (list Q) :=
  if Qltb (list_min xi) (list_min x) then Err ValueError
  else if Qltb (list_max x) (list_max xi) then Err ValueError
  else Ok (map (linear_extrapolate x y) xi).

(** ** interpolate of dataset.py:729-756, mode "none", of an array given by its
    rows along the first axis. *)
Definition Qin (x : Q) (l : list Q) : bool := existsb (Qeq_bool x) l.
Fixpoint compress {A} (mask : list bool) (l : list A) : list A :=
  match mask, l with
  | b :: mask', a :: l' => if b then a :: compress mask' l' else compress mask' l'
  | _, _ => []
  end.
Definition interpolate_none {A} (oldx newx : list Q) (rows : list A) : result (list A) :=
  let mask := map (fun o => Qin o newx) oldx in
  if negb (length (filter (fun b => b) mask) =? length newx) then Err ValueError
  else if negb (length mask =? length rows) then Err IndexError       (* boolean index did not match *)
  else Ok (compress mask rows).
