(** Model of the corrections of measured S-parameters in
    hftools/networks/spar_functions.py:104-166.

    An array of matrices is a list of n by n matrices (the loops run over the
    first dimension, further dimensions are not allowed by numpy.diag and max
    here); numpy.linalg.svd and eigvals are parameters, numbers are exact. *)
From Coq Require Import Reals List Bool Arith.
From Verif Require Import Model_NdArray Model_Network Model_Noise Model_Phase.
Import ListNotations.
Local Open Scope R_scope.

Definition cmat : Type := nat -> nat -> Cx.

Fixpoint Csum (n : nat) (f : nat -> Cx) : Cx :=
  match n with O => (0, 0) | S k => Cadd (Csum k f) (f k) end.
(** matrix_multiply of two n by n matrices (math.py:393-401). *)
Definition cmul (n : nat) (a b : cmat) : cmat := fun i j => Csum n (fun k => Cmul (a i k) (b k j)).
(** numpy.diag of a vector. *)
Definition cdiag (s : nat -> R) : cmat := fun i j => if Nat.eqb i j then RtoC (s i) else (0, 0).

(** switch_correct (spar_functions.py:104-106); [linv] is numpy.linalg.inv. *)
Definition switch_correct (linv : nat -> cmat -> option cmat) (n : nat) (b a : cmat) : option cmat :=
  match linv n a with Some ia => Some (cmul n b ia) | None => None end.

(** make_passive_svd (spar_functions.py:109-130); the argument delta is not
    used.  [mm] is the matrix_multiply of the code. *)
Definition clip (x : R) : R := let d := Rabs x - 1 in if Rlt_dec d 0 then 0 else d.
Definition passive_svd (mm : cmat -> cmat -> result cmat) (svd : nat -> cmat -> cmat * (nat -> R) * cmat) (n : nat) (S : list cmat) : result (list cmat) :=
  mapM (fun ss =>
          let '(u, s, v) := svd n ss in
          do us <- mm u (cdiag (fun i => clip (s i)));
          do delta <- mm us v;
          Ok (fun i j => Csub (ss i j) (delta i j))) S.
(** np.array(ss, copy=False) and svd give plain arrays, for which
    matrix_multiply asks for A.dims (arrayobj.py:244-245). *)
Definition make_passive_svd := passive_svd (fun _ _ => Err AttributeError).

(** max(abs(eig(s))) *)
Fixpoint max_abs (l : list Cx) : R :=
  match l with [] => 0 | [z] => Cmod z | z :: l' => Rmax (Cmod z) (max_abs l') end.
(** make_passive_eig (spar_functions.py:133-147). *)
Definition make_passive_eig (eigvals : nat -> cmat -> list Cx) (delta : R) (n : nat) (S : list cmat) : list cmat :=
  map (fun s =>
         let lambda_max := max_abs (eigvals n s) in
         if Rlt_dec 1 lambda_max then fun i j => Cmul (Cdiv (s i j) (RtoC lambda_max)) (RtoC (1 - delta)) else s) S.

(** check_passive (spar_functions.py:160-166). *)
Definition check_passive (eigvals : nat -> cmat -> list Cx) (n : nat) (S : list cmat) : list R :=
  map (fun s => max_abs (eigvals n s)) S.

(** make_reciprocal (spar_functions.py:150-157), on each matrix. *)
Definition make_reciprocal (S : list cmat) : list cmat :=
  map (fun s =>
         let s12 := s 0%nat 1%nat in
         let s21 := s 1%nat 0%nat in
         let S12 := Csqrt (Cmul s12 s21) in
         let A12 := if Rlt_dec (npangle (Cdiv S12 s12)) 1 then S12 else Copp S12 in
         fun i j => match i, j with 0%nat, 1%nat => A12 | 1%nat, 0%nat => A12 | _, _ => s i j end) S.
