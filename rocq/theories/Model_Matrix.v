(** Arrays of matrices: hftools/math.py lines 374-429.

    The numerical routines of numpy.linalg are parameters: each works on one
    n x n matrix, given by its elements, and may fail (LinAlgError, modelled as
    GenericError). *)
From Coq Require Import List Arith ZArith Bool.
From Verif Require Import Model_NdArray Model_Dim Model_Array.
Import ListNotations.
Local Open Scope nat_scope.

Section Matrix.
  Context {A : Type}.
  Variables (zero : A) (add mul : A -> A -> A).
  Variable E : elops A.
  Variable rt : dtype -> dtype -> dtype.     (* dtype of a product *)
  Variable rt1 : dtype -> dtype.             (* dtype of an inverse, a determinant *)
  Variable linv : nat -> (nat -> nat -> A) -> option (nat -> nat -> A).
  Variable ldet : nat -> (nat -> nat -> A) -> A.
  Variable lsolve : nat -> nat -> (nat -> nat -> A) -> (nat -> nat -> A) -> option (nat -> nat -> A).

  Fixpoint sumn (n : nat) (f : nat -> A) : A := match n with 0 => zero | S k => add (sumn k f) (f k) end.
  Definition nd_get0 (a : nd A) (ix : list nat) : A := match nd_get a ix with Some v => v | None => zero end.
  (** shape[:-2] and shape[-2:] *)
  Definition outer_part {X} (l : list X) : list X := firstn (length l - 2) l.
  Definition matrix_part {X} (l : list X) : list X := skipn (length l - 2) l.
  (** np.einsum("...ij,...jk->...ik", a, b): axes of length one broadcast. *)
  Definition nd_matmul (a b : nd A) : result (nd A) :=
    let oa := outer_part (nd_shape a) in
    let ob := outer_part (nd_shape b) in
    match matrix_part (nd_shape a), matrix_part (nd_shape b) with
    | [n; m], [m'; p] =>
        do o <- bshape oa ob;
        if (m =? m') || (m =? 1) || (m' =? 1) then
          Ok (nd_tab (o ++ [n; p]) (fun ix =>
            let ox := outer_part ix in
            match matrix_part ix with
            | [i; k] => Some (sumn (if m =? 1 then m' else m)
                (fun j => mul (nd_get0 a (bindex oa ox ++ [i; if m =? 1 then 0 else j]))
                              (nd_get0 b (bindex ob ox ++ [if m' =? 1 then 0 else j; k]))))
            | _ => None
            end))
        else Err ValueError
    | _, _ => Err ValueError
    end.
  (** math.py 393-401 matrix_multiply. *)
  Definition matrix_multiply (x y : hf A) : result (hf A) :=
    do p <- make_same_dims E x y;
    do a <- nd_matmul (h_nd (fst p)) (h_nd (snd p));
    new_raw a (rt (h_dt x) (h_dt y)) (Some (h_dims (fst p))) None None.

  Definition matrix_at (a : nd A) (ox : list nat) : nat -> nat -> A := fun i j => nd_get0 a (ox ++ [i; j]).
  (** numpy.linalg.inv on an array of matrices: each matrix separately. *)
  Definition nd_inv (a : nd A) : result (nd A) :=
    match matrix_part (nd_shape a) with
    | [n; m] =>
        if negb (n =? m) then Err GenericError
        else if forallb (fun ox => match linv n (matrix_at a ox) with Some _ => true | None => false end) (indices (outer_part (nd_shape a))) then
          Ok (nd_tab (nd_shape a) (fun ix =>
            match matrix_part ix, linv n (matrix_at a (outer_part ix)) with
            | [i; j], Some r => Some (r i j)
            | _, _ => None
            end))
        else Err GenericError
    | _ => Err GenericError
    end.
  (** math.py 374-378 inv. *)
  Definition inv (x : hf A) : result (hf A) :=
    do a <- nd_inv (h_nd x); new_raw a (rt1 (h_dt x)) (Some (h_dims x)) None None.
  (** math.py 411-415 det. *)
  Definition nd_det (a : nd A) : result (nd A) :=
    match matrix_part (nd_shape a) with
    | [n; m] => if negb (n =? m) then Err GenericError
                else Ok (nd_tab (outer_part (nd_shape a)) (fun ox => Some (ldet n (matrix_at a ox))))
    | _ => Err GenericError
    end.
  Definition det (x : hf A) : result (hf A) :=
    do a <- nd_det (h_nd x); new_raw a (rt1 (h_dt x)) (Some (outer_part (h_dims x))) None None.
  (** numpy.linalg.solve on two arrays with the same number of axes. *)
  Definition nd_solve (a b : nd A) : result (nd A) :=
    let oa := outer_part (nd_shape a) in
    let ob := outer_part (nd_shape b) in
    match matrix_part (nd_shape a), matrix_part (nd_shape b) with
    | [n; m], [n'; p] =>
        if negb (n =? m) then Err GenericError
        else if negb (n =? n') then Err ValueError
        else
          do o <- bshape oa ob;
          let sol := fun ox => lsolve n p (matrix_at a (bindex oa ox)) (matrix_at b (bindex ob ox)) in
          if forallb (fun ox => match sol ox with Some _ => true | None => false end) (indices o) then
            Ok (nd_tab (o ++ [n; p]) (fun ix =>
              match matrix_part ix, sol (outer_part ix) with
              | [i; k], Some r => Some (r i k)
              | _, _ => None
              end))
          else Err GenericError
    | _, _ => Err GenericError
    end.
  (** math.py 418-424 solve_Ab. *)
  Definition solve_Ab (x y : hf A) (do_squeeze : bool) : result (hf A) :=
    do p <- make_same_dims E x y;
    do a <- nd_solve (h_nd (fst p)) (h_nd (snd p));
    do r <- new_raw a (rt (h_dt x) (h_dt y)) (Some (h_dims (snd p))) None None;
    if do_squeeze then squeeze None r else Ok r.
End Matrix.
