(** Vocabulary for matrices and their elements. *)
From Coq Require Import Ascii String List Arith ZArith Bool.
From Verif Require Import Model_NdArray Model_Dim Model_Array Spec_Array Model_Text.
Import ListNotations.
Local Open Scope string_scope.
Local Open Scope nat_scope.
Local Open Scope list_scope.

Definition ki : dimclass * string := (CMatrix_i, "i").
Definition kj : dimclass * string := (CMatrix_j, "j").

(** A matrix variable: its last two dimensions are the rows i and the columns
    j, the dimensions before these have labels. *)
Record matrix_of {A} (x : hf A) (ds : list dim) (ni nj : nat) : Prop := {
  mo_wf : wf x;
  mo_names : NoDup (map d_name (h_dims x));
  mo_usable : Forall (fun d => d_data d <> [] \/ d_fmt d <> None) ds;
  mo_dims : exists di dj, h_dims x = ds ++ [di; dj] /\ key di = ki /\ key dj = kj /\
    length (d_data di) = ni /\ length (d_data dj) = nj }.

(** [z] is the element in row [i] and column [j], counted from 1. *)
Definition element_of {A} (x : hf A) (ds : list dim) (i j : nat) (z : hf A) : Prop :=
  wf z /\ h_unit z = h_unit x /\
  Forall2 (fun d d' => key d' = key d /\ d_unit d' = d_unit d /\ d_data d' = d_data d) ds (h_dims z) /\
  forall e, valid e (h_dims z) -> val z e = val x (upd (upd e ki (i - 1)) kj (j - 1)).

(** What becomes of one variable: it is taken over if it is not a matrix,
    otherwise its elements, row by row. *)
Definition split_into {A} (fmt : string -> nat -> nat -> string) (p : string * hf A) (out : list (string * hf A)) : Prop :=
  (ismatrix (snd p) = false /\ out = [p]) \/
  (ismatrix (snd p) = true /\ exists ds ni nj, matrix_of (snd p) ds ni nj /\
     Forall2 (fun ij q => fst q = fmt (fst p) (fst ij) (snd ij) /\ element_of (snd p) ds (fst ij) (snd ij) (snd q))
             (list_prod (seq 1 ni) (seq 1 nj)) out).

(** Names of the variables that result. *)
Definition axis_len {A} (x : hf A) (name : string) : nat :=
  match find (fun d => String.eqb (d_name d) name) (h_dims x) with Some d => length (d_data d) | None => 0 end.
Definition split_names {A} (fmt : string -> nat -> nat -> string) (p : string * hf A) : list string :=
  if ismatrix (snd p)
  then map (fun ij => fmt (fst p) (fst ij) (snd ij)) (list_prod (seq 1 (axis_len (snd p) "i")) (seq 1 (axis_len (snd p) "j")))
  else [fst p].

(** The same values at the same places, over dimensions with the same names and
    classes and the same labels except for those of rows and columns. *)
Definition same_matrix {A} (x y : hf A) : Prop :=
  wf y /\ (exists ds ds' di dj ni nj, matrix_of x ds ni nj /\ h_dims y = ds' ++ [di; dj] /\
    Forall2 (fun d d' => key d' = key d /\ d_unit d' = d_unit d /\ d_data d' = d_data d) ds ds' /\
    key di = ki /\ key dj = kj /\ length (d_data di) = ni /\ length (d_data dj) = nj) /\
  forall e, valid e (h_dims y) -> val y e = val x e.

(** Letters and underscores only. *)
Definition lettered (s : string) : Prop :=
  s <> "" /\ Forall (fun c => let n := nat_of_ascii c in (65 <= n <= 90) \/ (97 <= n <= 122) \/ n = 95) (chars s).
