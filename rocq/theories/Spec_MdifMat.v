(** What the columns of an MDIF table say about matrices and vectors. *)
From Coq Require Import Ascii String List Arith Bool ZArith Permutation.
From Verif Require Import Model_NdArray Model_Dim Model_Array Model_Text Spec_Array Spec_Elements.
Import ListNotations.
Local Open Scope char_scope.
Local Open Scope string_scope.
Local Open Scope nat_scope.
Local Open Scope list_scope.

(** A column as the header describes it: name, indices, type. *)
Inductive indices_of := Plain | One (i : nat) | Two (i j : nat).
Record column : Type := mkColumn { c_name : list ascii; c_at : indices_of; c_type : list ascii }.

Definition brackets (s : indices_of) : list ascii :=
  match s with
  | Plain => []
  | One i => chars "[" ++ print_nat i ++ chars "]"
  | Two i j => chars "[" ++ print_nat i ++ chars "," ++ print_nat j ++ chars "]"
  end.
Definition written (c : column) : list ascii := c_name c ++ brackets (c_at c) ++ chars "(" ++ c_type c ++ chars ")".
(** The name of the variable with the numbers of the column. *)
Definition column_label (c : column) : string := string_of_list_ascii (c_name c ++ brackets (c_at c)).

Definition letter_or_digit (c : ascii) : Prop :=
  let n := nat_of_ascii c in 65 <= n <= 90 \/ 97 <= n <= 122 \/ 48 <= n <= 57.
Definition proper (c : column) : Prop :=
  c_name c <> [] /\ ~ In "["%char (c_name c) /\ c_type c <> [] /\ Forall letter_or_digit (c_type c).

(** The header has the columns of an m by n matrix, or of a vector of length n. *)
Definition pairs_of (v : list ascii) (h : list column) : list (nat * nat) :=
  flat_map (fun c => if list_eq_dec ascii_dec (c_name c) v then match c_at c with Two i j => [(i, j)] | _ => [] end else []) h.
Definition numbers_of (v : list ascii) (h : list column) : list nat :=
  flat_map (fun c => if list_eq_dec ascii_dec (c_name c) v then match c_at c with One i => [i] | _ => [] end else []) h.
Definition is_matrix (h : list column) (v : list ascii) (m n : nat) : Prop :=
  0 < m /\ 0 < n /\ Permutation (pairs_of v h) (list_prod (seq 1 m) (seq 1 n)).
Definition is_vector (h : list column) (v : list ascii) (n : nat) : Prop :=
  0 < n /\ Permutation (numbers_of v h) (seq 1 n).

(** [k] is a column of the matrix or the vector [v]. *)
Definition part_of (h : list column) (v : list ascii) (k : string) : Prop :=
  exists c, In c h /\ c_name c = v /\ column_label c = k /\
    match c_at c with
    | Plain => False
    | One _ => exists n, is_vector h v n
    | Two _ _ => exists m n, is_matrix h v m n
    end.

(** Where a variable goes: to the matrix or the vector that it is a column of, otherwise it stays. *)
Definition goes_to (h : list column) (target : string -> string) : Prop :=
  forall k, (forall v, part_of h v k -> target k = string_of_list_ascii v) /\ ((forall v, ~ part_of h v k) -> target k = k).

(** Every name where it comes first. *)
Fixpoint firsts (l : list string) : list string :=
  match l with [] => [] | x :: l' => x :: filter (fun y => negb (String.eqb x y)) (firsts l') end.

(** [y] over the dimension [fi], rows and columns, has the numbers of the columns [get i j], counted from 1. *)
Definition matrix_over {A} (cast : dtype -> A -> A) (fi : dim) (m n : nat) (get : nat -> nat -> hf A -> Prop) (y : hf A) : Prop :=
  wf y /\ (exists di dj, h_dims y = [fi; di; dj] /\ key di = ki /\ key dj = kj /\
     d_data di = map (fun i => LZ (Z.of_nat i)) (seq 0 m) /\ d_data dj = map (fun i => LZ (Z.of_nat i)) (seq 0 n)) /\
  forall i j x r, i < m -> j < n -> get (S i) (S j) x -> nd_get (h_nd y) [r; i; j] = option_map (cast (h_dt y)) (nd_get (h_nd x) [r]).
Definition vector_over {A} (cast : dtype -> A -> A) (fi : dim) (n : nat) (get : nat -> hf A -> Prop) (y : hf A) : Prop :=
  wf y /\ (exists dj, h_dims y = [fi; dj] /\ key dj = kj /\ d_data dj = map (fun i => LZ (Z.of_nat i)) (seq 0 n)) /\
  forall j x r, j < n -> get (S j) x -> nd_get (h_nd y) [r; j] = option_map (cast (h_dt y)) (nd_get (h_nd x) [r]).
