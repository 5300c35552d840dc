(** What it means that the tables of an output file hold the data of a block,
    stated without the functions of Model_Writer.v. *)
From Coq Require Import String List Arith ZArith Bool.
From Verif Require Import Model_NdArray Model_Dim Model_Array Spec_Array Model_DataDict Model_Block Model_Writer.
Import ListNotations.
Local Open Scope nat_scope.
Local Open Scope list_scope.

(** A number of a block: the variable, the coordinates it is found at (name and
    label of every dimension that is not a matrix dimension), the position in
    the matrix (nothing if it is no matrix) and the number itself. *)
Definition cell (A : Type) : Type := (string * list (string * label) * list nat * A)%type.

Fixpoint at_labels (ns : list string) (ls : list (list label)) (ix : list nat) : list (string * label) :=
  match ns, ls, ix with
  | n :: ns', l :: ls', i :: ix' => (n, nth i l (LZ 0)) :: at_labels ns' ls' ix'
  | _, _, _ => []
  end.

(** The last two dimensions of a matrix are not coordinates. *)
Definition outer_dims {A} (x : hf A) : list dim :=
  if ismatrix x then firstn (length (h_dims x) - 2) (h_dims x) else h_dims x.

(** All numbers of a variable. *)
Definition var_cells {A} (kx : string * hf A) : list (cell A) :=
  let x := snd kx in
  flat_map (fun ix => map (fun v => (fst kx, at_labels (map d_name (outer_dims x)) (map d_data (outer_dims x)) ix,
                                     skipn (length (outer_dims x)) ix, v))
                          (opt_list (nd_get (h_nd x) ix)))
           (indices (h_shape x)).

(** All numbers of a table: every column has a name, the first one gives the
    labels of the rows, the sweep variables are the same for all rows. *)
Definition table_cells {A} (t : table A) : list (cell A) :=
  match t_header t, t_x t with
  | x :: ks, Some a =>
      flat_map (fun kc : string * hf A =>
        flat_map (fun ix =>
          match ix with
          | [] => []
          | r :: me =>
              flat_map (fun l =>
                map (fun v => (fst kc, (x, l) :: map (fun s : string * string * label => (fst (fst s), snd s)) (t_sweep t), me, v))
                    (opt_list (nd_get (h_nd (snd kc)) ix)))
                (opt_list (nth_error (nd_elems (h_nd a)) r))
          end) (indices (h_shape (snd kc)))) (combine ks (t_cols t))
  | _, _ => []
  end.

(** All columns of a table have a name and as many rows as there are labels. *)
Definition rectangular {A} (t : table A) : Prop :=
  match t_x t with
  | Some a => length (t_header t) = S (length (t_cols t)) /\
      Forall (fun y => hd 0 (h_shape y) = length (nd_elems (h_nd a)) /\ h_ndim y <> 0) (t_cols t)
  | None => t_header t = [] /\ t_cols t = []
  end.

(** A table with nothing but one column of labels. *)
Definition bare {A} (t : table A) : list (string * list label) :=
  match t_header t, t_x t with
  | [n], Some a => [(n, nd_elems (h_nd a))]
  | _, _ => []
  end.

(** Blocks that can be written: sound arrays, no dimension without labels and
    without format, no variable with the name of a dimension or of an element
    of another variable, one set of labels per name of a dimension. *)
Definition can_format (d : dim) : Prop := d_data d <> [] \/ d_fmt d <> None.
Definition var_ok {A} (b : block A) (k : string) (x : hf A) : Prop :=
  wf x /\ Forall can_format (h_dims x) /\ dd_contains k (b_ivar b) = false /\
  (forall m e, is_matrix_name k = Some (m, e) -> dd_contains m (b_var b) = false \/ ismatrix x = true).
Definition writable {A} (b : block A) : Prop :=
  (forall k x, dd_get k (b_var b) = Ok x -> var_ok b k x) /\
  (forall k x k' x' d d', dd_get k (b_var b) = Ok x -> dd_get k' (b_var b) = Ok x' ->
     In d (h_dims x) -> In d' (h_dims x') -> d_name d = d_name d' -> d_data d = d_data d') /\
  (forall n d, dd_get n (b_ivar b) = Ok d -> can_format d).

Definition has_outer {A} (kx : string * hf A) : bool := negb (Nat.eqb (length (outer_dims (snd kx))) 0).
Definition is_scalar {A} (kx : string * hf A) : bool := Nat.eqb (length (h_dims (snd kx))) 0.
Definition no_dim_of {A} (vs : list (string * hf A)) (nd : string * dim) : bool :=
  forallb (fun kx : string * hf A => forallb (fun d => negb (String.eqb (d_name d) (fst nd))) (h_dims (snd kx))) vs.
