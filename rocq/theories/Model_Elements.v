(** Matrix variables and variables for their elements
    (hftools/dataset/dataset.py:71-86, hftools/file_formats/readbase.py:378-395,
    hftools/dataset/arrayobj.py:1014-1017). *)
From Coq Require Import Ascii String List Arith ZArith Bool.
From Verif Require Import Model_NdArray Model_Dim Model_Array Model_DataDict Model_Text Model_Block Model_MatNames.
Import ListNotations.
Local Open Scope string_scope.
Local Open Scope nat_scope.
Local Open Scope list_scope.

(** The default formatelement, "%s%s%s" % (varname, i, j) (dataset.py:75-76). *)
Definition element_name (k : string) (i j : nat) : string :=
  string_of_list_ascii (chars k ++ print_nat i ++ print_nat j).

(** len(v.dims[v.dims_index(name)].data) (dataset.py:80-81). *)
Definition dim_count {A} (name : string) (x : hf A) : result nat :=
  do k <- dims_index (h_dims x) name;
  do d <- of_option IndexError (nth_error (h_dims x) k);
  Ok (length (d_data d)).

(** The loops over the elements of one matrix (dataset.py:80-82). *)
Fixpoint put_elements {A} (lab : A -> label) (fmt : string -> nat -> nat -> string) (k : string) (x : hf A)
    (ps : list (nat * nat)) (out : block A) : result (block A) :=
  match ps with
  | [] => Ok out
  | (i, j) :: ps' =>
      do z <- get_element x (Z.of_nat i - 1, Z.of_nat j - 1)%Z;
      do out' <- b_set lab (fmt k i j) z out;
      put_elements lab fmt k x ps' out'
  end.

(** convert_matrices_to_elements (dataset.py:71-86); the block name is not
    modelled. *)
Fixpoint convert_loop {A} (lab : A -> label) (fmt : string -> nat -> nat -> string) (l : list (string * hf A))
    (out : block A) : result (block A) :=
  match l with
  | [] => Ok out
  | (k, x) :: l' =>
      do out' <- (if ismatrix x then
                    do ni <- dim_count "i" x;
                    do nj <- dim_count "j" x;
                    put_elements lab fmt k x (list_prod (seq 1 ni) (seq 1 nj)) out
                  else b_set lab k x out);
      convert_loop lab fmt l' out'
  end.
Definition convert_to_elements {A} (lab : A -> label) (fmt : string -> nat -> nat -> string) (b : block A) : result (block A) :=
  do l <- dd_items (b_var b); convert_loop lab fmt l b_empty.

(** [x[..., p] = v] on plain arrays: positional, with broadcasting. *)
Definition set_last {A} (x : nd A) (p : nat) (v : nd A) : result (nd A) :=
  let t := removelast (nd_shape x) in
  let s := drop_lead (length (nd_shape v) - length t) (nd_shape v) in
  if bcast_ok s t then
    Ok (nd_tab (nd_shape x) (fun ix =>
          if Nat.eqb (last ix 0) p
          then nd_get (mkNd s (nd_elems v)) (bindex s (skipn (length t - length s) (removelast ix)))
          else nd_get x ix))
  else Err ValueError.

(** block[elem] as an array.  An independent variable of that name, which would
    be found first, is not modelled. *)
Definition get_var {A} (k : string) (b : block A) : result (hf A) :=
  do f <- b_get k b;
  match f with FVar x => Ok x | FDim _ => Err TypeError end.

(** The loop of _make_matrix_from_block (readbase.py:389-391). *)
Fixpoint fill_last {A} (idx : nat) (elems : list string) (x : nd A) (b : block A) : result (nd A * block A) :=
  match elems with
  | [] => Ok (x, b)
  | e :: es =>
      do v <- get_var e b;
      do x' <- set_last x idx (h_nd v);
      do b' <- b_del e b;
      fill_last (S idx) es x' b'
  end.

(** The dimensions added by make_matrix (arrayobj.py:1014-1017). *)
Definition mdim_i (n : nat) : dim := mkDim CMatrix_i "i" (range_labels n) None None.
Definition mdim_j (n : nat) : dim := mkDim CMatrix_j "j" (range_labels n) None None.

(** One matrix (readbase.py:384-393).  [junk] is what numpy.empty leaves in
    memory. *)
Definition build_one {A} (lab : A -> label) (junk : A) (v : string) (elems : list string) (ni nj : nat) (b : block A)
    : result (block A) :=
  match elems with
  | [] => Err IndexError
  | e0 :: _ =>
      do ex <- get_var e0 b;
      do r <- fill_last 0 elems (nd_tab (h_shape ex ++ [ni * nj]) (fun _ => Some junk)) b;
      do y <- nd_reshape (h_shape ex ++ [ni; nj]) (fst r);
      do m <- new_raw y (h_dt ex) (Some (h_dims ex ++ [mdim_i ni; mdim_j nj])) None None;
      b_set lab v m (snd r)
  end.

Fixpoint build_loop {A} (lab : A -> label) (junk : A)
    (g : list (list ascii * (list (list ascii) * list nat * list nat))) (b : block A) : result (block A) :=
  match g with
  | [] => Ok b
  | (v, (elems, is, js)) :: g' =>
      do b' <- build_one lab junk (string_of_list_ascii v) (map string_of_list_ascii elems) (length is) (length js) b;
      build_loop lab junk g' b'
  end.

(** _make_matrix_from_block (readbase.py:378-393) with the pattern of the base
    class (readbase.py:426-427). *)
Definition build_matrices {A} (lab : A -> label) (junk : A) (b : block A) : result (block A) :=
  build_loop lab junk (match_matrix_elements (map chars (dd_iter (b_var b))) elem_match) b.
