(** Stacking the blocks of an MDIF file (hftools/file_formats/mdif.py:311-349). *)
From Coq Require Import String List Arith Bool.
From Verif Require Import Model_NdArray Model_Dim Model_Array Model_DataDict Model_Block.
Import ListNotations.
Local Open Scope string_scope.
Local Open Scope nat_scope.
Local Open Scope list_scope.

Section Merge.
Context {A : Type}.
Variable lab : A -> label.                    (* what tolist makes of an element *)
Variable emb : label -> A.                    (* a label as an element *)
Variable common : list dtype -> dtype.        (* the type that numpy.array chooses *)
Variable cast : dtype -> A -> A.              (* storing an element in an array of the type *)

(** DimRep("INDEX", len(blocks)) (mdif.py:331). *)
Definition index_dim (n : nat) : dim := mkDim CDimRep "INDEX" (range_labels n) None None.

(** numpy.array(list of arrays) (mdif.py:335): arrays of different shapes cannot be stacked (ValueError,
    or an array of objects that does not fit its dimensions). *)
Definition np_stack (xs : list (hf A)) : result (nd A * dtype) :=
  match xs with
  | [] => Err IndexError
  | x0 :: _ =>
      if forallb (fun x => list_eqb Nat.eqb (h_shape x) (h_shape x0)) xs then
        let t := common (map h_dt xs) in
        Ok (mkNd (length xs :: h_shape x0) (map (cast t) (flat_map (fun x => nd_elems (h_nd x)) xs)), t)
      else Err ValueError
  end.

(** b[k] as an array *)
Definition b_item (k : string) (b : block A) : result (hf A) := do f <- b_get k b; Ok (found_arr emb f).

(** The loop over the variables of the first block (mdif.py:334-338). *)
Fixpoint stack_loop (ri : dim) (blocks : list (block A)) (ks : list string) (out : block A) : result (block A) :=
  match ks with
  | [] => Ok out
  | k :: ks' =>
      do xs <- mapM (b_item k) blocks;
      do x0 <- of_option IndexError (hd_error xs);
      do (a, t) <- np_stack xs;
      do y <- new_raw a t (Some (ri :: h_dims x0)) None None;
      do out1 <- b_set lab k y out;
      do out2 <- match h_dims x0 with
                 | [] => Ok out1
                 | d0 :: _ => do z <- b_item k out1; do z' <- reorder_dimensions [d0] z; b_set lab k z' out1
                 end;
      stack_loop ri blocks ks' out2
  end.

(** The loop over the independent variables of the first block (mdif.py:339-342). *)
Fixpoint partial_loop (ri : dim) (b0 : block A) (blocks : list (block A)) (ks : list string) (out : block A) : result (block A) :=
  match ks with
  | [] => Ok out
  | k :: ks' =>
      do d <- dd_get k (b_ivar b0);
      if subclass (d_class d) CDimPartial then
        do ls <- mapM (fun b => do d <- dd_get k (b_ivar b); of_option IndexError (hd_error (d_data d))) blocks;
        do y <- new_raw (mkNd [length ls] (map emb ls)) (label_dtype ls) (Some [ri]) None None;
        do out' <- b_set lab k y out;
        partial_loop ri b0 blocks ks' out'
      else partial_loop ri b0 blocks ks' out
  end.

(** simple_merge_blocks (mdif.py:328-349) without the comments. *)
Definition simple_merge_blocks (blocks : list (block A)) : result (block A) :=
  match blocks with
  | [] => Err IndexError
  | [b] => Ok b
  | b0 :: _ =>
      let ri := index_dim (length blocks) in
      do out <- stack_loop ri blocks (dd_iter (b_var b0)) b_empty;
      partial_loop ri b0 blocks (dd_iter (b_ivar b0)) out
  end.

(** _merge with self.merge (mdif.py:311-319): the blocks by name; a dictionary is its items, here in
    the order in which the names come first. *)
Fixpoint group_add (n : string) (b : block A) (gs : list (string * list (block A))) : list (string * list (block A)) :=
  match gs with
  | [] => [(n, [b])]
  | (m, bs) :: gs' => if String.eqb m n then (m, bs ++ [b]) :: gs' else (m, bs) :: group_add n b gs'
  end.
Definition groups (blocks : list (string * block A)) : list (string * list (block A)) :=
  fold_left (fun gs p => group_add (fst p) (snd p) gs) blocks [].
Definition merge_by_name (blocks : list (string * block A)) : result (list (string * block A)) :=
  mapM (fun g => do b <- simple_merge_blocks (snd g); Ok (fst g, b)) (groups blocks).

End Merge.
