(** Merging the blocks of files (hftools/file_formats/merge.py:150-217), as called when several blocks or
    files are read (readbase.py:394-401).

    Simplifications: the comments and the block name are not modelled, nor is hyper=True (merge.py:211-215),
    nor the second attempt that is made when numpy cannot stack arrays of text (merge.py:193-199). *)
From Coq Require Import Ascii String List Arith Bool.
From Verif Require Import Model_NdArray Model_Dim Model_Array Model_DataDict Model_Text Model_Block Model_BlockOps Model_MdifMerge.
Import ListNotations.
Local Open Scope string_scope.
Local Open Scope nat_scope.
Local Open Scope list_scope.

Section Merge.
Context {A : Type}.
Variable lab : A -> label.                    (* what tolist makes of an element *)
Variable emb : label -> A.                    (* a label as an element *)
Variable common : list dtype -> dtype.        (* the type that numpy.array chooses *)
Variable cast : dtype -> A -> A.              (* storing an element in an array of the type *)
Variable order : list string -> list string.  (* the order in which a dict or a set gives its keys *)

(** d.items() of a plain dict. *)
Definition plain_items {V} (d : list (string * V)) : list (string * V) :=
  flat_map (fun k => match pd_get k d with Some v => [(k, v)] | None => [] end) (order (map fst d)).
(** d.keys() as a tuple. *)
Definition plain_keys {V} (d : list (string * V)) : list string := order (map fst d).

(** get_partials (merge.py:150-155): each name has one dimension, so the lists are left out. *)
Definition get_partials (b : block A) : result (list (string * dim)) :=
  do l <- dd_items (b_ivar b); Ok (filter (fun p => subclass (d_class (snd p)) CDimPartial) l).

(** partgroup.setdefault(k, []).extend(v) (merge.py:166). *)
Definition add_part (pg : list (string * list dim)) (p : string * dim) : list (string * list dim) :=
  pd_set (fst p) (match pd_get (fst p) pg with Some l => l | None => [] end ++ [snd p]) pg.
(** dimpartialgroups.setdefault(key, {}) and the loop below it (merge.py:164-166). *)
Fixpoint add_group (key : list string) (parts : list (string * dim)) (gs : list (list string * list (string * list dim)))
  : list (list string * list (string * list dim)) :=
  match gs with
  | [] => [(key, fold_left add_part parts [])]
  | (k, pg) :: gs' => if list_eqb String.eqb k key then (k, fold_left add_part parts pg) :: gs' else (k, pg) :: add_group key parts gs'
  end.
(** The first loop (merge.py:162-166). *)
Fixpoint partial_groups (blocks : list (block A)) (gs : list (list string * list (string * list dim)))
  : result (list (list string * list (string * list dim))) :=
  match blocks with
  | [] => Ok gs
  | b :: bs => do parts <- get_partials b; partial_groups bs (add_group (plain_keys parts) (plain_items parts) gs)
  end.

(** DimSweep("INDEX%s" % idx, len(v)) (merge.py:170). *)
Definition index_sweep (idx n : nat) : dim :=
  mkDim CDimSweep (append "INDEX" (string_of_list_ascii (print_nat idx))) (range_labels n) None None.
(** The inner loop of merge.py:168-172. *)
Fixpoint label_group (idx : nat) (pg : list (string * list dim)) (db : block A) : result (block A) :=
  match pg with
  | [] => Ok db
  | (k, v) :: pg' =>
      do ls <- mapM (fun d => of_option IndexError (hd_error (d_data d))) v;
      do d0 <- of_option IndexError (hd_error v);
      do y <- new_raw (mkNd [length ls] (map emb ls)) (label_dtype ls) (Some [index_sweep idx (length v)]) (d_unit d0) None;
      do db' <- b_set lab k y db;
      label_group idx pg' db'
  end.
(** The outer loop. *)
Fixpoint label_groups (idx : nat) (gs : list (list string * list (string * list dim))) (db : block A) : result (block A) :=
  match gs with
  | [] => Ok db
  | (_, pg) :: gs' => do db' <- label_group idx (plain_items pg) db; label_groups (S idx) gs' db'
  end.

(** db[k] = v unless it is there (merge.py:176-178). *)
Definition add_dims (l : list (string * dim)) (db : block A) : block A :=
  fold_left (fun db p => if b_contains (fst p) db then db else b_set_dim (fst p) (snd p) db) l db.
(** varnames.add(k) *)
Definition add_names (l names : list string) : list string :=
  fold_left (fun ns k => if l_in k ns then ns else ns ++ [k]) l names.
(** The loop of merge.py:175-180. *)
Fixpoint gather (blocks : list (block A)) (db : block A) (names : list string) : result (block A * list string) :=
  match blocks with
  | [] => Ok (db, names)
  | b :: bs => do l <- dd_items (b_ivar b); gather bs (add_dims l db) (add_names (dd_iter (b_var b)) names)
  end.

(** The dimension of the group (merge.py:189-193): that of the first labels that are found under the
    names of the group. *)
Definition group_dim (gs : list (list string * list (string * list dim))) (key : list string) (db : block A) : result (list dim) :=
  match key with
  | [] => Ok []
  | _ =>
      do g <- of_option KeyError (find (fun g => list_eqb String.eqb (fst g) key) gs);
      do n <- of_option IndexError (hd_error (plain_keys (snd g)));
      do z <- b_item emb n db;
      do r <- of_option IndexError (hd_error (h_dims z));
      Ok [r]
  end.
(** One pass through the loop of merge.py:182-206. *)
Definition merge_var (gs : list (list string * list (string * list dim))) (blocks : list (block A)) (vname : string) (db : block A) : result (block A) :=
  do l <- mapM (fun b => do p <- get_partials b; do x <- b_item emb vname b; Ok (plain_keys p, x)) (filter (b_contains vname) blocks);
  match l with
  | [] => Ok db
  | (_, x0) :: _ =>
      do ri <- group_dim gs (last (map fst l) []) db;
      do (a, t) <- np_stack common cast (map snd l);
      do y <- new_raw a t (Some (ri ++ h_dims x0)) (h_unit x0) None;
      do y' <- match h_dims x0 with
               | d0 :: _ => if subclass (d_class d0) CDimSweep then reorder_dimensions [d0] y else Ok y
               | [] => Ok y
               end;
      b_set lab vname y' db
  end.
Fixpoint merge_vars (gs : list (list string * list (string * list dim))) (blocks : list (block A)) (vnames : list string) (db : block A) : result (block A) :=
  match vnames with
  | [] => Ok db
  | v :: vs => do db' <- merge_var gs blocks v db; merge_vars gs blocks vs db'
  end.

(** merge_blocks (merge.py:158-217); blocks[0] fails for no blocks (merge.py:209). *)
Definition merge_blocks (blocks : list (block A)) : result (block A) :=
  match blocks with
  | [] => Err IndexError
  | _ =>
      do gs <- partial_groups blocks [];
      do db1 <- label_groups 1 gs b_empty;
      do (db2, names) <- gather blocks db1 [];
      do db3 <- merge_vars gs blocks (order names) db2;
      b_squeeze lab emb db3
  end.

(** _merge of a file format with merge=True and hyper=False (readbase.py:394-401). *)
Definition merge_read (blocks : list (block A)) : result (block A) :=
  match blocks with [b] => Ok b | _ => merge_blocks blocks end.
End Merge.
