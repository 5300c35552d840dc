(** Model of the block writer's iterator (hftools/file_formats/common.py:312-313,
    377-475): how the variables of a data block are distributed over the tables
    of an output file.

    Simplified: comments and block names are left out, apart from the
    properties that make_block_iterator adds to the comments; the generator is
    run to its end, so an error is reported instead of the tables before it;
    outputformats are carried by the arrays and copied with them. *)
From Coq Require Import String List Arith ZArith Bool Lia.
From Verif Require Import Model_NdArray Model_Dim Model_Array Model_DataDict Model_Block.
Import ListNotations.
Local Open Scope nat_scope.
Local Open Scope list_scope.

(** get_dims_names (common.py:312-313). *)
Definition get_dims_names (ds : list dim) : list string := map d_name ds.

(** Python's dict with tuples of names as keys (the variable datablock of
    common.py:431); not in /repo. *)
Definition names_eqb : list string -> list string -> bool := list_eqb String.eqb.
Fixpoint g_get {Q} (ns : list string) (gs : list (list string * Q)) : option Q :=
  match gs with
  | [] => None
  | (ns', q) :: gs' => if names_eqb ns ns' then Some q else g_get ns gs'
  end.
Fixpoint g_set {Q} (ns : list string) (q : Q) (gs : list (list string * Q)) : list (list string * Q) :=
  match gs with
  | [] => [(ns, q)]
  | (ns', q') :: gs' => if names_eqb ns ns' then (ns', q) :: gs' else (ns', q') :: g_set ns q gs'
  end.

(** One item of make_block_iterator (common.py:426-427): sweepvars, header, the
    columns (the x column is made of labels) and the properties. *)
Record table (A : Type) : Type := mkTable {
  t_sweep : list (string * string * label); t_header : list string;
  t_x : option (hf label); t_cols : list (hf A); t_props : list (string * hf A) }.
Arguments mkTable {A} _ _ _ _ _.
Arguments t_sweep {A} _.
Arguments t_header {A} _.
Arguments t_x {A} _.
Arguments t_cols {A} _.
Arguments t_props {A} _.

Section Writer.
  Context {A : Type}.
  (** [lab]: what tolist makes of an element; [emb]: a label as an element of
      an array (hfarray(dim), needed if a variable has the name of a
      dimension). *)
  Variable lab : A -> label.
  Variable emb : label -> A.

  (** dimsnames (common.py:434-439 and 394-397). *)
  Definition outer_names (matrix : bool) (ds : list dim) : list string :=
    if matrix then firstn (length (get_dims_names ds) - 2) (get_dims_names ds) else get_dims_names ds.

  (** The loop over the variables (common.py:433-445). *)
  Fixpoint group_vars (ks : list string) (b : block A) (gs : list (list string * block A))
      : result (list (list string * block A)) :=
    match ks with
    | [] => Ok gs
    | k :: ks' =>
        do v <- dd_get k (b_var b);
        do f <- b_get k b;
        let x := found_arr emb f in
        let ns := outer_names (ismatrix v) (h_dims x) in
        let q := match g_get ns gs with Some q => q | None => b_empty end in
        do q' <- b_set lab k x q;
        group_vars ks' b (g_set ns q' gs)
    end.

  (** used_ivars (common.py:432-437, 450-451). *)
  Definition matrix_names (kv : string * hf A) : list string :=
    let ns := get_dims_names (h_dims (snd kv)) in
    if ismatrix (snd kv) then skipn (length ns - 2) ns else [].
  Definition used_ivars (vs : list (string * hf A)) (gs : list (list string * block A)) : list string :=
    flat_map matrix_names vs ++ concat (map fst gs).

  (** Dangling independent variables (common.py:453-457). *)
  Fixpoint group_ivars (ns : list string) (b : block A) (gs : list (list string * block A))
      : result (list (list string * block A)) :=
    match ns with
    | [] => Ok gs
    | n :: ns' =>
        do d <- dd_get n (b_ivar b);
        let q := match g_get [n] gs with Some q => q | None => b_empty end in
        group_ivars ns' b (g_set [n] (b_set_dim n d q) gs)
    end.

  Definition db_groups (b : block A) : result (list (list string * block A)) :=
    do vs <- dd_items (b_var b);
    do gs <- group_vars (map fst vs) b [];
    let used := used_ivars vs gs in
    group_ivars (filter (fun n => negb (l_in n used)) (dd_iter (b_ivar b))) b gs.

  (** [col[(slice(None),) + idx]] (common.py:413). *)
  Definition column (idx : list nat) (x : hf A) : result (hf A) :=
    do r <- getitem (ISlice full_slice :: map (fun i => IInt (Z.of_nat i)) idx) x;
    match r with ItemArray y => Ok y | ItemScalar _ => Err TypeError end.

  (** sweepvars (common.py:407-410). *)
  Fixpoint sweepvars (ns : list string) (ds : list (hf label)) (idx : list nat) : result (list (string * string * label)) :=
    match ns, ds, idx with
    | n :: ns', d :: ds', i :: idx' =>
        do l <- of_option IndexError (nth_error (nd_elems (h_nd d)) i);
        do r <- sweepvars ns' ds' idx'; Ok ((n, h_fmt d, l) :: r)
    | _, _, _ => Ok []
    end.

  (** make_block_iterator (common.py:377-427). *)
  Definition make_block_iterator (q : block A) : result (list (table A)) :=
    do vs <- dd_items (b_var q);
    match vs with
    | [] =>
        match dd_iter (b_ivar q) with
        | [] => Err IndexError
        | head :: _ =>
            do d <- dd_get head (b_ivar q);
            do a <- dim_array d;
            Ok [mkTable [] [head] (Some a) [] []]
        end
    | (_, d) :: _ =>
        let names := outer_names (ismatrix d) (h_dims d) in
        do dimsdata <- mapM (fun n => do i <- dd_get n (b_ivar q); dim_array i) names;
        mapM (fun idx =>
          do sv <- sweepvars (tl names) (tl dimsdata) idx;
          match names, dimsdata with
          | n0 :: _, a0 :: _ =>
              do cols <- mapM (fun kv => column idx (snd kv)) vs;
              Ok (mkTable sv (n0 :: map fst vs) (Some a0) cols [])
          | _, _ =>
              Ok (mkTable sv [] None []
                    (filter (fun kv => match h_dims (snd kv) with [] => true | _ => false end) vs))
          end)
          (* itertools.product of the ranges *)
          (indices (map (fun a => nth 0 (h_shape a) 0) (tl dimsdata)))
    end.

  (** db_iterator (common.py:430-475) without the formatting: the block of
      scalars first, then the others in the order of the dict, [ord]. *)
  Definition db_iterator (ord : list (list string * block A) -> list (list string * block A)) (b : block A)
      : result (list (table A)) :=
    do gs <- db_groups b;
    let scalar := filter (fun g => names_eqb (fst g) []) gs in
    let rest := filter (fun g => negb (names_eqb (fst g) [])) gs in
    do ts <- mapM (fun g => make_block_iterator (snd g)) (scalar ++ ord rest);
    Ok (concat ts).
End Writer.
