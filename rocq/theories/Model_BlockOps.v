(** Model of squeeze, remove_rep and interpolate of a DataBlock
    (hftools/dataset/dataset.py:645-664, 712-757); keep_variables is in
    Model_Block.

    blockname and comments are not modelled.  [lab] is what tolist makes of an
    element, [emb] embeds labels into the elements (an independent variable
    that is read comes as an array of its labels). *)
From Coq Require Import Ascii String List Arith ZArith Bool Lia.
From Verif Require Import Model_NdArray Model_Dim Model_Array Model_DataDict Model_Block.
Import ListNotations.
Local Open Scope string_scope.
Local Open Scope nat_scope.
Local Open Scope list_scope.

(** ** squeeze (dataset.py:712-720) *)
Fixpoint squeeze_loop {A} (lab : A -> label) (emb : label -> A) (vars : list string) (b out : block A) : result (block A) :=
  match vars with
  | [] => Ok out
  | v :: vars' =>
      do f <- b_get v b;
      do y <- squeeze None (found_arr emb f);
      do out' <- b_set lab v y out;
      squeeze_loop lab emb vars' b out'
  end.
(** The second loop (dataset.py:718-719). *)
Definition set_dims {A} (l : list (string * dim)) (out : block A) : block A :=
  fold_left (fun o p => b_set_dim (fst p) (snd p) o) l out.
Definition b_squeeze {A} (lab : A -> label) (emb : label -> A) (b : block A) : result (block A) :=
  do db <- squeeze_loop lab emb (dd_iter (b_var b)) b b_empty;
  do ivs <- dd_items (b_ivar b);
  Ok (set_dims ivs db).

(** ** remove_rep (dataset.py:645-664) *)
(** dataset.py:648 *)
Definition rep_dims (ivs : list (string * dim)) : list dim :=
  filter (fun d => subclass (d_class d) CDimRep) (map snd ivs).
(** dataset.py:652-659: an array of the full shape whose entries along axis
    [idx] are the labels of that dimension, made one-dimensional. *)
Definition rep_values {A} (emb : label -> A) (fullshape : list nat) (idx : nat) (d : dim) : nd A :=
  let a := nd_tab fullshape (fun ix => nth_error (map emb (d_data d)) (nth idx ix 0)) in
  mkNd [prodn fullshape] (nd_elems a).
(** The first loop (dataset.py:651-660). *)
Fixpoint rep_loop {A} (lab : A -> label) (emb : label -> A) (newdim : dim) (fullshape : list nat) (idx : nat)
    (ds : list dim) (out : block A) : result (block A) :=
  match ds with
  | [] => Ok out
  | d :: ds' =>
      do v <- new_raw (rep_values emb fullshape idx d) (label_dtype (d_data d)) (Some [newdim]) None None;
      do out' <- b_set lab (d_name d) v out;
      rep_loop lab emb newdim fullshape (idx + 1) ds' out'
  end.
(** The second loop (dataset.py:661-662). *)
Fixpoint collapse_loop {A} (lab : A -> label) (emb : label -> A) (newname : string) (vars : list string) (b out : block A)
    : result (block A) :=
  match vars with
  | [] => Ok out
  | v :: vars' =>
      do f <- b_get v b;
      do y <- remove_rep newname (found_arr emb f);
      do out' <- b_set lab v y out;
      collapse_loop lab emb newname vars' b out'
  end.
Definition b_remove_rep {A} (lab : A -> label) (emb : label -> A) (newname : string) (b : block A) : result (block A) :=
  do ivs <- dd_items (b_ivar b);
  let ds := rep_dims ivs in
  let fullshape := map (fun d => length (d_data d)) ds in
  let newdim := mkDim CDimRep newname (range_labels (prodn fullshape)) None None in
  do out <- rep_loop lab emb newdim fullshape 0 ds b_empty;
  collapse_loop lab emb newname (dd_iter (b_var b)) b out.

(** ** interpolate (dataset.py:729-757), mode None or "none".

    The modes "linear" (scipy) and unknown ones are not modelled, nor is the
    attribute interpolationmode.  Labels are compared as in Model_Dim.  A
    boolean index has to be as long as the first axis (IndexError otherwise). *)
Definition interpolate {A} (newx : dim) (y : hf A) : result (hf A) :=
  if negb (dims_contains (h_dims y) newx) then Ok y else
  do i <- matching_index (h_dims y) newx;
  do oldx <- of_option KeyError (nth_error (h_dims y) i);
  let newdims := firstn i (h_dims y) ++ [newx] ++ skipn (S i) (h_dims y) in
  let bools := map (fun o => existsb (fun n => label_eqb n o) (d_data newx)) (d_data oldx) in
  let ps := true_positions bools in
  if negb (Nat.eqb (length ps) (length (d_data newx))) then Err ValueError else
  if negb (Nat.eqb (length bools) (nth 0 (h_shape y) 0)) then Err IndexError else
  do a <- nd_take ps 0 (h_nd y);
  new_raw a (h_dt y) (Some newdims) (h_unit y) (Some (h_fmt y)).
(** A variable in place of the dimension (dataset.py:731-735): its dimension is
    taken, its values are not looked at. *)
Definition interpolate_at {A B} (newx : hf B) (y : hf A) : result (hf A) :=
  match h_dims newx with
  | [d] => interpolate d y
  | _ => Err ValueError
  end.
(** DataBlock.interpolate (dataset.py:722-726). *)
Fixpoint interp_loop {A} (lab : A -> label) (emb : label -> A) (newx : dim) (vars : list string) (b out : block A) : result (block A) :=
  match vars with
  | [] => Ok out
  | v :: vars' =>
      do f <- b_get v b;
      do y <- interpolate newx (found_arr emb f);
      do out' <- b_set lab v y out;
      interp_loop lab emb newx vars' b out'
  end.
Definition b_interpolate {A} (lab : A -> label) (emb : label -> A) (newx : dim) (b : block A) : result (block A) :=
  do vs <- dd_items (b_var b);
  interp_loop lab emb newx (map fst vs) b b_empty.
