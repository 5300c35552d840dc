(** Model of DataBlock (hftools/dataset/dataset.py:44-85, 181-756).

    A block is two DataDicts and the name of the x variable; blockname,
    comments and report options are not modelled.  Values are immutable here:
    aliasing between blocks (view) is not modelled. *)
From Coq Require Import Ascii String List Arith ZArith Bool Lia.
From Verif Require Import Model_NdArray Model_Dim Model_Array Model_DataDict Model_Text.
Import ListNotations.
Local Open Scope nat_scope.

(** ** Names of matrix elements (dataset.py:181-190)

    reg_matrix_name = ([_A-Za-z]([_A-Za-z0-9]*[_A-Za-z])?)([0-9][0-9]), used
    with match(), that is anchored at the start only.  Being greedy it takes
    the longest first group, so the last possible place for the two digits
    inside the leading run of word characters. *)
Definition is_alpha (c : ascii) : bool :=
  let n := nat_of_ascii c in
  ((65 <=? n) && (n <=? 90)) || ((97 <=? n) && (n <=? 122)) || Nat.eqb n 95.
Definition is_word (c : ascii) : bool := is_alpha c || is_digit c.

(** [scan pre l]: [pre] (reversed) are the characters before [l], all word
    characters; the last split with a letter before and two digits after. *)
Fixpoint scan_name (pre l : list ascii) : option (list ascii * nat * nat) :=
  match l with
  | [] => None
  | c :: l' =>
      if negb (is_word c) then None else
      match scan_name (c :: pre) l' with
      | Some r => Some r
      | None =>
          match pre, l' with
          | p :: _, c2 :: _ =>
              if is_alpha p && is_digit c && is_digit c2
              then Some (rev pre, digit_value c, digit_value c2) else None
          | _, _ => None
          end
      end
  end.

(** is_matrix_name (dataset.py:185-190): name and zero-based element. *)
Definition is_matrix_name (s : string) : option (string * (Z * Z)) :=
  match chars s with
  | c :: _ =>
      if is_alpha c then
        match scan_name [] (chars s) with
        | Some (n, i, j) => Some (string_of_list_ascii n, (Z.of_nat i - 1, Z.of_nat j - 1)%Z)
        | None => None
        end
      else None
  | [] => None
  end.

(** ** The block (dataset.py:200-213) *)
Record block (A : Type) : Type := mkBlock {
  b_var : ddict (hf A); b_ivar : ddict dim; b_x : option string }.
Arguments mkBlock {A} _ _ _.
Arguments b_var {A} _.
Arguments b_ivar {A} _.
Arguments b_x {A} _.

Definition b_empty {A} : block A := mkBlock dd_empty dd_empty None.

(** What a lookup gives: a dependent variable or an independent one converted
    by hfarray(dim) (arrayobj.py:996-1001), whose elements are labels. *)
Inductive found (A : Type) : Type := FVar (x : hf A) | FDim (x : hf label).
Arguments FVar {A} x.
Arguments FDim {A} x.

Definition label_dtype (l : list label) : dtype :=
  match l with LZ _ :: _ => DInt | LF _ :: _ => DFloat | LS _ :: _ => DOther | [] => DFloat end.

(** hfarray(dim) (arrayobj.py:993-1005). *)
Definition dim_array (d : dim) : result (hf label) :=
  do f <- outputformat d;
  Ok (mkHF (mkNd [length (d_data d)] (d_data d)) (label_dtype (d_data d)) [d] (d_unit d) f).

(** [data[(Ellipsis,) + elem]] *)
Definition get_element {A} (x : hf A) (e : Z * Z) : result (hf A) :=
  do r <- getitem [IEllipsis; IInt (fst e); IInt (snd e)] x;
  match r with ItemArray y => Ok y | ItemScalar _ => Err TypeError end.

(** DataBlock.__getitem__ (dataset.py:284-303). *)
Definition b_get {A} (k : string) (b : block A) : result (found A) :=
  match pd_get k (dd_map (b_ivar b)) with
  | Some d => do a <- dim_array d; Ok (FDim a)
  | None =>
      match pd_get k (dd_map (b_var b)) with
      | Some x => Ok (FVar x)
      | None =>
          match is_matrix_name k with
          | Some (m, e) =>
              do x <- dd_get m (b_var b);
              if ismatrix x then do y <- get_element x e; Ok (FVar y) else Err KeyError
          | None => Err KeyError
          end
      end
  end.

(** __contains__ (dataset.py:356-357). *)
Definition b_contains {A} (k : string) (b : block A) : bool :=
  dd_contains k (b_var b) || dd_contains k (b_ivar b).

(** __delitem__ (dataset.py:311-313). *)
Definition b_del {A} (k : string) (b : block A) : result (block A) :=
  if dd_contains k (b_var b) then
    do v <- dd_del k (b_var b); Ok (mkBlock v (b_ivar b) (b_x b))
  else Ok b.

(** replace_dim with dimension objects (dataset.py:232-240): the variables'
    dimensions are replaced by name (arrayobj.py:356-363). *)
Definition b_replace_dim {A} (old new : dim) (b : block A) : result (block A) :=
  if dd_contains (d_name old) (b_ivar b) then
    do iv <- dd_rename (d_name old) (d_name new) (b_ivar b);
    do v <- dd_copy (replace_dim old new) (b_var b);
    Ok (mkBlock v (dd_set (d_name new) new iv) (b_x b))
  else Err KeyError.

(** olddim.__class__(olddim, name=..., data=...) (dim.py:50-83). *)
Definition dim_with (d : dim) (name : option string) (data : option (list label)) (unit : option string)
    : result dim :=
  do f <- outputformat d;
  Ok (mkDim (d_class d)
            (match name with Some n => n | None => d_name d end)
            (match data with Some l => l | None => d_data d end)
            (match unit with Some u => Some u | None => d_unit d end) (Some f)).

(** rename (dataset.py:242-250). *)
Definition b_rename {A} (old new : string) (b : block A) : result (block A) :=
  match pd_get old (dd_map (b_ivar b)) with
  | Some d => do d' <- dim_with d (Some new) None None; b_replace_dim d d' b
  | None =>
      if dd_contains old (b_var b) then
        do v <- dd_rename old new (b_var b); Ok (mkBlock v (b_ivar b) (b_x b))
      else Ok b
  end.

(** Position in a value of shape [s] that numpy broadcasts to an index [ix] of
    the target, aligned at the end. *)
Definition bcast_ok (s t : list nat) : bool :=
  (length s <=? length t) &&
  forallb (fun p => Nat.eqb (fst p) (snd p) || Nat.eqb (fst p) 1)
          (combine s (skipn (length t - length s) t)).
(** numpy also drops leading ones of a value of higher rank. *)
Fixpoint drop_lead (n : nat) (s : list nat) : list nat :=
  match n, s with
  | S n', 1 :: s' => drop_lead n' s'
  | _, _ => s
  end.

(** [x[(Ellipsis, i, j)] = value]: positional assignment by numpy, dimensions
    play no role. *)
Definition set_element {A} (x : hf A) (e : Z * Z) (value : hf A) : result (hf A) :=
  let sh := h_shape x in
  if length sh <? 2 then Err IndexError else
  let t := firstn (length sh - 2) sh in
  do i <- of_option IndexError (py_pos (nth (length sh - 2) sh 0) (fst e));
  do j <- of_option IndexError (py_pos (nth (length sh - 1) sh 0) (snd e));
  let s := drop_lead (h_ndim value - length t) (h_shape value) in
  if bcast_ok s t then
    let src := mkNd s (nd_elems (h_nd value)) in
    Ok (mkHF (nd_tab sh (fun ix =>
                if Nat.eqb (nth (length sh - 2) ix 0) i && Nat.eqb (nth (length sh - 1) ix 0) j
                then nd_get src (bindex s (skipn (length t - length s) (firstn (length t) ix)))
                else nd_get (h_nd x) ix))
             (h_dt x) (h_dims x) (h_unit x) (h_fmt x))
  else Err ValueError.

(** The loop of dataset.py:341-343. *)
Definition add_ivars (ds : list dim) (iv : ddict dim) : ddict dim :=
  fold_left (fun iv d => if dd_contains (d_name d) iv then iv else dd_set (d_name d) d iv) ds iv.

(** __setitem__ with a dimension (dataset.py:319-322). *)
Definition b_set_dim {A} (k : string) (d : dim) (b : block A) : block A :=
  mkBlock (b_var b) (dd_set k d (b_ivar b)) (match b_x b with None => Some (d_name d) | x => x end).

(** _xname in __setitem__ with an array (dataset.py:324-327). *)
Definition next_x (x : option string) (ds : list dim) : option string :=
  match x, ds with
  | None, d :: _ => Some (d_name d)
  | _, _ => None
  end.

(** __setitem__ with an array (dataset.py:323-343). [lab] is what tolist makes
    of an element. *)
Definition b_set {A} (lab : A -> label) (k : string) (v : hf A) (b : block A) : result (block A) :=
  let x' := next_x (b_x b) (h_dims v) in
  let elem := match is_matrix_name k with
              | Some (m, e) => if dd_contains m (b_var b) && negb (ismatrix v) then Some (m, e) else None
              | None => None
              end in
  match elem with
  | Some (m, e) =>
      do x <- dd_get m (b_var b);
      do y <- set_element x e v;
      Ok (mkBlock (dd_set m y (b_var b)) (b_ivar b) x')
  | None =>
      do b' <- match pd_get k (dd_map (b_ivar b)) with
               | Some old =>
                   if Nat.eqb (length (h_dims v)) 1 then
                     do new <- dim_with old None (Some (map lab (nd_elems (h_nd v)))) None;
                     b_replace_dim old new b
                   else Err AttributeError
               | None => Ok (mkBlock (dd_set k v (b_var b)) (b_ivar b) (b_x b))
               end;
      Ok (mkBlock (b_var b') (add_ivars (h_dims v) (b_ivar b')) x')
  end.

(** keep_variables (dataset.py:215-221); an independent variable is stored as
    the array made from it. [emb] embeds labels into the elements. *)
Definition found_arr {A} (emb : label -> A) (f : found A) : hf A :=
  match f with
  | FVar x => x
  | FDim x => mkHF (nd_map emb (h_nd x)) (h_dt x) (h_dims x) (h_unit x) (h_fmt x)
  end.
Fixpoint keep_loop {A} (lab : A -> label) (emb : label -> A) (vars : list string) (b out : block A) : result (block A) :=
  match vars with
  | [] => Ok out
  | v :: vars' =>
      if b_contains v b then
        do f <- b_get v b;
        do out' <- b_set lab v (found_arr emb f) out;
        keep_loop lab emb vars' b out'
      else keep_loop lab emb vars' b out
  end.
Definition keep_variables {A} (lab : A -> label) (emb : label -> A) (vars : list string) (b : block A) : result (block A) :=
  keep_loop lab emb vars b b_empty.

(** ** sort (dataset.py:459-495)

    [argsort] is numpy's argsort.  IndexErrors of any kind inside the try block
    lead to the variable being stored unsorted. *)
Fixpoint sort_loop {A} (lab : A -> label) (name : string) (order : list nat)
    (l : list (string * hf A)) (out : block A) : result (block A) :=
  match l with
  | [] => Ok out
  | (k, x) :: l' =>
      let tried := do i <- dims_index (h_dims x) name;
                   do y <- take (map Z.of_nat order) (AxInt (Z.of_nat i)) x;
                   b_set lab k y out in
      do out' <- match tried with
                 | Err IndexError | Err AxisError => b_set lab k x out
                 | r => r
                 end;
      sort_loop lab name order l' out'
  end.

Definition b_sort {A K} (lab : A -> label) (argsort : list K -> list nat) (key : hf K) (b : block A)
    : result (block A) :=
  do key <- squeeze None key;
  if 1 <? h_ndim key then Err ValueError else
  do d <- of_option IndexError (nth_error (h_dims key) 0);
  let name := d_name d in
  match pd_get name (dd_map (b_ivar b)) with
  | None => Ok b                                  (* a copy, with a warning *)
  | Some old =>
      let order := argsort (nd_elems (h_nd key)) in
      do vars <- dd_items (b_var b);
      do out <- sort_loop lab name order vars (mkBlock dd_empty dd_empty (b_x b));
      do f <- outputformat old;
      do ps <- mapM (fun p => if p <? length (d_data old) then Ok p else Err IndexError) order;
      do new <- dim_with old None (Some (select (d_data old) ps)) None;
      b_replace_dim old new (mkBlock (b_var out) (b_ivar out) (b_x b))
  end.

(** ** filter with a one-dimensional boolean array (dataset.py:410-457) *)

(** reorder_dimensions with names (arrayobj.py:503-515): [tuple.index] compares
    a dimension with a string, that is its name (dim.py:137-140). *)
Definition dims_pos_name (ds : list dim) (s : string) : result nat :=
  of_option ValueError (find_index (fun x => dim_eqb_str x s) ds).
Fixpoint reorder_names_loop (ds infos : list dim) (order : list string) : result (list nat * list dim) :=
  match order with
  | [] => Ok ([], infos)
  | d :: order' =>
      do p <- dims_pos_name ds d;
      do q <- dims_pos_name infos d;
      do r <- reorder_names_loop ds (remove_at q infos) order';
      Ok (p :: fst r, snd r)
  end.
Definition reorder_names {A} (order : list string) (x : hf A) : result (hf A) :=
  do r <- reorder_names_loop (h_dims x) (h_dims x) order;
  do rest <- mapM (dims_pos (h_dims x)) (snd r);
  transpose (map Z.of_nat (fst r ++ rest)) x.

(** One variable (dataset.py:438-456); [ps] are the positions of the true
    entries of the mask of length [n]. *)
Definition filter_var {A} (md newdim : dim) (n : nat) (ps : list nat) (x : hf A) : result (hf A) :=
  match dims_index (h_dims x) (d_name md) with
  | Err _ => Ok x
  | Ok i =>
      let reorder := i :: remove_at i (seq 0 (h_ndim x)) in
      do y <- transpose (map Z.of_nat reorder) x;
      do m <- of_option IndexError (nth_error (h_shape y) 0);
      if negb (Nat.eqb n m) then Err IndexError else
      do a <- nd_take ps 0 (h_nd y);
      do z <- new_raw a (h_dt y) (Some (newdim :: remove_at i (h_dims x))) (h_unit y) (Some (h_fmt y));
      reorder_names (map d_name (h_dims x)) z
  end.

Fixpoint filter_loop {A} (lab : A -> label) (md newdim : dim) (n : nat) (ps : list nat)
    (l : list (string * hf A)) (out : block A) : result (block A) :=
  match l with
  | [] => Ok out
  | (k, x) :: l' =>
      do y <- filter_var md newdim n ps x;
      do out' <- b_set lab k y out;
      filter_loop lab md newdim n ps l' out'
  end.

Definition b_filter {A} (lab : A -> label) (mask : hf bool) (b : block A) : result (block A) :=
  if 1 <? length (filter (fun n => negb (Nat.eqb n 1)) (h_shape mask)) then Err ValueError else
  match h_dims mask with
  | [] => Err IndexError
  | md :: _ =>
      (* boolean indexing of the labels: the lengths have to agree *)
      let m := nd_elems (h_nd mask) in
      if negb (Nat.eqb (length (h_dims mask)) 1) then Err IndexError else
      if negb (Nat.eqb (length (d_data md)) (length m)) then Err IndexError else
      let ps := true_positions m in
      do newdim <- dim_with md None (Some (select (d_data md) ps)) None;
      do vars <- dd_items (b_var b);
      do out <- filter_loop lab md newdim (length m) ps vars (mkBlock dd_empty dd_empty (b_x b));
      Ok (mkBlock (b_var out) (b_ivar out) (b_x b))
  end.
