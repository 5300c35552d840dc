(** Model of hftools/dataset/arrayobj.py: arrays with named dimensions. *)
From Coq Require Import String List Arith ZArith Bool Lia.
From Verif Require Import Model_NdArray Model_Dim Model_Text.
Import ListNotations.
Local Open Scope nat_scope.

(** numpy dtype, as far as the code looks at it (arrayobj.py:308,412-419). *)
Inductive dtype : Set := DInt | DFloat | DComplex | DBool | DOther.

(** An hfarray: numpy data, dims, unit and outputformat (arrayobj.py:371-426,
    456-459).  Subclasses of hfarray are not distinguished. *)
Record hf (A : Type) : Type := mkHF {
  h_nd : nd A;
  h_dt : dtype;
  h_dims : list dim;
  h_unit : option string;
  h_fmt : string
}.
Arguments mkHF {A} _ _ _ _ _.
Arguments h_nd {A} _.
Arguments h_dt {A} _.
Arguments h_dims {A} _.
Arguments h_unit {A} _.
Arguments h_fmt {A} _.

Definition h_shape {A} (x : hf A) : list nat := nd_shape (h_nd x).
Definition h_ndim {A} (x : hf A) : nat := length (nd_shape (h_nd x)).

(** ** Dims and DimsList (arrayobj.py:42-89) *)

(** The test used by __contains__, get_matching_dim and matching_index:
    [x.name == value.name and isinstance(x, value.__class__)]. *)
Definition matches (value x : dim) : bool :=
  String.eqb (d_name x) (d_name value) && subclass (d_class x) (d_class value).

(** Dims.__contains__ (arrayobj.py:43-51, 69-75) with a dimension. *)
Definition dims_contains (ds : list dim) (v : dim) : bool := existsb (matches v) ds.

Fixpoint find_index {X} (f : X -> bool) (l : list X) : option nat :=
  match l with
  | [] => None
  | x :: l' => if f x then Some 0 else option_map S (find_index f l')
  end.

(** Dims.matching_index (arrayobj.py:60-65). *)
Definition matching_index (ds : list dim) (v : dim) : result nat :=
  of_option KeyError (find_index (matches v) ds).

(** tuple.index(dim), which uses DimBase.__eq__. *)
Definition dims_pos (ds : list dim) (v : dim) : result nat :=
  of_option ValueError (find_index (fun x => dim_eqb x v) ds).

(** ** Construction *)

(** Default output format by dtype (arrayobj.py:411-419). *)
Definition default_fmt (t : dtype) : string :=
  match t with
  | DInt => "%d" | DFloat | DComplex => "%.16e" | DBool | DOther => "%s"
  end.

(** Default dimensions, arrayobj.py:369 and 393-402. *)
Definition default_dims (sh : list nat) : result (list dim) :=
  match sh with
  | [] => Ok []
  | [n] => Ok [mkDim CDimSweep "freq" (range_labels n) None None]
  | [n; m] => Ok [mkDim CDimSweep "freq" (range_labels n) None None;
                  mkDim CDimRep "rep" (range_labels m) None None]
  | _ => Err DimMismatchError
  end.

(** _hfarray.__new__ on plain data (arrayobj.py:371-426): only the number of
    dimensions is checked (verify_dimension, arrayobj.py:461-466). *)
Definition new_raw {A} (a : nd A) (t : dtype) (dims : option (list dim))
    (unit : option string) (fmt : option string) : result (hf A) :=
  do ds <- match dims with Some ds => Ok ds | None => default_dims (nd_shape a) end;
  if Nat.eqb (length ds) (length (nd_shape a)) then
    Ok (mkHF a t ds unit (match fmt with Some f => f | None => default_fmt t end))
  else Err ShapeDimsError.

(** cls(data, dims=dims, copy=False) where data is an array derived from the
    hfarray [x] by a numpy operation, so that unit and output format are
    inherited (arrayobj.py:407-410, 422-425, 456-459). *)
Definition new_from {A B} (x : hf A) (a : nd B) (ds : list dim) : result (hf B) :=
  if Nat.eqb (length ds) (length (nd_shape a)) then
    Ok (mkHF a (h_dt x) ds (h_unit x) (h_fmt x))
  else Err ShapeDimsError.

(** dims_index by name (arrayobj.py:468-478). *)
Definition dims_index (ds : list dim) (name : string) : result nat :=
  of_option IndexError (find_index (fun d => String.eqb (d_name d) name) ds).

(** ** Transposition *)

(** _hfarray.transpose (arrayobj.py:517-526). *)
Definition transpose {A} (order : list Z) (x : hf A) : result (hf A) :=
  let order := match order with
               | [] => map Z.of_nat (rev (seq 0 (h_ndim x)))
               | _ => order end in
  do o <- mapM (np_axis (h_ndim x)) order;
  do a <- nd_transpose o (h_nd x);
  do ds <- mapM (fun i => of_option IndexError (py_nth (h_dims x) i)) order;
  new_from x a ds.

(** reorder_dimensions (arrayobj.py:503-515).  First loop: positions of the
    requested dimensions, which are deleted from [infos]. *)
Fixpoint reorder_loop (ds infos : list dim) (order : list dim) : result (list nat * list dim) :=
  match order with
  | [] => Ok ([], infos)
  | d :: order' =>
      do p <- dims_pos ds d;
      do q <- dims_pos infos d;
      do r <- reorder_loop ds (remove_at q infos) order';
      Ok (p :: fst r, snd r)
  end.

Definition reorder_dimensions {A} (order : list dim) (x : hf A) : result (hf A) :=
  do r <- reorder_loop (h_dims x) (h_dims x) order;
  do rest <- mapM (dims_pos (h_dims x)) (snd r);
  transpose (map Z.of_nat (fst r ++ rest)) x.

(** Last dimension of a class (the loop of arrayobj.py:545-549). *)
Definition last_of_class (c : dimclass) (ds : list dim) : option dim :=
  find (fun d => subclass (d_class d) c) (rev ds).

Definition swap_nat (i j k : nat) : nat :=
  if Nat.eqb k i then j else if Nat.eqb k j then i else k.

(** Property t (arrayobj.py:532-561).  [self.dims_index(di)] compares
    [ax.name == di], that is names (dim.py:137-140). *)
Definition mat_t {A} (x : hf A) : result (hf A) :=
  match last_of_class CMatrix_i (h_dims x), last_of_class CMatrix_j (h_dims x) with
  | Some di, Some dj =>
      do i <- dims_index (h_dims x) (d_name di);
      do j <- dims_index (h_dims x) (d_name dj);
      do y <- transpose (map (fun k => Z.of_nat (swap_nat i j k)) (seq 0 (h_ndim x))) x;
      Ok (mkHF (h_nd y) (h_dt y)
            (set_nth j (mkDim CMatrix_j (d_name dj) (d_data di) None None)
              (set_nth i (mkDim CMatrix_i (d_name di) (d_data dj) None None) (h_dims y)))
            (h_unit y) (h_fmt y))
  | _, _ => Ok x
  end.

(** ** Element-wise arithmetic *)

(** What the 2x2 representation of complex numbers needs of the elements. *)
Record elops (A : Type) : Type := mkElops {
  e_zero : A; e_re : A -> A; e_im : A -> A; e_neg : A -> A }.
Arguments e_zero {A} _.
Arguments e_re {A} _.
Arguments e_im {A} _.
Arguments e_neg {A} _.

Definition isfullcomplex {A} (x : hf A) : bool := dims_has_complex (h_dims x).

(** The 2x2 block of one element (arrayobj.py:301-313): for real data only the
    element [0,0] is filled. *)
Definition cplx_elem {A} (E : elops A) (t : dtype) (v : A) (i j : nat) : A :=
  match t with
  | DComplex => match i, j with
                | 0, 0 => e_re E v | 1, 1 => e_re E v
                | 0, 1 => e_neg E (e_im E v) | 1, 0 => e_im E v
                | _, _ => e_zero E
                end
  | _ => match i, j with 0, 0 => e_re E v | _, _ => e_zero E end
  end.

(** make_fullcomplex_array (arrayobj.py:296-315). *)
Definition make_fullcomplex {A} (E : elops A) (x : hf A) : result (hf A) :=
  if isfullcomplex x then Ok x
  else
    let n := h_ndim x in
    new_raw (nd_tab (h_shape x ++ [2; 2])
               (fun ix => option_map (fun v => cplx_elem E (h_dt x) v (nth n ix 0) (nth (S n) ix 0))
                                     (nd_get (h_nd x) (firstn n ix))))
            DFloat (Some (h_dims x ++ CPLX)) None None.

(** dims_union (arrayobj.py:194-201).  list.sort is a stable sort on the sort
    priority. *)
Definition union_step (acc : list dim) (d : dim) : list dim :=
  if dims_contains acc d then acc else acc ++ [d].

Fixpoint insert_prio (d : dim) (l : list dim) : list dim :=
  match l with
  | [] => [d]
  | e :: l' => if sortprio (d_class d) <=? sortprio (d_class e) then d :: l
               else e :: insert_prio d l'
  end.
Definition sort_prio (l : list dim) : list dim := fold_right insert_prio [] l.

Definition dims_union (a : list dim) (bs : list (list dim)) : list dim :=
  sort_prio (fold_left (fun acc b => fold_left union_step b acc) bs a).

(** The loop of change_shape (arrayobj.py:221-226): new shape and new order. *)
Fixpoint change_loop (ds : list dim) (sh : list nat) (newdims : list dim)
    : result (list nat * list nat) :=
  match newdims with
  | [] => Ok ([], [])
  | d :: newdims' =>
      if dims_contains ds d then
        do k <- matching_index ds d;
        do n <- of_option IndexError (nth_error sh k);
        do r <- change_loop ds sh newdims';
        Ok (n :: fst r, k :: snd r)
      else
        do r <- change_loop ds sh newdims';
        Ok (1 :: fst r, snd r)
  end.

(** change_shape (arrayobj.py:204-230). The final assignment to [dims] goes
    through the setter, which checks nothing. *)
Definition change_shape {A} (E : elops A) (newdims : list dim) (x : hf A) : result (hf A) :=
  do x <- (if dims_has_complex newdims then make_fullcomplex E x else Ok x);
  do r <- change_loop (h_dims x) (h_shape x) newdims;
  do y <- transpose (map Z.of_nat (snd r)) x;
  do a <- nd_reshape (fst r) (h_nd y);
  Ok (mkHF a (h_dt y) newdims (h_unit y) (h_fmt y)).

(** make_same_dims on two hfarrays (arrayobj.py:233-246). *)
Definition make_same_dims {A} (E : elops A) (x y : hf A) : result (hf A * hf A) :=
  let u := dims_union (h_dims x) [h_dims y] in
  do x' <- change_shape E u x;
  do y' <- change_shape E u y;
  Ok (x', y').

(** check_instance and the operators (arrayobj.py:341-353, 678-764): numpy
    applies the element operation with broadcasting, and the result takes
    dims, unit and outputformat of the (left) operand.  [rt] is the dtype rule
    of the operation. *)
Definition binop {A} (E : elops A) (rt : dtype -> dtype -> dtype) (op : A -> A -> A)
    (x y : hf A) : result (hf A) :=
  do p <- make_same_dims E x y;
  let (x', y') := p in
  do a <- nd_map2 op (h_nd x') (h_nd y');
  Ok (mkHF a (rt (h_dt x') (h_dt y')) (h_dims x') (h_unit x') (h_fmt x')).

(** The same with a number as other operand. *)
Definition scalar_op {A} (rt : dtype -> dtype) (op : A -> A) (x : hf A) : hf A :=
  mkHF (nd_map op (h_nd x)) (rt (h_dt x)) (h_dims x) (h_unit x) (h_fmt x).

(** Operation with a plain numpy array on the right (arrayobj.py:351):
    [self.__class__(other)] gives it default dimensions. *)
Definition binop_raw {A} (E : elops A) (rt : dtype -> dtype -> dtype) (op : A -> A -> A)
    (x : hf A) (b : nd A) (tb : dtype) : result (hf A) :=
  do y <- new_raw b tb None None None;
  binop E rt op x y.

(** ** Axis designators (arrayobj.py:932-990) *)

Inductive axis_spec : Set :=
| AxInt (i : Z) | AxName (s : string) | AxDim (d : dim) | AxClass (c : dimclass).

(** axis_handler (arrayobj.py:932-960). *)
Definition axis_handler (ds : list dim) (ax : axis_spec) : result dim :=
  let by_dim d := if dims_contains ds d then Ok d else Err IndexError in
  match ax with
  | AxInt i => of_option IndexError (py_nth ds i)
  | AxName s => do i <- dims_index ds s; do d <- of_option IndexError (nth_error ds i); by_dim d
  | AxClass c => match filter (fun d => subclass (d_class d) c) ds with
                 | [d] => Ok d
                 | _ => Err IndexError
                 end
  | AxDim d => by_dim d
  end.

(** Positions of the dimensions of a class. *)
Fixpoint class_positions (c : dimclass) (k : nat) (ds : list dim) : list nat :=
  match ds with
  | [] => []
  | d :: ds' => if subclass (d_class d) c then k :: class_positions c (S k) ds'
                else class_positions c (S k) ds'
  end.

(** One round of the loop of multiple_axis_handler (arrayobj.py:970-989): the
    axis numbers it appends.  Integers are passed on as they are. *)
Definition axis_numbers (ds : list dim) (ax : axis_spec) : result (list Z) :=
  let by_dim d := if dims_contains ds d
                  then do p <- dims_pos ds d; Ok [Z.of_nat p] else Err IndexError in
  match ax with
  | AxInt i => do _ <- of_option IndexError (py_nth ds i); Ok [i]
  | AxName s => do i <- dims_index ds s; do d <- of_option IndexError (nth_error ds i); by_dim d
  | AxClass c => Ok (map Z.of_nat (class_positions c 0 ds))
  | AxDim d => by_dim d
  end.

(** multiple_axis_handler (arrayobj.py:963-990). [None] stands for axis=None. *)
Definition multiple_axis_handler (ds : list dim) (axes : option (list axis_spec))
    : result (option (list Z)) :=
  match axes with
  | None => Ok None
  | Some l => do r <- mapM (axis_numbers ds) l; Ok (Some (concat r))
  end.

Fixpoint nodupb (l : list nat) : bool :=
  match l with [] => true | x :: l' => negb (memb x l') && nodupb l' end.

(** numpy's check of an axis tuple: valid axes without repetition. *)
Definition np_axes (n : nat) (axes : list Z) : result (list nat) :=
  do l <- mapM (np_axis n) axes;
  if nodupb l then Ok l else Err ValueError.

(** ** squeeze (arrayobj.py:576-589) *)
Definition zmemb (z : Z) (l : list Z) : bool := existsb (Z.eqb z) l.

(** [ax for idx, ax in enumerate(dims) if idx not in dimidxs]: the axis numbers
    are compared as they are, so a negative number removes nothing. *)
Definition drop_zaxes {X} (axes : list Z) (l : list X) : list X :=
  mask_drop (map (fun k => zmemb (Z.of_nat k) axes) (seq 0 (length l))) l.

(** [ax for idx, ax in enumerate(dims) if shape[idx] != 1]. *)
Definition drop_ones {X} (sh : list nat) (l : list X) : list X :=
  mask_drop (map (fun n => Nat.eqb n 1) sh) l.

Definition squeeze_z {A} (axes : option (list Z)) (x : hf A) : result (hf A) :=
  match axes with
  | None =>
      do a <- nd_squeeze (axes_of_one (h_shape x)) (h_nd x);
      new_from x a (drop_ones (h_shape x) (h_dims x))
  | Some zs =>
      do axs <- np_axes (h_ndim x) zs;
      do a <- nd_squeeze axs (h_nd x);
      new_from x a (drop_zaxes zs (h_dims x))
  end.

Definition squeeze {A} (axes : option (list axis_spec)) (x : hf A) : result (hf A) :=
  do zs <- multiple_axis_handler (h_dims x) axes; squeeze_z zs x.

(** ** Reductions: sum, mean, std, var, min, max (arrayobj.py:779-885).
    [f] is the reduction of a list of elements, [rt] its dtype rule.  numpy's
    error for min/max of an empty list is not modelled ([f] is total).
    A result without keepdims is squeezed with the same axis numbers. *)
Definition reduce {A B} (f : list A -> B) (rt : dtype -> dtype) (axes : option (list axis_spec))
    (keepdims dimerror : bool) (x : hf A) : result (hf B + hf A) :=
  match multiple_axis_handler (h_dims x) axes with
  | Err IndexError => if dimerror then Err IndexError else Ok (inr x)
  | Err e => Err e
  | Ok zs =>
      do axs <- match zs with
                | None => Ok (seq 0 (h_ndim x))
                | Some l => np_axes (h_ndim x) l
                end;
      do r <- new_raw (nd_reduce f axs (h_nd x)) (rt (h_dt x)) (Some (h_dims x)) None None;
      if keepdims then Ok (inl r)
      else do s <- squeeze_z zs r; Ok (inl s)
  end.

(** cumsum and cumprod (arrayobj.py:887-901): [self.dims_index(axis)] compares
    names. *)
Definition cumulate {A} (op : A -> A -> A) (ax : axis_spec) (x : hf A) : result (hf A) :=
  do d <- axis_handler (h_dims x) ax;
  do k <- dims_index (h_dims x) (d_name d);
  new_raw (nd_cum op k (h_nd x)) (h_dt x) (Some (h_dims x)) None None.

(** ** take with an axis (arrayobj.py:567-574) *)
Definition take {A} (idx : list Z) (ax : axis_spec) (x : hf A) : result (hf A) :=
  do d <- axis_handler (h_dims x) ax;
  do k <- dims_index (h_dims x) (d_name d);
  do old <- of_option IndexError (nth_error (h_dims x) k);
  do n <- of_option AxisError (nth_error (h_shape x) k);
  do ps <- mapM (fun i => of_option IndexError (py_pos n i)) idx;
  do a <- nd_take ps k (h_nd x);
  Ok (mkHF a (h_dt x)
       (set_nth k (mkDim (d_class old) (d_name old) (map LZ idx) None None) (h_dims x))
       (h_unit x) (h_fmt x)).

(** ** Indexing with integers, slices and Ellipsis (arrayobj.py:605-676) *)
Inductive index_item : Set := IInt (i : Z) | ISlice (s : slice) | IEllipsis.

Definition is_ellipsis (i : index_item) : bool :=
  match i with IEllipsis => true | _ => false end.

(** Expansion of a single Ellipsis (arrayobj.py:623-630) and padding with full
    slices (arrayobj.py:659). *)
Fixpoint expand_ellipsis (n : nat) (l : list index_item) : list index_item :=
  match l with
  | [] => []
  | IEllipsis :: l' => repeat (ISlice full_slice) n ++ l'
  | i :: l' => i :: expand_ellipsis n l'
  end.

Definition expand_items (ndim : nat) (l : list index_item) : result (list index_item) :=
  let c := length (filter is_ellipsis l) in
  do l' <- match c with
           | 0 => Ok l
           | 1 => Ok (expand_ellipsis (ndim - (length l - 1)) l)
           | _ => Err IndexError
           end;
  Ok (l' ++ repeat (ISlice full_slice) (ndim - length l')).

(** numpy basic indexing: positions selected on each axis; integer axes are
    dropped. *)
Fixpoint axis_selection (sh : list nat) (l : list index_item)
    : result (list (bool * list nat)) :=
  match sh, l with
  | [], [] => Ok []
  | n :: sh', IInt i :: l' =>
      do p <- of_option IndexError (py_pos n i);
      do r <- axis_selection sh' l'; Ok ((true, [p]) :: r)
  | n :: sh', ISlice s :: l' =>
      do ps <- slice_positions n s;
      do r <- axis_selection sh' l'; Ok ((false, ps) :: r)
  | _, _ => Err IndexError
  end.

(** Index into the argument for an index into the selected array. *)
Fixpoint selected_ix (sel : list (bool * list nat)) (ix : list nat) : list nat :=
  match sel with
  | [] => []
  | (true, ps) :: sel' => nth 0 ps 0 :: selected_ix sel' ix
  | (false, ps) :: sel' => nth (hd 0 ix) ps 0 :: selected_ix sel' (tl ix)
  end.

Definition selected_shape (sel : list (bool * list nat)) : list nat :=
  flat_map (fun s : bool * list nat => if fst s then [] else [length (snd s)]) sel.

Definition nd_getitem {A} (l : list index_item) (a : nd A) : result (nd A) :=
  do sel <- axis_selection (nd_shape a) l;
  Ok (nd_tab (selected_shape sel) (fun ix => nd_get a (selected_ix sel ix))).

(** The dimensions that remain (arrayobj.py:660-669). *)
Fixpoint index_dims (ds : list dim) (l : list index_item) : result (list dim) :=
  match ds, l with
  | d :: ds', IInt _ :: l' => index_dims ds' l'
  | d :: ds', ISlice s :: l' =>
      do d' <- dim_getslice d s; do r <- index_dims ds' l'; Ok (d' :: r)
  | _, _ => Ok []
  end.

(** A scalar comes out if there is an integer for every axis and no Ellipsis
    (arrayobj.py:670-676). *)
Inductive item (A : Type) : Type := ItemScalar (v : A) | ItemArray (x : hf A).
Arguments ItemScalar {A} v.
Arguments ItemArray {A} x.

Definition is_int (i : index_item) : bool := match i with IInt _ => true | _ => false end.

Definition getitem {A} (l : list index_item) (x : hf A) : result (item A) :=
  do l' <- expand_items (h_ndim x) l;
  do ds <- index_dims (h_dims x) l';
  do a <- nd_getitem l' (h_nd x);
  if forallb is_int l && Nat.eqb (length l) (h_ndim x) then
    match nd_elems a with
    | [v] => Ok (ItemScalar v)
    | _ => Err IndexError
    end
  else do y <- new_from x a ds; Ok (ItemArray y).

(** Indexing with a one-dimensional boolean hfarray (arrayobj.py:632-657). *)
Fixpoint take_until {X} (f : X -> bool) (l : list X) : list X :=
  match l with
  | [] => []
  | x :: l' => if f x then [] else x :: take_until f l'
  end.

Definition true_positions (m : list bool) : list nat :=
  map fst (filter snd (combine (seq 0 (length m)) m)).

Definition getmask {A} (m : hf bool) (x : hf A) : result (hf A) :=
  match h_dims m with
  | [md] =>
      let pre := take_until (fun d => dims_contains (h_dims m) d) (h_dims x) in
      do y <- reorder_dimensions (pre ++ [md]) x;
      let k := length pre in
      (* numpy: the mask must be as long as the axis *)
      do n <- of_option IndexError (nth_error (h_shape y) k);
      if negb (Nat.eqb (length (nd_elems (h_nd m))) n) then Err IndexError else
      if negb (Nat.eqb (length (d_data md)) (length (nd_elems (h_nd m)))) then Err IndexError else
      let ps := true_positions (nd_elems (h_nd m)) in
      do a <- nd_take ps k (h_nd y);
      let nd' := mkDim (d_class md) (d_name md) (select (d_data md) ps) (d_unit md) None in
      new_from x a (firstn k (h_dims y) ++ [nd'] ++ skipn (S k) (h_dims y))
  | _ => Err IndexError   (* masks of higher rank: not modelled *)
  end.

(** ** Collapsing dimensions *)

(** ismatrix (arrayobj.py:325-338). *)
Definition ismatrix {A} (x : hf A) : bool :=
  existsb (fun d => subclass (d_class d) CMatrix_i) (h_dims x) &&
  existsb (fun d => subclass (d_class d) CMatrix_j) (h_dims x).

(** [l[-2:]] and [l[1:-2]]. *)
Definition last2 {X} (l : list X) : list X := skipn (length l - 2) l.
Definition middle {X} (l : list X) : list X := skipn 1 (firstn (length l - 2) l).

(** remove_tail (arrayobj.py:249-266). *)
Definition remove_tail {A} (x : hf A) : result (hf A) :=
  match h_shape x with
  | [] => Err IndexError
  | n0 :: _ =>
      let sh := h_shape x in
      let newshape := if ismatrix x
                      then n0 :: prodn (middle sh) :: last2 sh
                      else [n0; prodn (skipn 1 sh)] in
      do a <- nd_reshape newshape (h_nd x);
      do d0 <- of_option IndexError (nth_error (h_dims x) 0);
      let tail := mkDim CDimRep "Tail" (range_labels (nth 1 newshape 0)) None None in
      new_raw a (h_dt x)
        (Some (d0 :: tail :: (if ismatrix x then last2 (h_dims x) else []))) (h_unit x) None
  end.

(** remove_rep (arrayobj.py:269-293). The reordered array of lines 279-282 is
    not used afterwards; it can only fail. *)
Definition is_rep (d : dim) : bool := subclass (d_class d) CDimRep.

Definition remove_rep {A} (newname : string) (x : hf A) : result (hf A) :=
  match class_positions CDimRep 0 (h_dims x) with
  | [] => new_from x (h_nd x) (h_dims x)
  | (first :: _) as ps =>
      let lastp := last ps 0 in
      let reps := filter is_rep (h_dims x) in
      do _ <- reorder_dimensions (firstn first (h_dims x) ++ reps) x;
      let repsize := prodn (map (fun p => nth p (h_shape x) 0) ps) in
      do a <- nd_reshape (firstn first (h_shape x) ++ [repsize] ++ skipn (S lastp) (h_shape x)) (h_nd x);
      new_raw a (h_dt x)
        (Some (firstn first (h_dims x)
                 ++ [mkDim CDimRep newname (range_labels repsize) None None]
                 ++ skipn (S lastp) (h_dims x))) None None
  end.

(** ** Diagonals (arrayobj.py:123-191) *)

(** Sorting positions in descending order and deleting them. *)
Fixpoint insert_desc (n : nat) (l : list nat) : list nat :=
  match l with
  | [] => [n]
  | m :: l' => if m <=? n then n :: l else m :: insert_desc n l'
  end.
Definition sort_desc (l : list nat) : list nat := fold_right insert_desc [] l.

(** The loop of diagonal_view (arrayobj.py:149-154). *)
Fixpoint diag_loop (idx strides shape : list nat) (dstride : nat) (dshapes : list nat)
    : nat * list nat * list nat * list nat :=
  match idx with
  | [] => (dstride, dshapes, strides, shape)
  | k :: idx' =>
      diag_loop idx' (remove_at k strides) (remove_at k shape)
                (dstride + nth k strides 0) (dshapes ++ [nth k shape 0])
  end.

Definition list_min (l : list nat) : nat :=
  match l with [] => 0 | x :: l' => fold_left Nat.min l' x end.

(** Shape and strides of diagonal_view (arrayobj.py:138-156). *)
Definition diagonal_geometry (sh : list nat) (ds : list dim) (diagonal : list dim)
    : result (list nat * list nat) :=
  do idx <- mapM (dims_pos ds) diagonal;
  match idx with
  | [] => Err IndexError
  | first :: _ =>
      let '(dstride, dshapes, strides, shape) := diag_loop (sort_desc idx) (c_strides sh) sh 0 [] in
      Ok (insert_at first (list_min dshapes) shape, insert_at first dstride strides)
  end.

(** Assignment of the elements of an array of shape [sh] through strides into a
    buffer ([view[...] = src]). *)
Definition strided_assign {A} (buf : list A) (sh strides : list nat) (src : nd A) : list A :=
  fold_left (fun b ix => match nd_get src ix with
                         | Some v => set_nth (dot ix strides) v b
                         | None => b end)
            (indices sh) buf.

(** _expand_diagonal (arrayobj.py:160-178). The shapes of view and source are
    required to be equal (numpy would also broadcast). *)
Definition expand_diagonal {A} (zero : A) (diagaxis : dim) (x : hf A) : result (hf A) :=
  if negb (subclass (d_class diagaxis) CDiagAxis0) then Err GenericError else
  if negb (dims_contains (h_dims x) diagaxis) then Err GenericError else
  do idx <- dims_pos (h_dims x) diagaxis;
  do d <- of_option IndexError (nth_error (h_dims x) idx);
  do di <- indep_axis d;
  do dd <- deriv_axis d;
  let newinfo := firstn idx (h_dims x) ++ [di; dd] ++ skipn (S idx) (h_dims x) in
  let n := length (d_data di) in
  let newshape := firstn idx (h_shape x) ++ [n; n] ++ skipn (S idx) (h_shape x) in
  let zeros := repeat zero (prodn newshape) in
  do out <- new_raw (mkNd newshape zeros) (h_dt x) (Some newinfo) None None;
  do g <- diagonal_geometry newshape (h_dims out) [di; dd];
  if list_eqb Nat.eqb (fst g) (h_shape x) then
    Ok (mkHF (mkNd newshape (strided_assign zeros (fst g) (snd g) (h_nd x)))
             (h_dt out) (h_dims out) (h_unit out) (h_fmt out))
  else Err ValueError.

(** expand_diagonals (arrayobj.py:181-191). *)
Definition expand_diagonals {A} (zero : A) (diags : option (list dim)) (x : hf A) : result (hf A) :=
  let ds := match diags with
            | Some l => l
            | None => filter (fun d => subclass (d_class d) CDiagAxis0) (h_dims x)
            end in
  fold_left (fun r d => do y <- r; expand_diagonal zero d y) ds (Ok x).

(** ** add_dim (arrayobj.py:918-929) for a non-negative axis number. *)
Definition add_dim {A} (d : dim) (axis : nat) (x : hf A) : result (hf A) :=
  if dims_contains (h_dims x) d then Ok x
  else
    let axis := Nat.min axis (h_ndim x) in
    let n := if 1 <? length (d_data d) then length (d_data d) else 1 in
    new_raw (nd_insert n axis (h_nd x)) (h_dt x) (Some (insert_at axis d (h_dims x))) None None.

(** replace_dim (arrayobj.py:356-363, 484-491): dimensions are replaced by
    name. *)
Definition replace_dim_list (ds : list dim) (old new : dim) : list dim :=
  map (fun d => if String.eqb (d_name old) (d_name d) then new else d) ds.

Definition replace_dim {A} (old new : dim) (x : hf A) : hf A :=
  mkHF (h_nd x) (h_dt x) (replace_dim_list (h_dims x) old new) (h_unit x) (h_fmt x).

(** replace_dim with the old dimension given by name and the new one either a
    dimension or a class to recast to (arrayobj.py:485-489). *)
Definition replace_dim_name {A} (old : string) (new : dim + dimclass) (x : hf A) : result (hf A) :=
  do k <- dims_index (h_dims x) old;
  do o <- of_option IndexError (nth_error (h_dims x) k);
  do n <- match new with inl d => Ok d | inr c => recast c o end;
  Ok (replace_dim o n x).

(** get_new_anonymous_dim (arrayobj.py:31-39): the numbers in use. [x.name[4:]]
    goes through int(), which may raise. *)
Fixpoint anon_numbers (ds : list dim) : result (list Z) :=
  match ds with
  | [] => Ok []
  | d :: ds' =>
      if subclass (d_class d) CDimAnonymous && starts_with (chars "ANON") (chars (d_name d)) then
        do n <- py_int (skipn 4 (chars (d_name d)));
        do r <- anon_numbers ds'; Ok (n :: r)
      else anon_numbers ds'
  end.

Definition get_new_anonymous_dim (ds : list dim) (data : list label) (unit fmt : option string) : result dim :=
  do ns <- anon_numbers ds;
  let m := fold_right Z.max 0%Z ns in
  Ok (mkDim CDimAnonymous (string_of_list_ascii (chars "ANON" ++ print_nat (Z.to_nat (m + 1)))) data unit fmt).
