(** A small model of the parts of numpy that hftools calls.

    An array is its shape and its elements in row-major order.  numpy itself is
    not in /repo; what is modelled here is the documented behaviour of the
    numpy calls made by hftools/dataset/arrayobj.py, dataset.py and math.py.
    The memory layout (strides, views, aliasing) is not modelled except for
    [nd_strided], which is what arrayobj.py:92-120 (as_strided) computes on a
    contiguous array. *)
From Coq Require Import List Arith ZArith Bool Lia.
Import ListNotations.
Local Open Scope nat_scope.

(** Python exceptions as values. *)
Inductive err : Set :=
| IndexError | KeyError | ValueError | TypeError | AttributeError
| AxisError            (* numpy.AxisError, a subclass of IndexError/ValueError *)
| ShapeDimsError       (* hftools/core/exceptions.py HFArrayShapeDimsMismatchError *)
| DimMismatchError     (* hftools/core/exceptions.py DimensionMismatchError *)
| HFError              (* hftools/core/exceptions.py HFArrayError *)
| GenericError         (* raise Exception(...) *)
| StopIter             (* StopIteration *)
| AssertError.

Inductive result (A : Type) : Type := Ok (a : A) | Err (e : err).
Arguments Ok {A} a.
Arguments Err {A} e.

Definition bind {A B} (r : result A) (f : A -> result B) : result B :=
  match r with Ok a => f a | Err e => Err e end.
Notation "'do' x <- r ; k" := (bind r (fun x => k))
  (at level 200, x pattern, r at level 100, k at level 200).

Definition of_option {A} (e : err) (o : option A) : result A :=
  match o with Some a => Ok a | None => Err e end.

Fixpoint mapM {A B} (f : A -> result B) (l : list A) : result (list B) :=
  match l with
  | [] => Ok []
  | x :: l' => do y <- f x; do ys <- mapM f l'; Ok (y :: ys)
  end.

(** Python's [l[i]] for an integer [i]: negative numbers count from the end. *)
Definition py_pos (n : nat) (i : Z) : option nat :=
  if ((0 <=? i) && (i <? Z.of_nat n))%Z then Some (Z.to_nat i)
  else if ((- Z.of_nat n <=? i) && (i <? 0))%Z then Some (Z.to_nat (i + Z.of_nat n))
  else None.

Definition py_nth {A} (l : list A) (i : Z) : option A :=
  match py_pos (length l) i with Some k => nth_error l k | None => None end.

Record nd (A : Type) : Type := mkNd { nd_shape : list nat; nd_elems : list A }.
Arguments mkNd {A} _ _.
Arguments nd_shape {A} _.
Arguments nd_elems {A} _.

Definition prodn (l : list nat) : nat := fold_right Nat.mul 1 l.

(** Row-major position of an index tuple. *)
Fixpoint ravel (sh ix : list nat) : nat :=
  match sh, ix with
  | _ :: sh', i :: ix' => i * prodn sh' + ravel sh' ix'
  | _, _ => 0
  end.

(** The index tuple has one entry per axis, each within the axis. *)
Fixpoint inb (sh ix : list nat) : bool :=
  match sh, ix with
  | [], [] => true
  | n :: sh', i :: ix' => (i <? n) && inb sh' ix'
  | _, _ => false
  end.

(** All index tuples of a shape in row-major order (numpy.ndindex). *)
Fixpoint indices (sh : list nat) : list (list nat) :=
  match sh with
  | [] => [[]]
  | n :: sh' => flat_map (fun i => map (cons i) (indices sh')) (seq 0 n)
  end.

Definition nd_wf {A} (a : nd A) : Prop := length (nd_elems a) = prodn (nd_shape a).

(** [a[i0, i1, ...]] with one non-negative integer per axis. *)
Definition nd_get {A} (a : nd A) (ix : list nat) : option A :=
  if inb (nd_shape a) ix then nth_error (nd_elems a) (ravel (nd_shape a) ix) else None.

Definition opt_list {A} (o : option A) : list A :=
  match o with Some x => [x] | None => [] end.

(** The array of the given shape whose element at [ix] is [f ix]. *)
Definition nd_tab {A} (sh : list nat) (f : list nat -> option A) : nd A :=
  mkNd sh (flat_map (fun ix => opt_list (f ix)) (indices sh)).

(** numpy.ndarray.transpose: axis [k] of the result is axis [order[k]] of the
    argument; the order has to be a permutation of the axes. *)
Definition memb (x : nat) (l : list nat) : bool := existsb (Nat.eqb x) l.
Definition is_perm (n : nat) (order : list nat) : bool :=
  Nat.eqb (length order) n && forallb (fun k => memb k order) (seq 0 n).

Fixpoint index_of (x : nat) (l : list nat) : nat :=
  match l with
  | [] => 0
  | y :: l' => if Nat.eqb x y then 0 else S (index_of x l')
  end.

(** Index into the argument for index [ix] into the transposed array. *)
Definition unpermute (n : nat) (order ix : list nat) : list nat :=
  map (fun k => nth (index_of k order) ix 0) (seq 0 n).

Definition nd_transpose {A} (order : list nat) (a : nd A) : result (nd A) :=
  if is_perm (length (nd_shape a)) order then
    Ok (nd_tab (map (fun k => nth k (nd_shape a) 0) order)
               (fun ix => nd_get a (unpermute (length (nd_shape a)) order ix)))
  else Err ValueError.

(** numpy.reshape / assignment to [.shape]: same elements in row-major order. *)
Definition nd_reshape {A} (sh : list nat) (a : nd A) : result (nd A) :=
  if Nat.eqb (prodn sh) (prodn (nd_shape a)) then Ok (mkNd sh (nd_elems a))
  else Err ValueError.

Definition nd_map {A B} (f : A -> B) (a : nd A) : nd B :=
  mkNd (nd_shape a) (map f (nd_elems a)).

(** Broadcasting of two arrays of the same rank. (hftools only broadcasts
    arrays after change_shape gave them the same number of axes.) *)
Fixpoint bshape (s t : list nat) : result (list nat) :=
  match s, t with
  | [], [] => Ok []
  | n :: s', m :: t' =>
      do r <- bshape s' t';
      if Nat.eqb n m then Ok (n :: r)
      else if Nat.eqb n 1 then Ok (m :: r)
      else if Nat.eqb m 1 then Ok (n :: r)
      else Err ValueError
  | _, _ => Err ValueError
  end.

(** Index used in an operand of shape [s] for result index [ix]. *)
Fixpoint bindex (s ix : list nat) : list nat :=
  match s, ix with
  | n :: s', i :: ix' => (if Nat.eqb n 1 then 0 else i) :: bindex s' ix'
  | _, _ => []
  end.

Definition nd_map2 {A B C} (f : A -> B -> C) (a : nd A) (b : nd B) : result (nd C) :=
  do sh <- bshape (nd_shape a) (nd_shape b);
  Ok (nd_tab sh (fun ix =>
        match nd_get a (bindex (nd_shape a) ix), nd_get b (bindex (nd_shape b) ix) with
        | Some x, Some y => Some (f x y)
        | _, _ => None
        end)).

(** Sets of axes as lists of flags. *)
Definition axes_mask (n : nat) (axes : list nat) : list bool := map (fun k => memb k axes) (seq 0 n).

Fixpoint mask_drop {X} (m : list bool) (l : list X) : list X :=
  match m, l with
  | b :: m', x :: l' => if b then mask_drop m' l' else x :: mask_drop m' l'
  | _, _ => []
  end.

(** Put [v] at the flagged places. *)
Fixpoint mask_set (m : list bool) (v : nat) (l : list nat) : list nat :=
  match m, l with
  | b :: m', x :: l' => (if b then v else x) :: mask_set m' v l'
  | _, _ => []
  end.

(** Second list at the flagged places, first list elsewhere. *)
Fixpoint mask_merge (m : list bool) (ix jx : list nat) : list nat :=
  match m, ix, jx with
  | b :: m', i :: ix', j :: jx' => (if b then j else i) :: mask_merge m' ix' jx'
  | _, _, _ => []
  end.

(** Reduction over a set of axes with keepdims=True: the reduced axes get
    length one.  [f] gets the reduced elements in row-major order (numpy's own
    order of summation is not modelled; [f] is arbitrary). *)
Definition nd_fiber {A} (m : list bool) (a : nd A) (ix : list nat) : list A :=
  flat_map (fun jx => opt_list (nd_get a (mask_merge m ix jx)))
           (indices (mask_set (map negb m) 1 (nd_shape a))).

Definition nd_reduce {A B} (f : list A -> B) (axes : list nat) (a : nd A) : nd B :=
  let m := axes_mask (length (nd_shape a)) axes in
  nd_tab (mask_set m 1 (nd_shape a)) (fun ix => Some (f (nd_fiber m a ix))).

(** numpy.squeeze. With an explicit axis list, every listed axis must have
    length one. *)
Definition axes_of_one (sh : list nat) : list nat :=
  map fst (filter (fun p => Nat.eqb (snd p) 1) (combine (seq 0 (length sh)) sh)).

Definition nd_squeeze {A} (axes : list nat) (a : nd A) : result (nd A) :=
  if forallb (fun k => Nat.eqb (nth k (nd_shape a) 0) 1) axes
  then Ok (mkNd (mask_drop (axes_mask (length (nd_shape a)) axes) (nd_shape a)) (nd_elems a))
  else Err ValueError.

(** numpy axis numbers: negative ones count from the end. *)
Definition np_axis (n : nat) (i : Z) : result nat := of_option AxisError (py_pos n i).

(** Replace the entry at position [k]. *)
Fixpoint set_nth {X} (k : nat) (v : X) (l : list X) : list X :=
  match l, k with
  | [], _ => []
  | _ :: l', 0 => v :: l'
  | x :: l', S k' => x :: set_nth k' v l'
  end.

(** [insert_at k v l] is Python's [l.insert(k, v)] for [k <= len(l)]. *)
Fixpoint insert_at {X} (k : nat) (v : X) (l : list X) : list X :=
  match k, l with
  | 0, _ => v :: l
  | S k', x :: l' => x :: insert_at k' v l'
  | S _, [] => [v]
  end.

Fixpoint remove_at {X} (k : nat) (l : list X) : list X :=
  match l, k with
  | [], _ => []
  | _ :: l', 0 => l'
  | x :: l', S k' => x :: remove_at k' l'
  end.

(** numpy.take along one axis with mode="raise". *)
Definition nd_take {A} (idx : list nat) (axis : nat) (a : nd A) : result (nd A) :=
  if forallb (fun i => i <? nth axis (nd_shape a) 0) idx then
    Ok (nd_tab (set_nth axis (length idx) (nd_shape a))
               (fun ix => nd_get a (set_nth axis (nth (nth axis ix 0) idx 0) ix)))
  else Err IndexError.

(** [a[..., newaxis, ...]] followed by [repeat(n, axis)]. *)
Definition nd_insert {A} (n : nat) (axis : nat) (a : nd A) : nd A :=
  nd_tab (insert_at axis n (nd_shape a)) (fun ix => nd_get a (remove_at axis ix)).

(** Running fold along one axis (cumsum, cumprod). *)
Definition nd_cum {A} (op : A -> A -> A) (axis : nat) (a : nd A) : nd A :=
  nd_tab (nd_shape a) (fun ix =>
    match flat_map (fun i => opt_list (nd_get a (set_nth axis i ix)))
                   (seq 0 (S (nth axis ix 0))) with
    | [] => None
    | x :: l => Some (fold_left op l x)
    end).

(** Strided access to the element buffer (strides counted in elements). *)
Fixpoint dot (xs ys : list nat) : nat :=
  match xs, ys with
  | x :: xs', y :: ys' => x * y + dot xs' ys'
  | _, _ => 0
  end.

(** Strides of a contiguous (C order) array. *)
Fixpoint c_strides (sh : list nat) : list nat :=
  match sh with
  | [] => []
  | _ :: sh' => prodn sh' :: c_strides sh'
  end.

Definition nd_strided {A} (buf : list A) (sh strides : list nat) : nd A :=
  nd_tab sh (fun ix => nth_error buf (dot ix strides)).
