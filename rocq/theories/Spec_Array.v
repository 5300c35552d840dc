(** What the operations on named-dimension arrays are supposed to do, stated
    without reference to the functions of Model_Array.v.

    An array is understood as a function from assignments to values: an
    assignment gives a coordinate (position) to every dimension, a dimension
    being identified by its class and its name. *)
From Coq Require Import String List Arith ZArith Bool.
From Verif Require Import Model_NdArray Model_Dim Model_Array.
Import ListNotations.
Local Open Scope nat_scope.

Definition key (d : dim) : dimclass * string := (d_class d, d_name d).

Definition assignment : Type := dimclass * string -> nat.

(** Coordinates of the dimensions in the order in which they are listed. *)
Definition coords (e : assignment) (ds : list dim) : list nat := map (fun d => e (key d)) ds.

(** The value of an array at an assignment. *)
Definition val {A} (x : hf A) (e : assignment) : option A := nd_get (h_nd x) (coords e (h_dims x)).

(** Every dimension gets a coordinate for which it has a label. *)
Definition valid (e : assignment) (ds : list dim) : Prop :=
  forall d, In d ds -> e (key d) < length (d_data d).

(** Well-formed arrays: one dimension per axis, with as many labels as the axis
    is long, no dimension twice. *)
Definition labels_match {A} (x : hf A) : Prop :=
  map (fun d => length (d_data d)) (h_dims x) = h_shape x.

Definition wf {A} (x : hf A) : Prop :=
  nd_wf (h_nd x) /\ labels_match x /\ NoDup (map key (h_dims x)).

(** Dimensions that would be mistaken for each other because they have the same
    name and one's class is derived from the other's are really the same and
    have the same length. *)
Definition coherent (ds : list dim) : Prop :=
  forall d d', In d ds -> In d' ds -> d_name d = d_name d' ->
    subclass (d_class d) (d_class d') = true ->
    d_class d = d_class d' /\ length (d_data d) = length (d_data d').

Definition upd (e : assignment) (k : dimclass * string) (v : nat) : assignment :=
  fun k' => if (class_eqb (fst k') (fst k) && String.eqb (snd k') (snd k))%bool then v else e k'.

(** The assignment that gives the dimensions [ds] the coordinates [jx] and
    agrees with [e] elsewhere. *)
Fixpoint override (e : assignment) (ds : list dim) (jx : list nat) : assignment :=
  match ds, jx with
  | d :: ds', j :: jx' => upd (override e ds' jx') (key d) j
  | _, _ => e
  end.

(** All values of an array over all coordinates of the dimensions [removed],
    the other dimensions being at [e]; the last removed dimension runs
    fastest. *)
Definition fiber {A} (x : hf A) (removed : list dim) (e : assignment) : list A :=
  flat_map (fun jx => opt_list (val x (override e removed jx)))
           (indices (map (fun d => length (d_data d)) removed)).

(** The elements of [l] at the flagged places. *)
Fixpoint pick {X} (m : list bool) (l : list X) : list X :=
  match m, l with
  | b :: m', x :: l' => if b then x :: pick m' l' else pick m' l'
  | _, _ => []
  end.

(** [places ds ps]: the dimensions at positions [ps], in the order of [ds],
    and those at the other positions. *)
Definition at_places {X} (ps : list nat) (l : list X) : list X :=
  pick (map (fun k => existsb (Nat.eqb k) ps) (seq 0 (length l))) l.
Definition not_at_places {X} (ps : list nat) (l : list X) : list X :=
  pick (map (fun k => negb (existsb (Nat.eqb k) ps)) (seq 0 (length l))) l.

(** Which positions of the dimension list an axis designator means. *)
Inductive designates (ds : list dim) : axis_spec -> list nat -> Prop :=
| des_int : forall k, k < length ds -> designates ds (AxInt (Z.of_nat k)) [k]
| des_name : forall s k d, nth_error ds k = Some d -> d_name d = s ->
    (forall d', In d' ds -> d_name d' = s -> d' = d) -> designates ds (AxName s) [k]
| des_dim : forall k d, nth_error ds k = Some d -> designates ds (AxDim d) [k]
| des_class : forall c ps,
    (forall k, In k ps <-> exists d, nth_error ds k = Some d /\ subclass (d_class d) c = true) ->
    NoDup ps -> designates ds (AxClass c) ps.

(** *** Indexing *)

(** What a tuple of indices stands for when the array has [n] axes: missing
    indices are full slices, one Ellipsis takes as many axes as are left. *)
Inductive means (n : nat) : list index_item -> list index_item -> Prop :=
| means_plain : forall l, Forall (fun i => i <> IEllipsis) l -> length l <= n ->
    means n l (l ++ repeat (ISlice full_slice) (n - length l))
| means_ellipsis : forall l1 l2, Forall (fun i => i <> IEllipsis) l1 ->
    Forall (fun i => i <> IEllipsis) l2 -> length l1 + length l2 <= n ->
    means n (l1 ++ IEllipsis :: l2)
            (l1 ++ repeat (ISlice full_slice) (n - length l1 - length l2) ++ l2).

(** The position an integer index means in a sequence of length [n]. *)
Definition int_position (n : nat) (i : Z) (p : nat) : Prop :=
  p < n /\ (i = Z.of_nat p \/ i = (Z.of_nat p - Z.of_nat n)%Z).

(** The positions a slice selects from a sequence of length [n]: the
    arithmetic progression that begins at the (clipped) start and goes on as
    long as it does not reach the (clipped) stop. *)
Definition clip (lo hi n x : Z) : Z := Z.max lo (Z.min hi (if x <? 0 then x + n else x)%Z).
Definition slice_step (s : slice) : Z := match s_step s with None => 1%Z | Some x => x end.
Definition slice_start (n : Z) (s : slice) : Z :=
  if (0 <? slice_step s)%Z then match s_start s with None => 0%Z | Some x => clip 0 n n x end
  else match s_start s with None => (n - 1)%Z | Some x => clip (-1) (n - 1) n x end.
Definition slice_stop (n : Z) (s : slice) : Z :=
  if (0 <? slice_step s)%Z then match s_stop s with None => n | Some x => clip 0 n n x end
  else match s_stop s with None => (-1)%Z | Some x => clip (-1) (n - 1) n x end.
Definition before (s : slice) (a b : Z) : Prop :=
  if (0 <? slice_step s)%Z then (a < b)%Z else (b < a)%Z.

Definition slice_selects (n : nat) (s : slice) (ps : list nat) : Prop :=
  slice_step s <> 0%Z /\
  (forall k, k < length ps ->
     Z.of_nat (nth k ps 0) = (slice_start (Z.of_nat n) s + Z.of_nat k * slice_step s)%Z /\
     nth k ps 0 < n /\ before s (Z.of_nat (nth k ps 0)) (slice_stop (Z.of_nat n) s)) /\
  ~ before s (slice_start (Z.of_nat n) s + Z.of_nat (length ps) * slice_step s)%Z
             (slice_stop (Z.of_nat n) s).

(** [d'] is [d] with only the labels at positions [ps]. *)
Definition relabelled (d : dim) (ps : list nat) (d' : dim) : Prop :=
  key d' = key d /\ d_unit d' = d_unit d /\ length (d_data d') = length ps /\
  forall k, k < length ps -> nth_error (d_data d') k = nth_error (d_data d) (nth k ps 0).

(** [indexed ds l sel ds']: indexing dimensions [ds] with items [l] selects on
    each axis the positions [sel] (flagged if the axis goes away) and leaves
    the dimensions [ds']. *)
Inductive indexed : list dim -> list index_item -> list (bool * list nat) -> list dim -> Prop :=
| ix_nil : indexed [] [] [] []
| ix_int : forall d ds i l p sel ds', int_position (length (d_data d)) i p ->
    indexed ds l sel ds' -> indexed (d :: ds) (IInt i :: l) ((true, [p]) :: sel) ds'
| ix_slice : forall d ds s l ps sel d' ds', slice_selects (length (d_data d)) s ps ->
    relabelled d ps d' -> indexed ds l sel ds' ->
    indexed (d :: ds) (ISlice s :: l) ((false, ps) :: sel) (d' :: ds').

(** Items that are acceptable for the dimensions. *)
Inductive item_ok : dim -> index_item -> Prop :=
| io_int : forall d i p, int_position (length (d_data d)) i p -> item_ok d (IInt i)
| io_slice : forall d s, slice_step s <> 0%Z -> (d_data d <> [] \/ d_fmt d <> None) ->
    item_ok d (ISlice s).

(** The assignment of the argument that belongs to an assignment of the
    indexed array. *)
Definition back (ds : list dim) (sel : list (bool * list nat)) (e e' : assignment) : Prop :=
  forall k d b ps, nth_error ds k = Some d -> nth_error sel k = Some (b, ps) ->
    e' (key d) = if (b : bool) then nth 0 ps 0 else nth (e (key d)) ps 0.

(** *** Collapsed dimensions *)

(** The mixed-radix number of the coordinates of [ds], last dimension fastest. *)
Definition mixed (ds : list dim) (e : assignment) : nat :=
  fold_left (fun acc d => acc * length (d_data d) + e (key d)) ds 0.

(** [y] is [x] with the dimensions [ds] collapsed into the one with key [k]. *)
Definition collapses {A} (x y : hf A) (ds : list dim) (k : dimclass * string) : Prop :=
  (forall e, valid e (h_dims x) -> val y (upd e k (mixed ds e)) = val x e) /\
  (forall e, valid e (h_dims y) ->
     exists e', valid e' (h_dims x) /\ mixed ds e' = e k /\
       (forall k', ~ In k' (map key ds) -> e' k' = e k') /\ val y e = val x e').

(** Entry (i, j) of the real 2x2 matrix that stands for [re + j im]. *)
Definition cplx_entry {A} (neg : A -> A) (re im : A) (i j : nat) : option A :=
  match i, j with
  | 0, 0 => Some re | 0, 1 => Some (neg im)
  | 1, 0 => Some im | 1, 1 => Some re
  | _, _ => None
  end.

(** *** Diagonal dimensions *)

(** The keys of the independent and the derivative dimension of a diagonal
    dimension. *)
Definition ikey (d : dim) : dimclass * string :=
  (match indep_class (d_class d) with Some c => c | None => d_class d end, d_name d).
Definition dkey (d : dim) : dimclass * string :=
  (match deriv_class (d_class d) with Some c => c | None => d_class d end, d_name d).

Definition expandable (d : dim) : Prop :=
  subclass (d_class d) CDiagAxis0 = true /\ indep_class (d_class d) <> None /\
  deriv_class (d_class d) <> None /\ (d_data d <> [] \/ d_fmt d <> None).

(** The assignment of the argument for an assignment of the expanded array:
    every diagonal dimension is at the coordinate of its independent half. *)
Fixpoint undiag (diags : list dim) (e : assignment) : assignment :=
  match diags with
  | [] => e
  | d :: ds => upd (undiag ds e) (key d) (e (ikey d))
  end.

Definition on_diagonal (diags : list dim) (e : assignment) : Prop :=
  forall d, In d diags -> e (ikey d) = e (dkey d).

(** [split_into diags ds ds']: every dimension of [diags] in [ds] is replaced by
    its two halves with the same labels. *)
Inductive split_into (diags : list dim) : list dim -> list dim -> Prop :=
| si_nil : split_into diags [] []
| si_other : forall d ds ds', ~ In d diags -> split_into diags ds ds' ->
    split_into diags (d :: ds) (d :: ds')
| si_diag : forall d di dd ds ds', In d diags -> key di = ikey d -> key dd = dkey d ->
    d_data di = d_data d -> d_data dd = d_data d -> split_into diags ds ds' ->
    split_into diags (d :: ds) (di :: dd :: ds').

(** *** Programs on arrays *)

(** One dimension per axis, with as many labels as the axis is long. *)
Definition tracks {A} (x : hf A) : Prop := nd_wf (h_nd x) /\ labels_match x.

(** [step x y]: one operation that did not raise made [y] out of [x]. *)
Inductive step {A} (x : hf A) : hf A -> Prop :=
| st_transpose : forall o y, transpose o x = Ok y -> step x y
| st_reorder : forall o y, reorder_dimensions o x = Ok y -> step x y
| st_t : forall y, NoDup (map d_name (h_dims x)) -> mat_t x = Ok y -> step x y
| st_squeeze : forall axes y, squeeze axes x = Ok y -> step x y
| st_getitem : forall l y, getitem l x = Ok (ItemArray y) -> step x y
| st_mask : forall m y, getmask m x = Ok y -> step x y
| st_take : forall idx ax y, take idx ax x = Ok y -> step x y
| st_reduce : forall f rt axes de y, reduce f rt axes false de x = Ok (inl y) -> step x y
| st_noreduce : forall (f : list A -> A) rt axes de y, reduce f rt axes false de x = Ok (inr y) -> step x y
| st_cumulate : forall op ax y, cumulate op ax x = Ok y -> step x y
| st_add_dim : forall d axis y, d_data d <> [] -> add_dim d axis x = Ok y -> step x y
| st_expand : forall zero diags y, expand_diagonals zero diags x = Ok y -> step x y
| st_tail : forall y, remove_tail x = Ok y -> step x y
| st_rep : forall n y, remove_rep n x = Ok y -> step x y
| st_scalar : forall rt op, step x (scalar_op rt op x)
| st_complex : forall E y, make_fullcomplex E x = Ok y -> step x y
| st_binop_l : forall E rt op z y, wf x -> wf z -> coherent (h_dims x ++ h_dims z) ->
    isfullcomplex x = isfullcomplex z -> binop E rt op x z = Ok y -> step x y
| st_binop_r : forall E rt op z y, wf x -> wf z -> coherent (h_dims z ++ h_dims x) ->
    isfullcomplex z = isfullcomplex x -> binop E rt op z x = Ok y -> step x y.

Inductive runs {A} : hf A -> hf A -> Prop :=
| runs_refl : forall x, runs x x
| runs_step : forall x y z, step x y -> runs y z -> runs x z.

(** *** Orders *)

(** [l] is what is left of [l'] after deleting some elements. *)
Inductive subseq {X} : list X -> list X -> Prop :=
| ss_nil : subseq [] []
| ss_keep : forall x l l', subseq l l' -> subseq (x :: l) (x :: l')
| ss_skip : forall x l l', subseq l l' -> subseq l (x :: l').

Definition same_prio (p : nat) (d : dim) : bool := Nat.eqb (sortprio (d_class d)) p.

(** [u] lists the dimensions [a] and those of [b] that are not among them, by
    ascending priority, and in order of appearance within a priority. *)
Definition is_union (a b u : list dim) : Prop :=
  exists new, subseq new b /\
    (forall d, In d new <-> In d b /\ ~ In (key d) (map key a)) /\
    (forall p, filter (same_prio p) u = filter (same_prio p) (a ++ new)) /\
    (forall i j d d', i < j -> nth_error u i = Some d -> nth_error u j = Some d' ->
       sortprio (d_class d) <= sortprio (d_class d')) /\
    length u = length a + length new.

(** Row and column exchanged. *)
Definition exchanged (k1 k2 : dimclass * string) (e : assignment) : assignment :=
  upd (upd e k1 (e k2)) k2 (e k1).
