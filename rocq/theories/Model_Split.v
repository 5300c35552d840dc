(** Splitting a block into blocks of related dimensions (dataset.py:44-68). *)
From Coq Require Import String List Arith ZArith Bool.
From Verif Require Import Model_NdArray Model_Dim Model_Array Model_DataDict Model_Block.
Import ListNotations.
Local Open Scope nat_scope.
Local Open Scope list_scope.

(** A Python set or dict finds an element again if the hashes agree and __eq__
    holds.  DimBase.__hash__ (dim.py:147-149) takes in the output format, which
    __eq__ (dim.py:131-140) does not.  Simplification: different tuples have
    different hashes. *)
Definition dim_same (a b : dim) : bool := dim_eqb a b && option_eqb String.eqb (d_fmt a) (d_fmt b).
Definition dim_in (d : dim) (l : list dim) : bool := existsb (dim_same d) l.

(** set(a) == set(b) (dataset.py:52,54). *)
Definition dimset_eqb (a b : list dim) : bool :=
  forallb (fun d => dim_in d b) a && forallb (fun d => dim_in d a) b.

(** set(dims), as a list (dataset.py:47). *)
Fixpoint uniq_dims (l : list dim) : list dim :=
  match l with
  | [] => []
  | d :: l' => if dim_in d l' then uniq_dims l' else d :: uniq_dims l'
  end.

(** The loop of subset_datablock_by_dims (dataset.py:51-55). *)
Fixpoint subset_loop {A} (lab : A -> label) (dims : list dim) (l : list (string * hf A)) (out : block A)
    : result (block A) :=
  match l with
  | [] => Ok out
  | (k, x) :: l' =>
      do out' <- (if dimset_eqb (h_dims x) dims then b_set lab k x out
                  else if dimset_eqb (h_dims x) (tl dims) then b_set lab k x out else Ok out);
      subset_loop lab dims l' out'
  end.

(** subset_datablock_by_dims (dataset.py:44-56). *)
Definition subset_by_dims {A} (lab : A -> label) (dims : list dim) (b : block A) : result (block A) :=
  if negb (Nat.eqb (length dims) (length (uniq_dims dims))) then Err ValueError else
  do l <- dd_items (b_var b); subset_loop lab dims l b_empty.

(** Equality of the tuples v.dims as elements of a set. *)
Definition dims_same (a b : list dim) : bool := list_eqb dim_same a b.

(** dimset.add (dataset.py:62) and dimset.discard (dataset.py:66, 68). *)
Definition dset_add (x : list dim) (s : list (list dim)) : list (list dim) :=
  if existsb (dims_same x) s then s else s ++ [x].
Definition dset_discard (x : list dim) (s : list (list dim)) : list (list dim) :=
  filter (fun y => negb (dims_same x y)) s.

(** The loop of yield_dim_consistent_datablocks (dataset.py:63-68).  The order
    in which a set is sorted depends on hashes, so which of several longest
    tuples comes last is left to [pick].  The generator is run to its end; an
    exception discards what was yielded before.  Each round removes an element,
    so the number of elements bounds the rounds. *)
Fixpoint yield_loop {A} (lab : A -> label) (pick : list (list dim) -> option (list dim)) (fuel : nat) (b : block A)
    (s : list (list dim)) : result (list (list dim * block A)) :=
  match fuel with
  | O => Ok []
  | S n =>
      match pick s with
      | None => Ok []
      | Some longest =>
          do c <- subset_by_dims lab longest b;
          let s1 := dset_discard longest s in
          let s2 := if Nat.ltb 1 (length longest) then dset_discard (tl longest) s1 else s1 in
          do r <- yield_loop lab pick n b s2;
          Ok ((longest, c) :: r)
      end
  end.

(** yield_dim_consistent_datablocks (dataset.py:59-68). *)
Definition yield_blocks {A} (lab : A -> label) (pick : list (list dim) -> option (list dim)) (b : block A)
    : result (list (list dim * block A)) :=
  do l <- dd_items (b_var b);
  let s := fold_left (fun s p => dset_add (h_dims (snd p)) s) l [] in
  yield_loop lab pick (length s) b s.

(** One such choice: the last of the longest in the order of the list, as
    sorted(..., key=len)[-1] makes it when the set is iterated in that order. *)
Definition pick_last (s : list (list dim)) : option (list dim) :=
  fold_left (fun o x => match o with
                        | None => Some x
                        | Some y => if Nat.leb (length y) (length x) then Some x else o
                        end) s None.
