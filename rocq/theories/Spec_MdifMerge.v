(** What the stacked blocks of an MDIF file are. *)
From Coq Require Import String List Arith ZArith Bool.
From Verif Require Import Model_NdArray Model_Dim Model_Array Model_DataDict Model_Block Spec_Array.
Import ListNotations.
Local Open Scope string_scope.
Local Open Scope nat_scope.
Local Open Scope list_scope.

Section Merge.
Context {A : Type}.
Variable emb : label -> A.
Variable cast : dtype -> A -> A.

(** The numbers of the blocks as a dimension. *)
Definition numbers (ri : dim) (n : nat) : Prop :=
  d_class ri = CDimRep /\ d_name ri = "INDEX" /\ length (d_data ri) = n /\
  (forall i, i < n -> nth_error (d_data ri) i = Some (LZ (Z.of_nat i))) /\ d_unit ri = None.

(** [y] has the values of all the [xs], along [ri], over the dimensions of the first one; [ri] comes after
    the first dimension. *)
Definition stacked (ri : dim) (xs : list (hf A)) (y : hf A) : Prop :=
  exists x0, hd_error xs = Some x0 /\ wf y /\
    h_dims y = firstn 1 (h_dims x0) ++ ri :: skipn 1 (h_dims x0) /\
    forall i x e, nth_error xs i = Some x -> e (key ri) = i -> valid e (h_dims x0) ->
      val y e = option_map (cast (h_dt y)) (nd_get (h_nd x) (coords e (h_dims x0))).

(** The variable [k] of a block. *)
Definition has_var (b : block A) (k : string) (x : hf A) : Prop := dd_get k (b_ivar b) = Err KeyError /\ dd_get k (b_var b) = Ok x.
(** The first label of the independent variable [k]. *)
Definition has_label (b : block A) (k : string) (l : label) : Prop := exists d r, dd_get k (b_ivar b) = Ok d /\ d_data d = l :: r.

(** Blocks that can be stacked: all have the variables of the first one, with the same shapes, and its
    partial dimensions; [vs] and [ps] are these variables and the names of these dimensions. *)
Definition stackable (b0 : block A) (bs : list (block A)) (vs : list (string * hf A)) (ivs : list (string * dim)) : Prop :=
  dd_items (b_var b0) = Ok vs /\ dd_items (b_ivar b0) = Ok ivs /\
  let ps := map fst (filter (fun p => subclass (d_class (snd p)) CDimPartial) ivs) in
  let names := map fst vs ++ ps in
  NoDup names /\
  (forall k x, In (k, x) vs -> wf x /\ (forall d, In d (h_dims x) -> d_name d <> "INDEX" /\ ~ In (d_name d) names) /\
     forall b, In b (b0 :: bs) -> exists y, has_var b k y /\ h_shape y = h_shape x /\ nd_wf (h_nd y)) /\
  (forall k, In k ps -> forall b, In b (b0 :: bs) -> exists l, has_label b k l) /\
  (forall k, In k names -> k <> "INDEX") /\
  (forall k m e, In k names -> is_matrix_name k = Some (m, e) -> ~ In m names).

(** [y] lists the labels [ls] of the blocks. *)
Definition listed (ri : dim) (ls : list label) (y : hf A) : Prop :=
  wf y /\ h_dims y = [ri] /\ forall i, i < length ls -> nd_get (h_nd y) [i] = option_map emb (nth_error ls i).
End Merge.
