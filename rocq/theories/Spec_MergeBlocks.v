(** What the merged block of several blocks is. *)
From Coq Require Import String List Arith ZArith Bool.
From Verif Require Import Model_NdArray Model_Dim Model_Array Model_DataDict Model_Block Spec_Array Spec_MdifMerge.
Import ListNotations.
Local Open Scope string_scope.
Local Open Scope nat_scope.
Local Open Scope list_scope.

(** The numbers of the blocks as a dimension to sweep over. *)
Definition block_numbers (ri : dim) (n : nat) : Prop :=
  d_class ri = CDimSweep /\ d_name ri = "INDEX1" /\ length (d_data ri) = n /\
  (forall i, i < n -> nth_error (d_data ri) i = Some (LZ (Z.of_nat i))) /\ d_unit ri = None.

(** The new dimension comes first, but after a first dimension that is swept over. *)
Definition with_index (ri : dim) (ds : list dim) : list dim :=
  match ds with
  | d0 :: r => if subclass (d_class d0) CDimSweep then d0 :: ri :: r else ri :: d0 :: r
  | [] => [ri]
  end.

Section Merge.
Context {A : Type}.
Variable emb : label -> A.
Variable cast : dtype -> A -> A.

(** [y] has the values of all the [xs], along [ri], and the unit of the first one. *)
Definition joined (ri : dim) (xs : list (hf A)) (y : hf A) : Prop :=
  exists x0, hd_error xs = Some x0 /\ wf y /\ h_unit y = h_unit x0 /\ h_dims y = with_index ri (h_dims x0) /\
    forall i x e, nth_error xs i = Some x -> e (key ri) = i -> valid e (h_dims x0) ->
      val y e = option_map (cast (h_dt y)) (nd_get (h_nd x) (coords e (h_dims x0))).

(** The independent variable [n] as the first block that has it has it. *)
Definition first_dim (blocks : list (block A)) (n : string) (e : dim) : Prop :=
  exists pre b post, blocks = pre ++ b :: post /\ dd_get n (b_ivar b) = Ok e /\
    forall b', In b' pre -> dd_get n (b_ivar b') = Err KeyError.

(** Blocks that fit together: they have the same partial dimensions [ps], at least one, and the same
    variables, with the same shapes; [vs] are the variables of the first one. *)
Definition mergeable (b0 : block A) (bs : list (block A)) (ps : list string) (vs : list (string * hf A)) : Prop :=
  let names := ps ++ map fst vs in
  dd_items (b_var b0) = Ok vs /\ ps <> [] /\ NoDup names /\
  (forall b, In b (b0 :: bs) ->
     (exists ivs, dd_items (b_ivar b) = Ok ivs /\ NoDup (map fst ivs) /\
        map fst (filter (fun p => subclass (d_class (snd p)) CDimPartial) ivs) = ps) /\
     (forall k, In k ps -> exists l, has_label b k l) /\
     (exists l, dd_items (b_var b) = Ok l /\ forall k, In k (map fst l) -> In k (map fst vs))) /\
  (forall k x, In (k, x) vs -> wf x /\
     (forall d, In d (h_dims x) -> d_name d <> "INDEX1" /\ ~ In (d_name d) names /\ exists e, dd_get (d_name d) (b_ivar b0) = Ok e) /\
     forall b, In b (b0 :: bs) -> exists y, has_var b k y /\ h_shape y = h_shape x /\ nd_wf (h_nd y)) /\
  (forall k, In k names -> k <> "INDEX1") /\
  (forall k m e, In k names -> is_matrix_name k = Some (m, e) -> ~ In m names).
End Merge.
