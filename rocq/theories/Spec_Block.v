(** Vocabulary for statements about DataBlocks. *)
From Coq Require Import String List Arith ZArith Bool Permutation.
From Verif Require Import Model_NdArray Model_Dim Model_Array Spec_Array Model_DataDict Model_Block.
Import ListNotations.
Local Open Scope nat_scope.
Local Open Scope list_scope.

(** The names of the dimensions of a list of variables. *)
Definition dim_names {A} (vs : list (string * hf A)) : list string :=
  flat_map (fun p => map d_name (h_dims (snd p))) vs.

(** No variable is named like a dimension or like an element of a variable. *)
Definition plain_names (names dnames : list string) : Prop :=
  (forall k, In k names -> ~ In k dnames) /\
  (forall k m e, In k names -> is_matrix_name k = Some (m, e) -> ~ In m names).

(** What happens to one variable: along the dimension named [name] position [i] of the result is position [order[i]] of the argument and the
    dimension is [new]. *)
Definition rearranged {A} (name : string) (new : dim) (order : list nat) (x y : hf A) : Prop :=
  (~ In name (map d_name (h_dims x)) /\ y = x) \/
  (exists k d, nth_error (h_dims x) k = Some d /\ d_name d = name /\ wf y /\ h_dims y = set_nth k new (h_dims x) /\
     h_unit y = h_unit x /\
     forall e, valid e (h_dims y) -> val y e = val x (upd e (key d) (nth (e (key d)) order 0))).

Definition var_ok {A} (name : string) (old : dim) (x : hf A) : Prop :=
  wf x /\ NoDup (map d_name (h_dims x)) /\
  (forall d, In d (h_dims x) -> d_name d = name -> key d = key old /\ length (d_data d) = length (d_data old)).


(** [argsort] returns for each list an ordering of its positions along which
    its elements are ascending. *)
Definition sorts {K} (le : K -> K -> Prop) (argsort : list K -> list nat) : Prop :=
  forall l, Permutation (argsort l) (seq 0 (length l)) /\
    forall i j a c, i < j -> j < length l ->
      nth_error l (nth i (argsort l) 0) = Some a -> nth_error l (nth j (argsort l) 0) = Some c -> le a c.
