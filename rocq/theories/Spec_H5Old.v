(** What files in the older HDF5 format are to keep of a block. *)
From Coq Require Import Ascii String List Arith Bool Permutation.
From Verif Require Import Model_NdArray Model_Dim Model_Array Model_DataDict Model_Block Spec_H5File Spec_Comments.
Import ListNotations.
Local Open Scope string_scope.
Local Open Scope char_scope.
Local Open Scope nat_scope.
Local Open Scope list_scope.

(** none, None, NONE, nOnE, ... *)
Definition spells_none (s : string) : Prop :=
  Forall2 (fun c cs => In c cs) (list_ascii_of_string s) [["n"; "N"]; ["o"; "O"]; ["n"; "N"]; ["e"; "E"]].
(** A text or None: kept, but for a text that spells none. *)
Definition same_text (u v : option string) : Prop :=
  match u with
  | None => v = None
  | Some s => (spells_none s -> v = None) /\ (~ spells_none s -> v = u)
  end.

(** The classes that are not kept. *)
Definition lost_classes : list dimclass :=
  [CDiagAxis0; CIndepAxis0; CDerivAxis0; CDimAnonymous; CMatIndep_i; CMatDeriv_i; CMatIndep_j; CMatDeriv_j].
Definition old_dim (dimenc : list label -> list label) (d e : dim) : Prop :=
  d_name e = d_name d /\ d_data e = dimenc (d_data d) /\ same_text (d_unit d) (d_unit e) /\ d_fmt e = None /\
  (In (d_class d) lost_classes -> d_class e = CDimRep) /\ (~ In (d_class d) lost_classes -> d_class e = d_class d).
Definition old_var {A} (dimenc : list label -> list label) (iv : string -> option dim) (x y : hf A) : Prop :=
  h_nd y = h_nd x /\ h_dt y = h_dt x /\ same_text (h_unit x) (h_unit y) /\ h_fmt y = default_fmt (h_dt x) /\
  Forall2 (fun d e => exists s, iv (d_name d) = Some s /\ old_dim dimenc s e) (h_dims x) (h_dims y).

(** The variables of a file with dimensions [ivs]. *)
Definition old_vars_ok {A D} (enc : dtype -> A -> D) (dec : dtype -> D -> A) (ivs : list (string * dim)) (vs : list (string * hf A)) : Prop :=
  NoDup (map fst vs) /\
  (forall p, In p vs -> h5_name (fst p) /\ ~ In (fst p) (map fst ivs)) /\
  (forall p m e, In p vs -> is_matrix_name (fst p) = Some (m, e) -> ~ In m (map fst vs)) /\
  (forall p, In p vs -> length (h_dims (snd p)) = length (nd_shape (h_nd (snd p))) /\
     Forall (fun v => dec (h_dt (snd p)) (enc (h_dt (snd p)) v) = v) (nd_elems (h_nd (snd p))) /\
     forall d, In d (h_dims (snd p)) -> In (d_name d) (map fst ivs)).

(** The block [b] has been read from a file with the variables [vs] and the dimensions [ivs]: it has all of
    them. *)
Definition old_block {A} (dimenc : list label -> list label) (ivs : list (string * dim)) (vs : list (string * hf A)) (b : block A) : Prop :=
  (exists ps ys, Permutation vs ps /\ dd_items (b_var b) = Ok ys /\
     Forall2 (fun p q => fst q = fst p /\ old_var dimenc (in_list ivs) (snd p) (snd q)) ps ys) /\
  (forall n e, dd_get n (b_ivar b) = Ok e -> exists s, in_list ivs n = Some s /\ old_dim dimenc s e) /\
  (forall n, In n (map fst ivs) -> exists e, dd_get n (b_ivar b) = Ok e).
