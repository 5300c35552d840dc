(** What HDF5 files are to keep of a block. *)
From Coq Require Import Ascii String List Arith Bool Permutation.
From Verif Require Import Model_NdArray Model_Dim Model_Array Model_DataDict Model_Block Spec_Array.
Import ListNotations.
Local Open Scope string_scope.
Local Open Scope nat_scope.
Local Open Scope list_scope.

(** A character of a name for another one. *)
Fixpoint swap (a b : ascii) (s : string) : string :=
  match s with
  | EmptyString => EmptyString
  | String c s' => String (if Ascii.eqb c a then b else c) (swap a b s')
  end.
(** Under which name a variable is in the file, and which name it has after reading. *)
Definition on_disk (k : string) : string := swap "/" "\" k.
Definition read_name (k : string) : string := swap "\" "/" k.
Fixpoint free_of (c : ascii) (s : string) : Prop :=
  match s with EmptyString => True | String c' s' => c' <> c /\ free_of c s' end.
(** A name that can be given to a dataset. *)
Definition h5_name (k : string) : Prop := k <> "" /\ k <> "." /\ free_of "/" k.

(** A text that is empty is not kept. *)
Definition kept (u : option string) : option string := match u with Some "" => None | _ => u end.

(** [e] is what is read for an axis [d]: the dimension [iv] has under this name. *)
Definition axis_read (dimenc : list label -> list label) (iv : string -> option dim) (d e : dim) : Prop :=
  exists s, iv (d_name d) = Some s /\ d_name e = d_name d /\ d_class e = d_class s /\ d_data e = dimenc (d_data s) /\
    d_unit e = kept (d_unit s) /\ d_fmt e = None.
Definition var_read {A} (dimenc : list label -> list label) (iv : string -> option dim) (x y : hf A) : Prop :=
  h_nd y = h_nd x /\ h_dt y = h_dt x /\ h_unit y = kept (h_unit x) /\
  (h_fmt x <> "" -> h_fmt y = h_fmt x) /\ (h_fmt x = "" -> h_fmt y = default_fmt (h_dt x)) /\
  Forall2 (axis_read dimenc iv) (h_dims x) (h_dims y).

(** The dimensions of a file: names for datasets and a format. *)
Definition dims_ok (ivs : list (string * dim)) : Prop :=
  NoDup (map fst ivs) /\
  Forall (fun p => fst p = d_name (snd p) /\ h5_name (fst p) /\ (d_fmt (snd p) <> None \/ d_data (snd p) <> [])) ivs.
Definition in_list {V} (l : list (string * V)) (n : string) : option V :=
  option_map snd (find (fun p => String.eqb n (fst p)) l).
Definition h5_classes : list dimclass := [CDimRep; CDimSweep; CMatrix_i; CMatrix_j; CDimPartial].
(** The variables of a file with dimensions [ivs]. *)
Definition vars_ok {A D} (enc : dtype -> A -> D) (dec : dtype -> D -> A) (ivs : list (string * dim)) (vs : list (string * hf A)) : Prop :=
  NoDup (map (fun p => on_disk (fst p)) vs) /\
  (forall p, In p vs -> h5_name (on_disk (fst p)) /\ ~ In (on_disk (fst p)) (map fst ivs)) /\
  (forall p m e, In p vs -> is_matrix_name (read_name (fst p)) = Some (m, e) -> ~ In m (map (fun q => read_name (fst q)) vs)) /\
  (forall p, In p vs -> length (h_dims (snd p)) = length (nd_shape (h_nd (snd p))) /\
     Forall (fun v => dec (h_dt (snd p)) (enc (h_dt (snd p)) v) = v) (nd_elems (h_nd (snd p))) /\
     forall d, In d (h_dims (snd p)) -> exists s, in_list ivs (d_name d) = Some s /\ In (d_class s) h5_classes).

(** The block [b] has been read from a file with the variables [vs] over dimensions [iv]: it has these
    variables, in some order, and the dimensions that they use. *)
Definition block_read {A} (dimenc : list label -> list label) (iv : string -> option dim) (vs : list (string * hf A)) (b : block A) : Prop :=
  (exists ps ys, Permutation vs ps /\ dd_items (b_var b) = Ok ys /\
     Forall2 (fun p q => fst q = read_name (fst p) /\ var_read dimenc iv (snd p) (snd q)) ps ys) /\
  (forall p d, In p vs -> In d (h_dims (snd p)) -> exists e, dd_get (d_name d) (b_ivar b) = Ok e /\ axis_read dimenc iv d e) /\
  (forall n e, dd_get n (b_ivar b) = Ok e -> exists p d, In p vs /\ In d (h_dims (snd p)) /\ d_name d = n).
(** An array with a further axis. *)
Definition with_axis {A} (d : dim) (x y : hf A) : Prop :=
  wf y /\ h_dt y = h_dt x /\ (exists l r, h_dims x = l ++ r /\ h_dims y = l ++ d :: r /\ length l = Nat.min 1 (length (h_dims x))) /\
  (forall e, valid e (h_dims y) -> val y e = val x e).
