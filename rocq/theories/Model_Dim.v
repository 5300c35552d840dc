(** Model of hftools/dataset/dim.py. *)
From Coq Require Import String List Arith ZArith Bool Lia.
From Verif Require Import Model_NdArray.
Import ListNotations.
Local Open Scope nat_scope.

(** Labels of a dimension.  dim.py:75-80 stores python scalars.  Integers,
    strings (also standing for dates) and floats (by their bit pattern) are
    distinguished because the default output format depends on it
    (dim.py:104-112).  Python's cross-type equality 1 == 1.0 is not modelled. *)
Inductive label : Set := LZ (z : Z) | LF (bits : Z) | LS (s : string).

Definition label_eqb (a b : label) : bool :=
  match a, b with
  | LZ x, LZ y => Z.eqb x y
  | LF x, LF y => Z.eqb x y
  | LS x, LS y => String.eqb x y
  | _, _ => false
  end.

(** The classes of dim.py:47-289.  [CDiagAxis0] is _DiagAxis, [CIndepAxis0] is
    _IndepAxis, [CDerivAxis0] is _DerivAxis, [CDimMatrix] is _DimMatrix. *)
Inductive dimclass : Set :=
| CDimBase | CDiagAxis0 | CIndepAxis0 | CDerivAxis0
| CIndepAxis | CDerivAxis | CDiagAxis
| CDimAnonymous | CDimSweep | CDimRep | CDimPartial
| CComplexIndep | CComplexDeriv | CComplexDiag
| CDimMatrix | CMatIndep_i | CMatDeriv_i | CMatrix_i
| CMatIndep_j | CMatDeriv_j | CMatrix_j.

Definition class_eq_dec : forall a b : dimclass, {a = b} + {a <> b}.
Proof. decide equality. Defined.
Definition class_eqb (a b : dimclass) : bool := if class_eq_dec a b then true else false.

(** Base class, dim.py:181-289 (class statements). *)
Definition parent (c : dimclass) : option dimclass :=
  match c with
  | CDimBase => None
  | CDiagAxis0 | CIndepAxis0 | CDerivAxis0 => Some CDimBase
  | CIndepAxis | CComplexIndep => Some CIndepAxis0
  | CDerivAxis | CComplexDeriv => Some CDerivAxis0
  | CDiagAxis | CComplexDiag => Some CDiagAxis0
  | CDimAnonymous | CDimSweep | CDimRep | CDimMatrix => Some CDiagAxis
  | CDimPartial => Some CDimSweep
  | CMatIndep_i | CMatDeriv_i | CMatrix_i
  | CMatIndep_j | CMatDeriv_j | CMatrix_j => Some CDimMatrix
  end.

(** issubclass(c, d): walk up the (single inheritance) base classes. The
    hierarchy is at most five deep. *)
Fixpoint subclass_fuel (n : nat) (c d : dimclass) : bool :=
  if class_eqb c d then true
  else match n, parent c with
       | S n', Some p => subclass_fuel n' p d
       | _, _ => false
       end.
Definition subclass (c d : dimclass) : bool := subclass_fuel 6 c d.

(** Class attribute sortprio, dim.py:48,182,235,239,244,249,257,261-285. *)
Definition sortprio (c : dimclass) : nat :=
  match c with
  | CDimRep => 1
  | CComplexDiag => 2000
  | CComplexIndep => 2001
  | CComplexDeriv => 2002
  | CDimMatrix | CMatIndep_i | CMatDeriv_i | CMatrix_i | CMatIndep_j | CMatDeriv_j => 1000
  | CMatrix_j => 1001
  | _ => 0
  end.

(** Attributes set by DimBase.__init__ (dim.py:80-83). *)
Record dim : Set := mkDim {
  d_class : dimclass;
  d_name : string;
  d_data : list label;
  d_unit : option string;
  d_fmt : option string          (* _outputformat *)
}.

Definition option_eqb {A} (eqb : A -> A -> bool) (x y : option A) : bool :=
  match x, y with
  | Some a, Some b => eqb a b
  | None, None => true
  | _, _ => false
  end.

Fixpoint list_eqb {A} (eqb : A -> A -> bool) (x y : list A) : bool :=
  match x, y with
  | [], [] => true
  | a :: x', b :: y' => eqb a b && list_eqb eqb x' y'
  | _, _ => false
  end.

(** DimBase.__eq__ between two dimensions (dim.py:131-140).  Both tuples end in
    [self._outputformat], so the output format takes no part. *)
Definition dim_eqb (a b : dim) : bool :=
  Nat.eqb (sortprio (d_class a)) (sortprio (d_class b)) &&
  String.eqb (d_name a) (d_name b) &&
  class_eqb (d_class a) (d_class b) &&
  list_eqb label_eqb (d_data a) (d_data b) &&
  option_eqb String.eqb (d_unit a) (d_unit b).

(** DimBase.__eq__ with something that is not a dimension: the name is
    compared (dim.py:137-140).  Used with a string. *)
Definition dim_eqb_str (a : dim) (s : string) : bool := String.eqb (d_name a) s.

(** The tuple that DimBase.__hash__ hashes (dim.py:147-149). *)
Definition dim_hash_key (a : dim) : nat * string * dimclass * list label * option string * option string :=
  (sortprio (d_class a), d_name a, d_class a, d_data a, d_unit a, d_fmt a).

(** range(n) as labels: DimBase.__init__ with an integer (dim.py:72-73). *)
Definition range_labels (n : nat) : list label := map (fun k => LZ (Z.of_nat k)) (seq 0 n).

(** Property outputformat (dim.py:103-112): IndexError for an empty dimension
    without explicit format. *)
Definition outputformat (d : dim) : result string :=
  match d_fmt d with
  | Some f => Ok f
  | None =>
      match d_data d with
      | [] => Err IndexError
      | LZ _ :: _ => Ok "%d"%string
      | LF _ :: _ => Ok "%.16e"%string
      | LS _ :: _ => Ok "%s"%string
      end
  end.

(** cls(dim): DimBase.__init__ called with a dimension (dim.py:52-56). *)
Definition recast (c : dimclass) (d : dim) : result dim :=
  do f <- outputformat d;
  Ok (mkDim c (d_name d) (d_data d) (d_unit d) (Some f)).

(** Class attributes _indep_axis and _deriv_axis (dim.py:221-285).  The
    metaclass (dim.py:169-177) also sets _deriv_axis on the independent and
    _indep_axis on the derivative matrix classes. *)
Definition indep_class (c : dimclass) : option dimclass :=
  match c with
  | CMatrix_i => Some CMatIndep_i
  | CMatrix_j => Some CMatIndep_j
  | CMatDeriv_i => Some CMatIndep_i
  | CMatDeriv_j => Some CMatIndep_j
  | CComplexDiag => Some CComplexIndep
  | CDiagAxis0 => None
  | _ => if subclass c CDiagAxis then Some CIndepAxis else None
  end.
Definition deriv_class (c : dimclass) : option dimclass :=
  match c with
  | CMatrix_i => Some CMatDeriv_i
  | CMatrix_j => Some CMatDeriv_j
  | CMatIndep_i => Some CMatDeriv_i
  | CMatIndep_j => Some CMatDeriv_j
  | CComplexDiag => Some CComplexDeriv
  | CDiagAxis0 => None
  | _ => if subclass c CDiagAxis then Some CDerivAxis else None
  end.

(** Properties indep_axis and deriv_axis of a _DiagAxis (dim.py:184-190). *)
Definition indep_axis (d : dim) : result dim :=
  do c <- of_option AttributeError (indep_class (d_class d)); recast c d.
Definition deriv_axis (d : dim) : result dim :=
  do c <- of_option AttributeError (deriv_class (d_class d)); recast c d.

(** CPLX (dim.py:253). *)
Definition CPLX : list dim :=
  [mkDim CComplexIndep "cplx" (range_labels 2) None None;
   mkDim CComplexDeriv "cplx" (range_labels 2) None None].

(** dims_has_complex (dim.py:25-30). *)
Definition is_complex_dim (d : dim) : bool :=
  subclass (d_class d) CComplexDeriv || subclass (d_class d) CComplexIndep
  || subclass (d_class d) CComplexDiag.
Definition dims_has_complex (ds : list dim) : bool := existsb is_complex_dim (rev ds).

(** ** Python slices *)
Record slice : Set := mkSlice { s_start : option Z; s_stop : option Z; s_step : option Z }.
Definition full_slice : slice := mkSlice None None None.
Definition slice_eqb (a b : slice) : bool :=
  option_eqb Z.eqb (s_start a) (s_start b) && option_eqb Z.eqb (s_stop a) (s_stop b)
  && option_eqb Z.eqb (s_step a) (s_step b).

(** slice.indices(n) of CPython (PySlice_AdjustIndices). *)
Definition adjust (n : Z) (step : Z) (dflt : Z) (v : option Z) : Z :=
  match v with
  | None => dflt
  | Some x =>
      let x' := if (x <? 0)%Z then (x + n)%Z else x in
      if (x' <? 0)%Z then (if (step <? 0)%Z then -1 else 0)%Z
      else if (n <=? x')%Z then (if (step <? 0)%Z then n - 1 else n)%Z
      else x'
  end.

(** range(start, stop, step) for a non-zero step. *)
Fixpoint zrange_fuel (fuel : nat) (start stop step : Z) : list Z :=
  match fuel with
  | 0 => []
  | S f => if (if (0 <? step) then start <? stop else stop <? start)%Z
           then start :: zrange_fuel f (start + step)%Z stop step
           else []
  end.

(** Positions selected by a slice from a sequence of length [n]. *)
Definition slice_positions (n : nat) (s : slice) : result (list nat) :=
  let step := match s_step s with None => 1%Z | Some x => x end in
  if (step =? 0)%Z then Err ValueError else
  let zn := Z.of_nat n in
  let start := adjust zn step (if (step <? 0) then zn - 1 else 0)%Z (s_start s) in
  let stop := adjust zn step (if (step <? 0) then -1 else zn)%Z (s_stop s) in
  Ok (map Z.to_nat (zrange_fuel n start stop step)).

(** Elements of a list at given positions. *)
Definition select {A} (l : list A) (ps : list nat) : list A :=
  flat_map (fun p => opt_list (nth_error l p)) ps.

(** DimBase.__getitem__ with a slice (dim.py:151-157). *)
Definition dim_getslice (d : dim) (s : slice) : result dim :=
  if slice_eqb s full_slice then Ok d
  else do ps <- slice_positions (length (d_data d)) s;
       do f <- outputformat d;
       Ok (mkDim (d_class d) (d_name d) (select (d_data d) ps) (d_unit d) (Some f)).
