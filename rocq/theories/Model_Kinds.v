(** The classes of dimensions of hftools/dataset/dim.py:169-289 as the class
    statements and the metaclass make them.  (Model_Dim.v has the outcome as
    tables; C64 shows that they agree.) *)
From Coq Require Import String List Arith Bool.
From Verif Require Import Model_NdArray Model_Dim.
Import ListNotations.
Local Open Scope nat_scope.
Local Open Scope list_scope.

(** The attributes _indep_axis, _deriv_axis and _diag_axis that the classes have
    themselves, as pairs of class and value. *)
Record attributes : Set := mkAttrs { a_indep : list (dimclass * dimclass); a_deriv : list (dimclass * dimclass); a_diag : list (dimclass * dimclass) }.
Fixpoint own (t : list (dimclass * dimclass)) (c : dimclass) : option dimclass :=
  match t with
  | [] => None
  | (k, v) :: r => if class_eqb k c then Some v else own r c
  end.
(** Attribute lookup: the class itself, then its base class and so on. *)
Fixpoint getattr_fuel (n : nat) (t : list (dimclass * dimclass)) (c : dimclass) : option dimclass :=
  match own t c with
  | Some v => Some v
  | None => match n, parent c with
            | S n', Some p => getattr_fuel n' t p
            | _, _ => None
            end
  end.
Definition getattr (t : list (dimclass * dimclass)) (c : dimclass) : option dimclass := getattr_fuel 6 t c.

(** The attributes assigned in the body of a class statement (dim.py:222-223,
    250-251, 269-270, 283-284). *)
Definition body (c : dimclass) : option (dimclass * dimclass) :=
  match c with
  | CDiagAxis => Some (CIndepAxis, CDerivAxis)
  | CComplexDiag => Some (CComplexIndep, CComplexDeriv)
  | CMatrix_i => Some (CMatIndep_i, CMatDeriv_i)
  | CMatrix_j => Some (CMatIndep_j, CMatDeriv_j)
  | _ => None
  end.

(** _DiagMeta.__init__ (dim.py:169-177), called for every class that derives
    from _DiagAxis, does nothing for _DiagAxis. *)
Definition diag_meta (c : dimclass) (s : attributes) : result attributes :=
  if class_eqb c CDiagAxis0 then Ok s else
  do i <- of_option AttributeError (getattr (a_indep s) c);
  do s <- match getattr (a_diag s) i with
          | Some _ => Ok s
          | None => do d <- of_option AttributeError (getattr (a_deriv s) c);
                    Ok (mkAttrs (a_indep s) ((i, d) :: a_deriv s) ((i, c) :: a_diag s))
          end;
  do d <- of_option AttributeError (getattr (a_deriv s) c);
  match getattr (a_diag s) d with
  | Some _ => Ok s
  | None => do i <- of_option AttributeError (getattr (a_indep s) c);
            Ok (mkAttrs ((d, i) :: a_indep s) (a_deriv s) ((d, c) :: a_diag s))
  end.

(** A class statement. *)
Definition class_statement (c : dimclass) (s : attributes) : result attributes :=
  let s := match body c with
           | Some (i, d) => mkAttrs ((c, i) :: a_indep s) ((c, d) :: a_deriv s) (a_diag s)
           | None => s
           end in
  if subclass c CDiagAxis0 then diag_meta c s else Ok s.
Fixpoint class_statements (cs : list dimclass) (s : attributes) : result attributes :=
  match cs with
  | [] => Ok s
  | c :: cs' => do s <- class_statement c s; class_statements cs' s
  end.

(** The statements in their order (dim.py:47, 181-289). *)
Definition in_order : list dimclass :=
  [CDimBase; CDiagAxis0; CIndepAxis0; CDerivAxis0; CIndepAxis; CDerivAxis; CDiagAxis; CDimAnonymous; CDimSweep; CDimRep;
   CComplexIndep; CComplexDeriv; CComplexDiag; CDimMatrix; CMatIndep_i; CMatDeriv_i; CMatrix_i; CMatIndep_j; CMatDeriv_j; CMatrix_j; CDimPartial].
Definition module_dim : result attributes := class_statements in_order (mkAttrs [] [] []).

(** The properties indep_axis, deriv_axis and diag_axis (dim.py:184-211); a class
    which has no such property has no such attribute. *)
Definition axis (has : list dimclass) (t : attributes -> list (dimclass * dimclass)) (d : dim) : result dim :=
  do s <- module_dim;
  if existsb (subclass (d_class d)) has then do c <- of_option AttributeError (getattr (t s) (d_class d)); recast c d
  else Err AttributeError.
Definition indep_of : dim -> result dim := axis [CDiagAxis0; CDerivAxis0] a_indep.
Definition deriv_of : dim -> result dim := axis [CDiagAxis0; CIndepAxis0] a_deriv.
Definition diag_of : dim -> result dim := axis [CIndepAxis0; CDerivAxis0] a_diag.
