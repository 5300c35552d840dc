(** Kinds of dimensions, without the model. *)
From Coq Require Import String List.
From Verif Require Import Model_Dim.
Import ListNotations.
Local Open Scope list_scope.

(** [class c(d)] stands in dim.py. *)
Definition stands : list (dimclass * dimclass) :=
  [(CDiagAxis0, CDimBase); (CIndepAxis0, CDimBase); (CDerivAxis0, CDimBase); (CIndepAxis, CIndepAxis0); (CDerivAxis, CDerivAxis0);
   (CDiagAxis, CDiagAxis0); (CDimAnonymous, CDiagAxis); (CDimSweep, CDiagAxis); (CDimRep, CDiagAxis); (CComplexIndep, CIndepAxis0);
   (CComplexDeriv, CDerivAxis0); (CComplexDiag, CDiagAxis0); (CDimMatrix, CDiagAxis); (CMatIndep_i, CDimMatrix); (CMatDeriv_i, CDimMatrix);
   (CMatrix_i, CDimMatrix); (CMatIndep_j, CDimMatrix); (CMatDeriv_j, CDimMatrix); (CMatrix_j, CDimMatrix); (CDimPartial, CDimSweep)].
Inductive below : dimclass -> dimclass -> Prop :=
| below_self : forall c, below c c
| below_base : forall c d e, In (c, d) stands -> below d e -> below c e.

(** What a diagonal dimension splits into: ordinary, complex and matrix dimensions. *)
Inductive splits : dimclass -> dimclass -> dimclass -> Prop :=
| splits_plain : forall c, In c [CDiagAxis; CDimAnonymous; CDimSweep; CDimRep; CDimPartial; CDimMatrix] -> splits c CIndepAxis CDerivAxis
| splits_complex : splits CComplexDiag CComplexIndep CComplexDeriv
| splits_i : splits CMatrix_i CMatIndep_i CMatDeriv_i
| splits_j : splits CMatrix_j CMatIndep_j CMatDeriv_j.
(** The diagonal dimension of a pair of halves. *)
Definition whole (i : dimclass) : option dimclass :=
  match i with CIndepAxis => Some CDiagAxis | CComplexIndep => Some CComplexDiag | _ => None end.

(** The same dimension in another class. *)
Definition as_class (c : dimclass) (d e : dim) : Prop :=
  d_class e = c /\ d_name e = d_name d /\ d_data e = d_data d /\ d_unit e = d_unit d.

(** The order in which kinds of dimensions are sorted. *)
Definition stage (c : dimclass) : nat :=
  match c with
  | CDimRep => 1
  | CDimMatrix | CMatIndep_i | CMatDeriv_i | CMatrix_i | CMatIndep_j | CMatDeriv_j => 2
  | CMatrix_j => 3
  | CComplexDiag => 4 | CComplexIndep => 5 | CComplexDeriv => 6
  | _ => 0
  end.
