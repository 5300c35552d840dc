(** What passive, unitary, eigenvalue and so on mean for n-ports, without the
    functions of Model_Passive.v. *)
From Coq Require Import Reals List Bool Arith.
From Verif Require Import Model_Noise.
Import ListNotations.
Local Open Scope R_scope.

Section Spec.
  Variable n : nat.

  (** Sums over the ports. *)
  Definition csum (f : nat -> Cx) : Cx := fold_right Cadd (0, 0) (map f (seq 0 n)).
  Definition rsum (f : nat -> R) : R := fold_right Rplus 0 (map f (seq 0 n)).
  (** Waves at the ports, the power they carry, and the waves a network answers
      with. *)
  Definition power (x : nat -> Cx) : R := rsum (fun i => Cabs2 (x i)).
  Definition answer (A : nat -> nat -> Cx) (x : nat -> Cx) (i : nat) : Cx := csum (fun j => Cmul (A i j) (x j)).
  (** No more power comes out than goes in. *)
  Definition passive (A : nat -> nat -> Cx) : Prop := forall x, power (answer A x) <= power x.

  Definition eye (i j : nat) : Cx := if Nat.eqb i j then (1, 0) else (0, 0).
  Definition same (A B : nat -> nat -> Cx) : Prop := forall i j, (i < n)%nat -> (j < n)%nat -> A i j = B i j.
  (** The columns, and the rows, are orthonormal. *)
  Definition unitary (U : nat -> nat -> Cx) : Prop :=
    same (fun i j => csum (fun k => Cmul (Cconj (U k i)) (U k j))) eye /\
    same (fun i j => csum (fun k => Cmul (U i k) (Cconj (U j k)))) eye.
  (** A = U diag(s) V with U, V unitary and s not negative. *)
  Definition is_svd (A : nat -> nat -> Cx) (U : nat -> nat -> Cx) (s : nat -> R) (V : nat -> nat -> Cx) : Prop :=
    unitary U /\ unitary V /\ (forall i, 0 <= s i) /\
    same A (fun i j => csum (fun k => Cmul (Cmul (U i k) (RtoC (s k))) (V k j))).

  Definition nonzero_wave (x : nat -> Cx) : Prop := exists i, (i < n)%nat /\ x i <> (0, 0).
  Definition eigenvalue (A : nat -> nat -> Cx) (l : Cx) : Prop :=
    exists x, nonzero_wave x /\ forall i, (i < n)%nat -> answer A x i = Cmul l (x i).
  (** [ls] are the eigenvalues; every matrix of size at least one has one. *)
  Definition is_eigvals (A : nat -> nat -> Cx) (ls : list Cx) : Prop :=
    ls <> [] /\ forall l, In l ls <-> eigenvalue A l.
End Spec.
