(** What a two-port matrix means: which voltages and currents at its ports it
    admits.  Port currents flow into the network. *)
From Coq Require Import Field List Bool.
From Verif Require Import Model_NdArray Model_Network.
Import ListNotations.

Section Spec.
  Context {K : fld}.
  Local Open Scope fld_scope.

  (** [y = M x] *)
  Definition lin (m : M2 K) (y1 y2 x1 x2 : K) : Prop :=
    y1 = e11 m * x1 + e12 m * x2 /\ y2 = e21 m * x1 + e22 m * x2.

  (** Waves with respect to the impedance [r * r]: incident and reflected. *)
  Definition inc (r v i : K) : K := (v + r * r * i) / ((1 + 1) * r).
  Definition refl (r v i : K) : K := (v - r * r * i) / ((1 + 1) * r).

  (** The textbook definitions of the parameters: which quantities the matrix
      gives and from which, [r] a root of the reference impedance. *)
  Definition outs (r : K) (k : kind) (v1 v2 i1 i2 : K) : K * K :=
    match k with
    | KZ => (v1, v2) | KY => (i1, i2) | KG => (i1, v2) | KH => (v1, i2) | KABCD => (v1, i1)
    | KS => (refl r v1 i1, refl r v2 i2) | KT => (refl r v1 i1, inc r v1 i1) | KTp => (inc r v1 i1, refl r v1 i1)
    end.
  Definition ins (r : K) (k : kind) (v1 v2 i1 i2 : K) : K * K :=
    match k with
    | KZ => (i1, i2) | KY => (v1, v2) | KG => (v1, i2) | KH => (i1, v2) | KABCD => (v2, - i2)
    | KS => (inc r v1 i1, inc r v2 i2) | KT => (inc r v2 i2, refl r v2 i2) | KTp => (refl r v2 i2, inc r v2 i2)
    end.
  Definition admits_r (r : K) (k : kind) (m : M2 K) (v1 v2 i1 i2 : K) : Prop :=
    lin m (fst (outs r k v1 v2 i1 i2)) (snd (outs r k v1 v2 i1 i2)) (fst (ins r k v1 v2 i1 i2)) (snd (ins r k v1 v2 i1 i2)).
  Definition admits (sq : K -> K) (n : net K) (v1 v2 i1 i2 : K) : Prop :=
    admits_r (sq (n_z0 n)) (n_kind n) (n_m n) v1 v2 i1 i2.
  Definition same_network (sq : K -> K) (n n' : net K) : Prop :=
    forall v1 v2 i1 i2, admits sq n v1 v2 i1 i2 <-> admits sq n' v1 v2 i1 i2.

  (** With noise sources [e]: outputs are the matrix times the inputs plus [e]. *)
  Definition admits_noisy (sq : K -> K) (n : net K) (e1 e2 v1 v2 i1 i2 : K) : Prop :=
    let r := sq (n_z0 n) in
    lin (n_m n) (fst (outs r (n_kind n) v1 v2 i1 i2) - e1) (snd (outs r (n_kind n) v1 v2 i1 i2) - e2)
        (fst (ins r (n_kind n) v1 v2 i1 i2)) (snd (ins r (n_kind n) v1 v2 i1 i2)).

  (** [sq] works on this impedance. *)
  Definition good_z (sq : K -> K) (z : K) : Prop := sq z * sq z = z /\ sq (1 / z) * sq z = 1.

  (** Two networks connected: the second port of the first to the first port of
      the second. *)
  Definition connected (n1 n2 : K -> K -> K -> K -> Prop) (v1 v2 i1 i2 : K) : Prop :=
    exists v i, n1 v1 v i1 (- i) /\ n2 v v2 i i2.
  (** The same with waves: what leaves one enters the other. *)
  Definition connected_waves (S1 S2 : M2 K) (b1 b2 a1 a2 : K) : Prop :=
    exists x y, lin S1 b1 y a1 x /\ lin S2 x b2 y a2.
End Spec.
