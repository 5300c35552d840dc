(** C64: kinds of dimensions. *)
From Coq Require Import String List Arith Bool Lia ZArith.
From Verif Require Import Model_NdArray Model_Dim Model_Kinds Spec_Kinds.
Import ListNotations.
Local Open Scope string_scope.
Local Open Scope nat_scope.
Local Open Scope list_scope.

(** isinstance follows the class statements. *)
Theorem C64_subclass : forall c d, subclass c d = true <-> below c d.
Proof.
  intros c d. split.
  - assert (P : forall c p, parent c = Some p -> In (c, p) stands) by (intros [] p H; cbn in H; try discriminate; injection H as <-; cbn; tauto).
    unfold subclass. generalize 6. intros n. revert c. induction n as [|n IH]; intros c H; cbn [subclass_fuel] in H; unfold class_eqb in H;
      destruct (class_eq_dec c d) as [->|N]; try constructor; try discriminate.
    destruct (parent c) as [p|] eqn:E; [|discriminate]. apply (below_base c p d); auto.
  - intros B. induction B as [c|c d e H B IH]; [destruct c; reflexivity|].
    revert IH. clear B. cbn [stands In] in H. repeat (destruct H as [H|H]; [injection H as <- <-; destruct e; vm_compute; auto|]). destruct H.
Qed.
Print Assumptions C64_subclass.

(** The class statements succeed and give the tables of Model_Dim. *)
Theorem C64_tables : forall d, subclass (d_class d) CDiagAxis0 = true -> indep_of d = indep_axis d /\ deriv_of d = deriv_axis d.
Proof. intros [c n l u f] H. destruct c; try discriminate H; split; reflexivity. Qed.
Print Assumptions C64_tables.

Lemma recast_ok : forall c d, d_data d <> [] \/ d_fmt d <> None -> exists e f, recast c d = Ok e /\ as_class c d e /\ outputformat d = Ok f /\ d_fmt e = Some f.
Proof.
  intros c [k n l u f] H. unfold recast, outputformat. cbn in *. destruct f as [f|].
  - eexists. exists f. split; [reflexivity|]. repeat split.
  - destruct l as [|[z|b|s] l]; [destruct H; congruence| | |]; eexists; eexists; (split; [reflexivity|]); repeat split.
Qed.
Lemma recast_twice : forall c c' d e, recast c d = Ok e -> recast c' e = recast c' d.
Proof. intros c c' [k n l u f] e H. unfold recast in *. destruct (outputformat _) eqn:E; [|discriminate]. cbn in H. injection H as <-. reflexivity. Qed.

(** A diagonal dimension gives its two halves, which have its name, labels and
    unit, and each of which gives the other. *)
Theorem C64_halves : forall d i j, splits (d_class d) i j -> d_data d <> [] \/ d_fmt d <> None ->
  exists di dj, indep_of d = Ok di /\ deriv_of d = Ok dj /\ as_class i d di /\ as_class j d dj /\ deriv_of di = Ok dj /\ indep_of dj = Ok di.
Proof.
  intros d i j S H. destruct (recast_ok i d H) as [di [fi [I1 [I2 [_ I3]]]]]. destruct (recast_ok j d H) as [dj [fj [J1 [J2 [_ J3]]]]].
  exists di, dj.
  assert (Q : indep_of d = recast i d /\ deriv_of d = recast j d /\ deriv_of di = recast j di /\ indep_of dj = recast i dj).
  { destruct I2 as [I2 _]. destruct J2 as [J2 _]. unfold indep_of, deriv_of, axis. rewrite I2, J2. clear - S.
    inversion S as [c G E1|E1|E1|E1]; subst; repeat split; try reflexivity; cbn [In] in G; repeat (destruct G as [G|G]; [rewrite <- G; reflexivity|]); destruct G. }
  destruct Q as [-> [-> [-> ->]]]. rewrite (recast_twice i j d di I1), (recast_twice j i d dj J1). auto 12.
Qed.
Print Assumptions C64_halves.

(** Ordinary and complex halves give a diagonal dimension back, of the class DiagAxis or ComplexDiagAxis. *)
Theorem C64_whole : forall d i j c di dj, splits (d_class d) i j -> whole i = Some c -> indep_of d = Ok di -> deriv_of d = Ok dj ->
  exists e, diag_of di = Ok e /\ diag_of dj = Ok e /\ as_class c d e.
Proof.
  intros d i j c di dj S W HI HJ.
  assert (Q : indep_of d = recast i d /\ deriv_of d = recast j d).
  { unfold indep_of, deriv_of, axis. clear - S. inversion S as [c G E1|E1|E1|E1]; subst; repeat split; try reflexivity; cbn [In] in G; repeat (destruct G as [G|G]; [rewrite <- G; reflexivity|]); destruct G. }
  destruct Q as [Q1 Q2]. rewrite Q1 in HI. rewrite Q2 in HJ.
  assert (E : exists f, outputformat d = Ok f) by (unfold recast in HI; clear Q1 Q2; destruct (outputformat d) as [f|x]; [exists f; reflexivity|discriminate HI]). destruct E as [f E].
  exists (mkDim c (d_name d) (d_data d) (d_unit d) (Some f)).
  assert (C1 : diag_of di = recast c di /\ diag_of dj = recast c dj).
  { assert (d_class di = i /\ d_class dj = j) as [K1 K2] by (unfold recast in HI, HJ; rewrite E in HI, HJ; cbn in HI, HJ; injection HI as <-; injection HJ as <-; auto).
    unfold diag_of, axis. rewrite K1, K2. clear - S W. inversion S; subst; cbn in W; try discriminate; injection W as <-; split; reflexivity. }
  destruct C1 as [-> ->]. rewrite (recast_twice _ c d di HI), (recast_twice _ c d dj HJ). unfold recast. rewrite E. cbn [bind]. repeat split.
Qed.
Print Assumptions C64_whole.

(** Whatever has an independent half is diagonal or a derivative half. *)
Theorem C64_none : forall d, indep_of d = Err AttributeError <-> In (d_class d) [CDimBase; CDiagAxis0; CIndepAxis0; CDerivAxis0; CIndepAxis; CComplexIndep].
Proof.
  intros [c n l u f]. split.
  - intros H. assert (R : forall k d, recast k d <> Err AttributeError).
    { intros k [c' n' l' u' f'] Q. unfold recast, outputformat in Q. cbn [d_fmt d_data] in Q. destruct f'; [discriminate Q|]. destruct l' as [|[z|b|s] l']; discriminate Q. }
    assert (K : forall k, indep_of (mkDim c n l u f) = recast k (mkDim c n l u f) -> False) by (intros k Q; rewrite Q in H; exact (R _ _ H)).
    destruct c; cbn [d_class In]; auto 10; exfalso;
      first [apply (K CIndepAxis); reflexivity|apply (K CComplexIndep); reflexivity|apply (K CMatIndep_i); reflexivity|apply (K CMatIndep_j); reflexivity].
  - intros H. cbn [d_class In] in H. repeat (destruct H as [<-|H]; [reflexivity|]). destruct H.
Qed.
Print Assumptions C64_none.

(** Ordinary dimensions are sorted before repetitions, these before the rows and
    then the columns of matrices, complex dimensions come last. *)
Theorem C64_order : forall c d, sortprio c <= sortprio d <-> stage c <= stage d.
Proof. intros c d. rewrite <- !Nat.leb_le. destruct c, d; vm_compute; tauto. Qed.
Print Assumptions C64_order.

(** The class of the dimension is lost on the way to a half and back. *)
Theorem C64_back_refuted : exists d di e, d_class d = CDimSweep /\ indep_of d = Ok di /\ diag_of di = Ok e /\ d_class e <> d_class d.
Proof.
  exists (mkDim CDimSweep "f" [LZ 1] None None). eexists. eexists. split; [vm_compute; reflexivity|]. split; [vm_compute; reflexivity|]. split; [vm_compute; reflexivity|]. discriminate.
Qed.
Print Assumptions C64_back_refuted.
(** The halves of the rows of a matrix know their diagonal dimension, but have no
    property to ask for it, and are themselves diagonal dimensions. *)
Theorem C64_matrix_refuted : exists d di s, d_class d = CMatrix_i /\ indep_of d = Ok di /\ module_dim = Ok s /\
  getattr (a_diag s) (d_class di) = Some CMatrix_i /\ diag_of di = Err AttributeError /\ subclass (d_class di) CDiagAxis = true.
Proof.
  exists (mkDim CMatrix_i "i" [LZ 0; LZ 1] None None). eexists. eexists. split; [vm_compute; reflexivity|]. split; [vm_compute; reflexivity|]. split; [vm_compute; reflexivity|]. split; [vm_compute; reflexivity|]. split; vm_compute; reflexivity.
Qed.
Print Assumptions C64_matrix_refuted.

Example C64_ex : splits CDimPartial CIndepAxis CDerivAxis /\ below CDimPartial CDiagAxis0 /\
  indep_of (mkDim CDimPartial "V" [LZ 3; LZ 4] (Some "V") None) = Ok (mkDim CIndepAxis "V" [LZ 3; LZ 4] (Some "V") (Some "%d")) /\
  stage CDimPartial < stage CDimRep.
Proof. split; [constructor; cbn; tauto|]. split; [apply C64_subclass; reflexivity|]. split; [vm_compute; reflexivity|]. cbn. lia. Qed.
