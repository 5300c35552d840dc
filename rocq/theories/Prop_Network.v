(** Properties of two-port networks: C28, C29, C30, C31, C33. *)
From Coq Require Import Ring Field List Bool QArith Qcanon.
From Verif Require Import Model_NdArray Model_Network Spec_Network Proofs_Network Proofs_Network2.
Import ListNotations.
Close Scope Qc_scope. Close Scope Q_scope.

(** ** The rationals, for examples *)
Lemma Qc_eqb_eq : forall x y, Qc_eq_bool x y = true <-> x = y.
Proof. intros x y. split; [apply Qc_eq_bool_correct|]. intros ->. unfold Qc_eq_bool. destruct (Qc_eq_dec y y); congruence. Qed.
Definition fQ : fld := mkFld Qc (Q2Qc 0) (Q2Qc 1) Qcplus Qcmult Qcminus Qcopp Qcdiv Qcinv Qc_eq_bool Qcft Qc_eqb_eq.
Definition q (n : Z) (d : positive) : fQ := Q2Qc (n # d).
(** Square roots of 4, 9, 1/4 and 1/9; 4 plays the part of 50. *)
Definition sqQ (z : fQ) : fQ :=
  if Qc_eq_bool z (q 4 1) then q 2 1 else if Qc_eq_bool z (q 9 1) then q 3 1 else
  if Qc_eq_bool z (q 1 4) then q 1 2 else if Qc_eq_bool z (q 1 9) then q 1 3 else z.
Definition z4 : fQ := q 4 1.
Lemma two_Q : fadd f1 f1 <> (f0 : fQ). Proof. vm_compute. discriminate. Qed.
Lemma good4 : good_z sqQ z4. Proof. split; apply Qc_is_canon; vm_compute; reflexivity. Qed.
Lemma good9 : good_z sqQ (q 9 1). Proof. split; apply Qc_is_canon; vm_compute; reflexivity. Qed.
Definition m2_list (m : M2 fQ) : list Q := map this [e11 m; e12 m; e21 m; e22 m].
Definition net_list (r : result (net fQ)) : option (kind * Q * list Q) :=
  match r with Ok n => Some (n_kind n, this (n_z0 n), m2_list (n_m n)) | Err _ => None end.
Definition mQ (a b c d : Z) : M2 fQ := mkM2 (q a 1) (q b 1) (q c 1) (q d 1).

(** ** C30 *)

(** A conversion describes the same network. *)
Theorem C30_same_network : forall (K : fld) (sq : K -> K) z50, fadd f1 f1 <> (f0 : K) -> good_z sq z50 ->
  forall k zarg n n', good_z sq (n_z0 n) -> (forall z, zarg = Some z -> good_z sq z) ->
  construct sq z50 k zarg (Net n) = Ok n' -> n_kind n' = k /\ same_network sq n n'.
Proof.
  intros K sq z50 two g50 k zarg n n' G GZ H. split; [exact (proj1 (construct_z _ _ _ _ _ _ H))|]. exact (construct_same sq z50 two g50 _ _ _ _ H G GZ).
Qed.
Print Assumptions C30_same_network.

(** Whenever the network has a matrix of the wanted kind, the conversion
    succeeds and yields that matrix. *)
Theorem C30_defined : forall (K : fld) (sq : K -> K) z50, fadd f1 f1 <> (f0 : K) -> good_z sq z50 ->
  forall k n m, good_z sq (n_z0 n) ->
  same_network sq n (mkNet k (match k with KS => z50 | _ => n_z0 n end) m) ->
  exists n', construct sq z50 k None (Net n) = Ok n' /\ n_m n' = m.
Proof. intros. now apply construct_def. Qed.
Print Assumptions C30_defined.

(** A network has at most one matrix of each kind. *)
Theorem C30_unique : forall (K : fld) (sq : K -> K), fadd f1 f1 <> (f0 : K) ->
  forall n n' : net K, n_kind n = n_kind n' -> n_z0 n = n_z0 n' -> good_z sq (n_z0 n) -> same_network sq n n' -> n = n'.
Proof. intros. now apply (same_unique sq). Qed.
Print Assumptions C30_unique.

(** Chains of conversions of any length: they describe the network they start
    from; two chains ending at the same kind give the same result; a chain that
    comes back gives the original. *)
Theorem C30_chain : forall (K : fld) (sq : K -> K) z50, fadd f1 f1 <> (f0 : K) -> good_z sq z50 ->
  forall ks n n', good_z sq (n_z0 n) -> chain sq z50 ks n = Ok n' -> same_network sq n n'.
Proof. intros K sq z50 two g ks n n' G H. now apply (chain_same sq z50 two g _ _ _ H). Qed.
Print Assumptions C30_chain.
Theorem C30_chains_agree : forall (K : fld) (sq : K -> K) z50, fadd f1 f1 <> (f0 : K) -> good_z sq z50 ->
  forall ks ks' n a b, n_z0 n = z50 -> chain sq z50 ks n = Ok a -> chain sq z50 ks' n = Ok b -> n_kind a = n_kind b -> a = b.
Proof.
  intros K sq z50 two g ks ks' n a b Z Ha Hb E. assert (G : good_z sq (n_z0 n)) by (now rewrite Z).
  destruct (chain_same sq z50 two g _ _ _ Ha G) as [S1 [G1 Z1]]. destruct (chain_same sq z50 two g _ _ _ Hb G) as [S2 [G2 Z2]].
  apply (same_unique sq); auto; [rewrite Z1, Z2; auto|]. intros v1 v2 i1 i2. rewrite <- (S1 v1 v2 i1 i2). apply S2.
Qed.
Print Assumptions C30_chains_agree.
Theorem C30_round_trip : forall (K : fld) (sq : K -> K) z50, fadd f1 f1 <> (f0 : K) -> good_z sq z50 ->
  forall ks n n', n_z0 n = z50 -> chain sq z50 ks n = Ok n' -> n_kind n' = n_kind n -> n' = n.
Proof. intros K sq z50 two g ks n n' Z H E. apply (C30_chains_agree K sq z50 two g ks [] n); auto. Qed.
Print Assumptions C30_round_trip.

Definition nS := mkNet KS z4 (mQ 2 3 5 7).
Example C30_example : fadd f1 f1 <> (f0 : fQ) /\ good_z sqQ z4 /\ n_z0 nS = z4 /\
  net_list (chain sqQ z4 [KZ; KABCD; KT; KY; KH; KTp; KG; KS] nS) = net_list (Ok nS) /\
  net_list (chain sqQ z4 [KZ; KABCD] nS) = net_list (construct sqQ z4 KABCD None (Net nS)) /\
  net_list (chain sqQ z4 [KZ; KABCD] nS) <> None.
Proof. split; [exact two_Q|]. split; [exact good4|]. split; [reflexivity|]. vm_compute. repeat split; discriminate. Qed.

(** Y = 0 has no impedance matrix; the conversion raises. *)
Example C30_undefined_example : construct sqQ z4 KZ None (Net (mkNet KY z4 (mQ 0 0 0 0))) = Err ValueError.
Proof. reflexivity. Qed.

(** ** C31 *)

(** An S matrix made from another description with an explicit impedance has
    that impedance and describes the same network. *)
Theorem C31_honoured : forall (K : fld) (sq : K -> K) z50, fadd f1 f1 <> (f0 : K) -> good_z sq z50 ->
  forall z n n', good_z sq (n_z0 n) -> good_z sq z -> (n_kind n <> KS \/ n_z0 n <> z50) ->
  construct sq z50 KS (Some z) (Net n) = Ok n' -> n_z0 n' = z /\ n_kind n' = KS /\ same_network sq n n'.
Proof.
  intros K sq z50 two g z n n' G Gz D H. assert (S := H). apply (construct_same sq z50 two g) in S; auto; [|intros ? E; injection E as <-; auto].
  split; auto; [|split; auto; exact (proj1 (construct_z _ _ _ _ _ _ H))]. unfold construct in H. cbn [kind_eqb andb orb] in H.
  destruct (match n_kind n with KS => true | _ => false end && feqb z50 (n_z0 n)) eqn:E.
  - apply andb_true_iff in E as [E1 E2]. apply feqb_eq in E2. destruct (n_kind n); try discriminate. destruct D; congruence.
  - destruct (convert _ _ _) as [[[r A] B]|]; [|discriminate]. cbn [bind] in H. now injection H as <-.
Qed.
Print Assumptions C31_honoured.

(** Without an impedance an S matrix is renormalised to the default. *)
Theorem C31_default : forall (K : fld) (sq : K -> K) z50, fadd f1 f1 <> (f0 : K) -> good_z sq z50 ->
  forall n n', good_z sq (n_z0 n) -> construct sq z50 KS None (Net n) = Ok n' -> n_z0 n' = z50 /\ same_network sq n n' /\
    (n_kind n = KS -> n_z0 n = z50 -> n' = n).
Proof.
  intros K sq z50 two g n n' G H. assert (S := H). apply (construct_same sq z50 two g) in S; auto; [|discriminate].
  pose proof (construct_z _ _ _ _ _ _ H) as [Kk [Z|[[C _]|[_ C]]]]; try congruence.
  split; auto. split; auto. intros E Z'. symmetry. apply (same_unique sq); congruence || auto.
Qed.
Print Assumptions C31_default.

(** Renormalising through another kind and back to the impedance restores the
    data. *)
Theorem C31_restored : forall (K : fld) (sq : K -> K) z50, fadd f1 f1 <> (f0 : K) -> good_z sq z50 ->
  forall ks n a n', good_z sq (n_z0 n) -> n_kind n = KS -> chain sq z50 ks n = Ok a -> (n_kind a <> KS \/ n_z0 a <> z50) ->
  construct sq z50 KS (Some (n_z0 n)) (Net a) = Ok n' -> n' = n.
Proof.
  intros K sq z50 two g ks n a n' G E Ha D H. destruct (chain_same sq z50 two g _ _ _ Ha G) as [S1 [G1 _]].
  destruct (C31_honoured K sq z50 two g _ _ _ G1 G D H) as [Z [Kk S2]]. symmetry. apply (same_unique sq); try congruence.
  intros v1 v2 i1 i2. rewrite (S1 v1 v2 i1 i2). apply S2.
Qed.
Print Assumptions C31_restored.
Definition nS9 := mkNet KS (q 9 1) (mQ 2 3 5 7).
Example C31_example : good_z sqQ (q 9 1) /\
  net_list (do a <- construct sqQ z4 KZ None (Net nS9); construct sqQ z4 KS (Some (q 9 1)) (Net a)) = net_list (Ok nS9) /\
  net_list (construct sqQ z4 KS None (Net nS9)) <> net_list (Ok nS9) /\ net_list (construct sqQ z4 KS None (Net nS9)) <> None.
Proof. split; [exact good9|]. vm_compute. repeat split; discriminate. Qed.

(** An explicit impedance is ignored for an S matrix at the default impedance
    and for plain data. *)
Theorem C31_ignored : forall (K : fld) (sq : K -> K) z50 z m,
  construct sq z50 KS (Some z) (Net (mkNet KS z50 m)) = Ok (mkNet KS z50 m) /\
  construct sq z50 KS (Some z) (Plain m) = Ok (mkNet KS z50 m).
Proof. intros. split; auto. unfold construct. cbn [n_kind n_z0 n_m kind_eqb andb orb]. now rewrite (proj2 (feqb_eq K z50 z50) eq_refl). Qed.
Print Assumptions C31_ignored.
Theorem C31_explicit_impedance_refuted : exists (K : fld) (sq : K -> K) (z50 z : K) n n',
  good_z sq z50 /\ good_z sq z /\ construct sq z50 KS (Some z) (Net n) = Ok n' /\ n_z0 n' <> z.
Proof.
  exists fQ, sqQ, z4, (q 9 1), (mkNet KS z4 (mQ 2 3 5 7)), (mkNet KS z4 (mQ 2 3 5 7)).
  split; [exact good4|]. split; [exact good9|]. split; [reflexivity|]. vm_compute. discriminate.
Qed.
Print Assumptions C31_explicit_impedance_refuted.

(** Indexing forgets the impedance: the numbers stay, the network changes. *)
Theorem C31_getitem_refuted : exists (K : fld) (sq : K -> K) (z50 : K) n n',
  good_z sq z50 /\ good_z sq (n_z0 n) /\ getitem sq z50 n = Ok n' /\ n_m n' = n_m n /\ ~ same_network sq n n'.
Proof.
  exists fQ, sqQ, z4, nS9, (mkNet KS z4 (mQ 2 3 5 7)). split; [exact good4|]. split; [exact good9|]. split; [reflexivity|]. split; [reflexivity|].
  intros S.
  (* the waves 1, 0 at the first port and what is reflected *)
  set (v1 := q 9 1). set (v2 := q 15 1). set (i1 := q (-1) 3). set (i2 := q (-5) 3).
  destruct (S v1 v2 i1 i2) as [S1 _].
  assert (A : admits sqQ nS9 v1 v2 i1 i2) by (split; apply Qc_is_canon; vm_compute; reflexivity).
  specialize (S1 A). destruct S1 as [S1 _]. apply (f_equal this) in S1. vm_compute in S1. discriminate.
Qed.
Print Assumptions C31_getitem_refuted.

(** ** C28 *)

Theorem C28_waves : forall (K : fld) (S1 S2 : M2 K), fsub f1 (fmul (e22 S1) (e11 S2)) <> f0 ->
  forall b1 b2 a1 a2, connected_waves S1 S2 b1 b2 a1 a2 <-> lin (cascadeS S1 S2) b1 b2 a1 a2.
Proof. intros. now apply cascade_waves. Qed.
Print Assumptions C28_waves.

Section C28.
  Variable K : fld.
  Add Field K28 : (fth K).
  Local Open Scope fld_scope.
  Definition thru : M2 K := mkM2 0 1 1 0.
  Theorem C28_thru : forall S : M2 K, cascadeS thru S = S /\ cascadeS S thru = S.
  Proof.
    intros S. assert (N := f1_neq_0 (K := K)).
    assert (D1 : 1 - 0 * e11 S = (1 : K)) by ring. assert (D2 : 1 - e22 S * 0 = (1 : K)) by ring.
    split; apply m2_eq; unfold cascadeS, thru, m2_det; cbn [e11 e12 e21 e22]; rewrite ?D1, ?D2; field; auto.
  Qed.
  Theorem C28_associative : forall A B C : M2 K,
    1 - e22 A * e11 B <> 0 -> 1 - e22 (cascadeS A B) * e11 C <> 0 -> 1 - e22 B * e11 C <> 0 -> 1 - e22 A * e11 (cascadeS B C) <> 0 ->
    cascadeS (cascadeS A B) C = cascadeS A (cascadeS B C).
  Proof.
    intros [a11 a12 a21 a22] [b11 b12 b21 b22] [c11 c12 c21 c22] H1 H2 H3 H4. unfold cascadeS, m2_det in *. cbn [e11 e12 e21 e22] in *.
    assert (D : (1 - a22 * b11) * (1 - b22 * c11) - a22 * c11 * b12 * b21 <> 0).
    { intros E. apply H2. assert (1 - (b22 - a22 * (b11 * b22 - b12 * b21)) / (1 - a22 * b11) * c11 =
        ((1 - a22 * b11) * (1 - b22 * c11) - a22 * c11 * b12 * b21) / (1 - a22 * b11)) as -> by (field; auto).
      rewrite E. field. auto. }
    assert (F1 : 1 - a22 * b11 - (b22 - a22 * (b11 * b22 - b12 * b21)) * c11 <> 0) by (intros E; apply D; rewrite <- E; ring).
    assert (F2 : 1 - b22 * c11 - a22 * (b11 - c11 * (b11 * b22 - b12 * b21)) <> 0) by (intros E; apply D; rewrite <- E; ring).
    apply m2_eq; cbn [e11 e12 e21 e22]; field; repeat split; auto.
  Qed.

  Variables (sq : K -> K) (z50 : K).
  Hypothesis two : (1 + 1 : K) <> 0.
  Hypothesis g50 : good_z sq z50.
  Let r := sq z50.
  Lemma r_neq : r <> 0.
  Proof. now apply (good_neq sq z50). Qed.
  Lemma inc_opp : forall v i : K, inc r v (- i) = refl r v i.
  Proof. intros. pose proof r_neq. unfold inc, refl. field. auto. Qed.
  Lemma refl_opp : forall v i : K, refl r v (- i) = inc r v i.
  Proof. intros. pose proof r_neq. unfold inc, refl. field. auto. Qed.
  Lemma waves_of : forall a b : K, exists v i, inc r v i = a /\ refl r v i = b.
  Proof. intros a b. pose proof r_neq. exists (r * (a + b)), ((a - b) / r). unfold inc, refl. split; field; auto. Qed.
  Lemma connected_S : forall S1 S2 : M2 K, 1 - e22 S1 * e11 S2 <> 0 -> forall v1 v2 i1 i2,
    connected (admits sq (mkNet KS z50 S1)) (admits sq (mkNet KS z50 S2)) v1 v2 i1 i2 <-> admits sq (mkNet KS z50 (cascadeS S1 S2)) v1 v2 i1 i2.
  Proof.
    intros S1 S2 D v1 v2 i1 i2. unfold connected, admits, admits_r. cbn [n_kind n_z0 n_m outs ins fst snd]. fold r.
    rewrite <- cascade_waves by auto. split.
    - intros [v [i [H1 H2]]]. rewrite inc_opp, refl_opp in H1. exists (refl r v i), (inc r v i). auto.
    - intros [x [y [H1 H2]]]. destruct (waves_of y x) as [v [i [E1 E2]]]. exists v, i. rewrite inc_opp, refl_opp, E1, E2. auto.
  Qed.
End C28.
Print Assumptions C28_thru.
Print Assumptions C28_associative.

(** The T matrix of a cascade is the product of the T matrices. *)
Theorem C28_transfer_product : forall (K : fld) (sq : K -> K) z50, fadd f1 f1 <> (f0 : K) -> good_z sq z50 ->
  forall S1 S2 t1 t2 t, fsub f1 (fmul (e22 S1) (e11 S2)) <> f0 ->
  construct sq z50 KT None (Net (mkNet KS z50 S1)) = Ok t1 -> construct sq z50 KT None (Net (mkNet KS z50 S2)) = Ok t2 ->
  construct sq z50 KT None (Net (mkNet KS z50 (cascadeS S1 S2))) = Ok t -> n_m t = m2_mul (n_m t1) (n_m t2).
Proof.
  intros K sq z50 two g S1 S2 t1 t2 t D H1 H2 H.
  assert (Z : forall S u, construct sq z50 KT None (Net (mkNet KS z50 S)) = Ok u -> u = mkNet KT z50 (n_m u)).
  { intros S [k z m] E. apply construct_z in E as [Ek Ez]. cbn [n_kind n_z0 n_m] in *. subst k. f_equal. destruct Ez as [->|[[_ ->]|[C _]]]; auto. discriminate. }
  rewrite (Z _ _ H1) in H1. rewrite (Z _ _ H2) in H2. rewrite (Z _ _ H) in H.
  set (m := n_m t) in *. set (m1 := n_m t1) in *. set (m2 := n_m t2) in *. clearbody m m1 m2.
  apply (construct_same sq z50 two g) in H1; auto; try discriminate. apply (construct_same sq z50 two g) in H2; auto; try discriminate. apply (construct_same sq z50 two g) in H; auto; try discriminate.
  assert (E : mkNet KT z50 m = mkNet KT z50 (m2_mul m1 m2)); [|congruence].
  apply (same_unique sq); auto. intros v1 v2 i1 i2. rewrite <- (H v1 v2 i1 i2). rewrite <- (connected_S K sq z50 two g S1 S2 D).
  unfold connected. split.
  - intros [v [i [A1 A2]]]. apply H1 in A1. apply H2 in A2. unfold admits, admits_r in *. cbn [n_kind n_z0 n_m outs ins fst snd] in *.
    rewrite lin_mv in *. rewrite inc_opp, refl_opp in A1 by auto. rewrite A1, A2. now rewrite mv_mul.
  - intros A. unfold admits, admits_r in A. cbn [n_kind n_z0 n_m outs ins fst snd] in A. rewrite lin_mv, mv_mul in A.
    destruct (mv m2 (inc (sq z50) v2 i2, refl (sq z50) v2 i2)) as [x y] eqn:E.
    destruct (waves_of K sq z50 two g y x) as [v [i [E1 E2]]]. exists v, i. rewrite (H1 v1 v i1 (fopp i)), (H2 v v2 i i2).
    unfold admits, admits_r. cbn [n_kind n_z0 n_m outs ins fst snd]. rewrite !lin_mv. rewrite inc_opp, refl_opp by auto. rewrite E1, E2. auto.
Qed.
Print Assumptions C28_transfer_product.

(** The method cascade: the networks connected, whatever the descriptions. *)
Theorem C28_network : forall (K : fld) (sq : K -> K) z50, fadd f1 f1 <> (f0 : K) -> good_z sq z50 ->
  forall n1 n2 n a b, good_z sq (n_z0 n1) -> good_z sq (n_z0 n2) ->
  construct sq z50 KS None (Net n1) = Ok a -> construct sq z50 KS None (Net n2) = Ok b ->
  fsub f1 (fmul (e22 (n_m a)) (e11 (n_m b))) <> f0 ->
  net_cascade sq z50 n1 n2 = Ok n ->
  n_kind n = n_kind n1 /\ forall v1 v2 i1 i2, admits sq n v1 v2 i1 i2 <-> connected (admits sq n1) (admits sq n2) v1 v2 i1 i2.
Proof.
  intros K sq z50 two g n1 n2 n a b G1 G2 Ha Hb D H. unfold net_cascade in H. rewrite Ha, Hb in H. cbn [bind] in H.
  split; [exact (proj1 (construct_z _ _ _ _ _ _ H))|].
  assert (E : forall k w, construct sq z50 KS None (Net k) = Ok w -> w = mkNet KS z50 (n_m w)).
  { intros k [k' z m] E. apply construct_z in E as [Ek Ez]. cbn [n_kind n_z0 n_m] in *. subst k'. f_equal. destruct Ez as [->|[[C _]|[_ C]]]; congruence. }
  apply (construct_same sq z50 two g) in H; auto; try discriminate. pose proof (E _ _ Ha) as Ea. pose proof (E _ _ Hb) as Eb.
  apply (construct_same sq z50 two g) in Ha; auto; try discriminate. apply (construct_same sq z50 two g) in Hb; auto; try discriminate. rewrite Ea in Ha. rewrite Eb in Hb.
  intros v1 v2 i1 i2. rewrite <- (H v1 v2 i1 i2). rewrite <- (connected_S K sq z50 two g _ _ D). unfold connected.
  split; intros [v [i [A1 A2]]]; exists v, i; rewrite (Ha v1 v i1 (fopp i)), (Hb v v2 i i2) in *; auto.
Qed.
Print Assumptions C28_network.

Example C28_example : fsub f1 (fmul (e22 (mQ 2 3 5 7)) (e11 (mQ 1 2 3 4))) <> (f0 : fQ) /\
  m2_list (cascadeS (mQ 2 3 5 7) (mQ 1 2 3 4)) <> m2_list (cascadeS (mQ 1 2 3 4) (mQ 2 3 5 7)) /\
  net_list (construct sqQ z4 KT None (Net (mkNet KS z4 (mQ 1 2 3 4)))) <> None /\
  net_list (net_cascade sqQ z4 (mkNet KABCD z4 (mQ 1 2 3 4)) (mkNet KZ z4 (mQ 1 2 3 4))) <> None.
Proof. vm_compute. repeat split; discriminate. Qed.

(** ** C29 *)
Section C29.
  Variable K : fld.
  Add Field K29 : (fth K).
  Local Open Scope fld_scope.
  Theorem C29_left : forall A X : M2 K, e12 A <> 0 -> e21 A <> 0 -> 1 - e22 A * e11 X <> 0 -> deembedleft A (cascadeS A X) = X.
  Proof.
    intros [a11 a12 a21 a22] [x11 x12 x21 x22] N1 N2 D. cbn [e11 e12 e21 e22] in *. unfold deembedleft, cascadeS, m2_det. cbn [e11 e12 e21 e22].
    assert (E : a12 * a21 - a11 * a22 + a22 * ((a11 - x11 * (a11 * a22 - a12 * a21)) / (1 - a22 * x11)) = a12 * a21 / (1 - a22 * x11)) by (field; auto).
    rewrite E. apply m2_eq; cbn [e11 e12 e21 e22]; field; auto.
  Qed.
  Theorem C29_right : forall X B : M2 K, e12 B <> 0 -> e21 B <> 0 -> 1 - e22 X * e11 B <> 0 -> deembedright (cascadeS X B) B = X.
  Proof.
    intros [x11 x12 x21 x22] [b11 b12 b21 b22] N1 N2 D. cbn [e11 e12 e21 e22] in *. unfold deembedright, cascadeS, m2_det. cbn [e11 e12 e21 e22].
    assert (E : b12 * b21 - b11 * b22 + b11 * ((b22 - x22 * (b11 * b22 - b12 * b21)) / (1 - x22 * b11)) = b12 * b21 / (1 - x22 * b11)) by (field; auto).
    rewrite E. apply m2_eq; cbn [e11 e12 e21 e22]; field; auto.
  Qed.
  Theorem C29_both : forall A X B : M2 K, e12 A <> 0 -> e21 A <> 0 -> e12 B <> 0 -> e21 B <> 0 ->
    1 - e22 X * e11 B <> 0 -> 1 - e22 A * e11 (cascadeS X B) <> 0 ->
    deembedS A (cascadeS A (cascadeS X B)) B = X.
  Proof. intros. unfold deembedS. now rewrite C29_left, C29_right. Qed.
  (** Conversely, what deembedding finds gives the measured matrix when the
      fixture is put back. *)
  Theorem C29_left_solves : forall A X : M2 K, e12 A <> 0 -> e21 A <> 0 -> e12 A * e21 A - e11 A * e22 A + e22 A * e11 X <> 0 ->
    cascadeS A (deembedleft A X) = X.
  Proof.
    intros [a11 a12 a21 a22] [x11 x12 x21 x22] N1 N2 D. cbn [e11 e12 e21 e22] in *. unfold deembedleft, cascadeS, m2_det. cbn [e11 e12 e21 e22].
    assert (E : 1 - a22 * ((x11 - a11) / (a12 * a21 - a11 * a22 + a22 * x11)) = a12 * a21 / (a12 * a21 - a11 * a22 + a22 * x11)) by (field; auto).
    rewrite E. apply m2_eq; cbn [e11 e12 e21 e22]; field; auto.
  Qed.
  Theorem C29_right_solves : forall X B : M2 K, e12 B <> 0 -> e21 B <> 0 -> e12 B * e21 B - e11 B * e22 B + e11 B * e22 X <> 0 ->
    cascadeS (deembedright X B) B = X.
  Proof.
    intros [x11 x12 x21 x22] [b11 b12 b21 b22] N1 N2 D. cbn [e11 e12 e21 e22] in *. unfold deembedright, cascadeS, m2_det. cbn [e11 e12 e21 e22].
    assert (E : 1 - (x22 - b22) / (b12 * b21 - b11 * b22 + b11 * x22) * b11 = b12 * b21 / (b12 * b21 - b11 * b22 + b11 * x22)) by (field; auto).
    rewrite E. apply m2_eq; cbn [e11 e12 e21 e22]; field; auto.
  Qed.
End C29.
Print Assumptions C29_left.
Print Assumptions C29_right.
Print Assumptions C29_both.
Print Assumptions C29_left_solves.
Print Assumptions C29_right_solves.
(** The methods: a network embedded between two fixtures is found again, all
    three given in any description. *)
Theorem C29_network : forall (K : fld) (sq : K -> K) z50, fadd f1 f1 <> (f0 : K) -> good_z sq z50 ->
  forall l x y r m a b s, good_z sq (n_z0 l) -> n_z0 x = z50 -> good_z sq (n_z0 y) -> good_z sq (n_z0 r) -> n_kind y = n_kind x ->
  construct sq z50 KS None (Net l) = Ok a -> construct sq z50 KS None (Net r) = Ok b -> construct sq z50 KS None (Net x) = Ok s ->
  e12 (n_m a) <> f0 -> e21 (n_m a) <> f0 -> e12 (n_m b) <> f0 -> e21 (n_m b) <> f0 ->
  fsub f1 (fmul (e22 (n_m s)) (e11 (n_m b))) <> f0 -> fsub f1 (fmul (e22 (n_m a)) (e11 (cascadeS (n_m s) (n_m b)))) <> f0 ->
  (forall v1 v2 i1 i2, admits sq y v1 v2 i1 i2 <-> connected (admits sq l) (connected (admits sq x) (admits sq r)) v1 v2 i1 i2) ->
  net_deembed sq z50 l y r = Ok m -> m = x.
Proof.
  intros K sq z50 two g l x y r m a b s Gl Zx Gy Gr Ky Ha Hb Hs A1 A2 B1 B2 D1 D2 C H.
  unfold net_deembed in H. rewrite Ha, Hb in H. cbn [bind] in H. destruct (construct sq z50 KS None (Net y)) as [t|] eqn:Ht; [|discriminate]. cbn [bind] in H.
  assert (E : forall k w, construct sq z50 KS None (Net k) = Ok w -> w = mkNet KS z50 (n_m w)).
  { intros k [k' z q] E. apply construct_z in E as [Ek Ez]. cbn [n_kind n_z0 n_m] in *. subst k'. f_equal. destruct Ez as [->|[[Q _]|[_ Q]]]; congruence. }
  assert (Gx : good_z sq (n_z0 x)) by (now rewrite Zx).
  assert (ET : n_m t = cascadeS (n_m a) (cascadeS (n_m s) (n_m b))).
  { pose proof (E _ _ Ha) as Ea. pose proof (E _ _ Hb) as Eb. pose proof (E _ _ Hs) as Es. pose proof (E _ _ Ht) as Et.
    apply (construct_same sq z50 two g) in Ha; auto; try discriminate. apply (construct_same sq z50 two g) in Hb; auto; try discriminate.
    apply (construct_same sq z50 two g) in Hs; auto; try discriminate. apply (construct_same sq z50 two g) in Ht; auto; try discriminate.
    rewrite Ea in Ha. rewrite Eb in Hb. rewrite Es in Hs. rewrite Et in Ht.
    assert (Q : mkNet KS z50 (n_m t) = mkNet KS z50 (cascadeS (n_m a) (cascadeS (n_m s) (n_m b)))); [|congruence].
    apply (same_unique sq); auto. intros v1 v2 i1 i2. rewrite <- (Ht v1 v2 i1 i2), C. rewrite <- (connected_S K sq z50 two g _ _ D2).
    unfold connected at 1 3. split; intros [v [i [P1 P2]]]; exists v, i; rewrite (Ha v1 v i1 (fopp i)) in *; split; auto.
    - apply (connected_S K sq z50 two g _ _ D1). destruct P2 as [v' [i' [P3 P4]]]. exists v', i'.
      rewrite <- (Hs v v' i (fopp i')), <- (Hb v' v2 i' i2). auto.
    - apply (connected_S K sq z50 two g _ _ D1) in P2. destruct P2 as [v' [i' [P3 P4]]]. exists v', i'.
      rewrite (Hs v v' i (fopp i')), (Hb v' v2 i' i2). auto. }
  rewrite ET, C29_both in H by auto.
  pose proof (E _ _ Hs) as Es. pose proof (construct_z _ _ _ _ _ _ H) as [Hk Hz]. apply (construct_same sq z50 two g) in H; auto; try discriminate.
  apply (construct_same sq z50 two g) in Hs; auto; try discriminate. rewrite Es in Hs.
  symmetry. apply (same_unique sq); auto; try congruence.
  - rewrite Zx. destruct Hz as [->|[[_ ->]|[_ Q]]]; auto; discriminate.
  - intros v1 v2 i1 i2. rewrite (Hs v1 v2 i1 i2). apply H.
Qed.
Print Assumptions C29_network.
Example C29_example : e12 (mQ 2 3 5 7) <> f0 /\ e21 (mQ 2 3 5 7) <> f0 /\ e12 (mQ 1 2 3 4) <> f0 /\
  m2_list (deembedS (mQ 2 3 5 7) (cascadeS (mQ 2 3 5 7) (cascadeS (mQ 1 2 3 5) (mQ 1 2 3 4))) (mQ 1 2 3 4)) = m2_list (mQ 1 2 3 5).
Proof. vm_compute. repeat split; discriminate. Qed.

(** ** C33 *)

(** Converting a noisy two-port: the noise sources are transformed linearly,
    the correlation matrix with them, and every noisy operating point of the
    one description is one of the other. *)
Theorem C33_sources : forall (K : fld) (sq : K -> K) z50 (conj : K -> K), fadd f1 f1 <> (f0 : K) -> good_z sq z50 ->
  (forall x y, conj (fadd x y) = fadd (conj x) (conj y)) -> (forall x y, conj (fmul x y) = fmul (conj x) (conj y)) ->
  (forall x, conj (conj x) = x) ->
  forall dest x y, good_z sq (n_z0 (ny_net x)) -> hconj conj (ny_c x) = ny_c x -> noisy_convert sq z50 conj dest x = Ok y ->
  same_network sq (ny_net x) (ny_net y) /\ n_kind (ny_net y) = dest /\
  exists T, ny_c y = m2_mul (m2_mul T (ny_c x)) (hconj conj T) /\
    forall x1 x2 y1 y2, lin T y1 y2 x1 x2 -> forall v1 v2 i1 i2,
      admits_noisy sq (ny_net x) x1 x2 v1 v2 i1 i2 -> admits_noisy sq (ny_net y) y1 y2 v1 v2 i1 i2.
Proof.
  intros K sq z50 conj two g ca cm cc dest x y G HC H.
  destruct (noisy_convert_inv sq z50 two g conj ca cm cc dest x y H G HC) as [N [_ [T [C R]]]].
  assert (Gy : good_z sq (n_z0 (ny_net y))) by (refine (construct_good sq z50 g _ _ _ _ N G _); discriminate).
  split; [refine (construct_same sq z50 two g _ _ _ _ N G _); discriminate|]. split; [exact (proj1 (construct_z _ _ _ _ _ _ N))|].
  exists T. split; auto. intros x1 x2 y1 y2 L v1 v2 i1 i2 A. apply noisy_resid in A; auto. apply noisy_resid; auto.
  rewrite <- R, A. symmetry. now apply lin_mv.
Qed.
Print Assumptions C33_sources.

(** Chains of conversions: any two that end at the same kind agree, and coming
    back restores network and correlation matrix. *)
Theorem C33_chains_agree : forall (K : fld) (sq : K -> K) z50 (conj : K -> K), fadd f1 f1 <> (f0 : K) -> good_z sq z50 ->
  (forall x y, conj (fadd x y) = fadd (conj x) (conj y)) -> (forall x y, conj (fmul x y) = fmul (conj x) (conj y)) ->
  (forall x, conj (conj x) = x) -> conj f1 = f1 -> conj f0 = f0 ->
  forall ks ks' x a b, n_z0 (ny_net x) = z50 -> hconj conj (ny_c x) = ny_c x ->
  noisy_chain sq z50 conj ks x = Ok a -> noisy_chain sq z50 conj ks' x = Ok b -> n_kind (ny_net a) = n_kind (ny_net b) -> a = b.
Proof.
  intros K sq z50 conj two g ca cm cc c1 c0 ks ks' x a b Z HC Ha Hb E. assert (G : good_z sq (n_z0 (ny_net x))) by (now rewrite Z).
  destruct (noisy_chain_ok sq z50 two g conj ca cm cc c1 c0 _ _ _ Ha G HC) as [N1 [_ [T1 [C1 R1]]]].
  destruct (noisy_chain_ok sq z50 two g conj ca cm cc c1 c0 _ _ _ Hb G HC) as [N2 [_ [T2 [C2 R2]]]].
  assert (EN : ny_net a = ny_net b) by (eapply (C30_chains_agree K sq z50); eauto).
  destruct a as [na Ca], b as [nb Cb]. cbn [ny_net ny_c] in *. subst nb. f_equal.
  assert (T1 = T2) as <-; [|congruence]. apply mv_ext. intros e.
  destruct (Pmat_inv sq two (n_kind (ny_net x)) (n_z0 (ny_net x)) G) as [PB I].
  destruct (resid_onto _ _ (n_m (ny_net x)) e I) as [w <-]. now rewrite R1, R2.
Qed.
Print Assumptions C33_chains_agree.
Theorem C33_round_trip : forall (K : fld) (sq : K -> K) z50 (conj : K -> K), fadd f1 f1 <> (f0 : K) -> good_z sq z50 ->
  (forall x y, conj (fadd x y) = fadd (conj x) (conj y)) -> (forall x y, conj (fmul x y) = fmul (conj x) (conj y)) ->
  (forall x, conj (conj x) = x) -> conj f1 = f1 -> conj f0 = f0 ->
  forall ks x y, n_z0 (ny_net x) = z50 -> hconj conj (ny_c x) = ny_c x ->
  noisy_chain sq z50 conj ks x = Ok y -> n_kind (ny_net y) = n_kind (ny_net x) -> y = x.
Proof. intros K sq z50 conj two g ca cm cc c1 c0 ks x y Z HC H E. now apply (C33_chains_agree K sq z50 conj two g ca cm cc c1 c0 ks [] x). Qed.
Print Assumptions C33_round_trip.

Definition ny_list (r : result (@noisy fQ)) : option (list Q) := match r with Ok x => Some (m2_list (n_m (ny_net x)) ++ m2_list (ny_c x)) | Err _ => None end.
Definition nyx : @noisy fQ := mkNoisy (mkNet KABCD z4 (mQ 1 2 3 5)) (mQ 7 1 1 2).
Example C33_example : let id := fun x : fQ => x in
  hconj id (ny_c nyx) = ny_c nyx /\
  ny_list (noisy_chain sqQ z4 id [KY; KS; KZ; KABCD] nyx) = ny_list (Ok nyx) /\
  ny_list (noisy_chain sqQ z4 id [KY; KS] nyx) = ny_list (noisy_convert sqQ z4 id KS nyx) /\
  ny_list (noisy_convert sqQ z4 id KS nyx) <> None.
Proof. split; [reflexivity|]. vm_compute. repeat split; discriminate. Qed.
