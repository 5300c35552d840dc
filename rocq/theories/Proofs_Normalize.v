(** Lemmas about renaming variables of a block, for Prop_Normalize.v. *)
From Coq Require Import Ascii String List Arith ZArith Bool Lia.
From Verif Require Import Model_NdArray Proofs_NdArray Model_Dim Model_Array Spec_Array Proofs_Array
  Model_DataDict Spec_DataDict Proofs_DataDict Model_Text Model_Block Proofs_Block Proofs_Block2 Proofs_Block3 Prop_Block
  Model_Normalize Spec_Normalize.
Import ListNotations.
Local Open Scope nat_scope.
Local Open Scope string_scope.
Local Open Scope list_scope.

Definition sub (old new n : string) : string := if String.eqb old n then new else n.

Lemma F2_in_l : forall {X Y} (R : X -> Y -> Prop) l l' x, Forall2 R l l' -> In x l -> exists y, In y l' /\ R x y.
Proof. intros X Y R l l' x F. induction F as [|a b l l' H F IH]; intros []; subst; [exists b; split; auto; now left|]. destruct IH as [z [? ?]]; auto. exists z. split; auto. now right. Qed.
Lemma F2_in_r : forall {X Y} (R : X -> Y -> Prop) l l' y, Forall2 R l l' -> In y l' -> exists x, In x l /\ R x y.
Proof. intros X Y R l l' x F. induction F as [|a b l l' H F IH]; intros []; subst; [exists a; split; auto; now left|]. destruct IH as [z [? ?]]; auto. exists z. split; auto. now right. Qed.
Lemma F2_impl : forall {X Y} (R Q : X -> Y -> Prop) l l', (forall x y, In x l -> R x y -> Q x y) -> Forall2 R l l' -> Forall2 Q l l'.
Proof. intros X Y R Q l l' H F. induction F; constructor; [apply H; [now left|auto]|]. apply IHF. intros. apply H; [now right|auto]. Qed.
Lemma F2_trans : forall {X Y Z} (R : X -> Y -> Prop) (Q : Y -> Z -> Prop) (T : X -> Z -> Prop) l m n,
  (forall x y z, R x y -> Q y z -> T x z) -> Forall2 R l m -> Forall2 Q m n -> Forall2 T l n.
Proof. intros X Y Z R Q T l m n H F. revert n. induction F; intros n G; inversion G; subst; constructor; eauto. Qed.
Lemma F2_refl : forall {X} (R : X -> X -> Prop) l, (forall x, In x l -> R x x) -> Forall2 R l l.
Proof. induction l as [|x l IH]; intros H; constructor; [apply H; now left|]. apply IH. intros. apply H. now right. Qed.
Lemma F2_map : forall {X Y} (R : X -> Y -> Prop) (f : X -> Y) l, (forall x, In x l -> R x (f x)) -> Forall2 R l (map f l).
Proof. induction l as [|x l IH]; intros H; simpl; constructor; [apply H; now left|]. apply IH. intros. apply H. now right. Qed.

(** Looking up and being a pair of the dictionary. *)
Lemma pair_get : forall {V} (d : ddict V) k v, Inv d -> (In (k, v) (dabs d) <-> pd_get k (dd_map d) = Some v).
Proof.
  intros V d k v H. rewrite <- abs_get by auto. pose proof (abs_NoDup d H) as ND. induction (dabs d) as [|[k' v'] l IH]; simpl; [split; [tauto|discriminate]|].
  simpl in ND. apply NoDup_cons_iff in ND as [N1 N2]. destruct (String.eqb_spec k k') as [->|N].
  - split; [intros [E|I]; [congruence|]|intros E; left; congruence]. exfalso. apply N1. unfold keys. apply in_map_iff. exists (k', v). auto.
  - rewrite <- IH by auto. split; [intros [E|I]; auto; congruence|auto].
Qed.
Lemma get_pd : forall {V} (d : ddict V) k v, dd_get k d = Ok v <-> pd_get k (dd_map d) = Some v.
Proof. intros V d k v. unfold dd_get. destruct (pd_get k (dd_map d)); simpl; split; congruence. Qed.
Lemma contains_keys : forall {V} (d : ddict V) k, Inv d -> (dd_contains k d = true <-> In k (keys (dabs d))).
Proof.
  intros V d k H. rewrite contains_get. split.
  - intros [v E]. apply pair_get in E; auto. unfold keys. apply in_map_iff. exists (k, v). auto.
  - unfold keys. intros I. apply in_map_iff in I as [[k' v] [E I]]. simpl in E. subst. exists v. now apply pair_get.
Qed.

Section N.
  Context {A : Type}.
  Implicit Types b : block A.

  Definition names b : list string := keys (dabs (b_var b)) ++ keys (dabs (b_ivar b)).
  Definition WF b : Prop := BInv b /\ orderly b.
  Definition ren (gv gi : string -> string) b b' : Prop :=
    Forall2 (fun kx ky : string * hf A => fst ky = gv (fst kx) /\ array_named gi (snd kx) (snd ky)) (dabs (b_var b)) (dabs (b_var b')) /\
    Forall2 (fun nd nd' : string * dim => fst nd' = gi (fst nd) /\ dim_named gi (snd nd) (snd nd')) (dabs (b_ivar b)) (dabs (b_ivar b')).

  Lemma ren_renamed : forall gv gi b b', BInv b -> BInv b' -> ren gv gi b b' -> renamed gv gi b b'.
  Proof.
    intros gv gi b b' [H1 [H2 _]] [H3 [H4 _]] [R1 R2]. exists (dabs (b_var b)), (dabs (b_var b')), (dabs (b_ivar b)), (dabs (b_ivar b')).
    repeat split; auto; now apply items_abs.
  Qed.
  Lemma dim_named_comp : forall g h d d' d'', dim_named g d d' -> dim_named h d' d'' -> dim_named (fun n => h (g n)) d d''.
  Proof. unfold dim_named. intros g h d d' d'' [A1 [A2 [A3 A4]]] [B1 [B2 [B3 B4]]]. rewrite B1, B2, B3, B4, A1. auto. Qed.
  Lemma array_named_comp : forall g h (x y z : hf A), array_named g x y -> array_named h y z -> array_named (fun n => h (g n)) x z.
  Proof.
    intros g h x y z [A1 [A2 [A3 [A4 A5]]]] [B1 [B2 [B3 [B4 B5]]]]. unfold array_named. rewrite B1, B2, B3, B4. repeat split; auto.
    eapply F2_trans; [|exact A5|exact B5]. intros. eapply dim_named_comp; eauto.
  Qed.
  Lemma ren_comp : forall gv gi hv hi b b' b'', ren gv gi b b' -> ren hv hi b' b'' -> ren (fun n => hv (gv n)) (fun n => hi (gi n)) b b''.
  Proof.
    intros gv gi hv hi b b' b'' [A1 A2] [B1 B2]. split.
    - eapply F2_trans; [|exact A1|exact B1]. cbn. intros x y z [E1 E2] [E3 E4]. split; [congruence|]. eapply array_named_comp; eauto.
    - eapply F2_trans; [|exact A2|exact B2]. cbn. intros x y z [E1 E2] [E3 E4]. split; [congruence|]. eapply dim_named_comp; eauto.
  Qed.
  Lemma dims_in_names : forall b k x d, BInv b -> In (k, x) (dabs (b_var b)) -> In d (h_dims x) -> In (d_name d) (keys (dabs (b_ivar b))).
  Proof. intros b k x d [H1 [H2 H3]] I J. apply contains_keys; auto. apply (H3 k x); auto. now apply pair_get. Qed.
  Lemma ivar_named : forall b n d, WF b -> In (n, d) (dabs (b_ivar b)) -> d_name d = n.
  Proof. intros b n d [[H1 [H2 H3]] [_ [O _]]] I. apply (O n). apply get_pd. now apply pair_get. Qed.
  Lemma ren_ext : forall gv gi hv hi b b', WF b -> (forall n, In n (keys (dabs (b_var b))) -> gv n = hv n) ->
    (forall n, In n (keys (dabs (b_ivar b))) -> gi n = hi n) -> ren gv gi b b' -> ren hv hi b b'.
  Proof.
    intros gv gi hv hi b b' W E1 E2 [R1 R2]. pose proof W as [HB HO]. split.
    - eapply F2_impl; [|exact R1]. cbn. intros [k x] ky I [F [A1 [A2 [A3 [A4 A5]]]]]. split.
      { rewrite F. apply E1. unfold keys. apply in_map_iff. exists (k, x). auto. }
      unfold array_named. repeat split; auto. eapply F2_impl; [|exact A5]. cbn. intros d d' J [D1 [D2 [D3 D4]]]. unfold dim_named. repeat split; auto.
      rewrite D1. apply E2. eapply dims_in_names; eauto.
    - eapply F2_impl; [|exact R2]. cbn. intros [n d] nd I [F [D1 [D2 [D3 D4]]]]. split.
      { rewrite F. apply E2. unfold keys. apply in_map_iff. exists (n, d). auto. }
      unfold dim_named. repeat split; auto. rewrite D1. cbn [snd]. apply E2. rewrite (ivar_named b n d) by auto. unfold keys. apply in_map_iff. exists (n, d). auto.
  Qed.
  Lemma ren_id : forall b, ren (fun n => n) (fun n => n) b b.
  Proof.
    intros b. split; apply F2_refl; intros x _; split; auto; unfold array_named; repeat split; auto. apply F2_refl. intros d _. unfold dim_named. auto.
  Qed.
  Lemma ren_keys_v : forall gv gi b b', ren gv gi b b' -> keys (dabs (b_var b')) = map gv (keys (dabs (b_var b))).
  Proof. intros gv gi b b' [R _]. induction R as [|x y l m [E _] R IH]; simpl; auto. unfold keys in *. cbn [map]. now rewrite E, IH. Qed.
  Lemma ren_keys_i : forall gv gi b b', ren gv gi b b' -> keys (dabs (b_ivar b')) = map gi (keys (dabs (b_ivar b))).
  Proof. intros gv gi b b' [_ R]. induction R as [|x y l m [E _] R IH]; simpl; auto. unfold keys in *. cbn [map]. now rewrite E, IH. Qed.
  Lemma ren_names : forall g b b', ren g g b b' -> names b' = map g (names b).
  Proof. intros g b b' R. unfold names. rewrite map_app, (ren_keys_v _ _ _ _ R), (ren_keys_i _ _ _ _ R). reflexivity. Qed.

  (** A renaming to different names keeps the block in order. *)
  Definition usables b : Prop := forall n d, In (n, d) (dabs (b_ivar b)) -> d_data d <> [] \/ d_fmt d <> None.
  Lemma ren_orderly : forall g b b', WF b -> BInv b' -> ren g g b b' -> (forall n m, In n (names b) -> In m (names b) -> g n = g m -> n = m) ->
    usables b' -> orderly b'.
  Proof.
    intros g b b' W HB' R J U. pose proof W as [HB [O1 [O2 O3]]]. pose proof HB as [H1 [H2 H3]]. pose proof HB' as [H1' [H2' H3']]. split; [|split].
    - intros k C. apply contains_keys in C; auto. rewrite (ren_keys_v _ _ _ _ R) in C. apply in_map_iff in C as [k0 [E C]].
      destruct (dd_contains k (b_ivar b')) eqn:D; auto. exfalso. apply contains_keys in D; auto. rewrite (ren_keys_i _ _ _ _ R) in D. apply in_map_iff in D as [k1 [F D]].
      assert (k0 = k1). { apply J; [unfold names; apply in_or_app; now left|unfold names; apply in_or_app; now right|congruence]. }
      subst k1. apply contains_keys in C; auto. apply contains_keys in D; auto. apply O1 in C. congruence.
    - intros n d G. apply get_pd in G. apply pair_get in G; auto. split; [|now apply (U n)].
      destruct R as [_ R]. destruct (F2_in_r _ _ _ _ R G) as [[n0 d0] [I [E1 [E2 _]]]]. cbn in E1, E2. rewrite E1, E2. now rewrite (ivar_named b n0 d0).
    - intros k x' d' i' G Id Gi. apply get_pd in G. apply pair_get in G; auto. apply get_pd in Gi. apply pair_get in Gi; auto.
      destruct R as [R1 R2]. destruct (F2_in_r _ _ _ _ R1 G) as [[k0 x] [I [E1 [_ [_ [_ [_ FD]]]]]]]. cbn [snd] in FD.
      destruct (F2_in_r _ _ _ _ FD Id) as [d [Jd [D1 [D2 [D3 D4]]]]].
      destruct (F2_in_r _ _ _ _ R2 Gi) as [[n i] [Ii [E2 [I1 [I2 [I3 I4]]]]]]. cbn [snd fst] in *.
      assert (E : d_name d = n).
      { apply J; [unfold names; apply in_or_app; right; eapply dims_in_names; eauto|unfold names; apply in_or_app; right; unfold keys; apply in_map_iff; exists (n, i); auto|congruence]. }
      rewrite I2, I3, I4, D2, D3, D4. apply (O3 k0 x d i); [apply get_pd; now apply pair_get|auto|]. rewrite E. apply get_pd. now apply pair_get.
  Qed.

  Lemma relabel_map : forall {V} old new (l : list (string * V)), relabel old new l = map (fun p => (sub old new (fst p), snd p)) l.
  Proof.
    intros V old new l. unfold relabel. apply map_ext. intros [k v]. unfold sub. cbn [fst snd]. destruct (string_dec k old), (String.eqb_spec old k); congruence.
  Qed.
  Lemma store_relabel : forall {V} old new (l : list (string * V)) v, NoDup (keys l) -> ~ In new (keys l) -> In old (keys l) ->
    store new v (relabel old new l) = map (fun p => (sub old new (fst p), if String.eqb old (fst p) then v else snd p)) l.
  Proof.
    intros V old new l v. rewrite relabel_map. induction l as [|[k w] l IH]; intros ND N I; [destruct I|].
    simpl in ND, N, I. apply NoDup_cons_iff in ND as [N1 N2]. cbn [map store fst snd]. assert (Sk : sub old new k = if String.eqb old k then new else k) by reflexivity. rewrite Sk. destruct (String.eqb_spec old k) as [->|Nk].
    - destruct (string_dec new new) as [_|]; [|congruence]. f_equal. apply map_ext_in. intros [k' w'] Ik. cbn. destruct (String.eqb_spec k k') as [->|]; auto.
      exfalso. apply N1. unfold keys. apply in_map_iff. exists (k', w'). auto.
    - destruct (string_dec k new) as [->|_]; [exfalso; apply N; now left|]. f_equal. apply IH; auto. destruct I; auto; congruence.
  Qed.
  Lemma rename_new : forall {V} old new v (d : ddict V), Inv d -> pd_get old (dd_map d) = Some v -> ~ In new (keys (dabs d)) ->
    exists d', dd_rename old new d = Ok d' /\ Inv d' /\ dabs d' = relabel old new (dabs d).
  Proof.
    intros V old new v d H E N. assert (L : lookup old (dabs d) = Some v) by (now rewrite lookup_get, abs_get).
    destruct (rename_ok old new v d H L) as [d' [R1 [R2 R3]]]. exists d'. split; auto. split; auto. rewrite R3. cbn [spec_step]. rewrite L.
    destruct (string_dec old new) as [->|Nn].
    { exfalso. apply N. unfold keys. apply in_map_iff. exists (new, v). split; auto. now apply pair_get. }
    rewrite lookup_get, (proj2 (pd_get_none new (dabs d)) N). reflexivity.
  Qed.

  Lemma sub_inj : forall old new b, ~ In new (names b) -> forall n m, In n (names b) -> In m (names b) -> sub old new n = sub old new m -> n = m.
  Proof. intros old new b N n m I J E. unfold sub in E. destruct (String.eqb_spec old n), (String.eqb_spec old m); subst; auto; contradiction. Qed.

  (** One renaming. *)
  Lemma rename_step : forall old new b, WF b -> ~ In new (names b) \/ ~ In old (names b) ->
    exists b', b_rename old new b = Ok b' /\ WF b' /\ ren (sub old new) (sub old new) b b'.
  Proof.
    intros old new b W HN. pose proof W as [HB [O1 [O2 O3]]]. pose proof HB as [H1 [H2 H3]]. unfold b_rename.
    assert (ABS : ~ In old (names b) -> ren (sub old new) (sub old new) b b).
    { intros Na. apply (ren_ext (fun n => n) (fun n => n)); auto; [| |apply ren_id]; intros n I; unfold sub; destruct (String.eqb_spec old n) as [<-|]; auto;
        exfalso; apply Na; unfold names; apply in_or_app; auto. }
    destruct (pd_get old (dd_map (b_ivar b))) as [d|] eqn:Ed.
    - assert (In old (names b)). { unfold names. apply in_or_app. right. apply contains_keys; auto. apply contains_get. eauto. }
      destruct HN as [HN|HN]; [|contradiction].
      assert (G : dd_get old (b_ivar b) = Ok d) by now apply get_pd. destruct (O2 old d G) as [Nd Us].
      assert (Hf : exists f, outputformat d = Ok f).
      { unfold outputformat. destruct Us as [Us|Us]; destruct (d_fmt d) eqn:Ef; eauto; try congruence. destruct (d_data d) as [|[]]; eauto; congruence. }
      destruct Hf as [f Hf].
      assert (Hnew : exists d', dim_with d (Some new) None None = Ok d' /\ d_fmt d' = Some f) by (unfold dim_with; rewrite Hf; cbn [bind]; eauto).
      destruct Hnew as [d' [Hnew Fd']]. destruct (dim_with_name _ _ _ _ _ Hnew) as [N1 [N2 [N3 N4]]]. rewrite Hnew. cbn [bind].
      destruct (replace_dim_b_total d d' b HB) as [b1 Hb1]. { unfold dd_contains, pd_has. now rewrite Nd, Ed. }
      destruct (replace_dim_b _ _ _ _ HB Hb1) as [HB1 _]. exists b1. split; auto.
      unfold b_replace_dim in Hb1. rewrite Nd in Hb1. destruct (dd_contains old (b_ivar b)) eqn:Co; [|discriminate].
      assert (Nv : ~ In new (keys (dabs (b_ivar b)))) by (intros I; apply HN; unfold names; apply in_or_app; auto).
      destruct (rename_new old new d (b_ivar b) H2 Ed Nv) as [iv [R1 [R2 R3]]]. rewrite N1, R1 in Hb1. cbn [bind] in Hb1.
      destruct (copy_ok (replace_dim d d') (b_var b) H1) as [w [C1 [C2 C3]]]. rewrite C1 in Hb1. cbn [bind] in Hb1. injection Hb1 as Hb1.
      assert (DI : dabs (b_ivar b1) = map (fun p => (sub old new (fst p), if String.eqb old (fst p) then d' else snd p)) (dabs (b_ivar b))).
      { rewrite <- Hb1. cbn [b_ivar]. rewrite set_abs by auto. rewrite R3. apply store_relabel; [now apply abs_NoDup|auto|]. now apply contains_keys. }
      assert (RN : ren (sub old new) (sub old new) b b1).
      { split.
        - rewrite <- Hb1. cbn [b_var]. rewrite C3. apply F2_map. intros [k x] I. cbn [fst snd].
          assert (k <> old). { intros ->. assert (C : dd_contains old (b_var b) = true). { apply contains_keys; auto. unfold keys. apply in_map_iff. exists (old, x). auto. } apply O1 in C. congruence. }
          split. { unfold sub. destruct (String.eqb_spec old k); congruence. }
          unfold array_named, replace_dim. cbn [h_nd h_dt h_unit h_fmt h_dims]. repeat split; auto. unfold replace_dim_list. apply F2_map.
          intros d0 I0. unfold dim_named, sub. rewrite Nd. destruct (String.eqb_spec old (d_name d0)) as [E|E]; [|auto]. rewrite N1, N2, N3, N4. split; auto.
          apply (O3 k x d0 d); auto; [apply get_pd; now apply pair_get|]. rewrite <- E. auto.
        - rewrite DI. apply F2_map. intros [n e] I. cbn [fst snd]. split; auto. unfold dim_named, sub. pose proof (ivar_named b n e W I) as En. rewrite En.
          destruct (String.eqb_spec old n) as [<-|E]; [|auto]. rewrite N1, N2, N3, N4. assert (e = d). { apply pair_get in I; auto. congruence. } subst. auto. }
      split; [|exact RN]. split; auto. apply (ren_orderly (sub old new) b); auto; [now apply sub_inj|].
      intros n e I. rewrite DI in I. apply in_map_iff in I as [[n0 e0] [E I]]. cbn [fst snd] in E. destruct (String.eqb old n0); injection E as <- <-.
      + right. congruence.
      + apply (O2 n0). apply get_pd. now apply pair_get.
    - assert (Ni : dd_contains old (b_ivar b) = false) by (unfold dd_contains, pd_has; now rewrite Ed).
      destruct (dd_contains old (b_var b)) eqn:Cv.
      + apply contains_get in Cv as Cg. destruct Cg as [x Ex].
        assert (In old (names b)). { unfold names. apply in_or_app. left. apply contains_keys; auto. }
        destruct HN as [HN|HN]; [|contradiction].
        assert (Nv : ~ In new (keys (dabs (b_var b)))) by (intros I; apply HN; unfold names; apply in_or_app; auto).
        destruct (rename_new old new x (b_var b) H1 Ex Nv) as [v [R1 [R2 R3]]]. rewrite R1. cbn [bind]. eexists. split; [reflexivity|].
        set (b1 := mkBlock v (b_ivar b) (b_x b)).
        assert (RN : ren (sub old new) (sub old new) b b1).
        { split.
          - unfold b1. cbn [b_var]. rewrite R3, relabel_map. apply F2_map. intros [k y] I. cbn [fst snd]. split; auto. unfold array_named. repeat split; auto.
            apply F2_refl. intros d0 I0. unfold dim_named, sub. repeat split; auto. destruct (String.eqb_spec old (d_name d0)) as [E|E]; auto.
            exfalso. pose proof (dims_in_names b k y d0 HB I I0) as Q. rewrite <- E in Q. apply contains_keys in Q; auto. congruence.
          - unfold b1. cbn [b_ivar]. apply F2_refl. intros [n e] I. cbn [fst snd].
            assert (NE : old <> n). { intros <-. apply pair_get in I; auto. congruence. }
            unfold dim_named, sub. rewrite (ivar_named b n e W I). destruct (String.eqb_spec old n); [contradiction|]. auto. }
        assert (HB1 : BInv b1).
        { split; [exact R2|]. split; [exact H2|]. intros k y d0 G I0. unfold b1 in *. cbn [b_var b_ivar] in *. apply pair_get in G; auto. rewrite R3, relabel_map in G.
          apply in_map_iff in G as [[k0 y0] [E I]]. cbn [fst snd] in E. injection E as _ <-. apply (H3 k0 y0); auto. now apply pair_get. }
        split; [|exact RN]. split; auto. apply (ren_orderly (sub old new) b); auto; [now apply sub_inj|].
        intros n e I. apply (O2 n). apply get_pd. now apply pair_get.
      + exists b. split; auto. split; auto. apply ABS. unfold names. intros I. apply in_app_or in I as [I|I]; apply contains_keys in I; auto; congruence.
  Qed.

  Lemma contains_names : forall n b, BInv b -> (b_contains n b = true <-> In n (names b)).
  Proof.
    intros n b [H1 [H2 _]]. unfold b_contains, names. rewrite orb_true_iff, in_app_iff, contains_keys, contains_keys by auto. reflexivity.
  Qed.
End N.
