(** Lemmas about operations on whole blocks. *)
From Coq Require Import Ascii String List Arith ZArith Bool Lia Permutation.
From Verif Require Import Model_NdArray Proofs_NdArray Model_Dim Model_Array Spec_Array Proofs_Array Proofs_Array2 Proofs_Array3
  Proofs_Array4 Proofs_Array5 Model_DataDict Spec_DataDict Proofs_DataDict Model_Text Model_Block Spec_Block Proofs_Block Proofs_Block2
  Proofs_Block3 Model_BlockOps Spec_BlockOps.
Import ListNotations.
Local Open Scope nat_scope.
Local Open Scope list_scope.

(** ** Items *)
Lemma mapM_items : forall {V} (d : ddict V) ks l, mapM (fun k => do v <- dd_get k d; Ok (k, v)) ks = Ok l ->
  map fst l = ks /\ forall k v, In (k, v) l -> pd_get k (dd_map d) = Some v.
Proof.
  intros V d. induction ks as [|k ks IH]; intros l H; cbn [mapM] in H.
  - injection H as <-. split; auto. intros k v [].
  - unfold dd_get in H at 1. destruct (pd_get k (dd_map d)) as [v|] eqn:E; cbn [of_option bind] in H; [|discriminate H].
    destruct (mapM _ ks) as [r|] eqn:M; cbn [bind] in H; [|discriminate H]. injection H as <-.
    destruct (IH r eq_refl) as [H1 H2]. split; [simpl; now rewrite H1|]. intros k0 v0 [H|H]; [congruence|auto].
Qed.
Lemma items_iter : forall {V} (d : ddict V) l, dd_items d = Ok l -> map fst l = dd_iter d.
Proof. intros V d l H. apply (mapM_items d _ l H). Qed.
Lemma get_in_pairs : forall {V} k (v : V) l, pd_get k l = Some v -> In (k, v) l.
Proof.
  induction l as [|[k0 v0] l IH]; cbn [pd_get]; [discriminate|]. destruct (String.eqb_spec k k0) as [->|E]; intros H.
  - injection H as ->. now left.
  - right. auto.
Qed.
Lemma items_get : forall {V} (d : ddict V) l k, dd_items d = Ok l -> pd_get k (dd_map d) = pd_get k l.
Proof.
  intros V d l k H. destruct (mapM_items d _ l H) as [H1 H2]. destruct (pd_get k l) as [v|] eqn:E.
  - apply H2. now apply get_in_pairs.
  - apply pd_get_none. intros K. apply pd_get_none in E. apply E. unfold keys. rewrite H1. unfold dd_iter. apply in_or_app.
    destruct (l_in k (dd_order d)) eqn:L; [left; now apply l_in_In|]. right. apply filter_In. split; auto. now rewrite L.
Qed.
Lemma in_get : forall {V} k (v : V) l, NoDup (map fst l) -> In (k, v) l -> pd_get k l = Some v.
Proof.
  induction l as [|[k0 v0] l IH]; intros ND H; [destruct H|]. cbn [pd_get]. simpl in ND. apply NoDup_cons_iff in ND as [N ND].
  destruct H as [H|H].
  - injection H as -> ->. now rewrite String.eqb_refl.
  - destruct (String.eqb_spec k k0) as [->|E]; [|auto]. exfalso. apply N. now apply (in_map fst) in H.
Qed.

(** ** First of each name *)
Lemma first_of_in : forall {V} (l : list (string * V)) p, In p (first_of l) -> In p l.
Proof.
  induction l as [|x l IH]; simpl; auto. intros p [H|H]; auto. apply filter_In in H as [H _]. auto.
Qed.
Lemma first_of_id : forall {V} (l : list (string * V)), NoDup (map fst l) -> first_of l = l.
Proof.
  induction l as [|x l IH]; simpl; auto. intros ND. apply NoDup_cons_iff in ND as [N ND]. rewrite IH by auto. f_equal.
  clear - N. induction l as [|y l IHl]; simpl in *; auto. destruct (String.eqb_spec (fst x) (fst y)) as [E|E]; simpl; [exfalso; apply N; left; congruence|].
  rewrite IHl; tauto.
Qed.
Lemma filter_skip : forall {V} k (l : list (string * V)) f, f k = false ->
  filter (fun y => f (fst y)) (filter (fun y => negb (String.eqb k (fst y))) l) = filter (fun y : string * V => f (fst y)) l.
Proof.
  intros V k l f F. induction l as [|y l IH]; simpl; auto. destruct (String.eqb_spec k (fst y)) as [E|E]; simpl.
  - rewrite <- E, F. exact IH.
  - destruct (f (fst y)); now rewrite IH.
Qed.
Lemma first_of_skip : forall {V} (l r : list (string * V)) x, In (fst x) (map fst l) -> first_of (l ++ x :: r) = first_of (l ++ r).
Proof.
  induction l as [|y l IH]; simpl; [intros r x []|]. intros r x [E|H].
  - f_equal. clear IH.
    assert (G : forall m, filter (fun z => negb (String.eqb (fst y) (fst z))) (first_of (m ++ x :: r)) =
                          filter (fun z => negb (String.eqb (fst y) (fst z))) (first_of (m ++ r))).
    { induction m as [|z m IHm]; simpl.
      - rewrite <- E, String.eqb_refl. cbn [negb]. apply (filter_skip (fst y) (first_of r) (fun k => negb (String.eqb (fst y) k))).
        now rewrite String.eqb_refl.
      - destruct (String.eqb_spec (fst y) (fst z)) as [Q|Q]; simpl.
        + rewrite <- Q. rewrite !(filter_skip (fst y) _ (fun k => negb (String.eqb (fst y) k))) by now rewrite String.eqb_refl. exact IHm.
        + f_equal. 
          assert (C : forall l0 : list (string * V), filter (fun z0 => negb (String.eqb (fst y) (fst z0))) (filter (fun y0 => negb (String.eqb (fst z) (fst y0))) l0) =
                      filter (fun y0 => negb (String.eqb (fst z) (fst y0))) (filter (fun z0 => negb (String.eqb (fst y) (fst z0))) l0)).
          { clear. induction l0 as [|a l0 IH]; simpl; auto. destruct (negb (String.eqb (fst z) (fst a))) eqn:E1; destruct (negb (String.eqb (fst y) (fst a))) eqn:E2; simpl; rewrite ?E1, ?E2; simpl; now rewrite IH. }
          rewrite !C, IHm. reflexivity. }
    apply G.
  - f_equal. now rewrite IH.
Qed.
Lemma add_ivars_abs : forall ds iv, Inv iv -> dabs (add_ivars ds iv) = first_of (dabs iv ++ map (fun d => (d_name d, d)) ds).
Proof.
  unfold add_ivars. induction ds as [|d ds IH]; intros iv HI; cbn [fold_left map].
  - rewrite app_nil_r. symmetry. apply first_of_id. now apply abs_NoDup.
  - destruct (dd_contains (d_name d) iv) eqn:C.
    + rewrite IH by auto. symmetry. apply first_of_skip. now apply contains_abs.
    + rewrite IH by now apply set_Inv. rewrite abs_set_new; auto.
      * now rewrite <- app_assoc.
      * intros H. apply contains_abs in H; auto. congruence.
Qed.
Lemma first_of_twice : forall {V} (l r : list (string * V)), first_of (first_of l ++ r) = first_of (l ++ r).
Proof.
  intros V l r.
  assert (G : forall (m l : list (string * V)), (forall p, In p l -> True) -> first_of (m ++ first_of l ++ r) = first_of (m ++ l ++ r)).
  { clear l. intros m l _. revert m. induction l as [|x l IH]; intros m; auto. cbn [first_of app].
    transitivity (first_of ((m ++ [x]) ++ first_of l ++ r)).
    - rewrite <- app_assoc. cbn [app].
      assert (F : forall (q m : list (string * V)), In x m -> first_of (m ++ filter (fun y => negb (String.eqb (fst x) (fst y))) q ++ r) = first_of (m ++ q ++ r)).
      { clear. induction q as [|y q IHq]; intros m Hm; simpl; auto. destruct (String.eqb_spec (fst x) (fst y)) as [E|E]; simpl.
        - rewrite IHq by auto. symmetry. apply first_of_skip. rewrite <- E. now apply in_map.
        - specialize (IHq (m ++ [y])). rewrite <- !app_assoc in IHq. apply IHq. apply in_or_app. now left. }
      specialize (F (first_of l) (m ++ [x])). rewrite <- !app_assoc in F. cbn [app] in F. apply F. apply in_or_app. right. now left.
    - rewrite (IH (m ++ [x])). now rewrite <- app_assoc. }
  apply (G [] l). auto.
Qed.
Lemma ivars_of_abs : forall {A} (l : list (string * hf A)) iv, Inv iv ->
  dabs (ivars_of l iv) = first_of (dabs iv ++ map (fun d => (d_name d, d)) (flat_map (fun p => h_dims (snd p)) l)).
Proof.
  unfold ivars_of. intros A. induction l as [|p l IH]; intros iv HI; cbn [fold_left flat_map].
  - simpl. rewrite app_nil_r. symmetry. apply first_of_id. now apply abs_NoDup.
  - rewrite IH by now apply add_ivars_Inv. rewrite add_ivars_abs by auto. rewrite first_of_twice. now rewrite map_app, app_assoc.
Qed.

(** ** keep_variables *)
Lemma get_variable : forall {A} (b : block A) vs ivs k x, dd_items (b_var b) = Ok vs -> dd_items (b_ivar b) = Ok ivs ->
  pd_get k vs = Some x -> ~ In k (map fst ivs) -> b_get k b = Ok (FVar x).
Proof.
  intros A b vs ivs k x HV HI G N. unfold b_get. rewrite (items_get _ _ k HI), (items_get _ _ k HV), G.
  assert (E : pd_get k ivs = None) by now apply pd_get_none. now rewrite E.
Qed.
Lemma picked_one : forall {V} k (vs : list (string * V)), NoDup (map fst vs) ->
  filter (fun p => String.eqb (fst p) k) vs = match pd_get k vs with Some x => [(k, x)] | None => [] end.
Proof.
  induction vs as [|[k0 x0] vs IH]; cbn [filter map pd_get fst]; auto. intros ND. apply NoDup_cons_iff in ND as [N ND]. rewrite IH by auto.
  rewrite (String.eqb_sym k0 k). destruct (String.eqb_spec k k0) as [->|E]; auto.
  assert (G : pd_get k0 vs = None) by now apply pd_get_none. now rewrite G.
Qed.
Lemma keep_loop_sets : forall {A} (lab : A -> label) emb (b : block A) vs ivs names out, dd_items (b_var b) = Ok vs -> dd_items (b_ivar b) = Ok ivs ->
  NoDup (map fst vs) -> (forall k, In k names -> ~ In k (map fst ivs)) ->
  keep_loop lab emb names b out = sets lab (picked names vs) out.
Proof.
  intros A lab emb b vs ivs names out HV HI ND. revert out. induction names as [|k names IH]; intros out HN; auto. cbn [keep_loop].
  unfold picked. cbn [flat_map]. fold (picked names vs). rewrite (picked_one k vs ND). unfold b_contains, dd_contains, pd_has.
  rewrite (items_get _ _ k HV), (items_get _ _ k HI).
  assert (E : pd_get k ivs = None) by (apply pd_get_none; apply HN; now left). rewrite E.
  destruct (pd_get k vs) as [x|] eqn:G.
  - cbn [orb app sets]. rewrite (get_variable b vs ivs k x HV HI G) by (apply HN; now left). cbn [bind found_arr].
    destruct (b_set lab k x out); cbn [bind]; auto. apply IH. intros k0 H0. apply HN. now right.
  - cbn [orb app]. apply IH. intros k0 H0. apply HN. now right.
Qed.
Lemma picked_names : forall {V} (vs : list (string * V)) names, NoDup (map fst vs) -> NoDup names ->
  NoDup (map fst (picked names vs)) /\ (forall k, In k (map fst (picked names vs)) -> In k names).
Proof.
  intros V vs names ND. induction names as [|k names IH]; intros NN; [split; [constructor|auto]|].
  apply NoDup_cons_iff in NN as [N NN]. destruct (IH NN) as [I1 I2]. unfold picked. cbn [flat_map]. fold (picked names vs).
  rewrite (picked_one k vs ND). destruct (pd_get k vs) as [x|]; simpl.
  - split; [constructor; auto|]. intros k0 [->|H]; auto.
  - split; auto.
Qed.

(** ** The loops as sequences of assignments *)
Lemma squeeze_loop_sets : forall {A} (lab : A -> label) emb (b : block A) vs ivs ws names out, dd_items (b_var b) = Ok vs -> dd_items (b_ivar b) = Ok ivs ->
  Forall2 (fun k w => fst w = k /\ ~ In k (map fst ivs) /\ exists x, pd_get k vs = Some x /\ squeeze None x = Ok (snd w)) names ws ->
  squeeze_loop lab emb names b out = sets lab ws out.
Proof.
  intros A lab emb b vs ivs ws names out HV HI F. revert out. induction F as [|k w names ws [E [N [x [G S1]]]] F IH]; intros out; auto.
  cbn [squeeze_loop]. destruct w as [k' y]. cbn [fst snd] in E, S1. subst k'. cbn [sets].
  rewrite (get_variable b vs ivs k x HV HI G N). cbn [bind found_arr]. rewrite S1. cbn [bind].
  destruct (b_set lab k y out); cbn [bind]; auto.
Qed.
Lemma collapse_loop_sets : forall {A} (lab : A -> label) emb newname (b : block A) vs ivs ws names out, dd_items (b_var b) = Ok vs -> dd_items (b_ivar b) = Ok ivs ->
  Forall2 (fun k w => fst w = k /\ ~ In k (map fst ivs) /\ exists x, pd_get k vs = Some x /\ remove_rep newname x = Ok (snd w)) names ws ->
  collapse_loop lab emb newname names b out = sets lab ws out.
Proof.
  intros A lab emb newname b vs ivs ws names out HV HI F. revert out. induction F as [|k w names ws [E [N [x [G S1]]]] F IH]; intros out; auto.
  cbn [collapse_loop]. destruct w as [k' y]. cbn [fst snd] in E, S1. subst k'. cbn [sets].
  rewrite (get_variable b vs ivs k x HV HI G N). cbn [bind found_arr]. rewrite S1. cbn [bind].
  destruct (b_set lab k y out); cbn [bind]; auto.
Qed.
Lemma sets_app : forall {A} (lab : A -> label) l1 l2 (b : block A), sets lab (l1 ++ l2) b = (do b' <- sets lab l1 b; sets lab l2 b').
Proof.
  induction l1 as [|[k v] l1 IH]; intros l2 b; auto. cbn [app sets]. destruct (b_set lab k v b); cbn [bind]; auto.
Qed.

(** ** Setting dimensions *)
Lemma set_dims_var : forall {A} l (b : block A), b_var (set_dims l b) = b_var b.
Proof. unfold set_dims. induction l as [|p l IH]; intros b; simpl; auto. now rewrite IH. Qed.
Lemma set_dims_ivar : forall {A} l (b : block A), b_ivar (set_dims l b) = fold_left (fun iv p => dd_set (fst p) (snd p) iv) l (b_ivar b).
Proof. unfold set_dims. induction l as [|p l IH]; intros b; simpl; auto. now rewrite IH. Qed.
Lemma fold_sets_Inv : forall {V} (l : list (string * V)) d, Inv d -> Inv (fold_left (fun iv p => dd_set (fst p) (snd p) iv) l d).
Proof. induction l as [|p l IH]; intros d H; simpl; auto. apply IH. now apply set_Inv. Qed.
Lemma fold_sets_order : forall {V} (l : list (string * V)) d, Inv d ->
  map (fun k => (k, tt)) (dd_order (fold_left (fun iv p => dd_set (fst p) (snd p) iv) l d)) = first_of (map (fun k => (k, tt)) (dd_order d ++ map fst l)).
Proof.
  induction l as [|p l IH]; intros d H; cbn [fold_left map].
  - rewrite app_nil_r. symmetry. apply first_of_id. rewrite map_map. cbn [fst]. rewrite map_id. apply H.
  - rewrite IH by now apply set_Inv. unfold dd_set. cbn [dd_order]. rewrite !map_app. cbn [map].
    destruct (l_in (fst p) (dd_order d)) eqn:L.
    + symmetry. apply first_of_skip. cbn [fst]. rewrite map_map. cbn [fst]. rewrite map_id. now apply l_in_In.
    + rewrite map_app. cbn [map]. now rewrite <- app_assoc.
Qed.
Lemma fold_sets_get : forall {V} (l : list (string * V)) d k, NoDup (map fst l) ->
  pd_get k (dd_map (fold_left (fun iv p => dd_set (fst p) (snd p) iv) l d)) =
  match pd_get k l with Some v => Some v | None => pd_get k (dd_map d) end.
Proof.
  induction l as [|[k0 v0] l IH]; intros d k ND; cbn [fold_left pd_get map fst snd] in *; auto. apply NoDup_cons_iff in ND as [N ND].
  rewrite IH by auto. rewrite get_set. destruct (String.eqb_spec k k0) as [->|E].
  - assert (G : pd_get k0 l = None) by now apply pd_get_none. now rewrite G.
  - reflexivity.
Qed.
