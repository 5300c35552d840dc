(** Proofs about DataBlock: assignment, lookup, deletion, renaming. *)
From Coq Require Import Ascii String List Arith ZArith Bool Lia Permutation.
From Verif Require Import Model_NdArray Proofs_NdArray Model_Dim Model_Array Spec_Array Proofs_Array
  Model_DataDict Spec_DataDict Proofs_DataDict Model_Text Model_Block.
Import ListNotations.
Local Open Scope nat_scope.
Local Open Scope list_scope.

Lemma contains_get : forall {V} k (d : ddict V), dd_contains k d = true <-> exists v, pd_get k (dd_map d) = Some v.
Proof.
  intros. unfold dd_contains, pd_has. destruct (pd_get k (dd_map d)) as [v|]; split; eauto; try discriminate.
  intros [v H]. discriminate.
Qed.
Lemma contains_set : forall {V} k k' v (d : ddict V),
  dd_contains k (dd_set k' v d) = String.eqb k k' || dd_contains k d.
Proof.
  intros. unfold dd_contains, pd_has, dd_set. cbn [dd_map]. destruct (String.eqb_spec k k').
  - subst. now rewrite pd_get_set_same.
  - now rewrite pd_get_set_other.
Qed.
Lemma get_set : forall {V} k k' v (d : ddict V),
  pd_get k (dd_map (dd_set k' v d)) = if String.eqb k k' then Some v else pd_get k (dd_map d).
Proof.
  intros. unfold dd_set. cbn [dd_map]. destruct (String.eqb_spec k k'); [subst; now rewrite pd_get_set_same|now rewrite pd_get_set_other].
Qed.

(** ** Independent variables added by an assignment *)
Lemma add_ivars_Inv : forall ds iv, Inv iv -> Inv (add_ivars ds iv).
Proof.
  unfold add_ivars. induction ds as [|d ds IH]; simpl; auto. intros iv H. apply IH.
  destruct (dd_contains (d_name d) iv); auto. now apply set_Inv.
Qed.
Lemma add_ivars_old : forall ds iv k d, pd_get k (dd_map iv) = Some d -> pd_get k (dd_map (add_ivars ds iv)) = Some d.
Proof.
  unfold add_ivars. induction ds as [|d0 ds IH]; simpl; auto. intros iv k d H. apply IH.
  destruct (dd_contains (d_name d0) iv) eqn:E; auto. rewrite get_set. destruct (String.eqb_spec k (d_name d0)); auto.
  subst. unfold dd_contains, pd_has in E. rewrite H in E. discriminate.
Qed.
Lemma add_ivars_none : forall ds iv k, pd_get k (dd_map iv) = None -> ~ In k (map d_name ds) ->
  pd_get k (dd_map (add_ivars ds iv)) = None.
Proof.
  unfold add_ivars. induction ds as [|d0 ds IH]; simpl; auto. intros iv k H N. apply IH; [|tauto].
  destruct (dd_contains (d_name d0) iv) eqn:E; auto. rewrite get_set. destruct (String.eqb_spec k (d_name d0)); auto.
  subst. tauto.
Qed.
Lemma add_ivars_in : forall ds iv d, In d ds -> dd_contains (d_name d) (add_ivars ds iv) = true.
Proof.
  induction ds as [|d0 ds IH]; [intros ? ? []|]. intros iv d [<-|H].
  - unfold add_ivars. simpl. fold (add_ivars ds (if dd_contains (d_name d0) iv then iv else dd_set (d_name d0) d0 iv)).
    assert (G : exists v, pd_get (d_name d0) (dd_map (if dd_contains (d_name d0) iv then iv else dd_set (d_name d0) d0 iv)) = Some v).
    { destruct (dd_contains (d_name d0) iv) eqn:E; [now apply contains_get|]. rewrite get_set, String.eqb_refl. eauto. }
    destruct G as [v G]. apply contains_get. exists v. now apply add_ivars_old.
  - unfold add_ivars. simpl. apply (IH _ d H).
Qed.
Lemma add_ivars_new : forall ds iv d, pd_get (d_name d) (dd_map iv) = None -> In d ds ->
  (forall d', In d' ds -> d_name d' = d_name d -> d' = d) ->
  pd_get (d_name d) (dd_map (add_ivars ds iv)) = Some d.
Proof.
  induction ds as [|d0 ds IH]; [intros ? ? ? []|]. intros iv d H0 Hin U. unfold add_ivars. simpl.
  fold (add_ivars ds (if dd_contains (d_name d0) iv then iv else dd_set (d_name d0) d0 iv)).
  destruct (string_dec (d_name d0) (d_name d)) as [E|E].
  - assert (d0 = d) by (apply U; [now left|auto]). subst d0.
    assert (dd_contains (d_name d) iv = false) as -> by (unfold dd_contains, pd_has; now rewrite H0).
    apply add_ivars_old. now rewrite get_set, String.eqb_refl.
  - apply IH; auto.
    + destruct (dd_contains (d_name d0) iv); auto. rewrite get_set. destruct (String.eqb_spec (d_name d) (d_name d0)); congruence.
    + destruct Hin; [congruence|auto].
    + intros. apply U; [now right|auto].
Qed.

(** ** Copying with a function *)
Lemma get_map_pairs : forall {V W} (f : V -> W) k (l : list (string * V)),
  pd_get k (map (fun p => (fst p, f (snd p))) l) = option_map f (pd_get k l).
Proof. induction l as [|[k' v] l IH]; simpl; auto. destruct (String.eqb k k'); auto. Qed.
Lemma copy_get : forall {V W} (f : V -> W) (d : ddict V), Inv d -> exists d', dd_copy f d = Ok d' /\ Inv d' /\
  dd_order d' = dd_order d /\ forall k, pd_get k (dd_map d') = option_map f (pd_get k (dd_map d)).
Proof.
  intros V W f d H. destruct (copy_ok f d H) as [d' [C1 [C2 C3]]]. exists d'. split; auto. split; auto. split.
  - rewrite <- (keys_abs d' C2), C3, <- (keys_abs d H). unfold keys. rewrite map_map. reflexivity.
  - intros k. rewrite <- (abs_get d' k C2), C3, get_map_pairs, abs_get by auto. reflexivity.
Qed.
Lemma rename_get : forall {V} old new (d d' : ddict V), Inv d -> dd_rename old new d = Ok d' ->
  Inv d' /\ exists v, pd_get old (dd_map d) = Some v /\
  forall k, pd_get k (dd_map d') = if String.eqb k new then Some v else if String.eqb k old then None else pd_get k (dd_map d).
Proof.
  intros V old new d d' H R. destruct (lookup old (dabs d)) as [v|] eqn:E.
  2: { rewrite rename_err in R by auto. discriminate. }
  destruct (rename_ok old new v d H E) as [d2 [R1 [R2 R3]]]. rewrite R in R1. injection R1 as <-. split; auto.
  exists v. split; [now rewrite lookup_get, abs_get in E|]. intros k.
  rewrite <- (abs_get d' k R2), R3. cbn [spec_step]. rewrite E. destruct (string_dec old new) as [->|N].
  - rewrite store_set. destruct (String.eqb_spec k new); [subst; now rewrite pd_get_set_same|].
    rewrite pd_get_set_other, get_remove by auto. apply String.eqb_neq in n. rewrite n. now rewrite abs_get.
  - destruct (lookup new (dabs d)) as [w|] eqn:En.
    + rewrite store_set. destruct (String.eqb_spec k new); [subst; now rewrite pd_get_set_same|].
      rewrite pd_get_set_other, get_remove by auto. destruct (String.eqb k old); auto. now rewrite abs_get.
    + assert (Hn : ~ In new (keys (dabs d))) by (apply pd_get_none; now rewrite <- lookup_get).
      rewrite get_relabel by (auto; now apply abs_NoDup). rewrite <- lookup_get, E.
      destruct (String.eqb k new); auto. destruct (String.eqb k old); auto. now rewrite abs_get.
Qed.
Lemma rename_total : forall {V} old new (d : ddict V), Inv d -> dd_contains old d = true -> exists d', dd_rename old new d = Ok d'.
Proof.
  intros V old new d H C. apply contains_get in C as [v C]. destruct (rename_ok old new v d H) as [d' [R _]]; eauto.
  now rewrite lookup_get, abs_get.
Qed.

(** ** The block invariant *)
Definition BInv {A} (b : block A) : Prop :=
  Inv (b_var b) /\ Inv (b_ivar b) /\
  (forall k x d, pd_get k (dd_map (b_var b)) = Some x -> In d (h_dims x) -> dd_contains (d_name d) (b_ivar b) = true).

Lemma empty_BInv : forall {A}, BInv (@b_empty A).
Proof. intros A. split; [apply empty_Inv|]. split; [apply empty_Inv|]. intros k x d H. discriminate. Qed.

Lemma replace_dim_b : forall {A} old new (b b' : block A), BInv b -> b_replace_dim old new b = Ok b' ->
  BInv b' /\ b_x b' = b_x b /\
  (forall k, pd_get k (dd_map (b_var b')) = option_map (replace_dim old new) (pd_get k (dd_map (b_var b)))) /\
  (forall k, pd_get k (dd_map (b_ivar b')) = if String.eqb k (d_name new) then Some new else
             if String.eqb k (d_name old) then None else pd_get k (dd_map (b_ivar b))) /\
  dd_order (b_var b') = dd_order (b_var b).
Proof.
  intros A old new b b' [H1 [H2 H3]] H. unfold b_replace_dim in H.
  destruct (dd_contains (d_name old) (b_ivar b)) eqn:C; [|discriminate].
  destruct (dd_rename (d_name old) (d_name new) (b_ivar b)) as [iv|] eqn:R; [|discriminate]. cbn [bind] in H.
  destruct (rename_get _ _ _ _ H2 R) as [I1 [v0 [I2 I3]]].
  destruct (copy_get (replace_dim old new) (b_var b) H1) as [w [W1 [W2 [W4 W3]]]]. rewrite W1 in H. cbn [bind] in H. injection H as <-.
  cbn [b_var b_ivar b_x].
  assert (G : forall k, pd_get k (dd_map (dd_set (d_name new) new iv)) = if String.eqb k (d_name new) then Some new else
             if String.eqb k (d_name old) then None else pd_get k (dd_map (b_ivar b))).
  { intros k. rewrite get_set, I3. destruct (String.eqb k (d_name new)); auto. }
  split; [|split; [reflexivity|split; [exact W3|split; [exact G|exact W4]]]].
  split; [exact W2|]. split; [now apply set_Inv|]. cbn [b_var b_ivar].
  intros k x d Hx Hd. rewrite W3 in Hx. destruct (pd_get k (dd_map (b_var b))) as [x0|] eqn:E; [|discriminate].
  injection Hx as <-. unfold replace_dim in Hd. cbn [h_dims] in Hd. unfold replace_dim_list in Hd.
  apply in_map_iff in Hd as [d0 [Ed Hd0]]. unfold dd_contains, pd_has. rewrite G.
  destruct (String.eqb_spec (d_name old) (d_name d0)).
  - subst d. now rewrite String.eqb_refl.
  - subst d. destruct (String.eqb_spec (d_name d0) (d_name new)); auto.
    destruct (String.eqb_spec (d_name d0) (d_name old)); [congruence|]. exact (H3 _ _ _ E Hd0).
Qed.
Lemma replace_dim_b_total : forall {A} old new (b : block A), BInv b -> dd_contains (d_name old) (b_ivar b) = true ->
  exists b', b_replace_dim old new b = Ok b'.
Proof.
  intros A old new b [H1 [H2 H3]] C. unfold b_replace_dim. rewrite C.
  destruct (rename_total (d_name old) (d_name new) _ H2 C) as [iv ->]. cbn [bind].
  destruct (copy_get (replace_dim old new) (b_var b) H1) as [w [-> _]]. cbn [bind]. eauto.
Qed.

Lemma set_element_dims : forall {A} (x y : hf A) e v, set_element x e v = Ok y -> h_dims y = h_dims x.
Proof.
  intros A x y e v H. unfold set_element in H. destruct (length (h_shape x) <? 2); [discriminate|].
  destruct (py_pos _ (fst e)); [|discriminate]. cbn [of_option bind] in H. destruct (py_pos _ (snd e)); [|discriminate].
  cbn [of_option bind] in H. destruct (bcast_ok _ _); [|discriminate]. now injection H as <-.
Qed.

Definition is_element_of {A} (k : string) (v : hf A) (b : block A) : option (string * (Z * Z)) :=
  match is_matrix_name k with
  | Some (m, e) => if dd_contains m (b_var b) && negb (ismatrix v) then Some (m, e) else None
  | None => None
  end.

(** Every assignment that succeeds. *)
Lemma b_set_cases : forall {A} (lab : A -> label) k v (b b' : block A), b_set lab k v b = Ok b' ->
  b_x b' = next_x (b_x b) (h_dims v) /\
  ((exists m e x y, is_element_of k v b = Some (m, e) /\ pd_get m (dd_map (b_var b)) = Some x /\
     set_element x e v = Ok y /\ b_var b' = dd_set m y (b_var b) /\ b_ivar b' = b_ivar b) \/
   (is_element_of k v b = None /\ exists old new b1, pd_get k (dd_map (b_ivar b)) = Some old /\ length (h_dims v) = 1 /\
     dim_with old None (Some (map lab (nd_elems (h_nd v)))) None = Ok new /\ b_replace_dim old new b = Ok b1 /\
     b_var b' = b_var b1 /\ b_ivar b' = add_ivars (h_dims v) (b_ivar b1)) \/
   (is_element_of k v b = None /\ pd_get k (dd_map (b_ivar b)) = None /\
     b_var b' = dd_set k v (b_var b) /\ b_ivar b' = add_ivars (h_dims v) (b_ivar b))).
Proof.
  intros A lab k v b b' H. unfold b_set in H.
  change (match is_matrix_name k with
          | Some (m, e) => if dd_contains m (b_var b) && negb (ismatrix v) then Some (m, e) else None
          | None => None end) with (is_element_of k v b) in H.
  destruct (is_element_of k v b) as [[m e]|] eqn:E.
  - unfold dd_get in H. destruct (pd_get m (dd_map (b_var b))) as [x|] eqn:Ex; [|discriminate]. cbn [of_option bind] in H.
    destruct (set_element x e v) as [y|] eqn:Ey; [|discriminate]. cbn [bind] in H. injection H as <-. cbn [b_var b_ivar b_x].
    split; auto. left. exists m, e, x, y. auto.
  - destruct (pd_get k (dd_map (b_ivar b))) as [old|] eqn:Ei.
    + destruct (Nat.eqb_spec (length (h_dims v)) 1); [|discriminate].
      destruct (dim_with old None (Some (map lab (nd_elems (h_nd v)))) None) as [new|] eqn:En; [|discriminate]. cbn [bind] in H.
      destruct (b_replace_dim old new b) as [b1|] eqn:Er; [|discriminate]. cbn [bind] in H. injection H as <-. cbn [b_var b_ivar b_x].
      split; auto. right. left. split; auto. exists old, new, b1. repeat split; auto.
    + cbn [bind b_var b_ivar b_x] in H. injection H as <-. cbn [b_var b_ivar b_x]. split; auto. right. right. auto.
Qed.

Lemma b_set_BInv : forall {A} (lab : A -> label) k v (b b' : block A), BInv b -> b_set lab k v b = Ok b' -> BInv b'.
Proof.
  intros A lab k v b b' HB H. destruct (b_set_cases lab k v b b' H) as [_ [C|[C|C]]].
  - destruct C as [m [e [x [y [_ [Hx [Hy [Ev Ei]]]]]]]]. destruct HB as [H1 [H2 H3]].
    split; [rewrite Ev; now apply set_Inv|]. split; [now rewrite Ei|]. rewrite Ev, Ei. intros k0 x0 d.
    rewrite get_set. destruct (String.eqb_spec k0 m).
    + intros E Hd. injection E as <-. rewrite (set_element_dims _ _ _ _ Hy) in Hd. eapply H3; eauto.
    + intros E Hd. eapply H3; eauto.
  - destruct C as [_ [old [new [b1 [_ [_ [_ [Hr [Ev Ei]]]]]]]]]. destruct (replace_dim_b _ _ _ _ HB Hr) as [HB1 _].
    destruct HB1 as [H1 [H2 H3]]. split; [now rewrite Ev|]. split; [rewrite Ei; now apply add_ivars_Inv|].
    rewrite Ev, Ei. intros k0 x0 d E Hd. specialize (H3 _ _ _ E Hd). apply contains_get in H3 as [w Hw].
    apply contains_get. exists w. now apply add_ivars_old.
  - destruct C as [_ [_ [Ev Ei]]]. destruct HB as [H1 [H2 H3]].
    split; [rewrite Ev; now apply set_Inv|]. split; [rewrite Ei; now apply add_ivars_Inv|]. rewrite Ev, Ei. intros k0 x0 d.
    rewrite get_set. destruct (String.eqb_spec k0 k).
    + intros E Hd. injection E as <-. now apply add_ivars_in.
    + intros E Hd. specialize (H3 _ _ _ E Hd). apply contains_get in H3 as [w Hw].
      apply contains_get. exists w. now apply add_ivars_old.
Qed.
Lemma b_set_dim_BInv : forall {A} k d (b : block A), BInv b -> BInv (b_set_dim k d b).
Proof.
  intros A k d b [H1 [H2 H3]]. unfold b_set_dim. split; [exact H1|]. split; [now apply set_Inv|]. cbn [b_var b_ivar].
  intros k0 x0 d0 E Hd. rewrite contains_set. rewrite (H3 _ _ _ E Hd). apply orb_true_r.
Qed.
Lemma b_del_ok : forall {A} k (b : block A), BInv b -> exists b', b_del k b = Ok b' /\ BInv b' /\
  b_ivar b' = b_ivar b /\ b_x b' = b_x b /\
  (forall k', pd_get k' (dd_map (b_var b')) = if String.eqb k' k then None else pd_get k' (dd_map (b_var b))).
Proof.
  intros A k b [H1 [H2 H3]]. unfold b_del. destruct (dd_contains k (b_var b)) eqn:C.
  - rewrite del_ok by apply H1. cbn [bind]. eexists. split; [reflexivity|]. cbn [b_var b_ivar b_x dd_map].
    assert (G : forall k', pd_get k' (pd_del k (dd_map (b_var b))) = if String.eqb k' k then None else pd_get k' (dd_map (b_var b))).
    { intros k'. destruct (String.eqb_spec k' k); [subst; apply pd_get_del_same; apply H1|now apply pd_get_del_other]. }
    split; [|auto]. split.
    { eapply (del_Inv k (b_var b)); auto. apply del_ok; apply H1. }
    split; auto. cbn [b_var b_ivar dd_map]. intros k0 x d. rewrite G. destruct (String.eqb k0 k); [discriminate|]. apply H3.
  - eexists. split; [reflexivity|]. split; [split; auto|]. split; auto. split; auto. intros k'.
    destruct (String.eqb_spec k' k); auto. subst. unfold dd_contains, pd_has in C. destruct (pd_get k (dd_map (b_var b))); congruence.
Qed.
Lemma dim_with_name : forall d n l u d', dim_with d n l u = Ok d' ->
  d_name d' = match n with Some n => n | None => d_name d end /\ d_class d' = d_class d /\
  d_data d' = match l with Some l => l | None => d_data d end /\
  d_unit d' = match u with Some u => Some u | None => d_unit d end.
Proof.
  intros d n l u d' H. unfold dim_with in H. destruct (outputformat d); [|discriminate]. cbn [bind] in H. injection H as <-.
  destruct n, l, u; auto.
Qed.
Lemma b_rename_BInv : forall {A} old new (b b' : block A), BInv b -> b_rename old new b = Ok b' -> BInv b'.
Proof.
  intros A old new b b' HB H. unfold b_rename in H. destruct (pd_get old (dd_map (b_ivar b))) as [d|] eqn:E.
  - destruct (dim_with d (Some new) None None) as [d'|]; [|discriminate]. cbn [bind] in H. now apply (replace_dim_b _ _ _ _ HB H).
  - destruct (dd_contains old (b_var b)) eqn:C; [|injection H as <-; auto].
    destruct (dd_rename old new (b_var b)) as [v|] eqn:R; [|discriminate]. cbn [bind] in H. injection H as <-.
    destruct HB as [H1 [H2 H3]]. destruct (rename_get _ _ _ _ H1 R) as [I1 [w [I2 I3]]]. split; auto. split; auto.
    cbn [b_var b_ivar]. intros k x d. rewrite I3. destruct (String.eqb k new).
    + intros Ex Hd. injection Ex as <-. eapply H3; eauto.
    + destruct (String.eqb k old); [discriminate|]. intros Ex Hd. eapply H3; eauto.
Qed.

(** ** A sequence of assignments *)
Fixpoint sets {A} (lab : A -> label) (l : list (string * hf A)) (b : block A) : result (block A) :=
  match l with
  | [] => Ok b
  | (k, v) :: l' => do b' <- b_set lab k v b; sets lab l' b'
  end.
