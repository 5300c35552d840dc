(** Properties of DataBlock: C17 (blocks), C18, C54. *)
From Coq Require Import Ascii String List Arith ZArith Bool Lia Permutation.
From Verif Require Import Model_NdArray Model_Dim Model_Array Spec_Array Proofs_Array Proofs_Array2 Proofs_Array4
  Model_DataDict Spec_DataDict Proofs_DataDict Model_Text Model_Block Proofs_Block Proofs_Block2 Prop_Array.
Import ListNotations.
Local Open Scope nat_scope.
Local Open Scope string_scope.
Local Open Scope list_scope.

(** ** Histories of a block; operations that raise leave it as it is. *)
Inductive bop (A : Type) : Type :=
| BSet (k : string) (v : hf A) | BSetDim (k : string) (d : dim) | BDel (k : string)
| BRename (old new : string) | BReplaceDim (old new : dim).
Arguments BSet {A} k v.
Arguments BSetDim {A} k d.
Arguments BDel {A} k.
Arguments BRename {A} old new.
Arguments BReplaceDim {A} old new.

Definition or_same {X} (r : result X) (x : X) : X := match r with Ok y => y | Err _ => x end.
Definition bstep {A} (lab : A -> label) (b : block A) (o : bop A) : block A :=
  match o with
  | BSet k v => or_same (b_set lab k v b) b
  | BSetDim k d => b_set_dim k d b
  | BDel k => or_same (b_del k b) b
  | BRename old new => or_same (b_rename old new b) b
  | BReplaceDim old new => or_same (b_replace_dim old new b) b
  end.
Definition brun {A} (lab : A -> label) (os : list (bop A)) : block A := fold_left (bstep lab) os b_empty.

Lemma brun_BInv : forall {A} (lab : A -> label) os, BInv (brun lab os).
Proof.
  intros A lab os. unfold brun. assert (F : forall os b, BInv b -> BInv (fold_left (bstep lab) os b)).
  { induction os0 as [|o os0 IH]; simpl; auto. intros b H. apply IH. destruct o as [k v|k d|k|old new|old new]; simpl.
    - destruct (b_set lab k v b) as [b'|] eqn:E; simpl; auto. eapply b_set_BInv; eauto.
    - now apply b_set_dim_BInv.
    - destruct (b_del_ok k b H) as [b' [-> [H' _]]]. exact H'.
    - destruct (b_rename old new b) as [b'|] eqn:E; simpl; auto. eapply b_rename_BInv; eauto.
    - destruct (b_replace_dim old new b) as [b'|] eqn:E; simpl; auto. now apply (replace_dim_b _ _ _ _ H E). }
  apply F, empty_BInv.
Qed.

(** ** C18 *)

(** Listing a block's variables always works, names are listed once, and the
    dimensions of the variables are all known by name. *)
Theorem C18_invariant : forall {A} (lab : A -> label) os, let b := brun lab os in
  (exists vs, dd_items (b_var b) = Ok vs /\ NoDup (map fst vs) /\
     (forall k x, In (k, x) vs <-> dd_get k (b_var b) = Ok x) /\
     (exists ivs, dd_items (b_ivar b) = Ok ivs /\ NoDup (map fst ivs) /\
      forall k x d, In (k, x) vs -> In d (h_dims x) -> In (d_name d) (map fst ivs))).
Proof.
  intros A lab os b. destruct (brun_BInv lab os) as [H1 [H2 H3]]. fold b in H1, H2, H3.
  exists (dabs (b_var b)). split; [now apply items_abs|]. split; [now apply abs_NoDup|].
  assert (G : forall {V} (d : ddict V) k x, Inv d -> (In (k, x) (dabs d) <-> pd_get k (dd_map d) = Some x)).
  { intros V d k x HI. rewrite <- (abs_get d k HI). pose proof (abs_NoDup d HI) as ND.
    induction (dabs d) as [|[k' x'] l IH]; simpl; [split; [tauto|discriminate]|]. inversion ND as [|? ? N1 N2]; subst.
    destruct (String.eqb_spec k k').
    - subst. split; [|intros E; injection E as ->; auto]. intros [E|E]; [congruence|]. exfalso. apply N1.
      apply (in_map fst) in E. exact E.
    - rewrite <- IH by auto. split; [intros [E|E]; [congruence|auto]|auto]. }
  split.
  { intros k x. rewrite G by auto. unfold dd_get. destruct (pd_get k (dd_map (b_var b))); simpl; split; congruence. }
  exists (dabs (b_ivar b)). split; [now apply items_abs|]. split; [now apply abs_NoDup|].
  intros k x d Hk Hd. apply G in Hk; auto. specialize (H3 _ _ _ Hk Hd). change (map fst) with (@keys dim).
  rewrite keys_abs by auto. apply H2. now apply pd_has_In.
Qed.
Print Assumptions C18_invariant.

(** The value assigned is the value found. *)
Theorem C18_get_set : forall {A} (lab : A -> label) os k v, let b := brun lab os in
  dd_contains k (b_ivar b) = false -> ~ In k (map d_name (h_dims v)) ->
  (forall m e, is_matrix_name k = Some (m, e) -> dd_contains m (b_var b) = false \/ ismatrix v = true) ->
  exists b', b_set lab k v b = Ok b' /\ b_get k b' = Ok (FVar v) /\
    (forall d, In d (h_dims v) -> exists d', dd_get (d_name d) (b_ivar b') = Ok d') /\
    (forall k', k' <> k -> b_contains k' b = true ->
       (dd_contains k' (b_ivar b) = false -> ~ In k' (map d_name (h_dims v))) -> b_get k' b' = b_get k' b).
Proof.
  intros A lab os k v b Hi Hd Hm. assert (HB : BInv b) by apply brun_BInv.
  assert (Ei : pd_get k (dd_map (b_ivar b)) = None).
  { unfold dd_contains, pd_has in Hi. destruct (pd_get k (dd_map (b_ivar b))); congruence. }
  assert (Ee : is_element_of k v b = None).
  { unfold is_element_of. destruct (is_matrix_name k) as [[m e]|] eqn:E; auto.
    destruct (Hm m e eq_refl) as [->| ->]; [reflexivity|]. now rewrite andb_false_r. }
  eexists. split.
  { unfold b_set. change (match is_matrix_name k with
          | Some (m, e) => if dd_contains m (b_var b) && negb (ismatrix v) then Some (m, e) else None
          | None => None end) with (is_element_of k v b). rewrite Ee, Ei. cbn [bind b_var b_ivar]. reflexivity. }
  split.
  { unfold b_get. cbn [b_var b_ivar]. rewrite add_ivars_none by auto. rewrite get_set, String.eqb_refl. reflexivity. }
  split.
  { cbn [b_ivar]. intros d H. pose proof (add_ivars_in _ (b_ivar b) _ H) as C. apply contains_get in C as [d' C].
    exists d'. unfold dd_get. now rewrite C. }
  intros k' N C Hs. unfold b_get. cbn [b_var b_ivar]. destruct (pd_get k' (dd_map (b_ivar b))) as [d|] eqn:E.
  - now rewrite (add_ivars_old _ _ _ _ E).
  - rewrite add_ivars_none; auto.
    2: { apply Hs. unfold dd_contains, pd_has. now rewrite E. }
    unfold b_contains in C. assert (Ci : dd_contains k' (b_ivar b) = false) by (unfold dd_contains, pd_has; now rewrite E).
    rewrite Ci, orb_false_r in C. apply contains_get in C as [x Hx]. rewrite get_set, Hx.
    apply String.eqb_neq in N. now rewrite N.
Qed.
Print Assumptions C18_get_set.

(** Assigning an element of a stored matrix writes that element and no other. *)
Theorem C18_set_element : forall {A} (lab : A -> label) os k m i j p q x ds di dj v, let b := brun lab os in
  is_matrix_name k = Some (m, (i, j)) -> dd_get m (b_var b) = Ok x -> wf x -> wf v ->
  h_dims x = ds ++ [di; dj] -> h_dims v = ds -> ismatrix x = true -> ismatrix v = false -> Forall usable ds ->
  int_position (length (d_data di)) i p -> int_position (length (d_data dj)) j q ->
  dd_contains k (b_var b) = false -> dd_contains k (b_ivar b) = false ->
  exists b' y z, b_set lab k v b = Ok b' /\ dd_get m (b_var b') = Ok y /\ wf y /\ h_dims y = h_dims x /\
    (forall e, valid e (h_dims x) -> val y e = if Nat.eqb (e (key di)) p && Nat.eqb (e (key dj)) q then val v e else val x e) /\
    b_get k b' = Ok (FVar z) /\ wf z /\ map key (h_dims z) = map key ds /\ map d_data (h_dims z) = map d_data ds /\
    (forall e, valid e ds -> val z e = val v e) /\
    (forall k', k' <> m -> b_contains k' b = true -> b_get k' b' = b_get k' b).
Proof.
  intros A lab os k m i j p q x ds di dj v b Hn Hx Wx Wv Dx Dv Mx Mv Us Hp Hq Ck Ci.
  assert (Ex : pd_get m (dd_map (b_var b)) = Some x) by (unfold dd_get in Hx; destruct (pd_get m (dd_map (b_var b))); simpl in Hx; congruence).
  assert (Ee : is_element_of k v b = Some (m, (i, j))).
  { unfold is_element_of. rewrite Hn. unfold dd_contains, pd_has. now rewrite Ex, Mv. }
  destruct (set_element_ok x v ds di dj i j p q Wx Wv Dx Dv Hp Hq) as [y [Y1 [Y2 [Y3 [Y4 [_ Y5]]]]]].
  rewrite Dx in Y3. destruct (get_element_ok y ds di dj i j p q Y2 Y3 Hp Hq Us) as [z [Z1 [Z2 [Z3 [_ Z4]]]]].
  exists (mkBlock (dd_set m y (b_var b)) (b_ivar b) (next_x (b_x b) (h_dims v))), y, z.
  split.
  { unfold b_set. change (match is_matrix_name k with
          | Some (m, e) => if dd_contains m (b_var b) && negb (ismatrix v) then Some (m, e) else None
          | None => None end) with (is_element_of k v b). rewrite Ee, Hx. cbn [bind]. rewrite Y1. reflexivity. }
  cbn [b_var b_ivar].
  split; [unfold dd_get; now rewrite get_set, String.eqb_refl|]. split; auto. split; [congruence|].
  split; [exact Y5|].
  assert (Nkm : k <> m). { intros ->. unfold dd_contains, pd_has in Ck. rewrite Ex in Ck. discriminate. }
  assert (Ek : pd_get k (dd_map (b_var b)) = None) by (unfold dd_contains, pd_has in Ck; destruct (pd_get k (dd_map (b_var b))); congruence).
  assert (Eki : pd_get k (dd_map (b_ivar b)) = None) by (unfold dd_contains, pd_has in Ci; destruct (pd_get k (dd_map (b_ivar b))); congruence).
  split.
  { unfold b_get. cbn [b_var b_ivar]. rewrite Eki, get_set. apply String.eqb_neq in Nkm. rewrite Nkm, Ek, Hn.
    unfold dd_get. rewrite get_set, String.eqb_refl. cbn [of_option bind].
    assert (My : ismatrix y = true) by (unfold ismatrix in *; now rewrite Y3, <- Dx). rewrite My, Z1. reflexivity. }
  split; auto.
  assert (K : map key (h_dims z) = map key ds /\ map d_data (h_dims z) = map d_data ds).
  { clear - Z3. induction Z3 as [|d d' l l' H]; simpl; auto. destruct H as [H1 [H2 H3]]. destruct IHZ3 as [-> ->]. now rewrite H1, H3. }
  destruct K as [K1 K2]. split; auto. split; auto.
  split.
  { intros e He.
    assert (Vz : valid e (h_dims z)).
    { clear - Z3 He. intros d' Hd'. induction Z3 as [|d d2 l l' H]; [destruct Hd'|]. destruct Hd' as [<-|Hd'].
      - destruct H as [H1 [_ H2]]. rewrite H1, H2. apply He. now left.
      - apply IHZ3; auto. intros d0 H0. apply He. now right. }
    pose proof Wx as [_ [_ ND]]. rewrite Dx, map_app in ND. simpl in ND.
    assert (Nij : key di <> key dj).
    { intros E. rewrite E in ND. apply NoDup_remove_2 in ND. apply ND. apply in_or_app. right. now left. }
    assert (Nd : forall d, In d ds -> key d <> key di /\ key d <> key dj).
    { intros d Hd. assert (In (key d) (map key ds)) by now apply in_map.
      split; intros E; rewrite <- E in ND.
      - apply NoDup_remove_2 in ND. apply ND. apply in_or_app. auto.
      - change (map key ds ++ [key di; key d]) with (map key ds ++ [key di] ++ [key d]) in ND. rewrite app_assoc in ND.
        apply NoDup_remove_2 in ND. apply ND. rewrite app_nil_r. apply in_or_app. auto. }
    rewrite Z4 by auto. rewrite Y5.
    2: { rewrite Dx. intros d Hd. apply in_app_or in Hd as [Hd|[<-|[<-|[]]]].
      - rewrite !upd_other by (apply Nd; auto). now apply He.
      - rewrite upd_other by auto. rewrite upd_same. apply Hp.
      - rewrite upd_same. apply Hq. }
    rewrite upd_same. rewrite upd_other by auto. rewrite upd_same, !Nat.eqb_refl. cbn [andb].
    unfold val. rewrite Dv. f_equal. unfold coords. apply map_ext_in. intros d Hd. now rewrite !upd_other by (apply Nd; auto). }
  intros k' Nk C. unfold b_get. cbn [b_var b_ivar]. destruct (pd_get k' (dd_map (b_ivar b))) eqn:E; auto.
  rewrite get_set. apply String.eqb_neq in Nk. rewrite Nk. unfold b_contains in C.
  assert (C2 : dd_contains k' (b_ivar b) = false) by (unfold dd_contains, pd_has; now rewrite E). rewrite C2, orb_false_r in C.
  apply contains_get in C as [w ->]. reflexivity.
Qed.
Print Assumptions C18_set_element.

(** Assigning a one-dimensional array to an independent variable replaces its
    labels, in the block and in every variable that has the dimension. *)
Theorem C18_set_ivar : forall {A} (lab : A -> label) os k v old, let b := brun lab os in
  dd_get k (b_ivar b) = Ok old -> d_name old = k -> length (h_dims v) = 1 -> usable old ->
  (forall m e, is_matrix_name k = Some (m, e) -> dd_contains m (b_var b) = false \/ ismatrix v = true) ->
  exists b' new, b_set lab k v b = Ok b' /\ dd_get k (b_ivar b') = Ok new /\
    key new = key old /\ d_data new = map lab (nd_elems (h_nd v)) /\ d_unit new = d_unit old /\
    (forall k' x, dd_get k' (b_var b) = Ok x ->
       exists y, dd_get k' (b_var b') = Ok y /\ h_nd y = h_nd x /\ h_unit y = h_unit x /\
         h_dims y = map (fun d => if string_dec (d_name d) k then new else d) (h_dims x)) /\
    (forall k' d, k' <> k -> dd_get k' (b_ivar b) = Ok d -> dd_get k' (b_ivar b') = Ok d).
Proof.
  intros A lab os k v old b Hk Nk Lv Us Hm. assert (HB : BInv b) by apply brun_BInv.
  assert (Ek : pd_get k (dd_map (b_ivar b)) = Some old) by (unfold dd_get in Hk; destruct (pd_get k (dd_map (b_ivar b))); simpl in Hk; congruence).
  assert (Ee : is_element_of k v b = None).
  { unfold is_element_of. destruct (is_matrix_name k) as [[m e]|] eqn:E; auto.
    destruct (Hm m e eq_refl) as [->| ->]; [reflexivity|]. now rewrite andb_false_r. }
  assert (Hf : exists f, outputformat old = Ok f).
  { unfold outputformat. destruct Us as [Us|Us]; destruct (d_fmt old) eqn:Ef; eauto; try congruence.
    destruct (d_data old) as [|[]]; eauto; congruence. }
  destruct Hf as [f Hf].
  assert (Hnew : exists new, dim_with old None (Some (map lab (nd_elems (h_nd v)))) None = Ok new).
  { unfold dim_with. rewrite Hf. cbn [bind]. eauto. }
  destruct Hnew as [new Hnew]. destruct (dim_with_name _ _ _ _ _ Hnew) as [N1 [N2 [N3 N4]]].
  destruct (replace_dim_b_total old new b HB) as [b1 Hb1].
  { unfold dd_contains, pd_has. now rewrite Nk, Ek. }
  destruct (replace_dim_b _ _ _ _ HB Hb1) as [HB1 [_ [G1 [G2 _]]]].
  exists (mkBlock (b_var b1) (add_ivars (h_dims v) (b_ivar b1)) (next_x (b_x b) (h_dims v))), new.
  split.
  { unfold b_set. change (match is_matrix_name k with
          | Some (m, e) => if dd_contains m (b_var b) && negb (ismatrix v) then Some (m, e) else None
          | None => None end) with (is_element_of k v b). rewrite Ee, Ek, Lv, Nat.eqb_refl, Hnew. cbn [bind]. rewrite Hb1. reflexivity. }
  cbn [b_var b_ivar].
  assert (Gk : pd_get k (dd_map (b_ivar b1)) = Some new) by (rewrite G2, N1, Nk, String.eqb_refl; reflexivity).
  split; [unfold dd_get; now rewrite (add_ivars_old _ _ _ _ Gk)|]. split; [unfold key; congruence|]. split; auto. split; auto.
  split.
  - intros k' x Hx. assert (Ex : pd_get k' (dd_map (b_var b)) = Some x) by (unfold dd_get in Hx; destruct (pd_get k' (dd_map (b_var b))); simpl in Hx; congruence).
    exists (replace_dim old new x). split; [unfold dd_get; now rewrite G1, Ex|]. split; auto. split; auto.
    unfold replace_dim, replace_dim_list. cbn [h_dims]. apply map_ext. intros d. rewrite Nk.
    destruct (String.eqb_spec k (d_name d)), (string_dec (d_name d) k); congruence.
  - intros k' d N Hd. assert (Ed : pd_get k' (dd_map (b_ivar b)) = Some d) by (unfold dd_get in Hd; destruct (pd_get k' (dd_map (b_ivar b))); simpl in Hd; congruence).
    unfold dd_get. erewrite add_ivars_old; [reflexivity|]. rewrite G2, N1, Nk. apply String.eqb_neq in N. now rewrite N.
Qed.
Print Assumptions C18_set_ivar.

(** Deletion. *)
Theorem C18_del : forall {A} (lab : A -> label) os k, let b := brun lab os in
  exists b', b_del k b = Ok b' /\ dd_contains k (b_var b') = false /\ b_ivar b' = b_ivar b /\
    (forall k', k' <> k -> dd_get k' (b_var b') = dd_get k' (b_var b)).
Proof.
  intros A lab os k b. destruct (b_del_ok k b (brun_BInv lab os)) as [b' [D1 [D2 [D3 [D4 D5]]]]]. exists b'.
  split; auto. split; [unfold dd_contains, pd_has; now rewrite D5, String.eqb_refl|]. split; auto.
  intros k' N. unfold dd_get. rewrite D5. apply String.eqb_neq in N. now rewrite N.
Qed.
Print Assumptions C18_del.

(** *** Examples and deviations *)
Definition labZ (z : Z) : label := LZ z.
Definition xS := arr [dF; dI; mkDim CMatrix_j "j" [LZ 0; LZ 1] None None].
Definition exb := brun labZ [BSet "V" xFR; BSet "S" xS; BSet "T" xRV; BDel "T"].
Example C18_example :
  dd_contains "W" (b_ivar exb) = false /\ ~ In "W" (map d_name (h_dims xRV)) /\ is_matrix_name "W" = None /\
  (exists b', b_set labZ "W" xRV exb = Ok b' /\ b_get "W" b' = Ok (FVar xRV)) /\
  is_matrix_name "S12" = Some ("S", (0, 1)%Z) /\ dd_get "S" (b_var exb) = Ok xS /\
  (exists b', b_set labZ "S12" (arr [dF]) exb = Ok b' /\
     exists y, dd_get "S" (b_var b') = Ok y /\ nd_elems (h_nd y) = [0; 0; 2; 3; 4; 1; 6; 7]%Z) /\
  dd_get "rep" (b_ivar exb) = Ok dR /\ usable dR /\
  (exists b', b_set labZ "rep" (arr [dR]) exb = Ok b' /\ dd_iter (b_ivar b') = ["freq"; "i"; "j"; "V"; "rep"]).
Proof.
  split; [reflexivity|]. split; [simpl; intuition discriminate|]. split; [reflexivity|].
  split; [eexists; split; reflexivity|]. split; [reflexivity|]. split; [reflexivity|].
  split; [eexists; split; [reflexivity|]; eexists; split; reflexivity|].
  split; [reflexivity|]. split; [left; discriminate|]. eexists. split; reflexivity.
Qed.

(** A variable named like one of its own dimensions: lookup gives the labels. *)
Theorem C18_own_dimension_refuted : exists k (v : hf Z) b' x, b_set labZ k v b_empty = Ok b' /\
  dd_get k (b_var b') = Ok v /\ b_get k b' = Ok (FDim x) /\ nd_elems (h_nd x) = [LZ 10; LZ 20] /\ nd_elems (h_nd v) = [0; 1]%Z.
Proof. exists "freq", (arr [dF]). eexists. eexists. split; [reflexivity|]. repeat split; reflexivity. Qed.

(** A variable stored under an element name hides the element later assigned. *)
Theorem C18_stale_element_refuted : exists (b b' : block Z) v w, b = brun labZ [BSet "S11" v; BSet "S" xS] /\
  b_set labZ "S11" w b = Ok b' /\ b_get "S11" b' = Ok (FVar v) /\ v <> w.
Proof.
  eexists. eexists. exists (arr [dF]), (mkHF (mkNd [2] [7; 8]%Z) DFloat [dF] None "%s"). split; [reflexivity|].
  split; [vm_compute; reflexivity|]. split; [vm_compute; reflexivity|]. discriminate.
Qed.

(** A name that looks like an element of an existing variable which is no
    matrix: the assignment overwrites part of that variable. *)
Theorem C18_element_like_refuted : exists (b b' : block Z) y, b = brun labZ [BSet "V" (arr [dR; dF; dV])] /\
  b_set labZ "V11" (arr [dR]) b = Ok b' /\ dd_contains "V11" (b_var b') = false /\
  dd_get "V" (b_var b') = Ok y /\ nd_elems (h_nd y) <> nd_elems (h_nd (arr [dR; dF; dV])).
Proof.
  eexists. eexists. eexists. split; [reflexivity|]. split; [vm_compute; reflexivity|]. split; [reflexivity|].
  split; [reflexivity|]. discriminate.
Qed.

(** Elements are assigned by position: an array over another dimension of the
    same length is taken over silently. *)
Theorem C18_element_positional_refuted : exists (b b' : block Z) y, b = brun labZ [BSet "S" xS] /\
  b_set labZ "S11" (arr [dV]) b = Ok b' /\ dd_get "S" (b_var b') = Ok y /\ h_dims y = h_dims xS /\
  ~ In (key dV) (map key (h_dims xS)).
Proof.
  eexists. eexists. eexists. split; [reflexivity|]. split; [vm_compute; reflexivity|]. split; [reflexivity|].
  split; [reflexivity|]. simpl. intuition discriminate.
Qed.

(** The length of a new set of labels is not compared with the variables. *)
Theorem C18_ivar_length_refuted : exists (b b' : block Z) y, b = brun labZ [BSet "x" xFR] /\ wf xFR /\
  b_set labZ "rep" (arr [dV]) b = Ok b' /\ dd_get "x" (b_var b') = Ok y /\ ~ wf y.
Proof.
  eexists. eexists. eexists. split; [reflexivity|]. split; [wf_lit|]. split; [vm_compute; reflexivity|]. split; [reflexivity|].
  intros [_ [H _]]. discriminate H.
Qed.

(** ** C17 for blocks *)
Theorem C17_block_rename_dim : forall {A} (lab : A -> label) os old new d, let b := brun lab os in
  dd_get old (b_ivar b) = Ok d -> d_name d = old -> usable d ->
  exists b' d', b_rename old new b = Ok b' /\ dd_get new (b_ivar b') = Ok d' /\
    d_name d' = new /\ d_class d' = d_class d /\ d_data d' = d_data d /\ d_unit d' = d_unit d /\
    (old <> new -> dd_contains old (b_ivar b') = false) /\
    (forall k e, k <> old -> k <> new -> dd_get k (b_ivar b) = Ok e -> dd_get k (b_ivar b') = Ok e) /\
    dd_iter (b_var b') = dd_iter (b_var b) /\
    (forall k x, dd_get k (b_var b) = Ok x -> exists y, dd_get k (b_var b') = Ok y /\
       h_nd y = h_nd x /\ h_unit y = h_unit x /\ h_fmt y = h_fmt x /\
       h_dims y = map (fun d0 => if string_dec (d_name d0) old then d' else d0) (h_dims x) /\
       (wf x -> (forall d0, In d0 (h_dims x) -> d_name d0 = old -> key d0 = key d /\ length (d_data d0) = length (d_data d)) ->
        (forall d0, In d0 (h_dims x) -> d_name d0 <> new) -> wf y)).
Proof.
  intros A lab os old new d b Hk Nk Us. assert (HB : BInv b) by apply brun_BInv.
  assert (Ek : pd_get old (dd_map (b_ivar b)) = Some d) by (unfold dd_get in Hk; destruct (pd_get old (dd_map (b_ivar b))); simpl in Hk; congruence).
  assert (Hf : exists f, outputformat d = Ok f).
  { unfold outputformat. destruct Us as [Us|Us]; destruct (d_fmt d) eqn:Ef; eauto; try congruence.
    destruct (d_data d) as [|[]]; eauto; congruence. }
  destruct Hf as [f Hf].
  assert (Hnew : exists d', dim_with d (Some new) None None = Ok d') by (unfold dim_with; rewrite Hf; cbn [bind]; eauto).
  destruct Hnew as [d' Hnew]. destruct (dim_with_name _ _ _ _ _ Hnew) as [N1 [N2 [N3 N4]]].
  destruct (replace_dim_b_total d d' b HB) as [b1 Hb1]. { unfold dd_contains, pd_has. now rewrite Nk, Ek. }
  destruct (replace_dim_b _ _ _ _ HB Hb1) as [HB1 [_ [G1 [G2 G3]]]].
  exists b1, d'. split; [unfold b_rename; rewrite Ek, Hnew; exact Hb1|].
  rewrite N1, Nk in G2.
  split; [unfold dd_get; now rewrite G2, String.eqb_refl|]. split; auto. split; auto. split; auto. split; auto.
  split. { intros N. unfold dd_contains, pd_has. rewrite G2, String.eqb_refl. apply String.eqb_neq in N. now rewrite N. }
  split. { intros k e M1 M2 He. unfold dd_get in *. rewrite G2. apply String.eqb_neq in M1, M2. now rewrite M1, M2. }
  split. { rewrite !Inv_iter by (apply HB || apply HB1). exact G3. }
  intros k x Hx. assert (Ex : pd_get k (dd_map (b_var b)) = Some x) by (unfold dd_get in Hx; destruct (pd_get k (dd_map (b_var b))); simpl in Hx; congruence).
  exists (replace_dim d d' x). split; [unfold dd_get; now rewrite G1, Ex|]. split; auto. split; auto. split; auto.
  assert (E : h_dims (replace_dim d d' x) = map (fun d0 => if string_dec (d_name d0) old then d' else d0) (h_dims x)).
  { unfold replace_dim, replace_dim_list. cbn [h_dims]. apply map_ext. intros d0. rewrite Nk.
    destruct (String.eqb_spec old (d_name d0)), (string_dec (d_name d0) old); congruence. }
  split; auto. intros [W1 [W2 W3]] HL HN. split; [exact W1|]. split.
  - unfold labels_match in *. rewrite E, map_map. change (h_shape (replace_dim d d' x)) with (h_shape x). rewrite <- W2.
    apply map_ext_in. intros d0 H0. destruct (string_dec (d_name d0) old); auto. rewrite N3. symmetry. now apply HL.
  - rewrite E, map_map. clear - W3 HL HN N1 N2. induction (h_dims x) as [|d0 l IH]; simpl; [constructor|].
    simpl in W3. inversion W3 as [|? ? M1 M2]; subst. constructor; [|apply IH; auto; intros; [apply HL|apply HN]; simpl; auto].
    rewrite in_map_iff. intros [d1 [E1 H1]]. apply M1. rewrite in_map_iff. exists d1. split; auto.
    destruct (string_dec (d_name d0) old) as [a|a], (string_dec (d_name d1) old) as [c|c]; auto.
    + destruct (HL d0) as [Q1 _]; [now left|auto|]. destruct (HL d1) as [Q2 _]; [now right|auto|]. congruence.
    + exfalso. unfold key in E1. injection E1 as _ E1. apply (HN d1); [now right|congruence].
    + exfalso. unfold key in E1. injection E1 as _ E1. apply (HN d0); [now left|congruence].
Qed.
Print Assumptions C17_block_rename_dim.

Theorem C17_block_rename_var : forall {A} (lab : A -> label) os old new x, let b := brun lab os in
  dd_contains old (b_ivar b) = false -> dd_get old (b_var b) = Ok x -> dd_contains new (b_var b) = false ->
  exists b' l1 l2, b_rename old new b = Ok b' /\ b_ivar b' = b_ivar b /\
    dd_items (b_var b) = Ok (l1 ++ (old, x) :: l2) /\ dd_items (b_var b') = Ok (l1 ++ (new, x) :: l2).
Proof.
  intros A lab os old new x b Ci Hx Cn. pose proof (brun_BInv lab os) as [H1 [H2 H3]]. fold b in H1, H2, H3.
  assert (Ei : pd_get old (dd_map (b_ivar b)) = None) by (unfold dd_contains, pd_has in Ci; destruct (pd_get old (dd_map (b_ivar b))); congruence).
  assert (Ex : pd_get old (dd_map (b_var b)) = Some x) by (unfold dd_get in Hx; destruct (pd_get old (dd_map (b_var b))); simpl in Hx; congruence).
  assert (L : lookup old (dabs (b_var b)) = Some x) by (now rewrite lookup_get, abs_get).
  destruct (rename_ok old new x _ H1 L) as [v' [R1 [R2 R3]]].
  assert (SP : exists l1 l2, dabs (b_var b) = l1 ++ (old, x) :: l2 /\ ~ In old (map fst l1)).
  { rewrite lookup_get in L. clear - L. induction (dabs (b_var b)) as [|[k y] l IH]; simpl in L; [discriminate|].
    destruct (String.eqb_spec old k).
    - injection L as ->. subst. exists [], l. split; auto.
    - destruct (IH L) as [l1 [l2 [E N]]]. exists ((k, y) :: l1), l2. rewrite E. split; auto. simpl. intuition congruence. }
  destruct SP as [l1 [l2 [E N]]].
  exists (mkBlock v' (b_ivar b) (b_x b)), l1, l2.
  split. { unfold b_rename. rewrite Ei. unfold dd_contains, pd_has. now rewrite Ex, R1. }
  split; auto. cbn [b_var]. split; [now rewrite items_abs, E|]. rewrite items_abs, R3 by auto. f_equal.
  cbn [spec_step]. rewrite L. destruct (string_dec old new) as [->|Nn].
  { unfold dd_contains, pd_has in Cn. rewrite Ex in Cn. discriminate. }
  assert (En : pd_get new (dd_map (b_var b)) = None) by (unfold dd_contains, pd_has in Cn; destruct (pd_get new (dd_map (b_var b))); congruence).
  assert (lookup new (dabs (b_var b)) = None) as -> by (now rewrite lookup_get, abs_get). rewrite E.
  pose proof (abs_NoDup _ H1) as ND. rewrite E in ND. unfold keys in ND. rewrite map_app in ND. simpl in ND. apply NoDup_remove_2 in ND.
  rewrite in_app_iff in ND. unfold relabel. rewrite map_app. cbn [map fst snd]. destruct (string_dec old old); [|congruence].
  assert (RI : forall l : list (string * hf A), ~ In old (map fst l) -> map (fun p => if string_dec (fst p) old then (new, snd p) else p) l = l).
  { clear. induction l as [|[k v] l IH]; simpl; auto. intros H. destruct (string_dec k old); [tauto|]. f_equal. apply IH. tauto. }
  now rewrite !RI by tauto.
Qed.
Print Assumptions C17_block_rename_var.
Example C17_block_example : dd_get "rep" (b_ivar exb) = Ok dR /\ dd_get "V" (b_var exb) = Ok xFR /\
  (exists b', b_rename "rep" "n" exb = Ok b' /\ dd_iter (b_ivar b') = ["freq"; "n"; "i"; "j"; "V"] /\
     exists y, dd_get "V" (b_var b') = Ok y /\ map d_name (h_dims y) = ["freq"; "n"]) /\
  (exists b', b_rename "S" "T" exb = Ok b' /\ dd_iter (b_var b') = ["V"; "T"]).
Proof.
  split; [reflexivity|]. split; [reflexivity|]. split.
  - eexists. split; [reflexivity|]. split; [reflexivity|]. eexists. split; reflexivity.
  - eexists. split; reflexivity.
Qed.

(** ** C54 *)
Theorem C54_xname_parity : forall {A} (lab : A -> label) l (b : block A),
  sets lab l b_empty = Ok b -> Forall (fun p => h_dims (snd p) <> []) l ->
  (b_x b <> None <-> Nat.odd (length l) = true).
Proof.
  intros A lab l b H HF.
  set (is_set := fun o : option string => match o with Some _ => true | None => false end).
  assert (G : forall l (b0 b : block A), sets lab l b0 = Ok b -> Forall (fun p => h_dims (snd p) <> []) l ->
    is_set (b_x b) = xorb (Nat.odd (length l)) (is_set (b_x b0))).
  { clear l b H HF. induction l as [|[k v] l IH]; intros b0 b H HF.
    - simpl in *. injection H as <-. now destruct (is_set (b_x b0)).
    - cbn [sets] in H. destruct (b_set lab k v b0) as [b1|] eqn:E; [|discriminate]. cbn [bind] in H.
      inversion HF as [|? ? F1 F2]; subst. cbn [snd] in F1. rewrite (IH _ _ H F2).
      destruct (b_set_cases lab k v b0 b1 E) as [X _]. rewrite X. unfold next_x. cbn [length]. rewrite Nat.odd_succ, <- Nat.negb_odd.
      destruct (b_x b0), (h_dims v), (Nat.odd (length l)); simpl; congruence. }
  specialize (G _ _ _ H HF). cbn [b_x b_empty is_set] in G. rewrite xorb_false_r in G. rewrite <- G.
  unfold is_set. destruct (b_x b); split; congruence.
Qed.
Print Assumptions C54_xname_parity.
Example C54_example : exists b1 b2 b3, sets labZ [("a", xFR)] b_empty = Ok b1 /\ b_x b1 = Some "freq" /\
  sets labZ [("a", xFR); ("b", xFR)] b_empty = Ok b2 /\ b_x b2 = None /\
  sets labZ [("a", xFR); ("b", xFR); ("c", xRV)] b_empty = Ok b3 /\ b_x b3 = Some "rep".
Proof. do 3 eexists. repeat split; reflexivity. Qed.
