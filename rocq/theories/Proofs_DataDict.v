(** Lemmas about DataDict. *)
From Coq Require Import String List Arith ZArith Bool Lia Permutation.
From Verif Require Import Model_NdArray Model_DataDict Spec_DataDict.
Import ListNotations.

Definition keys {V} (m : list (string * V)) : list string := map fst m.

Lemma l_in_In : forall k l, l_in k l = true <-> In k l.
Proof.
  intros. unfold l_in. rewrite existsb_exists. split.
  - intros [x [H1 H2]]. apply String.eqb_eq in H2. now subst.
  - intros H. exists k. split; auto. apply String.eqb_refl.
Qed.
Lemma l_in_false : forall k l, l_in k l = false <-> ~ In k l.
Proof. intros. rewrite <- l_in_In. destruct (l_in k l); split; congruence. Qed.

Section P.
Context {V : Type}.
Implicit Types m : list (string * V).

Lemma pd_get_in : forall k m, In k (keys m) -> exists v, pd_get k m = Some v.
Proof.
  induction m as [|[k' v] m IH]; simpl; [tauto|]. intros H. destruct (String.eqb_spec k k'); [eauto|].
  destruct H; [congruence|auto].
Qed.
Lemma pd_get_none : forall k m, pd_get k m = None <-> ~ In k (keys m).
Proof.
  induction m as [|[k' v] m IH]; simpl; [tauto|]. destruct (String.eqb_spec k k').
  - subst. split; [discriminate|]. intros H. exfalso. auto.
  - rewrite IH. intuition congruence.
Qed.
Lemma pd_has_In : forall k m, pd_has k m = true <-> In k (keys m).
Proof.
  intros. unfold pd_has. destruct (pd_get k m) eqn:E.
  - split; auto. intros _. destruct (in_dec string_dec k (keys m)); auto. apply pd_get_none in n. congruence.
  - apply pd_get_none in E. split; [discriminate|tauto].
Qed.
Lemma pd_get_set_same : forall k v m, pd_get k (pd_set k v m) = Some v.
Proof.
  induction m as [|[k' v'] m IH]; simpl; [now rewrite String.eqb_refl|].
  destruct (String.eqb_spec k k'); simpl; [subst; now rewrite String.eqb_refl|].
  destruct (String.eqb_spec k k'); [congruence|auto].
Qed.
Lemma pd_get_set_other : forall k k' v m, k <> k' -> pd_get k (pd_set k' v m) = pd_get k m.
Proof.
  induction m as [|[k2 v2] m IH]; simpl; intros N.
  - destruct (String.eqb_spec k k'); congruence.
  - destruct (String.eqb_spec k' k2); simpl.
    + subst. destruct (String.eqb_spec k k2); congruence.
    + destruct (String.eqb_spec k k2); auto.
Qed.
Lemma keys_set_in : forall k v m, In k (keys m) -> keys (pd_set k v m) = keys m.
Proof.
  induction m as [|[k' v'] m IH]; simpl; [tauto|]. intros H. destruct (String.eqb_spec k k'); simpl; auto.
  f_equal. apply IH. destruct H; congruence || auto.
Qed.
Lemma set_notin : forall k v m, ~ In k (keys m) -> pd_set k v m = m ++ [(k, v)].
Proof.
  induction m as [|[k' v'] m IH]; simpl; intros H; auto. destruct (String.eqb_spec k k'); [subst; exfalso; auto|].
  f_equal. apply IH. tauto.
Qed.
Lemma keys_set_notin : forall k v m, ~ In k (keys m) -> keys (pd_set k v m) = keys m ++ [k].
Proof. intros. rewrite set_notin by auto. unfold keys. now rewrite map_app. Qed.
Lemma keys_set_NoDup : forall k v m, NoDup (keys m) -> NoDup (keys (pd_set k v m)).
Proof.
  intros k v m H. destruct (in_dec string_dec k (keys m)).
  - now rewrite keys_set_in.
  - rewrite keys_set_notin by auto. apply NoDup_Add with (a := k) (l := keys m).
    + rewrite <- (app_nil_r (keys m)) at 1. apply Add_app.
    + auto.
Qed.
Lemma keys_set_In : forall k v m x, In x (keys (pd_set k v m)) <-> x = k \/ In x (keys m).
Proof.
  intros. destruct (in_dec string_dec k (keys m)).
  - rewrite keys_set_in by auto. intuition congruence.
  - rewrite keys_set_notin by auto. rewrite in_app_iff. simpl. intuition congruence.
Qed.
Lemma pd_del_filter : forall k m, NoDup (keys m) ->
  pd_del k m = filter (fun p => negb (String.eqb k (fst p))) m.
Proof.
  induction m as [|[k' v'] m IH]; simpl; auto. intros H. inversion H as [|? ? N1 N2]; subst.
  destruct (String.eqb_spec k k'); simpl.
  - subst. symmetry. assert (forall l, (forall p, In p l -> fst p <> k') -> filter (fun p : string * V => negb (String.eqb k' (fst p))) l = l) as F.
    { induction l as [|p l IHl]; simpl; auto. intros Hl. destruct (String.eqb_spec k' (fst p)).
      - exfalso. apply (Hl p); [now left|congruence].
      - simpl. f_equal. apply IHl. intros; apply Hl; auto. }
    apply F. intros p Hp E. apply N1. rewrite <- E. now apply in_map.
  - f_equal. auto.
Qed.
Lemma keys_filter : forall (f : string -> bool) m, keys (filter (fun p => f (fst p)) m) = filter f (keys m).
Proof. induction m as [|p m IH]; simpl; auto. destruct (f (fst p)); simpl; now rewrite IH. Qed.
Lemma pd_get_del_other : forall k k' m, k <> k' -> pd_get k (pd_del k' m) = pd_get k m.
Proof.
  induction m as [|[k2 v2] m IH]; simpl; auto. intros N. destruct (String.eqb_spec k' k2); simpl.
  - subst. destruct (String.eqb_spec k k2); congruence.
  - destruct (String.eqb_spec k k2); auto.
Qed.
Lemma keys_del : forall k m, NoDup (keys m) -> keys (pd_del k m) = filter (fun x => negb (String.eqb k x)) (keys m).
Proof. intros. rewrite pd_del_filter by auto. apply (keys_filter (fun x => negb (String.eqb k x))). Qed.
Lemma NoDup_filter' : forall {X} (f : X -> bool) l, NoDup l -> NoDup (filter f l).
Proof.
  induction l as [|x l IH]; simpl; auto. intros H. inversion H; subst. destruct (f x); auto. constructor; auto.
  rewrite filter_In. tauto.
Qed.

(** Order list *)
Lemma l_index_ok : forall k l, In k l -> exists n, l_index k l = Ok n.
Proof.
  induction l as [|x l IH]; simpl; [tauto|]. intros H. destruct (String.eqb_spec k x); [eauto|].
  destruct H as [H|H]; [congruence|]. destruct (IH H) as [n' ->]. simpl. eauto.
Qed.
Lemma l_index_err : forall k l, ~ In k l -> l_index k l = Err ValueError.
Proof.
  induction l as [|x l IH]; simpl; auto. intros H. destruct (String.eqb_spec k x); [subst; tauto|].
  rewrite IH by tauto. reflexivity.
Qed.
Lemma l_del_filter : forall k l n, NoDup l -> l_index k l = Ok n ->
  l_del n l = filter (fun x => negb (String.eqb k x)) l.
Proof.
  induction l as [|x l IH]; simpl; intros n ND H; [discriminate|]. inversion ND as [|? ? N1 N2]; subst.
  destruct (String.eqb_spec k x).
  - injection H as <-. subst. simpl. clear -N1. induction l as [|y l IH]; simpl; auto.
    destruct (String.eqb_spec x y); [subst; exfalso; apply N1; now left|]. simpl. f_equal. apply IH. intros H; apply N1; now right.
  - destruct (l_index k l) eqn:E; [|discriminate]. injection H as <-. simpl. f_equal. now apply IH.
Qed.
Lemma l_set_map : forall k k2 l n, NoDup l -> l_index k l = Ok n ->
  l_set n k2 l = map (fun x => if String.eqb k x then k2 else x) l.
Proof.
  induction l as [|x l IH]; simpl; intros n ND H; [discriminate|]. inversion ND as [|? ? N1 N2]; subst.
  destruct (String.eqb_spec k x).
  - injection H as <-. subst. simpl. f_equal. clear -N1. induction l as [|y l IH]; simpl; auto.
    destruct (String.eqb_spec x y); [subst; exfalso; apply N1; now left|]. f_equal. apply IH. intros H; apply N1; now right.
  - destruct (l_index k l) eqn:E; [|discriminate]. injection H as <-. simpl. f_equal. now apply IH.
Qed.
End P.

(** ** Invariant and abstraction *)
Section Inv.
Context {V : Type}.
Implicit Type d : ddict V.

Definition Inv d : Prop :=
  NoDup (dd_order d) /\ NoDup (keys (dd_map d)) /\ (forall k, In k (dd_order d) <-> In k (keys (dd_map d))).

(** The pairs, in the order of the list. *)
Definition dabs d : list (string * V) :=
  flat_map (fun k => match pd_get k (dd_map d) with Some v => [(k, v)] | None => [] end) (dd_order d).

Lemma Inv_iter : forall d, Inv d -> dd_iter d = dd_order d.
Proof.
  intros d [H1 [H2 H3]]. unfold dd_iter.
  assert (F : filter (fun k => negb (l_in k (dd_order d))) (map fst (dd_map d)) = []).
  { destruct (filter _ _) as [|x l] eqn:E; auto. exfalso.
    assert (In x (x :: l)) as Hx by now left. rewrite <- E in Hx. apply filter_In in Hx as [A B].
    rewrite negb_true_iff, l_in_false in B. apply B. now apply H3. }
  now rewrite F, app_nil_r.
Qed.
Lemma keys_abs : forall d, Inv d -> keys (dabs d) = dd_order d.
Proof.
  intros d [_ [_ H]]. unfold dabs, keys.
  assert (forall l, (forall k, In k l -> In k (keys (dd_map d))) ->
    map fst (flat_map (fun k => match pd_get k (dd_map d) with Some v => [(k, v)] | None => [] end) l) = l) as F.
  { induction l as [|k l IH]; simpl; auto. intros Hl. destruct (pd_get_in k (dd_map d)) as [v Hv]; [auto|].
    rewrite Hv. simpl. f_equal. auto. }
  apply F. intros. now apply H.
Qed.
Lemma items_abs : forall d, Inv d -> dd_items d = Ok (dabs d).
Proof.
  intros d HI. unfold dd_items. rewrite Inv_iter by auto. destruct HI as [_ [_ H]]. unfold dabs.
  assert (forall l, (forall k, In k l -> In k (keys (dd_map d))) ->
    mapM (fun k => do v <- dd_get k d; Ok (k, v)) l =
    Ok (flat_map (fun k => match pd_get k (dd_map d) with Some v => [(k, v)] | None => [] end) l)) as F.
  { induction l as [|k l IH]; intros Hl; [reflexivity|]. destruct (pd_get_in k (dd_map d)) as [v Hv]; [apply Hl; now left|].
    assert (G : dd_get k d = Ok v) by (unfold dd_get; now rewrite Hv).
    cbn [mapM flat_map]. rewrite G, Hv. cbn [bind]. rewrite IH by (intros; apply Hl; now right). reflexivity. }
  apply F. intros. now apply H.
Qed.

(** A list with distinct names is determined by its names and its values. *)
Lemma assoc_ext : forall (l l' : list (string * V)), NoDup (keys l) -> keys l = keys l' ->
  (forall k, pd_get k l = pd_get k l') -> l = l'.
Proof.
  induction l as [|[k v] l IH]; destruct l' as [|[k' v'] l']; simpl; intros ND HK HG; try discriminate; auto.
  injection HK as <- HK. inversion ND as [|? ? N1 N2]; subst. pose proof (HG k) as G. rewrite String.eqb_refl in G. injection G as <-.
  f_equal. apply IH; auto. intros k2. specialize (HG k2). destruct (String.eqb_spec k2 k); auto. subst.
  transitivity (@None V); [now apply pd_get_none|symmetry; apply pd_get_none]. unfold keys in *. now rewrite <- HK.
Qed.
Lemma abs_get : forall d k, Inv d -> pd_get k (dabs d) = pd_get k (dd_map d).
Proof.
  intros d k [H1 [H2 H3]].
  destruct (pd_get k (dd_map d)) as [v|] eqn:E.
  - assert (Hk : In k (dd_order d)). { apply H3. destruct (in_dec string_dec k (keys (dd_map d))); auto. apply pd_get_none in n. congruence. }
    unfold dabs. clear H3. induction (dd_order d) as [|x l IH]; [destruct Hk|]. simpl.
    inversion H1 as [|? ? N1 N2]; subst.
    destruct (string_dec k x).
    + subst. rewrite E. simpl. now rewrite String.eqb_refl.
    + destruct Hk as [Hk|Hk]; [congruence|]. destruct (pd_get x (dd_map d)); simpl; [|now apply IH].
      destruct (String.eqb_spec k x); [congruence|]. now apply IH.
  - apply pd_get_none. rewrite keys_abs by (repeat split; auto; apply H3). intros Hk. apply H3 in Hk.
    destruct (pd_get_in k _ Hk). congruence.
Qed.

(** Specification-level list functions through [pd_get]/[keys]. *)
Lemma lookup_get : forall k (l : list (string * V)), lookup k l = pd_get k l.
Proof.
  unfold lookup. induction l as [|[k' v] l IH]; simpl; auto.
  destruct (string_dec k' k); destruct (String.eqb_spec k k'); subst; simpl; auto; congruence.
Qed.
Lemma store_set : forall k v (l : list (string * V)), store k v l = pd_set k v l.
Proof.
  induction l as [|[k' v'] l IH]; simpl; auto.
  destruct (string_dec k' k); destruct (String.eqb_spec k k'); subst; auto; congruence.
Qed.
Lemma remove_filter : forall k (l : list (string * V)), remove k l = filter (fun p => negb (String.eqb k (fst p))) l.
Proof.
  intros k l. unfold remove. apply filter_ext. intros [a v]. simpl. destruct (string_dec a k); destruct (String.eqb_spec k a); subst; auto; congruence.
Qed.
Lemma remove_del : forall k (l : list (string * V)), NoDup (keys l) -> remove k l = pd_del k l.
Proof. intros. now rewrite remove_filter, pd_del_filter. Qed.

Lemma abs_NoDup : forall d, Inv d -> NoDup (keys (dabs d)).
Proof. intros d H. rewrite keys_abs by auto. apply H. Qed.

Lemma set_Inv : forall k v d, Inv d -> Inv (dd_set k v d).
Proof.
  intros k v d [H1 [H2 H3]]. unfold dd_set, Inv. cbn [dd_map dd_order]. destruct (l_in k (dd_order d)) eqn:E.
  - apply l_in_In in E. split; auto. split; [now apply keys_set_NoDup|]. intros x. rewrite keys_set_In, H3.
    apply H3 in E. intuition congruence.
  - apply l_in_false in E. split; [|split; [now apply keys_set_NoDup|]].
    + apply NoDup_Add with (a := k) (l := dd_order d); auto. rewrite <- (app_nil_r (dd_order d)) at 1. apply Add_app.
    + intros x. rewrite keys_set_In, in_app_iff, H3. simpl. intuition congruence.
Qed.
Lemma set_abs : forall k v d, Inv d -> dabs (dd_set k v d) = store k v (dabs d).
Proof.
  intros k v d H. pose proof (set_Inv k v d H) as H'. rewrite store_set.
  apply assoc_ext.
  - now apply abs_NoDup.
  - rewrite keys_abs by auto. unfold dd_set. cbn [dd_order]. destruct (l_in k (dd_order d)) eqn:E.
    + apply l_in_In in E. rewrite keys_set_in; rewrite keys_abs; auto.
    + apply l_in_false in E. rewrite keys_set_notin; rewrite keys_abs; auto.
  - intros x. rewrite abs_get by auto. cbn [dd_set dd_map]. destruct (string_dec x k).
    + subst. now rewrite !pd_get_set_same.
    + rewrite !pd_get_set_other by auto. now rewrite abs_get.
Qed.

Lemma del_map : forall k m, NoDup (keys m) -> (if @pd_has V k m then pd_del k m else m) = pd_del k m.
Proof.
  intros k m H. destruct (pd_has k m) eqn:E; auto.
  assert (~ In k (keys m)). { intros Hk. apply pd_has_In in Hk. congruence. }
  clear E H. induction m as [|[k' v] m IH]; simpl in *; auto. destruct (String.eqb_spec k k'); [subst; tauto|].
  f_equal. apply IH. tauto.
Qed.
Lemma del_ok : forall k d, NoDup (dd_order d) -> NoDup (keys (dd_map d)) ->
  dd_del k d = Ok (mkDD (pd_del k (dd_map d)) (filter (fun x => negb (String.eqb k x)) (dd_order d))).
Proof.
  intros k d H1 H2. unfold dd_del. rewrite del_map by auto. destruct (l_in k (dd_order d)) eqn:E.
  - apply l_in_In in E. destruct (l_index_ok _ _ E) as [n Hn]. rewrite Hn. simpl. now rewrite (l_del_filter k _ n).
  - apply l_in_false in E. do 2 f_equal. clear -E. induction (dd_order d) as [|x l IH]; simpl in *; auto.
    destruct (String.eqb_spec k x); [subst; tauto|]. simpl. f_equal. apply IH. tauto.
Qed.
Lemma del_Inv : forall k d d', Inv d -> dd_del k d = Ok d' -> Inv d'.
Proof.
  intros k d d' [H1 [H2 H3]] H. rewrite del_ok in H by auto. injection H as <-. unfold Inv. cbn [dd_map dd_order].
  rewrite keys_del by auto. split; [now apply NoDup_filter'|]. split; [now apply NoDup_filter'|].
  intros x. rewrite !filter_In, H3. tauto.
Qed.
Lemma keys_remove : forall k (l : list (string * V)), keys (remove k l) = filter (fun x => negb (String.eqb k x)) (keys l).
Proof. intros. rewrite remove_filter. apply (keys_filter (fun x => negb (String.eqb k x))). Qed.
Lemma get_remove : forall k x (l : list (string * V)), pd_get x (remove k l) = if String.eqb x k then None else pd_get x l.
Proof.
  intros k x l. rewrite remove_filter. induction l as [|[k' v] l IH]; simpl.
  - now destruct (String.eqb x k).
  - destruct (String.eqb_spec k k'); simpl.
    + subst. rewrite IH. destruct (String.eqb_spec x k'); auto.
    + rewrite IH. destruct (String.eqb_spec x k'); auto. subst. destruct (String.eqb_spec k' k); congruence.
Qed.
Lemma pd_get_del_same : forall k (m : list (string * V)), NoDup (keys m) -> pd_get k (pd_del k m) = None.
Proof. intros. apply pd_get_none. rewrite keys_del by auto. rewrite filter_In. rewrite String.eqb_refl. simpl. intuition discriminate. Qed.
Lemma del_abs : forall k d d', Inv d -> dd_del k d = Ok d' -> dabs d' = remove k (dabs d).
Proof.
  intros k d d' H HD. pose proof (del_Inv _ _ _ H HD) as H'. apply assoc_ext.
  - now apply abs_NoDup.
  - rewrite keys_abs, keys_remove, keys_abs by auto. destruct H as [H1 [H2 H3]]. rewrite del_ok in HD by auto. now injection HD as <-.
  - intros x. rewrite abs_get, get_remove, abs_get by auto. destruct H as [H1 [H2 H3]]. rewrite del_ok in HD by auto. injection HD as <-.
    cbn [dd_map]. destruct (String.eqb_spec x k); [subst; now apply pd_get_del_same|now apply pd_get_del_other].
Qed.

Lemma setdefault_ok : forall k v d, Inv d ->
  Inv (snd (dd_setdefault k v d)) /\
  dabs (snd (dd_setdefault k v d)) = (match lookup k (dabs d) with Some _ => dabs d | None => store k v (dabs d) end) /\
  lookup k (dabs (snd (dd_setdefault k v d))) = Some (fst (dd_setdefault k v d)).
Proof.
  intros k v d H. rewrite !lookup_get, abs_get by auto. unfold dd_setdefault. destruct (pd_get k (dd_map d)) as [a|] eqn:E.
  - assert (In k (dd_order d)) as Hk.
    { apply H. destruct (in_dec string_dec k (keys (dd_map d))); auto. apply pd_get_none in n. congruence. }
    apply l_in_In in Hk. rewrite Hk. destruct d as [m o]. cbn [fst snd dd_map dd_order] in *. split; auto. split; auto.
    rewrite abs_get; auto.
  - change (mkDD (pd_set k v (dd_map d)) (if l_in k (dd_order d) then dd_order d else dd_order d ++ [k])) with (dd_set k v d).
    cbn [fst snd]. split; [now apply set_Inv|]. split; [now apply set_abs|]. rewrite set_abs, store_set by auto. apply pd_get_set_same.
Qed.

Lemma keys_relabel : forall old new (l : list (string * V)),
  keys (relabel old new l) = map (fun x => if String.eqb old x then new else x) (keys l).
Proof.
  intros. unfold relabel, keys. rewrite !map_map. apply map_ext. intros [k v]. simpl.
  destruct (string_dec k old); destruct (String.eqb_spec old k); subst; simpl; auto; congruence.
Qed.
Lemma get_relabel : forall old new x (l : list (string * V)), ~ In new (keys l) -> NoDup (keys l) ->
  pd_get x (relabel old new l) = if String.eqb x new then pd_get old l else if String.eqb x old then None else pd_get x l.
Proof.
  induction l as [|[k v] l IH]; cbn [keys map fst relabel pd_get]; intros H ND.
  - now destruct (String.eqb x new), (String.eqb x old).
  - inversion ND as [|? ? N1 N2]; subst. cbn [In] in H. unfold relabel in IH. unfold keys in N1. cbn [snd].
    destruct (string_dec k old); cbn [pd_get].
    + subst. rewrite String.eqb_refl. destruct (String.eqb_spec x new); auto. rewrite IH by tauto.
      destruct (String.eqb_spec x new); [congruence|]. now destruct (String.eqb_spec x old).
    + rewrite IH by tauto. destruct (String.eqb_spec old k); [congruence|].
      destruct (String.eqb_spec x k); auto. subst. destruct (String.eqb_spec k new); [subst; tauto|].
      destruct (String.eqb_spec k old); congruence.
Qed.

Lemma rename_err : forall old new d, Inv d -> lookup old (dabs d) = None -> dd_rename old new d = Err KeyError.
Proof. intros old new d H E. rewrite lookup_get, abs_get in E by auto. unfold dd_rename, dd_get. now rewrite E. Qed.

Lemma map_rename_NoDup : forall old new l, NoDup l -> ~ In new l ->
  NoDup (map (fun x => if String.eqb old x then new else x) l).
Proof.
  induction l as [|x l IH]; simpl; intros ND H; [constructor|]. inversion ND as [|? ? N1 N2]; subst. constructor; [|apply IH; tauto].
  rewrite in_map_iff. intros [y [E Hy]]. destruct (String.eqb_spec old x), (String.eqb_spec old y); subst; try tauto; try congruence.
Qed.
Lemma map_rename_In : forall old new l x, old <> new -> In old l -> ~ In new l ->
  (In x (map (fun x => if String.eqb old x then new else x) l) <-> x = new \/ (x <> old /\ In x l)).
Proof.
  intros old new l x N Ho Hn. rewrite in_map_iff. split.
  - intros [y [E Hy]]. destruct (String.eqb_spec old y); subst; auto.
  - intros [->|[N2 Hx]].
    + exists old. rewrite String.eqb_refl. auto.
    + exists x. destruct (String.eqb_spec old x); [congruence|auto].
Qed.

Lemma rename_ok : forall old new v d, Inv d -> lookup old (dabs d) = Some v ->
  exists d', dd_rename old new d = Ok d' /\ Inv d' /\ dabs d' = spec_step (dabs d) (Rename old new).
Proof.
  intros old new v d H E. cbn [spec_step]. rewrite E. pose proof E as E'. rewrite lookup_get, abs_get in E' by auto.
  pose proof H as [H1 [H2 H3]].
  assert (Ho : In old (dd_order d)).
  { apply H3. destruct (in_dec string_dec old (keys (dd_map d))) as [i|i]; auto. apply pd_get_none in i. congruence. }
  unfold dd_rename, dd_get. rewrite E'. cbn [of_option bind].
  destruct (l_in new (dd_order d)) eqn:En; cbn [bind].
  - (* the new name exists *)
    rewrite del_ok by auto. cbn [bind dd_map dd_order].
    set (d1 := mkDD (pd_del old (dd_map d)) (filter (fun x => negb (String.eqb old x)) (dd_order d))).
    assert (D1 : dd_del old d = Ok d1) by (apply del_ok; auto).
    pose proof (del_Inv _ _ _ H D1) as I1.
    eexists. split; [reflexivity|]. split; [now apply set_Inv|]. rewrite set_abs by auto. rewrite (del_abs _ _ _ H D1).
    destruct (string_dec old new); auto.
    apply l_in_In in En. rewrite lookup_get, abs_get by auto. destruct (pd_get_in new (dd_map d)) as [w Hw]; [now apply H3|].
    now rewrite Hw.
  - apply l_in_false in En. assert (N : old <> new) by congruence.
    destruct (l_index_ok _ _ Ho) as [n Hn]. rewrite Hn. cbn [bind].
    set (o' := l_set n new (dd_order d)).
    assert (Eo : o' = map (fun x => if String.eqb old x then new else x) (dd_order d)) by (apply l_set_map; auto).
    assert (ND' : NoDup o') by (rewrite Eo; now apply map_rename_NoDup).
    assert (In' : forall x, In x o' <-> x = new \/ (x <> old /\ In x (dd_order d))).
    { intros x. rewrite Eo. now apply map_rename_In. }
    rewrite (del_ok old (mkDD (dd_map d) o')) by auto. cbn [bind dd_map dd_order].
    assert (Ef : filter (fun x => negb (String.eqb old x)) o' = o').
    { assert (F : forall l, ~ In old l -> filter (fun x => negb (String.eqb old x)) l = l).
      { induction l as [|x l IH]; simpl; auto. intros Hl. destruct (String.eqb_spec old x); [subst; tauto|]. simpl. f_equal. apply IH. tauto. }
      apply F. rewrite In'. intuition congruence. }
    rewrite Ef. eexists. split; [reflexivity|]. unfold dd_set. cbn [dd_map dd_order].
    assert (El : l_in new o' = true) by (apply l_in_In, In'; auto). rewrite El.
    assert (HnM : ~ In new (keys (dd_map d))) by (rewrite <- H3; auto).
    assert (II : Inv (mkDD (pd_set new v (pd_del old (dd_map d))) o')).
    { unfold Inv. cbn [dd_map dd_order]. split; auto. split.
      - apply keys_set_NoDup. rewrite keys_del by auto. now apply NoDup_filter'.
      - intros x. rewrite In', keys_set_In, keys_del, filter_In, H3 by auto. rewrite negb_true_iff, String.eqb_neq. intuition congruence. }
    split; [exact II|]. destruct (string_dec old new); [congruence|].
    assert (EL : lookup new (dabs d) = None). { rewrite lookup_get, abs_get by auto. now apply pd_get_none. }
    rewrite EL. apply assoc_ext.
    + now apply abs_NoDup.
    + rewrite keys_abs, keys_relabel, keys_abs by auto. exact Eo.
    + intros x. rewrite abs_get by auto. cbn [dd_map]. rewrite get_relabel.
      * rewrite !abs_get by auto. destruct (String.eqb_spec x new).
        { subst. rewrite pd_get_set_same. congruence. }
        rewrite pd_get_set_other by auto. destruct (String.eqb_spec x old); [subst; now apply pd_get_del_same|].
        now apply pd_get_del_other.
      * now rewrite keys_abs.
      * now apply abs_NoDup.
Qed.
End Inv.

(** ** copy *)
Lemma fold_set_app : forall {W} (l m : list (string * W)), NoDup (keys (m ++ l)) ->
  fold_left (fun m p => pd_set (fst p) (snd p) m) l m = m ++ l.
Proof.
  induction l as [|[k v] l IH]; simpl; intros m H; [now rewrite app_nil_r|].
  rewrite set_notin.
  - rewrite IH; rewrite <- app_assoc; auto.
  - unfold keys in *. rewrite map_app in H. simpl in H. apply NoDup_remove_2 in H. rewrite in_app_iff in H. tauto.
Qed.
Lemma copy_ok : forall {V W} (f : V -> W) (d : ddict V), Inv d ->
  exists d', dd_copy f d = Ok d' /\ Inv d' /\ dabs d' = map (fun p => (fst p, f (snd p))) (dabs d).
Proof.
  intros V W f d H. unfold dd_copy. rewrite items_abs by auto. cbn [bind]. eexists. split; [reflexivity|].
  set (l := map (fun p => (fst p, f (snd p))) (dabs d)).
  assert (K : keys l = dd_order d).
  { unfold l, keys. rewrite map_map. simpl. change (map (fun x => fst x) (dabs d)) with (keys (dabs d)). now apply keys_abs. }
  assert (ND : NoDup (keys l)) by (rewrite K; apply H).
  unfold dd_of_pairs. cbn [dd_map]. rewrite fold_set_app by auto. cbn [app].
  assert (II : Inv (mkDD l (dd_order d))).
  { unfold Inv. cbn [dd_map dd_order]. rewrite K. split; [apply H|]. split; [apply H|]. tauto. }
  split; auto. apply assoc_ext.
  - now apply abs_NoDup.
  - now rewrite keys_abs.
  - intros k. now rewrite abs_get.
Qed.

(** ** Histories *)
Definition dd_step {V} (d : ddict V) (o : op V) : ddict V :=
  match o with
  | Store k v => dd_set k v d
  | Remove k => match dd_del k d with Ok d' => d' | Err _ => d end
  | SetDefault k v => snd (dd_setdefault k v d)
  | Rename old new => match dd_rename old new d with Ok d' => d' | Err _ => d end
  | CopyOp f => match dd_copy f d with Ok d' => d' | Err _ => d end
  end.

Lemma step_ok : forall {V} (d : ddict V) o, Inv d -> Inv (dd_step d o) /\ dabs (dd_step d o) = spec_step (dabs d) o.
Proof.
  intros V d o H. destruct o as [k v|k|k v|old new|f]; cbn [dd_step spec_step].
  - split; [now apply set_Inv|now apply set_abs].
  - destruct (dd_del k d) as [d'|e] eqn:E.
    + split; [eapply del_Inv; eauto|eapply del_abs; eauto].
    + rewrite del_ok in E by apply H. discriminate.
  - destruct (setdefault_ok k v d H) as [H1 [H2 _]]. auto.
  - destruct (lookup old (dabs d)) as [v|] eqn:E.
    + destruct (rename_ok old new v d H E) as [d' [R1 [R2 R3]]]. rewrite R1. split; auto. rewrite R3. cbn [spec_step]. now rewrite E.
    + rewrite rename_err by auto. auto.
  - destruct (copy_ok f d H) as [d' [C1 [C2 C3]]]. rewrite C1. auto.
Qed.
Lemma empty_Inv : forall {V}, Inv (@dd_empty V).
Proof. intros. repeat split; try constructor; simpl; tauto. Qed.

Lemma history : forall {V} (os : list (op V)),
  let d := fold_left dd_step os dd_empty in
  let l := fold_left spec_step os [] in
  dd_items d = Ok l /\ dd_iter d = map fst l /\ NoDup (map fst l) /\ dd_len d = length l /\
  (forall k, dd_get k d = match lookup k l with Some v => Ok v | None => Err KeyError end) /\
  (forall k, dd_contains k d = true <-> In k (map fst l)).
Proof.
  intros V os d l.
  assert (G : Inv d /\ dabs d = l).
  { unfold d, l. assert (F : forall os (d : ddict V) l, Inv d -> dabs d = l ->
      Inv (fold_left dd_step os d) /\ dabs (fold_left dd_step os d) = fold_left spec_step os l).
    { clear. induction os as [|o os IH]; simpl; auto. intros d l H E. destruct (step_ok d o H) as [H1 H2].
      apply IH; auto. now rewrite H2, E. }
    apply F; [apply empty_Inv|reflexivity]. }
  destruct G as [HI HA]. split; [rewrite items_abs; congruence|].
  assert (K : dd_iter d = map fst l). { rewrite Inv_iter by auto. rewrite <- HA. symmetry. now apply keys_abs. }
  split; auto. split; [rewrite <- HA; now apply abs_NoDup|].
  assert (KM : map fst l = dd_order d) by (rewrite <- HA; now apply keys_abs).
  split.
  { unfold dd_len. rewrite <- (map_length fst l), KM. rewrite <- (map_length fst (dd_map d)).
    apply Permutation_length, NoDup_Permutation; try apply HI. intros x. symmetry. apply HI. }
  split.
  - intros k. unfold dd_get. rewrite <- HA, lookup_get, abs_get by auto. now destruct (pd_get k (dd_map d)).
  - intros k. unfold dd_contains. rewrite pd_has_In, KM. symmetry. apply HI.
Qed.

(** ** Histories that also use the inherited [update] and construction from
    pairs: [order] may miss keys. *)
Definition Inv2 {V} (d : ddict V) : Prop :=
  NoDup (dd_order d) /\ NoDup (keys (dd_map d)) /\ (forall k, In k (dd_order d) -> In k (keys (dd_map d))).

Inductive op2 (V : Type) : Type := Base (o : op V) | Update (l : list (string * V)).
Arguments Base {V} o.
Arguments Update {V} l.
Definition dd_step2 {V} (d : ddict V) (o : op2 V) : ddict V :=
  match o with Base o => dd_step d o | Update l => dd_update l d end.

Lemma fold_set_keys : forall {V} (l m : list (string * V)), NoDup (keys m) ->
  NoDup (keys (fold_left (fun m p => pd_set (fst p) (snd p) m) l m)) /\
  (forall k, In k (keys (fold_left (fun m p => pd_set (fst p) (snd p) m) l m)) <-> In k (keys m) \/ In k (keys l)).
Proof.
  induction l as [|[k v] l IH]; cbn [fold_left fst snd]; intros m H.
  - split; auto. simpl. tauto.
  - destruct (IH (pd_set k v m) (keys_set_NoDup k v m H)) as [A B]. split; auto. intros x. rewrite B, keys_set_In. simpl.
    intuition congruence.
Qed.
Lemma iter_ok : forall {V} (d : ddict V), Inv2 d ->
  NoDup (dd_iter d) /\ (forall k, In k (dd_iter d) <-> dd_contains k d = true) /\ length (dd_iter d) = dd_len d /\
  (exists l, dd_items d = Ok l /\ map fst l = dd_iter d /\ forall k v, In (k, v) l -> dd_get k d = Ok v).
Proof.
  intros V d [H1 [H2 H3]].
  assert (A : NoDup (dd_iter d)).
  { unfold dd_iter.
    assert (G : forall l l' : list string, NoDup l -> NoDup l' -> (forall x, In x l -> ~ In x l') -> NoDup (l ++ l')).
    { induction l as [|x l IH]; simpl; auto. intros l' N N' D. inversion N; subst. constructor; [|apply IH; auto].
      rewrite in_app_iff. intros [?|?]; [auto|]. apply (D x); auto. }
    apply G; auto; [now apply NoDup_filter'|]. intros x Hx. rewrite filter_In, negb_true_iff, l_in_false. tauto. }
  assert (B : forall k, In k (dd_iter d) <-> In k (keys (dd_map d))).
  { intros k. unfold dd_iter. rewrite in_app_iff, filter_In, negb_true_iff, l_in_false.
    destruct (in_dec string_dec k (dd_order d)); intuition. }
  split; auto. split; [intros; unfold dd_contains; now rewrite pd_has_In|]. split.
  { unfold dd_len. rewrite <- (map_length fst (dd_map d)). apply Permutation_length, NoDup_Permutation; auto. }
  assert (F : forall l, (forall k, In k l -> In k (keys (dd_map d))) ->
     exists r, mapM (fun k => do v <- dd_get k d; Ok (k, v)) l = Ok r /\ map fst r = l /\ forall k v, In (k, v) r -> dd_get k d = Ok v).
  { induction l as [|k l IH]; intros Hl; [exists []; simpl; intuition|].
    destruct (pd_get_in k (dd_map d)) as [v Hv]; [apply Hl; now left|].
    assert (G : dd_get k d = Ok v) by (unfold dd_get; now rewrite Hv).
    destruct IH as [r [R1 [R2 R3]]]; [intros; apply Hl; now right|].
    exists ((k, v) :: r). cbn [mapM]. rewrite G. cbn [bind]. rewrite R1. split; [reflexivity|]. split; [simpl; now rewrite R2|].
    intros k' v' [E|E]; [injection E as <- <-; auto|auto]. }
  apply F. intros k Hk. now apply B.
Qed.

Lemma set_Inv2 : forall {V} k v (d : ddict V), Inv2 d -> Inv2 (dd_set k v d).
Proof.
  intros V k v d [H1 [H2 H3]]. unfold dd_set, Inv2. cbn [dd_map dd_order]. destruct (l_in k (dd_order d)) eqn:E.
  - split; auto. split; [now apply keys_set_NoDup|]. intros x Hx. rewrite keys_set_In. auto.
  - apply l_in_false in E. split; [|split; [now apply keys_set_NoDup|]].
    + apply NoDup_Add with (a := k) (l := dd_order d); auto. rewrite <- (app_nil_r (dd_order d)) at 1. apply Add_app.
    + intros x. rewrite keys_set_In, in_app_iff. simpl. intros [?|[?|[]]]; auto.
Qed.
Lemma del_Inv2 : forall {V} k (d d' : ddict V), Inv2 d -> dd_del k d = Ok d' -> Inv2 d'.
Proof.
  intros V k d d' [H1 [H2 H3]] H. rewrite del_ok in H by auto. injection H as <-. unfold Inv2. cbn [dd_map dd_order].
  rewrite keys_del by auto. split; [now apply NoDup_filter'|]. split; [now apply NoDup_filter'|].
  intros x. rewrite !filter_In. intuition.
Qed.
Lemma rename_Inv2 : forall {V} old new (d d' : ddict V), Inv2 d -> dd_rename old new d = Ok d' -> Inv2 d'.
Proof.
  intros V old new d d' [H1 [H2 H3]] H. unfold dd_rename, dd_get in H.
  destruct (pd_get old (dd_map d)) as [v|] eqn:E; [|discriminate]. cbn [of_option bind] in H.
  destruct (l_in new (dd_order d)) eqn:En; cbn [bind] in H.
  - rewrite del_ok in H by auto. cbn [bind] in H. injection H as <-. apply set_Inv2.
    apply (del_Inv2 old d); [split; auto|]. now apply del_ok.
  - apply l_in_false in En. destruct (l_index old (dd_order d)) as [n|] eqn:Hn; [|discriminate]. cbn [bind] in H.
    rewrite (l_set_map old new _ n H1 Hn) in H.
    assert (Ho : In old (dd_order d)).
    { destruct (in_dec string_dec old (dd_order d)); auto. rewrite l_index_err in Hn by auto. discriminate. }
    assert (N : old <> new) by congruence.
    assert (ND' := map_rename_NoDup old new _ H1 En).
    rewrite (del_ok old (mkDD _ _)) in H by auto. cbn [bind dd_map dd_order] in H. injection H as <-.
    unfold Inv2, dd_set. cbn [dd_map dd_order].
    destruct (l_in new _) eqn:El.
    2: { exfalso. apply l_in_false in El. apply El. apply filter_In. split; [apply map_rename_In; auto|].
         rewrite negb_true_iff, String.eqb_neq. auto. }
    split; [now apply NoDup_filter'|]. split; [apply keys_set_NoDup; rewrite keys_del by auto; now apply NoDup_filter'|].
    intros x. rewrite filter_In, map_rename_In, keys_set_In, keys_del, filter_In by auto. intuition.
Qed.
Lemma step2_ok : forall {V} (d : ddict V) o, Inv2 d -> Inv2 (dd_step2 d o).
Proof.
  intros V d o H. destruct o as [[k v|k|k v|old new|f]|l]; cbn [dd_step2 dd_step].
  - now apply set_Inv2.
  - destruct (dd_del k d) as [d'|] eqn:E; auto. eapply del_Inv2; eauto.
  - unfold dd_setdefault. destruct (pd_get k (dd_map d)) eqn:E.
    + destruct H as [H1 [H2 H3]]. assert (In k (keys (dd_map d))).
      { destruct (in_dec string_dec k (keys (dd_map d))); auto. apply pd_get_none in n. congruence. }
      unfold Inv2. cbn [snd dd_map dd_order]. destruct (l_in k (dd_order d)) eqn:El; auto. apply l_in_false in El.
      split; [|split; auto].
      * apply NoDup_Add with (a := k) (l := dd_order d); auto. rewrite <- (app_nil_r (dd_order d)) at 1. apply Add_app.
      * intros x. rewrite in_app_iff. simpl. intros [?|[<-|[]]]; auto.
    + apply (set_Inv2 k v d H).
  - destruct (dd_rename old new d) as [d'|] eqn:E; auto. eapply rename_Inv2; eauto.
  - unfold dd_copy. destruct (iter_ok d H) as [I1 [I2 [_ [l [L1 [L2 _]]]]]]. rewrite L1. cbn [bind].
    unfold dd_of_pairs. cbn [dd_map].
    destruct (fold_set_keys (map (fun p => (fst p, f (snd p))) l) [] (NoDup_nil _)) as [A B].
    split; [apply H|]. split; [exact A|]. cbn [dd_map dd_order]. intros k Hk. apply B. right. unfold keys. rewrite map_map. cbn [fst].
    change (map (fun x => fst x) l) with (map fst l). rewrite L2. unfold dd_iter. apply in_or_app. auto.
  - destruct H as [H1 [H2 H3]]. unfold dd_update, Inv2. cbn [dd_map dd_order].
    destruct (fold_set_keys l (dd_map d) H2) as [A B]. split; auto. split; auto. intros k Hk. apply B. auto.
Qed.
Lemma history2 : forall {V} (l0 : list (string * V)) (os : list (op2 V)),
  let d := fold_left dd_step2 os (dd_of_pairs l0) in
  NoDup (dd_iter d) /\ (forall k, In k (dd_iter d) <-> dd_contains k d = true) /\ length (dd_iter d) = dd_len d /\
  (exists l, dd_items d = Ok l /\ map fst l = dd_iter d /\ forall k v, In (k, v) l -> dd_get k d = Ok v).
Proof.
  intros V l0 os d. apply iter_ok. unfold d. assert (H : Inv2 (dd_of_pairs l0)).
  { unfold dd_of_pairs, Inv2. cbn [dd_map dd_order]. split; [constructor|]. split; [|intros k []].
    apply (fold_set_keys l0 []). constructor. }
  revert H. generalize (dd_of_pairs l0). clear d. induction os as [|o os IH]; simpl; auto. intros d H. apply IH. now apply step2_ok.
Qed.
