From Coq Require Import String List Arith ZArith Bool Lia Permutation Sorted.
From Verif Require Import Model_NdArray Proofs_NdArray Model_Dim Model_Array Spec_Array.
Import ListNotations.
Local Open Scope nat_scope.

(** ** Classes and keys *)

Lemma class_eqb_eq : forall a b, class_eqb a b = true <-> a = b.
Proof. intros a b. unfold class_eqb. destruct (class_eq_dec a b); split; congruence. Qed.

Lemma class_eqb_refl : forall a, class_eqb a a = true.
Proof. intros. now apply class_eqb_eq. Qed.

Lemma subclass_refl : forall c, subclass c c = true.
Proof. intros c. destruct c; reflexivity. Qed.

Definition key_eqb (a b : dim) : bool :=
  class_eqb (d_class a) (d_class b) && String.eqb (d_name a) (d_name b).

Lemma key_eqb_eq : forall a b, key_eqb a b = true <-> key a = key b.
Proof.
  intros a b. unfold key_eqb, key. rewrite andb_true_iff, class_eqb_eq, String.eqb_eq.
  split; [intros [-> ->]; reflexivity|intros [=]; auto].
Qed.

Definition haskey (ds : list dim) (d : dim) : bool := existsb (key_eqb d) ds.

Lemma haskey_In : forall ds d, haskey ds d = true <-> In (key d) (map key ds).
Proof.
  intros ds d. unfold haskey. rewrite existsb_exists, in_map_iff. split.
  - intros [x [H E]]. apply key_eqb_eq in E. eauto.
  - intros [x [E H]]. exists x. split; auto. now apply key_eqb_eq.
Qed.

Lemma coherent_sub : forall ds ds', coherent ds -> incl ds' ds -> coherent ds'.
Proof. intros ds ds' H Hi d d' H1 H2. apply H; auto. Qed.

(** Under coherence the matching test is equality of keys. *)
Lemma matches_key : forall ds v x, coherent ds -> In v ds -> In x ds ->
  matches v x = true <-> key v = key x.
Proof.
  intros ds v x H Hv Hx. unfold matches. rewrite andb_true_iff, String.eqb_eq. split.
  - intros [H1 H2]. destruct (H x v Hx Hv H1 H2) as [H3 _]. unfold key. congruence.
  - unfold key. intros [= E1 E2]. split; [auto|]. rewrite E1. apply subclass_refl.
Qed.

Lemma find_index_some : forall {X} (f : X -> bool) l k, find_index f l = Some k ->
  exists x, nth_error l k = Some x /\ f x = true.
Proof.
  intros X f l. induction l as [|y l IH]; intros k H; simpl in H; [discriminate|].
  destruct (f y) eqn:E.
  - injection H as <-. exists y. auto.
  - destruct (find_index f l) as [j|] eqn:E2; simpl in H; [|discriminate]. injection H as <-.
    destruct (IH j eq_refl) as [x [H1 H2]]. exists x. auto.
Qed.

Lemma find_index_first : forall {X} (f : X -> bool) l k, find_index f l = Some k ->
  forall j x, j < k -> nth_error l j = Some x -> f x = false.
Proof.
  intros X f l. induction l as [|y l IH]; intros k H j x Hj Hx; simpl in H; [discriminate|].
  destruct (f y) eqn:E.
  - injection H as <-. lia.
  - destruct (find_index f l) as [i|] eqn:E2; simpl in H; [|discriminate]. injection H as <-.
    destruct j; simpl in Hx; [congruence|]. eapply (IH i eq_refl j x); auto. lia.
Qed.

Lemma find_index_none : forall {X} (f : X -> bool) l,
  find_index f l = None <-> (forall x, In x l -> f x = false).
Proof.
  intros X f l. induction l as [|y l IH]; simpl; split; intros H.
  - intros x [].
  - reflexivity.
  - destruct (f y) eqn:E; [discriminate|]. destruct (find_index f l); [discriminate|].
    intros x [<-|Hx]; auto. now apply IH.
  - rewrite (H y) by auto. rewrite (proj2 IH); auto.
Qed.

Lemma find_index_unique : forall {X} (f : X -> bool) l k x,
  nth_error l k = Some x -> f x = true ->
  (forall j y, nth_error l j = Some y -> f y = true -> j = k) ->
  find_index f l = Some k.
Proof.
  intros X f l k x Hk Hx Hu.
  destruct (find_index f l) as [j|] eqn:E.
  - destruct (find_index_some _ _ _ E) as [y [H1 H2]]. f_equal. eauto.
  - rewrite (proj1 (find_index_none f l) E x) in Hx; [discriminate|]. eapply nth_error_In; eauto.
Qed.

Lemma NoDup_key_pos : forall ds i j a b, NoDup (map key ds) ->
  nth_error ds i = Some a -> nth_error ds j = Some b -> key a = key b -> i = j.
Proof.
  intros ds i j a b ND Ha Hb E.
  apply (proj1 (NoDup_nth_error (map key ds)) ND).
  - rewrite map_length. apply nth_error_Some. congruence.
  - rewrite !nth_error_map, Ha, Hb. simpl. congruence.
Qed.

Lemma NoDup_key_inj : forall ds a b, NoDup (map key ds) -> In a ds -> In b ds ->
  key a = key b -> a = b.
Proof.
  intros ds a b ND Ha Hb E. apply In_nth_error in Ha as [i Hi]. apply In_nth_error in Hb as [j Hj].
  assert (i = j) by (eapply NoDup_key_pos; eauto). congruence.
Qed.

(** ** Sorting by priority *)

Lemma insert_prio_perm : forall d l, Permutation (insert_prio d l) (d :: l).
Proof.
  intros d l. induction l as [|e l IH]; simpl; auto.
  destruct (sortprio (d_class d) <=? sortprio (d_class e)); auto.
  rewrite IH. apply perm_swap.
Qed.

Lemma sort_prio_perm : forall l, Permutation (sort_prio l) l.
Proof.
  induction l as [|d l IH]; simpl; auto. rewrite insert_prio_perm. now constructor.
Qed.

Definition prio_le (a b : dim) : Prop := sortprio (d_class a) <= sortprio (d_class b).

Lemma insert_prio_sorted : forall d l, Sorted prio_le l -> Sorted prio_le (insert_prio d l).
Proof.
  intros d l. induction l as [|e l IH]; intros H; simpl.
  - repeat constructor.
  - destruct (sortprio (d_class d) <=? sortprio (d_class e)) eqn:E.
    + apply Nat.leb_le in E. constructor; auto.
    + apply Nat.leb_gt in E. inversion H; subst. constructor; auto.
      destruct l as [|f l]; simpl in *.
      * constructor. unfold prio_le. lia.
      * inversion H3; subst. destruct (sortprio (d_class d) <=? sortprio (d_class f));
        constructor; auto. unfold prio_le. lia.
Qed.

Lemma sort_prio_sorted : forall l, Sorted prio_le (sort_prio l).
Proof. induction l; simpl; [constructor|]. now apply insert_prio_sorted. Qed.

Lemma insert_prio_filter : forall p d l, Sorted prio_le l ->
  filter (fun x => Nat.eqb (sortprio (d_class x)) p) (insert_prio d l) =
  filter (fun x => Nat.eqb (sortprio (d_class x)) p) (d :: l).
Proof.
  intros p d l. induction l as [|e l IH]; intros H; simpl; auto.
  destruct (sortprio (d_class d) <=? sortprio (d_class e)) eqn:E; [reflexivity|].
  apply Nat.leb_gt in E. inversion H; subst. simpl. rewrite IH by assumption. simpl.
  destruct (Nat.eqb (sortprio (d_class d)) p) eqn:E1, (Nat.eqb (sortprio (d_class e)) p) eqn:E2; auto.
  apply Nat.eqb_eq in E1. apply Nat.eqb_eq in E2. lia.
Qed.

Lemma sort_prio_filter : forall p l,
  filter (fun x => Nat.eqb (sortprio (d_class x)) p) (sort_prio l) =
  filter (fun x => Nat.eqb (sortprio (d_class x)) p) l.
Proof.
  intros p l. induction l as [|d l IH]; simpl; auto.
  rewrite insert_prio_filter by apply sort_prio_sorted. simpl. now rewrite IH.
Qed.

(** ** Union of dimensions *)

Definition new_dims (a b : list dim) : list dim := filter (fun d => negb (haskey a d)) b.

Lemma contains_haskey : forall ds acc d, coherent ds -> incl acc ds -> In d ds ->
  dims_contains acc d = haskey acc d.
Proof.
  intros ds acc d H Hi Hd. unfold dims_contains, haskey.
  induction acc as [|x acc IH]; simpl; auto. rewrite IH by (intros y Hy; apply Hi; simpl; auto).
  f_equal. apply eq_true_iff_eq. rewrite key_eqb_eq.
  rewrite (matches_key ds); auto. reflexivity. apply Hi. simpl; auto.
Qed.

Lemma haskey_app : forall l1 l2 d, haskey (l1 ++ l2) d = haskey l1 d || haskey l2 d.
Proof. intros. unfold haskey. apply existsb_app. Qed.

Lemma union_fold : forall ds b acc, coherent ds -> incl acc ds -> incl b ds -> NoDup (map key b) ->
  fold_left union_step b acc = acc ++ new_dims acc b.
Proof.
  intros ds b. induction b as [|d b IH]; intros acc H Ha Hb ND; simpl.
  - now rewrite app_nil_r.
  - inversion ND as [|? ? Hn ND']; subst.
    unfold union_step at 2. rewrite (contains_haskey ds) by (auto; apply Hb; simpl; auto).
    destruct (haskey acc d) eqn:E; simpl.
    + apply IH; auto. intros y Hy; apply Hb; simpl; auto.
    + rewrite IH; auto.
      * rewrite <- app_assoc. simpl. f_equal. f_equal. unfold new_dims.
        apply filter_ext_in. intros x Hx. f_equal. rewrite haskey_app. unfold haskey at 2. simpl.
        destruct (key_eqb x d) eqn:E2; [|now rewrite !orb_false_r].
        apply key_eqb_eq in E2. exfalso. apply Hn. rewrite <- E2. now apply in_map.
      * intros y Hy. apply in_app_iff in Hy as [Hy|[<-|[]]]; auto. apply Hb; simpl; auto.
      * intros y Hy; apply Hb; simpl; auto.
Qed.

Lemma dims_union_eq : forall a b, coherent (a ++ b) -> NoDup (map key b) ->
  dims_union a [b] = sort_prio (a ++ new_dims a b).
Proof.
  intros a b H ND. unfold dims_union. simpl.
  rewrite (union_fold (a ++ b)); auto; intros x Hx; apply in_app_iff; auto.
Qed.

Lemma NoDup_map_filter : forall {X Y} (f : X -> Y) p l, NoDup (map f l) -> NoDup (map f (filter p l)).
Proof.
  intros X Y f p l. induction l as [|x l IH]; simpl; intros H; auto. inversion H; subst.
  destruct (p x); simpl; auto. constructor; auto.
  intros K. apply H2. apply in_map_iff in K as [y [E Hy]]. apply filter_In in Hy as [Hy _].
  rewrite <- E. now apply in_map.
Qed.

Lemma union_NoDup : forall a b, NoDup (map key a) -> NoDup (map key b) ->
  NoDup (map key (a ++ new_dims a b)).
Proof.
  intros a b Ha Hb. rewrite map_app. apply NoDup_app_intro; auto.
  - unfold new_dims. now apply NoDup_map_filter.
  - intros k H1 H2. apply in_map_iff in H2 as [x [<- H2]].
    apply filter_In in H2 as [_ H2]. apply haskey_In in H1. rewrite H1 in H2. discriminate.
Qed.

Lemma perm_NoDup_key : forall l l', Permutation l l' -> NoDup (map key l) -> NoDup (map key l').
Proof. intros l l' H. apply Permutation_NoDup. now apply Permutation_map. Qed.

Lemma union_In : forall a b d, coherent (a ++ b) -> NoDup (map key b) ->
  In d (dims_union a [b]) <-> In d a \/ (In d b /\ ~ In (key d) (map key a)).
Proof.
  intros a b d H ND. rewrite dims_union_eq by assumption.
  assert (In d (sort_prio (a ++ new_dims a b)) <-> In d (a ++ new_dims a b)) as ->.
  { split; apply Permutation_in; [|symmetry]; apply sort_prio_perm. }
  rewrite in_app_iff. unfold new_dims. rewrite filter_In, negb_true_iff.
  assert (haskey a d = false <-> ~ In (key d) (map key a)) as ->.
  { rewrite <- haskey_In. destruct (haskey a d); split; congruence. }
  reflexivity.
Qed.

Lemma union_incl : forall a b, coherent (a ++ b) -> NoDup (map key b) -> incl (dims_union a [b]) (a ++ b).
Proof.
  intros a b H ND d Hd. apply union_In in Hd; auto. apply in_app_iff. tauto.
Qed.

Lemma union_keys : forall a b k, coherent (a ++ b) -> NoDup (map key b) ->
  In k (map key (dims_union a [b])) <-> In k (map key a) \/ In k (map key b).
Proof.
  intros a b k H ND. split.
  - intros K. apply in_map_iff in K as [d [<- K]]. apply union_In in K; auto.
    destruct K as [K|[K _]]; [left|right]; now apply in_map.
  - intros [K|K].
    + apply in_map_iff in K as [d [<- K]]. apply in_map. apply union_In; auto.
    + apply in_map_iff in K as [d [<- K]].
      destruct (haskey a d) eqn:E.
      * apply haskey_In in E. apply in_map_iff in E as [d' [E K']]. rewrite <- E.
        apply in_map. apply union_In; auto.
      * apply in_map. apply union_In; auto. right. split; auto.
        rewrite <- haskey_In. congruence.
Qed.

Lemma union_NoDup_keys : forall a b, coherent (a ++ b) -> NoDup (map key a) -> NoDup (map key b) ->
  NoDup (map key (dims_union a [b])).
Proof.
  intros a b H Ha Hb. rewrite dims_union_eq by assumption.
  eapply perm_NoDup_key; [symmetry; apply sort_prio_perm|]. now apply union_NoDup.
Qed.

Lemma has_complex_In : forall ds, dims_has_complex ds = true <-> exists d, In d ds /\ is_complex_dim d = true.
Proof.
  intros ds. unfold dims_has_complex. rewrite existsb_exists. split; intros [d [H1 H2]]; exists d; split; auto.
  - now apply in_rev.
  - now apply -> in_rev.
Qed.

Lemma is_complex_key : forall d d', key d = key d' -> is_complex_dim d = is_complex_dim d'.
Proof. intros d d' [= H _]. unfold is_complex_dim. now rewrite H. Qed.

Lemma has_complex_keys : forall ds ds', (forall k, In k (map key ds) -> In k (map key ds')) ->
  dims_has_complex ds = true -> dims_has_complex ds' = true.
Proof.
  intros ds ds' H K. apply has_complex_In in K as [d [Hd K]].
  specialize (H (key d) (in_map key _ _ Hd)). apply in_map_iff in H as [d' [E H]].
  apply has_complex_In. exists d'. split; auto. rewrite (is_complex_key _ _ E). assumption.
Qed.

Lemma union_has_complex : forall a b, coherent (a ++ b) -> NoDup (map key b) ->
  dims_has_complex (dims_union a [b]) = dims_has_complex a || dims_has_complex b.
Proof.
  intros a b H ND. apply eq_true_iff_eq. rewrite orb_true_iff. split.
  - intros K. apply has_complex_In in K as [d [Hd K]]. apply union_In in Hd; auto.
    destruct Hd as [Hd|[Hd _]]; [left|right]; apply has_complex_In; eauto.
  - intros [K|K]; eapply has_complex_keys; try exact K; intros k Hk; apply union_keys; auto.
Qed.

(** ** transpose *)

Lemma new_from_ok : forall {A B} (x : hf A) (a : nd B) ds, length ds = length (nd_shape a) ->
  new_from x a ds = Ok (mkHF a (h_dt x) ds (h_unit x) (h_fmt x)).
Proof. intros. unfold new_from. rewrite H, Nat.eqb_refl. reflexivity. Qed.

Lemma new_raw_ok : forall {A} (a : nd A) t ds u f, length ds = length (nd_shape a) ->
  new_raw a t (Some ds) u f = Ok (mkHF a t ds u (match f with Some f => f | None => default_fmt t end)).
Proof. intros. unfold new_raw. simpl. rewrite H, Nat.eqb_refl. reflexivity. Qed.

Definition dim0 : dim := mkDim CDimBase "" [] None None.

Lemma nth_error_nth' : forall {X} (l : list X) k d, k < length l -> nth_error l k = Some (nth k l d).
Proof. intros. now apply nth_error_nth'. Qed.

(** A permutation of the axes given as naturals. *)
Lemma transpose_nat_ok : forall {A} (x : hf A) (o : list nat),
  nd_wf (h_nd x) -> length (h_dims x) = h_ndim x -> is_perm (h_ndim x) o = true ->
  exists y, transpose (map Z.of_nat o) x = Ok y /\ nd_wf (h_nd y) /\
    h_shape y = map (fun k => nth k (h_shape x) 0) o /\
    h_dims y = map (fun k => nth k (h_dims x) dim0) o /\
    h_dt y = h_dt x /\ h_unit y = h_unit x /\ h_fmt y = h_fmt x /\
    (forall ix, inb (h_shape y) ix = true ->
       nd_get (h_nd y) ix = nd_get (h_nd x) (unpermute (h_ndim x) o ix)).
Proof.
  intros A x o Hw Hd Hp.
  assert ((match map Z.of_nat o with
           | [] => map Z.of_nat (rev (seq 0 (h_ndim x)))
           | _ => map Z.of_nat o end) = map Z.of_nat o) as E.
  { destruct o; simpl; auto. apply perm_length in Hp. simpl in Hp. rewrite <- Hp. reflexivity. }
  unfold transpose. rewrite E. clear E.
  rewrite (mapM_ok _ (fun z => Z.to_nat z)).
  2:{ intros z Hz. apply in_map_iff in Hz as [k [<- Hk]]. unfold np_axis.
      rewrite py_pos_nat by (now apply (perm_In _ _ _ Hp)). simpl. now rewrite Nat2Z.id. }
  simpl. rewrite map_map.
  assert (map (fun k => Z.to_nat (Z.of_nat k)) o = o) as ->.
  { rewrite <- (map_id o) at 2. apply map_ext. intros. apply Nat2Z.id. }
  destruct (nd_transpose_ok o (h_nd x) Hw Hp) as [b [Hb1 [Hb2 [Hb3 Hb4]]]].
  rewrite Hb1. simpl.
  rewrite (mapM_ok _ (fun z => nth (Z.to_nat z) (h_dims x) dim0)).
  2:{ intros z Hz. apply in_map_iff in Hz as [k [<- Hk]]. unfold py_nth.
      assert (k < length (h_dims x)) by (rewrite Hd; now apply (perm_In _ _ _ Hp)).
      rewrite py_pos_nat by assumption. rewrite Nat2Z.id.
      rewrite (nth_error_nth' _ _ dim0) by assumption. reflexivity. }
  simpl. rewrite map_map.
  rewrite new_from_ok.
  2:{ rewrite Hb3, !map_length. reflexivity. }
  eexists. split; [reflexivity|]. unfold h_shape; simpl.
  split; [assumption|]. split; [assumption|]. split.
  { apply map_ext. intros. now rewrite Nat2Z.id. }
  repeat split; auto.
Qed.

(** ** change_shape *)

Lemma wf_ndim : forall {A} (x : hf A), labels_match x -> length (h_dims x) = h_ndim x.
Proof. intros A x H. unfold h_ndim. fold (h_shape x). rewrite <- H. now rewrite map_length. Qed.

Lemma coords_inb : forall {A} (x : hf A) e, labels_match x -> valid e (h_dims x) ->
  inb (h_shape x) (coords e (h_dims x)) = true.
Proof.
  intros A x e Hl. rewrite <- Hl. unfold valid, coords. generalize (h_dims x).
  induction l as [|d l IH]; intros H; simpl; auto.
  rewrite IH by (intros; apply H; simpl; auto). rewrite andb_true_r. apply Nat.ltb_lt.
  apply H. simpl; auto.
Qed.

Lemma val_some : forall {A} (x : hf A) e, nd_wf (h_nd x) -> labels_match x -> valid e (h_dims x) ->
  exists v, val x e = Some v.
Proof. intros. unfold val. apply nd_get_some; auto. now apply coords_inb. Qed.

(** Position in [xs] of the dimension with the key of [d]. *)
Definition key_pos (xs : list dim) (d : dim) : option nat := find_index (key_eqb d) xs.

Lemma find_index_ext : forall {X} (f g : X -> bool) l, (forall x, In x l -> f x = g x) ->
  find_index f l = find_index g l.
Proof.
  intros X f g l. induction l as [|x l IH]; intros H; simpl; auto.
  rewrite H by (simpl; auto). destruct (g x); auto. rewrite IH; auto. intros; apply H; simpl; auto.
Qed.

Lemma key_pos_haskey : forall xs d, haskey xs d = true <-> exists k, key_pos xs d = Some k.
Proof.
  intros xs d. unfold key_pos. destruct (find_index (key_eqb d) xs) as [k|] eqn:E.
  - split; [eauto|]. intros _. apply find_index_some in E as [x [H1 H2]].
    unfold haskey. apply existsb_exists. exists x. split; auto. eapply nth_error_In; eauto.
  - split; [|intros [k Hk]; discriminate]. intros H. exfalso.
    unfold haskey in H. apply existsb_exists in H as [x [H1 H2]].
    rewrite (proj1 (find_index_none _ _) E x H1) in H2. discriminate.
Qed.

Lemma change_loop_ok : forall (xs : list dim) (u all : list dim),
  coherent all -> incl xs all -> incl u all ->
  change_loop xs (map (fun d => length (d_data d)) xs) u =
  Ok (map (fun d => match key_pos xs d with
                    | Some k => length (d_data (nth k xs dim0)) | None => 1 end) u,
      flat_map (fun d => opt_list (key_pos xs d)) u).
Proof.
  intros xs u all H Hx Hu. induction u as [|d u IH]; simpl; auto.
  assert (In d all) as Hd by (apply Hu; simpl; auto).
  rewrite (contains_haskey all) by auto.
  assert (find_index (matches d) xs = key_pos xs d) as Ef.
  { unfold key_pos. apply find_index_ext. intros x Hx'. apply eq_true_iff_eq.
    rewrite key_eqb_eq. apply (matches_key all); auto. }
  destruct (haskey xs d) eqn:E.
  - apply key_pos_haskey in E as [k E]. unfold matching_index. rewrite Ef, E. simpl.
    destruct (find_index_some _ _ _ E) as [x [H1 _]].
    assert (nth_error (map (fun d => length (d_data d)) xs) k = Some (length (d_data x))) as ->.
    { rewrite nth_error_map, H1. reflexivity. }
    simpl. rewrite IH by (intros y Hy; apply Hu; simpl; auto). simpl.
    rewrite (nth_error_nth xs k dim0 H1). reflexivity.
  - assert (key_pos xs d = None) as ->.
    { destruct (key_pos xs d) eqn:E2; auto. assert (haskey xs d = true) by (apply key_pos_haskey; eauto). congruence. }
    rewrite IH by (intros y Hy; apply Hu; simpl; auto). reflexivity.
Qed.

Lemma key_pos_nth : forall xs d k, NoDup (map key xs) -> nth_error xs k = Some d ->
  forall d', key d' = key d -> key_pos xs d' = Some k.
Proof.
  intros xs d k ND Hk d' E. unfold key_pos. apply find_index_unique with (x := d); auto.
  - now apply key_eqb_eq.
  - intros j y Hj Hy. apply key_eqb_eq in Hy. eapply NoDup_key_pos; eauto. congruence.
Qed.

Lemma key_pos_key : forall xs d k, key_pos xs d = Some k -> k < length xs /\ key (nth k xs dim0) = key d.
Proof.
  intros xs d k H. apply find_index_some in H as [x [H1 H2]]. apply key_eqb_eq in H2. split.
  - apply nth_error_Some. congruence.
  - rewrite (nth_error_nth xs k dim0 H1). auto.
Qed.

Lemma order_perm : forall xs u, NoDup (map key xs) -> NoDup (map key u) ->
  (forall k, In k (map key xs) -> In k (map key u)) ->
  is_perm (length xs) (flat_map (fun d => opt_list (key_pos xs d)) u) = true.
Proof.
  intros xs u NDx NDu Hin. apply Permutation_is_perm.
  apply NoDup_Permutation.
  - clear Hin. induction u as [|d u IH]; simpl; [constructor|]. inversion NDu; subst.
    destruct (key_pos xs d) as [k|] eqn:E; simpl; auto. constructor; auto.
    intros K. apply in_flat_map in K as [d' [Hd' K]].
    destruct (key_pos xs d') as [k'|] eqn:E'; simpl in K; [|tauto]. destruct K as [->|[]].
    apply key_pos_key in E as [_ E]. apply key_pos_key in E' as [_ E'].
    apply H1. rewrite <- E, E'. now apply in_map.
  - apply seq_NoDup.
  - intros k. rewrite in_flat_map, in_seq. split.
    + intros [d [Hd K]]. destruct (key_pos xs d) as [k'|] eqn:E; simpl in K; [|tauto].
      destruct K as [->|[]]. apply key_pos_key in E as [E _]. lia.
    + intros [_ Hk]. simpl in Hk.
      destruct (nth_error xs k) as [x|] eqn:E; [|apply nth_error_None in E; lia].
      assert (In (key x) (map key u)) as K.
      { apply Hin. apply in_map. eapply nth_error_In; eauto. }
      apply in_map_iff in K as [d [Ek Hd]]. exists d. split; auto.
      rewrite (key_pos_nth xs x k); simpl; auto.
Qed.

(** Axes of length one do not contribute to the row-major position. *)
Lemma ravel_skip_ones : forall (l : list (option (nat * nat))),
  let sh := map (fun o => match o with Some p => fst p | None => 1 end) l in
  let ix := map (fun o => match o with Some p => snd p | None => 0 end) l in
  let l' := flat_map opt_list l in
  ravel sh ix = ravel (map fst l') (map snd l') /\
  prodn sh = prodn (map fst l') /\
  inb sh ix = inb (map fst l') (map snd l').
Proof.
  induction l as [|[[n i]|] l [IH1 [IH2 IH3]]]; simpl; auto.
  - rewrite IH1, IH2, IH3. auto.
  - rewrite IH1, IH2, IH3. repeat split; auto with arith.
Qed.

Lemma flat_map_map_opt : forall {X Y} (f : X -> option Y) l,
  flat_map (fun x => opt_list (f x)) l = flat_map opt_list (map f l).
Proof. intros. induction l as [|x l IH]; simpl; auto. now rewrite IH. Qed.

Lemma map_flat_opt : forall {X Y} (f : X -> Y) (l : list (option X)),
  map f (flat_map opt_list l) = flat_map opt_list (map (option_map f) l).
Proof. intros. induction l as [|[x|] l IH]; simpl; auto. now rewrite IH. Qed.

Lemma unpermute_map : forall n order (g : nat -> nat), is_perm n order = true ->
  unpermute n order (map g order) = map g (seq 0 n).
Proof.
  intros n order g Hp. unfold unpermute. apply map_ext_in. intros k Hk. apply in_seq in Hk.
  assert (In k order) as Hi by (apply (perm_In _ _ _ Hp); lia).
  rewrite nth_map_order by (now apply index_of_lt). now rewrite nth_index_of.
Qed.

Lemma map_nth_seq : forall {X Y} (f : X -> Y) l d, map (fun k => f (nth k l d)) (seq 0 (length l)) = map f l.
Proof.
  intros X Y f l d. induction l as [|x l IH]; simpl; auto. f_equal.
  rewrite <- seq_shift, map_map. apply IH.
Qed.

Lemma change_shape_ok : forall {A} (E : elops A) (x : hf A) u,
  wf x -> NoDup (map key u) -> (forall k, In k (map key (h_dims x)) -> In k (map key u)) ->
  coherent (h_dims x ++ u) -> (dims_has_complex u = true -> isfullcomplex x = true) ->
  exists y, change_shape E u x = Ok y /\ nd_wf (h_nd y) /\ h_dims y = u /\
    h_dt y = h_dt x /\ h_unit y = h_unit x /\ h_fmt y = h_fmt x /\
    h_shape y = map (fun d => if haskey (h_dims x) d then length (d_data d) else 1) u /\
    forall e, valid e (h_dims x) ->
      nd_get (h_nd y) (map (fun d => if haskey (h_dims x) d then e (key d) else 0) u) = val x e.
Proof.
  intros A E x u [Hw [Hl ND]] NDu Hin Hc Hcx.
  unfold change_shape.
  assert ((if dims_has_complex u then make_fullcomplex E x else Ok x) = Ok x) as ->.
  { destruct (dims_has_complex u) eqn:Ec; auto. unfold make_fullcomplex. now rewrite Hcx. }
  simpl. rewrite <- Hl.
  rewrite (change_loop_ok (h_dims x) u (h_dims x ++ u)) by
    (auto; intros y Hy; apply in_app_iff; auto).
  simpl.
  set (xs := h_dims x) in *.
  set (order := flat_map (fun d => opt_list (key_pos xs d)) u).
  assert (Hn : length xs = h_ndim x) by (apply wf_ndim; assumption).
  assert (Hp : is_perm (length xs) order = true) by (apply order_perm; assumption).
  assert (Hp' : is_perm (h_ndim x) order = true) by (now rewrite <- Hn).
  destruct (transpose_nat_ok x order Hw Hn Hp') as [y [Hy1 [Hy2 [Hy3 [Hy4 [Hy5 [Hy6 [Hy7 Hy8]]]]]]]].
  rewrite Hy1. simpl.
  set (newsh := map (fun d => match key_pos xs d with
                    | Some k => length (d_data (nth k xs dim0)) | None => 1 end) u).
  (* a list that describes new and old axes at the same time *)
  set (L := fun e : assignment => map (fun d => option_map (fun k => (length (d_data (nth k xs dim0)), e (key (nth k xs dim0))))
                                       (key_pos xs d)) u).
  assert (HL1 : forall e, map (fun o : option (nat * nat) => match o with Some p => fst p | None => 1 end) (L e) = newsh).
  { intros e. unfold L, newsh. rewrite map_map. apply map_ext. intros d. destruct (key_pos xs d); reflexivity. }
  assert (HL2 : forall e, map fst (flat_map opt_list (L e)) = map (fun k => nth k (h_shape x) 0) order).
  { intros e. unfold order. rewrite (flat_map_map_opt (key_pos xs) u), !map_flat_opt. unfold L. rewrite !map_map.
    f_equal. apply map_ext. intros d. destruct (key_pos xs d) as [k|] eqn:Ek; simpl; auto.
    f_equal. rewrite <- Hl. fold xs. apply key_pos_key in Ek as [Ek _].
    change 0 with (length (d_data dim0)). symmetry. apply (map_nth (fun d => length (d_data d))). }
  assert (HL3 : forall e, map snd (flat_map opt_list (L e)) = map (fun k => e (key (nth k xs dim0))) order).
  { intros e. unfold order. rewrite (flat_map_map_opt (key_pos xs) u), !map_flat_opt. unfold L. rewrite !map_map.
    f_equal. apply map_ext. intros d. destruct (key_pos xs d) as [k|] eqn:Ek; reflexivity. }
  assert (Hpr : prodn newsh = prodn (nd_shape (h_nd y))).
  { destruct (ravel_skip_ones (L (fun _ => 0))) as [_ [Hpr _]]. rewrite HL1, HL2 in Hpr.
    rewrite Hpr. fold (h_shape y). now rewrite Hy3. }
  rewrite nd_reshape_ok by assumption. simpl.
  eexists. split; [reflexivity|]. simpl.
  split. { unfold nd_wf. simpl. rewrite Hy2. auto. }
  split; [reflexivity|]. split; [assumption|]. split; [assumption|]. split; [assumption|].
  assert (Hns : newsh = map (fun d => if haskey xs d then length (d_data d) else 1) u).
  { apply map_ext_in. intros d Hd. destruct (key_pos xs d) as [k|] eqn:Ek.
    - assert (haskey xs d = true) as -> by (apply key_pos_haskey; eauto).
      apply key_pos_key in Ek as [Ek1 Ek2].
      assert (In (nth k xs dim0) xs) by (now apply nth_In).
      destruct (Hc (nth k xs dim0) d) as [_ K].
      + apply in_app_iff; auto.
      + apply in_app_iff; auto.
      + unfold key in Ek2. congruence.
      + unfold key in Ek2. injection Ek2 as -> _. apply subclass_refl.
      + assumption.
    - assert (haskey xs d = false) as ->; auto.
      destruct (haskey xs d) eqn:E2; auto. apply key_pos_haskey in E2 as [k E2]. congruence. }
  split; [exact Hns|].
  intros e He. unfold val, nd_get at 1. simpl.
  assert (Hix : map (fun d => if haskey xs d then e (key d) else 0) u =
                map (fun o : option (nat * nat) => match o with Some p => snd p | None => 0 end) (L e)).
  { unfold L. rewrite map_map. apply map_ext. intros d. destruct (key_pos xs d) as [k|] eqn:Ek; simpl.
    - assert (haskey xs d = true) as -> by (apply key_pos_haskey; eauto).
      apply key_pos_key in Ek as [_ Ek]. now rewrite Ek.
    - assert (haskey xs d = false) as ->; auto.
      destruct (haskey xs d) eqn:E2; auto. apply key_pos_haskey in E2 as [k E2]. congruence. }
  rewrite Hix, <- (HL1 e).
  destruct (ravel_skip_ones (L e)) as [R1 [R2 R3]]. rewrite R1, R3, HL2, HL3.
  rewrite <- Hy3.
  specialize (Hy8 (map (fun k => e (key (nth k xs dim0))) order)).
  unfold nd_get in Hy8 at 1. fold (h_shape y) in Hy8.
  assert (Hb : inb (h_shape y) (map (fun k => e (key (nth k xs dim0))) order) = true).
  { rewrite Hy3. apply inb_nth. rewrite !map_length. split; auto. intros k Hk.
    rewrite !nth_map_order by assumption.
    assert (In (nth k order 0) order) as Hi by (now apply nth_In).
    apply (perm_In _ _ _ Hp) in Hi. rewrite <- Hl.
    pose proof (map_nth (fun d => length (d_data d)) xs dim0 (nth k order 0)) as K. simpl in K.
    fold xs. rewrite K. apply He. now apply nth_In. }
  rewrite Hb in Hy8 |- *. rewrite Hy8 by reflexivity.
  rewrite <- Hn. rewrite unpermute_map by assumption.
  rewrite (map_nth_seq (fun d => e (key d))). reflexivity.
Qed.

(** ** Broadcast arithmetic *)

Lemma bshape_mask : forall (u : list dim) (f g : dim -> bool),
  (forall d, In d u -> f d = true \/ g d = true) ->
  bshape (map (fun d => if f d then length (d_data d) else 1) u)
         (map (fun d => if g d then length (d_data d) else 1) u)
  = Ok (map (fun d => length (d_data d)) u).
Proof.
  intros u f g. induction u as [|d u IH]; intros H; simpl; auto.
  rewrite IH by (intros; apply H; simpl; auto). simpl.
  destruct (H d (or_introl eq_refl)) as [-> | ->].
  - destruct (g d).
    + now rewrite Nat.eqb_refl.
    + destruct (Nat.eqb (length (d_data d)) 1) eqn:E; auto.
  - destruct (f d).
    + now rewrite Nat.eqb_refl.
    + destruct (Nat.eqb 1 (length (d_data d))) eqn:E; simpl; auto.
      apply Nat.eqb_eq in E. now rewrite E.
Qed.

Lemma bindex_mask : forall (u : list dim) (f : dim -> bool) e, valid e u ->
  bindex (map (fun d => if f d then length (d_data d) else 1) u) (coords e u) =
  map (fun d => if f d then e (key d) else 0) u.
Proof.
  intros u f e. induction u as [|d u IH]; intros H; simpl; auto.
  rewrite IH by (intros d' Hd'; apply H; simpl; auto). f_equal.
  specialize (H d (or_introl eq_refl)).
  destruct (f d); simpl; auto. destruct (Nat.eqb (length (d_data d)) 1) eqn:E; auto.
  apply Nat.eqb_eq in E. lia.
Qed.

Lemma valid_union_l : forall a b e, coherent (a ++ b) -> NoDup (map key b) ->
  valid e (dims_union a [b]) -> valid e a.
Proof. intros a b e H ND Hv d Hd. apply Hv. apply union_In; auto. Qed.

Lemma valid_union_r : forall a b e, coherent (a ++ b) -> NoDup (map key b) ->
  valid e (dims_union a [b]) -> valid e b.
Proof.
  intros a b e H ND Hv d Hd.
  destruct (haskey a d) eqn:E.
  - apply haskey_In in E. apply in_map_iff in E as [d' [E Hd']].
    assert (e (key d') < length (d_data d')) as K by (apply Hv; apply union_In; auto).
    destruct (H d' d) as [_ L].
    + apply in_app_iff; auto.
    + apply in_app_iff; auto.
    + unfold key in E. congruence.
    + unfold key in E. injection E as -> _. apply subclass_refl.
    + rewrite <- E. lia.
  - apply Hv. apply union_In; auto. right. split; auto. rewrite <- haskey_In. congruence.
Qed.

Lemma binop_ok : forall {A} (E : elops A) rt op (x y : hf A),
  wf x -> wf y -> coherent (h_dims x ++ h_dims y) -> isfullcomplex x = isfullcomplex y ->
  exists r, binop E rt op x y = Ok r /\ wf r /\
    h_dims r = dims_union (h_dims x) [h_dims y] /\
    h_unit r = h_unit x /\ h_fmt r = h_fmt x /\ h_dt r = rt (h_dt x) (h_dt y) /\
    forall e, valid e (h_dims r) ->
      exists v w, val x e = Some v /\ val y e = Some w /\ val r e = Some (op v w).
Proof.
  intros A E rt op x y Hx Hy Hc Hcx.
  pose proof Hx as [Hxw [Hxl Hxn]]. pose proof Hy as [Hyw [Hyl Hyn]].
  set (u := dims_union (h_dims x) [h_dims y]).
  assert (NDu : NoDup (map key u)) by (now apply union_NoDup_keys).
  assert (Hiu : incl u (h_dims x ++ h_dims y)) by (now apply union_incl).
  assert (HCu : dims_has_complex u = isfullcomplex x || isfullcomplex y) by (now apply union_has_complex).
  assert (Hcx' : dims_has_complex u = true -> isfullcomplex x = true).
  { rewrite HCu, Hcx. now destruct (isfullcomplex y). }
  assert (Hcy' : dims_has_complex u = true -> isfullcomplex y = true).
  { rewrite HCu, Hcx. now destruct (isfullcomplex y). }
  destruct (change_shape_ok E x u Hx NDu) as [x' [Ex [Wx [Dx [Tx [Ux [Fx [Sx Vx]]]]]]]]; auto.
  { intros k Hk. apply union_keys; auto. }
  { eapply coherent_sub; [exact Hc|]. intros d Hd. apply in_app_iff in Hd as [Hd|Hd]; auto.
    apply in_app_iff; auto. }
  destruct (change_shape_ok E y u Hy NDu) as [y' [Ey [Wy [Dy [Ty [Uy [Fy [Sy Vy]]]]]]]]; auto.
  { intros k Hk. apply union_keys; auto. }
  { eapply coherent_sub; [exact Hc|]. intros d Hd. apply in_app_iff in Hd as [Hd|Hd]; auto.
    apply in_app_iff; auto. }
  unfold binop, make_same_dims. fold u. rewrite Ex. simpl. rewrite Ey. simpl.
  assert (Hor : forall d, In d u -> haskey (h_dims x) d = true \/ haskey (h_dims y) d = true).
  { intros d Hd. rewrite !haskey_In. apply union_keys; auto. now apply in_map. }
  assert (Hbs : bshape (nd_shape (h_nd x')) (nd_shape (h_nd y')) = Ok (map (fun d => length (d_data d)) u)).
  { fold (h_shape x'). fold (h_shape y'). rewrite Sx, Sy. now apply bshape_mask. }
  destruct (nd_map2_ok op (h_nd x') (h_nd y') _ Wx Wy Hbs) as [r [Er [Wr [Sr Vr]]]].
  rewrite Er. simpl. eexists. split; [reflexivity|]. simpl.
  split. { repeat split; simpl; auto; unfold labels_match, h_shape; simpl; rewrite ?Dx, ?Sr; auto. }
  split; [assumption|]. split; [assumption|]. split; [assumption|]. split; [congruence|].
  intros e He. rewrite Dx in He.
  destruct (Vr (coords e u)) as [v [w [H1 [H2 H3]]]].
  { clear -He. unfold valid, coords in *. induction u as [|d u IH]; simpl; auto.
    rewrite IH by (intros d' Hd'; apply He; simpl; auto). rewrite andb_true_r. apply Nat.ltb_lt. apply He. simpl; auto. }
  fold (h_shape x') in H1. fold (h_shape y') in H2. rewrite Sx, bindex_mask in H1 by assumption.
  rewrite Sy, bindex_mask in H2 by assumption.
  rewrite Vx in H1 by (eapply valid_union_l; eauto).
  rewrite Vy in H2 by (eapply valid_union_r; eauto).
  exists v, w. split; [assumption|]. split; [assumption|].
  unfold val. simpl. rewrite Dx. assumption.
Qed.
