(** Lemmas on the numpy model of Model_NdArray.v. *)
From Coq Require Import List Arith ZArith Bool Lia Permutation.
From Verif Require Import Model_NdArray.
Import ListNotations.
Local Open Scope nat_scope.

Lemma map_app_S_seq : forall n k, map (fun i => i + k) (seq 0 n) = seq k n.
Proof.
  intros n k. induction n as [|n IH] using nat_ind; [reflexivity|].
  rewrite seq_S, map_app, IH, seq_S. simpl. f_equal. f_equal. lia.
Qed.

Lemma inb_length : forall sh ix, inb sh ix = true -> length ix = length sh.
Proof.
  induction sh as [|n sh IH]; intros [|i ix] H; simpl in *; try discriminate; auto.
  apply andb_prop in H as [_ H]. f_equal; auto.
Qed.

Lemma inb_nth : forall sh ix,
  inb sh ix = true <-> (length ix = length sh /\ forall k, k < length sh -> nth k ix 0 < nth k sh 0).
Proof.
  induction sh as [|n sh IH]; intros [|i ix]; simpl; split; intro H; try discriminate; auto.
  - split; [reflexivity|]. intros k Hk. lia.
  - destruct H as [H _]; discriminate.
  - destruct H as [H _]; discriminate.
  - apply andb_prop in H as [H1 H2]. apply IH in H2 as [H2 H3]. apply Nat.ltb_lt in H1.
    split; [lia|]. intros [|k] Hk; [assumption|]. apply H3. lia.
  - destruct H as [H1 H2]. apply andb_true_intro. split.
    + apply Nat.ltb_lt. apply (H2 0). lia.
    + apply IH. split; [lia|]. intros k Hk. apply (H2 (S k)). lia.
Qed.

Lemma ravel_lt : forall sh ix, inb sh ix = true -> ravel sh ix < prodn sh.
Proof.
  induction sh as [|n sh IH]; intros [|i ix] H; simpl in *; try discriminate; try lia.
  apply andb_prop in H as [H1 H2]. apply Nat.ltb_lt in H1. apply IH in H2. nia.
Qed.

Lemma length_flat_map_const : forall {A B} (f : A -> list B) (l : list A) m,
  (forall x, In x l -> length (f x) = m) -> length (flat_map f l) = length l * m.
Proof.
  intros A B f l m. induction l as [|x l IH]; intros H; simpl; [reflexivity|].
  rewrite app_length, H, IH by (simpl; auto; intros; apply H; simpl; auto). lia.
Qed.

Lemma indices_length : forall sh, length (indices sh) = prodn sh.
Proof.
  induction sh as [|n sh IH]; simpl; [reflexivity|].
  rewrite (length_flat_map_const _ _ (prodn sh)).
  - now rewrite seq_length.
  - intros. now rewrite map_length.
Qed.

Lemma in_indices : forall sh ix, In ix (indices sh) <-> inb sh ix = true.
Proof.
  induction sh as [|n sh IH]; intros ix; simpl.
  - destruct ix; simpl; intuition discriminate.
  - rewrite in_flat_map. split.
    + intros [i [Hi H]]. apply in_map_iff in H as [jx [<- H]].
      apply in_seq in Hi. apply andb_true_intro. split.
      * apply Nat.ltb_lt. lia.
      * now apply IH.
    + destruct ix as [|i ix]; [discriminate|]. intro H. apply andb_prop in H as [H1 H2].
      apply Nat.ltb_lt in H1. exists i. split; [apply in_seq; lia|].
      apply in_map. now apply IH.
Qed.

Lemma nth_error_flat_map_const : forall {A B} (f : A -> list B) (l : list A) m i j x,
  (forall x, In x l -> length (f x) = m) -> j < m -> nth_error l i = Some x ->
  nth_error (flat_map f l) (i * m + j) = nth_error (f x) j.
Proof.
  intros A B f l m. induction l as [|y l IH]; intros i j x H Hj Hx.
  - destruct i; discriminate.
  - simpl. destruct i as [|i]; simpl in Hx.
    + injection Hx as ->. simpl. apply nth_error_app1. rewrite H by (simpl; auto). lia.
    + rewrite nth_error_app2 by (rewrite H by (simpl; auto); simpl; lia).
      rewrite H by (simpl; auto).
      replace (S i * m + j - m) with (i * m + j) by (simpl; lia).
      apply IH; auto. intros; apply H; simpl; auto.
Qed.

Lemma nth_error_seq : forall n s i, i < n -> nth_error (seq s n) i = Some (s + i).
Proof.
  induction n as [|n IH]; intros s i H; [lia|].
  destruct i; simpl; [f_equal; lia|]. rewrite IH by lia. f_equal; lia.
Qed.

Lemma nth_error_indices : forall sh ix, inb sh ix = true ->
  nth_error (indices sh) (ravel sh ix) = Some ix.
Proof.
  induction sh as [|n sh IH]; intros [|i ix] H; simpl in *; try discriminate; auto.
  apply andb_prop in H as [H1 H2]. apply Nat.ltb_lt in H1.
  rewrite (nth_error_flat_map_const _ _ (prodn sh) i (ravel sh ix) i).
  - rewrite nth_error_map, IH by assumption. reflexivity.
  - intros. rewrite map_length. apply indices_length.
  - now apply ravel_lt.
  - now rewrite nth_error_seq by lia.
Qed.

Lemma NoDup_app_intro : forall {A} (l1 l2 : list A),
  NoDup l1 -> NoDup l2 -> (forall x, In x l1 -> ~ In x l2) -> NoDup (l1 ++ l2).
Proof.
  intros A l1. induction l1 as [|x l1 IH]; intros l2 H1 H2 H; simpl; auto.
  inversion H1; subst. constructor.
  - rewrite in_app_iff. intros [Hx|Hx]; [auto|]. apply (H x); simpl; auto.
  - apply IH; auto. intros y Hy. apply H. simpl; auto.
Qed.

Lemma NoDup_indices : forall sh, NoDup (indices sh).
Proof.
  induction sh as [|n sh IH]; simpl; [repeat constructor; auto|].
  generalize 0 as s. induction n as [|n IHn]; intros s; simpl; [constructor|].
  apply NoDup_app_intro.
  - apply FinFun.Injective_map_NoDup; auto. intros a b E. now injection E.
  - apply IHn.
  - intros ix H1 H2. apply in_map_iff in H1 as [jx [<- _]].
    apply in_flat_map in H2 as [k [Hk H2]]. apply in_map_iff in H2 as [kx [E _]].
    injection E as -> _. apply in_seq in Hk. lia.
Qed.

Lemma flat_map_opt_some : forall {A B} (f : A -> option B) (g : A -> B) l,
  (forall x, In x l -> f x = Some (g x)) ->
  flat_map (fun x => opt_list (f x)) l = map g l.
Proof.
  intros A B f g l. induction l as [|x l IH]; intros H; simpl; [reflexivity|].
  rewrite H by (simpl; auto). simpl. f_equal. apply IH. intros; apply H; simpl; auto.
Qed.

Lemma flat_map_opt_length : forall {A B} (f : A -> option B) l,
  (forall x, In x l -> f x <> None) ->
  length (flat_map (fun x => opt_list (f x)) l) = length l.
Proof.
  intros A B f l. induction l as [|x l IH]; intros H; simpl; [reflexivity|].
  rewrite app_length, IH by (intros; apply H; simpl; auto).
  destruct (f x) eqn:E; [reflexivity|]. exfalso. apply (H x); simpl; auto.
Qed.

Lemma flat_map_opt_nth : forall {A B} (f : A -> option B) l i x,
  (forall x, In x l -> f x <> None) -> nth_error l i = Some x ->
  nth_error (flat_map (fun x => opt_list (f x)) l) i = f x.
Proof.
  intros A B f l. induction l as [|y l IH]; intros i x H Hx; simpl.
  - destruct i; discriminate.
  - destruct (f y) as [b|] eqn:E; [|exfalso; apply (H y); simpl; auto].
    destruct i; simpl in *.
    + injection Hx as ->. now rewrite E.
    + apply IH; auto.
Qed.

Definition total_on {A} (sh : list nat) (f : list nat -> option A) : Prop :=
  forall ix, inb sh ix = true -> f ix <> None.

Lemma nd_tab_shape : forall {A} sh (f : list nat -> option A), nd_shape (nd_tab sh f) = sh.
Proof. reflexivity. Qed.

Lemma nd_tab_wf : forall {A} sh (f : list nat -> option A), total_on sh f -> nd_wf (nd_tab sh f).
Proof.
  intros A sh f H. unfold nd_wf, nd_tab; simpl.
  rewrite flat_map_opt_length; [apply indices_length|].
  intros ix Hi. apply H. now apply in_indices.
Qed.

Lemma nd_get_tab : forall {A} sh (f : list nat -> option A) ix,
  total_on sh f -> inb sh ix = true -> nd_get (nd_tab sh f) ix = f ix.
Proof.
  intros A sh f ix H Hi. unfold nd_get, nd_tab; simpl. rewrite Hi.
  apply flat_map_opt_nth.
  - intros jx Hj. apply H. now apply in_indices.
  - now apply nth_error_indices.
Qed.

Lemma nd_get_some : forall {A} (a : nd A) ix, nd_wf a ->
  inb (nd_shape a) ix = true -> exists x, nd_get a ix = Some x.
Proof.
  intros A a ix Hw Hi. unfold nd_get. rewrite Hi.
  destruct (nth_error (nd_elems a) (ravel (nd_shape a) ix)) eqn:E; eauto.
  apply nth_error_None in E. rewrite Hw in E. apply ravel_lt in Hi. lia.
Qed.

Lemma nd_get_not_none : forall {A} (a : nd A) ix, nd_wf a ->
  inb (nd_shape a) ix = true -> nd_get a ix <> None.
Proof. intros A a ix Hw Hi. destruct (nd_get_some a ix Hw Hi) as [x ->]. discriminate. Qed.

Lemma nd_get_inb : forall {A} (a : nd A) ix x, nd_get a ix = Some x -> inb (nd_shape a) ix = true.
Proof. intros A a ix x. unfold nd_get. destruct (inb (nd_shape a) ix); congruence. Qed.

Lemma nd_get_oob : forall {A} (a : nd A) ix, inb (nd_shape a) ix = false -> nd_get a ix = None.
Proof. intros A a ix H. unfold nd_get. now rewrite H. Qed.

(** The elements of an array listed by index. *)
Lemma elems_by_get : forall {A} (a : nd A), nd_wf a ->
  nd_elems a = flat_map (fun ix => opt_list (nd_get a ix)) (indices (nd_shape a)).
Proof.
  intros A a Hw.
  assert (H : forall i, nth_error (nd_elems a) i =
     nth_error (flat_map (fun ix => opt_list (nd_get a ix)) (indices (nd_shape a))) i).
  { intros i. destruct (nth_error (indices (nd_shape a)) i) as [ix|] eqn:E.
    - rewrite (flat_map_opt_nth _ _ i ix); auto.
      + assert (Hi : inb (nd_shape a) ix = true).
        { apply in_indices. eapply nth_error_In; eauto. }
        unfold nd_get. rewrite Hi. f_equal.
        pose proof (nth_error_indices _ _ Hi) as E2.
        assert (i < length (indices (nd_shape a))) by (apply nth_error_Some; congruence).
        assert (NoDup (indices (nd_shape a))) as ND by apply NoDup_indices.
        eapply NoDup_nth_error; eauto. congruence.
      + intros jx Hj. apply nd_get_not_none; auto. now apply in_indices.
    - apply nth_error_None in E. rewrite indices_length in E.
      rewrite (proj2 (nth_error_None _ _)) by (rewrite Hw; lia).
      symmetry. apply nth_error_None.
      rewrite flat_map_opt_length; [now rewrite indices_length|].
      intros jx Hj. apply nd_get_not_none; auto. now apply in_indices. }
  revert H. generalize (nd_elems a).
  generalize (flat_map (fun ix => opt_list (nd_get a ix)) (indices (nd_shape a))).
  intros l1 l2. revert l1. induction l2 as [|x l2 IH]; intros [|y l1] H; auto.
  - specialize (H 0); discriminate.
  - specialize (H 0); discriminate.
  - f_equal. { specialize (H 0). simpl in H. congruence. }
    apply IH. intros i. apply (H (S i)).
Qed.

Lemma nd_ext : forall {A} (a b : nd A), nd_wf a -> nd_wf b -> nd_shape a = nd_shape b ->
  (forall ix, inb (nd_shape a) ix = true -> nd_get a ix = nd_get b ix) -> a = b.
Proof.
  intros A a b Ha Hb Hs H.
  assert (nd_elems a = nd_elems b) as E.
  { rewrite (elems_by_get a Ha), (elems_by_get b Hb), <- Hs.
    assert (forall l, (forall ix, In ix l -> inb (nd_shape a) ix = true) ->
       flat_map (fun ix => opt_list (nd_get a ix)) l = flat_map (fun ix => opt_list (nd_get b ix)) l) as K.
    { induction l as [|ix l IH]; intros Hl; simpl; auto.
      rewrite H by (apply Hl; simpl; auto). f_equal. apply IH. intros; apply Hl; simpl; auto. }
    apply K. intros ix. apply in_indices. }
  destruct a, b; simpl in *; congruence.
Qed.

Lemma nd_tab_self : forall {A} (a : nd A), nd_wf a -> nd_tab (nd_shape a) (nd_get a) = a.
Proof.
  intros A a Hw. unfold nd_tab. rewrite <- elems_by_get by assumption. now destruct a.
Qed.

(** ** Permutations of axes *)

Lemma memb_In : forall x l, memb x l = true <-> In x l.
Proof.
  intros x l. unfold memb. rewrite existsb_exists. split.
  - intros [y [Hy E]]. apply Nat.eqb_eq in E. now subst.
  - intros H. exists x. split; auto. apply Nat.eqb_refl.
Qed.

Lemma memb_false : forall x l, memb x l = false <-> ~ In x l.
Proof. intros x l. rewrite <- memb_In. destruct (memb x l); split; congruence. Qed.

Lemma is_perm_Permutation : forall n order, is_perm n order = true -> Permutation order (seq 0 n).
Proof.
  intros n order H. apply andb_prop in H as [H1 H2]. apply Nat.eqb_eq in H1.
  rewrite forallb_forall in H2.
  symmetry. apply NoDup_Permutation_bis.
  - apply seq_NoDup.
  - rewrite seq_length. lia.
  - intros k Hk. apply memb_In. now apply H2.
Qed.

Lemma Permutation_is_perm : forall n order, Permutation order (seq 0 n) -> is_perm n order = true.
Proof.
  intros n order H. apply andb_true_intro. split.
  - apply Nat.eqb_eq. apply Permutation_length in H. now rewrite seq_length in H.
  - apply forallb_forall. intros k Hk. apply memb_In.
    eapply Permutation_in; [symmetry; exact H|assumption].
Qed.

Lemma index_of_lt : forall x l, In x l -> index_of x l < length l.
Proof.
  intros x l. induction l as [|y l IH]; simpl; [tauto|]. intros H.
  destruct (Nat.eqb x y) eqn:E; [lia|]. apply Nat.eqb_neq in E.
  destruct H as [->|H]; [congruence|]. apply IH in H. lia.
Qed.

Lemma nth_index_of : forall x l d, In x l -> nth (index_of x l) l d = x.
Proof.
  intros x l d. induction l as [|y l IH]; simpl; [tauto|]. intros H.
  destruct (Nat.eqb x y) eqn:E.
  - apply Nat.eqb_eq in E. now subst.
  - apply Nat.eqb_neq in E. destruct H as [->|H]; [congruence|]. auto.
Qed.

Lemma index_of_nth : forall l k d, NoDup l -> k < length l -> index_of (nth k l d) l = k.
Proof.
  induction l as [|y l IH]; simpl; intros k d ND Hk; [lia|].
  inversion ND; subst. destruct k as [|k]; simpl.
  - now rewrite Nat.eqb_refl.
  - destruct (Nat.eqb (nth k l d) y) eqn:E.
    + apply Nat.eqb_eq in E. subst. exfalso. apply H1. apply nth_In. lia.
    + f_equal. apply IH; auto. lia.
Qed.

Lemma perm_NoDup : forall n order, is_perm n order = true -> NoDup order.
Proof.
  intros n order H. apply is_perm_Permutation in H.
  eapply Permutation_NoDup; [symmetry; exact H|apply seq_NoDup].
Qed.

Lemma perm_length : forall n order, is_perm n order = true -> length order = n.
Proof. intros n order H. apply andb_prop in H as [H _]. now apply Nat.eqb_eq. Qed.

Lemma perm_In : forall n order k, is_perm n order = true -> (In k order <-> k < n).
Proof.
  intros n order k H. apply is_perm_Permutation in H. split; intro K.
  - eapply Permutation_in in K; [|exact H]. apply in_seq in K. lia.
  - eapply Permutation_in; [symmetry; exact H|]. apply in_seq. lia.
Qed.

Lemma nth_map_seq : forall {A} (f : nat -> A) n k d, k < n -> nth k (map f (seq 0 n)) d = f k.
Proof.
  intros A f n k d H. rewrite nth_indep with (d' := f 0) by (now rewrite map_length, seq_length).
  rewrite map_nth. f_equal. rewrite seq_nth by assumption. lia.
Qed.

Lemma unpermute_length : forall n order ix, length (unpermute n order ix) = n.
Proof. intros. unfold unpermute. now rewrite map_length, seq_length. Qed.

Lemma unpermute_nth : forall n order ix k, k < n ->
  nth k (unpermute n order ix) 0 = nth (index_of k order) ix 0.
Proof. intros. unfold unpermute. rewrite (nth_map_seq (fun k => nth (index_of k order) ix 0)) by assumption. reflexivity. Qed.

Lemma nth_map_order : forall (order : list nat) (f : nat -> nat) k,
  k < length order -> nth k (map f order) 0 = f (nth k order 0).
Proof.
  intros order f k H. rewrite nth_indep with (d' := f 0) by (now rewrite map_length).
  apply map_nth.
Qed.

Lemma unpermute_inb : forall (sh order ix : list nat), is_perm (length sh) order = true ->
  inb (map (fun k => nth k sh 0) order) ix = true ->
  inb sh (unpermute (length sh) order ix) = true.
Proof.
  intros sh order ix Hp Hi. apply inb_nth in Hi as [Hl Hi]. rewrite map_length in *.
  apply inb_nth. split; [apply unpermute_length|]. intros k Hk.
  rewrite unpermute_nth by assumption.
  assert (In k order) as Hin by (apply (perm_In _ _ _ Hp); assumption).
  pose proof (index_of_lt _ _ Hin).
  specialize (Hi (index_of k order) H). rewrite nth_map_order in Hi by assumption.
  now rewrite nth_index_of in Hi by assumption.
Qed.

Lemma nd_transpose_ok : forall {A} order (a : nd A), nd_wf a ->
  is_perm (length (nd_shape a)) order = true ->
  exists b, nd_transpose order a = Ok b /\ nd_wf b /\
    nd_shape b = map (fun k => nth k (nd_shape a) 0) order /\
    forall ix, inb (nd_shape b) ix = true ->
      nd_get b ix = nd_get a (unpermute (length (nd_shape a)) order ix).
Proof.
  intros A order a Hw Hp. unfold nd_transpose. rewrite Hp.
  eexists. split; [reflexivity|].
  assert (total_on (map (fun k => nth k (nd_shape a) 0) order)
            (fun ix => nd_get a (unpermute (length (nd_shape a)) order ix))) as HT.
  { intros ix Hi. apply nd_get_not_none; auto. now apply unpermute_inb. }
  split; [now apply nd_tab_wf|]. split; [reflexivity|].
  intros ix Hi. rewrite nd_tab_shape in Hi. now rewrite nd_get_tab.
Qed.

(** ** Inserting unit axes does not move elements *)

Lemma ravel_app : forall s1 s2 i1 i2, length s1 = length i1 ->
  ravel (s1 ++ s2) (i1 ++ i2) = ravel s1 i1 * prodn s2 + ravel s2 i2.
Proof.
  induction s1 as [|n s1 IH]; intros s2 [|i i1] i2 H; simpl in *; try discriminate; auto.
  injection H as H. rewrite IH by assumption.
  assert (prodn (s1 ++ s2) = prodn s1 * prodn s2) as ->.
  { clear. induction s1 as [|m s1 IH]; simpl; [lia|]. rewrite IH. lia. }
  lia.
Qed.

Lemma prodn_app : forall s1 s2, prodn (s1 ++ s2) = prodn s1 * prodn s2.
Proof. induction s1 as [|m s1 IH]; intros; simpl; [lia|]. rewrite IH. lia. Qed.

Lemma inb_app : forall s1 s2 i1 i2, length s1 = length i1 ->
  inb (s1 ++ s2) (i1 ++ i2) = inb s1 i1 && inb s2 i2.
Proof.
  induction s1 as [|n s1 IH]; intros s2 [|i i1] i2 H; simpl in *; try discriminate; auto.
  rewrite IH by congruence. now rewrite andb_assoc.
Qed.

Lemma nd_reshape_ok : forall {A} sh (a : nd A), prodn sh = prodn (nd_shape a) ->
  nd_reshape sh a = Ok (mkNd sh (nd_elems a)).
Proof. intros A sh a H. unfold nd_reshape. now rewrite H, Nat.eqb_refl. Qed.

(** ** Broadcasting *)

Lemma bshape_bindex_l : forall s t r ix, bshape s t = Ok r -> inb r ix = true ->
  inb s (bindex s ix) = true.
Proof.
  induction s as [|n s IH]; intros [|m t] r ix H Hi; simpl in *; try discriminate.
  - destruct ix; auto.
  - destruct (bshape s t) as [r'|] eqn:E; simpl in H; [|discriminate].
    destruct ix as [|i ix].
    { destruct (Nat.eqb n m); [|destruct (Nat.eqb n 1); [|destruct (Nat.eqb m 1)]];
      try discriminate; injection H as <-; discriminate. }
    simpl.
    destruct (Nat.eqb n m) eqn:E1; [|destruct (Nat.eqb n 1) eqn:E2; [|destruct (Nat.eqb m 1) eqn:E3]];
    try discriminate; injection H as <-; simpl in Hi; apply andb_prop in Hi as [H1 H2];
    rewrite (IH _ _ _ E H2), andb_true_r; apply Nat.ltb_lt in H1; apply Nat.ltb_lt.
    + destruct (Nat.eqb n 1) eqn:E2; [apply Nat.eqb_eq in E2|]; lia.
    + apply Nat.eqb_eq in E2. lia.
    + lia.
Qed.

Lemma bshape_comm : forall s t, match bshape s t, bshape t s with
  | Ok x, Ok y => x = y | Err _, Err _ => True | _, _ => False end.
Proof.
  induction s as [|n s IH]; intros [|m t]; simpl; auto.
  specialize (IH t). destruct (bshape s t), (bshape t s); simpl; try tauto; subst; auto.
  rewrite (Nat.eqb_sym m n).
  destruct (Nat.eqb n m) eqn:E; [apply Nat.eqb_eq in E; congruence|].
  destruct (Nat.eqb n 1) eqn:E1, (Nat.eqb m 1) eqn:E2; auto.
  apply Nat.eqb_eq in E1. apply Nat.eqb_eq in E2. subst. discriminate.
Qed.

Lemma bshape_bindex_r : forall s t r ix, bshape s t = Ok r -> inb r ix = true ->
  inb t (bindex t ix) = true.
Proof.
  intros s t r ix H Hi. pose proof (bshape_comm s t) as C. rewrite H in C.
  destruct (bshape t s) eqn:E; [|tauto]. subst. eapply bshape_bindex_l; eauto.
Qed.

Lemma nd_map2_ok : forall {A B C} (f : A -> B -> C) a b sh, nd_wf a -> nd_wf b ->
  bshape (nd_shape a) (nd_shape b) = Ok sh ->
  exists r, nd_map2 f a b = Ok r /\ nd_wf r /\ nd_shape r = sh /\
   forall ix, inb sh ix = true ->
     exists x y, nd_get a (bindex (nd_shape a) ix) = Some x /\
                 nd_get b (bindex (nd_shape b) ix) = Some y /\
                 nd_get r ix = Some (f x y).
Proof.
  intros A B C f a b sh Ha Hb Hs. unfold nd_map2. rewrite Hs. simpl.
  eexists. split; [reflexivity|].
  match goal with |- nd_wf (nd_tab _ ?g) /\ _ => assert (total_on sh g) as HT end.
  { intros ix Hi.
    destruct (nd_get_some a (bindex (nd_shape a) ix) Ha (bshape_bindex_l _ _ _ _ Hs Hi)) as [x ->].
    destruct (nd_get_some b (bindex (nd_shape b) ix) Hb (bshape_bindex_r _ _ _ _ Hs Hi)) as [y ->].
    discriminate. }
  split; [now apply nd_tab_wf|]. split; [reflexivity|].
  intros ix Hi. rewrite nd_get_tab by assumption.
  destruct (nd_get_some a (bindex (nd_shape a) ix) Ha (bshape_bindex_l _ _ _ _ Hs Hi)) as [x Hx].
  destruct (nd_get_some b (bindex (nd_shape b) ix) Hb (bshape_bindex_r _ _ _ _ Hs Hi)) as [y Hy].
  exists x, y. rewrite Hx, Hy. auto.
Qed.

(** ** Small list facts *)

Lemma set_nth_length : forall {X} k (v : X) l, length (set_nth k v l) = length l.
Proof. intros X k v l. revert k. induction l as [|x l IH]; intros [|k]; simpl; auto. Qed.

Lemma nth_set_nth : forall {X} k (v : X) l j d, k < length l ->
  nth j (set_nth k v l) d = if Nat.eqb j k then v else nth j l d.
Proof.
  intros X k v l. revert k. induction l as [|x l IH]; intros [|k] j d H; simpl in *; try lia.
  - now destruct j.
  - destruct j; simpl; [reflexivity|]. apply IH. lia.
Qed.

Lemma nth_error_ext : forall {A} (l1 l2 : list A),
  (forall i, nth_error l1 i = nth_error l2 i) -> l1 = l2.
Proof.
  induction l1 as [|x l1 IH]; intros [|y l2] H; auto.
  - specialize (H 0); discriminate.
  - specialize (H 0); discriminate.
  - f_equal. { specialize (H 0). simpl in H. congruence. }
    apply IH. intros i. apply (H (S i)).
Qed.

Lemma list_nth_ext : forall (l1 l2 : list nat), length l1 = length l2 ->
  (forall k, k < length l1 -> nth k l1 0 = nth k l2 0) -> l1 = l2.
Proof. intros l1 l2 HL H. apply (nth_ext l1 l2 0 0); auto. Qed.

Lemma py_pos_lt : forall n i k, py_pos n i = Some k -> k < n.
Proof.
  intros n i k. unfold py_pos.
  destruct ((0 <=? i) && (i <? Z.of_nat n))%Z eqn:E1.
  - intros [= <-]. apply andb_prop in E1 as [H1 H2]. apply Z.leb_le in H1. apply Z.ltb_lt in H2. lia.
  - destruct ((- Z.of_nat n <=? i) && (i <? 0))%Z eqn:E2; [|discriminate].
    intros [= <-]. apply andb_prop in E2 as [H1 H2]. apply Z.leb_le in H1. apply Z.ltb_lt in H2. lia.
Qed.

Lemma py_pos_nat : forall n k, k < n -> py_pos n (Z.of_nat k) = Some k.
Proof.
  intros n k H. unfold py_pos.
  replace ((0 <=? Z.of_nat k) && (Z.of_nat k <? Z.of_nat n))%Z with true.
  - now rewrite Nat2Z.id.
  - symmetry. apply andb_true_intro. split; [apply Z.leb_le|apply Z.ltb_lt]; lia.
Qed.

Lemma mapM_ok : forall {A B} (f : A -> result B) (g : A -> B) l,
  (forall x, In x l -> f x = Ok (g x)) -> mapM f l = Ok (map g l).
Proof.
  intros A B f g l. induction l as [|x l IH]; intros H; simpl; auto.
  rewrite H by (simpl; auto). simpl. rewrite IH by (intros; apply H; simpl; auto). reflexivity.
Qed.

Lemma mapM_length : forall {A B} (f : A -> result B) l r, mapM f l = Ok r -> length r = length l.
Proof.
  intros A B f l. induction l as [|x l IH]; intros r H; simpl in H.
  - now injection H as <-.
  - destruct (f x); simpl in H; [|discriminate]. destruct (mapM f l) eqn:E; simpl in H; [|discriminate].
    injection H as <-. simpl. f_equal. auto.
Qed.

Lemma mapM_nth : forall {A B} (f : A -> result B) l r i x, mapM f l = Ok r ->
  nth_error l i = Some x -> exists y, f x = Ok y /\ nth_error r i = Some y.
Proof.
  intros A B f l. induction l as [|x l IH]; intros r i z H Hn; simpl in H.
  - destruct i; discriminate.
  - destruct (f x) eqn:Ef; simpl in H; [|discriminate].
    destruct (mapM f l) eqn:E; simpl in H; [|discriminate].
    injection H as <-. destruct i; simpl in *.
    + injection Hn as <-. eauto.
    + eapply IH; eauto.
Qed.
