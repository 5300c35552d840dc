(** Sorting the combinations; reshaping. *)
From Coq Require Import Ascii String List Arith ZArith Bool Lia Permutation Sorted.
From Verif Require Import Model_NdArray Proofs_NdArray Model_Dim Proofs_Dim Model_Array Spec_Array Proofs_Array Proofs_Array2 Proofs_Array3
  Proofs_Array4 Proofs_Array5 Proofs_Array8 Model_DataDict Spec_DataDict Proofs_DataDict Model_Text Model_Block Spec_Block Proofs_Block Proofs_Block2 Proofs_Block3
  Model_Utils Proofs_Utils Model_Hyper Spec_Hyper.
Import ListNotations.
Local Open Scope nat_scope.
Local Open Scope list_scope.

(** Sorted lists with the same members are equal. *)
Section Unique.
  Context {X : Type} (lt : X -> X -> bool).
  Hypothesis ST : sto lt.
  Let R (x y : X) : Prop := lt x y = true.
  Lemma strict_unique : forall l l', StronglySorted R l -> StronglySorted R l' -> (forall x, In x l <-> In x l') -> l = l'.
  Proof.
    induction l as [|x l IH]; intros [|y l'] S1 S2 E; auto.
    - exfalso. apply (E y). now left.
    - exfalso. apply (E x). now left.
    - inversion S1 as [|? ? S1' F1]; subst. inversion S2 as [|? ? S2' F2]; subst. rewrite Forall_forall in F1, F2.
      assert (x = y).
      { destruct (proj1 (E x) (or_introl eq_refl)) as [->|I]; auto. destruct (proj2 (E y) (or_introl eq_refl)) as [->|I']; auto.
        specialize (F1 _ I'). specialize (F2 _ I). unfold R in *. rewrite (sto_asym _ ST _ _ F1) in F2. discriminate. }
      subst y. f_equal. apply IH; auto. intros z. split; intros I.
      + destruct (proj1 (E z) (or_intror I)) as [<-|]; auto. specialize (F1 _ I). unfold R in F1. rewrite (sto_irrefl _ ST) in F1. discriminate.
      + destruct (proj2 (E z) (or_intror I)) as [<-|]; auto. specialize (F2 _ I). unfold R in F2. rewrite (sto_irrefl _ ST) in F2. discriminate.
  Qed.
  Lemma strict_nodup : forall l, StronglySorted R l -> NoDup l.
  Proof.
    induction l as [|x l IH]; intros S; constructor; inversion S; subst; auto. intros I. rewrite Forall_forall in H2.
    specialize (H2 _ I). unfold R in H2. rewrite (sto_irrefl _ ST) in H2. discriminate.
  Qed.
End Unique.

Section Sorting.
  Variable ltb : label -> label -> bool.
  Hypothesis ST : sto ltb.
  Lemma tuple_lex : forall s t, tuple_lt ltb s t = lexlt label_eqb ltb s t.
  Proof. induction s as [|x s IH]; intros [|y t]; cbn; auto. now rewrite IH. Qed.
  Lemma tuple_sto : sto (tuple_lt ltb).
  Proof.
    pose proof (lexlt_sto label_eqb ltb label_eqb_eq ST) as S.
    constructor; intros *; rewrite ?tuple_lex; [apply (sto_irrefl _ S)|apply (sto_trans _ S)|apply (sto_total _ S)].
  Qed.
  Lemma leqb : forall s t, list_eqb label_eqb s t = true <-> s = t.
  Proof. apply list_eqb_eq. apply label_eqb_eq. Qed.
  Lemma row_sto : sto (row_lt ltb).
  Proof.
    pose proof tuple_sto as T. assert (RF : forall s, list_eqb label_eqb s s = true) by (intros; now apply leqb).
    constructor; unfold row_lt.
    - intros [s p]. cbn [fst snd]. rewrite RF. apply Nat.ltb_irrefl.
    - intros [s p] [t q] [u r]. cbn [fst snd].
      destruct (list_eqb label_eqb s t) eqn:E1; [apply leqb in E1; subst t|].
      + destruct (list_eqb label_eqb s u) eqn:E2; auto. rewrite !Nat.ltb_lt. lia.
      + destruct (list_eqb label_eqb t u) eqn:E2; [apply leqb in E2; subst u; rewrite E1; auto|].
        intros H1 H2. destruct (list_eqb label_eqb s u) eqn:E3; [|eapply (sto_trans _ T); eauto].
        apply leqb in E3. subst u. rewrite (sto_asym _ T _ _ H1) in H2. discriminate.
    - intros [s p] [t q]. cbn [fst snd].
      destruct (list_eqb label_eqb s t) eqn:E1; [apply leqb in E1; subst t; rewrite RF|].
      + rewrite !Nat.ltb_ge. intros. f_equal. lia.
      + destruct (list_eqb label_eqb t s) eqn:E2; [apply leqb in E2; subst t; rewrite RF in E1; discriminate|].
        intros H1 H2. pose proof (sto_total _ T _ _ H1 H2). subst t. rewrite RF in E1. discriminate.
  Qed.
  Lemma insert_perm : forall x l, Permutation (sort_insert ltb x l) (x :: l).
  Proof. induction l as [|y l IH]; cbn; auto. destruct (row_lt ltb y x); auto. rewrite IH. apply perm_swap. Qed.
  Lemma sorted_perm : forall l, Permutation (sorted_rows ltb l) l.
  Proof. induction l as [|x l IH]; cbn [sorted_rows fold_right]; auto. rewrite insert_perm. now constructor. Qed.
  Lemma insert_sorted : forall x l, ~ In x l -> StronglySorted (fun a c => row_lt ltb a c = true) l ->
    StronglySorted (fun a c => row_lt ltb a c = true) (sort_insert ltb x l).
  Proof.
    pose proof row_sto as T. induction l as [|y l IH]; intros N S; cbn [sort_insert]; [repeat constructor|].
    inversion S as [|? ? S' F]; subst. cbn in N. destruct (row_lt ltb y x) eqn:E.
    - constructor; [apply IH; tauto|]. apply Forall_forall. intros z I. apply (Permutation_in _ (insert_perm x l)) in I.
      destruct I as [<-|I]; auto. rewrite Forall_forall in F. auto.
    - assert (L : row_lt ltb x y = true).
      { destruct (row_lt ltb x y) eqn:E2; auto. pose proof (sto_total _ T _ _ E E2). tauto. }
      constructor; auto. constructor; auto. rewrite Forall_forall in *. intros z I. eapply (sto_trans _ T); eauto.
  Qed.
  Lemma sorted_sorted : forall l, NoDup l -> StronglySorted (fun a c => row_lt ltb a c = true) (sorted_rows ltb l).
  Proof.
    induction l as [|x l IH]; intros ND; cbn [sorted_rows fold_right]; [constructor|]. inversion ND; subst.
    apply insert_sorted; [|now apply IH]. intros I. apply H1. eapply Permutation_in; [apply sorted_perm|exact I].
  Qed.

  (** The product of the lists of values in lexicographic order. *)
  Fixpoint prod (Us : list (list label)) : list (list label) :=
    match Us with
    | [] => [[]]
    | U :: Us' => flat_map (fun u => map (cons u) (prod Us')) U
    end.
  Lemma in_prod_list : forall Us t, In t (prod Us) <-> Forall2 (fun u U => In u U) t Us.
  Proof.
    induction Us as [|U Us IH]; intros t; cbn [prod].
    - split; [intros [<-|[]]; constructor|]. intros H. inversion H. now left.
    - rewrite in_flat_map. split.
      + intros [u [I H]]. apply in_map_iff in H as [s [<- H]]. constructor; auto. now apply IH.
      + intros H. inversion H as [|u ? s ? I F]; subst. exists u. split; auto. apply in_map_iff. exists s. split; auto. now apply IH.
  Qed.
  Lemma prod_sorted : forall Us, Forall (StronglySorted (fun u v => ltb u v = true)) Us -> StronglySorted (fun s t => tuple_lt ltb s t = true) (prod Us).
  Proof.
    induction Us as [|U Us IH]; intros F; cbn [prod]; [repeat constructor|]. inversion F as [|? ? SU F']; subst. specialize (IH F').
    assert (HE : forall u s t, tuple_lt ltb (u :: s) (u :: t) = tuple_lt ltb s t) by (intros; cbn; now rewrite (proj2 (label_eqb_eq u u) eq_refl)).
    clear F F'. induction U as [|u U IHU]; cbn [flat_map]; [constructor|]. inversion SU as [|? ? SU' FU]; subst.
    assert (S1 : StronglySorted (fun s t => tuple_lt ltb s t = true) (map (cons u) (prod Us))).
    { clear IHU. induction IH as [|s l S IHS F]; cbn [map]; constructor; auto. apply Forall_forall. intros t I. apply in_map_iff in I as [t' [<- I]].
      rewrite HE. rewrite Forall_forall in F. auto. }
    assert (X : forall l l', StronglySorted (fun s t => tuple_lt ltb s t = true) l -> StronglySorted (fun s t => tuple_lt ltb s t = true) l' ->
      (forall s t, In s l -> In t l' -> tuple_lt ltb s t = true) -> StronglySorted (fun s t => tuple_lt ltb s t = true) (l ++ l')).
    { induction l as [|s l IHl]; intros l' A1 A2 A3; auto. inversion A1; subst. cbn. constructor; [apply IHl; auto; intros; apply A3; auto; now right|].
      apply Forall_forall. intros t I. apply in_app_or in I as [I|I]; [rewrite Forall_forall in H2; auto|]. apply A3; auto. now left. }
    apply X; auto. intros s t I J. apply in_map_iff in I as [s' [<- _]]. apply in_flat_map in J as [v [Iv J]]. apply in_map_iff in J as [t' [<- _]].
    rewrite Forall_forall in FU. specialize (FU _ Iv). cbn. destruct (label_eqb u v) eqn:Q; auto. apply label_eqb_eq in Q. subst v.
    rewrite (sto_irrefl _ ST) in FU. discriminate.
  Qed.
  Lemma prod_length : forall Us, length (prod Us) = prodn (map (@length label) Us).
  Proof.
    induction Us as [|U Us IH]; auto. cbn [prod map prodn fold_right]. rewrite (length_flat_map_const _ _ (length (prod Us))).
    - now rewrite IH.
    - intros. apply map_length.
  Qed.
  Lemma prod_nth : forall Us jx t, Forall2 (fun j Uu => nth_error (fst Uu) j = Some (snd Uu)) jx (combine Us t) -> length t = length Us ->
    nth_error (prod Us) (ravel (map (@length label) Us) jx) = Some t.
  Proof.
    induction Us as [|U Us IH]; intros jx [|u t] F L; try discriminate; auto. cbn [combine] in F. inversion F as [|j ? jx' ? E F']; subst. cbn [fst snd] in E.
    cbn [prod map ravel]. rewrite <- prod_length. rewrite (nth_error_flat_map_const _ U (length (prod Us)) j (ravel (map (@length label) Us) jx') u).
    - rewrite nth_error_map, (IH jx' t); auto.
    - intros. apply map_length.
    - rewrite prod_length. apply ravel_lt. clear - F' L. injection L as L. revert t jx' F' L. induction Us as [|V Us IH]; intros [|v t] jx F L; try discriminate.
      + inversion F. reflexivity.
      + cbn [combine] in F. inversion F as [|? ? ? ? E F']; subst. cbn in E |- *. rewrite (IH t); auto. rewrite andb_true_r. apply Nat.ltb_lt. apply nth_error_Some. congruence.
    - exact E.
  Qed.

  (** The rows. *)
  Definition row_at (cols : list (list label)) (p : nat) (t : list label) : Prop := Forall2 (fun u c => nth_error c p = Some u) t cols.
  Lemma row_exists : forall cols n p, Forall (fun c => length c = n) cols -> p < n -> exists t, row_at cols p t.
  Proof.
    induction cols as [|c cols IH]; intros n p F L; [exists []; constructor|]. inversion F; subst. destruct (IH _ p H2 L) as [t Ht].
    destruct (nth_error c p) as [u|] eqn:E; [exists (u :: t); constructor; auto|]. apply nth_error_None in E. lia.
  Qed.
  Lemma row_fun : forall cols p t t', row_at cols p t -> row_at cols p t' -> t = t'.
  Proof. unfold row_at. induction cols as [|c cols IH]; intros p t t' H H'; inversion H; inversion H'; subst; auto. f_equal; [congruence|eauto]. Qed.
  Lemma zip_nth : forall cols n, Forall (fun c => length c = n) cols -> length (zip_rows cols (seq 0 n)) = n /\
    forall p t, row_at cols p t -> p < n -> nth_error (zip_rows cols (seq 0 n)) p = Some (t, p).
  Proof.
    induction cols as [|c cols IH]; intros n F; cbn [zip_rows].
    - split; [now rewrite map_length, seq_length|]. intros p t H L. inversion H. rewrite nth_error_map, nth_error_seq by auto. reflexivity.
    - inversion F as [|? ? E F']; subst. destruct (IH (length c) F') as [L IHn]. split; [rewrite map_length, combine_length, L; lia|].
      intros p t H Lp. inversion H as [|u ? t' ? E1 H']; subst. rewrite nth_error_map. specialize (IHn p t' H' Lp).
      assert (Q : nth_error (combine c (zip_rows cols (seq 0 (length c)))) p = Some (u, (t', p))).
      { clear - E1 IHn. revert IHn E1. generalize (zip_rows cols (seq 0 (length c))). generalize (t', p) as w. intros w r. revert c p.
        induction r as [|a r IHr]; intros [|x c] [|p]; cbn; try discriminate; try congruence. apply IHr. }
      rewrite Q. reflexivity.
  Qed.
  Lemma zip_snd : forall cols n, Forall (fun c => length c = n) cols -> map snd (zip_rows cols (seq 0 n)) = seq 0 n.
  Proof.
    intros cols n F. destruct (zip_nth cols n F) as [L N]. apply nth_error_ext. intros p. destruct (lt_dec p n) as [H|H].
    - destruct (row_exists cols n p F H) as [t Ht]. rewrite nth_error_map, (N p t Ht H), nth_error_seq by auto. reflexivity.
    - rewrite (proj2 (nth_error_None _ _)) by (rewrite map_length; lia). symmetry. apply nth_error_None. rewrite seq_length. lia.
  Qed.
  Lemma zip_in : forall cols n t p, Forall (fun c => length c = n) cols -> (In (t, p) (zip_rows cols (seq 0 n)) <-> p < n /\ row_at cols p t).
  Proof.
    intros cols n t p F. destruct (zip_nth cols n F) as [L N]. split.
    - intros I. apply In_nth_error in I as [q E]. assert (q < n) by (rewrite <- L; apply nth_error_Some; congruence).
      destruct (row_exists cols n q F H) as [t' Ht]. rewrite (N q t' Ht H) in E. injection E as <- <-. auto.
    - intros [H Ht]. eapply nth_error_In. now apply N.
  Qed.
  Lemma Forall2_in_l : forall {X Y} (R : X -> Y -> Prop) l l' x, Forall2 R l l' -> In x l -> exists y, In y l' /\ R x y.
  Proof. induction 1; intros []; subst; [exists y; split; auto; now left|]. destruct IHForall2 as [z [? ?]]; auto. exists z. split; auto. now right. Qed.

  (** The order: place [ravel jx] holds the point of the combination [jx]. *)
  Lemma order_ok : forall cols n Us, cols <> [] -> complete n cols -> Forall2 (values_ascending ltb) cols Us ->
    exists order, hyper_order ltb cols = Ok order /\ Permutation order (seq 0 n) /\ n = prodn (map (@length label) Us) /\
      forall jx t p, Forall2 (fun j Uu => nth_error (fst Uu) j = Some (snd Uu)) jx (combine Us t) -> row_at cols p t ->
        nth_error order (ravel (map (@length label) Us) jx) = Some p.
  Proof.
    intros cols n Us NE [F C] VA. destruct cols as [|c0 cols0] eqn:EC; [congruence|]. rewrite <- EC in *.
    assert (L0 : length c0 = n) by (rewrite EC in F; inversion F; auto).
    set (R := zip_rows cols (seq 0 n)). exists (map snd (sorted_rows ltb R)).
    split. { unfold hyper_order. rewrite EC, L0, <- EC. reflexivity. }
    assert (ZS : map snd R = seq 0 n) by (now apply zip_snd).
    split. { rewrite <- ZS. apply Permutation_map. apply sorted_perm. }
    assert (NDR : NoDup R). { apply (NoDup_map_inv snd). rewrite ZS. apply seq_NoDup. }
    pose proof (sorted_sorted R NDR) as SS.
    assert (FU : forall t, Forall2 (fun u U => In u U) t Us <-> Forall2 (fun u c => In u c) t cols).
    { clear - VA. induction VA as [|c U cols Us [_ E] VA IH]; intros t; [reflexivity|].
      split; intros H; inversion H; subst; constructor; try (now apply E); now apply IH. }
    assert (IN : forall t p, row_at cols p t -> Forall2 (fun u c => In u c) t cols).
    { unfold row_at. intros t p H. eapply Forall2_impl'; [|exact H]. intros u c _ E. eapply nth_error_In. exact E. }
    assert (INJ : forall t p q, p < n -> row_at cols p t -> row_at cols q t -> p = q).
    { intros t p q Lp H1 H2. destruct (C t (IN _ _ H1)) as [r [_ [_ U]]]. rewrite (U p H1), (U q H2). reflexivity. }
    assert (T : map fst (sorted_rows ltb R) = prod Us).
    { apply (strict_unique (tuple_lt ltb) tuple_sto).
      - assert (IR : forall s p, In (s, p) (sorted_rows ltb R) -> p < n /\ row_at cols p s).
        { intros s p I. apply (zip_in cols n s p F). eapply Permutation_in; [apply sorted_perm|exact I]. }
        clear - SS IR INJ. induction SS as [|[s p] l S IH FF]; cbn [map fst]; constructor.
        + apply IH. intros. apply IR. now right.
        + apply Forall_forall. intros t I. apply in_map_iff in I as [[t' q] [<- I]]. rewrite Forall_forall in FF. specialize (FF _ I). cbn [fst].
          unfold row_lt in FF. cbn [fst snd] in FF. destruct (list_eqb label_eqb s t') eqn:Q; auto. apply leqb in Q. subst t'.
          destruct (IR s p) as [A1 A2]; [now left|]. destruct (IR s q) as [B1 B2]; [now right|]. rewrite (INJ s p q A1 A2 B2) in FF.
          rewrite Nat.ltb_irrefl in FF. discriminate.
      - apply prod_sorted. clear - VA. induction VA as [|? ? ? ? [V _] ? IH]; constructor; auto.
      - intros t. rewrite in_prod_list, FU. split.
        + intros I. apply in_map_iff in I as [[t' p] [E I]]. cbn in E. subst t'. apply (Permutation_in _ (sorted_perm R)) in I. apply zip_in in I as [_ I]; eauto.
        + intros H. destruct (C t H) as [p [Lp [Rp _]]]. apply in_map_iff. exists (t, p). split; auto.
          apply (Permutation_in _ (Permutation_sym (sorted_perm R))). apply zip_in; auto. }
    split. { rewrite <- prod_length, <- T, map_length, (Permutation_length (sorted_perm R)). symmetry. exact (proj1 (zip_nth cols n F)). }
    intros jx t p FJ RP.
    assert (LT : length t = length Us).
    { unfold row_at in RP. assert (X : forall {X Y} (P : X -> Y -> Prop) a b, Forall2 P a b -> length a = length b) by (induction 1; cbn; auto).
      rewrite (X _ _ _ _ _ RP). apply (X _ _ _ _ _ VA). }
    pose proof (prod_nth Us jx t FJ LT) as PN. rewrite <- T, nth_error_map in PN.
    destruct (nth_error (sorted_rows ltb R) (ravel (map (@length label) Us) jx)) as [[t' q]|] eqn:E; [|discriminate]. injection PN as ->.
    rewrite nth_error_map, E. cbn. f_equal. apply nth_error_In in E. apply (Permutation_in _ (sorted_perm R)) in E. apply zip_in in E as [Lq Rq]; auto.
    eapply INJ; eauto.
  Qed.

  (** Values in order of first appearance. *)
  Lemma appears_uniq : forall c, appears_ascending ltb c -> values_ascending ltb c (stable_uniq label_eqb c).
  Proof.
    intros c H. split; [|apply (uniq_in label_eqb label_eqb_eq)]. induction c as [|u c IH] using rev_ind; [constructor|].
    rewrite (uniq_snoc label_eqb). assert (H' : appears_ascending ltb c).
    { intros l1 v l2 E. apply (H l1 v (l2 ++ [u])). rewrite E, <- app_assoc. reflexivity. }
    specialize (IH H'). destruct (existsb (label_eqb u) (stable_uniq label_eqb c)) eqn:E; auto.
    assert (N : ~ In u c). { intros I. apply (uniq_in label_eqb label_eqb_eq), (existsb_in label_eqb label_eqb_eq) in I. congruence. }
    assert (G : forall v, In v (stable_uniq label_eqb c) -> ltb v u = true).
    { intros v I. apply (proj1 (uniq_in label_eqb label_eqb_eq _ _)) in I. apply (H c u []); auto. }
    clear - IH G. induction IH as [|v l S IHS FF]; cbn; [repeat constructor|]. constructor.
    - apply IHS. intros. apply G. now right.
    - apply Forall_forall. intros w I. apply in_app_or in I as [I|[<-|[]]]; [rewrite Forall_forall in FF; auto|]. apply G. now left.
  Qed.
  Lemma values_length : forall c U, values_ascending ltb c U -> length (stable_uniq label_eqb c) = length U.
  Proof.
    intros c U [S E]. apply Permutation_length. apply NoDup_Permutation.
    - apply (uniq_nodup label_eqb label_eqb_eq).
    - exact (strict_nodup ltb ST U S).
    - intros u. rewrite (uniq_in label_eqb label_eqb_eq). symmetry. apply E.
  Qed.
End Sorting.
