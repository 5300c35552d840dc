From Coq Require Import Ascii String List Arith Bool Lia Permutation Sorted.
From Verif Require Import Model_Text Proofs_Text Model_Utils Model_Block Model_MatNames.
Import ListNotations.
Local Open Scope nat_scope.
Local Open Scope list_scope.

Lemma insert_by_perm : forall {X} (lt : X -> X -> bool) x l, Permutation (insert_by lt x l) (x :: l).
Proof.
  induction l as [|y l IH]; simpl; auto. destruct (lt y x); auto. rewrite IH. apply perm_swap.
Qed.
Lemma sort_by_perm : forall {X} (lt : X -> X -> bool) l, Permutation (sort_by lt l) l.
Proof. induction l as [|x l IH]; simpl; auto. rewrite insert_by_perm. now constructor. Qed.

(** Sorting with respect to an order that is total on the elements gives a
    strictly ascending list. *)
Section Sorting.
Variable X : Type.
Variable lt : X -> X -> bool.
Variable R : X -> X -> Prop.
Variable P : X -> Prop.
Hypothesis trans : forall a b c, R a b -> R b c -> R a c.
Hypothesis tri : forall a b, P a -> P b -> a = b \/ (lt a b = true /\ R a b) \/ (lt a b = false /\ R b a).

Lemma insert_sorted : forall x l, P x -> Forall P l -> StronglySorted R l -> ~ In x l -> StronglySorted R (insert_by lt x l).
Proof.
  intros x l Px. induction l as [|y l IH]; intros HP HS HN; simpl; [repeat constructor|].
  inversion HP; subst. inversion HS; subst. simpl in HN. destruct (tri y x) as [E|[[E1 E2]|[E1 E2]]]; auto; [tauto| |]; rewrite E1.
  - constructor; [apply IH; auto; tauto|]. rewrite (Forall_forall _). intros z Hz.
    apply (Permutation_in _ (insert_by_perm lt x l)) in Hz as [<-|Hz]; auto. rewrite Forall_forall in H4. auto.
  - constructor; auto. constructor; auto. rewrite Forall_forall in *. intros z Hz. eapply trans; eauto.
Qed.
Lemma sort_sorted : forall l, Forall P l -> NoDup l -> StronglySorted R (sort_by lt l).
Proof.
  induction l as [|x l IH]; intros HP HN; simpl; [constructor|]. inversion HP; subst. inversion HN; subst. apply insert_sorted; auto.
  - rewrite Forall_forall in *. intros z Hz. apply (Permutation_in _ (sort_by_perm lt l)) in Hz. auto.
  - intros H. apply (Permutation_in _ (sort_by_perm lt l)) in H. auto.
Qed.
End Sorting.

Lemma sort_nat_sorted : forall l, NoDup l -> StronglySorted lt (sort_by Nat.ltb l).
Proof.
  intros l H. apply (sort_sorted nat Nat.ltb lt (fun _ => True)); auto.
  - intros; lia.
  - intros a b _ _. destruct (Nat.ltb_spec a b); auto. destruct (Nat.eq_dec a b); auto. right. right. split; auto. lia.
  - rewrite Forall_forall. auto.
Qed.

(** Two strictly ascending lists with the same elements are the same. *)
Lemma ascending_unique : forall {X} (R : X -> X -> Prop), (forall a, ~ R a a) -> (forall a b c, R a b -> R b c -> R a c) ->
  forall l l', StronglySorted R l -> StronglySorted R l' -> (forall x, In x l <-> In x l') -> l = l'.
Proof.
  intros X R irr tr. induction l as [|a l IH]; intros [|b l'] S1 S2 H; auto.
  - exfalso. apply (proj2 (H b)). now left.
  - exfalso. apply (proj1 (H a)). now left.
  - inversion S1 as [|? ? A1 A2]; subst. inversion S2 as [|? ? B1 B2]; subst. rewrite Forall_forall in A2, B2.
    assert (a = b).
    { destruct (proj1 (H a) (or_introl eq_refl)) as [E|E]; auto. destruct (proj2 (H b) (or_introl eq_refl)) as [F|F]; auto.
      exfalso. apply (irr a). eapply tr; [apply A2, F|apply B2, E]. }
    subst b. f_equal. apply IH; auto. intros x. split; intros Hx.
    + destruct (proj1 (H x) (or_intror Hx)) as [E|E]; auto. subst x. exfalso. apply (irr a). auto.
    + destruct (proj2 (H x) (or_intror Hx)) as [E|E]; auto. subst x. exfalso. apply (irr a). auto.
Qed.

(** *** Grids *)
Definition rows (P : list (nat * nat)) : list nat := map fst P.
Definition cols (P : list (nat * nat)) : list nat := map snd P.

Lemma NoDup_list_prod : forall {X Y} (a : list X) (b : list Y), NoDup a -> NoDup b -> NoDup (list_prod a b).
Proof.
  induction a as [|x a IH]; intros b Ha Hb; simpl; [constructor|]. inversion Ha; subst.
  assert (G : forall l1 l2 : list (X * Y), NoDup l1 -> NoDup l2 -> (forall p, In p l1 -> ~ In p l2) -> NoDup (l1 ++ l2)).
  { induction l1 as [|p l1 IH1]; simpl; intros l2 N1 N2 D; auto. inversion N1; subst. constructor.
    - rewrite in_app_iff. intros [Q|Q]; auto. apply (D p); auto.
    - apply IH1; auto. }
  apply G.
  - apply FinFun.Injective_map_NoDup; auto. intros u v E. congruence.
  - apply IH; auto.
  - intros [u v] Hp Hq. apply in_map_iff in Hp as [w [E _]]. injection E as <- <-. apply in_prod_iff in Hq. tauto.
Qed.

Lemma grid_count : forall P I J, NoDup P -> NoDup I -> NoDup J -> (forall i, In i I <-> In i (rows P)) -> (forall j, In j J <-> In j (cols P)) ->
  (length I * length J = length P <-> forall i j, In i I -> In j J -> In (i, j) P).
Proof.
  intros P I J NP NI NJ HI HJ.
  assert (Sub : incl P (list_prod I J)).
  { intros [i j] H. apply in_prod; [apply HI; now apply (in_map fst) in H|apply HJ; now apply (in_map snd) in H]. }
  assert (NL := NoDup_list_prod I J NI NJ). split.
  - intros E i j Hi Hj. assert (G : incl (list_prod I J) P) by (apply NoDup_length_incl; auto; rewrite prod_length; lia). apply G. now apply in_prod.
  - intros H. assert (Sub' : incl (list_prod I J) P) by (intros [i j] G; apply in_prod_iff in G; now apply H).
    pose proof (NoDup_incl_length NP Sub). pose proof (NoDup_incl_length NL Sub'). rewrite prod_length in *. lia.
Qed.

(** The order in which elements are sorted, on their indices. *)
Definition pair_lt (a b : nat * nat) : Prop := fst a < fst b \/ (fst a = fst b /\ snd a < snd b).

Lemma prod_sorted : forall I J, StronglySorted lt I -> StronglySorted lt J -> StronglySorted pair_lt (list_prod I J).
Proof.
  intros I J HI HJ. induction HI as [|i I HI IH Hi]; simpl; [constructor|].
  assert (G : forall l1 l2 : list (nat * nat), StronglySorted pair_lt l1 -> StronglySorted pair_lt l2 ->
    (forall p q, In p l1 -> In q l2 -> pair_lt p q) -> StronglySorted pair_lt (l1 ++ l2)).
  { induction l1 as [|p l1 IH1]; simpl; intros l2 S1 S2 D; auto. inversion S1; subst. constructor; auto.
    rewrite Forall_forall in *. intros q Hq. apply in_app_or in Hq as [Hq|Hq]; auto. }
  apply G; auto.
  - clear - HJ. induction HJ; simpl; constructor; auto. rewrite Forall_forall in *. intros [u v] Hp.
    apply in_map_iff in Hp as [w [E Hw]]. injection E as <- <-. right. cbn. auto.
  - intros [u v] [u' v'] Hp Hq. apply in_map_iff in Hp as [w [E _]]. injection E as <- <-. apply in_prod_iff in Hq as [Hq _].
    rewrite Forall_forall in Hi. left. cbn. auto.
Qed.

Definition place (e : elem) : nat * nat := fst e.

Lemma sorted_map_inv : forall {X Y} (f : X -> Y) (R : Y -> Y -> Prop) l, StronglySorted (fun a b => R (f a) (f b)) l -> StronglySorted R (map f l).
Proof.
  intros X Y f R l H. induction H; simpl; constructor; auto. rewrite Forall_forall in *. intros y Hy. apply in_map_iff in Hy as [x [<- Hx]]. auto.
Qed.

Lemma sort_elems_sorted : forall l, NoDup (map place l) -> StronglySorted pair_lt (map place (sort_by elem_lt l)).
Proof.
  intros l H. apply sorted_map_inv.
  apply (sort_sorted elem elem_lt (fun a b => pair_lt (place a) (place b)) (fun e => In e l)).
  - unfold pair_lt. intros; lia.
  - assert (U : forall a b, In a l -> In b l -> place a = place b -> a = b).
    { clear - H. induction l as [|x l IH]; intros a b Ha Hb E; [destruct Ha|]. simpl in H. apply NoDup_cons_iff in H as [H1 H2].
      destruct Ha as [<-|Ha], Hb as [<-|Hb]; auto.
      - exfalso. apply H1. rewrite E. now apply in_map.
      - exfalso. apply H1. rewrite <- E. now apply in_map. }
    intros [[i j] s] [[i' j'] s'] Ha Hb. specialize (U _ _ Ha Hb). unfold elem_lt, pair_lt, place in *. cbn [fst snd] in *.
    destruct (Nat.ltb_spec i i') as [L|L]; cbn [orb]; [right; left; split; auto; lia|].
    destruct (Nat.eqb_spec i i') as [E|E]; cbn [andb]; [|right; right; split; auto; lia].
    destruct (Nat.ltb_spec j j') as [M|M]; cbn [orb]; [right; left; split; auto; lia|].
    destruct (Nat.eqb_spec j j') as [F|F]; cbn [andb]; [|right; right; split; auto; lia].
    left. apply U. congruence.
  - rewrite Forall_forall. auto.
  - clear - H. induction l as [|x l IH]; constructor; simpl in H; apply NoDup_cons_iff in H as [H1 H2]; auto.
    intros G. apply H1. now apply in_map.
Qed.

Lemma NoDup_map_inj : forall {X Y} (f : X -> Y) l, NoDup (map f l) -> forall a b, In a l -> In b l -> f a = f b -> a = b.
Proof.
  intros X Y f l H. induction l as [|x l IH]; intros a b Ha Hb E; [destruct Ha|]. simpl in H. apply NoDup_cons_iff in H as [H1 H2].
  destruct Ha as [<-|Ha], Hb as [<-|Hb]; auto.
  - exfalso. apply H1. rewrite E. now apply in_map.
  - exfalso. apply H1. rewrite <- E. now apply in_map.
Qed.
Lemma map_inj_eq : forall {X Y} (f : X -> Y) (A0 : list X), (forall x y, In x A0 -> In y A0 -> f x = f y -> x = y) ->
  forall a b, incl a A0 -> incl b A0 -> map f a = map f b -> a = b.
Proof.
  intros X Y f A0 K. induction a as [|x a IH]; intros [|y b] Ha Hb E; try discriminate; auto. injection E as E0 E.
  assert (x = y) by (apply K; [apply Ha; now left|apply Hb; now left|auto]). subst y. f_equal. apply IH; auto.
  - intros z Hz. apply Ha. now right.
  - intros z Hz. apply Hb. now right.
Qed.

Lemma int_set_In : forall l x, In x (int_set l) <-> In x l.
Proof. intros. unfold int_set. apply nodup_In. Qed.
Lemma sorted_set_In : forall l x, In x (sort_by Nat.ltb (int_set l)) <-> In x l.
Proof.
  intros l x. split; intros H.
  - apply (Permutation_in _ (sort_by_perm _ _)) in H. now apply int_set_In.
  - apply (Permutation_in _ (Permutation_sym (sort_by_perm _ _))). now apply int_set_In.
Qed.

Lemma strict_irrefl : forall l, StronglySorted lt l -> NoDup l.
Proof. induction 1; constructor; auto. rewrite Forall_forall in H0. intros G. apply H0 in G. lia. Qed.

Lemma matrix_elements_iff : forall l elems is js, l <> [] -> NoDup (map place l) ->
  (matrix_elements l = Some (elems, is, js) <->
   StronglySorted lt is /\ StronglySorted lt js /\
   exists l', Permutation l' l /\ map place l' = list_prod is js /\ elems = map snd l').
Proof.
  intros l elems is js NE ND. unfold matrix_elements. cbv zeta. set (s := sort_by elem_lt l).
  assert (Ps : Permutation s l) by apply sort_by_perm. pose proof (sort_elems_sorted l ND) as SS. fold s in SS.
  assert (NDs : NoDup (map place s)) by (eapply Permutation_NoDup; [apply Permutation_map, Permutation_sym, Ps|auto]).
  set (I := int_set (map (fun e => fst (fst e)) s)). set (J := int_set (map (fun e => snd (fst e)) s)).
  assert (NI : NoDup I) by apply NoDup_nodup. assert (NJ : NoDup J) by apply NoDup_nodup.
  assert (HI : forall i, In i I <-> In i (rows (map place s))).
  { intros i. unfold I, rows. rewrite int_set_In, map_map. reflexivity. }
  assert (HJ : forall j, In j J <-> In j (cols (map place s))).
  { intros j. unfold J, cols. rewrite int_set_In, map_map. reflexivity. }
  pose proof (grid_count (map place s) I J NDs NI NJ HI HJ) as GC. rewrite map_length in GC. rewrite map_length.
  assert (SI := sort_nat_sorted I NI). assert (SJ := sort_nat_sorted J NJ).
  assert (II : forall i, In i (sort_by Nat.ltb I) <-> In i I).
  { intros i. split; apply Permutation_in; [|apply Permutation_sym]; apply sort_by_perm. }
  assert (JJ : forall j, In j (sort_by Nat.ltb J) <-> In j J).
  { intros i. split; apply Permutation_in; [|apply Permutation_sym]; apply sort_by_perm. }
  assert (Eq : (forall i j, In i I -> In j J -> In (i, j) (map place s)) -> map place s = list_prod (sort_by Nat.ltb I) (sort_by Nat.ltb J)).
  { intros H. apply (ascending_unique pair_lt); auto.
    - unfold pair_lt. intros; lia.
    - unfold pair_lt. intros; lia.
    - now apply prod_sorted.
    - intros [i j]. rewrite in_prod_iff, II, JJ, HI, HJ. split.
      + intros G. split; [now apply (in_map fst) in G|now apply (in_map snd) in G].
      + intros [G1 G2]. apply H; [now apply HI|now apply HJ]. }
  split.
  - match goal with |- context [negb ?b] => destruct b eqn:E end; cbn [negb]; [apply Nat.eqb_eq in E|intros H; discriminate H].
    intros H. injection H as <- <- <-. split; auto. split; auto. exists s. split; auto. split; auto. apply Eq. now apply GC.
  - intros [S1 [S2 [l' [P' [E1 E2]]]]].
    assert (Es : map place s = list_prod is js).
    { apply (ascending_unique pair_lt); auto; try (unfold pair_lt; intros; lia).
      - now apply prod_sorted.
      - intros x. rewrite <- E1. split; apply Permutation_in, Permutation_map; [exact (Permutation_trans Ps (Permutation_sym P'))|exact (Permutation_trans P' (Permutation_sym Ps))]. }
    assert (Ni : is <> [] /\ js <> []).
    { assert (NEs : map place s <> []). { intros G. apply map_eq_nil in G. rewrite G in Ps. apply NE. now apply Permutation_nil. }
      rewrite Es in NEs. split; intros ->; apply NEs; auto. clear. induction is; simpl; auto. }
    assert (Ei : forall i, In i I <-> In i is).
    { intros i. rewrite HI, Es. unfold rows. split.
      - intros G. apply in_map_iff in G as [[u v] [<- G]]. now apply in_prod_iff in G.
      - intros G. destruct js as [|j0 js0]; [tauto|]. apply in_map_iff. exists (i, j0). split; auto. apply in_prod; simpl; auto. }
    assert (Ej : forall j, In j J <-> In j js).
    { intros j. rewrite HJ, Es. unfold cols. split.
      - intros G. apply in_map_iff in G as [[u v] [<- G]]. now apply in_prod_iff in G.
      - intros G. destruct is as [|i0 is0]; [tauto|]. apply in_map_iff. exists (i0, j). split; auto. apply in_prod; simpl; auto. }
    assert (sort_by Nat.ltb I = is) as ->.
    { apply (ascending_unique lt); auto; try (intros; lia). intros x. now rewrite II. }
    assert (sort_by Nat.ltb J = js) as ->.
    { apply (ascending_unique lt); auto; try (intros; lia). intros x. now rewrite JJ. }
    match goal with |- context [negb ?b] => assert (b = true) as -> end.
    { apply Nat.eqb_eq, GC. intros i j Hi Hj. rewrite Es. apply in_prod; [now apply Ei|now apply Ej]. }
    cbn [negb]. assert (s = l') as ->; [|now rewrite E2].
    apply (map_inj_eq place s).
    + intros x y. apply (NoDup_map_inj place s NDs).
    + intros z Hz. auto.
    + intros z Hz. apply (Permutation_in z (Permutation_sym Ps)). now apply (Permutation_in z P').
    + now rewrite E1, Es.
Qed.

(** *** Grouping by name *)
Lemma eqb_chars_eq : forall a b, eqb_chars a b = true <-> a = b.
Proof. intros a b. unfold eqb_chars. destruct (list_eq_dec ascii_dec a b); split; congruence. Qed.

Definition group_of (g : list (list ascii * list elem)) (v : list ascii) : list elem :=
  flat_map (fun p => if eqb_chars v (fst p) then snd p else []) g.

Lemma group_add_keys : forall v t g w, In w (map fst (group_add v t g)) <-> w = v \/ In w (map fst g).
Proof.
  induction g as [|[u ts] g IH]; intros w; simpl; [intuition|]. destruct (eqb_chars v u) eqn:E; simpl.
  - apply eqb_chars_eq in E. subst. intuition.
  - rewrite IH. intuition.
Qed.
Lemma group_add_NoDup : forall v t g, NoDup (map fst g) -> NoDup (map fst (group_add v t g)).
Proof.
  induction g as [|[u ts] g IH]; simpl; intros H; [repeat constructor; auto|]. apply NoDup_cons_iff in H as [H1 H2].
  destruct (eqb_chars v u) eqn:E; simpl; constructor; auto. rewrite group_add_keys. intros [G|G]; auto.
  subst u. assert (eqb_chars v v = true) by now apply eqb_chars_eq. congruence.
Qed.
Lemma group_add_of : forall v t g w, NoDup (map fst g) ->
  group_of (group_add v t g) w = if eqb_chars w v then group_of g w ++ [t] else group_of g w.
Proof.
  induction g as [|[u ts] g IH]; intros w N; unfold group_of in *; simpl.
  - destruct (eqb_chars w v); auto.
  - simpl in N. apply NoDup_cons_iff in N as [N1 N2]. destruct (eqb_chars v u) eqn:E; simpl.
    + apply eqb_chars_eq in E. subst u. destruct (eqb_chars w v) eqn:F; auto.
      assert (G : flat_map (fun p => if eqb_chars w (fst p) then snd p else []) g = []).
      { apply eqb_chars_eq in F. subst w. clear - N1. induction g as [|[u us] g IH]; simpl in *; auto. rewrite IH by tauto.
        destruct (eqb_chars v u) eqn:E; auto. apply eqb_chars_eq in E. subst. tauto. }
      rewrite G, !app_nil_r. reflexivity.
    + rewrite IH by auto. destruct (eqb_chars w u) eqn:F; destruct (eqb_chars w v) eqn:F'; auto. now rewrite app_assoc.
Qed.
Lemma group_add_ne : forall v t g, Forall (fun p => snd p <> []) g -> Forall (fun p : list ascii * list elem => snd p <> []) (group_add v t g).
Proof.
  induction g as [|[u ts] g IH]; simpl; intros H; [repeat constructor; discriminate|]. inversion H; subst.
  destruct (eqb_chars v u); constructor; auto. cbn. intros G. now apply app_eq_nil in G.
Qed.

(** The elements with name [v] among the names. *)
Definition with_name (matcher : list ascii -> option (list ascii * nat * nat)) (v : list ascii) (names : list (list ascii)) : list elem :=
  flat_map (fun n => match matcher n with Some (w, i, j) => if eqb_chars v w then [(i, j, n)] else [] | None => [] end) names.

Lemma groups_ok : forall matcher names g0, NoDup (map fst g0) -> Forall (fun p : list ascii * list elem => snd p <> []) g0 ->
  let g := fold_left (fun g n => match matcher n with Some (v, i, j) => group_add v (i, j, n) g | None => g end) names g0 in
  NoDup (map fst g) /\ Forall (fun p => snd p <> []) g /\ forall v, group_of g v = group_of g0 v ++ with_name matcher v names.
Proof.
  intros matcher. induction names as [|n names IH]; intros g0 N F; cbv zeta.
  - simpl. split; auto. split; auto. intros v. now rewrite app_nil_r.
  - simpl. destruct (matcher n) as [[[w i] j]|].
    + destruct (IH (group_add w (i, j, n) g0)) as [I1 [I2 I3]].
      * now apply group_add_NoDup.
      * now apply group_add_ne.
      * split; auto. split; auto. intros v. rewrite I3, group_add_of by auto. destruct (eqb_chars v w); simpl; auto. now rewrite <- app_assoc.
    + apply IH; auto.
Qed.
Lemma group_of_In : forall g v ts, NoDup (map fst g) -> In (v, ts) g -> group_of g v = ts.
Proof.
  induction g as [|[u us] g IH]; intros v ts N H; [destruct H|]. simpl in N. apply NoDup_cons_iff in N as [N1 N2]. unfold group_of. simpl.
  destruct H as [H|H].
  - injection H as -> ->. assert (eqb_chars v v = true) as -> by now apply eqb_chars_eq.
    assert (G : flat_map (fun p => if eqb_chars v (fst p) then snd p else []) g = []).
    { clear - N1. induction g as [|[u us] g IH]; simpl in *; auto. rewrite IH by tauto.
      destruct (eqb_chars v u) eqn:E; auto. apply eqb_chars_eq in E. subst. tauto. }
    now rewrite G, app_nil_r.
  - destruct (eqb_chars v u) eqn:E.
    + apply eqb_chars_eq in E. subst. exfalso. apply N1. now apply (in_map fst) in H.
    + simpl. now apply IH.
Qed.
Lemma groups_In : forall matcher names v ts,
  In (v, ts) (fold_left (fun g n => match matcher n with Some (v, i, j) => group_add v (i, j, n) g | None => g end) names []) <->
  ts = with_name matcher v names /\ ts <> [].
Proof.
  intros matcher names v ts. destruct (groups_ok matcher names []) as [G1 [G2 G3]]; [constructor|constructor|].
  set (g := fold_left _ names []) in *. specialize (G3 v). simpl in G3. split.
  - intros H. rewrite <- G3, (group_of_In g v ts G1 H). split; auto. rewrite Forall_forall in G2. exact (G2 _ H).
  - intros [-> H]. rewrite <- G3 in *. destruct (in_dec (list_eq_dec ascii_dec) v (map fst g)) as [I|I].
    + apply in_map_iff in I as [[u us] [E I]]. cbn in E. subst u. now rewrite (group_of_In g v us G1 I).
    + exfalso. apply H. clear - I. unfold group_of. induction g as [|[u us] g IH]; simpl in *; auto. rewrite IH by tauto.
      destruct (eqb_chars v u) eqn:E; auto. apply eqb_chars_eq in E. subst. tauto.
Qed.
Lemma with_name_In : forall matcher v names i j n, In (i, j, n) (with_name matcher v names) <-> In n names /\ matcher n = Some (v, i, j).
Proof.
  intros matcher v names i j n. unfold with_name. rewrite in_flat_map. split.
  - intros [m [H1 H2]]. destruct (matcher m) as [[[w i'] j']|] eqn:E; [|destruct H2]. destruct (eqb_chars v w) eqn:F; [|destruct H2].
    apply eqb_chars_eq in F. destruct H2 as [H2|[]]. injection H2 as -> -> ->. subst. auto.
  - intros [H1 H2]. exists n. rewrite H2. assert (eqb_chars v v = true) as -> by now apply eqb_chars_eq. simpl. auto.
Qed.
Lemma with_name_NoDup : forall matcher v names, NoDup names ->
  (forall n m r, In n names -> In m names -> matcher n = Some r -> matcher m = Some r -> n = m) ->
  NoDup (map place (with_name matcher v names)).
Proof.
  intros matcher v names. induction names as [|n names IH]; intros N U; simpl; [constructor|].
  apply NoDup_cons_iff in N as [N1 N2].
  assert (R : NoDup (map place (with_name matcher v names))) by (apply IH; auto; intros a b r Ha Hb; apply U; now right).
  destruct (matcher n) as [[[w i] j]|] eqn:E; auto. destruct (eqb_chars v w) eqn:F; auto. simpl. constructor; auto.
  intros G. apply in_map_iff in G as [[[i' j'] m] [G1 G2]]. unfold place in G1. cbn in G1. injection G1 as -> ->.
  apply with_name_In in G2 as [G2 G3]. apply eqb_chars_eq in F. subst w.
  assert (n = m) by (eapply U; [now left|right; exact G2|exact E|exact G3]). subst. tauto.
Qed.
