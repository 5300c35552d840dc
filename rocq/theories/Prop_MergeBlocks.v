(** C70: merging the blocks of one or several files. *)
From Coq Require Import Ascii String List Arith ZArith Bool Lia Permutation.
From Verif Require Import Model_NdArray Model_Dim Model_Array Model_DataDict Model_Text Model_Block Model_BlockOps Model_MdifMerge Model_MergeBlocks Spec_Array Spec_Block Spec_BlockOps Spec_MdifMerge Spec_MergeBlocks Proofs_NdArray Proofs_Array8 Proofs_DataDict Proofs_Block Proofs_Block3 Proofs_BlockOps Proofs_MdifMerge Proofs_MergeBlocks Prop_BlockOps.
Import ListNotations.
Local Open Scope string_scope.
Local Open Scope nat_scope.
Local Open Scope list_scope.

Section Merge.
Context {A : Type}.
Variable lab : A -> label.
Variable emb : label -> A.
Variable common : list dtype -> dtype.
Variable cast : dtype -> A -> A.
Variable order : list string -> list string.
Hypothesis order_perm : forall l, Permutation (order l) l.
Notation merge := (merge_blocks lab emb common cast order).

Lemma ivars_of_all : forall (l : list (string * hf A)) iv, (forall k, In k (dim_names l) -> dd_contains k iv = true) -> ivars_of l iv = iv.
Proof.
  intros l iv H. unfold ivars_of. assert (G : forall ds, (forall d, In d ds -> dd_contains (d_name d) iv = true) -> add_ivars ds iv = iv).
  { unfold add_ivars. induction ds as [|d ds IH]; intros Hd; [reflexivity|]. cbn [fold_left]. rewrite (Hd d (or_introl eq_refl)). apply IH. intros; apply Hd; now right. }
  induction l as [|p l IH]; [reflexivity|]. cbn [fold_left]. rewrite G; [apply IH; intros k I; apply H; unfold dim_names in *; cbn [flat_map]; apply in_or_app; now right|].
  intros d I. apply H. unfold dim_names. cbn [flat_map]. apply in_or_app. left. now apply in_map.
Qed.
Lemma nodup_left : forall {X} (a b : list X), NoDup (a ++ b) -> NoDup a.
Proof. intros X a b H. induction a as [|x a IH]; [constructor|]. cbn [app] in H. apply NoDup_cons_iff in H as [H1 H2]. constructor; [intros I; apply H1; apply in_or_app; now left|auto]. Qed.
Lemma nodup_right : forall {X} (a b : list X), NoDup (a ++ b) -> NoDup b.
Proof. intros X a b H. induction a as [|x a IH]; [exact H|]. cbn [app] in H. apply NoDup_cons_iff in H as [_ H]. auto. Qed.

Theorem C70_merge : forall b0 bs ps vs, mergeable b0 bs ps vs ->
  exists out ri zs ys ws ivs, merge (b0 :: bs) = Ok out /\ block_numbers ri (length (b0 :: bs)) /\
    dd_items (b_var out) = Ok ws /\ Forall2 (fun p q => fst q = fst p /\ squeezed (snd p) (snd q)) (zs ++ ys) ws /\
    Permutation (map fst zs) ps /\ Permutation (map fst ys) (map fst vs) /\
    (forall k z, In (k, z) zs -> exists ls d, Forall2 (fun b l => has_label b k l) (b0 :: bs) ls /\ listed emb ri ls z /\ dd_get k (b_ivar b0) = Ok d /\ h_unit z = d_unit d) /\
    (forall k y, In (k, y) ys -> exists xs, Forall2 (fun b x => has_var b k x) (b0 :: bs) xs /\ joined cast ri xs y) /\
    dd_items (b_ivar out) = Ok ivs /\ NoDup (map fst ivs) /\
    forall n e, In (n, e) ivs <-> (n = "INDEX1" /\ e = ri) \/ (n <> "INDEX1" /\ ~ In n ps /\ first_dim (b0 :: bs) n e).
Proof.
  intros b0 bs ps vs M. pose proof M as M'. unfold mergeable in M'. cbv zeta in M'. set (names := ps ++ map fst vs) in *. destruct M' as (M1 & M2 & M3 & M4 & M5 & M6 & M7).
  set (blocks := b0 :: bs) in *. set (ri := index_sweep 1 (length blocks)).
  pose proof (nodup_left _ _ M3) as NP. pose proof (nodup_right _ _ M3) as NV.
  (* the groups *)
  destruct (groups_loop order order_perm ps blocks [] [] NP) as (gs & G1 & G2); [intros b I; apply (M4 b I)|now left|discriminate|]. cbn [app] in G2.
  destruct (G2) as (pg & EG & P1 & P2).
  (* the labels *)
  destruct (label_group_ok lab emb blocks (plain_items order pg)) as (zs & Z1 & Z2 & Z3); [discriminate| |].
  { intros k ds I. apply plain_items_in in I. assert (Ik : In k ps) by (apply (Permutation_in _ P1); apply get_in_pairs in I; now apply (in_map fst) in I). destruct (P2 k Ik) as (ds' & Q1 & Q2). rewrite I in Q1. injection Q1 as <-. split; [exact Q2|]. intros b Ib. now apply (M4 b Ib). }
  fold ri in Z3. rewrite (plain_items_keys order order_perm) in Z1. assert (PZ : Permutation (map fst zs) ps) by (rewrite Z1, order_perm; exact P1).
  assert (DZ : forall k, In k (dim_names zs) -> k = "INDEX1").
  { intros k I. unfold dim_names in I. apply in_flat_map in I as (q & Iq & I). destruct (Z3 q Iq) as [E _]. rewrite E in I. destruct I as [<-|[]]. reflexivity. }
  assert (InN : forall k, In k (map fst zs) -> In k names) by (intros k I; apply in_or_app; left; now apply (Permutation_in _ PZ)).
  destruct (sets_ok_gen lab zs b_empty (map fst zs)) as (db1 & D1 & D2 & D3 & D4 & D5).
  { apply empty_Inv. } { apply empty_Inv. } { reflexivity. }
  { apply (Permutation_NoDup (Permutation_sym PZ) NP). }
  { intros k I J. apply DZ in J. apply (M6 k); auto. }
  { reflexivity. }
  { intros k m e I E J. apply (M7 k m e); auto. }
  change (dabs (b_var b_empty) ++ zs) with zs in D4. cbn [b_ivar b_empty] in D5.
  assert (Zne : exists q, In q zs) by (destruct zs as [|q zl]; [exfalso; apply M2; apply Permutation_nil; rewrite <- PZ; reflexivity|exists q; now left]).
  assert (I1 : forall n, pd_get n (dd_map (b_ivar db1)) = if String.eqb n "INDEX1" then Some ri else None).
  { intros n. rewrite D5. destruct (String.eqb_spec n "INDEX1") as [->|Q]; [|apply ivars_of_none; [reflexivity|]; intros I; now apply DZ in I].
    clear - Z3 Zne. destruct zs as [|q zl]; [destruct Zne as (? & [])|]. unfold ivars_of. cbn [fold_left]. destruct (Z3 q (or_introl eq_refl)) as [E _]. rewrite E. apply (ivars_of_old zl). reflexivity. }
  (* the independent variables *)
  destruct (gather_ok blocks db1 [] D3 (NoDup_nil _)) as (db2 & ns & E1 & E2 & E3 & E4 & E5 & E6).
  { intros b Ib. destruct (M4 b Ib) as ((ivs & Q1 & Q2 & _) & _). eauto. }
  assert (CZ : forall n, dd_contains n (b_var db1) = true <-> In n ps).
  { intros n. rewrite contains_abs by exact D2. rewrite D4. split; intros I; [now apply (Permutation_in _ PZ)|now apply (Permutation_in _ (Permutation_sym PZ))]. }
  assert (NS : Permutation ns (map fst vs)).
  { apply NoDup_Permutation; auto. intros k. rewrite E6. split.
    - intros [[]|(b & Ib & Ik)]. destruct (M4 b Ib) as (_ & _ & l & Q1 & Q2). apply Q2. rewrite (items_iter _ _ Q1). exact Ik.
    - intros Ik. right. exists b0. split; [now left|]. now rewrite <- (items_iter _ _ M1). }
  assert (FN : forall n b, In b blocks -> In n (map fst vs) -> pd_get n (dd_map (b_ivar b)) = None).
  { intros n b Ib In_. apply in_map_iff in In_ as ([k x] & Q & Ix). cbn [fst] in Q. subst k. destruct (M5 n x Ix) as (_ & _ & Q). destruct (Q b Ib) as (y & [Q1 _] & _). unfold dd_get in Q1. destruct (pd_get n (dd_map (b_ivar b))); [discriminate|reflexivity]. }
  assert (FG : forall n, In n (map fst vs) -> first_get n blocks = None).
  { intros n In_. specialize (FN n). clear - FN In_. induction blocks as [|b l IH]; [reflexivity|]. cbn [first_get]. rewrite FN by (auto; now left). apply IH. intros; apply FN; auto. now right. }
  assert (I2 : forall n, pd_get n (dd_map (b_ivar db2)) = if String.eqb n "INDEX1" then Some ri else if in_dec string_dec n ps then None else first_get n blocks).
  { intros n. rewrite E4, I1. destruct (String.eqb n "INDEX1"); [reflexivity|]. destruct (in_dec string_dec n ps) as [I|I].
    - apply CZ in I. now rewrite I.
    - destruct (dd_contains n (b_var db1)) eqn:C; [|reflexivity]. exfalso. apply I. now apply CZ. }
  assert (I2n : forall k, In k names -> pd_get k (dd_map (b_ivar db2)) = None).
  { intros k I. rewrite I2. destruct (String.eqb_spec k "INDEX1") as [E|_]; [exfalso; now apply (M6 k)|]. destruct (in_dec string_dec k ps) as [|N]; [reflexivity|]. apply FG. apply in_app_or in I as [I|I]; [contradiction|exact I]. }
  assert (GZ : forall k z, In (k, z) zs -> pd_get k (dd_map (b_var db1)) = Some z).
  { intros k z I. rewrite <- abs_get by exact D2. rewrite D4. apply in_get; auto. apply (Permutation_NoDup (Permutation_sym PZ) NP). }
  assert (RD : ready b0 bs ps vs db2).
  { split; [exact I2n|]. split.
    - intros m C. rewrite E2 in C. apply CZ in C. apply in_or_app. now left.
    - intros k I. rewrite E2. apply (Permutation_in _ (Permutation_sym PZ)) in I. apply in_map_iff in I as ([k' z] & Q & I). cbn [fst] in Q. subst k'. exists z. split; [now apply GZ|]. apply (Z3 _ I). }
  (* the variables *)
  destruct (merge_vars_ok lab emb common cast order order_perm b0 bs ps vs M gs (order ns) G2) as (ys & Y1 & Y2).
  { intros k I. apply (Permutation_in _ NS). now apply (Permutation_in _ (order_perm _)). }
  specialize (Y2 db2 RD). assert (NY : map fst ys = order ns) by (clear - Y1; induction Y1 as [|k q l l' [E _] _ IH]; cbn [map]; congruence).
  assert (PY : Permutation (map fst ys) (map fst vs)) by (rewrite NY, order_perm; exact NS).
  assert (VY : forall q, In q ys -> variable_of cast b0 bs (fst q) q /\ In (fst q) (map fst vs)).
  { intros q I. split; [|apply (Permutation_in _ PY); now apply in_map]. clear - Y1 I. induction Y1 as [|k q' l l' V _ IH]; [destruct I|]. destruct I as [->|I]; [|auto]. destruct V as [<- V]. split; [reflexivity|exact V]. }
  assert (DY : forall k, In k (dim_names ys) -> dd_contains k (b_ivar db2) = true).
  { intros k I. unfold dim_names in I. apply in_flat_map in I as (q & Iq & I). apply in_map_iff in I as (d & <- & I). destruct (VY q Iq) as [V1 V2]. apply contains_get. rewrite I2.
    destruct (joined_dims cast b0 bs ps vs M (fst q) q d V2 V1 I) as [->|(N1 & N2 & e & E)]; [cbn; eauto|]. destruct (String.eqb_spec (d_name d) "INDEX1"); [contradiction|]. destruct (in_dec string_dec (d_name d) ps) as [J|_]; [exfalso; apply N2; apply in_or_app; now left|]. cbn [blocks first_get]. unfold dd_get in E. destruct (pd_get (d_name d) (dd_map (b_ivar b0))); [eauto|discriminate]. }
  assert (NZY : Permutation (map fst zs ++ map fst ys) names) by (apply Permutation_app; [exact PZ|exact PY]).
  destruct (sets_ok_gen lab ys db2 (map fst zs ++ map fst ys)) as (db3 & S1 & S2 & S3 & S4 & S5).
  { now rewrite E2. } { exact E3. } { now rewrite E2, D4. } { apply (Permutation_NoDup (Permutation_sym NZY) M3). }
  { intros k I J. apply DY in J. apply contains_get in J as [w J]. rewrite I2n in J; [discriminate|]. apply in_or_app. right. now apply (Permutation_in _ PY). }
  { intros k I. destruct (dd_contains k (b_ivar db2)) eqn:C; [|reflexivity]. exfalso. apply contains_get in C as [w C]. rewrite I2n in C; [discriminate|]. apply in_or_app. right. now apply (Permutation_in _ PY). }
  { intros k m e I E J. apply (M7 k m e); auto; now apply (Permutation_in _ NZY). }
  rewrite E2, D4 in S4. rewrite (ivars_of_all ys (b_ivar db2) DY) in S5.
  (* squeeze *)
  set (ivs0 := dabs (b_ivar db3)).
  assert (GI : forall n e, In (n, e) ivs0 <-> pd_get n (dd_map (b_ivar db3)) = Some e).
  { intros n e. rewrite <- abs_get by exact S3. split; [apply in_get; now apply abs_NoDup|apply get_in_pairs]. }
  assert (KI : forall k, In k (map fst ivs0) <-> dd_contains k (b_ivar db3) = true) by (intros k; rewrite contains_abs by exact S3; reflexivity).
  destruct (C65_squeeze lab emb db3 (zs ++ ys) ivs0) as (out & ws & ivs & O1 & O2 & O3 & O4 & O5 & O6).
  { now rewrite items_abs, S4. } { now apply items_abs. } { rewrite map_app. apply (Permutation_NoDup (Permutation_sym NZY) M3). } { now apply abs_NoDup. }
  { intros [k x] I. apply in_app_or in I as [I|I].
    - destruct (Z3 _ I) as (_ & ls & ds & _ & _ & L & _). apply L.
    - destruct (VY _ I) as [(_ & xs & _ & x0 & _ & W & _) _]. exact W. }
  { intros k I. apply KI. unfold dim_names in I. rewrite flat_map_app in I. apply in_app_or in I as [I|I].
    - apply DZ in I. subst k. rewrite S5. apply contains_get. rewrite I2. cbn. eauto.
    - rewrite S5. now apply DY. }
  { rewrite map_app. split.
    - intros k I J. apply KI in J. rewrite S5 in J. apply contains_get in J as [w J]. rewrite I2n in J; [discriminate|]. now apply (Permutation_in _ NZY).
    - intros k m e I E J. apply (M7 k m e); auto; now apply (Permutation_in _ NZY). }
  exists out, ri, zs, ys, ws, ivs. split.
  { unfold merge_blocks, blocks. fold blocks. rewrite G1. cbn [bind]. rewrite EG. cbn [label_groups]. rewrite Z2, D1. cbn [bind]. rewrite E1. cbn [bind]. rewrite <- EG. fold blocks in Y2. rewrite Y2, S1. exact O1. }
  split; [apply index1_numbers|]. split; [exact O2|]. split; [exact O3|]. split; [exact PZ|]. split; [exact PY|]. split; [|split; [|split; [exact O4|split]]].
  - intros k z I. destruct (Z3 _ I) as (_ & ls & ds & L1 & L2 & L3 & L4). cbn [fst snd] in *. inversion L2 as [|b d bl dl Q1 Q2 Q3 Q4]. subst. exists ls, d. split; [exact L1|]. split; [exact L3|]. split; [exact Q1|]. cbn in L4. congruence.
  - intros k y I. destruct (VY _ I) as [(_ & xs & V1 & V2) _]. exists xs. auto.
  - apply (Permutation_NoDup (Permutation_map fst (Permutation_sym O5))). now apply abs_NoDup.
  - intros n e. assert (Q : In (n, e) ivs <-> In (n, e) ivs0) by (split; apply Permutation_in; [exact O5|now apply Permutation_sym]). rewrite Q, GI, S5, I2. rewrite <- first_get_dim.
    destruct (String.eqb_spec n "INDEX1") as [->|N]; [split; [intros [= <-]; left; auto|intros [[_ ->]|[K _]]; [reflexivity|congruence]]|].
    destruct (in_dec string_dec n ps) as [I|I]; split; try discriminate; try tauto; intros [[K _]|(_ & K & K')]; try contradiction; auto.
Qed.

(** ** Blocks that cannot be merged *)
Lemma iter_in : forall {V} (d : ddict V) k v, dd_get k d = Ok v -> In k (dd_iter d).
Proof.
  intros V d k v H. unfold dd_get in H. destruct (pd_get k (dd_map d)) eqn:E; [|discriminate]. apply get_in_pairs, (in_map fst) in E. unfold dd_iter. apply in_or_app. destruct (l_in k (dd_order d)) eqn:L; [left; now apply l_in_In|]. right. apply filter_In. split; [exact E|now rewrite L].
Qed.
Lemma gather_names : forall bs (db db' : block A) ns ns', gather bs db ns = Ok (db', ns') -> NoDup ns -> NoDup ns' /\ (forall k, In k ns' <-> In k ns \/ exists b, In b bs /\ In k (dd_iter (b_var b))).
Proof.
  induction bs as [|b bs IH]; intros db db' ns ns' H ND; cbn [gather] in H.
  - injection H as <- <-. split; [exact ND|]. intros k. split; [auto|]. intros [I|(b & [] & _)]; exact I.
  - destruct (dd_items (b_ivar b)); [|discriminate]. cbn [bind] in H. destruct (add_names_ok (dd_iter (b_var b)) ns ND) as [N1 N2]. destruct (IH _ _ _ _ H N1) as [I1 I2]. split; [exact I1|]. intros k. rewrite I2, N2. split.
    + intros [[I|I]|(c & I3 & I4)]; [auto|right; exists b; split; [now left|exact I]|right; exists c; split; [now right|exact I4]].
    + intros [I|(c & [<-|I3] & I4)]; [auto|auto|right; eauto].
Qed.
(** What is known of a variable when the merge succeeds. *)
Lemma merge_inv : forall blocks out b k x, merge blocks = Ok out -> In b blocks -> dd_get k (b_var b) = Ok x ->
  exists l x0 key ri gs db, mapM (fun b => do p <- get_partials b; do x <- b_item emb k b; Ok (plain_keys order p, x)) (filter (b_contains k) blocks) = Ok l /\
    hd_error l = Some (key, x0) /\ group_dim emb order gs (last (map fst l) []) db = Ok ri /\
    (forall q, In q l -> h_shape (snd q) = h_shape x0) /\ length (ri ++ h_dims x0) = S (length (h_shape x0)).
Proof.
  intros blocks out b k x H Ib G. destruct blocks as [|b0 bs]; [destruct Ib|]. set (blocks := b0 :: bs) in *. unfold merge_blocks in H. unfold blocks in H at 1. 
  destruct (partial_groups order blocks []) as [gs|]; [|discriminate]. cbn [bind] in H. destruct (label_groups lab emb order 1 gs b_empty) as [db1|]; [|discriminate]. cbn [bind] in H.
  destruct (gather blocks db1 []) as [[db2 ns]|] eqn:EG; [|discriminate]. cbn [bind] in H. destruct (merge_vars lab emb common cast order gs blocks (order ns) db2) as [db3|] eqn:EM; [|discriminate].
  assert (Ik : In k (order ns)).
  { apply (Permutation_in _ (Permutation_sym (order_perm _))). apply (proj2 (gather_names _ _ _ _ _ EG (NoDup_nil _))). right. exists b. split; [exact Ib|]. now apply iter_in in G. }
  clear EG H. revert db2 EM. induction (order ns) as [|k' ks IH]; intros db EM; [destruct Ik|]. cbn [merge_vars] in EM. destruct (merge_var lab emb common cast order gs blocks k' db) as [db'|] eqn:EV; [|discriminate]. cbn [bind] in EM.
  destruct Ik as [->|Ik]; [|now apply (IH Ik db')]. clear IH EM. unfold merge_var in EV.
  destruct (mapM _ (filter (b_contains k) blocks)) as [l|] eqn:EL in EV; [|discriminate]. cbn [bind] in EV. destruct l as [|[key x0] l].
  - exfalso. assert (F : In b (filter (b_contains k) blocks)).
    { apply filter_In. split; [exact Ib|]. unfold b_contains. apply orb_true_iff. left. apply contains_get. unfold dd_get in G. destruct (pd_get k (dd_map (b_var b))); [eauto|discriminate]. }
    destruct (filter (b_contains k) blocks) as [|c cl]; [destruct F|]. cbn [mapM] in EL. match type of EL with bind ?r _ = _ => destruct r as [w|]; [cbn [bind] in EL|discriminate EL] end. match type of EL with bind ?r _ = _ => destruct r; discriminate EL end.
  - destruct (group_dim emb order gs (last (map fst ((key, x0) :: l)) []) db) as [ri|] eqn:ED; [|discriminate]. cbn [bind] in EV. destruct (np_stack common cast (map snd ((key, x0) :: l))) as [[a t]|] eqn:EN; [|discriminate]. cbn [bind] in EV.
    destruct (new_raw a t (Some (ri ++ h_dims x0)) (h_unit x0) None) as [y|] eqn:ER; [|discriminate].
    exists ((key, x0) :: l), x0, key, ri, gs, db. split; [exact EL|]. split; [reflexivity|]. split; [exact ED|].
    unfold np_stack in EN. cbn [map snd] in EN. destruct (forallb _ _) eqn:EF in EN; [|discriminate]. injection EN as <- _. split.
    + intros q Iq. rewrite forallb_forall in EF. apply shapes_eqb. apply EF. apply (in_map snd) in Iq. exact Iq.
    + unfold new_raw in ER. cbn [bind nd_shape] in ER. destruct (length (ri ++ h_dims x0) =? _) eqn:E in ER; [|discriminate ER]. apply Nat.eqb_eq in E. exact E.
Qed.
Lemma mapM_In : forall {X Y} (f : X -> result Y) l ys y, mapM f l = Ok ys -> In y ys -> exists x, In x l /\ f x = Ok y.
Proof.
  intros X Y f l. induction l as [|a l IH]; intros ys y M I; cbn [mapM] in M; [injection M as <-; destruct I|]. destruct (f a) as [z|] eqn:F; [|discriminate]. cbn [bind] in M. destruct (mapM f l) as [zs|] eqn:E; [|discriminate]. injection M as <-. destruct I as [<-|I]; [exists a; split; [now left|exact F]|]. destruct (IH _ _ eq_refl I) as (x & X1 & X2). exists x. split; [now right|exact X2].
Qed.
Lemma mapM_In' : forall {X Y} (f : X -> result Y) l ys x, mapM f l = Ok ys -> In x l -> exists y, In y ys /\ f x = Ok y.
Proof.
  intros X Y f l. induction l as [|a l IH]; intros ys x M I; cbn [mapM] in M; [destruct I|]. destruct (f a) as [z|] eqn:F; [|discriminate]. cbn [bind] in M. destruct (mapM f l) as [zs|] eqn:E; [|discriminate]. injection M as <-. destruct I as [<-|I]; [exists z; split; [now left|exact F]|]. destruct (IH _ _ eq_refl I) as (y & X1 & X2). exists y. split; [now right|exact X2].
Qed.

(** Blocks without partial dimensions. *)
Theorem C70_no_partials : forall blocks out b k x, In b blocks -> dd_get k (b_var b) = Ok x ->
  (forall b y, In b blocks -> b_item emb k b = Ok y -> length (h_dims y) = length (h_shape y)) ->
  (forall b n d, In b blocks -> dd_get n (b_ivar b) = Ok d -> subclass (d_class d) CDimPartial = false) ->
  merge blocks <> Ok out.
Proof.
  intros blocks out b k x Ib G HL HN H. destruct (merge_inv blocks out b k x H Ib G) as (l & x0 & key & ri & gs & db & M1 & M2 & M3 & M4 & M5).
  assert (K : forall q, In q l -> fst q = [] /\ length (h_dims (snd q)) = length (h_shape (snd q))).
  { intros q Iq. destruct (mapM_In _ _ _ _ M1 Iq) as (c & C1 & C2). apply filter_In in C1 as [C1 _]. unfold get_partials in C2. destruct (dd_items (b_ivar c)) as [ivs|] eqn:EI; [|discriminate]. cbn [bind] in C2. destruct (b_item emb k c) as [y|] eqn:EB; [|discriminate]. cbn [bind] in C2. injection C2 as <-. cbn [fst snd]. split; [|now apply (HL c)].
    assert (F : filter (fun p : string * dim => subclass (d_class (snd p)) CDimPartial) ivs = []).
    { destruct (filter _ ivs) as [|[n d] r] eqn:EF; [reflexivity|]. exfalso. assert (I : In (n, d) (filter (fun p : string * dim => subclass (d_class (snd p)) CDimPartial) ivs)) by (rewrite EF; now left). apply filter_In in I as [I1 I2]. cbn [snd] in I2. rewrite (HN c n d C1) in I2; [discriminate|]. now apply (items_parts _ _ EI). }
    rewrite F. unfold plain_keys. cbn [map]. apply Permutation_nil. apply Permutation_sym, order_perm. }
  assert (I0 : In (key, x0) l) by (destruct l; [discriminate|]; injection M2 as ->; now left).
  assert (EK : last (map fst l) [] = []).
  { assert (Q : forall q, In q (map fst l) -> q = []) by (intros q Iq; apply in_map_iff in Iq as (p & <- & Iq); now apply K). clear - Q. induction (map fst l) as [|a r IH]; [reflexivity|]. destruct r; [apply Q; now left|]. apply IH. intros; apply Q; now right. }
  rewrite EK in M3. cbn [group_dim] in M3. injection M3 as <-. cbn [app] in M5. destruct (K _ I0) as [_ L]. cbn [snd] in L. lia.
Qed.
(** A variable whose shape is not the same in two blocks. *)
Theorem C70_shapes : forall blocks out k b c x y, In b blocks -> In c blocks -> has_var b k x -> has_var c k y -> h_shape x <> h_shape y -> merge blocks <> Ok out.
Proof.
  intros blocks out k b c x y Ib Ic [X1 X2] [Y1 Y2] N H. destruct (merge_inv blocks out b k x H Ib X2) as (l & x0 & key & ri & gs & db & M1 & M2 & M3 & M4 & M5).
  assert (K : forall b x, In b blocks -> dd_get k (b_ivar b) = Err KeyError -> dd_get k (b_var b) = Ok x -> h_shape x = h_shape x0).
  { intros b' x' I H1 H2. destruct (mapM_In' _ _ _ b' M1) as (q & Q1 & Q2).
    - apply filter_In. split; [exact I|]. unfold b_contains. apply orb_true_iff. left. apply contains_get. unfold dd_get in H2. destruct (pd_get k (dd_map (b_var b'))); [eauto|discriminate].
    - destruct (get_partials b'); [|discriminate]. cbn [bind] in Q2. assert (E : b_item emb k b' = Ok x') by (unfold b_item, b_get; unfold dd_get in H1, H2; destruct (pd_get k (dd_map (b_ivar b'))); [discriminate|]; destruct (pd_get k (dd_map (b_var b'))); [|discriminate]; cbn in H2 |- *; congruence).
      rewrite E in Q2. cbn [bind] in Q2. injection Q2 as <-. apply (M4 _ Q1). }
  apply N. now rewrite (K b x), (K c y).
Qed.
End Merge.
Print Assumptions C70_merge.
Print Assumptions C70_no_partials.
Print Assumptions C70_shapes.

(** ** Examples *)
Definition mb_f : dim := mkDim CDimSweep "f" [LZ 5; LZ 6] None None.
Definition mb_p (n : string) (z : Z) : string * dim := (n, mkDim CDimPartial n [LZ z] (Some "V") None).
Definition mb_x (v : list Z) : hf Z := mkHF (mkNd [2] v) DInt [mb_f] (Some "A") "%d".
Definition mb_block (ivs : list (string * dim)) (vs : list (string * hf Z)) : block Z := mkBlock (mkDD vs (map fst vs)) (mkDD ivs (map fst ivs)) None.
Definition mb_b0 : block Z := mb_block [mb_p "P" 10; ("f", mb_f)] [("x", mb_x [1; 2]%Z)].
Definition mb_b1 : block Z := mb_block [mb_p "P" 20; ("f", mb_f); ("g", mb_f)] [("x", mb_x [3; 4]%Z)].
Definition mb_emb (l : label) : Z := match l with LZ z => z | _ => 0%Z end.
Definition mb_merge := merge_blocks LZ mb_emb (fun _ => DInt) (fun _ z => z) (fun l => l).
Definition mb_show (r : result (block Z)) := do b <- r; do l <- dd_items (b_var b); Ok (map (fun p => (fst p, nd_elems (h_nd (snd p)), map d_name (h_dims (snd p)), map (fun d => length (d_data d)) (h_dims (snd p)))) l, dd_iter (b_ivar b)).
Example C70_ex_mergeable : mergeable mb_b0 [mb_b1] ["P"] [("x", mb_x [1; 2]%Z)].
Proof.
  unfold mergeable. cbv zeta. cbn [map fst app]. split; [reflexivity|]. split; [discriminate|]. split; [repeat constructor; cbn; intuition discriminate|]. split; [|split; [|split]].
  - intros b [<-|[<-|[]]]; (split; [eexists; split; [reflexivity|]; split; [repeat constructor; cbn; intuition discriminate|reflexivity]|]); (split; [intros k [<-|[]]; eexists; eexists; eexists; split; reflexivity|]); eexists; (split; [reflexivity|]); cbn; tauto.
  - intros k x [[= <- <-]|[]]. split; [split; [reflexivity|]; split; [reflexivity|]; repeat constructor; cbn; tauto|]. split; [intros d [<-|[]]; cbn; split; [discriminate|]; split; [intuition discriminate|eexists; reflexivity]|]. intros b [<-|[<-|[]]]; eexists; (split; [split; reflexivity|split; reflexivity]).
  - intros k [<-|[<-|[]]]; discriminate.
  - intros k m e [<-|[<-|[]]]; vm_compute; discriminate.
Qed.
Example C70_ex : mb_show (mb_merge [mb_b0; mb_b1]) = Ok ([("P", [10; 20]%Z, ["INDEX1"], [2]); ("x", [1; 3; 2; 4]%Z, ["f"; "INDEX1"], [2; 2])], ["INDEX1"; "f"; "g"]).
Proof. vm_compute. reflexivity. Qed.
(** One block: the dimension of length one is left out of the arrays. *)
Example C70_ex_one : mb_show (mb_merge [mb_b0]) = Ok ([("P", [10]%Z, [], []); ("x", [1; 2]%Z, ["f"], [2])], ["f"; "INDEX1"]).
Proof. vm_compute. reflexivity. Qed.
Example C70_ex_no_partials : mb_merge [mb_block [("f", mb_f)] [("x", mb_x [1; 2]%Z)]; mb_block [("f", mb_f)] [("x", mb_x [1; 2]%Z)]] = Err ShapeDimsError.
Proof. vm_compute. reflexivity. Qed.

(** ** What goes wrong *)
Definition mb_good (b : block Z) : Prop := forall k x, dd_get k (b_var b) = Ok x -> wf x.
Lemma mb_x_wf : forall u v, wf (mb_x [u; v]).
Proof. intros u v. split; [reflexivity|]. split; [reflexivity|]. repeat constructor; cbn; tauto. Qed.
Lemma mb_block_good : forall ivs vs, (forall k x, In (k, x) vs -> exists u v, x = mb_x [u; v]) -> mb_good (mb_block ivs vs).
Proof.
  intros ivs vs H k x G. unfold dd_get, mb_block in G. cbn [b_var dd_map] in G. destruct (pd_get k vs) as [y|] eqn:E; [|discriminate]. apply get_in_pairs in E. cbn in G. injection G as <-. destruct (H k y E) as (u & v & ->). apply mb_x_wf.
Qed.
(** A variable that only some of the blocks have is stacked without its place among the blocks: here the
    second and the third of three blocks have [y], and it ends up with two values along a dimension of three
    labels. *)
Definition mb_y1 : block Z := mb_block [mb_p "P" 20; ("f", mb_f)] [("x", mb_x [3; 4]%Z); ("y", mb_x [7; 8]%Z)].
Definition mb_y2 : block Z := mb_block [mb_p "P" 30; ("f", mb_f)] [("x", mb_x [5; 6]%Z); ("y", mb_x [9; 10]%Z)].
Theorem C70_missing_refuted : exists out y, (forall b, In b [mb_b0; mb_y1; mb_y2] -> mb_good b) /\ mb_merge [mb_b0; mb_y1; mb_y2] = Ok out /\
  dd_get "y" (b_var out) = Ok y /\ h_shape y = [2; 2] /\ map (fun d => length (d_data d)) (h_dims y) = [2; 3].
Proof.
  eexists. eexists. split; [|split; [vm_compute; reflexivity|]; vm_compute; auto].
  intros b [<-|[<-|[<-|[]]]]; apply mb_block_good; intros k x I; cbn [In] in I; repeat (destruct I as [[= <- <-]|I]; [eexists; eexists; reflexivity|]); destruct I.
Qed.
(** Blocks with partial dimensions P and blocks with P and Q: the labels P of the former are lost, and their
    variables get the dimension of the latter, which has fewer labels than the variables have values. *)
Definition mb_q : block Z := mb_block [mb_p "P" 30; mb_p "Q" 3; ("f", mb_f)] [("y", mb_x [7; 8]%Z)].
Theorem C70_shared_refuted : exists out x p, (forall b, In b [mb_b0; mb_b1; mb_q] -> mb_good b) /\ mb_merge [mb_b0; mb_b1; mb_q] = Ok out /\
  dd_get "x" (b_var out) = Ok x /\ h_shape x = [2; 2] /\ map (fun d => (d_name d, length (d_data d))) (h_dims x) = [("f", 2); ("INDEX2", 1)] /\
  dd_get "P" (b_var out) = Ok p /\ nd_elems (h_nd p) = [30]%Z.
Proof.
  eexists. eexists. eexists. split; [|split; [vm_compute; reflexivity|]; vm_compute; auto].
  intros b [<-|[<-|[<-|[]]]]; apply mb_block_good; intros k x I; cbn [In] in I; repeat (destruct I as [[= <- <-]|I]; [eexists; eexists; reflexivity|]); destruct I.
Qed.
Print Assumptions C70_missing_refuted.
Print Assumptions C70_shared_refuted.
