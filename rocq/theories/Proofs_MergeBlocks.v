(** Lemmas for the merging of blocks. *)
From Coq Require Import Ascii String List Arith ZArith Bool Lia Permutation.
From Verif Require Import Model_NdArray Model_Dim Model_Array Model_DataDict Model_Text Model_Block Model_BlockOps Model_MdifMerge Model_MergeBlocks Spec_Array Spec_Block Spec_BlockOps Spec_MdifMerge Spec_MergeBlocks Proofs_NdArray Proofs_Array8 Proofs_DataDict Proofs_Block Proofs_Block3 Proofs_BlockOps Proofs_MdifMerge.
Import ListNotations.
Local Open Scope string_scope.
Local Open Scope nat_scope.
Local Open Scope list_scope.

Lemma keys_eqb : forall l l' : list string, list_eqb String.eqb l l' = true <-> l = l'.
Proof.
  induction l as [|a l IH]; intros [|b l']; cbn [list_eqb]; split; intros H; try discriminate; auto.
  - apply andb_true_iff in H as [H1 H2]. apply String.eqb_eq in H1. apply IH in H2. congruence.
  - injection H as -> ->. rewrite String.eqb_refl. now apply IH.
Qed.

(** ** Plain dicts *)
Section Plain.
Variable order : list string -> list string.
Hypothesis order_perm : forall l, Permutation (order l) l.

Lemma plain_items_keys : forall {V} (d : list (string * V)), map fst (plain_items order d) = order (map fst d).
Proof.
  intros V d. unfold plain_items. assert (H : forall k, In k (order (map fst d)) -> In k (map fst d)) by (intros k I; now apply (Permutation_in _ (order_perm _))).
  induction (order (map fst d)) as [|k l IH]; [reflexivity|]. cbn [flat_map]. rewrite map_app, IH by (intros; apply H; now right).
  destruct (pd_get k d) as [v|] eqn:E; [reflexivity|]. exfalso. apply pd_get_none in E. apply E. apply H. now left.
Qed.
Lemma plain_items_in : forall {V} (d : list (string * V)) k v, In (k, v) (plain_items order d) -> pd_get k d = Some v.
Proof.
  intros V d k v H. unfold plain_items in H. apply in_flat_map in H as (k' & _ & H). destruct (pd_get k' d) eqn:E; [|destruct H]. destruct H as [[= <- <-]|[]]. exact E.
Qed.
Lemma plain_items_get : forall {V} (d : list (string * V)) k, NoDup (map fst d) -> pd_get k (plain_items order d) = pd_get k d.
Proof.
  intros V d k ND. assert (NP : NoDup (map fst (plain_items order d))) by (rewrite plain_items_keys; apply (Permutation_NoDup (Permutation_sym (order_perm _)) ND)).
  destruct (pd_get k (plain_items order d)) as [v|] eqn:E.
  - apply get_in_pairs in E. symmetry. now apply plain_items_in.
  - destruct (pd_get k d) as [v|] eqn:F; [|reflexivity]. exfalso. apply pd_get_none in E. apply E. unfold keys. rewrite plain_items_keys. apply (Permutation_in _ (Permutation_sym (order_perm _))). apply get_in_pairs in F. now apply (in_map fst) in F.
Qed.

(** ** The partial dimensions *)
Lemma add_parts_get : forall parts pg k, NoDup (map fst parts) ->
  pd_get k (fold_left add_part parts pg) = match pd_get k parts with Some d => Some (match pd_get k pg with Some l => l | None => [] end ++ [d]) | None => pd_get k pg end.
Proof.
  induction parts as [|[k0 d0] parts IH]; intros pg k ND; [reflexivity|]. cbn [map fst] in ND. apply NoDup_cons_iff in ND as [N1 N2]. cbn [fold_left pd_get]. rewrite IH by exact N2. unfold add_part. cbn [fst snd].
  destruct (String.eqb_spec k k0) as [->|Q].
  - assert (E : pd_get k0 parts = None) by now apply pd_get_none. rewrite E. now rewrite pd_get_set_same.
  - now rewrite pd_get_set_other by exact Q.
Qed.
Lemma set_in_keys : forall {V} k (v : V) m, In k (keys m) -> keys (pd_set k v m) = keys m.
Proof.
  intros V k v. induction m as [|[k' v'] m IH]; intros I; [destruct I|]. cbn [pd_set]. destruct (String.eqb_spec k k') as [->|Q]; [reflexivity|]. unfold keys in *. cbn [map fst] in *. f_equal. apply IH. destruct I as [I|I]; [congruence|exact I].
Qed.
Lemma add_parts_keys : forall parts pg, incl (map fst parts) (keys pg) -> keys (fold_left add_part parts pg) = keys pg.
Proof.
  induction parts as [|[k0 d0] parts IH]; intros pg H; [reflexivity|]. cbn [fold_left]. assert (K : keys (add_part pg (k0, d0)) = keys pg) by (unfold add_part; apply set_in_keys, H; now left).
  rewrite IH; [exact K|]. rewrite K. intros k I. apply H. now right.
Qed.
Lemma add_parts_new : forall parts pg, NoDup (keys pg ++ map fst parts) -> keys (fold_left add_part parts pg) = keys pg ++ map fst parts.
Proof.
  induction parts as [|[k0 d0] parts IH]; intros pg H; [cbn; now rewrite app_nil_r|]. cbn [fold_left map fst] in *. assert (K : keys (add_part pg (k0, d0)) = keys pg ++ [k0]).
  { unfold add_part. cbn [fst]. apply keys_set_notin. intros I. apply NoDup_remove_2 in H. apply H. apply in_or_app. now left. }
  rewrite IH; rewrite K, <- app_assoc; [reflexivity|exact H].
Qed.

Section Groups.
Context {A : Type}.
Variable ps : list string.
Definition parts_of (b : block A) : Prop :=
  exists ivs, dd_items (b_ivar b) = Ok ivs /\ NoDup (map fst ivs) /\ map fst (filter (fun p => subclass (d_class (snd p)) CDimPartial) ivs) = ps.
Lemma parts_ok : forall b, parts_of b -> NoDup ps -> exists parts, get_partials b = Ok parts /\ map fst parts = ps /\ forall k d, In (k, d) parts -> dd_get k (b_ivar b) = Ok d.
Proof.
  intros b (ivs & E & ND & P) NP. unfold get_partials. rewrite E. cbn [bind]. eexists. split; [reflexivity|]. split; [exact P|]. intros k d I. apply filter_In in I as [I _]. unfold dd_get. rewrite (items_get _ _ k E). now rewrite (in_get k d ivs ND I).
Qed.
Definition grouped (pre : list (block A)) (gs : list (list string * list (string * list dim))) : Prop :=
  exists pg, gs = [(order ps, pg)] /\ Permutation (keys pg) ps /\
    forall k, In k ps -> exists ds, pd_get k pg = Some ds /\ Forall2 (fun b d => dd_get k (b_ivar b) = Ok d) pre ds.
Lemma groups_step : forall pre gs b parts, NoDup ps -> map fst parts = ps -> (forall k d, In (k, d) parts -> dd_get k (b_ivar b) = Ok d) ->
  (pre = [] /\ gs = [] \/ grouped pre gs) -> grouped (pre ++ [b]) (add_group (plain_keys order parts) (plain_items order parts) gs).
Proof.
  intros pre gs b parts NP EP HP H. assert (KE : plain_keys order parts = order ps) by (unfold plain_keys; now rewrite EP).
  assert (KI : map fst (plain_items order parts) = order ps) by (rewrite plain_items_keys; now rewrite EP).
  assert (NI : NoDup (map fst (plain_items order parts))) by (rewrite KI; apply (Permutation_NoDup (Permutation_sym (order_perm _)) NP)).
  assert (G : forall k, In k ps -> exists d, pd_get k (plain_items order parts) = Some d /\ dd_get k (b_ivar b) = Ok d).
  { intros k I. rewrite plain_items_get by now rewrite EP. destruct (pd_get k parts) as [d|] eqn:E; [|exfalso; apply pd_get_none in E; apply E; unfold keys; now rewrite EP]. exists d. split; [reflexivity|]. apply HP. now apply get_in_pairs. }
  destruct H as [[-> ->]|(pg & -> & P1 & P2)].
  - cbn [add_group app]. eexists. split; [rewrite KE; reflexivity|]. split.
    + rewrite add_parts_new by (cbn; exact NI). cbn [keys app map]. rewrite KI. apply order_perm.
    + intros k I. destruct (G k I) as (d & G1 & G2). exists [d]. rewrite add_parts_get by exact NI. rewrite G1. cbn. split; [reflexivity|]. constructor; [exact G2|constructor].
  - cbn [add_group]. assert (E : list_eqb String.eqb (order ps) (plain_keys order parts) = true) by (apply keys_eqb; now rewrite KE). rewrite E. eexists. split; [reflexivity|]. split.
    + rewrite add_parts_keys; [exact P1|]. rewrite KI. intros k I. apply (Permutation_in _ (Permutation_sym P1)). now apply (Permutation_in _ (order_perm _)).
    + intros k I. destruct (G k I) as (d & G1 & G2). destruct (P2 k I) as (ds & D1 & D2). exists (ds ++ [d]). rewrite add_parts_get by exact NI. rewrite G1, D1. split; [reflexivity|]. apply Forall2_app; [exact D2|]. constructor; [exact G2|constructor].
Qed.
Lemma groups_loop : forall bs pre gs, NoDup ps -> (forall b, In b bs -> parts_of b) -> (pre = [] /\ gs = [] \/ grouped pre gs) -> pre ++ bs <> [] ->
  exists gs', partial_groups order bs gs = Ok gs' /\ grouped (pre ++ bs) gs'.
Proof.
  induction bs as [|b bs IH]; intros pre gs NP HB H NE; cbn [partial_groups].
  - exists gs. split; [reflexivity|]. rewrite app_nil_r in *. destruct H as [[-> _]|H]; [congruence|exact H].
  - destruct (parts_ok b (HB b (or_introl eq_refl)) NP) as (parts & E & P1 & P2). rewrite E. cbn [bind].
    destruct (IH (pre ++ [b]) (add_group (plain_keys order parts) (plain_items order parts) gs)) as (gs' & G1 & G2); auto.
    + intros; apply HB; now right.
    + right. now apply groups_step.
    + destruct pre; discriminate.
    + exists gs'. split; [exact G1|]. now rewrite <- app_assoc in G2.
Qed.
End Groups.
End Plain.

Lemma index1_numbers : forall n, block_numbers (index_sweep 1 n) n.
Proof.
  intros n. unfold block_numbers, index_sweep. cbn [d_class d_name d_data d_unit]. unfold range_labels. rewrite map_length, seq_length. repeat split; auto. intros i L. rewrite nth_error_map. assert (E : nth_error (seq 0 n) i = Some i).
  { rewrite (nth_error_nth' _ 0) by now rewrite seq_length. now rewrite seq_nth by exact L. }
  now rewrite E.
Qed.

Section Main.
Context {A : Type}.
Variable lab : A -> label.
Variable emb : label -> A.
Variable common : list dtype -> dtype.
Variable cast : dtype -> A -> A.
Variable order : list string -> list string.
Hypothesis order_perm : forall l, Permutation (order l) l.

(** ** The labels *)
Definition labelled (blocks : list (block A)) (ri : dim) (q : string * hf A) : Prop :=
  h_dims (snd q) = [ri] /\ exists ls ds, Forall2 (fun b l => has_label b (fst q) l) blocks ls /\ Forall2 (fun b d => dd_get (fst q) (b_ivar b) = Ok d) blocks ds /\
    listed emb ri ls (snd q) /\ option_map d_unit (hd_error ds) = Some (h_unit (snd q)).
Lemma label_group_ok : forall blocks pg, blocks <> [] ->
  (forall k ds, In (k, ds) pg -> Forall2 (fun b d => dd_get k (b_ivar b) = Ok d) blocks ds /\ forall b, In b blocks -> exists l, has_label b k l) ->
  exists zs, map fst zs = map fst pg /\ (forall db, label_group lab emb 1 pg db = sets lab zs db) /\ (forall q, In q zs -> labelled blocks (index_sweep 1 (length blocks)) q).
Proof.
  intros blocks pg NE. induction pg as [|[k ds] pg IH]; intros H; [exists []; split; [reflexivity|]; split; [reflexivity|intros ? []]|].
  destruct (H k ds (or_introl eq_refl)) as [F L].
  assert (M : exists ls, mapM (fun d => of_option IndexError (hd_error (d_data d))) ds = Ok ls /\ Forall2 (fun b l => has_label b k l) blocks ls).
  { clear - F L. induction F as [|b d bl ds D F IH]; [exists []; split; [reflexivity|constructor]|]. destruct IH as (ls & M1 & M2); [intros; apply L; now right|]. destruct (L b (or_introl eq_refl)) as (l & d' & r & G1 & G2). rewrite D in G1. injection G1 as <-. exists (l :: ls). cbn [mapM]. rewrite G2. cbn [hd_error of_option bind]. rewrite M1. split; [reflexivity|]. constructor; [exists d, r; auto|exact M2]. }
  destruct M as (ls & M1 & M2). assert (LL : length ls = length blocks /\ length ds = length blocks) by (split; [clear - M2; induction M2; cbn; lia|clear - F; induction F; cbn; lia]). destruct LL as [LL LD].
  assert (D0 : exists d0, hd_error ds = Some d0) by (destruct ds; [destruct blocks; [congruence|discriminate]|eexists; reflexivity]). destruct D0 as [d0 D0].
  set (ri := index_sweep 1 (length blocks)). set (z := mkHF (mkNd [length ls] (map emb ls)) (label_dtype ls) [ri] (d_unit d0) (default_fmt (label_dtype ls))).
  destruct IH as (zs & Z1 & Z2 & Z3); [intros; apply H; now right|]. exists ((k, z) :: zs). split; [cbn [map fst]; now rewrite Z1|]. split.
  - intros db. cbn [label_group sets]. rewrite M1. cbn [bind]. rewrite D0. cbn [of_option bind]. rewrite LD. unfold new_raw. cbn [bind length nd_shape Nat.eqb]. fold ri z. destruct (b_set lab k z db); cbn [bind]; auto.
  - intros q [<-|I]; [|now apply Z3]. split; [reflexivity|]. exists ls, ds. split; [exact M2|]. split; [exact F|]. split; [|rewrite D0; reflexivity].
    split; [|split; [reflexivity|]].
    + split; [|split].
      * unfold nd_wf. cbn [snd z h_nd nd_elems nd_shape]. rewrite map_length. cbn. lia.
      * unfold labels_match, h_shape. cbn [snd z h_dims h_nd nd_shape map]. unfold ri, index_sweep. cbn [d_data]. unfold range_labels. now rewrite map_length, seq_length, LL.
      * cbn. constructor; [intros []|constructor].
    + intros i Li. cbn [snd z h_nd]. unfold nd_get. cbn [nd_shape nd_elems inb ravel prodn fold_right]. assert (E : (i <? length ls) = true) by now apply Nat.ltb_lt. rewrite E. cbn [andb]. rewrite Nat.mul_1_r, Nat.add_0_r. apply nth_error_map.
Qed.

(** ** The independent variables *)
Lemma add_dims_ok : forall l (db : block A), Inv (b_ivar db) -> NoDup (map fst l) ->
  b_var (add_dims l db) = b_var db /\ Inv (b_ivar (add_dims l db)) /\
  forall n, pd_get n (dd_map (b_ivar (add_dims l db))) =
    match pd_get n (dd_map (b_ivar db)) with Some e => Some e | None => if dd_contains n (b_var db) then None else pd_get n l end.
Proof.
  induction l as [|[k d] l IH]; intros db HI ND.
  - cbn [add_dims fold_left]. split; [reflexivity|]. split; [exact HI|]. intros n. destruct (pd_get n (dd_map (b_ivar db))); [reflexivity|]. now destruct (dd_contains n (b_var db)).
  - cbn [map fst] in ND. apply NoDup_cons_iff in ND as [N1 N2]. unfold add_dims. cbn [fold_left fst snd]. fold (add_dims l (if b_contains k db then db else b_set_dim k d db)).
    unfold b_contains. destruct (dd_contains k (b_var db)) eqn:C1; cbn [orb].
    + destruct (IH db HI N2) as (I1 & I2 & I3). split; [exact I1|]. split; [exact I2|]. intros n. rewrite I3. cbn [pd_get]. destruct (pd_get n (dd_map (b_ivar db))); [reflexivity|]. destruct (String.eqb_spec n k) as [->|]; [|reflexivity]. now rewrite C1.
    + destruct (dd_contains k (b_ivar db)) eqn:C2.
      * destruct (IH db HI N2) as (I1 & I2 & I3). split; [exact I1|]. split; [exact I2|]. intros n. rewrite I3. cbn [pd_get]. destruct (pd_get n (dd_map (b_ivar db))) eqn:E; [reflexivity|]. destruct (String.eqb_spec n k) as [->|]; [|reflexivity]. apply contains_get in C2 as [w C2]. congruence.
      * destruct (IH (b_set_dim k d db)) as (I1 & I2 & I3); [now apply set_Inv|exact N2|]. split; [exact I1|]. split; [exact I2|]. intros n. rewrite I3. cbn [b_set_dim b_ivar b_var pd_get]. rewrite get_set. destruct (String.eqb_spec n k) as [->|]; [|reflexivity].
        rewrite C1. destruct (pd_get k (dd_map (b_ivar db))) eqn:E; [|reflexivity]. exfalso. assert (K : dd_contains k (b_ivar db) = true) by (apply contains_get; eauto). congruence.
Qed.

Lemma add_names_ok : forall l ns, NoDup ns -> NoDup (add_names l ns) /\ forall k, In k (add_names l ns) <-> In k ns \/ In k l.
Proof.
  unfold add_names. induction l as [|a l IH]; intros ns ND; cbn [fold_left]; [split; [exact ND|intros; cbn; tauto]|].
  destruct (l_in a ns) eqn:E.
  - destruct (IH ns ND) as [I1 I2]. split; [exact I1|]. intros k. rewrite I2. cbn [In]. apply l_in_In in E. intuition congruence.
  - destruct (IH (ns ++ [a])) as [I1 I2].
    + apply (NoDup_Add (a := a) (l := ns)); [rewrite <- (app_nil_r ns) at 1; apply Add_app|]. split; [exact ND|]. intros I. apply l_in_In in I. congruence.
    + split; [exact I1|]. intros k. rewrite I2, in_app_iff. cbn [In]. intuition congruence.
Qed.

Fixpoint first_get (n : string) (bs : list (block A)) : option dim :=
  match bs with [] => None | b :: bs' => match pd_get n (dd_map (b_ivar b)) with Some e => Some e | None => first_get n bs' end end.
Lemma first_get_dim : forall n bs e, first_get n bs = Some e <-> first_dim bs n e.
Proof.
  intros n. induction bs as [|b bs IH]; intros e; cbn [first_get].
  - split; [discriminate|]. intros (pre & b & post & E & _). destruct pre; discriminate.
  - destruct (pd_get n (dd_map (b_ivar b))) as [w|] eqn:G.
    + split.
      * intros [= ->]. exists [], b, bs. split; [reflexivity|]. split; [unfold dd_get; now rewrite G|intros ? []].
      * intros (pre & c & post & E & H1 & H2). destruct pre as [|c' pre]; cbn [app] in E; injection E as <- E.
        -- unfold dd_get in H1. rewrite G in H1. cbn in H1. congruence.
        -- specialize (H2 b (or_introl eq_refl)). unfold dd_get in H2. rewrite G in H2. discriminate.
    + rewrite IH. split.
      * intros (pre & c & post & -> & H1 & H2). exists (b :: pre), c, post. split; [reflexivity|]. split; [exact H1|]. intros b' [<-|I]; [unfold dd_get; now rewrite G|auto].
      * intros (pre & c & post & E & H1 & H2). destruct pre as [|c' pre]; cbn [app] in E; injection E as <- E.
        -- unfold dd_get in H1. rewrite G in H1. discriminate.
        -- exists pre, c, post. split; [exact E|]. split; [exact H1|]. intros; apply H2; now right.
Qed.

Lemma gather_ok : forall bs (db : block A) ns, Inv (b_ivar db) -> NoDup ns -> (forall b, In b bs -> exists ivs, dd_items (b_ivar b) = Ok ivs /\ NoDup (map fst ivs)) ->
  exists db' ns', gather bs db ns = Ok (db', ns') /\ b_var db' = b_var db /\ Inv (b_ivar db') /\
    (forall n, pd_get n (dd_map (b_ivar db')) = match pd_get n (dd_map (b_ivar db)) with Some e => Some e | None => if dd_contains n (b_var db) then None else first_get n bs end) /\
    NoDup ns' /\ (forall k, In k ns' <-> In k ns \/ exists b, In b bs /\ In k (dd_iter (b_var b))).
Proof.
  induction bs as [|b bs IH]; intros db ns HI ND HB; cbn [gather].
  - exists db, ns. split; [reflexivity|]. split; [reflexivity|]. split; [exact HI|]. split; [|split; [exact ND|]].
    + intros n. cbn [first_get]. destruct (pd_get n (dd_map (b_ivar db))); [reflexivity|]. now destruct (dd_contains n (b_var db)).
    + intros k. split; [auto|]. intros [I|(b & [] & _)]; exact I.
  - destruct (HB b (or_introl eq_refl)) as (ivs & E & NV). rewrite E. cbn [bind]. destruct (add_dims_ok ivs db HI NV) as (D1 & D2 & D3). destruct (add_names_ok (dd_iter (b_var b)) ns ND) as [N1 N2].
    destruct (IH (add_dims ivs db) (add_names (dd_iter (b_var b)) ns) D2 N1) as (db' & ns' & G1 & G2 & G3 & G4 & G5 & G6); [intros; apply HB; now right|].
    exists db', ns'. split; [exact G1|]. split; [congruence|]. split; [exact G3|]. split; [|split; [exact G5|]].
    + intros n. rewrite G4, D1, D3. cbn [first_get]. rewrite (items_get _ _ n E). destruct (pd_get n (dd_map (b_ivar db))); [reflexivity|]. destruct (dd_contains n (b_var db)); [reflexivity|]. reflexivity.
    + intros k. rewrite G6, N2. split.
      * intros [[I|I]|(c & I1 & I2)]; [auto|right; exists b; split; [now left|exact I]|right; exists c; split; [now right|exact I2]].
      * intros [I|(c & [<-|I1] & I2)]; [auto|auto|right; eauto].
Qed.

(** ** The variables *)
Lemma joined_ok : forall ri (x0 : hf A) xs, d_name ri = "INDEX1" -> length (d_data ri) = length xs -> wf x0 -> (forall d, In d (h_dims x0) -> d_name d <> "INDEX1") ->
  hd_error xs = Some x0 -> (forall x, In x xs -> h_shape x = h_shape x0 /\ nd_wf (h_nd x)) ->
  exists a t y z, np_stack common cast xs = Ok (a, t) /\ new_raw a t (Some (ri :: h_dims x0)) (h_unit x0) None = Ok y /\
    match h_dims x0 with d0 :: _ => if subclass (d_class d0) CDimSweep then reorder_dimensions [d0] y else Ok y | [] => Ok y end = Ok z /\ joined cast ri xs z.
Proof.
  intros ri x0 xs R2 R3 (W1 & W2 & W3) HI E H. destruct (stack_ok common cast x0 xs E H) as (a & t & S1 & S2 & S3 & S4).
  set (y := mkHF a t (ri :: h_dims x0) (h_unit x0) (default_fmt t)).
  assert (Y : new_raw a t (Some (ri :: h_dims x0)) (h_unit x0) None = Ok y).
  { unfold new_raw. cbn [bind]. rewrite S3. cbn [length]. unfold labels_match in W2. rewrite <- W2, map_length, Nat.eqb_refl. reflexivity. }
  assert (NK : ~ In (key ri) (map key (h_dims x0))).
  { intros I. apply in_map_iff in I as (d & K & I). apply (HI d I). unfold key in K. injection K as _ K. congruence. }
  assert (Wy : wf y).
  { split; [exact S2|]. split; [|cbn [h_dims y map]; constructor; auto]. unfold labels_match, h_shape. cbn [h_dims h_nd y map]. rewrite S3, R3. f_equal. exact W2. }
  assert (V : forall i x e, nth_error xs i = Some x -> e (key ri) = i -> valid e (h_dims x0) -> val y e = option_map (cast t) (nd_get (h_nd x) (coords e (h_dims x0)))).
  { intros i x e Ex Ei Ve. unfold val. cbn [h_nd h_dims y]. change (coords e (ri :: h_dims x0)) with (e (key ri) :: coords e (h_dims x0)). rewrite Ei. apply S4; auto. now apply inb_coords. }
  exists a, t, y.
  assert (PLAIN : h_dims y = with_index ri (h_dims x0) -> joined cast ri xs y) by (intros Q; exists x0; split; [exact E|]; split; [exact Wy|]; split; [reflexivity|]; split; [exact Q|exact V]).
  destruct (h_dims x0) as [|d0 r] eqn:D.
  - exists y. split; [exact S1|]. split; [exact Y|]. split; [reflexivity|]. apply PLAIN. cbn [y h_dims with_index]. now rewrite ?D.
  - destruct (subclass (d_class d0) CDimSweep) eqn:SW.
    2:{ exists y. split; [exact S1|]. split; [exact Y|]. split; [reflexivity|]. apply PLAIN. cbn [y h_dims with_index]. now rewrite ?D, SW. }
    destruct (reorder_ok y [d0] Wy) as (z & rest & Z1 & Z2 & Z3 & Z4 & Z5 & Z6 & Z7 & Z8 & Z9).
    { intros d [<-|[]]. cbn [y h_dims]. right. rewrite ?D. now left. }
    { cbn [map]. constructor; [intros []|constructor]. }
    assert (ND : NoDup ([ri] ++ d0 :: r)).
    { destruct Wy as (_ & _ & Wy). cbn [y h_dims] in Wy. rewrite ?D in Wy. apply NoDup_map_inv in Wy. exact Wy. }
    assert (RR : rest = ri :: r).
    { cbn [y h_dims] in Z4, Z5. rewrite ?D in Z4, Z5. apply (subseq_but [ri] r rest d0); auto. intros d. rewrite Z5. cbn [In app]. intuition congruence. }
    exists z. split; [exact S1|]. split; [exact Y|]. split; [exact Z1|].
    exists x0. split; [exact E|]. split; [exact Z2|]. split; [rewrite Z7; reflexivity|]. split; [rewrite Z3, RR, D; cbn [with_index]; rewrite SW; reflexivity|]. intros i x e Ex Ei Ve. rewrite Z6, Z9. cbn [y h_dt]. rewrite ?D in Ve |- *. now apply (V i x e).
Qed.

Variable b0 : block A.
Variable bs : list (block A).
Variable ps : list string.
Variable vs : list (string * hf A).
Hypothesis M : mergeable b0 bs ps vs.
Let names := ps ++ map fst vs.
Let ri := index_sweep 1 (length (b0 :: bs)).

(** What the loop over the variables needs of the block so far. *)
Definition ready (db : block A) : Prop :=
  (forall k, In k names -> pd_get k (dd_map (b_ivar db)) = None) /\
  (forall m, dd_contains m (b_var db) = true -> In m names) /\
  (forall k, In k ps -> exists z, pd_get k (dd_map (b_var db)) = Some z /\ h_dims z = [ri]).

Lemma merge_var_ok : forall gs k x, grouped order ps (b0 :: bs) gs -> In (k, x) vs ->
  exists y xs, Forall2 (fun b x => has_var b k x) (b0 :: bs) xs /\ hd_error xs = Some x /\ joined cast ri xs y /\
    forall db, ready db -> merge_var lab emb common cast order gs (b0 :: bs) k db = b_set lab k y db.
Proof.
  intros gs k x (pg & -> & G2 & G3) I. pose proof M as M'. unfold mergeable in M'. cbv zeta in M'. fold names in M'. destruct M' as (M1 & M2 & M3 & M4 & M5 & M6 & M7).
  destruct (M5 k x I) as (W & HD & HB).
  destruct (items_of emb k (b0 :: bs) (fun _ y => h_shape y = h_shape x /\ nd_wf (h_nd y)) HB) as (xs & X1 & X2).
  assert (HX : hd_error xs = Some x).
  { inversion X2 as [|b y bl ys [[_ G] _] _ E1 E2]. subst. destruct (items_parts _ _ M1) as [_ IP]. rewrite (IP k x I) in G. injection G as <-. reflexivity. }
  assert (LX : length xs = length (b0 :: bs)) by (clear - X2; induction X2; cbn; lia).
  assert (SX : forall y, In y xs -> h_shape y = h_shape x /\ nd_wf (h_nd y)).
  { clear - X2. induction X2 as [|b y bl ys [_ P] _ IH]; [intros ? []|]. intros z [<-|J]; auto. }
  destruct (joined_ok ri x xs) as (a & t & y & z & J1 & J2 & J3 & J4); auto.
  { unfold ri, index_sweep. cbn [d_data]. unfold range_labels. now rewrite map_length, seq_length, LX. }
  { intros d Id. apply (HD d Id). }
  exists z, xs. split; [eapply Forall2_impl'; [|exact X2]; cbn; tauto|]. split; [exact HX|]. split; [exact J4|]. intros db (R1 & R2 & R3).
  unfold merge_var.
  assert (NP : NoDup ps) by (unfold names in M3; clear - M3; induction ps as [|p l IH]; [constructor|]; cbn [app] in M3; apply NoDup_cons_iff in M3 as [N1 N2]; constructor; [intros J; apply N1; apply in_or_app; now left|auto]).
  assert (ML : exists l, mapM (fun b => do p <- get_partials b; do x <- b_item emb k b; Ok (plain_keys order p, x)) (filter (b_contains k) (b0 :: bs)) = Ok l /\ map snd l = xs /\ l <> [] /\ forall q, In q l -> fst q = order ps).
  { assert (Q : forall bl ys, (forall b, In b bl -> In b (b0 :: bs)) -> Forall2 (fun b x => has_var b k x /\ h_shape x = h_shape x /\ nd_wf (h_nd x)) bl ys ->
        exists l, mapM (fun b => do p <- get_partials b; do x <- b_item emb k b; Ok (plain_keys order p, x)) (filter (b_contains k) bl) = Ok l /\ map snd l = ys /\ forall q, In q l -> fst q = order ps).
    { intros bl ys HI F. induction F as [|b y' bl ys [[V1 V2] _] F IH]; [exists []; split; [reflexivity|]; split; [reflexivity|intros ? []]|]. destruct IH as (l & L1 & L2 & L3); [intros; apply HI; now right|].
      assert (C : b_contains k b = true) by (unfold b_contains; apply orb_true_iff; left; apply contains_get; unfold dd_get in V2; destruct (pd_get k (dd_map (b_var b))); [eauto|discriminate]).
      cbn [filter]. rewrite C. cbn [mapM]. destruct (M4 b (HI b (or_introl eq_refl))) as (P & _ & _). destruct (parts_ok ps b P NP) as (parts & E & P1 & P2). rewrite E. cbn [bind].
      assert (EI : b_item emb k b = Ok y') by (unfold b_item, b_get; unfold dd_get in V1, V2; destruct (pd_get k (dd_map (b_ivar b))); [discriminate|]; destruct (pd_get k (dd_map (b_var b))); [|discriminate]; cbn in V2 |- *; congruence).
      rewrite EI. cbn [bind]. rewrite L1. cbn [bind]. eexists. split; [reflexivity|]. split; [cbn [map snd]; now rewrite L2|]. intros q [<-|J]; [cbn [fst]; unfold plain_keys; now rewrite P1|auto]. }
    destruct (Q (b0 :: bs) xs) as (l & L1 & L2 & L3); [auto|eapply Forall2_impl'; [|exact X2]; cbn; intuition|]. exists l. split; [exact L1|]. split; [exact L2|]. split; [|exact L3]. intros ->. cbn in L2. subst xs. discriminate. }
  destruct ML as (l & L1 & L2 & L3 & L4). rewrite L1. cbn [bind]. destruct l as [|[k0 x'] l]; [congruence|]. cbn [map snd] in L2. subst xs. cbn [hd_error] in HX. injection HX as ->.
  assert (KL : last (map fst ((k0, x) :: l)) [] = order ps).
  { clear - L4. assert (Q : In (last (map fst ((k0, x) :: l)) []) (map fst ((k0, x) :: l))).
    { generalize (@nil string) as dflt. generalize (k0, x) as q. clear. induction l as [|p l IH]; intros q dflt; [now left|]. right. apply (IH p dflt). }
    apply in_map_iff in Q as (q & Q1 & Q2). rewrite <- Q1. now apply L4. }
  rewrite KL. assert (GD : group_dim emb order [(order ps, pg)] (order ps) db = Ok [ri]).
  { unfold group_dim. destruct (order ps) as [|p0 pl] eqn:EO; [exfalso; apply M2; apply Permutation_nil; rewrite <- EO; apply order_perm|]. cbn [find fst].
    assert (LE : list_eqb String.eqb (p0 :: pl) (p0 :: pl) = true) by now apply keys_eqb. rewrite LE. cbn [of_option bind snd]. unfold plain_keys.
    destruct (order (map fst pg)) as [|n nl] eqn:EN; [exfalso; apply M2; apply Permutation_nil; rewrite <- G2; unfold keys; rewrite <- EN; apply order_perm|]. cbn [hd_error of_option bind].
    assert (IN : In n ps) by (apply (Permutation_in _ G2); unfold keys; apply (Permutation_in _ (order_perm _)); rewrite EN; now left).
    destruct (R3 n IN) as (z0 & Z1 & Z2). assert (Z0 : b_item emb n db = Ok z0).
    { unfold b_item, b_get. rewrite R1 by (apply in_or_app; now left). rewrite Z1. reflexivity. }
    rewrite Z0. cbn [bind]. rewrite Z2. reflexivity. }
  rewrite GD. cbn [bind]. cbn [map snd]. rewrite J1. cbn [bind]. cbn [app]. rewrite J2. cbn [bind]. rewrite J3. reflexivity.
Qed.

Lemma with_index_in : forall d ds, In d (with_index ri ds) <-> d = ri \/ In d ds.
Proof. intros d [|d0 r]; cbn [with_index]; [cbn; intuition|]. destruct (subclass (d_class d0) CDimSweep); cbn [In]; intuition. Qed.
Lemma ri_name : d_name ri = "INDEX1".
Proof. reflexivity. Qed.

Definition variable_of (k : string) (q : string * hf A) : Prop :=
  fst q = k /\ exists xs, Forall2 (fun b x => has_var b k x) (b0 :: bs) xs /\ joined cast ri xs (snd q).
Lemma joined_dims : forall k q d, In k (map fst vs) -> variable_of k q -> In d (h_dims (snd q)) -> d = ri \/ (d_name d <> "INDEX1" /\ ~ In (d_name d) names /\ exists e, dd_get (d_name d) (b_ivar b0) = Ok e).
Proof.
  intros k q d Ik (_ & xs & F & x0 & H0 & W & U & HD & _) I. rewrite HD in I. apply with_index_in in I as [->|I]; [now left|]. right.
  pose proof M as M'. unfold mergeable in M'. cbv zeta in M'. fold names in M'. destruct M' as (M1 & M2 & M3 & M4 & M5 & M6 & M7).
  apply in_map_iff in Ik as ([k' x] & Q & Ix). cbn [fst] in Q. subst k'. destruct (M5 k x Ix) as (_ & P & _). inversion F as [|b y bl ys [_ V] F' E1 E2]. subst. cbn [hd_error] in H0. injection H0 as ->. destruct (items_parts _ _ M1) as [_ IP]. rewrite (IP k x Ix) in V. injection V as <-. now apply P.
Qed.
Lemma set_ready : forall k q db, In k (map fst vs) -> variable_of k q -> ready db ->
  exists db', b_set lab k (snd q) db = Ok db' /\ ready db'.
Proof.
  intros k q db Ik V (R1 & R2 & R3). pose proof M as M'. unfold mergeable in M'. cbv zeta in M'. fold names in M'. destruct M' as (M1 & M2 & M3 & M4 & M5 & M6 & M7).
  assert (Kn : In k names) by (apply in_or_app; now right).
  assert (HS : b_set lab k (snd q) db = Ok (mkBlock (dd_set k (snd q) (b_var db)) (add_ivars (h_dims (snd q)) (b_ivar db)) (next_x (b_x db) (h_dims (snd q))))).
  { apply b_set_plain; [unfold dd_get; now rewrite R1|]. intros m e E. destruct (dd_contains m (b_var db)) eqn:C; [|reflexivity]. exfalso. apply (M7 k m e Kn E). now apply R2. }
  rewrite HS. eexists. split; [reflexivity|]. split; [|split]; cbn [b_var b_ivar].
  - intros n In_. apply add_ivars_none; [now apply R1|]. intros J. apply in_map_iff in J as (d & <- & J). destruct (joined_dims k q d Ik V J) as [->|(_ & N & _)]; [|contradiction]. apply (M6 _ In_). apply ri_name.
  - intros m C. rewrite contains_set in C. apply orb_true_iff in C as [C|C]; [|now apply R2]. apply String.eqb_eq in C. now subst.
  - intros n In_. rewrite get_set. destruct (String.eqb_spec n k) as [->|]; [|now apply R3]. exfalso. unfold names in M3. clear - M3 In_ Ik. induction ps as [|p l IH]; [destruct In_|]. cbn [app] in M3. apply NoDup_cons_iff in M3 as [N1 N2]. destruct In_ as [->|I]; [apply N1; apply in_or_app; now right|auto].
Qed.
Lemma merge_vars_ok : forall gs ks, grouped order ps (b0 :: bs) gs -> incl ks (map fst vs) ->
  exists ys, Forall2 variable_of ks ys /\ forall db, ready db -> merge_vars lab emb common cast order gs (b0 :: bs) ks db = sets lab ys db.
Proof.
  intros gs ks G. induction ks as [|k ks IH]; intros H; [exists []; split; [constructor|reflexivity]|].
  destruct IH as (ys & Y1 & Y2); [intros j J; apply H; now right|]. assert (Ik : In k (map fst vs)) by (apply H; now left). apply in_map_iff in Ik as ([k' x] & Q & Ix). cbn [fst] in Q. subst k'.
  destruct (merge_var_ok gs k x G Ix) as (y & xs & F & _ & J & E). exists ((k, y) :: ys). assert (V : variable_of k (k, y)) by (split; [reflexivity|]; exists xs; auto).
  split; [constructor; auto|]. intros db R. cbn [merge_vars sets]. rewrite (E db R). destruct (set_ready k (k, y) db) as (db' & B1 & B2); auto; [apply H; now left|]. cbn [snd] in B1. rewrite B1. cbn [bind]. now apply Y2.
Qed.
End Main.
