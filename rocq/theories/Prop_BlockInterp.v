(** C66: taking the values at new labels without interpolating. *)
From Coq Require Import Ascii String List Arith ZArith Bool Lia Permutation.
From Verif Require Import Model_NdArray Proofs_NdArray Model_Dim Proofs_Dim Model_Array Spec_Array Proofs_Array Proofs_Array2 Proofs_Array3
  Proofs_Array4 Proofs_Array5 Model_DataDict Spec_DataDict Proofs_DataDict Model_Text Model_Block Spec_Block Proofs_Block Proofs_Block2
  Proofs_Block3 Model_BlockOps Spec_BlockOps Proofs_BlockOps Spec_Interp.
Import ListNotations.
Local Open Scope string_scope.
Local Open Scope nat_scope.
Local Open Scope list_scope.

Lemma positions_at : forall {X} (f : X -> bool) old s,
  Forall2 (fun p l => s <= p /\ nth_error old (p - s) = Some l)
    (map fst (filter snd (combine (seq s (length (map f old))) (map f old)))) (filter f old).
Proof.
  intros X f. induction old as [|a old IH]; intros s; simpl; [constructor|]. specialize (IH (S s)).
  assert (G : Forall2 (fun p l => s <= p /\ nth_error (a :: old) (p - s) = Some l)
    (map fst (filter snd (combine (seq (S s) (length (map f old))) (map f old)))) (filter f old)).
  { eapply Forall2_impl'; [|exact IH]. intros p l _ [H1 H2]. split; [lia|]. now replace (p - s) with (S (p - S s)) by lia. }
  destruct (f a); simpl; auto. constructor; auto. split; auto. now rewrite Nat.sub_diag.
Qed.
Lemma true_positions_at : forall {X} (f : X -> bool) old,
  Forall2 (fun p l => nth_error old p = Some l) (true_positions (map f old)) (filter f old).
Proof.
  intros X f old. unfold true_positions. eapply Forall2_impl'; [|exact (positions_at f old 0)].
  intros p l _ [_ H]. now rewrite Nat.sub_0_r in H.
Qed.
Lemma Forall2_len : forall {X Y} (R : X -> Y -> Prop) l l', Forall2 R l l' -> length l = length l'.
Proof. induction 1; simpl; congruence. Qed.
Lemma occurs : forall new o, existsb (fun n => label_eqb n o) new = true <-> In o new.
Proof.
  intros new o. rewrite existsb_exists. split.
  - intros [n [H1 H2]]. apply label_eqb_eq in H2. congruence.
  - intros H. exists o. split; auto. now apply label_eqb_eq.
Qed.

(** Arrays without the dimension. *)
Theorem C66_other : forall {A} (newx : dim) (y : hf A),
  (forall d, In d (h_dims y) -> d_name d = d_name newx -> subclass (d_class d) (d_class newx) = false) ->
  interpolate newx y = Ok y.
Proof.
  intros A newx y H. unfold interpolate.
  assert (E : dims_contains (h_dims y) newx = false).
  { apply not_true_is_false. intros K. unfold dims_contains in K. apply existsb_exists in K as [d [K1 K2]]. unfold matches in K2.
    apply andb_prop in K2 as [K2 K3]. apply String.eqb_eq in K2. rewrite (H d K1 K2) in K3. discriminate. }
  now rewrite E.
Qed.
Print Assumptions C66_other.

Lemma matches_key : forall a d, key a = key d -> matches a d = true.
Proof.
  intros a d K. unfold matches. injection K as K1 K2. rewrite K2, String.eqb_refl, K1.
  destruct (d_class d); reflexivity.
Qed.

(** The first dimension and labels that it has, in its order. *)
Theorem C66_first : forall {A} (newx oldx : dim) rest (y : hf A) f, wf y -> h_dims y = oldx :: rest -> key newx = key oldx ->
  NoDup (d_data oldx) -> d_data newx = filter f (d_data oldx) ->
  exists z, interpolate newx y = Ok z /\ wf z /\ h_dims z = newx :: rest /\ h_unit z = h_unit y /\ h_fmt z = h_fmt y /\
    at_labels oldx newx y z.
Proof.
  intros A newx oldx rest y f W D K ND F. pose proof W as [Hw [Hl NK]]. unfold interpolate.
  assert (M : matches newx oldx = true) by now apply matches_key.
  rewrite D. unfold dims_contains, matching_index. cbn [existsb find_index]. rewrite M. cbn [orb negb of_option bind nth_error].
  set (g := fun o => existsb (fun n => label_eqb n o) (d_data newx)).
  assert (FG : filter g (d_data oldx) = d_data newx).
  { rewrite F. apply filter_ext_in. intros o Ho. unfold g. destruct (f o) eqn:E.
    - apply occurs. rewrite F. now apply filter_In.
    - apply not_true_is_false. intros H. apply occurs in H. rewrite F in H. apply filter_In in H as [_ H]. congruence. }
  pose proof (true_positions_at g (d_data oldx)) as P. rewrite FG in P.
  rewrite (Forall2_len _ _ _ P), Nat.eqb_refl. cbn [negb].
  assert (L0 : nth 0 (h_shape y) 0 = length (d_data oldx)).
  { unfold labels_match in Hl. rewrite <- Hl, D. reflexivity. }
  rewrite map_length, L0, Nat.eqb_refl. cbn [negb].
  assert (B : forall p, In p (true_positions (map g (d_data oldx))) -> p < length (d_data oldx)).
  { intros p Hp. clear - P Hp. induction P as [|q l ps ls Q P IH]; [destruct Hp|]. destruct Hp as [->|Hp]; auto. apply nth_error_Some. congruence. }
  destruct (take_axis_val y 0 oldx newx (true_positions (map g (d_data oldx))) W) as [a [T1 [T2 [T3 T4]]]]; auto.
  { now rewrite D. }
  { symmetry. eapply Forall2_len. exact P. }
  rewrite T1. cbn [bind firstn skipn app].
  assert (LD : length (newx :: rest) = length (nd_shape a)).
  { rewrite T2, set_nth_length. rewrite <- (wf_ndim y Hl) || idtac. unfold labels_match in Hl. rewrite <- Hl, map_length, D. reflexivity. }
  rewrite new_raw_ok by exact LD.
  eexists. split; [reflexivity|].
  assert (WZ : wf (mkHF a (h_dt y) (newx :: rest) (h_unit y) (h_fmt y))).
  { split; [exact T3|]. split.
    - unfold labels_match, h_shape. cbn [h_dims h_nd]. rewrite T2. unfold labels_match in Hl. rewrite <- Hl, D. cbn [map set_nth].
      rewrite (Forall2_len _ _ _ P). destruct (map (fun d => length (d_data d)) rest); reflexivity.
    - cbn [h_dims map]. rewrite K. rewrite D in NK. exact NK. }
  split; [exact WZ|]. cbn [h_dims h_unit h_fmt]. repeat (split; [reflexivity|]).
  intros e l p V N1 N2. cbn [h_dims] in V. unfold val at 1. cbn [h_nd h_dims].
  assert (C : coords e (newx :: rest) = coords e (h_dims y)) by (rewrite D; unfold coords; cbn [map]; now rewrite K).
  rewrite C, T4.
  - f_equal. f_equal. rewrite <- K.
    assert (Q : nth_error (d_data oldx) (nth (e (key newx)) (true_positions (map g (d_data oldx))) 0) = Some l).
    { clear - P N1. revert N1. generalize (e (key newx)). induction P as [|q l0 ps ls Q P IH]; intros [|i] H; cbn [nth_error nth] in *; try discriminate.
      - congruence.
      - now apply IH. }
    rewrite NoDup_nth_error in ND. apply ND; [apply nth_error_Some; congruence|congruence].
  - rewrite D. cbn [set_nth]. exact V.
Qed.
Print Assumptions C66_first.

(** A label that is not there. *)
Theorem C66_missing : forall {A} (newx oldx : dim) pre rest (y : hf A) l, h_dims y = pre ++ oldx :: rest -> key newx = key oldx ->
  (forall d, In d pre -> d_name d <> d_name newx) ->
  NoDup (d_data oldx) -> In l (d_data newx) -> ~ In l (d_data oldx) ->
  interpolate newx y = Err ValueError.
Proof.
  intros A newx oldx pre rest y l D K HP ND I NI. unfold interpolate.
  assert (M : matches newx oldx = true) by now apply matches_key.
  assert (X : find_index (matches newx) (h_dims y) = Some (length pre)).
  { rewrite D. clear D. induction pre as [|d pre IH]; cbn [app find_index]; [now rewrite M|].
    assert (E : matches newx d = false).
    { unfold matches. destruct (String.eqb_spec (d_name d) (d_name newx)) as [E|E]; auto. exfalso. apply (HP d); auto. now left. }
    rewrite E, IH; auto. intros d0 H0. apply HP. now right. }
  assert (C : dims_contains (h_dims y) newx = true).
  { unfold dims_contains. apply existsb_exists. exists oldx. split; auto. rewrite D. apply in_or_app. right. now left. }
  rewrite C. unfold matching_index. rewrite X. cbn [negb of_option bind].
  assert (N : nth_error (h_dims y) (length pre) = Some oldx) by (rewrite D, nth_error_app2, Nat.sub_diag by lia; reflexivity).
  rewrite N. cbn [of_option bind].
  set (g := fun o => existsb (fun n => label_eqb n o) (d_data newx)).
  pose proof (true_positions_at g (d_data oldx)) as P. rewrite (Forall2_len _ _ _ P).
  assert (LT : length (filter g (d_data oldx)) < length (d_data newx)).
  { assert (Q : length (l :: filter g (d_data oldx)) <= length (d_data newx)); [|simpl in Q; lia].
    apply NoDup_incl_length.
    - constructor; [|now apply NoDup_filter']. intros H. apply filter_In in H. tauto.
    - intros o [->|H]; auto. apply filter_In in H as [_ H]. now apply occurs in H. }
  destruct (Nat.eqb_spec (length (filter g (d_data oldx))) (length (d_data newx))) as [E|E]; [lia|]. reflexivity.
Qed.
Print Assumptions C66_missing.

(** Another dimension than the first, of another length than the first: the
    mask does not fit. *)
Theorem C66_not_first : forall {A} (newx oldx d0 : dim) pre rest (y : hf A) f, wf y -> h_dims y = d0 :: pre ++ oldx :: rest -> key newx = key oldx ->
  (forall d, In d (d0 :: pre) -> d_name d <> d_name newx) ->
  d_data newx = filter f (d_data oldx) -> length (d_data d0) <> length (d_data oldx) ->
  interpolate newx y = Err IndexError.
Proof.
  intros A newx oldx d0 pre rest y f W D K HP F NE. pose proof W as [Hw [Hl NK]]. unfold interpolate.
  assert (M : matches newx oldx = true) by now apply matches_key.
  assert (X : forall pre, (forall d, In d pre -> d_name d <> d_name newx) -> find_index (matches newx) (pre ++ oldx :: rest) = Some (length pre)).
  { clear - M. induction pre as [|d pre IH]; cbn [app find_index]; intros HP; [now rewrite M|].
    assert (E : matches newx d = false).
    { unfold matches. destruct (String.eqb_spec (d_name d) (d_name newx)) as [E|E]; auto. exfalso. apply (HP d); auto. now left. }
    rewrite E, IH; auto. intros d1 H1. apply HP. now right. }
  specialize (X (d0 :: pre) HP).
  assert (C : dims_contains (h_dims y) newx = true).
  { unfold dims_contains. apply existsb_exists. exists oldx. split; auto. rewrite D. right. apply in_or_app. right. now left. }
  rewrite C. unfold matching_index. rewrite D. cbn [app] in X. rewrite X. cbn [negb of_option bind].
  assert (N : nth_error (d0 :: pre ++ oldx :: rest) (length (d0 :: pre)) = Some oldx).
  { cbn [length nth_error]. rewrite nth_error_app2, Nat.sub_diag by lia. reflexivity. }
  rewrite N. cbn [of_option bind].
  set (g := fun o => existsb (fun n => label_eqb n o) (d_data newx)).
  assert (FG : filter g (d_data oldx) = d_data newx).
  { rewrite F. apply filter_ext_in. intros o Ho. unfold g. destruct (f o) eqn:E.
    - apply occurs. rewrite F. now apply filter_In.
    - apply not_true_is_false. intros H. apply occurs in H. rewrite F in H. apply filter_In in H as [_ H]. congruence. }
  pose proof (true_positions_at g (d_data oldx)) as P. rewrite FG in P.
  rewrite (Forall2_len _ _ _ P), Nat.eqb_refl. cbn [negb].
  assert (L0 : nth 0 (h_shape y) 0 = length (d_data d0)).
  { unfold labels_match in Hl. rewrite <- Hl, D. reflexivity. }
  rewrite map_length, L0. destruct (Nat.eqb_spec (length (d_data oldx)) (length (d_data d0))) as [E|E]; [congruence|]. reflexivity.
Qed.
Print Assumptions C66_not_first.

(** An array in place of the dimension: whatever its values are, its labels
    count; it has to have one dimension. *)
Theorem C66_array : forall {A B} (x : hf B) (newx oldx : dim) rest (y : hf A) f, wf y -> h_dims y = oldx :: rest -> key newx = key oldx ->
  NoDup (d_data oldx) -> d_data newx = filter f (d_data oldx) -> h_dims x = [newx] ->
  exists z, interpolate_at x y = Ok z /\ wf z /\ h_dims z = newx :: rest /\ at_labels oldx newx y z.
Proof.
  intros A B x newx oldx rest y f W D K ND F E. destruct (C66_first newx oldx rest y f W D K ND F) as [z [Z1 [Z2 [Z3 [_ [_ Z4]]]]]].
  exists z. unfold interpolate_at. now rewrite E.
Qed.
Print Assumptions C66_array.
Theorem C66_array_refused : forall {A B} (x : hf B) (y : hf A), length (h_dims x) <> 1 -> interpolate_at x y = Err ValueError.
Proof. intros A B x y N. unfold interpolate_at. destruct (h_dims x) as [|d [|d' l]]; cbn in N; [reflexivity|congruence|reflexivity]. Qed.
Print Assumptions C66_array_refused.

(** ** Whole blocks *)
Lemma interp_loop_sets : forall {A} (lab : A -> label) emb newx (b : block A) vs ivs ws names out, dd_items (b_var b) = Ok vs -> dd_items (b_ivar b) = Ok ivs ->
  Forall2 (fun k w => fst w = k /\ ~ In k (map fst ivs) /\ exists x, pd_get k vs = Some x /\ interpolate newx x = Ok (snd w)) names ws ->
  interp_loop lab emb newx names b out = sets lab ws out.
Proof.
  intros A lab emb newx b vs ivs ws names out HV HI F. revert out. induction F as [|k w names ws [E [N [x [G S1]]]] F IH]; intros out; auto.
  cbn [interp_loop]. destruct w as [k' y]. cbn [fst snd] in E, S1. subst k'. cbn [sets].
  rewrite (get_variable b vs ivs k x HV HI G N). cbn [bind found_arr]. rewrite S1. cbn [bind].
  destruct (b_set lab k y out); cbn [bind]; auto.
Qed.

(** Every variable has the dimension first or not at all. *)
Theorem C66_block : forall {A} (lab : A -> label) (emb : label -> A) (b : block A) vs ivs newx oldx f,
  dd_items (b_var b) = Ok vs -> dd_items (b_ivar b) = Ok ivs -> NoDup (map fst vs) ->
  key newx = key oldx -> NoDup (d_data oldx) -> d_data newx = filter f (d_data oldx) ->
  (forall p, In p vs -> wf (snd p) /\
     (~ In (d_name newx) (map d_name (h_dims (snd p))) \/ exists rest, h_dims (snd p) = oldx :: rest)) ->
  (forall k, In k (dim_names vs) -> In k (map fst ivs)) ->
  plain_names (map fst vs) (map fst ivs) ->
  exists out ws, b_interpolate lab emb newx b = Ok out /\
    dd_items (b_var out) = Ok ws /\ dd_items (b_ivar out) = Ok (dims_of ws) /\
    Forall2 (fun p q => fst q = fst p /\
      ((snd q = snd p /\ ~ In (d_name newx) (map d_name (h_dims (snd p)))) \/
       (wf (snd q) /\ (exists rest, h_dims (snd p) = oldx :: rest /\ h_dims (snd q) = newx :: rest) /\ at_labels oldx newx (snd p) (snd q)))) vs ws.
Proof.
  intros A lab emb b vs ivs newx oldx f HV HI ND K NO F HW HD [P1 P2].
  destruct (Forall2_exists (fun p q => (fst q = fst p /\
      ((snd q = snd p /\ ~ In (d_name newx) (map d_name (h_dims (snd p)))) \/
       (wf (snd q) /\ (exists rest, h_dims (snd p) = oldx :: rest /\ h_dims (snd q) = newx :: rest) /\ at_labels oldx newx (snd p) (snd q)))) /\
       interpolate newx (snd p) = Ok (snd q)) vs) as [ws FW].
  { intros p Hp. destruct (HW p Hp) as [W [N|[rest D]]].
    - exists (fst p, snd p). cbn [fst snd]. split; [split; auto|]. apply C66_other. intros d Hd E. exfalso. apply N. rewrite <- E. now apply in_map.
    - destruct (C66_first newx oldx rest (snd p) f W D K NO F) as [z [Z1 [Z2 [Z3 [_ [_ Z4]]]]]]. exists (fst p, z). cbn [fst snd].
      split; auto. split; auto. right. split; auto. split; auto. exists rest. auto. }
  assert (Fn : map fst ws = map fst vs).
  { clear - FW. induction FW as [|p q l l' [[E _] _] FW IH]; simpl; congruence. }
  assert (Dn : forall k, In k (dim_names ws) -> In k (dim_names vs)).
  { assert (KN : d_name newx = d_name oldx) by (injection K; auto). clear - FW KN. intros k. induction FW as [|p q l l' [[_ Q] _] F IH]; auto. unfold dim_names in *. simpl. rewrite !in_app_iff.
    intros [H|H]; [left|auto]. destruct Q as [[Q _]|[_ [[rest [Q1 Q2]] _]]].
    - now rewrite <- Q.
    - rewrite Q2 in H. rewrite Q1. simpl in *. now rewrite <- KN. }
  assert (L : interp_loop lab emb newx (map fst vs) b b_empty = sets lab ws b_empty).
  { apply (interp_loop_sets lab emb newx b vs ivs); auto.
    assert (G : forall l l', Forall2 (fun p q => (fst q = fst p /\
      ((snd q = snd p /\ ~ In (d_name newx) (map d_name (h_dims (snd p)))) \/
       (wf (snd q) /\ (exists rest, h_dims (snd p) = oldx :: rest /\ h_dims (snd q) = newx :: rest) /\ at_labels oldx newx (snd p) (snd q)))) /\
       interpolate newx (snd p) = Ok (snd q)) l l' ->
       (forall p, In p l -> In p vs) ->
       Forall2 (fun k w => fst w = k /\ ~ In k (map fst ivs) /\ exists x, pd_get k vs = Some x /\ interpolate newx x = Ok (snd w)) (map fst l) l').
    { clear FW Fn Dn. intros l l' FW. induction FW as [|p q l l' [[E _] Q] FW IH]; intros Hl; cbn [map]; constructor.
      - split; auto. split; [apply P1; apply in_map; apply Hl; now left|]. exists (snd p). split; auto. apply in_get; auto.
        destruct p. apply Hl. now left.
      - apply IH. intros p0 H0. apply Hl. now right. }
    apply G; auto. }
  destruct (sets_ok lab ws dd_empty None) as [out [S1 [S2 [S3 [S4 S5]]]]]; auto using empty_Inv.
  { now rewrite Fn. }
  { cbn [dd_order dd_empty]. rewrite app_nil_r, Fn. split; auto. intros k Hk H. apply (P1 k Hk). apply HD. now apply Dn. }
  exists out, ws. unfold b_interpolate. rewrite HV. cbn [bind]. rewrite L. split; [exact S1|].
  split; [rewrite items_abs by auto; now rewrite S4|].
  split; [rewrite items_abs by auto; rewrite S5, ivars_of_abs by apply empty_Inv; reflexivity|].
  eapply Forall2_impl'; [|exact FW]. cbn. tauto.
Qed.
Print Assumptions C66_block.

(** ** An example *)
Ltac ex_nodup := cbn; repeat (apply NoDup_cons; [intros K; vm_compute in K; intuition congruence|]); apply NoDup_nil.
Ltac ex_wf := split; [vm_compute; reflexivity|split; [vm_compute; reflexivity|ex_nodup]].
Definition fr (l : list Z) : dim := mkDim CDimSweep "f" (map LZ l) (Some "Hz") None.
Definition pr (l : list Z) : dim := mkDim CDimSweep "P" (map LZ l) None None.
Definition nums (k : Z) (ds : list dim) : hf label :=
  let sh := map (fun d => length (d_data d)) ds in
  mkHF (mkNd sh (map (fun i => LZ (k + Z.of_nat i)) (seq 0 (prodn sh)))) DInt ds None "%d".
Definition two : result (block label) :=
  sets (fun x => x) [("S", nums 100 [fr [1; 2; 3]%Z; pr [5; 6]%Z]); ("T", nums 200 [pr [5; 6]%Z])] b_empty.

Example C66_example :
  (do b <- two; do o <- b_interpolate (fun x => x) (fun x => x) (fr [1; 3]%Z) b;
   do vs <- dd_items (b_var o); do ivs <- dd_items (b_ivar o); Ok (map (fun p => (fst p, nd_elems (h_nd (snd p)), h_dims (snd p))) vs, ivs)) =
  Ok ([("S", map LZ [100; 101; 104; 105]%Z, [fr [1; 3]%Z; pr [5; 6]%Z]); ("T", map LZ [200; 201]%Z, [pr [5; 6]%Z])],
      [("f", fr [1; 3]%Z); ("P", pr [5; 6]%Z)]).
Proof. vm_compute. reflexivity. Qed.
Example C66_example_hyps : exists b, two = Ok b /\
  dd_items (b_var b) = Ok [("S", nums 100 [fr [1; 2; 3]%Z; pr [5; 6]%Z]); ("T", nums 200 [pr [5; 6]%Z])] /\
  dd_items (b_ivar b) = Ok [("f", fr [1; 2; 3]%Z); ("P", pr [5; 6]%Z)] /\
  key (fr [1; 3]%Z) = key (fr [1; 2; 3]%Z) /\ NoDup (d_data (fr [1; 2; 3]%Z)) /\
  d_data (fr [1; 3]%Z) = filter (fun l => negb (label_eqb l (LZ 2))) (d_data (fr [1; 2; 3]%Z)) /\
  wf (nums 100 [fr [1; 2; 3]%Z; pr [5; 6]%Z]) /\ wf (nums 200 [pr [5; 6]%Z]) /\ plain_names ["S"; "T"] ["f"; "P"].
Proof.
  eexists. split; [vm_compute; reflexivity|]. split; [vm_compute; reflexivity|]. split; [vm_compute; reflexivity|].
  split; [reflexivity|]. split; [ex_nodup|]. split; [reflexivity|].
  split; [ex_wf|]. split; [ex_wf|].
  split; [cbn; intuition congruence|]. intros k m e [<-|[<-|[]]] H; vm_compute in H; discriminate H.
Qed.
(** A label that is missing, a dimension that is not the first. *)
Example C66_example_errors :
  interpolate (fr [1; 4]%Z) (nums 100 [fr [1; 2; 3]%Z; pr [5; 6]%Z]) = Err ValueError /\
  interpolate (pr [5]%Z) (nums 100 [fr [1; 2; 3]%Z; pr [5; 6]%Z]) = Err IndexError.
Proof. split; vm_compute; reflexivity. Qed.

(** Labels in another order than they have: the values stay in the old order
    and get the wrong labels. *)
Theorem C66_order_refuted : exists (newx oldx : dim) (y z : hf label), wf y /\ h_dims y = [oldx] /\ key newx = key oldx /\
  NoDup (d_data oldx) /\ NoDup (d_data newx) /\ (forall l, In l (d_data newx) -> In l (d_data oldx)) /\
  interpolate newx y = Ok z /\ ~ at_labels oldx newx y z.
Proof.
  exists (fr [3; 1]%Z), (fr [1; 2; 3]%Z), (nums 100 [fr [1; 2; 3]%Z]). eexists.
  split; [ex_wf|]. split; [reflexivity|]. split; [reflexivity|].
  split; [ex_nodup|]. split; [ex_nodup|].
  split; [cbn; intuition|]. split; [vm_compute; reflexivity|].
  intros H. specialize (H (fun _ => 0) (LZ 3) 2). vm_compute in H.
  assert (K : Some (LZ 100) = Some (LZ 102)); [|discriminate K]. apply H; auto.
  intros d [<-|[]]. auto.
Qed.
Print Assumptions C66_order_refuted.

(** A dimension that is not the first but as long as the first: the first one
    is thinned out, the labels are put on the other. *)
Theorem C66_axis_refuted : exists (newx oldx d0 : dim) f (y z : hf label), wf y /\ h_dims y = [d0; oldx] /\ key newx = key oldx /\
  NoDup (d_data oldx) /\ d_data newx = filter f (d_data oldx) /\
  interpolate newx y = Ok z /\ h_dims z = [d0; newx] /\ ~ wf z.
Proof.
  exists (pr [6]%Z), (pr [5; 6]%Z), (fr [1; 2]%Z), (fun l => label_eqb l (LZ 6)), (nums 100 [fr [1; 2]%Z; pr [5; 6]%Z]). eexists.
  split; [ex_wf|]. split; [reflexivity|]. split; [reflexivity|].
  split; [ex_nodup|]. split; [reflexivity|]. split; [vm_compute; reflexivity|]. split; [reflexivity|].
  intros [_ [H _]]. vm_compute in H. discriminate H.
Qed.
Print Assumptions C66_axis_refuted.
