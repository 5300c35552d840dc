(** C65: selecting variables, squeezing, and collapsing the repetitions of a
    block. *)
From Coq Require Import Ascii String List Arith ZArith Bool Lia Permutation.
From Verif Require Import Model_NdArray Proofs_NdArray Model_Dim Model_Array Spec_Array Proofs_Array Proofs_Array2 Proofs_Array3
  Proofs_Array4 Proofs_Array5 Model_DataDict Spec_DataDict Proofs_DataDict Model_Text Model_Block Spec_Block Proofs_Block Proofs_Block2
  Proofs_Block3 Spec_MdifMat Proofs_MdifMat Model_BlockOps Spec_BlockOps Proofs_BlockOps.
Import ListNotations.
Local Open Scope string_scope.
Local Open Scope nat_scope.
Local Open Scope list_scope.

(** ** keep_variables *)
Theorem C65_keep : forall {A} (lab : A -> label) (emb : label -> A) (b : block A) vs ivs names,
  dd_items (b_var b) = Ok vs -> dd_items (b_ivar b) = Ok ivs -> NoDup (map fst vs) -> NoDup names ->
  (forall k, In k names -> ~ In k (map fst ivs)) ->
  plain_names (map fst (picked names vs)) (dim_names (picked names vs)) ->
  exists out, keep_variables lab emb names b = Ok out /\
    dd_items (b_var out) = Ok (picked names vs) /\ dd_items (b_ivar out) = Ok (dims_of (picked names vs)).
Proof.
  intros A lab emb b vs ivs names HV HI ND NN HN P. unfold keep_variables. rewrite (keep_loop_sets lab emb b vs ivs names b_empty HV HI ND HN).
  destruct (picked_names vs names ND NN) as [N1 N2].
  destruct (sets_ok lab (picked names vs) dd_empty None) as [out [S1 [S2 [S3 [S4 S5]]]]]; auto using empty_Inv.
  { cbn [dd_order dd_empty]. now rewrite app_nil_r. }
  exists out. split; [exact S1|]. split; [rewrite items_abs by auto; now rewrite S4|].
  rewrite items_abs by auto. rewrite S5, ivars_of_abs by apply empty_Inv. reflexivity.
Qed.
Print Assumptions C65_keep.

(** ** squeeze *)
Lemma firsts_first_of : forall {V} (l : list (string * V)), map fst (first_of l) = firsts (map fst l).
Proof.
  intros V. induction l as [|x l IH]; simpl; auto. f_equal. rewrite <- IH. generalize (first_of l). intros m.
  induction m as [|y m IHm]; simpl; auto. destruct (String.eqb (fst x) (fst y)); simpl; now rewrite IHm.
Qed.
Lemma same_pairs : forall {V} (l l' : list (string * V)), NoDup (map fst l) -> NoDup (map fst l') -> (forall k, pd_get k l = pd_get k l') ->
  Permutation l l'.
Proof.
  intros V l l' N N' H. apply NoDup_Permutation.
  - eapply NoDup_map_inv; exact N.
  - eapply NoDup_map_inv; exact N'.
  - intros [k v]. split; intros K.
    + apply get_in_pairs. rewrite <- H. now apply in_get.
    + apply get_in_pairs. rewrite H. now apply in_get.
Qed.

Theorem C65_squeeze : forall {A} (lab : A -> label) (emb : label -> A) (b : block A) vs ivs,
  dd_items (b_var b) = Ok vs -> dd_items (b_ivar b) = Ok ivs -> NoDup (map fst vs) -> NoDup (map fst ivs) ->
  (forall p, In p vs -> wf (snd p)) ->
  (forall k, In k (dim_names vs) -> In k (map fst ivs)) ->
  plain_names (map fst vs) (map fst ivs) ->
  exists out ws ivs', b_squeeze lab emb b = Ok out /\
    dd_items (b_var out) = Ok ws /\ Forall2 (fun p q => fst q = fst p /\ squeezed (snd p) (snd q)) vs ws /\
    dd_items (b_ivar out) = Ok ivs' /\ Permutation ivs' ivs /\
    map fst ivs' = firsts (dim_names ws ++ map fst ivs).
Proof.
  intros A lab emb b vs ivs HV HI ND NI HW HD [P1 P2].
  destruct (Forall2_exists (fun p q => fst q = fst p /\ squeezed (snd p) (snd q) /\ squeeze None (snd p) = Ok (snd q)) vs) as [ws F].
  { intros p Hp. destruct (squeeze_none_ok (snd p) (HW p Hp)) as [y [Y1 [Y2 [Y3 [Y4 [Y5 _]]]]]]. exists (fst p, y). cbn [fst snd].
    split; auto. split; auto. repeat split; auto; apply Y2. }
  assert (Fn : map fst ws = map fst vs).
  { clear - F. induction F as [|p q l l' [E _] F IH]; simpl; congruence. }
  assert (Dn : forall k, In k (dim_names ws) -> In k (dim_names vs)).
  { clear - F. intros k. induction F as [|p q l l' [_ [[_ [Q _]] _]] F IH]; auto. unfold dim_names in *. simpl. rewrite !in_app_iff.
    intros [H|H]; [left|auto]. rewrite Q in H. apply in_map_iff in H as [d [<- H]]. apply in_map. now apply filter_In in H. }
  assert (L : squeeze_loop lab emb (dd_iter (b_var b)) b b_empty = sets lab ws b_empty).
  { apply (squeeze_loop_sets lab emb b vs ivs); auto. rewrite <- (items_iter _ _ HV).
    assert (G : forall l l', Forall2 (fun p q => fst q = fst p /\ squeezed (snd p) (snd q) /\ squeeze None (snd p) = Ok (snd q)) l l' ->
       (forall p, In p l -> In p vs) ->
       Forall2 (fun k w => fst w = k /\ ~ In k (map fst ivs) /\ exists x, pd_get k vs = Some x /\ squeeze None x = Ok (snd w)) (map fst l) l').
    { clear F Fn Dn. intros l l' F. induction F as [|p q l l' [E [_ Q]] F IH]; intros Hl; cbn [map]; constructor.
      - split; auto. split; [apply P1; apply in_map; apply Hl; now left|]. exists (snd p). split; auto. apply in_get; auto.
        destruct p. apply Hl. now left.
      - apply IH. intros p0 H0. apply Hl. now right. }
    apply G; auto. }
  destruct (sets_ok lab ws dd_empty None) as [db [S1 [S2 [S3 [S4 S5]]]]]; auto using empty_Inv.
  { now rewrite Fn. }
  { cbn [dd_order dd_empty]. rewrite app_nil_r, Fn. split; auto. intros k Hk H. apply (P1 k Hk). apply HD. now apply Dn. }
  change (mkBlock dd_empty dd_empty None) with (@b_empty A) in S1.
  unfold b_squeeze. rewrite L, S1. cbn [bind]. rewrite HI. cbn [bind].
  exists (set_dims ivs db), ws. rewrite set_dims_var, set_dims_ivar.
  pose proof (fold_sets_Inv ivs (b_ivar db) S3) as I4.
  exists (dabs (fold_left (fun iv p => dd_set (fst p) (snd p) iv) ivs (b_ivar db))). split; auto.
  split; [rewrite items_abs by auto; now rewrite S4|].
  split; [eapply Forall2_impl'; [|exact F]; cbn; tauto|].
  split; [now apply items_abs|].
  assert (O : map fst (dabs (fold_left (fun iv p => dd_set (fst p) (snd p) iv) ivs (b_ivar db))) = firsts (dim_names ws ++ map fst ivs)).
  { change (map fst (dabs (fold_left (fun iv p => dd_set (fst p) (snd p) iv) ivs (b_ivar db)))) with
      (keys (dabs (fold_left (fun iv p => dd_set (fst p) (snd p) iv) ivs (b_ivar db)))).
    rewrite keys_abs by auto. pose proof (fold_sets_order ivs (b_ivar db) S3) as Q.
    apply (f_equal (map fst)) in Q. rewrite map_map in Q. cbn [fst] in Q. rewrite map_id in Q. rewrite Q.
    rewrite firsts_first_of, map_map. cbn [fst]. rewrite map_id.
    rewrite <- (keys_abs (b_ivar db)) by auto. rewrite S5, ivars_of_abs by apply empty_Inv.
    unfold keys. cbn [dabs]. change (dabs (@dd_empty dim)) with (@nil (string * dim)). cbn [app].
    rewrite firsts_first_of, map_map. cbn [fst].
    assert (E : map (fun x => d_name x) (flat_map (fun p : string * hf A => h_dims (snd p)) ws) = dim_names ws).
    { unfold dim_names. clear. induction ws as [|p l IH]; simpl; auto. now rewrite map_app, IH. }
    rewrite E. 
    assert (T : forall (a c : list string), firsts (firsts a ++ c) = firsts (a ++ c)).
    { clear. intros a c. pose proof (first_of_twice (map (fun k => (k, tt)) a) (map (fun k => (k, tt)) c)) as Q.
      apply (f_equal (map fst)) in Q. rewrite !firsts_first_of, !map_app, firsts_first_of, !map_map in Q. cbn [fst] in Q. now rewrite !map_id in Q. }
    apply T. }
  split; auto. apply same_pairs; auto.
  { rewrite O. apply firsts_NoDup. }
  intros k. rewrite abs_get by auto. rewrite fold_sets_get by auto. destruct (pd_get k ivs) as [d|] eqn:G; auto.
  rewrite S5. apply ivars_of_none; auto. intros H. apply Dn, HD in H. apply pd_get_none in G. now apply G.
Qed.
Print Assumptions C65_squeeze.

(** ** remove_rep *)
Lemma inb_nth : forall sh ix k, inb sh ix = true -> k < length sh -> nth k ix 0 < nth k sh 0.
Proof.
  induction sh as [|n sh IH]; intros [|i ix] k H L; simpl in *; try discriminate; try lia.
  apply andb_prop in H as [H1 H2]. apply Nat.ltb_lt in H1. destruct k; auto. apply IH; auto. lia.
Qed.
Lemma rep_values_ok : forall {A} (emb : label -> A) reps idx r newname t u f,
  nth_error reps idx = Some r ->
  let dn := mkDim CDimRep newname (range_labels (prodn (lens reps))) None None in
  tells emb reps dn r (mkHF (rep_values emb (lens reps) idx r) t [dn] u f).
Proof.
  intros A emb reps idx r newname t u f R dn.
  assert (T : total_on (lens reps) (fun ix => nth_error (map emb (d_data r)) (nth idx ix 0))).
  { intros ix H. apply nth_error_Some. rewrite map_length.
    assert (K : idx < length reps) by (apply nth_error_Some; congruence).
    pose proof (inb_nth _ _ idx H ltac:(unfold lens; now rewrite map_length)) as Q.
    assert (E : nth idx (lens reps) 0 = length (d_data r)) by (apply nth_error_nth; unfold lens; rewrite nth_error_map, R; reflexivity).
    rewrite E in Q. exact Q. }
  split; [|split; auto].
  - split; [|split].
    + unfold nd_wf, rep_values. cbn [h_nd nd_elems nd_shape]. rewrite (nd_tab_wf _ _ T). cbn [prodn fold_right]. simpl. lia.
    + unfold labels_match. cbn. now rewrite range_labels_length.
    + constructor; [intros []|constructor].
  - intros e V. unfold val. cbn [h_nd h_dims coords map].
    assert (U : upd e (key dn) (mixed reps e) (key dn) = mixed reps e).
    { unfold upd. cbn. now rewrite String.eqb_refl. }
    rewrite U. rewrite mixed_ravel. fold (lens reps). pose proof (inb_valid e reps V) as B. fold (lens reps) in B.
    pose proof (nd_get_tab (lens reps) _ _ T B) as G. unfold nd_get in G at 1. rewrite nd_tab_shape, B in G.
    unfold nd_get, rep_values. cbn [nd_shape nd_elems inb ravel prodn fold_right]. pose proof (ravel_lt _ _ B) as Q.
    assert (E1 : (ravel (lens reps) (coords e reps) <? prodn (lens reps)) = true) by now apply Nat.ltb_lt. rewrite E1. cbn [andb].
    replace (ravel (lens reps) (coords e reps) * 1 + 0) with (ravel (lens reps) (coords e reps)) by lia.
    rewrite G. unfold coords.
    assert (E2 : nth idx (map (fun d => e (key d)) reps) 0 = e (key r)).
    { apply nth_error_nth. now rewrite nth_error_map, R. }
    rewrite E2. apply nth_error_map.
Qed.

Lemma rep_loop_sets : forall {A} (lab : A -> label) emb dn reps ds pre out, reps = pre ++ ds ->
  exists us, Forall2 (fun d u => fst u = d_name d /\ exists i t f, nth_error reps i = Some d /\
      snd u = mkHF (rep_values emb (lens reps) i d) t [dn] None f) ds us /\
    rep_loop lab emb dn (lens reps) (length pre) ds out = sets lab us out.
Proof.
  intros A lab emb dn reps. induction ds as [|d ds IH]; intros pre out E.
  - exists []. split; auto.
  - cbn [rep_loop].
    assert (N : new_raw (rep_values emb (lens reps) (length pre) d) (label_dtype (d_data d)) (Some [dn]) None None =
      Ok (mkHF (rep_values emb (lens reps) (length pre) d) (label_dtype (d_data d)) [dn] None (default_fmt (label_dtype (d_data d))))) by reflexivity.
    rewrite N. cbn [bind]. clear N.
    destruct (b_set lab (d_name d) (mkHF (rep_values emb (lens reps) (length pre) d) (label_dtype (d_data d)) [dn] None (default_fmt (label_dtype (d_data d)))) out) as [out'|er] eqn:S1.
    + destruct (IH (pre ++ [d]) out') as [us [F L]]; [now rewrite <- app_assoc|].
      exists ((d_name d, mkHF (rep_values emb (lens reps) (length pre) d) (label_dtype (d_data d)) [dn] None (default_fmt (label_dtype (d_data d)))) :: us).
      split.
      * constructor; auto. cbn [fst snd]. split; auto. exists (length pre). do 2 eexists. split; [|reflexivity].
        rewrite E. rewrite nth_error_app2 by lia. now rewrite Nat.sub_diag.
      * cbn [sets]. rewrite S1. cbn [bind]. rewrite <- L. rewrite app_length. cbn [length]. reflexivity.
    + destruct (IH (pre ++ [d]) out) as [us [F L]]; [now rewrite <- app_assoc|].
      exists ((d_name d, mkHF (rep_values emb (lens reps) (length pre) d) (label_dtype (d_data d)) [dn] None (default_fmt (label_dtype (d_data d)))) :: us).
      split.
      * constructor; auto. cbn [fst snd]. split; auto. exists (length pre). do 2 eexists. split; [|reflexivity].
        rewrite E. rewrite nth_error_app2 by lia. now rewrite Nat.sub_diag.
      * cbn [sets]. rewrite S1. reflexivity.
Qed.

Theorem C65_remove_rep : forall {A} (lab : A -> label) (emb : label -> A) (b : block A) vs ivs reps newname,
  dd_items (b_var b) = Ok vs -> dd_items (b_ivar b) = Ok ivs ->
  reps = filter a_rep (map snd ivs) -> reps <> [] ->
  (forall p, In p vs -> wf (snd p) /\ has_reps reps (snd p)) ->
  NoDup (map d_name reps ++ map fst vs) -> (forall k, In k (map fst vs) -> ~ In k (map fst ivs)) ->
  plain_names (map d_name reps ++ map fst vs)
    (newname :: map d_name (filter (fun d => negb (a_rep d)) (flat_map (fun p => h_dims (snd p)) vs))) ->
  exists out us ws dn, b_remove_rep lab emb newname b = Ok out /\
    key dn = (CDimRep, newname) /\ length (d_data dn) = fold_right Nat.mul 1 (map (fun d => length (d_data d)) reps) /\
    dd_items (b_var out) = Ok (us ++ ws) /\ dd_items (b_ivar out) = Ok (dims_of (us ++ ws)) /\
    Forall2 (fun r q => fst q = d_name r /\ tells emb reps dn r (snd q)) reps us /\
    Forall2 (fun p q => fst q = fst p /\ made_one reps dn (snd p) (snd q)) vs ws.
Proof.
  intros A lab emb b vs ivs reps newname HV HI HR NE HW NN HN HP.
  set (dn := mkDim CDimRep newname (range_labels (prodn (lens reps))) None None).
  assert (RR : forall d, In d reps -> a_rep d = true) by (intros d; rewrite HR, filter_In; tauto).
  destruct (Forall2_exists (fun p q => fst q = fst p /\ made_one reps dn (snd p) (snd q) /\ remove_rep newname (snd p) = Ok (snd q) /\
      (forall d, In d (h_dims (snd q)) -> d = dn \/ (In d (h_dims (snd p)) /\ a_rep d = false))) vs) as [ws F].
  { intros p Hp. destruct (HW p Hp) as [W [pre [post [N [D|D]]]]].
    - destruct (remove_rep_full (snd p) newname pre reps post W D NE RR N) as [y [Y1 [Y2 [Y3 [Y4 Y5]]]]].
      exists (fst p, y). cbn [fst snd]. split; auto. split; [split; auto; right; exists pre, post; auto|]. split; auto.
      intros d Hd. rewrite Y4 in Hd. apply in_app_or in Hd as [Hd|Hd].
      { right. split; [rewrite D; apply in_or_app; now left|]. apply N, in_or_app; now left. }
      cbn [app] in Hd. destruct Hd as [Hd|Hd]; [left; now symmetry|].
      right. split; [rewrite D; apply in_or_app; right; apply in_or_app; now right|]. apply N, in_or_app; now right.
    - exists (fst p, snd p). cbn [fst snd]. rewrite <- D in N. split; auto. split; [split; auto|]. split; [now apply remove_rep_none|]. auto. }
  destruct (rep_loop_sets lab emb dn reps reps [] b_empty eq_refl) as [us [U1 U2]].
  assert (Fu : map fst us = map d_name reps).
  { clear - U1. induction U1 as [|d u l l' [E _] U IH]; simpl; congruence. }
  assert (Fw : map fst ws = map fst vs).
  { clear - F. induction F as [|p q l l' [E _] F IH]; simpl; congruence. }
  assert (Du : forall k, In k (dim_names us) -> k = newname).
  { clear - U1. intros k. induction U1 as [|d u l l' [_ [i [t [f [_ E]]]]] U IH]; [intros []|]. unfold dim_names in *. simpl. rewrite in_app_iff.
    rewrite E. simpl. intros [[H|[]]|H]; auto. }
  assert (Dw : forall k, In k (dim_names ws) -> In k (newname :: map d_name (filter (fun d => negb (a_rep d)) (flat_map (fun p => h_dims (snd p)) vs)))).
  { clear - F. intros k. induction F as [|p q l l' [_ [_ [_ Q]]] F IH]; [intros []|]. unfold dim_names in *. simpl. rewrite in_app_iff.
    rewrite filter_app, map_app, in_app_iff. intros [H|H].
    - apply in_map_iff in H as [d [<- H]]. destruct (Q d H) as [->|[H1 H2]]; [now left|]. right. left. apply in_map. apply filter_In. now rewrite H2.
    - destruct (IH H); auto. }
  assert (L : forall out, collapse_loop lab emb newname (dd_iter (b_var b)) b out = sets lab ws out).
  { intros out. apply (collapse_loop_sets lab emb newname b vs ivs); auto. rewrite <- (items_iter _ _ HV).
    assert (ND : NoDup (map fst vs)) by (clear - NN; induction (map d_name reps); [exact NN|]; simpl in NN; apply NoDup_cons_iff in NN; tauto).
    assert (G : forall l l', Forall2 (fun p q => fst q = fst p /\ made_one reps dn (snd p) (snd q) /\ remove_rep newname (snd p) = Ok (snd q) /\
      (forall d, In d (h_dims (snd q)) -> d = dn \/ (In d (h_dims (snd p)) /\ a_rep d = false))) l l' ->
       (forall p, In p l -> In p vs) ->
       Forall2 (fun k w => fst w = k /\ ~ In k (map fst ivs) /\ exists x, pd_get k vs = Some x /\ remove_rep newname x = Ok (snd w)) (map fst l) l').
    { clear F Fw Dw. intros l l' F. induction F as [|p q l l' [E [_ [Q _]]] F IH]; intros Hl; cbn [map]; constructor.
      - split; auto. split; [apply HN; apply in_map; apply Hl; now left|]. exists (snd p). split; auto. apply in_get; auto.
        destruct p. apply Hl. now left.
      - apply IH. intros p0 H0. apply Hl. now right. }
    apply G; auto. }
  destruct (sets_ok lab (us ++ ws) dd_empty None) as [out [S1 [S2 [S3 [S4 S5]]]]]; auto using empty_Inv.
  { rewrite map_app, Fu, Fw. exact NN. }
  { cbn [dd_order dd_empty]. rewrite app_nil_r, map_app, Fu, Fw. destruct HP as [P1 P2]. split; auto. intros k Hk H. apply (P1 k Hk).
    unfold dim_names in H. rewrite flat_map_app in H. apply in_app_or in H as [H|H]; [left; symmetry; now apply Du|now apply Dw]. }
  exists out, us, ws, dn. unfold b_remove_rep. rewrite HI. cbn [bind].
  assert (ER : rep_dims ivs = reps) by (rewrite HR; reflexivity). rewrite ER. fold (lens reps). fold dn.
  cbn [length] in U2. rewrite U2.
  split.
  { transitivity (sets lab (us ++ ws) b_empty); [|exact S1]. rewrite sets_app. destruct (sets lab us b_empty); cbn [bind]; auto. }
  split; [reflexivity|]. split; [unfold dn; cbn [d_data]; rewrite range_labels_length; reflexivity|].
  split; [rewrite items_abs by auto; now rewrite S4|].
  split; [rewrite items_abs by auto; rewrite S5, ivars_of_abs by apply empty_Inv; reflexivity|].
  split.
  - eapply Forall2_impl'; [|exact U1]. intros d u _ [E [i [t [f [R Q]]]]]. split; auto. rewrite Q. now apply rep_values_ok.
  - eapply Forall2_impl'; [|exact F]. intros p q _ Q. split; apply Q.
Qed.
Print Assumptions C65_remove_rep.

(** ** An example *)
Ltac ex_nodup := cbn; repeat (apply NoDup_cons; [intros K; vm_compute in K; intuition congruence|]); apply NoDup_nil.
Ltac ex_wf := split; [vm_compute; reflexivity|split; [vm_compute; reflexivity|ex_nodup]].
Definition fr : dim := mkDim CDimSweep "f" (map LZ [1; 2]%Z) (Some "Hz") None.
Definition one : dim := mkDim CDimSweep "one" [LZ 7] None None.
Definition r1 : dim := mkDim CDimRep "r1" (map LZ [10; 20]%Z) None None.
Definition r2 : dim := mkDim CDimRep "r2" (map LZ [1; 2; 3]%Z) None None.
Definition nums (k : Z) (ds : list dim) : hf label :=
  let sh := map (fun d => length (d_data d)) ds in
  mkHF (mkNd sh (map (fun i => LZ (k + Z.of_nat i)) (seq 0 (prodn sh)))) DInt ds None "%d".
Definition vars : list (string * hf label) := [("S", nums 100 [fr; r1; r2]); ("T", nums 200 [one; fr]); ("U", nums 300 [r1; r2])].
Definition blk : result (block label) := sets (fun x => x) vars b_empty.
Definition view (r : result (block label)) : result (list (string * list label * list dim) * list (string * dim)) :=
  do o <- r; do vs <- dd_items (b_var o); do ivs <- dd_items (b_ivar o);
  Ok (map (fun p => (fst p, nd_elems (h_nd (snd p)), h_dims (snd p))) vs, ivs).
Definition all6 : dim := mkDim CDimRep "AllReps" (range_labels 6) None None.

Example C65_example :
  view (do b <- blk; keep_variables (fun x => x) (fun x => x) ["U"; "X"; "T"] b) =
    Ok ([("U", map LZ [300; 301; 302; 303; 304; 305]%Z, [r1; r2]); ("T", map LZ [200; 201]%Z, [one; fr])],
        [("r1", r1); ("r2", r2); ("one", one); ("f", fr)]) /\
  view (do b <- blk; b_squeeze (fun x => x) (fun x => x) b) =
    Ok ([("S", nd_elems (h_nd (nums 100 [fr; r1; r2])), [fr; r1; r2]); ("T", map LZ [200; 201]%Z, [fr]);
         ("U", map LZ [300; 301; 302; 303; 304; 305]%Z, [r1; r2])],
        [("f", fr); ("r1", r1); ("r2", r2); ("one", one)]) /\
  view (do b <- blk; b_remove_rep (fun x => x) (fun x => x) "AllReps" b) =
    Ok ([("r1", map LZ [10; 10; 10; 20; 20; 20]%Z, [all6]); ("r2", map LZ [1; 2; 3; 1; 2; 3]%Z, [all6]);
         ("S", nd_elems (h_nd (nums 100 [fr; r1; r2])), [fr; all6]); ("T", map LZ [200; 201]%Z, [one; fr]);
         ("U", map LZ [300; 301; 302; 303; 304; 305]%Z, [all6])],
        [("AllReps", all6); ("f", fr); ("one", one)]).
Proof. repeat split; vm_compute; reflexivity. Qed.

Lemma ex_plain : forall names dn, forallb (fun k => match is_matrix_name k with None => true | _ => false end) names = true ->
  forallb (fun k => negb (existsb (String.eqb k) dn)) names = true -> plain_names names dn.
Proof.
  intros names dn H1 H2. rewrite forallb_forall in H1, H2. split.
  - intros k Hk H. specialize (H2 k Hk). apply negb_true_iff in H2. assert (K : existsb (String.eqb k) dn = true); [|congruence].
    apply existsb_exists. exists k. split; auto. apply String.eqb_refl.
  - intros k m e Hk E. specialize (H1 k Hk). rewrite E in H1. discriminate.
Qed.
Example C65_example_hyps : exists b, blk = Ok b /\
  dd_items (b_var b) = Ok vars /\ dd_items (b_ivar b) = Ok [("f", fr); ("r1", r1); ("r2", r2); ("one", one)] /\
  NoDup (map fst vars) /\ (forall p, In p vars -> wf (snd p) /\ has_reps [r1; r2] (snd p)) /\
  filter a_rep (map snd [("f", fr); ("r1", r1); ("r2", r2); ("one", one)]) = [r1; r2] /\
  plain_names (map fst vars) (map fst [("f", fr); ("r1", r1); ("r2", r2); ("one", one)]) /\
  plain_names (map d_name [r1; r2] ++ map fst vars) ("AllReps" :: map d_name (filter (fun d => negb (a_rep d)) (flat_map (fun p => h_dims (snd p)) vars))).
Proof.
  eexists. split; [vm_compute; reflexivity|]. split; [vm_compute; reflexivity|]. split; [vm_compute; reflexivity|].
  split; [ex_nodup|]. split.
  { intros p [<-|[<-|[<-|[]]]]; (split; [ex_wf|]).
    - exists [fr], []. split; [intros d [<-|[]]; reflexivity|]. now left.
    - exists [one; fr], []. split; [intros d [<-|[<-|[]]]; reflexivity|]. now right.
    - exists [], []. split; [intros d []|]. now left. }
  split; [reflexivity|]. split; apply ex_plain; vm_compute; reflexivity.
Qed.

(** A dimension among the names: it becomes a variable and stays a dimension. *)
Theorem C65_keep_dim_refuted : exists b out, blk = Ok b /\ keep_variables (fun x => x) (fun x => x) ["f"; "T"] b = Ok out /\
  dd_contains "f" (b_var out) = true /\ dd_contains "f" (b_ivar out) = true.
Proof. do 2 eexists. split; [vm_compute; reflexivity|]. split; [vm_compute; reflexivity|]. split; reflexivity. Qed.
Print Assumptions C65_keep_dim_refuted.

(** A variable with only one of the repetitions: its collapsed dimension has
    the same name as that of the block and another length. *)
Theorem C65_some_reps_refuted : exists (b out : block label) x d,
  sets (fun x => x) [("S", nums 100 [fr; r1; r2]); ("V", nums 300 [r2])] b_empty = Ok b /\
  b_remove_rep (fun x => x) (fun x => x) "AllReps" b = Ok out /\
  dd_get "V" (b_var out) = Ok x /\ dd_get "AllReps" (b_ivar out) = Ok d /\
  map d_name (h_dims x) = ["AllReps"] /\ map (fun d => length (d_data d)) (h_dims x) = [3] /\ length (d_data d) = 6.
Proof.
  do 4 eexists. split; [vm_compute; reflexivity|]. split; [vm_compute; reflexivity|]. split; [vm_compute; reflexivity|].
  split; [vm_compute; reflexivity|]. repeat split.
Qed.
Print Assumptions C65_some_reps_refuted.
