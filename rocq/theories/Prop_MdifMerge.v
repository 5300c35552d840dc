(** C62: stacking the blocks of an MDIF file. *)
From Coq Require Import String List Arith ZArith Bool Lia.
From Verif Require Import Model_NdArray Model_Dim Model_Array Model_DataDict Model_Block Model_MdifMerge Spec_Array Spec_Block Spec_MdifMerge Proofs_DataDict Proofs_Block Proofs_Block3 Proofs_MdifMerge.
Import ListNotations.
Local Open Scope string_scope.
Local Open Scope nat_scope.
Local Open Scope list_scope.

Section Merge.
Context {A : Type}.
Variable lab : A -> label.
Variable emb : label -> A.
Variable common : list dtype -> dtype.
Variable cast : dtype -> A -> A.
Notation merge := (simple_merge_blocks lab emb common cast).

(** Two or more blocks that can be stacked give one block: each variable has the values of all blocks along
    a new dimension INDEX, each partial dimension becomes a list of its labels in the blocks, and there are
    no other variables and no dimensions but those of the variables. *)
Theorem C62_stack : forall b0 b1 bs vs ivs, stackable b0 (b1 :: bs) vs ivs ->
  exists out ri ys zs, merge (b0 :: b1 :: bs) = Ok out /\ numbers ri (length (b0 :: b1 :: bs)) /\ dd_items (b_var out) = Ok (ys ++ zs) /\
    Forall2 (fun p q => fst q = fst p /\ exists xs, Forall2 (fun b x => has_var b (fst p) x) (b0 :: b1 :: bs) xs /\ hd_error xs = Some (snd p) /\ stacked cast ri xs (snd q)) vs ys /\
    Forall2 (fun k q => fst q = k /\ exists ls, Forall2 (fun b l => has_label b k l) (b0 :: b1 :: bs) ls /\ listed emb ri ls (snd q))
      (map fst (filter (fun p => subclass (d_class (snd p)) CDimPartial) ivs)) zs /\
    (forall n e, dd_get n (b_ivar out) = Ok e -> d_name e = n /\ exists q, In q (ys ++ zs) /\ In e (h_dims (snd q))) /\
    (forall q d, In q (ys ++ zs) -> In d (h_dims (snd q)) -> exists e, dd_get (d_name d) (b_ivar out) = Ok e).
Proof.
  intros b0 b1 bs vs ivs (E1 & E2 & ND & HV & HP & HX & HE). set (ri := index_dim (length (b0 :: b1 :: bs))). assert (HR : numbers ri (length (b0 :: b1 :: bs))) by apply index_numbers.
  destruct (items_parts _ _ E1) as [K1 G1]. destruct (items_parts _ _ E2) as [K2 G2].
  set (ps := map fst (filter (fun p => subclass (d_class (snd p)) CDimPartial) ivs)) in *. set (names := map fst vs ++ ps) in *.
  assert (O0 : Out (A := A) [] b_empty) by (split; [apply empty_BInv|]; split; [reflexivity|]; intros n e H; discriminate).
  destruct (stack_loop_ok lab emb common cast b0 (b1 :: bs) ri HR vs [] b_empty names O0) as (o1 & ys & S1 & S2 & S3 & S4); auto.
  { cbn [map app]. unfold names in ND. clear - ND. induction (map fst vs) as [|k l IH]; [constructor|]. cbn [app] in ND. apply NoDup_cons_iff in ND as [N1 N2]. constructor; [intros I; apply N1; apply in_or_app; now left|auto]. }
  { cbn [map app]. intros k I. apply in_or_app. now left. }
  cbn [app] in S2, S4.
  assert (NY : map fst ys = map fst vs) by (clear - S3; induction S3 as [|p q l l' [H _] _ IH]; cbn [map]; congruence).
  destruct (partial_loop_ok lab emb b0 (b1 :: bs) ri HR ivs ys o1 names S2) as (o2 & zs & P1 & P2 & P3); auto.
  { rewrite NY. exact ND. }
  { rewrite NY. apply incl_refl. }
  exists o2, ri, ys, zs. split; [|split; [exact HR|]].
  - unfold simple_merge_blocks. fold ri. rewrite <- K1, <- K2. rewrite S1. cbn [bind]. exact P1.
  - destruct P2 as (HB & EA & HF). destruct HB as (H1 & H2 & H3). split; [now rewrite items_abs, EA|]. split; [exact S3|]. split; [exact P3|]. split.
    + intros n e G. apply HF. unfold dd_get in G. destruct (pd_get n (dd_map (b_ivar o2))); [cbn in G; congruence|discriminate].
    + intros [k y] d I Id. assert (G : pd_get k (dd_map (b_var o2)) = Some y).
      { rewrite <- abs_get by exact H1. rewrite EA. assert (N : NoDup (keys (ys ++ zs))) by (rewrite <- EA; now apply abs_NoDup). clear - I N. induction (ys ++ zs) as [|[k' y'] l IH]; [destruct I|]. cbn [pd_get]. unfold keys in N. cbn [map fst] in N. apply NoDup_cons_iff in N as [N1 N2]. destruct I as [[= -> ->]|I]; [now rewrite String.eqb_refl|]. destruct (String.eqb_spec k k') as [->|]; [|auto]. exfalso. apply N1. apply in_map_iff. exists (k', y). auto. }
      specialize (H3 _ _ _ G Id). apply contains_get in H3 as [w Hw]. exists w. unfold dd_get. now rewrite Hw.
Qed.

(** ** Blocks that cannot be stacked *)
Lemma stack_loop_inv : forall ri bs ks out out' k, stack_loop lab emb common cast ri bs ks out = Ok out' -> In k ks ->
  exists xs x0, mapM (b_item emb k) bs = Ok xs /\ hd_error xs = Some x0 /\ forall x, In x xs -> h_shape x = h_shape x0.
Proof.
  intros ri bs. induction ks as [|k0 ks IH]; intros out out' k H I; [destruct I|]. cbn [stack_loop] in H. destruct (mapM (b_item emb k0) bs) as [xs|] eqn:M; [|discriminate]. cbn [bind] in H.
  destruct (hd_error xs) as [x0|] eqn:HD; [|discriminate]. cbn [of_option bind] in H. destruct (np_stack common cast xs) as [[a t]|] eqn:NS; [|discriminate]. cbn [bind] in H. destruct (new_raw _ _ _ _ _) as [y|]; [|discriminate]. cbn [bind] in H. destruct (b_set lab k0 y out) as [o1|]; [|discriminate]. cbn [bind] in H.
  destruct (match h_dims x0 with [] => _ | _ => _ end) as [o2|]; [|discriminate]. cbn [bind] in H. destruct I as [->|I]; [|now apply (IH _ _ _ H)].
  exists xs, x0. split; [exact M|]. split; [exact HD|]. destruct xs as [|x0' xs]; [discriminate|]. cbn in HD. injection HD as ->. unfold np_stack in NS. destruct (forallb _ _) eqn:F in NS; [|discriminate]. rewrite forallb_forall in F. intros x Ix. apply shapes_eqb. now apply F.
Qed.
Lemma merge_inv : forall b0 bs out k, bs <> [] -> merge (b0 :: bs) = Ok out -> In k (dd_iter (b_var b0)) ->
  exists xs x0, mapM (b_item emb k) (b0 :: bs) = Ok xs /\ hd_error xs = Some x0 /\ forall x, In x xs -> h_shape x = h_shape x0.
Proof.
  intros b0 [|b1 bs] out k N H I; [congruence|]. unfold simple_merge_blocks in H. destruct (stack_loop _ _ _ _ _ _ _ _) as [o|] eqn:S in H; [|discriminate]. eapply stack_loop_inv; eauto.
Qed.
Lemma mapM_each : forall {X Y} (f : X -> result Y) l ys x, mapM f l = Ok ys -> In x l -> exists y, f x = Ok y /\ In y ys.
Proof.
  intros X Y f l. induction l as [|a l IH]; intros ys x M I; [destruct I|]. cbn [mapM] in M. destruct (f a) as [y|] eqn:F; [|discriminate]. cbn [bind] in M. destruct (mapM f l) as [l1|] eqn:E; [|discriminate]. injection M as <-. destruct I as [->|I]; [exists y; split; [auto|now left]|]. destruct (IH _ _ eq_refl I) as (z & Z1 & Z2). exists z. split; [auto|now right].
Qed.
(** A variable of the first block that another block does not have. *)
Theorem C62_missing : forall b0 bs out k b e, In k (dd_iter (b_var b0)) -> In b bs -> b_get k b = Err e -> merge (b0 :: bs) <> Ok out.
Proof.
  intros b0 bs out k b e I Ib E H. destruct (merge_inv b0 bs out k) as (xs & x0 & M & _); auto; [intros ->; destruct Ib|]. destruct (mapM_each _ _ _ b M (or_intror Ib)) as (y & Y & _). unfold b_item in Y. rewrite E in Y. discriminate.
Qed.
(** A variable of another shape. *)
Theorem C62_shapes : forall b0 bs out k b x y, has_var b0 k x -> In k (dd_iter (b_var b0)) -> In b bs -> has_var b k y -> h_shape x <> h_shape y -> merge (b0 :: bs) <> Ok out.
Proof.
  intros b0 bs out k b x y [X1 X2] I Ib [Y1 Y2] N H. destruct (merge_inv b0 bs out k) as (xs & x0 & M & _ & S); auto; [intros ->; destruct Ib|].
  assert (K : forall b x, dd_get k (b_ivar b) = Err KeyError -> dd_get k (b_var b) = Ok x -> b_item emb k b = Ok x).
  { intros b' x' H1 H2. unfold b_item, b_get. unfold dd_get in H1, H2. destruct (pd_get k (dd_map (b_ivar b'))); [discriminate|]. destruct (pd_get k (dd_map (b_var b'))); [|discriminate]. cbn in H2 |- *. congruence. }
  destruct (mapM_each _ _ _ b M (or_intror Ib)) as (y' & Y3 & Y4). rewrite (K b y Y1 Y2) in Y3. injection Y3 as <-. destruct (mapM_each _ _ _ b0 M (or_introl eq_refl)) as (x' & X3 & X4). rewrite (K b0 x X1 X2) in X3. injection X3 as <-. apply N. now rewrite (S x X4), (S y Y4).
Qed.

(** ** Blocks by name *)
Definition named (n : string) (l : list (string * block A)) : list (block A) := map snd (filter (fun p => String.eqb (fst p) n) l).
Lemma group_add_ok : forall n b gs l, NoDup (map fst gs) -> (forall m g, In (m, g) gs -> g = named m l) -> (forall m, In m (map fst gs) <-> In m (map fst l)) ->
  NoDup (map fst (group_add n b gs)) /\ (forall m g, In (m, g) (group_add n b gs) -> g = named m (l ++ [(n, b)])) /\ (forall m, In m (map fst (group_add n b gs)) <-> In m (map fst (l ++ [(n, b)]))).
Proof.
  intros n b gs l ND HG HM.
  assert (NM : forall m, named m (l ++ [(n, b)]) = named m l ++ (if String.eqb n m then [b] else [])) by (intros m; unfold named; rewrite filter_app, map_app; cbn [filter fst]; destruct (String.eqb n m); reflexivity).
  assert (FS : map fst (group_add n b gs) = if in_dec string_dec n (map fst gs) then map fst gs else map fst gs ++ [n]).
  { clear. induction gs as [|[m g] gs IH]; [destruct (in_dec _ _ _) as [[]|]; reflexivity|]. cbn [group_add map fst]. destruct (String.eqb_spec m n) as [->|Q].
    - cbn [map fst]. destruct (in_dec string_dec n (n :: map fst gs)) as [|N]; [reflexivity|]. exfalso. apply N. now left.
    - cbn [map fst]. rewrite IH. destruct (in_dec string_dec n (map fst gs)) as [I|I], (in_dec string_dec n (m :: map fst gs)) as [J|J]; auto; exfalso; [apply J; now right|destruct J; [congruence|contradiction]]. }
  split; [|split].
  - rewrite FS. destruct (in_dec _ _ _); [exact ND|]. apply (NoDup_Add (a := n) (l := map fst gs)); [rewrite <- (app_nil_r (map fst gs)) at 1; apply Add_app|auto].
  - intros m g I. rewrite NM. assert (K : (m = n /\ exists g0, In (m, g0) gs /\ g = g0 ++ [b]) \/ (m = n /\ ~ In n (map fst gs) /\ g = [b]) \/ (m <> n /\ In (m, g) gs)).
    { clear - I ND. induction gs as [|[m0 g0] gs IH]; [destruct I as [[= <- <-]|[]]; right; left; cbn; tauto|]. cbn [map fst] in ND. apply NoDup_cons_iff in ND as [N1 N2]. cbn [group_add] in I. destruct (String.eqb_spec m0 n) as [->|Q].
      - destruct I as [[= <- <-]|I]; [left; split; [auto|]; exists g0; split; [now left|auto]|]. right. right. split; [|now right]. intros ->. apply N1. apply in_map_iff. exists (n, g). auto.
      - destruct I as [[= <- <-]|I]; [right; right; split; [auto|now left]|]. destruct (IH N2 I) as [(-> & g1 & I1 & ->)|[(-> & I1 & ->)|(I1 & I2)]].
        + left. split; [auto|]. exists g1. split; [now right|auto].
        + right. left. split; [auto|]. split; [|auto]. cbn [map fst]. intros [J|J]; [congruence|contradiction].
        + right. right. split; [auto|now right]. }
    destruct K as [(-> & g0 & I1 & ->)|[(-> & I1 & ->)|(I1 & I2)]].
    + rewrite String.eqb_refl. f_equal. now apply HG.
    + rewrite String.eqb_refl. assert (Z : named n l = []) by (unfold named; rewrite HM in I1; clear - I1; induction l as [|[k c] l IH]; [reflexivity|]; cbn [filter fst]; cbn [map fst In] in I1; destruct (String.eqb_spec k n) as [->|]; [exfalso; apply I1; now left|apply IH; tauto]). now rewrite Z.
    + assert (Q : String.eqb n m = false) by (apply String.eqb_neq; congruence). rewrite Q, app_nil_r. now apply HG.
  - intros m. rewrite FS, map_app, in_app_iff. cbn [map fst In]. rewrite <- HM. destruct (in_dec string_dec n (map fst gs)) as [I|I]; [|rewrite in_app_iff; cbn [In]; tauto]. split; [auto|]. intros [|[<-|[]]]; auto.
Qed.
Lemma groups_ok : forall l : list (string * block A), NoDup (map fst (groups l)) /\ (forall m g, In (m, g) (groups l) -> g = named m l) /\ (forall m, In m (map fst (groups l)) <-> In m (map fst l)).
Proof.
  intros l. induction l as [|[n b] l IH] using rev_ind; [cbn; repeat split; auto; try constructor; tauto|]. unfold groups. rewrite fold_left_app. cbn [fold_left fst snd]. fold (groups l). destruct IH as (I1 & I2 & I3). now apply group_add_ok.
Qed.
(** The merged file has one block for each block name, made of the blocks of this name in the order of the
    file. *)
Theorem C62_by_name : forall l out, merge_by_name lab emb common cast l = Ok out ->
  NoDup (map fst out) /\ (forall n, In n (map fst out) <-> In n (map fst l)) /\
  forall n b, In (n, b) out -> merge (map snd (filter (fun p => String.eqb (fst p) n) l)) = Ok b.
Proof.
  intros l out H. destruct (groups_ok l) as (G1 & G2 & G3). unfold merge_by_name in H.
  assert (K : map fst out = map fst (groups l) /\ forall n b, In (n, b) out -> exists g, In (n, g) (groups l) /\ merge g = Ok b).
  { clear G1 G2 G3. revert out H. induction (groups l) as [|[n g] gs IH]; intros out H; cbn [mapM] in H; [injection H as <-; split; [reflexivity|intros ? ? []]|]. cbn [fst snd] in H. destruct (merge g) as [b|] eqn:M; [|discriminate]. cbn [bind] in H. destruct (mapM _ gs) as [r|]; [|discriminate]. injection H as <-. destruct (IH _ eq_refl) as [I1 I2].
    split; [cbn [map fst]; now rewrite I1|]. intros n' b' [[= <- <-]|I]; [exists g; split; [now left|auto]|]. destruct (I2 n' b' I) as (g' & Q1 & Q2). exists g'. split; [now right|auto]. }
  destruct K as [K1 K2]. rewrite K1. split; [exact G1|]. split; [exact G3|]. intros n b I. destruct (K2 n b I) as (g & Q1 & Q2). rewrite (G2 n g Q1) in Q2. exact Q2.
Qed.
End Merge.
Print Assumptions C62_stack.
Print Assumptions C62_missing.
Print Assumptions C62_shapes.
Print Assumptions C62_by_name.

(** ** Examples *)
Definition mm_f (l : list label) : dim := mkDim CDimSweep "f" l None None.
Definition mm_p (z : Z) : dim := mkDim CDimPartial "P" [LZ z] None None.
Definition mm_block (z : Z) (v : list Z) (f : list label) (more : list (string * hf Z)) : block Z :=
  mkBlock (mkDD (("x", mkHF (mkNd [2] v) DInt [mm_f f] (Some "V") "%d") :: more) ("x" :: map fst more)) (mkDD [("P", mm_p z); ("f", mm_f f)] ["P"; "f"]) None.
Definition mm_b0 : block Z := mm_block 10 [1; 2]%Z [LZ 5; LZ 6] [].
Definition mm_b1 : block Z := mm_block 20 [3; 4]%Z [LZ 5; LZ 6] [].
Definition mm_b2 : block Z := mm_block 20 [3; 4]%Z [LZ 7; LZ 8] [("y", mkHF (mkNd [] [9]%Z) DInt [] None "%d")].
Definition mm_emb (l : label) : Z := match l with LZ z => z | _ => 0%Z end.
Definition mm_merge := simple_merge_blocks LZ mm_emb (fun _ => DInt) (fun _ z => z).
Example C62_ex_stackable : stackable mm_b0 [mm_b1] [("x", mkHF (mkNd [2] [1; 2]%Z) DInt [mm_f [LZ 5; LZ 6]] (Some "V") "%d")] [("P", mm_p 10); ("f", mm_f [LZ 5; LZ 6])].
Proof.
  split; [reflexivity|]. split; [reflexivity|]. cbv zeta. change (map fst (filter _ _)) with ["P"]. cbn [map fst app]. split; [repeat constructor; cbn; intuition discriminate|]. split; [|split; [|split]].
  - intros k x [[= <- <-]|[]]. split; [split; [reflexivity|]; split; [reflexivity|]; repeat constructor; cbn; tauto|]. split; [intros d [<-|[]]; cbn; split; [discriminate|intuition discriminate]|]. intros b [<-|[<-|[]]]; eexists; (split; [split; reflexivity|split; reflexivity]).
  - intros k [<-|[]] b [<-|[<-|[]]]; [exists (LZ 10)|exists (LZ 20)]; eexists; eexists; split; reflexivity.
  - intros k [<-|[<-|[]]]; discriminate.
  - intros k m e [<-|[<-|[]]]; vm_compute; discriminate.
Qed.
Example C62_ex : (do b <- mm_merge [mm_b0; mm_b1]; do l <- dd_items (b_var b); Ok (map (fun p => (fst p, nd_elems (h_nd (snd p)), map d_name (h_dims (snd p)))) l)) =
  Ok [("x", [1; 3; 2; 4]%Z, ["f"; "INDEX"]); ("P", [10; 20]%Z, ["INDEX"])].
Proof. vm_compute. reflexivity. Qed.

(** Variables of later blocks that the first one does not have are lost. *)
Theorem C62_lost_refuted : exists bs b k x out, In b bs /\ has_var b k x /\ mm_merge bs = Ok out /\ dd_get k (b_var out) = Err KeyError /\ dd_get k (b_ivar out) = Err KeyError.
Proof. exists [mm_b0; mm_b2], mm_b2, "y". eexists. eexists. split; [right; now left|]. split; [split; reflexivity|]. split; [vm_compute; reflexivity|]. split; reflexivity. Qed.
Print Assumptions C62_lost_refuted.
(** The labels of the dimensions of later blocks are not looked at, and units are lost. *)
Theorem C62_labels_refuted : exists bs b k x out y, In b bs /\ has_var b k x /\ mm_merge bs = Ok out /\ dd_get k (b_var out) = Ok y /\
  (exists d, In d (h_dims x) /\ forall e, In e (h_dims y) -> d_data e <> d_data d) /\ h_unit x <> None /\ h_unit y = None.
Proof.
  exists [mm_b0; mm_b2], mm_b2, "x". eexists. eexists. eexists. split; [right; now left|]. split; [split; reflexivity|]. split; [vm_compute; reflexivity|]. split; [reflexivity|]. split; [|split; [discriminate|reflexivity]]. eexists. split; [now left|]. cbn. intros e [<-|[<-|[]]]; discriminate.
Qed.
Print Assumptions C62_labels_refuted.
