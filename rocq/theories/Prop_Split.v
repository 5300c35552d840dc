(** Property C22: splitting a block by dimensions. *)
From Coq Require Import String List Arith ZArith Bool Lia.
From Verif Require Import Model_NdArray Proofs_NdArray Model_Dim Proofs_Dim Model_Array Model_DataDict Spec_DataDict Proofs_DataDict Model_Block
  Spec_Block Proofs_Block Proofs_Block3 Model_Split Spec_Split Proofs_Split Prop_Array Prop_Block.
Import ListNotations.
Local Open Scope nat_scope.
Local Open Scope string_scope.
Local Open Scope list_scope.

(** ** Every variable is handed out, and each block holds exactly the variables
    that go with its dimensions, in their order and unchanged

    [vs] are the variables of the block, none named like a dimension or like an
    element of another one and none with the same dimension twice. *)
Theorem C22_blocks : forall {A} (lab : A -> label) pick (b : block A) vs, picks_longest pick ->
  dd_items (b_var b) = Ok vs -> NoDup (map fst vs) -> plain_names (map fst vs) (dim_names vs) ->
  (forall k x, In (k, x) vs -> NoDup (h_dims x)) ->
  exists ys, yield_blocks lab pick b = Ok ys /\ NoDup (map fst ys) /\
    (forall k x, In (k, x) vs -> exists L c cs, In (L, c) ys /\ dd_items (b_var c) = Ok cs /\ In (k, x) cs) /\
    (forall L c, In (L, c) ys -> (exists k x, In (k, x) vs /\ h_dims x = L) /\
      exists keep, dd_items (b_var c) = Ok (filter keep vs) /\
        forall k x, keep (k, x) = true <-> goes_with L x).
Proof.
  intros A lab pick b vs PK Hv ND P HD. unfold yield_blocks. rewrite Hv. cbn [bind].
  set (s := fold_left _ vs []).
  assert (Hs : forall y, In y s <-> exists p, In p vs /\ h_dims (snd p) = y).
  { intros y. unfold s. rewrite dset_all_In. simpl. tauto. }
  destruct (yield_chosen lab pick (length s) b vs s PK Hv ND P) as [ys [Y1 [Y2 Y3]]].
  { intros L HL. apply Hs in HL as [[k x] [H1 H2]]. subst L. now apply (HD k). }
  exists ys. split; [exact Y1|]. split; [rewrite Y2; now apply chosen_NoDup|]. rewrite Forall_forall in Y3. split.
  - intros k x H. assert (HI : In (h_dims x) s) by (apply Hs; now exists (k, x)).
    assert (G : exists L, In L (chosen pick (length s) s) /\ goes_with L x).
    { destruct (chosen_all pick PK (length s) s (h_dims x) (le_n _) HI) as [C|[M [C1 [C2 C3]]]].
      - exists (h_dims x). split; auto. left. intros d. tauto.
      - exists M. split; auto. right. rewrite C3. intros d. tauto. }
    destruct G as [L [G1 G2]]. rewrite <- Y2 in G1. apply in_map_iff in G1 as [[L' c] [G0 G1]]. cbn in G0. subst L'.
    exists L, c, (filter (keeps L) vs). split; auto. split; [exact (Y3 _ G1)|]. apply filter_In. split; auto. now apply keeps_spec.
  - intros L c H. split.
    + assert (G : In L (map fst ys)) by (apply in_map_iff; exists (L, c); auto). rewrite Y2 in G. apply (chosen_In pick PK) in G.
      apply Hs in G as [[k x] [G1 G2]]. eauto.
    + exists (keeps L). split; [exact (Y3 _ H)|]. intros k x. apply keeps_spec.
Qed.
Print Assumptions C22_blocks.

(** ** The split is a partition when dimensions are used consistently *)
Theorem C22_partition : forall {A} (lab : A -> label) pick (b : block A) vs ys, picks_longest pick ->
  dd_items (b_var b) = Ok vs -> NoDup (map fst vs) -> plain_names (map fst vs) (dim_names vs) ->
  (forall k x, In (k, x) vs -> NoDup (h_dims x)) -> consistent vs ->
  yield_blocks lab pick b = Ok ys ->
  forall k x, In (k, x) vs -> exists L c cs, In (L, c) ys /\ dd_items (b_var c) = Ok cs /\ In (k, x) cs /\
    forall L' c' cs' x', In (L', c') ys -> dd_items (b_var c') = Ok cs' -> In (k, x') cs' -> L' = L /\ c' = c /\ x' = x.
Proof.
  intros A lab pick b vs ys PK Hv ND P HD CO HY k x Hkx.
  unfold yield_blocks in HY. rewrite Hv in HY. cbn [bind] in HY. revert HY.
  set (s := fold_left _ vs []). intros HY.
  assert (Hs : forall y, In y s <-> exists p, In p vs /\ h_dims (snd p) = y).
  { intros y. unfold s. rewrite dset_all_In. simpl. tauto. }
  destruct (yield_chosen lab pick (length s) b vs s PK Hv ND P) as [ys' [Y1 [Y2 Y3]]].
  { intros L HL. apply Hs in HL as [[k0 x0] [H1 H2]]. subst L. now apply (HD k0). }
  assert (ys' = ys) as -> by congruence. rewrite Forall_forall in Y3.
  assert (HI : In (h_dims x) s) by (apply Hs; now exists (k, x)).
  assert (Uniq : forall L M, In L (chosen pick (length s) s) -> In M (chosen pick (length s) s) -> goes_with L x -> goes_with M x -> L = M).
  { intros L M HL HM GL GM.
    pose proof (chosen_In pick PK _ _ _ HL) as IL. pose proof (chosen_In pick PK _ _ _ HM) as IM.
    apply Hs in IL as [[kl xl] [IL EL]]. apply Hs in IM as [[km xm] [IM EM]]. cbn in EL, EM.
    assert (Long : forall q z, In (q, z) vs -> h_dims x = tl (h_dims z) -> 1 < length (h_dims z)).
    { intros q z Hq E. pose proof (co_scalar vs CO k x Hkx) as N. destruct (h_dims z) as [|d1 [|d2 r]]; simpl in *; try congruence. lia. }
    destruct GL as [GL|GL], GM as [GM|GM]; subst L M.
    - apply (co_order vs CO k x kl xl Hkx IL) in GL. apply (co_order vs CO k x km xm Hkx IM) in GM. congruence.
    - apply (co_order vs CO k x kl xl Hkx IL) in GL. apply (co_order vs CO k x km xm Hkx IM) in GM. exfalso.
      apply (chosen_tail pick PK (length s) s (h_dims xm)); auto; [now apply (Long km)|]. now rewrite <- GM, GL.
    - apply (co_order vs CO k x kl xl Hkx IL) in GL. apply (co_order vs CO k x km xm Hkx IM) in GM. exfalso.
      apply (chosen_tail pick PK (length s) s (h_dims xl)); auto; [now apply (Long kl)|]. now rewrite <- GL, GM.
    - apply (co_order vs CO k x kl xl Hkx IL) in GL. apply (co_order vs CO k x km xm Hkx IM) in GM.
      apply (co_first vs CO k x kl xl km xm); auto. }
  assert (G : exists L, In L (chosen pick (length s) s) /\ goes_with L x).
  { destruct (chosen_all pick PK (length s) s (h_dims x) (le_n _) HI) as [C|[M [C1 [C2 C3]]]].
    - exists (h_dims x). split; auto. left. intros d. tauto.
    - exists M. split; auto. right. rewrite C3. intros d. tauto. }
  destruct G as [L [G1 G2]]. assert (G3 := G1). rewrite <- Y2 in G3. apply in_map_iff in G3 as [[L' c] [G0 G3]]. cbn in G0. subst L'.
  exists L, c, (filter (keeps L) vs). split; auto. split; [exact (Y3 _ G3)|].
  split; [apply filter_In; split; auto; now apply keeps_spec|].
  intros L' c' cs' x' H1 H2 H3. pose proof (Y3 _ H1) as H4. cbn in H4. rewrite H4 in H2. injection H2 as <-.
  apply filter_In in H3 as [H3 H5]. apply keeps_spec in H5. cbn in H5.
  assert (Ex : x' = x).
  { now apply (key_unique vs k x' x). }
  subst x'.
  assert (EL : L' = L). { apply Uniq; auto. rewrite <- Y2. apply in_map_iff. now exists (L', c'). }
  subst L'. split; auto. split; auto.
  assert (NDy : NoDup (map fst ys)) by (rewrite Y2; now apply chosen_NoDup).
  now apply (key_unique ys L c' c).
Qed.
Print Assumptions C22_partition.

(** ** A dimension list that names a dimension twice is refused *)
Theorem C22_repeated : forall {A} (lab : A -> label) L (b : block A), ~ NoDup L -> subset_by_dims lab L b = Err ValueError.
Proof.
  intros A lab L b H. unfold subset_by_dims. destruct (Nat.eqb_spec (length L) (length (uniq_dims L))) as [E|E]; auto.
  exfalso. apply H. now apply uniq_dims_NoDup.
Qed.
Print Assumptions C22_repeated.

Lemma pick_last_ok : picks_longest pick_last.
Proof.
  split; auto. intros s Hs. unfold pick_last.
  assert (G : forall s (o : option (list dim)), (s <> [] \/ o <> None) -> exists L,
    fold_left (fun o x => match o with None => Some x | Some y => if Nat.leb (length y) (length x) then Some x else o end) s o = Some L /\
    (In L s \/ o = Some L) /\ (forall M, In M s -> length M <= length L) /\ (forall M, o = Some M -> length M <= length L)).
  { clear. induction s as [|x s IH]; intros o H.
    - destruct H as [H|H]; [congruence|]. destruct o as [L|]; [|congruence]. exists L. cbn. repeat split; auto; [intros M []|].
      intros M E. injection E as ->. auto.
    - cbn [fold_left].
      destruct (IH (match o with None => Some x | Some y => if Nat.leb (length y) (length x) then Some x else o end)) as [L [L1 [L2 [L3 L4]]]].
      + right. destruct o as [y|]; [destruct (Nat.leb (length y) (length x))|]; discriminate.
      + exists L. split; auto. destruct o as [y|].
        * destruct (Nat.leb_spec (length y) (length x)).
          -- split; [destruct L2 as [L2|L2]; [left; now right|injection L2 as ->; left; now left]|].
             pose proof (L4 x eq_refl). split; [intros M [->|HM]; auto|intros M E; injection E as ->; lia].
          -- split; [destruct L2 as [L2|L2]; [left; now right|injection L2 as ->; now right]|].
             pose proof (L4 y eq_refl). split; [intros M [->|HM]; auto; lia|intros M E; injection E as ->; auto].
        * split; [destruct L2 as [L2|L2]; [left; now right|injection L2 as ->; left; now left]|].
          pose proof (L4 x eq_refl). split; [intros M [->|HM]; auto|discriminate]. }
  destruct (G s None (or_introl Hs)) as [L [L1 [L2 [L3 _]]]]. exists L. split; auto. split; auto. destruct L2; [auto|discriminate].
Qed.

(** A block with a table over freq and rep, columns over rep, and another one
    over V: two blocks. *)
Definition split_names (b : block Z) : list (list string * list string) :=
  match yield_blocks labZ pick_last b with
  | Ok ys => map (fun y => (map d_name (fst y), match dd_items (b_var (snd y)) with Ok l => map fst l | Err _ => [] end)) ys
  | Err _ => []
  end.
Definition exs := brun labZ [BSet "A" (arr [dF; dR]); BSet "B" (arr [dV]); BSet "C" (arr [dR]); BSet "D" (arr [dF; dR])].
Example C22_ex : exists vs, dd_items (b_var exs) = Ok vs /\ NoDup (map fst vs) /\ plain_names (map fst vs) (dim_names vs) /\
  (forall k x, In (k, x) vs -> NoDup (h_dims x)) /\ consistent vs /\ picks_longest pick_last /\
  split_names exs = [(["freq"; "rep"], ["A"; "C"; "D"]); (["V"], ["B"])].
Proof.
  exists [("A", arr [dF; dR]); ("B", arr [dV]); ("C", arr [dR]); ("D", arr [dF; dR])].
  split; [vm_compute; reflexivity|]. split; [repeat constructor; simpl; intuition discriminate|].
  split. { split; [intros k Hk G; simpl in *; intuition congruence|].
    intros k m e Hk E. simpl in Hk. intuition subst; discriminate. }
  split. { intros k x H. simpl in H.
    intuition; match goal with H : (_, _) = (_, _) |- _ => injection H as <- <- end; repeat constructor; simpl; intuition discriminate. }
  split; [|split; [exact pick_last_ok|vm_compute; reflexivity]].
  assert (Q1 : dF <> dR) by discriminate. assert (Q2 : dF <> dV) by discriminate. assert (Q3 : dR <> dV) by discriminate.
  assert (E : forall k x, In (k, x) [("A", arr [dF; dR]); ("B", arr [dV]); ("C", arr [dR]); ("D", arr [dF; dR])] ->
     h_dims x = [dF; dR] \/ h_dims x = [dV] \/ h_dims x = [dR]).
  { intros k x H. simpl in H. intuition; match goal with H : (_, _) = (_, _) |- _ => injection H as <- <- end; auto. }
  constructor.
  - intros k x k' y H H'. apply E in H as [H|[H|H]], H' as [H'|[H'|H']]; rewrite H, H'; cbn [tl]; split; intros G; auto; exfalso;
      try (pose proof (proj1 (G dF) (or_introl eq_refl)) as F; simpl in F; intuition congruence);
      try (pose proof (proj1 (G dV) (or_introl eq_refl)) as F; simpl in F; intuition congruence);
      try (pose proof (proj1 (G dR) (or_introl eq_refl)) as F; simpl in F; intuition congruence);
      try (pose proof (proj2 (G dF) (or_introl eq_refl)) as F; simpl in F; intuition congruence).
  - intros k x k' y k'' z Hx Hy Hz. apply E in Hx as [Hx|[Hx|Hx]], Hy as [Hy|[Hy|Hy]], Hz as [Hz|[Hz|Hz]]; rewrite Hx, Hy, Hz; simpl; congruence.
  - intros k x H. apply E in H as [H|[H|H]]; rewrite H; discriminate.
Qed.

(** ** What a split is not in general

    Two tables that share the second dimension both take the column over it
    along; a table stored with its dimensions in the other order is handed out
    twice; and a scalar goes with every block of one dimension and comes once
    more on its own. *)
Theorem C22_shared_refuted : exists b : block Z, split_names b = [(["V"; "rep"], ["B"; "C"]); (["freq"; "rep"], ["A"; "C"])].
Proof. exists (brun labZ [BSet "A" (arr [dF; dR]); BSet "B" (arr [dV; dR]); BSet "C" (arr [dR])]). vm_compute. reflexivity. Qed.
Theorem C22_order_refuted : exists b : block Z, split_names b = [(["rep"; "freq"], ["A"; "B"]); (["freq"; "rep"], ["A"; "B"])].
Proof. exists (brun labZ [BSet "A" (arr [dF; dR]); BSet "B" (arr [dR; dF])]). vm_compute. reflexivity. Qed.
Theorem C22_scalar_refuted : exists b : block Z, split_names b = [(["V"], ["B"; "C"]); (["rep"], ["A"; "C"]); ([], ["C"])].
Proof. exists (brun labZ [BSet "A" (arr [dR]); BSet "B" (arr [dV]); BSet "C" (arr [])]). vm_compute. reflexivity. Qed.
Print Assumptions C22_scalar_refuted.
