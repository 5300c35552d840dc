(** Property C21: a flat sweep turned into several dimensions. *)
From Coq Require Import Ascii String List Arith ZArith Bool Lia Permutation Sorted.
From Verif Require Import Model_NdArray Proofs_NdArray Model_Dim Proofs_Dim Model_Array Spec_Array Proofs_Array Proofs_Array2 Proofs_Array3
  Proofs_Array4 Proofs_Array5 Proofs_Array8 Model_DataDict Spec_DataDict Proofs_DataDict Model_Text Model_Block Spec_Block Proofs_Block Proofs_Block2 Proofs_Block3
  Model_Utils Proofs_Utils Model_Hyper Spec_Hyper Proofs_Hyper Proofs_Hyper2 Prop_Array Prop_Block.
Import ListNotations.
Local Open Scope nat_scope.
Local Open Scope string_scope.
Local Open Scope list_scope.

(** What a call of hyper starts from: the block, its variables, the dimension
    and the columns named.  No variable is named like a dimension or like an
    element of another; a new name is only taken by a variable that is itself
    one of the columns. *)
Record hyper_input {A} (lab : A -> label) (b : block A) (vs : list (string * hf A)) (ivs : list (string * dim)) (rd : dim)
    (names newnames : list string) (cols : list (list label)) : Prop := {
  hi_vars : dd_items (b_var b) = Ok vs;
  hi_ivars : dd_items (b_ivar b) = Ok ivs;
  hi_dim : dd_get (d_name rd) (b_ivar b) = Ok rd;
  hi_nodup : NoDup (map fst vs);
  hi_ok : Forall (fun p => var_ok (d_name rd) rd (snd p)) vs;
  hi_plain : plain_names (map fst vs) (dim_names vs);
  hi_names : names <> [] /\ NoDup newnames;
  hi_new : forall k, In k (map fst vs) -> In k newnames -> In k names;
  hi_free : forall k, In k names -> dd_contains k (b_ivar b) = false;
  hi_cols : Forall2 (fun nm c => exists x, In (nm, x) vs /\ map d_name (h_dims x) = [d_name rd] /\ c = map lab (nd_elems (h_nd x))) names cols }.

(** The dimensions made: named as asked for, with the values of the columns as
    labels, in the order of their first appearance. *)
Definition made_from (news : list dim) (newnames : list string) (cols : list (list label)) : Prop :=
  map d_name news = newnames /\ Forall (fun d => d_class d = CDimSweep) news /\
  Forall2 (fun d c => NoDup (d_data d) /\ (forall u, In u (d_data d) <-> In u c) /\
    forall u v, first_before (d_data d) u v <-> first_before c u v) news cols.

Lemma made_labels : forall news newnames cols, length news = length cols -> map d_name news = newnames -> Forall (fun d => d_class d = CDimSweep) news ->
  map d_data news = map (stable_uniq label_eqb) cols -> made_from news newnames cols.
Proof.
  intros news newnames cols L N C D. split; auto. split; auto. clear - L D. revert cols L D. induction news as [|d news IH]; intros [|c cols] L D; try discriminate; [constructor|].
  cbn in D. injection D as D D'. constructor; [|apply IH; auto]. rewrite D. split; [apply (uniq_nodup label_eqb label_eqb_eq)|].
  split; [apply (uniq_in label_eqb label_eqb_eq)|apply (uniq_order label_eqb label_eqb_eq)].
Qed.

Lemma hyper_gen : forall {A} (lab : A -> label) ltb (b : block A) vs ivs rd names (indexed all : bool) cols Us,
  let newnames := map (fun nm => if indexed then (nm ++ "_index")%string else nm) names in
  sto ltb -> hyper_input lab b vs ivs rd names newnames cols ->
  complete (length (d_data rd)) cols -> Forall2 (values_ascending ltb) cols Us ->
  exists b' vs' news, hyper lab ltb names (d_name rd) indexed all b = Ok b' /\ dd_items (b_var b') = Ok vs' /\
    made_from news newnames cols /\ map d_data news = map (stable_uniq label_eqb) cols /\ (forall d, In d news -> dd_get (d_name d) (b_ivar b') = Ok d) /\
    converted all newnames rd (spread rd news Us cols) vs vs'.
Proof.
  intros A lab ltb b vs ivs rd names indexed all cols Us newnames ST HI CM VA. destruct HI as [EI EV ER NDv FV PL [NE NDn] HN HF HC].
  destruct (hyper_dims_ok lab indexed b vs rd names cols EI FV HF HC) as [news [M [L [NN [CL DA]]]]].
  change (map (hyper_name indexed) names) with newnames in NN.
  assert (NEc : cols <> []). { intros ->. inversion HC. congruence. }
  destruct (order_ok ltb ST cols _ Us NEc CM VA) as [order [HO [PO [HNn OR]]]].
  assert (LN : map (fun d => length (d_data d)) news = map (@length label) Us).
  { rewrite <- (map_map d_data (@length label)), DA, map_map. clear - VA ST. induction VA as [|c U cols Us V VA IH]; cbn; auto. f_equal; auto. now apply (values_length ltb ST). }
  pose proof FV as FV0. rewrite Forall_forall in FV.
  destruct (converted_exists all newnames rd (fun x y => hyper_var news order rd x = Ok y /\ spread rd news Us cols x y) vs) as [vs' C].
  { intros k x I R. destruct (FV _ I) as [W [ND HD]]. cbn [snd] in *. apply in_map_iff in R as [d [E R]]. destruct (HD d R E) as [K Ld].
    apply in_split in R as [ds1 [ds2 R]]. eapply hyper_var_ok; eauto. }
  assert (C1 : converted all newnames rd (fun x y => hyper_var news order rd x = Ok y) vs vs') by (eapply converted_impl; [|exact C]; intros x y []; auto).
  assert (C2 : converted all newnames rd (spread rd news Us cols) vs vs') by (eapply converted_impl; [|exact C]; intros x y []; auto).
  set (iv := fold_left (fun iv d => dd_set (d_name d) d iv) news dd_empty).
  assert (Iiv : Inv iv) by (apply fold_set_Inv, empty_Inv).
  assert (NDn' : NoDup (map d_name news)) by (now rewrite NN).
  assert (KEYS : forall k, In k names -> exists x, In (k, x) vs /\ map d_name (h_dims x) = [d_name rd]).
  { intros k I. clear - HC I. induction HC as [|nm c names cols [x [I1 [I2 _]]] F IH]; [destruct I|]. destruct I as [->|I]; eauto. }
  assert (FU : forall k x y, In (k, x) vs -> In (k, y) vs -> x = y).
  { intros k x y I1 I2. pose proof (items_get _ _ _ _ EI I1). pose proof (items_get _ _ _ _ EI I2). congruence. }
  assert (OUT : forall k, In k (map fst vs') -> In k (map fst vs) /\ ~ In k newnames).
  { intros k I. apply in_map_iff in I as [[k' y] [<- I]]. cbn [fst]. destruct (converted_in _ _ _ _ _ _ _ _ C2 I) as [x [I1 D]].
    split; [change k' with (fst (k', x)); now apply in_map|]. destruct D as [[D _]|[D _]]; auto. intros J.
    apply HN in J; [|change k' with (fst (k', x)); now apply in_map]. destruct (KEYS _ J) as [z [Z1 Z2]]. rewrite (FU _ _ _ I1 Z1), Z2 in D. apply D. now left. }
  assert (DN : forall k, In k (dim_names vs') -> In k (dim_names vs) \/ In k newnames).
  { intros k I. unfold dim_names in I. apply in_flat_map in I as [[k' y] [I J]]. cbn [snd] in J. destruct (converted_in _ _ _ _ _ _ _ _ C2 I) as [x [I1 D]].
    assert (X : forall j, In j (map d_name (h_dims x)) -> In j (dim_names vs)).
    { intros j Hj. unfold dim_names. apply in_flat_map. exists (k', x). auto. }
    destruct D as [[_ ->]|[_ [ds1 [d [ds2 [D1 [_ [D2 _]]]]]]]]; auto. rewrite D2, !map_app in J. rewrite D1, map_app in X.
    apply in_app_or in J as [J|J]; [left; apply X; apply in_or_app; auto|]. apply in_app_or in J as [J|J]; [right; now rewrite <- NN|].
    left. apply X. apply in_or_app. right. now right. }
  destruct PL as [PL1 PL2].
  destruct (hyper_loop_ok lab all rd newnames news order vs vs' C1 FV0 (mkBlock dd_empty iv None) (map fst vs')) as [o [O1 [O2 [O3 [O4 O5]]]]].
  - apply empty_Inv.
  - exact Iiv.
  - reflexivity.
  - eapply converted_nodup; eauto.
  - intros k I J. destruct (OUT k I) as [I1 I2]. apply DN in J as [J|J]; [exact (PL1 k I1 J)|auto].
  - intros k I. cbn [b_ivar]. destruct (OUT k I) as [_ I2]. unfold dd_contains, pd_has, iv. rewrite fold_set_get. cbn [dd_empty dd_map pd_get].
    destruct (find _ (rev news)) eqn:Q; auto. exfalso. apply find_some in Q as [Q1 Q2]. apply String.eqb_eq in Q2. apply I2. rewrite Q2, <- NN. apply in_map. now apply in_rev.
  - intros k I. cbn [b_ivar]. rewrite <- NN in I. apply in_map_iff in I as [d [<- I]]. unfold dd_contains, pd_has, iv. rewrite fold_set_get, find_name; auto.
  - intros k m e I E J. destruct (OUT k I) as [I1 _]. destruct (OUT m J) as [J1 _]. exact (PL2 k m e I1 E J1).
  - destruct (hyper_rest_ok (A := A) rd ivs o) as [H1 H2].
    exists (hyper_rest rd ivs o), vs', news. split.
    { unfold hyper. rewrite ER. cbn [bind]. rewrite M. cbn [bind].
      assert (map snd (combine news cols) = cols) as ->.
      { clear - L. revert cols L. induction news; intros [|c cols] L; try discriminate; cbn; f_equal; auto. }
      assert (map fst (combine news cols) = news) as ->.
      { clear - L. revert cols L. induction news; intros [|c cols] L; try discriminate; cbn; f_equal; auto. }
      rewrite HO. cbn [bind]. rewrite EI. cbn [bind]. fold iv. rewrite O1. cbn [bind]. rewrite EV. reflexivity. }
    split; [rewrite H1, items_abs, O4; auto|]. split; [now apply made_labels|]. split; [exact DA|]. split; [|exact C2].
    intros d I. unfold dd_get. rewrite (H2 (d_name d) d); auto. rewrite O5. apply ivars_of_old. cbn [b_ivar]. unfold iv. rewrite fold_set_get, find_name; auto.
Qed.

(** The place numbered (j1, ..., jk) along the new dimensions holds the value
    recorded for the combination of the j1-th smallest value of the first
    column, ..., the jk-th smallest value of the last. *)
Theorem C21_hyper : forall {A} (lab : A -> label) ltb (b : block A) vs ivs rd names (indexed all : bool) cols Us,
  let newnames := map (fun nm => if indexed then (nm ++ "_index")%string else nm) names in
  sto ltb -> hyper_input lab b vs ivs rd names newnames cols ->
  complete (length (d_data rd)) cols -> Forall2 (values_ascending ltb) cols Us ->
  exists b' vs' news, hyper lab ltb names (d_name rd) indexed all b = Ok b' /\ dd_items (b_var b') = Ok vs' /\
    made_from news newnames cols /\ (forall d, In d news -> dd_get (d_name d) (b_ivar b') = Ok d) /\
    converted all newnames rd (spread rd news Us cols) vs vs'.
Proof.
  intros A lab ltb b vs ivs rd names indexed all cols Us newnames ST HI CM VA.
  destruct (hyper_gen lab ltb b vs ivs rd names indexed all cols Us ST HI CM VA) as [b' [vs' [news [H1 [H2 [H3 [_ [H4 H5]]]]]]]].
  exists b', vs', news. auto.
Qed.
Print Assumptions C21_hyper.

(** If the values of each column first appear in ascending order, then the
    labels of the new dimensions are right: the value at the labels
    (l1, ..., lk) is the value recorded for that combination. *)
Theorem C21_labels : forall {A} (lab : A -> label) ltb (b : block A) vs ivs rd names (indexed all : bool) cols,
  let newnames := map (fun nm => if indexed then (nm ++ "_index")%string else nm) names in
  sto ltb -> hyper_input lab b vs ivs rd names newnames cols ->
  complete (length (d_data rd)) cols -> Forall (appears_ascending ltb) cols ->
  exists b' vs' news, hyper lab ltb names (d_name rd) indexed all b = Ok b' /\ dd_items (b_var b') = Ok vs' /\
    made_from news newnames cols /\ (forall d, In d news -> dd_get (d_name d) (b_ivar b') = Ok d) /\
    converted all newnames rd (spread rd news (map d_data news) cols) vs vs'.
Proof.
  intros A lab ltb b vs ivs rd names indexed all cols newnames ST HI CM AA.
  assert (VA : Forall2 (values_ascending ltb) cols (map (stable_uniq label_eqb) cols)).
  { clear - AA. induction AA; cbn; constructor; auto. now apply appears_uniq. }
  destruct (hyper_gen lab ltb b vs ivs rd names indexed all cols _ ST HI CM VA) as [b' [vs' [news [H1 [H2 [H3 [H6 [H4 H5]]]]]]]].
  exists b', vs', news. rewrite H6. auto.
Qed.
Print Assumptions C21_labels.

(** ** A wrong number of points is refused *)
Lemma b_set_names : forall {A} (lab : A -> label) k v (b b' : block A) j, BInv b -> (forall k d, pd_get k (dd_map (b_ivar b)) = Some d -> d_name d = k) ->
  b_set lab k v b = Ok b' ->
  (forall k d, pd_get k (dd_map (b_ivar b')) = Some d -> d_name d = k) /\
  (dd_contains j (b_ivar b') = true -> dd_contains j (b_ivar b) = true \/ In j (map d_name (h_dims v))).
Proof.
  intros A lab k v b b' j HB HK H.
  assert (AK : forall ds iv, (forall k d, pd_get k (dd_map iv) = Some d -> d_name d = k) -> forall k d, pd_get k (dd_map (add_ivars ds iv)) = Some d -> d_name d = k).
  { unfold add_ivars. induction ds as [|d ds IH]; cbn; auto. intros iv Hiv k0 d0. apply IH. intros k1 d1. destruct (dd_contains (d_name d) iv); auto.
    rewrite get_set. destruct (String.eqb_spec k1 (d_name d)); auto. congruence. }
  assert (AN : forall ds iv, dd_contains j (add_ivars ds iv) = true -> dd_contains j iv = true \/ In j (map d_name ds)).
  { intros ds iv C. destruct (dd_contains j iv) eqn:E; auto. right. destruct (in_dec string_dec j (map d_name ds)) as [I|I]; auto.
    apply contains_get in C as [w C]. rewrite add_ivars_none in C; auto; [discriminate|]. now apply contains_false. }
  destruct (b_set_cases lab k v b b' H) as [_ [[m [e [x [y [_ [_ [_ [_ E]]]]]]]]|[[_ [old [new [b1 [P [_ [Dw [R [_ E]]]]]]]]]|[_ [_ [_ E]]]]]]; rewrite E; [split; auto| |split; [apply AK; exact HK|apply AN]].
  destruct (replace_dim_b _ _ _ _ HB R) as [_ [_ [_ [G _]]]]. destruct (dim_with_name _ _ _ _ _ Dw) as [N _]. cbn in N. 
  assert (G1 : forall k d, pd_get k (dd_map (b_ivar b1)) = Some d -> d_name d = k).
  { intros k0 d0. rewrite G. destruct (String.eqb_spec k0 (d_name new)); [congruence|]. destruct (String.eqb k0 (d_name old)); [discriminate|]. apply HK. }
  split; [apply AK; exact G1|]. intros C. apply AN in C as [C|C]; auto. left. apply contains_get in C as [w C]. rewrite G in C.
  destruct (String.eqb_spec j (d_name new)).
  - subst j. apply contains_get. rewrite N. rewrite <- (HK _ _ P) in P. eauto.
  - destruct (String.eqb j (d_name old)); [discriminate|]. apply contains_get. eauto.
Qed.
Lemma hyper_var_names : forall {A} news order rd (x y : hf A), hyper_var news order rd x = Ok y ->
  forall j, In j (map d_name (h_dims y)) -> In j (map d_name (h_dims x)) \/ In j (map d_name news).
Proof.
  intros A news order rd x y H j. unfold hyper_var in H. destruct (dims_index (h_dims x) (d_name rd)) as [i|]; [|discriminate]. cbn [bind] in H.
  destruct (take _ _ x) as [z|] eqn:T; [|discriminate]. cbn [bind] in H. destruct (nd_reshape _ _) as [a|]; [|discriminate]. cbn [bind] in H.
  unfold new_raw in H. cbn [bind] in H. destruct (Nat.eqb _ _); [|discriminate]. injection H as <-. cbn [h_dims].
  assert (N : map d_name (h_dims z) = map d_name (h_dims x)).
  { unfold take in T. destruct (axis_handler _ _) as [d|]; [|discriminate]. cbn [bind] in T. destruct (dims_index _ _) as [k|]; [|discriminate]. cbn [bind] in T.
    destruct (nth_error (h_dims x) k) as [old|] eqn:O; [|discriminate]. cbn [of_option bind] in T. destruct (nth_error (h_shape x) k); [|discriminate]. cbn [of_option bind] in T.
    destruct (mapM _ _) as [ps|]; [|discriminate]. cbn [bind] in T. destruct (nd_take _ _ _); [|discriminate]. cbn [bind] in T. injection T as <-. cbn [h_dims].
    rewrite map_set_nth. cbn [d_name]. apply set_nth_self. now rewrite nth_error_map, O. }
  rewrite <- N, !map_app, !in_app_iff. intros [I|[I|I]]; auto; left.
  - apply in_map_iff in I as [d [<- I]]. apply in_map. rewrite <- (firstn_skipn i (h_dims z)). apply in_or_app. auto.
  - apply in_map_iff in I as [d [<- I]]. apply in_map. rewrite <- (firstn_skipn (S i) (h_dims z)). apply in_or_app. auto.
Qed.
Lemma hyper_loop_reaches : forall {A} (lab : A -> label) all news order rd l (out b' : block A) k x,
  hyper_loop lab all news order rd l out = Ok b' -> BInv out -> (forall k d, pd_get k (dd_map (b_ivar out)) = Some d -> d_name d = k) ->
  dd_contains k (b_ivar out) = false -> ~ In k (dim_names l) -> ~ In k (map d_name news) ->
  In (k, x) l -> dims_contains (h_dims x) rd = true -> exists y, hyper_var news order rd x = Ok y.
Proof.
  intros A lab all news order rd l. induction l as [|[k0 v] l IH]; intros out b' k x H HB HK HC N1 N2 I R; [destruct I|].
  cbn [hyper_loop] in H. unfold dim_names in N1. cbn [flat_map snd] in N1. rewrite in_app_iff in N1.
  destruct (dims_contains (h_dims v) rd) eqn:Dv; cbn [negb] in H.
  - destruct (dd_contains k0 (b_ivar out)) eqn:C0.
    + cbn [bind] in H. destruct I as [E|I]; [injection E as -> ->; congruence|]. eapply IH; eauto.
    + destruct (hyper_var news order rd v) as [y|] eqn:Hv; [|discriminate]. cbn [bind] in H. destruct I as [E|I]; [injection E as -> ->; eauto|].
      destruct (b_set lab k0 y out) as [o1|] eqn:S1; [|discriminate]. cbn [bind] in H.
      destruct (b_set_names lab k0 y out o1 k HB HK S1) as [K1 K2]. eapply (IH o1 b'); eauto.
      * eapply b_set_BInv; eauto.
      * destruct (dd_contains k (b_ivar o1)) eqn:Q; auto. destruct (K2 eq_refl) as [|J]; [congruence|]. apply (hyper_var_names _ _ _ _ _ Hv) in J. tauto.
  - destruct I as [E|I]; [injection E as -> ->; congruence|]. destruct all.
    + destruct (b_set lab k0 v out) as [o1|] eqn:S1; [|discriminate]. cbn [bind] in H.
      destruct (b_set_names lab k0 v out o1 k HB HK S1) as [K1 K2]. eapply (IH o1 b'); eauto.
      * eapply b_set_BInv; eauto.
      * destruct (dd_contains k (b_ivar o1)) eqn:Q; auto. destruct (K2 eq_refl) as [|J]; [congruence|]. tauto.
    + cbn [bind] in H. eapply IH; eauto.
Qed.
Lemma hyper_order_perm : forall ltb c cols n, Forall (fun c => length c = n) (c :: cols) -> exists order, hyper_order ltb (c :: cols) = Ok order /\ Permutation order (seq 0 n).
Proof.
  intros ltb c cols n F. assert (length c = n) as <- by (now inversion F). eexists. split; [reflexivity|].
  transitivity (map snd (zip_rows (c :: cols) (seq 0 (length c)))); [apply Permutation_map, sorted_perm|]. rewrite zip_snd; auto.
Qed.

(** If the number of points is not the product of the numbers of different
    values then the call fails, provided there is something to spread. *)
Theorem C21_wrong_count : forall {A} (lab : A -> label) ltb (b : block A) vs ivs rd names (indexed all : bool) cols Us k x,
  let newnames := map (fun nm => if indexed then (nm ++ "_index")%string else nm) names in
  hyper_input lab b vs ivs rd names newnames cols ->
  Forall2 (fun c U => NoDup U /\ forall u, In u U <-> In u c) cols Us ->
  length (d_data rd) <> prodn (map (@length label) Us) ->
  In (k, x) vs -> In (d_name rd) (map d_name (h_dims x)) -> ~ In k names -> ~ In k newnames ->
  (forall d, In d (h_dims x) -> d_name d <> d_name rd -> d_data d <> []) ->
  exists e, hyper lab ltb names (d_name rd) indexed all b = Err e.
Proof.
  intros A lab ltb b vs ivs rd names indexed all cols Us k x newnames HI VU NP Ix Rx Nk1 Nk2 NZ. destruct HI as [EI EV ER NDv FV PL [NE NDn] HN HF HC].
  destruct (hyper lab ltb names (d_name rd) indexed all b) as [b'|e] eqn:H; [exfalso|eauto].
  destruct (hyper_dims_ok lab indexed b vs rd names cols EI FV HF HC) as [news [M [L [NN [CL DA]]]]].
  change (map (hyper_name indexed) names) with newnames in NN.
  unfold hyper in H. rewrite ER in H. cbn [bind] in H. rewrite M in H. cbn [bind] in H.
  assert (E1 : map snd (combine news cols) = cols).
  { clear - L. revert cols L. induction news; intros [|c cols] L; try discriminate; cbn; f_equal; auto. }
  assert (E2 : map fst (combine news cols) = news).
  { clear - L. revert cols L. induction news; intros [|c cols] L; try discriminate; cbn; f_equal; auto. }
  rewrite E1, E2 in H. set (n := length (d_data rd)) in *.
  rewrite Forall_forall in FV.
  assert (LC : Forall (fun c => length c = n) cols).
  { clear - HC FV. induction HC as [|nm c names cols [y [I [D E]]] F IH]; constructor; auto. subst c. rewrite map_length. destruct (FV _ I) as [[W1 [W2 _]] [_ V]]. cbn [snd] in *.
    unfold nd_wf in W1. unfold labels_match, h_shape in W2. rewrite <- W2 in W1. destruct (h_dims y) as [|d [|]]; try discriminate. cbn in W1, D. injection D as D.
    destruct (V d (or_introl eq_refl) D) as [_ V2]. rewrite W1, V2. unfold n. lia. }
  destruct cols as [|c cols]; [inversion HC; congruence|]. destruct (hyper_order_perm ltb c cols n LC) as [order [HO PO]]. rewrite HO in H. cbn [bind] in H.
  rewrite EI in H. cbn [bind] in H. set (iv := fold_left (fun iv d => dd_set (d_name d) d iv) news dd_empty) in *.
  destruct (hyper_loop lab all news order rd vs (mkBlock dd_empty iv None)) as [o|] eqn:HL; [|discriminate]. clear H.
  destruct (FV _ Ix) as [W [ND V]]. cbn [snd] in *. pose proof Rx as Rx'. apply in_map_iff in Rx' as [d [Ed Id]]. destruct (V d Id Ed) as [Kd Ld].
  assert (DC : dims_contains (h_dims x) rd = true) by (apply has_rd; [split; auto|auto]).
  destruct PL as [PL1 _].
  destruct (hyper_loop_reaches lab all news order rd vs _ o k x HL) as [y Y]; auto.
  - split; [apply empty_Inv|]. split; [apply fold_set_Inv, empty_Inv|]. cbn. discriminate.
  - cbn [b_ivar]. intros k0 d0. unfold iv. rewrite fold_set_get. destruct (find _ (rev news)) eqn:Q; [|discriminate]. intros E. injection E as ->.
    apply find_some in Q as [_ Q]. apply String.eqb_eq in Q. auto.
  - cbn [b_ivar]. unfold dd_contains, pd_has, iv. rewrite fold_set_get. cbn [dd_empty dd_map pd_get]. destruct (find _ (rev news)) eqn:Q; auto.
    exfalso. apply find_some in Q as [Q1 Q2]. apply String.eqb_eq in Q2. apply Nk2. rewrite Q2, <- NN. apply in_map. now apply in_rev.
  - apply PL1. change k with (fst (k, x)). now apply in_map.
  - now rewrite NN.
  - (* the reshape cannot have succeeded *)
    apply in_split in Id as [ds1 [ds2 HD]].
    assert (Hk : nth_error (h_dims x) (length ds1) = Some d) by (rewrite HD; apply nth_app_mid).
    assert (LO : length order = n) by (rewrite (Permutation_length PO); apply seq_length).
    assert (IO : forall p, In p order -> p < n) by (intros p I; apply (Permutation_in _ PO), in_seq in I; lia).
    destruct (take_ok x (map Z.of_nat order) (AxInt (Z.of_nat (length ds1))) (length ds1) d order) as [z [d' [T1 [T2 [T3 [T4 [T5 [T6 T7]]]]]]]]; auto.
    { constructor. apply nth_error_Some. congruence. } { now apply names_only. }
    { rewrite Ld. fold n. clear - IO. induction order; simpl; constructor; auto; [|apply IHorder; intros; apply IO; now right]. split; [apply IO; now left|auto]. }
    unfold hyper_var in Y. rewrite <- Ed in Y. rewrite (dims_index_nth (h_dims x) (length ds1) d ND Hk) in Y. cbn [bind] in Y. rewrite T1 in Y. cbn [bind] in Y.
    rewrite HD, set_nth_mid in T5. set (s1 := map (fun d => length (d_data d)) ds1) in *. set (s2 := map (fun d => length (d_data d)) ds2) in *.
    destruct T2 as [W1 [W2 W3]]. assert (LD' : length (d_data d') = n) by (rewrite T4, !map_length; exact LO).
    assert (SY : h_shape z = s1 ++ n :: s2).
    { unfold labels_match in W2. rewrite <- W2, T5, map_app. cbn [map]. now rewrite LD'. }
    assert (L1 : length s1 = length ds1) by apply map_length.
    assert (FS : firstn (length ds1) (s1 ++ n :: s2) = s1) by (rewrite <- L1; apply firstn_mid).
    assert (SS : skipn (S (length ds1)) (s1 ++ n :: s2) = s2) by (rewrite <- L1; apply skipn_mid).
    rewrite SY, FS, SS in Y. unfold nd_reshape in Y. fold (h_shape z) in Y. rewrite SY, !prodn_app in Y.
    assert (LN : map (fun d => length (d_data d)) news = map (@length label) Us).
    { rewrite <- (map_map d_data (@length label)), DA, map_map. clear - VU. revert Us VU. generalize (c :: cols). intros cs. induction cs as [|a cs IH]; intros Us VU; inversion VU as [|? U ? ? [V1 V2]]; subst; cbn; auto.
      f_equal; auto. apply Permutation_length. apply NoDup_Permutation; auto; [apply (uniq_nodup label_eqb label_eqb_eq)|]. intros u. rewrite (uniq_in label_eqb label_eqb_eq). symmetry. apply V2. }
    rewrite LN in Y. set (P := prodn (map (@length label) Us)) in *. change (prodn (n :: s2)) with (n * prodn s2) in Y.
    destruct (Nat.eqb_spec (prodn s1 * (P * prodn s2)) (prodn s1 * (n * prodn s2))) as [E|E]; [|discriminate].
    assert (PZ : forall ds, incl ds (h_dims x) -> (forall e, In e ds -> d_name e <> d_name rd) -> prodn (map (fun d => length (d_data d)) ds) <> 0).
    { induction ds as [|a ds IH]; intros IC NR; cbn; [lia|]. assert (d_data a <> []) by (apply NZ; [apply IC; now left|apply NR; now left]).
      assert (prodn (map (fun d => length (d_data d)) ds) <> 0) by (apply IH; [intros q Q; apply IC; now right|intros; apply NR; now right]).
      fold (prodn (map (fun d => length (d_data d)) ds)). destruct (d_data a); [congruence|]. cbn. lia. }
    assert (ND' : forall e, In e ds1 \/ In e ds2 -> d_name e <> d_name rd).
    { intros e I. rewrite HD, map_app in ND. cbn [map] in ND. apply NoDup_remove_2 in ND. rewrite in_app_iff in ND. intros Q. apply ND. rewrite Ed, <- Q. destruct I; [left|right]; now apply in_map. }
    assert (P1 : prodn s1 <> 0) by (apply PZ; [rewrite HD; intros q Q; apply in_or_app; auto|auto]).
    assert (P2 : prodn s2 <> 0) by (apply PZ; [rewrite HD; intros q Q; apply in_or_app; right; now right|auto]).
    apply Nat.mul_cancel_l in E; auto. apply Nat.mul_cancel_r in E; auto.
Qed.
Print Assumptions C21_wrong_count.

(** ** Examples *)
Definition lltb (u v : label) : bool :=
  match u, v with
  | LZ x, LZ y => (x <? y)%Z | LF x, LF y => (x <? y)%Z | LS x, LS y => chars_lt (list_ascii_of_string x) (list_ascii_of_string y)
  | LZ _, _ => true | LF _, LS _ => true | _, _ => false
  end.
Lemma lltb_sto : sto lltb.
Proof.
  pose proof chars_sto as S. constructor.
  - intros [x|x|x]; cbn; try apply Z.ltb_irrefl. apply (sto_irrefl _ S).
  - intros [x|x|x] [y|y|y] [z|z|z]; cbn; auto; try discriminate; try (rewrite !Z.ltb_lt; lia). apply (sto_trans _ S).
  - intros [x|x|x] [y|y|y]; cbn; try discriminate; try (rewrite !Z.ltb_ge; intros; f_equal; lia).
    intros H1 H2. pose proof (sto_total _ S _ _ H1 H2) as E. f_equal. rewrite <- (string_of_list_ascii_of_string x), E. apply string_of_list_ascii_of_string.
Qed.
Definition dN : dim := mkDim CDimSweep "n" (range_labels 4) None (Some "%s").
Definition xcol (l : list Z) : hf Z := mkHF (mkNd [4] l) DInt [dN] None "%s".
Definition xSn : hf Z := mkHF (mkNd [2; 4] [0; 1; 2; 3; 10; 11; 12; 13]%Z) DInt [dF; dN] None "%s".
Definition flat (v g : list Z) : block Z :=
  match sets labZ [("V", xcol v); ("G", xcol g); ("I", xSn); ("C", mkHF (mkNd [2] [7; 8]%Z) DInt [dF] None "%s")] b_empty with Ok b => b | Err _ => b_empty end.
Definition look_hyper (r : result (block Z)) (names : list string) (k : string) : option (list (list label) * list nat * list Z) :=
  match r with
  | Ok b => match mapM (fun n => dd_get n (b_ivar b)) names, dd_get k (b_var b) with
            | Ok ds, Ok x => Some (map d_data ds, h_shape x, nd_elems (h_nd x))
            | _, _ => None
            end
  | Err _ => None
  end.

(** The points (V, G) = (1, 5), (1, 6), (2, 6), (2, 5): complete, each column's
    values first appear ascending; G has to be sorted. *)
Example C21_example :
  look_hyper (hyper labZ lltb ["V"; "G"] "n" false true (flat [1; 1; 2; 2]%Z [5; 6; 6; 5]%Z)) ["V"; "G"] "I" =
    Some ([[LZ 1; LZ 2]; [LZ 5; LZ 6]], [2; 2; 2], [0; 1; 3; 2; 10; 11; 13; 12]%Z).
Proof. vm_compute. reflexivity. Qed.
Example C21_example_input : let b := flat [1; 1; 2; 2]%Z [5; 6; 6; 5]%Z in
  let cols := [[LZ 1; LZ 1; LZ 2; LZ 2]; [LZ 5; LZ 6; LZ 6; LZ 5]] in
  exists vs ivs, hyper_input labZ b vs ivs dN ["V"; "G"] ["V"; "G"] cols /\ complete 4 cols /\ Forall (appears_ascending lltb) cols.
Proof.
  cbn zeta. eexists. eexists. split.
  - constructor; try (vm_compute; reflexivity).
    + cbn. repeat constructor; cbn; intuition discriminate.
    + assert (V1 : forall l, length l = 4 -> var_ok "n" dN (xcol l)).
      { intros l L. split; [split; [exact L|split; [reflexivity|cbn; constructor; [tauto|constructor]]]|]. split; [cbn; constructor; [tauto|constructor]|].
        intros d [<-|[]] _. split; reflexivity. }
      apply Forall_cons; [now apply V1|]. apply Forall_cons; [now apply V1|]. apply Forall_cons; [|apply Forall_cons; [|constructor]].
      * split; [split; [reflexivity|split; [reflexivity|cbn; repeat constructor; cbn; intuition discriminate]]|].
        split; [cbn; repeat constructor; cbn; intuition discriminate|]. intros d [<-|[<-|[]]] E; [discriminate|split; reflexivity].
      * split; [split; [reflexivity|split; [reflexivity|cbn; repeat constructor; cbn; intuition discriminate]]|].
        split; [cbn; repeat constructor; cbn; intuition discriminate|]. intros d [<-|[]] E; discriminate.
    + split; [cbn; intuition (subst; discriminate)|]. cbn. intros k m e [<-|[<-|[<-|[<-|[]]]]]; discriminate.
    + split; [discriminate|]. repeat constructor; cbn; intuition discriminate.
    + cbn. tauto.
    + cbn. intros k [<-|[<-|[]]]; reflexivity.
    + apply Forall2_cons; [eexists; split; [left; reflexivity|split; reflexivity]|].
      apply Forall2_cons; [eexists; split; [right; left; reflexivity|split; reflexivity]|constructor].
  - split.
    + split; [repeat constructor|]. intros combo F. inversion F as [|u c ? ? I1 F1]; subst. inversion F1 as [|v c ? ? I2 F2]; subst. inversion F2; subst.
      assert (E : forall q w z, Forall2 (fun u c => nth_error c q = Some u) [w; z] [[LZ 1; LZ 1; LZ 2; LZ 2]; [LZ 5; LZ 6; LZ 6; LZ 5]] ->
        (q, w, z) = (0, LZ 1, LZ 5) \/ (q, w, z) = (1, LZ 1, LZ 6) \/ (q, w, z) = (2, LZ 2, LZ 6) \/ (q, w, z) = (3, LZ 2, LZ 5)).
      { intros q w z H. inversion H as [|? ? ? ? A1 B1]; subst. inversion B1 as [|? ? ? ? A2 B2]; subst.
        destruct q as [|[|[|[|q]]]]; cbn in A1, A2; [| | | |destruct q; discriminate]; injection A1 as <-; injection A2 as <-; auto. }
      cbn in I1, I2. assert (J1 : u = LZ 1 \/ u = LZ 2) by intuition. assert (J2 : v = LZ 5 \/ v = LZ 6) by intuition.
      destruct J1 as [-> | ->], J2 as [-> | ->]; [exists 0|exists 1|exists 3|exists 2]; (split; [lia|]); (split; [repeat constructor|]); intros q Q; apply E in Q; intuition congruence.
    + repeat constructor; intros l1 u l2 E N v I.
      * destruct l1 as [|a1 [|a2 [|a3 [|a4 [|]]]]]; cbn in E; inversion E; subst; cbn in *; intuition (subst; auto; congruence).
      * destruct l1 as [|a1 [|a2 [|a3 [|a4 [|]]]]]; cbn in E; inversion E; subst; cbn in *; intuition (subst; auto; congruence).
Qed.

(** The values of V first appear in descending order: the labels say (2, 1) but
    the data is ordered (1, 2); the value recorded at (2, 5) is found at the
    label 1. *)
Theorem C21_descending_refuted : exists (b : block Z),
  b = flat [2; 2; 1; 1]%Z [5; 6; 5; 6]%Z /\
  look_hyper (hyper labZ lltb ["V"; "G"] "n" false true b) ["V"; "G"] "I" =
    Some ([[LZ 2; LZ 1]; [LZ 5; LZ 6]], [2; 2; 2], [2; 3; 0; 1; 12; 13; 10; 11]%Z).
Proof. eexists. split; [reflexivity|]. vm_compute. reflexivity. Qed.

(** A combination missing and another one twice: accepted; the value at
    (2, 5) is one recorded for (1, 6). *)
Theorem C21_duplicate_refuted : exists (b : block Z),
  b = flat [1; 1; 1; 2]%Z [5; 6; 6; 6]%Z /\
  look_hyper (hyper labZ lltb ["V"; "G"] "n" false true b) ["V"; "G"] "I" =
    Some ([[LZ 1; LZ 2]; [LZ 5; LZ 6]], [2; 2; 2], [0; 1; 2; 3; 10; 11; 12; 13]%Z).
Proof. eexists. split; [reflexivity|]. vm_compute. reflexivity. Qed.

(** Three of four combinations. *)
Example C21_wrong_count_example :
  hyper labZ lltb ["V"; "G"] "n" false true (flat [1; 1; 2; 2]%Z [5; 6; 7; 5]%Z) = Err ValueError.
Proof. vm_compute. reflexivity. Qed.
