(** C75: blocks written in the older HDF5 format and read back, and the choice of the format. *)
From Coq Require Import Ascii String List Arith ZArith Bool Lia Permutation.
From Verif Require Import Model_NdArray Model_Dim Model_Array Model_DataDict Model_Block Model_Text Model_Hdf5 Model_H5File Model_Mdif Model_H5Old Spec_Block Spec_H5File Spec_Comments Spec_H5Old Proofs_DataDict Proofs_Block Proofs_Block3 Proofs_H5File Prop_H5File Prop_Comments.
Import ListNotations.
Local Open Scope string_scope.
Local Open Scope nat_scope.
Local Open Scope list_scope.

(** ** Texts *)
Lemma lower_iff : forall c, (lower_char c = "n" <-> In c ["n"; "N"])%char /\ (lower_char c = "o" <-> In c ["o"; "O"])%char /\ (lower_char c = "e" <-> In c ["e"; "E"])%char.
Proof. intros [[] [] [] [] [] [] [] []]; vm_compute; intuition discriminate. Qed.
Lemma lower_none : forall s, string_of_list_ascii (map lower_char (list_ascii_of_string s)) = "none" <-> spells_none s.
Proof.
  intros s. unfold spells_none. destruct (list_ascii_of_string s) as [|a [|b [|c [|d [|e l]]]]]; cbn [map string_of_list_ascii]; (split; [intros H; try discriminate H|intros H; repeat (match goal with H : Forall2 _ _ _ |- _ => inversion H; clear H; subst end)]).
  - injection H as A B C D. do 4 (constructor; [apply lower_iff; assumption|]). constructor.
  - f_equal; [now apply lower_iff|]. f_equal; [now apply lower_iff|]. f_equal; [now apply lower_iff|]. f_equal. now apply lower_iff.
Qed.
Lemma text_back : forall u, same_text u (text_none (none_text u)).
Proof.
  intros [s|]; cbn [none_text same_text]; [|reflexivity]. unfold text_none. pose proof (lower_none s) as L. destruct (String.eqb_spec (string_of_list_ascii (map lower_char (list_ascii_of_string s))) "none") as [E|N]; split; intros H; auto; exfalso; tauto.
Qed.
Lemma class_back : forall c, (In c lost_classes -> old_class c = CDimRep) /\ (~ In c lost_classes -> old_class c = c).
Proof. intros c. split; destruct c; cbn; intros H; try reflexivity; exfalso; intuition discriminate. Qed.

(** ** Groups *)
Lemma put_ok : forall {X} k (x : X) g, h5_name k -> ~ In k (map fst g) -> put k x g = Ok (g ++ [(k, IData x)]).
Proof.
  intros X k x g H N. unfold put. rewrite (path_name k H). destruct H as (H1 & _ & H3). destruct k as [|c k]; [congruence|]. cbn [list_ascii_of_string free_of] in *. destruct H3 as [H3 _].
  destruct (Ascii.eqb c slash) eqn:E; [apply Ascii.eqb_eq in E; exfalso; apply H3; exact E|]. destruct (pd_has (String c k) g) eqn:Q; [|reflexivity]. apply pd_has_In in Q. contradiction.
Qed.
Lemma puts_ok : forall {X Y} (step : string -> X -> list (string * item Y) -> result (list (string * item Y))) (f : X -> Y) l g,
  (forall k v g, In (k, v) l -> h5_name k -> ~ In k (map fst g) -> step k v g = Ok (g ++ [(k, IData (f v))])) ->
  (forall p, In p l -> h5_name (fst p)) -> NoDup (map fst g ++ map fst l) ->
  puts step l g = Ok (g ++ map (fun p => (fst p, IData (f (snd p)))) l).
Proof.
  intros X Y step f. induction l as [|[k v] l IH]; intros g HS HN ND; [cbn; now rewrite app_nil_r|]. cbn [puts map fst snd] in *.
  rewrite HS; [|now left|exact (HN _ (or_introl eq_refl))|intros I; apply NoDup_remove_2 in ND; apply ND; apply in_or_app; now left].
  cbn [bind]. rewrite IH.
  - now rewrite <- app_assoc.
  - intros; apply HS; auto. now right.
  - intros; apply HN. now right.
  - rewrite map_app, <- app_assoc. exact ND.
Qed.
Lemma add_ivars_id : forall ds iv, (forall d, In d ds -> dd_contains (d_name d) iv = true) -> add_ivars ds iv = iv.
Proof. unfold add_ivars. induction ds as [|d ds IH]; intros iv H; [reflexivity|]. cbn [fold_left]. rewrite (H d (or_introl eq_refl)). apply IH. intros; apply H. now right. Qed.

Section Old.
Context {A D : Type}.
Variable enc : dtype -> A -> D.
Variable dec : dtype -> D -> A.
Variable dimenc dimenc2 : list label -> list label.
Variable lab : A -> label.

Definition vset (x : hf A) : oldvar := mkOV (nd_map (enc (h_dt x)) (h_nd x)) (h_dt x) (map d_name (h_dims x)) (none_text (h_unit x)).
Definition dset (d : dim) : olddim := mkOD (d_class d) (dimenc (d_data d)) (none_text (d_unit d)).
Definition ventries (vs : list (string * hf A)) := map (fun p => (fst p, IData (vset (snd p)))) vs.
Definition dentries (ivs : list (string * dim)) := map (fun p => (fst p, IData (dset (snd p)))) ivs.
Definition dback (k : string) (d : dim) : dim := mkDim (old_class (d_class d)) k (dimenc (d_data d)) (text_none (none_text (d_unit d))) None.

Lemma dback_ok : forall k d, k = d_name d -> old_dim dimenc d (dback k d).
Proof. intros k d ->. unfold old_dim, dback. cbn [d_name d_data d_unit d_fmt d_class]. split; [auto|]. split; [auto|]. split; [apply text_back|]. split; [auto|]. apply class_back. Qed.

Lemma save_ok : forall bn cs (b : block A) ivs vs, dd_items (b_ivar b) = Ok ivs -> dd_items (b_var b) = Ok vs ->
  dims_ok ivs -> old_vars_ok enc dec ivs vs -> old_save enc dimenc bn cs b = Ok (mkOG (none_text bn) cs (ventries vs) (dentries ivs)).
Proof.
  intros bn cs b ivs vs Ei Ev [I1 I2] (V1 & V2 & _). unfold old_save. rewrite Ev. cbn [bind]. rewrite Forall_forall in I2.
  rewrite (puts_ok _ vset); [|intros; now apply put_ok|intros; now apply V2|exact V1]. cbn [bind]. rewrite Ei. cbn [bind].
  rewrite (puts_ok _ dset); [reflexivity| |intros; now apply I2|exact I1].
  intros k d g Ik Hk Nk. unfold old_save_dim, dim_array. destruct (I2 _ Ik) as (_ & _ & F). cbn [snd] in F. rewrite (fmt_ok _ F). cbn [bind]. now apply put_ok.
Qed.

Lemma read_dims_back : forall is (b : block A), BInv b -> NoDup (map fst is) ->
  exists b', old_read_dims (dentries is) b = Ok b' /\ b_var b' = b_var b /\ Inv (b_ivar b') /\
    (forall n, pd_get n (dd_map (b_ivar b')) = match pd_get n is with Some d => Some (dback n d) | None => pd_get n (dd_map (b_ivar b)) end).
Proof.
  induction is as [|[k d] is IH]; intros b BI ND; [exists b; repeat split; auto; apply BI|]. cbn [map fst] in ND. apply NoDup_cons_iff in ND as [N1 N2].
  cbn [dentries map fst snd old_read_dims]. fold (dentries is). cbn [dset od_class od_data od_unit]. fold (dback k d).
  destruct (IH (b_set_dim k (dback k d) b)) as (b' & E1 & E2 & E3 & E4); [now apply b_set_dim_BInv|exact N2|].
  exists b'. split; [exact E1|]. split; [exact E2|]. split; [exact E3|]. intros n. rewrite E4. cbn [pd_get b_set_dim b_ivar]. rewrite get_set. destruct (String.eqb_spec n k) as [->|]; [|reflexivity].
  replace (pd_get k is) with (@None dim); [reflexivity|]. symmetry. now apply pd_get_none.
Qed.

Lemma dims_back : forall iv (b : block A) ds,
  (forall d, In d ds -> exists s, iv (d_name d) = Some s /\ d_name s = d_name d /\ pd_get (d_name d) (dd_map (b_ivar b)) = Some (dback (d_name d) s)) ->
  exists es, mapM (fun n => dd_get n (b_ivar b)) (map d_name ds) = Ok es /\
    Forall2 (fun d e => exists s, iv (d_name d) = Some s /\ old_dim dimenc s e) ds es /\ map d_name es = map d_name ds.
Proof.
  intros iv b. induction ds as [|d ds IH]; intros H; [exists []; repeat split; constructor|]. destruct IH as (es & E1 & E2 & E3); [intros; apply H; now right|].
  destruct (H d (or_introl eq_refl)) as (s & S1 & S2 & S3). exists (dback (d_name d) s :: es). cbn [map mapM]. unfold dd_get at 1. rewrite S3. cbn [of_option bind]. rewrite E1. cbn [bind]. split; [reflexivity|]. split.
  - constructor; [|exact E2]. exists s. split; [exact S1|]. now apply dback_ok.
  - cbn [dback d_name]. now rewrite E3.
Qed.

Lemma read_vars_back : forall iv ps (b : block A) names, Inv (b_var b) -> Inv (b_ivar b) ->
  map fst (dabs (b_var b)) ++ map fst ps = names -> NoDup names ->
  (forall k, In k (map fst ps) -> dd_contains k (b_ivar b) = false) ->
  (forall k m e, In k names -> is_matrix_name k = Some (m, e) -> ~ In m names) ->
  (forall p, In p ps -> length (h_dims (snd p)) = length (nd_shape (h_nd (snd p))) /\ Forall (fun v => dec (h_dt (snd p)) (enc (h_dt (snd p)) v) = v) (nd_elems (h_nd (snd p))) /\
     forall d, In d (h_dims (snd p)) -> exists s, iv (d_name d) = Some s /\ d_name s = d_name d /\ pd_get (d_name d) (dd_map (b_ivar b)) = Some (dback (d_name d) s)) ->
  exists b' ys, old_read_vars dec lab (ventries ps) b = Ok b' /\ Inv (b_var b') /\ dabs (b_var b') = dabs (b_var b) ++ ys /\ b_ivar b' = b_ivar b /\
    Forall2 (fun p q => fst q = fst p /\ old_var dimenc iv (snd p) (snd q)) ps ys.
Proof.
  intros iv. induction ps as [|[k x] ps IH]; intros b names HV HI HN ND HC HM HP; [exists b, []; rewrite app_nil_r; auto|].
  destruct (HP _ (or_introl eq_refl)) as (L & F & W). cbn [snd] in *. destruct (dims_back iv b _ W) as (es & E1 & E2 & E3).
  cbn [ventries map fst snd old_read_vars]. fold (ventries ps). cbn [vset ov_data ov_dt ov_names ov_unit]. rewrite E1. cbn [bind]. unfold new_raw. cbn [bind].
  assert (N : nd_map (dec (h_dt x)) (nd_map (enc (h_dt x)) (h_nd x)) = h_nd x) by (destruct (h_nd x) as [sh el]; unfold nd_map; cbn [nd_shape nd_elems] in *; now rewrite map_back).
  rewrite N, <- (Forall2_length' _ _ _ E2), L, Nat.eqb_refl. cbn [bind]. set (y := mkHF _ _ _ _ _).
  assert (C : forall d, In d (h_dims y) -> dd_contains (d_name d) (b_ivar b) = true).
  { intros d I. apply contains_get. cbn [y h_dims] in I. apply (in_map d_name) in I. rewrite E3 in I. apply in_map_iff in I as (d' & <- & I). destruct (W d' I) as (s & _ & _ & S3). eauto. }
  assert (Ck : dd_contains k (b_ivar b) = false) by (apply HC; now left).
  destruct (sets_ok_gen lab [(k, y)] b (map fst (dabs (b_var b)) ++ [k])) as (b1 & S1 & S2 & S3 & S4 & S5); auto.
  - rewrite <- HN in ND. cbn [map fst] in ND. change (k :: map fst ps) with ([k] ++ map fst ps) in ND. rewrite app_assoc in ND. clear - ND. induction (_ ++ [k]) as [|a l IH]; [constructor|]. cbn in ND. apply NoDup_cons_iff in ND as [N1 N2]. constructor; [|auto]. intros I. apply N1, in_or_app. now left.
  - intros k' [<-|[]] I. unfold dim_names in I. cbn [flat_map snd] in I. rewrite app_nil_r in I. apply in_map_iff in I as (d & E & I). apply C in I. rewrite E in I. cbn [fst] in I. congruence.
  - intros k' [<-|[]]. exact Ck.
  - intros k' m e I M J. assert (SUB : forall n, In n (map fst (dabs (b_var b)) ++ [k]) -> In n names) by (intros n K; rewrite <- HN; cbn [map fst]; apply in_app_or in K as [K|[<-|[]]]; apply in_or_app; [now left|right; now left]). exact (HM k' m e (SUB _ I) M (SUB _ J)).
  - cbn [sets] in S1. destruct (b_set lab k y b) as [b0|] eqn:Eb; [|discriminate S1]. cbn [bind] in *. injection S1 as ->.
    assert (V : b_ivar b1 = b_ivar b) by (rewrite S5; unfold ivars_of; cbn [fold_left snd]; now apply add_ivars_id).
    destruct (IH b1 names) as (b' & ys & R1 & R2 & R3 & R4 & R5); auto.
    + rewrite S4, map_app, <- app_assoc. exact HN.
    + intros k' I. rewrite V. apply HC. now right.
    + intros p I. rewrite V. apply HP. now right.
    + exists b', ((k, y) :: ys). split; [exact R1|]. split; [exact R2|]. split; [rewrite R3, S4, <- app_assoc; reflexivity|]. split; [congruence|]. constructor; [|exact R5]. split; [reflexivity|].
      unfold old_var. cbn [snd y h_nd h_dt h_unit h_fmt h_dims]. split; [auto|]. split; [auto|]. split; [apply text_back|]. split; [auto|exact E2].
Qed.

(** [g'] lists the datasets of [g] in some order. *)
Definition relisted (g g' : oldgroup (D := D)) : Prop :=
  og_name g' = og_name g /\ og_comments g' = og_comments g /\ Permutation (og_var g) (og_var g') /\ Permutation (og_ivar g) (og_ivar g').

(** A block is written, and reading the file, in whatever order it lists the datasets, gives the name of the
    block, the comments without white space around, the variables under their names with their data, types and
    units, over the dimensions of the block of the names of their axes, and all dimensions of the block.
    Output formats are not kept, and neither are texts that spell none nor some classes. *)
Theorem C75_roundtrip : forall bn cs (b : block A) ivs vs, dd_items (b_ivar b) = Ok ivs -> dd_items (b_var b) = Ok vs ->
  dims_ok ivs -> old_vars_ok enc dec ivs vs ->
  exists g, old_save enc dimenc bn cs b = Ok g /\
    forall g', relisted g g' -> exists bn' cs' b', old_read dec lab g' = Ok (bn', cs', b') /\ same_text bn bn' /\
      Forall2 (fun c c' => trimmed c' /\ exists w1 w2, c = w1 ++ c' ++ w2 /\ blank w1 /\ blank w2) cs cs' /\ old_block dimenc ivs vs b'.
Proof.
  intros bn cs b ivs vs Ei Ev HI HV. exists (mkOG (none_text bn) cs (ventries vs) (dentries ivs)). split; [now apply save_ok|]. intros [n' cs' gv gi] (R1 & R2 & R3 & R4).
  cbn [og_name og_comments og_var og_ivar] in *. subst n' cs'. apply Permutation_sym, Permutation_map_inv in R3 as (ps & -> & P1). apply Permutation_sym, Permutation_map_inv in R4 as (is & -> & P2).
  destruct HI as [I1 I2]. destruct HV as (V1 & V2 & V3 & V4). rewrite Forall_forall in I2.
  assert (NDi : NoDup (map fst is)) by (eapply NoDup_perm_map; [exact P2|exact I1]).
  destruct (read_dims_back is b_empty empty_BInv NDi) as (b1 & D1 & D2 & D3 & D4). cbn [b_empty b_var b_ivar dd_map dd_empty pd_get] in *.
  assert (GI : forall n, pd_get n is = in_list ivs n) by (intros n; rewrite in_list_get; now apply get_perm).
  assert (INP : forall p, In p ps -> In p vs) by (intros p; apply Permutation_in; now apply Permutation_sym).
  destruct (read_vars_back (in_list ivs) ps b1 (map fst ps)) as (b2 & ys & Q1 & Q2 & Q3 & Q4 & Q5).
  - rewrite D2. apply empty_Inv.
  - exact D3.
  - rewrite D2. reflexivity.
  - eapply NoDup_perm_map; [exact P1|exact V1].
  - intros k I. apply in_map_iff in I as (p & <- & I). destruct (V2 p (INP _ I)) as [_ N]. destruct (dd_contains (fst p) (b_ivar b1)) eqn:C; [|reflexivity]. exfalso. apply contains_get in C as [v C]. rewrite D4, GI in C.
    destruct (in_list ivs (fst p)) as [s|] eqn:E; [|discriminate C]. rewrite in_list_get in E. apply get_In in E; [|exact I1]. apply N, in_map_iff. exists (fst p, s). auto.
  - intros k m e I M J. apply in_map_iff in I as (p & <- & I). apply (V3 p m e (INP _ I) M). apply in_map_iff in J as (q & <- & J). apply in_map_iff. exists q. auto.
  - intros p I. destruct (V4 p (INP _ I)) as (W1 & W2 & W3). split; [exact W1|]. split; [exact W2|]. intros d Id. apply W3 in Id. apply in_map_iff in Id as ([n s] & E & Id). cbn [fst] in E. subst n. destruct (I2 _ Id) as (N & _). cbn [fst snd] in N.
    exists s. assert (E : in_list ivs (d_name d) = Some s) by (rewrite in_list_get; now apply get_In). split; [exact E|]. split; [auto|]. now rewrite D4, GI, E.
  - exists (text_none (none_text bn)), (map strip cs), b2. unfold old_read. cbn [og_ivar og_var og_name og_comments]. fold (dentries is) (ventries ps). rewrite D1. cbn [bind]. rewrite Q1. cbn [bind]. split; [reflexivity|]. split; [apply text_back|]. split.
    { clear. induction cs as [|c cs IH]; constructor; [|exact IH]. destruct (strip_split c) as (w1 & w2 & E & B1 & B2 & T & _). split; [exact T|]. eauto. }
    split; [|split].
    + exists ps, ys. split; [exact P1|]. split; [|exact Q5]. rewrite items_abs by exact Q2. rewrite Q3, D2. reflexivity.
    + intros n e H. apply get_result in H. rewrite Q4, D4, GI in H. destruct (in_list ivs n) as [s|] eqn:E; [|discriminate H]. injection H as <-. exists s. split; [reflexivity|]. apply dback_ok. rewrite in_list_get in E. apply get_In in E; [|exact I1]. now destruct (I2 _ E).
    + intros n I. apply in_map_iff in I as ([k s] & <- & I). cbn [fst]. exists (dback k s). apply get_result. rewrite Q4, D4, GI. rewrite in_list_get. rewrite (proj2 (get_In ivs k s I1) I). reflexivity.
Qed.

(** ** Names that are paths *)
Lemma path_slash : forall x y, h5_name x -> h5_name y -> path (x ++ "/" ++ y) = [x; y].
Proof.
  intros x y Hx Hy. assert (P : forall s cur t, free_of "/" s -> path_parts cur (list_ascii_of_string (s ++ String "/" t)) =
    (let p := string_of_list_ascii (rev cur ++ list_ascii_of_string s) in if String.eqb p "" || String.eqb p "." then [] else [p]) ++ path t).
  { induction s as [|c s IH]; intros cur t F.
    - cbn [append list_ascii_of_string path_parts]. rewrite app_nil_r. reflexivity.
    - destruct F as [F1 F2]. cbn [append list_ascii_of_string path_parts]. destruct (Ascii.eqb c slash) eqn:E; [apply Ascii.eqb_eq in E; exfalso; apply F1; exact E|]. rewrite IH by exact F2. cbn [rev]. now rewrite <- app_assoc. }
  change (x ++ "/" ++ y)%string with (x ++ String "/" y)%string. unfold path at 1. rewrite P by apply Hx. rewrite (path_name y Hy). cbn [rev app]. rewrite string_of_list_ascii_of_string. destruct Hx as (N1 & N2 & _).
  apply String.eqb_neq in N1. apply String.eqb_neq in N2. cbv zeta. now rewrite N1, N2.
Qed.
Lemma put_keeps : forall {X} k (x : X) g g' q, put k x g = Ok g' -> In q g -> In q g'.
Proof.
  intros X k x g g' q H I. unfold put in H. destruct (list_ascii_of_string k) as [|c l]; [discriminate H|]. destruct (Ascii.eqb c slash); [discriminate H|]. destruct (path k) as [|n [|n' l']]; [discriminate H| |].
  - destruct (pd_has n g); [discriminate H|]. injection H as <-. apply in_or_app. now left.
  - destruct (pd_get n g) as [[|]|]; [discriminate H| |]; injection H as <-; auto. apply in_or_app. now left.
Qed.
Lemma put_path : forall {X} x y (v : X) g g', h5_name x -> h5_name y -> put (x ++ "/" ++ y) v g = Ok g' -> exists n, In (n, IGroup) g'.
Proof.
  intros X x y v g g' Hx Hy H. unfold put in H. rewrite (path_slash x y Hx Hy) in H. destruct (list_ascii_of_string _) as [|c l]; [discriminate H|]. destruct (Ascii.eqb c slash); [discriminate H|].
  destruct (pd_get x g) as [[|]|] eqn:E; [discriminate H| |]; injection H as <-; exists x.
  - clear - E. induction g as [|[k w] g IH]; [discriminate E|]. cbn [pd_get] in E. destruct (String.eqb_spec x k) as [->|]; [injection E as ->; now left|right; auto].
  - apply in_or_app. right. now left.
Qed.
Lemma puts_path : forall {X Y} (step : string -> X -> list (string * item Y) -> result (list (string * item Y))) x y v l g g',
  (forall k v g g', step k v g = Ok g' -> exists w, put k w g = Ok g') -> h5_name x -> h5_name y -> In ((x ++ "/" ++ y)%string, v) l ->
  puts step l g = Ok g' -> exists n, In (n, IGroup) g'.
Proof.
  intros X Y step x y v l g g' HS Hx Hy. assert (K : forall l g g' q, puts step l g = Ok g' -> In q g -> In q g').
  { clear l g g'. induction l as [|[k w] l IH]; intros g g' q H I; cbn [puts] in H; [injection H as <-; exact I|]. destruct (step k w g) as [g1|] eqn:E; [|discriminate H]. cbn [bind] in H. apply HS in E as [u E]. eapply IH; [exact H|]. eapply put_keeps; eauto. }
  revert g. induction l as [|[k w] l IH]; intros g I H; [destruct I|]. cbn [puts] in H. destruct (step k w g) as [g1|] eqn:E; [|discriminate H]. cbn [bind] in H. destruct I as [I|I]; [|eapply IH; eauto].
  injection I as -> ->. apply HS in E as [u E]. apply put_path in E as [n E]; auto. exists n. eapply K; eauto.
Qed.
Lemma vars_group : forall l n (b : block A) r, In (n, IGroup) l -> old_read_vars dec lab l b <> Ok r.
Proof.
  induction l as [|[k [s|]] l IH]; intros n b r I H; [destruct I| |discriminate H]. destruct I as [I|I]; [discriminate I|]. cbn [old_read_vars] in H.
  destruct (mapM _ _); [|discriminate H]. cbn [bind] in H. destruct (new_raw _ _ _ _ _); [|discriminate H]. cbn [bind] in H. destruct (b_set _ _ _ _) as [b'|]; [|discriminate H]. cbn [bind] in H. exact (IH n b' r I H).
Qed.
Lemma dims_group : forall l n (b : block A) r, In (n, IGroup) l -> old_read_dims l b <> Ok r.
Proof. induction l as [|[k [s|]] l IH]; intros n b r I H; [destruct I| |discriminate H]. destruct I as [I|I]; [discriminate I|]. cbn [old_read_dims] in H. exact (IH n _ r I H). Qed.

(** A name with a slash can be written but not read: the file has a group for what is before the slash. *)
Theorem C75_slash : forall bn cs (b : block A) ivs vs x y g g' r, dd_items (b_ivar b) = Ok ivs -> dd_items (b_var b) = Ok vs ->
  h5_name x -> h5_name y -> In (x ++ "/" ++ y)%string (map fst vs) \/ In (x ++ "/" ++ y)%string (map fst ivs) ->
  old_save enc dimenc bn cs b = Ok g -> relisted g g' -> old_read dec lab g' <> Ok r.
Proof.
  intros bn cs b ivs vs x y g g' r Ei Ev Hx Hy HI H (_ & _ & P1 & P2) R. unfold old_save in H. rewrite Ev, Ei in H. cbn [bind] in H. destruct (puts (old_save_var enc) vs []) as [gv|] eqn:E1; [|discriminate H]. cbn [bind] in H.
  destruct (puts (old_save_dim dimenc) ivs []) as [gi|] eqn:E2; [|discriminate H]. cbn [bind] in H. injection H as <-. cbn [og_var og_ivar] in *.
  unfold old_read in R. destruct (old_read_dims (og_ivar g') b_empty) as [b1|] eqn:F1; [|discriminate R]. cbn [bind] in R. destruct (old_read_vars dec lab (og_var g') b1) as [b2|] eqn:F2; [|discriminate R].
  destruct HI as [I|I]; apply in_map_iff in I as ([k v] & E & I); cbn [fst] in E; subst k.
  - destruct (puts_path _ x y v _ _ _ (fun k w g0 g1 (Q : old_save_var enc k w g0 = Ok g1) => ex_intro _ _ Q) Hx Hy I E1) as [n N]. eapply vars_group; [|exact F2]. eapply Permutation_in; [exact P1|exact N].
  - assert (HS : forall k w g0 g1, old_save_dim dimenc k w g0 = Ok g1 -> exists u, put k u g0 = Ok g1) by (intros k w g0 g1 Q; unfold old_save_dim in Q; destruct (dim_array w); [|discriminate Q]; cbn [bind] in Q; eauto).
    destruct (puts_path _ x y v _ _ _ HS Hx Hy I E2) as [n N]. eapply dims_group; [|exact F1]. eapply Permutation_in; [exact P2|exact N].
Qed.

(** ** The choice of the format *)
Definition root_relisted (r r' : root (D := D)) : Prop :=
  r_version r' = r_version r /\ Permutation (r_sets r) (r_sets r') /\ Forall2 (fun p q => fst q = fst p /\ relisted (snd p) (snd q)) (r_groups r) (r_groups r').

(** A file written for any version but 0.2 is read as one of the older format, under the name of the group
    it has been written to and no other. *)
Theorem C75_older : forall version name expand bn cs (b : block A) ivs vs, version <> "0.2" -> dd_items (b_ivar b) = Ok ivs -> dd_items (b_var b) = Ok vs ->
  dims_ok ivs -> old_vars_ok enc dec ivs vs ->
  exists r, save_any enc dimenc dimenc2 version name expand bn cs b = Ok r /\
    forall r', root_relisted r r' ->
      (exists bn' cs' b', read_any dec lab name r' = Ok (bn', cs', b') /\ same_text bn bn' /\
        Forall2 (fun c c' => trimmed c' /\ exists w1 w2, c = w1 ++ c' ++ w2 /\ blank w1 /\ blank w2) cs cs' /\ old_block dimenc ivs vs b') /\
      (forall name', name' <> name -> read_any dec lab name' r' = Err KeyError).
Proof.
  intros version name expand bn cs b ivs vs NV Ei Ev HI HV. destruct (C75_roundtrip bn cs b ivs vs Ei Ev HI HV) as (g & S1 & S2). exists (mkRoot None [] [(name, g)]). split.
  - unfold save_any. apply String.eqb_neq in NV. rewrite NV, S1. reflexivity.
  - intros [v ss gs] (R1 & _ & R2). cbn [r_version r_groups r_sets] in *. subst v. inversion R2 as [|p q l l' [Q1 Q2] Q3]; subst. inversion Q3; subst. destruct q as [n g']. cbn [fst snd] in *. subst n.
    unfold read_any. cbn [r_version r_groups pd_get]. change ("" =? "0.2")%string with false. split.
    + rewrite String.eqb_refl. cbn [of_option bind]. now apply S2.
    + intros name' N. apply String.eqb_neq in N. now rewrite N.
Qed.

(** One written for version 0.2 is read as one of the newer format, whatever name is asked for; the block has
    neither its name nor its comments. *)
Theorem C75_newer : forall name bn cs (b : block A) ivs vs, dd_items (b_ivar b) = Ok ivs -> dd_items (b_var b) = Ok vs ->
  dims_ok ivs -> vars_ok enc dec ivs vs ->
  exists r, save_any enc dimenc dimenc2 "0.2" name None bn cs b = Ok r /\
    forall r' name', root_relisted r r' -> exists b', read_any dec lab name' r' = Ok (None, [], b') /\ block_read dimenc2 (in_list ivs) vs b'.
Proof.
  intros name bn cs b ivs vs Ei Ev HI HV. destruct (C61_roundtrip enc dec dimenc2 lab b ivs vs Ei Ev HI HV) as (f & S1 & S2). exists (mkRoot (Some "0.2") f []). split.
  - unfold save_any. rewrite S1. reflexivity.
  - intros [v ss gs] name' (R1 & R2 & _). cbn [r_version r_groups r_sets] in *. subst v. destruct (S2 ss R2) as (b' & B1 & B2). exists b'. split; [|exact B2]. unfold read_any. cbn [r_version r_sets]. rewrite B1. reflexivity.
Qed.
End Old.
Print Assumptions C75_roundtrip.
Print Assumptions C75_slash.
Print Assumptions C75_older.
Print Assumptions C75_newer.

(** ** A block *)
Definition old_b : block Z := h5_block [("a\b", h5_x); ("S", h5_m)] [("f", h5_f); ("i", h5_i); ("j", h5_j); ("k", mkDim CDimAnonymous "k" [LZ 5] (Some "NONE") None)].
Definition old_back (bn : option string) (cs : list (list ascii)) (b : block Z) :=
  do r <- save_any h5_enc (fun l => l) (fun l => l) "0.1" "db" None bn cs b; read_any h5_dec LZ "db" r.
Example C75_ex_ok : dims_ok [("f", h5_f); ("i", h5_i); ("j", h5_j); ("k", mkDim CDimAnonymous "k" [LZ 5] (Some "NONE") None)] /\
  old_vars_ok h5_enc h5_dec [("f", h5_f); ("i", h5_i); ("j", h5_j); ("k", mkDim CDimAnonymous "k" [LZ 5] (Some "NONE") None)] [("a\b", h5_x); ("S", h5_m)].
Proof.
  split.
  - split; [repeat constructor; cbn; intuition discriminate|]. repeat constructor; cbn; try discriminate; auto; try (left; discriminate); right; discriminate.
  - split; [repeat constructor; cbn; intuition discriminate|]. split; [|split].
    + intros p [<-|[<-|[]]]; (split; [apply h5_names; cbn; intuition discriminate|cbn; intuition discriminate]).
    + intros p m e [<-|[<-|[]]] H; vm_compute in H; discriminate H.
    + intros p [<-|[<-|[]]]; cbn; (split; [reflexivity|]); (split; [repeat constructor|]); intros d I; h5_all; cbn; auto.
Qed.
Example C75_ex : option_map (fun t => (fst t, h_dims match pd_get "a\b" (dd_map (b_var (snd t))) with Some x => x | None => h5_m end, pd_get "k" (dd_map (b_ivar (snd t)))))
    (match old_back (Some "noise") [list_ascii_of_string " ! x = 1 "] old_b with Ok t => Some t | Err _ => None end) =
  Some ((Some "noise", [list_ascii_of_string "! x = 1"]), [mkDim CDimSweep "f" [LZ 1; LZ 2] (Some "Hz") None], Some (mkDim CDimRep "k" [LZ 5] None None)).
Proof. vm_compute. reflexivity. Qed.
Example C75_ex_slash : (exists g, old_save h5_enc (fun l => l) None [] h5_b = Ok g) /\ old_back None [] h5_b = Err KeyError.
Proof. split; [eexists|]; vm_compute; reflexivity. Qed.

(** So what is written is not always what is read: a block of the name None has no name afterwards, a unit
    none is no unit, a format is not kept. *)
Theorem C75_name_refuted : exists bn t, old_back bn [] old_b = Ok t /\ fst (fst t) <> bn.
Proof. exists (Some "None"). eexists. split; [vm_compute; reflexivity|]. vm_compute. discriminate. Qed.
Print Assumptions C75_name_refuted.
Theorem C75_format_refuted : exists b t x y, old_back None [] b = Ok t /\ dd_get "x" (b_var b) = Ok x /\ dd_get "x" (b_var (snd t)) = Ok y /\ h_fmt x <> h_fmt y.
Proof. exists (h5_block [("x", mkHF (mkNd [2] [3; 4]%Z) DInt [h5_f] (Some "V") "%.3d")] [("f", h5_f)]). eexists. eexists. eexists. split; [vm_compute; reflexivity|]. split; [vm_compute; reflexivity|]. split; [vm_compute; reflexivity|]. vm_compute. discriminate. Qed.
Print Assumptions C75_format_refuted.
