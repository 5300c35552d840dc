(** C74: reading one or several files. *)
From Coq Require Import Ascii String List Arith ZArith Bool Lia.
From Verif Require Import Model_NdArray Model_Dim Model_Array Model_DataDict Model_Block Model_Text Model_Utils Model_ReadFiles Spec_ReadFiles Proofs_Block.
Import ListNotations.
Local Open Scope string_scope.
Local Open Scope nat_scope.
Local Open Scope list_scope.

Lemma mapM_iff : forall {X Y} (f : X -> result Y) xs ys, mapM f xs = Ok ys <-> Forall2 (fun x y => f x = Ok y) xs ys.
Proof.
  intros X Y f. induction xs as [|x xs IH]; intros ys; cbn [mapM].
  - split; [intros [= <-]; constructor|intros H; inversion H; reflexivity].
  - split.
    + destruct (f x) as [y|] eqn:E; [|discriminate]. cbn [bind]. destruct (mapM f xs) as [ys'|] eqn:E'; [|discriminate]. cbn [bind]. intros [= <-]. constructor; auto. now apply IH.
    + intros H. inversion H as [|? y ? ys' H1 H2]; subst. apply IH in H2. rewrite H1. cbn [bind]. rewrite H2. reflexivity.
Qed.
Lemma stage_iff : forall {B} on (f : B -> result B) xs ys, stage on f xs = Ok ys <-> Forall2 (opt on f) xs ys.
Proof.
  intros B [] f xs ys; unfold stage, opt; [apply mapM_iff|]. split; [intros [= <-]; clear; induction xs; constructor; auto|].
  intros H. f_equal. induction H; subst; auto.
Qed.
Lemma Forall2_both : forall {X Y Z} (R : X -> Y -> Prop) (T : Y -> Z -> Prop) xs zs,
  Forall2 (fun x z => exists y, R x y /\ T y z) xs zs <-> exists ys, Forall2 R xs ys /\ Forall2 T ys zs.
Proof.
  intros X Y Z R T xs zs. split.
  - induction 1 as [|x z xs zs [y [H1 H2]] _ [ys [I1 I2]]]; [exists []|exists (y :: ys)]; auto.
  - intros [ys [H1 H2]]. revert zs H2. induction H1; intros zs H2; inversion H2; subst; constructor; eauto.
Qed.
Lemma Forall2_same : forall {X Y} (R T : X -> Y -> Prop) xs ys, (forall x y, R x y <-> T x y) -> Forall2 R xs ys <-> Forall2 T xs ys.
Proof. intros X Y R T xs ys H. split; induction 1; constructor; auto; now apply H. Qed.
Lemma bind_ok : forall {X Y} (r : result X) (k : X -> result Y) y, bind r k = Ok y <-> exists x, r = Ok x /\ k x = Ok y.
Proof. intros X Y [x|e] k y; cbn [bind]; split; [eauto|intros [x' [[= <-] H]]; auto|discriminate|intros [x' [H _]]; discriminate H]. Qed.
Lemma each_iff : forall {X Y} (R T : nat -> X -> Y -> Prop) i xs ys, (forall i x y, R i x y <-> T i x y) -> each R i xs ys <-> each T i xs ys.
Proof. intros X Y R T i xs ys H. split; induction 1; constructor; auto; now apply H. Qed.

Section Claims.
Context {A content : Type} (lab : A -> label) (name_array : list ascii -> hf A) (glob1 : list ascii -> list (list ascii)) (open_ : list ascii -> result content).
Context (merge_blocks : bool -> list (block A) -> result (block A)).
Implicit Types (fmt : @format A content) (b : block A) (o : options).
Notation do_file := (do_file merge_blocks).
Notation read_file := (read_file lab name_array glob1 open_ merge_blocks).

Lemma with_index_iff : forall i b b', numbered i b b' <-> with_index i b = b'.
Proof.
  intros i b b'. unfold numbered, with_index. destruct (b_contains "FILEINDEX" b); split.
  - intros [[_ ->]|[H _]]; [reflexivity|discriminate H].
  - intros <-. auto.
  - intros [[H _]|[_ [E1 [E2 E3]]]]; [discriminate H|]. destruct b' as [v iv x]. cbn [b_var b_ivar b_x] in *. subst. reflexivity.
  - intros <-. right. repeat split.
Qed.
Lemma with_name_iff : forall n b b', h_dims (name_array n) = [] -> labelled name_array n b b' <-> with_name lab name_array n b = Ok b'.
Proof.
  intros n b b' H. unfold labelled, with_name. destruct (b_contains "FILENAME" b) eqn:C; split.
  - intros [[_ ->]|[X _]]; [reflexivity|discriminate X].
  - intros [= <-]. auto.
  - intros [[X _]|[_ [E1 [E2 E3]]]]; [discriminate X|]. unfold b_set. change (is_matrix_name "FILENAME") with (@None (string * (Z * Z))). cbv zeta. rewrite H.
    unfold b_contains in C. apply orb_false_iff in C as [_ C]. unfold dd_contains, pd_has in C. destruct (pd_get "FILENAME" (dd_map (b_ivar b))) as [q|]; [discriminate C|]. cbn [bind b_var b_ivar add_ivars fold_left].
    destruct b' as [v iv x]. cbn [b_var b_ivar b_x] in *. subst. f_equal. f_equal. unfold next_x. now destruct (b_x b).
  - intros E. right. split; [reflexivity|]. unfold b_set in E. change (is_matrix_name "FILENAME") with (@None (string * (Z * Z))) in E. cbv zeta in E. rewrite H in E.
    unfold b_contains in C. apply orb_false_iff in C as [_ C]. unfold dd_contains, pd_has in C. destruct (pd_get "FILENAME" (dd_map (b_ivar b))) as [q|]; [discriminate C|]. cbn [bind b_var b_ivar add_ivars fold_left] in E.
    injection E as <-. cbn [b_var b_ivar b_x]. repeat split. unfold next_x. now destruct (b_x b).
Qed.
Lemma merge_iff : forall o bs m, o_merge o = true -> merged merge_blocks o bs m <-> merge_ merge_blocks o bs = Ok (inl m).
Proof.
  intros o bs m H. unfold merged, merge_. rewrite H. destruct bs as [|b [|b' bs]].
  - rewrite bind_ok. split; [intros [X|[_ X]]; [discriminate X|eauto]|]. intros [x [E [= <-]]]. right. split; [discriminate|exact E].
  - split; [intros [[= ->]|[X _]]; [reflexivity|cbn in X; congruence]|]. intros [= <-]. auto.
  - rewrite bind_ok. split; [intros [X|[_ X]]; [discriminate X|eauto]|]. intros [x [E [= <-]]]. right. split; [cbn; lia|exact E].
Qed.
Lemma stages_iff : forall fmt o bs ps, Forall2 (processed fmt o) bs ps <->
  (do blocks <- stage (o_complex o) (f_complex fmt) bs; do blocks <- stage (o_property o) (f_property fmt) blocks; do blocks <- stage (o_unit o) (f_unit fmt) blocks;
   do blocks <- stage (o_normalize o) (f_normalize fmt) blocks; stage (o_matrix o) (f_matrix fmt) blocks) = Ok ps.
Proof.
  intros fmt o bs ps. rewrite bind_ok.
  transitivity (Forall2 (fun b b' => exists b1, opt (o_complex o) (f_complex fmt) b b1 /\ exists b2, opt (o_property o) (f_property fmt) b1 b2 /\ exists b3, opt (o_unit o) (f_unit fmt) b2 b3 /\
     exists b4, opt (o_normalize o) (f_normalize fmt) b3 b4 /\ opt (o_matrix o) (f_matrix fmt) b4 b') bs ps).
  { apply Forall2_same. intros x y. unfold processed. split; [intros (b1 & b2 & b3 & b4 & H1 & H2 & H3 & H4 & H5)|intros (b1 & H1 & b2 & H2 & b3 & H3 & b4 & H4 & H5)]; eauto 12. }
  rewrite Forall2_both. split; intros [l1 [H1 H2]]; exists l1; rewrite stage_iff in *; (split; [exact H1|]); revert H2; rewrite bind_ok, Forall2_both;
  intros [l2 [H2 H3]]; exists l2; rewrite stage_iff in *; (split; [exact H2|]); revert H3; rewrite bind_ok, Forall2_both;
  intros [l3 [H3 H4]]; exists l3; rewrite stage_iff in *; (split; [exact H3|]); revert H4; rewrite bind_ok, Forall2_both;
  intros [l4 [H4 H5]]; exists l4; rewrite !stage_iff in *; auto.
Qed.
Lemma do_file_stages : forall fmt o i c, do_file fmt o i c = (do bs <- f_parse fmt c; match bs with [] => Err GenericError | _ =>
  do ps <- (do blocks <- stage (o_complex o) (f_complex fmt) bs; do blocks <- stage (o_property o) (f_property fmt) blocks; do blocks <- stage (o_unit o) (f_unit fmt) blocks;
   do blocks <- stage (o_normalize o) (f_normalize fmt) blocks; stage (o_matrix o) (f_matrix fmt) blocks);
  do m <- merge_ merge_blocks o ps; match m with inl b => Ok (with_index i b) | inr _ => Err AttributeError end end).
Proof.
  intros fmt o i c. unfold do_file. destruct (f_parse fmt c) as [[|b bs]|]; try reflexivity. cbn [bind].
  destruct (stage (o_complex o) _ _); [|reflexivity]. cbn [bind]. destruct (stage (o_property o) _ _); [|reflexivity]. cbn [bind].
  destruct (stage (o_unit o) _ _); [|reflexivity]. cbn [bind]. destruct (stage (o_normalize o) _ _); reflexivity.
Qed.

(** One file: every block goes through the stages, in this order, the others
    notwithstanding; then the blocks are merged and the file numbered. *)
Theorem C74_file : forall fmt o i c b, do_file fmt o i c = Ok b <-> o_merge o = true /\ file_gives merge_blocks fmt o c i b.
Proof.
  intros fmt o i c b. rewrite do_file_stages, bind_ok. unfold file_gives. split.
  - intros [bs [E1 H]]. destruct bs as [|x bs]; [discriminate H|]. apply bind_ok in H as [ps [E2 H]]. apply stages_iff in E2. apply bind_ok in H as [m [E3 H]].
    destruct (o_merge o) eqn:M; [|unfold merge_ in E3; rewrite M in E3; injection E3 as <-; discriminate H].
    destruct m as [m|]; [|discriminate H]. injection H as H. split; [reflexivity|]. exists (x :: bs), ps, m. split; [exact E1|]. split; [discriminate|]. split; [exact E2|]. split; [now apply merge_iff|now apply with_index_iff].
  - intros [M [bs [ps [m [E1 [N [E2 [E3 E4]]]]]]]]. exists bs. split; [exact E1|]. destruct bs as [|x bs]; [congruence|]. apply bind_ok. exists ps. split; [now apply stages_iff|].
    apply bind_ok. exists (inl m). split; [now apply merge_iff|]. f_equal. now apply with_index_iff.
Qed.

Lemma read_loop_iff : forall fmt o names i bs, (forall n, h_dims (name_array n) = []) ->
  read_loop lab name_array open_ merge_blocks fmt o true i names = Ok bs <->
  each (fun i n b => exists c b0, open_ n = Ok c /\ do_file fmt o i c = Ok b0 /\ labelled name_array n b0 b) i names bs.
Proof.
  intros fmt o names. induction names as [|n names IH]; intros i bs HN; cbn [read_loop].
  - split; [intros [= <-]; constructor|intros H; inversion H; reflexivity].
  - split.
    + intros H. apply bind_ok in H as [c [E1 H]]. apply bind_ok in H as [b0 [E2 H]]. apply bind_ok in H as [b [E3 H]]. apply bind_ok in H as [bs' [E4 H]]. injection H as <-.
      constructor; [exists c, b0; split; [exact E1|]; split; [exact E2|]; now apply with_name_iff|]. now apply IH.
    + intros H. inversion H as [|? ? b ? bs' [c [b0 [E1 [E2 E3]]]] H2]; subst. apply bind_ok. exists c. split; [exact E1|]. apply bind_ok. exists b0. split; [exact E2|]. apply bind_ok. exists b. split; [now apply with_name_iff|].
      apply bind_ok. exists bs'. split; [now apply IH|reflexivity].
Qed.
Lemma glob_all_iff : forall pats names, glob_all glob1 pats = Ok names <-> matching glob1 pats names.
Proof.
  intros pats names. unfold glob_all, matching. rewrite bind_ok. split; intros [ls [H1 H2]]; exists ls; rewrite mapM_iff in *; split; auto; [now injection H2 as <-|now subst].
Qed.

(** Several files: those that match, in order; the i-th one is numbered i and bears
    its name; the blocks of the files are merged. *)
Theorem C74_files : (forall n, h_dims (name_array n) = []) -> forall fmt o pats r, read_file fmt o true pats = Ok r <->
  o_merge o = true /\ exists names bs m, matching glob1 pats names /\ names <> [] /\
    each (fun i n b => exists c b0, open_ n = Ok c /\ file_gives merge_blocks fmt o c i b0 /\ labelled name_array n b0 b) 0 names bs /\
    merged merge_blocks o bs m /\ r = inl m.
Proof.
  intros HN fmt o pats r. unfold read_file. rewrite bind_ok. split.
  - intros [names [E1 H]]. apply glob_all_iff in E1. destruct names as [|n names]; [discriminate H|]. apply bind_ok in H as [bs [E2 H]]. apply read_loop_iff in E2; auto.
    assert (M : o_merge o = true) by (inversion E2 as [|? ? ? ? ? [c [b0 [_ [X _]]]] _]; subst; now apply C74_file in X). split; [exact M|].
    destruct r as [m|l]; [|unfold merge_ in H; rewrite M in H; destruct bs as [|? [|? ?]]; try discriminate H; apply bind_ok in H as [? [_ H]]; discriminate H].
    exists (n :: names), bs, m. split; [exact E1|]. split; [discriminate|]. split; [|split; [now apply merge_iff|reflexivity]].
    eapply each_iff; [|exact E2]. intros j x y. split; intros [c [b0 [H1 [H2 H3]]]]; exists c, b0; (split; [exact H1|]); (split; [|exact H3]); [apply C74_file; auto|now apply C74_file in H2].
  - intros [M [names [bs [m [E1 [N [E2 [E3 ->]]]]]]]]. exists names. split; [now apply glob_all_iff|]. destruct names as [|n names]; [congruence|]. apply bind_ok. exists bs. split; [|now apply merge_iff].
    apply read_loop_iff; auto. eapply each_iff; [|exact E2]. intros j x y. split; intros [c [b0 [H1 [H2 H3]]]]; exists c, b0; (split; [exact H1|]); (split; [|exact H3]); [now apply C74_file in H2|apply C74_file; auto].
Qed.

(** No match, no blocks, no merging. *)
Theorem C74_refused : forall fmt o,
  (forall pats, matching glob1 pats [] -> read_file fmt o true pats = Err GenericError) /\
  (forall i c, f_parse fmt c = Ok [] -> do_file fmt o i c = Err GenericError) /\
  (o_merge o = false -> (forall multiple pats r, read_file fmt o multiple pats <> Ok r \/ (multiple = false /\ pats = [])) /\
     forall i c bs ps, f_parse fmt c = Ok bs -> bs <> [] -> Forall2 (processed fmt o) bs ps -> do_file fmt o i c = Err AttributeError).
Proof.
  intros fmt o. split; [|split].
  - intros pats H. apply glob_all_iff in H. unfold read_file. rewrite H. reflexivity.
  - intros i c H. unfold do_file. rewrite H. reflexivity.
  - intros M. assert (D : forall i c b, do_file fmt o i c <> Ok b) by (intros i c b H; apply C74_file in H as [H _]; congruence). split.
    + intros multiple pats r. assert (X : forall names, names <> [] -> forall i bs, read_loop lab name_array open_ merge_blocks fmt o multiple i names <> Ok bs).
      { intros [|n names] N i bs H; [congruence|]. cbn [read_loop] in H. apply bind_ok in H as [c [_ H]]. apply bind_ok in H as [b [H _]]. exact (D _ _ _ H). }
      unfold read_file. destruct multiple.
      * left. intros H. apply bind_ok in H as [names [_ H]]. destruct names as [|n names]; [discriminate H|]. apply bind_ok in H as [bs [H _]]. revert H. apply X. discriminate.
      * destruct pats as [|n names]; [right; auto|]. left. cbn [bind]. intros H. apply bind_ok in H as [bs [H _]]. revert H. apply X. discriminate.
    + intros i c bs ps H1 N H2. rewrite do_file_stages, H1. cbn [bind]. destruct bs as [|x bs]; [congruence|]. apply stages_iff in H2. rewrite H2. cbn [bind]. unfold merge_. rewrite M. reflexivity.
Qed.

(** Without expansion of names the blocks of one file are left unmerged with others. *)
Theorem C74_single : forall fmt o n r, read_file fmt o false [n] = Ok r <-> o_merge o = true /\ exists c b, open_ n = Ok c /\ file_gives merge_blocks fmt o c 0 b /\ r = inr [b].
Proof.
  intros fmt o n r. unfold read_file. cbn [bind read_loop]. rewrite bind_ok. split.
  - intros [bs [H E]]. injection E as <-. apply bind_ok in H as [c [H1 H]]. apply bind_ok in H as [b [H2 H]]. cbn [bind] in H. injection H as <-. apply C74_file in H2 as [M H2]. split; [exact M|]. exists c, b. auto.
  - intros [M [c [b [H1 [H2 ->]]]]]. exists [b]. split; [|reflexivity]. apply bind_ok. exists c. split; [exact H1|]. apply bind_ok. exists b. split; [apply C74_file; auto|reflexivity].
Qed.

(** What the marks are in the block. *)
Theorem C74_marks : forall i n b0 b1 b, numbered i b0 b1 -> labelled name_array n b1 b ->
  (forall k, k <> "FILENAME" -> dd_get k (b_var b) = dd_get k (b_var b0)) /\ (forall k, k <> "FILEINDEX" -> dd_get k (b_ivar b) = dd_get k (b_ivar b0)) /\
  (b_contains "FILEINDEX" b0 = false -> dd_get "FILEINDEX" (b_ivar b) = Ok (mkDim CDimPartial "FILEINDEX" [LZ (Z.of_nat i)] None None)) /\
  (b_contains "FILENAME" b0 = false -> dd_get "FILENAME" (b_var b) = Ok (name_array n)) /\
  b_contains "FILEINDEX" b = true /\ b_contains "FILENAME" b = true.
Proof.
  intros i n b0 b1 b H1 H2.
  assert (G : forall (V : Type) k k' (v : V) d, dd_get k (dd_set k' v d) = if String.eqb k k' then Ok v else dd_get k d).
  { intros V k k' v d. unfold dd_get. rewrite get_set. now destruct (String.eqb k k'). }
  destruct H1 as [[C1 ->]|[C1 [V1 [I1 _]]]], H2 as [[C2 ->]|[C2 [V2 [I2 _]]]].
  - split; [auto|]. split; [auto|]. split; [intros X; congruence|]. split; [intros X; congruence|]. auto.
  - split; [intros k N; rewrite V2, G; destruct (String.eqb_spec k "FILENAME"); [contradiction|reflexivity]|]. split; [intros k N; now rewrite I2|].
    split; [intros X; congruence|]. split; [intros _; rewrite V2, G; reflexivity|]. split; [|unfold b_contains; rewrite V2, contains_set; reflexivity].
    unfold b_contains in *. rewrite V2, I2, contains_set. exact C1.
  - assert (X : b_contains "FILENAME" b0 = b_contains "FILENAME" b1) by (unfold b_contains; rewrite V1, I1, contains_set; reflexivity).
    split; [intros k N; now rewrite V1|]. split; [intros k N; rewrite I1, G; destruct (String.eqb_spec k "FILEINDEX"); [contradiction|reflexivity]|].
    split; [intros _; rewrite I1, G; reflexivity|]. split; [intros Y; congruence|]. split; [|exact C2]. unfold b_contains. rewrite I1, contains_set. apply orb_true_r.
  - split; [intros k N; rewrite V2, G, V1; destruct (String.eqb_spec k "FILENAME"); [contradiction|reflexivity]|].
    split; [intros k N; rewrite I2, I1, G; destruct (String.eqb_spec k "FILEINDEX"); [contradiction|reflexivity]|].
    split; [intros _; rewrite I2, I1, G; reflexivity|]. split; [intros _; rewrite V2, G; reflexivity|]. split.
    + unfold b_contains. rewrite I2, I1, contains_set. apply orb_true_r.
    + unfold b_contains. rewrite V2, contains_set. reflexivity.
Qed.

(** ** MDIF *)
Context (mdif_parse : content -> result (list (string * block A))) (stages : options -> list (string * block A) -> result (list (string * block A))).
Context (simple_merge : list (block A) -> result (block A)) (guess_units : block A -> result (block A)).
Notation mdif_read := (mdif_read lab name_array glob1 open_ mdif_parse stages simple_merge guess_units).

Definition under (k : string) (d : list (string * list (block A))) : list (block A) := concat (map snd (filter (fun g => String.eqb (fst g) k) d)).
Lemma under_extend : forall k k' v (d : list (string * list (block A))), NoDup (map fst d) -> under k (extend k' v d) = under k d ++ (if String.eqb k' k then v else []).
Proof.
  intros k k' v. induction d as [|[m w] d IH]; intros ND; cbn [extend].
  - unfold under. cbn [filter fst]. destruct (String.eqb k' k); cbn; now rewrite ?app_nil_r.
  - cbn [map fst] in ND. inversion ND as [|? ? N1 N2]; subst. destruct (String.eqb_spec m k') as [->|D].
    + unfold under. cbn [filter fst]. destruct (String.eqb_spec k' k) as [->|D']; cbn [map snd concat].
      * replace (filter (fun g => String.eqb (fst g) k) d) with (@nil (string * list (block A))); [cbn; now rewrite !app_nil_r|].
        symmetry. clear - N1. induction d as [|[a c] d IH]; [reflexivity|]. cbn [filter fst]. destruct (String.eqb_spec a k); [exfalso; apply N1; left; auto|apply IH; intros I; apply N1; right; auto].
      * now rewrite app_nil_r.
    + unfold under in *. cbn [filter fst]. specialize (IH N2). destruct (String.eqb m k); cbn [map snd concat]; rewrite IH; now rewrite ?app_assoc.
Qed.
Lemma keys_extend : forall k k' v (d : list (string * list (block A))), In k (map fst (extend k' v d)) <-> k = k' \/ In k (map fst d).
Proof.
  intros k k' v. induction d as [|[m w] d IH]; cbn [extend map fst In]; [intuition|]. destruct (String.eqb_spec m k') as [->|D]; cbn [map fst In]; [intuition|]. rewrite IH. intuition.
Qed.
Lemma nodup_extend : forall k v (d : list (string * list (block A))), NoDup (map fst d) -> NoDup (map fst (extend k v d)).
Proof.
  intros k v. induction d as [|[m w] d IH]; intros ND; cbn [extend map fst]; [constructor; auto; constructor|]. cbn [map fst] in ND. inversion ND as [|? ? N1 N2]; subst.
  destruct (String.eqb_spec m k) as [->|D]; cbn [map fst]; constructor; auto. intros I. apply keys_extend in I as [->|I]; auto.
Qed.
Definition solid (d : list (string * list (block A))) : Prop := NoDup (map fst d) /\ Forall (fun g => snd g <> []) d.
Lemma solid_extend : forall k v d, v <> [] -> solid d -> solid (extend k v d).
Proof.
  intros k v d N [S1 S2]. split; [now apply nodup_extend|]. clear S1. induction d as [|[m w] d IH]; cbn [extend]; [constructor; auto|]. inversion S2 as [|? ? H1 H2]; subst.
  destruct (String.eqb m k); constructor; cbn [snd] in *; auto. intros X. apply app_eq_nil in X as [-> _]. contradiction.
Qed.
Lemma fold_extend : forall (l : list (string * list (block A))) d, Forall (fun g => snd g <> []) l -> solid d ->
  let r := fold_left (fun d g => extend (fst g) (snd g) d) l d in solid r /\ forall k, under k r = under k d ++ under k l.
Proof.
  induction l as [|[m w] l IH]; intros d F S1; cbn [fold_left fst snd]; [split; auto; intros k; unfold under at 3; cbn; now rewrite app_nil_r|].
  inversion F as [|? ? F1 F2]; subst. cbn [snd] in F1. destruct (IH (extend m w d) F2 (solid_extend m w d F1 S1)) as [I1 I2]. split; [exact I1|]. intros k. rewrite I2, under_extend by apply S1.
  rewrite <- app_assoc. f_equal. unfold under. cbn [filter fst]. destruct (String.eqb m k); reflexivity.
Qed.
Lemma fold_groups : forall (l : list (string * block A)) d, fold_left (fun d p => extend (fst p) [snd p] d) l d = fold_left (fun d g => extend (fst g) (snd g) d) (map (fun p => (fst p, [snd p])) l) d.
Proof. induction l as [|p l IH]; intros d; cbn; auto. Qed.
Lemma under_single : forall k (l : list (string * block A)), under k (map (fun p => (fst p, [snd p])) l) = of_name k l.
Proof. intros k. induction l as [|p l IH]; [reflexivity|]. unfold under, of_name in *. cbn [map filter fst]. destruct (String.eqb (fst p) k); cbn [map concat snd app]; now rewrite IH. Qed.
Lemma groups_ok : forall (l : list (string * block A)), let r := fold_left (fun d p => extend (fst p) [snd p] d) l [] in solid r /\ forall k, under k r = of_name k l.
Proof.
  intros l. cbv zeta. rewrite fold_groups. destruct (fold_extend (map (fun p => (fst p, [snd p])) l) []) as [S1 S2].
  - apply Forall_forall. intros g I. apply in_map_iff in I as [p [<- _]]. discriminate.
  - split; constructor.
  - split; [exact S1|]. intros k. rewrite S2, under_single. reflexivity.
Qed.
Lemma under_in : forall k bs d, solid d -> (In (k, bs) d <-> bs <> [] /\ bs = under k d).
Proof.
  intros k bs d [ND F]. induction d as [|[m w] d IH].
  - split; [intros []|intros [N E]; unfold under in E; cbn in E; contradiction].
  - cbn [map fst] in ND. inversion ND as [|? ? N1 N2]; subst. inversion F as [|? ? F1 F2]; subst. specialize (IH N2 F2). unfold under. cbn [filter fst].
    assert (Z : ~ In k (map fst d) -> under k d = []).
    { intros N. unfold under. replace (filter (fun g => String.eqb (fst g) k) d) with (@nil (string * list (block A))); [reflexivity|]. symmetry. clear - N. induction d as [|[a c] d IH]; [reflexivity|]. cbn [filter fst].
      destruct (String.eqb_spec a k); [exfalso; apply N; left; auto|apply IH; intros I; apply N; right; auto]. }
    destruct (String.eqb_spec m k) as [->|D].
    + cbn [map snd concat]. fold (under k d). rewrite Z by exact N1. rewrite app_nil_r. cbn [In snd] in *. split.
      * intros [[= ->]|I]; [auto|]. exfalso. apply N1. apply in_map_iff. exists (k, bs). auto.
      * intros [_ ->]. auto.
    + fold (under k d). rewrite <- IH. cbn [In]. split; [intros [[= <- <-]|I]; [congruence|exact I]|auto].
Qed.

Lemma mapM_under : forall (f : block A -> result (block A)) d d', mapM (fun g => do bs <- mapM f (snd g); Ok (fst g, bs)) d = Ok d' ->
  map fst d' = map fst d /\ (Forall (fun g => snd g <> []) d -> Forall (fun g => snd g <> []) d') /\ forall k, Forall2 (fun b b' => f b = Ok b') (under k d) (under k d').
Proof.
  intros f d d' H. apply mapM_iff in H. induction H as [|[k v] [k' v'] d d' E H [I1 [I2 I3]]]; [repeat split; constructor|].
  apply bind_ok in E as [bs [E1 E2]]. cbn [fst snd] in *. injection E2 as <- <-. apply mapM_iff in E1. split; [cbn; now rewrite I1|]. split.
  - intros F. inversion F as [|? ? F1 F2]; subst. constructor; auto. cbn [snd] in *. intros X. subst. inversion E1; subst. contradiction.
  - intros m. specialize (I3 m). unfold under in *. cbn [filter fst]. destruct (String.eqb k m); cbn [map snd concat]; auto. apply Forall2_app; auto.
Qed.
Lemma under_map : forall (f : block A -> block A) d k, under k (map (fun g => (fst g, map f (snd g))) d) = map f (under k d).
Proof. intros f d k. induction d as [|[m w] d IH]; [reflexivity|]. unfold under in *. cbn [map filter fst snd]. destruct (String.eqb m k); cbn [map concat snd]; [rewrite map_app; now rewrite IH|exact IH]. Qed.
Lemma Forall2_fun : forall {X Y} (R : X -> Y -> Prop) xs ys ys', (forall x y y', R x y -> R x y' -> y = y') -> Forall2 R xs ys -> Forall2 R xs ys' -> ys = ys'.
Proof. intros X Y R xs ys ys' F H. revert ys'. induction H; intros ys' H'; inversion H'; subst; auto. f_equal; eauto. Qed.

(** The blocks of one file, found one by one. *)
Lemma flat_exists : forall (f : block A -> result (block A)) (ps : list (string * block A)) (w : string -> list (block A)),
  (forall k, Forall2 (fun b b' => f b = Ok b') (of_name k ps) (w k)) ->
  exists l, Forall2 (fun p q => fst q = fst p /\ f (snd p) = Ok (snd q)) ps l /\ forall k, w k = of_name k l.
Proof.
  intros f ps w H.
  assert (E : forall p, In p ps -> exists b, f (snd p) = Ok b).
  { intros p I. specialize (H (fst p)). assert (J : In (snd p) (of_name (fst p) ps)) by (unfold of_name; apply in_map_iff; exists p; split; auto; apply filter_In; split; auto; apply String.eqb_refl).
    clear - H J. induction H as [|x y xs ys H1 H2 IH]; [destruct J|]. destruct J as [<-|J]; eauto. }
  assert (L : exists l, Forall2 (fun p q => fst q = fst p /\ f (snd p) = Ok (snd q)) ps l).
  { clear - E. induction ps as [|p ps IH]; [exists []; constructor|]. destruct (E p (or_introl eq_refl)) as [b Hb]. destruct IH as [l Hl]; [intros q I; apply E; right; auto|]. exists ((fst p, b) :: l). constructor; auto. }
  destruct L as [l Hl]. exists l. split; [exact Hl|]. intros k. eapply (Forall2_fun (fun b b' => f b = Ok b')); [intros x y y' X1 X2; congruence|apply H|].
  clear - Hl. induction Hl as [|p q ps l [H1 H2] _ IH]; [constructor|]. unfold of_name in *. cbn [filter]. rewrite H1. destruct (String.eqb (fst p) k); cbn [map]; auto.
Qed.

Lemma mdif_loop_ok : forall o names i objs r, o_merge o = false -> solid objs -> mdif_loop lab name_array open_ mdif_parse stages simple_merge o i names objs = Ok r ->
  exists ls, each (fun i n l => mdif_gives lab name_array open_ mdif_parse stages o i n l) i names ls /\ solid r /\ forall k, under k r = under k objs ++ of_name k (concat ls).
Proof.
  intros o names. induction names as [|n names IH]; intros i objs r M S1 H; cbn [mdif_loop] in H.
  - injection H as <-. exists []. split; [constructor|]. split; auto. intros k. cbn. now rewrite app_nil_r.
  - apply bind_ok in H as [c [E1 H]]. apply bind_ok in H as [d [E2 H]]. apply bind_ok in H as [objs' [E3 H]].
    unfold mdif_file in E2. apply bind_ok in E2 as [bs [P1 E2]]. destruct bs as [|x bs]; [discriminate E2|]. apply bind_ok in E2 as [ps [P2 E2]]. unfold mdif_merge in E2. rewrite M in E2. cbv zeta in E2. cbn [bind] in E2. injection E2 as <-.
    destruct (groups_ok ps) as [G1 G2]. set (g := fold_left (fun d p => extend (fst p) [snd p] d) ps []) in *.
    unfold add_file in E3. apply bind_ok in E3 as [d' [Q1 Q2]]. injection Q2 as <-. apply mapM_under in Q1 as [K1 [K2 K3]].
    assert (S2 : solid d').
    { destruct G1 as [G11 G12]. split; [rewrite K1, map_map; cbn [fst]; exact G11|]. apply K2. apply Forall_forall. intros q I. apply in_map_iff in I as [q' [<- I]]. cbn [snd]. rewrite Forall_forall in G12. specialize (G12 q' I).
      intros X. apply map_eq_nil in X. contradiction. }
    destruct (flat_exists (fun b => b_set lab "FILENAME" (name_array n) (with_index i b)) ps (fun k => under k d')) as [l [L1 L2]].
    { intros k. specialize (K3 k). rewrite under_map, G2 in K3. clear - K3. revert K3. generalize (of_name k ps) (under k d'). intros xs. induction xs as [|y xs IH]; intros ys H; inversion H; subst; constructor; auto. }
    destruct (fold_extend d' objs (proj2 S2) S1) as [F1 F2]. destruct (IH (S i) _ r M F1 H) as [ls [I1 [I2 I3]]].
    exists (l :: ls). split; [|split; [exact I2|]].
    + constructor; [|exact I1]. exists c, (x :: bs), ps. repeat split; auto; [discriminate|]. clear - L1. induction L1 as [|p q ps l [H1 H2] _ IH]; constructor; auto. split; [exact H1|]. exists (with_index i (snd p)). split; [now apply with_index_iff|exact H2].
    + intros k. rewrite I3, F2, L2. cbn [concat]. unfold of_name. rewrite filter_app, map_app. now rewrite app_assoc.
Qed.

(** MDIF files: under each name the blocks of all files, in order, merged. *)
Theorem C74_mdif : forall o pat res, mdif_read o true None pat = Ok (MDict res) ->
  exists names ls, lex_order (glob1 pat) = Ok names /\ each (fun i n l => mdif_gives lab name_array open_ mdif_parse stages (without_merge o) i n l) 0 names ls /\
    NoDup (map fst res) /\
    forall k bs, In (k, bs) res <-> of_name k (concat ls) <> [] /\ exists b b', simple_merge (of_name k (concat ls)) = Ok b /\ guess_units b = Ok b' /\ bs = [b'].
Proof.
  intros o pat res H. unfold mdif_read in H. cbv zeta in H. fold (without_merge o) in H. apply bind_ok in H as [names [E1 H]]. apply bind_ok in H as [objs [E2 H]]. apply bind_ok in H as [res' [E3 H]]. injection H as <-.
  destruct (mdif_loop_ok (without_merge o) names 0 [] objs eq_refl (conj (NoDup_nil _) (Forall_nil _)) E2) as [ls [L1 [L2 L3]]]. exists names, ls. split; [exact E1|]. split; [exact L1|].
  apply mapM_iff in E3.
  assert (K : map fst res' = map fst objs).
  { clear - E3. induction E3 as [|g g' l l' E _ IH]; [reflexivity|]. apply bind_ok in E as [b [_ E]]. apply bind_ok in E as [b' [_ E]]. injection E as <-. cbn. now rewrite IH. }
  split; [rewrite K; apply L2|]. intros k bs. specialize (L3 k). cbn [under filter map concat app] in L3. change (under k []) with (@nil (block A)) in L3. cbn [app] in L3. rewrite <- L3.
  split.
  - intros I. assert (X : exists g, In g objs /\ fst g = k /\ exists b b', simple_merge (snd g) = Ok b /\ guess_units b = Ok b' /\ bs = [b']).
    { clear - E3 I. induction E3 as [|g g' l l' E _ IH]; [destruct I|]. destruct I as [->|I]; [|destruct (IH I) as [q [J Q]]; exists q; split; [right; auto|auto]].
      apply bind_ok in E as [b [Eb E]]. apply bind_ok in E as [b' [Eb' E]]. injection E as <- <-. exists g. split; [left; auto|]. split; auto. exists b, b'. auto. }
    destruct X as [[m v] [J [<- X]]]. cbn [fst snd] in *. apply under_in in J as [J1 J2]; [|exact L2]. subst v. auto.
  - intros [N [b [b' [E4 [E5 ->]]]]]. assert (J : In (k, under k objs) objs) by (apply under_in; auto).
    revert E4 J. generalize (under k objs). intros w E4 J. clear - E3 J E4 E5. induction E3 as [|g g' l l' E _ IH]; [destruct J|]. destruct J as [->|J]; [|right; auto]. cbn [fst snd] in E. rewrite E4 in E. cbn [bind] in E. rewrite E5 in E. cbn [bind] in E. injection E as <-. left. reflexivity.
Qed.

(** The block of a given name; None if there is none. *)
Theorem C74_mdif_name : forall o multiple pat res k, k <> "" -> mdif_read o multiple None pat = Ok (MDict res) ->
  (forall bs, NoDup (map fst res) -> In (k, bs) res -> mdif_read o multiple (Some k) pat = Ok (MBlocks bs)) /\ (~ In k (map fst res) -> mdif_read o multiple (Some k) pat = Ok MNone).
Proof.
  intros o multiple pat res k N H. unfold mdif_read in *. cbv zeta in *. match type of H with bind ?r _ = _ => destruct r as [names|] end; [|discriminate H]. cbn [bind] in *.
  match type of H with bind ?r _ = _ => destruct r as [objs|] end; [|discriminate H]. cbn [bind] in *. match type of H with bind ?r _ = _ => destruct r as [res'|] end; [|discriminate H]. cbn [bind] in *. injection H as ->.
  destruct k as [|c k]; [congruence|]. split.
  - intros bs ND I. replace (find (fun g => String.eqb (fst g) (String c k)) res) with (Some (String c k, bs)); [reflexivity|]. symmetry. induction res as [|[m v] res IH]; [destruct I|]. cbn [find fst].
    cbn [map fst] in ND. inversion ND as [|? ? N1 N2]; subst. destruct (String.eqb_spec m (String c k)) as [->|D].
    + destruct I as [I|I]; [congruence|]. exfalso. apply N1. apply in_map_iff. exists (String c k, bs). auto.
    + destruct I as [I|I]; [injection I as -> _; congruence|auto].
  - intros NI. replace (find (fun g => String.eqb (fst g) (String c k)) res) with (@None (string * list (block A))); [reflexivity|]. symmetry. induction res as [|[m v] res IH]; [reflexivity|]. cbn [find fst].
    destruct (String.eqb_spec m (String c k)) as [->|D]; [exfalso; apply NI; left; auto|apply IH; intros I; apply NI; right; auto].
Qed.

(** Unlike the other formats, MDIF gives nothing without an error if no file
    matches, and does not look at the option to merge. *)
Theorem C74_mdif_quiet : forall o pat, (glob1 pat = [] -> mdif_read o true None pat = Ok (MDict [])) /\
  forall o' blockname, without_merge o' = without_merge o -> mdif_read o' true blockname pat = mdif_read o true blockname pat.
Proof.
  intros o pat. split.
  - intros H. unfold mdif_read. rewrite H. reflexivity.
  - intros o' bn E. unfold mdif_read. cbv zeta. fold (without_merge o') (without_merge o). now rewrite E.
Qed.
End Claims.
Print Assumptions C74_file.
Print Assumptions C74_files.
Print Assumptions C74_refused.
Print Assumptions C74_single.
Print Assumptions C74_marks.
Print Assumptions C74_mdif.
Print Assumptions C74_mdif_name.
Print Assumptions C74_mdif_quiet.

Definition ex_nm (n : list ascii) : hf Z := mkHF (mkNd [] [Z.of_nat (length n)]) DInt [] None "%d".
Definition ex_o (m : bool) : options := {| o_complex := true; o_property := true; o_unit := true; o_normalize := false; o_matrix := true; o_merge := m; o_hyper := false |}.
(** A format whose files are lists of numbers, one for each block; every stage but
    the normalization, which is switched off, leaves a trace. *)
Definition ex_add (k : string) (b : block Z) : result (block Z) := b_set LZ k (ex_nm []) b.
Definition ex_fmt : @format Z (list Z) := {|
  f_parse := fun c => Ok (map (fun z => b_set_dim "n" (mkDim CDimPartial "n" [LZ z] None None) b_empty) c);
  f_complex := ex_add "c"; f_property := ex_add "p"; f_unit := ex_add "u"; f_normalize := ex_add "x"; f_matrix := ex_add "m" |}.
Definition ex_open (n : list ascii) : result (list Z) := match n with [] => Err GenericError | _ => Ok (map (fun c => Z.of_nat (nat_of_ascii c)) n) end.
Definition ex_mg (h : bool) (bs : list (block Z)) : result (block Z) := of_option IndexError (nth_error bs 1).
Definition ex_glob (p : list ascii) : list (list ascii) := match p with [] => [] | _ => [p ++ ["b"%char]; p] end.
Definition ex_seen (r : result (block Z + list (block Z))) : result (list string * option (list label)) :=
  match r with Ok (inl b) => Ok (dd_order (b_var b), option_map d_data (pd_get "FILEINDEX" (dd_map (b_ivar b)))) | Ok (inr _) => Err TypeError | Err e => Err e end.
Example C74_ex :
  ex_seen (read_file LZ ex_nm ex_glob ex_open ex_mg ex_fmt (ex_o true) true [["a"%char]]) = Ok (["c"; "p"; "u"; "m"; "FILENAME"], Some [LZ 1]) /\
  ex_seen (read_file LZ ex_nm ex_glob ex_open ex_mg ex_fmt (ex_o true) true [[]]) = Err GenericError /\
  ex_seen (read_file LZ ex_nm ex_glob ex_open ex_mg ex_fmt (ex_o false) true [["a"%char]]) = Err AttributeError.
Proof. vm_compute. auto. Qed.
(** Two blocks of one name and one of another in each file. *)
Definition ex_mparse (c : list Z) : result (list (string * block Z)) := Ok (map (fun k => (k, b_empty)) ["g"; "h"; "g"]).
Definition ex_mdif (k : option string) := mdif_read LZ ex_nm ex_glob ex_open ex_mparse (fun _ l => Ok l) (fun bs => of_option IndexError (nth_error bs 1)) (fun b => Ok b) (ex_o true) true k ["a"%char].
Example C74_ex_mdif :
  (do r <- ex_mdif None; Ok (match r with MDict d => map (fun g => (fst g, length (snd g))) d | _ => [] end)) = Ok [("g", 1); ("h", 1)] /\
  (do r <- ex_mdif (Some "h"); Ok (match r with MBlocks [b] => pd_get "FILEINDEX" (dd_map (b_ivar b)) | _ => None end)) = Ok (Some (mkDim CDimPartial "FILEINDEX" [LZ 1] None None)) /\
  ex_mdif (Some "q") = Ok MNone.
Proof. vm_compute. auto. Qed.
