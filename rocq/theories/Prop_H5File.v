(** C61: blocks written to HDF5 files and read back. *)
From Coq Require Import Ascii String List Arith ZArith Bool Lia Permutation.
From Verif Require Import Model_NdArray Model_Dim Model_Array Model_DataDict Model_Block Model_Text Model_Hdf5 Model_H5File Spec_Array Spec_Block Spec_H5File Proofs_DataDict Proofs_Array5 Proofs_Block Proofs_Block3 Proofs_H5File.
Import ListNotations.
Local Open Scope string_scope.
Local Open Scope nat_scope.
Local Open Scope list_scope.

Lemma get_result : forall {V} k (d : ddict V) v, dd_get k d = Ok v <-> pd_get k (dd_map d) = Some v.
Proof. intros V k d v. unfold dd_get. destruct (pd_get k (dd_map d)); cbn; split; congruence. Qed.

Section File.
Context {A D : Type}.
Variable enc : dtype -> A -> D.
Variable dec : dtype -> D -> A.
Variable dimenc : list label -> list label.
Variable lab : A -> label.

Lemma read_core : forall ivs (xs : list (string * hf A)) g, dims_ok ivs -> vars_ok enc dec ivs xs ->
  Permutation (scales dimenc ivs ++ map (var_entry enc) xs) g ->
  exists b, read_hdf5 dec lab g = Ok b /\ block_read dimenc (in_list ivs) xs b.
Proof.
  intros ivs xs g [I1 I2] (V1 & V2 & V3 & V4) P.
  assert (ND : NoDup (map fst (scales (D := D) dimenc ivs ++ map (var_entry enc) xs))).
  { rewrite map_app, fst_scales, fst_entries. clear - I1 V1 V2. assert (K : forall n, In n (map fst ivs) -> ~ In n (map (fun p => on_disk (fst p)) xs)).
    { intros n I J. apply in_map_iff in J as (p & <- & J). destruct (V2 p J) as [_ N]. contradiction. }
    clear V2. induction (map fst ivs) as [|n l IH]; [exact V1|]. cbn [app]. apply NoDup_cons_iff in I1 as [N1 N2]. constructor; [|apply IH; auto; intros; apply K; now right]. intros J. apply in_app_or in J as [J|J]; [contradiction|]. apply (K n (or_introl eq_refl) J). }
  pose proof (filter_perm (is_var (D := D)) _ _ P) as PF. rewrite filter_app, filter_scales, filter_entries in PF. cbn [app] in PF.
  apply Permutation_sym, Permutation_map_inv in PF as (ps & F1 & F2).
  assert (INP : forall p, In p ps <-> In p xs) by (intros p; split; apply Permutation_in; [now apply Permutation_sym|auto]).
  assert (GET : forall p, In p ps -> (forall d, In d (h_dims (snd p)) -> exists s, in_list ivs (d_name d) = Some s /\ In (d_class s) h5_classes /\ pd_get (d_name d) g = Some (scale_set dimenc (d_name d) s)) /\
     length (h_dims (snd p)) = length (nd_shape (h_nd (snd p))) /\ Forall (fun v => dec (h_dt (snd p)) (enc (h_dt (snd p)) v) = v) (nd_elems (h_nd (snd p)))).
  { intros p Ip. apply INP in Ip. destruct (V4 p Ip) as (W1 & W2 & W3). split; [|auto]. intros d Id. destruct (W3 d Id) as (s & S1 & S2). exists s. split; [auto|]. split; [auto|].
    rewrite (get_perm _ _ _ ND P), get_app. unfold scales. rewrite (get_map (fun k d => scale_set dimenc k d)). rewrite in_list_get in S1. rewrite S1. reflexivity. }
  destruct (read_entries enc dec dimenc lab g (in_list ivs) ps GET) as (ys & Y1 & Y2 & Y3).
  assert (NM : map fst ys = map (fun p => read_name (fst p)) ps) by (apply map_Forall2; eapply Forall2_impl'; [|exact Y1]; intros ? ? _ [E _]; exact E).
  assert (DN : dim_names ys = dim_names ps) by (unfold dim_names; rewrite !flat_map_concat_map; now rewrite Y2).
  assert (DH : forall n, In n (dim_names ps) -> In n (map fst ivs) /\ free_of "/" n).
  { intros n I. unfold dim_names in I. apply in_flat_map in I as (p & Ip & I). apply in_map_iff in I as (d & <- & I). destruct (proj1 (GET p Ip) d I) as (s & S1 & _ & _). rewrite in_list_get in S1. apply get_In in S1; [|exact I1].
    split; [apply in_map_iff; exists (d_name d, s); auto|]. rewrite Forall_forall in I2. destruct (I2 _ S1) as (_ & (_ & _ & F) & _). exact F. }
  destruct (sets_ok lab ys dd_empty None empty_Inv) as (b & B1 & B2 & B3 & B4 & B5).
  { rewrite NM. apply read_names_NoDup. eapply NoDup_perm_map; [exact F2|exact V1]. }
  { rewrite NM, DN. cbn [dd_order dd_empty]. rewrite app_nil_r. split.
    - intros k I J. apply DH in J as [J1 J2]. apply in_map_iff in I as (p & E & I). apply INP in I. destruct (V2 p I) as [_ N]. apply N. rewrite (read_plain _ _ E J2). exact J1.
    - intros k m e I M J. apply in_map_iff in I as (p & <- & I). apply INP in I. apply (V3 p m e I M). apply in_map_iff in J as (q & <- & J). apply in_map_iff. exists q. split; [auto|]. now apply INP. }
  exists b. unfold read_hdf5. rewrite read_filter, F1, Y3. split; [exact B1|]. split; [|split].
  - exists ps, ys. split; [exact F2|]. split; [rewrite items_abs by exact B2; now rewrite B4|exact Y1].
  - intros p d Ip Id. apply INP in Ip. assert (C : In (d_name d) (dim_names ys)) by (rewrite DN; unfold dim_names; apply in_flat_map; exists p; split; [auto|]; apply in_map_iff; eauto).
    assert (H : exists e, pd_get (d_name d) (dd_map (b_ivar b)) = Some e).
    { apply contains_get. rewrite B5. unfold dim_names in C. apply in_flat_map in C as (q & Iq & C). apply in_map_iff in C as (d' & E & C). rewrite <- E. eapply ivars_of_in; eauto. }
    destruct H as (e & H). exists e. split; [now apply get_result|]. rewrite B5 in H. apply ivars_of_from in H as [H|(q & Q1 & Q2 & Q3)]; [discriminate|].
    destruct (Forall2_in_r _ _ _ _ Y1 Q1) as (p' & P1 & _ & P2). destruct P2 as (_ & _ & _ & _ & _ & P2). destruct (Forall2_in_r _ _ _ _ P2 Q2) as (d' & D1 & s & S1 & S2 & S3). exists s. rewrite <- Q3, S2. split; [auto|]. split; [auto|exact S3].
  - intros n e H. apply get_result in H. rewrite B5 in H. apply ivars_of_from in H as [H|(q & Q1 & Q2 & Q3)]; [discriminate|]. destruct (Forall2_in_r _ _ _ _ Y1 Q1) as (p' & P1 & _ & P2). destruct P2 as (_ & _ & _ & _ & _ & P2).
    destruct (Forall2_in_r _ _ _ _ P2 Q2) as (d' & D1 & s & S1 & S2 & S3). exists p', d'. split; [now apply INP|]. split; [auto|congruence].
Qed.

Lemma names_apart : forall ivs (xs : list (string * hf A)), dims_ok ivs -> vars_ok enc dec ivs xs -> NoDup (map fst ivs ++ map (fun p => on_disk (fst p)) xs).
Proof.
  intros ivs xs [I1 _] (V1 & V2 & _). assert (K : forall n, In n (map fst ivs) -> ~ In n (map (fun p => on_disk (fst p)) xs)).
  { intros n I J. apply in_map_iff in J as (p & <- & J). destruct (V2 p J) as [_ N]. contradiction. }
  clear V2. induction (map fst ivs) as [|n l IH]; [exact V1|]. cbn [app]. apply NoDup_cons_iff in I1 as [N1 N2]. constructor; [|apply IH; auto; intros; apply K; now right]. intros J. apply in_app_or in J as [J|J]; [contradiction|]. apply (K n (or_introl eq_refl) J).
Qed.
Lemma axis_names : forall ivs (xs : list (string * hf A)) q d, dims_ok ivs -> vars_ok enc dec ivs xs -> In q xs -> In d (h_dims (snd q)) -> h5_name (d_name d) /\ In (d_name d) (map fst ivs).
Proof.
  intros ivs xs q d [I1 I2] (_ & _ & _ & V4) Iq Id. destruct (V4 q Iq) as (_ & _ & W). destruct (W d Id) as (s & S1 & _). rewrite in_list_get in S1. apply get_In in S1; [|exact I1]. split; [|apply in_map_iff; exists (d_name d, s); auto].
  rewrite Forall_forall in I2. destruct (I2 _ S1) as (_ & H & _). exact H.
Qed.

(** A block is written, and reading the file, in whatever order it gives its datasets, gives the variables
    under their names with slashes for backslashes, with their data, type, format and unit and with the
    dimensions of the block of the names of their axes, and these dimensions only. *)
Theorem C61_roundtrip : forall (b : block A) ivs vs, dd_items (b_ivar b) = Ok ivs -> dd_items (b_var b) = Ok vs ->
  dims_ok ivs -> vars_ok enc dec ivs vs ->
  exists f, save_hdf5 enc dimenc None b = Ok f /\
    forall g, Permutation f g -> exists b', read_hdf5 dec lab g = Ok b' /\ block_read dimenc (in_list ivs) vs b'.
Proof.
  intros b ivs vs Ei Ev HI HV. exists (scales dimenc ivs ++ map (var_entry enc) vs). split.
  - unfold save_hdf5. rewrite Ei. cbn [bind]. destruct HI as [I1 I2]. rewrite save_scales_ok by (cbn [map app]; auto). cbn [bind app]. rewrite Ev. cbn [bind]. apply save_vars_ok with (xs := vs).
    + rewrite fst_scales. apply names_apart; [split|]; auto.
    + clear. induction vs as [|p vs IH]; constructor; auto.
    + intros q Iq. split; [destruct HV as (_ & V2 & _); now apply V2|]. intros d Id. rewrite fst_scales. eapply axis_names; [split|..]; eauto.
  - intros g P. now apply read_core.
Qed.

(** With an append dimension each variable has it as a further axis, the second one or, for a number, the
    only one; the unit and the format of the variables are lost. *)
Theorem C61_expandable : forall (b : block A) ivs vs d, dd_items (b_ivar b) = Ok ivs -> dd_items (b_var b) = Ok vs ->
  dims_ok (ivs ++ [(d_name d, d)]) -> vars_ok enc dec (ivs ++ [(d_name d, d)]) vs -> (forall t v, dec t (enc t v) = v) ->
  In (d_class d) h5_classes -> d_data d <> [] ->
  (forall p, In p vs -> wf (snd p) /\ ~ In (d_name d) (map d_name (h_dims (snd p)))) ->
  exists f xs, save_hdf5 enc dimenc (Some d) b = Ok f /\
    Forall2 (fun p q => fst q = fst p /\ with_axis d (snd p) (snd q) /\ h_unit (snd q) = None /\ h_fmt (snd q) = default_fmt (h_dt (snd p))) vs xs /\
    forall g, Permutation f g -> exists b', read_hdf5 dec lab g = Ok b' /\ block_read dimenc (in_list (ivs ++ [(d_name d, d)])) xs b'.
Proof.
  intros b ivs vs d Ei Ev HI HV HE HC HD HW.
  assert (EX : exists xs, Forall2 (fun p q => (fst q = fst p /\ expanded (Some d) (snd p) = Ok (snd q)) /\ with_axis d (snd p) (snd q) /\ h_unit (snd q) = None /\ h_fmt (snd q) = default_fmt (h_dt (snd p))) vs xs).
  { apply Forall2_exists. intros [k x] Ix. destruct (HW _ Ix) as [W1 W2]. cbn [snd] in *. destruct (add_dim_ok x d (if h_ndim x =? 0 then 0 else 1) W1) as (y & Y1 & Y2 & Y3 & Y4); [|exact HD|].
    { intros d' I E. apply W2. rewrite <- E. now apply in_map. }
    exists (k, y). cbn [fst snd]. split; [split; [reflexivity|]|].
    - cbn [expanded]. destruct (h_ndim x =? 0); exact Y1.
    - assert (F : h_dt y = h_dt x /\ h_unit y = None /\ h_fmt y = default_fmt (h_dt x)).
      { unfold add_dim in Y1. destruct (dims_contains (h_dims x) d) eqn:C.
        - exfalso. unfold dims_contains in C. apply existsb_exists in C as (d' & C1 & C2). unfold matches in C2. apply andb_true_iff in C2 as [C2 _]. apply String.eqb_eq in C2. apply W2. rewrite <- C2. now apply in_map.
        - unfold new_raw in Y1. cbn [bind] in Y1. destruct (_ =? _) in Y1; [|discriminate]. injection Y1 as <-. auto. }
      destruct F as (F1 & F2 & F3). split; [|auto]. split; [exact Y2|]. split; [exact F1|]. split; [|exact Y4].
      destruct W1 as (_ & L & _). assert (N : h_ndim x = length (h_dims x)) by (unfold h_ndim; rewrite <- L; now rewrite map_length). rewrite Y3, N. destruct (h_dims x) as [|d0 r]; [exists [], []; auto|]. exists [d0], r. cbn [length Nat.eqb Nat.min]. rewrite ?Nat.min_0_l. split; [reflexivity|]. split; [destruct r; reflexivity|]. destruct r; reflexivity. }
  destruct EX as (xs & EX).
  assert (NM : forall {Y} (h : string -> Y), map (fun p => h (fst p)) xs = map (fun p => h (fst p)) vs).
  { intros Y h. apply map_Forall2. eapply Forall2_impl'; [|exact EX]. cbv beta. intros p q _ ((E & _) & _). now rewrite E. }
  assert (HX : vars_ok enc dec (ivs ++ [(d_name d, d)]) xs).
  { destruct HV as (V1 & V2 & V3 & V4). split; [|split; [|split]].
    - now rewrite (NM _ on_disk).
    - intros q I. destruct (Forall2_in_r _ _ _ _ EX I) as (p & Ip & (E & _) & _). rewrite E. now apply V2.
    - intros q m e I. destruct (Forall2_in_r _ _ _ _ EX I) as (p & Ip & (E & _) & _). rewrite E, (NM _ read_name). now apply V3.
    - intros q I. destruct (Forall2_in_r _ _ _ _ EX I) as (p & Ip & _ & ((W1 & W2 & W3) & _ & (l & r & L1 & L2 & L3) & _) & _). split; [unfold labels_match, h_shape in W2; rewrite <- W2; now rewrite map_length|]. split; [apply Forall_forall; auto|].
      intros d' Id. rewrite L2 in Id. apply in_app_or in Id. assert (Q : d' = d \/ In d' (h_dims (snd p))) by (rewrite L1; rewrite in_app_iff; destruct Id as [Id|[Id|Id]]; auto). destruct Q as [->|Q].
      + exists d. split; [|exact HC]. rewrite in_list_get. apply get_In; [apply HI|]. apply in_or_app. right. now left.
      + destruct (V4 p Ip) as (_ & _ & W). now apply W. }
  exists (scales dimenc (ivs ++ [(d_name d, d)]) ++ map (var_entry enc) xs), xs. split; [|split; [eapply Forall2_impl'; [|exact EX]; cbv beta; intros p q _ ((E & _) & Q); auto|intros g P; now apply read_core]].
  destruct HI as [I1 I2]. unfold save_hdf5. rewrite Ei. cbn [bind]. rewrite map_app in I1. cbn [map fst] in I1. apply Forall_app in I2 as [I2 I3]. apply Forall_cons_iff in I3 as [(_ & I3 & I4) _]. cbn [fst snd] in I3, I4.
  rewrite save_scales_ok; [|cbn [map app]; apply NoDup_remove_1 in I1; now rewrite app_nil_r in I1|exact I2]. cbn [bind app]. rewrite save_scale_ok; [|exact I4|exact I3|rewrite fst_scales; apply NoDup_remove_2 in I1; now rewrite app_nil_r in I1]. cbn [bind]. rewrite Ev. cbn [bind].
  assert (ES : scales (D := D) dimenc ivs ++ [(d_name d, scale_set dimenc (d_name d) d)] = scales dimenc (ivs ++ [(d_name d, d)])) by (unfold scales; rewrite map_app; reflexivity). rewrite ES.
  assert (HI' : dims_ok (ivs ++ [(d_name d, d)])) by (split; [now rewrite map_app|apply Forall_app; split; [exact I2|constructor; auto]]).
  apply save_vars_ok with (xs := xs).
  - rewrite fst_scales. now apply names_apart.
  - eapply Forall2_impl'; [|exact EX]. cbv beta. intros p q _ (E & _). exact E.
  - intros q Iq. split; [destruct HX as (_ & V2 & _); now apply V2|]. intros d' Id. rewrite fst_scales. eapply axis_names; eauto.
Qed.

(** ** When it cannot be done *)
Lemma scales_inv : forall ivs (f f' : list (string * hset (D := D))), each (fun k d => save_scale dimenc (esc k) d) ivs f = Ok f' ->
  f' = f ++ map (fun p => (on_disk (fst p), scale_set dimenc (on_disk (fst p)) (snd p))) ivs /\ (NoDup (map fst f) -> NoDup (map fst f')) /\ Forall (fun p => h5_name (on_disk (fst p))) ivs.
Proof.
  induction ivs as [|[k d] ivs IH]; intros f f' H; cbn [each] in H; [injection H as <-; cbn; rewrite app_nil_r; auto|]. destruct (save_scale _ _ _ _) as [f1|] eqn:E; [|discriminate]. cbn [bind] in H. rewrite esc_disk in E. apply save_scale_inv in E as (E1 & E2 & ->). apply IH in H as (-> & H2 & H3). cbn [map fst snd]. rewrite <- app_assoc. split; [reflexivity|]. split; [|constructor; auto].
  intros ND. rewrite <- app_assoc in H2. cbn [app] in H2. apply H2. rewrite map_app. cbn [map fst]. apply (NoDup_Add (a := on_disk k) (l := map fst f)); [|split; auto]. rewrite <- (app_nil_r (map fst f)) at 1. apply Add_app.
Qed.
Lemma vars_inv : forall expand vs (f f' : list (string * hset (D := D))), each (save_var enc expand) vs f = Ok f' ->
  (NoDup (map fst f) -> NoDup (map fst f')) /\ (forall n s, In (n, s) f -> In (n, s) f') /\ map fst f' = map fst f ++ map (fun p => on_disk (fst p)) vs /\ Forall (fun p => h5_name (on_disk (fst p))) vs /\
  forall k x, In (k, x) vs -> exists y c, expanded expand x = Ok y /\ mapM (resolve f') (map d_name (h_dims y)) = Ok c /\ In (on_disk k, var_set enc y c) f'.
Proof.
  induction vs as [|[k x] vs IH]; intros f f' H; cbn [each] in H; [injection H as <-; cbn; rewrite app_nil_r; repeat split; auto; intros ? ? []|].
  unfold save_var at 1 in H. destruct (expanded expand x) as [y|] eqn:Y; [|discriminate]. cbn [bind] in H. rewrite esc_disk in H. destruct (h5_create (on_disk k) (mkSet (HVar (nd_map (enc (h_dt y)) (h_nd y)) (h_dt y) []) _ _) f) as [f1|] eqn:E1; [|discriminate]. cbn [bind] in H. apply create_inv in E1 as (C1 & C2 & ->).
  destruct (mapM _ _) as [c|] eqn:M; [|discriminate]. cbn [bind] in H. rewrite create_ok in H by auto. cbn [bind] in H. apply IH in H as (H1 & H2 & H3 & H4 & H5). rewrite map_app in H1, H3. cbn [map fst] in H1, H3 |- *. rewrite <- app_assoc in H3.
  split; [|split; [|split; [exact H3|split; [constructor; auto|]]]].
  - intros ND. apply H1. apply (NoDup_Add (a := on_disk k) (l := map fst f)); [|split; auto]. rewrite <- (app_nil_r (map fst f)) at 1. apply Add_app.
  - intros n s I. apply H2. apply in_or_app. now left.
  - intros k' x' [I|I]; [|now apply H5]. injection I as <- <-. exists y, c. split; [exact Y|]. split; [|apply H2; apply in_or_app; right; now left].
    assert (K : forall n c, resolve (f ++ [(on_disk k, mkSet (HVar (nd_map (enc (h_dt y)) (h_nd y)) (h_dt y) []) (attr (h_unit y)) (attr (Some (h_fmt y))))]) n = Ok c -> resolve f' n = Ok c).
    { intros n c0. unfold resolve. destruct (path n) as [|p [|]]; auto. destruct (pd_has p _) eqn:Q; [|discriminate]. apply pd_has_In in Q. intros R. assert (Q' : In p (keys f')) by (unfold keys; rewrite H3; unfold keys in Q; rewrite map_app in Q; cbn [map fst] in Q; apply in_app_or in Q; apply in_or_app; destruct Q as [Q|[Q|[]]]; [now left|right; now left]). apply pd_has_In in Q'. now rewrite Q'. }
    clear - M K. revert c M. induction (map d_name (h_dims y)) as [|n ns IHn]; intros c M; [exact M|]. cbn [mapM] in *. destruct (resolve _ n) as [c0|] eqn:R; [|discriminate]. cbn [bind] in M. apply K in R. rewrite R. cbn [bind]. destruct (mapM _ ns) as [c1|]; [|discriminate]. now rewrite (IHn c1 eq_refl).
Qed.

(** If a block was written, its names were different on the disk and names for datasets. *)
Theorem C61_names : forall (b : block A) ivs vs f, dd_items (b_ivar b) = Ok ivs -> dd_items (b_var b) = Ok vs ->
  save_hdf5 enc dimenc None b = Ok f ->
  map fst f = map (fun p => on_disk (fst p)) ivs ++ map (fun p => on_disk (fst p)) vs /\ NoDup (map fst f) /\ Forall h5_name (map fst f).
Proof.
  intros b ivs vs f Ei Ev H. unfold save_hdf5 in H. rewrite Ei in H. cbn [bind] in H. destruct (each _ ivs []) as [f0|] eqn:E; [|discriminate]. apply scales_inv in E as (-> & E2 & E3). cbn [bind app] in *. rewrite Ev in H. cbn [bind] in H.
  apply vars_inv in H as (H1 & _ & H3 & H4 & _). rewrite map_map in H3. cbn [fst] in H3. split; [exact H3|]. split; [apply H1, E2; constructor|]. rewrite H3. apply Forall_app. rewrite !Forall_map. auto.
Qed.

Lemma path_slash : forall u w cur, path_parts cur (list_ascii_of_string (u ++ "/" ++ w)) = path_parts cur (list_ascii_of_string u) ++ path_parts [] (list_ascii_of_string w).
Proof.
  induction u as [|c u IH]; intros w cur.
  - reflexivity.
  - change (String c u ++ "/" ++ w)%string with (String c (u ++ "/" ++ w)). cbn [list_ascii_of_string path_parts]. destruct (Ascii.eqb c slash).
    + rewrite IH. now rewrite app_assoc.
    + apply IH.
Qed.
(** A block cannot be written if a variable has an axis with a slash inside its name. *)
Theorem C61_slash : forall (b : block A) vs k x d u w f, dd_items (b_var b) = Ok vs -> In (k, x) vs -> In d (h_dims x) ->
  d_name d = (u ++ "/" ++ w)%string -> h5_name u -> h5_name w -> save_hdf5 enc dimenc None b <> Ok f.
Proof.
  intros b vs k x d u w f Ev Ix Id En Hu Hw H. unfold save_hdf5 in H. destruct (dd_items (b_ivar b)) as [ivs|]; [|discriminate]. cbn [bind] in H. destruct (each _ ivs []) as [f0|] eqn:E; [|discriminate]. cbn [bind] in H. rewrite Ev in H. cbn [bind] in H.
  apply vars_inv in H as (_ & _ & _ & _ & H). destruct (H k x Ix) as (y & c & Y & M & _). cbn [expanded] in Y. injection Y as <-. assert (R : resolve f (d_name d) = Err KeyError).
  { unfold resolve. assert (P : path (d_name d) = [u; w]) by (rewrite En; unfold path; rewrite path_slash; fold (path u) (path w); rewrite !path_name by auto; reflexivity). now rewrite P. }
  clear - M R Id. revert c M. induction (h_dims x) as [|d' ds IH]; [destruct Id|]. intros c. cbn [map mapM]. destruct Id as [->|Id].
  - rewrite R. discriminate.
  - destruct (resolve f (d_name d')); [|discriminate]. cbn [bind]. destruct (mapM _ _) as [c1|]; [|discriminate]. intros _. now apply (IH Id c1).
Qed.

(** The file cannot be read if a variable has an axis of another class. *)
Theorem C61_class : forall (b : block A) ivs vs k x d s f g b', dd_items (b_ivar b) = Ok ivs -> dd_items (b_var b) = Ok vs ->
  save_hdf5 enc dimenc None b = Ok f -> In (k, x) vs -> In d (h_dims x) -> h5_name (d_name d) -> In (d_name d, s) ivs -> ~ In (d_class s) h5_classes ->
  Permutation f g -> read_hdf5 dec lab g <> Ok b'.
Proof.
  intros b ivs vs k x d s f g b' Ei Ev H Ix Id Hn Is Hc P R. destruct (C61_names _ _ _ _ Ei Ev H) as (_ & ND & _). unfold save_hdf5 in H. rewrite Ei in H. cbn [bind] in H. destruct (each _ ivs []) as [f0|] eqn:E; [|discriminate]. cbn [bind] in H. rewrite Ev in H. cbn [bind] in H.
  apply scales_inv in E as (-> & _ & _). cbn [app] in H. apply vars_inv in H as (_ & H2 & _ & _ & H). destruct (H k x Ix) as (y & c & Y & M & I). cbn [expanded] in Y. injection Y as <-.
  assert (S1 : In (d_name d, scale_set dimenc (d_name d) s) f) by (apply H2; apply in_map_iff; exists (d_name d, s); cbn [fst snd]; rewrite disk_plain by exact Hn; auto).
  assert (RD : read_dim g (d_name d) = Err KeyError).
  { unfold read_dim. rewrite (get_perm _ _ _ ND P), (proj2 (get_In _ _ _ ND) S1). cbn [of_option bind scale_set hs_data]. destruct (dimrep (d_class s)) eqn:Q; [|reflexivity]. apply dimrep_In in Q. contradiction. }
  assert (IC : In (d_name d) c).
  { clear - M Id Hn. revert c M. induction (h_dims x) as [|d' ds IH]; [destruct Id|]. intros c. cbn [map mapM]. destruct (resolve f (d_name d')) as [c0|] eqn:R; [|discriminate]. cbn [bind]. destruct (mapM _ _) as [c1|]; [|discriminate]. cbn [bind]. intros [= <-]. destruct Id as [->|Id]; [left|right; now apply (IH Id)].
    unfold resolve in R. rewrite path_name in R by exact Hn. destruct (pd_has _ _); [congruence|discriminate]. }
  assert (GE : exists e, mapM (read_dim g) c = Err e).
  { clear - RD IC. induction c as [|n c IH]; [destruct IC|]. cbn [mapM]. destruct IC as [->|IC]; [rewrite RD; cbn; eauto|]. destruct (read_dim g n); [|cbn; eauto]. cbn [bind]. destruct (IH IC) as [e ->]. cbn. eauto. }
  destruct GE as (e & GE). apply (Permutation_in _ P) in I. unfold read_hdf5 in R. revert I R. generalize (b_empty (A := A)). generalize g at 1 3. intros l. induction l as [|[k' s'] l IH]; [intros ? []|]. intros b0 [I|I] R; cbn [read_loop] in R.
  - injection I as -> ->. unfold var_set at 1 in R. cbn [hs_data] in R. unfold getvar in R. rewrite GE in R. discriminate.
  - destruct (hs_data s'); [eapply IH; eauto|]. destruct (getvar _ _ _ _ _ _); [|discriminate]. cbn [bind] in R. destruct (b_set _ _ _ _); [|discriminate]. cbn [bind] in R. eapply IH; eauto.
Qed.
End File.
Print Assumptions C61_roundtrip.
Print Assumptions C61_expandable.
Print Assumptions C61_names.
Print Assumptions C61_slash.
Print Assumptions C61_class.

(** ** Examples *)
Definition h5_enc (t : dtype) (v : Z) : Z := (v + 7)%Z.
Definition h5_dec (t : dtype) (v : Z) : Z := (v - 7)%Z.
Definition h5_f : dim := mkDim CDimSweep "f" [LZ 1; LZ 2] (Some "Hz") (Some "%.3f").
Definition h5_i : dim := mkDim CMatrix_i "i" [LZ 0; LZ 1] None None.
Definition h5_j : dim := mkDim CMatrix_j "j" [LZ 0; LZ 1] None None.
Definition h5_rep : dim := mkDim CDimRep "INDEX" [LZ 0] None None.
Definition h5_x : hf Z := mkHF (mkNd [2] [3; 4]%Z) DInt [h5_f] (Some "V") "%d".
Definition h5_m : hf Z := mkHF (mkNd [2; 2; 2] [1; 2; 3; 4; 5; 6; 7; 8]%Z) DInt [h5_f; h5_i; h5_j] None "%d".
Definition h5_y : hf Z := mkHF (mkNd [2] [30; 40]%Z) DInt [h5_f] None "%d".
Definition h5_block (l : list (string * hf Z)) (iv : list (string * dim)) : block Z :=
  mkBlock (mkDD l (map fst l)) (mkDD iv (map fst iv)) None.
Definition h5_b : block Z := h5_block [("a/b", h5_x); ("S", h5_m)] [("f", h5_f); ("i", h5_i); ("j", h5_j)].
Definition h5_var (k : string) (r : result (block Z)) : option (hf Z) := match r with Ok b => pd_get k (dd_map (b_var b)) | Err _ => None end.
Definition h5_dim (k : string) (r : result (block Z)) : option dim := match r with Ok b => pd_get k (dd_map (b_ivar b)) | Err _ => None end.
Definition h5_back (b : block Z) : result (block Z) := do f <- save_hdf5 h5_enc (fun l => l) None b; read_hdf5 h5_dec LZ (rev f).

Ltac h5_all := repeat match goal with H : _ \/ _ |- _ => destruct H | H : False |- _ => destruct H end; subst.
Lemma h5_names : forall k, k <> "" -> k <> "." -> free_of "/" k -> h5_name k.
Proof. unfold h5_name. auto. Qed.
Example C61_ex_ok : dims_ok [("f", h5_f); ("i", h5_i); ("j", h5_j); ("INDEX", h5_rep)] /\
  vars_ok h5_enc h5_dec [("f", h5_f); ("i", h5_i); ("j", h5_j); ("INDEX", h5_rep)] [("a/b", h5_x); ("S", h5_m)] /\
  dims_ok [("f", h5_f); ("i", h5_i); ("j", h5_j)] /\ vars_ok h5_enc h5_dec [("f", h5_f); ("i", h5_i); ("j", h5_j)] [("a/b", h5_x); ("S", h5_m)] /\
  (forall p, In p [("a/b", h5_x); ("S", h5_m)] -> wf (snd p) /\ ~ In (d_name h5_rep) (map d_name (h_dims (snd p)))).
Proof.
  assert (D4 : dims_ok [("f", h5_f); ("i", h5_i); ("j", h5_j); ("INDEX", h5_rep)]).
  { split; [repeat constructor; cbn; intuition discriminate|]. repeat constructor; cbn; try discriminate; auto; right; discriminate. }
  assert (D3 : dims_ok [("f", h5_f); ("i", h5_i); ("j", h5_j)]).
  { split; [repeat constructor; cbn; intuition discriminate|]. repeat constructor; cbn; try discriminate; auto; right; discriminate. }
  assert (V : forall ivs, (forall n, In n (map fst ivs) -> n <> "a\b" /\ n <> "S") -> in_list ivs "f" = Some h5_f -> in_list ivs "i" = Some h5_i -> in_list ivs "j" = Some h5_j ->
    vars_ok h5_enc h5_dec ivs [("a/b", h5_x); ("S", h5_m)]).
  { intros ivs N Nf Ni Nj. split; [repeat constructor; cbn; intuition discriminate|]. split; [|split].
    - intros p I. cbn [In] in I. h5_all; cbn [fst]; (split; [cbn; repeat split; discriminate|]; intros I; apply N in I; destruct I as [I1 I2]; cbn in I1, I2; congruence).
    - intros p m e I. cbn [In] in I. h5_all; vm_compute; discriminate.
    - intros p I. cbn [In] in I. h5_all; cbn [snd]; (split; [reflexivity|]; split; [repeat constructor|]; intros d I; cbn [h_dims h5_x h5_m In] in I; h5_all; cbn [d_name h5_f h5_i h5_j]; eexists; (split; [eassumption|cbn; auto 10])). }
  split; [exact D4|]. split; [apply V; try reflexivity; intros n I; cbn [In map fst] in I; h5_all; split; discriminate|]. split; [exact D3|]. split; [apply V; try reflexivity; intros n I; cbn [In map fst] in I; h5_all; split; discriminate|].
  intros p I. cbn [In] in I. h5_all; cbn [snd]; (split; [split; [reflexivity|]; split; [reflexivity|]; repeat constructor; cbn; intuition discriminate|cbn; intuition discriminate]).
Qed.
Example C61_ex : h5_var "a/b" (h5_back h5_b) = Some (mkHF (mkNd [2] [3; 4]%Z) DInt [mkDim CDimSweep "f" [LZ 1; LZ 2] (Some "Hz") None] (Some "V") "%d") /\
  (do f <- save_hdf5 h5_enc (fun l => l) None h5_b; Ok (map fst f)) = Ok ["f"; "i"; "j"; "a\b"; "S"] /\
  option_map (fun x => (h_shape x, map d_name (h_dims x))) (h5_var "S" (do f <- save_hdf5 h5_enc (fun l => l) (Some h5_rep) h5_b; read_hdf5 h5_dec LZ f)) = Some ([2; 1; 2; 2], ["f"; "INDEX"; "i"; "j"]).
Proof. vm_compute. auto. Qed.

(** Not everything comes back: a dimension that no variable has, the format of a dimension, an axis that
    differs from the dimension of the block. *)
Theorem C61_unused_refuted : exists b n d b', dd_get n (b_ivar b) = Ok d /\ h5_back b = Ok b' /\ dd_get n (b_ivar b') = Err KeyError.
Proof. exists (h5_block [("x", h5_x)] [("f", h5_f); ("i", h5_i)]), "i", h5_i. eexists. split; [reflexivity|]. split; [vm_compute; reflexivity|reflexivity]. Qed.
Print Assumptions C61_unused_refuted.
Theorem C61_format_refuted : exists b n d e b', dd_get n (b_ivar b) = Ok d /\ h5_back b = Ok b' /\ dd_get n (b_ivar b') = Ok e /\ outputformat d <> outputformat e.
Proof. exists (h5_block [("x", h5_x)] [("f", h5_f)]), "f", h5_f. eexists. eexists. split; [reflexivity|]. split; [vm_compute; reflexivity|]. split; [reflexivity|]. discriminate. Qed.
Print Assumptions C61_format_refuted.
Theorem C61_axis_refuted : exists b k x d y b', dd_get k (b_var b) = Ok x /\ h_dims x = [d] /\ h5_back b = Ok b' /\ dd_get k (b_var b') = Ok y /\ map d_data (h_dims y) <> map d_data (h_dims x).
Proof.
  exists (h5_block [("x", h5_x)] [("f", mkDim CDimSweep "f" [LZ 8; LZ 9] (Some "Hz") None)]), "x", h5_x, h5_f. eexists. eexists. split; [reflexivity|]. split; [reflexivity|]. split; [vm_compute; reflexivity|]. split; [reflexivity|]. discriminate.
Qed.
Print Assumptions C61_axis_refuted.
(** A variable with the name of an element of another one is put into that one. *)
Theorem C61_element_refuted : exists b b', h5_back b = Ok b' /\ dd_get "S11" (b_var b) = Ok h5_y /\ dd_get "S11" (b_var b') = Err KeyError /\
  (exists y, dd_get "S" (b_var b) = Ok h5_m /\ dd_get "S" (b_var b') = Ok y /\ nd_elems (h_nd y) <> nd_elems (h_nd h5_m)).
Proof.
  exists (h5_block [("S11", h5_y); ("S", h5_m)] [("f", h5_f); ("i", h5_i); ("j", h5_j)]). eexists. split; [vm_compute; reflexivity|]. split; [reflexivity|]. split; [reflexivity|]. eexists. split; [reflexivity|]. split; [reflexivity|]. discriminate.
Qed.
Print Assumptions C61_element_refuted.
