(** Lemmas for HDF5 files. *)
From Coq Require Import Ascii String List Arith Bool Lia Permutation.
From Verif Require Import Model_NdArray Model_Dim Model_Array Model_DataDict Model_Block Model_Text Model_Hdf5 Model_H5File Spec_Block Spec_H5File Proofs_DataDict Proofs_Block Proofs_Block3.
Import ListNotations.
Local Open Scope string_scope.
Local Open Scope nat_scope.
Local Open Scope list_scope.

(** ** Names *)
Lemma replace_swap : forall a b k, string_of_list_ascii (replace_char a b (list_ascii_of_string k)) = swap a b k.
Proof. intros a b. induction k as [|c k IH]; [reflexivity|]. cbn [list_ascii_of_string]. unfold replace_char in *. cbn [map string_of_list_ascii swap]. now rewrite IH. Qed.
Lemma esc_disk : forall k, esc k = on_disk k.
Proof. intros k. apply replace_swap. Qed.
Lemma unesc_swap : forall k, unesc k = swap "\" "/" k.
Proof. intros k. apply replace_swap. Qed.
Lemma swap_swap : forall a b k, swap b a (swap a b k) = swap b a k.
Proof.
  intros a b. induction k as [|c k IH]; [reflexivity|]. cbn [swap]. rewrite IH. f_equal.
  destruct (Ascii.eqb c a) eqn:E; [|reflexivity]. apply Ascii.eqb_eq in E. subst c. rewrite Ascii.eqb_refl. destruct (Ascii.eqb a b); reflexivity.
Qed.
Lemma unesc_disk : forall k, unesc (on_disk k) = read_name k.
Proof. intros k. rewrite unesc_swap. apply swap_swap. Qed.
Lemma disk_read : forall k, on_disk (read_name k) = on_disk k.
Proof. intros k. apply swap_swap. Qed.
Lemma swap_free : forall a b k, free_of a k -> swap a b k = k.
Proof.
  intros a b. induction k as [|c k IH]; [reflexivity|]. intros [F1 F2]. cbn [swap]. rewrite IH by exact F2.
  destruct (Ascii.eqb c a) eqn:E; [apply Ascii.eqb_eq in E; congruence|reflexivity].
Qed.
Lemma disk_plain : forall k, h5_name k -> on_disk k = k.
Proof. intros k (_ & _ & F). now apply swap_free. Qed.
(** A name without slash after reading was without slash and backslash. *)
Lemma read_plain : forall k n, read_name k = n -> free_of "/" n -> on_disk k = n.
Proof. intros k n E F. rewrite <- disk_read, E. now apply swap_free. Qed.

Lemma path_end : forall s cur, free_of "/" s ->
  path_parts cur (list_ascii_of_string s) =
  (let p := string_of_list_ascii (rev cur ++ list_ascii_of_string s) in if String.eqb p "" || String.eqb p "." then [] else [p]).
Proof.
  induction s as [|c s IH]; intros cur F.
  - cbn [list_ascii_of_string path_parts]. now rewrite app_nil_r.
  - destruct F as [F1 F2]. cbn [list_ascii_of_string path_parts]. change slash with "/"%char. destruct (Ascii.eqb c "/") eqn:E; [apply Ascii.eqb_eq in E; congruence|].
    rewrite IH by exact F2. cbn [rev]. now rewrite <- app_assoc.
Qed.
Lemma path_name : forall k, h5_name k -> path k = [k].
Proof.
  intros k (N1 & N2 & N3). unfold path. rewrite path_end by exact N3. cbn [rev app]. rewrite string_of_list_ascii_of_string.
  apply String.eqb_neq in N1. apply String.eqb_neq in N2. cbv zeta. now rewrite N1, N2.
Qed.
Lemma list_eqb_names : forall l l', list_eqb String.eqb l l' = true <-> l = l'.
Proof.
  induction l as [|a l IH]; intros [|b l']; cbn [list_eqb]; split; intros H; try discriminate; auto.
  - apply andb_true_iff in H as [H1 H2]. apply String.eqb_eq in H1. apply IH in H2. congruence.
  - injection H as -> ->. rewrite String.eqb_refl. now apply IH.
Qed.
Lemma parts_free : forall s cur, (forall c, In c cur -> c <> slash) -> Forall (free_of "/") (path_parts cur s).
Proof.
  assert (P : forall cur, (forall c, In c cur -> c <> slash) -> Forall (free_of "/") (let p := string_of_list_ascii (rev cur) in if String.eqb p "" || String.eqb p "." then [] else [p])).
  { intros cur H. cbv zeta. destruct (_ || _); constructor; [|constructor]. assert (H' : forall c, In c (rev cur) -> c <> slash) by (intros c I; apply H; now apply in_rev). clear H. induction (rev cur) as [|c l IH]; [exact I|]. cbn [string_of_list_ascii free_of]. split; [apply H'; now left|]. apply IH. intros; apply H'; now right. }
  induction s as [|c s IH]; intros cur H; cbn [path_parts]; [now apply P|]. destruct (Ascii.eqb c slash) eqn:E.
  - apply Forall_app. split; [now apply P|]. apply IH. intros ? [].
  - apply IH. intros d [<-|I]; [now apply Ascii.eqb_neq|now apply H].
Qed.
Lemma path_inv : forall k, path k = [k] -> h5_name k.
Proof.
  intros k E. pose proof (parts_free (list_ascii_of_string k) [] (fun c (I : In c []) => match I with end)) as F. fold (path k) in F. rewrite E in F. apply Forall_cons_iff in F as [F _].
  repeat split; [intros ->; discriminate|intros ->; discriminate|exact F].
Qed.

(** ** Association lists *)
Lemma in_list_get : forall {V} (l : list (string * V)) n, in_list l n = pd_get n l.
Proof. induction l as [|[k v] l IH]; intros n; [reflexivity|]. unfold in_list in *. cbn [find fst pd_get]. destruct (String.eqb n k); [reflexivity|apply IH]. Qed.
Lemma get_In : forall {V} (l : list (string * V)) k v, NoDup (map fst l) -> (pd_get k l = Some v <-> In (k, v) l).
Proof.
  induction l as [|[k' v'] l IH]; intros k v ND; cbn [pd_get In]; [split; [discriminate|tauto]|]. cbn [map fst] in ND. apply NoDup_cons_iff in ND as [N1 N2]. destruct (String.eqb_spec k k') as [->|Q].
  - split; [intros [= ->]; now left|]. intros [[= ->]|I]; [reflexivity|]. exfalso. apply N1. apply in_map_iff. exists (k', v). auto.
  - rewrite IH by exact N2. split; [auto|]. intros [[= -> ->]|I]; [congruence|exact I].
Qed.
Lemma get_perm : forall {V} (l l' : list (string * V)) k, NoDup (map fst l) -> Permutation l l' -> pd_get k l' = pd_get k l.
Proof.
  intros V l l' k ND P. assert (ND' : NoDup (map fst l')) by (eapply Permutation_NoDup; [apply Permutation_map; exact P|exact ND]).
  destruct (pd_get k l) as [v|] eqn:E.
  - apply get_In; [exact ND'|]. eapply Permutation_in; [exact P|]. now apply get_In.
  - destruct (pd_get k l') as [v|] eqn:E'; [|reflexivity]. apply get_In in E'; [|exact ND']. apply (Permutation_in _ (Permutation_sym P)) in E'. apply get_In in E'; [|exact ND]. congruence.
Qed.
Lemma get_app : forall {V} (l l' : list (string * V)) k, pd_get k (l ++ l') = match pd_get k l with Some v => Some v | None => pd_get k l' end.
Proof. induction l as [|[k' v] l IH]; intros l' k; [reflexivity|]. cbn [app pd_get]. destruct (String.eqb k k'); [reflexivity|apply IH]. Qed.
Lemma get_map : forall {V W} (f : string -> V -> W) (l : list (string * V)) k, pd_get k (map (fun p => (fst p, f (fst p) (snd p))) l) = option_map (f k) (pd_get k l).
Proof. induction l as [|[k' v] l IH]; intros k; [reflexivity|]. cbn [map pd_get fst snd]. destruct (String.eqb_spec k k') as [->|]; [reflexivity|apply IH]. Qed.

Section File.
Context {A D : Type}.
Variable enc : dtype -> A -> D.
Variable dec : dtype -> D -> A.
Variable dimenc : list label -> list label.
Notation hset := (Model_H5File.hset (D := D)).
Notation h5file := (list (string * hset)).
Notation save_scale := (save_scale (D := D) dimenc).
Notation save_var := (save_var enc).
Notation h5_create := (h5_create (D := D)).

Definition fmt_of (d : dim) : string := match outputformat d with Ok g => g | Err _ => "" end.
Definition scale_set (k : string) (d : dim) : hset := mkSet (HDim (d_class d) (dimenc (d_data d))) (attr (d_unit d)) (attr (Some (fmt_of d))).
Definition var_set (x : hf A) (c : list string) : hset := mkSet (HVar (nd_map (enc (h_dt x)) (h_nd x)) (h_dt x) c) (attr (h_unit x)) (attr (Some (h_fmt x))).
Definition scales (ivs : list (string * dim)) : h5file := map (fun p => (fst p, scale_set (fst p) (snd p))) ivs.
Definition var_entry (p : string * hf A) : string * hset := (on_disk (fst p), var_set (snd p) (map d_name (h_dims (snd p)))).

Lemma create_ok : forall k s f, h5_name k -> ~ In k (map fst f) -> h5_create k s f = Ok (f ++ [(k, s)]).
Proof.
  intros k s f H N. unfold h5_create, Model_H5File.h5_create. rewrite (proj2 (list_eqb_names _ _) (path_name k H)). destruct (pd_has k f) eqn:E; [|reflexivity]. apply pd_has_In in E. contradiction.
Qed.
Lemma create_inv : forall k s f f', h5_create k s f = Ok f' -> h5_name k /\ ~ In k (map fst f) /\ f' = f ++ [(k, s)].
Proof.
  intros k s f f' H. unfold h5_create, Model_H5File.h5_create in H. destruct (list_eqb _ _ _) eqn:E; [|discriminate]. apply list_eqb_names, path_inv in E. destruct (pd_has k f) eqn:Q; [discriminate|]. injection H as <-. split; [exact E|]. split; [|reflexivity].
  intros I. apply pd_has_In in I. congruence.
Qed.
Lemma fmt_ok : forall d, d_fmt d <> None \/ d_data d <> [] -> outputformat d = Ok (fmt_of d).
Proof. intros d H. unfold fmt_of, outputformat. destruct (d_fmt d); [reflexivity|]. destruct (d_data d) as [|[]]; try reflexivity. destruct H; congruence. Qed.
Lemma save_scale_ok : forall k d f, d_fmt d <> None \/ d_data d <> [] -> h5_name k -> ~ In k (map fst f) -> save_scale k d f = Ok (f ++ [(k, scale_set k d)]).
Proof. intros k d f F H N. unfold save_scale, Model_H5File.save_scale. rewrite (fmt_ok _ F). cbn [bind]. rewrite create_ok by auto. reflexivity. Qed.
Lemma save_scale_inv : forall k d f f', save_scale k d f = Ok f' -> h5_name k /\ ~ In k (map fst f) /\ f' = f ++ [(k, scale_set k d)].
Proof.
  intros k d f f' H. unfold save_scale, Model_H5File.save_scale in H. destruct (outputformat d) as [g|] eqn:E; [|discriminate]. cbn [bind] in H. apply create_inv in H as (H1 & H2 & ->). repeat split; try apply H1; auto. unfold scale_set, fmt_of. now rewrite E.
Qed.

Lemma fst_scales : forall ivs, map fst (scales ivs) = map fst ivs.
Proof. intros ivs. unfold scales. rewrite map_map. reflexivity. Qed.
Lemma fst_entries : forall vs, map fst (map var_entry vs) = map (fun p => on_disk (fst p)) vs.
Proof. intros vs. rewrite map_map. reflexivity. Qed.

Lemma save_scales_ok : forall ivs f, NoDup (map fst f ++ map fst ivs) ->
  Forall (fun p => fst p = d_name (snd p) /\ h5_name (fst p) /\ (d_fmt (snd p) <> None \/ d_data (snd p) <> [])) ivs ->
  each (fun k d => save_scale (esc k) d) ivs f = Ok (f ++ scales ivs).
Proof.
  induction ivs as [|[k d] ivs IH]; intros f ND F; [cbn; now rewrite app_nil_r|]. apply Forall_cons_iff in F as [(F1 & F2 & F3) F4]. cbn [fst snd map] in *. cbn [each].
  rewrite esc_disk, disk_plain by exact F2. rewrite save_scale_ok; auto.
  - cbn [bind]. rewrite IH; auto; [cbn [scales map fst snd]; now rewrite <- app_assoc|]. rewrite map_app. cbn [map fst]. rewrite <- app_assoc. exact ND.
  - apply NoDup_remove in ND as [_ ND]. intros I. apply ND. apply in_or_app. now left.
Qed.

Lemma mapM_resolve : forall (f : h5file) ns, (forall n, In n ns -> h5_name n /\ In n (map fst f)) -> mapM (resolve f) ns = Ok ns.
Proof.
  intros f. induction ns as [|n ns IH]; intros H; [reflexivity|]. cbn [mapM]. destruct (H n (or_introl eq_refl)) as [H1 H2]. unfold resolve at 1. rewrite (path_name n H1). apply pd_has_In in H2. rewrite H2. cbn [bind]. rewrite IH by (intros; apply H; now right). reflexivity.
Qed.
Lemma save_vars_ok : forall expand vs xs f, NoDup (map fst f ++ map (fun p => on_disk (fst p)) xs) ->
  Forall2 (fun p q => fst q = fst p /\ expanded expand (snd p) = Ok (snd q)) vs xs ->
  (forall q, In q xs -> h5_name (on_disk (fst q)) /\ forall d, In d (h_dims (snd q)) -> h5_name (d_name d) /\ In (d_name d) (map fst f)) ->
  each (save_var expand) vs f = Ok (f ++ map var_entry xs).
Proof.
  intros expand vs xs f ND F. revert f ND. induction F as [|[k x] [k' y] vs xs [F1 F2] F IH]; intros f ND H; [cbn; now rewrite app_nil_r|]. cbn [fst snd] in *. subst k'. cbn [each map fst snd] in *.
  destruct (H (k, y) (or_introl eq_refl)) as [H1 H2]. cbn [fst snd] in H1, H2.
  assert (N : ~ In (on_disk k) (map fst f)) by (apply NoDup_remove in ND as [_ ND]; intros I; apply ND; apply in_or_app; now left).
  unfold save_var at 1, Model_H5File.save_var. rewrite F2. cbn [bind]. rewrite esc_disk. rewrite create_ok by auto. cbn [bind]. rewrite mapM_resolve.
  2:{ intros n I. apply in_map_iff in I as (d & <- & I). destruct (H2 d I). split; [auto|]. rewrite map_app. apply in_or_app. now left. }
  cbn [bind]. rewrite create_ok by auto. cbn [bind].
  change (mkSet (HVar (nd_map (enc (h_dt y)) (h_nd y)) (h_dt y) (map d_name (h_dims y))) (attr (h_unit y)) (attr (Some (h_fmt y)))) with (var_set y (map d_name (h_dims y))).
  change (on_disk k, var_set y (map d_name (h_dims y))) with (var_entry (k, y)).
  rewrite IH; [now rewrite <- app_assoc| |].
  - rewrite map_app. cbn [map fst var_entry]. rewrite <- app_assoc. exact ND.
  - intros q I. destruct (H q (or_intror I)) as [H3 H4]. split; [auto|]. intros d Id. destruct (H4 d Id). split; [auto|]. rewrite map_app. apply in_or_app. now left.
Qed.

(** ** Reading *)
Definition is_var (q : string * hset) : bool := match hs_data (snd q) with HVar _ _ _ => true | HDim _ _ => false end.
Lemma read_filter : forall lab (f l : h5file) b, read_loop dec lab f l b = read_loop dec lab f (filter is_var l) b.
Proof.
  intros lab f. induction l as [|[k s] l IH]; intros b; [reflexivity|]. cbn [read_loop filter]. unfold is_var at 1. cbn [snd]. destruct (hs_data s) eqn:E; [apply IH|]. cbn [read_loop]. rewrite E. destruct (getvar _ _ _ _ _ _); [|reflexivity]. cbn [bind]. destruct (b_set _ _ _ _); [|reflexivity]. cbn [bind]. apply IH.
Qed.
Lemma filter_scales : forall ivs, filter is_var (scales ivs) = [].
Proof. induction ivs as [|p ivs IH]; auto. Qed.
Lemma filter_entries : forall vs, filter is_var (map var_entry vs) = map var_entry vs.
Proof. induction vs as [|p vs IH]; [reflexivity|]. cbn [map filter]. unfold is_var at 1. cbn [var_entry snd var_set hs_data]. now rewrite IH. Qed.
Lemma filter_perm : forall {X} (f : X -> bool) l l', Permutation l l' -> Permutation (filter f l) (filter f l').
Proof. intros X f l l' P. induction P; cbn [filter]; auto; [destruct (f x); auto|destruct (f x), (f y); auto; apply perm_swap|eapply perm_trans; eauto]. Qed.

Lemma attr_kept : forall u, attr u = kept u.
Proof. intros [[|]|]; reflexivity. Qed.
Lemma dimrep_In : forall c, dimrep c = true <-> In c h5_classes.
Proof. intros c. unfold h5_classes. split; [destruct c; cbn; try discriminate; auto 10|]. cbn. intros H. decompose [or] H; subst; try reflexivity; contradiction. Qed.

Definition dim_back (n : string) (s : dim) : dim := mkDim (d_class s) n (dimenc (d_data s)) (attr (d_unit s)) None.
Lemma read_dim_ok : forall (g : h5file) n s, pd_get n g = Some (scale_set n s) -> In (d_class s) h5_classes -> read_dim g n = Ok (dim_back n s).
Proof. intros g n s E C. unfold read_dim. rewrite E. cbn [of_option bind scale_set hs_data hs_unit]. rewrite (proj2 (dimrep_In _) C). reflexivity. Qed.
Lemma read_dims_ok : forall (g : h5file) (iv : string -> option dim) ds,
  (forall d, In d ds -> exists s, iv (d_name d) = Some s /\ In (d_class s) h5_classes /\ pd_get (d_name d) g = Some (scale_set (d_name d) s)) ->
  exists es, mapM (read_dim g) (map d_name ds) = Ok es /\ Forall2 (axis_read dimenc iv) ds es /\ map d_name es = map d_name ds.
Proof.
  intros g iv. induction ds as [|d ds IH]; intros H; [exists []; auto|]. destruct (H d (or_introl eq_refl)) as (s & S1 & S2 & S3). destruct IH as (es & E1 & E2 & E3); [intros; apply H; now right|].
  exists (dim_back (d_name d) s :: es). cbn [map mapM]. rewrite (read_dim_ok _ _ _ S3 S2). cbn [bind]. rewrite E1. cbn [bind]. split; [reflexivity|]. split; [constructor; [|exact E2]|].
  - exists s. cbn. rewrite attr_kept. repeat split; auto.
  - cbn [dim_back d_name]. now rewrite E3.
Qed.
Lemma Forall2_length' : forall {X Y} (R : X -> Y -> Prop) l l', Forall2 R l l' -> length l = length l'.
Proof. intros X Y R l l' H. induction H; cbn; auto. Qed.
Lemma map_back : forall (l : list A) t, Forall (fun v => dec t (enc t v) = v) l -> map (dec t) (map (enc t) l) = l.
Proof. intros l t F. induction F; cbn [map]; congruence. Qed.

Lemma getvar_ok : forall (g : h5file) iv (x : hf A),
  (forall d, In d (h_dims x) -> exists s, iv (d_name d) = Some s /\ In (d_class s) h5_classes /\ pd_get (d_name d) g = Some (scale_set (d_name d) s)) ->
  length (h_dims x) = length (nd_shape (h_nd x)) -> Forall (fun v => dec (h_dt x) (enc (h_dt x) v) = v) (nd_elems (h_nd x)) ->
  exists y, getvar dec g (nd_map (enc (h_dt x)) (h_nd x)) (h_dt x) (map d_name (h_dims x)) (var_set x (map d_name (h_dims x))) = Ok y /\ var_read dimenc iv x y /\ map d_name (h_dims y) = map d_name (h_dims x).
Proof.
  intros g iv x H L F. destruct (read_dims_ok g iv _ H) as (es & E1 & E2 & E3). unfold getvar. rewrite E1. cbn [bind]. unfold new_raw. cbn [bind].
  assert (N : nd_map (dec (h_dt x)) (nd_map (enc (h_dt x)) (h_nd x)) = h_nd x) by (destruct (h_nd x) as [sh el]; unfold nd_map; cbn [nd_shape nd_elems] in *; now rewrite map_back).
  rewrite N. rewrite <- (Forall2_length' _ _ _ E2), L, Nat.eqb_refl. eexists. split; [reflexivity|]. cbn [h_dims]. split; [|exact E3].
  unfold var_read. cbn [h_nd h_dt h_unit h_fmt h_dims var_set hs_unit hs_fmt]. rewrite attr_kept. repeat split; auto.
  - intros Q. cbn [attr]. apply String.eqb_neq in Q. now rewrite Q.
  - intros ->. reflexivity.
Qed.

Lemma read_entries : forall lab (g : h5file) iv ps,
  (forall p, In p ps -> (forall d, In d (h_dims (snd p)) -> exists s, iv (d_name d) = Some s /\ In (d_class s) h5_classes /\ pd_get (d_name d) g = Some (scale_set (d_name d) s)) /\
     length (h_dims (snd p)) = length (nd_shape (h_nd (snd p))) /\ Forall (fun v => dec (h_dt (snd p)) (enc (h_dt (snd p)) v) = v) (nd_elems (h_nd (snd p)))) ->
  exists ys, Forall2 (fun p q => fst q = read_name (fst p) /\ var_read dimenc iv (snd p) (snd q)) ps ys /\
    map (fun q => map d_name (h_dims (snd q))) ys = map (fun q => map d_name (h_dims (snd q))) ps /\
    forall b, read_loop dec lab g (map var_entry ps) b = sets lab ys b.
Proof.
  intros lab g iv. induction ps as [|[k x] ps IH]; intros H; [exists []; repeat split; auto|].
  destruct (H (k, x) (or_introl eq_refl)) as (H1 & H2 & H3). cbn [snd] in H1, H2, H3. destruct (getvar_ok g iv x H1 H2 H3) as (y & Y1 & Y2 & Y3).
  destruct IH as (ys & I1 & I2 & I3); [intros; apply H; now right|]. exists ((read_name k, y) :: ys). split; [constructor; auto|]. split; [cbn [map snd]; now rewrite Y3, I2|].
  intros b. cbn [map]. unfold var_entry at 1. cbn [fst snd]. cbn [read_loop]. unfold var_set at 1. cbn [hs_data]. rewrite Y1. cbn [bind sets]. rewrite unesc_disk. destruct (b_set _ _ _ _); [|reflexivity]. cbn [bind]. apply I3.
Qed.

End File.

Lemma map_Forall2 : forall {X Y Z} (f : X -> Z) (g : Y -> Z) l l', Forall2 (fun x y => g y = f x) l l' -> map g l' = map f l.
Proof. intros X Y Z f g l l' H. induction H; cbn [map]; congruence. Qed.
Lemma Forall2_in_r : forall {X Y} (R : X -> Y -> Prop) l l' y, Forall2 R l l' -> In y l' -> exists x, In x l /\ R x y.
Proof. intros X Y R l l' y H. induction H; intros []; [subst; eexists; split; [now left|eauto]|]. destruct IHForall2 as (z & ? & ?); auto. exists z. split; [now right|auto]. Qed.
Lemma Forall2_in_l : forall {X Y} (R : X -> Y -> Prop) l l' x, Forall2 R l l' -> In x l -> exists y, In y l' /\ R x y.
Proof. intros X Y R l l' x H. induction H; intros []; [subst; eexists; split; [now left|eauto]|]. destruct IHForall2 as (z & ? & ?); auto. exists z. split; [now right|auto]. Qed.
Lemma read_names_NoDup : forall {X} (vs : list (string * X)), NoDup (map (fun p => on_disk (fst p)) vs) -> NoDup (map (fun p => read_name (fst p)) vs).
Proof.
  intros X vs. induction vs as [|p vs IH]; cbn [map]; intros H; [constructor|]. apply NoDup_cons_iff in H as [H1 H2]. constructor; [|now apply IH].
  intros I. apply in_map_iff in I as (q & E & I). apply H1. apply in_map_iff. exists q. split; [|exact I]. now rewrite <- (disk_read (fst q)), <- (disk_read (fst p)), E.
Qed.
Lemma NoDup_perm_map : forall {X Y} (f : X -> Y) l l', Permutation l l' -> NoDup (map f l) -> NoDup (map f l').
Proof. intros X Y f l l' P H. eapply Permutation_NoDup; [apply Permutation_map; exact P|exact H]. Qed.

(** A dimension that [ivars_of] has is one of the variables. *)
Lemma ivars_of_from : forall {A} (l : list (string * hf A)) iv n e, pd_get n (dd_map (ivars_of l iv)) = Some e ->
  pd_get n (dd_map iv) = Some e \/ (exists p, In p l /\ In e (h_dims (snd p)) /\ d_name e = n).
Proof.
  assert (S : forall ds iv n e, pd_get n (dd_map (add_ivars ds iv)) = Some e -> pd_get n (dd_map iv) = Some e \/ (In e ds /\ d_name e = n)).
  { induction ds as [|d ds IH]; intros iv n e H; [now left|]. unfold add_ivars in H. cbn [fold_left] in H. apply IH in H as [H|[H1 H2]]; [|right; split; [now right|auto]].
    destruct (dd_contains (d_name d) iv); [now left|]. rewrite get_set in H. destruct (String.eqb_spec n (d_name d)) as [->|]; [|now left]. right. injection H as ->. split; [now left|reflexivity]. }
  intros A. induction l as [|p l IH]; intros iv n e H; [now left|]. unfold ivars_of in H. cbn [fold_left] in H. apply IH in H as [H|(q & Q1 & Q2 & Q3)].
  - apply S in H as [H|[H1 H2]]; [now left|]. right. exists p. split; [now left|auto].
  - right. exists q. split; [now right|auto].
Qed.
