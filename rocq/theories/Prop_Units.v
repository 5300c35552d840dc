(** C76: units in names and guessed units. *)
From Coq Require Import Ascii String List Arith ZArith Bool Lia Permutation.
From Verif Require Import Prop_DataDict Model_NdArray Model_Dim Model_Array Model_DataDict Model_Block Model_Text Model_Comments Model_Si Model_Cplx Model_Units Spec_H5File Spec_Units Proofs_DataDict Proofs_Block Proofs_H5File Prop_Si Proofs_Units.
Import ListNotations.
Local Open Scope string_scope.
Local Open Scope char_scope.
Local Open Scope nat_scope.
Local Open Scope list_scope.

(** Which names have a unit, and which name and unit these are. *)
Theorem C76_name : forall l v u, reg_varunit l = Some (v, u) <-> named_unit l v u.
Proof. exact varunit_iff. Qed.
Print Assumptions C76_name.
Example C76_name_ex : named "freq [GHz]" "freq" "GHz" /\ forall v u, ~ named "S11" v u.
Proof.
  split; [|intros v u H; apply varunit_iff in H; discriminate H]. exists [" "], ["]"], []. split; [reflexivity|]. split; [constructor; [now left|constructor]|]. split; [discriminate|]. split; [repeat constructor; unfold letter; cbn; lia|]. split; [repeat constructor|]. split; [now left|].
  split; [intros H; repeat (destruct H as [H|H]; [discriminate H|]); exact H|]. intros c r H. assert (c = "q") as ->; [|split; discriminate]. change (list_ascii_of_string "freq") with (["f"; "r"; "e"] ++ ["q"]) in H. apply app_inj_tail in H as [_ H]. now symmetry.
Qed.

Section Props.
Context {A : Type}.
Variable lab : A -> label.
Variable emb : label -> A.
Variable scale : Z -> A -> A.
Variable scale_labels : Z -> list label -> list label.
Variable scale_dt : Z -> dtype -> dtype.

Lemma st_items : forall (b : block A) ivs vs, BInv b -> dd_items (b_ivar b) = Ok ivs -> dd_items (b_var b) = Ok vs -> st b ivs vs.
Proof. intros b ivs vs (V & W & C) H1 H2. rewrite items_abs in H1 by auto. rewrite items_abs in H2 by auto. injection H1 as <-. injection H2 as <-. split; [split; auto|]. auto. Qed.
Lemma items_st : forall (b : block A) ivs vs, st b ivs vs -> BInv b /\ dd_items (b_ivar b) = Ok ivs /\ dd_items (b_var b) = Ok vs.
Proof. intros b ivs vs ((V & W & C) & <- & <-). split; [split; auto|]. rewrite !items_abs by auto. auto. Qed.
Lemma axis_dim : forall (b : block A) ivs vs p a, st b ivs vs -> Forall proper ivs -> In p vs -> In a (h_dims (snd p)) -> exists d, in_list ivs (d_name a) = Some d /\ d_name d = d_name a /\ proper (d_name d, d).
Proof.
  intros b ivs vs [k x] a ST P I J. pose proof ST as ((V & W & C) & EI & EV). destruct (st_keys _ _ _ ST) as [_ ND]. cbn [snd] in J.
  assert (G : pd_get k (dd_map (b_var b)) = Some x). { rewrite (st_var _ _ _ _ ST). apply in_split in I as (l1 & l2 & ->). apply get_mid. now apply (mid_notin _ _ _ _ ND). }
  specialize (C k x a G J). unfold dd_contains, pd_has in C. rewrite (st_dim _ _ _ _ ST) in C. rewrite in_list_get. destruct (pd_get (d_name a) ivs) as [d|] eqn:E; [|discriminate C]. exists d. split; [reflexivity|].
  assert (K : In (d_name a, d) ivs). { clear - E. induction ivs as [|[n e] l IH]; [discriminate E|]. cbn [pd_get] in E. destruct (String.eqb_spec (d_name a) n) as [->|]; [injection E as ->; now left|right; auto]. }
  rewrite Forall_forall in P. destruct (P _ K) as [Q1 Q2]. cbn [fst snd] in *. split; [auto|]. split; [reflexivity|exact Q2].
Qed.
Lemma Forall2_map_r : forall {X Y} (R : X -> Y -> Prop) (f : X -> Y) l, (forall x, In x l -> R x (f x)) -> Forall2 R l (map f l).
Proof. intros X Y R f l H. induction l as [|x l IH]; [constructor|]. cbn [map]. constructor; [apply H; now left|apply IH; intros; apply H; now right]. Qed.

Lemma fixd_spec : forall d, proper (d_name d, d) -> fixed_dim scale_labels d (match fixd scale_labels d with Some n => n | None => d end).
Proof.
  intros d [_ F]. cbn [snd] in F. unfold fixd. destruct (parts (d_name d)) as [[v [e w]]|] eqn:P.
  - apply parts_some in P as (u & w' & N & -> & UM & UQ). split.
    + intros v' u' N'. destruct (UQ v' u' N') as [-> ->]. exists e, w'. cbn [d_class d_name d_data d_unit d_fmt option_map]. rewrite (fmt_ok _ F). auto 10.
    + intros NN. exfalso. exact (NN v u N).
  - pose proof (parts_none _ P) as NN. split; [intros v u N; exfalso; exact (NN v u N)|reflexivity].
Qed.

(** fix_unit over all variables: every dimension and every variable is under its name without unit, in its
    place, with the elements multiplied. *)
Theorem C76_fix : forall (b : block A) ivs vs, BInv b -> dd_items (b_ivar b) = Ok ivs -> dd_items (b_var b) = Ok vs ->
  proper_dims ivs -> names_apart (map fst ivs ++ map fst vs) (map fst vs) ->
  exists b' ivs' vs', fix_units lab emb scale scale_labels scale_dt b = Ok b' /\ BInv b' /\ dd_items (b_ivar b') = Ok ivs' /\ dd_items (b_var b') = Ok vs' /\
    Forall2 (fun p p' => fst p' = d_name (snd p') /\ fixed_dim scale_labels (snd p) (snd p')) ivs ivs' /\
    Forall2 (fixed_var scale scale_labels scale_dt ivs) vs vs'.
Proof.
  intros b ivs vs B HI HV P NA. pose proof (st_items b ivs vs B HI HV) as ST. destruct (fix_all lab emb scale scale_labels scale_dt b ivs vs ST P NA) as (b' & Q & ST'). destruct (items_st _ _ _ ST') as (B' & HI' & HV').
  exists b', (fixd_all scale_labels ivs), (map (fixv scale scale_dt) (vaxes (fixd scale_labels) ivs vs)). split; [exact Q|]. split; [exact B'|]. split; [exact HI'|]. split; [exact HV'|]. split.
  - apply Forall2_map_r. intros [k d] I. unfold proper_dims in P. rewrite Forall_forall in P. destruct (P _ I) as [E F]. cbn [fst snd] in *. subst k.
    pose proof (fixd_spec d (conj eq_refl F)) as X. destruct (fixd scale_labels d) as [n|]; split; auto.
  - unfold vaxes. rewrite map_map. apply Forall2_map_r. intros [k x] I. unfold fixed_var. cbn [fst snd].
    assert (AX : Forall2 (fixed_axis scale_labels ivs) (h_dims x) (map (axis (fixd scale_labels) ivs) (h_dims x))).
    { apply Forall2_map_r. intros a J. destruct (axis_dim b ivs vs (k, x) a ST P I J) as (d & D1 & D2 & D3). unfold axis. rewrite D1. pose proof (fixd_spec d D3) as [X1 X2]. unfold fixed_axis. rewrite D1. split.
      - intros v u N. exists d. split; [reflexivity|]. rewrite <- D2 in N. destruct (fixd scale_labels d) as [n|] eqn:F; [now split|]. exfalso. unfold fixd in F. destruct (parts (d_name d)) as [[v0 [e w]]|] eqn:Q0; [discriminate F|]. exact (parts_none _ Q0 v u N).
      - intros NN. unfold fixd. destruct (parts (d_name d)) as [[v0 [e w]]|] eqn:Q0; [|reflexivity]. apply parts_some in Q0 as (u & _ & N & _). exfalso. rewrite D2 in N. exact (NN _ _ N). }
    unfold fixv. cbn [fst]. destruct (parts k) as [[v [e w]]|] eqn:Q0.
    + apply parts_some in Q0 as (u & w' & N & -> & UM & UQ). cbn [fst snd h_fmt h_dims h_nd h_dt h_unit axes]. split; [reflexivity|]. split; [exact AX|]. split.
      * intros v' u' N'. destruct (UQ v' u' N') as [-> ->]. exists e, w'. auto 10.
      * intros NN. exfalso. exact (NN _ _ N).
    + pose proof (parts_none _ Q0) as NN. cbn [fst snd h_fmt h_dims h_nd h_dt h_unit axes]. split; [reflexivity|]. split; [exact AX|]. split; [intros v u N; exfalso; exact (NN v u N)|auto].
Qed.

(** Guessing: what has a unit is left alone; dimensions without unit get the guess and are last. *)
Theorem C76_guess : forall t (b : block A) ivs vs, BInv b -> dd_items (b_ivar b) = Ok ivs -> dd_items (b_var b) = Ok vs ->
  proper_dims ivs -> NoDup (map fst ivs ++ map fst vs) ->
  exists b' new vs', guess_units t b = Ok b' /\ b_x b' = b_x b /\ BInv b' /\
    dd_items (b_ivar b') = Ok (filter (fun p => negb (unitless (snd p))) ivs ++ new) /\ dd_items (b_var b') = Ok vs' /\
    Forall2 (fun p p' => fst p' = fst p /\ guessed_dim (in_list t) (snd p) (snd p')) (filter (fun p => unitless (snd p)) ivs) new /\
    Forall2 (guessed_var (in_list t) ivs) vs vs'.
Proof.
  intros t b ivs vs B HI HV P ND. pose proof (st_items b ivs vs B HI HV) as ST. destruct (guess_all t b ivs vs ST P ND) as (b' & Q & X & ST'). destruct (items_st _ _ _ ST') as (B' & HI' & HV').
  assert (GD : forall d, proper (d_name d, d) -> unitless d = true -> guessd t d = Some (mkDim (d_class d) (d_name d) (d_data d) (in_list t (d_name d)) (Some (fmt_of d)))).
  { intros d _ U. unfold guessd. rewrite U. unfold guess_unit_from_varname. now rewrite <- in_list_get. }
  assert (GS : forall d n, proper (d_name d, d) -> guessd t d = Some n -> guessed_dim (in_list t) d n).
  { intros d n [F1 F] H. unfold guessd in H. destruct (unitless d) eqn:U; [|discriminate H]. injection H as <-. unfold guessed_dim. cbn [d_class d_name d_data d_unit d_fmt option_map snd] in *. rewrite (fmt_ok _ F). unfold guess_unit_from_varname. rewrite <- in_list_get. auto 10. }
  exists b', (map (guessed_entry t) (filter (fun p => unitless (snd p)) ivs)), (map (guessv t) (vaxes (guessd t) ivs vs)). split; [exact Q|]. split; [exact X|]. split; [exact B'|]. split; [exact HI'|]. split; [exact HV'|]. split.
  - apply Forall2_map_r. intros [k d] I. apply filter_In in I as [I U]. cbn [fst snd] in *. unfold proper_dims in P. rewrite Forall_forall in P. destruct (P _ I) as [E F]. cbn [fst snd] in E, F. subst k. unfold guessed_entry. cbn [snd]. pose proof (GD d (conj eq_refl F) U) as G. rewrite G. cbn [entry fst snd d_name]. split; [reflexivity|]. exact (GS d _ (conj eq_refl F) G).
  - unfold vaxes. rewrite map_map. apply Forall2_map_r. intros [k x] I. unfold guessed_var, guessv. cbn [fst snd].
    assert (AX : Forall2 (guessed_axis (in_list t) ivs) (h_dims x) (map (axis (guessd t) ivs) (h_dims x))).
    { apply Forall2_map_r. intros a J. destruct (axis_dim b ivs vs (k, x) a ST P I J) as (d & D1 & D2 & D3). unfold axis. rewrite D1. intros d' D'. rewrite D1 in D'. injection D' as <-. split.
      - intros U. assert (U' : unitless d = true) by (unfold unitless; now rewrite U). pose proof (GD d D3 U') as G. rewrite G. exact (GS d _ D3 G).
      - intros U. unfold guessd, unitless. destruct (d_unit d); [reflexivity|congruence]. }
    unfold guess_unit_from_varname. rewrite <- in_list_get. cbn [axes h_unit]. destruct (h_unit x) as [u|] eqn:U; cbn [fst snd set_unit axes h_nd h_dt h_fmt h_unit h_dims]; rewrite ?U; (do 4 (split; [reflexivity|])); (split; [intros E; try discriminate E; reflexivity|]); (split; [intros E; try (exfalso; apply E; reflexivity); reflexivity|exact AX]).
Qed.

Lemma apart_perm : forall ns ns' vars, Permutation ns ns' -> names_apart ns vars -> names_apart ns' vars.
Proof.
  intros ns ns' vars P (A1 & A2 & A3 & A4). assert (Q : forall x, In x ns' -> In x ns) by (intros x I; exact (Permutation_in _ (Permutation_sym P) I)). split; [exact (Permutation_NoDup P A1)|]. split; [intros n m v u I N J; apply (A2 n m v u); auto|]. split; [intros n m v u u' I J; apply (A3 n m v u u'); auto|exact A4].
Qed.
(** The stage of a reader: guessed first, then the units of the names. *)
Theorem C76_stage : forall t (b : block A) ivs vs, BInv b -> dd_items (b_ivar b) = Ok ivs -> dd_items (b_var b) = Ok vs ->
  proper_dims ivs -> names_apart (map fst ivs ++ map fst vs) (map fst vs) ->
  exists b' new vs1 ivs2 vs2, unit_stage lab emb scale scale_labels scale_dt t b = Ok b' /\ BInv b' /\ dd_items (b_ivar b') = Ok ivs2 /\ dd_items (b_var b') = Ok vs2 /\
    Forall2 (fun p p' => fst p' = fst p /\ guessed_dim (in_list t) (snd p) (snd p')) (filter (fun p => unitless (snd p)) ivs) new /\
    Forall2 (guessed_var (in_list t) ivs) vs vs1 /\
    Forall2 (fun p p' => fst p' = d_name (snd p') /\ fixed_dim scale_labels (snd p) (snd p')) (filter (fun p => negb (unitless (snd p))) ivs ++ new) ivs2 /\
    Forall2 (fixed_var scale scale_labels scale_dt (filter (fun p => negb (unitless (snd p))) ivs ++ new)) vs1 vs2.
Proof.
  intros t b ivs vs B HI HV P NA. destruct (C76_guess t b ivs vs B HI HV P (proj1 NA)) as (b1 & new & vs1 & Q1 & _ & B1 & HI1 & HV1 & G1 & G2).
  assert (KV : map fst vs1 = map fst vs) by (clear - G2; induction G2 as [|p p' l l' (E & _) _ IH]; [reflexivity|]; cbn [map]; now rewrite E, IH).
  assert (KN : map fst new = map fst (filter (fun p => unitless (snd p)) ivs)) by (clear - G1; induction G1 as [|p p' l l' (E & _) _ IH]; [reflexivity|]; cbn [map]; now rewrite E, IH).
  assert (PM : Permutation (map fst ivs) (map fst (filter (fun p => negb (unitless (snd p))) ivs ++ new))).
  { rewrite map_app, KN, <- map_app. apply Permutation_map. clear. induction ivs as [|p l IH]; [constructor|]. cbn [filter]. destruct (unitless (snd p)); cbn [negb app]; [now apply Permutation_cons_app|now constructor]. }
  assert (P1 : proper_dims (filter (fun p => negb (unitless (snd p))) ivs ++ new)).
  { unfold proper_dims in *. rewrite Forall_forall in P. apply Forall_app. split; [apply Forall_forall; intros p I; apply filter_In in I as [I _]; exact (P p I)|].
    assert (X : Forall (fun p => fst p = d_name (snd p) /\ (d_fmt (snd p) <> None \/ d_data (snd p) <> [])) (filter (fun p => unitless (snd p)) ivs)) by (apply Forall_forall; intros p I; apply filter_In in I as [I _]; exact (P p I)).
    clear - X G1. induction G1 as [|p p' l l' (E & _ & N & D & _ & F) _ IH]; [constructor|]. apply Forall_cons_iff in X as [[X1 X2] X3]. constructor; [|now apply IH]. split; [congruence|]. left. destruct (d_fmt (snd p')); [discriminate|discriminate F]. }
  destruct (C76_fix b1 _ vs1 B1 HI1 HV1 P1) as (b2 & ivs2 & vs2 & Q2 & B2 & HI2 & HV2 & F1 & F2).
  { rewrite KV. apply (apart_perm (map fst ivs ++ map fst vs)); [apply Permutation_app_tail; exact PM|exact NA]. }
  exists b2, new, vs1, ivs2, vs2. unfold unit_stage. rewrite Q1. cbn [bind]. auto 10.
Qed.
End Props.
Print Assumptions C76_fix.
Print Assumptions C76_guess.
Print Assumptions C76_stage.

(** The table as it comes, and entries of one's own. *)
Theorem C76_table : forall k u, guess_unit_from_varname unit_table k = Some u <-> known k u.
Proof.
  intros k u. unfold guess_unit_from_varname. split.
  - intros H. assert (I : In (k, u) unit_table). { revert H. generalize unit_table. induction l as [|[n w] l IH]; [discriminate|]. cbn [pd_get]. destruct (String.eqb_spec k n) as [->|]; [intros H; injection H as ->; now left|right; auto]. }
    vm_compute in I. repeat (destruct I as [I|I]; [injection I as <- <-|]). all: try (destruct I).
    all: first [apply (kV _); cbn [In]; tauto|apply (kv _); cbn [In]; tauto|apply (kI _); cbn [In]; tauto|apply (ki _); cbn [In]; tauto|apply (kF _); cbn [In]; tauto
      |apply (kf "f"%string (or_introl eq_refl)); cbn [In]; tauto|apply (kf "F"%string (or_intror (or_introl eq_refl))); cbn [In]; tauto
      |apply (kf "f"%string (or_introl eq_refl) ""%string (or_introl eq_refl))|apply (kf "F"%string (or_intror (or_introl eq_refl)) ""%string (or_introl eq_refl))].
  - intros H. destruct H as [p I|p I|p I|p I|p I r J|p I]; cbn [In] in I; repeat (destruct I as [<-|I]; [first [reflexivity|cbn [In] in J; repeat (destruct J as [<-|J]; [reflexivity|]); destruct J]|]); destruct I.
Qed.
Print Assumptions C76_table.
Theorem C76_add : forall t k u n, guess_unit_from_varname (add_var_guess k u t) n = if string_dec n k then Some u else guess_unit_from_varname t n.
Proof. intros t k u n. unfold guess_unit_from_varname, add_var_guess. destruct (string_dec n k) as [->|N]; [apply pd_get_set_same|now apply pd_get_set_other]. Qed.
Print Assumptions C76_add.
Example C76_add_ex : guess_unit_from_varname unit_table "Temp" = None /\ guess_unit_from_varname (add_var_guess "Temp" "K" unit_table) "Temp" = Some "K"%string /\ known "VGS_SET" "V".
Proof. split; [reflexivity|]. split; [reflexivity|]. apply (kV "GS_SET"). cbn [In]. tauto. Qed.

(** ** Cases *)
Local Open Scope string_scope.
Definition u_scale (e : Z) (x : Z * Z) : Z * Z := (fst x, snd x + e)%Z.
Definition u_labels (e : Z) (l : list label) : list label := map (fun c => match c with LZ z => LZ (z * 10 ^ e)%Z | c => c end) l.
Definition u_dt (e : Z) (d : dtype) : dtype := DFloat.
Definition u_f : dim := mkDim CDimSweep "freq [GHz]" [LZ 1; LZ 2] (Some "1") None.
Definition u_v : dim := mkDim CDimSweep "Vds" [LZ 3] None None.
Definition u_i : hf (Z * Z) := mkHF (mkNd [1; 2] [(7, 0); (8, 0)]%Z) DInt [u_v; u_f] None "%d".
Definition u_s : hf (Z * Z) := mkHF (mkNd [2] [(5, 0); (6, 0)]%Z) DInt [u_f] (Some "S") "%d".
Definition u_dict {V} (l : list (string * V)) : ddict V := fold_left (fun d p => dd_set (fst p) (snd p) d) l dd_empty.
Definition u_block vs ivs : block (Z * Z) := mkBlock (u_dict vs) (u_dict ivs) (match ivs with p :: _ => Some (fst p) | [] => None end).
Definition u_vs := [("Id", u_i); ("g [mS]", u_s)].
Definition u_ivs := [("Vds", u_v); ("freq [GHz]", u_f)].
Definition u_b : block (Z * Z) := u_block u_vs u_ivs.
Definition u_stage := unit_stage (fun x : Z * Z => LZ (fst x)) (fun _ => (0, 0)%Z) u_scale u_labels u_dt unit_table.
Definition u_fix := fix_units (fun x : Z * Z => LZ (fst x)) (fun _ => (0, 0)%Z) u_scale u_labels u_dt.

Lemma u_dict_Inv : forall {V} (l : list (string * V)), Inv (u_dict l).
Proof. intros V l. unfold u_dict. assert (X : forall d, Inv d -> Inv (fold_left (fun d p => dd_set (fst p) (snd p) d) l d)) by (induction l as [|p l IH]; intros d H; [exact H|]; cbn [fold_left]; apply IH; now apply set_Inv). apply X, empty_Inv. Qed.
Lemma u_names : forall n v u, In n ["Vds"; "freq [GHz]"; "Id"; "g [mS]"] -> named n v u -> (n = "freq [GHz]" /\ v = "freq") \/ (n = "g [mS]" /\ v = "g").
Proof.
  intros n v u I N. pose proof (varunit_named n) as H. destruct I as [<-|[<-|[<-|[<-|[]]]]].
  - exfalso. exact (H v u N). - left. destruct H as [_ H]. destruct (H v u N) as [-> _]. auto. - exfalso. exact (H v u N). - right. destruct H as [_ H]. destruct (H v u N) as [-> _]. auto.
Qed.
Example C76_ex : BInv u_b /\ dd_items (b_ivar u_b) = Ok u_ivs /\ dd_items (b_var u_b) = Ok u_vs /\ proper_dims u_ivs /\ names_apart (map fst u_ivs ++ map fst u_vs) (map fst u_vs) /\
  exists b', u_stage u_b = Ok b' /\
    dd_items (b_ivar b') = Ok [("freq", mkDim CDimSweep "freq" [LZ 1000000000; LZ 2000000000] (Some "Hz") (Some "%d")); ("Vds", mkDim CDimSweep "Vds" [LZ 3] (Some "V") (Some "%d"))] /\
    option_map (map (fun p => (fst p, nd_elems (h_nd (snd p)), h_unit (snd p), map d_name (h_dims (snd p))))) (match dd_items (b_var b') with Ok l => Some l | Err _ => None end) =
      Some [("Id", [(7, 0); (8, 0)]%Z, Some "A", ["Vds"; "freq"]); ("g", [(5, -3); (6, -3)]%Z, Some "S", ["freq"])].
Proof.
  split; [|split; [reflexivity|]; split; [reflexivity|]; split; [|split]].
  - split; [apply u_dict_Inv|]. split; [apply u_dict_Inv|]. intros k x d H I. vm_compute in H. revert H. repeat (match goal with |- (if ?c then _ else _) = _ -> _ => destruct c end). all: intros H; try discriminate H.
    all: repeat (match type of H with context [if ?c then _ else _] => destruct c end); try discriminate H; injection H as <-; cbn in I; repeat (destruct I as [<-|I]; [reflexivity|]); destruct I.
  - do 2 (constructor; [split; [reflexivity|right; discriminate]|]). constructor.
  - assert (M : forall n, In n (map fst u_vs) -> In n ["Vds"; "freq [GHz]"; "Id"; "g [mS]"]) by (intros n [<-|[<-|[]]]; cbn; tauto). split; [|split; [|split]].
    + cbn. repeat constructor; cbn; intros H; repeat (destruct H as [H|H]; [discriminate H|]); exact H.
    + intros n m v u I N J ->. destruct (u_names n m u I N) as [[_ ->]|[_ ->]]; cbn in J; repeat (destruct J as [J|J]; [discriminate J|]); exact J.
    + intros n m v u u' I J N N'. destruct (u_names n v u I N) as [[-> E]|[-> E]], (u_names m v u' J N') as [[-> E']|[-> E']]; auto; rewrite E in E'; discriminate E'.
    + intros n v u m e I N H. destruct (u_names n v u (M _ I) N) as [[_ ->]|[_ ->]]; discriminate H.
  - eexists. split; [vm_compute; reflexivity|]. split; vm_compute; reflexivity.
Qed.

(** Guessing changes the order of the dimensions. *)
Theorem C76_order_refuted : exists t (b b' : block (Z * Z)) ns, map fst u_ivs = ns /\ dd_iter (b_ivar b) = ns /\ guess_units t b = Ok b' /\ dd_iter (b_ivar b') = rev ns /\ rev ns <> ns.
Proof. exists unit_table, u_b. eexists. eexists. split; [reflexivity|]. split; [reflexivity|]. split; [vm_compute; reflexivity|]. split; [reflexivity|discriminate]. Qed.
Print Assumptions C76_order_refuted.
(** The name of the x variable stays the name with unit. *)
Theorem C76_xname_refuted : exists (b b' : block (Z * Z)) k, b_x b = Some k /\ b_contains k b = true /\ u_fix b = Ok b' /\ b_x b' = Some k /\ b_contains k b' = false.
Proof. exists (u_block [("y", u_s)] [("freq [GHz]", u_f)]). do 2 eexists. split; [reflexivity|]. split; [reflexivity|]. split; [vm_compute; reflexivity|]. split; reflexivity. Qed.
Print Assumptions C76_xname_refuted.
(** A variable of the name without unit is lost. *)
Theorem C76_lost_refuted : exists (b b' : block (Z * Z)) x, dd_get "g" (b_var b) = Ok x /\ u_fix b = Ok b' /\ length (dd_iter (b_var b)) = 2 /\ dd_iter (b_var b') = ["g"] /\ dd_get "g" (b_var b') <> Ok x.
Proof. exists (u_block [("g", u_i); ("g [mS]", u_s)] u_ivs). do 2 eexists. split; [reflexivity|]. split; [vm_compute; reflexivity|]. split; [reflexivity|]. split; [reflexivity|discriminate]. Qed.
Print Assumptions C76_lost_refuted.
