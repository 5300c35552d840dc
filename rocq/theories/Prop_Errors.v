(** C67: which exception reports which misuse. *)
From Coq Require Import Ascii String List Arith ZArith Bool Lia Reals.
From Verif Require Import Model_NdArray Proofs_NdArray Model_Dim Model_Array Spec_Array Proofs_Array Model_DataDict Proofs_DataDict Model_Text Model_Block
  Proofs_BlockOps Model_Stream Model_Words Model_Mdif Model_MdifWrite Model_MdifMerge Model_Spdata Model_Config Model_Matrix Model_Si
  Model_Elements Model_Phase Proofs_Block.
From Verif Require Model_Citi.
Import ListNotations.
Local Open Scope char_scope.
Local Open Scope string_scope.
Local Open Scope nat_scope.
Local Open Scope list_scope.

(** ** Arrays *)
(** An array with another number of dimensions than axes is not made. *)
Theorem C67_constructor : forall {A} (a : nd A) t ds u f, length ds <> length (nd_shape a) ->
  new_raw a t (Some ds) u f = Err ShapeDimsError.
Proof.
  intros A a t ds u f H. unfold new_raw. cbn [bind]. destruct (Nat.eqb_spec (length ds) (length (nd_shape a))); [contradiction|reflexivity].
Qed.
Print Assumptions C67_constructor.

(** Only a diagonal dimension that the array has can be expanded. *)
Theorem C67_expand : forall {A} (zero : A) d (x : hf A),
  (subclass (d_class d) CDiagAxis0 = false \/
   forall d', In d' (h_dims x) -> d_name d' = d_name d -> subclass (d_class d') (d_class d) = false) ->
  expand_diagonal zero d x = Err GenericError.
Proof.
  intros A zero d x [H|H]; unfold expand_diagonal; [now rewrite H|].
  destruct (negb (subclass (d_class d) CDiagAxis0)); auto.
  assert (E : dims_contains (h_dims x) d = false).
  { apply not_true_is_false. intros K. unfold dims_contains in K. apply existsb_exists in K as [d' [K1 K2]]. unfold matches in K2.
    apply andb_prop in K2 as [K2 K3]. apply String.eqb_eq in K2. rewrite (H d' K1 K2) in K3. discriminate. }
  now rewrite E.
Qed.
Print Assumptions C67_expand.

(** A dimension without labels and without format cannot be read as an array. *)
Theorem C67_no_labels : forall {A} (b : block A) ivs k d, dd_items (b_ivar b) = Ok ivs -> NoDup (map fst ivs) -> In (k, d) ivs ->
  d_data d = [] -> d_fmt d = None -> b_get k b = Err IndexError.
Proof.
  intros A b ivs k d HI ND HK D F. unfold b_get. rewrite (items_get _ _ k HI), (in_get k d ivs ND HK).
  unfold dim_array, outputformat. now rewrite F, D.
Qed.
Print Assumptions C67_no_labels.

(** A name that the block does not have, or that would be an element of
    something that is not a matrix, or of something it does not have. *)
Theorem C67_lookup : forall {A} (b : block A) vs ivs k, dd_items (b_var b) = Ok vs -> dd_items (b_ivar b) = Ok ivs ->
  NoDup (map fst vs) -> ~ In k (map fst vs) -> ~ In k (map fst ivs) ->
  (forall m e x, is_matrix_name k = Some (m, e) -> In (m, x) vs -> ismatrix x = false) ->
  b_get k b = Err KeyError.
Proof.
  intros A b vs ivs k HV HI ND NV NI M. unfold b_get. rewrite (items_get _ _ k HI), (items_get _ _ k HV).
  assert (E1 : pd_get k ivs = None) by now apply pd_get_none. assert (E2 : pd_get k vs = None) by now apply pd_get_none. rewrite E1, E2.
  destruct (is_matrix_name k) as [[m e]|] eqn:E; auto. unfold dd_get. rewrite (items_get _ _ m HV).
  destruct (pd_get m vs) as [x|] eqn:G; cbn [of_option bind]; auto. apply get_in_pairs in G. now rewrite (M m e x eq_refl G).
Qed.
Print Assumptions C67_lookup.

(** ** Matrices *)
Lemma split_last2 : forall {X} (l : list X) a c, skipn (length (l ++ [a; c]) - 2) (l ++ [a; c]) = [a; c].
Proof.
  intros X l a c. rewrite app_length. cbn [length]. replace (length l + 2 - 2) with (length l) by lia.
  rewrite skipn_app, skipn_all, Nat.sub_diag. reflexivity.
Qed.
(** det and inv of arrays whose last two axes are not equally long, or with
    less than two axes; inv when a matrix has no inverse. *)
Theorem C67_square : forall {A} (zero : A) (rt1 : dtype -> dtype) linv ldet (x : hf A),
  ((exists o n m, h_shape x = o ++ [n; m] /\ n <> m) \/ length (h_shape x) < 2) ->
  det zero rt1 ldet x = Err GenericError /\ inv zero rt1 linv x = Err GenericError.
Proof.
  intros A zero rt1 linv ldet x H. unfold det, inv, nd_det, nd_inv, matrix_part. fold (h_shape x).
  destruct H as [[o [n [m [E H]]]]|H].
  - rewrite E, split_last2. destruct (Nat.eqb_spec n m); [contradiction|]. auto.
  - destruct (h_shape x) as [|n [|m r]]; cbn [length] in H; try lia; auto.
Qed.
Print Assumptions C67_square.
(** inv fails so if one of the matrices has no inverse, and in no other way. *)
Theorem C67_singular : forall {A} (zero : A) (rt1 : dtype -> dtype) linv (x : hf A), length (h_dims x) = length (h_shape x) ->
  (forall o n ox, h_shape x = o ++ [n; n] -> Forall2 lt ox o -> linv n (matrix_at zero (h_nd x) ox) = None -> inv zero rt1 linv x = Err GenericError) /\
  (forall e, inv zero rt1 linv x = Err e -> e = GenericError).
Proof.
  intros A zero rt1 linv x L. split.
  - intros o n ox E B S0. unfold inv, nd_inv, matrix_part. fold (h_shape x). rewrite E, split_last2, Nat.eqb_refl. cbn [negb].
    destruct (forallb _ _) eqn:F; [|reflexivity]. exfalso. rewrite forallb_forall in F. specialize (F ox).
    rewrite S0 in F. discriminate F. unfold outer_part. rewrite app_length. cbn [length]. replace (length o + 2 - 2) with (length o) by lia.
    rewrite firstn_app, Nat.sub_diag, firstn_all, app_nil_r. apply in_indices. clear - B. induction B; cbn [inb]; auto.
    apply andb_true_intro. split; auto. now apply Nat.ltb_lt.
  - intros e H. unfold inv in H. destruct (nd_inv zero linv (h_nd x)) as [a|e0] eqn:E; cbn [bind] in H.
    + exfalso. unfold nd_inv in E. destruct (matrix_part (nd_shape (h_nd x))) as [|n [|m [|? ?]]]; try discriminate E.
      destruct (negb (n =? m)); [discriminate E|]. destruct (forallb _ _); [|discriminate E]. injection E as <-.
      unfold new_raw in H. cbn [bind] in H. rewrite nd_tab_shape in H. fold (h_shape x) in H. rewrite L, Nat.eqb_refl in H. discriminate H.
    + injection H as <-. unfold nd_inv in E. destruct (matrix_part (nd_shape (h_nd x))) as [|n [|m [|? ?]]]; try congruence.
      destruct (negb (n =? m)); [congruence|]. destruct (forallb _ _); congruence.
Qed.
Print Assumptions C67_singular.

(** ** Unwrapping *)
Lemma unwrap_empty : forall a0 cols, In [] cols -> mapM (unwrap_col a0) cols = Err IndexError.
Proof.
  induction cols as [|c cols IH]; intros H; [destruct H|]. cbn [mapM]. destruct c as [|z c]; [reflexivity|].
  destruct H as [H|H]; [discriminate H|]. cbn [unwrap_col bind]. now rewrite IH.
Qed.
Theorem C67_unwrap : forall cols, cols = [] \/ In [] cols -> unwrap_phase cols = Err IndexError.
Proof.
  intros cols [->|H]; [reflexivity|]. destruct cols as [|[|z c] cols]; [reflexivity|reflexivity|]. unfold unwrap_phase. now apply unwrap_empty.
Qed.
Print Assumptions C67_unwrap.

(** ** Reading text *)
(** int() raises nothing but ValueError. *)
Theorem C67_int : forall l e, py_int l = Err e -> e = ValueError.
Proof.
  intros l e H. unfold py_int in H. destruct (strip l) as [|c l']; [congruence|].
  repeat match type of H with
  | (if ?b then _ else _) = _ => destruct b
  | context [match underscored ?f ?x with _ => _ end] => destruct (underscored f x); cbn [bind] in H
  end; congruence.
Qed.
Print Assumptions C67_int.
(** A text that does not begin like a number, or no beginning of which float()
    takes, is not read as a number with unit; nothing else is raised. *)
Lemma span_pre : forall f s a r, span f s = (a, r) -> s = a ++ r.
Proof.
  induction s as [|c s IH]; intros a r E; cbn [span] in E; [injection E as <- <-; reflexivity|].
  destruct (f c); [|injection E as <- <-; reflexivity]. destruct (span f s) as [a' r'] eqn:E2. injection E as <- <-. cbn [app]. f_equal. now apply IH.
Qed.
Lemma span1_pre : forall f s a r, span1 f s = (a, r) -> s = a ++ r.
Proof. intros f [|c s] a r E; cbn [span1] in E; [injection E as <- <-; reflexivity|]. destruct (f c); injection E as <- <-; reflexivity. Qed.
Theorem C67_si : forall (num : Type) (to_float : list ascii -> option num) s,
  ((forall c r, s = c :: r -> ~ In c (chars "0123456789-+.")) \/ (forall p r, s = p ++ r -> p <> [] -> to_float p = None) ->
   string_number_with_unit_to_value num to_float s = Err ValueError) /\
  (forall e, string_number_with_unit_to_value num to_float s = Err e -> e = ValueError).
Proof.
  intros num to_float s. split.
  - intros [H|H]; unfold string_number_with_unit_to_value.
    + destruct s as [|c r]; [reflexivity|]. specialize (H c r eq_refl).
      assert (E : is_numchar c = false).
      { apply not_true_is_false. intros K. apply H. clear H.
        assert (G : existsb (Ascii.eqb c) (chars "0123456789-+.") = true).
        { revert K. destruct c as [[] [] [] [] [] [] [] []]; vm_compute; auto. }
        apply existsb_exists in G as [x [G1 G2]]. apply Ascii.eqb_eq in G2. congruence. }
      unfold match_value. cbn [span]. rewrite E. reflexivity.
    + destruct (match_value s) as [[v rest]|] eqn:M; [|reflexivity]. rewrite (H v rest); auto; unfold match_value in M;
      destruct (span is_numchar s) as [a r] eqn:E1; (destruct a as [|c a]; [discriminate M|]);
      destruct (span1 is_e r) as [b r'] eqn:E2; destruct (span1 is_expchar r') as [d r2] eqn:E3; injection M as <- <-; [|discriminate].
      apply span_pre in E1. apply span1_pre in E2, E3. subst. cbn [app]. now rewrite <- !app_assoc.
  - intros e H. unfold string_number_with_unit_to_value in H. destruct (match_value s) as [[v rest]|]; [|congruence]. destruct (to_float v); congruence.
Qed.
Print Assumptions C67_si.

(** CITI: a complex number not written as two numbers. *)
Lemma split_on_length : forall c s, length (split_on c s) = S (length (filter (Ascii.eqb c) s)).
Proof.
  induction s as [|x s IH]; simpl; auto. rewrite (Ascii.eqb_sym c x). destruct (Ascii.eqb x c); simpl; [now rewrite IH|].
  destruct (split_on c s); simpl in *; lia.
Qed.
Theorem C67_citi_pair : forall {V} (float : list ascii -> result V) l, length (filter (Ascii.eqb ",") (strip l)) <> 1 ->
  Model_Citi.two_floats float l = Err ValueError.
Proof.
  intros V float l H. unfold Model_Citi.two_floats. pose proof (split_on_length "," (strip l)) as E.
  destruct (split_on "," (strip l)) as [|a [|b [|c r]]]; cbn [length] in E; try reflexivity. lia.
Qed.
Print Assumptions C67_citi_pair.
(** A line of unknown type where a token is looked at, also after any number of
    tokens of the kind looked for. *)
Lemma many_loop_stops : forall (t : Model_Citi.ctoken) s tag pre u acc, t_tag t <> tag -> Forall (fun u => t_tag u = tag) (u :: pre) ->
  exists vs, many_loop Model_Citi.rad Model_Citi.rad tag (fun x => x) u (pre ++ t :: s) acc = (Ok vs, t :: s).
Proof.
  intros t s tag. induction pre as [|w pre IH]; intros u acc N F; apply Forall_cons_iff in F as [F1 F2]; subst tag.
  - cbn [app many_loop s_next]. rewrite String.eqb_refl. destruct (String.eqb_spec (t_tag t) (t_tag u)); [contradiction|].
    destruct s; cbn [many_loop]; (destruct (String.eqb_spec (t_tag t) (t_tag u)); [contradiction|]); eexists; reflexivity.
  - cbn [app many_loop s_next]. rewrite String.eqb_refl. apply IH; auto.
Qed.
Theorem C67_citi_unknown : forall (t : Model_Citi.ctoken) s, t_tag t = "?" ->
  (forall tag, fst (Model_Citi.opt tag (t :: s)) = Err HFError) /\ (forall tags, fst (Model_Citi.one_in tags (t :: s)) = Err HFError) /\
  (forall tag pre, Forall (fun u => t_tag u = tag) pre -> tag <> "?" -> fst (Model_Citi.many tag (pre ++ t :: s)) = Err HFError).
Proof.
  intros t s T. split; [|split].
  - intros tag. unfold Model_Citi.opt. now rewrite T.
  - intros tags. unfold Model_Citi.one_in. now rewrite T.
  - intros tag pre F N. unfold Model_Citi.many, many_optional.
    destruct pre as [|u pre]; cbn [app s_next].
    + destruct (String.eqb_spec (t_tag t) tag); [congruence|].
      assert (E : exists vs, many_loop Model_Citi.rad Model_Citi.rad tag (fun x => x) t s [] = (Ok vs, t :: s)).
      { destruct s; cbn [many_loop]; (destruct (String.eqb_spec (t_tag t) tag); [congruence|]); eexists; reflexivity. }
      destruct E as [vs E]. rewrite E. unfold Model_Citi.guard. now rewrite T.
    + destruct (many_loop_stops t s tag pre u [] ltac:(congruence) F) as [vs E]. rewrite E. unfold Model_Citi.guard. now rewrite T.
Qed.
Print Assumptions C67_citi_unknown.

(** MDIF: a header without type, a line with too few words, an attribute that is complex. *)
Theorem C67_mdif_header : forall head, (forall pre t post, head = pre ++ chars "(" ++ t ++ chars ")" ++ post ->
    pre = [] \/ ~ In t (map chars ["integer"; "real"; "string"; "complex"])) ->
  parse_header head = Err GenericError.
Proof.
  intros head H. unfold parse_header.
  assert (TA : forall l t, type_at l = Some t -> exists w post, l = chars "(" ++ w ++ chars ")" ++ post /\ In w (map chars ["integer"; "real"; "string"; "complex"])).
  { clear. intros l t E. unfold type_at in E.
    assert (SW : forall p l, starts_with p l = true -> exists r, l = p ++ r).
    { clear. induction p as [|c p IH]; intros l E; [exists l; reflexivity|]. destruct l as [|d l]; [discriminate E|]. cbn [starts_with] in E.
      apply andb_prop in E as [E1 E2]. apply Ascii.eqb_eq in E1. destruct (IH l E2) as [r ->]. exists r. now subst. }
    destruct (starts_with (chars "(integer)") l) eqn:E1; [apply SW in E1 as [r ->]; exists (chars "integer"), r; split; [reflexivity|simpl; auto]|].
    destruct (starts_with (chars "(real)") l) eqn:E2; [apply SW in E2 as [r ->]; exists (chars "real"), r; split; [reflexivity|simpl; auto]|].
    destruct (starts_with (chars "(string)") l) eqn:E3; [apply SW in E3 as [r ->]; exists (chars "string"), r; split; [reflexivity|simpl; auto]|].
    destruct (starts_with (chars "(complex)") l) eqn:E4; [apply SW in E4 as [r ->]; exists (chars "complex"), r; split; [reflexivity|simpl; auto 6]|].
    discriminate E. }
  assert (G : forall l pre, head = pre ++ l -> scan_head pre l = None).
  { induction l as [|c l IH]; intros pre E; [reflexivity|]. cbn [scan_head]. rewrite IH by (now rewrite <- app_assoc).
    destruct pre as [|c0 pre]; auto. destruct (type_at (c :: l)) as [t|] eqn:T; auto. apply TA in T as [w [post [T1 T2]]].
    rewrite T1 in E. exfalso. destruct (H (c0 :: pre) w post E) as [K|K]; [discriminate K|contradiction]. }
  now rewrite (G head []).
Qed.
Print Assumptions C67_mdif_header.
Theorem C67_mdif_words : forall {V} (float : list ascii -> result V),
  (forall t, get_value float t [] = Err IndexError) /\
  (forall w v, float (unquote w) = Ok v -> get_value float TComplex [w] = Err IndexError).
Proof.
  intros V float. split; [intros []; reflexivity|]. intros w v E. unfold get_value, get_real. cbn [pop bind fst snd]. rewrite E. reflexivity.
Qed.
Print Assumptions C67_mdif_words.
Theorem C67_mdif_attribute : forall {V} (as_index : V -> option Z) ds coord v f ix, positions_of as_index ds coord = Ok ix -> wv_data v = WComplex f ->
  wattrib as_index ds coord v = Err TypeError.
Proof. intros V as_index ds coord v f ix E1 E2. unfold wattrib. now rewrite E1, E2. Qed.
Print Assumptions C67_mdif_attribute.

(** MDIF writing: a value that is no index, or is not within the dimension. *)
Definition no_index {V} (as_index : V -> option Z) (d : wdim V) (v : V) : Prop :=
  as_index v = None \/ exists z, as_index v = Some z /\ (z < - Z.of_nat (length (wd_vals d)) \/ Z.of_nat (length (wd_vals d)) <= z)%Z.
Theorem C67_mdif_range : forall {V} (as_index : V -> option Z) ds coord i d v, nth_error ds i = Some d -> nth_error coord i = Some v -> no_index as_index d v ->
  positions_of as_index ds coord = Err IndexError.
Proof.
  intros V as_index. induction ds as [|d0 ds IH]; intros coord i d v Hd Hv B; [destruct i; discriminate Hd|]. destruct coord as [|v0 coord]; [destruct i; discriminate Hv|].
  cbn [positions_of]. destruct i as [|i]; cbn [nth_error] in Hd, Hv.
  - injection Hd as ->. injection Hv as ->. destruct B as [->|(z & -> & R)]; [reflexivity|]. cbn [of_option bind]. cbv zeta.
    destruct (Z.ltb_spec z 0); match goal with |- context [((0 <=? ?k) && (?k <? ?n))%Z] => replace ((0 <=? k) && (k <? n))%Z with false by (symmetry; apply andb_false_iff; rewrite Z.leb_gt, Z.ltb_ge; lia) end; reflexivity.
  - destruct (as_index v0) as [z|]; [|reflexivity]. cbn [of_option bind]. cbv zeta. rewrite (IH coord i d v Hd Hv B). match goal with |- (if ?b then _ else _) = _ => destruct b; reflexivity end.
Qed.
Print Assumptions C67_mdif_range.
Example C67_mdif_range_ex : positions_of (fun n => Some (Z.of_nat n)) [mkWDim (chars "P") [0; 1] print_nat; mkWDim (chars "Q") [1; 2] print_nat] [1; 2] = Err IndexError.
Proof. vm_compute. reflexivity. Qed.

(** MDIF: a block whose first header line names nothing. *)
Theorem C67_mdif_no_header : forall {V} (float : list ascii -> result V) g cols, parse_data float (g_header g) (g_data g) = Ok cols ->
  (forall h t r, g_header g <> (h :: t) :: r) -> md_parse float g = Err IndexError.
Proof.
  intros V float g cols E N. unfold md_parse. rewrite E. cbn [bind]. destruct (g_header g) as [|[|h t] r]; auto. exfalso. now apply (N h t r).
Qed.
Print Assumptions C67_mdif_no_header.
Example C67_mdif_no_header_ex : let g := mkGroup [] [] (chars "B") [] [[]] [chars "1 2"] in
  parse_data (V := nat) (fun _ => Ok 0) (g_header g) (g_data g) = Ok [] /\ md_parse (V := nat) (fun _ => Ok 0) g = Err IndexError.
Proof. vm_compute. split; reflexivity. Qed.

(** Blocks to be stacked: none at all, or arrays of different shapes. *)
Theorem C67_stack : forall {A} lab emb common cast,
  simple_merge_blocks (A := A) lab emb common cast [] = Err IndexError /\
  (forall xs (x y : hf A), In x xs -> In y xs -> h_shape x <> h_shape y -> np_stack common cast xs = Err ValueError).
Proof.
  intros A lab emb common cast. split; [reflexivity|]. intros xs x y Hx Hy N. unfold np_stack. destruct xs as [|x0 xs]; [destruct Hx|].
  destruct (forallb _ (x0 :: xs)) eqn:F; auto. exfalso. apply N. rewrite forallb_forall in F.
  assert (E : forall z, In z (x0 :: xs) -> h_shape z = h_shape x0).
  { intros z Hz. specialize (F z Hz). clear - F. revert F. generalize (h_shape x0). induction (h_shape z) as [|a l IH]; intros [|b m] F; simpl in F; try discriminate; auto.
    apply andb_prop in F as [F1 F2]. apply Nat.eqb_eq in F1. f_equal; auto. }
  rewrite (E x), (E y); auto.
Qed.
Print Assumptions C67_stack.

(** SP-data: the blocks before the first bad group are given, then its error is raised. *)
Theorem C67_sp : forall {V} (num : list ascii -> V) pre bs g post x e, Forall2 (fun h b => sp_parse num h = Ok b) pre bs -> sp_parse num g = Err x ->
  sp_blocks num (pre ++ g :: post) e = (bs, Some x).
Proof.
  intros V num pre bs g post x e F H. induction F as [|h b pre bs P F IH]; cbn [app sp_blocks]; [now rewrite H|]. rewrite P, IH. reflexivity.
Qed.
Print Assumptions C67_sp.

(** Configuration: only dictionaries take items. *)
Theorem C67_config : forall V (h : heap V) a key v, (forall m par, nth_error h a <> Some (mkObj (CDict m) par)) ->
  setitem h a key v = Err TypeError.
Proof.
  intros V h a key v H. unfold setitem. destruct (nth_error h a) as [[[m|l|ds] par]|] eqn:E; auto. exfalso. now apply (H m par).
Qed.
Print Assumptions C67_config.

(** ** Examples: misuse of arrays and blocks *)
Definition fr : dim := mkDim CDimSweep "f" (map LZ [1; 2]%Z) (Some "Hz") None.
Definition none : dim := mkDim CDimSweep "e" [] None None.
Definition ml : dim := mkDim CMatrix_i "i" (map LZ [0; 1; 2]%Z) None None.
Definition nums (ds : list dim) : hf label :=
  let sh := map (fun d => length (d_data d)) ds in
  mkHF (mkNd sh (map (fun i => LZ (Z.of_nat i)) (seq 0 (prodn sh)))) DInt ds None "%d".
Definition blk : result (block label) := Proofs_Block.sets (fun x => x) [("S", nums [fr]); ("T", nums [none])] b_empty.
Example C67_arrays :
  new_raw (mkNd [2; 3] [1; 2; 3; 4; 5; 6]) DInt (Some [fr]) None None = Err ShapeDimsError /\
  expand_diagonal (LZ 0) (mkDim CIndepAxis "f" [] None None) (nums [fr]) = Err GenericError /\
  expand_diagonal (LZ 0) (mkDim CDiagAxis0 "g" [] None None) (nums [fr]) = Err GenericError /\
  (do b <- blk; Ok (map (fun k => b_get k b) ["e"; "X"; "S12"])) = Ok [Err IndexError; Err KeyError; Err KeyError] /\
  inv (LZ 0) (fun t => t) (fun _ m => Some m) (nums [fr; ml]) = Err GenericError /\
  inv (LZ 0) (fun t => t) (fun _ m => if label_eqb (m 0 0) (LZ 0) then None else Some m) (nums [fr; fr]) = Err GenericError /\
  np_stack (fun _ => DInt) (fun _ x => x) [nums [fr]; nums [fr; fr]] = Err ValueError.
Proof. repeat split; vm_compute; reflexivity. Qed.
Example C67_arrays_hyps : exists b, blk = Ok b /\ dd_items (b_var b) = Ok [("S", nums [fr]); ("T", nums [none])] /\
  dd_items (b_ivar b) = Ok [("f", fr); ("e", none)] /\ is_matrix_name "S12" <> None /\ ismatrix (nums [fr]) = false.
Proof. eexists. split; [vm_compute; reflexivity|]. repeat split; vm_compute; congruence. Qed.

(** Texts. *)
Definition to_nat (l : list ascii) : option nat := match py_int l with Ok z => Some (Z.to_nat z) | Err _ => None end.
Definition float (l : list ascii) : result nat := of_option ValueError (to_nat l).
Example C67_texts :
  py_int (chars "1_ 2") = Err ValueError /\
  string_number_with_unit_to_value nat to_nat (chars "GHz") = Err ValueError /\
  string_number_with_unit_to_value nat to_nat (chars "-.+ GHz") = Err ValueError /\
  string_number_with_unit_to_value nat to_nat (chars "12 GHz") = Ok (12, 9%Z, Some (chars "Hz")) /\
  Model_Citi.two_floats float (chars "1,2,3") = Err ValueError /\ Model_Citi.two_floats float (chars "1,2") = Ok (1, 2) /\
  fst (Model_Citi.many "COMMENT" (Model_Citi.ci_tokens 0 [chars "!a"; chars "WHAT"])) = Err HFError /\
  parse_header (chars "x(reel)") = Err GenericError /\ parse_header (chars "(real)") = Err GenericError /\
  get_value float TComplex [chars "1"] = Err IndexError /\
  sp_blocks (fun l => l) [([], chars "f", [chars "1"]); ([], chars "f", [chars "1" ++ tab :: chars "2"]); ([], chars "g", [chars "3"])] None =
    ([{| s_comments := []; s_sweep := (chars "f", [[chars "1"]]); s_vars := [] |}], Some HFError).
Proof. repeat split; vm_compute; reflexivity. Qed.
Example C67_objects :
  setitem [mkObj (CDict [("a", 1)]) None; mkObj (CList [Some "a"]) (Some 0)] 1 "a" 2 = Err TypeError /\
  setitem [mkObj (CDict [("a", 1)]) None; mkObj (CList [Some "a"]) (Some 0)] 0 "a" 2 =
    Ok [mkObj (CDict [("a", 2)]) None; mkObj (CList [Some "a"]) (Some 0)] /\
  wattrib (fun n => Some (Z.of_nat n)) [mkWDim (chars "f") [0; 1] (fun _ => [])] [1]
    (mkWVar (chars "v") [chars "f"] (WComplex (fun ix => (0, 1))) (fun _ => [])) = Err TypeError.
Proof. repeat split; vm_compute; reflexivity. Qed.
