(** C60: what is written to an MDIF file is read from it. *)
From Coq Require Import Ascii String List Arith ZArith Bool Lia.
From Verif Require Import Model_NdArray Model_Text Model_Words Model_Spdata Model_Stream Model_Mdif Model_MdifWrite Spec_TsText Spec_Mdif Spec_MdifWrite Proofs_Text Proofs_TsText Proofs_MdifWrite Prop_Spdata Prop_TsText Prop_Mdif.
Import ListNotations.
Local Open Scope string_scope.
Local Open Scope nat_scope.
Local Open Scope list_scope.

Lemma Forall2_flat_map : forall {A B C D} (R : A -> B -> Prop) (P : C -> D -> Prop) f g l m, Forall2 R l m -> (forall x y, R x y -> Forall2 P (f x) (g y)) -> Forall2 P (flat_map f l) (flat_map g m).
Proof. intros A B C D R P f g l m F H. induction F as [|x y l m E F IH]; cbn; [constructor|]. apply Forall2_app; auto. Qed.

Section Props.
Context {V : Type} (float : list ascii -> result V) (as_index : V -> option Z).
Notation wvar := (Model_MdifWrite.wvar V).
Notation wdim := (Model_MdifWrite.wdim V).
Definition lens (ds : list wdim) : list nat := map (fun d => length (wd_vals d)) ds.

Lemma values_cons : forall (d : wdim) ds k ix v vs, nth_error (wd_vals d) k = Some v -> values_at ds ix vs -> values_at (d :: ds) (k :: ix) (v :: vs).
Proof.
  intros d ds k ix v vs E (H1 & H2 & H3). split; [cbn; congruence|]. split; [cbn; congruence|]. intros [|j] d' k' D K; cbn in *; [injection D as <-; injection K as <-; exact E|eauto].
Qed.
Lemma positions_seq : forall l pre : list V, Forall2 (fun k v => nth_error (pre ++ l) k = Some v) (seq (length pre) (length l)) l.
Proof.
  induction l as [|x l IH]; intros pre; cbn [length seq]; [constructor|]. constructor; [rewrite nth_error_app2, Nat.sub_diag by lia; reflexivity|].
  specialize (IH (pre ++ [x])). rewrite <- app_assoc, app_length in IH. cbn [length app] in IH. rewrite Nat.add_1_r in IH. exact IH.
Qed.
Lemma coords_at : forall ds : list wdim, Forall2 (fun ix coord => inside ds ix /\ values_at ds ix coord) (tuples (lens ds)) (wproduct (map wd_vals ds)).
Proof.
  induction ds as [|d ds IH]; [constructor; [|constructor]; split; [constructor|]; repeat split; intros [|j]; discriminate|].
  unfold lens. cbn [map tuples wproduct]. apply (Forall2_flat_map (fun k v => nth_error (wd_vals d) k = Some v)).
  - exact (positions_seq (wd_vals d) []).
  - intros k v E. fold (lens ds). induction IH as [|ix c ixs cs [I W] F IH']; cbn [map]; constructor; auto. split; [constructor; [apply nth_error_Some; congruence|exact I]|now apply values_cons].
Qed.
Lemma values_in : forall (ds : list wdim) ix coord, inside ds ix -> values_at ds ix coord -> Forall2 (fun d v => In v (wd_vals d)) ds coord.
Proof.
  induction ds as [|d ds IH]; intros ix coord I (H1 & H2 & H3); [destruct coord; [constructor|discriminate]|]. destruct coord as [|v vs]; [discriminate|]. inversion I as [|d' k ds' ix' K I']; subst. constructor.
  - apply (nth_error_In _ k). rewrite (H3 0 d k eq_refl eq_refl). reflexivity.
  - apply (IH ix'); [exact I'|]. split; [cbn in H1; lia|]. split; [cbn in H2; lia|]. intros j d1 k1 D K1. exact (H3 (S j) d1 k1 D K1).
Qed.
Lemma meant_positions : forall ds coord, Forall2 (fun d v => exists k, points_to as_index d v k) ds coord -> exists ix, positions_of as_index ds coord = Ok ix /\ meant as_index ds coord ix /\ inside ds ix.
Proof.
  intros ds coord F. induction F as [|d v ds vs [k K] F IH]; [exists []; repeat split; constructor|]. destruct IH as [ix [H1 [H2 H3]]]. exists (k :: ix).
  split; [|split; constructor; auto; destruct K as [z [_ [K _]]]; exact K]. destruct K as [z [Z1 [Z2 Z3]]]. cbn [positions_of]. rewrite Z1. cbn [of_option bind]. rewrite H1. cbn [bind].
  set (n := length (wd_vals d)) in *. destruct (Z.ltb_spec z 0).
  - destruct Z3 as [->| ->]; [lia|]. replace (Z.of_nat k - Z.of_nat n + Z.of_nat n)%Z with (Z.of_nat k) by lia. rewrite (proj2 (Z.leb_le 0 (Z.of_nat k))), (proj2 (Z.ltb_lt (Z.of_nat k) (Z.of_nat n))) by lia. cbn [andb]. now rewrite Nat2Z.id.
  - destruct Z3 as [->| ->]; [|lia]. rewrite (proj2 (Z.leb_le 0 (Z.of_nat k))), (proj2 (Z.ltb_lt (Z.of_nat k) (Z.of_nat n))) by lia. cbn [andb]. now rewrite Nat2Z.id.
Qed.
Lemma meant_own : forall ds ix coord, Forall (own_index as_index) ds -> inside ds ix -> values_at ds ix coord -> forall ix', meant as_index ds coord ix' -> ix' = ix.
Proof.
  intros ds ix coord O I W ix' M. revert ix O I W. induction M as [|d ds v vs k ks (z & Z1 & Z2 & Z3) M IH]; intros ix O I (W1 & W2 & W3); [destruct ix; [reflexivity|discriminate]|].
  inversion I as [|d' k0 ds' ix0 K0 I']; subst. apply Forall_cons_iff in O as [O1 O2]. f_equal.
  - pose proof (O1 k0 v (W3 0 d k0 eq_refl eq_refl)) as E. rewrite Z1 in E. injection E as ->. lia.
  - apply IH; auto. split; [cbn in W1; lia|]. split; [cbn in W2; lia|]. intros j d1 k1 D K1. exact (W3 (S j) d1 k1 D K1).
Qed.
Lemma own_points : forall ds coord, Forall (own_index as_index) ds -> Forall2 (fun d v => In v (wd_vals d)) ds coord -> Forall2 (fun d v => exists k, points_to as_index d v k) ds coord.
Proof.
  intros ds coord O F. induction F as [|d v ds vs I F IH]; [constructor|]. apply Forall_cons_iff in O as [O1 O2]. constructor; auto. apply In_nth_error in I as [k K]. exists k. exists (Z.of_nat k). split; [apply O1; exact K|]. split; [apply nth_error_Some; congruence|left; auto].
Qed.

Lemma fmts_outer : forall (ds : list wdim) coord, (forall d v, In d ds -> In v (wd_vals d) -> number_text float (wd_fmt d v) v) -> Forall2 (fun d v => In v (wd_vals d)) ds coord -> good_fmts float ds (map wd_fmt ds) coord.
Proof. intros ds coord H F. induction F as [|d v ds vs I F IH]; cbn [map good_fmts]; auto. split; [apply H; [left; auto|exact I]|]. apply IH. intros d' v' I' V'. apply H; [right; auto|exact V']. Qed.
Lemma fmts_cols : forall (ds : list wdim) coord (cols : list wvar), (forall c d v, In c cols -> In d ds -> In v (wd_vals d) -> number_text float (wv_fmt c v) v) -> length ds <= length cols ->
  Forall2 (fun d v => In v (wd_vals d)) ds coord -> good_fmts float ds (map wv_fmt cols) coord.
Proof.
  intros ds coord cols H L F. revert cols H L. induction F as [|d v ds vs I F IH]; intros cols H L; cbn [good_fmts]; auto. destruct cols as [|c cols]; [cbn in L; lia|]. cbn [map]. split; [apply (H c d v); [left; auto|left; auto|exact I]|]. apply IH; [|cbn in L; lia]. intros c' d' v' C' D' V'. apply (H c' d' v'); [right; auto|right; auto|exact V'].
Qed.

Lemma loop_ok : forall d0 ds b ats cols coords fmts, writable float d0 ds b ats cols ->
  match coords with [] => True | c :: cs => good_fmts float ds fmts c /\ Forall (good_fmts float ds (map wv_fmt cols)) cs end ->
  Forall (fun coord => Forall2 (fun d v => exists k, points_to as_index d v k) ds coord) coords ->
  exists lines rs ms, fmt_coords as_index d0 ds b fmts coords = Ok lines /\ Forall2 line_says lines (map Some (flat_map group_kinds rs)) /\ Forall2 (describes float) rs ms /\
    Forall2 (fun coord m => exists ix, meant as_index ds coord ix /\ block_at d0 ds b ats cols coord ix m) coords ms /\
    Forall (fun r => l_comments r = []) rs /\ Forall (fun m => m_comments m = []) ms.
Proof.
  intros d0 ds b ats cols coords. induction coords as [|c cs IH]; intros fmts W G P.
  - exists [], [], []. repeat split; constructor.
  - destruct G as [G1 G2]. apply Forall_cons_iff in P as [P1 P2]. destruct (meant_positions ds c P1) as [ix [I1 [I2 I3]]].
    destruct (coord_ok float as_index d0 ds b ats cols fmts c ix W G1 I1 I3) as (ln & r & m & K1 & K2 & K3 & K4 & K5 & K6).
    destruct (IH (map wv_fmt cols) W) as (lines & rs & ms & J1 & J2 & J3 & J4 & J5 & J6); [|exact P2|].
    { destruct cs as [|c' cs]; auto. apply Forall_cons_iff in G2. exact G2. }
    exists (ln ++ lines), (r :: rs), (m :: ms). split; [cbn [fmt_coords]; rewrite K1; cbn [bind]; rewrite (over_filter _ _ _ (w_cols _ _ _ _ _ _ W)), J1; reflexivity|].
    split; [cbn [flat_map]; rewrite map_app; apply Forall2_app; auto|]. repeat split; constructor; auto. exists ix. auto.
Qed.
Definition md_read (lines : list (list ascii)) : result (list (mblock V)) := mapM (md_parse float) (fst (md_blocks (md_tokens 0 lines))).
Lemma no_group_nil : no_group [].
Proof. intros r rest E. unfold group_kinds in E. destruct (l_comments r), (l_vars r); discriminate. Qed.
Lemma opt_some : forall {A} (l : list A), flat_map opt_list (map Some l) = l.
Proof. intros A l. induction l as [|x l IH]; cbn; [auto|]. now f_equal. Qed.
Lemma read_ok : forall lines rs ms, Forall2 line_says lines (map Some (flat_map group_kinds rs)) -> Forall2 (describes float) rs ms -> md_read lines = Ok ms.
Proof.
  intros lines rs ms L D. unfold md_read. apply (C41_blocks float rs ms [] (md_tokens 0 lines)); [|apply no_group_nil|exact D]. rewrite (C41_lines _ _ 0 L), opt_some, app_nil_r. reflexivity.
Qed.
Lemma block_lines : forall d0 ds b ats cols, writable float d0 ds b ats cols ->
  (forall d v, In d ds -> In v (wd_vals d) -> exists k, points_to as_index d v k) ->
  length ds <= length cols \/ length (tuples (lens ds)) <= 1 ->
  exists lines rs ms, fmt_block as_index (d0 :: ds) b = Ok lines /\ Forall2 line_says lines (map Some (flat_map group_kinds rs)) /\ Forall2 (describes float) rs ms /\
    Forall2 (fun ix m => exists coord ix', values_at ds ix coord /\ inside ds ix /\ meant as_index ds coord ix' /\ block_at d0 ds b ats cols coord ix' m) (tuples (lens ds)) ms /\
    Forall (fun r => l_comments r = []) rs /\ Forall (fun m => m_comments m = []) ms.
Proof.
  intros d0 ds b ats cols W PT L. pose proof (coords_at ds) as CA.
  assert (FI : Forall (Forall2 (fun d v => In v (wd_vals d)) ds) (wproduct (map wd_vals ds))).
  { clear - CA. induction CA as [|ix c ixs cs [I A] F IH]; constructor; auto. exact (values_in ds ix c I A). }
  destruct (loop_ok d0 ds b ats cols (wproduct (map wd_vals ds)) (map wd_fmt ds) W) as (lines & rs & ms & J1 & J2 & J3 & J4 & J5 & J6).
  - destruct (wproduct (map wd_vals ds)) as [|c cs] eqn:EP; auto. apply Forall_cons_iff in FI as [F1 F2]. split; [apply fmts_outer; [apply (w_print_outer _ _ _ _ _ _ W)|exact F1]|].
    destruct L as [L|L]; [|apply Forall2_len in CA; cbn in CA; destruct cs; [constructor|cbn in CA; lia]].
    eapply Forall_impl; [|exact F2]. intros c' F'. apply fmts_cols; [apply (w_print_later _ _ _ _ _ _ W)|exact L|exact F'].
  - eapply Forall_impl; [|exact FI]. intros c F. clear - PT F. induction F as [|d v ds vs I F IH]; constructor; [apply PT; [left; auto|exact I]|]. apply IH. intros d' v' D'. apply PT. right; exact D'.
  - exists lines, rs, ms. split; [exact J1|]. split; [exact J2|]. split; [exact J3|]. split; [|auto]. clear - CA J4. revert ms J4. induction CA as [|ix c ixs cs [I A] F IH]; intros ms J4; inversion J4 as [|c' m cs' ms' [ix' [M B]] J5]; subst; constructor; eauto 10.
Qed.

(** A block whose outer dimensions have values usable as indices is read as one
    block for each position, with the values of the outer dimensions there; the
    numbers are those at the position which the values mean as indices. *)
Theorem C60_indexed : forall d0 ds b ats cols, writable float d0 ds b ats cols ->
  (forall d v, In d ds -> In v (wd_vals d) -> exists k, points_to as_index d v k) ->
  length ds <= length cols \/ length (tuples (lens ds)) <= 1 ->
  exists lines ms, fmt_block as_index (d0 :: ds) b = Ok lines /\ md_read lines = Ok ms /\
    Forall2 (fun ix m => exists coord ix', values_at ds ix coord /\ meant as_index ds coord ix' /\ block_at d0 ds b ats cols coord ix' m) (tuples (lens ds)) ms.
Proof.
  intros d0 ds b ats cols W PT L. destruct (block_lines d0 ds b ats cols W PT L) as (lines & rs & ms & J1 & J2 & J3 & J4 & _). exists lines, ms. split; [exact J1|]. split; [exact (read_ok _ _ _ J2 J3)|].
  eapply Forall2_imp; [|exact J4]. intros ix m (c & ix' & A & _ & M & B). eauto.
Qed.
(** If the values are their own indices, the numbers are those of that position. *)
Lemma own_lines : forall d0 ds b ats cols, writable float d0 ds b ats cols -> Forall (own_index as_index) ds ->
  length ds <= length cols \/ length (tuples (lens ds)) <= 1 ->
  exists lines rs ms, fmt_block as_index (d0 :: ds) b = Ok lines /\ Forall2 line_says lines (map Some (flat_map group_kinds rs)) /\ Forall2 (describes float) rs ms /\
    Forall2 (fun ix m => exists coord, values_at ds ix coord /\ block_at d0 ds b ats cols coord ix m) (tuples (lens ds)) ms /\
    Forall (fun r => l_comments r = []) rs /\ Forall (fun m => m_comments m = []) ms.
Proof.
  intros d0 ds b ats cols W O L. destruct (block_lines d0 ds b ats cols W) as (lines & rs & ms & J1 & J2 & J3 & J4 & J5 & J6); [|exact L|].
  - intros d v D I. rewrite Forall_forall in O. apply In_nth_error in I as [k K]. exists k, (Z.of_nat k). split; [apply (O d D); exact K|]. split; [apply nth_error_Some; congruence|left; auto].
  - exists lines, rs, ms. repeat split; auto. eapply Forall2_imp; [|exact J4]. intros ix m (c & ix' & A & I & M & B). exists c. split; [exact A|]. now rewrite <- (meant_own ds ix c O I A ix' M).
Qed.
Theorem C60_block : forall d0 ds b ats cols, writable float d0 ds b ats cols -> Forall (own_index as_index) ds ->
  length ds <= length cols \/ length (tuples (lens ds)) <= 1 ->
  exists lines ms, fmt_block as_index (d0 :: ds) b = Ok lines /\ md_read lines = Ok ms /\
    Forall2 (fun ix m => exists coord, values_at ds ix coord /\ block_at d0 ds b ats cols coord ix m) (tuples (lens ds)) ms.
Proof.
  intros d0 ds b ats cols W O L. destruct (own_lines d0 ds b ats cols W O L) as (lines & rs & ms & J1 & J2 & J3 & J4 & _). exists lines, ms. split; [exact J1|]. split; [exact (read_ok _ _ _ J2 J3)|exact J4].
Qed.

(** *** A file of several blocks *)
Definition set_comments (cs : list (list ascii)) (m : mblock V) : mblock V := mkMBlock (m_name m) cs (m_sweep m) (m_cols m) (m_partials m) (m_attribs m).
Definition set_lines (cs : list (list ascii)) (r : lines_of_group) : lines_of_group := mkLines cs (l_vars r) (l_name r) (l_attribs r) (l_headers r) (l_data r) (l_end r).
Lemma describes_comments : forall cs r m, describes float r m -> describes float (set_lines cs r) (set_comments cs m).
Proof.
  intros cs r m (hs & p0 & h0 & hs' & recs & vss & H1 & H2 & H3 & H4 & H5 & H6 & H7 & H8 & H9). exists hs, p0, h0, hs', recs, vss. repeat (split; [assumption|]). split; [reflexivity|]. exact H9.
Qed.
Lemma vars_over_unique : forall ns (vs : list wvar) a b, vars_over ns vs a -> vars_over ns vs b -> a = b.
Proof. intros ns vs a b A B. rewrite <- (over_filter _ _ _ A). now rewrite <- (over_filter _ _ _ B). Qed.
Lemma subset_lines : forall s, can_write float as_index s -> exists lines rs ms, fmt_block as_index (fst s) (snd s) = Ok lines /\ Forall2 line_says lines (map Some (flat_map group_kinds rs)) /\ Forall2 (describes float) rs ms /\
  found s ms /\ Forall (fun r => l_comments r = []) rs /\ Forall (fun m => m_comments m = []) ms.
Proof.
  intros s [E|(d0 & ds & ats & cols & E & W & O & L)]; unfold found; rewrite E.
  - exists [], [], []. repeat split; constructor.
  - destruct (own_lines d0 ds (snd s) ats cols W O L) as (lines & rs & ms & J1 & J2 & J3 & J4 & J5 & J6). exists lines, rs, ms. repeat split; auto.
    intros ats' cols' A C. rewrite (vars_over_unique _ _ _ _ A (w_ats _ _ _ _ _ _ W)), (vars_over_unique _ _ _ _ C (w_cols _ _ _ _ _ _ W)). exact J4.
Qed.
Lemma subsets_lines : forall ss, Forall (can_write float as_index) ss -> exists ts rs mss, mapM (fun s => fmt_block as_index (fst s) (snd s)) ss = Ok ts /\
  Forall2 line_says (concat ts) (map Some (flat_map group_kinds rs)) /\ Forall2 (describes float) rs (concat mss) /\ Forall2 found ss mss /\ Forall (fun r => l_comments r = []) rs /\ Forall (fun m => m_comments m = []) (concat mss).
Proof.
  intros ss F. induction F as [|s ss C F IH]; [exists [], [], []; repeat split; constructor|]. destruct IH as (ts & rs & mss & K1 & K2 & K3 & K4 & K5 & K6). destruct (subset_lines s C) as (lines & rs1 & ms & J1 & J2 & J3 & J4 & J5 & J6).
  exists (lines :: ts), (rs1 ++ rs), (ms :: mss). split; [cbn [mapM]; rewrite J1; cbn [bind]; rewrite K1; reflexivity|]. cbn [concat]. rewrite flat_map_app, map_app.
  split; [apply Forall2_app; auto|]. split; [apply Forall2_app; auto|]. split; [constructor; auto|]. split; apply Forall_app; auto.
Qed.
(** [ms] with the comment in the first block. *)
Definition first_comment (c : list ascii) (ms : list (mblock V)) : list (mblock V) := match ms with [] => [] | m :: r => set_comments [c] m :: r end.
Lemma found_comment : forall c ss mss, Forall2 found ss mss -> exists mss', concat mss' = first_comment c (concat mss) /\ Forall2 found ss mss'.
Proof.
  intros c ss mss F. induction F as [|s ms ss mss H F IH]; [exists []; split; [reflexivity|constructor]|]. destruct ms as [|m ms].
  - destruct IH as [mss' [E F']]. exists ([] :: mss'). split; [exact E|]. constructor; auto.
  - exists ((set_comments [c] m :: ms) :: mss). split; [reflexivity|]. constructor; auto. unfold found in *. destruct (fst s) as [|d0 ds]; [discriminate|]. intros ats cols A C. specialize (H ats cols A C).
    inversion H as [|ix m' ixs ms' (coord & H1 & H2) H3]; subst. constructor; auto. exists coord. split; auto.
Qed.
(** A file is read as the blocks written, each once for each position of its outer
    dimensions, in order; the time of writing is a comment of the first. *)
Theorem C60_file : forall time ss, Forall (can_write float as_index) ss -> trimmed_of time time -> time <> [] ->
  exists lines mss, save_mdif as_index time ss = Ok lines /\ md_read lines = Ok (concat mss) /\ Forall2 found ss mss /\
    map m_comments (concat mss) = firstn (length (concat mss)) [[chars "Created: " ++ time]] ++ repeat [] (length (concat mss) - 1).
Proof.
  intros time ss F T NT. destruct (subsets_lines ss F) as (ts & rs & mss & K1 & K2 & K3 & K4 & K5 & K6). destruct (found_comment (chars "Created: " ++ time) ss mss K4) as [mss' [E F']].
  exists ((chars "!Created: " ++ time) :: concat ts), mss'. split; [unfold save_mdif; rewrite K1; reflexivity|]. rewrite E. split; [|split; [exact F'|]].
  - assert (L0 : line_says (chars "!Created: " ++ time) (Some ("COMMENT", chars "Created: " ++ time))).
    { apply (ls_mark [] "!"%char "COMMENT" (chars "Created: " ++ time)); [intros c []|cbn; auto|]. exists [], []. rewrite app_nil_r. split; [reflexivity|]. split; [intros c []|]. split; [intros c []|]. right. split; [exists "C"%char, (chars "reated: " ++ time); auto|].
      destruct T as (a & b & _ & _ & _ & [T|[_ [y [l [T Y]]]]]); [congruence|]. exists y, (chars "Created: " ++ l). split; [rewrite T at 1; apply app_assoc|exact Y]. }
    unfold md_read. destruct K3 as [|r m rs ms D K3].
    + apply (C41_blocks float [] [] [("COMMENT", chars "Created: " ++ time)]); [|intros r rest E0; unfold group_kinds in E0; destruct (l_comments r) as [|c [|c' cs]], (l_vars r); discriminate|constructor].
      rewrite (C41_lines _ _ 0 (Forall2_cons _ _ L0 K2)). cbn [map flat_map opt_list app]. reflexivity.
    + apply Forall_cons_iff in K5 as [K5 _]. apply (C41_blocks float (set_lines [chars "Created: " ++ time] r :: rs) _ []); [|apply no_group_nil|].
      * rewrite (C41_lines _ _ 0 (Forall2_cons _ _ L0 K2)). cbn [flat_map opt_list app]. rewrite opt_some, app_nil_r. cbn [flat_map]. unfold group_kinds at 1 3. rewrite K5. reflexivity.
      * cbn [first_comment]. constructor; [apply describes_comments; exact D|exact K3].
  - destruct (concat mss) as [|m ms]; [reflexivity|]. apply Forall_cons_iff in K6 as [_ K6]. cbn [first_comment map length firstn set_comments m_comments app]. rewrite Nat.sub_succ, Nat.sub_0_r. rewrite firstn_nil. cbn [app]. f_equal. clear - K6. induction K6 as [|m ms M F IH]; cbn; [auto|]. now rewrite M, IH.
Qed.

(** *** What cannot be written *)
Lemma product_empty : forall ls : list (list V), wproduct ls = [] -> In [] ls.
Proof.
  induction ls as [|l ls IH]; [discriminate|]. intros E. cbn [wproduct] in E. destruct l as [|x l]; [left; auto|]. right. apply IH. cbn [flat_map] in E. apply app_eq_nil in E as [E _]. now apply map_eq_nil in E.
Qed.
(** Without an attribute, a variable over exactly the outer dimensions, or without a
    column a block is not written, unless there is nothing in it. *)
Theorem C60_no_attributes : forall d0 ds b, Forall (fun d => wd_vals d <> []) ds -> Forall (fun v => wv_dims v <> map wd_name ds) (wb_vars b) ->
  fmt_block as_index (d0 :: ds) b = Err ValueError.
Proof.
  intros d0 ds b NE F. cbn [fmt_block]. destruct (wproduct (map wd_vals ds)) as [|c cs] eqn:E.
  - apply product_empty, in_map_iff in E as [d [E I]]. rewrite Forall_forall in NE. exfalso. exact (NE d I E).
  - cbn [fmt_coords]. unfold fmt_coord. rewrite (over_filter (map wd_name ds) (wb_vars b) []); [reflexivity|]. clear - F. induction F as [|v vs H F IH]; constructor; auto.
Qed.
(** Nor with an attribute of complex numbers. *)
Theorem C60_complex_attribute : forall d0 ds b v f, Forall (fun d => wd_vals d <> []) ds -> In v (wb_vars b) -> wv_dims v = map wd_name ds -> wv_data v = WComplex f ->
  exists e, fmt_block as_index (d0 :: ds) b = Err e.
Proof.
  intros d0 ds b v f NE I D C. cbn [fmt_block]. destruct (wproduct (map wd_vals ds)) as [|c cs] eqn:E.
  - apply product_empty, in_map_iff in E as [d [E I']]. rewrite Forall_forall in NE. exfalso. exact (NE d I' E).
  - cbn [fmt_coords]. assert (IA : In v (filter (over (map wd_name ds)) (wb_vars b))) by (apply filter_In; split; [exact I|apply same_names_spec; exact D]).
    assert (EX : exists e, mapM (wattrib as_index ds c) (filter (over (map wd_name ds)) (wb_vars b)) = Err e).
    { induction (filter (over (map wd_name ds)) (wb_vars b)) as [|a l IH]; [destruct IA|]. cbn [mapM]. destruct (wattrib as_index ds c a) as [x|e] eqn:EA; [|exists e; reflexivity]. destruct IA as [->|IA].
      - unfold wattrib in EA. destruct (positions_of as_index ds c); [|discriminate]. cbn [bind] in EA. rewrite C in EA. discriminate.
      - destruct (IH IA) as [e IE]. exists e. cbn [bind]. rewrite IE. reflexivity. }
    destruct EX as [e EX]. unfold fmt_coord. rewrite EX. destruct (filter (over (map wd_name ds)) (wb_vars b)); [destruct IA|]. exists e. reflexivity.
Qed.
End Props.
Print Assumptions C60_indexed. Print Assumptions C60_block. Print Assumptions C60_file. Print Assumptions C60_no_attributes. Print Assumptions C60_complex_attribute.

(** *** Examples: the numbers are natural numbers *)
Definition pr60 (n : nat) : list ascii := " "%char :: print_nat n.
Definition idx60 (n : nat) : option Z := Some (Z.of_nat n).
Definition f60 : wdim nat := mkWDim (chars "f") [7; 8] pr60.
Definition rep60 : wdim nat := mkWDim (chars "INDEX") [0; 1] print_nat.
Definition db60 : wblock nat := mkWBlock None
  [mkWVar (chars "S11") [chars "f"; chars "INDEX"] (WComplex (fun ix => match ix with [k; j] => (10 * k + j, k) | _ => (0, 0) end)) print_nat;
   mkWVar (chars "Vgs") [chars "INDEX"] (WReal (fun ix => match ix with [j] => 5 + j | _ => 0 end)) print_nat].
Definition text60 : list (list ascii) := map chars
  ["VAR SWEEP.INDEX(real) = 0"; "BEGIN DATABLOCK"; "# Vgs(real) = 5"; "% f(real) S11(complex)"].
Example C60_ex : (do t <- fmt_block idx60 [f60; rep60] db60; Ok (firstn 4 t)) = Ok text60 /\
  (do t <- save_mdif idx60 (chars "today") [([f60; rep60], db60)]; md_read nat_float t) =
  Ok [mkMBlock (chars "DATABLOCK") [chars "Created: today"] (chars "f", [MReal 7; MReal 8]) [(chars "S11", [MComplex 0 0; MComplex 10 1])] [(chars "INDEX", 0)] [(chars "Vgs", 5)];
      mkMBlock (chars "DATABLOCK") [] (chars "f", [MReal 7; MReal 8]) [(chars "S11", [MComplex 1 0; MComplex 11 1])] [(chars "INDEX", 1)] [(chars "Vgs", 6)]].
Proof. split; vm_compute; reflexivity. Qed.

(** The example can be written. *)
Lemma digit_ne : forall c d, is_digit c = true -> is_digit d = false -> c <> d.
Proof. intros c d H K ->. congruence. Qed.
Lemma nat_text : forall b n, spaces b -> number_text nat_float (b ++ print_nat n) n.
Proof.
  intros b n B. pose proof (print_nat_digits n) as D. rewrite Forall_forall in D. pose proof (print_nat_value n) as PV. destruct (print_nat n) as [|c w] eqn:E; [now apply print_nat_nonempty in E|].
  exists b, c, w, []. split; [now rewrite app_nil_r|]. split; [exact B|]. split; [intros x []|]. split; [split; [discriminate|intros x I; apply digit_not_space; auto]|].
  split; [|split; [intros x I; split; apply digit_ne; auto|]].
  - unfold nat_float. rewrite (proj2 (forallb_forall is_digit (c :: w)) D). rewrite PV. reflexivity.
  - intros I. assert (DC := D c (or_introl eq_refl)). cbn in I. repeat (destruct I as [I|I]; [subst; discriminate|]). destruct I.
Qed.
Lemma plain60 : forall s, forallb (fun c => negb (is_space c) && negb (Ascii.eqb c "(") && negb (Ascii.eqb c "=")) (chars s) = true -> s <> "" -> plain_name (chars s).
Proof.
  intros s H N. rewrite forallb_forall in H. assert (K : forall c, In c (chars s) -> is_space c = false /\ c <> "("%char /\ c <> "="%char).
  { intros c I. specialize (H c I). apply andb_true_iff in H as [H H3]. apply andb_true_iff in H as [H1 H2]. apply negb_true_iff in H1, H2, H3. apply Ascii.eqb_neq in H2, H3. auto. }
  split; [split; [destruct s; [congruence|discriminate]|intros c I; apply (K c I)]|intros c I; apply (K c I)].
Qed.
Example C60_ex_writable : can_write nat_float idx60 ([f60; rep60], db60).
Proof.
  right. exists f60, [rep60], [nth 1 (wb_vars db60) (mkWVar [] [] (WReal (fun _ => 0)) print_nat)], [nth 0 (wb_vars db60) (mkWVar [] [] (WReal (fun _ => 0)) print_nat)]. split; [reflexivity|].
  assert (PN : forall n, number_text nat_float (print_nat n) n) by (intros n; apply (nat_text []); intros c []).
  split; [|split; [constructor; [|constructor]; intros [|[|k]] v E; try (injection E as <-; reflexivity); destruct k; discriminate|left; cbn; lia]].
  constructor; cbn [db60 f60 rep60 nth wb_vars wb_name wd_name wd_vals wd_fmt wv_name wv_dims wv_data wv_fmt map app].
  - apply vo_out; [discriminate|]. apply vo_in; [reflexivity|]. constructor.
  - apply vo_in; [reflexivity|]. apply vo_out; [discriminate|]. constructor.
  - discriminate.
  - discriminate.
  - discriminate.
  - repeat (constructor; [apply plain60; [reflexivity|discriminate]|]). constructor.
  - repeat constructor; cbn; intuition discriminate.
  - intros pre r C E. inversion C as [|a d l1 l2 S1 C1]; subst. injection E as E _. subst a. destruct S1 as [S1|[_ S1]]; [discriminate|vm_compute in S1; discriminate].
  - constructor; [|constructor]. intros r E. discriminate.
  - discriminate.
  - constructor; [|constructor]. eexists. reflexivity.
  - constructor; [|constructor]. intros ix _. cbn [wv_data wv_fmt]. apply PN.
  - constructor; [|constructor]. intros ix _. cbn [wv_data wv_fmt]. split; apply PN.
  - intros v _. apply (nat_text [" "%char]). intros c [<-|[]]. reflexivity.
  - intros d v [<-|[]] _. apply PN.
  - intros c d v [<-|[]] _ _. apply PN.
Qed.

(** The values of the outer dimension are used as indices: with the values 1 and 0
    the numbers at one value are given for the other. *)
Definition swap60 : wdim nat := mkWDim (chars "INDEX") [1; 0] print_nat.
Theorem C60_values_refuted : exists ms, (do t <- fmt_block idx60 [f60; swap60] db60; md_read nat_float t) = Ok ms /\
  (* at the first position Vgs is 5 and the outer dimension 1 *)
  map (fun m => (m_partials m, m_attribs m)) ms = [([(chars "INDEX", 1)], [(chars "Vgs", 6)]); ([(chars "INDEX", 0)], [(chars "Vgs", 5)])].
Proof. eexists. split; vm_compute; reflexivity. Qed.
(** Values which are not indices cannot be written at all. *)
Theorem C60_range_refuted : exists d, wd_vals d = [1; 2] /\ fmt_block idx60 [f60; d] db60 = Err IndexError.
Proof. exists (mkWDim (chars "INDEX") [1; 2] print_nat). split; vm_compute; reflexivity. Qed.
(** With fewer columns than outer dimensions their values are lost after the first
    position. *)
Definition two60 : wdim nat := mkWDim (chars "P") [0] print_nat.
Definition db60' : wblock nat := mkWBlock (Some (chars "A B"))
  [mkWVar (chars "x") [chars "f"; chars "INDEX"; chars "P"] (WReal (fun _ => 3)) print_nat;
   mkWVar (chars "Vgs") [chars "INDEX"; chars "P"] (WReal (fun _ => 4)) print_nat].
Theorem C60_lost_refuted : exists ms, (do t <- fmt_block idx60 [f60; rep60; two60] db60'; md_read nat_float t) = Ok ms /\
  map m_partials ms = [[(chars "INDEX", 0); (chars "P", 0)]; [(chars "INDEX", 1)]].
Proof. eexists. split; vm_compute; reflexivity. Qed.
Print Assumptions C60_values_refuted. Print Assumptions C60_range_refuted. Print Assumptions C60_lost_refuted.
