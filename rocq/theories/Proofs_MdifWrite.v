(** Lemmas about the writer of MDIF files. *)
From Coq Require Import Ascii String List Arith ZArith Bool Lia.
From Verif Require Import Model_NdArray Model_Text Model_Words Model_Spdata Model_Stream Model_Mdif Model_MdifWrite Spec_TsText Spec_Mdif Spec_MdifWrite Proofs_TsText Prop_Spdata Prop_Mdif.
Import ListNotations.
Local Open Scope string_scope.
Local Open Scope nat_scope.
Local Open Scope list_scope.

Lemma Forall2_len : forall {A B} (P : A -> B -> Prop) l m, Forall2 P l m -> length l = length m.
Proof. intros A B P l m F. induction F; cbn; auto. Qed.
Lemma Forall2_imp : forall {A B} (P Q : A -> B -> Prop) l m, (forall x y, P x y -> Q x y) -> Forall2 P l m -> Forall2 Q l m.
Proof. intros A B P Q l m H F. induction F; constructor; auto. Qed.

Section Proofs.
Context {V : Type} (float : list ascii -> result V) (as_index : V -> option Z).
Notation wvar := (Model_MdifWrite.wvar V).
Notation wdim := (Model_MdifWrite.wdim V).

Lemma same_names_spec : forall a b, same_names a b = true <-> a = b.
Proof.
  induction a as [|x a IH]; intros [|y b]; cbn [same_names]; try (split; congruence). rewrite andb_true_iff, eqb_chars_spec, IH. split; [intros [-> ->]; auto|intros E; injection E; auto].
Qed.
Lemma over_filter : forall ns (vs ws : list wvar), vars_over ns vs ws -> filter (over ns) vs = ws.
Proof.
  intros ns vs ws H. induction H as [|v vs ws E H IH|v vs ws E H IH]; auto; cbn [filter]; unfold over at 1.
  - rewrite (proj2 (same_names_spec _ _) E). now rewrite IH.
  - destruct (same_names (wv_dims v) ns) eqn:K; [apply same_names_spec in K; congruence|]. exact IH.
Qed.
Lemma filter_over : forall ns (vs : list wvar), vars_over ns vs (filter (over ns) vs).
Proof.
  intros ns vs. induction vs as [|v vs IH]; [constructor|]. cbn [filter]. destruct (over ns v) eqn:E; [apply vo_in|apply vo_out]; auto.
  - now apply same_names_spec.
  - intros K. unfold over in E. rewrite (proj2 (same_names_spec _ _) K) in E. discriminate.
Qed.

(** *** Words in lines *)
Lemma join_cons : forall s w w' ws, join s (w :: w' :: ws) = w ++ s ++ join s (w' :: ws).
Proof. reflexivity. Qed.
Definition good_word (w : list ascii) (v : V) : Prop := solid w /\ quoted w w /\ float w = Ok v.
Lemma text_word : forall t v, number_text float t v -> exists b0 w b1, t = b0 ++ w ++ b1 /\ spaces b0 /\ spaces b1 /\ good_word w v /\
  exists c r, w = c :: r /\ is_space c = false /\ ~ In c ["!"; "%"; "#"; "B"; "E"; "V"]%char.
Proof.
  intros t v (b0 & c & w & b1 & E & S0 & S1 & SW & F & Q & N). exists b0, (c :: w), b1. split; [exact E|]. split; [exact S0|]. split; [exact S1|].
  split; [split; [exact SW|split; [|exact F]]|exists c, w; split; [auto|split; [apply SW; left; auto|exact N]]].
  apply plain; [exists c, w; split; [auto|apply (Q c); left; auto]|]. destruct (@exists_last _ (c :: w)) as [r [d E']]; [discriminate|]. exists d, r. split; [exact E'|]. apply (Q d). rewrite E'. apply in_or_app. right. left. auto.
Qed.
Lemma spaced_after : forall w b s l ws, solid w -> spaces b -> is_space s = true -> spaced ws l -> spaced (w :: ws) (w ++ b ++ s :: l).
Proof.
  intros w b s l ws SW SB SS H. apply (spaced_cons [] w ws (b ++ s :: l)); [intros c []|exact SW| |].
  - change (s :: l) with ([s] ++ l). apply spaced_space; [exact SB|]. apply spaced_space; [intros c [<-|[]]; exact SS|exact H].
  - right. destruct b as [|x b]; [exists s, l; auto|exists x, (b ++ s :: l); split; [reflexivity|apply SB; left; auto]].
Qed.
Lemma row_words : forall s ts vs, is_space s = true -> Forall2 (number_text float) ts vs -> exists ws, spaced ws (join [s] ts) /\ Forall2 good_word ws vs.
Proof.
  intros s ts vs SS F. induction F as [|t v ts vs T F IH]; [exists []; split; [constructor; intros c []|constructor]|].
  destruct (text_word t v T) as (b0 & w & b1 & -> & S0 & S1 & G & _). destruct IH as [ws [H1 H2]]. exists (w :: ws). split; [|constructor; auto].
  destruct ts as [|t' ts].
  - cbn [join] in *. inversion F; subst. inversion H2; subst. apply spaced_space; [exact S0|]. apply (spaced_cons [] w [] b1); [intros c []|apply G|constructor; exact S1|]. destruct b1 as [|x b]; [left; auto|right; exists x, b; split; [auto|apply S1; left; auto]].
  - rewrite join_cons, <- !app_assoc. apply spaced_space; [exact S0|]. apply spaced_after; auto. apply G.
Qed.
Lemma header_words : forall ws, Forall solid ws -> spaced ws (join [" "%char] ws).
Proof.
  intros ws F. induction F as [|w ws W F IH]; [constructor; intros c []|]. destruct ws as [|w' ws]; [cbn [join]; rewrite <- (app_nil_r w) at 2; apply (spaced_cons [] w [] []); [intros c []|exact W|constructor; intros c []|left; auto]|].
  rewrite join_cons. apply (spaced_after w [] " "%char); auto. intros c [].
Qed.
Lemma join_trim : forall ws, Forall solid ws -> ws <> [] -> (exists x l, join [" "%char] ws = x :: l /\ is_space x = false) /\ exists y l, join [" "%char] ws = l ++ [y] /\ is_space y = false.
Proof.
  intros ws F. induction F as [|w ws W F IH]; intros NE; [congruence|]. assert (W1 : exists x l, w = x :: l /\ is_space x = false) by (destruct W as [W1 W2]; destruct w as [|x l]; [congruence|]; exists x, l; split; [auto|apply W2; left; auto]).
  assert (W2 : exists y l, w = l ++ [y] /\ is_space y = false) by (destruct W as [W2 W3]; destruct (exists_last W2) as [l [y E]]; exists y, l; split; [exact E|apply W3; rewrite E; apply in_or_app; right; left; auto]).
  destruct ws as [|w' ws]; [cbn [join]; split; assumption|]. destruct (IH ltac:(discriminate)) as [_ [y [l [E Y]]]]. rewrite join_cons. split.
  - destruct W1 as [x [l0 [-> X]]]. exists x. eexists. split; [reflexivity|exact X].
  - exists y, (w ++ [" "%char] ++ l). rewrite E, <- !app_assoc. auto.
Qed.

(** *** Kinds of lines *)
Lemma names_solid : forall n s, plain_name n -> In s ["(real)"; "(complex)"] -> solid (n ++ chars s).
Proof.
  intros n s [[N1 N2] _] I. split; [destruct n; [congruence|discriminate]|]. intros c H. apply in_app_or in H as [H|H]; [auto|]. cbn in I. destruct I as [<-|[<-|[]]]; cbn in H; intuition (subst; reflexivity).
Qed.
Definition type_of (v : wvar) : mtype := match wv_data v with WReal _ => TReal | WComplex _ => TComplex end.
Lemma wheader_head : forall v, plain_name (wv_name v) -> solid (wheader v) /\ head_of (wheader v) (type_of v, wv_name v).
Proof.
  intros v P. unfold wheader, head_of, type_of. split; [destruct (wv_data v); apply names_solid; auto; cbn; auto|]. cbn [fst snd]. split; [destruct (wv_data v); reflexivity|]. split; [apply P|]. intros c I. apply (proj2 P c I).
Qed.
Lemma row_values : forall (cols : list wvar) ix vs0 (w0 : list ascii) v0 ws, good_word w0 v0 ->
  Forall2 good_word ws (flat_map (fun c => match number_at c ix with MReal a => [a] | MComplex a b => [a; b] | _ => [] end) cols) ->
  vs0 = MReal v0 :: map (fun c => number_at c ix) cols -> forall n0,
  line_values float ((TReal, n0) :: map (fun c => (type_of c, wv_name c)) cols) (w0 :: ws) vs0.
Proof.
  intros cols ix vs0 w0 v0 ws (S0 & Q0 & F0) H -> n0. econstructor; [eapply vo_real; eassumption|]. clear S0 Q0 F0. revert ws H. induction cols as [|c cols IH]; intros ws H; cbn [map]; [constructor|].
  cbn [flat_map] in H. unfold type_of, number_at in *. destruct (wv_data c) as [f|f]; cbn [app] in H.
  - inversion H as [|w v ws' vs' (S1 & Q1 & F1) H']; subst. econstructor; [eapply vo_real; eassumption|]. apply IH. exact H'.
  - inversion H as [|w v ws' vs' (S1 & Q1 & F1) H']; subst. inversion H' as [|w2 v2 ws2 vs2 (S2 & Q2 & F2) H2]; subst. econstructor; [eapply vo_complex; eassumption|]. apply IH. exact H2.
Qed.

Fixpoint good_fmts (ds : list wdim) (fmts : list (V -> list ascii)) (coord : list V) : Prop :=
  match ds, fmts, coord with
  | [], _, [] => True
  | d :: ds', f :: fs, v :: vs => number_text float (f v) v /\ good_fmts ds' fs vs
  | _, _, _ => False
  end.
Lemma assigned : forall pre n t v, plain_name n -> number_text float t v ->
  (pre = chars "SWEEP." \/ pre = [] /\ starts_with (chars "SWEEP.") n = false) -> exists b, spaces b /\
  exists w, t = w ++ b /\ assigns float (pre ++ n ++ chars "(real) = " ++ w) n v /\ assigns float (pre ++ n ++ chars "(real) = " ++ t) n v /\ exists y l, w = l ++ [y] /\ is_space y = false.
Proof.
  intros pre n t v P (b0 & c & w & b1 & E & S0 & S1 & SW & F & Q & N) PRE. exists b1. split; [exact S1|]. exists (b0 ++ c :: w). split; [now rewrite <- app_assoc|].
  assert (SB : spaces [" "%char]) by (intros x [<-|[]]; reflexivity).
  assert (A : forall e, spaces e -> assigns float (pre ++ n ++ chars "(real) = " ++ b0 ++ (c :: w) ++ e) n v).
  { intros e SE. exists [], pre, [" "%char], (" "%char :: b0), (c :: w), e. split; [cbn [app chars list_ascii_of_string]; reflexivity|].
    split; [intros x []|]. split; [exact SB|]. split; [intros x [<-|I]; [reflexivity|auto]|]. split; [exact SE|]. split; [exact PRE|]. split; [apply P|].
    split; [destruct P as [[P1 P2] _]; destruct n as [|x n]; [congruence|]; exists x, n; split; [auto|apply P2; left; auto]|].
    split; [|split; [discriminate|exact F]]. intros x I. split; [apply SW; exact I|apply (Q x I)]. }
  split; [specialize (A [] ltac:(intros x [])); rewrite app_nil_r in A; exact A|]. split; [rewrite E; apply A; exact S1|].
  destruct (@exists_last _ (c :: w)) as [r [d E']]; [discriminate|]. rewrite E'. exists d, (b0 ++ r). split; [now rewrite app_assoc|]. apply SW. rewrite E'. apply in_or_app. right; left; auto.
Qed.
Lemma varlines_ok : forall ds fmts coord, Forall plain_name (map wd_name ds) -> good_fmts ds fmts coord ->
  exists ls, Forall2 line_says (wvarlines (map wd_name ds) fmts coord) (map Some (tagged_as "VAR" ls)) /\
    Forall2 (fun l nv => assigns float l (fst nv) (snd nv)) ls (combine (map wd_name ds) coord).
Proof.
  induction ds as [|d ds IH]; intros fmts coord P G.
  - exists []. destruct coord; cbn; split; constructor.
  - destruct fmts as [|f fs]; [destruct G|]. destruct coord as [|v vs]; [destruct G|]. destruct G as [G1 G2]. cbn [map] in P. apply Forall_cons_iff in P as [P1 P2]. destruct (IH fs vs P2 G2) as [ls [L1 L2]].
    exists ((chars "SWEEP." ++ wd_name d ++ chars "(real) = " ++ f v) :: ls). cbn [map wvarlines tagged_as combine]. split; constructor; auto.
    + unfold wvarline. apply (ls_var [] " "%char (chars "SWEEP." ++ wd_name d ++ chars "(real) = " ++ f v)). intros c [].
    + cbn [fst snd]. destruct (assigned (chars "SWEEP.") (wd_name d) (f v) v P1 G1 (or_introl eq_refl)) as (b & _ & w & _ & _ & A & _). exact A.
Qed.
Lemma attribs_ok : forall ds coord ix ats, positions_of as_index ds coord = Ok ix -> inside ds ix -> Forall plain_name (map wv_name ats) ->
  Forall (fun v => forall r, wv_name v <> chars "SWEEP." ++ r) ats -> Forall (fun v => exists f, wv_data v = WReal f) ats -> Forall (prints_all float ds) ats ->
  exists ls tx ps, mapM (wattrib as_index ds coord) ats = Ok tx /\ Forall2 line_says tx (map Some (tagged_as "ATTRIB" ls)) /\
    Forall2 (fun l nv => assigns float l (fst nv) (snd nv)) ls ps /\
    Forall2 (fun (a : wvar) p => fst p = wv_name a /\ number_at a ix = MReal (snd p)) ats ps.
Proof.
  intros ds coord ix ats E I. induction ats as [|a ats IH]; intros P N R A.
  - exists [], [], []. split; [reflexivity|]. repeat split; constructor.
  - cbn [map] in P. apply Forall_cons_iff in P as [P1 P2]. apply Forall_cons_iff in N as [N1 N2]. apply Forall_cons_iff in R as [[f R1] R2]. apply Forall_cons_iff in A as [A1 A2].
    destruct (IH P2 N2 R2 A2) as (ls & tx & ps & H1 & H2 & H3 & H4). specialize (A1 ix I). rewrite R1 in A1.
    destruct (assigned [] (wv_name a) (wv_fmt a (f ix)) (f ix) P1 A1) as (b & SB & w & E1 & A & _ & y & l & E2 & Y).
    { right. split; [reflexivity|]. apply starts_false. exact N1. }
    exists ((wv_name a ++ chars "(real) = " ++ w) :: ls). exists ((chars "# " ++ wheader a ++ chars " = " ++ wv_fmt a (f ix)) :: tx), ((wv_name a, f ix) :: ps).
    split; [cbn [mapM]; unfold wattrib at 1; rewrite E, R1; cbn [bind]; rewrite H1; reflexivity|]. split; [|split].
    + cbn [tagged_as map]. constructor; [|exact H2].
      apply (ls_mark [] "#"%char "ATTRIB" (" "%char :: wheader a ++ chars " = " ++ wv_fmt a (f ix))); [intros c []|cbn; auto|].
      exists [" "%char], b. split; [unfold wheader; rewrite R1, E1, <- !app_assoc; cbn [app chars list_ascii_of_string]; reflexivity|]. split; [intros c [<-|[]]; reflexivity|]. split; [exact SB|]. right. split.
      * destruct P1 as [[P3 P4] _]. destruct (wv_name a) as [|x n]; [congruence|]. exists x. eexists. split; [reflexivity|apply P4; left; auto].
      * exists y, (wv_name a ++ chars "(real) = " ++ l). split; [rewrite E2, <- !app_assoc; reflexivity|exact Y].
    + constructor; [exact A|exact H3].
    + constructor; [|exact H4]. cbn [fst snd]. split; [reflexivity|]. unfold number_at. now rewrite R1.
Qed.

(** *** Rows *)
Lemma elems_ok : forall ds ix (cols : list wvar), inside ds ix -> Forall (prints_all float ds) cols ->
  Forall2 (number_text float) (flat_map (fun c => welems c ix) cols)
    (flat_map (fun c => match number_at c ix with MReal a => [a] | MComplex a b => [a; b] | _ => [] end) cols).
Proof.
  intros ds ix cols I F. induction F as [|c cols C F IH]; [constructor|]. cbn [flat_map]. specialize (C ix I). unfold welems, number_at at 1. destruct (wv_data c) as [f|f]; cbn [app]; [constructor; [exact C|exact IH]|].
  destruct C as [C1 C2]. constructor; [exact C1|constructor; [exact C2|exact IH]].
Qed.
Lemma row_ok : forall (d0 : wdim) ds ix k v cols, inside ds ix -> k < length (wd_vals d0) -> number_text float (wd_fmt d0 v) v -> Forall (prints_all float (d0 :: ds)) cols ->
  exists row, line_says (join [tab] (wd_fmt d0 v :: flat_map (fun c => welems c (k :: ix)) cols)) (Some ("DATA", row)) /\
    exists ws, spaced ws row /\ line_values float ((TReal, wd_name d0) :: map (fun c => (type_of c, wv_name c)) cols) ws (MReal v :: map (fun c => number_at c (k :: ix)) cols).
Proof.
  intros d0 ds ix k v cols I K T F. assert (FE := elems_ok (d0 :: ds) (k :: ix) cols ltac:(constructor; auto) F).
  destruct (row_words tab _ _ eq_refl (Forall2_cons _ _ T FE)) as [ws [H1 H2]]. inversion H2 as [|w0 v0 ws' vs' G0 G1]; subst.
  destruct (text_word _ _ T) as (b0 & w & b1 & E & S0 & S1 & _ & c & r & -> & SC & NC).
  assert (EX : exists r', join [tab] (wd_fmt d0 v :: flat_map (fun c => welems c (k :: ix)) cols) = b0 ++ c :: r').
  { destruct (flat_map (fun c => welems c (k :: ix)) cols) as [|e es]; [cbn [join]|rewrite join_cons]; rewrite E; [exists (r ++ b1); reflexivity|]. eexists. rewrite <- !app_assoc. cbn [app]. reflexivity. }
  destruct EX as [r' E']. rewrite E' in *. exists (c :: r'). split.
  - apply ls_data; auto.
    + intros X. apply NC. cbn in X |- *. tauto.
    + intros s l X E2. apply NC. cbn in X. destruct X as [<-|[<-|[<-|[]]]]; cbn in E2; injection E2 as -> _; cbn; auto 10.
  - exists (w0 :: ws'). apply spaced_lead in H1. fold (lstrip (b0 ++ c :: r')) in H1. rewrite lstrip_lead in H1 by auto. split; [exact H1|]. eapply row_values; [exact G0|exact G1|reflexivity].
Qed.
Lemma rows_ok : forall (d0 : wdim) ds ix cols kvs, inside ds ix -> Forall (fun kv => fst kv < length (wd_vals d0) /\ number_text float (wd_fmt d0 (snd kv)) (snd kv)) kvs -> Forall (prints_all float (d0 :: ds)) cols ->
  exists data, Forall2 line_says (map (fun kv => join [tab] (wd_fmt d0 (snd kv) :: flat_map (fun c => welems c (fst kv :: ix)) cols)) kvs) (map Some (tagged_as "DATA" data)) /\
    Forall2 (record_values float [(TReal, wd_name d0) :: map (fun c => (type_of c, wv_name c)) cols]) (map (fun x => [x]) data)
      (map (fun kv => MReal (snd kv) :: map (fun c => number_at c (fst kv :: ix)) cols) kvs).
Proof.
  intros d0 ds ix cols kvs I F FC. induction F as [|[k v] kvs [K T] F IH]; [exists []; split; constructor|]. destruct IH as [data [H1 H2]]. cbn [fst snd] in *.
  destruct (row_ok d0 ds ix k v cols I K T FC) as [row [R1 [ws [R2 R3]]]]. exists (row :: data). cbn [map tagged_as fst snd]. split; constructor; auto.
  exists [MReal v :: map (fun c => number_at c (k :: ix)) cols]. cbn [concat combine length]. rewrite app_nil_r. repeat split; auto. constructor; [|constructor]. cbn [fst snd]. exists ws. auto.
Qed.
Lemma combine_seq : forall (l : list V) s k, nth_error (combine (seq s (length l)) l) k = option_map (fun v => (s + k, v)) (nth_error l k).
Proof. induction l as [|x l IH]; intros s k; cbn [length seq combine]; [destruct k; reflexivity|]. destruct k as [|k]; cbn [nth_error option_map]; [now rewrite Nat.add_0_r|]. rewrite IH. destruct (nth_error l k); cbn [option_map]; [|reflexivity]. do 2 f_equal. lia. Qed.

(** *** One turn of the loop *)
Definition block_name (b : wblock V) : list ascii := match wb_name b with Some n => n | None => chars "DATABLOCK" end.
Lemma coord_ok : forall d0 ds b ats cols fmts coord ix, writable float d0 ds b ats cols -> good_fmts ds fmts coord -> positions_of as_index ds coord = Ok ix -> inside ds ix ->
  exists lines r m, fmt_coord as_index d0 ds b fmts coord = Ok lines /\ Forall2 line_says lines (map Some (group_kinds r)) /\ describes float r m /\
    block_at d0 ds b ats cols coord ix m /\ l_comments r = [] /\ m_comments m = [].
Proof.
  intros d0 ds b ats cols fmts coord ix W G E I. destruct W as [WA WC NA NC NV WN ND WS WAN WB WR PA PC PS PO PL].
  assert (NS := WN). apply Forall_cons_iff in NS as [N0 NS]. apply Forall_app in NS as [N1 NS]. apply Forall_app in NS as [N2 N3].
  destruct (varlines_ok ds fmts coord N1 G) as [vl [V1 V2]].
  destruct (attribs_ok ds coord ix ats E I N2 WAN WR PA) as (al & tx & ps & A1 & A2 & A3 & A4).
  set (n := length (wd_vals d0)). set (kvs := combine (seq 0 n) (wd_vals d0)).
  destruct (rows_ok d0 ds ix cols kvs I) as [data [R1 R2]]; [|exact PC|].
  { apply Forall_forall. intros [k v] K. cbn [fst snd]. split; [apply in_combine_l in K; apply in_seq in K; lia|apply PS; exact (in_combine_r _ _ _ _ K)]. }
  set (hd := join [" "%char] ((wd_name d0 ++ chars "(real)") :: map wheader cols)).
  assert (HS : Forall solid ((wd_name d0 ++ chars "(real)") :: map wheader cols)).
  { constructor; [apply names_solid; [exact N0|cbn; auto]|]. rewrite Forall_map in *. eapply Forall_impl; [|exact N3]. intros c P. apply wheader_head. exact P. }
  eexists. exists (mkLines [] vl (block_name b) al [hd] data []).
  exists (mkMBlock (block_name b) [] (wd_name d0, map MReal (wd_vals d0)) (map (fun c => (wv_name c, map (fun k => number_at c (k :: ix)) (seq 0 n))) cols) (combine (map wd_name ds) coord) ps).
  split; [|split; [|split; [|split; [|split; reflexivity]]]].
  - unfold fmt_coord. rewrite (over_filter _ _ _ WA), (over_filter _ _ _ WC), A1. destruct ats as [|a ats]; [congruence|]. cbn [bind]. destruct cols as [|c cols]; [congruence|]. rewrite E. cbn [bind]. reflexivity.
  - unfold group_kinds. cbn [l_comments l_vars l_name l_attribs l_headers l_data l_end tagged_as map app]. fold (tagged_as "VAR" vl) (tagged_as "ATTRIB" al) (tagged_as "DATA" data). rewrite !map_app. cbn [map]. rewrite !map_app. cbn [map]. rewrite !map_app. cbn [map].
    apply Forall2_app; [exact V1|]. constructor.
    { apply (ls_begin [] " "%char (block_name b)); [intros c []|]. unfold block_name. destruct (wb_name b) as [nm|]; [apply WB; reflexivity|]. exists [], []. rewrite app_nil_r. split; [reflexivity|]. split; [intros c []|]. split; [intros c []|]. right. split; [exists "D"%char, (chars "ATABLOCK"); auto|exists "K"%char, (chars "DATABLOC"); auto]. }
    apply Forall2_app; [exact A2|]. constructor.
    { apply (ls_mark [] "%"%char "HEADER" (" "%char :: hd)); [intros c []|cbn; auto|]. exists [" "%char], []. rewrite app_nil_r. split; [reflexivity|]. split; [intros c [<-|[]]; reflexivity|]. split; [intros c []|]. right. apply join_trim; [exact HS|discriminate]. }
    apply Forall2_app; [exact R1|]. constructor; [|constructor]. apply (ls_end0 []). intros c [].
  - assert (LD : length data = n).
    { apply Forall2_len in R2. rewrite !map_length in R2. rewrite R2. unfold kvs. rewrite combine_length, seq_length. unfold n. lia. }
    set (h0 := map (fun c => (type_of c, wv_name c)) cols) in *.
    exists [(TReal, wd_name d0) :: h0], (TReal, wd_name d0), h0, [], (map (fun x => [x]) data), (map (fun kv => MReal (snd kv) :: map (fun c => number_at c (fst kv :: ix)) cols) kvs).
    cbn [l_headers l_data l_name l_comments l_vars l_attribs m_name m_comments m_sweep m_cols m_partials m_attribs fst snd concat app]. rewrite app_nil_r.
    split; [constructor; [|constructor]; eexists; split; [apply header_words; exact HS|]; constructor|].
    { split; [reflexivity|]. cbn [snd]. split; [apply N0|]. intros c K. apply (proj2 N0 c K). }
    { unfold h0. clear - float as_index N3. rewrite Forall_map in N3. induction N3 as [|c cols P F IH]; [constructor|]. constructor; [apply wheader_head; exact P|exact IH]. }
    split; [reflexivity|]. split; [cbn [map snd]; unfold h0; rewrite map_map; cbn [snd]; exact ND|]. split; [clear; induction data as [|x data IH]; [reflexivity|]; cbn [map concat app]; now rewrite <- IH|].
    split; [destruct data as [|x data]; [|discriminate]; unfold n in LD; destruct (wd_vals d0); [congruence|discriminate]|]. split; [exact R2|]. split; [reflexivity|]. split; [reflexivity|].
    split; [right; split; [reflexivity|exact WS]|]. split; [|split; [unfold h0; rewrite !map_map; reflexivity|split; [exact V2|exact A3]]].
    split; [unfold h0; cbn [length]; now rewrite !map_length|]. rewrite map_length, LD. intros i col EI. split.
    + destruct i as [|i]; cbn [nth_error] in EI; [injection EI as <-; now rewrite map_length|]. rewrite map_map, nth_error_map in EI. destruct (nth_error cols i); [|discriminate]. cbn in EI. injection EI as <-. now rewrite map_length, seq_length.
    + intros k vs K. rewrite nth_error_map in K. unfold kvs, n in K. rewrite combine_seq in K. destruct (nth_error (wd_vals d0) k) as [v|] eqn:EV; [|discriminate]. cbn in K. injection K as <-.
      destruct i as [|i]; cbn [nth_error] in EI |- *; [injection EI as <-; rewrite nth_error_map, EV; reflexivity|]. rewrite map_map, nth_error_map in EI. rewrite nth_error_map. destruct (nth_error cols i) as [c|]; [|discriminate]. cbn in EI |- *. injection EI as <-.
      assert (KN : k < n) by (unfold n; apply nth_error_Some; congruence). rewrite nth_error_map, (nth_error_nth' (seq 0 n) 0) by (rewrite seq_length; exact KN). rewrite seq_nth by exact KN. reflexivity.
  - unfold block_at. cbn [m_name m_sweep m_cols m_partials m_attribs]. split; [reflexivity|]. split; [reflexivity|]. split; [|split; [|split; [|exact A4]]].
    + clear. induction cols as [|c cols IH]; [constructor|]. cbn [map]. constructor; [|exact IH]. cbn [fst snd]. split; [reflexivity|]. split; [now rewrite map_length, seq_length|]. intros k KN. rewrite nth_error_map, (nth_error_nth' (seq 0 n) 0) by (rewrite seq_length; exact KN). rewrite seq_nth by exact KN. reflexivity.
    + clear - G. revert fmts coord G. induction ds as [|d ds IH]; intros [|f fs] [|v vs] G; try destruct G; cbn; auto; f_equal; eauto.
    + clear - G. revert fmts coord G. induction ds as [|d ds IH]; intros [|f fs] [|v vs] G; try destruct G; cbn; auto; f_equal; eauto.
Qed.
End Proofs.
