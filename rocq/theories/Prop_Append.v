(** C39: appending to an HDF5 file. *)
From Coq Require Import Ascii String List Arith Bool Lia.
From Verif Require Import Model_NdArray Proofs_NdArray Model_Text Proofs_Text Model_Merge Model_Hdf5 Model_Append Spec_Append Proofs_TsText Prop_Spdata.
Import ListNotations.
Local Open Scope nat_scope.
Local Open Scope list_scope.

Lemma nth_mid : forall (pre : list nat) n post, nth (length pre) (pre ++ n :: post) 0 = n.
Proof. intros pre n post. rewrite app_nth2 by lia. now rewrite Nat.sub_diag. Qed.
Lemma drop_mid : forall {X} (pre : list X) n post, drop_at (length pre) (pre ++ n :: post) = pre ++ post.
Proof.
  intros X pre n post. unfold drop_at. rewrite firstn_app, firstn_all, Nat.sub_diag. cbn [firstn]. rewrite app_nil_r. f_equal. rewrite skipn_app, skipn_all2 by lia. replace (S (length pre) - length pre) with 1 by lia. reflexivity.
Qed.
Lemma change_mid : forall (pre : list nat) n post, change_at (length pre) S (pre ++ n :: post) = pre ++ S n :: post.
Proof. intros pre n post. unfold change_at. rewrite firstn_app, firstn_all, Nat.sub_diag. cbn [firstn]. rewrite app_nil_r, skipn_app, skipn_all, Nat.sub_diag. reflexivity. Qed.
Lemma inb_mid : forall pre n post p i q, length p = length pre -> inb (pre ++ n :: post) (p ++ i :: q) = (i <? n) && inb (pre ++ post) (p ++ q).
Proof. intros pre n post p i q L. rewrite !inb_app by auto. cbn [inb]. destruct (inb pre p), (i <? n); reflexivity. Qed.
Lemma inb_split : forall pre n post ix, inb (pre ++ n :: post) ix = true -> exists p i q, ix = p ++ i :: q /\ length p = length pre /\ i < n /\ inb (pre ++ post) (p ++ q) = true.
Proof.
  intros pre n post ix H. pose proof (inb_length _ _ H) as L. rewrite app_length in L. cbn [length] in L. rewrite <- (firstn_skipn (length pre) ix) in H. destruct (skipn (length pre) ix) as [|i q] eqn:E; [pose proof (skipn_length (length pre) ix) as K; rewrite E in K; cbn in K; lia|].
  exists (firstn (length pre) ix), i, q. assert (LP : length (firstn (length pre) ix) = length pre) by (rewrite firstn_length; lia). split; [rewrite <- E; symmetry; apply firstn_skipn|]. split; [exact LP|]. rewrite inb_mid in H by exact LP. apply andb_true_iff in H as [H1 H2]. split; [now apply Nat.ltb_lt|exact H2].
Qed.
Lemma shape_split : forall (sh : list nat) ax, ax < length sh -> exists pre n post, sh = pre ++ n :: post /\ length pre = ax.
Proof.
  intros sh ax L. exists (firstn ax sh), (nth ax sh 0), (skipn (S ax) sh). split; [|rewrite firstn_length; lia]. rewrite <- (firstn_skipn ax sh) at 1. f_equal. revert ax L. induction sh as [|x sh IH]; intros ax L; [cbn in L; lia|]. destruct ax; [reflexivity|]. cbn [skipn nth]. apply IH. cbn in L. lia.
Qed.
Lemma mid_unique : forall {X} (p1 p2 : list X) a1 a2 q1 q2, length p1 = length p2 -> p1 ++ a1 :: q1 = p2 ++ a2 :: q2 -> p1 = p2 /\ a1 = a2 /\ q1 = q2.
Proof. intros X. induction p1 as [|x p1 IH]; intros [|y p2] a1 a2 q1 q2 L E; try discriminate; [injection E as -> ->; auto|]. injection E as -> E. injection L as L. destruct (IH p2 a1 a2 q1 q2 L E) as [-> [-> ->]]. auto. Qed.

(** Broadcasting *)
Lemma prodn_ones : forall k l, prodn (repeat 1 k ++ l) = prodn l.
Proof. induction k as [|k IH]; intros l; auto. cbn [repeat app]. change (prodn (1 :: repeat 1 k ++ l)) with (1 * prodn (repeat 1 k ++ l)). rewrite IH. lia. Qed.
Lemma prodn_skip : forall k l, forallb (Nat.eqb 1) (firstn k l) = true -> prodn (skipn k l) = prodn l.
Proof.
  induction k as [|k IH]; intros [|n l] H; auto. cbn [firstn forallb] in H. apply andb_true_iff in H as [H1 H2]. apply Nat.eqb_eq in H1. subst n. cbn [skipn]. rewrite IH by exact H2. change (prodn (1 :: l)) with (1 * prodn l). lia.
Qed.
Lemma fit_some : forall t s u, fit t s = Some u -> prodn u = prodn s /\ forall ix, inb t ix = true -> inb u (bindex u ix) = true.
Proof.
  intros t s u H. unfold fit in H.
  assert (G : forall w, length w = length t -> forallb (fun p => (fst p =? snd p) || (fst p =? 1)) (combine w t) = true -> forall ix, inb t ix = true -> inb w (bindex w ix) = true).
  { clear. intros w. revert t. induction w as [|a w IH]; intros [|b t] L H [|i ix] I; try discriminate; auto. cbn [combine forallb fst snd] in H. apply andb_true_iff in H as [H1 H2]. cbn [inb] in I. apply andb_true_iff in I as [I1 I2]. cbn [bindex inb]. rewrite (IH t) by (auto; now injection L). rewrite andb_true_r. apply Nat.ltb_lt in I1. apply Nat.ltb_lt. destruct (Nat.eqb_spec a 1); [lia|]. destruct (Nat.eqb_spec a b); [lia|discriminate]. }
  destruct (length s <=? length t) eqn:E.
  - apply Nat.leb_le in E. destruct (forallb (fun p => (fst p =? snd p) || (fst p =? 1)) (combine (repeat 1 (length t - length s) ++ s) t)) eqn:F; [|discriminate]. injection H as <-. split; [apply prodn_ones|]. apply G; [rewrite app_length, repeat_length; lia|exact F].
  - apply Nat.leb_gt in E. destruct (forallb (Nat.eqb 1) (firstn (length s - length t) s)) eqn:F1; [|discriminate]. destruct (forallb (fun p => (fst p =? snd p) || (fst p =? 1)) (combine (skipn (length s - length t) s) t)) eqn:F; [|discriminate]. injection H as <-. split; [apply prodn_skip; exact F1|]. apply G; [rewrite skipn_length; lia|exact F].
Qed.
Lemma fit_self : forall sh, fit sh sh = Some sh.
Proof.
  intros sh. unfold fit. rewrite Nat.leb_refl, Nat.sub_diag. cbn [repeat app].
  assert (E : forallb (fun p => (fst p =? snd p) || (fst p =? 1)) (combine sh sh) = true); [|now rewrite E]. induction sh as [|n sh IH]; auto. cbn [combine forallb fst snd]. rewrite Nat.eqb_refl. exact IH.
Qed.
Lemma bindex_id : forall s ix, inb s ix = true -> bindex s ix = ix.
Proof.
  induction s as [|n s IH]; intros [|i ix] H; try discriminate; auto. cbn [inb] in H. apply andb_true_iff in H as [H1 H2]. apply Nat.ltb_lt in H1. cbn [bindex]. rewrite IH by auto. destruct (Nat.eqb_spec n 1); [f_equal; lia|reflexivity].
Qed.

Section Append.
Context {A : Type} (fill : A) (conv : A -> A).

Lemma grow_ok : forall (a : nd A) ax, nd_wf a -> ax < length (nd_shape a) -> extends ax a (nd_grow fill ax a) (fun _ => Some fill).
Proof.
  intros a ax W L. destruct (shape_split _ _ L) as [pre [n [post [E LP]]]]. exists pre, n, post. subst ax. split; [exact E|]. split; [reflexivity|]. unfold nd_grow. rewrite E, change_mid, nth_mid. split; [reflexivity|].
  assert (T : total_on (pre ++ S n :: post) (fun ix => if nth (length pre) ix 0 <? n then nd_get a ix else Some fill)).
  { intros ix I. destruct (inb_split _ _ _ _ I) as [p [i [q [-> [LP [LI IO]]]]]]. rewrite <- LP, nth_mid. destruct (Nat.ltb_spec i n) as [LT|GE]; [|discriminate]. apply nd_get_not_none; [exact W|]. rewrite E, inb_mid by exact LP. rewrite IO, andb_true_r. now apply Nat.ltb_lt. }
  split; [apply nd_tab_wf; exact T|]. intros p i q LP. destruct (inb (pre ++ S n :: post) (p ++ i :: q)) eqn:I.
  - rewrite nd_get_tab by auto. rewrite <- LP at 1. rewrite nth_mid. rewrite inb_mid in I by exact LP. apply andb_true_iff in I as [I1 I2]. apply Nat.ltb_lt in I1. destruct (Nat.ltb_spec i n); [reflexivity|]. rewrite (proj2 (Nat.eqb_eq i n)) by lia. now rewrite I2.
  - rewrite nd_get_oob by (rewrite nd_tab_shape; exact I). rewrite inb_mid in I by exact LP. destruct (Nat.ltb_spec i n).
    + symmetry. apply nd_get_oob. rewrite E, inb_mid by exact LP. rewrite (proj2 (Nat.ltb_lt i (S n))) in I by lia. cbn [andb] in I. rewrite I. apply andb_false_r.
    + destruct (Nat.eqb_spec i n); [|reflexivity]. subst i. rewrite (proj2 (Nat.ltb_lt n (S n))) in I by lia. cbn [andb] in I. now rewrite I.
Qed.
Lemma write_ok : forall (a a1 x : nd A) ax last m d', nd_wf x -> extends ax a a1 last -> write_last conv ax x (mkDset a1 m) = Ok d' ->
  ds_max d' = m /\ exists last', extends ax a (ds_nd d') last' /\ (slice_shape ax (nd_shape a) (nd_shape x) -> forall o, inb (nd_shape x) o = true -> last' o = option_map conv (nd_get x o)).
Proof.
  intros a a1 x ax last m d' WX [pre [n [post [E [LP [E1 [W1 G1]]]]]]] H. subst ax. unfold write_last in H. cbn [ds_nd ds_max] in H. rewrite E1, drop_mid in H. destruct (fit (pre ++ post) (nd_shape x)) as [s|] eqn:F; [|discriminate]. injection H as <-. cbn [ds_max ds_nd]. split; [reflexivity|].
  destruct (fit_some _ _ _ F) as [P B]. set (last' := fun o => option_map conv (nd_get (mkNd s (nd_elems x)) (bindex s o))). exists last'.
  assert (LS : forall o, inb (pre ++ post) o = true -> last' o <> None). { intros o I. unfold last'. destruct (nd_get_some (mkNd s (nd_elems x)) (bindex s o)) as [y Ey]; [unfold nd_wf in *; cbn [nd_shape nd_elems]; congruence|exact (B o I)|]. rewrite Ey. discriminate. }
  rewrite nth_mid.
  assert (T : total_on (pre ++ S n :: post) (fun ix => if S (nth (length pre) ix 0) =? S n then option_map conv (nd_get (mkNd s (nd_elems x)) (bindex s (drop_at (length pre) ix))) else nd_get a1 ix)).
  { intros ix I. pose proof I as I'. destruct (inb_split _ _ _ _ I) as [p [i [q [-> [LP [LI IO]]]]]]. rewrite <- LP, nth_mid, drop_mid. destruct (S i =? S n); [exact (LS _ IO)|]. apply nd_get_not_none; [exact W1|]. rewrite E1. exact I'. }
  split.
  - exists pre, n, post. split; [exact E|]. split; [reflexivity|]. split; [reflexivity|]. split; [apply nd_tab_wf; exact T|]. intros p i q LP. destruct (inb (pre ++ S n :: post) (p ++ i :: q)) eqn:I.
    + rewrite nd_get_tab by auto. assert (Q1 : nth (length pre) (p ++ i :: q) 0 = i) by (rewrite <- LP; apply nth_mid). assert (Q2 : drop_at (length pre) (p ++ i :: q) = p ++ q) by (rewrite <- LP; apply drop_mid). rewrite Q1, Q2. fold (last' (p ++ q)). pose proof I as I'. rewrite inb_mid in I by exact LP. apply andb_true_iff in I as [I1 I2]. apply Nat.ltb_lt in I1. rewrite I2. destruct (Nat.eqb_spec (S i) (S n)) as [EI|NI].
      * injection EI as ->. rewrite Nat.ltb_irrefl, Nat.eqb_refl. reflexivity.
      * rewrite (G1 p i q LP). rewrite (proj2 (Nat.ltb_lt i n)) by lia. cbn [Nat.eqb]. now rewrite (proj2 (Nat.eqb_neq i n)) by lia.
    + rewrite nd_get_oob by (rewrite nd_tab_shape; exact I). rewrite inb_mid in I by exact LP. destruct (Nat.ltb_spec i n).
      * symmetry. apply nd_get_oob. rewrite E, inb_mid by exact LP. rewrite (proj2 (Nat.ltb_lt i (S n))) in I by lia. cbn [andb] in I. rewrite I. apply andb_false_r.
      * destruct (Nat.eqb_spec i n); [|reflexivity]. subst i. rewrite (proj2 (Nat.ltb_lt n (S n))) in I by lia. cbn [andb] in I. now rewrite I.
  - intros [pre' [n' [post' [E' [LP' ES]]]]] o IO. rewrite E in E'. destruct (mid_unique _ _ _ _ _ _ (eq_sym LP') E') as [<- [<- <-]]. unfold last'. rewrite ES, fit_self in F. injection F as <-. rewrite <- ES. rewrite bindex_id by exact IO. destruct x; reflexivity.
Qed.
Lemma index_none_spec : forall l, match index_none l with Some ax => nth_error l ax = Some None /\ forall k, k < ax -> nth_error l k <> Some None | None => ~ In None l end.
Proof.
  induction l as [|[m|] l IH]; cbn [index_none]; [intros []| |split; [reflexivity|intros k K; lia]]. destruct (index_none l) as [ax|]; cbn [option_map].
  - destruct IH as [I1 I2]. split; [exact I1|]. intros [|k] K; [discriminate|]. apply I2. lia.
  - intros [K|K]; [discriminate|auto].
Qed.
(** One dataset. *)
Lemma one_spec : forall ename ivars vars k d, dset_ok d -> (forall n x, In (n, x) vars -> nd_wf x) ->
  let uk := unescape_varname k in let r := append_one fill conv ename ivars vars (k, d) in
  ds_max (snd r) = ds_max d /\
  (snd r = d \/ exists ax last, open_axis d ax /\ extends ax (ds_nd d) (ds_nd (snd r)) last) /\
  (fst r = None -> ~ In uk ivars -> uk <> ename -> exists x ax last, var_of uk vars = Some x /\ open_axis d ax /\ extends ax (ds_nd d) (ds_nd (snd r)) last /\
     (slice_shape ax (nd_shape (ds_nd d)) (nd_shape x) -> forall o, inb (nd_shape x) o = true -> last o = option_map conv (nd_get x o))) /\
  (In uk ivars \/ uk = ename -> r = (None, d)).
Proof.
  intros ename ivars vars k d [W LM] HV uk r. unfold r, append_one. cbn [fst snd]. fold uk.
  assert (HI : has_name uk ivars = true <-> In uk ivars). { unfold has_name. rewrite existsb_exists. split; [intros [y [I E]]; apply eqb_chars_spec in E; now subst|intros I; exists uk; split; [exact I|apply eqb_chars_refl]]. }
  destruct (has_name uk ivars || eqb_chars uk ename) eqn:SK.
  - cbn [fst snd]. split; [reflexivity|]. split; [left; reflexivity|]. split; [|reflexivity]. intros _ N1 N2. exfalso. apply orb_true_iff in SK as [K|K]; [apply N1, HI, K|apply eqb_chars_spec in K; auto].
  - apply orb_false_iff in SK as [K1 K2].
    assert (OUT : forall (Q : Prop), In uk ivars \/ uk = ename -> Q). { intros Q [I|E]; exfalso; [apply HI in I; congruence|rewrite E, eqb_chars_refl in K2; discriminate]. }
    destruct (var_of uk vars) as [x|] eqn:EV; [|split; [reflexivity|]; split; [left; reflexivity|]; split; [discriminate|intros Q; exact (OUT _ Q)]].
    assert (WX : nd_wf x). { clear - EV HV. induction vars as [|[m y] vars IH]; [discriminate|]. cbn [var_of] in EV. destruct (eqb_chars m uk); [injection EV as <-; apply (HV m); left; auto|]. apply IH; [intros n z I; apply (HV n); right; auto|exact EV]. }
    pose proof (index_none_spec (ds_max d)) as IN. destruct (index_none (ds_max d)) as [ax|]; [|split; [reflexivity|]; split; [left; reflexivity|]; split; [discriminate|intros Q; exact (OUT _ Q)]].
    unfold expand_dataset. rewrite (proj1 IN). assert (LA : ax < length (nd_shape (ds_nd d))) by (rewrite <- LM; apply nth_error_Some; rewrite (proj1 IN); discriminate). pose proof (grow_ok (ds_nd d) ax W LA) as G.
    destruct (write_last conv ax x (mkDset (nd_grow fill ax (ds_nd d)) (ds_max d))) as [d'|e] eqn:EW.
    + destruct (write_ok _ _ _ _ _ _ _ WX G EW) as [M [last' [X1 X2]]]. cbn [fst snd]. split; [exact M|]. split; [right; exists ax, last'; split; [exact IN|exact X1]|]. split; [|intros Q; exact (OUT _ Q)]. intros _ _ _. exists x, ax, last'. auto.
    + cbn [fst snd ds_max ds_nd]. split; [reflexivity|]. split; [right; exists ax, (fun _ => Some fill); split; [exact IN|exact G]|]. split; [discriminate|intros Q; exact (OUT _ Q)].
Qed.

(** The loop: every dataset is as it was or has one entry more. *)
Definition kept (d d' : dset A) : Prop := ds_max d' = ds_max d /\ (d' = d \/ exists ax last, open_axis d ax /\ extends ax (ds_nd d) (ds_nd d') last).
Definition appended ename ivars (vars : list (list ascii * nd A)) (k : list ascii) (d d' : dset A) : Prop :=
  let uk := unescape_varname k in
  (In uk ivars \/ uk = ename -> d' = d) /\
  (~ In uk ivars -> uk <> ename -> exists x ax last, var_of uk vars = Some x /\ open_axis d ax /\ extends ax (ds_nd d) (ds_nd d') last /\
     (slice_shape ax (nd_shape (ds_nd d)) (nd_shape x) -> forall o, inb (nd_shape x) o = true -> last o = option_map conv (nd_get x o))).
Lemma loop_spec : forall ename ivars vars items, (forall k d, In (k, d) items -> dset_ok d) -> (forall n x, In (n, x) vars -> nd_wf x) ->
  let r := append_loop fill conv ename ivars vars items in
  Forall2 (fun p q => fst p = fst q /\ kept (snd p) (snd q)) items (snd r) /\
  (fst r = None -> Forall2 (fun p q => fst p = fst q /\ ds_max (snd q) = ds_max (snd p) /\ appended ename ivars vars (fst p) (snd p) (snd q)) items (snd r)).
Proof.
  intros ename ivars vars items HO HV. induction items as [|[k d] items IH]; [split; [constructor|intros _; constructor]|]. cbn [append_loop]. destruct (one_spec ename ivars vars k d) as [M [K [S1 S2]]]; [apply (HO k); left; auto|exact HV|]. cbn zeta in *.
  destruct (append_one fill conv ename ivars vars (k, d)) as [[e|] d'] eqn:EO; cbn [fst snd] in *.
  - split; [|discriminate]. constructor; [cbn [fst snd]; split; [reflexivity|split; auto]|]. clear. induction items as [|p items IH]; constructor; auto. split; [reflexivity|]. split; [reflexivity|left; reflexivity].
  - destruct IH as [I1 I2]; [intros k' d0 I; apply (HO k'); right; auto|]. destruct (append_loop fill conv ename ivars vars items) as [e r'] eqn:EL. cbn [fst snd] in *. split; [constructor; [cbn [fst snd]; split; [reflexivity|split; auto]|exact I1]|].
    intros E. constructor; [|auto]. cbn [fst snd]. split; [reflexivity|]. split; [exact M|]. split; [intros Q; specialize (S2 Q); congruence|]. intros N1 N2. exact (S1 eq_refl N1 N2).
Qed.
Lemma set_item_spec : forall n (d d' : dset A) items, NoDup (map fst items) -> item n items = Some d ->
  Forall2 (fun p q => fst p = fst q /\ (fst p = n -> snd p = d /\ snd q = d') /\ (fst p <> n -> snd q = snd p)) items (set_item n d' items).
Proof.
  intros n d d' items. induction items as [|[m e] items IH]; intros N H; [discriminate|]. cbn [item set_item] in *. cbn [map fst] in N. inversion N as [|? ? NI N']; subst. destruct (eqb_chars m n) eqn:E.
  - apply eqb_chars_spec in E. subst m. injection H as ->. constructor; [cbn [fst snd]; split; [reflexivity|split; [auto|congruence]]|]. clear - NI. induction items as [|[m e] items IH]; constructor; [cbn [fst snd]; split; [reflexivity|]; split; [intros ->; exfalso; apply NI; left; reflexivity|auto]|]. apply IH. intros I. apply NI. right; auto.
  - constructor; [cbn [fst snd]; split; [reflexivity|]; split; [intros ->; rewrite eqb_chars_refl in E; discriminate|auto]|]. apply IH; auto.
Qed.
Lemma item_in : forall n (d : dset A) items, item n items = Some d -> In (n, d) items.
Proof. intros n d items. induction items as [|[m e] items IH]; intros H; [discriminate|]. cbn [item] in H. destruct (eqb_chars m n) eqn:E; [apply eqb_chars_spec in E; subst; injection H as ->; left; auto|right; auto]. Qed.
Lemma unescape_plain : forall k n, plain_name n -> unescape_varname k = n -> k = n.
Proof.
  intros k n [P1 P2] <-. unfold unescape_varname, replace_char in *. induction k as [|c k IH]; auto. cbn [map] in *. destruct (Ascii.eqb c backslash) eqn:E; [exfalso; apply P1; left; reflexivity|]. f_equal. apply IH; intros I; [apply P2|apply P1]; right; auto.
Qed.
Lemma plain_unescape : forall n, plain_name n -> unescape_varname n = n.
Proof.
  intros n [P1 P2]. unfold unescape_varname, replace_char. induction n as [|c n IH]; auto. cbn [map]. destruct (Ascii.eqb c backslash) eqn:E; [apply Ascii.eqb_eq in E; exfalso; apply P2; left; auto|]. f_equal. apply IH; intros I; [apply P1|apply P2]; right; auto.
Qed.
Lemma set_item_ok : forall n (d' : dset A) items, (forall k d, In (k, d) items -> dset_ok d) -> dset_ok d' -> forall k d, In (k, d) (set_item n d' items) -> dset_ok d.
Proof.
  intros n d' items H K. induction items as [|[m e] items IH]; intros k d I; [destruct I|]. cbn [set_item] in I. destruct (eqb_chars m n); destruct I as [E|I]; [injection E as _ <-; exact K|apply (H k); right; auto|injection E as _ <-; apply (H m); left; auto|apply (IH (fun k0 d0 I0 => H k0 d0 (or_intror I0)) k d I)].
Qed.
Lemma extends_ok : forall ax (d d' : dset A) last, dset_ok d -> ds_max d' = ds_max d -> extends ax (ds_nd d) (ds_nd d') last -> dset_ok d'.
Proof. intros ax d d' last [W L] M [pre [n [post [E [_ [E' [W' _]]]]]]]. split; [exact W'|]. rewrite M, L, E, E', !app_length. reflexivity. Qed.

(** The entry of the append dimension after the expansion. *)
Lemma append_unfold : forall ename ivars vars (f : h5 A) e f', append_hdf5 fill conv ename ivars vars f = (e, f') ->
  (f' = f /\ e <> None) \/ exists d n rest, f_version f = Some version2 /\ item ename (f_items f) = Some d /\ nd_shape (ds_nd d) = S n :: rest /\ nth_error (ds_max d) 0 = Some None /\
    append_loop fill conv ename ivars vars (set_item ename (mkDset (nd_grow fill 0 (ds_nd d)) (ds_max d)) (f_items f)) = (e, f_items f') /\ f_version f' = f_version f.
Proof.
  intros ename ivars vars f e f' H. unfold append_hdf5 in H. destruct (f_version f) as [v|] eqn:EV; [|injection H as <- <-; left; split; [reflexivity|discriminate]]. destruct (eqb_chars v version2) eqn:E2; [|injection H as <- <-; left; split; [reflexivity|discriminate]]. apply eqb_chars_spec in E2. subst v.
  destruct (item ename (f_items f)) as [d|] eqn:EI; [|injection H as <- <-; left; split; [reflexivity|discriminate]]. destruct (nd_shape (ds_nd d)) as [|[|n] rest] eqn:ES; [injection H as <- <-; left; split; [reflexivity|discriminate]|injection H as <- <-; left; split; [reflexivity|discriminate]|].
  unfold expand_dataset in H. destruct (nth_error (ds_max d) 0) as [[m|]|] eqn:EM; [injection H as <- <-; left; split; [reflexivity|discriminate]| |injection H as <- <-; left; split; [reflexivity|discriminate]].
  right. exists d, n, rest. destruct (append_loop fill conv ename ivars vars (set_item ename (mkDset (nd_grow fill 0 (ds_nd d)) (ds_max d)) (f_items f))) as [e' r] eqn:EL. injection H as <- <-. cbn [f_items f_version]. repeat split; auto.
Qed.

Lemma loop_at_ename : forall ename ivars vars items, (forall k d, In (k, d) items -> dset_ok d) -> (forall n x, In (n, x) vars -> nd_wf x) -> plain_name ename ->
  let r := append_loop fill conv ename ivars vars items in
  Forall2 (fun p q => fst p = fst q /\ kept (snd p) (snd q) /\ (fst p = ename -> snd q = snd p)) items (snd r).
Proof.
  intros ename ivars vars items HO HV PN. induction items as [|[k d] items IH]; [constructor|]. cbn [append_loop]. destruct (one_spec ename ivars vars k d) as [M [K [S1 S2]]]; [apply (HO k); left; auto|exact HV|]. cbn zeta in *.
  assert (SE : k = ename -> snd (append_one fill conv ename ivars vars (k, d)) = d) by (intros ->; rewrite (S2 (or_intror (plain_unescape _ PN))); reflexivity).
  destruct (append_one fill conv ename ivars vars (k, d)) as [[e|] d'] eqn:EO; cbn [fst snd] in *.
  - constructor; [cbn [fst snd]; split; [reflexivity|split; [split; auto|exact SE]]|]. clear. induction items as [|p items IH]; constructor; auto. split; [reflexivity|]. split; [|reflexivity]. split; [reflexivity|left; reflexivity].
  - specialize (IH (fun k0 d0 I => HO k0 d0 (or_intror I))). destruct (append_loop fill conv ename ivars vars items) as [e r'] eqn:EL. cbn [fst snd] in *. constructor; [cbn [fst snd]; split; [reflexivity|split; [split; auto|exact SE]]|exact IH].
Qed.
(** A successful append: datasets of independent variables stay, the dimension has one
    entry more, every variable has one entry more, which is the new data, and all
    earlier entries stay. *)
Theorem C39_success : forall ename ivars vars (f f' : h5 A), h5_ok f -> plain_name ename -> ~ In ename ivars -> (forall n x, In (n, x) vars -> nd_wf x) ->
  append_hdf5 fill conv ename ivars vars f = (None, f') ->
  f_version f' = f_version f /\ h5_ok f' /\ Forall2 (fun p q => fst p = fst q /\ ds_max (snd q) = ds_max (snd p) /\
    let d := snd p in let d' := snd q in let uk := unescape_varname (fst p) in
    (uk = ename -> extends 0 (ds_nd d) (ds_nd d') (fun _ => Some fill)) /\
    (In uk ivars -> d' = d) /\
    (~ In uk ivars -> uk <> ename -> exists x ax last, var_of uk vars = Some x /\ open_axis d ax /\ extends ax (ds_nd d) (ds_nd d') last /\
       (slice_shape ax (nd_shape (ds_nd d)) (nd_shape x) -> forall o, inb (nd_shape x) o = true -> last o = option_map conv (nd_get x o)))) (f_items f) (f_items f').
Proof.
  intros ename ivars vars f f' [ND OK] PN NE HV H. destruct (append_unfold _ _ _ _ _ _ H) as [[_ K]|[d [n [rest [EV [EI [ES [EM [EL VV]]]]]]]]]; [congruence|].
  pose proof (OK _ _ (item_in _ _ _ EI)) as [DW DL]. assert (L0 : 0 < length (nd_shape (ds_nd d))) by (rewrite ES; cbn; lia). pose proof (grow_ok (ds_nd d) 0 DW L0) as GR.
  set (d1 := mkDset (nd_grow fill 0 (ds_nd d)) (ds_max d)) in *. assert (OK1 : dset_ok d1) by (apply (extends_ok 0 d d1 (fun _ => Some fill)); [split; auto|reflexivity|exact GR]).
  pose proof (set_item_spec ename d d1 (f_items f) ND EI) as SI. destruct (loop_spec ename ivars vars (set_item ename d1 (f_items f)) (set_item_ok _ _ _ OK OK1) HV) as [L1 L2]. cbn zeta in L1, L2. rewrite EL in L1, L2. cbn [fst snd] in L1, L2. specialize (L2 eq_refl).
  assert (G : Forall2 (fun p q => fst p = fst q /\ ds_max (snd q) = ds_max (snd p) /\
    let d := snd p in let d' := snd q in let uk := unescape_varname (fst p) in
    (uk = ename -> extends 0 (ds_nd d) (ds_nd d') (fun _ => Some fill)) /\
    (In uk ivars -> d' = d) /\
    (~ In uk ivars -> uk <> ename -> exists x ax last, var_of uk vars = Some x /\ open_axis d ax /\ extends ax (ds_nd d) (ds_nd d') last /\
       (slice_shape ax (nd_shape (ds_nd d)) (nd_shape x) -> forall o, inb (nd_shape x) o = true -> last o = option_map conv (nd_get x o)))) (f_items f) (f_items f')).
  { clear - SI L2 PN NE GR. revert SI L2. generalize (set_item ename d1 (f_items f)). generalize (f_items f'). generalize (f_items f). induction l as [|p l IH]; intros l' l1 SI L2; inversion SI as [|? q ? l1' [F1 [F2 F3]] SI']; subst; inversion L2 as [|? q' ? l2' [E1 [E2 [E3 E4]]] L2']; subst; constructor; [|eapply IH; eauto].
    split; [congruence|]. rewrite <- F1 in *. cbn zeta in *. destruct (list_eq_dec ascii_dec (fst p) ename) as [EQ|NQ].
    - destruct (F2 EQ) as [Q1 Q2]. pose proof (plain_unescape ename PN) as U. rewrite EQ in *. rewrite U in *. specialize (E3 (or_intror eq_refl)). rewrite Q2 in *. rewrite E3. split; [rewrite Q1; reflexivity|]. split; [intros _; rewrite Q1; exact GR|]. split; [intros I; contradiction|congruence].
    - specialize (F3 NQ). rewrite F3 in *. assert (UN : unescape_varname (fst p) <> ename) by (intros K; apply NQ; exact (unescape_plain _ _ PN K)). split; [exact E2|]. split; [congruence|]. split; [intros I; apply E3; auto|exact E4]. }
  split; [exact VV|]. split; [|exact G]. split.
  - assert (MF : map fst (f_items f) = map fst (f_items f')) by (clear - G; induction G as [|p q l l' [E _] G IH]; [reflexivity|cbn [map]; rewrite E, IH; reflexivity]). rewrite <- MF. exact ND.
  - intros k d' I. apply In_nth_error in I as [m EQ]. clear - G OK1 OK EQ OK. assert (OKL : forall p, In p (f_items f) -> dset_ok (snd p)) by (intros [k0 d0] I; apply (OK k0 d0 I)). clear OK. revert m EQ. induction G as [|p q l l' [E [M [X1 [X2 X3]]]] G IH]; intros m EQ; [destruct m; discriminate|]. destruct m as [|m]; [|apply (IH (fun p0 I => OKL p0 (or_intror I)) m EQ)].
    cbn in EQ. injection EQ as ->. cbn [fst snd] in *. specialize (OKL p (or_introl eq_refl)). destruct (list_eq_dec ascii_dec (unescape_varname (fst p)) ename) as [Q|Q]; [exact (extends_ok _ _ _ _ OKL M (X1 Q))|]. destruct (in_dec (list_eq_dec ascii_dec) (unescape_varname (fst p)) ivars) as [Q2|Q2]; [rewrite (X2 Q2); exact OKL|]. destruct (X3 Q2 Q) as [x [ax [last [_ [_ [X _]]]]]]. exact (extends_ok _ _ _ _ OKL M X).
Qed.

(** Whatever happens: no dataset is lost or renamed, and a dataset has either stayed or
    has one entry more on its open axis (or the first axis) with all earlier entries. *)
Theorem C39_kept : forall ename ivars vars (f f' : h5 A) e, h5_ok f -> plain_name ename -> (forall n x, In (n, x) vars -> nd_wf x) ->
  append_hdf5 fill conv ename ivars vars f = (e, f') ->
  f_version f' = f_version f /\ Forall2 (fun p q => fst p = fst q /\ ds_max (snd q) = ds_max (snd p) /\ (snd q = snd p \/ exists ax last, nth_error (ds_max (snd p)) ax = Some None /\ extends ax (ds_nd (snd p)) (ds_nd (snd q)) last)) (f_items f) (f_items f').
Proof.
  intros ename ivars vars f f' e [ND OK] PN HV H. destruct (append_unfold _ _ _ _ _ _ H) as [[-> _]|[d [n [rest [EV [EI [ES [EM [EL VV]]]]]]]]].
  - split; [reflexivity|]. generalize (f_items f). induction l; constructor; auto.
  - split; [exact VV|]. pose proof (OK _ _ (item_in _ _ _ EI)) as [DW DL]. assert (L0 : 0 < length (nd_shape (ds_nd d))) by (rewrite ES; cbn; lia). pose proof (grow_ok (ds_nd d) 0 DW L0) as GR.
    set (d1 := mkDset (nd_grow fill 0 (ds_nd d)) (ds_max d)) in *. assert (OK1 : dset_ok d1) by (apply (extends_ok 0 d d1 (fun _ => Some fill)); [split; auto|reflexivity|exact GR]).
    pose proof (set_item_spec ename d d1 (f_items f) ND EI) as SI. pose proof (loop_at_ename ename ivars vars (set_item ename d1 (f_items f)) (set_item_ok _ _ _ OK OK1) HV PN) as L1. cbn zeta in L1. rewrite EL in L1. cbn [fst snd] in L1.
    revert SI L1. generalize (set_item ename d1 (f_items f)). generalize (f_items f'). generalize (f_items f). induction l as [|p l IH]; intros l' l1 SI L2; inversion SI as [|? q ? l1' [F1 [F2 F3]] SI']; subst; inversion L2 as [|? q' ? l2' [E1 [[E2 E3] E4]] L2']; subst; constructor; [|eapply IH; eauto].
    split; [congruence|]. destruct (list_eq_dec ascii_dec (fst p) ename) as [EQ|NQ].
    + destruct (F2 EQ) as [Q1 Q2]. rewrite (E4 (eq_trans (eq_sym F1) EQ)), Q2, Q1. split; [reflexivity|]. right. exists 0, (fun _ => Some fill). split; [exact EM|exact GR].
    + rewrite (F3 NQ) in *. split; [exact E2|]. destruct E3 as [E3|[ax [last [O X]]]]; [left; exact E3|right; exists ax, last; split; [apply O|exact X]].
Qed.
(** A file of another version, or without the dimension, or with an empty one, or one
    with a limit on it, is refused and stays as it is. *)
Theorem C39_refused : forall ename ivars vars (f : h5 A),
  f_version f <> Some (chars "0.2"%string) \/ item ename (f_items f) = None \/
    (exists d, item ename (f_items f) = Some d /\ (nd_shape (ds_nd d) = [] \/ (exists r, nd_shape (ds_nd d) = 0 :: r) \/ (exists m, nth_error (ds_max d) 0 = Some (Some m)))) ->
  exists e, append_hdf5 fill conv ename ivars vars f = (Some e, f).
Proof.
  intros ename ivars vars f H. destruct (append_hdf5 fill conv ename ivars vars f) as [e f'] eqn:E. destruct (append_unfold _ _ _ _ _ _ E) as [[-> K]|[d [n [rest [EV [EI [ES [EM [EL VV]]]]]]]]]; [destruct e as [e|]; [exists e; reflexivity|congruence]|].
  exfalso. destruct H as [H|[H|[d' [I [H|[[r H]|[m H]]]]]]]; (unfold version2 in *; congruence).
Qed.
(** A refusal after that point leaves the dimension one entry longer than the data. *)
Theorem C39_failure_grows : forall ename ivars vars (f f' : h5 A) e d, h5_ok f -> plain_name ename -> (forall n x, In (n, x) vars -> nd_wf x) ->
  append_hdf5 fill conv ename ivars vars f = (Some e, f') -> f_version f = Some (chars "0.2"%string) -> item ename (f_items f) = Some d -> nth_error (ds_max d) 0 = Some None ->
  (exists n r, nd_shape (ds_nd d) = S n :: r) ->
  exists d', item ename (f_items f') = Some d' /\ extends 0 (ds_nd d) (ds_nd d') (fun _ => Some fill).
Proof.
  intros ename ivars vars f f' e d [ND OK] PN HV H V I M [n [r SH]]. unfold append_hdf5 in H. rewrite V in H. change (eqb_chars version2 version2) with true in H. cbv iota in H. rewrite I, SH in H. unfold expand_dataset in H. rewrite M in H.
  set (d1 := mkDset (nd_grow fill 0 (ds_nd d)) (ds_max d)) in *. destruct (append_loop fill conv ename ivars vars (set_item ename d1 (f_items f))) as [e' r'] eqn:EL. injection H as HE HF. subst f'. cbn [f_items].
  pose proof (OK _ _ (item_in _ _ _ I)) as [DW DL]. assert (L0 : 0 < length (nd_shape (ds_nd d))) by (rewrite SH; cbn; lia). pose proof (grow_ok (ds_nd d) 0 DW L0) as GR. assert (OK1 : dset_ok d1) by (apply (extends_ok 0 d d1 (fun _ => Some fill)); [split; auto|reflexivity|exact GR]).
  exists d1. split; [|exact GR]. pose proof (loop_at_ename ename ivars vars (set_item ename d1 (f_items f)) (set_item_ok _ _ _ OK OK1) HV PN) as L1. cbn zeta in L1. rewrite EL in L1. cbn [fst snd] in L1.
  assert (I1 : item ename (set_item ename d1 (f_items f)) = Some d1). { clear - I. induction (f_items f) as [|[m x] l IH]; [discriminate|]. cbn [item set_item] in *. destruct (eqb_chars m ename) eqn:E; cbn [item]; rewrite E; auto. }
  clear - L1 I1. induction L1 as [|p q l l' [E [_ K]] L1 IH]; [discriminate|]. destruct p as [m x], q as [m' x']. cbn [item fst snd] in *. subst m'. destruct (eqb_chars m ename) eqn:EM; [|auto]. apply eqb_chars_spec in EM. rewrite (K EM). exact I1.
Qed.

(** Many appends, all of which succeed. *)
Fixpoint appends (ename : list ascii) (ivars : list (list ascii)) (blocks : list (list (list ascii * nd A))) (f : h5 A) : option (h5 A) :=
  match blocks with
  | [] => Some f
  | b :: bs => match append_hdf5 fill conv ename ivars b f with (None, f') => appends ename ivars bs f' | _ => None end
  end.
Lemma forall2_item : forall (R : list ascii -> dset A -> dset A -> Prop) items items' k d, Forall2 (fun p q => fst p = fst q /\ R (fst p) (snd p) (snd q)) items items' -> item k items = Some d ->
  exists d', item k items' = Some d' /\ R k d d'.
Proof.
  intros R items items' k d F. induction F as [|[m x] [m' x'] l l' [E K] F IH]; intros H; [discriminate|]. cbn [item fst snd] in *. subst m'. destruct (eqb_chars m k) eqn:EM; [|auto]. apply eqb_chars_spec in EM. subst m. injection H as ->. exists x'. auto.
Qed.
Theorem C39_history : forall ename ivars blocks (f f' : h5 A) k d pre n post, h5_ok f -> plain_name ename -> ~ In ename ivars -> (forall b m x, In b blocks -> In (m, x) b -> nd_wf x) ->
  appends ename ivars blocks f = Some f' -> item k (f_items f) = Some d -> ~ In (unescape_varname k) ivars -> unescape_varname k <> ename ->
  nd_shape (ds_nd d) = pre ++ n :: post -> open_axis d (length pre) ->
  (forall b x, In b blocks -> var_of (unescape_varname k) b = Some x -> nd_shape x = pre ++ post) ->
  exists d', item k (f_items f') = Some d' /\ nd_shape (ds_nd d') = pre ++ (n + length blocks) :: post /\
    (forall p i q, length p = length pre -> i < n -> nd_get (ds_nd d') (p ++ i :: q) = nd_get (ds_nd d) (p ++ i :: q)) /\
    (forall j b, nth_error blocks j = Some b -> exists x, var_of (unescape_varname k) b = Some x /\ forall p q, length p = length pre -> inb (pre ++ post) (p ++ q) = true -> nd_get (ds_nd d') (p ++ (n + j) :: q) = option_map conv (nd_get x (p ++ q))).
Proof.
  intros ename ivars blocks. induction blocks as [|b bs IH]; intros f f' k d pre n post OK PN NE HV H I N1 N2 SH OP SL.
  - cbn in H. injection H as <-. exists d. rewrite Nat.add_0_r. split; [exact I|]. split; [exact SH|]. split; [reflexivity|]. intros [|j] b E; discriminate.
  - cbn [appends] in H. destruct (append_hdf5 fill conv ename ivars b f) as [[e|] f1] eqn:EA; [discriminate|].
    destruct (C39_success ename ivars b f f1 OK PN NE (fun m x => HV b m x (or_introl eq_refl)) EA) as [_ [OK1 F]].
    destruct (forall2_item (fun k d d' => ds_max d' = ds_max d /\ let uk := unescape_varname k in
      (uk = ename -> extends 0 (ds_nd d) (ds_nd d') (fun _ => Some fill)) /\ (In uk ivars -> d' = d) /\
      (~ In uk ivars -> uk <> ename -> exists x ax last, var_of uk b = Some x /\ open_axis d ax /\ extends ax (ds_nd d) (ds_nd d') last /\
       (slice_shape ax (nd_shape (ds_nd d)) (nd_shape x) -> forall o, inb (nd_shape x) o = true -> last o = option_map conv (nd_get x o)))) _ _ k d F I) as [d1 [I1 [M1 [_ [_ X]]]]].
    destruct (X N1 N2) as [x [ax [last [EV [OA [EX LA]]]]]].
    assert (AX : ax = length pre). { destruct OP as [P1 P2], OA as [Q1 Q2]. destruct (Nat.lt_trichotomy ax (length pre)) as [L|[L|L]]; [exfalso; exact (P2 ax L Q1)|exact L|exfalso; exact (Q2 (length pre) L P1)]. } subst ax.
    pose proof (SL b x (or_introl eq_refl) EV) as SX. assert (LA' := LA (ex_intro _ pre (ex_intro _ n (ex_intro _ post (conj SH (conj eq_refl SX)))))). clear LA.
    destruct EX as [pre' [n' [post' [E' [LP [E1 [W1 G1]]]]]]]. rewrite SH in E'. destruct (mid_unique _ _ _ _ _ _ (eq_sym LP) E') as [<- [<- <-]].
    destruct (IH f1 f' k d1 pre (S n) post OK1 PN NE (fun b m x J => HV b m x (or_intror J)) H I1 N1 N2 E1) as [d' [I' [S' [K1 K2]]]]; [unfold open_axis; rewrite M1; exact OP|intros b' x' J; apply (SL b' x'); right; exact J|].
    exists d'. split; [exact I'|]. split; [rewrite S'; cbn [length]; f_equal; f_equal; lia|]. split.
    + intros p i q LPp LI. rewrite (K1 p i q LPp) by lia. rewrite (G1 p i q LPp). now rewrite (proj2 (Nat.ltb_lt i n)) by lia.
    + intros [|j] b' EB.
      * injection EB as <-. exists x. split; [exact EV|]. intros p q LPp IB. rewrite Nat.add_0_r. rewrite (K1 p n q LPp) by lia. rewrite (G1 p n q LPp), Nat.ltb_irrefl, Nat.eqb_refl, IB. apply LA'. now rewrite SX.
      * destruct (K2 j b' EB) as [x' [EX' G']]. exists x'. split; [exact EX'|]. intros p q LPp IB. rewrite <- (G' p q LPp IB). f_equal. f_equal. f_equal. lia.
Qed.
(** The labels of the dimension: the earlier ones stay, every new one is the fill value. *)
Theorem C39_labels : forall ename ivars blocks (f f' : h5 A) d n, h5_ok f -> plain_name ename -> ~ In ename ivars -> (forall b m x, In b blocks -> In (m, x) b -> nd_wf x) ->
  appends ename ivars blocks f = Some f' -> item ename (f_items f) = Some d -> nd_shape (ds_nd d) = [n] ->
  exists d', item ename (f_items f') = Some d' /\ nd_shape (ds_nd d') = [n + length blocks] /\
    forall i, nd_get (ds_nd d') [i] = if i <? n then nd_get (ds_nd d) [i] else if i <? n + length blocks then Some fill else None.
Proof.
  intros ename ivars blocks. induction blocks as [|b bs IH]; intros f f' d n OK PN NE HV H I SH.
  - cbn in H. injection H as <-. exists d. rewrite Nat.add_0_r. split; [exact I|]. split; [exact SH|]. intros i. destruct (i <? n) eqn:EI; [reflexivity|]. apply nd_get_oob. rewrite SH. cbn [inb]. now rewrite EI.
  - cbn [appends] in H. destruct (append_hdf5 fill conv ename ivars b f) as [[e|] f1] eqn:EA; [discriminate|].
    destruct (C39_success ename ivars b f f1 OK PN NE (fun m x => HV b m x (or_introl eq_refl)) EA) as [_ [OK1 F]].
    destruct (forall2_item (fun k d d' => ds_max d' = ds_max d /\ let uk := unescape_varname k in
      (uk = ename -> extends 0 (ds_nd d) (ds_nd d') (fun _ => Some fill)) /\ (In uk ivars -> d' = d) /\
      (~ In uk ivars -> uk <> ename -> exists x ax last, var_of uk b = Some x /\ open_axis d ax /\ extends ax (ds_nd d) (ds_nd d') last /\
       (slice_shape ax (nd_shape (ds_nd d)) (nd_shape x) -> forall o, inb (nd_shape x) o = true -> last o = option_map conv (nd_get x o)))) _ _ ename d F I) as [d1 [I1 [M1 [X _]]]].
    specialize (X (plain_unescape _ PN)). destruct X as [pre' [n' [post' [E' [LP [E1 [W1 G1]]]]]]]. destruct pre'; [|discriminate]. rewrite SH in E'. cbn [app] in *. injection E' as <- <-.
    destruct (IH f1 f' d1 (S n) OK1 PN NE (fun b m x J => HV b m x (or_intror J)) H I1 E1) as [d' [I' [S' K1]]]. exists d'. split; [exact I'|]. split; [rewrite S'; cbn [length]; f_equal; lia|].
    intros i. rewrite (K1 i). pose proof (G1 [] i [] eq_refl) as G. cbn [app inb] in G. rewrite G. cbn [length]. destruct (Nat.ltb_spec i n), (Nat.ltb_spec i (S n)), (Nat.eqb_spec i n), (Nat.ltb_spec i (S n + length bs)), (Nat.ltb_spec i (n + S (length bs))); try lia; reflexivity.
Qed.
End Append.

(** An append whose data does not have a variable of the file is refused, and the file is
    not what it was: the dimension has one entry more than the variables. *)
Definition ex_file : h5 nat := mkH5 (Some (chars "0.2"%string))
  [(chars "I", mkDset (mkNd [2] [7; 8]) [None]); (chars "f", mkDset (mkNd [3] [1; 2; 3]) [Some 3]); (chars "x", mkDset (mkNd [2; 3] [10; 11; 12; 20; 21; 22]) [None; Some 3]);
   (chars "a\b", mkDset (mkNd [3; 2] [1; 4; 2; 5; 3; 6]) [Some 3; None])].
Definition ex_block (k : nat) : list (list ascii * nd nat) := [(chars "x", mkNd [3] [k; k + 1; k + 2]); (chars "a/b", mkNd [3] [k; k; k])].
Theorem C39_atomic_refuted : exists (f f' : h5 nat) ename ivars vars e, h5_ok f /\ plain_name ename /\ append_hdf5 0 (fun x => x) ename ivars vars f = (Some e, f') /\ f' <> f.
Proof.
  exists ex_file. exists (snd (append_hdf5 0 (fun x => x) (chars "I") [chars "f"] [(chars "x", mkNd [3] [1; 2; 3])] ex_file)), (chars "I"), [chars "f"], [(chars "x", mkNd [3] [1; 2; 3])], ValueError.
  split; [|split; [split; vm_compute; intuition discriminate|split; [vm_compute; reflexivity|vm_compute; discriminate]]].
  split; [cbn; repeat constructor; cbn; intuition discriminate|]. intros k d I. cbn in I. repeat destruct I as [E|I]; try (injection E as <- <-; vm_compute; auto); contradiction.
Qed.
(** The new label is not the one the program computes (the last one and one), nor
    anything that depends on the labels. *)
Theorem C39_label_refuted : exists (f f' : h5 nat) ename ivars vars d d', h5_ok f /\ append_hdf5 0 (fun x => x) ename ivars vars f = (None, f') /\
  item ename (f_items f) = Some d /\ item ename (f_items f') = Some d' /\ nd_get (ds_nd d) [1] = Some 8 /\ nd_get (ds_nd d') [2] <> Some 9.
Proof.
  exists ex_file, (snd (append_hdf5 0 (fun x => x) (chars "I") [chars "f"] (ex_block 5) ex_file)), (chars "I"), [chars "f"], (ex_block 5), (mkDset (mkNd [2] [7; 8]) [None]), (mkDset (mkNd [3] [7; 8; 0]) [None]).
  split; [|repeat split; try (vm_compute; reflexivity); vm_compute; discriminate].
  split; [cbn; repeat constructor; cbn; intuition discriminate|]. intros k d I. cbn in I. repeat destruct I as [E|I]; try (injection E as <- <-; vm_compute; auto); contradiction.
Qed.
Example C39_example : option_map (fun f => map (fun p => (fst p, ds_nd (snd p))) (f_items f)) (appends 0 (fun x => x) (chars "I") [chars "f"] [ex_block 30; ex_block 40] ex_file) =
  Some [(chars "I", mkNd [4] [7; 8; 0; 0]); (chars "f", mkNd [3] [1; 2; 3]); (chars "x", mkNd [4; 3] [10; 11; 12; 20; 21; 22; 30; 31; 32; 40; 41; 42]);
        (chars "a\b", mkNd [3; 4] [1; 4; 30; 40; 2; 5; 30; 40; 3; 6; 30; 40])].
Proof. vm_compute. reflexivity. Qed.
Print Assumptions C39_success.
Print Assumptions C39_kept.
Print Assumptions C39_refused.
Print Assumptions C39_failure_grows.
Print Assumptions C39_history.
Print Assumptions C39_labels.
Print Assumptions C39_atomic_refuted.
Print Assumptions C39_label_refuted.
