(** C77: the element attributes of multiports *)
From Coq Require Import Ascii String List Arith Bool Lia Sorted.
From Verif Require Import Model_NdArray Model_Text Model_Words Model_Mdif Model_Merge Model_Ports Spec_Ports Proofs_NdArray Proofs_Text Prop_Append.
Import ListNotations.
Local Open Scope nat_scope.
Local Open Scope list_scope.

(** ** The dictionary of accessors *)
Lemma eqb_chars_iff : forall a b, eqb_chars a b = true <-> a = b.
Proof. intros a b. unfold eqb_chars. destruct (list_eq_dec ascii_dec a b); split; congruence. Qed.
Lemma eqb_chars_same : forall a, eqb_chars a a = true.
Proof. intros a. now apply eqb_chars_iff. Qed.
Lemma attr_get_set : forall k k' v d, attr_get k (attr_set k' v d) = if eqb_chars k k' then Some v else attr_get k d.
Proof.
  intros k k' v. induction d as [|[k1 v1] d IH]; cbn [attr_set attr_get]; auto.
  destruct (eqb_chars k' k1) eqn:E; cbn [attr_get].
  - apply eqb_chars_iff in E. subst k1. destruct (eqb_chars k k'); auto.
  - rewrite IH. destruct (eqb_chars k k1) eqn:E1; auto. apply eqb_chars_iff in E1. subst k1.
    destruct (eqb_chars k k') eqn:E2; auto. apply eqb_chars_iff in E2. subst k'. rewrite eqb_chars_same in E. discriminate E.
Qed.
(** The last entry with the key counts. *)
Fixpoint last_value (k : list ascii) (l : list (list ascii * (nat * nat))) : option (nat * nat) :=
  match l with
  | [] => None
  | (k', v) :: l' => match last_value k l' with Some w => Some w | None => if eqb_chars k k' then Some v else None end
  end.
Lemma attr_fold : forall k l d, attr_get k (fold_left (fun d e => attr_set (fst e) (snd e) d) l d) = match last_value k l with Some v => Some v | None => attr_get k d end.
Proof.
  intros k. induction l as [|[k' v] l IH]; intros d; cbn [fold_left last_value fst snd]; auto.
  rewrite IH, attr_get_set. destruct (last_value k l); auto. destruct (eqb_chars k k'); auto.
Qed.
Lemma last_app : forall k l1 l2, last_value k (l1 ++ l2) = match last_value k l2 with Some v => Some v | None => last_value k l1 end.
Proof.
  intros k. induction l1 as [|[k' v] l1 IH]; intros l2; cbn [app last_value]; [destruct (last_value k l2); auto|].
  rewrite IH. destruct (last_value k l2); auto.
Qed.
Lemma last_none : forall k l, (forall v, ~ In (k, v) l) -> last_value k l = None.
Proof.
  intros k. induction l as [|[k' v] l IH]; intros H; cbn [last_value]; auto.
  rewrite IH by (intros w I; now apply (H w); right). destruct (eqb_chars k k') eqn:E; auto.
  apply eqb_chars_iff in E. subst k'. exfalso. apply (H v). now left.
Qed.
Lemma last_in : forall k l v, last_value k l = Some v -> In (k, v) l.
Proof.
  intros k. induction l as [|[k' v'] l IH]; intros v H; cbn [last_value] in H; [discriminate H|].
  destruct (last_value k l) as [w|]; [right; apply IH; exact H|].
  destruct (eqb_chars k k') eqn:E; [|discriminate H]. apply eqb_chars_iff in E. subst k'. injection H as <-. now left.
Qed.
Lemma last_some : forall k l v, In (k, v) l -> exists w, last_value k l = Some w.
Proof.
  intros k. induction l as [|[k' v'] l IH]; intros v H; [destruct H|destruct H as [E|I]]; cbn [last_value].
  - injection E as -> ->. destruct (last_value k l); [eauto|]. rewrite eqb_chars_same. eauto.
  - destruct (IH v I) as (w & ->). eauto.
Qed.
(** In a list sorted by the positions the last entry with the key is the
    greatest. *)
Definition before_entry (e f : list ascii * (nat * nat)) : Prop := not_after (snd e) (snd f).
Lemma last_greatest : forall k l v w, StronglySorted before_entry l -> In (k, v) l -> last_value k l = Some w -> not_after v w.
Proof.
  intros k. induction l as [|[k' v'] l IH]; intros v w S H L; [destruct H|]. inversion S as [|? ? S' F]; subst. cbn [last_value] in L. destruct H as [E|I].
  - injection E as -> ->. destruct (last_value k l) as [u|] eqn:U.
    + injection L as ->. apply last_in in U. rewrite Forall_forall in F. exact (F _ U).
    + rewrite eqb_chars_same in L. injection L as ->. right. split; auto.
  - destruct (last_some k l v I) as (u & U). rewrite U in L. injection L as ->. apply (IH v w); auto.
Qed.
Lemma ss_app : forall (l1 l2 : list (list ascii * (nat * nat))), StronglySorted before_entry l1 -> StronglySorted before_entry l2 ->
  (forall a b, In a l1 -> In b l2 -> before_entry a b) -> StronglySorted before_entry (l1 ++ l2).
Proof.
  induction l1 as [|a l1 IH]; intros l2 S1 S2 H; auto. inversion S1; subst. cbn [app]. constructor.
  - apply IH; auto. intros x y I1 I2. apply H; auto. now right.
  - apply Forall_forall. intros y I. apply in_app_or in I as [I|I].
    + rewrite Forall_forall in H3. auto.
    + apply H; auto. now left.
Qed.

(** The entries of one name *)
Definition row (name : list ascii) (n i : nat) : list (list ascii * (nat * nat)) := map (fun j => (port_label name i j, (i, j))) (seq 0 n).
Definition block (name : list ascii) (n : nat) : list (list ascii * (nat * nat)) := flat_map (row name n) (seq 0 n).
Lemma in_row : forall name n i k v, In (k, v) (row name n i) <-> exists j, j < n /\ v = (i, j) /\ k = port_label name i j.
Proof.
  intros name n i k v. unfold row. rewrite in_map_iff. split.
  - intros (j & E & I). injection E as <- <-. apply in_seq in I. exists j. split; [lia|auto].
  - intros (j & L & -> & ->). exists j. split; auto. apply in_seq. lia.
Qed.
Lemma in_block : forall name n k v, In (k, v) (block name n) <-> exists i j, i < n /\ j < n /\ v = (i, j) /\ k = port_label name i j.
Proof.
  intros name n k v. unfold block. rewrite in_flat_map. split.
  - intros (i & I & J). apply in_seq in I. apply in_row in J as (j & L & -> & ->). exists i, j. split; [lia|auto].
  - intros (i & j & L1 & L2 & E1 & E2). exists i. split; [apply in_seq; lia|]. apply in_row. exists j. auto.
Qed.
Lemma row_sorted : forall name i n a, StronglySorted before_entry (map (fun j => (port_label name i j, (i, j))) (seq a n)).
Proof.
  intros name i. induction n as [|n IH]; intros a; cbn [seq map]; constructor; auto.
  apply Forall_forall. intros [k v] I. apply in_map_iff in I as (j & E & I). injection E as <- <-. apply in_seq in I.
  right. cbn [fst snd]. split; [reflexivity|lia].
Qed.
Lemma block_sorted : forall name n m a, StronglySorted before_entry (flat_map (row name n) (seq a m)).
Proof.
  intros name n. induction m as [|m IH]; intros a; cbn [seq flat_map]; [constructor|]. apply ss_app; auto.
  - apply row_sorted.
  - intros [k v] [k' v'] I1 I2. apply in_row in I1 as (j & _ & -> & _). apply in_flat_map in I2 as (i & I & I2). apply in_seq in I.
    apply in_row in I2 as (j' & _ & -> & _). left. cbn [fst snd]. lia.
Qed.
Lemma entries_block : forall names n, entries names n = flat_map (fun name => block name n) names.
Proof. reflexivity. Qed.

(** ** The names *)
Lemma small_iff : forall a b, small a b <-> b = lower_char a.
Proof.
  intros a b. unfold small, lower_char. destruct ((65 <=? nat_of_ascii a) && (nat_of_ascii a <=? 90)) eqn:E; [|tauto].
  apply andb_true_iff in E as [E1 E2]. apply Nat.leb_le in E1, E2. split; intros H.
  - rewrite <- H. symmetry. apply ascii_nat_embedding.
  - rewrite H. apply nat_ascii_embedding. lia.
Qed.
Lemma large_iff : forall a b, large a b <-> b = upper_char a.
Proof.
  intros a b. unfold large, upper_char. destruct ((97 <=? nat_of_ascii a) && (nat_of_ascii a <=? 122)) eqn:E; [|tauto].
  apply andb_true_iff in E as [E1 E2]. apply Nat.leb_le in E1, E2. split; intros H.
  - rewrite <- H. replace (nat_of_ascii b + 32 - 32) with (nat_of_ascii b) by lia. symmetry. apply ascii_nat_embedding.
  - rewrite H. rewrite nat_ascii_embedding by lia. lia.
Qed.
Lemma Forall2_map_iff : forall {A B} (R : A -> B -> Prop) (f : A -> B), (forall a b, R a b <-> b = f a) -> forall l m, Forall2 R l m <-> m = map f l.
Proof.
  intros A B R f H. induction l as [|a l IH]; intros m; split; intros G.
  - now inversion G.
  - subst m. constructor.
  - inversion G; subst. cbn [map]. f_equal; [now apply H|now apply IH].
  - subst m. constructor; [now apply H|now apply IH].
Qed.
Lemma written_iff : forall s name, written s name <-> In name (port_names s).
Proof.
  intros s name. unfold written, port_names. rewrite (Forall2_map_iff small lower_char small_iff), (Forall2_map_iff large upper_char large_iff).
  unfold upper. cbn [In]. split; intros [H|[H|H]]; auto. destruct H as [H|H]; [auto|destruct H].
Qed.
Lemma names_length : forall s name, In name (port_names s) -> length name = length s.
Proof. intros s name [<-|[<-|[<-|[]]]]; unfold upper; now rewrite ?map_length. Qed.
Lemma app_split : forall {A} (a b c d : list A), length a = length b -> a ++ c = b ++ d -> a = b /\ c = d.
Proof.
  induction a as [|x a IH]; intros [|y b] c d L E; try discriminate L; auto. cbn [app] in E. injection E as -> E. injection L as L.
  destruct (IH b c d L E) as [-> ->]. auto.
Qed.

(** The accessor found for a key *)
Lemma last_entries : forall s n name names k, incl names (port_names s) -> In name names -> forall v w, In (k, v) (block name n) ->
  last_value k (entries names n) = Some w -> last_value k (block name n) = Some w.
Proof.
  intros s n name names k. rewrite entries_block. induction names as [|m names IH]; intros HI Hn v w I L; [destruct Hn|].
  cbn [flat_map] in L. rewrite last_app in L.
  assert (Same : forall nm, In nm (port_names s) -> forall u, In (k, u) (block nm n) -> nm = name).
  { intros nm N u J. apply in_block in J as (i & j & _ & _ & _ & E1). apply in_block in I as (i' & j' & _ & _ & _ & E2).
    rewrite E1 in E2. apply app_split in E2 as [E2 _]; auto. rewrite (names_length s nm N). symmetry. apply names_length. now apply HI. }
  assert (HI' : incl names (port_names s)) by (intros y Y; apply HI; now right).
  destruct (in_dec (list_eq_dec ascii_dec) name names) as [Y|N].
  - destruct (last_value k (flat_map (fun name0 => block name0 n) names)) as [u|] eqn:U.
    + injection L as ->. eapply IH; eauto.
    + exfalso. destruct (last_some k (flat_map (fun name0 => block name0 n) names) v) as (u & E); [|congruence].
      apply in_flat_map. exists name. auto.
  - destruct Hn as [->|Hn]; [|contradiction].
    destruct (last_value k (flat_map (fun name0 => block name0 n) names)) as [u|] eqn:U; [|exact L].
    exfalso. apply last_in in U. apply in_flat_map in U as (nm & N1 & J). apply N. rewrite <- (Same nm (HI' _ N1) u J). exact N1.
Qed.
Lemma last_shape : forall lead r c, last (lead ++ [r; c]) 0 = c.
Proof. intros lead r c. replace (lead ++ [r; c]) with ((lead ++ [r]) ++ [c]) by now rewrite <- app_assoc. apply last_last. Qed.
Lemma attrfuns_shape : forall s lead r c, attrfuns (Some s) (lead ++ [r; c]) = fold_left (fun d e => attr_set (fst e) (snd e) d) (entries (port_names s) c) [].
Proof.
  intros s lead r c. unfold attrfuns. rewrite last_shape. replace (2 <=? length (lead ++ [r; c])) with true; auto.
  symmetry. apply Nat.leb_le. rewrite app_length. cbn [length]. lia.
Qed.
Lemma label_numbers : forall name i j, port_label name i j = name ++ numbers (i, j).
Proof. reflexivity. Qed.
Lemma found : forall s lead r c key ij, names_element s c key ij ->
  (forall ij', names_element s c key ij' -> not_after ij' ij) ->
  attr_get key (attrfuns (Some s) (lead ++ [r; c])) = Some ij.
Proof.
  intros s lead r c key [i j] (L1 & L2 & name & W & E) G. cbn [fst snd] in L1, L2. rewrite attrfuns_shape, attr_fold. cbn [attr_get].
  apply written_iff in W.
  assert (I : In (key, (i, j)) (block name c)) by (apply in_block; exists i, j; auto).
  destruct (last_some key (entries (port_names s) c) (i, j)) as ([i' j'] & L).
  { rewrite entries_block. apply in_flat_map. exists name. auto. }
  rewrite L. pose proof (last_entries s c name (port_names s) key (incl_refl _) W _ _ I L) as B.
  pose proof (last_greatest key _ _ _ (block_sorted name c c 0) I B) as N1. apply last_in in B.
  apply in_block in B as (i1 & j1 & B1 & B2 & B3 & B4). injection B3 as <- <-.
  assert (N2 : not_after (i', j') (i, j)). { apply G. split; [exact B1|split; [exact B2|]]. exists name. split; [now apply written_iff|exact B4]. }
  unfold not_after in *. cbn [fst snd] in *. f_equal. f_equal; lia.
Qed.
Lemma not_found : forall s lead r c key, (forall ij, ~ names_element s c key ij) -> attr_get key (attrfuns (Some s) (lead ++ [r; c])) = None.
Proof.
  intros s lead r c key H. rewrite attrfuns_shape, attr_fold. cbn [attr_get]. rewrite last_none; auto.
  intros v I. rewrite entries_block in I. apply in_flat_map in I as (name & N & I). apply in_block in I as (i & j & L1 & L2 & -> & E).
  apply (H (i, j)). split; [exact L1|split; [exact L2|]]. exists name. split; [now apply written_iff|exact E].
Qed.

(** ** Elements *)
Lemma lead_of : forall (lead : list nat) r c, firstn (length (lead ++ [r; c]) - 2) (lead ++ [r; c]) = lead /\ skipn (length (lead ++ [r; c]) - 2) (lead ++ [r; c]) = [r; c].
Proof.
  intros lead r c. rewrite app_length. cbn [length]. replace (length lead + 2 - 2) with (length lead) by lia.
  rewrite firstn_app, skipn_app, firstn_all, skipn_all, Nat.sub_diag. cbn [firstn skipn app]. now rewrite app_nil_r.
Qed.
Lemma inb2 : forall r c i j, inb [r; c] [i; j] = (i <? r) && (j <? c).
Proof. intros r c i j. cbn [inb]. now rewrite andb_true_r. Qed.
Section Arrays.
Context {A : Type}.
Variables (x : nd A) (lead : list nat) (r c : nat).
Hypothesis X : nd_shape x = lead ++ [r; c].
Hypothesis W : nd_wf x.
Lemma at_ix : forall ix i j, inb lead ix = true -> i < r -> j < c -> inb (nd_shape x) (ix ++ [i; j]) = true.
Proof.
  intros ix i j I L1 L2. rewrite X, inb_app by (symmetry; now apply inb_length). rewrite I, inb2. cbn [andb].
  apply andb_true_iff. split; now apply Nat.ltb_lt.
Qed.
Lemma pick_ok : forall i j, i < r -> j < c -> exists y, pick i j x = Ok y /\ element_of x lead (i, j) y.
Proof.
  intros i j L1 L2. unfold pick. rewrite X. destruct (lead_of lead r c) as [-> ->]. rewrite inb2.
  replace (2 <=? length (lead ++ [r; c])) with true by (symmetry; apply Nat.leb_le; rewrite app_length; cbn [length]; lia).
  apply Nat.ltb_lt in L1 as M1. apply Nat.ltb_lt in L2 as M2. rewrite M1, M2. cbn [andb]. eexists. split; [reflexivity|].
  split; [reflexivity|]. intros ix I. cbn [fst snd]. rewrite nd_get_tab; auto. intros jx J. apply nd_get_not_none; auto. now apply at_ix.
Qed.
Lemma pick_out : forall i j, r <= i -> pick i j x = Err IndexError.
Proof.
  intros i j L. unfold pick. rewrite X. destruct (lead_of lead r c) as [_ ->]. rewrite inb2.
  replace (i <? r) with false by (symmetry; apply Nat.ltb_ge; exact L). cbn [andb]. destruct (2 <=? _); auto.
Qed.
Lemma parts : forall (ix : list nat) k l, length ix = length lead -> firstn (length (lead ++ [r; c]) - 2) (ix ++ [k; l]) = ix /\ skipn (length (lead ++ [r; c]) - 2) (ix ++ [k; l]) = [k; l].
Proof.
  intros ix k l L. rewrite app_length. cbn [length]. replace (length lead + 2 - 2) with (length ix) by lia.
  rewrite firstn_app, skipn_app, firstn_all, skipn_all, Nat.sub_diag. cbn [firstn skipn app]. now rewrite app_nil_r.
Qed.
Lemma split_ix : forall ix, inb (lead ++ [r; c]) ix = true -> exists ix' k l, ix = ix' ++ [k; l] /\ inb lead ix' = true /\ k < r /\ l < c.
Proof.
  intros ix I. pose proof (inb_length _ _ I) as L. rewrite app_length in L. cbn [length] in L.
  exists (firstn (length lead) ix). pose proof (firstn_skipn (length lead) ix) as E.
  assert (K : length (skipn (length lead) ix) = 2) by (rewrite skipn_length; lia).
  destruct (skipn (length lead) ix) as [|k [|l [|]]]; try discriminate K. exists k, l. rewrite <- E in I.
  rewrite inb_app in I by (rewrite firstn_length; lia). apply andb_true_iff in I as [I1 I2]. rewrite inb2 in I2. apply andb_true_iff in I2 as [I2 I3].
  split; [now symmetry|]. split; [exact I1|]. split; now apply Nat.ltb_lt.
Qed.
Lemma store_ok : forall i j v s, i < r -> j < c -> nd_wf v -> fit lead (nd_shape v) = Some s ->
  exists y, store i j x v = Ok y /\ nd_wf y /\ replaced x lead (i, j) (fun ix => nd_get (mkNd s (nd_elems v)) (bindex s ix)) y.
Proof.
  intros i j v s L1 L2 Wv F. unfold store. rewrite X. destruct (lead_of lead r c) as [-> _]. rewrite F.
  destruct (fit_some _ _ _ F) as [P B].
  assert (T : total_on (lead ++ [r; c]) (fun ix => if list_eq_dec Nat.eq_dec (skipn (length (lead ++ [r; c]) - 2) ix) [i; j]
     then nd_get (mkNd s (nd_elems v)) (bindex s (firstn (length (lead ++ [r; c]) - 2) ix)) else nd_get x ix)).
  { intros ix I. pose proof I as I0. apply split_ix in I as (ix' & k & l & -> & I1 & I2 & I3). destruct (parts ix' k l) as [-> ->]; [now apply inb_length|].
    destruct (list_eq_dec Nat.eq_dec [k; l] [i; j]).
    - apply nd_get_not_none; [unfold nd_wf; cbn [nd_elems nd_shape]; rewrite P; exact Wv|]. now apply B.
    - apply nd_get_not_none; auto. now rewrite X. }
  eexists. split; [reflexivity|]. split; [now apply nd_tab_wf|]. split; [now rewrite X|]. intros ix k l I. cbn [fst snd].
  assert (D : (if list_eq_dec Nat.eq_dec [k; l] [i; j] then true else false) = (k =? i) && (l =? j)).
  { destruct (list_eq_dec Nat.eq_dec [k; l] [i; j]) as [E|N]; destruct (Nat.eqb_spec k i), (Nat.eqb_spec l j); cbn [andb]; congruence. }
  rewrite <- D. destruct (inb (lead ++ [r; c]) (ix ++ [k; l])) eqn:K.
  - rewrite nd_get_tab by auto. destruct (parts ix k l) as [-> ->]; [now apply inb_length|]. destruct (list_eq_dec Nat.eq_dec [k; l] [i; j]); auto.
  - rewrite nd_get_oob by exact K. destruct (list_eq_dec Nat.eq_dec [k; l] [i; j]) as [E|N].
    + exfalso. injection E as -> ->. rewrite <- X in K. rewrite at_ix in K by auto. discriminate K.
    + symmetry. apply nd_get_oob. now rewrite X.
Qed.
End Arrays.

(** ** C77 *)
(** An attribute that names an element gives it, if the key can not be read as a
    later element. *)
Theorem C77_get : forall {A} (x : nd A) s lead r c key ij, nd_wf x -> nd_shape x = lead ++ [r; c] ->
  names_element s c key ij -> fst ij < r -> (forall ij', names_element s c key ij' -> not_after ij' ij) ->
  exists y, port_getattr (Some s) x key = Ok y /\ element_of x lead ij y.
Proof.
  intros A x s lead r c key [i j] W X N L G. unfold port_getattr. rewrite X, (found s lead r c key (i, j) N G).
  destruct N as (_ & N & _). exact (pick_ok x lead r c X W i j L N).
Qed.

(** With up to ten columns there is no other reading. *)
Lemma ten : forall i j i' j', i < 10 -> j < 10 -> i' < 10 -> j' < 10 -> numbers (i, j) = numbers (i', j') -> (i, j) = (i', j').
Proof.
  assert (T : forallb (fun p => forallb (fun q => negb (eqb_chars (numbers p) (numbers q)) || (Nat.eqb (fst p) (fst q) && Nat.eqb (snd p) (snd q))) (list_prod (seq 0 10) (seq 0 10))) (list_prod (seq 0 10) (seq 0 10)) = true) by (vm_compute; reflexivity).
  intros i j i' j' H1 H2 H3 H4 E. rewrite forallb_forall in T.
  assert (P : forall a b, a < 10 -> b < 10 -> In (a, b) (list_prod (seq 0 10) (seq 0 10))) by (intros a b L1 L2; apply in_prod; apply in_seq; lia).
  specialize (T _ (P i j H1 H2)). rewrite forallb_forall in T. specialize (T _ (P i' j' H3 H4)). rewrite E, eqb_chars_same in T. cbn [negb orb fst snd] in T.
  apply andb_true_iff in T as [T1 T2]. apply Nat.eqb_eq in T1, T2. now subst.
Qed.
Lemma written_length : forall s name, written s name -> length name = length s.
Proof. intros s name H. apply written_iff in H. now apply names_length. Qed.
Lemma same_numbers : forall s c key ij ij', names_element s c key ij -> names_element s c key ij' -> numbers ij = numbers ij'.
Proof.
  intros s c key ij ij' (_ & _ & n1 & W1 & E1) (_ & _ & n2 & W2 & E2). rewrite E1 in E2.
  apply app_split in E2 as [_ E2]; auto. now rewrite (written_length _ _ W1), (written_length _ _ W2).
Qed.
Theorem C77_ten : forall {A} (x : nd A) s lead r c key ij, nd_wf x -> nd_shape x = lead ++ [r; c] -> c <= 10 ->
  names_element s c key ij -> fst ij < r ->
  exists y, port_getattr (Some s) x key = Ok y /\ element_of x lead ij y.
Proof.
  intros A x s lead r c key [i j] W X T N L. apply (C77_get x s lead r c key (i, j) W X N L).
  intros [i' j'] N'. pose proof (same_numbers _ _ _ _ _ N N') as E. destruct N as (N1 & N2 & _), N' as (N3 & N4 & _). cbn [fst snd] in *.
  apply ten in E; try lia. injection E as -> ->. right. split; auto.
Qed.

(** With eleven or more columns S111 is the element 11, 1: the element 1, 11 has
    no attribute of its own. *)
Lemma print_prefix : forall n (w t : list ascii), print_nat n ++ w = t -> exists k, k <= length t /\ print_nat n = firstn k t /\ w = skipn k t.
Proof.
  intros n w t E. exists (length (print_nat n)). subst t. rewrite app_length. split; [lia|]. rewrite firstn_app, skipn_app, firstn_all, skipn_all, Nat.sub_diag. cbn [firstn skipn app]. now rewrite app_nil_r.
Qed.
Lemma ones : forall i j, numbers (i, j) = ["1"; "1"; "1"]%char -> (i, j) = (0, 10) \/ (i, j) = (10, 0).
Proof.
  intros i j E. unfold numbers in E. cbn [fst snd] in E. apply print_prefix in E as (k & L & E1 & E2). cbn [length] in L.
  destruct k as [|[|[|[|]]]]; cbn [firstn skipn] in E1, E2; [now apply print_nat_nonempty in E1| | |now apply print_nat_nonempty in E2|lia].
  - left. change ["1"]%char with (print_nat 1) in E1. change ["1"; "1"]%char with (print_nat 11) in E2. apply print_nat_inj in E1, E2. f_equal; lia.
  - right. change ["1"; "1"]%char with (print_nat 11) in E1. change ["1"]%char with (print_nat 1) in E2. apply print_nat_inj in E1, E2. f_equal; lia.
Qed.
Theorem C77_eleven : forall {A} (x : nd A) s name lead r c, nd_wf x -> nd_shape x = lead ++ [r; c] -> 11 <= r -> 11 <= c -> written s name ->
  names_element s c (name ++ ["1"; "1"; "1"]%char) (0, 10) /\
  exists y, port_getattr (Some s) x (name ++ ["1"; "1"; "1"]%char) = Ok y /\ element_of x lead (10, 0) y.
Proof.
  intros A x s name lead r c W X R C N.
  assert (N1 : forall ij, fst ij < c -> snd ij < c -> numbers ij = ["1"; "1"; "1"]%char -> names_element s c (name ++ ["1"; "1"; "1"]%char) ij).
  { intros ij L1 L2 E. split; [exact L1|]. split; [exact L2|]. exists name. now rewrite E. }
  split; [apply N1; cbn [fst snd]; try lia; reflexivity|].
  apply (C77_get x s lead r c _ (10, 0) W X); [apply N1; cbn [fst snd]; try lia; reflexivity|cbn [fst]; lia|].
  intros [i j] N'. assert (E : numbers (i, j) = ["1"; "1"; "1"]%char).
  { rewrite (same_numbers s c _ (i, j) (10, 0) N'); [reflexivity|]. apply N1; cbn [fst snd]; try lia; reflexivity. }
  apply ones in E as [E|E]; injection E as -> ->; [left|right]; cbn [fst snd]; lia.
Qed.

(** Any other name is no attribute, for a value to be read or to be assigned;
    so is any name if the class has no letter or the array has fewer than two
    axes. *)
Theorem C77_refused : forall {A} (x : nd A) s lead r c key, nd_shape x = lead ++ [r; c] -> (forall ij, ~ names_element s c key ij) ->
  port_getattr (Some s) x key = Err AttributeError /\
  (forall has v, has key = false -> port_setattr has (Some s) x key v = Err AttributeError).
Proof.
  intros A x s lead r c key X H. unfold port_getattr, port_setattr. rewrite X, (not_found s lead r c key H). split; auto.
  intros has v ->. reflexivity.
Qed.
Theorem C77_none : forall {A} (x : nd A) s key, s = None \/ length (nd_shape x) < 2 -> port_getattr s x key = Err AttributeError.
Proof.
  intros A x s key H. unfold port_getattr, attrfuns. destruct s as [s|]; auto. destruct H as [H|H]; [discriminate H|].
  replace (2 <=? length (nd_shape x)) with false by (symmetry; apply Nat.leb_gt; exact H). reflexivity.
Qed.
(** A name the object has as an attribute of its own is not an element to assign
    to, whatever it looks like: everything reads as before. *)
Theorem C77_own : forall {A} (x v : nd A) has s key, has key = true ->
  exists y, port_setattr has s x key v = Ok y /\ nd_shape y = nd_shape x /\ forall ix, nd_get y ix = nd_get x ix.
Proof. intros A x v has s key H. exists x. unfold port_setattr. rewrite H. auto. Qed.
Print Assumptions C77_own.
(** The accessors are made from the number of columns: if there are fewer rows
    the elements beyond them are refused with another exception. *)
Theorem C77_rows : forall {A} (x : nd A) s lead r c key ij, nd_shape x = lead ++ [r; c] -> c <= 10 ->
  names_element s c key ij -> r <= fst ij -> port_getattr (Some s) x key = Err IndexError.
Proof.
  intros A x s lead r c key [i j] X T N L. unfold port_getattr.
  rewrite X, (found s lead r c key (i, j) N).
  - now apply (pick_out x lead r c X).
  - intros [i' j'] N'. pose proof (same_numbers _ _ _ _ _ N N') as E. destruct N as (N1 & N2 & _), N' as (N3 & N4 & _). cbn [fst snd] in *.
    apply ten in E; try lia. injection E as -> ->. right. split; auto.
Qed.

(** Assigning to an element attribute replaces this element, at every point of
    the leading axes, and no other; a value of another shape is broadcast, and a
    value that does not fit is refused. *)
Theorem C77_set : forall {A} (x v : nd A) has s lead r c key ij, nd_wf x -> nd_wf v -> nd_shape x = lead ++ [r; c] -> c <= 10 -> has key = false ->
  names_element s c key ij -> fst ij < r ->
  match fit lead (nd_shape v) with
  | Some sh => exists y, port_setattr has (Some s) x key v = Ok y /\ nd_wf y /\
      replaced x lead ij (fun ix => nd_get (mkNd sh (nd_elems v)) (bindex sh ix)) y
  | None => port_setattr has (Some s) x key v = Err ValueError
  end.
Proof.
  intros A x v has s lead r c key [i j] W Wv X T H N L. unfold port_setattr. rewrite H, X, (found s lead r c key (i, j) N).
  2:{ intros [i' j'] N'. pose proof (same_numbers _ _ _ _ _ N N') as E. destruct N as (N1 & N2 & _), N' as (N3 & N4 & _). cbn [fst snd] in *.
      apply ten in E; try lia. injection E as -> ->. right. split; auto. }
  destruct N as (_ & N & _). cbn [fst snd] in *. destruct (pick_ok x lead r c X W i j L N) as (y & P & _). rewrite P. cbn [bind].
  destruct (fit lead (nd_shape v)) as [sh|] eqn:F; [now apply (store_ok x lead r c X W)|].
  unfold store. rewrite X. destruct (lead_of lead r c) as [-> _]. now rewrite F.
Qed.
(** What was assigned is read back, and the attributes of the other elements are
    what they were. *)
Theorem C77_set_get : forall {A} (x v y : nd A) has s lead r c key ij, nd_wf x -> nd_wf v -> nd_shape x = lead ++ [r; c] -> c <= 10 -> has key = false ->
  names_element s c key ij -> fst ij < r -> nd_shape v = lead -> port_setattr has (Some s) x key v = Ok y ->
  forall key' ij', names_element s c key' ij' -> fst ij' < r ->
  exists z, port_getattr (Some s) y key' = Ok z /\ nd_shape z = lead /\
    forall ix, inb lead ix = true -> nd_get z ix = if (fst ij' =? fst ij) && (snd ij' =? snd ij) then nd_get v ix else nd_get x (ix ++ [fst ij'; snd ij']).
Proof.
  intros A x v y has s lead r c key ij W Wv X T H N L V P key' ij' N' L'.
  pose proof (C77_set x v has s lead r c key ij W Wv X T H N L) as C. rewrite V, fit_self in C. destruct C as (y' & P' & Wy & R).
  rewrite P in P'. injection P' as <-. destruct R as [Sy Gy].
  destruct (C77_ten y s lead r c key' ij' Wy (eq_trans Sy X) T N' L') as (z & Z1 & Z2 & Z3). exists z. split; [exact Z1|]. split; [exact Z2|].
  intros ix I. rewrite Z3, Gy by exact I. destruct ((fst ij' =? fst ij) && (snd ij' =? snd ij)); auto.
  assert (B : bindex lead ix = ix).
  { clear - I. revert ix I. induction lead as [|n l IH]; intros [|i ix] I; try discriminate I; auto. cbn [inb] in I. apply andb_true_iff in I as [I1 I2].
    cbn [bindex]. rewrite IH by exact I2. destruct (Nat.eqb_spec n 1); auto. apply Nat.ltb_lt in I1. f_equal. lia. }
  rewrite B. f_equal. rewrite <- V. now destruct v.
Qed.

(** Two points of a 2x2 matrix, a 11x11 matrix and a 2x3 matrix. *)
Definition s77 : nd nat := mkNd [2; 2; 2] [11; 12; 21; 22; 31; 32; 41; 42].
Definition m77 : nd nat := mkNd [11; 11] (seq 0 121).
Definition r77 : nd nat := mkNd [2; 3] [1; 2; 3; 4; 5; 6].
Local Open Scope string_scope.
Definition c77 (s : string) : list ascii := list_ascii_of_string s.
Example C77_ex_get :
  names_element (c77 "S") 2 (c77 "s21") (1, 0) /\
  port_getattr (Some (c77 "S")) s77 (c77 "s21") = Ok (mkNd [2] [21; 41]) /\
  port_getattr (Some (c77 "Tp")) s77 (c77 "TP12") = Ok (mkNd [2] [12; 32]) /\
  port_getattr (Some (c77 "Tp")) s77 (c77 "tP12") = Err AttributeError /\
  port_getattr (Some (c77 "S")) s77 (c77 "S31") = Err AttributeError.
Proof.
  split; [|repeat split; vm_compute; reflexivity]. split; [cbn; lia|]. split; [cbn; lia|]. exists (c77 "s").
  split; [|vm_compute; reflexivity]. left. constructor; [vm_compute; reflexivity|constructor].
Qed.
Example C77_ex_eleven :
  port_getattr (Some (c77 "S")) m77 (c77 "S111") = Ok (mkNd [] [110]) /\ nd_get m77 [0; 10] = Some 10 /\
  port_getattr (Some (c77 "S")) m77 (c77 "S110") = Ok (mkNd [] [9]).
Proof. vm_compute. repeat split. Qed.
Example C77_ex_set :
  port_setattr (fun _ => false) (Some (c77 "S")) s77 (c77 "S12") (mkNd [2] [7; 8]) = Ok (mkNd [2; 2; 2] [11; 7; 21; 22; 31; 8; 41; 42]) /\
  port_setattr (fun _ => false) (Some (c77 "S")) s77 (c77 "S12") (mkNd [] [7]) = Ok (mkNd [2; 2; 2] [11; 7; 21; 22; 31; 7; 41; 42]) /\
  port_setattr (fun _ => false) (Some (c77 "S")) s77 (c77 "S12") (mkNd [3] [7; 8; 9]) = Err ValueError.
Proof. vm_compute. repeat split. Qed.
(** S12 as an attribute of the object itself: the element stays. *)
Example C77_ex_own : port_setattr (fun _ => true) (Some (c77 "S")) s77 (c77 "S12") (mkNd [2] [7; 8]) = Ok s77.
Proof. vm_compute. reflexivity. Qed.
Example C77_ex_rows :
  port_getattr (Some (c77 "Z")) r77 (c77 "z23") = Ok (mkNd [] [6]) /\ port_getattr (Some (c77 "Z")) r77 (c77 "z31") = Err IndexError.
Proof. vm_compute. repeat split. Qed.
Print Assumptions C77_get.
Print Assumptions C77_ten.
Print Assumptions C77_eleven.
Print Assumptions C77_refused.
Print Assumptions C77_none.
Print Assumptions C77_rows.
Print Assumptions C77_set.
Print Assumptions C77_set_get.
