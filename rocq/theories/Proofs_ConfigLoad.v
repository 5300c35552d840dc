(** Lemmas on the objects made from a configuration. *)
From Coq Require Import String List Arith Bool Lia.
From Verif Require Import Model_NdArray Model_DataDict Proofs_DataDict Model_Config Model_ConfigLoad Spec_ConfigLoad Prop_Config.
Import ListNotations.
Local Open Scope nat_scope.
Local Open Scope list_scope.

Section Load.
Context {T : Type}.
Notation node := (node T).
Notation value := (value T).
Notation lheap := (lheap T).
Section Ind.
  Variable P : node -> Prop.
  Hypothesis HS : forall s, P (NScalar s).
  Hypothesis HM : forall l, Forall P (map snd l) -> P (NMap l).
  Hypothesis HL : forall l, Forall P l -> P (NSeq l).
  Fixpoint node_induct (n : node) : P n :=
    match n with
    | NScalar s => HS s
    | NMap l => HM l ((fix go l : Forall P (map snd l) :=
        match l return Forall P (map snd l) with
        | [] => Forall_nil _
        | e :: l' => Forall_cons _ (node_induct (snd e)) (go l')
        end) l)
    | NSeq l => HL l ((fix go l : Forall P l :=
        match l return Forall P l with
        | [] => Forall_nil _
        | c :: l' => Forall_cons _ (node_induct c) (go l')
        end) l)
    end.
End Ind.

Definition assign {V} (l : list (string * V)) : list (string * V) := fold_left (fun d e => pd_set (fst e) (snd e) d) l [].
Lemma assign_snoc : forall {V} (l : list (string * V)) k v, assign (l ++ [(k, v)]) = pd_set k v (assign l).
Proof. intros V l k v. unfold assign. now rewrite fold_left_app. Qed.

(** The object of a node: at or above [lo], with the parent [par]. *)
Inductive rep (h : lheap) : nat -> option nat -> value -> node -> Prop :=
| rep_scalar : forall lo par s, rep h lo par (VScalar s) (NScalar s)
| rep_map : forall lo par a l vs, lo <= a -> nth_error h a = Some (mkL (LDict (assign (combine (map fst l) vs))) par) ->
    Forall2 (rep h (S a) (Some a)) vs (map snd l) -> rep h lo par (VObj a) (NMap l)
| rep_seq : forall lo par a l vs, lo <= a -> nth_error h a = Some (mkL (LList vs) par) ->
    Forall2 (rep h (S a) (Some a)) vs l -> rep h lo par (VObj a) (NSeq l).
Lemma Forall2_weaken : forall {A B} (P Q : A -> B -> Prop) (l : list A) (m : list B), Forall (fun b => forall a, P a b -> Q a b) m -> Forall2 P l m -> Forall2 Q l m.
Proof. intros A B P Q l m F H. induction H as [|a b l m H H2 IH]; constructor; inversion F; subst; auto. Qed.
Lemma rep_ext : forall n h h2 lo par v, (forall b o, lo <= b -> nth_error h b = Some o -> nth_error h2 b = Some o) -> rep h lo par v n -> rep h2 lo par v n.
Proof.
  induction n as [s|l F|l F] using node_induct; intros h h2 lo par v E R; inversion R; subst.
  - constructor.
  - econstructor; [eassumption|eapply E; eauto|]. eapply Forall2_weaken; [|eassumption]. eapply Forall_impl; [|exact F].
    intros c IH w Rc. eapply IH; [|exact Rc]. intros b o L. apply E. lia.
  - econstructor; [eassumption|eapply E; eauto|]. eapply Forall2_weaken; [|eassumption]. eapply Forall_impl; [|exact F].
    intros c IH w Rc. eapply IH; [|exact Rc]. intros b o L. apply E. lia.
Qed.

(** Replacing an object *)
Lemma put_same : forall a o (h : lheap), a < length h -> nth_error (put a o h) a = Some o.
Proof.
  intros a o h L. unfold put. rewrite nth_error_app2; rewrite firstn_length, Nat.min_l by lia; [|lia]. now rewrite Nat.sub_diag.
Qed.
Lemma nth_skip : forall {A} (l : list A) a b, nth_error (skipn a l) b = nth_error l (a + b).
Proof. intros A. induction l as [|x l IH]; intros [|a] b; auto. - now destruct b. - cbn [skipn plus nth_error]. apply IH. Qed.
Lemma nth_first : forall {A} (l : list A) a b, b < a -> nth_error (firstn a l) b = nth_error l b.
Proof. intros A. induction l as [|x l IH]; intros [|a] [|b] L; auto; try lia. cbn [firstn nth_error]. apply IH. lia. Qed.
Lemma put_other : forall a b o (h : lheap), a < length h -> b <> a -> nth_error (put a o h) b = nth_error h b.
Proof.
  intros a b o h L N. unfold put. destruct (Nat.lt_ge_cases b a) as [G|G].
  - rewrite nth_error_app1 by (rewrite firstn_length; lia). now apply nth_first.
  - rewrite nth_error_app2; rewrite firstn_length, Nat.min_l by lia; [|lia]. destruct (b - a) as [|d] eqn:D; [lia|]. cbn [nth_error].
    rewrite nth_skip. f_equal. lia.
Qed.
Lemma put_length : forall a o (h : lheap), a < length h -> length (put a o h) = length h.
Proof. intros a o h L. unfold put. rewrite app_length, firstn_length. cbn [length]. rewrite skipn_length. lia. Qed.
Lemma nth_some : forall {A} (l : list A) a x, nth_error l a = Some x -> a < length l.
Proof. intros A l a x H. apply nth_error_Some. congruence. Qed.

(** Heaps as Prop_Config.v wants them. *)
Definition ok_obj (a : nat) (o : lobj T) : Prop :=
  (forall p, l_parent o = Some p -> p < a) /\ match l_content o with LDict m => NoDup (map fst m) | LList _ => True end.
Definition lwf (h : lheap) : Prop := forall a o, nth_error h a = Some o -> ok_obj a o.
Lemma lwf_put : forall h a o, lwf h -> a < length h -> ok_obj a o -> lwf (put a o h).
Proof.
  intros h a o W L K b o' E. destruct (Nat.eq_dec b a) as [->|N].
  - rewrite put_same in E by exact L. injection E as <-. exact K.
  - rewrite put_other in E by auto. now apply W.
Qed.
Lemma lwf_new : forall h c, lwf h -> match c with LDict m => NoDup (map fst m) | LList _ => True end -> lwf (h ++ [mkL c None]).
Proof.
  intros h c W K b o E. destruct (Nat.lt_ge_cases b (length h)) as [G|G].
  - rewrite nth_error_app1 in E by exact G. now apply W.
  - rewrite nth_error_app2 in E by exact G. destruct (b - length h) as [|d] eqn:D; cbn [nth_error] in E; [|now destruct d]. injection E as <-.
    split; [intros p; discriminate|exact K].
Qed.
Lemma pd_set_nodup : forall {V} k v (m : list (string * V)), NoDup (map fst m) -> NoDup (map fst (pd_set k v m)).
Proof.
  intros V k v. induction m as [|[k' v'] m IH]; intros N; cbn [pd_set].
  - cbn. constructor; [auto|constructor].
  - inversion N as [|? ? NI N']; subst. destruct (String.eqb k k') eqn:E; cbn [map fst]; constructor; auto.
    intros I. apply NI. clear - I E. induction m as [|[k1 v1] m IH]; cbn [pd_set] in I.
    + destruct I as [I|[]]. cbn in I. subst. now rewrite String.eqb_refl in E.
    + destruct (String.eqb k k1) eqn:E1; cbn [map fst In] in *; auto. destruct I as [I|I]; auto.
Qed.

(** The loops *)
Definition map_loop (a : nat) := fix loop (l : list (string * node)) (h : lheap) : lheap :=
  match l with
  | [] => h
  | (k, c) :: l' => let r := construct c h in loop l' (dict_set a k (fst r) (set_parent (fst r) a (snd r)))
  end.
Definition seq_loop (a : nat) := fix loop (l : list node) (h : lheap) : lheap :=
  match l with
  | [] => h
  | c :: l' => let r := construct c h in loop l' (list_append a (fst r) (set_parent (fst r) a (snd r)))
  end.
Lemma construct_map : forall l h, construct (NMap l) h = (VObj (length h), map_loop (length h) l (h ++ [mkL (LDict []) None])).
Proof. reflexivity. Qed.
Lemma construct_seq : forall l h, construct (NSeq l) h = (VObj (length h), seq_loop (length h) l (h ++ [mkL (LList []) None])).
Proof. reflexivity. Qed.

Definition grown (a : nat) (h h2 : lheap) : Prop := length h <= length h2 /\ forall b, b < a -> nth_error h2 b = nth_error h b.
Definition made (c : node) : Prop := forall h, lwf h ->
  grown (length h) h (snd (construct c h)) /\ lwf (snd (construct c h)) /\ rep (snd (construct c h)) (length h) None (fst (construct c h)) c.

(** One child *)
Lemma child_made : forall c h a, made c -> lwf h -> a < length h ->
  let r := construct c h in let h2 := set_parent (fst r) a (snd r) in
  grown (length h) h h2 /\ lwf h2 /\ rep h2 (S a) (Some a) (fst r) c.
Proof.
  intros c h a M W L r h2. destruct (M h W) as (G & W2 & R). subst h2. fold r in G, W2, R. destruct G as [G1 G2].
  destruct (fst r) as [s|b] eqn:E; cbn [set_parent].
  - split; [split; auto|]. split; auto. inversion R; subst. constructor.
  - assert (B : length h <= b /\ exists o, nth_error (snd r) b = Some o) by (inversion R; subst; eauto). destruct B as [B [o O]]. rewrite O.
    pose proof (nth_some _ _ _ O) as LB. split; [split|split].
    + now rewrite put_length.
    + intros d D. rewrite put_other by lia. now apply G2.
    + apply lwf_put; auto. destruct (W2 _ _ O) as [_ K]. split; [cbn [l_parent]; intros p [= <-]; lia|exact K].
    + assert (X : forall d o', S b <= d -> nth_error (snd r) d = Some o' -> nth_error (put b (mkL (l_content o) (Some a)) (snd r)) d = Some o') by (intros d o' D Q; rewrite put_other by lia; exact Q).
      inversion R as [|? ? ? l vs La N F|? ? ? l vs La N F]; subst; rewrite O in N; injection N as ->; cbn [l_content]; cbn [l_content] in X.
      * eapply rep_map; [lia|rewrite put_same by exact LB; reflexivity|]. eapply Forall2_weaken; [|exact F]. apply Forall_forall. intros n _ w. apply rep_ext. exact X.
      * eapply rep_seq; [lia|rewrite put_same by exact LB; reflexivity|]. eapply Forall2_weaken; [|exact F]. apply Forall_forall. intros n _ w. apply rep_ext. exact X.
Qed.

Lemma Forall2_rep_ext : forall h h2 lo par vs (cs : list node), (forall b o, lo <= b -> nth_error h b = Some o -> nth_error h2 b = Some o) ->
  Forall2 (rep h lo par) vs cs -> Forall2 (rep h2 lo par) vs cs.
Proof. intros h h2 lo par vs cs E. apply Forall2_weaken. apply Forall_forall. intros n _ w. now apply rep_ext. Qed.
Lemma Forall2_len : forall {A B} (P : A -> B -> Prop) l m, Forall2 P l m -> length l = length m.
Proof. intros A B P l m H. induction H; cbn; auto. Qed.
Lemma combine_snoc : forall {A B} (l : list A) (m : list B) a b, length l = length m -> combine (l ++ [a]) (m ++ [b]) = combine l m ++ [(a, b)].
Proof. intros A B. induction l as [|x l IH]; intros [|y m] a b L; try discriminate L; auto. cbn. f_equal. apply IH. now injection L. Qed.

Lemma map_loop_made : forall a l h l0 vs, Forall made (map snd l) -> lwf h ->
  nth_error h a = Some (mkL (LDict (assign (combine (map fst l0) vs))) None) -> Forall2 (rep h (S a) (Some a)) vs (map snd l0) ->
  grown a h (map_loop a l h) /\ lwf (map_loop a l h) /\
  exists vs2, nth_error (map_loop a l h) a = Some (mkL (LDict (assign (combine (map fst (l0 ++ l)) vs2))) None) /\
    Forall2 (rep (map_loop a l h) (S a) (Some a)) vs2 (map snd (l0 ++ l)).
Proof.
  intros a. induction l as [|[k c] l IH]; intros h l0 vs F W N R; cbn [map_loop].
  - split; [split; auto|]. split; auto. exists vs. rewrite app_nil_r. auto.
  - inversion F as [|? ? Mc F']; subst. cbn [snd] in Mc. pose proof (nth_some _ _ _ N) as La.
    destruct (child_made c h a Mc W La) as (G & W2 & Rc). cbv zeta in *. set (r := construct c h) in *. set (h2 := set_parent (fst r) a (snd r)) in *. destruct G as [G1 G2].
    assert (N2 : nth_error h2 a = Some (mkL (LDict (assign (combine (map fst l0) vs))) None)) by (rewrite G2 by exact La; exact N).
    assert (L2 : a < length h2) by lia. unfold dict_set. rewrite N2. rewrite <- assign_snoc.
    set (o := mkL (LDict (assign (combine (map fst l0) vs ++ [(k, fst r)]))) None).
    assert (Len : length (map fst l0) = length vs) by (rewrite (Forall2_len _ _ _ R), !map_length; auto).
    assert (EC : combine (map fst l0) vs ++ [(k, fst r)] = combine (map fst (l0 ++ [(k, c)])) (vs ++ [fst r])) by (rewrite map_app; cbn [map fst]; now rewrite combine_snoc).
    destruct (IH (put a o h2) (l0 ++ [(k, c)]) (vs ++ [fst r]) F') as (H1 & H2 & vs2 & H3 & H4).
    + apply lwf_put; auto. split; [intros p; discriminate|]. cbn [l_content o]. rewrite assign_snoc. apply pd_set_nodup. destruct (W2 _ _ N2) as [_ K]. exact K.
    + rewrite put_same by exact L2. unfold o. now rewrite EC.
    + rewrite map_app. cbn [map snd]. apply Forall2_app; [|constructor; [|constructor]].
      * eapply Forall2_rep_ext; [|exact R]. intros b o' B Q. rewrite put_other by lia. rewrite G2 by (eapply nth_some; eauto). exact Q.
      * eapply rep_ext; [|exact Rc]. intros b o' B Q. rewrite put_other by lia. exact Q.
    + split; [|split; [exact H2|]].
      * destruct H1 as [X1 X2]. rewrite put_length in X1 by exact L2. split; [lia|]. intros b B. rewrite X2, put_other, G2 by lia. reflexivity.
      * exists vs2. rewrite <- app_assoc in H3, H4. cbn [app] in H3, H4. auto.
Qed.
Lemma seq_loop_made : forall a l h l0 vs, Forall made l -> lwf h ->
  nth_error h a = Some (mkL (LList vs) None) -> Forall2 (rep h (S a) (Some a)) vs l0 ->
  grown a h (seq_loop a l h) /\ lwf (seq_loop a l h) /\
  exists vs2, nth_error (seq_loop a l h) a = Some (mkL (LList vs2) None) /\ Forall2 (rep (seq_loop a l h) (S a) (Some a)) vs2 (l0 ++ l).
Proof.
  intros a. induction l as [|c l IH]; intros h l0 vs F W N R; cbn [seq_loop].
  - split; [split; auto|]. split; auto. exists vs. rewrite app_nil_r. auto.
  - inversion F as [|? ? Mc F']; subst. pose proof (nth_some _ _ _ N) as La.
    destruct (child_made c h a Mc W La) as (G & W2 & Rc). cbv zeta in *. set (r := construct c h) in *. set (h2 := set_parent (fst r) a (snd r)) in *. destruct G as [G1 G2].
    assert (N2 : nth_error h2 a = Some (mkL (LList vs) None)) by (rewrite G2 by exact La; exact N).
    assert (L2 : a < length h2) by lia. unfold list_append. rewrite N2. set (o := mkL (LList (vs ++ [fst r])) None).
    destruct (IH (put a o h2) (l0 ++ [c]) (vs ++ [fst r]) F') as (H1 & H2 & vs2 & H3 & H4).
    + apply lwf_put; auto. split; [intros p; discriminate|exact I].
    + now rewrite put_same by exact L2.
    + apply Forall2_app; [|constructor; [|constructor]].
      * eapply Forall2_rep_ext; [|exact R]. intros b o' B Q. rewrite put_other by lia. rewrite G2 by (eapply nth_some; eauto). exact Q.
      * eapply rep_ext; [|exact Rc]. intros b o' B Q. rewrite put_other by lia. exact Q.
    + split; [|split; [exact H2|]].
      * destruct H1 as [X1 X2]. rewrite put_length in X1 by exact L2. split; [lia|]. intros b B. rewrite X2, put_other, G2 by lia. reflexivity.
      * exists vs2. rewrite <- app_assoc in H4. cbn [app] in H4. auto.
Qed.
Lemma nth_new : forall (h : lheap) o, nth_error (h ++ [o]) (length h) = Some o.
Proof. intros h o. rewrite nth_error_app2 by auto. now rewrite Nat.sub_diag. Qed.
Lemma grown_new : forall (h : lheap) o h2, grown (length h) (h ++ [o]) h2 -> grown (length h) h h2.
Proof.
  intros h o h2 [G1 G2]. rewrite app_length in G1. split; [lia|]. intros b B. rewrite G2 by exact B. now apply nth_error_app1.
Qed.
Lemma construct_made : forall n, made n.
Proof.
  induction n as [s|l F|l F] using node_induct; intros h W.
  - cbn [construct fst snd]. split; [split; auto|]. split; auto. constructor.
  - rewrite construct_map. cbn [fst snd].
    destruct (map_loop_made (length h) l (h ++ [mkL (LDict []) None]) [] [] F) as (G & W2 & vs & N & R).
    + apply lwf_new; auto. constructor.
    + apply nth_new.
    + constructor.
    + split; [eapply grown_new; exact G|]. split; auto. eapply rep_map; [auto|exact N|exact R].
  - rewrite construct_seq. cbn [fst snd].
    destruct (seq_loop_made (length h) l (h ++ [mkL (LList []) None]) [] [] F) as (G & W2 & vs & N & R).
    + apply lwf_new; auto.
    + apply nth_new.
    + constructor.
    + split; [eapply grown_new; exact G|]. split; auto. eapply rep_seq; [auto|exact N|exact R].
Qed.

(** ** Places *)
Lemma assign_get : forall {V} k (l : list (string * V)), pd_get k (assign l) = option_map snd (find (fun e => String.eqb k (fst e)) (rev l)).
Proof.
  intros V k l. induction l as [|[k' v] l IH] using rev_ind; auto. rewrite assign_snoc, rev_app_distr. cbn [rev app find fst].
  destruct (String.eqb k k') eqn:E.
  - apply String.eqb_eq in E. subst. now rewrite pd_get_set_same.
  - apply String.eqb_neq in E. rewrite pd_get_set_other by exact E. exact IH.
Qed.
Lemma find_app : forall {A} (f : A -> bool) l m, find f (l ++ m) = match find f l with Some x => Some x | None => find f m end.
Proof. intros A f. induction l as [|x l IH]; intros m; cbn; auto. destruct (f x); auto. Qed.
Lemma under_rep : forall k l vs (P : value -> node -> Prop), Forall2 P vs (map snd l) ->
  match under k l with
  | Some c => exists w, pd_get k (assign (combine (map fst l) vs)) = Some w /\ P w c
  | None => pd_get k (assign (combine (map fst l) vs)) = None
  end.
Proof.
  intros k l vs P F. unfold under. rewrite assign_get. revert vs F. induction l as [|[k' c] l IH]; intros vs F; inversion F as [|v ? vs' ? Pv F' E1 E2]; subst; [reflexivity|].
  cbn [map fst snd combine rev]. rewrite !find_app. specialize (IH _ F'). destruct (find (fun e => String.eqb k (fst e)) (rev l)) as [e|]; cbn [option_map] in IH.
  - destruct IH as (w & G & Pw). destruct (find (fun e0 => String.eqb k (fst e0)) (rev (combine (map fst l) vs'))) as [e'|]; [|discriminate G]. cbn [option_map] in *. eauto.
  - destruct (find (fun e0 => String.eqb k (fst e0)) (rev (combine (map fst l) vs'))) as [e'|]; [discriminate IH|]. cbn [find fst]. destruct (String.eqb k k'); cbn [option_map snd]; eauto.
Qed.
Lemma item_rep : forall i l vs (P : value -> node -> Prop), Forall2 P vs l ->
  match nth_error l i with Some c => exists w, nth_error vs i = Some w /\ P w c | None => nth_error vs i = None end.
Proof.
  intros i l vs P F. revert i. induction F as [|v c vs l Pv F IH]; intros [|i]; cbn [nth_error]; eauto. apply IH.
Qed.
Lemma child_rep : forall h lo par v n s, rep h lo par v n ->
  match child s n with
  | Some c => exists a w, v = VObj a /\ member h s v = Some w /\ rep h (S a) (Some a) w c
  | None => member h s v = None
  end.
Proof.
  intros h lo par v n s R. inversion R as [|? ? a l vs La N F|? ? a l vs La N F]; subst; cbn [child member]; auto.
  - rewrite N. destruct s as [k|i]; auto. pose proof (under_rep k l vs _ F) as U. destruct (under k l) as [c|]; [destruct U as (w & U1 & U2); eauto|exact U].
  - rewrite N. destruct s as [k|i]; auto. pose proof (item_rep i l vs _ F) as U. destruct (nth_error l i) as [c|]; [destruct U as (w & U1 & U2); eauto|exact U].
Qed.
Lemma at_rep : forall p h lo par v n, rep h lo par v n ->
  match at_node p n with
  | Some c => exists w lo' par', at_value h p v = Some w /\ rep h lo' par' w c
  | None => at_value h p v = None
  end.
Proof.
  induction p as [|s p IH]; intros h lo par v n R; cbn [at_node at_value]; [eauto 6|].
  pose proof (child_rep h lo par v n s R) as C. destruct (child s n) as [c|].
  - destruct C as (a & w & _ & -> & Rw). exact (IH _ _ _ _ _ Rw).
  - now rewrite C.
Qed.
Lemma at_app : forall p q (n : node), at_node (p ++ q) n = match at_node p n with Some c => at_node q c | None => None end.
Proof. induction p as [|s p IH]; intros q n; cbn [app at_node]; auto. destruct (child s n); auto. Qed.
Lemma at_value_app : forall p q (h : lheap) v, at_value h (p ++ q) v = match at_value h p v with Some c => at_value h q c | None => None end.
Proof. induction p as [|s p IH]; intros q h v; cbn [app at_value]; auto. destruct (member h s v); auto. Qed.
(** The parent is the object one step up. *)
Lemma at_parent : forall p s h lo par v n c, rep h lo par v n -> at_node (p ++ [s]) n = Some c ->
  exists a w m, at_value h p v = Some (VObj a) /\ at_value h (p ++ [s]) v = Some w /\ at_node p n = Some m /\ rep h (S a) (Some a) w c.
Proof.
  intros p s h lo par v n c R E. rewrite at_app in E. rewrite at_value_app. pose proof (at_rep p h lo par v n R) as A. destruct (at_node p n) as [m|]; [|discriminate E].
  destruct A as (u & lo' & par' & A1 & A2). rewrite A1. cbn [at_node at_value] in *. pose proof (child_rep _ _ _ _ _ s A2) as C. destruct (child s m) as [c'|]; [|discriminate E].
  injection E as ->. destruct C as (a & w & -> & C1 & C2). exists a, w, m. rewrite C1. auto.
Qed.
Lemma pd_set_keys : forall {V} k v (m : list (string * V)) x, In x (map fst (pd_set k v m)) <-> x = k \/ In x (map fst m).
Proof.
  intros V k v m x. induction m as [|[k' v'] m IH]; cbn [pd_set map fst In].
  - cbn. intuition.
  - destruct (String.eqb k k') eqn:E; cbn [map fst In]; [apply String.eqb_eq in E; subst; intuition congruence|rewrite IH; intuition].
Qed.
Lemma assign_keys : forall {V} (l : list (string * V)) x, In x (map fst (assign l)) <-> In x (map fst l).
Proof.
  intros V l x. induction l as [|[k v] l IH] using rev_ind; [reflexivity|]. rewrite assign_snoc, pd_set_keys, IH, map_app, in_app_iff. cbn [map fst In]. intuition.
Qed.
Lemma pd_set_fresh : forall {V} k v (m : list (string * V)), ~ In k (map fst m) -> pd_set k v m = m ++ [(k, v)].
Proof.
  intros V k v. induction m as [|[k' v'] m IH]; intros N; cbn [pd_set]; auto. cbn [map fst In] in N.
  destruct (String.eqb k k') eqn:E; [apply String.eqb_eq in E; subst; tauto|]. rewrite IH by tauto. reflexivity.
Qed.
Lemma assign_nodup : forall {V} (l : list (string * V)), NoDup (map fst l) -> assign l = l.
Proof.
  intros V l. induction l as [|[k v] l IH] using rev_ind; intros N; auto. rewrite map_app in N. cbn [map fst] in N. rewrite assign_snoc.
  apply NoDup_remove in N as [N1 N2]. rewrite app_nil_r in N1, N2. rewrite IH by exact N1. now apply pd_set_fresh.
Qed.
Lemma combine_fst : forall {A B} (l : list A) (m : list B), length l = length m -> map fst (combine l m) = l.
Proof. intros A B. induction l as [|x l IH]; intros [|y m] L; try discriminate L; auto. cbn. f_equal. apply IH. now injection L. Qed.
Lemma rep_read : forall h lo par v n, lwf h -> rep h lo par v n -> read_as h n v.
Proof.
  intros h lo par v n W R. inversion R as [|? ? a l vs La N F|? ? a l vs La N F]; subst; cbn [read_as]; auto.
  - pose proof (Forall2_len _ _ _ F) as L. rewrite map_length in L. assert (L' : length (map fst l) = length vs) by (rewrite map_length; lia).
    exists (assign (combine (map fst l) vs)), par. split; [exact N|]. destruct (W _ _ N) as [_ K]. cbn in K. split; [exact K|]. split.
    + intros k. rewrite assign_keys, combine_fst by exact L'. reflexivity.
    + intros ND. rewrite assign_nodup by (rewrite combine_fst by exact L'; exact ND). now apply combine_fst.
  - exists vs, par. split; [exact N|]. eapply Forall2_len; eauto.
Qed.
End Load.
