(** Lemmas about units in names. *)
From Coq Require Import Ascii String List Arith ZArith Bool Lia.
From Verif Require Import Model_NdArray Model_Dim Model_Array Model_DataDict Model_Block Model_Text Model_Comments Model_Si Model_Cplx Model_Units Spec_DataDict Spec_H5File Spec_Units Proofs_DataDict Proofs_Block Proofs_Block3 Proofs_Comments Proofs_H5File Prop_DataDict Prop_Si Prop_H5Old.
Import ListNotations.
Local Open Scope string_scope.
Local Open Scope nat_scope.
Local Open Scope list_scope.

(** ** The regular expression *)
Lemma letter_iff : forall c, is_letter c = true <-> letter c.
Proof. intros c. unfold is_letter, letter. rewrite orb_true_iff, !andb_true_iff, !Nat.leb_le. tauto. Qed.
Lemma tab_iff : forall c, is_tab c = true <-> c = " "%char \/ c = tab.
Proof. intros c. unfold is_tab. rewrite orb_true_iff, !Ascii.eqb_eq. tauto. Qed.
Lemma end_iff : forall l, at_end l = true <-> l = [] \/ l = [newline].
Proof.
  intros [|c [|d l]]; cbn [at_end]; split; intros H; auto; try discriminate H; try (destruct H; discriminate).
  - apply Ascii.eqb_eq in H. subst. auto.
  - destruct H as [H|H]; [discriminate H|]. injection H as ->. apply Ascii.eqb_refl.
Qed.
Lemma Forall_iff : forall {X} (P Q : X -> Prop) l, (forall x, P x <-> Q x) -> (Forall P l <-> Forall Q l).
Proof. intros X P Q l H. rewrite !Forall_forall. split; intros F x I; apply H; auto. Qed.
Lemma one_place : forall {X} (x : X) c a b d, ~ In x c -> ~ In x d -> a ++ x :: b = c ++ x :: d -> a = c.
Proof.
  intros X x. induction c as [|y c IH]; intros [|z a] b d Nc Nd E; auto.
  - exfalso. cbn [app] in E. injection E as -> E. apply Nd. rewrite <- E. apply in_or_app. right. now left.
  - exfalso. cbn [app] in E. injection E as -> E. apply Nc. now left.
  - cbn [app] in E. injection E as -> E. f_equal. apply (IH a b d); auto. intros I. apply Nc. now right.
Qed.

(** What follows the name. *)
Definition brackets (l sp u cl nl : list ascii) : Prop :=
  l = sp ++ "["%char :: u ++ cl ++ nl /\ Forall (fun c => is_tab c = true) sp /\ u <> [] /\ Forall (fun c => is_letter c = true) u /\
  Forall (fun c => Ascii.eqb "]" c = true) cl /\ at_end nl = true.
Lemma re_unit_some : forall v l x, re_unit v l = Some x -> exists sp u cl nl, brackets l sp u cl nl /\ x = (v, u).
Proof.
  intros v l x H. unfold re_unit in H. apply star_some in H as (sp & r & -> & F & H). apply one_some in H as (c & r1 & -> & E & H). apply Ascii.eqb_eq in E. subst c.
  apply plus_some in H as (u & r2 & -> & N & L & H). apply star_some in H as (cl & nl & -> & C & H). destruct (at_end nl) eqn:Q; [|discriminate H]. injection H as <-. exists sp, u, cl, nl. repeat split; auto.
Qed.
Lemma tail_none : forall u cl nl, Forall (fun c => is_letter c = true) u -> Forall (fun c => Ascii.eqb "]" c = true) cl -> at_end nl = true -> ~ In "["%char (u ++ cl ++ nl).
Proof.
  intros u cl nl U C E I. apply in_app_or in I as [I|I]; [rewrite Forall_forall in U; specialize (U _ I); discriminate U|]. apply in_app_or in I as [I|I]; [rewrite Forall_forall in C; specialize (C _ I); discriminate C|].
  apply end_iff in E as [->| ->]; [destruct I|]. destruct I as [I|[]]. discriminate I.
Qed.
Lemma re_unit_ok : forall v l sp u cl nl, brackets l sp u cl nl -> re_unit v l = Some (v, u).
Proof.
  intros v l sp u cl nl (-> & S & N & U & C & E). unfold re_unit. apply star_max; [exact S|intros c r' [= <- _]; reflexivity|]. cbn [one]. change (Ascii.eqb "[" "[") with true. cbv iota.
  apply plus_max; [exact N|exact U| |].
  - intros c r' Q. destruct cl as [|y cl]; [|apply Forall_cons_iff in C as [C _]; cbn [app] in Q; injection Q as -> _; apply Ascii.eqb_eq in C; subst c; reflexivity].
    cbn [app] in Q. apply end_iff in E as [->| ->]; [discriminate Q|]. injection Q as <- _. reflexivity.
  - apply star_max; [exact C| |now rewrite E]. intros c r' ->. apply end_iff in E as [E|E]; [discriminate E|]. injection E as -> _. reflexivity.
Qed.
Lemma varunit_iff : forall l v u, reg_varunit l = Some (v, u) <-> named_unit l v u.
Proof.
  intros l v u. unfold reg_varunit. split.
  - intros H. apply lazy_some in H as (a & r & -> & F & H & M). cbn [app] in *. destruct (re_unit_some _ _ _ H) as (sp & u' & cl & nl & B & [= -> <-]). pose proof B as (-> & S & N & U & C & E).
    exists sp, cl, nl. split; [reflexivity|]. split; [exact (proj1 (Forall_iff _ _ sp tab_iff) S)|]. split; [exact N|]. split; [exact (proj1 (Forall_iff _ _ u letter_iff) U)|]. split; [refine (Forall_impl _ _ C); intros c Q; apply Ascii.eqb_eq in Q; auto|]. split; [now apply end_iff|]. split; [now apply nl_iff|].
    intros c r' ->. destruct (is_tab c) eqn:T.
    + exfalso. specialize (M r' [c] eq_refl ltac:(discriminate)). rewrite (re_unit_ok r' _ (c :: sp) u cl nl) in M; [discriminate M|]. repeat split; auto.
    + split; intros ->; discriminate T.
  - intros (sp & cl & nl & -> & S & N & U & C & E & L & T). apply (proj2 (Forall_iff _ _ sp tab_iff)) in S. apply (proj2 (Forall_iff _ _ u letter_iff)) in U. apply end_iff in E.
    assert (C' : Forall (fun c => Ascii.eqb "]" c = true) cl) by (refine (Forall_impl _ _ C); intros c ->; reflexivity).
    apply lazy_first; [now apply nl_iff|apply re_unit_ok with (sp := sp) (cl := cl) (nl := nl); repeat split; auto|].
    intros a' b' -> NB. cbn [app]. destruct (re_unit a' (b' ++ _)) as [x|] eqn:Q; [|reflexivity]. exfalso. destruct (re_unit_some _ _ _ Q) as (sp' & u' & cl' & nl' & (E1 & S' & _ & U' & C'' & E') & _).
    rewrite app_assoc in E1. apply one_place in E1; [|intros I; rewrite Forall_forall in S'; specialize (S' _ I); discriminate S'|now apply tail_none].
    destruct (exists_last NB) as (b0 & c & ->). destruct (T c (a' ++ b0)) as [T1 T2]; [now rewrite app_assoc|]. rewrite <- E1, Forall_forall in S'. assert (X : is_tab c = true) by (apply S'; apply in_or_app; left; apply in_or_app; right; now left). apply tab_iff in X. tauto.
Qed.
Lemma chars_inv : forall s l, list_ascii_of_string s = l -> s = string_of_list_ascii l.
Proof. intros s l <-. symmetry. apply string_of_list_ascii_of_string. Qed.
Lemma varunit_named : forall k, match reg_varunit (list_ascii_of_string k) with
  | Some (v, u) => named k (string_of_list_ascii v) (string_of_list_ascii u) /\ forall v' u', named k v' u' -> v' = string_of_list_ascii v /\ u' = string_of_list_ascii u
  | None => forall v u, ~ named k v u end.
Proof.
  intros k. destruct (reg_varunit (list_ascii_of_string k)) as [[v u]|] eqn:E.
  - split; [unfold named; rewrite !list_ascii_of_string_of_list_ascii; now apply varunit_iff|]. intros v' u' H. apply varunit_iff in H. rewrite H in E. injection E as E1 E2. split; now apply chars_inv.
  - intros v u H. apply varunit_iff in H. congruence.
Qed.
Lemma unit_means_ok : forall u e base, u <> [] -> Forall letter u -> unit_to_multiplier u = (e, base) -> exists w, base = Some w /\ unit_means (string_of_list_ascii u) e (string_of_list_ascii w).
Proof.
  intros u e base N F H. assert (T : Prop_Si.trimmed u).
  { unfold Prop_Si.trimmed. apply trimmed_all. revert F. apply Forall_impl. intros c L. destruct (is_space c) eqn:Q; [|reflexivity]. exfalso. unfold letter in L. unfold is_space in Q. repeat (apply orb_true_iff in Q; destruct Q as [Q|Q]); try (apply Ascii.eqb_eq in Q; subst c; cbv in L; lia); try (apply andb_true_iff in Q; destruct Q as [Q1 Q2]; apply Nat.leb_le in Q1, Q2; lia); apply Nat.eqb_eq in Q; lia. }
  destruct (C37_only_prefixes u T) as [[-> _]|[[-> _]|[(c & e' & b & -> & P & B & Q)|[Q M]]]].
  - exfalso. apply Forall_cons_iff in F as [F _]. cbv in F. lia.
  - exfalso. apply Forall_cons_iff in F as [F _]. cbv in F. lia.
  - rewrite Q in H. injection H as <- <-. exists b. split; [reflexivity|]. left. exists c. rewrite list_ascii_of_string_of_list_ascii. auto.
  - rewrite Q in H. injection H as <- <-. exists u. split; [reflexivity|]. right. split; [auto|]. split; [auto|]. intros c e' b E P B. apply (M c e' (list_ascii_of_string b)); auto. rewrite <- (list_ascii_of_string_of_list_ascii u), E. reflexivity.
Qed.

(** ** A dimension is replaced *)
Definition entry (p : string * dim) (n : option dim) : string * dim := match n with Some d => (d_name d, d) | None => p end.
Definition st {A} (b : block A) (ivs : list (string * dim)) (vs : list (string * hf A)) : Prop :=
  BInv b /\ dabs (b_ivar b) = ivs /\ dabs (b_var b) = vs.
Lemma st_keys : forall {A} (b : block A) ivs vs, st b ivs vs -> NoDup (map fst ivs) /\ NoDup (map fst vs).
Proof. intros A b ivs vs ((V & W & _) & <- & <-). split; now apply abs_NoDup. Qed.
Lemma st_dim : forall {A} (b : block A) ivs vs k, st b ivs vs -> pd_get k (dd_map (b_ivar b)) = pd_get k ivs.
Proof. intros A b ivs vs k ((V & W & _) & <- & _). symmetry. now apply abs_get. Qed.
Lemma st_var : forall {A} (b : block A) ivs vs k, st b ivs vs -> pd_get k (dd_map (b_var b)) = pd_get k vs.
Proof. intros A b ivs vs k ((V & W & _) & _ & <-). symmetry. now apply abs_get. Qed.
Lemma get_mid : forall {V} k (v : V) l1 l2, ~ In k (map fst l1) -> pd_get k (l1 ++ (k, v) :: l2) = Some v.
Proof. intros. rewrite <- lookup_get. now apply lookup_mid. Qed.
Lemma get_absent : forall {V} k (l : list (string * V)), ~ In k (map fst l) -> pd_get k l = None.
Proof. intros. now apply pd_get_none. Qed.
Lemma set_mid : forall {V} k (v w : V) l1 l2, ~ In k (map fst l1) -> pd_set k v (l1 ++ (k, w) :: l2) = l1 ++ (k, v) :: l2.
Proof.
  intros V k v w. induction l1 as [|[k' v'] l1 IH]; intros l2 N; cbn [app pd_set]; [now rewrite String.eqb_refl|]. destruct (String.eqb_spec k k') as [->|]; [exfalso; apply N; now left|]. f_equal. apply IH. intros I. apply N. now right.
Qed.
Lemma relabel_mid : forall {V} old new (v : V) l1 l2, ~ In old (map fst l1) -> ~ In old (map fst l2) -> relabel old new (l1 ++ (old, v) :: l2) = l1 ++ (new, v) :: l2.
Proof.
  intros V old new v l1 l2 N1 N2. unfold relabel. rewrite map_app. cbn [map fst snd]. destruct (string_dec old old); [|congruence]. fold (relabel old new l1). fold (relabel old new l2). now rewrite !relabel_id.
Qed.
Definition reps {A} (old new : dim) (vs : list (string * hf A)) := map (fun p => (fst p, replace_dim old new (snd p))) vs.
Lemma reps_keys : forall {A} old new (vs : list (string * hf A)), map fst (reps old new vs) = map fst vs.
Proof. intros. unfold reps. rewrite map_map. reflexivity. Qed.

Lemma rep_fresh : forall {A} (b : block A) l1 d l2 vs new, st b (l1 ++ (d_name d, d) :: l2) vs -> ~ In (d_name new) (map fst (l1 ++ (d_name d, d) :: l2)) ->
  exists b', b_replace_dim d new b = Ok b' /\ b_x b' = b_x b /\ st b' (l1 ++ (d_name new, new) :: l2) (reps d new vs).
Proof.
  intros A b l1 d l2 vs new ST F. pose proof ST as (B & EI & EV). destruct (st_keys _ _ _ ST) as [ND _]. destruct (mid_notin _ _ _ _ ND) as [N1 N2].
  destruct B as (V & W & C). pose proof (rename_ok (d_name d) (d_name new) d (b_ivar b) W) as R. rewrite EI in R. specialize (R (lookup_mid _ _ _ _ N1)). destruct R as (iv & R & I1 & E1).
  destruct (copy_ok (replace_dim d new) (b_var b) V) as (w & W1 & W2 & W3).
  assert (Q : b_replace_dim d new b = Ok (mkBlock w (dd_set (d_name new) new iv) (b_x b))).
  { unfold b_replace_dim. assert (dd_contains (d_name d) (b_ivar b) = true) as ->. { unfold dd_contains, pd_has. rewrite (st_dim _ _ _ _ ST), get_mid by exact N1. reflexivity. } rewrite R. cbn [bind]. rewrite W1. reflexivity. }
  eexists. split; [exact Q|]. split; [reflexivity|]. destruct (replace_dim_b _ _ _ _ (conj V (conj W C)) Q) as (B' & _). split; [exact B'|]. cbn [b_ivar b_var]. split; [|now rewrite W3, EV].
  rewrite set_abs, store_set, E1 by exact I1. cbn [spec_step]. rewrite (lookup_mid _ _ _ _ N1). destruct (string_dec (d_name d) (d_name new)) as [E|E]; [exfalso; apply F; rewrite <- E, map_app; apply in_or_app; right; now left|].
  rewrite (lookup_notin _ _ F), relabel_mid by auto. apply set_mid. intros I. apply F. rewrite map_app. apply in_or_app. now left.
Qed.
Lemma rep_same : forall {A} (b : block A) l1 d l2 vs new, st b (l1 ++ (d_name d, d) :: l2) vs -> d_name new = d_name d ->
  exists b', b_replace_dim d new b = Ok b' /\ b_x b' = b_x b /\ st b' (l1 ++ l2 ++ [(d_name d, new)]) (reps d new vs).
Proof.
  intros A b l1 d l2 vs new ST F. pose proof ST as (B & EI & EV). destruct (st_keys _ _ _ ST) as [ND _]. destruct (mid_notin _ _ _ _ ND) as [N1 N2].
  destruct B as (V & W & C). pose proof (rename_ok (d_name d) (d_name new) d (b_ivar b) W) as R. rewrite EI in R. specialize (R (lookup_mid _ _ _ _ N1)). destruct R as (iv & R & I1 & E1).
  destruct (copy_ok (replace_dim d new) (b_var b) V) as (w & W1 & W2 & W3).
  assert (Q : b_replace_dim d new b = Ok (mkBlock w (dd_set (d_name new) new iv) (b_x b))).
  { unfold b_replace_dim. assert (dd_contains (d_name d) (b_ivar b) = true) as ->. { unfold dd_contains, pd_has. rewrite (st_dim _ _ _ _ ST), get_mid by exact N1. reflexivity. } rewrite R. cbn [bind]. rewrite W1. reflexivity. }
  eexists. split; [exact Q|]. split; [reflexivity|]. destruct (replace_dim_b _ _ _ _ (conj V (conj W C)) Q) as (B' & _). split; [exact B'|]. cbn [b_ivar b_var]. split; [|now rewrite W3, EV].
  rewrite set_abs, store_set, E1 by exact I1. cbn [spec_step]. rewrite (lookup_mid _ _ _ _ N1), F. destruct (string_dec (d_name d) (d_name d)) as [E|E]; [|congruence].
  rewrite remove_mid by auto. assert (N : ~ In (d_name d) (map fst (l1 ++ l2))) by (rewrite map_app, in_app_iff; tauto). rewrite (store_notin _ _ _ N). rewrite app_assoc. apply set_mid. exact N.
Qed.

(** Many dimensions are replaced: an axis becomes what its dimension becomes. *)
Section Conv.
Variable conv : dim -> option dim.
Definition axis (ivs : list (string * dim)) (a : dim) : dim :=
  match in_list ivs (d_name a) with Some d => match conv d with Some n => n | None => a end | None => a end.
Fixpoint later (ivs : list (string * dim)) : Prop :=
  match ivs with [] => True | p :: r => (forall n, conv (snd p) = Some n -> ~ In (d_name n) (map fst r)) /\ later r end.
Definition axes {A} (ivs : list (string * dim)) (x : hf A) : hf A := mkHF (h_nd x) (h_dt x) (map (axis ivs) (h_dims x)) (h_unit x) (h_fmt x).
Lemma in_list_get : forall {V} (l : list (string * V)) n, in_list l n = pd_get n l.
Proof. intros V l n. unfold in_list. induction l as [|[k v] l IH]; [reflexivity|]. cbn [find pd_get fst]. destruct (String.eqb n k); [reflexivity|exact IH]. Qed.
Lemma axis_none : forall k d ivs a, conv d = None -> d_name d = k -> ~ In k (map fst ivs) -> axis ((k, d) :: ivs) a = axis ivs a.
Proof.
  intros k d ivs a Q <- N. unfold axis. rewrite !in_list_get. cbn [pd_get]. destruct (String.eqb_spec (d_name a) (d_name d)) as [E|]; [|reflexivity]. rewrite Q, E, get_absent by exact N. reflexivity.
Qed.
Lemma axis_some : forall d new ivs a, conv d = Some new -> ~ In (d_name new) (map fst ivs) ->
  axis ((d_name d, d) :: ivs) a = axis ivs (if String.eqb (d_name d) (d_name a) then new else a).
Proof.
  intros d new ivs a Q N. unfold axis. rewrite !in_list_get. cbn [pd_get]. rewrite String.eqb_sym. destruct (String.eqb_spec (d_name d) (d_name a)) as [E|]; [|reflexivity]. rewrite Q, get_absent by exact N. reflexivity.
Qed.
Lemma axes_none : forall {A} k d ivs (x : hf A), conv d = None -> d_name d = k -> ~ In k (map fst ivs) -> axes ((k, d) :: ivs) x = axes ivs x.
Proof. intros A k d ivs x Q E N. unfold axes. f_equal. apply map_ext. intros a. now apply axis_none. Qed.
Lemma axes_some : forall {A} d new ivs (x : hf A), conv d = Some new -> ~ In (d_name new) (map fst ivs) -> axes ((d_name d, d) :: ivs) x = axes ivs (replace_dim d new x).
Proof. intros A d new ivs x Q N. unfold axes, replace_dim, replace_dim_list. cbn [h_nd h_dt h_dims h_unit h_fmt]. f_equal. rewrite map_map. apply map_ext. intros a. now apply axis_some. Qed.
Definition vaxes {A} (ivs : list (string * dim)) (vs : list (string * hf A)) := map (fun p => (fst p, axes ivs (snd p))) vs.
Lemma vaxes_none : forall {A} k d ivs (vs : list (string * hf A)), conv d = None -> d_name d = k -> ~ In k (map fst ivs) -> vaxes ((k, d) :: ivs) vs = vaxes ivs vs.
Proof. intros A k d ivs vs Q E N. unfold vaxes. apply map_ext. intros p. f_equal. now apply axes_none. Qed.
Lemma vaxes_some : forall {A} d new ivs (vs : list (string * hf A)), conv d = Some new -> ~ In (d_name new) (map fst ivs) -> vaxes ((d_name d, d) :: ivs) vs = vaxes ivs (reps d new vs).
Proof. intros A d new ivs vs Q N. unfold vaxes, reps. rewrite map_map. apply map_ext. intros p. cbn [fst snd]. f_equal. now apply axes_some. Qed.
Lemma vaxes_nil : forall {A} (vs : list (string * hf A)), vaxes [] vs = vs.
Proof.
  intros A vs. unfold vaxes. rewrite <- (map_id vs) at 2. apply map_ext. intros [k [nd dt ds u f]]. cbn [fst snd]. f_equal. unfold axes. cbn [h_nd h_dt h_dims h_unit h_fmt]. f_equal. rewrite <- (map_id ds) at 2. apply map_ext. reflexivity.
Qed.
Lemma vaxes_keys : forall {A} ivs (vs : list (string * hf A)), map fst (vaxes ivs vs) = map fst vs.
Proof. intros. unfold vaxes. rewrite map_map. reflexivity. Qed.
End Conv.
Lemma over_app : forall {A} (step : string -> block A -> result (block A)) l l' b, over step (l ++ l') b = (do b' <- over step l b; over step l' b').
Proof. intros A step. induction l as [|k l IH]; intros l' b; [reflexivity|]. cbn [app over]. destruct (step k b); [|reflexivity]. cbn [bind]. apply IH. Qed.
Lemma names_all : forall {A} (b : block A) ivs vs, st b ivs vs -> NoDup (map fst ivs ++ map fst vs) -> allvarnames b = map fst ivs ++ map fst vs.
Proof.
  intros A b ivs vs ST ND. destruct ST as ((V & W & _) & <- & <-). unfold allvarnames. rewrite (Inv_iter _ V), (Inv_iter _ W). rewrite <- (keys_abs _ V), <- (keys_abs _ W) in *. unfold keys in *. f_equal.
  assert (X : forall l l' : list string, NoDup (l ++ l') -> filter (fun k => negb (l_in k l)) l' = l').
  { clear. intros l l' H. assert (forall k, In k l' -> ~ In k l). { intros k I J. induction l as [|x l IH]; [destruct J|]. cbn [app] in H. apply NoDup_cons_iff in H as [H1 H2]. destruct J as [->|J]; [apply H1, in_or_app; now right|]. apply IH; auto. }
    clear H. induction l' as [|k l' IH]; [reflexivity|]. cbn [filter]. assert (l_in k l = false) as -> by (apply l_in_false, H0; now left). cbn [negb]. f_equal. apply IH. intros; apply H0; now right. }
  now apply X.
Qed.

(** ** Units in names *)
Section Fix.
Context {A : Type}.
Variable lab : A -> label.
Variable emb : label -> A.
Variable scale : Z -> A -> A.
Variable scale_labels : Z -> list label -> list label.
Variable scale_dt : Z -> dtype -> dtype.
Notation fix_unit := (fix_unit lab emb scale scale_labels scale_dt).

(** The name, the exponent and the unit of a name with unit. *)
Definition parts (k : string) : option (string * (Z * option string)) :=
  match reg_varunit (list_ascii_of_string k) with
  | Some (v, u) => Some (string_of_list_ascii v, (fst (unit_to_multiplier u), option_map string_of_list_ascii (snd (unit_to_multiplier u))))
  | None => None
  end.
Lemma parts_some : forall k v e w, parts k = Some (v, (e, w)) -> exists u w', named k v u /\ w = Some w' /\ unit_means u e w' /\ forall v' u', named k v' u' -> v' = v /\ u' = u.
Proof.
  intros k v e w H. unfold parts in H. pose proof (varunit_named k) as N. destruct (reg_varunit (list_ascii_of_string k)) as [[v0 u0]|] eqn:R; [|discriminate H]. injection H as <- <- <-. destruct N as [N1 N2].
  destruct (unit_to_multiplier u0) as [e0 base] eqn:M. assert (L : named_unit (list_ascii_of_string k) v0 u0) by now apply varunit_iff. destruct L as (sp & cl & nl & _ & _ & NE & FL & _).
  destruct (unit_means_ok u0 e0 base NE FL M) as (w' & -> & UM). exists (string_of_list_ascii u0), (string_of_list_ascii w'). cbn [fst snd option_map]. auto.
Qed.
Lemma parts_none : forall k, parts k = None -> forall v u, ~ named k v u.
Proof. intros k H. unfold parts in H. pose proof (varunit_named k) as N. destruct (reg_varunit (list_ascii_of_string k)) as [[v0 u0]|]; [discriminate H|exact N]. Qed.
Definition fixd (d : dim) : option dim :=
  match parts (d_name d) with
  | Some (v, (e, w)) => Some (mkDim (d_class d) v (scale_labels e (d_data d)) (match w with Some u => Some u | None => d_unit d end) (Some (fmt_of d)))
  | None => None
  end.
Definition fixd_all (ivs : list (string * dim)) := map (fun p => entry p (fixd (snd p))) ivs.
Lemma fix_is : forall k b, fix_unit k b =
  match parts k with
  | None => Ok b
  | Some (vname, (e, unit)) =>
      match pd_get k (dd_map (b_ivar b)) with
      | Some old => do new <- dim_with old (Some vname) (Some (scale_labels e (d_data old))) unit; b_replace_dim old new b
      | None =>
          do b1 <- b_rename k vname b;
          do f <- b_get vname b1;
          do b2 <- b_set lab vname (scalar_op (scale_dt e) (scale e) (found_arr emb f)) b1;
          do _ <- b_get vname b2;
          match pd_get vname (dd_map (b_ivar b2)), pd_get vname (dd_map (b_var b2)) with
          | None, Some x => Ok (mkBlock (dd_set vname (set_unit unit x) (b_var b2)) (b_ivar b2) (b_x b2))
          | _, _ => Ok b2
          end
      end
  end.
Proof. intros k b. unfold fix_unit, Model_Units.fix_unit, parts. destruct (reg_varunit (list_ascii_of_string k)) as [[v u]|]; [|reflexivity]. destruct (unit_to_multiplier u) as [e w]. reflexivity. Qed.

Definition proper (p : string * dim) : Prop := fst p = d_name (snd p) /\ (d_fmt (snd p) <> None \/ d_data (snd p) <> []).
Lemma fix_dim_step : forall (b : block A) l1 k d l2 vs, st b (l1 ++ (k, d) :: l2) vs -> proper (k, d) ->
  (forall n, fixd d = Some n -> ~ In (d_name n) (map fst (l1 ++ (k, d) :: l2))) ->
  exists b', fix_unit k b = Ok b' /\ st b' (l1 ++ entry (k, d) (fixd d) :: l2) (match fixd d with Some n => reps d n vs | None => vs end).
Proof.
  intros b l1 k d l2 vs ST [E F] N. cbn [fst snd] in E, F. subst k. rewrite fix_is. unfold fixd in *. destruct (parts (d_name d)) as [[v [e w]]|] eqn:P; [|exists b; auto].
  destruct (st_keys _ _ _ ST) as [ND _]. destruct (mid_notin _ _ _ _ ND) as [N1 N2]. rewrite (st_dim _ _ _ _ ST), get_mid by exact N1.
  unfold dim_with. rewrite (fmt_ok _ F). cbn [bind]. cbn [entry d_name].
  destruct (rep_fresh b l1 d l2 vs _ ST (N _ eq_refl)) as (b' & Q & _ & ST'). cbn [d_name] in ST'. exists b'. split; [exact Q|exact ST'].
Qed.
Lemma fix_dims : forall l2 (b : block A) l1 vs, st b (l1 ++ l2) vs -> Forall proper l2 ->
  (forall p n, In p l2 -> fixd (snd p) = Some n -> ~ In (d_name n) (map fst (l1 ++ l2))) ->
  NoDup (map (fun p => fst (entry p (fixd (snd p)))) l2) ->
  (forall p n, In p l2 -> fixd (snd p) = Some n -> forall q, In q l2 -> fst q <> d_name n) ->
  exists b', over fix_unit (map fst l2) b = Ok b' /\ st b' (l1 ++ fixd_all l2) (vaxes fixd l2 vs).
Proof.
  induction l2 as [|[k d] l2 IH]; intros b l1 vs ST P N ND L; [exists b; split; [reflexivity|]; rewrite vaxes_nil; exact ST|].
  apply Forall_cons_iff in P as [P1 P2]. destruct (fix_dim_step b l1 k d l2 vs ST P1) as (b1 & Q1 & ST1); [intros n E; apply (N (k, d) n); [now left|exact E]|].
  cbn [map fst over]. rewrite Q1. cbn [bind]. change (entry (k, d) (fixd d) :: l2) with ([entry (k, d) (fixd d)] ++ l2) in ST1. rewrite app_assoc in ST1.
  cbn [map] in ND. apply NoDup_cons_iff in ND as [ND1 ND2].
  destruct (IH b1 (l1 ++ [entry (k, d) (fixd d)]) _ ST1 P2) as (b' & Q' & ST').
  - intros p n I E J. rewrite <- app_assoc, map_app in J. apply in_app_or in J as [J|J].
    + apply (N p n); [now right|exact E|]. rewrite map_app. apply in_or_app. now left.
    + cbn [app map] in J. destruct J as [J|J].
      * apply ND1. apply in_map_iff. exists p. split; [|exact I]. rewrite E. cbn [entry fst snd]. symmetry. exact J.
      * apply (N p n); [now right|exact E|]. rewrite map_app. apply in_or_app. right. now right.
  - exact ND2.
  - intros p n I E q J. apply (L p n); [now right|exact E|now right].
  - exists b'. split; [exact Q'|]. rewrite <- app_assoc in ST'. destruct P1 as [E _]. cbn [fst snd] in E. subst k. destruct (st_keys _ _ _ ST) as [K _]. destruct (mid_notin _ _ _ _ K) as [_ K2].
    destruct (fixd d) as [n|] eqn:F.
    + rewrite (vaxes_some fixd d n l2 vs F); [|intros J; apply in_map_iff in J as (q & J1 & J2); exact (L (d_name d, d) n (or_introl eq_refl) F q (or_intror J2) J1)].
      unfold fixd_all. cbn [map snd]. rewrite F. exact ST'.
    + rewrite (vaxes_none fixd (d_name d) d l2 vs F eq_refl K2). unfold fixd_all. cbn [map snd]. rewrite F. exact ST'.
Qed.

(** Variables. *)
Definition fixv (p : string * hf A) : string * hf A :=
  match parts (fst p) with
  | Some (v, (e, w)) => (v, mkHF (nd_map (scale e) (h_nd (snd p))) (scale_dt e (h_dt (snd p))) (h_dims (snd p)) w (h_fmt (snd p)))
  | None => p
  end.
Lemma fix_var_step : forall (b : block A) ivs l1 k x l2, st b ivs (l1 ++ (k, x) :: l2) -> ~ In k (map fst ivs) ->
  (forall v e w, parts k = Some (v, (e, w)) -> ~ In v (map fst ivs) /\ ~ In v (map fst (l1 ++ (k, x) :: l2)) /\
     forall m i, is_matrix_name v = Some (m, i) -> m <> v /\ ~ In m (map fst (l1 ++ (k, x) :: l2))) ->
  exists b', fix_unit k b = Ok b' /\ st b' ivs (l1 ++ fixv (k, x) :: l2).
Proof.
  intros b ivs l1 k x l2 ST NI H. rewrite fix_is. unfold fixv. cbn [fst snd]. destruct (parts k) as [[v [e w]]|]; [|exists b; auto]. destruct (H v e w eq_refl) as (N1 & N2 & N3). clear H.
  pose proof ST as (B & EI & EV). destruct (st_keys _ _ _ ST) as [_ ND]. destruct (mid_notin _ _ _ _ ND) as [K1 K2]. rewrite (st_dim _ _ _ _ ST), (get_absent _ _ NI).
  destruct B as (V & W & C). unfold b_rename. rewrite (st_dim _ _ _ _ ST), (get_absent _ _ NI). assert (dd_contains k (b_var b) = true) as -> by (unfold dd_contains, pd_has; rewrite (st_var _ _ _ _ ST), get_mid by exact K1; reflexivity).
  pose proof (rename_ok k v x (b_var b) V) as R. rewrite EV in R. specialize (R (lookup_mid _ _ _ _ K1)). destruct R as (d' & R & I1 & E1). rewrite R. cbn [bind]. cbn [spec_step] in E1. rewrite (lookup_mid _ _ _ _ K1), (lookup_notin _ _ N2) in E1.
  destruct (string_dec k v) as [->|KV]; [exfalso; apply N2; rewrite map_app; apply in_or_app; right; now left|]. rewrite relabel_mid in E1 by auto.
  assert (N2' : ~ In v (map fst l1)) by (intros J; apply N2; rewrite map_app; apply in_or_app; now left).
  assert (C1 : forall d, In d (h_dims x) -> dd_contains (d_name d) (b_ivar b) = true). { intros d I. apply (C k x d); [|exact I]. rewrite (st_var _ _ _ _ ST). now apply get_mid. }
  assert (GI : pd_get v (dd_map (b_ivar b)) = None) by (rewrite (st_dim _ _ _ _ ST); now apply get_absent).
  assert (GV : pd_get v (dd_map d') = Some x) by (rewrite <- (abs_get _ _ I1), E1; now apply get_mid).
  unfold b_get at 1. cbn [b_ivar b_var]. rewrite GI, GV. cbn [bind found_arr]. unfold b_set. cbn [b_ivar b_var b_x].
  assert (match is_matrix_name v with Some (m, e0) => if dd_contains m d' && negb (ismatrix (scalar_op (scale_dt e) (scale e) x)) then Some (m, e0) else None | None => None end = None) as ->.
  { destruct (is_matrix_name v) as [[m i]|] eqn:M; [|reflexivity]. destruct (N3 m i eq_refl) as [M1 M2]. assert (dd_contains m d' = false) as ->; [|reflexivity]. unfold dd_contains, pd_has. rewrite <- (abs_get _ _ I1), E1. rewrite get_absent; [reflexivity|].
    intros J. rewrite map_app in J. apply in_app_or in J as [J|[J|J]]; [apply M2; rewrite map_app; apply in_or_app; now left|cbn [fst] in J; congruence|apply M2; rewrite map_app; apply in_or_app; right; now right]. }
  rewrite GI. cbn [bind b_var b_ivar]. rewrite (add_ivars_id (h_dims (scalar_op (scale_dt e) (scale e) x)) (b_ivar b)) by exact C1. unfold b_get. cbn [b_ivar b_var]. rewrite GI, get_set, String.eqb_refl. cbn [bind].
  eexists. split; [reflexivity|]. set (y := scalar_op (scale_dt e) (scale e) x). pose proof (set_Inv v y d' I1) as I2. pose proof (set_Inv v (set_unit w y) _ I2) as I3.
  assert (E3 : dabs (dd_set v (set_unit w y) (dd_set v y d')) = l1 ++ (v, set_unit w y) :: l2). { rewrite set_abs, set_abs, !store_set, E1 by auto. rewrite !set_mid by exact N2'. reflexivity. }
  split; [|split; [exact EI|exact E3]]. split; [exact I3|]. split; [exact W|]. cbn [b_var b_ivar]. intros k' x' d G I. rewrite <- (abs_get _ _ I3), E3 in G.
  destruct (string_dec k' v) as [->|D]; [rewrite get_mid in G by exact N2'; injection G as <-; apply C1; exact I|].
  apply (C k' x' d); [|exact I]. rewrite (st_var _ _ _ _ ST). destruct (string_dec k' k) as [->|D2].
  - exfalso. rewrite get_absent in G; [discriminate G|]. rewrite map_app. intros J. apply in_app_or in J as [J|[J|J]]; [exact (K1 J)|cbn [fst] in J; congruence|exact (K2 J)].
  - rewrite <- G. clear - D D2. induction l1 as [|[k0 x0] l1 IH]; cbn [app pd_get]; [|rewrite IH; reflexivity]. destruct (String.eqb_spec k' k); [congruence|]. destruct (String.eqb_spec k' v); [congruence|reflexivity].
Qed.
Lemma fix_vars : forall l2 (b : block A) ivs l1, st b ivs (l1 ++ l2) ->
  (forall p, In p l2 -> ~ In (fst p) (map fst ivs) /\ forall v e w, parts (fst p) = Some (v, (e, w)) -> ~ In v (map fst ivs) /\ ~ In v (map fst (l1 ++ l2)) /\
     forall m i, is_matrix_name v = Some (m, i) -> m <> v /\ ~ In m (map fst (l1 ++ l2)) /\ ~ In m (map (fun q => fst (fixv q)) l2)) ->
  NoDup (map (fun p => fst (fixv p)) l2) ->
  exists b', over fix_unit (map fst l2) b = Ok b' /\ st b' ivs (l1 ++ map fixv l2).
Proof.
  induction l2 as [|[k x] l2 IH]; intros b ivs l1 ST H ND; [exists b; auto|]. cbn [map] in ND. apply NoDup_cons_iff in ND as [ND1 ND2].
  destruct (H (k, x) (or_introl eq_refl)) as [H1 H2]. cbn [fst] in H1, H2. destruct (fix_var_step b ivs l1 k x l2 ST H1) as (b1 & Q1 & ST1).
  { intros v e w P. destruct (H2 v e w P) as (A1 & A2 & A3). split; [exact A1|]. split; [exact A2|]. intros m i M. destruct (A3 m i M) as (B1 & B2 & _). auto. }
  cbn [map fst over]. rewrite Q1. cbn [bind]. change (fixv (k, x) :: l2) with ([fixv (k, x)] ++ l2) in ST1. rewrite app_assoc in ST1. destruct (IH b1 ivs (l1 ++ [fixv (k, x)]) ST1) as (b' & Q' & ST'); [|exact ND2|].
  - intros p I. destruct (H p (or_intror I)) as [A1 A2]. split; [exact A1|]. intros v e w P. destruct (A2 v e w P) as (B1 & B2 & B3).
    assert (X : forall n, ~ In n (map fst (l1 ++ (k, x) :: l2)) -> n <> fst (fixv (k, x)) -> ~ In n (map fst ((l1 ++ [fixv (k, x)]) ++ l2))).
    { intros n Y1 Y2 J. rewrite <- app_assoc, map_app in J. apply in_app_or in J as [J|[J|J]]; [apply Y1; rewrite map_app; apply in_or_app; now left|congruence|apply Y1; rewrite map_app; apply in_or_app; right; now right]. }
    split; [exact B1|]. split; [apply X; [exact B2|]|].
    + intros E. apply ND1. rewrite <- E. apply in_map_iff. exists p. split; [|exact I]. unfold fixv. rewrite P. reflexivity.
    + intros m i M. destruct (B3 m i M) as (C1 & C2 & C3). split; [exact C1|]. split; [apply X; [exact C2|]; intros E; apply C3; left; now symmetry|]. intros J. apply C3. now right.
  - exists b'. split; [exact Q'|]. rewrite <- app_assoc in ST'. exact ST'.
Qed.

Lemma entry_name : forall p, proper p -> fst (entry p (fixd (snd p))) = match parts (fst p) with Some (v, _) => v | None => fst p end.
Proof. intros [k d] [E _]. cbn [fst snd] in *. subst k. unfold fixd. destruct (parts (d_name d)) as [[v [e w]]|]; reflexivity. Qed.
Lemma fixv_name : forall p, fst (fixv p) = match parts (fst p) with Some (v, _) => v | None => fst p end.
Proof. intros [k x]. unfold fixv. cbn [fst]. destruct (parts k) as [[v [e w]]|]; reflexivity. Qed.
Definition bare (k : string) : string := match parts k with Some (v, _) => v | None => k end.
Lemma bare_inj : forall ns vars, names_apart ns vars -> NoDup (map bare ns) /\ (forall n m, In n ns -> In m ns -> bare n = bare m -> n = m).
Proof.
  intros ns vars (ND & A2 & A3 & _). assert (X : forall n m, In n ns -> In m ns -> bare n = bare m -> n = m).
  { intros n m I J E. unfold bare in E. destruct (parts n) as [[v [e w]]|] eqn:P; destruct (parts m) as [[v' [e' w']]|] eqn:P'; [| | |exact E].
    - apply parts_some in P as (u & _ & N & _). apply parts_some in P' as (u' & _ & N' & _). subst v'. exact (A3 n m v u u' I J N N').
    - apply parts_some in P as (u & _ & N & _). exfalso. exact (A2 n m v u I N J E).
    - apply parts_some in P' as (u & _ & N & _). exfalso. exact (A2 m n v' u J N I (eq_sym E)). }
  split; [|exact X]. clear A2 A3. induction ND as [|n ns NI ND IH]; [constructor|]. cbn [map]. constructor.
  - intros J. apply in_map_iff in J as (m & E & J). apply NI. rewrite (X n m (or_introl eq_refl) (or_intror J) (eq_sym E)). exact J.
  - apply IH. intros a c I J. apply X; now right.
Qed.
Lemma NoDup_parts : forall {X} (l l' : list X), NoDup (l ++ l') -> NoDup l /\ NoDup l' /\ forall x, In x l -> ~ In x l'.
Proof.
  induction l as [|x l IH]; intros l' H; [split; [constructor|]; split; [exact H|]; intros x []|]. cbn [app] in H. apply NoDup_cons_iff in H as [H1 H2]. destruct (IH _ H2) as (A1 & A2 & A3). split; [constructor; auto; intros J; apply H1, in_or_app; now left|]. split; [exact A2|].
  intros y [<-|J] K; [apply H1, in_or_app; now right|exact (A3 y J K)].
Qed.
Lemma fix_all : forall (b : block A) ivs vs, st b ivs vs -> Forall proper ivs -> names_apart (map fst ivs ++ map fst vs) (map fst vs) ->
  exists b', fix_units lab emb scale scale_labels scale_dt b = Ok b' /\ st b' (fixd_all ivs) (map fixv (vaxes fixd ivs vs)).
Proof.
  intros b ivs vs ST P NA. pose proof (bare_inj _ _ NA) as [BN BI]. rewrite map_app in BN. pose proof NA as (ND & A2 & A3 & A4). destruct (NoDup_parts _ _ BN) as (BN1 & BN2 & BN3). destruct (NoDup_parts _ _ ND) as (ND1 & ND2 & ND3).
  assert (IN : forall p n, In p ivs -> fixd (snd p) = Some n -> exists u, named (fst p) (d_name n) u).
  { intros p n I E. rewrite Forall_forall in P. destruct (P p I) as [E1 _]. unfold fixd in E. rewrite <- E1 in E. destruct (parts (fst p)) as [[v [e w]]|] eqn:Q; [|discriminate E]. injection E as <-. apply parts_some in Q as (u & _ & N & _). exists u. exact N. }
  assert (KD : map fst (fixd_all ivs) = map bare (map fst ivs)).
  { unfold fixd_all. rewrite !map_map. apply map_ext_in. intros p I. rewrite Forall_forall in P. unfold bare. exact (entry_name p (P p I)). }
  unfold fix_units. rewrite (names_all b ivs vs ST ND), over_app.
  destruct (fix_dims ivs b [] vs ST P) as (b1 & Q1 & ST1).
  - intros p n I E J. destruct (IN p n I E) as (u & N). apply (A2 (fst p) (d_name n) (d_name n) u); auto; [apply in_or_app; left; now apply in_map|apply in_or_app; now left].
  - rewrite <- (map_map (fun p => entry p (fixd (snd p))) fst). change (NoDup (map fst (fixd_all ivs))). now rewrite KD.
  - intros p n I E q J K. destruct (IN p n I E) as (u & N). apply (A2 (fst p) (fst q) (d_name n) u); auto; apply in_or_app; left; now apply in_map.
  - cbn [app] in ST1. rewrite Q1. cbn [bind]. rewrite <- (vaxes_keys fixd ivs vs). apply (fix_vars (vaxes fixd ivs vs) b1 (fixd_all ivs) [] ST1).
    + intros p I. assert (IV : In (fst p) (map fst vs)) by (rewrite <- (vaxes_keys fixd ivs vs); now apply in_map). split.
      * rewrite KD. intros J. apply in_map_iff in J as (m & E & J). unfold bare in E. destruct (parts m) as [[v [e w]]|] eqn:Q; [|subst m; exact (ND3 _ J IV)]. apply parts_some in Q as (u & _ & N & _). apply (A2 m (fst p) v u); auto; apply in_or_app; auto.
      * intros v e w Q. pose proof Q as Q'. apply parts_some in Q' as (u & _ & N & _). assert (B : bare (fst p) = v) by (unfold bare; now rewrite Q). split; [|split].
        -- rewrite KD, <- B. intros J. apply (BN3 _ J). now apply in_map.
        -- cbn [app]. rewrite vaxes_keys. intros J. apply (A2 (fst p) v v u); auto; apply in_or_app; auto.
        -- intros m i M. destruct (A4 (fst p) v u m i IV N M) as [M1 M2]. cbn [app]. rewrite vaxes_keys. split; [intros ->; exact (M2 (fst p) u IV N)|]. split; [exact M1|].
           intros J. apply in_map_iff in J as (q & E & J). assert (JV : In (fst q) (map fst vs)) by (rewrite <- (vaxes_keys fixd ivs vs); now apply in_map). rewrite fixv_name in E. destruct (parts (fst q)) as [[v' [e' w']]|] eqn:Q2; [|subst m; exact (M1 JV)]. apply parts_some in Q2 as (u2 & _ & N2 & _). subst v'. exact (M2 (fst q) u2 JV N2).
    + replace (map (fun p => fst (fixv p)) (vaxes fixd ivs vs)) with (map bare (map fst (vaxes fixd ivs vs))); [rewrite vaxes_keys; exact BN2|]. rewrite map_map. apply map_ext. intros p. symmetry. exact (fixv_name p).
Qed.
End Fix.

(** ** Guessed units *)
Section Guess.
Context {A : Type}.
Variable t : list (string * string).
Definition guessd (d : dim) : option dim :=
  if unitless d then Some (mkDim (d_class d) (d_name d) (d_data d) (guess_unit_from_varname t (d_name d)) (Some (fmt_of d))) else None.
Lemma dim_arr_unit : forall d, d_fmt d <> None \/ d_data d <> [] -> exists a, dim_array d = Ok a /\ h_unit a = d_unit d.
Proof. intros d F. unfold dim_array. rewrite (fmt_ok _ F). cbn [bind]. eexists. split; reflexivity. Qed.
Lemma guess_dim_step : forall (b : block A) l1 k d l2 vs, st b (l1 ++ (k, d) :: l2) vs -> proper (k, d) ->
  exists b', guess_step t k b = Ok b' /\ b_x b' = b_x b /\
    match guessd d with Some n => st b' (l1 ++ l2 ++ [(k, n)]) (reps d n vs) | None => st b' (l1 ++ (k, d) :: l2) vs end.
Proof.
  intros b l1 k d l2 vs ST [E F]. cbn [fst snd] in E, F. subst k. destruct (st_keys _ _ _ ST) as [ND _]. destruct (mid_notin _ _ _ _ ND) as [N1 N2].
  assert (G : pd_get (d_name d) (dd_map (b_ivar b)) = Some d) by (rewrite (st_dim _ _ _ _ ST); now apply get_mid).
  unfold guess_step, b_contains. assert (dd_contains (d_name d) (b_ivar b) = true) as -> by (unfold dd_contains, pd_has; now rewrite G). rewrite orb_true_r. unfold b_get. rewrite G. destruct (dim_arr_unit d F) as (a & -> & U). cbn [bind found_unit]. rewrite U. unfold guessd, unitless.
  destruct (d_unit d) as [u|] eqn:D; [exists b; auto|]. unfold dim_with. rewrite (fmt_ok _ F). cbn [bind]. rewrite D. replace (match guess_unit_from_varname t (d_name d) with Some u => Some u | None => None end) with (guess_unit_from_varname t (d_name d)) by now destruct (guess_unit_from_varname t (d_name d)).
  destruct (rep_same b l1 d l2 vs _ ST (eq_refl : d_name (mkDim (d_class d) (d_name d) (d_data d) (guess_unit_from_varname t (d_name d)) (Some (fmt_of d))) = d_name d)) as (b' & Q & X & ST'). exists b'. auto.
Qed.
Definition with_unit (p : string * dim) : bool := negb (unitless (snd p)).
Definition guessed_entry (p : string * dim) : string * dim := entry p (guessd (snd p)).
Lemma guess_dims : forall l2 (b : block A) l1 l3 vs, st b (l1 ++ l2 ++ l3) vs -> Forall proper l2 ->
  exists b', over (guess_step t) (map fst l2) b = Ok b' /\ b_x b' = b_x b /\
    st b' (l1 ++ filter with_unit l2 ++ l3 ++ map guessed_entry (filter (fun p => unitless (snd p)) l2)) (vaxes guessd l2 vs).
Proof.
  induction l2 as [|[k d] l2 IH]; intros b l1 l3 vs ST P.
  - exists b. split; [reflexivity|]. split; [reflexivity|]. rewrite vaxes_nil. cbn [filter map app]. rewrite app_nil_r. exact ST.
  - apply Forall_cons_iff in P as [P1 P2]. destruct (guess_dim_step b l1 k d (l2 ++ l3) vs ST P1) as (b1 & Q1 & X1 & ST1). cbn [map fst over]. rewrite Q1. cbn [bind]. destruct P1 as [E F]. cbn [fst snd] in E, F. subst k.
    destruct (st_keys _ _ _ ST) as [K _]. destruct (mid_notin _ _ _ _ K) as [_ K2]. assert (K3 : ~ In (d_name d) (map fst l2)) by (intros J; apply K2; rewrite map_app; apply in_or_app; now left).
    cbn [filter with_unit snd]. unfold with_unit. cbn [snd]. destruct (unitless d) eqn:U; cbn [negb].
    + unfold guessd in ST1. rewrite U in ST1. rewrite <- app_assoc in ST1. destruct (IH b1 l1 (l3 ++ [(d_name d, mkDim (d_class d) (d_name d) (d_data d) (guess_unit_from_varname t (d_name d)) (Some (fmt_of d)))]) _ ST1 P2) as (b' & Q' & X' & ST').
      exists b'. split; [exact Q'|]. split; [congruence|]. rewrite (vaxes_some guessd d (mkDim (d_class d) (d_name d) (d_data d) (guess_unit_from_varname t (d_name d)) (Some (fmt_of d)))); [|unfold guessd; now rewrite U|exact K3].
      cbn [map]. unfold guessed_entry at 1. unfold guessd at 1. cbn [snd]. rewrite U. cbn [entry d_name]. rewrite <- app_assoc in ST'. exact ST'.
    + unfold guessd in ST1. rewrite U in ST1. change ((d_name d, d) :: l2 ++ l3) with ([(d_name d, d)] ++ l2 ++ l3) in ST1. rewrite app_assoc in ST1. destruct (IH b1 _ _ _ ST1 P2) as (b' & Q' & X' & ST'). exists b'. split; [exact Q'|]. split; [congruence|].
      rewrite (vaxes_none guessd (d_name d) d l2 vs); [|unfold guessd; now rewrite U|reflexivity|exact K3]. rewrite <- app_assoc in ST'. exact ST'.
Qed.
Definition guessv (p : string * hf A) : string * hf A :=
  match h_unit (snd p) with Some _ => p | None => (fst p, set_unit (guess_unit_from_varname t (fst p)) (snd p)) end.
Lemma guess_var_step : forall (b : block A) ivs l1 k x l2, st b ivs (l1 ++ (k, x) :: l2) -> ~ In k (map fst ivs) ->
  exists b', guess_step t k b = Ok b' /\ b_x b' = b_x b /\ st b' ivs (l1 ++ guessv (k, x) :: l2).
Proof.
  intros b ivs l1 k x l2 ST N. destruct (st_keys _ _ _ ST) as [_ ND]. destruct (mid_notin _ _ _ _ ND) as [N1 N2].
  assert (GI : pd_get k (dd_map (b_ivar b)) = None) by (rewrite (st_dim _ _ _ _ ST); now apply get_absent). assert (GV : pd_get k (dd_map (b_var b)) = Some x) by (rewrite (st_var _ _ _ _ ST); now apply get_mid).
  unfold guess_step, b_contains, dd_contains, pd_has, b_get, dd_get. rewrite GI, GV. cbn [orb bind found_unit of_option]. unfold guessv. cbn [fst snd]. destruct (h_unit x) as [u|] eqn:U; [exists b; auto|].
  eexists. split; [reflexivity|]. split; [reflexivity|]. destruct ST as ((V & W & C) & EI & EV). pose proof (set_Inv k (set_unit (guess_unit_from_varname t k) x) _ V) as I3.
  assert (E3 : dabs (dd_set k (set_unit (guess_unit_from_varname t k) x) (b_var b)) = l1 ++ (k, set_unit (guess_unit_from_varname t k) x) :: l2) by (rewrite set_abs, store_set, EV by auto; now apply set_mid).
  split; [|split; [exact EI|exact E3]]. split; [exact I3|]. split; [exact W|]. cbn [b_var b_ivar]. intros k' x' d G I. rewrite get_set in G. destruct (String.eqb_spec k' k) as [->|]; [injection G as <-; exact (C k x d GV I)|exact (C k' x' d G I)].
Qed.
Lemma guess_vars : forall l2 (b : block A) ivs l1, st b ivs (l1 ++ l2) -> (forall p, In p l2 -> ~ In (fst p) (map fst ivs)) ->
  exists b', over (guess_step t) (map fst l2) b = Ok b' /\ b_x b' = b_x b /\ st b' ivs (l1 ++ map guessv l2).
Proof.
  induction l2 as [|[k x] l2 IH]; intros b ivs l1 ST H; [exists b; auto|]. destruct (guess_var_step b ivs l1 k x l2 ST (H _ (or_introl eq_refl))) as (b1 & Q1 & X1 & ST1). cbn [map fst over]. rewrite Q1. cbn [bind].
  change (guessv (k, x) :: l2) with ([guessv (k, x)] ++ l2) in ST1. rewrite app_assoc in ST1. destruct (IH b1 ivs _ ST1) as (b' & Q' & X' & ST'); [intros p I; apply H; now right|]. exists b'. split; [exact Q'|]. split; [congruence|]. rewrite <- app_assoc in ST'. exact ST'.
Qed.
Definition guessd_all (ivs : list (string * dim)) := filter with_unit ivs ++ map guessed_entry (filter (fun p => unitless (snd p)) ivs).
Lemma guessed_keys : forall ivs k, Forall proper ivs -> (In k (map fst (guessd_all ivs)) <-> In k (map fst ivs)).
Proof.
  intros ivs k P. unfold guessd_all. rewrite map_app, in_app_iff, map_map. assert (X : forall p, In p ivs -> fst (guessed_entry p) = fst p).
  { intros [n d] I. rewrite Forall_forall in P. destruct (P _ I) as [E _]. cbn [fst snd] in E. subst n. unfold guessed_entry, guessd. cbn [snd]. destruct (unitless d); reflexivity. }
  rewrite !in_map_iff. split.
  - intros [(p & E & I)|(p & E & I)]; apply filter_In in I as [I _]; exists p; split; auto. now rewrite <- (X p I).
  - intros (p & E & I). destruct (unitless (snd p)) eqn:U; [right|left]; exists p; (split; [|apply filter_In; split; [exact I|]]); auto. + now rewrite (X p I). + unfold with_unit. now rewrite U.
Qed.
Lemma guess_all : forall (b : block A) ivs vs, st b ivs vs -> Forall proper ivs -> NoDup (map fst ivs ++ map fst vs) ->
  exists b', guess_units t b = Ok b' /\ b_x b' = b_x b /\ st b' (guessd_all ivs) (map guessv (vaxes guessd ivs vs)).
Proof.
  intros b ivs vs ST P ND. destruct (NoDup_parts _ _ ND) as (_ & _ & ND3). unfold guess_units. rewrite (names_all b ivs vs ST ND), over_app. pose proof ST as ST0. rewrite <- (app_nil_r ivs) in ST0. destruct (guess_dims ivs b [] [] vs ST0 P) as (b1 & Q1 & X1 & ST1). rewrite Q1. cbn [bind].
  rewrite <- (vaxes_keys guessd ivs vs). destruct (guess_vars (vaxes guessd ivs vs) b1 _ [] ST1) as (b' & Q' & X' & ST').
  - intros p I J. apply (guessed_keys ivs _ P) in J. apply (ND3 _ J). rewrite <- (vaxes_keys guessd ivs vs). now apply in_map.
  - exists b'. split; [exact Q'|]. split; [congruence|exact ST'].
Qed.
End Guess.
