(** Properties of token streams and of HDF5 names: C42, C38. *)
From Coq Require Import Ascii String List Bool Arith Lia.
From Verif Require Import Model_NdArray Model_Text Model_Stream Model_Hdf5.
Import ListNotations.
Local Open Scope list_scope.

(** ** C42 *)
Section C42.
  Variables R V : Type.
  Implicit Type s : stream R.
  Definition tagged (name : string) (t : token R) : Prop := t_tag t = name.

  Lemma many_loop_ok : forall name (func : R -> V) s cur acc, exists pre rest,
    cur :: s = pre ++ rest /\ Forall (tagged name) pre /\ (forall t r, rest = t :: r -> ~ tagged name t) /\
    many_loop R V name func cur s acc = (Ok (acc ++ map (fun t => func (t_rad t)) pre), rest).
  Proof.
    intros name func s. induction s as [|t s IH]; intros cur acc; cbn [many_loop].
    - destruct (String.eqb (t_tag cur) name) eqn:E.
      + apply String.eqb_eq in E. exists [cur], []. repeat split; auto. discriminate.
      + apply String.eqb_neq in E. exists [], [cur]. cbn [map]. rewrite app_nil_r. repeat split; auto. intros ? ? [= <- <-]. auto.
    - destruct (String.eqb (t_tag cur) name) eqn:E.
      + apply String.eqb_eq in E. destruct (IH t (acc ++ [func (t_rad cur)])) as [pre [rest [H1 [H2 [H3 H4]]]]].
        exists (cur :: pre), rest. rewrite H4. cbn [map app]. rewrite <- app_assoc, H1. auto.
      + apply String.eqb_neq in E. exists [], (cur :: t :: s). cbn [map]. rewrite app_nil_r. repeat split; auto. intros ? ? [= <- <-]. auto.
  Qed.
  (** ManyOptional takes the longest run of tokens with the tag. *)
  Theorem C42_many : forall name (func : R -> V) s, s <> [] -> exists pre rest,
    s = pre ++ rest /\ Forall (tagged name) pre /\ (forall t r, rest = t :: r -> ~ tagged name t) /\
    many_optional R V name func s = (Ok (map (fun t => func (t_rad t)) pre), rest).
  Proof. intros name func [|t s] N; [congruence|]. cbn [many_optional s_next]. apply (many_loop_ok name func s t []). Qed.
  (** At the end of the stream it does not return an empty list but raises. *)
  Theorem C42_many_at_end : forall name (func : R -> V), many_optional R V name func [] = (Err StopIter, []).
  Proof. reflexivity. Qed.
  (** Optional takes one token with the tag or none. *)
  Theorem C42_optional : forall name (func : R -> V) s,
    (exists t s', s = t :: s' /\ tagged name t /\ optional R V name func s = (Ok (Some (func (t_rad t))), s')) \/
    ((forall t s', s = t :: s' -> ~ tagged name t) /\ optional R V name func s = (Ok None, s)).
  Proof.
    intros name func [|t s]; cbn [optional s_next]; [right; split; auto; discriminate|].
    destruct (String.eqb (t_tag t) name) eqn:E.
    - apply String.eqb_eq in E. left. eauto.
    - apply String.eqb_neq in E. right. split; auto. intros ? ? [= <- <-]. auto.
  Qed.
  (** OneOf takes one token with one of the tags; otherwise it raises, having
      taken the token it looked at and nothing else. *)
  Theorem C42_one_of : forall names (func : R -> V) s,
    (s = [] /\ one_of R V names func s = (Err StopIter, [])) \/
    (exists t s', s = t :: s' /\
      ((In (t_tag t) names /\ one_of R V names func s = (Ok [t_rad t], s')) \/
       (~ In (t_tag t) names /\ one_of R V names func s = (Err GenericError, s')))).
  Proof.
    intros names func [|t s]; cbn [one_of s_next]; [left; auto|]. right. exists t, s. split; auto.
    destruct (existsb (String.eqb (t_tag t)) names) eqn:E.
    - left. apply existsb_exists in E as [x [I E]]. apply String.eqb_eq in E. subst x. auto.
    - right. split; auto. intros I. assert (C : existsb (String.eqb (t_tag t)) names = true); [|congruence].
      apply existsb_exists. exists (t_tag t). split; auto. apply String.eqb_refl.
  Qed.
  Theorem C42_end : forall s, fst (expect_end R s) = Ok tt <-> s = [].
  Proof. intros [|t s]; cbn; split; intros; congruence. Qed.
  (** No parser puts anything back that was not there: what is left is always a
      suffix of the stream. *)
  Definition suffix_of (s' s : stream R) : Prop := exists c, s = c ++ s'.
  Theorem C42_suffix : forall name names (func : R -> V) s,
    suffix_of (snd (many_optional R V name func s)) s /\ suffix_of (snd (optional R V name func s)) s /\
    suffix_of (snd (one_of R V names func s)) s /\ suffix_of (snd (expect_end R s)) s.
  Proof.
    intros name names func s. repeat split.
    - destruct s as [|t s]; [exists []; auto|]. destruct (C42_many name func (t :: s)) as [pre [rest [H [_ [_ ->]]]]]; [discriminate|]. exists pre. auto.
    - destruct (C42_optional name func s) as [[t [s' [-> [_ ->]]]]|[_ ->]]; [exists [t]|exists []]; auto.
    - destruct (C42_one_of names func s) as [[-> ->]|[t [s' [-> [[_ ->]|[_ ->]]]]]]; [exists []|exists [t]|exists [t]]; auto.
    - destruct s as [|t s]; [exists []|exists [t]]; auto.
  Qed.
End C42.
Print Assumptions C42_many.
Print Assumptions C42_many_at_end.
Print Assumptions C42_optional.
Print Assumptions C42_one_of.
Print Assumptions C42_end.
Print Assumptions C42_suffix.
(** The conversion function given to One and OneOf is not applied. *)
Theorem C42_one_function_refuted : exists (name : string) (func : nat -> nat) s x s',
  one nat nat name func s = (Ok [x], s') /\ (forall t s'', s = t :: s'' -> func (t_rad t) <> x).
Proof. exists "A"%string, S, [mkTok "A"%string 0 5], 5, []. split; [reflexivity|]. intros ? ? [= <- <-]. discriminate. Qed.
Print Assumptions C42_one_function_refuted.
Example C42_example : let s := [mkTok "A"%string 0 5; mkTok "A"%string 1 6; mkTok "B"%string 2 7] in
  s <> [] /\ many_optional nat nat "A" S s = (Ok [6; 7], [mkTok "B"%string 2 7]) /\ optional nat nat "B" S s = (Ok None, s) /\
  one_of nat nat ["B"%string; "A"%string] S s = (Ok [5], [mkTok "A"%string 1 6; mkTok "B"%string 2 7]).
Proof. repeat split. discriminate. Qed.

(** ** C38 *)
Definition has_no (c : ascii) (s : list ascii) : Prop := ~ In c s.
Theorem C38_no_separator : forall s, has_no slash (escape_varname s).
Proof.
  intros s. unfold has_no, escape_varname, replace_char. rewrite in_map_iff. intros [c [E _]].
  destruct (Ascii.eqb c slash) eqn:Q; [discriminate|]. apply Ascii.eqb_neq in Q. congruence.
Qed.
Print Assumptions C38_no_separator.
Theorem C38_restored : forall s, has_no backslash s -> unescape_varname (escape_varname s) = s.
Proof.
  induction s as [|c s IH]; intros H; [reflexivity|]. unfold unescape_varname, escape_varname, replace_char in *. cbn [map].
  rewrite IH by (intros I; apply H; right; auto). f_equal.
  destruct (Ascii.eqb c slash) eqn:Q; [apply Ascii.eqb_eq in Q; subst; reflexivity|].
  destruct (Ascii.eqb c backslash) eqn:Q2; auto. apply Ascii.eqb_eq in Q2. exfalso. apply H. left. auto.
Qed.
Print Assumptions C38_restored.
Theorem C38_injective : forall s t, has_no backslash s -> has_no backslash t -> escape_varname s = escape_varname t -> s = t.
Proof. intros s t Hs Ht E. rewrite <- (C38_restored s Hs), <- (C38_restored t Ht). now rewrite E. Qed.
Print Assumptions C38_injective.
(** A name is restored only if it has no backslash. *)
Theorem C38_only_then : forall s, unescape_varname (escape_varname s) = s -> has_no backslash s.
Proof.
  intros s E I. rewrite <- E in I. unfold unescape_varname, replace_char in I. apply in_map_iff in I as [c [Q _]].
  destruct (Ascii.eqb c backslash) eqn:F; [discriminate|]. apply Ascii.eqb_neq in F. congruence.
Qed.
Print Assumptions C38_only_then.
Theorem C38_collision_refuted : exists s t, s <> t /\ escape_varname s = escape_varname t.
Proof. exists (chars "a/b"), (chars "a\b"). split; [discriminate|reflexivity]. Qed.
Print Assumptions C38_collision_refuted.
Example C38_example : has_no backslash (chars "Re(S/T)") /\ escape_varname (chars "Re(S/T)") = chars "Re(S\T)".
Proof. split; [|reflexivity]. unfold has_no. cbn. intuition discriminate. Qed.
