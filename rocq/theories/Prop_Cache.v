(** C73: the cache of files read. *)
From Coq Require Import Ascii String List Arith ZArith Bool Lia Permutation.
From Verif Require Import Model_NdArray Model_Dim Model_Array Model_DataDict Model_Block Model_Text Spec_H5File Prop_H5File Model_H5File Model_Path Model_Cache Spec_Cache Prop_Path.
Import ListNotations.
Local Open Scope nat_scope.
Local Open Scope list_scope.

(** ** Names *)
Lemma rfind_none : forall c s, rfind1 c s = 0 <-> ~ In c s.
Proof.
  induction s as [|d s IH]; cbn [rfind1 In]; [tauto|]. destruct (rfind1 c s) as [|n].
  - destruct (Ascii.eqb_spec d c); split; intros H; try discriminate; intuition (subst; auto).
  - split; intros H; [discriminate|]. exfalso. destruct IH as [_ IH]. discriminate IH. tauto.
Qed.
Lemma rfind_last : forall c a b, ~ In c b -> rfind1 c (a ++ c :: b) = S (length a).
Proof.
  induction a as [|d a IH]; intros b N; cbn [app rfind1 length].
  - apply rfind_none in N. now rewrite N, Ascii.eqb_refl.
  - now rewrite IH.
Qed.
Lemma last_of : forall c (s : list ascii), (~ In c s) \/ exists a b, s = a ++ c :: b /\ ~ In c b.
Proof.
  induction s as [|d s [N|[a [b [-> N]]]]]; [left; auto| |right; exists (d :: a), b; auto].
  destruct (ascii_dec d c) as [->|D]; [right; exists [], s; auto|left; intros [E|I]; auto].
Qed.
Lemma segment_of : forall p, exists dir seg, segment p dir seg /\ rfind1 sep p = length dir.
Proof.
  intros p. destruct (last_of sep p) as [N|[a [b [-> N]]]].
  - exists [], p. split; [repeat split; auto|now apply rfind_none].
  - exists (a ++ [sep]), b. split; [split; [now rewrite <- app_assoc|split; eauto]|]. rewrite rfind_last by auto. rewrite app_length. cbn. lia.
Qed.
Lemma segment_unique : forall p dir seg, segment p dir seg -> rfind1 sep p = length dir.
Proof.
  intros p dir seg [-> [N [->|[d ->]]]]; [now apply rfind_none|]. rewrite <- app_assoc. cbn [app]. rewrite rfind_last by auto. rewrite app_length. cbn. lia.
Qed.
Lemma existsb_dots : forall s, existsb (fun c => negb (Ascii.eqb c extsep)) s = true <-> exists c, In c s /\ c <> extsep.
Proof.
  intros s. rewrite existsb_exists. split; intros [c [I H]]; exists c; split; auto; destruct (Ascii.eqb_spec c extsep); auto; discriminate.
Qed.
Lemma dot_not_sep : extsep <> sep. Proof. intros E. discriminate E. Qed.
(** With a dot somewhere: *)
Lemma splitext_dot : forall a t, ~ In extsep t -> splitext (a ++ extsep :: t) =
  (if (rfind1 sep (a ++ extsep :: t) <? S (length a)) then if existsb (fun c => negb (Ascii.eqb c extsep)) (skipn (rfind1 sep (a ++ extsep :: t)) a) then (a, extsep :: t) else (a ++ extsep :: t, []) else (a ++ extsep :: t, [])).
Proof.
  intros a t N. unfold splitext. cbv zeta. rewrite (rfind_last extsep a t N). cbn [Nat.sub]. rewrite Nat.sub_0_r.
  rewrite firstn_app, Nat.sub_diag, firstn_all, firstn_O, app_nil_r. rewrite skipn_app, Nat.sub_diag, skipn_all, skipn_O. reflexivity.
Qed.
Lemma sep_after : forall a t, ~ In sep t -> rfind1 sep (a ++ extsep :: t) = rfind1 sep a.
Proof.
  intros a t N. destruct (last_of sep a) as [M|[x [y [-> M]]]].
  - rewrite (proj2 (rfind_none sep a) M). apply rfind_none. rewrite in_app_iff. cbn [In]. pose proof dot_not_sep. tauto.
  - rewrite rfind_last by auto. rewrite <- app_assoc. cbn [app]. apply rfind_last. rewrite in_app_iff. cbn [In]. pose proof dot_not_sep. tauto.
Qed.
Lemma extension_dots : forall a t, ~ In extsep t -> ~ In sep t -> extension a (extsep :: t) <-> existsb (fun c => negb (Ascii.eqb c extsep)) (skipn (rfind1 sep a) a) = true.
Proof.
  intros a t N N'. rewrite existsb_dots. split.
  - intros [_ [dir [seg [c [Sg [I D]]]]]]. exists c. split; auto. rewrite (segment_unique a dir seg Sg). destruct Sg as [-> _]. rewrite skipn_app, Nat.sub_diag, skipn_all. exact I.
  - intros [c [I D]]. split; [exists t; auto|]. destruct (segment_of a) as [dir [seg [Sg L]]]. exists dir, seg, c. split; auto. split; auto.
    rewrite L in I. destruct Sg as [-> _]. now rewrite skipn_app, Nat.sub_diag, skipn_all in I.
Qed.
Lemma last_dot : forall a t a' t', ~ In extsep t -> ~ In extsep t' -> a ++ extsep :: t = a' ++ extsep :: t' -> a = a' /\ t = t'.
Proof.
  intros a t a' t' N N' E. assert (L : length a = length a') by (pose proof (rfind_last extsep a t N) as X; rewrite E, (rfind_last extsep a' t' N') in X; lia).
  assert (H : a = a') by (apply (f_equal (firstn (length a))) in E; rewrite firstn_app, Nat.sub_diag, firstn_all, L, firstn_app, Nat.sub_diag, firstn_all in E; cbn [firstn] in E; now rewrite !app_nil_r in E).
  subst. apply app_inv_head in E. injection E as E. auto.
Qed.
Theorem C73_splitext : forall p a e, splitext p = (a, e) <-> parts p a e.
Proof.
  intros p.
  assert (W : parts p (fst (splitext p)) (snd (splitext p))).
  { destruct (last_of extsep p) as [N|[x [t [-> N]]]].
    - assert (E : splitext p = (p, [])) by (unfold splitext; now rewrite (proj2 (rfind_none extsep p) N)). rewrite E. cbn [fst snd]. split; [now rewrite app_nil_r|].
      right. split; auto. intros a' e' -> [[t [-> _]] _]. apply N. rewrite in_app_iff. right. left. reflexivity.
    - rewrite splitext_dot by auto. destruct (rfind1 sep (x ++ extsep :: t) <? S (length x)) eqn:Q.
      + apply Nat.ltb_lt in Q. assert (NS : ~ In sep t).
        { intros I. apply in_split in I as [u [v ->]]. destruct (last_of sep (sep :: v)) as [M|[y [z [Y M]]]]; [apply M; left; auto|].
          rewrite Y in Q. replace (x ++ extsep :: u ++ y ++ sep :: z) with ((x ++ extsep :: u ++ y) ++ sep :: z) in Q by (now rewrite <- !app_assoc; cbn [app]; rewrite <- app_assoc).
          rewrite rfind_last in Q by auto. rewrite !app_length in Q. cbn [length] in Q. lia. }
        rewrite sep_after by auto. destruct (existsb _ _) eqn:X; cbn [fst snd].
        * split; auto. left. apply extension_dots; auto.
        * split; [now rewrite app_nil_r|]. right. split; auto. intros a' e' E Ex. pose proof Ex as [[t' [-> [N1 N2]]] _]. apply last_dot in E as [-> ->]; auto.
          apply extension_dots in Ex; auto. congruence.
      + cbn [fst snd]. split; [now rewrite app_nil_r|]. right. split; auto. intros a' e' E Ex. pose proof Ex as [[t' [-> [N1 N2]]] _]. apply last_dot in E as [-> ->]; auto.
        rewrite sep_after in Q by auto. apply Nat.ltb_ge in Q. destruct (segment_of a') as [dir [seg [[E' _] L]]]. rewrite L, E', app_length in Q. lia. }
  intros a e. split; [intros E; rewrite E in W; exact W|]. intros [E H]. destruct W as [E' H']. destruct (splitext p) as [a' e'] eqn:Sp. cbn [fst snd] in E', H'.
  destruct H as [H|[-> H]], H' as [H'|[-> H']].
  - pose proof H as [[t [-> [N1 N2]]] _]. pose proof H' as [[t' [-> [N1' N2']]] _]. rewrite E in E'. apply last_dot in E' as [-> ->]; auto.
  - exfalso. exact (H' a e E H).
  - exfalso. exact (H a' e' E' H').
  - rewrite app_nil_r in E, E'. congruence.
Qed.
Print Assumptions C73_splitext.

Lemma os_split_tail : forall dir seg, segment (dir ++ seg) dir seg -> snd (os_split (dir ++ seg)) = seg.
Proof.
  intros dir seg [_ [N H]]. unfold os_split. cbv zeta. rewrite rev_app_distr.
  assert (T : take_while (fun c => negb (is_sep c)) (rev seg ++ rev dir) = rev seg).
  { apply take_while_all; [intros x I; apply in_rev in I; now rewrite (not_sep x seg N I)|].
    intros x t E. destruct H as [->|[d ->]]; [discriminate E|]. rewrite rev_app_distr in E. cbn [rev app] in E. injection E as <- _. unfold is_sep. now rewrite Ascii.eqb_refl. }
  rewrite T, rev_involutive. destruct (forallb _ _); reflexivity.
Qed.
(** The name in the cache: the last segment without its extension. *)
Theorem C73_namebase : forall dir seg a e, segment (dir ++ seg) dir seg -> parts seg a e -> namebase (dir ++ seg) = a /\ ext (dir ++ seg) = e.
Proof. intros dir seg a e Sg P. unfold namebase, ext. rewrite os_split_tail by auto. apply C73_splitext in P. rewrite P. auto. Qed.
Print Assumptions C73_namebase.

Lemma namebase_flat : forall p, ~ In sep (namebase p).
Proof.
  intros p. destruct (segment_of p) as [dir [seg [Sg _]]]. pose proof Sg as [-> [N _]]. destruct (splitext seg) as [a e] eqn:E. apply C73_splitext in E.
  rewrite (proj1 (C73_namebase dir seg a e Sg E)). destruct E as [-> _]. intros I. apply N. apply in_app_iff. auto.
Qed.
Lemma cache_path_inj : forall cd a b, ~ In sep a -> ~ In sep b -> cache_path cd a = cache_path cd b -> a = b.
Proof.
  intros cd a b Na Nb E. unfold cache_path in E. apply app_inv_tail in E.
  assert (J : forall s, ~ In sep s -> os_join1 cd s = match rev cd with [] => [] | d :: _ => if is_sep d then cd else cd ++ [sep] end ++ s).
  { intros [|c s] N; unfold os_join1; [destruct (rev cd) as [|d r]; [reflexivity|]; destruct (is_sep d); now rewrite app_nil_r|].
    rewrite (not_sep c (c :: s) N) by (left; auto). destruct (rev cd) as [|d r]; [reflexivity|]. destruct (is_sep d); [reflexivity|]. now rewrite <- app_assoc. }
  rewrite !J in E by auto. now apply app_inv_head in E.
Qed.

Section Claims.
Context {data content : Type} (save : data -> content * option err) (load : content -> result data).
Notation use := (@use data). Notation disk := (@disk content).
Implicit Types (u v : use) (d : disk) (us : list use) (c : content).

(** Files share a place in the cache exactly if their names without directory and
    extension are the same. *)
Theorem C73_place : forall cd u v, u_name u = None -> u_name v = None -> (key cd u = key cd v <-> namebase (u_file u) = namebase (u_file v)).
Proof.
  intros cd u v Hu Hv. unfold key. rewrite Hu, Hv. split; [|now intros ->]. intros E. apply cache_path_inj in E; auto using namebase_flat.
Qed.

Lemma step_other : forall cd u d k, k <> key cd u -> fst (read_to_cache save load cd u d) k = d k.
Proof.
  intros cd u d k N. unfold read_to_cache. cbv zeta.
  assert (P : forall c, put (key cd u) c d k = d k) by (intros c; unfold put; now rewrite eqbc_neq).
  destruct (d (key cd u)); [destruct (u_reread u)|]; try destruct (u_read u); try destruct (load _); try destruct (u_body _ _ _); cbn [fst]; auto.
Qed.

(** One use. *)
Theorem C73_use : forall cd u d, let k := key cd u in let '(d', (given, raised)) := read_to_cache save load cd u d in
  (forall k', k' <> k -> d' k' = d k') /\
  (* in the cache and not to be read again: this is given, and the cache stays as it is *)
  (forall c, d k = Some c -> u_reread u = false -> d' k = Some c /\
     (forall x, load c = Ok x -> given = Some (x, false) /\ (forall e, raised = Some e <-> u_body u x false = Err e)) /\ (forall e, load c = Err e -> given = None /\ raised = Some e)) /\
  (* otherwise the file is read; what the body leaves is stored, unless reading or the body fails *)
  (d k = None \/ u_reread u = true ->
     (forall e, u_read u = Err e -> given = None /\ raised = Some e /\ d' k = d k) /\
     (forall x, u_read u = Ok x -> given = Some (x, true) /\
        (forall e, u_body u x true = Err e -> raised = Some e /\ d' k = d k) /\
        (forall y, u_body u x true = Ok y -> raised = snd (save y) /\ d' k = Some (fst (save y))))).
Proof.
  intros cd u d k. destruct (read_to_cache save load cd u d) as [d' [given raised]] eqn:E.
  split. { intros k' N. pose proof (step_other cd u d k' N) as X. rewrite E in X. exact X. }
  assert (P : forall c, put k c d k = Some c) by (intros c; unfold put; now rewrite eqbc_refl).
  unfold read_to_cache in E. cbv zeta in E. fold k in E. split.
  - intros c Hc Hr. rewrite Hc, Hr in E. destruct (load c) as [x|e] eqn:L.
    + destruct (u_body u x false) as [y|e] eqn:B; injection E as <- <- <-; split; auto; split; try (intros e' X; discriminate X); intros x' X; injection X as <-; (split; [reflexivity|]);
      intros e'; rewrite B; split; intros X; try discriminate X; congruence.
    + injection E as <- <- <-. split; auto. split; [intros x X; discriminate X|]. intros e' X. injection X as <-. auto.
  - intros H.
    assert (E' : match u_read u with Err e => (d, (None, Some e)) | Ok x => match u_body u x true with Err e => (d, (Some (x, true), Some e)) | Ok y => (put k (fst (save y)) d, (Some (x, true), snd (save y))) end end = (d', (given, raised)))
      by (destruct H as [H|H]; rewrite H in E; [exact E|destruct (d k); exact E]).
    clear E. destruct (u_read u) as [x|e].
    + split; [intros e X; discriminate X|]. intros x' X. injection X as <-. destruct (u_body u x true) as [y|e]; injection E' as <- <- <-; (split; [reflexivity|]); split.
      * intros e X; discriminate X.
      * intros y' X. injection X as <-. auto.
      * intros e' X. injection X as <-. auto.
      * intros y' X; discriminate X.
    + injection E' as <- <- <-. split; [intros e' X; injection X as <-; auto|]. intros x X; discriminate X.
Qed.

Lemma uses_app : forall cd us vs d, uses save load cd (us ++ vs) d =
  (let '(d1, os) := uses save load cd us d in let '(d2, os') := uses save load cd vs d1 in (d2, os ++ os')).
Proof.
  induction us as [|u us IH]; intros vs d; cbn [app uses]; [now destruct (uses save load cd vs d)|]. destruct (read_to_cache save load cd u d) as [d1 o]. rewrite IH.
  destruct (uses save load cd us d1) as [d2 os]. now destruct (uses save load cd vs d2).
Qed.

(** What is in the cache stays as it is until it is read again on request, and is
    what all uses in between are given. *)
Theorem C73_kept : forall cd us d k c, d k = Some c -> Forall (fun u => key cd u = k -> u_reread u = false) us ->
  fst (uses save load cd us d) k = Some c /\
  Forall2 (fun u o => key cd u = k -> (forall x, load c = Ok x -> fst o = Some (x, false)) /\ forall e, load c = Err e -> o = (None, Some e)) us (snd (uses save load cd us d)).
Proof.
  induction us as [|u us IH]; intros d k c H F; cbn [uses]; [cbn; auto|]. inversion F as [|? ? F1 F2]; subst.
  pose proof (C73_use cd u d) as U. cbv zeta in U. destruct (read_to_cache save load cd u d) as [d1 [g r]]. destruct U as [U1 [U2 _]].
  assert (H1 : d1 k = Some c).
  { destruct (list_eq_dec ascii_dec k (key cd u)) as [E|N]; [subst k; now apply U2; auto|]. now rewrite U1. }
  specialize (IH d1 k c H1 F2). destruct (uses save load cd us d1) as [d2 os]. cbn [fst snd] in *. destruct IH as [I1 I2]. split; auto. constructor; auto.
  intros <-. destruct (U2 c H (F1 eq_refl)) as [_ [A B]]. split; [intros x X; now apply A|]. intros e X. destruct (B e X) as [-> ->]. reflexivity.
Qed.

(** Where the contents come from. *)
Theorem C73_origin : forall cd us d k c, fst (uses save load cd us d) k = Some c ->
  d k = Some c \/ exists u, In u us /\ key cd u = k /\ stores save u c.
Proof.
  induction us as [|u us IH]; intros d k c H; cbn [uses] in H; [cbn in H; auto|].
  pose proof (C73_use cd u d) as U. cbv zeta in U. destruct (read_to_cache save load cd u d) as [d1 [g r]]. destruct U as [U1 [U2 U3]].
  specialize (IH d1 k c). destruct (uses save load cd us d1) as [d2 os]. cbn [fst] in *. destruct (IH H) as [H1|[v [I [K St]]]]; [|right; exists v; cbn; auto].
  destruct (list_eq_dec ascii_dec k (key cd u)) as [->|N]; [|rewrite U1 in H1 by auto; auto].
  assert (X : (d (key cd u) = None \/ u_reread u = true) \/ exists c', d (key cd u) = Some c' /\ u_reread u = false) by (destruct (d (key cd u)), (u_reread u); eauto).
  destruct X as [X|[c' [X1 X2]]].
  - destruct (U3 X) as [A B]. destruct (u_read u) as [x|e] eqn:R; [|left; destruct (A e eq_refl) as [_ [_ A3]]; congruence].
    destruct (B x eq_refl) as [_ [B1 B2]]. destruct (u_body u x true) as [y|e] eqn:Bd; [|left; destruct (B1 e eq_refl); congruence].
    right. exists u. split; [left; auto|]. split; auto. exists x, y. repeat split; auto. destruct (B2 y eq_refl). congruence.
  - left. destruct (U2 c' X1 X2). congruence.
Qed.
(** And when there is something. *)
Theorem C73_present : forall cd us d k, fst (uses save load cd us d) k <> None <-> d k <> None \/ exists u c, In u us /\ key cd u = k /\ stores save u c.
Proof.
  intros cd us d k. split.
  - intros H. destruct (fst (uses save load cd us d) k) as [c|] eqn:E; [|congruence]. apply C73_origin in E as [E|[u [I [K St]]]]; [left; congruence|right; eauto].
  - revert d. induction us as [|u us IH]; intros d [H|[v [c [I [K St]]]]]; cbn [uses]; [exact H|destruct I| |].
    all: pose proof (C73_use cd u d) as U; cbv zeta in U; destruct (read_to_cache save load cd u d) as [d1 [g r]]; destruct U as [U1 [U2 U3]]; specialize (IH d1);
         destruct (uses save load cd us d1) as [d2 os]; cbn [fst] in *; apply IH.
    + left. destruct (list_eq_dec ascii_dec k (key cd u)) as [->|N]; [|now rewrite U1].
      destruct (d (key cd u)) as [c|] eqn:D; [|congruence]. destruct (u_reread u) eqn:R; [|destruct (U2 c eq_refl eq_refl); congruence].
      destruct (U3 (or_intror eq_refl)) as [A B]. destruct (u_read u) as [x|e]; [|destruct (A e eq_refl) as [_ [_ ->]]; discriminate].
      destruct (B x eq_refl) as [_ [B1 B2]]. destruct (u_body u x true) as [y|e]; [destruct (B2 y eq_refl) as [_ ->]; discriminate|destruct (B1 e eq_refl) as [_ ->]; discriminate].
    + destruct I as [->|I]; [|right; exists v, c; auto]. left. subst k. destruct St as [x [y [R [B ->]]]].
      destruct (d (key cd v)) as [c|] eqn:D; [|destruct (U3 (or_introl eq_refl)) as [_ A]; destruct (A x R) as [_ [_ A2]]; destruct (A2 y B) as [_ ->]; discriminate].
      destruct (u_reread v) eqn:Rr; [|destruct (U2 c eq_refl eq_refl); congruence].
      destruct (U3 (or_intror eq_refl)) as [_ A]; destruct (A x R) as [_ [_ A2]]; destruct (A2 y B) as [_ ->]; discriminate.
Qed.

(** The first use that stores decides what the later ones are given, whatever the
    file contains by then, and whichever file it is. *)
Theorem C73_later : forall cd pre u mid d x y z, d (key cd u) = None -> (forall v c, In v pre -> key cd v = key cd u -> ~ stores save v c) ->
  u_read u = Ok x -> u_body u x true = Ok y -> Forall (fun v => key cd v = key cd u -> u_reread v = false) mid -> load (fst (save y)) = Ok z ->
  let '(d', os) := uses save load cd (pre ++ u :: mid) d in
  d' (key cd u) = Some (fst (save y)) /\ nth_error os (length pre) = Some (Some (x, true), snd (save y)) /\
  forall i v, nth_error mid i = Some v -> key cd v = key cd u -> exists r, nth_error os (length pre + S i) = Some (Some (z, false), r).
Proof.
  intros cd pre u mid d x y z D Pre R B M L. rewrite uses_app. pose proof (C73_present cd pre d (key cd u)) as P. 
  assert (Len : forall us d0, length (snd (uses save load cd us d0)) = length us).
  { induction us as [|w us IH]; intros d0; cbn [uses]; auto. destruct (read_to_cache save load cd w d0) as [e1 o]. specialize (IH e1). destruct (uses save load cd us e1). cbn [snd length] in *. now rewrite IH. }
  specialize (Len pre d). destruct (uses save load cd pre d) as [d1 os1]. cbn [fst snd] in *. cbn [uses].
  assert (D1 : d1 (key cd u) = None).
  { destruct (d1 (key cd u)) as [c|] eqn:E; auto. exfalso. destruct P as [P _]. destruct (P ltac:(discriminate)) as [P1|[v [c' [I [K St]]]]]; [congruence|]. exact (Pre v c' I K St). }
  pose proof (C73_use cd u d1) as U. cbv zeta in U. destruct (read_to_cache save load cd u d1) as [d2 [g r]]. destruct U as [_ [_ U]]. destruct (U (or_introl D1)) as [_ U1].
  destruct (U1 x R) as [-> [_ U2]]. destruct (U2 y B) as [-> U3]. pose proof (C73_kept cd mid d2 _ _ U3 M) as [K1 K2]. destruct (uses save load cd mid d2) as [d3 os3]. cbn [fst snd] in *.
  split; [exact K1|]. split; [rewrite nth_error_app2, Len, Nat.sub_diag by lia; reflexivity|].
  intros i v Iv Kv. rewrite nth_error_app2 by lia. rewrite Len. replace (length pre + S i - length pre) with (S i) by lia. cbn [nth_error].
  clear - K2 Iv Kv L. revert os3 K2 i Iv. induction mid as [|w mid IH]; intros os3 K2 [|i] Iv; try discriminate Iv; inversion K2 as [|? o ? os' K3 K4]; subst; cbn [nth_error] in *.
  - injection Iv as ->. destruct (K3 Kv) as [A _]. exists (snd o). rewrite <- (A z L). now destruct o.
  - now apply IH.
Qed.

(** read_from_cache gives what a use without a request to read again is given. *)
Theorem C73_from_cache : forall cd name reread d,
  (d (cache_path cd name) = None -> read_from_cache load cd name reread d = Err GenericError) /\
  (forall u x, u_name u = Some name -> u_reread u = false -> read_from_cache load cd name reread d = Ok x -> fst (snd (read_to_cache save load cd u d)) = Some (x, false)) /\
  ((forall x, read_from_cache load cd name reread d <> Ok x) -> forall u, u_name u = Some name -> u_reread u = false -> d (cache_path cd name) <> None -> fst (snd (read_to_cache save load cd u d)) = None).
Proof.
  intros cd name reread d. split; [|split].
  - intros H. unfold read_from_cache. now rewrite H.
  - intros u x N R H. unfold read_from_cache in H. destruct (d (cache_path cd name)) as [c|] eqn:D; [|discriminate H].
    pose proof (C73_use cd u d) as U. cbv zeta in U. destruct (read_to_cache save load cd u d) as [d1 [g r]]. destruct U as [_ [U _]]. unfold key in U. rewrite N in U. destruct (U c D R) as [_ [A _]]. now apply A.
  - intros H u N R P. unfold read_from_cache in H. destruct (d (cache_path cd name)) as [c|] eqn:D; [|congruence].
    pose proof (C73_use cd u d) as U. cbv zeta in U. destruct (read_to_cache save load cd u d) as [d1 [g r]]. destruct U as [_ [U _]]. unfold key in U. rewrite N in U. destruct (U c D R) as [_ [_ A]].
    destruct (load c) as [x|e]; [exfalso; exact (H x eq_refl)|]. exact (proj1 (A e eq_refl)).
Qed.
End Claims.
Print Assumptions C73_place.
Print Assumptions C73_use.
Print Assumptions C73_kept.
Print Assumptions C73_origin.
Print Assumptions C73_present.
Print Assumptions C73_later.
Print Assumptions C73_from_cache.

(** Files of the same name in different directories, or of different formats, are
    confused: the second is not read. *)
Definition ex_use (f : string) (n : nat) : use := {| u_file := list_ascii_of_string f; u_name := None; u_reread := false; u_read := Ok n; u_body := fun x _ => Ok x |}.
Theorem C73_own_data_refuted : exists f g n m d, f <> g /\ n <> m /\ d (key ["c"%char] (ex_use g m)) = None /\
  snd (uses (fun x : nat => (x, None)) (fun c => Ok c) ["c"%char] [ex_use f n; ex_use g m] d) = [(Some (n, true), None); (Some (n, false), None)].
Proof. exists "on/chip.s2p"%string, "off/chip.s2p"%string, 1, 2, (fun _ => None). repeat split; discriminate. Qed.
Print Assumptions C73_own_data_refuted.
Example C73_ex_names : namebase (list_ascii_of_string "/home/u/amp.v2.s2p") = list_ascii_of_string "amp.v2" /\ namebase (list_ascii_of_string "x.d/.conf") = list_ascii_of_string ".conf" /\
  splitext (list_ascii_of_string "x.d/...a") = (list_ascii_of_string "x.d/...a", []) /\ splitext (list_ascii_of_string "x.d/b.c") = (list_ascii_of_string "x.d/b", list_ascii_of_string ".c").
Proof. vm_compute. auto. Qed.
(** The body adds one on reading; the second use gets this although the file has
    changed; the third fails and changes nothing; the last reads again. *)
Definition ex_u (n : nat) (reread fails : bool) : use :=
  {| u_file := list_ascii_of_string "d/a.s2p"; u_name := None; u_reread := reread; u_read := Ok n; u_body := fun x fresh => if fails then Err ValueError else Ok (if fresh : bool then x + 1 else x) |}.
Example C73_ex : let r := uses (fun x : nat => (x, None)) (fun c => Ok c) ["c"%char] [ex_u 5 false false; ex_u 7 false false; ex_u 8 true true; ex_u 9 true false; ex_u 10 false false] (fun _ => None) in
  snd r = [(Some (5, true), None); (Some (6, false), None); (Some (8, true), Some ValueError); (Some (9, true), None); (Some (10, false), None)] /\
  fst r (list_ascii_of_string "c/a.hdf5") = Some 10.
Proof. vm_compute. auto. Qed.

(** With HDF5 files as in C61: the later uses are given the block that the first
    one has left, as far as such files keep it.  [left] is what a failing write leaves. *)
Definition save_block {A D} (enc : dtype -> A -> D) dimenc (left : block A -> list (string * hset)) (b : block A) : list (string * hset) * option err :=
  match Model_H5File.save_hdf5 enc dimenc None b with Ok f => (f, None) | Err e => (left b, Some e) end.
Theorem C73_blocks : forall (A D : Type) (enc : dtype -> A -> D) dec dimenc lab left cd pre u mid d x (b : block A) ivs vs,
  let save := save_block enc dimenc left in let load := read_hdf5 dec lab in
  d (key cd u) = None -> (forall v c, In v pre -> key cd v = key cd u -> ~ stores save v c) ->
  u_read u = Ok x -> u_body u x true = Ok b -> Forall (fun v => key cd v = key cd u -> u_reread v = false) mid ->
  dd_items (b_ivar b) = Ok ivs -> dd_items (b_var b) = Ok vs -> dims_ok ivs -> vars_ok enc dec ivs vs ->
  exists b', block_read dimenc (in_list ivs) vs b' /\
    nth_error (snd (uses save load cd (pre ++ u :: mid) d)) (length pre) = Some (Some (x, true), None) /\
    forall i v, nth_error mid i = Some v -> key cd v = key cd u -> exists r, nth_error (snd (uses save load cd (pre ++ u :: mid) d)) (length pre + S i) = Some (Some (b', false), r).
Proof.
  intros A D enc dec dimenc lab left cd pre u mid d x b ivs vs save load Hd Pre R B M E1 E2 H1 H2.
  destruct (C61_roundtrip enc dec dimenc lab b ivs vs E1 E2 H1 H2) as [f [Sv Rd]]. destruct (Rd f (Permutation_refl f)) as [b' [Rb Bb]]. exists b'. split; [exact Bb|].
  assert (Es : save b = (f, None)) by (unfold save, save_block; now rewrite Sv).
  pose proof (C73_later save load cd pre u mid d x b b' Hd Pre R B M) as L. rewrite Es in L. cbn [fst snd] in L. specialize (L Rb).
  destruct (uses save load cd (pre ++ u :: mid) d) as [d' os]. destruct L as [_ L]. exact L.
Qed.
Print Assumptions C73_blocks.
Definition ex_h5 (read : result (block Z)) : use := {| u_file := list_ascii_of_string "d/a.s2p"; u_name := None; u_reread := false; u_read := read; u_body := fun x _ => Ok x |}.
Example C73_ex_blocks : exists ivs vs b', dd_items (b_ivar h5_b) = Ok ivs /\ dd_items (b_var h5_b) = Ok vs /\ dims_ok ivs /\ vars_ok h5_enc h5_dec ivs vs /\
  block_read (fun l => l) (in_list ivs) vs b' /\
  map (fun o => option_map snd (fst o)) (snd (uses (save_block h5_enc (fun l => l) (fun _ => [])) (read_hdf5 h5_dec LZ) ["c"%char] [ex_h5 (Err KeyError); ex_h5 (Ok h5_b); ex_h5 (Err KeyError)] (fun _ => None))) = [None; Some true; Some false].
Proof.
  exists [("f", h5_f); ("i", h5_i); ("j", h5_j)]%string, [("a/b", h5_x); ("S", h5_m)]%string. destruct C61_ex_ok as [_ [_ [D3 [V3 _]]]].
  destruct (C73_blocks Z Z h5_enc h5_dec (fun l => l) LZ (fun _ => []) ["c"%char] [] (ex_h5 (Ok h5_b)) [] (fun _ => None) h5_b h5_b _ _ eq_refl ltac:(intros v c []) eq_refl eq_refl ltac:(constructor) eq_refl eq_refl D3 V3) as [b' [Bb _]].
  exists b'. split; [reflexivity|]. split; [reflexivity|]. split; [exact D3|]. split; [exact V3|]. split; [exact Bb|]. vm_compute. reflexivity.
Qed.
