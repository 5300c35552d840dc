(** C80: arranging figures. *)
From Coq Require Import ZArith List Bool Lia.
From Verif Require Import Model_Figures Spec_Figures.
Import ListNotations.
Local Open Scope Z_scope.
Local Open Scope list_scope.

Definition asked (m : move) : window := mkWin (f_w (fst m)) (f_h (fst m)) (fst (snd m)) (snd (snd m)).
Definition shown (W H : Z) (m : move) : window := mkWin (f_w (fst m)) (f_h (fst m)) (fst (placed W H m)) (snd (placed W H m)).

Lemma pass_order : forall W H xg yg x0 figs x y mh, let r := one_pass W H xg yg x0 figs x y mh in map fst (fst r) ++ snd r = figs.
Proof.
  intros W H xg yg x0. induction figs as [|f figs IH]; intros x y mh; cbn [one_pass]; [reflexivity|]. cbv zeta in *.
  destruct (fits_w W f x); [cbn [fst snd map app]; now rewrite IH|]. destruct (fits_h H f _); [cbn [fst snd map app]; now rewrite IH|reflexivity].
Qed.
(** Every figure is moved once, in order. *)
Theorem C80_order : forall fuel W H xg yg left o figs out, arrange fuel W H xg yg left o figs = Some out -> map fst out = figs.
Proof.
  induction fuel as [|fuel IH]; intros W H xg yg left o figs out E; [discriminate E|]. cbn [arrange] in E. cbv zeta in E.
  pose proof (pass_order W H xg yg (left + o) figs (left + o) o 0) as P. cbv zeta in P. destruct (one_pass _ _ _ _ _ _ _ _ _) as [ms rest]. cbn [fst snd] in *.
  destruct rest as [|f rest]; [injection E as <-; now rewrite app_nil_r in P|].
  destruct (arrange fuel W H xg yg left 10 (f :: rest)) as [ms'|] eqn:A; [|discriminate E]. cbn [option_map] in E. injection E as <-. rewrite map_app. etransitivity; [|exact P]. f_equal. exact (IH _ _ _ _ _ _ _ _ A).
Qed.
Print Assumptions C80_order.

(** No window leaves the screen, unless it is larger; one that was to be on it is where it was asked to be. *)
Theorem C80_screen : forall W H m, on_screen W H (shown W H m) /\
  (0 <= w_x (asked m) -> 0 <= w_y (asked m) -> w_x (asked m) + w_w (asked m) <= W -> w_y (asked m) + w_h (asked m) <= H -> shown W H m = asked m).
Proof.
  intros W H [[w h] [x y]]. unfold on_screen, shown, asked, placed. cbn [w_x w_y w_w w_h fst snd f_w f_h]. split; [lia|]. intros. f_equal; lia.
Qed.
Print Assumptions C80_screen.

(** ** Ends *)
Lemma pass_first : forall W H xg yg x0 f figs y, x0 + f_w f < W \/ y + yg + f_h f < H ->
  (length (snd (one_pass W H xg yg x0 (f :: figs) x0 y 0)) <= length figs)%nat.
Proof.
  intros W H xg yg x0 f figs y C. assert (L : forall a b c, (length (snd (one_pass W H xg yg x0 figs a b c)) <= length figs)%nat).
  { intros a b c. pose proof (pass_order W H xg yg x0 figs a b c) as P. cbv zeta in P. apply (f_equal (@length _)) in P. rewrite app_length in P. lia. }
  cbn [one_pass]. cbv zeta. unfold fits_w, fits_h. destruct (Z.ltb_spec (x0 + f_w f) W); [cbn [snd]; apply L|]. destruct (Z.ltb_spec (y + 0 + yg + f_h f) H); [cbn [snd]; apply L|lia].
Qed.
Definition has_place (W H yg left : Z) (f : fig) : Prop := left + 10 + f_w f < W \/ 10 + yg + f_h f < H.
Lemma arrange_ends : forall n fuel W H xg yg left figs, (length figs <= n)%nat -> (n < fuel)%nat -> Forall (has_place W H yg left) figs ->
  exists out, arrange fuel W H xg yg left 10 figs = Some out.
Proof.
  induction n as [|n IH]; intros fuel W H xg yg left figs L LF F; (destruct fuel as [|fuel]; [lia|]); cbn [arrange]; cbv zeta.
  - destruct figs; [|cbn in L; lia]. cbn. eauto.
  - destruct figs as [|f figs]; [cbn; eauto|]. inversion F as [|? ? F1 F2]; subst. pose proof (pass_first W H xg yg (left + 10) f figs 10 F1) as PF.
    pose proof (pass_order W H xg yg (left + 10) (f :: figs) (left + 10) 10 0) as P. cbv zeta in P. destruct (one_pass _ _ _ _ _ _ _ _ _) as [ms rest]. cbn [fst snd] in *.
    destruct rest as [|g rest]; [eauto|]. destruct (IH fuel W H xg yg left (g :: rest)) as [out ->]; [cbn [length] in *; lia|lia| |cbn; eauto].
    rewrite <- P in F. apply Forall_app in F. apply F.
Qed.
(** The calls end if each figure would fit in the first row or the second one. *)
Theorem C80_ends : forall W H xg yg left o figs, Forall (has_place W H yg left) figs -> exists out, arrange (S (S (length figs))) W H xg yg left o figs = Some out.
Proof.
  intros W H xg yg left o figs F. cbn [arrange]. cbv zeta. pose proof (pass_order W H xg yg (left + o) figs (left + o) o 0) as P. cbv zeta in P.
  destruct (one_pass _ _ _ _ _ _ _ _ _) as [ms rest]. cbn [fst snd] in *. destruct rest as [|g rest]; [eauto|].
  destruct (arrange_ends (length (g :: rest)) (S (length figs)) W H xg yg left (g :: rest)) as [out E]; [auto| |rewrite <- P in F; apply Forall_app in F; apply F|].
  - apply (f_equal (@length _)) in P. rewrite app_length in P. lia.
  - change (arrange (S (length figs)) W H xg yg left 10 (g :: rest)) with (arrange (S (length figs)) W H xg yg left 10 (g :: rest)) in E. cbn [arrange] in E. cbv zeta in E. rewrite E. cbn. eauto.
Qed.
Print Assumptions C80_ends.
(** Otherwise it calls itself for ever, once that figure comes first. *)
Theorem C80_endless : forall fuel W H xg yg left f figs, ~ has_place W H yg left f -> arrange fuel W H xg yg left 10 (f :: figs) = None.
Proof.
  intros fuel W H xg yg left f figs N. unfold has_place in N. induction fuel as [|fuel IH]; [reflexivity|]. cbn [arrange one_pass]. cbv zeta. unfold fits_w, fits_h.
  destruct (Z.ltb_spec (left + 10 + f_w f) W); [lia|]. destruct (Z.ltb_spec (10 + 0 + yg + f_h f) H); [lia|]. cbn [fst snd]. now rewrite IH.
Qed.
Print Assumptions C80_endless.

(** ** Windows do not overlap *)
Section Apart.
  Variables (W H xg yg x0 : Z).
  Hypotheses (XG : 0 <= xg) (YG : 0 < yg).
  Definition sized (f : fig) : Prop := 0 <= f_w f /\ 0 <= f_h f.
  (** A window asked for before is cleared by what comes from (x, y) on. *)
  Definition behind (x y mh : Z) (a : window) : Prop :=
    w_y a + w_h a + yg <= y \/ (w_y a = y /\ w_x a + w_w a + xg <= x /\ w_h a <= mh).
  Lemma behind_all : forall figs x y mh a, Forall sized figs -> 0 <= mh -> behind x y mh a ->
    forall m, In m (fst (one_pass W H xg yg x0 figs x y mh)) -> apart xg yg a (asked m).
  Proof.
    induction figs as [|f figs IH]; intros x y mh a F MH B m I; cbn [one_pass] in I; [destruct I|]. cbv zeta in I. inversion F as [|? ? [F1 F2] F']; subst.
    destruct (fits_w W f x).
    - cbn [fst In] in I. destruct I as [<-|I].
      + unfold apart, asked. cbn [w_x w_y fst snd]. destruct B as [B|(B1 & B2 & B3)]; [right; lia|left; lia].
      + revert I. apply IH; auto; [lia|]. unfold behind in *. destruct B as [B|(B1 & B2 & B3)]; [left; lia|right; lia].
    - destruct (fits_h H f _); [|destruct I]. assert (B' : w_y a + w_h a + yg <= y + mh + yg) by (destruct B as [B|(B1 & B2 & B3)]; lia). cbn [fst In] in I. destruct I as [<-|I].
      + right. cbn [asked w_y fst snd]. exact B'.
      + revert I. apply IH; auto; [lia|]. left. exact B'.
  Qed.
  (** From one move on: the next one is beside it or lower. *)
  Lemma pass_beside : forall figs x y mh l1 a b l2, Forall sized figs -> 0 <= mh ->
    fst (one_pass W H xg yg x0 figs x y mh) = l1 ++ a :: b :: l2 -> beside xg (asked a) (asked b) ->
    forall m, In m l2 -> apart xg yg (asked b) (asked m).
  Proof.
    induction figs as [|f figs IH]; intros x y mh l1 a b l2 F MH E B m I; cbn [one_pass] in E; [destruct l1; discriminate E|]. cbv zeta in E. inversion F as [|? ? [F1 F2] F']; subst.
    assert (NEXT : forall x1 y1 mh1, 0 <= mh1 -> fst (one_pass W H xg yg x0 figs x1 y1 mh1) = b :: l2 -> w_y (asked b) = y1 -> forall m, In m l2 -> apart xg yg (asked b) (asked m)).
    { clear - F' XG YG. intros x1 y1 mh1 MH1 E1 EY m I. destruct figs as [|g figs]; cbn [one_pass] in E1; [discriminate E1|]. cbv zeta in E1. pose proof (Forall_inv F') as [G1 G2]. pose proof (Forall_inv_tail F') as G'.
      destruct (fits_w W g x1).
      - cbn [fst] in E1. injection E1 as E1 E2. rewrite <- E2 in I. revert I. apply behind_all; auto; [lia|]. subst b. right. cbn [asked w_x w_y w_w w_h fst snd]. lia.
      - destruct (fits_h H g _); [|discriminate E1]. cbn [fst] in E1. injection E1 as E1 E2. subst b. cbn [asked w_y fst snd] in *. lia. }
    destruct (fits_w W f x).
    - cbn [fst] in E. destruct l1 as [|c l1]; cbn [app] in E.
      + injection E as E1 E2. destruct B as [B1 B2]. apply (NEXT (x + f_w f + xg) y (Z.max mh (f_h f))); auto; [lia|]. rewrite B1. subst a. reflexivity.
      + injection E as E1 E2. eapply IH; [exact F'| |exact E2|exact B|exact I]. lia.
    - destruct (fits_h H f _); [|destruct l1; discriminate E]. cbn [fst] in E. destruct l1 as [|c l1]; cbn [app] in E.
      + injection E as E1 E2. destruct B as [B1 B2]. apply (NEXT (x0 + f_w f + xg) (y + mh + yg) 0); auto; [lia|]. rewrite B1. subst a. reflexivity.
      + injection E as E1 E2. eapply IH; [exact F'| |exact E2|exact B|exact I]. lia.
  Qed.
End Apart.
(** In one pass over the screen a window that stands next to the one before it is
    cleared by all later ones; so is the first, if it fits in the width. *)
Theorem C80_apart : forall W H xg yg x0 y0 figs l1 a b l2, 0 <= xg -> 0 < yg -> Forall sized figs ->
  fst (one_pass W H xg yg x0 figs x0 y0 0) = l1 ++ a :: b :: l2 -> beside xg (asked a) (asked b) -> Forall (fun m => apart xg yg (asked b) (asked m)) l2.
Proof. intros W H xg yg x0 y0 figs l1 a b l2 XG YG F E B. apply Forall_forall. intros m I. eapply (pass_beside W H xg yg x0 XG YG figs x0 y0 0); eauto. lia. Qed.
Print Assumptions C80_apart.
Theorem C80_apart_first : forall W H xg yg x0 y0 figs a l2, 0 <= xg -> 0 < yg -> Forall sized figs -> x0 + f_w (fst a) < W ->
  fst (one_pass W H xg yg x0 figs x0 y0 0) = a :: l2 -> asked a = mkWin (f_w (fst a)) (f_h (fst a)) x0 y0 /\ Forall (fun m => apart xg yg (asked a) (asked m)) l2.
Proof.
  intros W H xg yg x0 y0 figs a l2 XG YG F FW E. destruct figs as [|f figs]; cbn [one_pass] in E; [discriminate E|]. cbv zeta in E. inversion F as [|? ? [F1 F2] F']; subst. unfold fits_w in E.
  destruct (Z.ltb_spec (x0 + f_w f) W).
  - cbn [fst] in E. injection E as E1 E2. subst a l2. split; [reflexivity|]. apply Forall_forall. intros m I. revert I. apply behind_all; auto; [lia|]. right. cbn [asked w_x w_y w_w w_h fst snd]. lia.
  - destruct (fits_h H f _); [|discriminate E]. cbn [fst] in E. injection E as E1 E2. subst a. cbn [fst] in FW. lia.
Qed.
Print Assumptions C80_apart_first.

(** Each next window stands next to the one before it if it fits there in the
    width, and otherwise begins a lower row at the left. *)
Lemma pass_head : forall W H xg yg x0 figs x y mh b l, fst (one_pass W H xg yg x0 figs x y mh) = b :: l ->
  (asked b = mkWin (f_w (fst b)) (f_h (fst b)) x y /\ x + f_w (fst b) < W) \/
  (asked b = mkWin (f_w (fst b)) (f_h (fst b)) x0 (y + mh + yg) /\ W <= x + f_w (fst b) /\ y + mh + yg + f_h (fst b) < H).
Proof.
  intros W H xg yg x0 figs x y mh b l E. destruct figs as [|f figs]; cbn [one_pass] in E; [discriminate E|]. cbv zeta in E. unfold fits_w, fits_h in E.
  destruct (Z.ltb_spec (x + f_w f) W); [|destruct (Z.ltb_spec (y + mh + yg + f_h f) H); [|discriminate E]]; cbn [fst] in E; injection E as E1 E2; subst b; [left|right]; (split; [reflexivity|]); cbn [fst]; lia.
Qed.
Lemma pass_rows : forall W H xg yg x0 figs x y mh l1 a b l2, 0 < yg -> 0 <= mh -> Forall sized figs ->
  fst (one_pass W H xg yg x0 figs x y mh) = l1 ++ a :: b :: l2 ->
  (beside xg (asked a) (asked b) /\ w_x (asked b) + w_w (asked b) < W) \/
  (w_x (asked b) = x0 /\ w_y (asked a) + yg <= w_y (asked b) /\ W <= w_x (asked a) + w_w (asked a) + xg + w_w (asked b) /\ w_y (asked b) + w_h (asked b) < H).
Proof.
  intros W H xg yg x0. induction figs as [|f figs IH]; intros x y mh l1 a b l2 YG MH F E; cbn [one_pass] in E; [destruct l1; discriminate E|]. cbv zeta in E.
  pose proof (Forall_inv F) as [F1 F2]. pose proof (Forall_inv_tail F) as F'.
  assert (HD : forall x1 y1 mh1, 0 <= mh1 -> fst (one_pass W H xg yg x0 figs (x1 + f_w f + xg) y1 mh1) = b :: l2 -> a = (f, (x1, y1)) ->
    (beside xg (asked a) (asked b) /\ w_x (asked b) + w_w (asked b) < W) \/
    (w_x (asked b) = x0 /\ w_y (asked a) + yg <= w_y (asked b) /\ W <= w_x (asked a) + w_w (asked a) + xg + w_w (asked b) /\ w_y (asked b) + w_h (asked b) < H)).
  { intros x1 y1 mh1 M1 E1 ->. destruct (pass_head _ _ _ _ _ _ _ _ _ _ _ E1) as [(-> & L)|(-> & L & L')]; [left; split; [split; reflexivity|exact L]|right].
    cbn [asked w_x w_y w_w w_h fst snd]. split; [reflexivity|]. lia. }
  destruct (fits_w W f x); [|destruct (fits_h H f _); [|destruct l1; discriminate E]]; cbn [fst] in E; (destruct l1 as [|c l1]; cbn [app] in E; injection E as E1 E2).
  - eapply HD; [|exact E2|auto]. lia.
  - eapply IH; [exact YG| |exact F'|exact E2]. lia.
  - eapply HD; [|exact E2|auto]. lia.
  - eapply IH; [exact YG| |exact F'|exact E2]. lia.
Qed.
Theorem C80_rows : forall W H xg yg x0 y0 figs l1 a b l2, 0 < yg -> Forall sized figs ->
  fst (one_pass W H xg yg x0 figs x0 y0 0) = l1 ++ a :: b :: l2 ->
  (beside xg (asked a) (asked b) /\ w_x (asked b) + w_w (asked b) < W) \/
  (w_x (asked b) = x0 /\ w_y (asked a) + yg <= w_y (asked b) /\ W <= w_x (asked a) + w_w (asked a) + xg + w_w (asked b) /\ w_y (asked b) + w_h (asked b) < H).
Proof. intros W H xg yg x0 y0 figs l1 a b l2 YG F E. apply (pass_rows W H xg yg x0 figs x0 y0 0 l1 a b l2); auto. lia. Qed.
Print Assumptions C80_rows.

(** Over all passes: a window stands next to the one before it or at the left
    edge, with the offset given or, in a later pass, with the offset ten. *)
Lemma arrange_head : forall fuel W H xg yg left o figs b l, arrange fuel W H xg yg left o figs = Some (b :: l) ->
  w_x (asked b) = left + o \/ w_x (asked b) = left + 10.
Proof.
  induction fuel as [|fuel IH]; intros W H xg yg left o figs b l E; [discriminate E|]. cbn [arrange] in E. cbv zeta in E.
  destruct (one_pass W H xg yg (left + o) figs (left + o) o 0) as [ms rest] eqn:P. cbn [fst snd] in E.
  assert (HD : forall l', ms = b :: l' -> w_x (asked b) = left + o).
  { intros l' ->. destruct (pass_head W H xg yg (left + o) figs (left + o) o 0 b l') as [[-> _]|[-> _]]; [now rewrite P|reflexivity|reflexivity]. }
  destruct rest as [|f rest]; [injection E as E; left; now apply (HD l)|]. destruct (arrange fuel W H xg yg left 10 (f :: rest)) as [out|] eqn:A; [|discriminate E]. cbn [option_map] in E. injection E as E.
  destruct ms as [|m ms]; cbn [app] in E; [subst out; right; destruct (IH _ _ _ _ _ _ _ _ _ A); auto|]. injection E as -> E. left. now apply (HD ms).
Qed.
Theorem C80_left : forall fuel W H xg yg left o figs out l1 a b l2, 0 < yg -> Forall sized figs -> arrange fuel W H xg yg left o figs = Some out ->
  out = l1 ++ a :: b :: l2 -> beside xg (asked a) (asked b) \/ w_x (asked b) = left + o \/ w_x (asked b) = left + 10.
Proof.
  induction fuel as [|fuel IH]; intros W H xg yg left o figs out l1 a b l2 YG F E EO; [discriminate E|]. cbn [arrange] in E. cbv zeta in E.
  pose proof (pass_order W H xg yg (left + o) figs (left + o) o 0) as PO. cbv zeta in PO.
  destruct (one_pass W H xg yg (left + o) figs (left + o) o 0) as [ms rest] eqn:P. cbn [fst snd] in E, PO.
  assert (IN : forall k1 k2, ms = k1 ++ a :: b :: k2 -> beside xg (asked a) (asked b) \/ w_x (asked b) = left + o \/ w_x (asked b) = left + 10).
  { intros k1 k2 EM. destruct (C80_rows W H xg yg (left + o) o figs k1 a b k2 YG F) as [[B _]|[X _]]; [now rewrite P|auto|auto]. }
  destruct rest as [|f rest]; [injection E as ->; now apply (IN l1 l2)|].
  assert (FR : Forall sized (f :: rest)) by (rewrite <- PO in F; apply Forall_app in F; apply F).
  destruct (arrange fuel W H xg yg left 10 (f :: rest)) as [out'|] eqn:A; [|discriminate E]. cbn [option_map] in E. injection E as <-.
  apply app_eq_app in EO as (k & [[E1 E2]|[E1 E2]]).
  - destruct k as [|c [|d k]]; cbn [app] in E2.
    + subst out'. destruct (IH _ _ _ _ _ _ _ _ [] a b l2 YG FR A eq_refl) as [B|[X|X]]; auto.
    + injection E2 as -> E2. subst out'. destruct (arrange_head _ _ _ _ _ _ _ _ _ _ A); auto.
    + injection E2 as -> -> E2. now apply (IN l1 k).
  - destruct (IH _ _ _ _ _ _ _ _ k a b l2 YG FR A E2) as [B|[X|X]]; auto.
Qed.
Print Assumptions C80_left.

(** The first window of a later row is not always cleared, although the screen is high enough. *)
Theorem C80_overlap_refuted : exists W H xg yg a b c, arrange 9 W H xg yg 0 0 (map fst [a; b; c]) = Some [a; b; c] /\
  Forall (fun m => shown W H m = asked m) [a; b; c] /\ ~ apart 0 0 (asked b) (asked c) /\ ~ apart 0 0 (asked c) (asked b).
Proof.
  exists 100, 1000, 10, 30, (mkFig 90 10, (0, 0)), (mkFig 90 200, (0, 40)), (mkFig 90 10, (0, 70)).
  split; [vm_compute; reflexivity|]. split; [repeat constructor|]. unfold apart, asked. cbn. split; lia.
Qed.
Print Assumptions C80_overlap_refuted.
Example C80_example : arrange 9 100 100 10 30 0 0 [mkFig 40 20; mkFig 30 30; mkFig 50 10; mkFig 20 20; mkFig 80 60] =
  Some [(mkFig 40 20, (0, 0)); (mkFig 30 30, (50, 0)); (mkFig 50 10, (0, 60)); (mkFig 20 20, (60, 60)); (mkFig 80 60, (10, 10))].
Proof. vm_compute. reflexivity. Qed.
Example C80_example_left : let figs := [mkFig 40 20; mkFig 30 30; mkFig 50 10; mkFig 20 20; mkFig 80 60] in 0 < 30 /\ Forall sized figs /\
  arrange 9 100 100 10 30 0 5 figs =
  Some [(mkFig 40 20, (5, 5)); (mkFig 30 30, (55, 5)); (mkFig 50 10, (5, 65)); (mkFig 20 20, (65, 65)); (mkFig 80 60, (10, 10))].
Proof. cbv zeta. split; [lia|]. split; [repeat constructor; cbn; lia|]. vm_compute. reflexivity. Qed.
Example C80_example_apart : let r := fst (one_pass 100 100 10 30 0 [mkFig 40 20; mkFig 30 30; mkFig 50 10; mkFig 20 20] 0 0 0) in
  exists a b l2, r = a :: b :: l2 /\ l2 <> [] /\ beside 10 (asked a) (asked b) /\ Forall sized (map fst r) /\ Forall (has_place 100 100 30 0) (map fst r).
Proof. cbv zeta. do 3 eexists. split; [vm_compute; reflexivity|]. split; [discriminate|]. split; [split; reflexivity|]. split; repeat constructor; unfold has_place; cbn; lia. Qed.
