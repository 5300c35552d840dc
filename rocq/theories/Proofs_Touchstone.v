From Coq Require Import List Arith ZArith Bool Lia.
From Verif Require Import Model_NdArray Model_Touchstone Spec_Touchstone.
Import ListNotations.
Local Open Scope nat_scope.
Local Open Scope list_scope.

Section Records.
Context {R : Type} (leb : R -> R -> bool).
Notation line := (list R).

(** Framing with an unfinished row. *)
Inductive framing (N : nat) : line -> list line -> list line -> Prop :=
| fg_end : framing N [] [] []
| fg_more : forall cur rad lines rows, length (cur ++ rad) < N -> framing N (cur ++ rad) lines rows -> framing N cur (rad :: lines) rows
| fg_full : forall cur rad lines rows, length (cur ++ rad) = N -> framing N [] lines rows -> framing N cur (rad :: lines) ((cur ++ rad) :: rows).

Definition full_lines (l : list line) : Prop := Forall (fun r => r <> []) l.

Lemma framing_lines : forall N ls cur lines rows, ls <> [] -> full_lines ls -> length (cur ++ concat ls) = N -> framing N [] lines rows ->
  framing N cur (ls ++ lines) ((cur ++ concat ls) :: rows).
Proof.
  intros N ls. induction ls as [|rad ls IH]; intros cur lines rows Hn HF HL F; [congruence|]. cbn [concat app] in *.
  pose proof (Forall_inv_tail HF) as HF'. destruct ls as [|r2 ls].
  - cbn [concat app] in *. rewrite app_nil_r in *. now apply fg_full.
  - rewrite app_assoc in *. apply fg_more.
    + pose proof (Forall_inv HF') as N2. cbn [concat] in HL. rewrite !app_length in HL. rewrite app_length. destruct r2; [congruence|]. cbn in HL. lia.
    + apply IH; auto. discriminate.
Qed.
Lemma framed_framing : forall N lines rows, full_lines lines -> framed N lines rows -> framing N [] lines rows.
Proof.
  intros N lines rows HF F. induction F as [|ls row lines rows Hn Hc HL F IH]; [constructor|]. apply Forall_app in HF as [H1 H2]. subst row.
  apply (framing_lines N ls [] lines rows); auto.
Qed.
Lemma framing_framed : forall N cur lines rows, full_lines lines -> framing N cur lines rows ->
  match cur with [] => framed N lines rows
  | _ => exists ls lines' row rows', lines = ls ++ lines' /\ ls <> [] /\ rows = row :: rows' /\ row = cur ++ concat ls /\ length row = N /\ framed N lines' rows' end.
Proof.
  intros N cur lines rows HF F. induction F as [|cur rad lines rows HL F IH|cur rad lines rows HL F IH].
  - constructor.
  - pose proof (Forall_inv HF) as Hr. specialize (IH (Forall_inv_tail HF)). destruct cur as [|c cur].
    + cbn [app] in *. destruct rad as [|c rad]; [congruence|].
      destruct IH as [ls [lines' [row [rows' [-> [Hn [-> [-> [HL' F']]]]]]]]]. apply (framed_cons N ((c :: rad) :: ls)); auto. discriminate.
    + cbn [app] in IH. destruct IH as [ls [lines' [row [rows' [-> [Hn [-> [Hr' [HL' F']]]]]]]]]. exists (rad :: ls), lines', row, rows'.
      split; auto. split; [discriminate|]. split; auto. split; auto. cbn [concat]. rewrite Hr'. cbn [app]. now rewrite <- app_assoc.
  - specialize (IH (Forall_inv_tail HF)). destruct cur as [|c cur].
    + cbn [app]. apply (framed_cons N [rad]); auto; [discriminate|cbn; apply app_nil_r].
    + exists [rad], lines. eexists. eexists. split; [reflexivity|]. split; [discriminate|]. split; [reflexivity|]. cbn [concat]. rewrite app_nil_r. auto.
Qed.

(** Rising, from a number before. *)
Fixpoint rises (prev : option R) (rows : list line) : Prop :=
  match rows with
  | [] => True
  | r :: rows' =>
      match prev, hd_error r with Some p, Some a => leb a p = false | _, _ => True end /\ rises (hd_error r) rows'
  end.
Lemma rises_rising : forall rows, rising leb rows <-> rises None rows.
Proof.
  assert (G : forall rows p, rises p rows <-> rising leb rows /\ match rows with r :: _ => match p, hd_error r with Some q, Some a => leb a q = false | _, _ => True end | [] => True end).
  { induction rows as [|r rows IH]; intros p; cbn [rises].
    - split; auto. intros _. split; auto. intros i r r' a a' H. destruct i; discriminate.
    - rewrite IH. split.
      + intros [H1 [H2 H3]]. split; auto. intros [|i] r1 r2 a a' E1 E2 A1 A2; cbn in E1.
        * injection E1 as <-. cbn in E2. destruct rows as [|r' rows]; [discriminate|]. cbn in E2. injection E2 as <-. now rewrite A1, A2 in H3.
        * apply (H2 i r1 r2 a a'); auto.
      + intros [H1 H2]. split; auto. split.
        * intros i r1 r2 a a' E1 E2. apply (H1 (S i)); auto.
        * destruct rows as [|r' rows]; auto. destruct (hd_error r) as [q|] eqn:A1; auto. destruct (hd_error r') as [a|] eqn:A2; auto.
          apply (H1 0 r r' q a); auto. }
  intros rows. rewrite G. destruct rows; tauto.
Qed.

Definition last_head (out : list line) : option R := match out with [] => None | _ => hd_error (last out []) end.
Definition full_rows (N : nat) (out : list line) : Prop := Forall (fun r => length r = N) out.

Lemma last_head_snoc : forall out row, last_head (out ++ [row]) = hd_error row.
Proof. intros out row. unfold last_head. rewrite last_last. destruct out; reflexivity. Qed.
Lemma last_head_some : forall N out, 1 <= N -> full_rows N out -> out <> [] -> exists b, hd_error (last out []) = Some b /\ last_head out = Some b.
Proof.
  intros N out HN HF Hn. destruct (exists_last Hn) as [o [row ->]]. rewrite last_head_snoc, last_last. apply Forall_app in HF as [_ HF].
  apply Forall_inv in HF. destruct row as [|b row]; [cbn in HF; lia|]. exists b. auto.
Qed.

(** What the loop gives. *)
Definition noise_part (noise : option (list line -> result (option (list line)))) (l2 o nz : list line) : Prop :=
  (l2 = [] /\ nz = []) \/
  exists f rad l3 a b, noise = Some f /\ l2 = rad :: l3 /\ hd_error rad = Some a /\ last_head o = Some b /\ leb a b = true /\ f l2 = Ok (Some nz) /\ nz <> [].
Definition loop_reads (noise : option (list line -> result (option (list line)))) (N : nat) (data : list line) (cur : line) (out o nz : list line) : Prop :=
  exists rows l1 l2, data = l1 ++ l2 /\ framing N cur l1 rows /\ o = out ++ rows /\
    rises (match cur with [] => last_head out | _ => None end) rows /\ noise_part noise l2 o nz.

Lemma loop_iff : forall noise N data cur out o nz, 1 <= N -> full_lines data -> full_rows N out -> length cur < N ->
  (rows_loop leb noise N data cur out = Ok (Some (o, nz)) <-> loop_reads noise N data cur out o nz).
Proof.
  intros noise N data. induction data as [|rad data IH]; intros cur out o nz HN HF HR HC.
  - cbn [rows_loop]. split.
    + destruct cur; [|discriminate]. intros H. injection H as <- <-. exists [], [], []. split; auto. split; [constructor|]. rewrite app_nil_r. split; auto. split; [exact I|]. now left.
    + intros [rows [l1 [l2 [E [F [-> [_ NP]]]]]]]. symmetry in E. apply app_eq_nil in E as [-> ->]. inversion F; subst. rewrite app_nil_r.
      destruct NP as [[_ ->]|[f [r [l3 [a [b [_ [E _]]]]]]]]; [reflexivity|discriminate].
  - pose proof (Forall_inv HF) as Hr. pose proof (Forall_inv_tail HF) as HF'.
    set (step := (let row := cur ++ rad in if N <? length row then Ok None
        else if Nat.eqb (length row) N then rows_loop leb noise N data [] (out ++ [row]) else rows_loop leb noise N data row out)).
    assert (ST : step = Ok (Some (o, nz)) <-> exists rows l1 l2, data = l1 ++ l2 /\ framing N cur (rad :: l1) rows /\ o = out ++ rows /\ rises None rows /\ noise_part noise l2 o nz).
    { unfold step. cbv zeta. destruct (Nat.ltb_spec N (length (cur ++ rad))) as [L|L].
      - split; [discriminate|]. intros [rows [l1 [l2 [E [F _]]]]]. inversion F; subst; lia.
      - destruct (Nat.eqb_spec (length (cur ++ rad)) N) as [E|E].
        + rewrite (IH [] (out ++ [cur ++ rad]) o nz HN HF'); [|apply Forall_app; split; auto|exact HN]. unfold loop_reads. split.
          * intros [rows [l1 [l2 [Ed [F [-> [RS NP]]]]]]]. exists ((cur ++ rad) :: rows), l1, l2. split; auto. split; [now apply fg_full|]. split; [now rewrite <- app_assoc|].
            rewrite last_head_snoc in RS. split; auto. cbn [rises]. auto.
          * intros [rows [l1 [l2 [Ed [F [-> [RS NP]]]]]]]. inversion F as [|? ? ? ? HL F'|? ? ? rows' HL F']; subst; [lia|]. exists rows', l1, l2. split; auto. split; auto.
            split; [now rewrite <- app_assoc|]. rewrite last_head_snoc. cbn [rises] in RS. split; [apply RS|auto].
        + rewrite (IH (cur ++ rad) out o nz HN HF' HR) by lia. unfold loop_reads. destruct (cur ++ rad) as [|c row] eqn:Er; [destruct cur; [destruct rad; [congruence|]|]; discriminate|]. split.
          * intros [rows [l1 [l2 [Ed [F [-> [RS NP]]]]]]]. exists rows, l1, l2. split; auto. split; [apply fg_more; rewrite Er; auto; lia|]. auto.
          * intros [rows [l1 [l2 [Ed [F [-> [RS NP]]]]]]]. inversion F as [|? ? ? ? HL F'|? ? ? rows' HL F']; subst; [|rewrite Er in *; lia]. rewrite Er in F'. exists rows, l1, l2. auto. }
    (* the row starts with the line, or with the current numbers *)
    assert (HD : forall l1 rows, framing N cur (rad :: l1) rows -> exists r rows', rows = r :: rows' /\ hd_error r = hd_error (cur ++ rad)).
    { intros l1 rows F. assert (G : forall c ls rs, framing N c ls rs -> c <> [] -> exists r rows', rs = r :: rows' /\ hd_error r = hd_error c).
      { clear. intros c ls rs F. induction F as [|c rad lines rows HL F IH|c rad lines rows HL F IH]; intros Hc; [congruence|..].
        - destruct IH as [r [rows' [-> E]]]; [destruct c; [congruence|discriminate]|]. exists r, rows'. split; auto. rewrite E. destruct c; [congruence|reflexivity].
        - exists (c ++ rad), rows. split; auto. destruct c; [congruence|reflexivity]. }
      inversion F as [|? ? ? ? HL F'|? ? ? rows' HL F']; subst; [|eauto]. apply (G _ _ _ F'). destruct cur; [destruct rad; [congruence|]|]; discriminate. }
    assert (RL : rows_loop leb noise N (rad :: data) cur out = match cur, out with
      | [], _ :: _ =>
          do a <- of_option IndexError (hd_error rad);
          do b <- of_option IndexError (hd_error (last out []));
          if leb a b then match noise with
            | Some f => do r <- f (rad :: data); match r with Some (x :: l) => Ok (Some (out, x :: l)) | _ => Ok None end
            | None => Ok None end
          else step
      | _, _ => step end) by reflexivity.
    rewrite RL. clear RL. clearbody step. destruct cur as [|c cur].
    + destruct out as [|o0 out'].
      * rewrite ST. unfold loop_reads. split.
        -- intros [rows [l1 [l2 [-> [F [-> [RS NP]]]]]]]. exists rows, (rad :: l1), l2. auto.
        -- intros [rows [[|r l1] [l2 [E [F [-> [RS NP]]]]]]].
           ++ inversion F; subst. destruct NP as [[-> _]|[f [r [l3 [a [b [_ [_ [_ [Lh _]]]]]]]]]]; discriminate.
           ++ injection E as <- ->. exists rows, l1, l2. auto.
      * set (out := o0 :: out') in *. destruct (last_head_some N out HN HR) as [b [Eb Lb]]; [discriminate|]. rewrite Eb. destruct rad as [|a rad]; [congruence|]. cbn [hd_error of_option bind].
        unfold loop_reads. rewrite Lb. destruct (leb a b) eqn:Lab.
        -- split.
           ++ destruct noise as [f|]; [|discriminate]. destruct (f ((a :: rad) :: data)) as [[[|x l]|]|] eqn:Ef; cbn [bind]; try discriminate. intros H. injection H as <- <-.
              exists [], [], ((a :: rad) :: data). split; auto. split; [constructor|]. rewrite app_nil_r. split; auto. split; [exact I|]. right.
              exists f, (a :: rad), data, a, b. repeat (split; auto). discriminate.
           ++ intros [rows [[|r l1] [l2 [E [F [-> [RS NP]]]]]]].
              ** inversion F; subst. rewrite app_nil_r in *. cbn [app] in E. subst l2. destruct NP as [[E _]|[f [r [l3 [a' [b' [-> [E [_ [_ [_ [Ef Hn]]]]]]]]]]]]; [discriminate|].
                 rewrite Ef. cbn [bind]. destruct nz as [|x l]; [exfalso; now apply Hn|reflexivity].
              ** injection E as <- ->. destruct (HD l1 rows F) as [r [rows' [-> Eh]]]. cbn [rises] in RS. rewrite Eh in RS. cbn in RS. destruct RS. congruence.
        -- rewrite ST. split.
           ++ intros [rows [l1 [l2 [-> [F [-> [RS NP]]]]]]]. exists rows, ((a :: rad) :: l1), l2. split; auto. split; auto. split; auto. split; auto.
              destruct (HD l1 rows F) as [r [rows' [-> Eh]]]. cbn [rises] in *. rewrite Eh in *. cbn. split; auto. apply RS.
           ++ intros [rows [[|r l1] [l2 [E [F [-> [RS NP]]]]]]].
              ** inversion F; subst. rewrite app_nil_r in *. cbn [app] in E. subst l2. destruct NP as [[E _]|[f [r [l3 [a' [b' [-> [E [Ea [El [Hl _]]]]]]]]]]]; [discriminate|].
                 injection E as <- <-. cbn in Ea. congruence.
              ** injection E as <- ->. exists rows, l1, l2. split; auto. split; auto. split; auto. split; auto.
                 destruct rows as [|r rows']; auto. cbn [rises] in *. split; [auto|apply RS].
    + rewrite ST. unfold loop_reads. split.
      * intros [rows [l1 [l2 [-> [F [-> [RS NP]]]]]]]. exists rows, (rad :: l1), l2. auto.
      * intros [rows [[|r l1] [l2 [E [F [-> [RS NP]]]]]]]; [inversion F|]. injection E as <- ->. exists rows, l1, l2. auto.
Qed.

Lemma framed_full : forall N lines rows, framed N lines rows -> full_rows N rows.
Proof. intros N lines rows F. induction F; constructor; auto. Qed.
Lemma framed_concat : forall N lines rows, framed (R := R) N lines rows -> concat rows = concat lines.
Proof. intros N lines rows F. induction F as [|ls row lines rows H1 H2 H3 F IH]; auto. cbn [concat]. now rewrite concat_app, IH, H2. Qed.
Lemma framed_hd : forall N lines rows rad, full_lines lines -> framed N lines rows -> hd_error lines = Some rad ->
  exists r, hd_error rows = Some r /\ hd_error r = hd_error rad.
Proof.
  intros N lines rows rad HF F H. destruct F as [|ls row lines rows H1 H2 H3 F]; [discriminate|]. destruct ls as [|l ls]; [congruence|]. cbn in H. injection H as ->.
  exists row. split; auto. subst row. pose proof (Forall_inv HF). cbn. destruct rad; [congruence|reflexivity].
Qed.

(** Reading with a given record length. *)
Lemma process_rows_iff : forall data N o nz, 1 <= N -> full_lines data -> (process_rows leb data N = Ok (Some (o, nz)) <-> reading leb N data o nz).
Proof.
  intros data N o nz HN HF. unfold process_rows. cbv zeta. rewrite loop_iff; [|exact HN|exact HF|constructor|exact HN]. unfold loop_reads, reading. cbn [app].
  assert (N5 : forall l r, full_lines l -> ((exists nz0, rows_loop leb None 5 l [] [] = Ok (Some (r, nz0))) <-> framed 5 l r /\ rising leb r)).
  { intros l r Hl. split.
    - intros [nz0 H]. apply loop_iff in H; [|lia|exact Hl|constructor|cbn; lia]. destruct H as [rows [l1 [l2 [-> [F [-> [RS NP]]]]]]].
      destruct NP as [[-> _]|[f [rad [l3 [a [b [E _]]]]]]]; [|discriminate]. rewrite app_nil_r in *. cbn [app]. split; [apply (framing_framed 5 [] l1 rows Hl F)|now apply rises_rising].
    - intros [F RS]. exists []. apply loop_iff; [lia|exact Hl|constructor|cbn; lia|]. exists r, l, []. rewrite app_nil_r. split; auto. split; [now apply framed_framing|].
      split; auto. split; [now apply rises_rising|]. now left. }
  split.
  - intros [rows [l1 [l2 [-> [F [-> [RS NP]]]]]]]. apply Forall_app in HF as [HF1 HF2]. exists l1, l2. split; auto. split; [apply (framing_framed N [] l1 rows HF1 F)|].
    split; [now apply rises_rising|]. destruct NP as [NP|[f [rad [l3 [a [b [Ef [-> [Ha [Hb [Hl [E Hn]]]]]]]]]]]]; auto. right.
    destruct (Nat.eqb_spec N 9) as [->|]; [|discriminate]. injection Ef as <-.
    destruct (rows_loop leb None 5 (rad :: l3) [] []) as [[[r nz0]|]|] eqn:E5; cbn in E; try discriminate. injection E as <-.
    destruct (proj1 (N5 _ _ HF2) (ex_intro _ nz0 E5)) as [F5 R5]. split; auto. split; auto. split; auto. split; auto.
    destruct (framed_hd 5 _ _ rad HF2 F5 eq_refl) as [r1 [H1 H2]]. exists r1, (last rows []), a, b. unfold last_head in Hb.
    destruct rows as [|r0 rows]; [discriminate|]. split; auto. split; [discriminate|]. split; auto. split; [congruence|]. auto.
  - intros [l1 [l2 [-> [F [RS NP]]]]]. apply Forall_app in HF as [HF1 HF2]. exists o, l1, l2. split; auto. split; [now apply framed_framing|]. split; auto.
    split; [now apply rises_rising|]. destruct NP as [NP|[-> [F5 [R5 [Hn [r1 [r2 [a [b [H1 [Ho [-> [Ha [Hb Hl]]]]]]]]]]]]]]; [now left|]. right.
    rewrite Nat.eqb_refl. destruct (proj2 (N5 _ nz HF2) (conj F5 R5)) as [nz0 E5].
    destruct l2 as [|rad l3]; [inversion F5 as [|ls ? ? ? Hls ? ? ? E]; subst; [congruence|destruct ls; [congruence|discriminate]]|].
    destruct (framed_hd 5 _ _ rad HF2 F5 eq_refl) as [r1' [H1' H2']]. eexists. exists rad, l3, a, b. split; [reflexivity|]. split; auto.
    split; [rewrite H1 in H1'; injection H1' as <-; rewrite <- H2'; exact Ha|]. split; [unfold last_head; destruct o; [exfalso; now apply Ho|exact Hb]|]. split; auto. cbn beta. rewrite E5. cbn. auto.
Qed.

(** It always gives an answer. *)
Lemma loop_total : forall noise N data cur out, 1 <= N -> full_lines data -> full_rows N out ->
  (forall f d, noise = Some f -> full_lines d -> exists r, f d = Ok r) -> exists r, rows_loop leb noise N data cur out = Ok r.
Proof.
  intros noise N data. induction data as [|rad data IH]; intros cur out HN HF HR HT; cbn [rows_loop].
  - destruct cur; eauto.
  - pose proof (Forall_inv_tail HF) as HF'.
    assert (ST : exists r, (if N <? length (cur ++ rad) then Ok None else if Nat.eqb (length (cur ++ rad)) N then rows_loop leb noise N data [] (out ++ [cur ++ rad]) else rows_loop leb noise N data (cur ++ rad) out) = Ok r).
    { destruct (N <? length (cur ++ rad)); eauto. destruct (Nat.eqb_spec (length (cur ++ rad)) N); apply IH; auto. apply Forall_app. auto. }
    destruct cur as [|c cur]; [|exact ST]. destruct out as [|o0 out]; [exact ST|].
    destruct (last_head_some N (o0 :: out) HN HR) as [b [-> _]]; [discriminate|]. pose proof (Forall_inv HF) as Hr. destruct rad as [|a rad]; [congruence|]. cbn [hd_error of_option bind].
    destruct (leb a b); [|exact ST]. destruct noise as [f|]; eauto. destruct (HT f ((a :: rad) :: data) eq_refl HF) as [r ->]. cbn [bind]. destruct r as [[|x l]|]; eauto.
Qed.
Lemma process_rows_total : forall data N, 1 <= N -> full_lines data -> exists r, process_rows leb data N = Ok r.
Proof.
  intros data N HN HF. unfold process_rows. cbv zeta. apply loop_total; [exact HN|exact HF|constructor|]. intros f d Ef Hd. destruct (Nat.eqb N 9); [|discriminate]. injection Ef as <-.
  destruct (loop_total None 5 d [] []) as [r ->]; [lia|exact Hd|constructor|discriminate|]. cbn. eauto.
Qed.

(** The search for the number of ports. *)
Lemma try_ports_ok : forall data k n o nz, full_lines data ->
  (try_ports leb data n k = Ok (o, nz) <-> exists m, n <= m < n + k /\ reading leb (2 * m ^ 2 + 1) data o nz /\ o <> [] /\
     forall m' o' nz', n <= m' < m -> reading leb (2 * m' ^ 2 + 1) data o' nz' -> o' = []).
Proof.
  intros data. induction k as [|k IH]; intros n o nz HF; cbn [try_ports].
  - split; [discriminate|]. intros [m [H _]]. lia.
  - set (N := 2 * n ^ 2 + 1). assert (HN : 1 <= N) by (unfold N; lia). destruct (process_rows_total data N HN HF) as [r Er]. rewrite Er. cbn [bind].
    assert (Nx : (forall o' nz', reading leb N data o' nz' -> o' = []) ->
      (try_ports leb data (S n) k = Ok (o, nz) <-> exists m, n <= m < n + S k /\ reading leb (2 * m ^ 2 + 1) data o nz /\ o <> [] /\
         forall m' o' nz', n <= m' < m -> reading leb (2 * m' ^ 2 + 1) data o' nz' -> o' = [])).
    { intros H. rewrite IH by auto. split.
      - intros [m [H1 [H2 [H3 H4]]]]. exists m. split; [lia|]. split; auto. split; auto. intros m' o' nz' Hm. destruct (Nat.eq_dec m' n) as [->|]; [apply H|apply H4; lia].
      - intros [m [H1 [H2 [H3 H4]]]]. assert (m <> n) by (intros ->; apply H3; now apply (H o nz)). exists m. split; [lia|]. split; auto. split; auto.
        intros m' o' nz' Hm. apply H4. lia. }
    destruct r as [[[|x o1] nz1]|].
    + apply Nx. intros o' nz' H. apply process_rows_iff in H; auto. congruence.
    + assert (RD : reading leb N data (x :: o1) nz1) by (apply process_rows_iff; auto). split.
      * intros H. injection H as <- <-. exists n. split; [lia|]. split; auto. split; [discriminate|]. intros; lia.
      * intros [m [H1 [H2 [H3 H4]]]]. destruct (Nat.eq_dec m n) as [->|Hm].
        -- apply process_rows_iff in H2; auto. fold N in H2. congruence.
        -- exfalso. assert (K : x :: o1 = []) by (apply (H4 n (x :: o1) nz1); [lia|exact RD]). discriminate K.
    + apply Nx. intros o' nz' H. apply process_rows_iff in H; auto. congruence.
Qed.
End Records.
