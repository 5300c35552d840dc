(** C26, C27: how the numbers of a Touchstone file are arranged into records. *)
From Coq Require Import List Arith ZArith Bool Lia.
From Verif Require Import Model_NdArray Model_Touchstone Spec_Touchstone Proofs_Touchstone.
Import ListNotations.
Local Open Scope nat_scope.
Local Open Scope list_scope.

(** The reader takes the smallest number of ports for which the lines can be read
    as records, and gives exactly these records; it never looks for more ports
    than half the root of the count of numbers. *)
Theorem C26_ports : forall {R} (leb : R -> R -> bool) data o nz, Forall (fun r => r <> []) data ->
  (process_data leb data = Ok (o, nz) <->
   exists n, 1 <= n /\ 4 * n ^ 2 < length (concat data) /\ reading leb (2 * n ^ 2 + 1) data o nz /\ o <> [] /\
     forall m o' nz', 1 <= m < n -> reading leb (2 * m ^ 2 + 1) data o' nz' -> o' = []).
Proof.
  intros R leb data o nz HF. unfold process_data. destruct (length (concat data)) as [|t].
  - split; [discriminate|]. intros [n [_ [H _]]]. lia.
  - cbv zeta. replace (Nat.sqrt t / 2 + 1 - 1) with (Nat.sqrt t / 2) by lia. rewrite try_ports_ok by auto.
    assert (B : forall m, 1 <= m < 1 + Nat.sqrt t / 2 <-> 1 <= m /\ 4 * m ^ 2 < S t).
    { intros m. assert (E : m <= Nat.sqrt t / 2 <-> 2 * m <= Nat.sqrt t).
      { pose proof (Nat.div_mod (Nat.sqrt t) 2 ltac:(lia)) as D. pose proof (Nat.mod_upper_bound (Nat.sqrt t) 2 ltac:(lia)). lia. }
      pose proof (Nat.sqrt_spec t (Nat.le_0_l t)) as [S1 S2]. split.
      - intros [H1 H2]. split; auto. assert (H3 : 2 * m <= Nat.sqrt t) by (apply E; lia). cbn [Nat.pow]. nia.
      - intros [H1 H2]. split; auto. assert (2 * m <= Nat.sqrt t); [|lia]. cbn [Nat.pow] in H2. nia. }
    split; intros [n H]; exists n.
    + destruct H as [H1 H2]. apply B in H1 as [H1 H1']. auto.
    + destruct H as [H1 [H1' H2]]. split; [now apply B|exact H2].
Qed.
Print Assumptions C26_ports.

(** Nothing is lost, doubled or moved. *)
Theorem C26_all_numbers : forall {R} (leb : R -> R -> bool) data o nz, Forall (fun r => r <> []) data ->
  process_data leb data = Ok (o, nz) -> concat o ++ concat nz = concat data.
Proof.
  intros R leb data o nz HF H. apply C26_ports in H as [n [_ [_ [[l1 [l2 [-> [F [_ NP]]]]] _]]]]; auto.
  rewrite concat_app, (framed_concat _ _ _ F). f_equal. destruct NP as [[-> ->]|[_ [F5 _]]]; auto. now apply framed_concat in F5.
Qed.
Print Assumptions C26_all_numbers.

Lemma too_long : forall {R} N (data : list (list R)) line l1 o, hd_error data = Some line -> N < length line ->
  (exists l2, data = l1 ++ l2) -> framed N l1 o -> o = [].
Proof.
  intros R N data line l1 o Hh HL [l2 ->] F. destruct F as [|ls row lines rows H1 H2 H3 F]; auto. exfalso.
  destruct ls as [|l ls]; [congruence|]. cbn in Hh. injection Hh as ->. subst row. cbn in H3. rewrite app_length in H3. lia.
Qed.

(** At least two complete records with rising frequency, the first line of which
    is too long for fewer ports, give these records. *)
Theorem C26_records : forall {R} (leb : R -> R -> bool) n lines rows line, Forall (fun r => r <> []) lines -> 1 <= n ->
  framed (2 * n ^ 2 + 1) lines rows -> rising leb rows -> 2 <= length rows ->
  hd_error lines = Some line -> 2 * (n - 1) ^ 2 + 1 < length line ->
  process_data leb lines = Ok (rows, []).
Proof.
  intros R leb n lines rows line HF Hn F RS HK Hh HL. apply C26_ports; auto. exists n. split; auto. split; [|split; [|split]].
  - rewrite <- (framed_concat _ _ _ F). pose proof (framed_full _ _ _ F) as FF.
    assert (E : length (concat rows) = length rows * (2 * n ^ 2 + 1)).
    { clear - FF. induction FF as [|r rows E FF IH]; auto. cbn [concat length]. rewrite app_length, E, IH. lia. }
    rewrite E. cbn [Nat.pow]. nia.
  - exists lines, []. rewrite app_nil_r. split; auto.
  - intros ->. cbn in HK. lia.
  - intros m o' nz' Hm [l1 [l2 [E [F' _]]]]. apply (too_long (2 * m ^ 2 + 1) lines line l1 o'); auto; [|eauto].
    assert (m <= n - 1) by lia. assert (m ^ 2 <= (n - 1) ^ 2) by (apply Nat.pow_le_mono_l; lia). lia.
Qed.
Print Assumptions C26_records.

(** A single record on one line is never accepted. *)
Theorem C26_single : forall {R} (leb : R -> R -> bool) n line, 1 <= n -> length line = 2 * n ^ 2 + 1 -> process_data leb [line] = Err GenericError.
Proof.
  intros R leb n line Hn HL. assert (HF : Forall (fun r => r <> []) [line]) by (constructor; [intros ->; cbn in HL; lia|constructor]).
  unfold process_data. cbn [concat]. rewrite app_nil_r. destruct (length line) as [|t] eqn:Et; [lia|]. cbv zeta.
  replace (Nat.sqrt t / 2 + 1 - 1) with (Nat.sqrt t / 2) by lia.
  assert (Ht : t = 2 * n ^ 2) by lia.
  assert (G : forall k m, m + k <= n -> try_ports leb [line] m k = Err GenericError).
  { induction k as [|k IH]; intros m Hm; auto. cbn [try_ports]. destruct (process_rows_total leb [line] (2 * m ^ 2 + 1)) as [r Er]; [lia|auto|]. rewrite Er. cbn [bind].
    destruct r as [[[|x o] nz]|]; try (apply IH; lia). exfalso. apply process_rows_iff in Er; [|lia|auto]. destruct Er as [l1 [l2 [E [F _]]]].
    assert (K : x :: o = []); [|discriminate]. apply (too_long (2 * m ^ 2 + 1) [line] line l1); eauto. rewrite Et.
    assert (m ^ 2 < n ^ 2) by (apply Nat.pow_lt_mono_l; lia). lia. }
  apply G. pose proof (Nat.sqrt_spec t (Nat.le_0_l t)) as [S1 S2]. pose proof (Nat.div_mod (Nat.sqrt t) 2 ltac:(lia)) as D.
  assert (2 * (Nat.sqrt t / 2) <= Nat.sqrt t) by lia. set (q := Nat.sqrt t / 2) in *. clearbody q. cbn [Nat.pow] in Ht.
  assert (4 * (q * q) <= 2 * (n * n)) by nia. nia.
Qed.
Print Assumptions C26_single.

(** *** Noise data *)
Theorem C27_two_port : forall {R} (leb : R -> R -> bool) data o nz, Forall (fun r => r <> []) data ->
  (process_rows leb data 9 = Ok (Some (o, nz)) <->
   exists l1 l2, data = l1 ++ l2 /\ framed 9 l1 o /\ rising leb o /\
    ((l2 = [] /\ nz = []) \/
     (framed 5 l2 nz /\ rising leb nz /\ nz <> [] /\
      exists r1 r2 a b, hd_error nz = Some r1 /\ o <> [] /\ r2 = last o [] /\ hd_error r1 = Some a /\ hd_error r2 = Some b /\ leb a b = true))).
Proof.
  intros R leb data o nz HF. rewrite process_rows_iff by (auto; lia). unfold reading. split; intros [l1 [l2 [H1 [H2 [H3 H4]]]]]; exists l1, l2; split; auto; split; auto; split; auto.
  - destruct H4 as [H4|[_ H4]]; auto.
  - destruct H4 as [H4|H4]; auto.
Qed.
Print Assumptions C27_two_port.

(** Other record lengths have no noise data. *)
Theorem C27_others : forall {R} (leb : R -> R -> bool) data N o nz, Forall (fun r => r <> []) data -> 1 <= N -> N <> 9 ->
  process_rows leb data N = Ok (Some (o, nz)) -> nz = [] /\ framed N data o /\ rising leb o.
Proof.
  intros R leb data N o nz HF HN H9 H. apply process_rows_iff in H; auto. destruct H as [l1 [l2 [-> [F [RS [[-> ->]|[E _]]]]]]]; [|congruence].
  rewrite app_nil_r. auto.
Qed.
Print Assumptions C27_others.

(** Network records followed by noise records are told apart. *)
Theorem C27_split : forall {R} (leb : R -> R -> bool) l1 l2 o nz line r1 a b, Forall (fun r => r <> []) (l1 ++ l2) ->
  framed 9 l1 o -> rising leb o -> framed 5 l2 nz -> rising leb nz ->
  hd_error l1 = Some line -> 3 < length line -> 17 <= length (concat (l1 ++ l2)) ->
  hd_error nz = Some r1 -> hd_error r1 = Some a -> hd_error (last o []) = Some b -> leb a b = true ->
  process_data leb (l1 ++ l2) = Ok (o, nz).
Proof.
  intros R leb l1 l2 o nz line r1 a b HF F1 R1 F2 R2 Hh HL HT Hn Ha Hb Hl. apply C26_ports; auto. exists 2. split; [lia|]. split; [cbn [Nat.pow]; lia|].
  assert (Ho : o <> []) by (intros ->; cbn in Hb; discriminate).
  split; [|split; auto].
  - exists l1, l2. split; auto. split; auto. split; auto. right. split; [reflexivity|]. split; auto. split; auto. split; [intros ->; discriminate|].
    exists r1, (last o []), a, b. repeat (split; [assumption || reflexivity|]). assumption.
  - intros m o' nz' Hm [k1 [k2 [E [F' _]]]]. assert (m = 1) as -> by lia. apply (too_long 3 (l1 ++ l2) line k1 o'); eauto.
    destruct l1; [discriminate|exact Hh].
Qed.
Print Assumptions C27_split.

(** *** Examples and deviations *)
Definition rec2 (f : Z) : list Z := f :: [11; 12; 21; 22; 13; 14; 23; 24]%Z.
Example C26_ex : process_data Z.leb [rec2 1; rec2 2; [3; 11; 12; 21; 22]%Z; [13; 14; 23; 24]%Z] = Ok ([rec2 1; rec2 2; rec2 3], []) /\
  framed (2 * 2 ^ 2 + 1) [rec2 1; rec2 2; [3; 11; 12; 21; 22]%Z; [13; 14; 23; 24]%Z] [rec2 1; rec2 2; rec2 3] /\ rising Z.leb [rec2 1; rec2 2; rec2 3].
Proof.
  split; [reflexivity|]. split.
  - apply (framed_cons _ [rec2 1]); [discriminate|reflexivity|reflexivity|]. apply (framed_cons _ [rec2 2]); [discriminate|reflexivity|reflexivity|].
    apply (framed_cons _ [[3; 11; 12; 21; 22]%Z; [13; 14; 23; 24]%Z]); [discriminate|reflexivity|reflexivity|constructor].
  - apply rises_rising. cbn. auto.
Qed.
Definition noise5 (f : Z) : list Z := f :: [1; 2; 3; 4]%Z.
Example C27_ex : process_data Z.leb [rec2 1; rec2 2; noise5 1; noise5 3] = Ok ([rec2 1; rec2 2], [noise5 1; noise5 3]) /\
  framed 5 [noise5 1; noise5 3] [noise5 1; noise5 3].
Proof.
  split; [reflexivity|]. apply (framed_cons _ [noise5 1]); [discriminate|reflexivity|reflexivity|]. apply (framed_cons _ [noise5 3]); [discriminate|reflexivity|reflexivity|constructor].
Qed.

(** Two complete records of a two-port, written three numbers to a line, are read
    as six records of a one-port. *)
Theorem C26_wrapped_refuted : exists lines rows, framed (2 * 2 ^ 2 + 1) lines rows /\ rising Z.leb rows /\ 2 <= length rows /\
  exists o, process_data Z.leb lines = Ok (o, []) /\ length o = 6.
Proof.
  exists [[1; 0; 0]; [2; 0; 0]; [3; 0; 0]; [4; 0; 0]; [5; 0; 0]; [6; 0; 0]]%Z, [[1; 0; 0; 2; 0; 0; 3; 0; 0]; [4; 0; 0; 5; 0; 0; 6; 0; 0]]%Z.
  split; [|split; [apply rises_rising; cbn; auto|split; [cbn; lia|eexists; split; reflexivity]]].
  apply (framed_cons _ [[1; 0; 0]; [2; 0; 0]; [3; 0; 0]]%Z); [discriminate|reflexivity|reflexivity|].
  apply (framed_cons _ [[4; 0; 0]; [5; 0; 0]; [6; 0; 0]]%Z); [discriminate|reflexivity|reflexivity|constructor].
Qed.
Print Assumptions C26_wrapped_refuted.

(** One frequency point with noise data is not accepted. *)
Theorem C27_short_refuted : exists data, process_rows Z.leb data 9 = Ok (Some ([rec2 1], [noise5 1])) /\ process_data Z.leb data = Err GenericError.
Proof. exists [rec2 1; noise5 1]. split; reflexivity. Qed.
Print Assumptions C27_short_refuted.

(** Noise data at frequencies above those of the network data is not accepted
    (a second noise record cannot complete a record of nine numbers). *)
Theorem C27_above_refuted : exists data, process_data Z.leb data = Err GenericError /\
  exists l1 l2, data = l1 ++ l2 /\ framed 9 l1 [rec2 1; rec2 2] /\ framed 5 l2 [noise5 3; noise5 4].
Proof.
  exists [rec2 1; rec2 2; noise5 3; noise5 4]. split; [reflexivity|]. exists [rec2 1; rec2 2], [noise5 3; noise5 4]. split; auto. split.
  - apply (framed_cons _ [rec2 1]); [discriminate|reflexivity|reflexivity|]. apply (framed_cons _ [rec2 2]); [discriminate|reflexivity|reflexivity|constructor].
  - apply (framed_cons _ [noise5 3]); [discriminate|reflexivity|reflexivity|]. apply (framed_cons _ [noise5 4]); [discriminate|reflexivity|reflexivity|constructor].
Qed.
Print Assumptions C27_above_refuted.
