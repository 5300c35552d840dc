(** C40: merging blocks into a hypercube. *)
From Coq Require Import Ascii String List Arith ZArith Bool Lia Sorted Permutation.
From Verif Require Import Model_NdArray Proofs_NdArray Model_Dim Proofs_Dim Model_Array Model_Spdata Spec_Hyper Spec_Block Spec_Array Model_Utils Proofs_Utils Proofs_Hyper Proofs_Block2 Prop_Hyper
  Model_Merge Spec_Merge.
Import ListNotations.
Local Open Scope nat_scope.
Local Open Scope list_scope.

(** *** Columns and products *)
Lemma zip_star_cons : forall {V} (r : list V) rs, rs <> [] -> zip_star (r :: rs) = map (fun p => fst p :: snd p) (combine r (zip_star rs)).
Proof. intros V r [|s rs] N; [congruence|reflexivity]. Qed.
Lemma nth_combine : forall {X Y} (a : list X) (b : list Y) i, nth_error (combine a b) i = match nth_error a i, nth_error b i with Some x, Some y => Some (x, y) | _, _ => None end.
Proof.
  intros X Y. induction a as [|x a IH]; intros b i; [destruct i; reflexivity|]. destruct b as [|y b]; [cbn; destruct i; cbn; [reflexivity|destruct (nth_error a i); reflexivity]|]. destruct i; cbn; auto.
Qed.
Lemma zip_star_nth : forall {V} (rows : list (list V)) j, rows <> [] -> forall col, nth_error (zip_star rows) j = Some col ->
  forall v, In v col <-> exists row, In row rows /\ nth_error row j = Some v.
Proof.
  intros V rows j. induction rows as [|r rows IH]; intros N col H v; [congruence|]. destruct rows as [|r2 rows].
  - cbn [zip_star] in H. rewrite nth_error_map in H. destruct (nth_error r j) as [x|] eqn:E; [|discriminate]. injection H as <-. split; [intros [<-|[]]; exists r; split; [left; auto|exact E]|]. intros [row [[<-|[]] K]]. left. congruence.
  - rewrite zip_star_cons in H by discriminate. rewrite nth_error_map, nth_combine in H. destruct (nth_error r j) as [x|] eqn:E; [|discriminate]. destruct (nth_error (zip_star (r2 :: rows)) j) as [c|] eqn:E2; [|discriminate]. injection H as <-. cbn [fst snd].
    specialize (IH ltac:(discriminate) c eq_refl v). split.
    + intros [<-|I]; [exists r; split; [left; auto|exact E]|]. apply IH in I as [row [I K]]. exists row. split; [right; auto|auto].
    + intros [row [[<-|I] K]]; [left; congruence|right]. apply IH. eauto.
Qed.
Lemma zip_star_length : forall {V} (rows : list (list V)) k, rows <> [] -> (forall r, In r rows -> length r = k) -> length (zip_star rows) = k.
Proof.
  intros V rows k. induction rows as [|r rows IH]; intros N H; [congruence|]. destruct rows as [|r2 rows].
  - cbn [zip_star]. rewrite map_length. apply H. left; auto.
  - rewrite zip_star_cons by discriminate. rewrite map_length, combine_length, IH; [rewrite (H r) by (left; auto); lia|discriminate|intros s I; apply H; right; auto].
Qed.

Lemma zip_star_min : forall {V} (rows : list (list V)) k, rows <> [] -> (forall r, In r rows -> k <= length r) -> (exists r, In r rows /\ length r = k) -> length (zip_star rows) = k.
Proof.
  intros V rows k N H [r [I L]].
  assert (G1 : forall k (rows : list (list V)), rows <> [] -> (forall r, In r rows -> k <= length r) -> k <= length (zip_star rows)).
  { clear. intros k rows. induction rows as [|r rows IH]; intros N H; [congruence|]. destruct rows as [|r2 rows]; [cbn [zip_star]; rewrite map_length; apply H; left; auto|]. rewrite zip_star_cons by discriminate. rewrite map_length, combine_length. apply Nat.min_glb; [apply H; left; auto|]. apply IH; [discriminate|]. intros s I. apply H. right; auto. }
  assert (G2 : forall (rows : list (list V)) r, In r rows -> length (zip_star rows) <= length r).
  { clear. induction rows as [|r0 rows IH]; intros r I; [destruct I|]. destruct rows as [|r2 rows]; [destruct I as [<-|[]]; cbn [zip_star]; now rewrite map_length|]. rewrite zip_star_cons by discriminate. rewrite map_length, combine_length. destruct I as [<-|I]; [lia|]. specialize (IH r I). lia. }
  pose proof (G1 k rows N H). pose proof (G2 rows r I). lia.
Qed.
Lemma Forall2_nth_r : forall {X Y} (P : X -> Y -> Prop) l m i y, Forall2 P l m -> nth_error m i = Some y -> exists x, nth_error l i = Some x /\ P x y.
Proof. intros X Y P l m i y F. revert i. induction F as [|a b l m H F IH]; intros [|i] E; try discriminate; [injection E as <-; exists a; auto|exact (IH i E)]. Qed.
Lemma Forall2_nth_l : forall {X Y} (P : X -> Y -> Prop) l m i x, Forall2 P l m -> nth_error l i = Some x -> exists y, nth_error m i = Some y /\ P x y.
Proof. intros X Y P l m i y F. revert i. induction F as [|a b l m H F IH]; intros [|i] E; try discriminate; [injection E as <-; exists b; auto|exact (IH i E)]. Qed.

Lemma map_snd_combine : forall {X Y} (a : list X) (b : list Y), length a = length b -> map snd (combine a b) = b.
Proof. intros X Y. induction a as [|x a IH]; intros [|y b] L; try discriminate; auto. cbn. f_equal. apply IH. now injection L. Qed.

Lemma in_product : forall {X} (ls : list (list X)) t, In t (product ls) <-> Forall2 (fun l x => In x l) ls t.
Proof.
  intros X. induction ls as [|l ls IH]; intros t; cbn [product].
  - split; [intros [<-|[]]; constructor|]. intros H. inversion H. left; auto.
  - rewrite in_flat_map. split.
    + intros [x [I H]]. apply in_map_iff in H as [s [<- H]]. constructor; [exact I|]. now apply IH.
    + intros H. inversion H as [|? x ? s I F]; subst. exists x. split; [exact I|]. apply in_map_iff. exists s. split; [auto|]. now apply IH.
Qed.
Lemma nodup_product : forall {X} (ls : list (list X)), Forall (@NoDup X) ls -> NoDup (product ls).
Proof.
  intros X. induction ls as [|l ls IH]; intros H; cbn [product]; [constructor; [intros []|constructor]|]. inversion H as [|? ? N F]; subst. clear H. specialize (IH F). induction l as [|x l IHl]; [constructor|]. cbn [flat_map]. inversion N as [|? ? NI N']; subst.
  apply NoDup_app_intro; [|apply IHl; auto|].
  - clear - IH. induction (product ls) as [|s p IHp]; [constructor|]. cbn [map]. inversion IH as [|? ? H1 H2]; subst. constructor; auto. intros I. apply in_map_iff in I as [s' [E I]]. injection E as <-. auto.
  - intros t I J. apply in_map_iff in I as [s [<- I]]. apply in_flat_map in J as [y [J1 J2]]. apply in_map_iff in J2 as [s' [E _]]. injection E as <- <-. auto.
Qed.
Lemma combine_map2 : forall {X Y Z W} (f : X -> Z) (g : Y -> W) a b, combine (map f a) (map g b) = map (fun p => (f (fst p), g (snd p))) (combine a b).
Proof. intros X Y Z W f g. induction a as [|x a IH]; intros [|y b]; auto. cbn. now rewrite IH. Qed.
Lemma combine_app2 : forall {X Y} (a c : list X) (b d : list Y), length a = length b -> combine (a ++ c) (b ++ d) = combine a b ++ combine c d.
Proof. intros X Y. induction a as [|x a IH]; intros c [|y b] d L; try discriminate; auto. cbn. now rewrite IH by (injection L; auto). Qed.
Lemma product_length : forall {X Y} (us : list (list X)) (vs : list (list Y)), Forall2 (fun u v => length u = length v) us vs -> length (product us) = length (product vs).
Proof.
  intros X Y us vs F. induction F as [|u v us vs E F IH]; auto. cbn [product]. rewrite (length_flat_map_const _ u (length (product us))), (length_flat_map_const _ v (length (product us))) by (intros; rewrite map_length; auto). now rewrite E.
Qed.
Definition ranges {X} (us : list (list X)) : list (list nat) := map (fun u => seq 0 (length u)) us.
Lemma ranges_length : forall {X} (us : list (list X)), Forall2 (fun u v => length u = length v) us (ranges us).
Proof. intros X. induction us; constructor; auto. now rewrite seq_length. Qed.
Lemma combine_product : forall {X} (u : list X) us, combine (product (u :: us)) (product (ranges (u :: us))) =
  flat_map (fun p => map (fun q => (fst p :: fst q, snd p :: snd q)) (combine (product us) (product (ranges us)))) (combine u (seq 0 (length u))).
Proof.
  intros X u us. cbn [product ranges map]. fold (ranges us). assert (L : length (product us) = length (product (ranges us))) by (apply product_length, ranges_length). generalize 0. induction u as [|x u IH]; intros n; [reflexivity|].
  cbn [flat_map length seq combine]. rewrite combine_app2 by (rewrite !map_length; exact L). rewrite IH. f_equal. rewrite combine_map2. reflexivity.
Qed.
Lemma in_combine_seq : forall {X} (u : list X) n x i, In (x, i) (combine u (seq n (length u))) <-> n <= i /\ nth_error u (i - n) = Some x.
Proof.
  intros X. induction u as [|y u IH]; intros n x i; cbn [length seq combine].
  - split; [intros []|]. intros [_ H]. destruct (i - n); discriminate.
  - cbn [In]. rewrite IH. split.
    + intros [E|[L H]]; [injection E as -> ->; split; [lia|]; now rewrite Nat.sub_diag|]. split; [lia|]. replace (i - n) with (S (i - S n)) by lia. exact H.
    + intros [L H]. destruct (Nat.eq_dec i n) as [->|N]; [left; rewrite Nat.sub_diag in H; cbn in H; injection H as ->; auto|right]. split; [lia|]. replace (i - n) with (S (i - S n)) in H by lia. exact H.
Qed.
Lemma in_positions : forall {X} (us : list (list X)) t ix, In (t, ix) (combine (product us) (product (ranges us))) <-> located us t ix.
Proof.
  intros X. induction us as [|u us IH]; intros t ix.
  - cbn. split; [intros [E|[]]; injection E as <- <-; constructor|]. intros H. inversion H. left; auto.
  - rewrite combine_product, in_flat_map. split.
    + intros [[x i] [H1 H2]]. apply in_map_iff in H2 as [[t' ix'] [E H2]]. cbn [fst snd] in E. injection E as <- <-. apply in_combine_seq in H1 as [_ H1]. rewrite Nat.sub_0_r in H1. constructor; [exact H1|]. now apply IH.
    + intros H. inversion H as [|? ? v vs i ix' H1 H2]; subst. exists (v, i). split; [apply in_combine_seq; split; [lia|now rewrite Nat.sub_0_r]|]. apply in_map_iff. exists (vs, ix'). split; [reflexivity|]. now apply IH.
Qed.
Lemma ranges_indices : forall {X} (us : list (list X)), product (ranges us) = indices (map (@length X) us).
Proof. intros X. induction us as [|u us IH]; auto. cbn [ranges map product indices]. fold (ranges us). now rewrite IH. Qed.

Section Order.
Context {A : Type} (ltb : label -> label -> bool) (ST : sto ltb).
Let R (a b : label) : Prop := ltb a b = true.

Lemma set_insert_in : forall x l v, In v (set_insert ltb x l) <-> v = x \/ In v l.
Proof.
  intros x l v. induction l as [|y l IH]; cbn [set_insert]; [cbn; intuition|]. destruct (label_eqb x y) eqn:E; [apply label_eqb_eq in E; subst; cbn; intuition|]. destruct (ltb y x); cbn [In]; [rewrite IH; cbn; intuition|cbn; intuition].
Qed.
Lemma set_insert_sorted : forall x l, StronglySorted R l -> StronglySorted R (set_insert ltb x l).
Proof.
  intros x l. induction l as [|y l IH]; intros H; cbn [set_insert]; [constructor; constructor|]. destruct (label_eqb x y) eqn:E; [exact H|]. inversion H as [|? ? H1 H2]; subst. destruct (ltb y x) eqn:L.
  - constructor; [auto|]. rewrite Forall_forall in *. intros v I. apply set_insert_in in I as [->|I]; [exact L|auto].
  - assert (XY : ltb x y = true). { destruct (ltb x y) eqn:L2; auto. pose proof (sto_total _ ST _ _ L L2). subst y. rewrite (proj2 (label_eqb_eq x x) eq_refl) in E. discriminate. }
    constructor; [exact H|]. rewrite Forall_forall in *. intros v [<-|I]; [exact XY|]. exact (sto_trans _ ST _ _ _ XY (H2 v I)).
Qed.
Lemma sorted_set_ok : forall l, StronglySorted R (sorted_set ltb l) /\ forall v, In v (sorted_set ltb l) <-> In v l.
Proof.
  induction l as [|x l [IH1 IH2]]; [split; [constructor|reflexivity]|]. unfold sorted_set. cbn [fold_right]. fold (sorted_set ltb l). split; [apply set_insert_sorted; auto|]. intros v. rewrite set_insert_in, IH2. cbn. intuition.
Qed.
Definition uniqs (idx : list (list label)) : list (list label) := map (sorted_set ltb) (zip_star idx).
Lemma uniqs_axes : forall idx, idx <> [] -> axes_of ltb idx (length (uniqs idx)) (uniqs idx).
Proof.
  intros idx N. split; [reflexivity|]. intros j u H. unfold uniqs in H. rewrite nth_error_map in H. destruct (nth_error (zip_star idx) j) as [col|] eqn:E; [|discriminate]. injection H as <-. destruct (sorted_set_ok col) as [S1 S2]. split; [exact S1|].
  intros v. rewrite S2. exact (zip_star_nth idx j N col E v).
Qed.
Lemma uniqs_nodup : forall idx, Forall (@NoDup label) (uniqs idx).
Proof. intros idx. apply Forall_forall. intros u I. apply in_map_iff in I as [c [<- _]]. exact (strict_nodup ltb ST _ (proj1 (sorted_set_ok c))). Qed.
Lemma in_product_uniqs : forall idx t, idx <> [] -> In t (product (uniqs idx)) <-> length t = length (uniqs idx) /\ forall j v, nth_error t j = Some v -> exists s, In s idx /\ nth_error s j = Some v.
Proof.
  intros idx t N. rewrite in_product. destruct (uniqs_axes idx N) as [_ H].
  assert (G : forall us t, Forall2 (fun (l : list label) x => In x l) us t <-> length t = length us /\ forall j u v, nth_error us j = Some u -> nth_error t j = Some v -> In v u).
  { induction us as [|u us IH]; intros [|x s].
    - split; [intros _; split; [reflexivity|]; intros [|j] u v K; discriminate|constructor].
    - split; [intros K; inversion K|intros [K _]; discriminate].
    - split; [intros K; inversion K|intros [K _]; discriminate].
    - split.
      + intros K. inversion K as [|? ? ? ? K1 K2]; subst. apply IH in K2 as [K2 K3]. split; [cbn; lia|]. intros [|j] u' v E1 E2; cbn in *; [injection E1 as <-; injection E2 as <-; auto|eauto].
      + intros [L K]. constructor; [apply (K 0); reflexivity|]. apply IH. split; [cbn in L; lia|]. intros j u' v E1 E2. exact (K (S j) u' v E1 E2). }
  rewrite G. split; intros [L K]; split; auto.
  - intros j v E. assert (JL : j < length (uniqs idx)) by (rewrite <- L; apply nth_error_Some; congruence). apply nth_error_Some in JL. destruct (nth_error (uniqs idx) j) as [u|] eqn:EU; [|congruence]. apply (proj2 (H j u EU)). exact (K j u v EU E).
  - intros j u v EU E. apply (proj2 (H j u EU)). eauto.
Qed.

Lemma find_index_spec : forall x l, match find_index x l with Some k => nth_error l k = Some x | None => ~ In x l end.
Proof.
  intros x. induction l as [|y l IH]; cbn [find_index]; [intros []|]. destruct (list_eqb label_eqb x y) eqn:E; [apply (list_eqb_eq label_eqb label_eqb_eq) in E; subst; reflexivity|].
  destruct (find_index x l) as [k|]; cbn [option_map]; [exact IH|]. intros [K|K]; [|auto]. subst y. rewrite (proj2 (list_eqb_eq label_eqb label_eqb_eq x x) eq_refl) in E. discriminate.
Qed.

(** The loop finds an entry for every combination, or fails. *)
Definition look (al : list (coord * hf A)) (q : list label * list nat) : result (list nat * hf A) :=
  do k <- of_option ValueError (find_index (fst q) (map values al)); do e <- of_option IndexError (nth_error al k); Ok (snd q, snd e).
Lemma look_spec : forall al t ix, match look al (t, ix) with Ok (i, x) => i = ix /\ exists e, In e al /\ values e = t /\ snd e = x | Err e => e = ValueError /\ ~ In t (map values al) end.
Proof.
  intros al t ix. unfold look. cbn [fst snd]. pose proof (find_index_spec t (map values al)) as F. destruct (find_index t (map values al)) as [k|]; [|split; auto]. cbn [of_option bind]. rewrite nth_error_map in F. destruct (nth_error al k) as [e|] eqn:E; [|discriminate]. injection F as F. cbn [of_option bind].
  split; [reflexivity|]. exists e. split; [exact (nth_error_In _ _ E)|auto].
Qed.
Lemma look_all : forall al ps, (forall p, In p ps -> In (fst p) (map values al)) -> exists out, mapM (look al) ps = Ok out /\ map fst out = map snd ps /\
  Forall2 (fun p q => exists e, In e al /\ values e = fst p /\ snd e = snd q) ps out.
Proof.
  intros al. induction ps as [|[t ix] ps IH]; intros H; [exists []; repeat split; constructor|]. cbn [mapM]. pose proof (look_spec al t ix) as L. destruct (look al (t, ix)) as [[i x]|e]; [|exfalso; destruct L as [_ L]; apply L; apply (H (t, ix)); left; auto].
  destruct L as [-> L]. cbn [bind]. destruct IH as [out [H1 [H2 H3]]]; [intros p I; apply H; right; auto|]. rewrite H1. cbn [bind]. exists ((ix, x) :: out). split; [reflexivity|]. split; [cbn [map fst snd]; now rewrite H2|]. constructor; [cbn [fst snd]; exact L|exact H3].
Qed.
Lemma look_fails : forall al ps p, In p ps -> ~ In (fst p) (map values al) -> mapM (look al) ps = Err ValueError.
Proof.
  intros al. induction ps as [|[t ix] ps IH]; intros p I N; [destruct I|]. cbn [mapM]. pose proof (look_spec al t ix) as L. destruct (look al (t, ix)) as [[i x]|e]; [|destruct L as [-> _]; reflexivity]. cbn [bind].
  destruct I as [<-|I]; [exfalso; destruct L as [_ [e [I [E _]]]]; apply N; cbn [fst]; rewrite <- E; apply in_map; auto|]. rewrite (IH p I N). reflexivity.
Qed.
Lemma cube_unfold : forall e0 al', let al := e0 :: al' in hypercube_order ltb al =
  if negb (length (product (uniqs (map values al))) =? length al) then Err HFError
  else do out <- mapM (look al) (combine (product (uniqs (map values al))) (product (ranges (uniqs (map values al)))));
       Ok (map fst (fst e0), uniqs (map values al), out).
Proof. reflexivity. Qed.

Lemma full_perm : forall idx, idx <> [] -> length (product (uniqs idx)) = length idx -> incl (product (uniqs idx)) idx -> full_product (length (uniqs idx)) idx.
Proof.
  intros idx N L I. assert (P : Permutation (product (uniqs idx)) idx) by (apply NoDup_Permutation_bis; [apply nodup_product, uniqs_nodup|lia|exact I]).
  split; [intros t H; apply (Permutation_in _ (Permutation_sym P)) in H; apply (in_product_uniqs idx t N) in H; tauto|].
  split; [apply (Permutation_NoDup P), nodup_product, uniqs_nodup|]. intros t LT H. apply I. apply (in_product_uniqs idx t N). auto.
Qed.
Lemma uniqs_length : forall idx k, idx <> [] -> (forall t, In t idx -> length t = k) -> length (uniqs idx) = k.
Proof. intros idx k N H. unfold uniqs. rewrite map_length. apply zip_star_length; auto. Qed.
Lemma perm_full : forall idx k, idx <> [] -> full_product k idx -> Permutation (product (uniqs idx)) idx.
Proof.
  intros idx k N [H1 [H2 H3]]. pose proof (uniqs_length idx k N H1) as L. apply NoDup_Permutation; [apply nodup_product, uniqs_nodup|exact H2|]. intros t. rewrite (in_product_uniqs idx t N), L. split.
  - intros [K1 K2]. auto.
  - intros I. split; [auto|]. intros j v E. eauto.
Qed.
Lemma values_nonempty : forall e0 (al' : list (coord * hf A)), map values (e0 :: al') <> [].
Proof. discriminate. Qed.

(** A hypercube is made exactly of the full product of the values. *)
Theorem C40_hypercube : forall (e0 : coord * hf A) al', (exists r, hypercube_order ltb (e0 :: al') = Ok r) <-> exists k, full_product k (map values (e0 :: al')).
Proof.
  intros e0 al'. pose proof (values_nonempty e0 al') as N. rewrite (cube_unfold e0 al'). set (al := e0 :: al') in *. split.
  - intros [r H]. exists (length (uniqs (map values al))). destruct (length (product (uniqs (map values al))) =? length al) eqn:E; [|discriminate]. apply Nat.eqb_eq in E. cbn [negb] in H. apply full_perm; [exact N|rewrite map_length; exact E|].
    intros t I.
    destruct (find_index t (map values al)) as [k|] eqn:F; [pose proof (find_index_spec t (map values al)) as S1; rewrite F in S1; exact (nth_error_In _ _ S1)|]. exfalso.
    pose proof (find_index_spec t (map values al)) as S1. rewrite F in S1. apply In_nth_error in I as [m EM]. assert (LL : length (product (uniqs (map values al))) = length (product (ranges (uniqs (map values al))))) by (apply product_length, ranges_length).
    assert (exists ix, nth_error (product (ranges (uniqs (map values al)))) m = Some ix) as [ix EX]. { destruct (nth_error (product (ranges (uniqs (map values al)))) m) eqn:Q; eauto. apply nth_error_None in Q. assert (m < length (product (uniqs (map values al)))) by (apply nth_error_Some; congruence). lia. }
    rewrite (look_fails al _ (t, ix)) in H; [discriminate| |exact S1]. apply (nth_error_In _ m). rewrite nth_combine. rewrite EM, EX. reflexivity.
  - intros [k F]. pose proof (perm_full _ k N F) as P. assert (E : length (product (uniqs (map values al))) = length al) by (rewrite (Permutation_length P); apply map_length). rewrite E, Nat.eqb_refl. cbn [negb].
    destruct (look_all al (combine (product (uniqs (map values al))) (product (ranges (uniqs (map values al)))))) as [out [H1 _]]; [intros [t ix] I; apply in_combine_l in I; exact (Permutation_in _ P I)|]. rewrite H1. cbn [bind]. eauto.
Qed.

(** The result: the parameters of the first block, the values seen in ascending
    order, and every block at the place of its values, in row-major order. *)
Theorem C40_order : forall (e0 : coord * hf A) al' names us out, hypercube_order ltb (e0 :: al') = Ok (names, us, out) ->
  names = map fst (fst e0) /\ (exists k, full_product k (map values (e0 :: al')) /\ axes_of ltb (map values (e0 :: al')) k us) /\
  map fst out = indices (map (@length label) us) /\
  (forall ix x, In (ix, x) out <-> exists e, In e (e0 :: al') /\ snd e = x /\ located us (values e) ix).
Proof.
  intros e0 al' names us out H. pose proof (proj1 (C40_hypercube e0 al') (ex_intro _ _ H)) as [k F]. pose proof (values_nonempty e0 al') as N. rewrite (cube_unfold e0 al') in H. remember (e0 :: al') as al eqn:EA.
  pose proof (perm_full _ k N F) as P. pose proof (uniqs_length _ k N (proj1 F)) as LK.
  assert (E : length (product (uniqs (map values al))) = length al) by (rewrite (Permutation_length P); apply map_length). rewrite E, Nat.eqb_refl in H. cbn [negb] in H.
  destruct (look_all al (combine (product (uniqs (map values al))) (product (ranges (uniqs (map values al)))))) as [out' [H1 [H2 H3]]]; [intros [t ix] I; apply in_combine_l in I; exact (Permutation_in _ P I)|].
  rewrite H1 in H. cbn [bind] in H. injection H as <- <- <-. split; [reflexivity|]. split; [exists k; split; [exact F|]; rewrite <- LK; apply uniqs_axes; exact N|].
  assert (LL : length (product (uniqs (map values al))) = length (product (ranges (uniqs (map values al))))) by (apply product_length, ranges_length).
  split; [rewrite H2, <- ranges_indices; apply map_snd_combine; exact LL|].
  assert (ND : NoDup (map values al)) by (apply F).
  assert (UQ : forall e e', In e al -> In e' al -> values e = values e' -> e = e').
  { intros e e' I I' EV. clear - ND I I' EV. induction al as [|a l IH]; [destruct I|]. cbn [map] in ND. inversion ND as [|? ? NI ND']; subst. destruct I as [<-|I]; destruct I' as [<-|I']; auto; exfalso; apply NI; [rewrite EV|rewrite <- EV]; apply in_map; auto. }
  intros ix x. split.
  - intros I. apply In_nth_error in I as [m EM]. destruct (Forall2_nth_r _ _ _ _ _ H3 EM) as [[t ix'] [E1 [e [I [EV ES]]]]]. cbn [fst snd] in *. exists e. split; [exact I|]. split; [exact ES|].
    assert (ix' = ix). { pose proof (f_equal (fun l => nth_error l m) H2) as Q. cbv beta in Q. rewrite !nth_error_map, EM, E1 in Q. cbn in Q. congruence. } subst ix'. rewrite EV. apply in_positions. exact (nth_error_In _ _ E1).
  - intros [e [I [ES L]]]. apply in_positions in L. apply In_nth_error in L as [m EM]. destruct (Forall2_nth_l _ _ _ _ _ H3 EM) as [[ix' x'] [E1 [e' [I' [EV ES']]]]]. cbn [fst snd] in *. assert (e' = e) by (apply UQ; auto). subst e'.
    assert (ix' = ix). { pose proof (f_equal (fun l => nth_error l m) H2) as Q. cbv beta in Q. rewrite !nth_error_map, EM, E1 in Q. cbn in Q. congruence. } subst ix'. rewrite <- ES, ES'. exact (nth_error_In _ _ E1).
Qed.
(** Other blocks are refused, with the error about hypercubes when their number is
    not the number of the combinations. *)
Theorem C40_refused : forall (e0 : coord * hf A) al', let al := e0 :: al' in (forall k, ~ full_product k (map values al)) ->
  forall k combos, NoDup combos -> (forall t, In t combos -> length t = k) ->
  (forall r, In r (map values al) -> k <= length r) -> (exists r, In r (map values al) /\ length r = k) ->
  (forall t, length t = k -> (In t combos <-> forall j v, nth_error t j = Some v -> exists s, In s (map values al) /\ nth_error s j = Some v)) ->
  hypercube_order ltb al = Err (if length combos =? length al then ValueError else HFError).
Proof.
  intros e0 al' al NF k combos ND LC MIN [r [IR LR]] HC. pose proof (values_nonempty e0 al') as N. fold al in N.
  assert (LU : length (uniqs (map values al)) = k). { unfold uniqs. rewrite map_length. apply zip_star_min; auto. exists r. auto. }
  assert (P : Permutation (product (uniqs (map values al))) combos).
  { apply NoDup_Permutation; [apply nodup_product, uniqs_nodup|exact ND|]. intros t. rewrite (in_product_uniqs _ t N), LU. split; [intros [L K]; apply HC; auto|]. intros I. split; [auto|]. apply HC; auto. }
  destruct (hypercube_order ltb al) as [x|e] eqn:E; [exfalso; destruct (proj1 (C40_hypercube e0 al') (ex_intro _ _ E)) as [k' F]; exact (NF k' F)|]. f_equal. rewrite <- (Permutation_length P). unfold al in E at 1. rewrite (cube_unfold e0 al') in E. fold al in E. 
  destruct (length (product (uniqs (map values al))) =? length al) eqn:EL; cbn [negb] in E; [|injection E as <-; reflexivity].
  destruct (mapM (look al) (combine (product (uniqs (map values al))) (product (ranges (uniqs (map values al)))))) as [o|e'] eqn:EM; [discriminate|]. cbn [bind] in E. injection E as <-. 
  clear - EM. revert EM. generalize (combine (product (uniqs (map values al))) (product (ranges (uniqs (map values al))))). intros ps. induction ps as [|[t ix] ps IH]; intros EM; [discriminate|]. cbn [mapM] in EM.
  pose proof (look_spec al t ix) as L. destruct (look al (t, ix)) as [[i x]|e]; [|injection EM as <-; apply L]. cbn [bind] in EM. destruct (mapM (look al) ps); [discriminate|]. cbn [bind] in EM. injection EM as <-. auto.
Qed.

(** The order of the blocks does not matter. *)
Theorem C40_any_order : forall (al al2 : list (coord * hf A)) names, Permutation al al2 -> (forall e, In e al -> map fst (fst e) = names) ->
  forall r, hypercube_order ltb al = Ok r -> hypercube_order ltb al2 = Ok r.
Proof.
  intros al al2 names P HN [[ns us] out] H. destruct al as [|e0 al']; [discriminate|]. destruct al2 as [|f0 al2']; [apply Permutation_sym, Permutation_nil in P; discriminate|].
  destruct (C40_order e0 al' ns us out H) as [N1 [[k [F1 AX1]] [I1 O1]]].
  assert (PV : Permutation (map values (e0 :: al')) (map values (f0 :: al2'))) by (apply Permutation_map; exact P).
  assert (F2 : full_product k (map values (f0 :: al2'))).
  { destruct F1 as [A1 [A2 A3]]. split; [intros t I; apply A1; exact (Permutation_in _ (Permutation_sym PV) I)|]. split; [exact (Permutation_NoDup PV A2)|]. intros t L K. apply (Permutation_in _ PV), A3; [exact L|]. intros j v E. destruct (K j v E) as [s [I E']]. exists s. split; [exact (Permutation_in _ (Permutation_sym PV) I)|exact E']. }
  destruct (proj2 (C40_hypercube f0 al2') (ex_intro _ k F2)) as [[[ns2 us2] out2] H2]. rewrite H2. destruct (C40_order f0 al2' ns2 us2 out2 H2) as [N2 [[k2 [F2' AX2]] [I2 O2]]].
  assert (k2 = k) by (rewrite <- (proj1 F2 (values f0)) by (left; reflexivity); symmetry; apply (proj1 F2'); left; reflexivity). subst k2.
  assert (us2 = us).
  { apply nth_error_ext. intros j. destruct AX1 as [L1 X1]. destruct AX2 as [L2 X2]. destruct (nth_error us2 j) as [u2|] eqn:E2.
    - assert (J : j < length us2) by (apply nth_error_Some; congruence). destruct (nth_error us j) as [u1|] eqn:E1; [|apply nth_error_None in E1; lia]. f_equal. destruct (X1 j u1 E1) as [S1 M1]. destruct (X2 j u2 E2) as [S2 M2]. apply (strict_unique ltb ST); auto. intros x. rewrite M1, M2. split; intros [s [I E]]; exists s; (split; [|exact E]); [exact (Permutation_in _ (Permutation_sym PV) I)|exact (Permutation_in _ PV I)].
    - apply nth_error_None in E2. symmetry. apply nth_error_None. lia. }
  subst us2. assert (out2 = out).
  { assert (ND : NoDup (map fst out)) by (rewrite I1; apply NoDup_indices). assert (MEM : forall p, In p out2 -> In p out). { intros [ix x] I. apply O1. apply O2 in I as [e [Ie K]]. exists e. split; [exact (Permutation_in _ (Permutation_sym P) Ie)|exact K]. }
    rewrite <- I2 in I1. clear - ND MEM I1. 
    assert (LE : length out = length out2) by (rewrite <- (map_length fst out), I1, map_length; reflexivity).
    apply nth_error_ext. intros j. pose proof (f_equal (fun l => nth_error l j) I1) as Q. cbv beta in Q. rewrite !nth_error_map in Q. destruct (nth_error out2 j) as [[i x]|] eqn:E2; destruct (nth_error out j) as [[i' x']|] eqn:E1; cbn [option_map fst] in Q; try discriminate; [|reflexivity]. injection Q as ->. f_equal. pose proof (MEM (i, x) (nth_error_In _ _ E2)) as I. pose proof (nth_error_In _ _ E1) as I'.
    clear - ND I I'. induction out as [|[a b] out IH]; [destruct I|]. cbn [map fst] in ND. inversion ND as [|? ? NI ND']; subst. destruct I as [K|I]; destruct I' as [K'|I']; [congruence|exfalso; apply NI; injection K as -> _; exact (in_map fst _ _ I')|exfalso; apply NI; injection K' as -> _; exact (in_map fst _ _ I)|auto]. }
  subst out2. f_equal. f_equal. f_equal. rewrite N2, N1, (HN e0) by (left; auto). symmetry. rewrite <- (HN f0); [reflexivity|]. apply (Permutation_in _ (Permutation_sym P)). left; auto.
Qed.

(** *** The merged variable *)
Variable cast : dtype -> A -> A.
(** The index [ix] of the parameters put after the first axis of [o]. *)
Definition put_in (o ix : list nat) : list nat := firstn 1 o ++ ix ++ skipn 1 o.
Lemma put_inner : forall o ix, inner_ix (Nat.min 1 (length o)) (length ix) (put_in o ix) = ix.
Proof.
  intros [|a o] ix; unfold inner_ix, put_in; [change (Nat.min 1 (length (@nil nat))) with 0|change (Nat.min 1 (length (a :: o))) with 1]; cbn [firstn skipn app]; [now rewrite app_nil_r, firstn_all|]. now rewrite firstn_app, firstn_all, Nat.sub_diag, app_nil_r.
Qed.
Lemma put_outer : forall o ix, outer_ix (Nat.min 1 (length o)) (length ix) (put_in o ix) = o.
Proof.
  intros [|a o] ix; unfold outer_ix, put_in; [change (Nat.min 1 (length (@nil nat))) with 0|change (Nat.min 1 (length (a :: o))) with 1]; cbn [firstn skipn app]; [now rewrite app_nil_r, skipn_all|]. now rewrite skipn_app, skipn_all, Nat.sub_diag.
Qed.
Lemma put_inb : forall sh o lens ix, length o = length sh -> length ix = length lens -> inb (firstn 1 sh ++ lens ++ skipn 1 sh) (put_in o ix) = inb sh o && inb lens ix.
Proof.
  intros [|n sh] [|a o] lens ix L1 L2; try discriminate; unfold put_in; cbn [firstn skipn app]; [rewrite !app_nil_r; reflexivity|]. cbn [inb]. rewrite inb_app by auto. destruct (a <? n); cbn [andb]; [apply andb_comm|reflexivity].
Qed.
Lemma put_all : forall sh lens ix, inb (firstn 1 sh ++ lens ++ skipn 1 sh) ix = true -> exists o i, ix = put_in o i /\ inb sh o = true /\ inb lens i = true.
Proof.
  intros [|n sh] lens ix H; cbn [firstn skipn app] in H.
  - rewrite app_nil_r in H. exists [], ix. split; [unfold put_in; cbn; now rewrite app_nil_r|auto].
  - destruct ix as [|a ix]; [discriminate|]. cbn [inb] in H. apply andb_true_iff in H as [H1 H2]. pose proof (inb_length _ _ H2) as L. rewrite app_length in L.
    exists (a :: skipn (length lens) ix), (firstn (length lens) ix). rewrite <- (firstn_skipn (length lens) ix) in H2. rewrite inb_app in H2 by (rewrite firstn_length; lia). apply andb_true_iff in H2 as [H2 H3].
    split; [unfold put_in; cbn [firstn skipn app]; now rewrite firstn_skipn|]. split; [cbn [inb]; now rewrite H1, H3|exact H2].
Qed.
Lemma located_inb : forall {X} (us : list (list X)) vs ix, located us vs ix -> inb (map (@length X) us) ix = true /\ length ix = length us /\ length vs = length us.
Proof.
  intros X us vs ix L. induction L as [|u us v vs i ix H L [I1 [I2 I3]]]; [auto|]. cbn [map inb length]. rewrite I1, I2, I3. split; [|auto]. rewrite andb_true_r. apply Nat.ltb_lt, nth_error_Some. congruence.
Qed.
Lemma fit_self : forall sh, fit sh sh = Some sh.
Proof.
  intros sh. unfold fit. rewrite Nat.leb_refl, Nat.sub_diag. cbn [repeat app].
  assert (E : forallb (fun p => (fst p =? snd p) || (fst p =? 1)) (combine sh sh) = true); [|now rewrite E]. induction sh as [|n sh IH]; auto. cbn [combine forallb fst snd]. rewrite Nat.eqb_refl. exact IH.
Qed.
Lemma assign_spec : forall np k t sh out f0, (forall e, In e out -> h_shape (snd e) = sh) -> NoDup (map fst out) ->
  exists f, assign_all cast np k t sh out f0 = Ok f /\
  (forall ix x, In (inner_ix np k ix, x) out -> f ix = option_map (cast t) (nd_get (h_nd x) (bindex sh (outer_ix np k ix)))) /\
  (forall ix, ~ In (inner_ix np k ix) (map fst out) -> f ix = f0 ix).
Proof.
  intros np k t sh out. induction out as [|[idx x] out IH]; intros f0 HS ND; [exists f0; split; [reflexivity|]; split; [intros ix x []|auto]|]. cbn [assign_all]. pose proof (HS (idx, x) (or_introl eq_refl)) as HX. cbn [snd] in HX. rewrite HX, fit_self.
  cbn [map fst] in ND. apply NoDup_cons_iff in ND as [NI ND']. destruct (IH (fun ix => if list_eqb Nat.eqb (inner_ix np k ix) idx then option_map (cast t) (nd_get (mkNd sh (nd_elems (h_nd x))) (bindex sh (outer_ix np k ix))) else f0 ix)) as [f [H1 [H2 H3]]]; [intros e I; apply HS; right; auto|exact ND'|].
  exists f. split; [exact H1|]. split.
  - intros ix y [E|I]; [|auto]. injection E as E <-. rewrite H3 by (rewrite <- E; exact NI). rewrite (proj2 (list_eqb_eq Nat.eqb Nat.eqb_eq _ _) (eq_sym E)). f_equal. assert (EN : mkNd sh (nd_elems (h_nd x)) = h_nd x) by (rewrite <- HX; unfold h_shape; destruct (h_nd x); reflexivity). now rewrite EN.
  - intros ix N. cbn [map In fst] in N. rewrite H3 by tauto. destruct (list_eqb Nat.eqb (inner_ix np k ix) idx) eqn:E; [|reflexivity]. apply (list_eqb_eq Nat.eqb Nat.eqb_eq) in E. subst idx. tauto.
Qed.

(** Blocks with the full product of values and arrays of one kind: the variable has
    an axis with the values of each parameter after its first axis, and the data of
    every block are at the place of its values. *)
Theorem C40_merge : forall (e0 e1 : coord * hf A) al' k sh ds t, let al := e0 :: e1 :: al' in
  full_product k (map values al) ->
  (forall e, In e al -> h_shape (snd e) = sh /\ h_dims (snd e) = ds /\ h_dt (snd e) = t /\ nd_wf (h_nd (snd e))) -> length ds = length sh ->
  exists v inner us, merge_variable ltb cast al = Ok (v, inner) /\ axes_of ltb (map values al) k us /\
    map d_name inner = map fst (fst e0) /\ map d_data inner = us /\ (forall d, In d inner -> d_class d = CDimRep) /\
    h_dims v = firstn 1 ds ++ inner ++ skipn 1 ds /\ h_shape v = firstn 1 sh ++ map (@length label) us ++ skipn 1 sh /\ h_dt v = t /\
    (forall u, (forall e, In e al -> h_unit (snd e) = u) -> h_unit v = u) /\
    forall e, In e al -> exists ix, located us (values e) ix /\
      forall o, length o = length sh -> nd_get (h_nd v) (put_in o ix) = option_map (cast t) (nd_get (h_nd (snd e)) o).
Proof.
  intros e0 e1 al' k sh ds t al F HU LD. destruct (proj2 (C40_hypercube e0 (e1 :: al')) (ex_intro _ k F)) as [[[names us] out] EH].
  destruct (C40_order e0 (e1 :: al') names us out EH) as [HN [[k' [F' AX]] [HI HO]]]. fold al in EH, F', AX, HO.
  assert (k' = k). { destruct F as [F _]. destruct F' as [F' _]. rewrite <- (F (values e0)) by (left; reflexivity). symmetry. apply F'. left; reflexivity. } subst k'.
  assert (SH : forall e, In e out -> exists e', In e' al /\ snd e' = snd e). { intros [ix x] I. apply HO in I as [e' [I [E _]]]. exists e'. auto. }
  assert (ND : NoDup (map fst out)) by (rewrite HI; apply NoDup_indices).
  assert (LV : forall e, In e al -> length (values e) = length us). { intros e I. rewrite (proj1 AX). apply (proj1 F). now apply in_map. }
  assert (LOC : forall e, In e al -> exists ix, located us (values e) ix).
  { intros e I. specialize (LV e I). assert (Q : forall j u v, nth_error us j = Some u -> nth_error (values e) j = Some v -> In v u). { intros j u v EU EV. apply (proj2 (proj2 AX j u EU)). exists (values e). split; [now apply in_map|exact EV]. }
    clear - LV Q. revert Q LV. generalize (values e). induction us as [|u us IH]; intros [|v vs] Q L; try discriminate; [exists []; constructor|]. destruct (In_nth_error _ _ (Q 0 u v eq_refl eq_refl)) as [i Ei]. destruct (IH vs) as [ix L']; [intros j u' v' E1 E2; exact (Q (S j) u' v' E1 E2)|cbn in L; lia|]. exists (i :: ix). constructor; auto. }
  assert (LO : 2 <= length out).
  { destruct (LOC e0) as [ix0 L0]; [left; auto|]. destruct (LOC e1) as [ix1 L1]; [right; left; auto|].
    assert (I0 : In (ix0, snd e0) out) by (apply HO; exists e0; split; [left; auto|auto]). assert (I1 : In (ix1, snd e1) out) by (apply HO; exists e1; split; [right; left; auto|auto]).
    assert (NE : ix0 <> ix1). { intros <-. assert (EV : values e0 = values e1). { clear - L0 L1. revert L1. generalize (values e1). induction L0 as [|u us v vs i ix H L IH]; intros w L1; inversion L1 as [|? ? v' vs' ? ? H' L']; subst; [reflexivity|]. rewrite H in H'. injection H' as <-. f_equal. auto. }
      destruct F as [_ [NDV _]]. unfold al in NDV. cbn [map] in NDV. inversion NDV as [|? ? NI _]; subst. apply NI. left. auto. }
    destruct out as [|a [|b out]]; [destruct I0| |cbn; lia]. destruct I0 as [->|[]]. destruct I1 as [E|[]]. injection E as <-. congruence. }
  unfold merge_variable. rewrite EH. cbn [bind fst snd]. destruct out as [|[i0 x0] [|o1 out']]; [cbn in LO; lia|cbn in LO; lia|]. set (out := (i0, x0) :: o1 :: out') in *.
  destruct (SH (i0, x0) (or_introl eq_refl)) as [ep [IP EP]]. cbn [snd] in EP. destruct (HU ep IP) as [HU1 [HU2 [HU3 HU4]]]. rewrite EP in *. rewrite HU1, HU2, HU3.
  destruct (assign_spec (Nat.min 1 (length sh)) (length us) t sh out (fun _ => None)) as [f [A1 [A2 _]]]; [intros e I; destruct (SH e I) as [e' [I' E']]; rewrite <- E'; apply (HU e' I')|exact ND|]. rewrite A1. cbn [bind].
  set (inner := map (fun p => mkDim CDimRep (fst p) (snd p) None None) (combine names us)).
  assert (LN : length names = length us). { rewrite HN, map_length. rewrite <- (LV e0) by (left; auto). unfold values. now rewrite map_length. }
  assert (LI : length inner = length us) by (unfold inner; rewrite map_length, combine_length; lia).
  assert (LEN : length (firstn 1 ds ++ inner ++ skipn 1 ds) = length (firstn 1 sh ++ map (@length label) us ++ skipn 1 sh)) by (rewrite !app_length, !firstn_length, !skipn_length, map_length; lia).
  unfold new_raw. cbn [bind]. rewrite nd_tab_shape, LEN, Nat.eqb_refl. cbn [bind].
  assert (VAL : forall e ix o, In e al -> located us (values e) ix -> inb sh o = true -> f (put_in o ix) = option_map (cast t) (nd_get (h_nd (snd e)) o)).
  { intros e ix o I L IO. pose proof (located_inb _ _ _ L) as [_ [LL _]]. pose proof (inb_length _ _ IO) as LO'. pose proof (put_inner o ix) as PI. pose proof (put_outer o ix) as PO. rewrite LO', LL in PI, PO.
    rewrite (A2 (put_in o ix) (snd e)); [|rewrite PI; apply HO; exists e; auto]. rewrite PO, bindex_self by auto. reflexivity. }
  assert (TOT : total_on (firstn 1 sh ++ map (@length label) us ++ skipn 1 sh) f).
  { intros ix I. destruct (put_all _ _ _ I) as [o [i [-> [IO II]]]]. assert (J : In i (map fst out)) by (rewrite HI; now apply in_indices). apply in_map_iff in J as [[i' x] [E J]]. cbn [fst] in E. subst i'. apply HO in J as [e [Ie [Ex L]]].
    rewrite (VAL e i o Ie L IO). destruct (HU e Ie) as [U1 [_ [_ U4]]]. destruct (nd_get_some (h_nd (snd e)) o U4) as [y Ey]; [unfold h_shape in U1; rewrite U1; exact IO|]. rewrite Ey. discriminate. }
  eexists _, inner, us. split; [reflexivity|]. split; [exact AX|]. split; [unfold inner; rewrite map_map; cbn [d_name]; rewrite <- HN; clear - LN; revert LN; generalize us; induction names as [|n names IH]; intros [|u us0] L; try discriminate; auto; cbn; f_equal; apply IH; now injection L|].
  split; [unfold inner; rewrite map_map; cbn [d_data]; apply map_snd_combine; exact LN|]. split; [intros d I; apply in_map_iff in I as [p [<- _]]; reflexivity|]. split; [reflexivity|]. split; [reflexivity|]. split; [reflexivity|].
  split.
  - intros u Hu. cbn [h_unit]. assert (UO : forall e, In e out -> h_unit (snd e) = u) by (intros e I; destruct (SH e I) as [e' [I' E']]; rewrite <- E'; auto). clearbody out. clear - UO LO. destruct out as [|e out]; [cbn in LO; lia|]. cbn [map same_unit].
    rewrite (UO e) by (left; auto). assert (E : forallb (option_eqb String.eqb u) (map (fun e => h_unit (snd e)) out) = true); [|rewrite E; reflexivity]. apply forallb_forall. intros w I. apply in_map_iff in I as [q [<- I]]. rewrite (UO q) by (right; auto). apply (option_eqb_eq String.eqb String.eqb_eq). reflexivity.
  - intros e I. destruct (LOC e I) as [ix L]. exists ix. split; [exact L|]. intros o LO'. cbn [h_nd]. pose proof (located_inb _ _ _ L) as [IL [LL _]]. destruct (HU e I) as [U1 [_ [_ U4]]].
    assert (IB : inb (firstn 1 sh ++ map (@length label) us ++ skipn 1 sh) (put_in o ix) = inb sh o) by (rewrite put_inb by (auto; rewrite map_length; auto); rewrite IL; apply andb_true_r).
    destruct (inb sh o) eqn:IO; [rewrite nd_get_tab by auto; apply VAL; auto|]. rewrite nd_get_oob by (rewrite nd_tab_shape; exact IB). rewrite nd_get_oob; [reflexivity|]. unfold h_shape in U1. rewrite U1. exact IO.
Qed.
(** One block alone is handed on as it is. *)
Theorem C40_single : forall e : coord * hf A, merge_variable ltb cast [e] = Ok (snd e, []).
Proof.
  intros e. destruct (proj2 (C40_hypercube e [])) as [[[names us] out] EH].
  { exists (length (values e)). split; [intros t [<-|[]]; reflexivity|]. split; [constructor; [intros []|constructor]|]. intros t L H. left. apply (nth_error_ext (values e) t). intros i. destruct (nth_error t i) as [v|] eqn:E; [destruct (H i v E) as [s [[<-|[]] K]]; exact K|]. apply nth_error_None in E. apply nth_error_None. cbn [map In] in *. lia. }
  unfold merge_variable. rewrite EH. cbn [bind fst snd]. destruct (C40_order e [] names us out EH) as [_ [[k [F AX]] [HI HO]]].
  assert (L1 : length out = 1). { rewrite <- (map_length fst), HI, <- ranges_indices, <- (product_length us (ranges us) (ranges_length us)). rewrite (cube_unfold e []) in EH. destruct (length (product (uniqs (map values [e]))) =? length [e]) eqn:Q; [|discriminate]. apply Nat.eqb_eq in Q. cbn [negb] in EH.
    destruct (mapM (look [e]) (combine (product (uniqs (map values [e]))) (product (ranges (uniqs (map values [e])))))) as [o|]; [|discriminate]. cbn [bind] in EH. injection EH as _ <- _. exact Q. }
  destruct out as [|[i x] [|? ?]]; try discriminate. destruct (proj1 (HO i x) (or_introl eq_refl)) as [e' [[<-|[]] [<- _]]]. reflexivity.
Qed.
(** Nothing is merged of blocks that are not the full product. *)
Theorem C40_not_full : forall (e0 : coord * hf A) al', (forall k, ~ full_product k (map values (e0 :: al'))) -> exists er, merge_variable ltb cast (e0 :: al') = Err er.
Proof.
  intros e0 al' N. unfold merge_variable. destruct (hypercube_order ltb (e0 :: al')) as [r|er] eqn:E; [exfalso; destruct (proj1 (C40_hypercube e0 al') (ex_intro _ r E)) as [k F]; exact (N k F)|]. exists er. reflexivity.
Qed.
Lemma fit_same_rank : forall sh s u, length s = length sh -> ~ In 1 s -> fit sh s = Some u -> s = sh.
Proof.
  intros sh s u L N H. unfold fit in H. rewrite L, Nat.leb_refl, Nat.sub_diag in H. cbn [repeat app] in H. destruct (forallb _ (combine s sh)) eqn:E; [|discriminate H]. clear H u. revert s L N E. induction sh as [|n sh IH]; intros [|m s] L N E; try discriminate L; [reflexivity|].
  cbn [combine forallb fst snd] in E. apply andb_true_iff in E as [E1 E2]. apply orb_true_iff in E1 as [E1|E1]; apply Nat.eqb_eq in E1; [|exfalso; apply N; now left]. subst. f_equal. apply IH; [now injection L|intros I; apply N; now right|exact E2].
Qed.
Lemma assign_misfit : forall np k t sh out f ix x, In (ix, x) out -> fit sh (h_shape x) = None -> assign_all cast np k t sh out f = Err ValueError.
Proof.
  intros np k t sh. induction out as [|[i y] out IH]; intros f ix x I H; [destruct I|]. cbn [assign_all]. destruct I as [I|I]; [injection I as -> ->; now rewrite H|]. destruct (fit sh (h_shape y)); [exact (IH _ _ _ I H)|reflexivity].
Qed.
(** Arrays of as many axes, none of length one, but not all of one shape are not merged. *)
Theorem C40_shapes : forall (e0 : coord * hf A) al' k r e e', let al := e0 :: al' in
  full_product k (map values al) -> (forall x, In x al -> length (h_shape (snd x)) = r /\ ~ In 1 (h_shape (snd x))) ->
  In e al -> In e' al -> h_shape (snd e) <> h_shape (snd e') -> merge_variable ltb cast al = Err ValueError.
Proof.
  intros e0 al' k r e e' al F HR I I' D. destruct (proj2 (C40_hypercube e0 al') (ex_intro _ k F)) as [[[names us] out] EH].
  destruct (C40_order e0 al' names us out EH) as [HN [[k' [F' AX]] [HI HO]]]. fold al in EH, F', AX, HO.
  assert (k' = k). { destruct F as [F _]. destruct F' as [F' _]. rewrite <- (F (values e0)) by (left; reflexivity). symmetry. apply F'. left; reflexivity. } subst k'.
  assert (LV : forall e, In e al -> length (values e) = length us). { intros x J. rewrite (proj1 AX). apply (proj1 F). now apply in_map. }
  assert (LOC : forall e, In e al -> exists ix, located us (values e) ix).
  { intros x J. specialize (LV x J). assert (Q : forall j u v, nth_error us j = Some u -> nth_error (values x) j = Some v -> In v u). { intros j u v EU EV. apply (proj2 (proj2 AX j u EU)). exists (values x). split; [now apply in_map|exact EV]. }
    clear - LV Q. revert Q LV. generalize (values x). induction us as [|u us IH]; intros [|v vs] Q L; try discriminate; [exists []; constructor|]. destruct (In_nth_error _ _ (Q 0 u v eq_refl eq_refl)) as [i Ei]. destruct (IH vs) as [ix L']; [intros j u' v' E1 E2; exact (Q (S j) u' v' E1 E2)|cbn in L; lia|]. exists (i :: ix). constructor; auto. }
  destruct (LOC e I) as [ix L]. destruct (LOC e' I') as [ix' L']. assert (J : In (ix, snd e) out) by (apply HO; exists e; auto). assert (J' : In (ix', snd e') out) by (apply HO; exists e'; auto).
  unfold merge_variable. rewrite EH. cbn [bind fst snd]. destruct out as [|[i0 x0] [|o1 out']]; [destruct J|exfalso; destruct J as [J|[]], J' as [J'|[]]; apply D; congruence|]. set (out := (i0, x0) :: o1 :: out') in *.
  assert (P0 : exists p, In p al /\ snd p = x0) by (destruct (proj1 (HO i0 x0) (or_introl eq_refl)) as (p & P1 & P2 & _); eauto). destruct P0 as (p & IP & <-). destruct (HR p IP) as [R1 _].
  assert (X : exists iy y, In (iy, y) out /\ fit (h_shape (snd p)) (h_shape y) = None).
  { destruct (list_eq_dec Nat.eq_dec (h_shape (snd e)) (h_shape (snd p))) as [E|E].
    - exists ix', (snd e'). split; [exact J'|]. destruct (HR e' I') as [R2 R3]. destruct (fit (h_shape (snd p)) (h_shape (snd e'))) as [u|] eqn:FT; [|reflexivity]. exfalso. apply fit_same_rank in FT; [congruence|congruence|exact R3].
    - exists ix, (snd e). split; [exact J|]. destruct (HR e I) as [R2 R3]. destruct (fit (h_shape (snd p)) (h_shape (snd e))) as [u|] eqn:FT; [|reflexivity]. exfalso. apply fit_same_rank in FT; [congruence|congruence|exact R3]. }
  destruct X as (iy & y & Y1 & Y2). rewrite (assign_misfit _ _ _ _ _ _ _ _ Y1 Y2). reflexivity.
Qed.
End Order.
Print Assumptions C40_shapes.
Print Assumptions C40_hypercube. Print Assumptions C40_order. Print Assumptions C40_refused. Print Assumptions C40_merge. Print Assumptions C40_single. Print Assumptions C40_not_full.

(** *** Association lists *)
Section Assoc.
Context {A : Type} (sltb : string -> string -> bool) (SS : sto sltb) (ltb : label -> label -> bool).
Lemma coord_insert_perm : forall x l, Permutation (x :: l) (coord_insert sltb ltb x l).
Proof. intros x. induction l as [|y l IH]; cbn [coord_insert]; [reflexivity|]. destruct (pair_lt sltb ltb y x); [|reflexivity]. rewrite perm_swap. constructor. exact IH. Qed.
Lemma coord_sort_perm : forall l, Permutation l (coord_sort sltb ltb l).
Proof. induction l as [|x l IH]; [reflexivity|]. unfold coord_sort. cbn [fold_right]. fold (coord_sort sltb ltb l). rewrite <- coord_insert_perm. now constructor. Qed.
Lemma coord_insert_sorted : forall x l, ~ In (fst x) (map fst l) -> StronglySorted (fun a b => sltb (fst a) (fst b) = true) l -> StronglySorted (fun a b => sltb (fst a) (fst b) = true) (coord_insert sltb ltb x l).
Proof.
  intros x. induction l as [|y l IH]; intros N S1; cbn [coord_insert]; [constructor; constructor|]. cbn [map In] in N. inversion S1 as [|? ? S2 F]; subst. unfold pair_lt. assert (EN : String.eqb (fst y) (fst x) = false) by (apply String.eqb_neq; tauto). rewrite EN. destruct (sltb (fst y) (fst x)) eqn:L.
  - constructor; [apply IH; tauto|]. rewrite Forall_forall in *. intros z I. apply (Permutation_in _ (Permutation_sym (coord_insert_perm x l))) in I as [<-|I]; auto.
  - assert (XY : sltb (fst x) (fst y) = true). { destruct (sltb (fst x) (fst y)) eqn:L2; auto. exfalso. apply N. left. exact (sto_total _ SS _ _ L L2). }
    constructor; [exact S1|]. rewrite Forall_forall in *. intros z [<-|I]; [exact XY|]. exact (sto_trans _ SS _ _ _ XY (F z I)).
Qed.
Lemma coord_sort_sorted : forall l, NoDup (map fst l) -> StronglySorted (fun a b => sltb (fst a) (fst b) = true) (coord_sort sltb ltb l).
Proof.
  induction l as [|x l IH]; intros N; [constructor|]. inversion N as [|? ? NI N']; subst. unfold coord_sort. cbn [fold_right]. fold (coord_sort sltb ltb l). apply coord_insert_sorted; [|auto]. intros I. apply NI. apply (Permutation_in _ (Permutation_map fst (Permutation_sym (coord_sort_perm l)))). exact I.
Qed.
Lemma block_coord_ok : forall (b : mblk A) c, NoDup (map fst (k_ivars b)) -> block_coord sltb ltb b = Ok c -> coordinates_of sltb b c.
Proof.
  intros b c N H. unfold block_coord in H. destruct (mapM (fun p => do v <- of_option IndexError (hd_error (d_data (snd p))); Ok (fst p, v)) (filter (fun p => subclass (d_class (snd p)) CDimPartial) (k_ivars b))) as [l|] eqn:E; [|discriminate]. cbn [bind] in H. injection H as <-.
  change (fun p : string * dim => subclass (d_class (snd p)) CDimPartial) with is_partial in E.
  assert (NF : NoDup (map fst (filter is_partial (k_ivars b)))). { clear E. induction (k_ivars b) as [|p ps IH]; [constructor|]. cbn [map] in N. inversion N as [|? ? NI N']; subst. cbn [filter]. destruct (is_partial p); auto. cbn [map]. constructor; auto. intros I. apply NI. apply in_map_iff in I as [q [EQ I]]. apply filter_In in I as [I _]. rewrite <- EQ. now apply in_map. }
  exists l. assert (F : Forall2 (fun p q => fst q = fst p /\ exists r, d_data (snd p) = snd q :: r) (filter is_partial (k_ivars b)) l /\ map fst l = map fst (filter is_partial (k_ivars b))).
  { clear N NF. revert l E. induction (filter is_partial (k_ivars b)) as [|p ps IH]; intros l E; cbn [mapM] in E; [injection E as <-; split; [constructor|reflexivity]|]. destruct (d_data (snd p)) as [|v r] eqn:ED; [discriminate|]. cbn [hd_error of_option bind] in E.
    destruct (mapM (fun p0 => do v <- of_option IndexError (hd_error (d_data (snd p0))); Ok (fst p0, v)) ps) as [ys|] eqn:EM; [|discriminate]. cbn [bind] in E. injection E as <-. destruct (IH ys eq_refl) as [F1 F2]. split; [constructor; [cbn [fst snd]; eauto|exact F1]|cbn [map fst]; now rewrite F2]. }
  destruct F as [F1 F2]. split; [exact F1|]. split; [apply coord_sort_perm|]. apply coord_sort_sorted. rewrite F2. exact NF.
Qed.

Fixpoint get (v : string) (d : list (string * list (coord * hf A))) : list (coord * hf A) :=
  match d with [] => [] | (w, es) :: d' => if String.eqb w v then es else get v d' end.
Lemma add_get : forall v (e : coord * hf A) d w, get w (assoc_add v e d) = if String.eqb v w then get w d ++ [e] else get w d.
Proof.
  intros v e d w. induction d as [|[u es] d IH]; cbn [assoc_add get].
  - destruct (String.eqb v w); reflexivity.
  - destruct (String.eqb u v) eqn:E.
    + apply String.eqb_eq in E. subst u. cbn [get]. destruct (String.eqb v w); reflexivity.
    + cbn [get]. rewrite IH. destruct (String.eqb u w) eqn:E2; [|reflexivity]. apply String.eqb_eq in E2. subst u. rewrite String.eqb_sym, E. reflexivity.
Qed.
Definition good (d : list (string * list (coord * hf A))) : Prop := NoDup (map fst d) /\ forall v es, In (v, es) d -> es <> [].
Lemma add_keys : forall v (e : coord * hf A) d w, In w (map fst (assoc_add v e d)) <-> w = v \/ In w (map fst d).
Proof.
  intros v e d w. induction d as [|[u es] d IH]; cbn [assoc_add map fst In]; [intuition|]. destruct (String.eqb u v) eqn:E; cbn [map fst In]; [apply String.eqb_eq in E; subst; intuition|]. rewrite IH. intuition.
Qed.
Lemma add_good : forall v (e : coord * hf A) d, good d -> good (assoc_add v e d).
Proof.
  intros v e d [N H]. induction d as [|[u es] d IH]; cbn [assoc_add].
  - split; [constructor; [intros []|constructor]|]. intros w es [E|[]]. injection E as <- <-. discriminate.
  - cbn [map fst] in N. inversion N as [|? ? NI N']; subst. destruct (String.eqb u v) eqn:E.
    + split; [exact N|]. intros w fs [K|I]; [injection K as <- <-; destruct es; discriminate|]. apply (H w). right; auto.
    + destruct IH as [I1 I2]; [auto|intros w fs I; apply (H w); right; auto|]. split.
      * cbn [map fst]. constructor; [|exact I1]. intros I. apply add_keys in I as [->|I]; [rewrite String.eqb_refl in E; discriminate|auto].
      * intros w fs [K|I]; [apply (H w); left; exact K|]. exact (I2 w fs I).
Qed.
Lemma fold_add : forall c vs d, good d -> good (fold_left (fun d p => assoc_add (fst p) (c, snd p) d) vs d) /\
  forall w, get w (fold_left (fun d p => assoc_add (fst p) (c, snd p) d) vs d) = get w d ++ map (fun q => (c, snd q)) (filter (fun q => String.eqb (fst q) w) vs).
Proof.
  intros c. induction vs as [|[v x] vs IH]; intros d G; [split; [exact G|]; intros w; cbn; now rewrite app_nil_r|]. cbn [fold_left fst snd]. destruct (IH _ (add_good v (c, x) d G)) as [H1 H2]. split; [exact H1|]. intros w. rewrite H2, add_get. cbn [filter fst]. destruct (String.eqb v w); [|reflexivity]. cbn [map snd]. rewrite <- app_assoc. reflexivity.
Qed.
Lemma good_get : forall d v es, good d -> (In (v, es) d <-> es = get v d /\ es <> []).
Proof.
  intros d v es [N H]. induction d as [|[u fs] d IH]; cbn [get]; [split; [intros []|intros [-> K]; congruence]|]. cbn [map fst] in N. inversion N as [|? ? NI N']; subst. destruct (String.eqb u v) eqn:E.
  - apply String.eqb_eq in E. subst u. split; [intros [K|I]; [injection K as <-; split; [auto|]; apply (H v); left; auto|exfalso; apply NI; apply (in_map fst) in I; exact I]|]. intros [-> _]. left; auto.
  - rewrite <- IH; [|auto|intros w gs I; apply (H w); right; auto]. split; [intros [K|I]; [injection K as -> _; rewrite String.eqb_refl in E; discriminate|auto]|]. intros I. right; auto.
Qed.
(** Each variable has an entry for every block with it, in the order of the
    blocks, with the coordinates of the block. *)
Theorem C40_association : forall (bs : list (mblk A)) d, (forall b, In b bs -> NoDup (map fst (k_ivars b))) -> association_list sltb ltb bs = Ok d ->
  exists cs, Forall2 (coordinates_of sltb) bs cs /\ NoDup (map fst d) /\ forall v es, In (v, es) d <-> es = entries v bs cs /\ es <> [].
Proof.
  intros bs d HN H.
  assert (G : forall bs d0 d, (forall b, In b bs -> NoDup (map fst (k_ivars b))) -> good d0 -> assoc_loop sltb ltb bs d0 = Ok d -> exists cs, Forall2 (coordinates_of sltb) bs cs /\ good d /\ forall v, get v d = get v d0 ++ entries v bs cs).
  { clear bs d HN H. induction bs as [|b bs IH]; intros d0 d HN G H; cbn [assoc_loop] in H; [injection H as <-; exists []; split; [constructor|]; split; [exact G|]; intros v; cbn; now rewrite app_nil_r|].
    destruct (block_coord sltb ltb b) as [c|] eqn:E; [|discriminate]. cbn [bind] in H. destruct (fold_add c (k_vars b) d0 G) as [G1 G2]. destruct (IH _ d (fun b' I => HN b' (or_intror I)) G1 H) as [cs [F [G3 G4]]]. exists (c :: cs). split; [constructor; [apply block_coord_ok; [apply HN; left; auto|exact E]|exact F]|]. split; [exact G3|].
    intros v. rewrite G4, G2. unfold entries. cbn [combine flat_map fst snd]. now rewrite <- app_assoc. }
  destruct (G bs [] d HN) as [cs [F [GD GG]]]; [split; [constructor|intros v es []]|exact H|]. exists cs. split; [exact F|]. split; [apply GD|]. intros v es. rewrite (good_get d v es GD), GG. reflexivity.
Qed.
End Assoc.
Print Assumptions C40_association.

(** *** Examples *)
Definition pv (v : Z) (n : string) : string * dim := (n, mkDim CDimPartial n [LZ v] None None).
Definition data40 (a b : nat) : hf nat := mkHF (mkNd [2] [a; b]) DInt [mkDim CDimSweep "freq" (range_labels 2) None None] None "%d".
Definition blk40 (v g : Z) (a b : nat) : mblk nat := mkBlk [pv v "Vgs"; ("freq"%string, mkDim CDimSweep "freq" (range_labels 2) None None); pv g "Vds"] [("S"%string, data40 a b)].
Definition slt (a b : string) : bool := chars_lt (list_ascii_of_string a) (list_ascii_of_string b).
Definition blocks40 : list (mblk nat) := [blk40 3 1 31 131; blk40 1 2 12 112; blk40 3 2 32 132; blk40 1 1 11 111; blk40 2 1 21 121; blk40 2 2 22 122].
Definition al40 : list (coord * hf nat) := match association_list slt lltb blocks40 with Ok [(_, es)] => es | _ => [] end.
Example C40_ex : map fst al40 = map (fun p => [("Vds"%string, LZ (snd p)); ("Vgs"%string, LZ (fst p))]) [(3, 1); (1, 2); (3, 2); (1, 1); (2, 1); (2, 2)]%Z /\
  (let r := merge_variable lltb (fun _ x => x) al40 in
   match r with Ok (v, inner) => nd_shape (h_nd v) = [2; 2; 3] /\ nd_elems (h_nd v) = [11; 21; 31; 12; 22; 32; 111; 121; 131; 112; 122; 132] /\
     map d_name (h_dims v) = ["freq"%string; "Vds"%string; "Vgs"%string] /\ map d_data inner = [[LZ 1; LZ 2]; [LZ 1; LZ 2; LZ 3]]%Z | Err _ => False end).
Proof. vm_compute. repeat split; reflexivity. Qed.
Example C40_ex_full : full_product 2 (map values al40).
Proof.
  destruct (proj1 (C40_hypercube lltb lltb_sto (hd ([], data40 0 0) al40) (tl al40))) as [k F]; [eexists; vm_compute; reflexivity|]. change (full_product k (map values al40)) in F.
  assert (k = 2); [|subst; exact F]. rewrite <- (proj1 F [LZ 1; LZ 3]%Z); [reflexivity|]. vm_compute. auto.
Qed.
(** Without one of the blocks the cube cannot be made. *)
Example C40_ex_missing : merge_variable lltb (fun _ x => x) (tl al40) = Err HFError.
Proof. vm_compute. reflexivity. Qed.
(** Arrays of two and of three points. *)
Definition long40 : hf nat := mkHF (mkNd [3] [1; 2; 3]) DInt [mkDim CDimSweep "freq" (range_labels 3) None None] None "%d".
Example C40_ex_shapes : full_product 1 (map values [([("Vds"%string, LZ 1)], data40 1 2); ([("Vds"%string, LZ 2)], long40)]) /\ h_shape (data40 1 2) = [2] /\ h_shape long40 = [3] /\
  merge_variable lltb (fun _ x => x) [([("Vds"%string, LZ 1)], data40 1 2); ([("Vds"%string, LZ 2)], long40)] = Err ValueError.
Proof.
  split; [|split; [reflexivity|]; split; [reflexivity|vm_compute; reflexivity]]. split; [intros t [<-|[<-|[]]]; reflexivity|]. split; [constructor; [intros [E|[]]; discriminate E|constructor; [intros []|constructor]]|].
  intros [|v [|w t]] L H; try discriminate L. destruct (H 0 v eq_refl) as (q & [<-|[<-|[]]] & E); injection E as <-; cbn; auto.
Qed.
(** Only the names of the parameters of the first block are looked at: a block with
    another parameter becomes part of the axis. *)
Theorem C40_names_refuted : exists (e0 e1 : coord * hf nat) v inner, map fst (fst e0) <> map fst (fst e1) /\
  merge_variable lltb (fun _ x => x) [e0; e1] = Ok (v, inner) /\ map d_name inner = map fst (fst e0) /\ map d_data inner = [map snd (fst e0) ++ map snd (fst e1)].
Proof.
  exists ([("Vds"%string, LZ 1)], data40 1 2), ([("Vgs"%string, LZ 5)], data40 3 4). eexists _, _. split; [discriminate|]. split; [vm_compute; reflexivity|]. split; reflexivity.
Qed.
Print Assumptions C40_names_refuted. Print Assumptions C40_any_order.
