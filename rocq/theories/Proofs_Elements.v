From Coq Require Import Ascii String List Arith ZArith Bool Lia Permutation Sorted.
From Verif Require Import Model_NdArray Proofs_NdArray Model_Dim Proofs_Dim Model_Array Spec_Array Proofs_Array Proofs_Array2 Model_DataDict
  Spec_DataDict Proofs_DataDict Model_Text Proofs_Text Model_Block Spec_Block Proofs_Block Proofs_Block2 Proofs_Block3 Model_MatNames
  Proofs_MatNames Model_Elements.
Import ListNotations.
Local Open Scope string_scope.
Local Open Scope nat_scope.
Local Open Scope list_scope.

Lemma last_snoc : forall {X} (l : list X) a d, last (l ++ [a]) d = a.
Proof. induction l as [|x l IH]; intros a d; auto. simpl. destruct (l ++ [a]) eqn:E; [now apply app_eq_nil in E|]. rewrite <- E. apply IH. Qed.

Lemma snoc_exists : forall (ix : list nat) n, length ix = S n -> exists jx q, ix = jx ++ [q] /\ length jx = n.
Proof.
  intros ix n H. exists (removelast ix), (last ix 0). split.
  - apply app_removelast_last. intros ->. discriminate.
  - assert (E : ix = removelast ix ++ [last ix 0]) by (apply app_removelast_last; intros ->; discriminate).
    apply (f_equal (@length _)) in E. rewrite app_length in E. simpl in E. lia.
Qed.

Lemma set_last_ok : forall {A} (x v : nd A) t n p, nd_wf x -> nd_wf v -> nd_shape x = t ++ [n] -> nd_shape v = t -> p < n ->
  exists y, set_last x p v = Ok y /\ nd_wf y /\ nd_shape y = t ++ [n] /\
    forall ix q, inb t ix = true -> q < n -> nd_get y (ix ++ [q]) = if Nat.eqb q p then nd_get v ix else nd_get x (ix ++ [q]).
Proof.
  intros A x v t n p Wx Wv Sx Sv Hp. unfold set_last. cbv zeta. rewrite Sx, removelast_last, Sv, Nat.sub_diag.
  assert (drop_lead 0 t = t) as -> by (destruct t; reflexivity). rewrite bcast_ok_refl, Nat.sub_diag.
  assert (Ev : mkNd t (nd_elems v) = v) by (rewrite <- Sv; now destruct v). rewrite Ev.
  match goal with |- exists y, Ok (nd_tab _ ?f) = _ /\ _ => set (F := f) end.
  assert (FE : forall ix q, inb t ix = true -> F (ix ++ [q]) = if Nat.eqb q p then nd_get v ix else nd_get x (ix ++ [q])).
  { intros ix q H. unfold F. rewrite last_snoc, removelast_last. change (skipn 0 ix) with ix. rewrite bindex_self; auto. symmetry. now apply inb_length. }
  assert (TOT : total_on (t ++ [n]) F).
  { intros ix H. pose proof (inb_length _ _ H) as L. rewrite app_length, Nat.add_comm in L. cbn in L.
    destruct (snoc_exists ix (length t) L) as [jx [q [-> Lj]]]. rewrite inb_app in H by auto. apply andb_prop in H as [H1 H2].
    rewrite FE by auto. destruct (Nat.eqb q p); apply nd_get_not_none; auto.
    - now rewrite Sv.
    - rewrite Sx, inb_app by auto. now rewrite H1, H2. }
  exists (nd_tab (t ++ [n]) F). split; auto. split; [now apply nd_tab_wf|]. split; auto.
  intros ix q H1 H2. rewrite nd_get_tab; auto.
  rewrite inb_app by (symmetry; now apply inb_length). rewrite H1. cbn [andb inb]. rewrite (proj2 (Nat.ltb_lt q n)) by auto. reflexivity.
Qed.

Lemma get_var_ok : forall {A} k (b : block A) x, pd_get k (dd_map (b_ivar b)) = None -> pd_get k (dd_map (b_var b)) = Some x -> get_var k b = Ok x.
Proof. intros A k b x H1 H2. unfold get_var, b_get. rewrite H1, H2. reflexivity. Qed.

Definition mem (k : string) (l : list string) : bool := existsb (String.eqb k) l.
Lemma mem_In : forall k l, mem k l = true <-> In k l.
Proof.
  intros k l. unfold mem. rewrite existsb_exists. split.
  - intros [x [H1 H2]]. apply String.eqb_eq in H2. now subst.
  - intros H. exists k. split; auto. apply String.eqb_refl.
Qed.

Lemma fill_last_ok : forall {A} elems idx t n (x : nd A) (b : block A), BInv b -> NoDup elems -> nd_wf x -> nd_shape x = t ++ [n] ->
  idx + length elems <= n ->
  (forall e, In e elems -> pd_get e (dd_map (b_ivar b)) = None /\
     exists v, pd_get e (dd_map (b_var b)) = Some v /\ nd_wf (h_nd v) /\ h_shape v = t) ->
  exists y b', fill_last idx elems x b = Ok (y, b') /\ BInv b' /\ b_ivar b' = b_ivar b /\
    (forall k, pd_get k (dd_map (b_var b')) = if mem k elems then None else pd_get k (dd_map (b_var b))) /\
    nd_wf y /\ nd_shape y = t ++ [n] /\
    (forall ix q, inb t ix = true -> q < n -> (q < idx \/ idx + length elems <= q -> nd_get y (ix ++ [q]) = nd_get x (ix ++ [q])) /\
       (forall r e v, nth_error elems r = Some e -> pd_get e (dd_map (b_var b)) = Some v -> q = idx + r ->
          nd_get y (ix ++ [q]) = nd_get (h_nd v) ix)).
Proof.
  induction elems as [|e es IH]; intros idx t n x b HB ND Wx Sx Hn HE.
  - exists x, b. split; auto. split; auto. split; auto. split; auto. split; auto. split; auto. intros ix q H1 H2. split; auto.
    intros [|r] e v H; discriminate.
  - cbn [fill_last]. destruct (HE e (or_introl eq_refl)) as [Hi [v [Hv [Wv Sv]]]]. rewrite (get_var_ok e b v Hi Hv). cbn [bind].
    cbn [length] in Hn. destruct (set_last_ok x (h_nd v) t n idx Wx Wv Sx Sv) as [x' [E1 [W1 [S1 G1]]]]; [lia|]. rewrite E1. cbn [bind].
    destruct (b_del_ok e b HB) as [b1 [D1 [D2 [D3 [_ D4]]]]]. rewrite D1. cbn [bind]. apply NoDup_cons_iff in ND as [N1 N2].
    destruct (IH (S idx) t n x' b1) as [y [b' [F1 [F2 [F3 [F4 [F5 [F6 F7]]]]]]]]; auto.
    + cbn in *. lia.
    + intros e' He'. rewrite D3, D4. destruct (String.eqb_spec e' e) as [->|_]; [tauto|]. apply HE. now right.
    + exists y, b'. split; auto. split; auto. split; [congruence|]. split.
      { intros k. rewrite F4, D4. unfold mem. cbn [existsb]. destruct (String.eqb_spec k e) as [->|]; cbn [orb]; auto.
        destruct (existsb (String.eqb e) es); auto. }
      split; auto. split; auto. intros ix q H1 H2. destruct (F7 ix q H1 H2) as [A1 A2]. cbn [length]. split.
      * intros H. rewrite A1 by lia. rewrite G1 by auto. destruct (Nat.eqb_spec q idx); auto. lia.
      * intros [|r] e' v' H3 H4 H5; cbn [nth_error] in H3.
        -- injection H3 as <-. rewrite Hv in H4. injection H4 as <-. rewrite A1 by lia. rewrite G1 by auto.
           assert (q = idx) as -> by lia. now rewrite Nat.eqb_refl.
        -- apply (A2 r e' v'); auto; [|lia]. rewrite D4. destruct (String.eqb_spec e' e) as [->|]; auto.
           exfalso. apply N1. now apply nth_error_In in H3.
Qed.

Lemma range_length : forall n, length (range_labels n) = n.
Proof. intros n. unfold range_labels. now rewrite map_length, seq_length. Qed.

Lemma coords_keys : forall e ds ds', map key ds = map key ds' -> coords e ds = coords e ds'.
Proof. intros e ds ds' H. unfold coords. rewrite <- !(map_map key e), H. reflexivity. Qed.

(** What a matrix made of elements is. *)
Definition joined {A} (m ex : hf A) (ni nj : nat) (at_ : nat -> nat -> hf A -> Prop) : Prop :=
  wf m /\ h_dims m = h_dims ex ++ [mdim_i ni; mdim_j nj] /\ h_dt m = h_dt ex /\ h_unit m = None /\
  forall e v, valid e (h_dims m) -> at_ (e (CMatrix_i, "i")) (e (CMatrix_j, "j")) v -> val m e = val v e.

Lemma build_one_ok : forall {A} (lab : A -> label) junk v elems ni nj (b : block A) keys lens, BInv b -> NoDup elems ->
  elems <> [] -> length elems = ni * nj ->
  (forall e, In e elems -> pd_get e (dd_map (b_ivar b)) = None /\
     exists x, pd_get e (dd_map (b_var b)) = Some x /\ wf x /\ map key (h_dims x) = keys /\ map (fun d => length (d_data d)) (h_dims x) = lens) ->
  ~ In (CMatrix_i, "i") keys -> ~ In (CMatrix_j, "j") keys -> is_matrix_name v = None -> pd_get v (dd_map (b_ivar b)) = None ->
  exists b' m ex, build_one lab junk v elems ni nj b = Ok b' /\ BInv b' /\
    (forall k, pd_get k (dd_map (b_var b')) = if String.eqb k v then Some m else if mem k elems then None else pd_get k (dd_map (b_var b))) /\
    (forall k, pd_get k (dd_map (b_ivar b)) = None -> ~ In k (map d_name (h_dims m)) -> pd_get k (dd_map (b_ivar b')) = None) /\
    pd_get (hd "" elems) (dd_map (b_var b)) = Some ex /\
    joined m ex ni nj (fun p q x => exists e, nth_error elems (p * nj + q) = Some e /\ pd_get e (dd_map (b_var b)) = Some x).
Proof.
  intros A lab junk v elems ni nj b keys lens HB ND NE HL HE Ki Kj Nv Iv.
  destruct elems as [|e0 es]; [congruence|]. set (elems := e0 :: es) in *.
  destruct (HE e0 (or_introl eq_refl)) as [Hi0 [ex [Hx0 [Wx0 [Kx0 Lx0]]]]].
  assert (Sx0 : h_shape ex = lens) by (rewrite <- Lx0; symmetry; apply Wx0).
  set (n := ni * nj).
  assert (TJ : total_on (h_shape ex ++ [n]) (fun _ => Some junk)) by (intros ix _; discriminate).
  destruct (fill_last_ok elems 0 lens n (nd_tab (h_shape ex ++ [n]) (fun _ => Some junk)) b) as [y [b1 [F1 [F2 [F3 [F4 [F5 [F6 F7]]]]]]]]; auto.
  - now apply nd_tab_wf.
  - now rewrite Sx0.
  - rewrite HL. unfold n. lia.
  - intros e He. destruct (HE e He) as [H1 [x [H2 [[H3 [H4 _]] [_ H5]]]]]. split; auto. exists x. split; auto. split; auto. rewrite <- H4. auto.
  - set (m := mkHF (mkNd (lens ++ [ni; nj]) (nd_elems y)) (h_dt ex) (h_dims ex ++ [mdim_i ni; mdim_j nj]) None (default_fmt (h_dt ex))).
    assert (LM : length (h_dims ex ++ [mdim_i ni; mdim_j nj]) = length (lens ++ [ni; nj])).
    { rewrite !app_length. rewrite <- Lx0, map_length. reflexivity. }
    assert (Pr : prodn (lens ++ [ni; nj]) = prodn (lens ++ [n])).
    { rewrite !prodn_app. unfold n. simpl. lia. }
    destruct (b_set lab v m b1) as [b'|] eqn:Es.
    2:{ exfalso. unfold b_set in Es. rewrite Nv, F3, Iv in Es. discriminate. }
    destruct (b_set_cases lab v m b1 b' Es) as [_ C].
    assert (Ee : is_element_of v m b1 = None) by (unfold is_element_of; now rewrite Nv).
    destruct C as [[? [? [? [? [C _]]]]]|[[_ [? [? [? [C _]]]]]|[_ [_ [C1 C2]]]]]; [congruence|rewrite F3 in C; congruence|].
    exists b', m, ex. split.
    + unfold build_one. change elems with (e0 :: es) at 1. cbn iota. rewrite (get_var_ok e0 b ex Hi0 Hx0). cbn [bind].
      fold n. rewrite F1. cbn [bind fst snd]. rewrite nd_reshape_ok by (rewrite F6, Sx0; exact Pr). cbn [bind]. rewrite Sx0.
      unfold new_raw. cbn [bind nd_shape]. rewrite LM, Nat.eqb_refl. exact Es.
    + split; [now apply (b_set_BInv lab v m b1)|]. split.
      { intros k. rewrite C1, get_set. destruct (String.eqb k v); auto. }
      split. { intros k H1 H2. rewrite C2, F3. now apply add_ivars_none. }
      split; [exact Hx0|].
      assert (Wm : wf m).
      { split; [|split].
        - unfold nd_wf, m. cbn [h_nd nd_shape nd_elems]. unfold nd_wf in F5. rewrite F5, F6. now rewrite Pr.
        - unfold labels_match, m, h_shape. cbn [h_dims h_nd nd_shape]. rewrite map_app, Lx0. cbn [map mdim_i mdim_j d_data]. now rewrite !range_length.
        - cbn [h_dims m]. rewrite map_app, Kx0. cbn [map]. change (key (mdim_i ni)) with (CMatrix_i, "i"). change (key (mdim_j nj)) with (CMatrix_j, "j").
          apply NoDup_app_intro.
          + rewrite <- Kx0. apply Wx0.
          + repeat constructor; simpl; intuition discriminate.
          + intros k H1 H2. simpl in H2. destruct H2 as [<-|[<-|[]]]; tauto. }
      split; auto. split; auto. split; auto. split; auto.
      intros e x He [en [Hen Hx]].
      destruct (HE en) as [_ [x' [Hx' [_ [Kx' _]]]]]; [now apply nth_error_In in Hen|]. rewrite Hx in Hx'. injection Hx' as <-.
      set (p := e (CMatrix_i, "i")) in *. set (q := e (CMatrix_j, "j")) in *.
      assert (Hin := coords_inb m e (proj1 (proj2 Wm)) He). unfold val at 1. revert Hin. cbn [h_nd h_dims m]. unfold h_shape. cbn [h_nd m nd_shape].
      rewrite coords_app. change (coords e [mdim_i ni; mdim_j nj]) with [p; q]. set (c := coords e (h_dims ex)). intros Hin.
      assert (Lc : length lens = length c) by (unfold c, coords; rewrite <- Lx0, !map_length; reflexivity).
      pose proof Hin as Hin'. rewrite inb_app in Hin' by auto. apply andb_prop in Hin' as [I1 I2]. cbn [inb] in I2.
      apply andb_prop in I2 as [I2 I3]. rewrite andb_true_r in I3. apply Nat.ltb_lt in I2, I3.
      assert (Hpq : p * nj + q < n) by (unfold n; nia).
      destruct (F7 c (p * nj + q) I1 Hpq) as [_ G]. specialize (G (p * nj + q) en x Hen Hx eq_refl).
      assert (Hv : val x e = nd_get (h_nd x) c).
      { unfold val, c. f_equal. apply coords_keys. congruence. }
      rewrite Hv, <- G. unfold nd_get. cbn [nd_shape nd_elems]. rewrite Hin, F6.
      assert (inb (lens ++ [n]) (c ++ [p * nj + q]) = true) as ->.
      { rewrite inb_app by auto. rewrite I1. cbn [andb inb]. rewrite (proj2 (Nat.ltb_lt _ n)) by auto. reflexivity. }
      f_equal. rewrite !ravel_app by auto. cbn. rewrite !Nat.mul_1_r, !Nat.add_0_r. unfold n. lia.
Qed.
