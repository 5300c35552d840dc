(** Properties of arrays of matrices: C34. *)
From Coq Require Import String List Arith ZArith QArith Bool Lia Permutation Sorted.
From Verif Require Import Model_NdArray Model_Dim Model_Array Model_Matrix Spec_Array
  Proofs_NdArray Proofs_Array Proofs_Array2 Proofs_Array3 Proofs_Array4 Proofs_Array5.
Import ListNotations.
Local Open Scope string_scope.
Local Open Scope nat_scope.
Local Open Scope list_scope.

(** An array of n x n matrices: the rows along [di], the columns along [dj], any
    further dimensions. *)
Definition other_dim (d : dim) : Prop := sortprio (d_class d) < 1000.
Definition matrices {A} (x : hf A) (di dj : dim) (n : nat) : Prop :=
  wf x /\ In di (h_dims x) /\ In dj (h_dims x) /\ d_class di = CMatrix_i /\ d_class dj = CMatrix_j /\
  length (d_data di) = n /\ length (d_data dj) = n /\ (forall d, In d (h_dims x) -> d = di \/ d = dj \/ other_dim d).
(** An array of columns. *)
Definition columns {A} (x : hf A) (di : dim) (n : nat) : Prop :=
  wf x /\ In di (h_dims x) /\ d_class di = CMatrix_i /\ length (d_data di) = n /\ (forall d, In d (h_dims x) -> d = di \/ other_dim d).
(** A sum. *)
Definition total {A} (zero : A) (add : A -> A -> A) (n : nat) (f : nat -> A) : A := fold_left add (map f (seq 0 n)) zero.

Lemma sumn_total : forall {A} (zero : A) add n f, sumn zero add n f = total zero add n f.
Proof.
  intros A zero add n f. unfold total. induction n as [|n IH]; auto. rewrite seq_S, map_app, fold_left_app, <- IH. reflexivity.
Qed.
Lemma total_ext : forall {A} (zero : A) add n f g, (forall j, j < n -> f j = g j) -> total zero add n f = total zero add n g.
Proof. intros. unfold total. f_equal. apply map_ext_in. intros j J. apply in_seq in J. apply H. lia. Qed.
Lemma outer_app : forall {X} (l : list X) a b, outer_part (l ++ [a; b]) = l /\ matrix_part (l ++ [a; b]) = [a; b].
Proof.
  intros X l a b. unfold outer_part, matrix_part. rewrite app_length. cbn. replace (length l + 2 - 2) with (length l + 0) by lia. rewrite firstn_app_2, Nat.add_0_r, skipn_app, skipn_all, Nat.sub_diag. cbn. rewrite app_nil_r. auto.
Qed.
Lemma prio_sorted_split : forall l di dj, Sorted prio_le l -> NoDup l -> In di l -> In dj l -> d_class di = CMatrix_i -> d_class dj = CMatrix_j ->
  (forall d, In d l -> d = di \/ d = dj \/ other_dim d) -> exists o, l = o ++ [di; dj] /\ Forall other_dim o.
Proof.
  intros l di dj S ND Hi Hj Ci Cj Ho. apply Sorted_StronglySorted in S; [|unfold prio_le; intros a b c; lia].
  assert (Pi : sortprio (d_class di) = 1000) by (now rewrite Ci). assert (Pj : sortprio (d_class dj) = 1001) by (now rewrite Cj). clear Ci Cj.
  induction l as [|d l IH]; [destruct Hi|]. inversion S as [|? ? S' F]; subst. inversion ND as [|? ? Nd ND']; subst. rewrite Forall_forall in F.
  destruct (Ho d (or_introl eq_refl)) as [->|[->|O]].
  - destruct Hj as [E|Hj]; [subst; lia|]. exists []. split; [|constructor]. cbn. f_equal.
    assert (R : forall e, In e l -> e = dj).
    { intros e I. destruct (Ho e (or_intror I)) as [->|[->|O]]; auto; [contradiction|]. specialize (F e I). unfold prio_le, other_dim in *. lia. }
    destruct l as [|e l]; [destruct Hj|]. rewrite (R e (or_introl eq_refl)) in *. destruct l as [|e2 l]; auto. exfalso. inversion ND'; subst. apply H1. left. apply R. cbn. auto.
  - exfalso. destruct Hi as [E|Hi]; [subst; lia|]. specialize (F di Hi). unfold prio_le in F. lia.
  - assert (In di l) by (destruct Hi as [->|]; auto; unfold other_dim in O; lia). assert (In dj l) by (destruct Hj as [->|]; auto; unfold other_dim in O; lia).
    destruct IH as [o [E Fo]]; auto; [intros; apply Ho; now right|]. exists (d :: o). split; [cbn; now rewrite E|now constructor].
Qed.
Lemma other_not_complex : forall ds, (forall d, In d ds -> sortprio (d_class d) < 2000) -> dims_has_complex ds = false.
Proof.
  intros ds H. destruct (dims_has_complex ds) eqn:E; auto. apply has_complex_In in E as [d [I C]]. specialize (H d I). unfold is_complex_dim in C.
  destruct (d_class d); cbn in *; try discriminate; lia.
Qed.
Lemma NoDup_map_inv' : forall {X Y} (f : X -> Y) l, NoDup (map f l) -> NoDup l.
Proof. intros X Y f l. apply NoDup_map_inv. Qed.

Lemma app_inj_len : forall {X} (a b c d : list X), a ++ b = c ++ d -> length a = length c -> a = c.
Proof. induction a as [|x a IH]; intros b [|y c] d E L; cbn in *; try discriminate; auto. injection E as -> E. f_equal. eapply IH; eauto. Qed.
Definition key_dec (a b : dimclass * string) : {a = b} + {a <> b}.
Proof. decide equality; [apply string_dec|apply class_eq_dec]. Defined.

Section Facts.
  Context {A : Type}.
  Variables (zero : A) (add mul : A -> A -> A) (E : elops A) (rt : dtype -> dtype -> dtype) (rt1 : dtype -> dtype).
  Notation get0 := (nd_get0 zero).
  Notation sum := (total zero add).
  (** Value at an assignment, with a default. *)
  Definition v0 (x : hf A) (e : assignment) : A := match val x e with Some v => v | None => zero end.

  (** After make_same_dims: the matrix axes are last. *)
  Lemma aligned : forall x y di dj di' n (hasj : bool), matrices x di dj n -> wf y -> In di' (h_dims y) -> d_class di' = CMatrix_i -> d_name di' = d_name di ->
    length (d_data di') = n -> haskey (h_dims y) dj = hasj -> (forall d, In d (h_dims y) -> d = di' \/ key d = key dj \/ other_dim d) -> coherent (h_dims x ++ h_dims y) ->
    exists o x' y', make_same_dims E x y = Ok (x', y') /\ h_dims x' = o ++ [di; dj] /\ h_dims y' = o ++ [di; dj] /\
      dims_union (h_dims x) [h_dims y] = o ++ [di; dj] /\ NoDup (map key (o ++ [di; dj])) /\
      nd_wf (h_nd x') /\ nd_wf (h_nd y') /\
      h_shape x' = map (fun d => if haskey (h_dims x) d then length (d_data d) else 1) o ++ [n; n] /\
      h_shape y' = map (fun d => if haskey (h_dims y) d then length (d_data d) else 1) o ++ [n; if hasj then n else 1] /\
      bshape (map (fun d => if haskey (h_dims x) d then length (d_data d) else 1) o) (map (fun d => if haskey (h_dims y) d then length (d_data d) else 1) o) = Ok (map (fun d => length (d_data d)) o) /\
      (forall e i j, valid e (o ++ [di; dj]) -> i < n -> j < n ->
        get0 (h_nd x') (bindex (map (fun d => if haskey (h_dims x) d then length (d_data d) else 1) o) (coords e o) ++ [i; j]) = v0 x (upd (upd e (key di) i) (key dj) j) /\
        val x (upd (upd e (key di) i) (key dj) j) <> None) /\
      (forall e i k, valid e (o ++ [di; dj]) -> i < n -> k < n ->
        get0 (h_nd y') (bindex (map (fun d => if haskey (h_dims y) d then length (d_data d) else 1) o) (coords e o) ++ [i; if hasj then k else 0]) = v0 y (upd (upd e (key di) i) (key dj) k) /\
        val y (upd (upd e (key di) i) (key dj) k) <> None).
  Proof.
    intros x y di dj di' n hasj [Wx [Hi [Hj [Ci [Cj [Li [Lj Hx]]]]]]] Wy Hi' Ci' Ni' Li' HJ Hy Hc.
    assert (Ki : key di' = key di) by (unfold key; congruence).
    set (u := dims_union (h_dims x) [h_dims y]) in *. pose proof Wx as [Hxw [Hxl Hxn]]. pose proof Wy as [Hyw [Hyl Hyn]].
    assert (NDu : NoDup (map key u)) by (now apply union_NoDup_keys).
    assert (Hiu : incl u (h_dims x ++ h_dims y)) by (now apply union_incl).
    assert (HU : forall d, In d u -> d = di \/ d = dj \/ other_dim d).
    { intros d I. apply union_In in I as [I|[I N]]; auto. destruct (Hy d I) as [->|[K|O]]; auto.
      - exfalso. apply N. rewrite Ki. now apply in_map.
      - exfalso. apply N. rewrite K. now apply in_map. }
    assert (Iu : In di u /\ In dj u) by (split; apply union_In; auto).
    destruct (prio_sorted_split u di dj) as [o [Eo Fo]]; auto; try tauto; [apply sort_prio_sorted|eapply NoDup_map_inv; eauto|].
    assert (NC : dims_has_complex u = false).
    { apply other_not_complex. intros d I. destruct (HU d I) as [->|[->|O]]; [rewrite Ci; cbn; lia|rewrite Cj; cbn; lia|unfold other_dim in O; lia]. }
    destruct (change_shape_ok E x u Wx NDu) as [x' [Ex [Wx' [Dx [_ [_ [_ [Sx Vx]]]]]]]]; auto.
    { intros k Hk. apply union_keys; auto. }
    { eapply coherent_sub; [exact Hc|]. intros d Hd. apply in_app_iff in Hd as [Hd|Hd]; auto. apply in_app_iff; auto. }
    { intros C. congruence. }
    destruct (change_shape_ok E y u Wy NDu) as [y' [Ey [Wy' [Dy [_ [_ [_ [Sy Vy]]]]]]]]; auto.
    { intros k Hk. apply union_keys; auto. }
    { eapply coherent_sub; [exact Hc|]. intros d Hd. apply in_app_iff in Hd as [Hd|Hd]; auto. apply in_app_iff; auto. }
    { intros C. congruence. }
    assert (Kxi : haskey (h_dims x) di = true) by (apply haskey_In; now apply in_map).
    assert (Kxj : haskey (h_dims x) dj = true) by (apply haskey_In; now apply in_map).
    assert (Kyi : haskey (h_dims y) di = true) by (apply haskey_In; rewrite <- Ki; now apply in_map).
    assert (KD : key di <> key dj) by (unfold key; congruence).
    assert (KO : forall d, In d o -> key d <> key di /\ key d <> key dj).
    { intros d I. rewrite Forall_forall in Fo. specialize (Fo d I). unfold other_dim in Fo. unfold key. split; intros K; injection K as K _; rewrite K, ?Ci, ?Cj in Fo; cbn in Fo; lia. }
    assert (VUx : forall e i j, valid e (o ++ [di; dj]) -> i < n -> j < n -> valid (upd (upd e (key di) i) (key dj) j) u).
    { intros e i j V I J d Id. rewrite Eo in Id. apply in_app_iff in Id as [Id|[<-|[<-|[]]]].
      - destruct (KO d Id) as [N1 N2]. rewrite !upd_other by auto. apply V. apply in_app_iff. auto.
      - rewrite upd_other, upd_same by auto. congruence.
      - rewrite upd_same. congruence. }
    assert (MAP : forall (f : dim -> bool) e i j, map (fun d => if f d then (upd (upd e (key di) i) (key dj) j) (key d) else 0) (o ++ [di; dj]) =
      map (fun d => if f d then e (key d) else 0) o ++ [if f di then i else 0; if f dj then j else 0]).
    { intros f e i j. rewrite map_app. cbn [map]. rewrite upd_same, (upd_other _ (key dj) (key di)), upd_same by auto. f_equal. apply map_ext_in. intros d I. destruct (KO d I). now rewrite !upd_other. }
    exists o, x', y'. unfold make_same_dims. fold u. rewrite Ex. cbn [bind]. rewrite Ey. cbn [bind]. split; [reflexivity|]. split; [congruence|]. split; [congruence|]. split; [exact Eo|]. split; [rewrite <- Eo; auto|]. split; auto. split; auto.
    split; [rewrite Sx, Eo, map_app; cbn [map]; now rewrite Kxi, Kxj, Li, Lj|]. split; [rewrite Sy, Eo, map_app; cbn [map]; now rewrite Kyi, HJ, Li, Lj|].
    split. { apply bshape_mask. intros d I. rewrite !haskey_In. apply union_keys; auto. fold u. rewrite Eo. apply in_map. apply in_app_iff. auto. }
    split.
    - intros e i j V I J. assert (Vo : valid e o) by (intros d Id; apply V; apply in_app_iff; auto). rewrite bindex_mask by auto.
      assert (Vx' : valid (upd (upd e (key di) i) (key dj) j) (h_dims x)).
      { eapply valid_union_l with (b := h_dims y); [exact Hc|auto|fold u; apply (VUx e i j V I J)]. }
      specialize (Vx _ Vx'). rewrite Eo, MAP, Kxi, Kxj in Vx. unfold nd_get0, v0. rewrite Vx. split; auto.
      destruct (val_some x _ Hxw Hxl Vx') as [w ->]. discriminate.
    - intros e i k V I J. assert (Vo : valid e o) by (intros d Id; apply V; apply in_app_iff; auto). rewrite bindex_mask by auto.
      assert (Vy' : valid (upd (upd e (key di) i) (key dj) k) (h_dims y)).
      { eapply valid_union_r with (a := h_dims x); [exact Hc|auto|fold u; apply (VUx e i k V I J)]. }
      specialize (Vy _ Vy'). rewrite Eo, MAP, Kyi, HJ in Vy. unfold nd_get0, v0. rewrite Vy. split; auto.
      destruct (val_some y _ Hyw Hyl Vy') as [w ->]. discriminate.
  Qed.
  Lemma v0_ext : forall x e e', (forall k, e k = e' k) -> v0 x e = v0 x e'.
  Proof. intros x e e' H. unfold v0, val. replace (coords e (h_dims x)) with (coords e' (h_dims x)); auto. unfold coords. apply map_ext. intros. now rewrite H. Qed.
  Lemma new_raw_some : forall (a : nd A) t ds, length ds = length (nd_shape a) -> exists r, new_raw a t (Some ds) None None = Ok r /\ h_nd r = a /\ h_dims r = ds.
  Proof. intros a t ds H. rewrite new_raw_ok by auto. eexists. split; [reflexivity|]. auto. Qed.
  Lemma inb_split2 : forall s n p ix, inb (s ++ [n; p]) ix = true -> exists ox i k, ix = ox ++ [i; k] /\ inb s ox = true /\ i < n /\ k < p.
  Proof.
    induction s as [|m s IH]; intros n p ix H.
    - destruct ix as [|i [|k [|z ix]]]; cbn in H; try discriminate; try (apply andb_prop in H as [? H]; try discriminate; apply andb_prop in H as [? H]; discriminate).
      exists [], i, k. apply andb_prop in H as [H1 H]. apply andb_prop in H as [H2 _]. apply Nat.ltb_lt in H1, H2. auto.
    - destruct ix as [|a ix]; cbn in H; [discriminate|]. apply andb_prop in H as [H1 H]. destruct (IH n p ix H) as [ox [i [k [-> [H2 H3]]]]]. exists (a :: ox), i, k. cbn. rewrite H1, H2. auto.
  Qed.
  Lemma coords_app : forall e a b, coords e (a ++ b) = coords e a ++ coords e b.
  Proof. intros. apply map_app. Qed.
  Lemma valid_inb : forall e ds, valid e ds -> inb (map (fun d => length (d_data d)) ds) (coords e ds) = true.
  Proof. apply inb_valid. Qed.
  Lemma keys_ij : forall di dj, d_class di = CMatrix_i -> d_class dj = CMatrix_j -> key di <> key dj.
  Proof. intros. unfold key. congruence. Qed.
  Lemma upd_idem : forall e k v k', e k = v -> upd e k v k' = e k'.
  Proof. intros e k v k' H. destruct (key_dec k k') as [->|N]; [now rewrite upd_same|now rewrite upd_other by congruence]. Qed.

  (** ** C34: products *)
  Theorem C34_multiply : forall x y di dj di' dj' n, matrices x di dj n -> matrices y di' dj' n -> d_name di' = d_name di -> d_name dj' = d_name dj ->
    coherent (h_dims x ++ h_dims y) ->
    exists r, matrix_multiply zero add mul E rt x y = Ok r /\ wf r /\
      (forall k, In k (map key (h_dims r)) <-> In k (map key (h_dims x)) \/ In k (map key (h_dims y))) /\
      (forall e, valid e (h_dims r) -> valid e (h_dims x) /\ valid e (h_dims y)) /\
      forall e, valid e (h_dims r) -> exists u v,
        (forall j, j < n -> val x (upd e (key dj) j) = Some (u j) /\ val y (upd e (key di) j) = Some (v j)) /\
        val r e = Some (sum n (fun j => mul (u j) (v j))).
  Proof.
    intros x y di dj di' dj' n Mx My Ni Nj Hc. pose proof Mx as [Wx [Hi [Hj [Ci [Cj [Li [Lj Hx]]]]]]]. pose proof My as [Wy [Hi' [Hj' [Ci' [Cj' [Li' [Lj' Hy]]]]]]].
    assert (Kj : key dj' = key dj) by (unfold key; congruence).
    destruct (aligned x y di dj di' n true Mx Wy Hi' Ci' Ni Li') as [o [x' [y' [Em [Dx [Dy [EU [ND [Wx' [Wy' [Sx [Sy [Bs [Vx Vy]]]]]]]]]]]]]]; auto.
    { apply haskey_In. rewrite <- Kj. now apply in_map. }
    { intros d I. destruct (Hy d I) as [->|[->|O]]; auto. }
    pose proof (keys_ij di dj Ci Cj) as KD.
    set (mx := map (fun d => if haskey (h_dims x) d then length (d_data d) else 1) o) in *. set (my := map (fun d => if haskey (h_dims y) d then length (d_data d) else 1) o) in *.
    unfold matrix_multiply. rewrite Em. cbn [bind fst snd]. unfold nd_matmul. fold (h_shape x') (h_shape y'). rewrite Sx, Sy.
    destruct (outer_app mx n n) as [-> ->]. destruct (outer_app my n n) as [-> ->]. rewrite Bs. cbn [bind]. rewrite Nat.eqb_refl. cbn [orb].
    set (f := fun ix : list nat => _). set (sh := map (fun d => length (d_data d)) o ++ [n; n]).
    assert (T : total_on sh f).
    { intros ix I. destruct (inb_split2 _ _ _ _ I) as [ox [i [k [-> _]]]]. unfold f. destruct (outer_app ox i k) as [-> ->]. discriminate. }
    destruct (new_raw_some (nd_tab sh f) (rt (h_dt x) (h_dt y)) (h_dims x')) as [r [Er [Nr Dr]]].
    { rewrite Dx, nd_tab_shape. unfold sh. rewrite !app_length, map_length. reflexivity. }
    exists r. split; [exact Er|]. split; [|split; [|split]].
    - split; [rewrite Nr; now apply nd_tab_wf|]. split; [|rewrite Dr, Dx; auto]. unfold labels_match, h_shape. rewrite Nr, Dr, Dx, nd_tab_shape. unfold sh. rewrite map_app. cbn [map]. now rewrite Li, Lj.
    - intros k. rewrite Dr, Dx, <- EU. apply union_keys; auto. apply Wy.
    - intros e V. rewrite Dr, Dx, <- EU in V. split; [eapply valid_union_l|eapply valid_union_r]; eauto; apply Wy.
    - intros e V. rewrite Dr, Dx in V.
      assert (Ei : e (key di) < n) by (rewrite <- Li; apply V; apply in_app_iff; cbn; auto). assert (Ej : e (key dj) < n) by (rewrite <- Lj; apply V; apply in_app_iff; cbn; auto).
      exists (fun j => v0 x (upd e (key dj) j)), (fun j => v0 y (upd e (key di) j)).
      assert (X1 : forall j, v0 x (upd (upd e (key di) (e (key di))) (key dj) j) = v0 x (upd e (key dj) j) /\ val x (upd (upd e (key di) (e (key di))) (key dj) j) = val x (upd e (key dj) j)).
      { intros j. assert (Q : forall k, upd (upd e (key di) (e (key di))) (key dj) j k = upd e (key dj) j k).
        { intros k. destruct (key_dec (key dj) k) as [<-|N]; [now rewrite !upd_same|]. rewrite !(upd_other _ (key dj)) by congruence. now apply upd_idem. }
        split; [now apply v0_ext|]. unfold val. f_equal. unfold coords. apply map_ext. auto. }
      assert (Y1 : forall j, v0 y (upd (upd e (key di) j) (key dj) (e (key dj))) = v0 y (upd e (key di) j) /\ val y (upd (upd e (key di) j) (key dj) (e (key dj))) = val y (upd e (key di) j)).
      { intros j. assert (Q : forall k, upd (upd e (key di) j) (key dj) (e (key dj)) k = upd e (key di) j k).
        { intros k. apply upd_idem. now rewrite upd_other by congruence. }
        split; [now apply v0_ext|]. unfold val. f_equal. unfold coords. apply map_ext. auto. }
      split.
      + intros j J. destruct (Vx e (e (key di)) j V Ei J) as [_ Q1]. destruct (Vy e j (e (key dj)) V J Ej) as [_ Q2]. destruct (X1 j) as [_ E1]. destruct (Y1 j) as [_ E2]. rewrite E1 in Q1. rewrite E2 in Q2.
        unfold v0. destruct (val x (upd e (key dj) j)); [|congruence]. destruct (val y (upd e (key di) j)); [|congruence]. auto.
      + unfold val. rewrite Nr, Dr, Dx. rewrite nd_get_tab; auto.
        * rewrite coords_app. cbn [coords map]. unfold f. destruct (outer_app (coords e o) (e (key di)) (e (key dj))) as [-> ->]. f_equal. rewrite sumn_total.
          replace (if n =? 1 then n else n) with n by (now destruct (n =? 1)). apply total_ext. intros j J. 
          replace (if n =? 1 then 0 else j) with j by (destruct (n =? 1) eqn:N1; auto; apply Nat.eqb_eq in N1; lia).
          destruct (Vx e (e (key di)) j V Ei J) as [-> _]. destruct (Vy e j (e (key dj)) V J Ej) as [-> _]. destruct (X1 j) as [-> _]. destruct (Y1 j) as [-> _]. reflexivity.
        * unfold sh. replace [n; n] with (map (fun d => length (d_data d)) [di; dj]) by (cbn; congruence). rewrite <- map_app. now apply valid_inb.
  Qed.

  (** ** Inverses *)
  Variable linv : nat -> (nat -> nat -> A) -> option (nat -> nat -> A).
  Variable one : A.
  Definition ident (i j : nat) : A := if i =? j then one else zero.
  Definition inverse_of (n : nat) (M R : nat -> nat -> A) : Prop := forall i k, i < n -> k < n ->
    sum n (fun j => mul (M i j) (R j k)) = ident i k /\ sum n (fun j => mul (R i j) (M j k)) = ident i k.
  (** What numpy.linalg.inv is trusted to do with one matrix. *)
  Definition inv_routine (n : nat) : Prop :=
    (forall M R, linv n M = Some R -> inverse_of n M R) /\ (forall M R, inverse_of n M R -> linv n M <> None).
  (** The matrix of an array at given values of the other dimensions. *)
  Definition mat (x : hf A) (di dj : dim) (e : assignment) : nat -> nat -> A := fun i j => v0 x (upd (upd e (key di) i) (key dj) j).

  Lemma mat_eq : forall x o di dj n e, matrices x di dj n -> h_dims x = o ++ [di; dj] -> forall i j, matrix_at zero (h_nd x) (coords e o) i j = mat x di dj e i j.
  Proof.
    intros x o di dj n e [Wx [Hi [Hj [Ci [Cj [Li [Lj Hx]]]]]]] D i j. destruct Wx as [W1 [W2 W3]]. rewrite D in W3. unfold mat, v0, val, matrix_at, nd_get0. rewrite D, coords_app.
    cbn [coords map]. rewrite upd_same, (upd_other _ (key dj) (key di)), upd_same by (now apply keys_ij).
    replace (coords (upd (upd e (key di) i) (key dj) j) o) with (coords e o); auto. apply coords_ext. intros d I. rewrite map_app in W3. cbn [map] in W3.
    assert (N : key d <> key di /\ key d <> key dj).
    { split; intros K.
      - apply NoDup_remove_2 in W3. apply W3. rewrite in_app_iff. left. rewrite <- K. now apply in_map.
      - replace (map key o ++ [key di; key dj]) with ((map key o ++ [key di]) ++ [key dj]) in W3 by (now rewrite <- app_assoc). apply NoDup_remove_2 in W3. apply W3. rewrite app_nil_r, in_app_iff. left. rewrite <- K. now apply in_map. }
    now rewrite !upd_other.
  Qed.
  Lemma matrices_shape : forall (x : hf A) o di dj n, matrices x di dj n -> h_dims x = o ++ [di; dj] -> nd_shape (h_nd x) = map (fun d => length (d_data d)) o ++ [n; n].
  Proof. intros x o di dj n [Wx [_ [_ [_ [_ [Li [Lj _]]]]]]] D. destruct Wx as [_ [W _]]. unfold labels_match, h_shape in W. rewrite <- W, D, map_app. cbn. congruence. Qed.
  (** An assignment with given coordinates. *)
  Lemma assign : forall o ox, NoDup (map key o) -> inb (map (fun d => length (d_data d)) o) ox = true -> exists e, coords e o = ox /\ valid e o.
  Proof.
    intros o ox ND I. exists (override (fun _ => 0) o ox). assert (L := inb_length _ _ I). rewrite map_length in L.
    assert (C : coords (override (fun _ => 0) o ox) o = ox).
    { clear I. revert ox L. induction o as [|d o IH]; intros [|a ox] L; try discriminate; auto. inversion ND; subst. cbn [override coords map]. rewrite upd_same. f_equal.
      transitivity (coords (override (fun _ => 0) o ox) o); [|apply IH; auto]. apply coords_ext. intros d' I. apply upd_other. intros K. apply H1. rewrite <- K. now apply in_map. }
    split; auto. intros d Id. apply In_nth_error in Id as [k Hk]. apply inb_nth in I as [_ I]. rewrite map_length in I. assert (K : k < length o) by (apply nth_error_Some; congruence). specialize (I k K).
    rewrite <- C in I. unfold coords in I. rewrite (nth_indep _ 0 ((fun d => override (fun _ => 0) o ox (key d)) d)) in I by (rewrite map_length; auto).
    rewrite (map_nth (fun d => override (fun _ => 0) o ox (key d))) in I. rewrite (nth_indep _ 0 ((fun d => length (d_data d)) d)) in I by (rewrite map_length; auto). rewrite (map_nth (fun d => length (d_data d))) in I.
    rewrite (nth_error_nth _ _ _ Hk) in I. exact I.
  Qed.
  Theorem C34_inv : forall x o di dj n, inv_routine n -> matrices x di dj n -> h_dims x = o ++ [di; dj] ->
    (forall r, inv zero rt1 linv x = Ok r -> wf r /\ h_dims r = h_dims x /\ forall e, valid e (h_dims x) -> inverse_of n (mat x di dj e) (mat r di dj e)) /\
    ((forall e, valid e o -> exists R, inverse_of n (mat x di dj e) R) -> exists r, inv zero rt1 linv x = Ok r).
  Proof.
    intros x o di dj n [linv_ok linv_defined] Mx D. pose proof (matrices_shape x o di dj n Mx D) as SH. pose proof (mat_eq x o di dj n) as ME. pose proof Mx as [Wx [Hi [Hj [Ci [Cj [Li [Lj Hx]]]]]]]. unfold inv, nd_inv.
    rewrite SH. destruct (outer_app (map (fun d => length (d_data d)) o) n n) as [-> ->]. rewrite Nat.eqb_refl. cbn [negb].
    assert (NDo : NoDup (map key o)) by (destruct Wx as [_ [_ W]]; rewrite D, map_app in W; now apply NoDup_app_remove_r in W).
    destruct (forallb _ _) eqn:FB.
    - rewrite forallb_forall in FB. cbn [bind]. set (f := fun ix : list nat => _).
      assert (T : total_on (map (fun d => length (d_data d)) o ++ [n; n]) f).
      { intros ix I. destruct (inb_split2 _ _ _ _ I) as [ox [i [k [-> [I2 _]]]]]. unfold f. destruct (outer_app ox i k) as [-> ->]. specialize (FB ox). destruct (linv n (matrix_at zero (h_nd x) ox)); [discriminate|].
        apply in_indices in I2. specialize (FB I2). discriminate. }
      assert (LEN : length (h_dims x) = length (nd_shape (nd_tab (map (fun d => length (d_data d)) o ++ [n; n]) f))) by (rewrite D, nd_tab_shape, !app_length, map_length; reflexivity).
      destruct (new_raw_some _ (rt1 (h_dt x)) _ LEN) as [r0 [Er [Nr Dr]]]. rewrite Er. split; [|eauto]. intros r H. injection H as <-.
      assert (Wr : wf r0).
      { split; [rewrite Nr; now apply nd_tab_wf|]. split; [|rewrite Dr; apply Wx]. unfold labels_match, h_shape. rewrite Nr, Dr, D, nd_tab_shape, map_app. cbn [map]. congruence. }
      split; auto. split; auto. intros e V.
      assert (Vo : valid e o) by (intros d I; apply V; rewrite D; apply in_app_iff; auto). pose proof (valid_inb e o Vo) as IB.
      destruct (linv n (matrix_at zero (h_nd x) (coords e o))) as [R|] eqn:EL.
      + pose proof (linv_ok _ _ EL) as INV.
        assert (Mr : matrices r0 di dj n) by (split; [exact Wr|]; rewrite Dr; repeat (split; [assumption|]); assumption). assert (Dr' : h_dims r0 = o ++ [di; dj]) by congruence.
        assert (G : forall i j, i < n -> j < n -> mat r0 di dj e i j = R i j).
        { intros i j I J. rewrite <- (mat_eq r0 o di dj n e Mr Dr'). unfold matrix_at, nd_get0. rewrite Nr, nd_get_tab; auto.
          - unfold f. destruct (outer_app (coords e o) i j) as [-> ->]. rewrite EL. reflexivity.
          - rewrite inb_app by (unfold coords; now rewrite !map_length). rewrite IB. cbn. apply andb_true_intro. split; [now apply Nat.ltb_lt|]. rewrite andb_true_r. now apply Nat.ltb_lt. }
        intros i k I K. destruct (INV i k I K) as [I1 I2]. split; [rewrite <- I1|rewrite <- I2]; apply total_ext; intros j J; f_equal; auto; symmetry; apply (ME e Mx D).
      + exfalso. specialize (FB (coords e o)). rewrite EL in FB. apply in_indices in IB. specialize (FB IB). discriminate.
    - split; [cbn [bind]; discriminate|]. intros H. exfalso. apply Bool.not_true_iff_false in FB. apply FB. apply forallb_forall. intros ox I. apply in_indices in I.
      destruct (assign o ox NDo I) as [e [Ce Ve]]. destruct (H e Ve) as [R IR].
      destruct (linv n (matrix_at zero (h_nd x) ox)) eqn:EL; auto. exfalso. revert EL. apply (linv_defined _ R). intros i k I2 K. destruct (IR i k I2 K) as [I3 I4].
      split; [rewrite <- I3|rewrite <- I4]; apply total_ext; intros j J; f_equal; rewrite <- Ce; apply (ME e Mx D).
  Qed.
  (** Multiplying with the inverse gives the identity. *)
  Lemma mat_row : forall x di dj e j, d_class di = CMatrix_i -> d_class dj = CMatrix_j -> v0 x (upd e (key dj) j) = mat x di dj e (e (key di)) j.
  Proof.
    intros x di dj e j Ci Cj. unfold mat. apply v0_ext. intros k. destruct (key_dec (key dj) k) as [<-|N]; [now rewrite !upd_same|]. rewrite !(upd_other _ (key dj)) by congruence. symmetry. now apply upd_idem.
  Qed.
  Lemma mat_col : forall x di dj e i, d_class di = CMatrix_i -> d_class dj = CMatrix_j -> v0 x (upd e (key di) i) = mat x di dj e i (e (key dj)).
  Proof. intros x di dj e i Ci Cj. pose proof (keys_ij di dj Ci Cj). unfold mat. apply v0_ext. intros k. symmetry. apply upd_idem. now rewrite upd_other by congruence. Qed.
  Lemma multiply_values : forall x y di dj n, matrices x di dj n -> matrices y di dj n -> coherent (h_dims x ++ h_dims y) ->
    exists r, matrix_multiply zero add mul E rt x y = Ok r /\ forall e, valid e (h_dims r) -> valid e (h_dims x) /\ valid e (h_dims y) /\ val r e = Some (sum n (fun j => mul (mat x di dj e (e (key di)) j) (mat y di dj e j (e (key dj))))).
  Proof.
    intros x y di dj n Mx My Hc. destruct (C34_multiply x y di dj di dj n Mx My eq_refl eq_refl Hc) as [r [Er [_ [_ [V0 V]]]]]. exists r. split; auto. intros e Ve. destruct (V0 e Ve) as [V1 V2]. split; auto. split; auto.
    destruct (V e Ve) as [u [v [H1 ->]]]. f_equal. apply total_ext. intros j J. destruct (H1 j J) as [U W]. destruct Mx as [_ [_ [_ [Ci [Cj _]]]]].
    rewrite <- mat_row, <- mat_col by auto. unfold v0. now rewrite U, W.
  Qed.
  Theorem C34_inv_multiply : forall x o di dj n r, inv_routine n -> matrices x di dj n -> h_dims x = o ++ [di; dj] -> coherent (h_dims x) -> inv zero rt1 linv x = Ok r ->
    exists p q, matrix_multiply zero add mul E rt x r = Ok p /\ matrix_multiply zero add mul E rt r x = Ok q /\
      (forall e, valid e (h_dims p) -> val p e = Some (ident (e (key di)) (e (key dj)))) /\ (forall e, valid e (h_dims q) -> val q e = Some (ident (e (key di)) (e (key dj)))).
  Proof.
    intros x o di dj n r IR Mx D Hc H. destruct (C34_inv x o di dj n IR Mx D) as [I _]. destruct (I r H) as [Wr [Dr INV]]. pose proof Mx as [Wx [Hi [Hj [Ci [Cj [Li [Lj Hx]]]]]]].
    assert (Mr : matrices r di dj n) by (split; [exact Wr|]; rewrite Dr; repeat (split; [assumption|]); assumption).
    assert (Hc2 : coherent (h_dims x ++ h_dims x)). { intros a b Ha Hb. apply Hc; [apply in_app_iff in Ha|apply in_app_iff in Hb]; tauto. }
    destruct (multiply_values x r di dj n Mx Mr) as [p [Ep Vp]]; [now rewrite Dr|]. destruct (multiply_values r x di dj n Mr Mx) as [q [Eq Vq]]; [now rewrite Dr|].
    exists p, q. split; auto. split; auto. split.
    - intros e V. destruct (Vp e V) as [V1 [_ ->]]. f_equal. apply (INV e V1); [rewrite <- Li|rewrite <- Lj]; now apply V1.
    - intros e V. destruct (Vq e V) as [_ [V1 ->]]. f_equal. apply (INV e V1); [rewrite <- Li|rewrite <- Lj]; now apply V1.
  Qed.
  (** ** Determinants *)
  Variable ldet : nat -> (nat -> nat -> A) -> A.
  Theorem C34_det : forall x o di dj n, matrices x di dj n -> h_dims x = o ++ [di; dj] -> (forall M M', (forall i j, M i j = M' i j) -> ldet n M = ldet n M') ->
    exists r, det zero rt1 ldet x = Ok r /\ wf r /\ h_dims r = o /\ forall e, valid e o -> val r e = Some (ldet n (mat x di dj e)).
  Proof.
    intros x o di dj n Mx D EXT. pose proof (matrices_shape x o di dj n Mx D) as SH. pose proof Mx as [Wx _]. unfold det, nd_det. rewrite SH. destruct (outer_app (map (fun d => length (d_data d)) o) n n) as [-> ->].
    rewrite Nat.eqb_refl. cbn [negb bind]. rewrite D. destruct (outer_app o di dj) as [-> _]. set (f := fun ox : list nat => _).
    assert (T : total_on (map (fun d => length (d_data d)) o) f) by (intros ix I; discriminate).
    destruct (new_raw_some (nd_tab (map (fun d => length (d_data d)) o) f) (rt1 (h_dt x)) o) as [r [Er [Nr Dr]]]; [now rewrite nd_tab_shape, map_length|].
    exists r. split; auto. split; [|split; auto].
    - split; [rewrite Nr; now apply nd_tab_wf|]. split; [unfold labels_match, h_shape; now rewrite Nr, Dr|]. rewrite Dr. destruct Wx as [_ [_ W]]. rewrite D, map_app in W. now apply NoDup_app_remove_r in W.
    - intros e V. unfold val. rewrite Nr, Dr, nd_get_tab; auto; [|now apply valid_inb]. unfold f. f_equal. apply EXT. apply (mat_eq x o di dj n e Mx D).
  Qed.
  (** ** Linear systems *)
  Variable lsolve : nat -> nat -> (nat -> nat -> A) -> (nat -> nat -> A) -> option (nat -> nat -> A).
  (** What numpy.linalg.solve is trusted to do with one system. *)
  Definition solve_routine (n : nat) : Prop :=
    (forall p M B X, lsolve n p M B = Some X -> forall i k, i < n -> k < p -> sum n (fun j => mul (M i j) (X j k)) = B i k) /\
    (forall p M B R, inverse_of n M R -> lsolve n p M B <> None).
  (** The array of solutions before squeezing. *)
  Lemma solve_raw : forall x y di dj di' n (hasj : bool), solve_routine n -> matrices x di dj n -> wf y -> In di' (h_dims y) -> d_class di' = CMatrix_i -> d_name di' = d_name di ->
    length (d_data di') = n -> haskey (h_dims y) dj = hasj -> (forall d, In d (h_dims y) -> d = di' \/ key d = key dj \/ other_dim d) -> coherent (h_dims x ++ h_dims y) ->
    exists o, dims_union (h_dims x) [h_dims y] = o ++ [di; dj] /\ NoDup (map key (o ++ [di; dj])) /\
    (forall r, solve_Ab zero E rt lsolve x y false = Ok r -> h_dims r = o ++ [di; dj] /\ nd_wf (h_nd r) /\ h_shape r = map (fun d => length (d_data d)) o ++ [n; if hasj then n else 1] /\
      (forall b, solve_Ab zero E rt lsolve x y b = if b then squeeze None r else Ok r) /\
      forall e, valid e (o ++ [di; dj]) ->
        sum n (fun j => mul (mat x di dj e (e (key di)) j) (get0 (h_nd r) (coords e o ++ [j; if hasj then e (key dj) else 0]))) = v0 y e /\ val y e <> None) /\
    ((forall e, valid e (o ++ [di; dj]) -> exists R, inverse_of n (mat x di dj e) R) -> 0 < n -> exists r, solve_Ab zero E rt lsolve x y false = Ok r).
  Proof.
    intros x y di dj di' n hasj [lsolve_ok lsolve_defined] Mx Wy Hi' Ci' Ni' Li' HJ Hy Hc. pose proof Mx as [Wx [Hi [Hj [Ci [Cj [Li [Lj Hx]]]]]]].
    destruct (aligned x y di dj di' n hasj Mx Wy Hi' Ci' Ni' Li' HJ Hy Hc) as [o [x' [y' [Em [Dx [Dy [EU [ND [Wx' [Wy' [Sx [Sy [Bs [Vx Vy]]]]]]]]]]]]]].
    set (mx := map (fun d => if haskey (h_dims x) d then length (d_data d) else 1) o) in *. set (my := map (fun d => if haskey (h_dims y) d then length (d_data d) else 1) o) in *.
    assert (KD : key di <> key dj) by (now apply keys_ij).
    assert (NDo : NoDup (map key o)) by (rewrite map_app in ND; now apply NoDup_app_remove_r in ND).
    set (p := if hasj then n else 1) in *.
    exists o. split; auto. split; auto. unfold solve_Ab. rewrite Em. cbn [bind fst snd]. unfold nd_solve. fold (h_shape x') (h_shape y'). rewrite Sx, Sy.
    destruct (outer_app mx n n) as [-> ->]. destruct (outer_app my n p) as [-> ->]. rewrite !Nat.eqb_refl. cbn [negb]. rewrite Bs. cbn [bind].
    destruct (forallb _ _) eqn:FB.
    - rewrite forallb_forall in FB. cbn [bind]. set (f := fun ix : list nat => _).
      assert (T : total_on (map (fun d => length (d_data d)) o ++ [n; p]) f).
      { intros ix I. destruct (inb_split2 _ _ _ _ I) as [ox [i [k [-> [I2 _]]]]]. unfold f. destruct (outer_app ox i k) as [-> ->]. apply in_indices in I2. specialize (FB ox I2). match goal with |- context [lsolve ?a ?b ?c ?d] => destruct (lsolve a b c d) end; [discriminate|discriminate FB]. }
      destruct (new_raw_some (nd_tab (map (fun d => length (d_data d)) o ++ [n; p]) f) (rt (h_dt x) (h_dt y)) (h_dims y')) as [r0 [Er [Nr Dr]]].
      { rewrite Dy, nd_tab_shape, !app_length, map_length. reflexivity. }
      rewrite Er. cbn [bind]. split; [|eauto]. intros r H. injection H as <-. split; [congruence|]. split; [rewrite Nr; now apply nd_tab_wf|]. split; [unfold h_shape; now rewrite Nr|]. split; [intros []; reflexivity|].
      intros e V. assert (Vo : valid e o) by (intros d I; apply V; apply in_app_iff; auto). pose proof (valid_inb e o Vo) as IB.
      assert (Ei : e (key di) < n) by (rewrite <- Li; apply V; apply in_app_iff; cbn; auto). assert (Ej : e (key dj) < n) by (rewrite <- Lj; apply V; apply in_app_iff; cbn; auto).
      assert (Ep : (if hasj then e (key dj) else 0) < p) by (unfold p; destruct hasj; auto).
      destruct (Vy e (e (key di)) (e (key dj)) V Ei Ej) as [Y1 Y2].
      assert (SE : forall k, upd (upd e (key di) (e (key di))) (key dj) (e (key dj)) k = e k).
      { intros k. rewrite upd_idem; [apply upd_idem; auto|]. now rewrite upd_other by congruence. }
      assert (YE : val y (upd (upd e (key di) (e (key di))) (key dj) (e (key dj))) = val y e) by (unfold val; f_equal; unfold coords; apply map_ext; auto).
      rewrite YE in Y2. rewrite (v0_ext y _ e SE) in Y1. split; auto.
      destruct (lsolve n p (matrix_at zero (h_nd x') (bindex mx (coords e o))) (matrix_at zero (h_nd y') (bindex my (coords e o)))) as [X|] eqn:ES; [|exfalso; apply in_indices in IB; specialize (FB _ IB); rewrite ES in FB; discriminate].
      pose proof (lsolve_ok _ _ _ _ ES (e (key di)) _ Ei Ep) as SO. unfold matrix_at in SO at 2. rewrite Y1 in SO. rewrite <- SO. apply total_ext. intros j J. f_equal.
      + destruct (Vx e (e (key di)) j V Ei J) as [X1 _]. unfold matrix_at. rewrite X1. reflexivity.
      + unfold nd_get0. rewrite Nr, nd_get_tab; auto.
        * unfold f. destruct (outer_app (coords e o) j (if hasj then e (key dj) else 0)) as [-> ->]. now rewrite ES.
        * rewrite inb_app by (unfold coords; now rewrite !map_length). rewrite IB. cbn. apply andb_true_intro. split; [now apply Nat.ltb_lt|]. rewrite andb_true_r. now apply Nat.ltb_lt.
    - split; [cbn [bind]; discriminate|]. intros H NP. exfalso. apply Bool.not_true_iff_false in FB. apply FB. apply forallb_forall. intros ox I. apply in_indices in I.
      destruct (assign (o ++ [di; dj]) (ox ++ [0; 0]) ND) as [e [Ce Ve]].
      { rewrite map_app. cbn [map]. rewrite inb_app by (apply inb_length in I; auto). rewrite I, Li, Lj. destruct n; [lia|reflexivity]. }
      destruct (H e Ve) as [R IR]. rewrite coords_app in Ce. assert (Co : coords e o = ox) by (eapply app_inj_len; [exact Ce|]; unfold coords; apply inb_length in I; rewrite !map_length in *; auto).
      destruct (lsolve n p (matrix_at zero (h_nd x') (bindex mx (ox))) (matrix_at zero (h_nd y') (bindex my (ox)))) eqn:ES; auto. exfalso. revert ES. apply (lsolve_defined p _ _ R). intros i k I2 K. destruct (IR i k I2 K) as [I3 I4].
      split; [rewrite <- I3|rewrite <- I4]; apply total_ext; intros j J; f_equal; rewrite <- Co; unfold matrix_at; [destruct (Vx e i j Ve I2 J) as [-> _]|destruct (Vx e j k Ve J K) as [-> _]]; reflexivity.
  Qed.
  Theorem C34_solve : forall x y di dj di' dj' n, solve_routine n -> matrices x di dj n -> matrices y di' dj' n -> d_name di' = d_name di -> d_name dj' = d_name dj -> coherent (h_dims x ++ h_dims y) ->
    (forall r, solve_Ab zero E rt lsolve x y false = Ok r -> wf r /\ (forall k, In k (map key (h_dims r)) <-> In k (map key (h_dims x)) \/ In k (map key (h_dims y))) /\
       forall e, valid e (h_dims r) -> val y e = Some (sum n (fun j => mul (mat x di dj e (e (key di)) j) (mat r di dj e j (e (key dj)))))) /\
    ((forall e, valid e (dims_union (h_dims x) [h_dims y]) -> exists R, inverse_of n (mat x di dj e) R) -> 0 < n -> exists r, solve_Ab zero E rt lsolve x y false = Ok r).
  Proof.
    intros x y di dj di' dj' n SR Mx My Ni Nj Hc. pose proof Mx as [Wx [Hi [Hj [Ci [Cj [Li [Lj Hx]]]]]]]. pose proof My as [Wy [Hi' [Hj' [Ci' [Cj' [Li' [Lj' Hy]]]]]]].
    assert (Kj : key dj' = key dj) by (unfold key; congruence). assert (HJ : haskey (h_dims y) dj = true) by (apply haskey_In; rewrite <- Kj; now apply in_map).
    destruct (solve_raw x y di dj di' n true SR Mx Wy Hi' Ci' Ni Li' HJ) as [o [EU [ND [S1 S2]]]]; auto.
    { intros d I. destruct (Hy d I) as [->|[->|O]]; auto. }
    rewrite EU. split; auto. intros r H. destruct (S1 r H) as [Dr [Wr [Sr [_ V]]]].
    assert (W : wf r) by (split; auto; split; [unfold labels_match; rewrite Sr, Dr, map_app; cbn; congruence|now rewrite Dr]).
    split; auto. split; [intros k; rewrite Dr, <- EU; apply union_keys; auto; apply Wy|]. intros e Ve. rewrite Dr in Ve. destruct (V e Ve) as [E1 E2].
    assert (Mr : matrices r di dj n).
    { split; auto. rewrite Dr. rewrite !in_app_iff. repeat (split; [cbn; tauto|]). intros d I. rewrite <- EU in I. apply union_In in I; auto; [|apply Wy]. destruct I as [I|[I N]]; auto.
      destruct (Hy d I) as [->|[->|O]]; auto; exfalso; apply N; [replace (key di') with (key di) by (unfold key; congruence)|rewrite Kj]; now apply in_map. }
    assert (EQ : sum n (fun j => mul (mat x di dj e (e (key di)) j) (mat r di dj e j (e (key dj)))) = v0 y e).
    { rewrite <- E1. apply total_ext. intros j J. f_equal. rewrite <- (mat_eq r o di dj n e Mr Dr). reflexivity. }
    rewrite EQ. unfold v0. destruct (val y e); [auto|congruence].
  Qed.
  (** With a column for each matrix (no dimension for columns on the right hand
      side), squeezed as by default. *)
  Theorem C34_solve_columns : forall x y di dj di' n r, solve_routine n -> matrices x di dj n -> columns y di' n -> d_name di' = d_name di -> coherent (h_dims x ++ h_dims y) ->
    solve_Ab zero E rt lsolve x y true = Ok r -> wf r /\ ~ In dj (h_dims r) /\
    forall e, valid e (dims_union (h_dims x) [h_dims y]) -> val y e = Some (sum n (fun j => mul (mat x di dj e (e (key di)) j) (v0 r (upd e (key di) j)))).
  Proof.
    intros x y di dj di' n r SR Mx [Wy [Hi' [Ci' [Li' Hy]]]] Ni Hc H. pose proof Mx as [Wx [Hi [Hj [Ci [Cj [Li [Lj Hx]]]]]]].
    assert (HJ : haskey (h_dims y) dj = false).
    { destruct (haskey (h_dims y) dj) eqn:K; auto. exfalso. apply haskey_In in K. apply in_map_iff in K as [d [K I]]. unfold key in K. injection K as K _. rewrite Cj in K.
      destruct (Hy d I) as [->|O]; [congruence|]. unfold other_dim in O. rewrite K in O. cbn in O. lia. }
    destruct (solve_raw x y di dj di' n false SR Mx Wy Hi' Ci' Ni Li' HJ) as [o [EU [ND [S1 _]]]]; auto.
    { intros d I. destruct (Hy d I) as [->|O]; auto. }
    destruct (solve_Ab zero E rt lsolve x y false) as [r0|] eqn:E0.
    2:{ unfold solve_Ab in *. destruct (make_same_dims E x y); cbn [bind] in *; [|congruence]. destruct (nd_solve _ _ _ _); cbn [bind] in *; [|congruence]. destruct (new_raw _ _ _ _ _); cbn [bind] in *; congruence. }
    destruct (S1 r0 eq_refl) as [Dr [Wr [Sr [SQ V]]]]. rewrite (SQ true) in H. rewrite EU.
    (* the same array with a proper last dimension *)
    set (d1 := mkDim (d_class dj) (d_name dj) [LZ 0] (d_unit dj) (d_fmt dj)). assert (Kd : key d1 = key dj) by reflexivity.
    set (r1 := mkHF (h_nd r0) (h_dt r0) (o ++ [di; d1]) (h_unit r0) (h_fmt r0)).
    assert (S10 : squeeze None r1 = squeeze None r0).
    { unfold squeeze, multiple_axis_handler. cbn [bind]. unfold squeeze_z. replace (h_shape r1) with (h_shape r0) by reflexivity. cbn [h_nd r1].
      destruct (nd_squeeze _ _); cbn [bind]; auto. unfold new_from. cbn [h_dims h_dt h_unit h_fmt r1].
      replace (drop_ones (h_shape r0) (o ++ [di; d1])) with (drop_ones (h_shape r0) (h_dims r0)); auto.
      rewrite Dr, Sr. unfold drop_ones. rewrite map_app. cbn [map]. rewrite ?map_app. cbn [map]. clear. induction o as [|d o IH]; cbn [map app mask_drop]; [now destruct (n =? 1)|].
      destruct (length (d_data d) =? 1); [|f_equal]; exact IH. }
    assert (W1 : wf r1).
    { split; [exact Wr|]. split; [unfold labels_match; cbn [h_dims r1]; replace (h_shape r1) with (h_shape r0) by reflexivity; rewrite Sr, map_app; cbn [map]; now rewrite Li|].
      cbn [h_dims r1]. rewrite map_app in *. cbn [map] in *. now rewrite Kd. }
    destruct (squeeze_none_ok r1 W1) as [r2 [Q1 [Q2 [Q3 [Q4 _]]]]]. rewrite S10, H in Q1. injection Q1 as <-. split; auto. split.
    { rewrite Q3. cbn [h_dims r1]. intros I. apply filter_In in I as [I L]. apply in_app_iff in I as [I|[I|[I|[]]]].
      - rewrite map_app in ND. cbn [map] in ND. replace (map key o ++ [key di; key dj]) with ((map key o ++ [key di]) ++ [key dj]) in ND by (now rewrite <- app_assoc). apply NoDup_remove_2 in ND. apply ND. rewrite app_nil_r, in_app_iff. left. now apply in_map.
      - congruence.
      - rewrite <- I in L. discriminate L. }
    intros e Ve. destruct (V e Ve) as [E1 E2]. destruct (val y e) eqn:VY; [|congruence]. unfold v0 in E1 at 1. rewrite VY in E1. rewrite <- E1. f_equal. apply total_ext. intros j J. f_equal.
    (* value of the squeezed array *)
    set (e1 := upd (upd e (key di) j) (key dj) 0).
    assert (KD : key di <> key dj) by (now apply keys_ij).
    assert (V1 : valid e1 (h_dims r1)).
    { cbn [h_dims r1]. intros d I. unfold e1. destruct (key_dec (key dj) (key d)) as [K|K].
      - rewrite <- K, upd_same. apply in_app_iff in I as [I|[I|[I|[]]]].
        + exfalso. rewrite map_app in ND. cbn [map] in ND. replace (map key o ++ [key di; key dj]) with ((map key o ++ [key di]) ++ [key dj]) in ND by (now rewrite <- app_assoc). apply NoDup_remove_2 in ND. apply ND. rewrite app_nil_r, in_app_iff. left. rewrite K. now apply in_map.
        + subst d. congruence.
        + subst d. cbn. lia.
      - rewrite upd_other by congruence. destruct (key_dec (key di) (key d)) as [K2|K2].
        + rewrite <- K2, upd_same. apply in_app_iff in I as [I|[I|[I|[]]]].
          * exfalso. rewrite map_app in ND. cbn [map] in ND. apply NoDup_remove_2 in ND. apply ND. rewrite in_app_iff. left. rewrite K2. now apply in_map.
          * subst d. congruence.
          * subst d. congruence.
        + rewrite upd_other by congruence. apply in_app_iff in I as [I|[I|[I|[]]]]; [apply Ve; apply in_app_iff; auto|congruence|subst d; congruence]. }
    assert (VR : v0 r (upd e (key di) j) = v0 r e1).
    { unfold v0, val. replace (coords (upd e (key di) j) (h_dims r)) with (coords e1 (h_dims r)); auto. apply coords_ext. intros d I. unfold e1. apply upd_other.
      rewrite Q3 in I. apply filter_In in I as [I L]. cbn [h_dims r1] in I. apply in_app_iff in I as [I|[I|[I|[]]]].
      - intros K. rewrite map_app in ND. cbn [map] in ND. replace (map key o ++ [key di; key dj]) with ((map key o ++ [key di]) ++ [key dj]) in ND by (now rewrite <- app_assoc). apply NoDup_remove_2 in ND. apply ND. rewrite app_nil_r, in_app_iff. left. rewrite <- K. now apply in_map.
      - subst d. auto.
      - rewrite <- I in L. discriminate L. }
    rewrite VR. unfold v0 at 1. rewrite (Q4 e1 V1). unfold val. cbn [h_nd h_dims r1]. rewrite coords_app. cbn [coords map].
    rewrite Kd. unfold e1 at 2 3. rewrite upd_same, (upd_other _ (key dj) (key di)), upd_same by auto.
    replace (coords e1 o) with (coords e o); [reflexivity|]. apply coords_ext. intros d I. unfold e1. rewrite map_app in ND. cbn [map] in ND.
    rewrite !upd_other; auto.
    - intros K. apply NoDup_remove_2 in ND. apply ND. rewrite in_app_iff. left. rewrite <- K. now apply in_map.
    - intros K. replace (map key o ++ [key di; key dj]) with ((map key o ++ [key di]) ++ [key dj]) in ND by (now rewrite <- app_assoc). apply NoDup_remove_2 in ND. apply ND. rewrite app_nil_r, in_app_iff. left. rewrite <- K. now apply in_map.
  Qed.
End Facts.
Print Assumptions C34_multiply.
Print Assumptions C34_inv.
Print Assumptions C34_inv_multiply.
Print Assumptions C34_det.
Print Assumptions C34_solve.
Print Assumptions C34_solve_columns.

Ltac wf_lit := split; [reflexivity|split; [reflexivity|vm_compute; repeat (apply NoDup_nil || (apply NoDup_cons; [simpl; intuition congruence|]))]].
(** ** Examples: integer matrices, two by two *)
Definition mI : dim := mkDim CMatrix_i "i" [LZ 0; LZ 1] None None.
Definition mJ : dim := mkDim CMatrix_j "j" [LZ 0; LZ 1] None None.
Definition mF : dim := mkDim CDimSweep "freq" [LZ 1; LZ 2] None None.
Definition mB : dim := mkDim CDimSweep "bias" [LZ 5; LZ 6; LZ 7] None None.
Definition mats (ds : list dim) (l : list Z) : hf Z := mkHF (mkNd (map (fun d => length (d_data d)) ds) l) DFloat ds None "%.16e".
Definition mX := mats [mF; mI; mJ] [1; 2; 3; 7; 2; 1; 1; 1]%Z.
(** Stored with the matrix axes in the other order and another sweep. *)
Definition mY := mats [mJ; mI; mB] [1; 0; 2;  5; 1; 1;  0; 3; 1;  1; 2; 2]%Z.
Definition mC := mats [mB; mI] [1; 2; 3; 4; 5; 6]%Z.
Definition elZ0 : elops Z := mkElops Z 0%Z (fun v => v) (fun _ => 0%Z) Z.opp.
Local Open Scope Z_scope.
Arguments inv_routine {A} _ _ _ _ _ n%nat_scope.
Arguments solve_routine {A} _ _ _ _ _ n%nat_scope.
Arguments matrices {A} x di dj n%nat_scope.
Arguments columns {A} x di n%nat_scope.
Arguments inverse_of {A} _ _ _ _ n%nat_scope _ _.
Definition zdet (n : nat) (M : nat -> nat -> Z) : Z := M 0%nat 0%nat * M 1%nat 1%nat - M 0%nat 1%nat * M 1%nat 0%nat.
Definition zinv (n : nat) (M : nat -> nat -> Z) : option (nat -> nat -> Z) :=
  let d := zdet n M in
  if (d * d =? 1) then Some (fun i j => d * (match i, j with 0%nat, 0%nat => M 1%nat 1%nat | 1%nat, 1%nat => M 0%nat 0%nat | 0%nat, 1%nat => - M 0%nat 1%nat | _, _ => - M 1%nat 0%nat end)) else None.
Definition zsolve (n p : nat) (M B : nat -> nat -> Z) : option (nat -> nat -> Z) :=
  match zinv n M with Some R => Some (fun i k => R i 0%nat * B 0%nat k + R i 1%nat * B 1%nat k) | None => None end.
Lemma zinv_routine : inv_routine 0 Z.add Z.mul zinv 1 2.
Proof.
  split.
  - intros M R H i k I K. unfold zinv in H. destruct (_ =? 1) eqn:D; [|discriminate]. apply Z.eqb_eq in D. injection H as <-. unfold total, ident, zdet in *.
    destruct i as [|[|i]]; [| |lia]; (destruct k as [|[|k]]; [| |lia]); cbn in *; split; rewrite <- ?D; ring.
  - intros M R H. unfold zinv. destruct (_ =? 1) eqn:D; [discriminate|]. exfalso. apply Z.eqb_neq in D. apply D. unfold zdet.
    destruct (H 0%nat 0%nat) as [H1 _]; try lia. destruct (H 0%nat 1%nat) as [H2 _]; try lia. destruct (H 1%nat 0%nat) as [H3 _]; try lia. destruct (H 1%nat 1%nat) as [H4 _]; try lia.
    unfold total, ident in *. cbn in *. set (a := M 0%nat 0%nat) in *. set (b := M 0%nat 1%nat) in *. set (c := M 1%nat 0%nat) in *. set (d := M 1%nat 1%nat) in *.
    set (p := R 0%nat 0%nat) in *. set (q := R 0%nat 1%nat) in *. set (r := R 1%nat 0%nat) in *. set (s := R 1%nat 1%nat) in *.
    assert (P : (a * d - b * c) * (p * s - q * r) = 1).
    { transitivity ((a * p + b * r) * (c * q + d * s) - (a * q + b * s) * (c * p + d * r)); [ring|]. replace (a * p + b * r) with 1 by lia. replace (c * q + d * s) with 1 by lia. replace (a * q + b * s) with 0 by lia. reflexivity. }
    apply Z.mul_eq_1 in P as P'. destruct P' as [-> | ->]; reflexivity.
Qed.
Lemma zsolve_routine : solve_routine 0 Z.add Z.mul 1 zsolve 2.
Proof.
  destruct zinv_routine as [H1 H2]. split.
  - intros p M B X H i k I K. unfold zsolve in H. destruct (zinv 2 M) as [R|] eqn:ER; [|discriminate]. injection H as <-. specialize (H1 M R ER).
    destruct (H1 i 0%nat I ltac:(lia)) as [A0 _]. destruct (H1 i 1%nat I ltac:(lia)) as [A1 _]. unfold total, ident in *. cbn in *.
    transitivity ((M i 0%nat * R 0%nat 0%nat + M i 1%nat * R 1%nat 0%nat) * B 0%nat k + (M i 0%nat * R 0%nat 1%nat + M i 1%nat * R 1%nat 1%nat) * B 1%nat k); [ring|]. rewrite A0, A1.
    destruct i as [|[|i]]; [| |lia]; cbn -[Z.mul Z.add]; ring.
  - intros p M B R H. unfold zsolve. destruct (zinv 2 M) eqn:ER; [discriminate|]. destruct (H2 M R H ER).
Qed.
Definition h_elems (r : result (hf Z)) : option (list string * list nat * list Z) :=
  match r with Ok x => Some (map d_name (h_dims x), h_shape x, nd_elems (h_nd x)) | Err _ => None end.
Example C34_example : matrices mX mI mJ 2 /\ matrices mY mI mJ 2 /\ columns mC mI 2 /\ coherent (h_dims mX ++ h_dims mY) /\ coherent (h_dims mX ++ h_dims mC) /\
  h_elems (matrix_multiply 0 Z.add Z.mul elZ0 (fun a _ => a) mX mY) =
    Some (["freq"; "bias"; "i"; "j"]%string, [2; 3; 2; 2]%nat, [11; 2; 38; 7; 2; 7; 7; 23; 4; 5; 13; 17; 7; 1; 6; 1; 1; 8; 1; 5; 5; 4; 3; 3]) /\
  h_elems (inv 0 (fun a => a) zinv mX) = Some (["freq"; "i"; "j"]%string, [2; 2; 2]%nat, [7; -2; -3; 1; 1; -1; -1; 2]) /\
  h_elems (det 0 (fun a => a) zdet mX) = Some (["freq"]%string, [2]%nat, [1; 1]) /\
  h_elems (solve_Ab 0 elZ0 (fun a _ => a) zsolve mX mC true) = Some (["freq"; "bias"; "i"]%string, [2; 3; 2]%nat, [3; -1; 13; -5; 23; -9; -1; 3; -1; 5; -1; 7]).
Proof.
  split; [|split; [|split; [|split; [|split; [|vm_compute; repeat split]]]]].
  - unfold matrices, other_dim. repeat match goal with |- _ /\ _ => split end; try reflexivity; try (cbn; tauto); [wf_lit|].
    intros d [<-|[<-|[<-|[]]]]; auto. right. right. cbn. lia.
  - unfold matrices, other_dim. repeat match goal with |- _ /\ _ => split end; try reflexivity; try (cbn; tauto); [wf_lit|].
    intros d [<-|[<-|[<-|[]]]]; auto. right. right. cbn. lia.
  - unfold columns, other_dim. repeat match goal with |- _ /\ _ => split end; try reflexivity; try (cbn; tauto); [wf_lit|].
    intros d [<-|[<-|[]]]; auto. right. cbn. lia.
  - intros a b Ha Hb N S. cbn in Ha, Hb. repeat (destruct Ha as [<-|Ha]); try (destruct Ha); repeat (destruct Hb as [<-|Hb]); try (destruct Hb); try discriminate; auto.
  - intros a b Ha Hb N S. cbn in Ha, Hb. repeat (destruct Ha as [<-|Ha]); try (destruct Ha); repeat (destruct Hb as [<-|Hb]); try (destruct Hb); try discriminate; auto.
Qed.
(** Rectangular matrices: the product is right but keeps the column labels of the
    left factor, so the labels do not fit the array. *)
Definition mJ3 : dim := mkDim CMatrix_j "j" [LZ 0; LZ 1; LZ 2] None None.
Definition mI3 : dim := mkDim CMatrix_i "i" [LZ 0; LZ 1; LZ 2] None None.
Theorem C34_rectangular_refuted : exists x y r, wf x /\ wf y /\ matrix_multiply 0 Z.add Z.mul elZ0 (fun a _ => a) x y = Ok r /\ ~ wf r.
Proof.
  exists (mats [mI; mJ3] [1; 2; 3; 4; 5; 6]), (mats [mI3; mJ] [1; 2; 3; 4; 5; 6]). eexists.
  split; [wf_lit|].
  split; [wf_lit|].
  split; [vm_compute; reflexivity|]. intros [_ [L _]]. discriminate L.
Qed.
Print Assumptions C34_rectangular_refuted.
(** inv and det take the last two axes for the matrix whatever they are. *)
Theorem C34_axes_refuted : exists x r, wf x /\ inv 0 (fun a => a) zinv x = Ok r /\ h_dims x = [mI; mF; mJ] /\
  ~ inverse_of 0 Z.add Z.mul 1 2 (mat 0 x mI mJ (fun _ => 0%nat)) (mat 0 r mI mJ (fun _ => 0%nat)).
Proof.
  exists (mats [mI; mF; mJ] [1; 2; 3; 7; 2; 1; 1; 1]). eexists.
  split; [wf_lit|].
  split; [vm_compute; reflexivity|]. split; [reflexivity|]. intros H. destruct (H 0%nat 0%nat) as [C _]; try lia. vm_compute in C. discriminate C.
Qed.
Print Assumptions C34_axes_refuted.
