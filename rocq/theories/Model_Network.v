(** Two-port networks: networks/multiports.py, networks/spar_functions.py and
    networks/noise.py of /repo/hftools.

    One matrix at a time: the batched arrays of the code act on each matrix
    separately (see Model_Matrix for the alignment of the other dimensions).
    Numbers are the elements of a field with decidable equality, so rounding,
    infinities and NaN are not modelled; a division by zero in an elementwise
    formula, where numpy yields inf or nan, gives some element of the field
    here and every theorem excludes it. *)
From Coq Require Import Field List Bool.
From Verif Require Import Model_NdArray.
Import ListNotations.

Record fld : Type := mkFld {
  carrier :> Type;
  f0 : carrier; f1 : carrier;
  fadd : carrier -> carrier -> carrier; fmul : carrier -> carrier -> carrier;
  fsub : carrier -> carrier -> carrier; fopp : carrier -> carrier;
  fdiv : carrier -> carrier -> carrier; finv : carrier -> carrier;
  feqb : carrier -> carrier -> bool;
  fth : field_theory f0 f1 fadd fmul fsub fopp fdiv finv (@eq carrier);
  feqb_eq : forall x y, feqb x y = true <-> x = y
}.
Arguments f0 {_}. Arguments f1 {_}. Arguments fadd {_}. Arguments fmul {_}. Arguments fsub {_}.
Arguments fopp {_}. Arguments fdiv {_}. Arguments finv {_}. Arguments feqb {_}.
Declare Scope fld_scope.
Delimit Scope fld_scope with F.
Infix "+" := fadd : fld_scope.
Infix "*" := fmul : fld_scope.
Infix "-" := fsub : fld_scope.
Infix "/" := fdiv : fld_scope.
Notation "- x" := (fopp x) : fld_scope.
Notation "0" := f0 : fld_scope.
Notation "1" := f1 : fld_scope.

(** ** Matrices *)
Record M2 (K : Type) : Type := mkM2 { e11 : K; e12 : K; e21 : K; e22 : K }.
Arguments mkM2 {K}. Arguments e11 {K}. Arguments e12 {K}. Arguments e21 {K}. Arguments e22 {K}.
(** Four by four, in blocks as [P[..., :2, :2]] etc. cut them (multiports.py:68-71). *)
Record M4 (K : Type) : Type := mkM4 { tl2 : M2 K; tr2 : M2 K; bl2 : M2 K; br2 : M2 K }.
Arguments mkM4 {K}. Arguments tl2 {K}. Arguments tr2 {K}. Arguments bl2 {K}. Arguments br2 {K}.

Section Ops.
  Context {K : fld}.
  Local Open Scope fld_scope.

  Definition m2_0 : M2 K := mkM2 0 0 0 0.
  Definition m2_1 : M2 K := mkM2 1 0 0 1.
  Definition m2_add (a b : M2 K) := mkM2 (e11 a + e11 b) (e12 a + e12 b) (e21 a + e21 b) (e22 a + e22 b).
  Definition m2_sub (a b : M2 K) := mkM2 (e11 a - e11 b) (e12 a - e12 b) (e21 a - e21 b) (e22 a - e22 b).
  Definition m2_opp (a : M2 K) := mkM2 (- e11 a) (- e12 a) (- e21 a) (- e22 a).
  Definition m2_scale (c : K) (a : M2 K) := mkM2 (c * e11 a) (c * e12 a) (c * e21 a) (c * e22 a).
  Definition m2_mul (a b : M2 K) :=
    mkM2 (e11 a * e11 b + e12 a * e21 b) (e11 a * e12 b + e12 a * e22 b)
         (e21 a * e11 b + e22 a * e21 b) (e21 a * e12 b + e22 a * e22 b).
  Definition m2_det (a : M2 K) : K := e11 a * e22 a - e12 a * e21 a.
  Definition m2_adj (a : M2 K) := mkM2 (e22 a) (- e12 a) (- e21 a) (e11 a).
  (** math.py:374-378, numpy's linalg.inv: a singular matrix raises. *)
  Definition m2_inv (a : M2 K) : result (M2 K) :=
    if feqb (m2_det a) 0 then Err ValueError else Ok (m2_scale (1 / m2_det a) (m2_adj a)).

  Definition m4_1 : M4 K := mkM4 m2_1 m2_0 m2_0 m2_1.
  Definition m4_mul (a b : M4 K) : M4 K :=
    mkM4 (m2_add (m2_mul (tl2 a) (tl2 b)) (m2_mul (tr2 a) (bl2 b))) (m2_add (m2_mul (tl2 a) (tr2 b)) (m2_mul (tr2 a) (br2 b)))
         (m2_add (m2_mul (bl2 a) (tl2 b)) (m2_mul (br2 a) (bl2 b))) (m2_add (m2_mul (bl2 a) (tr2 b)) (m2_mul (br2 a) (br2 b))).

  (** Minors of the upper and of the lower two rows, columns numbered 0 to 3. *)
  Definition minor (a b c d : K) : K := a * d - b * c.
  Definition m4_rows (a : M4 K) (i : nat) : K * K * K * K :=
    match i with
    | O => (e11 (tl2 a), e12 (tl2 a), e11 (tr2 a), e12 (tr2 a))
    | 1%nat => (e21 (tl2 a), e22 (tl2 a), e21 (tr2 a), e22 (tr2 a))
    | 2%nat => (e11 (bl2 a), e12 (bl2 a), e11 (br2 a), e12 (br2 a))
    | _ => (e21 (bl2 a), e22 (bl2 a), e21 (br2 a), e22 (br2 a))
    end.
  Definition m4_det_adj (a : M4 K) : K * M4 K :=
    let '(a00, a01, a02, a03) := m4_rows a 0 in let '(a10, a11, a12, a13) := m4_rows a 1 in
    let '(a20, a21, a22, a23) := m4_rows a 2 in let '(a30, a31, a32, a33) := m4_rows a 3 in
    let s0 := minor a00 a01 a10 a11 in let s1 := minor a00 a02 a10 a12 in let s2 := minor a00 a03 a10 a13 in
    let s3 := minor a01 a02 a11 a12 in let s4 := minor a01 a03 a11 a13 in let s5 := minor a02 a03 a12 a13 in
    let c5 := minor a22 a23 a32 a33 in let c4 := minor a21 a23 a31 a33 in let c3 := minor a21 a22 a31 a32 in
    let c2 := minor a20 a23 a30 a33 in let c1 := minor a20 a22 a30 a32 in let c0 := minor a20 a21 a30 a31 in
    (s0 * c5 - s1 * c4 + s2 * c3 + s3 * c2 - s4 * c1 + s5 * c0,
     mkM4 (mkM2 (a11 * c5 - a12 * c4 + a13 * c3) (- (a01 * c5) + a02 * c4 - a03 * c3)
                (- (a10 * c5) + a12 * c2 - a13 * c1) (a00 * c5 - a02 * c2 + a03 * c1))
          (mkM2 (a31 * s5 - a32 * s4 + a33 * s3) (- (a21 * s5) + a22 * s4 - a23 * s3)
                (- (a30 * s5) + a32 * s2 - a33 * s1) (a20 * s5 - a22 * s2 + a23 * s1))
          (mkM2 (a10 * c4 - a11 * c2 + a13 * c0) (- (a00 * c4) + a01 * c2 - a03 * c0)
                (- (a10 * c3) + a11 * c1 - a12 * c0) (a00 * c3 - a01 * c1 + a02 * c0))
          (mkM2 (a30 * s4 - a31 * s2 + a33 * s0) (- (a20 * s4) + a21 * s2 - a23 * s0)
                (- (a30 * s3) + a31 * s1 - a32 * s0) (a20 * s3 - a21 * s1 + a22 * s0))).
  Definition m4_scale (c : K) (a : M4 K) : M4 K :=
    mkM4 (m2_scale c (tl2 a)) (m2_scale c (tr2 a)) (m2_scale c (bl2 a)) (m2_scale c (br2 a)).
  Definition m4_inv (a : M4 K) : result (M4 K) :=
    let '(d, adj) := m4_det_adj a in
    if feqb d 0 then Err ValueError else Ok (m4_scale (1 / d) adj).

  (** ** convert (multiports.py:60-77) *)
  Definition convert (fromP toP : M4 K) (a : M2 K) : result (M2 K * M2 K * M2 K) :=
    do PB <- m4_inv toP;
    let P := m4_mul fromP PB in
    do A <- m2_inv (m2_sub (tl2 P) (m2_mul a (bl2 P)));
    let B := m2_add (m2_opp (tr2 P)) (m2_mul a (br2 P)) in
    Ok (m2_mul A B, A, B).
End Ops.

(** ** The kinds of two-ports (multiports.py:235-545) *)
Inductive kind : Type := KZ | KY | KS | KG | KH | KABCD | KT | KTp.
Definition kind_eqb (a b : kind) : bool :=
  match a, b with
  | KZ, KZ | KY, KY | KS, KS | KG, KG | KH, KH | KABCD, KABCD | KT, KT | KTp, KTp => true
  | _, _ => false
  end.

(** An object: its class, its Z0 attribute and its matrix.  The Z0 attribute
    exists on every kind (multiports.py:84, 151-153). *)
Record net (K : Type) : Type := mkNet { n_kind : kind; n_z0 : K; n_m : M2 K }.
Arguments mkNet {K}. Arguments n_kind {K}. Arguments n_z0 {K}. Arguments n_m {K}.
Inductive source (K : Type) : Type := Plain (m : M2 K) | Net (n : net K).
Arguments Plain {K}. Arguments Net {K}.

Section Nets.
  Context {K : fld}.
  Local Open Scope fld_scope.
  (** numpy's sqrt, and the default reference impedance (50.). *)
  Variables (sq : K -> K) (z50 : K).

  (** The properties P (multiports.py:268-270, 304-308, 344-349, 377-383,
      411-417, 444-450, 478-492, 518-532). *)
  Definition Pmat (k : kind) (z : K) : M4 K :=
    let v := sq (1 / z) / (1 + 1) in
    let i := sq z / (1 + 1) in
    match k with
    | KZ => m4_1
    | KY => mkM4 m2_0 m2_1 m2_1 m2_0
    | KS => mkM4 (mkM2 v 0 0 v) (mkM2 (- i) 0 0 (- i)) (mkM2 v 0 0 v) (mkM2 i 0 0 i)
    | KG => mkM4 (mkM2 0 0 0 1) (mkM2 1 0 0 0) (mkM2 1 0 0 0) (mkM2 0 0 0 1)
    | KH => mkM4 (mkM2 1 0 0 0) (mkM2 0 0 0 1) (mkM2 0 0 0 1) (mkM2 1 0 0 0)
    | KABCD => mkM4 (mkM2 1 0 0 0) (mkM2 0 0 1 0) (mkM2 0 1 0 0) (mkM2 0 0 0 (- (1)))
    | KT => mkM4 (mkM2 v 0 v 0) (mkM2 (- i) 0 i 0) (mkM2 0 v 0 v) (mkM2 0 i 0 (- i))
    | KTp => mkM4 (mkM2 v 0 v 0) (mkM2 i 0 (- i) 0) (mkM2 0 v 0 v) (mkM2 0 (- i) 0 i)
    end.

  (** The constructors K(data, Z0=...) (multiports.py:80-127, 257-265, 293-301,
      339-341, 474-476, 514-516).  [np.array(data, subok=False).view(K)] makes an
      object whose Z0 is 50 whatever [data] is; only SArray takes a Z0 argument,
      with default 50. *)
  Definition construct (k : kind) (zarg : option K) (src : source K) : result (net K) :=
    match src with
    | Plain m => Ok (mkNet k z50 m)
    | Net n =>
        if kind_eqb k KZ && kind_eqb (n_kind n) KY || kind_eqb k KY && kind_eqb (n_kind n) KZ
        then do m <- m2_inv (n_m n); Ok (mkNet k z50 m)
        else if kind_eqb k (n_kind n) && feqb z50 (n_z0 n)
        then Ok (mkNet k z50 (n_m n))
        else
          let z := match k with
                   | KS => match zarg with Some z => z | None => z50 end
                   | _ => n_z0 n
                   end in
          do r <- convert (Pmat (n_kind n) (n_z0 n)) (Pmat k z) (n_m n);
          Ok (mkNet k z (fst (fst r)))
    end.
  (** n.Z0 = z (multiports.py:117-119). *)
  Definition set_z0 (z : K) (n : net K) : net K := mkNet (n_kind n) z (n_m n).
  (** n[...] with matrix dimensions left (multiports.py:213-218): a view as
      hfarray, which has no Z0, made into the class again. *)
  Definition getitem (n : net K) : result (net K) := construct (n_kind n) None (Plain (n_m n)).

  (** ** Scattering parameters (spar_functions.py:15-99) *)
  Definition cascadeS (S1 S2 : M2 K) : M2 K :=
    let denom := 1 - e22 S1 * e11 S2 in
    let s1det := m2_det S1 in
    let s2det := m2_det S2 in
    mkM2 ((e11 S1 - e11 S2 * s1det) / denom) (e12 S1 * e12 S2 / denom)
         (e21 S1 * e21 S2 / denom) ((e22 S2 - e22 S1 * s2det) / denom).
  Definition deembedleft (e X : M2 K) : M2 K :=
    let denom := e12 e * e21 e - e11 e * e22 e + e22 e * e11 X in
    mkM2 ((e11 X - e11 e) / denom) (e12 X * e21 e / denom) (e21 X * e12 e / denom)
         (- e12 X * e21 X * e22 e / denom + e22 X).
  Definition deembedright (X e : M2 K) : M2 K :=
    let denom := e12 e * e21 e - e11 e * e22 e + e11 e * e22 X in
    mkM2 (- e12 X * e21 X * e11 e / denom + e11 X) (e12 X * e21 e / denom) (e21 X * e12 e / denom)
         ((e22 X - e22 e) / denom).
  Definition deembedS (a S b : M2 K) : M2 K := deembedright (deembedleft a S) b.

  (** cascade and deembed of networks (multiports.py:166-196). *)
  Definition net_cascade (self other : net K) : result (net K) :=
    do a <- construct KS None (Net self);
    do b <- construct KS None (Net other);
    construct (n_kind self) None (Net (mkNet KS z50 (cascadeS (n_m a) (n_m b)))).
  Definition net_deembed (left self right : net K) : result (net K) :=
    do l <- construct KS None (Net left);
    do s <- construct KS None (Net self);
    do r <- construct KS None (Net right);
    construct (n_kind self) None (Net (mkNet KS z50 (deembedS (n_m l) (n_m s) (n_m r)))).
End Nets.

(** ** Noise (noise.py:19-83) *)
Section Noise.
  Context {K : fld}.
  Local Open Scope fld_scope.
  Variables (sq : K -> K) (z50 : K) (conj : K -> K).
  Definition hconj (a : M2 K) : M2 K := mkM2 (conj (e11 a)) (conj (e21 a)) (conj (e12 a)) (conj (e22 a)).
  Definition re (x : K) : K := (x + conj x) / (1 + 1).
  Record noisy : Type := mkNoisy { ny_net : net K; ny_c : M2 K }.
  (** NoisyTwoport.convert (noise.py:67-77). *)
  Definition noisy_convert (dest : kind) (x : noisy) : result noisy :=
    do N <- construct sq z50 dest None (Net (ny_net x));
    do r <- convert (Pmat sq (n_kind (ny_net x)) (n_z0 (ny_net x))) (Pmat sq (n_kind N) (n_z0 N)) (n_m (ny_net x));
    let T := snd (fst r) in
    let C := m2_mul (m2_mul T (ny_c x)) (hconj T) in
    Ok (mkNoisy N (mkM2 (re (e11 C)) (e12 C) (e21 C) (re (e22 C)))).
  (** passive_noise (noise.py:34-45); [kT] stands for k * Tamb. *)
  Definition passive_noise (kT : K) (n : net K) : result noisy :=
    match n_kind n with
    | KY | KZ => Ok (mkNoisy n (m2_scale ((1 + 1) * kT) (m2_add (n_m n) (hconj (n_m n)))))
    | KS => Ok (mkNoisy n (m2_scale kT (m2_sub m2_1 (m2_mul (n_m n) (hconj (n_m n))))))
    | _ => Err GenericError
    end.
End Noise.
