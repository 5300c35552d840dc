(** Noise parameters: networks/noise.py of /repo/hftools, over the complex
    numbers (pairs of reals).  One matrix at a time, exact arithmetic. *)
From Coq Require Import Reals Lra Field.
From Verif Require Import Model_NdArray Model_Network.
Local Open Scope R_scope.

(** ** Complex numbers *)
Definition Cx : Type := (R * R)%type.
Definition Cadd (x y : Cx) : Cx := (fst x + fst y, snd x + snd y).
Definition Copp (x : Cx) : Cx := (- fst x, - snd x).
Definition Csub (x y : Cx) : Cx := (fst x - fst y, snd x - snd y).
Definition Cmul (x y : Cx) : Cx := (fst x * fst y - snd x * snd y, fst x * snd y + snd x * fst y).
(** |x|^2 *)
Definition Cabs2 (x : Cx) : R := fst x * fst x + snd x * snd x.
Definition Cinv (x : Cx) : Cx := (fst x / Cabs2 x, - snd x / Cabs2 x).
Definition Cdiv (x y : Cx) : Cx := Cmul x (Cinv y).
Definition Cconj (x : Cx) : Cx := (fst x, - snd x).
Definition RtoC (x : R) : Cx := (x, 0).
Definition Ceqb (x y : Cx) : bool := if Req_EM_T (fst x) (fst y) then if Req_EM_T (snd x) (snd y) then true else false else false.
Lemma Ceqb_eq : forall x y, Ceqb x y = true <-> x = y.
Proof.
  intros [a b] [c d]. unfold Ceqb. cbn [fst snd]. destruct (Req_EM_T a c) as [->|N]; [destruct (Req_EM_T b d) as [->|N]|];
    split; auto; try discriminate; intros E; injection E; intros; congruence.
Qed.
Lemma Cabs2_neq : forall x, x <> (0, 0) -> Cabs2 x <> 0.
Proof.
  intros [a b] N E. unfold Cabs2 in E. cbn [fst snd] in E. apply N.
  assert (0 <= a * a) by apply Rle_0_sqr. assert (0 <= b * b) by apply Rle_0_sqr.
  f_equal; apply Rsqr_0_uniq; unfold Rsqr; lra.
Qed.
Lemma Cfth : @field_theory Cx (0, 0) (1, 0) Cadd Cmul Csub Copp Cdiv Cinv (@eq Cx).
Proof.
  assert (E : forall a b c d : R, a = c -> b = d -> (a, b) = (c, d)) by (intros; now f_equal).
  constructor; [constructor|..].
  1-9: intros; repeat match goal with x : Cx |- _ => destruct x | x : (R * R)%type |- _ => destruct x end; unfold Cadd, Cmul, Csub, Copp; cbn [fst snd]; apply E; ring.
  - intros H. injection H as H. lra.
  - reflexivity.
  - intros [a b] N. apply Cabs2_neq in N. unfold Cinv, Cmul, Cabs2 in *. cbn [fst snd] in *. apply E; field; auto.
Qed.
Definition fC : fld := mkFld Cx (0, 0) (1, 0) Cadd Cmul Csub Copp Cdiv Cinv Ceqb Cfth Ceqb_eq.
(** Principal square root (numpy.sqrt of a complex number). *)
Definition Csqrt (z : Cx) : Cx :=
  let m := sqrt (Cabs2 z) in
  (sqrt ((m + fst z) / 2), if Rlt_dec (snd z) 0 then - sqrt ((m - fst z) / 2) else sqrt ((m - fst z) / 2)).

Section NoisePar.
  (** k * 290, Boltzmann's constant times the reference temperature. *)
  Variable kT : R.
  Definition z50 : fC := RtoC 50.
  Record noisepar : Type := mkNP { np_Fmin : R; np_Rn : R; np_Gopt : Cx }.

  (** from_noisepar (noise.py:48-60); [S] is the entry S of the block, an S
      matrix at 50 ohm after the first statement, which this takes as done. *)
  Definition Yopt_of (G : Cx) : Cx := Cdiv (Cmul (RtoC (1 / 50)) (Csub (1, 0) G)) (Cadd (1, 0) G).
  Definition from_noisepar (S : M2 fC) (x : noisepar) : result (@noisy fC) :=
    do N <- @construct fC Csqrt z50 KABCD None (Net (mkNet KS z50 S));
    let Yopt := Yopt_of (np_Gopt x) in
    let c11 := RtoC (np_Rn x) in
    let c21 := Csub (RtoC (1 / 2 * (np_Fmin x - 1))) (Cmul (RtoC (np_Rn x)) Yopt) in
    let c12 := Cconj c21 in
    let c22 := RtoC (np_Rn x * (sqrt (Cabs2 Yopt) * sqrt (Cabs2 Yopt))) in
    let s := fun c => Cmul (RtoC (4 * kT)) c in
    Ok (mkNoisy N (@mkM2 fC (s c11) (s c12) (s c21) (s c22))).

  (** NoisyTwoport.noise_parameters (noise.py:86-127): Fmin, Rn, Gopt, Yopt. *)
  Definition Gopt_of (Y : Cx) : Cx := Cdiv (Csub (RtoC (1 / 50)) Y) (Cadd (RtoC (1 / 50)) Y).
  Definition par_of_Y (N : @noisy fC) : noisepar :=
    let Y11 := e11 (n_m (ny_net N)) in
    let Y21 := e21 (n_m (ny_net N)) in
    let s := fun c => Cdiv c (RtoC (4 * kT)) in
    let CY11 := s (e11 (ny_c N)) in
    let CY12 := s (e12 (ny_c N)) in
    let CY22 := s (e22 (ny_c N)) in
    let Rn := fst (Cdiv CY22 (RtoC (sqrt (Cabs2 Y21) * sqrt (Cabs2 Y21)))) in
    let Ycor := Csub Y11 (Cmul (Cdiv CY12 CY22) Y21) in
    let d := Csub Y11 Ycor in
    let Gn := fst (Csub CY11 (Cmul (RtoC (sqrt (Cabs2 d) * sqrt (Cabs2 d))) (RtoC Rn))) in
    let Yopt := Csub (RtoC (sqrt (Gn / Rn + fst Ycor * fst Ycor))) (Cmul (0, 1) (RtoC (snd Ycor))) in
    let Fmin := 1 + 2 * Rn * (fst Ycor + fst Yopt) in
    mkNP Fmin Rn (Gopt_of Yopt).
  Definition noise_parameters (x : @noisy fC) : result noisepar :=
    match n_kind (ny_net x) with
    | KABCD =>
        let s := fun c => Cdiv c (RtoC (2 * kT)) in
        let CA11 := s (e11 (ny_c x)) in
        let CA12 := s (e12 (ny_c x)) in
        let CA22 := s (e22 (ny_c x)) in
        let q := Cdiv (RtoC (snd CA12)) CA11 in
        let Yopt := Cadd (Csqrt (Csub (Cdiv CA22 CA11) (Cmul q q))) (Cmul (0, 1) q) in
        let Fmin := 1 + fst (Cadd CA12 (Cmul CA11 (Cconj Yopt))) in
        Ok (mkNP Fmin (fst CA11) (Gopt_of Yopt))
    | _ =>
        do N <- @noisy_convert fC Csqrt z50 Cconj KY x;
        Ok (par_of_Y N)
    end.
End NoisePar.
