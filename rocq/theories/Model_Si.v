(** SI units (constants/si_units.py of /repo/hftools).

    Multipliers are powers of ten and are represented by their exponents; the
    floating point numbers are taken as rational numbers. Text is ASCII; the table
    with the Greek letter (si_units.py:33-37) is not modelled. *)
From Coq Require Import Ascii String List Arith ZArith QArith Bool Lia.
From Verif Require Import Model_NdArray Model_Text.
Import ListNotations.
Local Open Scope Z_scope.

(** siprefixes (si_units.py:22-27), without the empty prefix. *)
Definition siprefixes : list (ascii * Z) :=
  [("d", -1); ("c", -2); ("m", -3); ("u", -6); ("n", -9); ("p", -12); ("f", -15); ("a", -18);
   ("k", 3); ("M", 6); ("G", 9); ("T", 12); ("P", 15); ("E", 18)]%char.
(** si_exp_to_prefixes (si_units.py:28-32): the entry -24: "Y" is overwritten by
    -24: "y". *)
Definition si_exp_to_prefixes : list (Z * list ascii) :=
  map (fun p => (fst p, chars (snd p)))
  [(0, ""); (3, "k"); (6, "M"); (9, "G"); (12, "T"); (15, "P"); (18, "E"); (21, "Z"); (-24, "y");
   (-3, "m"); (-6, "u"); (-9, "n"); (-12, "p"); (-15, "f"); (-18, "a"); (-21, "z")]%string.
(** siunit_names (si_units.py:39). *)
Definition siunit_names : list (list ascii) := map chars ["Hz"; "s"; "S"; "Ohm"; "m"; "V"; "A"; "F"; "W"]%string.

Fixpoint assoc_char {B} (c : ascii) (l : list (ascii * B)) : option B :=
  match l with [] => None | (k, v) :: l' => if Ascii.eqb c k then Some v else assoc_char c l' end.
Fixpoint assoc_Z {B} (e : Z) (l : list (Z * B)) : option B :=
  match l with [] => None | (k, v) :: l' => if e =? k then Some v else assoc_Z e l' end.
Definition mem_chars (s : list ascii) (l : list (list ascii)) : bool := existsb (eqb_chars s) l.

(** unit_to_multiplier (si_units.py:48-65). *)
Definition unit_to_multiplier (unit : list ascii) : Z * option (list ascii) :=
  match strip unit with
  | [c] => if Ascii.eqb c "%" then (-2, None) else if Ascii.eqb c "#" then (0, None) else (0, Some [c])
  | c :: rest =>
      match assoc_char c siprefixes with
      | Some e => if mem_chars rest siunit_names then (e, Some rest) else (0, Some (c :: rest))
      | None => (0, Some (c :: rest))
      end
  | [] => (0, Some [])
  end.

(** ** Reading a number with a unit *)
Section Read.
  Variable num : Type.
  (** float(text); None stands for ValueError. *)
  Variable to_float : list ascii -> option num.

  Fixpoint span (f : ascii -> bool) (s : list ascii) : list ascii * list ascii :=
    match s with
    | c :: s' => if f c then let '(a, b) := span f s' in (c :: a, b) else ([], s)
    | [] => ([], [])
    end.
  (** At most one character. *)
  Definition span1 (f : ascii -> bool) (s : list ascii) : list ascii * list ascii :=
    match s with c :: s' => if f c then ([c], s') else ([], s) | [] => ([], []) end.
  Definition is_numchar (c : ascii) : bool := is_digit c || Ascii.eqb c "-" || Ascii.eqb c "+" || Ascii.eqb c ".".
  Definition is_e (c : ascii) : bool := Ascii.eqb c "e" || Ascii.eqb c "E".
  Definition is_expchar (c : ascii) : bool := is_digit c || Ascii.eqb c "-" || Ascii.eqb c "+".
  Definition is_letter (c : ascii) : bool :=
    let n := nat_of_ascii c in ((65 <=? n) && (n <=? 90) || (97 <=? n) && (n <=? 122))%nat.
  Definition is_unitchar (c : ascii) : bool := is_letter c || Ascii.eqb c "%".
  (** reg_value (si_units.py:67): [-+0-9.]+[eE]?[-+0-9]?, greedily; no
      backtracking is needed since the optional parts may be empty. *)
  Definition match_value (s : list ascii) : option (list ascii * list ascii) :=
    let '(a, r) := span is_numchar s in
    match a with
    | [] => None
    | _ => let '(b, r) := span1 is_e r in let '(c, r) := span1 is_expchar r in Some (a ++ b ++ c, r)
    end.
  (** reg_unit (si_units.py:77): the whole match, with spaces and brackets. *)
  Definition match_unit (s : list ascii) : option (list ascii) :=
    let '(a, r) := span is_space s in
    let '(b, r) := span1 (Ascii.eqb "[") r in
    let '(c, r) := span is_unitchar r in
    match c with
    | [] => None
    | _ => let '(d, _) := span1 (Ascii.eqb "]") r in Some (a ++ b ++ c ++ d)
    end.
  (** convert_with_unit (si_units.py:90-100): the value is [fst] times ten to the
      power [snd]. *)
  Definition convert_with_unit (unit : option (list ascii)) (value : num) : num * Z * option (list ascii) :=
    match unit with
    | None => (value, 0, None)
    | Some u => match strip u with
                | [] => (value, 0, None)
                | u' => let '(e, u'') := unit_to_multiplier u' in (value, e, u'')
                end
    end.
  (** string_number_with_unit_to_value (si_units.py:71-87) of a string. *)
  Definition string_number_with_unit_to_value (s : list ascii) : result (num * Z * option (list ascii)) :=
    match match_value s with
    | Some (v, rest) =>
        match to_float v with
        | Some value => Ok (convert_with_unit (match_unit rest) value)
        | None => Err ValueError
        end
    | None => Err ValueError
    end.
End Read.

(** ** Writing a number with a prefix *)
Local Open Scope Q_scope.
Definition pow10 (e : Z) : Q := Qpower 10 e.
(** mantissa (si_units.py:111-119); [e] is np.floor(np.log10(abs(x))). *)
Definition mantissa (x : Q) (e : Z) : Q * Z := if Qeq_bool x 0 then (0, 0%Z) else (x / pow10 e, e).
(** _help_format_sci (si_units.py:103-108). *)
Definition help_format_sci (value : Q) (e : Z) : Q * Z :=
  let '(m, e) := mantissa value e in
  let mul := (e mod 3)%Z in
  if (0 <=? e)%Z && (e <? 3)%Z then (m * pow10 mul, 0%Z) else (value * pow10 (- (e - mul)), (e - mul)%Z).
(** format_number (si_units.py:122-142) of a finite number: the number to be
    printed and the prefixed unit. *)
Definition format_number (number : Q) (e : Z) (unit : list ascii) : result (Q * list ascii) :=
  let '(num, exp) := help_format_sci number e in
  do prefix <- of_option KeyError (assoc_Z exp si_exp_to_prefixes);
  Ok (num, prefix ++ unit).
