(** Text as Python handles it, as far as several parts of hftools need it:
    decimal integers and white space.  Characters are bytes (latin-1). *)
From Coq Require Import Ascii String List Arith ZArith Bool Lia.
From Verif Require Import Model_NdArray.
Import ListNotations.
Local Open Scope nat_scope.

Definition chars (s : string) : list ascii := list_ascii_of_string s.

Definition is_digit (c : ascii) : bool :=
  let n := nat_of_ascii c in (48 <=? n) && (n <=? 57).
Definition digit_value (c : ascii) : nat := nat_of_ascii c - 48.
Definition digit_char (n : nat) : ascii := ascii_of_nat (48 + n).

(** str.isspace for one byte: tab, newline, vertical tab, form feed, carriage
    return, file/group/record/unit separator, space, NEL and no-break space. *)
Definition is_space (c : ascii) : bool :=
  let n := nat_of_ascii c in
  ((9 <=? n) && (n <=? 13)) || ((28 <=? n) && (n <=? 32)) || Nat.eqb n 133 || Nat.eqb n 160.

Fixpoint drop_while {X} (f : X -> bool) (l : list X) : list X :=
  match l with
  | [] => []
  | x :: l' => if f x then drop_while f l' else l
  end.

Fixpoint take_while {X} (f : X -> bool) (l : list X) : list X :=
  match l with
  | [] => []
  | x :: l' => if f x then x :: take_while f l' else []
  end.

(** str.lstrip, str.rstrip, str.strip *)
Definition lstrip (l : list ascii) : list ascii := drop_while is_space l.
Definition rstrip (l : list ascii) : list ascii := rev (drop_while is_space (rev l)).
Definition strip (l : list ascii) : list ascii := rstrip (lstrip l).

(** Value of a string of digits. *)
Definition digits_value (l : list ascii) : nat :=
  fold_left (fun acc c => 10 * acc + digit_value c) l 0.

(** "%d" % n for a natural number: digits, least significant first; [fuel] is
    the number itself, which is at least the number of digits. *)
Fixpoint print_fuel (fuel n : nat) : list ascii :=
  match fuel with
  | 0 => [digit_char (n mod 10)]
  | S f => if n <? 10 then [digit_char n]
           else print_fuel f (n / 10) ++ [digit_char (n mod 10)]
  end.
Definition print_nat (n : nat) : list ascii := print_fuel n n.

(** Digits with single underscores between them, as int() accepts. [prev] tells
    whether the character before was a digit. *)
Fixpoint underscored (prev : bool) (l : list ascii) : option (list ascii) :=
  match l with
  | [] => if prev then Some [] else None
  | c :: l' =>
      if is_digit c then option_map (cons c) (underscored true l')
      else if Ascii.eqb c "_" && prev then underscored false l'
      else None
  end.

(** int(s) of Python for a byte string in base ten. *)
Definition py_int (l : list ascii) : result Z :=
  let body l := match underscored false l with
                | Some ds => Ok (Z.of_nat (digits_value ds))
                | None => Err ValueError
                end in
  match strip l with
  | [] => Err ValueError
  | c :: l' =>
      if Ascii.eqb c "-" then do v <- body l'; Ok (- v)%Z
      else if Ascii.eqb c "+" then body l'
      else body (c :: l')
  end.

(** str.startswith *)
Fixpoint starts_with (p l : list ascii) : bool :=
  match p, l with
  | [], _ => true
  | a :: p', b :: l' => Ascii.eqb a b && starts_with p' l'
  | _, _ => false
  end.

Definition eqb_chars (a b : list ascii) : bool := if list_eq_dec ascii_dec a b then true else false.
