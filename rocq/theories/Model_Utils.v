(** utils.py of /repo/hftools: stable_uniq, lex_order, flatten. *)
From Coq Require Import Ascii String List Arith ZArith Bool Lia.
From Verif Require Import Model_NdArray Model_Text.
Import ListNotations.
Local Open Scope nat_scope.

(** stable_uniq (utils.py:108-115). *)
Fixpoint stable_uniq_loop {A} (eqb : A -> A -> bool) (data out : list A) : list A :=
  match data with
  | [] => out
  | x :: data' => stable_uniq_loop eqb data' (if existsb (eqb x) out then out else out ++ [x])
  end.
Definition stable_uniq {A} (eqb : A -> A -> bool) (data : list A) : list A := stable_uniq_loop eqb data [].

(** reg_split.findall (utils.py:148-152), the expression being
    [^0-9]+ or [0-9]+: maximal runs of digits and of other characters. *)
Fixpoint runs (l : list ascii) : list (list ascii) :=
  match l with
  | [] => []
  | c :: l' =>
      match runs l' with
      | (d :: r) :: rs => if Bool.eqb (is_digit c) (is_digit d) then (c :: d :: r) :: rs else [c] :: (d :: r) :: rs
      | rs => [c] :: rs
      end
  end.
(** to_numeric(x, False) (utils.py:84-105) of such a run: digits become an
    integer, other text stays.  Texts that float() or the date pattern accept
    without containing a digit ("inf", "nan", ...) are not modelled. *)
Inductive piece : Type := PNum (n : nat) | PStr (s : list ascii).
Definition to_piece (r : list ascii) : piece :=
  match r with c :: _ => if is_digit c then PNum (digits_value r) else PStr r | [] => PStr r end.
(** split_num (utils.py:151-152). *)
Definition split_num (s : list ascii) : list piece * list ascii := (map to_piece (runs s), s).

(** Comparison with [<] of what split_num gives; numbers and strings cannot be
    compared. Python compares tuples and lists at the first position where the
    elements differ (==). *)
Fixpoint chars_lt (a b : list ascii) : bool :=
  match a, b with
  | _, [] => false
  | [], _ :: _ => true
  | x :: a', y :: b' => if Ascii.eqb x y then chars_lt a' b' else nat_of_ascii x <? nat_of_ascii y
  end.
Definition piece_eqb (a b : piece) : bool :=
  match a, b with
  | PNum m, PNum n => Nat.eqb m n
  | PStr s, PStr t => eqb_chars s t
  | _, _ => false
  end.
Definition piece_lt (a b : piece) : result bool :=
  match a, b with
  | PNum m, PNum n => Ok (m <? n)
  | PStr s, PStr t => Ok (chars_lt s t)
  | _, _ => Err TypeError
  end.
Fixpoint pieces_lt (a b : list piece) : result (option bool) :=      (* None: equal *)
  match a, b with
  | [], [] => Ok None
  | [], _ :: _ => Ok (Some true)
  | _ :: _, [] => Ok (Some false)
  | x :: a', y :: b' => if piece_eqb x y then pieces_lt a' b' else do r <- piece_lt x y; Ok (Some r)
  end.
Definition key_lt (a b : list piece * list ascii) : result bool :=
  do r <- pieces_lt (fst a) (fst b);
  match r with Some r => Ok r | None => Ok (chars_lt (snd a) (snd b)) end.

(** sorted(): a stable sort that uses [<] only; an insertion sort here.  Which
    pairs Python compares is not modelled, only that a list with elements that
    cannot be compared with each other may raise. *)
Fixpoint insert_key (x : list piece * list ascii) (l : list (list piece * list ascii)) : result (list (list piece * list ascii)) :=
  match l with
  | [] => Ok [x]
  | y :: l' =>
      do b <- key_lt y x;
      if b then do r <- insert_key x l'; Ok (y :: r) else Ok (x :: l)
  end.
Fixpoint sort_keys (l : list (list piece * list ascii)) : result (list (list piece * list ascii)) :=
  match l with
  | [] => Ok []
  | x :: l' => do r <- sort_keys l'; insert_key x r
  end.
(** lex_order (utils.py:155-157). *)
Definition lex_order (l : list (list ascii)) : result (list (list ascii)) :=
  do r <- sort_keys (map split_num l); Ok (map snd r).

(** flatten (utils.py:191-210): nested lists and tuples. *)
Inductive nest (A : Type) : Type := Leaf (a : A) | Nest (l : list (nest A)).
Arguments Leaf {A}. Arguments Nest {A}.
Fixpoint flatten_nest {A} (x : nest A) : list A :=
  match x with
  | Leaf a => [a]
  | Nest l => (fix go l := match l with [] => [] | y :: l' => flatten_nest y ++ go l' end) l
  end.
Definition flatten {A} (l : list (nest A)) : list A := flatten_nest (Nest l).
