(** Splitting and joining text as Python's str does, for the readers and writers
    of text files. *)
From Coq Require Import Ascii String List Arith ZArith Bool.
From Verif Require Import Model_NdArray Model_Text.
Import ListNotations.
Local Open Scope nat_scope.
Local Open Scope list_scope.

(** The word gathered so far, if there is one. *)
Definition flush (cur : list ascii) : list (list ascii) := match cur with [] => [] | _ => [cur] end.

(** str.split() : runs of characters that are not white space. *)
Fixpoint words_from (cur l : list ascii) : list (list ascii) :=
  match l with
  | [] => flush cur
  | c :: l' => if is_space c then flush cur ++ words_from [] l' else words_from (cur ++ [c]) l'
  end.
Definition words (l : list ascii) : list (list ascii) := words_from [] l.

(** sep.join(ws) *)
Fixpoint join (sep : list ascii) (ws : list (list ascii)) : list ascii :=
  match ws with
  | [] => []
  | [w] => w
  | w :: ws' => w ++ sep ++ join sep ws'
  end.

(** s.split(c, 1)[0]: what stands before the first [c]. *)
Definition before (c : ascii) (l : list ascii) : list ascii := take_while (fun x => negb (Ascii.eqb x c)) l.

(** str.upper for ASCII letters. *)
Definition upper_char (c : ascii) : ascii :=
  let n := nat_of_ascii c in if (97 <=? n) && (n <=? 122) then ascii_of_nat (n - 32) else c.
Definition upper (l : list ascii) : list ascii := map upper_char l.

Definition tab : ascii := ascii_of_nat 9.
