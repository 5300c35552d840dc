(** Model of normalize_names (hftools/file_formats/common.py:230-309).

    The block is immutable here, so data.copy() is the block itself. *)
From Coq Require Import Ascii String List Arith ZArith Bool Lia.
From Verif Require Import Model_NdArray Model_Dim Model_Array Model_DataDict Model_Text Model_Block.
Import ListNotations.
Local Open Scope nat_scope.
Local Open Scope string_scope.
Local Open Scope list_scope.

(** _trtable (common.py:230-248). *)
Definition trtable : list (string * string) :=
  [("b1/a1 raw", "b11"); ("b1/a2 raw", "b12"); ("b2/a1 raw", "b21"); ("b2/a2 raw", "b22");
   ("a1 raw", "a11"); ("a1/a2 raw", "a12"); ("a2/a1 raw", "a21"); ("a2 raw", "a22");
   ("b1/a1", "b11"); ("b1/a2", "b12"); ("b2/a1", "b21"); ("b2/a2", "b22");
   ("a1", "a11"); ("a1/a2", "a12"); ("a2/a1", "a21"); ("a2", "a22");
   ("Freq[Hz]", "freq"); ("Frequency", "freq"); ("Freq", "freq")].

(** remove_enclosing_function_reg (common.py:251), ^([a-zA-Z0-9_]+)\((.+)\)$: the
    name and what is inside.  That $ also matches before a newline at the end is
    left out. *)
Fixpoint span_word (l : list ascii) : list ascii * list ascii :=
  match l with
  | [] => ([], [])
  | c :: l' => if is_word c then let '(a, b) := span_word l' in (c :: a, b) else ([], l)
  end.
Definition newline : ascii := ascii_of_nat 10.
Definition match_enclosing (l : list ascii) : option (list ascii * list ascii) :=
  match span_word l with
  | (c :: f, "("%char :: r) =>
      match rev r with
      | ")"%char :: b :: body =>
          if existsb (Ascii.eqb newline) (b :: body) then None else Some (c :: f, rev (b :: body))
      | _ => None
      end
  | _ => None
  end.
(** The translator of remove_enclosing_function (common.py:271-279); [pre] is the
    part of newpat before the %s. *)
Definition remove_enclosing (functionname pre old : string) : string :=
  match match_enclosing (chars old) with
  | Some (f, body) => if String.eqb (string_of_list_ascii f) functionname then pre ++ string_of_list_ascii body else old
  | None => old
  end.

Section Normalize.
  Context {A : Type}.
  Implicit Types b out : block A.

  (** The loop over the table (common.py:290-293), [tr] in the order of the
      dict. *)
  Fixpoint rename_table (tr : list (string * string)) (data out : block A) : result (block A) :=
    match tr with
    | [] => Ok out
    | (old, new) :: tr' =>
        if b_contains old data && b_contains new data then rename_table tr' data out
        else do out' <- b_rename old new out; rename_table tr' data out'
    end.

  (** The inner loop (common.py:298-308). *)
  Fixpoint rename_functions (f : string -> string) (ks : list string) (out : block A) : result (block A) :=
    match ks with
    | [] => Ok out
    | old :: ks' =>
        let new := f old in
        if String.eqb new old then rename_functions f ks' out
        else if dd_contains new (b_var out) then Err ValueError
        else do out' <- b_rename old new out; rename_functions f ks' out'
    end.

  Definition meantr : string -> string := remove_enclosing "Mean" "".
  Definition stdtr : string -> string := remove_enclosing "Std" "s_".

  Definition normalize_names (tr : list (string * string)) (data : block A) : result (block A) :=
    do b1 <- rename_table tr data data;
    do b2 <- rename_functions meantr (dd_iter (b_var b1)) b1;
    rename_functions stdtr (dd_iter (b_var b2)) b2.
End Normalize.
