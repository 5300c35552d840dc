(** Joining of real and imaginary parts to complex variables
    (hftools/file_formats/readbase.py:29, 118-158, dataset.py:383-389). *)
From Coq Require Import Ascii String List Arith ZArith Bool.
From Verif Require Import Model_NdArray Model_Dim Model_Array Model_DataDict Model_Text Model_Block Model_Elements.
Import ListNotations.
Local Open Scope string_scope.
Local Open Scope nat_scope.
Local Open Scope list_scope.

Definition newline : ascii := "010".
Definition not_newline (c : ascii) : bool := negb (Ascii.eqb c newline).
Definition is_blank (c : ascii) : bool := Ascii.eqb c " ".

(** The text before the last occurrence of [c]. *)
Fixpoint before_last (c : ascii) (l : list ascii) : option (list ascii) :=
  match l with
  | [] => None
  | x :: l' =>
      match before_last c l' with
      | Some r => Some (x :: r)
      | None => if Ascii.eqb x c then Some [] else None
      end
  end.

(** get_outer_function (readbase.py:118-125) with the pattern
    "([A-Za-z_][A-Za-z_0-9]* ) *\((.* )\)(.* )", anchored at the start, where the
    dot does not match a newline.  The result is the function and the name it is
    applied to; the rest after the parenthesis is not used by make_cplx. *)
Definition outer_function (s : list ascii) : list ascii * list ascii :=
  match take_while is_word s with
  | c :: f =>
      if is_alpha c then
        match drop_while is_blank (drop_while is_word s) with
        | "("%char :: r =>
            match before_last ")" (take_while not_newline r) with
            | Some v => (c :: f, v)
            | None => ([], s)
            end
        | _ => ([], s)
        end
      else ([], s)
  | [] => ([], s)
  end.

(** allvarnames (dataset.py:383-389). *)
Definition allvarnames {A} (b : block A) : list string :=
  dd_iter (b_ivar b) ++ filter (fun k => negb (l_in k (dd_iter (b_ivar b)))) (dd_iter (b_var b)).

(** The dict of dicts (readbase.py:133-137); of the tuple only the full name is
    used later. *)
Definition alts := list (string * list (string * string)).
Definition alt_add (g : alts) (name : string) : alts :=
  let p := outer_function (chars name) in
  let v := string_of_list_ascii (snd p) in
  let f := string_of_list_ascii (fst p) in
  pd_set v (pd_set f name (match pd_get v g with Some a => a | None => [] end)) g.

(** Which pair is joined (readbase.py:140, 148): true for Re and Im. *)
Definition pair_of (alt : list (string * string)) : option (bool * string * string) :=
  match pd_get "Re" alt, pd_get "Im" alt with
  | Some r, Some i => Some (true, r, i)
  | _, _ =>
      match pd_get "Mag" alt, pd_get "Arg" alt with
      | Some m, Some a => Some (false, m, a)
      | _, _ => None
      end
  end.

(** The operations on elements: addition, multiplication by 1j, multiplication,
    and the exponential of pi/180*1j times the argument. *)
Record cops (A : Type) : Type := mkCops {
  c_el : elops A; c_rt : dtype -> dtype -> dtype; c_srt : dtype -> dtype;
  c_add : A -> A -> A; c_muli : A -> A; c_mul : A -> A -> A; c_cis : A -> A }.
Arguments c_el {A} _.
Arguments c_rt {A} _.
Arguments c_srt {A} _.
Arguments c_add {A} _.
Arguments c_muli {A} _.
Arguments c_mul {A} _.
Arguments c_cis {A} _.

(** The expressions of lines 144-145 and 152-154. *)
Definition join_pair {A} (O : cops A) (rect : bool) (x y : hf A) : result (hf A) :=
  if rect then binop (c_el O) (c_rt O) (c_add O) x (scalar_op (c_srt O) (c_muli O) y)
  else binop (c_el O) (c_rt O) (c_mul O) x (scalar_op (c_srt O) (c_cis O) y).

(** The second loop (readbase.py:139-156).  A part that is an independent
    variable is an error here, in the code it is converted to an array. *)
Fixpoint cplx_loop {A} (O : cops A) (lab : A -> label) (g : alts) (b : block A) : result (block A) :=
  match g with
  | [] => Ok b
  | (v, alt) :: g' =>
      do b' <- match pair_of alt with
               | Some (rect, r, m) =>
                   if b_contains v b then Ok b
                   else
                     do x <- get_var r b;
                     do y <- get_var m b;
                     do z <- join_pair O rect x y;
                     do b1 <- b_set lab v z b;
                     do b2 <- b_del r b1;
                     b_del m b2
               | None => Ok b
               end;
      cplx_loop O lab g' b'
  end.

(** make_cplx (readbase.py:128-158). *)
Definition make_cplx {A} (O : cops A) (lab : A -> label) (b : block A) : result (block A) :=
  cplx_loop O lab (fold_left alt_add (allvarnames b) []) b.
