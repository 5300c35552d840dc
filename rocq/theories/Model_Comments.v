(** Model of the comments of measurement files: process_comment and Comments
    of hftools/file_formats/common.py:104-196 (dataset/comments.py:100-170 is the
    same code with fewer converters and stripped fullcomments).

    [\s] and [\w] of the regular expression are the character classes of
    Model_Text and Model_Block; converters are parameters. *)
From Coq Require Import Ascii String List Arith ZArith Bool Lia.
From Verif Require Import Model_NdArray Model_Text Model_DataDict Model_Block.
Import ListNotations.
Local Open Scope nat_scope.
Local Open Scope list_scope.

(** ** Regular expressions by backtracking

    A pattern is given what is to follow it as a function of the text it has
    matched and the rest of the text. *)
Section Re.
  Context {R : Type}.
  (** [p]*: as many as possible, then fewer *)
  Fixpoint star (p : ascii -> bool) (k : list ascii -> list ascii -> option R) (acc l : list ascii) : option R :=
    match l with
    | c :: l' => if p c then match star p k (acc ++ [c]) l' with Some r => Some r | None => k acc l end else k acc l
    | [] => k acc []
    end.
  (** [p]*?: as few as possible, then more *)
  Fixpoint lazy (p : ascii -> bool) (k : list ascii -> list ascii -> option R) (acc l : list ascii) : option R :=
    match k acc l with
    | Some r => Some r
    | None => match l with c :: l' => if p c then lazy p k (acc ++ [c]) l' else None | [] => None end
    end.
  (** [p]+ *)
  Definition plus (p : ascii -> bool) (k : list ascii -> list ascii -> option R) (l : list ascii) : option R :=
    match l with c :: l' => if p c then star p k [c] l' else None | [] => None end.
  (** One character. *)
  Definition one (p : ascii -> bool) (k : list ascii -> option R) (l : list ascii) : option R :=
    match l with c :: l' => if p c then k l' else None | [] => None end.
End Re.

Definition not_nl (c : ascii) : bool := negb (Ascii.eqb c (ascii_of_nat 10)).
Definition is_sep (c : ascii) : bool := Ascii.eqb c ":" || Ascii.eqb c "=".
(** [[%\w\d:=_#\s/]] *)
Definition in_unit (c : ascii) : bool :=
  Ascii.eqb c "%" || is_word c || is_sep c || Ascii.eqb c "#" || is_space c || Ascii.eqb c "/".

(** \s*(.*?)\s*([[]([%\w\d:=_#\s/]+)[]])?\s*[:=]\s*(.+) (common.py:106-107):
    name, unit and value *)
Definition groups : Type := list ascii * option (list ascii) * list ascii.
Definition re_value (name : list ascii) (u : option (list ascii)) (l : list ascii) : option groups :=
  star is_space (fun _ l1 => one is_sep (fun l2 =>
    star is_space (fun _ l3 => plus not_nl (fun v _ => Some (name, u, v)) l3) [] l2) l1) [] l.
Definition re_tail (name l : list ascii) : option groups :=
  star is_space (fun _ l1 =>
    match one (Ascii.eqb "[") (plus in_unit (fun u l2 => one (Ascii.eqb "]") (re_value name (Some u)) l2)) l1 with
    | Some r => Some r
    | None => re_value name None l1
    end) [] l.
Definition reg_comment_all (l : list ascii) : option groups :=
  star is_space (fun _ l1 => lazy not_nl re_tail [] l1) [] l.

Section Comments.
  Context {V : Type}.
  (** The converters for values without unit and for values with one, and the text
      itself as a value. *)
  Variable convs : list (list ascii -> result V).
  Variable conv_unit : list ascii -> list ascii -> result V.
  Variable text : list ascii -> V.

  (** convert (common.py:110-116). *)
  Fixpoint convert (fs : list (list ascii -> result V)) (v : list ascii) : result V :=
    match fs with
    | [] => Err ValueError
    | f :: fs' => match f v with Err ValueError => convert fs' v | r => r end
    end.
  Definition or_text (r : result V) (v : list ascii) : result V :=
    match r with Err ValueError => Ok (text v) | _ => r end.
  (** process_comment (common.py:150-171). *)
  Definition process_comment (c : list ascii) : result (list (list ascii * V)) :=
    match reg_comment_all c with
    | Some (name, None, v) => do x <- or_text (convert convs v) v; Ok [(name, x)]
    | Some (name, Some u, v) => do x <- or_text (convert [conv_unit u] v) v; Ok [(name, x)]
    | None => Ok []
    end.

  (** Comments: the property dict as a list of pairs in order of insertion. *)
  Fixpoint put (k : list ascii) (x : V) (d : list (list ascii * V)) : list (list ascii * V) :=
    match d with
    | [] => [(k, x)]
    | (k', x') :: d' => if eqb_chars k k' then (k', x) :: d' else (k', x') :: put k x d'
    end.
  (** comment.lstrip("!").strip() *)
  Definition bare_comment (c : list ascii) : list ascii := strip (drop_while (Ascii.eqb "!") c).
  (** add_from_comment (common.py:187-191). *)
  Definition add_from_comment (d : list (list ascii * V)) (c : list ascii) : result (list (list ascii * V)) :=
    match bare_comment c with
    | [] => Ok d
    | b => do kvs <- process_comment b; Ok (fold_left (fun d kv => put (fst kv) (snd kv) d) kvs d)
    end.
  (** add_from_comments (common.py:193-195). *)
  Fixpoint add_from_comments (d : list (list ascii * V)) (cs : list (list ascii)) : result (list (list ascii * V)) :=
    match cs with
    | [] => Ok d
    | c :: cs' => do d' <- add_from_comment d c; add_from_comments d' cs'
    end.

  (** ** hftools/dataset/comments.py

      process_comment (comments.py:122-139): an error of the unit conversion is
      not caught. *)
  Definition ds_process_comment (c : list ascii) : result (list (list ascii * V)) :=
    match reg_comment_all c with
    | Some (name, None, v) => do x <- or_text (convert convs v) v; Ok [(name, x)]
    | Some (name, Some u, v) => do x <- convert [conv_unit u] v; Ok [(name, x)]
    | None => Ok []
    end.
  (** fullcomments and property. *)
  Definition comments : Type := list (list ascii) * list (list ascii * V).
  (** add_from_comment (comments.py:154-159). *)
  Definition ds_add_from_comment (st : comments) (c : list ascii) : result comments :=
    match bare_comment c with
    | [] => Ok st
    | b => do kvs <- ds_process_comment b;
           Ok (fst st ++ [b], fold_left (fun d kv => put (fst kv) (snd kv) d) kvs (snd st))
    end.
  (** add_from_comments (comments.py:161-163). *)
  Fixpoint ds_add_from_comments (st : comments) (cs : list (list ascii)) : result comments :=
    match cs with
    | [] => Ok st
    | c :: cs' => do st' <- ds_add_from_comment st c; ds_add_from_comments st' cs'
    end.
  (** extend (comments.py:165-168, common.py:197-200); [items] are the items of the
      other property dict in the order in which they come. *)
  Definition extend (st other : comments) (items : list (list ascii * V)) : comments :=
    (fst st ++ fst other, fold_left (fun d kv => put (fst kv) (snd kv) d) items (snd st)).
End Comments.
