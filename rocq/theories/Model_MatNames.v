(** Names of matrix elements as the readers recognise them
    (hftools/file_formats/readbase.py:210-242, 426; mdif.py:376-436). *)
From Coq Require Import Ascii String List Arith Bool.
From Verif Require Import Model_Text Model_Utils Model_Block.
Import ListNotations.
Local Open Scope nat_scope.
Local Open Scope list_scope.

(** An element: row, column, name of the variable. *)
Definition elem : Type := (nat * nat * list ascii)%type.

(** Comparison of such tuples, and sorted() (readbase.py:234). *)
Definition elem_lt (a b : elem) : bool :=
  match a, b with
  | (i, j, s), (i', j', s') =>
      (i <? i') || (Nat.eqb i i' && ((j <? j') || (Nat.eqb j j' && chars_lt s s')))
  end.
Fixpoint insert_by {X} (lt : X -> X -> bool) (x : X) (l : list X) : list X :=
  match l with
  | [] => [x]
  | y :: l' => if lt y x then y :: insert_by lt x l' else x :: l
  end.
Fixpoint sort_by {X} (lt : X -> X -> bool) (l : list X) : list X :=
  match l with
  | [] => []
  | x :: l' => insert_by lt x (sort_by lt l')
  end.

(** The elements of a set of integers. *)
Definition int_set (l : list nat) : list nat := nodup Nat.eq_dec l.

(** _matrix_elements (readbase.py:230-242). *)
Definition matrix_elements (l : list elem) : option (list (list ascii) * list nat * list nat) :=
  let s := sort_by elem_lt l in
  let elems := map snd s in
  let i_idx := int_set (map (fun e => fst (fst e)) s) in
  let j_idx := int_set (map (fun e => snd (fst e)) s) in
  if negb (Nat.eqb (length i_idx * length j_idx) (length elems)) then None
  else Some (elems, sort_by Nat.ltb i_idx, sort_by Nat.ltb j_idx).

(** possibles.setdefault(vname, []).append(t) (readbase.py:220). *)
Fixpoint group_add (v : list ascii) (t : elem) (g : list (list ascii * list elem)) : list (list ascii * list elem) :=
  match g with
  | [] => [(v, [t])]
  | (w, ts) :: g' => if eqb_chars v w then (w, ts ++ [t]) :: g' else (w, ts) :: group_add v t g'
  end.

(** match_matrix_elements (readbase.py:213-227); [matcher] gives name, row and
    column of an element name. *)
Definition match_matrix_elements (names : list (list ascii)) (matcher : list ascii -> option (list ascii * nat * nat))
    : list (list ascii * (list (list ascii) * list nat * list nat)) :=
  let possibles := fold_left (fun g n => match matcher n with
                                         | Some (v, i, j) => group_add v (i, j, n) g
                                         | None => g
                                         end) names [] in
  flat_map (fun p => match matrix_elements (snd p) with
                     | Some (elems, i, j) => if 1 <? length elems then [(fst p, (elems, i, j))] else []
                     | None => []
                     end) possibles.

(** reg.match for ([A-Za-z_]+)([0-9])([0-9])$ (readbase.py:426).  A trailing
    newline, which $ would allow, is not modelled. *)
Definition elem_match (s : list ascii) : option (list ascii * nat * nat) :=
  let v := take_while is_alpha s in
  match v, drop_while is_alpha s with
  | _ :: _, [c1; c2] => if is_digit c1 && is_digit c2 then Some (v, digit_value c1, digit_value c2) else None
  | _, _ => None
  end.

(** Equality of two sets of integers. *)
Definition set_eqb (a b : list nat) : bool :=
  forallb (fun x => existsb (Nat.eqb x) b) a && forallb (fun x => existsb (Nat.eqb x) a) b.

(** is_matrix_name (mdif.py:419-429): the indices of the columns named alike. *)
Definition mdif_is_matrix (l : list (nat * nat)) : bool :=
  let I := int_set (map fst l) in
  let J := int_set (map snd l) in
  Nat.eqb (length I * length J) (length l) &&
  set_eqb I (seq 1 (length I)) && set_eqb J (seq 1 (length J)).

(** is_vector_name (mdif.py:432-436). *)
Definition mdif_is_vector (l : list nat) : bool := set_eqb l (seq 1 (length l)).
