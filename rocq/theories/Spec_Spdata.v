(** What an SP-data file says. *)
From Coq Require Import Ascii String List Arith ZArith Bool.
From Verif Require Import Model_NdArray Model_Text Model_Words Model_Spdata Spec_TsText.
Import ListNotations.
Local Open Scope string_scope.
Local Open Scope nat_scope.
Local Open Scope list_scope.

(** The lines of a group. *)
Definition group_tokens (g : sp_group) : list sp_token :=
  let '(cs, h, ds) := g in map SComment cs ++ [SHeader h] ++ map SData ds.
Definition has_data (g : sp_group) : Prop := snd g <> [].

(** Title of a column: the name and the unit if there is one. *)
Definition titled (name unit : list ascii) : list ascii :=
  match unit with [] => name | _ => name ++ chars " [" ++ unit ++ chars "]" end.
Definition element_title (name : list ascii) (i j : nat) : list ascii := name ++ print_nat (i + 1) ++ print_nat (j + 1).
Definition part (p : string) (name : list ascii) : list ascii := chars p ++ chars "(" ++ name ++ chars ")".
(** The columns a variable is written as, with their titles and values: the
    variable itself, real and imaginary part if it is complex, and so for each
    element, row by row, if it is a matrix. *)
Definition parts {V} (name unit : list ascii) (f : nat -> V * V) : list (list ascii * (nat -> V)) :=
  [(titled (part "Re" name) unit, fun k => fst (f k)); (titled (part "Im" name) unit, fun k => snd (f k))].
Definition fields {V} (c : sp_col V) : list (list ascii * (nat -> V)) :=
  match c_data c with
  | Real f => [(titled (c_name c) (c_unit c), f)]
  | Cplx f => parts (c_name c) (c_unit c) f
  | MReal n m f => map (fun ij => (titled (element_title (c_name c) (fst ij) (snd ij)) (c_unit c), fun k => f k (fst ij) (snd ij)))
                       (list_prod (seq 0 n) (seq 0 m))
  | MCplx n m f => flat_map (fun ij => parts (element_title (c_name c) (fst ij) (snd ij)) (c_unit c) (fun k => f k (fst ij) (snd ij)))
                       (list_prod (seq 0 n) (seq 0 m))
  end.

(** Text without white space at its ends, and not empty. *)
Definition tidy (l : list ascii) : Prop :=
  (exists a l', l = a :: l' /\ is_space a = false) /\ (exists b l', l = l' ++ [b] /\ is_space b = false).
Definition no_tab (l : list ascii) : Prop := ~ In tab l.

(** A column that can be written. *)
Definition sound_col {V} (num : list ascii -> V) (c : sp_col V) : Prop :=
  tidy (c_name c) /\ no_tab (c_name c) /\ no_tab (c_unit c) /\
  forall v, tidy (c_print c v) /\ no_tab (c_print c v) /\ num (c_print c v) = v.

(** [t] is the comment [c] without leading exclamation marks and white space at
    the end. *)
Definition comment_text (c t : list ascii) : Prop :=
  exists p b, c = p ++ t ++ b /\ (forall x, In x p -> x = "!"%char) /\ spaces b /\ hd_error t <> Some "!"%char /\
    (t = [] \/ exists y l, t = l ++ [y] /\ is_space y = false).

(** A block that can be written and read: at least one point, sound columns with
    different titles, a sweep first, of real numbers which do not look like a
    header or comment, comments which are not marked as repeated. *)
Record writable {V} (num : list ascii -> V) (o : sp_out V) : Prop := {
  w_points : 1 <= o_points o;
  w_cols : Forall (sound_col num) (o_cols o);
  w_sweep : exists c f cs, o_cols o = c :: cs /\ c_data c = Real f /\
     (exists a l, c_name c = a :: l /\ head_char a = true) /\
     forall v a l, c_print c v = a :: l -> head_char a = false /\ a <> "!"%char;
  w_titles : NoDup (map fst (flat_map fields (o_cols o)));
  w_marks : forall c t, In c (o_comments o) -> comment_text c t -> starts_with (chars "Fullcomments") t = false;
  w_vars : Forall (fun kv => tidy (snd kv)) (o_sweepvars o) }.
