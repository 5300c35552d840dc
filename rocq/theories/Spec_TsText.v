(** What a Touchstone text says, independently of how it is read. *)
From Coq Require Import Ascii String List Arith ZArith Bool.
From Verif Require Import Model_NdArray Model_Text.
Import ListNotations.
Local Open Scope string_scope.
Local Open Scope nat_scope.
Local Open Scope list_scope.

(** *** Words in a line *)
Definition spaces (l : list ascii) : Prop := forall c, In c l -> is_space c = true.
Definition solid (w : list ascii) : Prop := w <> [] /\ forall c, In c w -> is_space c = false.
(** [l] is the words [ws] with white space between them and perhaps around. *)
Inductive spaced : list (list ascii) -> list ascii -> Prop :=
| spaced_nil : forall b, spaces b -> spaced [] b
| spaced_cons : forall b w ws l, spaces b -> solid w -> spaced ws l ->
    (l = [] \/ exists c l', l = c :: l' /\ is_space c = true) -> spaced (w :: ws) (b ++ w ++ l).

(** The same up to the case of letters. *)
Definition same_char (a b : ascii) : Prop :=
  a = b \/ (97 <= nat_of_ascii a <= 122 /\ nat_of_ascii b = nat_of_ascii a - 32).
Definition in_capitals (l : list ascii) (s : string) : Prop := Forall2 same_char l (chars s).

(** *** The option line *)
(** Units of frequency and the power of ten they stand for. *)
Definition units : list (string * nat) := [("HZ", 0); ("KHZ", 3); ("MHZ", 6); ("GHZ", 9); ("THZ", 12); ("PHZ", 15)].
Inductive fmt3 := RI | DB | MA.
Definition fmts : list (string * fmt3) := [("RI", RI); ("DB", DB); ("MA", MA)].
Definition kinds : list string := ["S"; "Z"; "Y"; "G"; "H"].

(** The option line says: unit 10^k, kind of parameters, format of the numbers and
    the text of the reference resistance, if one is given. *)
Definition option_line (line : list ascii) (k : nat) (kind : string) (fm : fmt3) (z0 : option (list ascii)) : Prop :=
  exists u f wu wk wf rest b0 b1 l,
    line = b0 ++ "#"%char :: b1 ++ l /\ spaces b0 /\ spaces b1 /\
    In (u, k) units /\ In kind kinds /\ In (f, fm) fmts /\
    in_capitals wu u /\ in_capitals wk kind /\ in_capitals wf f /\
    spaced (wu :: wk :: wf :: rest) l /\ (exists c l', l = c :: l' /\ is_space c = false) /\
    match z0 with
    | None => rest = []
    | Some z => exists r z', rest = [r; z'] /\ Forall2 same_char z' z /\ forall c, In c z -> ~ 97 <= nat_of_ascii c <= 122
    end.

(** *** The lines of a file *)
(** A line of numbers, perhaps with a comment after it. *)
Definition number_line {R} (float : list ascii -> result R) (line : list ascii) (xs : list R) : Prop :=
  exists body tail ws, line = body ++ tail /\ ~ In "!"%char body /\ (tail = [] \/ exists t, tail = "!"%char :: t) /\
    spaced ws body /\ ws <> [] /\ hd_error (hd [] ws) <> Some "#"%char /\
    Forall2 (fun w x => float w = Ok x) ws xs.
(** [c] without white space around it. *)
Definition trimmed_of (c t : list ascii) : Prop :=
  exists a b, c = a ++ t ++ b /\ spaces a /\ spaces b /\
    (t = [] \/ ((exists x l, t = x :: l /\ is_space x = false) /\ exists y l, t = l ++ [y] /\ is_space y = false)).

Inductive ts_file {R} (float : list ascii -> result R) :
  list (list ascii) -> list (list ascii) -> list (list ascii) -> list (list R) -> Prop :=
| tsf_nil : ts_file float [] [] [] []
| tsf_blank : forall b lines coms opts rows, spaces b -> ts_file float lines coms opts rows -> ts_file float (b :: lines) coms opts rows
| tsf_comment : forall b c t lines coms opts rows, spaces b -> trimmed_of c t -> ts_file float lines coms opts rows ->
    ts_file float ((b ++ "!"%char :: c) :: lines) (t :: coms) opts rows
| tsf_option : forall l k kind fm z0 lines coms opts rows, option_line l k kind fm z0 -> ts_file float lines coms opts rows ->
    ts_file float (l :: lines) coms (l :: opts) rows
| tsf_numbers : forall l xs lines coms opts rows, number_line float l xs -> ts_file float lines coms opts rows ->
    ts_file float (l :: lines) coms opts (xs :: rows).

(** Where the Touchstone format puts element i,j of an n-port: row by row, but
    column by column for two ports. *)
Definition place (n i j : nat) : nat := if Nat.eqb n 2 then 2 * j + i else n * i + j.

(** Element i,j of the matrix at point p. *)
Definition cell {C} (ms : list (list (list C))) (p i j : nat) : option C :=
  match nth_error ms p with
  | Some m => match nth_error m i with Some r => nth_error r j | None => None end
  | None => None
  end.

(** How a number is printed: something without white space, comment or option
    sign, from which the number is read again. *)
Definition prints {R} (float : list ascii -> result R) (pr : R -> list ascii) : Prop :=
  forall x, solid (pr x) /\ ~ In "!"%char (pr x) /\ ~ In "#"%char (pr x) /\ float (pr x) = Ok x.
