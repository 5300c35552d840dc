(** What an MDIF file says. *)
From Coq Require Import Ascii String List Arith ZArith Bool.
From Verif Require Import Model_NdArray Model_Text Model_Words Model_Stream Model_Mdif Spec_TsText.
Import ListNotations.
Local Open Scope string_scope.
Local Open Scope nat_scope.
Local Open Scope list_scope.

(** *** Groups of lines *)
Definition mkind (t : mtoken) : string * list ascii := (t_tag t, t_rad t).
(** A complete group: comments and VAR lines directly before BEGIN, then attributes,
    headers, data and END. *)
Record lines_of_group : Type := mkLines {
  l_comments : list (list ascii); l_vars : list (list ascii); l_name : list ascii;
  l_attribs : list (list ascii); l_headers : list (list ascii); l_data : list (list ascii); l_end : list ascii }.
Definition tagged_as (tag : string) (ls : list (list ascii)) : list (string * list ascii) := map (fun l => (tag, l)) ls.
Definition group_kinds (r : lines_of_group) : list (string * list ascii) :=
  tagged_as "COMMENT" (l_comments r) ++ tagged_as "VAR" (l_vars r) ++ [("BEGIN", l_name r)] ++
  tagged_as "ATTRIB" (l_attribs r) ++ tagged_as "HEADER" (l_headers r) ++ tagged_as "DATA" (l_data r) ++ [("END", l_end r)].
(** The beginning of a group whose end is missing; perhaps nothing. *)
Definition unfinished (ks : list (string * list ascii)) : Prop :=
  exists r more, more <> [] /\ group_kinds r = ks ++ more.
Definition no_group (ks : list (string * list ascii)) : Prop := forall r rest, ks <> group_kinds r ++ rest.

(** The parts of [l] between equal signs, without white space around them. *)
Definition pieces (l : list ascii) (ps : list (list ascii)) : Prop :=
  exists raw, raw <> [] /\ l = join ["="%char] raw /\ Forall (fun s => ~ In "="%char s) raw /\ Forall2 trimmed_of raw ps.
(** The group as it is handed on. *)
Definition group_of (r : lines_of_group) (g : mgroup) : Prop :=
  g_comments g = l_comments r /\ Forall2 pieces (l_vars r) (g_vars g) /\ g_name g = l_name r /\
  Forall2 pieces (l_attribs r) (g_attribs g) /\ Forall2 (fun l ws => spaced ws l) (l_headers r) (g_header g) /\ g_data g = l_data r.

Section Spec.
Context {V : Type} (float : list ascii -> result V).

(** *** Attributes: name(real) = value, the name perhaps after SWEEP. *)
Definition assigns (l name : list ascii) (v : V) : Prop :=
  exists b0 pre b1 b2 value b3,
    l = b0 ++ pre ++ name ++ chars "(real)" ++ b1 ++ "="%char :: b2 ++ value ++ b3 /\
    spaces b0 /\ spaces b1 /\ spaces b2 /\ spaces b3 /\
    (pre = chars "SWEEP." \/ pre = [] /\ starts_with (chars "SWEEP.") name = false) /\
    (forall c, In c name -> c <> "("%char /\ c <> "="%char) /\ (exists c r, name = c :: r /\ is_space c = false) /\
    (forall c, In c value -> is_space c = false /\ c <> "="%char) /\ value <> [] /\ float value = Ok v.

(** *** Columns *)
Definition type_name (t : mtype) : string :=
  match t with TString => "string" | TReal => "real" | TInteger => "integer" | TComplex => "complex" end.
(** A header: a name without parentheses, and its type. *)
Definition head_of (h : list ascii) (p : mtype * list ascii) : Prop :=
  h = snd p ++ chars "(" ++ chars (type_name (fst p)) ++ chars ")" /\ snd p <> [] /\ forall c, In c (snd p) -> c <> "("%char.
(** A word, perhaps in double quotes, and what is in them. *)
Definition quoted (w u : list ascii) : Prop :=
  exists a b, w = a ++ u ++ b /\ (forall c, In c (a ++ b) -> c = quote) /\
    (u = [] /\ b = [] \/ (exists c r, u = c :: r /\ c <> quote) /\ (exists c r, u = r ++ [c] /\ c <> quote)).
(** The words [ws] begin with a value of the type and go on with [rest]. *)
Inductive value_of : mtype -> list (list ascii) -> mval V -> list (list ascii) -> Prop :=
| vo_string : forall w u rest, quoted w u -> value_of TString (w :: rest) (MStr u) rest
| vo_real : forall w u v rest, quoted w u -> float u = Ok v -> value_of TReal (w :: rest) (MReal v) rest
| vo_integer : forall w u z rest, quoted w u -> py_int u = Ok z -> value_of TInteger (w :: rest) (MInt z) rest
| vo_complex : forall w1 u1 w2 u2 v1 v2 rest, quoted w1 u1 -> quoted w2 u2 -> float u1 = Ok v1 -> float u2 = Ok v2 ->
    value_of TComplex (w1 :: w2 :: rest) (MComplex v1 v2) rest.
(** The values of a line for its header. *)
Inductive line_values : list (mtype * list ascii) -> list (list ascii) -> list (mval V) -> Prop :=
| lv_nil : forall ws, line_values [] ws []
| lv_cons : forall t n ps ws v ws' vs, value_of t ws v ws' -> line_values ps ws' vs -> line_values ((t, n) :: ps) ws (v :: vs).
(** A record has one line for each line of the header. *)
Definition record_values (hs : list (list (mtype * list ascii))) (lines : list (list ascii)) (vs : list (mval V)) : Prop :=
  exists vss, vs = concat vss /\
  Forall2 (fun p vs => exists ws, spaced ws (snd p) /\ line_values (fst p) ws vs) (combine hs lines) vss /\ length lines = length hs.
(** The name of the sweep: SWEEP. before it, in any case, is left out. *)
Definition sweep_named (full n : list ascii) : Prop :=
  (exists pre, in_capitals pre "SWEEP." /\ full = pre ++ n) \/
  (n = full /\ forall pre r, in_capitals pre "SWEEP." -> full <> pre ++ r).
(** The lines of a group say that it is the block [b]: [hs] are the headers, [recs]
    the records and [vss] their values; all names are different. *)
Definition describes (r : lines_of_group) (b : mblock V) : Prop :=
  exists hs p0 h0 hs' recs vss,
    Forall2 (fun l h => exists ws, spaced ws l /\ Forall2 head_of ws h) (l_headers r) hs /\
    hs = (p0 :: h0) :: hs' /\ NoDup (map snd (concat hs)) /\
    l_data r = concat recs /\ recs <> [] /\ Forall2 (record_values hs) recs vss /\
    m_name b = l_name r /\ m_comments b = l_comments r /\
    sweep_named (snd p0) (fst (m_sweep b)) /\
    (let cols := snd (m_sweep b) :: map snd (m_cols b) in
     length cols = length (concat hs) /\
     forall i col, nth_error cols i = Some col -> length col = length recs /\
       forall k vs, nth_error vss k = Some vs -> nth_error col k = nth_error vs i) /\
    map fst (m_cols b) = map snd (h0 ++ concat hs') /\
    Forall2 (fun l nv => assigns l (fst nv) (snd nv)) (l_vars r) (m_partials b) /\
    Forall2 (fun l nv => assigns l (fst nv) (snd nv)) (l_attribs r) (m_attribs b).
End Spec.

(** *** Lines: what a line of the file says; [None] is nothing. *)
Inductive line_says : list ascii -> option (string * list ascii) -> Prop :=
| ls_blank : forall b, spaces b -> line_says b None
| ls_mark : forall b c tag r t, spaces b -> In (c, tag) [("!"%char, "COMMENT"); ("%"%char, "HEADER"); ("#"%char, "ATTRIB")] -> trimmed_of r t ->
    line_says (b ++ c :: r) (Some (tag, t))
| ls_begin : forall b c r t, spaces b -> trimmed_of r t -> line_says (b ++ chars "BEGIN" ++ c :: r) (Some ("BEGIN", t))
| ls_end : forall b c r, spaces b -> line_says (b ++ chars "END" ++ c :: r) (Some ("END", r))
| ls_end0 : forall b, spaces b -> line_says (b ++ chars "END") (Some ("END", []))
| ls_var : forall b c r, spaces b -> line_says (b ++ chars "VAR" ++ c :: r) (Some ("VAR", r))
| ls_data : forall b c r, spaces b -> is_space c = false -> ~ In c ["!"%char; "%"%char; "#"%char] ->
    (forall s l, In s ["BEGIN"; "END"; "VAR"] -> c :: r <> chars s ++ l) -> line_says (b ++ c :: r) (Some ("DATA", c :: r)).
