(** What a CITI file says. *)
From Coq Require Import Ascii String List Arith ZArith Bool.
From Verif Require Import Model_NdArray Model_Text Model_Stream Model_Citi Spec_TsText.
Import ListNotations.
Local Open Scope string_scope.
Local Open Scope nat_scope.
Local Open Scope list_scope.

(** *** Parsing of tokens *)
Definition kind (t : ctoken) : string * rad := (t_tag t, t_rad t).

Section Spec.
Context {V : Type} (float : list ascii -> result V) (polar : V -> V -> V * V) (linspace : V -> V -> Z -> result (list V)).

(** A line of two texts with a comma between them. *)
Definition pair_text (l r i : list ascii) : Prop :=
  trimmed_of l (r ++ ","%char :: i) /\ ~ In ","%char r /\ ~ In ","%char i.
(** The number in a line of data of the given type. *)
Inductive row_value : list ascii -> list ascii -> cnum V -> Prop :=
| rv_mag : forall l x, float l = Ok x -> row_value (chars "MAG") l (Re x)
| rv_ri : forall l r i x y, pair_text l r i -> float r = Ok x -> float i = Ok y -> row_value (chars "RI") l (Co x y)
| rv_magangle : forall l r i x y, pair_text l r i -> float r = Ok x -> float i = Ok y ->
    row_value (chars "MAGANGLE") l (Co (fst (polar x y)) (snd (polar x y))).
Definition known_type (typ : list ascii) : Prop := typ = chars "MAG" \/ typ = chars "RI" \/ typ = chars "MAGANGLE".
Definition values (typ : list ascii) (rows : list (list ascii)) (vs : list (cnum V)) : Prop :=
  known_type typ /\ Forall2 (row_value typ) rows vs.

(** The values of a sweep are listed or given by start, stop and number. *)
Inductive source := Listed (rows : list (list ascii)) | Segment (l : list ascii).
Record csweep := mkSweep { s_name : list ascii; s_typ : list ascii; s_n : list ascii; s_src : source; s_head : list ascii; s_foot : list ascii }.
Record cdata := mkData { da_name : list ascii; da_typ : list ascii; da_rows : list (list ascii); da_head : list ascii; da_foot : list ascii }.
Record cfile := mkFile {
  f_c1 : list (list ascii); f_ver : option (list ascii); f_c2 : list (list ascii); f_name : list ascii; f_c3 : list (list ascii);
  f_sweeps : list csweep; f_c4 : list (list ascii); f_c5 : list (list ascii); f_c6 : list (list ascii); f_data : list cdata }.

Definition coms (cs : list (list ascii)) : list (string * rad) := map (fun c => ("COMMENT", Text c)) cs.
Definition rows_kinds (rows : list (list ascii)) : list (string * rad) := map (fun c => ("DATA", Text c)) rows.
Definition sweep_kinds (s : csweep) : list (string * rad) :=
  match s_src s with
  | Listed rows => ("VAR_LIST_BEGIN", Text (s_head s)) :: rows_kinds rows ++ [("VAR_LIST_END", Text (s_foot s))]
  | Segment l => [("SEG_LIST_BEGIN", Text (s_head s)); ("SEG", Text l); ("SEG_LIST_END", Text (s_foot s))]
  end.
Definition data_kinds (d : cdata) : list (string * rad) :=
  ("DATA_LIST_BEGIN", Text (da_head d)) :: rows_kinds (da_rows d) ++ [("DATA_LIST_END", Text (da_foot d))].
Definition file_kinds (f : cfile) : list (string * rad) :=
  coms (f_c1 f) ++ match f_ver f with Some v => [("CITIFILE", Text v)] | None => [] end ++
  coms (f_c2 f) ++ [("NAME", Text (f_name f))] ++ coms (f_c3 f) ++
  map (fun s => ("VARDEF", Words [s_name s; s_typ s; s_n s])) (f_sweeps f) ++ coms (f_c4 f) ++
  map (fun d => ("DATADEF", Words [da_name d; da_typ d])) (f_data f) ++ coms (f_c5 f) ++
  flat_map sweep_kinds (f_sweeps f) ++ coms (f_c6 f) ++ flat_map data_kinds (f_data f).

(** The values of a sweep. *)
Definition sweep_is (s : csweep) (vs : list (cnum V)) : Prop :=
  (exists n, py_int (s_n s) = Ok n) /\
  match s_src s with
  | Listed rows => starts_with (chars "VAR_LIST") (s_head s) = true /\ values (s_typ s) rows vs
  | Segment l => starts_with (chars "VAR_LIST") (s_head s) = false /\
      exists w t1 t2 t3 a b k xs, spaced [w; t1; t2; t3] l /\ float t1 = Ok a /\ float t2 = Ok b /\ py_int t3 = Ok k /\
        linspace a b k = Ok xs /\ vs = map Re xs
  end.
(** A comment is kept; a constant time is spelled out. *)
Inductive comment_read : list ascii -> list ascii -> Prop :=
| cr_plain : forall c, starts_with (chars "CONSTANT TIME") c = false -> comment_read c c
| cr_time : forall l y m d h mi s, spaced [chars "CONSTANT"; chars "TIME"; y; m; d; h; mi; s] (chars "CONSTANT TIME" ++ l) ->
    comment_read (chars "CONSTANT TIME" ++ l)
      (chars "Measurement time: " ++ y ++ chars "-" ++ m ++ chars "-" ++ d ++ chars " " ++ h ++ chars ":" ++ mi ++ chars ":" ++ s).
(** The file is in order and says that its comments are [cm], its sweeps [sw] and its data [da]. *)
Record says (f : cfile) (cm : list (list ascii)) (sw da : list (list (cnum V))) : Prop := {
  sy_data : f_data f <> [];
  sy_c2 : f_ver f = None -> f_c2 f = [];
  sy_c46 : f_sweeps f = [] -> f_c4 f = [] /\ f_c6 f = [];
  sy_comments : Forall2 comment_read (f_c1 f ++ f_c2 f ++ f_c3 f ++ f_c4 f ++ f_c5 f ++ f_c6 f) cm;
  sy_names : NoDup (map s_name (f_sweeps f));
  sy_sweeps : Forall2 sweep_is (f_sweeps f) sw;
  sy_values : Forall2 (fun d vs => values (da_typ d) (da_rows d) vs) (f_data f) da }.

(** *** What a line is, [None] for a blank one *)
Inductive line_is : list ascii -> option (string * rad) -> Prop :=
| li_blank : forall b, spaces b -> line_is b None
| li_name : forall b t n, spaces b -> trimmed_of t n -> line_is (b ++ chars "NAME" ++ t) (Some ("NAME", Text n))
| li_var : forall b t ws, spaces b -> spaced ws t -> line_is (b ++ chars "VAR " ++ t) (Some ("VARDEF", Words ws))
| li_data : forall b t ws, spaces b -> spaced ws t -> line_is (b ++ chars "DATA" ++ t) (Some ("DATADEF", Words ws))
| li_keyword : forall b k tag t, spaces b ->
    In (k, tag) [("VAR_LIST_BEGIN", "VAR_LIST_BEGIN"); ("VAR_LIST_END", "VAR_LIST_END"); ("SEG ", "SEG");
      ("SEG_LIST_BEGIN", "SEG_LIST_BEGIN"); ("SEG_LIST_END", "SEG_LIST_END"); ("BEGIN", "DATA_LIST_BEGIN"); ("END", "DATA_LIST_END")] ->
    line_is (b ++ chars k ++ t) (Some (tag, Text (chars k ++ t)))
| li_number : forall b c t, spaces b -> is_digit c = true \/ c = "-"%char \/ c = "."%char -> line_is (b ++ c :: t) (Some ("DATA", Text (c :: t)))
| li_mark : forall b c t n, spaces b -> c = "!"%char \/ c = "#"%char -> trimmed_of t n -> line_is (b ++ c :: t) (Some ("COMMENT", Text n))
| li_comment : forall b c t n, spaces b -> trimmed_of t n -> line_is (b ++ chars "COMMENT" ++ c :: t) (Some ("COMMENT", Text n))
| li_constant : forall b t n, spaces b -> trimmed_of (chars "CONSTANT" ++ t) n -> line_is (b ++ chars "CONSTANT" ++ t) (Some ("COMMENT", Text n))
| li_version : forall b t n, spaces b -> trimmed_of t n -> line_is (b ++ chars "CITIFILE" ++ t) (Some ("CITIFILE", Text n)).

(** *** Writing *)
(** A text a number is printed as: [core] with white space around it is read as
    the number; it does not begin like a keyword and has no comma. *)
Definition printed (p : list ascii) (v : V) : Prop :=
  exists a core b, p = a ++ core ++ b /\ spaces a /\ spaces b /\ ~ In ","%char core /\
    (exists c r, core = c :: r /\ (is_digit c = true \/ c = "-"%char \/ c = "."%char)) /\
    (exists c r, core = r ++ [c] /\ is_space c = false) /\
    forall a' b', spaces a' -> spaces b' -> float (a' ++ core ++ b') = Ok v.
(** A comment without leading exclamation marks and surrounding white space. *)
Definition citi_comment (c t : list ascii) : Prop :=
  exists p u, c = p ++ u /\ (forall x, In x p -> x = "!"%char) /\ hd_error u <> Some "!"%char /\ trimmed_of u t.

(** The arrays a variable is written as: itself, or its elements row by row. *)
Definition element (name : list ascii) (ij : nat * nat) : list ascii := name ++ print_nat (fst ij + 1) ++ print_nat (snd ij + 1).
Definition entries (v : wvar V) : list (list ascii * (list nat -> cnum V)) :=
  match w_data v with
  | WReal f => [(w_nm v, fun ix => Re (f ix))]
  | WCplx f => [(w_nm v, fun ix => Co (fst (f ix)) (snd (f ix)))]
  | WMReal n m f => map (fun ij => (element (w_nm v) ij, fun ix => Re (f ix (fst ij) (snd ij)))) (list_prod (seq 0 n) (seq 0 m))
  | WMCplx n m f => map (fun ij => (element (w_nm v) ij, fun ix => Co (fst (f ix (fst ij) (snd ij))) (snd (f ix (fst ij) (snd ij))))) (list_prod (seq 0 n) (seq 0 m))
  end.
Definition sizes (ds : list (wdim V)) : list nat := map (fun d => length (d_vals d)) ds.
(** A variable read is over the dimensions [ds] and has the given value at each
    index. *)
Definition read_as (ds : list (wdim V)) (e : list ascii * (list nat -> cnum V)) (c : cvar V) : Prop :=
  v_name c = fst e /\ v_dims c = map d_nm ds /\ v_shape c = sizes ds /\ length (v_flat c) = prodn (sizes ds) /\
  forall ix, inb (sizes ds) ix = true -> nth_error (v_flat c) (ravel (sizes ds) ix) = Some (snd e ix).

(** A number among the data of a variable. *)
Definition occurs (v : wvar V) (x : V) : Prop :=
  exists e ix, In e (entries v) /\ inb (sizes (w_dims v)) ix = true /\ (snd e ix = Re x \/ exists y, snd e ix = Co x y \/ snd e ix = Co y x).

(** A block that can be written and read: the first variable is numeric, all
    numeric variables are over the dimensions [ds] in that order, any further
    dimension is not numeric; names are words. *)
Record citi_writable (b : wblock V) (ds : list (wdim V)) : Prop := {
  cw_first : exists v vs, b_vars b = v :: vs /\ w_num v = true /\ entries v <> [];
  cw_vars : forall v, In v (b_vars b) -> w_num v = true -> w_dims v = ds;
  cw_other : forall v d, In v (b_vars b) -> In d (w_dims v) -> In d ds \/ d_num d = false /\ ~ In (d_nm d) (map d_nm ds);
  cw_dims : forall d, In d ds -> d_num d = true /\ solid (d_nm d) /\ forall v, In v (d_vals d) -> printed (d_pr d v) v;
  cw_names : NoDup (map d_nm ds);
  cw_words : forall v, In v (b_vars b) -> w_num v = true -> solid (w_nm v) /\ forall x, occurs v x -> printed (w_pr v x) x;
  cw_comments : forall c t, In c (b_comments b) -> citi_comment c t -> starts_with (chars "CONSTANT TIME") t = false }.
End Spec.
Arguments source : clear implicits.
