(** SP-data files (hftools/file_formats/spdata.py): tokens, grouping, columns and
    the writer.  A file is the list of its lines. *)
From Coq Require Import Ascii String List Arith ZArith Bool.
From Verif Require Import Model_NdArray Model_Text Model_Words.
Import ListNotations.
Local Open Scope string_scope.
Local Open Scope nat_scope.
Local Open Scope list_scope.

(** s.split(c) *)
Fixpoint split_on (c : ascii) (l : list ascii) : list (list ascii) :=
  match l with
  | [] => [[]]
  | x :: l' => if Ascii.eqb x c then [] :: split_on c l'
               else match split_on c l' with s :: ss => (x :: s) :: ss | [] => [[x]] end
  end.

(** reg_header (spdata.py:50): a letter or underscore. *)
Definition head_char (c : ascii) : bool :=
  let n := nat_of_ascii c in ((65 <=? n) && (n <=? 90)) || ((97 <=? n) && (n <=? 122)) || Nat.eqb n 95.

(** ReadSPFileFormat.tokenize (spdata.py:54-79), one line. *)
Inductive sp_token := SComment (l : list ascii) | SHeader (l : list ascii) | SData (l : list ascii).
Definition sp_tokenize (rad : list ascii) : list sp_token :=
  match strip rad with
  | [] => []
  | c :: l =>
      if starts_with (chars "!Fullcomments") (c :: l) then []
      else if Ascii.eqb c "!" then [SComment l]
      else if head_char c then [SHeader (c :: l)]
      else [SData (c :: l)]
  end.

(** group_blocks (spdata.py:81-112).  A group is comments, header and data lines.
    The generator is a machine which is either before a header, having seen
    [cs], or after one, having seen the data [ds]; it gives the groups yielded and
    the exception that ended it, if any. *)
Definition sp_group : Type := list (list ascii) * list ascii * list (list ascii).
Inductive sp_mode := Before (cs : list (list ascii)) | After (cs : list (list ascii)) (h : list ascii) (ds : list (list ascii)).
Fixpoint sp_groups (m : sp_mode) (ts : list sp_token) : list sp_group * option err :=
  match m, ts with
  | Before [], [] => ([], Some StopIter)          (* the first next() *)
  | Before (_ :: _), [] => ([], Some HFError)     (* "File can not end in comments" *)
  | Before cs, SComment c :: ts' => sp_groups (Before (cs ++ [c])) ts'
  | Before cs, SHeader h :: ts' =>
      match ts' with
      | [] => ([], Some HFError)                  (* "File can not end in header" *)
      | _ => sp_groups (After cs h []) ts'
      end
  | Before cs, SData _ :: _ => ([], Some HFError) (* "Missing header" *)
  | After cs h ds, [] => ([(cs, h, ds)], None)
  | After cs h ds, SData d :: ts' => sp_groups (After cs h (ds ++ [d])) ts'
  | After cs h ds, SComment c :: ts' => let '(gs, e) := sp_groups (Before [c]) ts' in ((cs, h, ds) :: gs, e)
  | After cs h ds, SHeader h' :: ts' =>
      match ts' with
      | [] => ([(cs, h, ds)], Some HFError)
      | _ => let '(gs, e) := sp_groups (After [] h' []) ts' in ((cs, h, ds) :: gs, e)
      end
  end.

Section Columns.
Context {V : Type} (num : list ascii -> V).   (* to_numeric(x, False), utils.py:84-105 *)

(** zip( *rows ) *)
Fixpoint zip_star (rows : list (list V)) : list (list V) :=
  match rows with
  | [] => []
  | [r] => map (fun x => [x]) r
  | r :: rs => map (fun p => fst p :: snd p) (combine r (zip_star rs))
  end.

(** output.setdefault(name, []).append(column) (spdata.py:126-127). *)
Fixpoint add_col (name : list ascii) (col : list V) (acc : list (list ascii * list (list V))) : list (list ascii * list (list V)) :=
  match acc with
  | [] => [(name, [col])]
  | (n, cs) :: r => if eqb_chars n name then (n, cs ++ [col]) :: r else (n, cs) :: add_col name col r
  end.

(** What is read from a group: comments, the first variable (the sweep) and the
    others, each with its columns (more than one if the name is repeated). *)
Record sp_block := { s_comments : list (list ascii); s_sweep : list ascii * list (list V); s_vars : list (list ascii * list (list V)) }.

(** parse_blocks (spdata.py:114-143), one group.  The conversion of the columns to
    arrays and the search for properties in the comments (spdata.py:145-157) are
    not modelled. *)
Definition sp_parse (g : sp_group) : result sp_block :=
  let '(cs, h, ds) := g in
  let rows := map (fun d => map num (split_on tab d)) ds in
  let header := map strip (split_on tab (strip h)) in
  do r0 <- of_option IndexError (hd_error rows);
  if negb (Nat.eqb (length header) (length r0)) then Err HFError
  else match fold_left (fun acc p => add_col (fst p) (snd p) acc) (combine header (zip_star rows)) [] with
       | s :: vs => Ok {| s_comments := cs; s_sweep := s; s_vars := vs |}
       | [] => Err KeyError
       end.

(** The blocks are handed on one by one; an exception ends the file. *)
Fixpoint sp_blocks (gs : list sp_group) (e : option err) : list sp_block * option err :=
  match gs with
  | [] => ([], e)
  | g :: gs' =>
      match sp_parse g with
      | Err x => ([], Some x)
      | Ok b => let '(bs, e') := sp_blocks gs' e in (b :: bs, e')
      end
  end.
Definition sp_read (lines : list (list ascii)) : list sp_block * option err :=
  let '(gs, e) := sp_groups (Before []) (flat_map sp_tokenize lines) in sp_blocks gs e.

(** *** The writer *)
(** A column of [V] or pairs of [V] over the points 0, 1, ...; unit (empty if there
    is none), width in the output format and what the format prints. *)
Inductive sp_data := Real (f : nat -> V) | Cplx (f : nat -> V * V) | MReal (n m : nat) (f : nat -> nat -> nat -> V) | MCplx (n m : nat) (f : nat -> nat -> nat -> V * V).
Record sp_col := { c_name : list ascii; c_unit : list ascii; c_width : nat; c_print : V -> list ascii; c_data : sp_data }.

(** make_col_from_matrix(header, columns, "%s%s%s") (common.py:316-332). *)
Definition sp_elements (c : sp_col) : list sp_col :=
  let name i j := c_name c ++ print_nat (S i) ++ print_nat (S j) in
  let elem i j d := {| c_name := name i j; c_unit := c_unit c; c_width := c_width c; c_print := c_print c; c_data := d |} in
  match c_data c with
  | MReal n m f => flat_map (fun i => map (fun j => elem i j (Real (fun k => f k i j))) (seq 0 m)) (seq 0 n)
  | MCplx n m f => flat_map (fun i => map (fun j => elem i j (Cplx (fun k => f k i j))) (seq 0 m)) (seq 0 n)
  | _ => [c]
  end.

(** padhead and format_unit_header (common.py:341, 370-376). *)
Definition padhead (h : list ascii) (w : nat) : list ascii := h ++ repeat " "%char (Nat.max (length h) w - length h).
Definition unit_header (h u : list ascii) : list ascii := match u with [] => h | _ => h ++ chars " [" ++ u ++ chars "]" end.
(** format_complex_header (common.py:344-368), one column. *)
Definition sp_head (c : sp_col) : list (list ascii) :=
  match c_data c with
  | Cplx _ | MCplx _ _ _ =>
      [padhead (unit_header (chars "Re(" ++ c_name c ++ chars ")") (c_unit c)) (c_width c);
       padhead (unit_header (chars "Im(" ++ c_name c ++ chars ")") (c_unit c)) (c_width c)]
  | _ => [padhead (unit_header (c_name c) (c_unit c)) (c_width c)]
  end.
(** format_elem (common.py:334-338). *)
Definition sp_cells (k : nat) (c : sp_col) : list (list ascii) :=
  match c_data c with
  | Real f => [c_print c (f k)]
  | Cplx f => [c_print c (fst (f k)); c_print c (snd (f k))]
  | _ => []
  end.
(** format_sp_block (spdata.py:160-176), the cells of the lines joined by tabs
    (spdata.py:187-189); [sweepvars] are names and printed values, [n] is the
    number of points. *)
Definition sp_format (comments : list (list ascii)) (sweepvars : list (list ascii * list ascii)) (n : nat) (cols : list sp_col) : list (list ascii) :=
  let es := flat_map sp_elements cols in
  map (fun c => "!"%char :: drop_while (Ascii.eqb "!") c) comments
  ++ map (fun kv => chars "!@" ++ fst kv ++ chars "=" ++ snd kv) sweepvars
  ++ [join [tab] (flat_map sp_head es)]
  ++ map (fun k => join [tab] (flat_map (sp_cells k) es)) (seq 0 n).

(** save_spdata (spdata.py:179-193) over the blocks of db_iterator: an empty line
    between blocks (common.py:469-475). *)
Record sp_out := { o_comments : list (list ascii); o_sweepvars : list (list ascii * list ascii); o_points : nat; o_cols : list sp_col }.
Fixpoint sp_save (bs : list sp_out) : list (list ascii) :=
  match bs with
  | [] => []
  | [b] => sp_format (o_comments b) (o_sweepvars b) (o_points b) (o_cols b)
  | b :: bs' => sp_format (o_comments b) (o_sweepvars b) (o_points b) (o_cols b) ++ [[]] ++ sp_save bs'
  end.
End Columns.
Arguments sp_block : clear implicits. Arguments sp_col : clear implicits. Arguments sp_data : clear implicits. Arguments sp_out : clear implicits.
