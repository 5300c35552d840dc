(** MDIF files (hftools/file_formats/mdif.py): tokens, grouping, attributes and
    columns.  A file is the list of its lines. *)
From Coq Require Import Ascii String List Arith ZArith Bool.
From Verif Require Import Model_NdArray Model_Text Model_Words Model_Spdata Model_Stream.
Import ListNotations.
Local Open Scope string_scope.
Local Open Scope nat_scope.
Local Open Scope list_scope.

Definition mtoken : Type := token (list ascii).

(** tokenize (mdif.py:173-194), one line; [None] for an empty line. *)
Definition md_tokenize (line : list ascii) : option (string * list ascii) :=
  let l := lstrip line in
  match l with
  | [] => None
  | c :: r =>
      Some (if Ascii.eqb c "!" then ("COMMENT", strip r)
            else if Ascii.eqb c "%" then ("HEADER", strip r)
            else if Ascii.eqb c "#" then ("ATTRIB", strip r)
            else if starts_with (chars "BEGIN") l then ("BEGIN", strip (skipn 6 l))
            else if starts_with (chars "END") l then ("END", skipn 4 l)
            else if starts_with (chars "VAR") l then ("VAR", skipn 4 l)
            else ("DATA", l))
  end.
Fixpoint md_tokens (n : nat) (lines : list (list ascii)) : list mtoken :=
  match lines with
  | [] => []
  | l :: ls => match md_tokenize l with
               | None => md_tokens (S n) ls
               | Some (tag, r) => mkTok tag (S n) r :: md_tokens (S n) ls
               end
  end.

(** group_blocks (mdif.py:196-212). *)
Record mgroup : Type := mkGroup {
  g_comments : list (list ascii); g_vars : list (list (list ascii)); g_name : list ascii;
  g_attribs : list (list (list ascii)); g_header : list (list (list ascii)); g_data : list (list ascii) }.
Definition split_eq (rad : list ascii) : list (list ascii) := map strip (split_on "=" rad).
Definition mbind {A B} (r : result A * list mtoken) (k : A -> list mtoken -> result B * list mtoken) : result B * list mtoken :=
  match r with (Ok a, s) => k a s | (Err e, s) => (Err e, s) end.
(** One turn of the loop. *)
Definition md_group (s : list mtoken) : result mgroup * list mtoken :=
  mbind (many_optional _ _ "COMMENT" (fun x => x) s) (fun comments s =>
  mbind (many_optional _ _ "VAR" split_eq s) (fun var s =>
  mbind (one _ (list ascii) "BEGIN" (fun x => x) s) (fun blockname s =>
  mbind (many_optional _ _ "ATTRIB" split_eq s) (fun attribs s =>
  mbind (many_optional _ _ "HEADER" words s) (fun header s =>
  mbind (many_optional _ _ "DATA" (fun x => x) s) (fun data s =>
  mbind (one _ (list ascii) "END" (fun x => x) s) (fun _ s =>
  (Ok (mkGroup comments var (hd [] blockname) attribs header data), s)))))))).
(** The generator: the groups yielded and the exception that ended it; StopIter
    ends the generator without error (Python 2.7).  Every turn takes a token, so
    [fuel] greater than their number is enough. *)
Fixpoint md_groups (fuel : nat) (s : list mtoken) : list mgroup * err :=
  match fuel with
  | 0 => ([], StopIter)
  | S n => match md_group s with
           | (Ok g, s') => let '(gs, e) := md_groups n s' in (g :: gs, e)
           | (Err e, _) => ([], e)
           end
  end.
Definition md_blocks (s : list mtoken) : list mgroup * err := md_groups (S (length s)) s.

Section Data.
Context {V : Type} (float : list ascii -> result V).      (* float(s) *)

(** A value in a column (mdif.py:82-104); dr + 1j * di is kept as its parts. *)
Inductive mtype := TString | TReal | TInteger | TComplex.
Inductive mval := MStr (s : list ascii) | MReal (v : V) | MInt (z : Z) | MComplex (re im : V).

(** s.strip('DQUOTE') with the double quote character. *)
Definition quote : ascii := ascii_of_nat 34.
Definition unquote (l : list ascii) : list ascii :=
  let f c := Ascii.eqb c quote in rev (drop_while f (rev (drop_while f l))).

(** get_string, get_real, get_integer, get_complex: the value and what is left of
    the words of the line. *)
Definition pop (ws : list (list ascii)) : result (list ascii * list (list ascii)) :=
  match ws with [] => Err IndexError | w :: ws' => Ok (w, ws') end.
Definition get_real (ws : list (list ascii)) : result (V * list (list ascii)) :=
  do p <- pop ws; do v <- float (unquote (fst p)); Ok (v, snd p).
Definition get_value (t : mtype) (ws : list (list ascii)) : result (mval * list (list ascii)) :=
  match t with
  | TString => do p <- pop ws; Ok (MStr (unquote (fst p)), snd p)
  | TReal => do p <- get_real ws; Ok (MReal (fst p), snd p)
  | TInteger => do p <- pop ws; do z <- py_int (unquote (fst p)); Ok (MInt z, snd p)
  | TComplex => do p <- get_real ws; do q <- get_real (snd p); Ok (MComplex (fst p) (fst q), snd q)
  end.

(** reg (mdif.py:46), used with match(): the name is what stands before the last
    opening parenthesis followed by a type and a closing parenthesis. *)
Definition type_at (l : list ascii) : option mtype :=
  if starts_with (chars "(integer)") l then Some TInteger
  else if starts_with (chars "(real)") l then Some TReal
  else if starts_with (chars "(string)") l then Some TString
  else if starts_with (chars "(complex)") l then Some TComplex
  else None.
(** [pre] is what stands before [l]. *)
Fixpoint scan_head (pre l : list ascii) : option (list ascii * mtype) :=
  match l with
  | [] => None
  | c :: l' =>
      match scan_head (pre ++ [c]) l' with
      | Some r => Some r
      | None => match pre, type_at l with
                | _ :: _, Some t => Some (pre, t)
                | _, _ => None
                end
      end
  end.
(** parse_header (mdif.py:70-80). *)
Definition parse_header (head : list ascii) : result (mtype * list ascii) :=
  match scan_head [] head with Some (n, t) => Ok (t, n) | None => Err GenericError end.

(** vardata.setdefault(name, []).append(value) *)
Fixpoint md_add (n : list ascii) (x : mval) (acc : list (list ascii * list mval)) : list (list ascii * list mval) :=
  match acc with
  | [] => [(n, [x])]
  | (m, xs) :: r => if eqb_chars m n then (m, xs ++ [x]) :: r else (m, xs) :: md_add n x r
  end.
(** parse_data (mdif.py:61-70): a line, a record of as many lines as the header has,
    and all records. *)
Fixpoint read_words (ps : list (mtype * list ascii)) (ws : list (list ascii)) (acc : list (list ascii * list mval)) : result (list (list ascii * list mval)) :=
  match ps with
  | [] => Ok acc
  | (t, n) :: ps' => do p <- get_value t ws; read_words ps' (snd p) (md_add n (fst p) acc)
  end.
Fixpoint read_record (lps : list (list (mtype * list ascii))) (data : list (list ascii)) (acc : list (list ascii * list mval)) : result (list (list ascii * list mval) * list (list ascii)) :=
  match lps with
  | [] => Ok (acc, data)
  | lp :: lps' =>
      match data with
      | [] => Err IndexError                      (* pop from empty list *)
      | l :: data' => do acc' <- read_words lp (words l) acc; read_record lps' data' acc'
      end
  end.
(** The loop [while True]; with a header every record takes a line, so that the
    number of lines is enough fuel.  (Without a header the loop does not end if
    there are data: not modelled, it ends here with GenericError.) *)
Fixpoint read_records (fuel : nat) (lps : list (list (mtype * list ascii))) (data : list (list ascii)) (acc : list (list ascii * list mval)) : result (list (list ascii * list mval)) :=
  match fuel with
  | 0 => Err GenericError
  | S n => do r <- read_record lps data acc;
           match snd r with [] => Ok (fst r) | _ => read_records n lps (snd r) (fst r) end
  end.
Definition parse_data (header : list (list (list ascii))) (data : list (list ascii)) : result (list (list ascii * list mval)) :=
  do lps <- mapM (mapM parse_header) header; read_records (S (length data)) lps data [].

(** proc_var and proc_attrib (mdif.py:234-258): the name and the value. *)
Definition strip_char (c : ascii) (l : list ascii) : list ascii :=
  let f x := Ascii.eqb x c in rev (drop_while f (rev (drop_while f l))).
Definition proc_var (var : list (list ascii)) : result (list ascii * V) :=
  match var with
  | [varname; value] =>
      match split_on "(" varname with
      | [n; t] =>
          let n := if starts_with (chars "SWEEP.") n then skipn 6 n else n in
          if eqb_chars (strip_char ")" t) (chars "real") then do v <- float value; Ok (n, v) else Err GenericError
      | _ => Err ValueError
      end
  | _ => Err ValueError
  end.

(** proc_data (mdif.py:260-272): the sweep and the columns over it.  [lower] of
    "sweep." is decided for ASCII. *)
Definition lower_char (c : ascii) : ascii :=
  let n := nat_of_ascii c in if (65 <=? n) && (n <=? 90) then ascii_of_nat (n + 32) else c.
Definition drop_sweep (n : list ascii) : list ascii :=
  if starts_with (chars "sweep.") (map lower_char n) then skipn 6 n else n.
Record mblock : Type := mkMBlock {
  m_name : list ascii; m_comments : list (list ascii); m_sweep : list ascii * list mval;
  m_cols : list (list ascii * list mval); m_partials : list (list ascii * V); m_attribs : list (list ascii * V) }.
Fixpoint md_lookup (n : list ascii) (acc : list (list ascii * list mval)) : result (list mval) :=
  match acc with [] => Err KeyError | (m, xs) :: r => if eqb_chars m n then Ok xs else md_lookup n r end.
Definition md_del (n : list ascii) (acc : list (list ascii * list mval)) : list (list ascii * list mval) :=
  filter (fun p => negb (eqb_chars (fst p) n)) acc.
(** parse_blocks (mdif.py:214-232) up to make_matrices: the sweep, the columns (a
    column must be as long as the sweep to become an array over it), the values of
    VAR lines, the values of attributes, as they are assigned to the block. *)
Definition md_parse (g : mgroup) : result mblock :=
  do cols <- parse_data (g_header g) (g_data g);
  match g_header g with
  | (h :: _) :: _ =>
      do p <- parse_header h;
      do s <- md_lookup (snd p) cols;
      let rest := md_del (snd p) cols in
      if forallb (fun c => Nat.eqb (length (snd c)) (length s)) rest then
        do ps <- mapM proc_var (g_vars g);
        do ats <- mapM proc_var (g_attribs g);
        Ok (mkMBlock (g_name g) (g_comments g) (drop_sweep (snd p), s) rest ps ats)
      else Err ShapeDimsError
  | _ => Err IndexError                           (* self.parse_stream[0][0] *)
  end.
End Data.
Arguments mval : clear implicits.
Arguments mblock : clear implicits.
