(** CITI files (hftools/file_formats/citi.py): tokens, the parser and the writer.
    A file is the list of its lines. *)
From Coq Require Import Ascii String List Arith ZArith Bool.
From Verif Require Import Model_NdArray Model_Text Model_Words Model_Spdata Model_Stream.
Import ListNotations.
Local Open Scope string_scope.
Local Open Scope nat_scope.
Local Open Scope list_scope.

(** What a token carries: a text or its words. *)
Inductive rad := Text (l : list ascii) | Words (ws : list (list ascii)).
Definition ctoken : Type := token rad.

(** reg_data (citi.py:42): characters a line of data can begin with. *)
Definition data_char (c : ascii) : bool :=
  is_digit c || existsb (Ascii.eqb c) ["-"; "e"; "E"; "."]%char.

(** tokenize (citi.py:62-101), one line; [None] for an empty line.  A line of
    unknown type raises CITIFileError when the parser asks for it; here it is a
    token with the tag "?", see [guard]. *)
Definition ci_tokenize (line : list ascii) : option (string * rad) :=
  let l := lstrip line in
  match l with
  | [] => None
  | c :: _ =>
      let is p := starts_with (chars p) l in
      Some (
        if is "NAME" then ("NAME", Text (strip (skipn 4 l)))
        else if is "VAR " then ("VARDEF", Words (words (strip (skipn 3 l))))
        else if is "DATA" then ("DATADEF", Words (words (strip (skipn 4 l))))
        else if is "VAR_LIST_BEGIN" then ("VAR_LIST_BEGIN", Text l)
        else if is "VAR_LIST_END" then ("VAR_LIST_END", Text l)
        else if is "SEG " then ("SEG", Text l)
        else if is "SEG_LIST_BEGIN" then ("SEG_LIST_BEGIN", Text l)
        else if is "SEG_LIST_END" then ("SEG_LIST_END", Text l)
        else if is "BEGIN" then ("DATA_LIST_BEGIN", Text l)
        else if is "END" then ("DATA_LIST_END", Text l)
        else if data_char c then ("DATA", Text l)
        else if is "!" then ("COMMENT", Text (strip (skipn 1 l)))
        else if is "#" then ("COMMENT", Text (strip (skipn 1 l)))
        else if is "COMMENT" then ("COMMENT", Text (strip (skipn 8 l)))
        else if is "CONSTANT" then ("COMMENT", Text (strip l))
        else if is "CITIFILE" then ("CITIFILE", Text (strip (skipn 8 l)))
        else ("?", Text l))
  end.
Fixpoint ci_tokens (n : nat) (lines : list (list ascii)) : list ctoken :=
  match lines with
  | [] => []
  | l :: ls => match ci_tokenize l with
               | None => ci_tokens (S n) ls
               | Some (tag, r) => mkTok tag (S n) r :: ci_tokens (S n) ls
               end
  end.

(** The combinators of readbase.py on such a stream: to look at the next token
    raises if that line is of unknown type. *)
Definition guard {A} (r : result A * list ctoken) : result A * list ctoken :=
  match r with
  | (Ok a, t :: s) => if String.eqb (t_tag t) "?" then (Err HFError, t :: s) else r
  | _ => r
  end.
Definition many (tag : string) (s : list ctoken) : result (list rad) * list ctoken :=
  guard (many_optional rad rad tag (fun x => x) s).
Definition opt (tag : string) (s : list ctoken) : result (option rad) * list ctoken :=
  match s with
  | t :: _ => if String.eqb (t_tag t) "?" then (Err HFError, s) else optional rad rad tag (fun x => x) s
  | [] => optional rad rad tag (fun x => x) s
  end.
Definition one_in (tags : list string) (s : list ctoken) : result (list rad) * list ctoken :=
  match s with
  | t :: _ => if String.eqb (t_tag t) "?" then (Err HFError, s) else one_of rad rad tags (fun x => x) s
  | [] => one_of rad rad tags (fun x => x) s
  end.
Definition pbind {A B} (r : result A * list ctoken) (k : A -> list ctoken -> result B * list ctoken) : result B * list ctoken :=
  match r with (Ok a, s) => k a s | (Err e, s) => (Err e, s) end.
Definition lift {A B} (r : result A) (s : list ctoken) (k : A -> result B * list ctoken) : result B * list ctoken :=
  match r with Ok a => k a | Err e => (Err e, s) end.

Definition rad_text (r : rad) : list ascii := match r with Text l => l | Words _ => [] end.
Definition rad_words (r : rad) : list (list ascii) := match r with Words ws => ws | Text _ => [] end.

Section Citi.
Context {V : Type}.
Variable float : list ascii -> result V.               (* float(s) *)
Variable polar : V -> V -> V * V.                      (* float(r) * np.exp(float(i) / 180 * pi * 1j) *)
Variable linspace : V -> V -> Z -> result (list V).    (* np.linspace(start, stop, n) *)

(** Numbers as read: float(r), or float(r) + float(i) * 1j kept as its parts. *)
Inductive cnum := Re (v : V) | Co (re im : V).

(** [r, i = rad.strip().split(",")] (citi.py:165, 171). *)
Definition two_floats (l : list ascii) : result (V * V) :=
  match split_on "," (strip l) with
  | [r; i] => do a <- float r; do b <- float i; Ok (a, b)
  | _ => Err ValueError
  end.
(** handle_data (citi.py:159-175). *)
Definition handle_data (data : list (list ascii)) (typ : list ascii) : result (list cnum) :=
  if eqb_chars typ (chars "MAG") then mapM (fun l => do v <- float l; Ok (Re v)) data
  else if eqb_chars typ (chars "RI") then mapM (fun l => do p <- two_floats l; Ok (Co (fst p) (snd p))) data
  else if eqb_chars typ (chars "MAGANGLE") then mapM (fun l => do p <- two_floats l; Ok (Co (fst (polar (fst p) (snd p))) (snd (polar (fst p) (snd p))))) data
  else Err HFError.

(** The block read: its name, comments, ivardata, and the assignments
    [block[name] = hfarray(...)] in order, each with the names of the dimensions,
    the shape and the data in row-major order.  (What DataBlock.__setitem__ makes
    of the assignments is in Model_Block.v.) *)
Record cvar : Type := mkCVar { v_name : list ascii; v_dims : list (list ascii); v_shape : list nat; v_flat : list cnum }.
Record cblock : Type := mkCBlock {
  k_name : list ascii; k_comments : list (list ascii); k_sweeps : list (list ascii * list cnum); k_vars : list cvar }.

(** ivardata[name] = value, and lookup. *)
Fixpoint iv_set (n : list ascii) (v : list cnum) (iv : list (list ascii * list cnum)) : list (list ascii * list cnum) :=
  match iv with
  | [] => [(n, v)]
  | (m, w) :: r => if eqb_chars m n then (m, v) :: r else (m, w) :: iv_set n v r
  end.
Fixpoint iv_get (n : list ascii) (iv : list (list ascii * list cnum)) : result (list cnum) :=
  match iv with
  | [] => Err KeyError
  | (m, w) :: r => if eqb_chars m n then Ok w else iv_get n r
  end.

(** The loop over varnames (citi.py:118-137). *)
Fixpoint sweep_loop (defs : list rad) (iv : list (list ascii * list cnum)) (s : list ctoken) : result (list (list ascii * list cnum)) * list ctoken :=
  match defs with
  | [] => (Ok iv, s)
  | d :: ds =>
      match rad_words d with
      | [name; typ; n] =>
          lift (py_int n) s (fun _ =>
          pbind (one_in ["VAR_LIST_BEGIN"; "SEG_LIST_BEGIN"] s) (fun r s =>
          if starts_with (chars "VAR_LIST") (rad_text (hd (Text []) r)) then
            pbind (many "DATA" s) (fun rows s =>
            lift (handle_data (map rad_text rows) typ) s (fun values =>
            pbind (one_in ["VAR_LIST_END"] s) (fun _ s =>
            sweep_loop ds (iv_set name values iv) s)))
          else
            pbind (one_in ["SEG"] s) (fun r s =>
            match words (strip (rad_text (hd (Text []) r))) with
            | [_; start; stop; step] =>
                lift (do a <- float start; do b <- float stop; do k <- py_int step; linspace a b k) s (fun values =>
                pbind (one_in ["SEG_LIST_END"] s) (fun _ s =>
                sweep_loop ds (iv_set name (map Re values) iv) s))
            | _ => (Err ValueError, s)
            end)))
      | _ => (Err ValueError, s)
      end
  end.

(** "Measurement time: %s-%s-%s %s:%s:%s" % date (citi.py:141-143). *)
Definition time_comment (c : list ascii) : result (list ascii) :=
  if starts_with (chars "CONSTANT TIME") c then
    match skipn 2 (words (strip c)) with
    | [y; m; d; h; mi; se] =>
        Ok (chars "Measurement time: " ++ y ++ chars "-" ++ m ++ chars "-" ++ d ++ chars " " ++ h ++ chars ":" ++ mi ++ chars ":" ++ se)
    | _ => Err TypeError
    end
  else Ok c.

(** The loop over datanames (citi.py:147-152). *)
Fixpoint data_loop (defs : list rad) (dims : list (list ascii)) (shape : list nat) (acc : list cvar) (s : list ctoken) : result (list cvar) * list ctoken :=
  match defs with
  | [] => (Ok acc, s)
  | d :: ds =>
      match rad_words d with
      | [name; typ] =>
          pbind (one_in ["DATA_LIST_BEGIN"] s) (fun _ s =>
          pbind (many "DATA" s) (fun rows s =>
          lift (handle_data (map rad_text rows) typ) s (fun values =>
          if Nat.eqb (length values) (prodn shape) then
            pbind (one_in ["DATA_LIST_END"] s) (fun _ s =>
            data_loop ds dims shape (acc ++ [mkCVar name dims shape values]) s)
          else (Err ValueError, s))))
      | _ => (Err ValueError, s)
      end
  end.

(** parse_blocks (citi.py:105-153): the block, and what is left of the stream. *)
Definition ci_parse (s : list ctoken) : result cblock * list ctoken :=
  pbind (many "COMMENT" s) (fun c1 s =>
  pbind (opt "CITIFILE" s) (fun _ s =>
  pbind (many "COMMENT" s) (fun c2 s =>
  pbind (one_in ["NAME"] s) (fun name s =>
  pbind (many "COMMENT" s) (fun c3 s =>
  pbind (many "VARDEF" s) (fun vars s =>
  pbind (many "COMMENT" s) (fun c4 s =>
  pbind (many "DATADEF" s) (fun datas s =>
  pbind (many "COMMENT" s) (fun c5 s =>
  pbind (sweep_loop vars [] s) (fun iv s =>
  pbind (many "COMMENT" s) (fun c6 s =>
  lift (mapM time_comment (map rad_text (c1 ++ c2 ++ c3 ++ c4 ++ c5 ++ c6))) s (fun comments =>
  let dims := map (fun d => hd [] (rad_words d)) vars in
  lift (mapM (fun n => do v <- iv_get n iv; Ok (length v)) dims) s (fun shape =>
  pbind (data_loop datas dims shape [] s) (fun vs s =>
  (Ok (mkCBlock (rad_text (hd (Text []) name)) comments iv vs), s))))))))))))))).
Definition ci_read (lines : list (list ascii)) : result cblock := fst (ci_parse (ci_tokens 0 lines)).

(** ** The writer (citi.py:178-239) *)
(** A sweep: is_numlike, its values and how outputformat prints them. *)
Record wdim : Type := mkWDim { d_nm : list ascii; d_num : bool; d_vals : list V; d_pr : V -> list ascii }.
(** Data of a variable at an index of its sweeps, and at a matrix element. *)
Inductive wdata := WReal (f : list nat -> V) | WCplx (f : list nat -> V * V)
  | WMReal (n m : nat) (f : list nat -> nat -> nat -> V) | WMCplx (n m : nat) (f : list nat -> nat -> nat -> V * V).
(** A variable: its dimensions but for those of a matrix, whose labels are taken
    to be 0, 1, ...; is_numlike. *)
Record wvar : Type := mkWVar { w_nm : list ascii; w_num : bool; w_dims : list wdim; w_pr : V -> list ascii; w_data : wdata }.
Record wblock : Type := mkWBlock { b_nm : list ascii; b_comments : list (list ascii); b_vars : list wvar }.

(** ivardata of the copy made first (citi.py:179-181): the dimensions of the
    variables, the first of each name.  Two variables of the same name, and names
    which address a matrix element or a dimension, are not modelled. *)
Definition has_dim (n : list ascii) (ds : list wdim) : bool := existsb (fun d => eqb_chars (d_nm d) n) ds.
Definition add_dims (acc ds : list wdim) : list wdim :=
  fold_left (fun acc d => if has_dim (d_nm d) acc then acc else acc ++ [d]) ds acc.
Definition all_dims (vars : list wvar) : list wdim := fold_left (fun acc v => add_dims acc (w_dims v)) vars [].

Definition drop_bang (c : list ascii) : list ascii := drop_while (fun x => Ascii.eqb x "!") c.
Definition elem_name (name : list ascii) (i j : nat) : list ascii := name ++ print_nat (i + 1) ++ print_nat (j + 1).
Definition grid (n m : nat) : list (nat * nat) := flat_map (fun i => map (fun j => (i, j)) (seq 0 m)) (seq 0 n).

Definition data_names (v : wvar) : list (list ascii) :=
  match w_data v with
  | WMReal n m _ | WMCplx n m _ => map (fun ij => elem_name (w_nm v) (fst ij) (snd ij)) (grid n m)
  | _ => [w_nm v]
  end.
Definition data_type (v : wvar) : list ascii :=
  match w_data v with WCplx _ | WMCplx _ _ _ => chars "RI" | _ => chars "MAG" end.
Definition shape_of (v : wvar) : list nat := map (fun d => length (d_vals d)) (w_dims v).
Definition real_list (v : wvar) (f : list nat -> V) : list (list ascii) :=
  [chars "BEGIN"] ++ map (fun ix => w_pr v (f ix)) (indices (shape_of v)) ++ [chars "END"].
Definition cplx_list (v : wvar) (f : list nat -> V * V) : list (list ascii) :=
  [chars "BEGIN"] ++ map (fun ix => w_pr v (fst (f ix)) ++ chars "," ++ w_pr v (snd (f ix))) (indices (shape_of v)) ++ [chars "END"].
Definition data_lists (v : wvar) : list (list ascii) :=
  match w_data v with
  | WReal f => real_list v f
  | WCplx f => cplx_list v f
  | WMReal n m f => flat_map (fun ij => real_list v (fun ix => f ix (fst ij) (snd ij))) (grid n m)
  | WMCplx n m f => flat_map (fun ij => cplx_list v (fun ix => f ix (fst ij) (snd ij))) (grid n m)
  end.

Definition ci_write (b : wblock) : list (list ascii) :=
  let dims := filter d_num (all_dims (b_vars b)) in
  let vars := filter w_num (b_vars b) in
  [chars "CITIFILE A.01.01"] ++
  map (fun c => chars "!" ++ drop_bang c) (b_comments b) ++
  [chars "NAME " ++ b_nm b] ++
  map (fun d => chars "VAR " ++ d_nm d ++ chars " MAG " ++ print_nat (length (d_vals d))) dims ++
  flat_map (fun v => map (fun n => chars "DATA " ++ n ++ chars " " ++ data_type v) (data_names v)) vars ++
  flat_map (fun d => [chars "VAR_LIST_BEGIN"] ++ map (d_pr d) (d_vals d) ++ [chars "VAR_LIST_END"]) dims ++
  flat_map data_lists vars.
End Citi.
Arguments cnum : clear implicits.
Arguments cvar : clear implicits.
Arguments cblock : clear implicits.
Arguments wdim : clear implicits.
Arguments wdata : clear implicits.
Arguments wvar : clear implicits.
Arguments wblock : clear implicits.
