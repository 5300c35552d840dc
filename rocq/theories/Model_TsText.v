(** Touchstone files (hftools/file_formats/touchstone.py): the text.  A file is
    the list of its lines. *)
From Coq Require Import Ascii String List Arith ZArith Bool.
From Verif Require Import Model_NdArray Model_Text Model_Words Model_Touchstone.
Import ListNotations.
Local Open Scope string_scope.
Local Open Scope nat_scope.
Local Open Scope list_scope.

(** The arithmetic behind the reader: floating point numbers [R], complex numbers
    [C], float(), <=, the functions re_im_to_complex, dB_angle_to_complex and
    mag_angle_to_complex (hftools/math.py), multiplication by a power of ten,
    multiplication, 10 ** (x / 10) and numpy.allclose. *)
Record tsops (R C : Type) := {
  ts_float : list ascii -> result R;
  ts_leb : R -> R -> bool;
  ts_ri : R -> R -> C; ts_db : R -> R -> C; ts_ma : R -> R -> C;
  ts_scale : nat -> R -> R;
  ts_one : R;
  ts_mul : R -> R -> R;
  ts_undb : R -> R;
  ts_close : list R -> list R -> bool }.
Arguments ts_float {R C}. Arguments ts_leb {R C}. Arguments ts_ri {R C}. Arguments ts_db {R C}. Arguments ts_ma {R C}.
Arguments ts_scale {R C}. Arguments ts_one {R C}. Arguments ts_mul {R C}. Arguments ts_undb {R C}. Arguments ts_close {R C}.

(** What is read: the name of the matrix (S, Z, ...), the frequencies, one matrix
    (list of rows) for each, the noise data if there is any, Z0 and the comments.
    The noise data has its own frequencies unless these are those of the matrix. *)
Record ts_noise (R C : Type) := { n_own : option (list R); n_rn : list R; n_fmin : list R; n_gopt : list C }.
Arguments n_own {R C}. Arguments n_rn {R C}. Arguments n_fmin {R C}. Arguments n_gopt {R C}.
Record ts_block (R C : Type) := { t_name : list ascii; t_freq : list R; t_mats : list (list (list C));
  t_noise : option (ts_noise R C); t_z0 : R; t_comments : list (list ascii) }.
Arguments t_name {R C}. Arguments t_freq {R C}. Arguments t_mats {R C}. Arguments t_noise {R C}. Arguments t_z0 {R C}. Arguments t_comments {R C}.

Definition one_of (s : string) (c : ascii) : bool := existsb (Ascii.eqb c) (chars s).
Definition upper_letter (c : ascii) : bool := let n := nat_of_ascii c in (65 <=? n) && (n <=? 90).

(** reg_touch and is_touchstone (touchstone.py:139-144): the line begins with
    [#], white space, an optional prefix and [hz], white space, one of [szygh],
    white space and two letters, whatever the case; the rest of the expression is
    optional. *)
Definition is_touchstone (l : list ascii) : bool :=
  match drop_while is_space l with
  | c :: l2 =>
      if Ascii.eqb c "#" then
        let l3 := drop_while is_space (upper l2) in
        let l4 := match l3 with c :: r => if one_of "KMGTP" c then r else l3 | [] => [] end in
        match l4 with
        | h :: z :: s :: l5 =>
            if Ascii.eqb h "H" && Ascii.eqb z "Z" && is_space s then
              match drop_while is_space l5 with
              | k :: s' :: l6 =>
                  if one_of "SZYGH" k && is_space s' then
                    match drop_while is_space l6 with
                    | a :: b :: _ => upper_letter a && upper_letter b
                    | _ => false
                    end
                  else false
              | _ => false
              end
            else false
        | _ => false
        end
      else false
  | [] => false
  end.

(** ReadTouchstoneFileFormat.tokenize (touchstone.py:39-54), one line. *)
Inductive ts_token := TComment (l : list ascii) | TInfo (l : list ascii) | TData (l : list ascii).
Definition ts_tokenize (rad : list ascii) : result (option ts_token) :=
  match strip rad with
  | [] => Ok None
  | c :: l =>
      if Ascii.eqb c "!" then Ok (Some (TComment (strip l)))
      else if Ascii.eqb c "#" then
        if is_touchstone (c :: l) then Ok (Some (TInfo (strip l))) else Err GenericError
      else Ok (Some (TData (strip (before "!" (c :: l)))))
  end.

Section Reader.
Context {R C : Type} (A : tsops R C).

(** The loop of parse_blocks (touchstone.py:57-71) over the lines; the tokens are
    produced as they are asked for. *)
Fixpoint ts_loop (lines : list (list ascii)) (comments : list (list ascii)) (info : option (list ascii)) (data : list (list R)) :
    result (list (list ascii) * option (list ascii) * list (list R)) :=
  match lines with
  | [] => Ok (comments, info, data)
  | l :: lines' =>
      do t <- ts_tokenize l;
      match t with
      | None => ts_loop lines' comments info data
      | Some (TComment c) => ts_loop lines' (comments ++ [c]) info data
      | Some (TInfo i) => match info with None => ts_loop lines' comments (Some i) data | Some _ => Err GenericError end
      | Some (TData d) => do xs <- mapM (ts_float A) (words d); ts_loop lines' comments info (data ++ [xs])
      end
  end.

(** freqmultdict (touchstone.py:149): the power of ten. *)
Definition freq_mult (w : list ascii) : result nat :=
  if eqb_chars w (chars "HZ") then Ok 0
  else if eqb_chars w (chars "KHZ") then Ok 3
  else if eqb_chars w (chars "MHZ") then Ok 6
  else if eqb_chars w (chars "GHZ") then Ok 9
  else if eqb_chars w (chars "THZ") then Ok 12
  else if eqb_chars w (chars "PHZ") then Ok 15
  else Err KeyError.

(** convfunc (touchstone.py:168-175). *)
Definition conv_of (w : list ascii) : result (R -> R -> C) :=
  if eqb_chars w (chars "RI") then Ok (ts_ri A)
  else if eqb_chars w (chars "DB") then Ok (ts_db A)
  else if eqb_chars w (chars "MA") then Ok (ts_ma A)
  else Err GenericError.

(** convfunc[datatype](data[:, ::2], data[:, 1::2]), one row. *)
Fixpoint pair_up (f : R -> R -> C) (l : list R) : list C :=
  match l with a :: b :: l' => f a b :: pair_up f l' | _ => [] end.

(** [n] rows of [n] from the list, in this order. *)
Fixpoint chunks (n k : nat) (l : list C) : list (list C) :=
  match k with 0 => [] | S k' => firstn n l :: chunks n k' (skipn n l) end.

(** The shape of the matrix (touchstone.py:180-187), one row: four values are
    transposed. *)
Definition to_matrix (z : list C) : list (list C) :=
  match z with
  | [a] => [[a]]
  | [a; b; c; d] => [[a; c]; [b; d]]
  | _ => let n := Nat.sqrt (length z) in chunks n n z
  end.

(** proc_info (touchstone.py:152-210) with proc_data (touchstone.py:123-136). *)
Definition proc_info (info : list ascii) (o nz : list (list R)) (comments : list (list ascii)) : result (ts_block R C) :=
  let info_list := words (upper info) in
  do i <- match info_list with
          | [fm; ty; dt; _; z0] => do z <- ts_float A z0; Ok (fm, ty, dt, z)
          | [fm; ty; dt] => Ok (fm, ty, dt, ts_one A)
          | _ => Err GenericError
          end;
  let '(fm, ty, dt, z0) := i in
  do k <- freq_mult fm;
  do f0 <- mapM (fun r => of_option IndexError (hd_error r)) o;
  do fn0 <- mapM (fun r => of_option IndexError (hd_error r)) nz;
  let f := map (ts_scale A k) f0 in
  let fn := map (ts_scale A k) fn0 in
  do conv <- conv_of dt;
  let mats := map (fun r => to_matrix (pair_up conv (tl r))) o in
  let noise :=
    match nz with
    | [] => None
    | _ => Some {| n_own := if Nat.eqb (length f) (length fn) && ts_close A f fn then None else Some fn;
                   n_rn := map (fun r => ts_mul A (last r z0) z0) nz;
                   n_fmin := map (fun r => ts_undb A (nth 1 r z0)) nz;
                   n_gopt := map (fun r => conv (nth 2 r z0) (nth 3 r z0)) nz |}
    end in
  Ok {| t_name := ty; t_freq := f; t_mats := mats; t_noise := noise; t_z0 := z0; t_comments := comments |}.

(** ReadTouchstoneFileFormat.parse_blocks (touchstone.py:56-79).  Comments() only
    stores the comment lines (and looks for properties in them, which is not
    modelled). *)
Definition ts_read (lines : list (list ascii)) : result (ts_block R C) :=
  do r <- ts_loop lines [] None [];
  let '(comments, info, data) := r in
  match info with
  | None => Err GenericError
  | Some i => do p <- process_data (ts_leb A) data; let '(o, nz) := p in proc_info i o nz comments
  end.
End Reader.

(** save_touchstone (touchstone.py:227-254) for a matrix of [n] rows and columns
    over one dimension: [prf] and [prs] print a frequency and a number of the
    matrix, [scalars] are the printed variables without dimensions, [pts] the
    frequencies and matrices.  make_col_from_matrix with fortranorder
    (common.py:316-332) goes through the columns first. *)
Definition ts_row {R} (prf prs : R -> list ascii) (n : nat) (p : R * (nat -> nat -> R * R)) : list (list ascii) :=
  let '(f, m) := p in
  prf f :: flat_map (fun i => flat_map (fun j => [prs (fst (m j i)); prs (snd (m j i))]) (seq 0 n)) (seq 0 n).
Definition ts_save {R} (prf prs : R -> list ascii) (comments : list (list ascii)) (scalars : list (list ascii * list ascii))
    (n : nat) (pts : list (R * (nat -> nat -> R * R))) : list (list ascii) :=
  map (fun c => "!"%char :: c) comments
  ++ map (fun kv => "!"%char :: fst kv ++ chars ": " ++ snd kv) scalars
  ++ [chars "#HZ S RI R 50"]
  ++ map (fun p => join [tab] (ts_row prf prs n p)) pts.
