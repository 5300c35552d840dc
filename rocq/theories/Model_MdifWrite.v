(** The writer of MDIF files (hftools/file_formats/mdif.py:463-521).  A file is the
    list of its lines.  The numbers are of a type [V] and an output format is the
    function that prints them. *)
From Coq Require Import Ascii String List Arith ZArith Bool.
From Verif Require Import Model_NdArray Model_Text Model_Words Model_Spdata.
Import ListNotations.
Local Open Scope string_scope.
Local Open Scope nat_scope.
Local Open Scope list_scope.

Section Write.
Context {V : Type} (as_index : V -> option Z).   (* what numpy takes a value for when it is used as an index *)

(** What the writer looks at of a dimension and of a variable.  In one block
    dimensions of the same name are equal, so those of a variable are given by
    their names; the elements by their positions along them.  Names are written
    with formatting operators: names with a percent sign are not modelled. *)
Record wdim : Type := mkWDim { wd_name : list ascii; wd_vals : list V; wd_fmt : V -> list ascii }.
Inductive wdata := WReal (f : list nat -> V) | WComplex (f : list nat -> V * V).
Record wvar : Type := mkWVar { wv_name : list ascii; wv_dims : list (list ascii); wv_data : wdata; wv_fmt : V -> list ascii }.
Record wblock : Type := mkWBlock { wb_name : option (list ascii); wb_vars : list wvar }.

(** v.dims == dims (mdif.py:476, 485). *)
Fixpoint same_names (a b : list (list ascii)) : bool :=
  match a, b with
  | [], [] => true
  | x :: a', y :: b' => eqb_chars x y && same_names a' b'
  | _, _ => false
  end.
Definition over (ns : list (list ascii)) (v : wvar) : bool := same_names (wv_dims v) ns.

(** itertools.product (mdif.py:466). *)
Fixpoint wproduct (ls : list (list V)) : list (list V) :=
  match ls with
  | [] => [[]]
  | l :: ls' => flat_map (fun x => map (cons x) (wproduct ls')) l
  end.

(** The values [coord] of the outer dimensions used as an index (mdif.py:481, 489):
    the positions; negative ones count from the end. *)
Fixpoint positions_of (ds : list wdim) (coord : list V) : result (list nat) :=
  match ds, coord with
  | d :: ds', v :: coord' =>
      do z <- of_option IndexError (as_index v);
      let n := Z.of_nat (length (wd_vals d)) in
      let k := if (z <? 0)%Z then (z + n)%Z else z in
      if ((0 <=? k) && (k <? n))%Z then do ks <- positions_of ds' coord'; Ok (Z.to_nat k :: ks) else Err IndexError
  | _, _ => Ok []
  end.

(** format_complex_header (common.py:345-365) as it is called here: the name with
    the type, no units. *)
Definition wheader (v : wvar) : list ascii :=
  wv_name v ++ chars (match wv_data v with WReal _ => "(real)" | WComplex _ => "(complex)" end).
(** format_elem (common.py:335-339) of the element at [ix]. *)
Definition welems (v : wvar) (ix : list nat) : list (list ascii) :=
  match wv_data v with
  | WReal f => [wv_fmt v (f ix)]
  | WComplex f => [wv_fmt v (fst (f ix)); wv_fmt v (snd (f ix))]
  end.

(** The line of a VAR (mdif.py:469). *)
Definition wvarline (name : list ascii) (fmt : V -> list ascii) (value : V) : list ascii :=
  chars "VAR SWEEP." ++ name ++ chars "(real) = " ++ fmt value.
Fixpoint wvarlines (names : list (list ascii)) (fmts : list (V -> list ascii)) (coord : list V) : list (list ascii) :=
  match names, fmts, coord with
  | n :: ns, f :: fs, v :: vs => wvarline n f v :: wvarlines ns fs vs
  | _, _, _ => []
  end.
(** The line of an attribute (mdif.py:480-481); a complex number cannot be formatted. *)
Definition wattrib (ds : list wdim) (coord : list V) (v : wvar) : result (list ascii) :=
  do ix <- positions_of ds coord;
  match wv_data v with
  | WReal f => Ok (chars "# " ++ wheader v ++ chars " = " ++ wv_fmt v (f ix))
  | WComplex _ => Err TypeError
  end.

(** One turn of the loop of fmt_mdif_block (mdif.py:467-503) with fmts[1:] as it is
    at its beginning.  The unpacking of zip() of nothing raises ValueError. *)
Definition fmt_coord (d0 : wdim) (ds : list wdim) (b : wblock) (fmts : list (V -> list ascii)) (coord : list V) : result (list (list ascii)) :=
  let names := map wd_name ds in
  let attribs := filter (over names) (wb_vars b) in
  let cols := filter (over (wd_name d0 :: names)) (wb_vars b) in
  match attribs with [] => Err ValueError | _ =>
    do ats <- mapM (wattrib ds coord) attribs;
    match cols with [] => Err ValueError | _ =>
      do ix <- positions_of ds coord;
      Ok (wvarlines names fmts coord ++
          [chars "BEGIN " ++ match wb_name b with Some n => n | None => chars "DATABLOCK" end] ++
          ats ++
          [chars "% " ++ join [" "%char] ((wd_name d0 ++ chars "(real)") :: map wheader cols)] ++
          map (fun kv => join [tab] (wd_fmt d0 (snd kv) :: flat_map (fun c => welems c (fst kv :: ix)) cols))
              (combine (seq 0 (length (wd_vals d0))) (wd_vals d0)) ++
          [chars "END"])
    end
  end.
(** The loop (mdif.py:466): after the first turn fmts is the formats of the columns
    (mdif.py:496).  An exception discards the lines written before. *)
Fixpoint fmt_coords (d0 : wdim) (ds : list wdim) (b : wblock) (fmts : list (V -> list ascii)) (coords : list (list V)) : result (list (list ascii)) :=
  match coords with
  | [] => Ok []
  | c :: cs =>
      do t <- fmt_coord d0 ds b fmts c;
      do r <- fmt_coords d0 ds b (map wv_fmt (filter (over (wd_name d0 :: map wd_name ds)) (wb_vars b))) cs;
      Ok (t ++ r)
  end.
(** fmt_mdif_block (mdif.py:463-503); without dimensions loop_db skips the block. *)
Definition fmt_block (dims : list wdim) (b : wblock) : result (list (list ascii)) :=
  match dims with
  | [] => Ok []
  | d0 :: ds => fmt_coords d0 ds b (map wd_fmt ds) (wproduct (map wd_vals ds))
  end.

(** save_mdif (mdif.py:514-521) with loop_db (mdif.py:506-511), given the text of the
    time and what yield_dim_consistent_datablocks yields. *)
Definition save_mdif (asctime : list ascii) (subsets : list (list wdim * wblock)) : result (list (list ascii)) :=
  do ts <- mapM (fun s => fmt_block (fst s) (snd s)) subsets;
  Ok ((chars "!Created: " ++ asctime) :: concat ts).
End Write.
Arguments wdim : clear implicits.
Arguments wdata : clear implicits.
Arguments wvar : clear implicits.
Arguments wblock : clear implicits.
