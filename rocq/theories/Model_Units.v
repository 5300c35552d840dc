(** Units from names: DataBlock.guess_units (hftools/dataset/dataset.py:619-637), the table of
    hftools/dataset/helper.py:10-39, fix_unit (hftools/file_formats/readbase.py:160-178) and the stage
    _guess_unit of the readers (readbase.py:354-360).  The comments of a block are not modelled
    (dataset.py:627-628, 638-643), and only guessunit=True is. *)
From Coq Require Import Ascii String List Arith ZArith Bool.
From Verif Require Import Model_NdArray Model_Dim Model_Array Model_DataDict Model_Block Model_Text Model_Comments Model_Si Model_Cplx.
Import ListNotations.
Local Open Scope string_scope.
Local Open Scope nat_scope.
Local Open Scope list_scope.

(** _varname_unit_guess_db (helper.py:10-30). *)
Definition unit_table : list (string * string) :=
  map (fun k => (k, "V")) ["Vds"; "Vgs"; "Vdg"; "Vgd"; "vds"; "vgs"; "vdg"; "vgd"; "VDS"; "VGS"; "VDG"; "VGD"; "VDS_SET"; "VGS_SET"; "VDG_SET"; "VGD_SET";
    "Vbe"; "Vce"; "vbe"; "vce"; "VBE"; "VCE"; "VBE_SET"; "VCE_SET"] ++
  map (fun k => (k, "A")) ["Id"; "Ig"; "Is"; "id"; "ig"; "ID"; "IG"; "IS"; "Ib"; "Ie"; "Ic"; "ib"; "ie"; "ic"; "IB"; "IE"; "IC"] ++
  map (fun k => (k, "Hz")) ["freq"; "Freq"; "FREQ"; "f"; "F"; "frequency"; "Frequency"; "FREQUENCY"] ++ [("is", "A")].
(** add_var_guess and guess_unit_from_varname (helper.py:33-39). *)
Definition add_var_guess (k u : string) (t : list (string * string)) : list (string * string) := pd_set k u t.
Definition guess_unit_from_varname (t : list (string * string)) (k : string) : option string := pd_get k t.

(** reg_varunit (readbase.py:160): (.*?)[ \t]*[[]([a-zA-Z]+)[]]*$ *)
Definition is_tab (c : ascii) : bool := Ascii.eqb c " " || Ascii.eqb c (ascii_of_nat 9).
Definition at_end (l : list ascii) : bool :=
  match l with [] => true | [c] => Ascii.eqb c (ascii_of_nat 10) | _ => false end.
Definition re_unit (v l : list ascii) : option (list ascii * list ascii) :=
  star is_tab (fun _ l1 => one (Ascii.eqb "[") (plus is_letter (fun u l2 =>
    star (Ascii.eqb "]") (fun _ l3 => if at_end l3 then Some (v, u) else None) [] l2)) l1) [] l.
Definition reg_varunit (l : list ascii) : option (list ascii * list ascii) := lazy not_nl re_unit [] l.

Definition set_unit {A} (u : option string) (x : hf A) : hf A := mkHF (h_nd x) (h_dt x) (h_dims x) u (h_fmt x).

Section Units.
Context {A : Type}.
Variable lab : A -> label.
Variable emb : label -> A.
(** Multiplication by a power of ten: of an element, of the labels of a dimension, and the type of the
    product. *)
Variable scale : Z -> A -> A.
Variable scale_labels : Z -> list label -> list label.
Variable scale_dt : Z -> dtype -> dtype.

(** The body of the loop of guess_units (dataset.py:629-637). *)
Definition found_unit (f : found A) : option string := match f with FVar x => h_unit x | FDim x => h_unit x end.
Definition guess_step (t : list (string * string)) (k : string) (b : block A) : result (block A) :=
  if b_contains k b then
    do f <- b_get k b;
    match found_unit f with
    | Some _ => Ok b
    | None =>
        match pd_get k (dd_map (b_ivar b)) with
        | Some old => do new <- dim_with old None None (guess_unit_from_varname t k); b_replace_dim old new b
        | None => do x <- dd_get k (b_var b);
                  Ok (mkBlock (dd_set k (set_unit (guess_unit_from_varname t k) x) (b_var b)) (b_ivar b) (b_x b))
        end
    end
  else Ok b.
Fixpoint over (step : string -> block A -> result (block A)) (l : list string) (b : block A) : result (block A) :=
  match l with
  | [] => Ok b
  | k :: l' => do b' <- step k b; over step l' b'
  end.
Definition guess_units (t : list (string * string)) (b : block A) : result (block A) := over (guess_step t) (allvarnames b) b.

(** fix_unit (readbase.py:163-178).  db[vname].unit = unit changes a variable; an independent variable or a
    matrix element is an array made for the occasion. *)
Definition fix_unit (k : string) (b : block A) : result (block A) :=
  match reg_varunit (list_ascii_of_string k) with
  | None => Ok b
  | Some (v, u) =>
      let vname := string_of_list_ascii v in
      let '(e, base) := unit_to_multiplier u in
      let unit := option_map string_of_list_ascii base in
      match pd_get k (dd_map (b_ivar b)) with
      | Some old => do new <- dim_with old (Some vname) (Some (scale_labels e (d_data old))) unit; b_replace_dim old new b
      | None =>
          do b1 <- b_rename k vname b;
          do f <- b_get vname b1;
          do b2 <- b_set lab vname (scalar_op (scale_dt e) (scale e) (found_arr emb f)) b1;
          do _ <- b_get vname b2;
          match pd_get vname (dd_map (b_ivar b2)), pd_get vname (dd_map (b_var b2)) with
          | None, Some x => Ok (mkBlock (dd_set vname (set_unit unit x) (b_var b2)) (b_ivar b2) (b_x b2))
          | _, _ => Ok b2
          end
      end
  end.
Definition fix_units (b : block A) : result (block A) := over fix_unit (allvarnames b) b.

(** One block in _guess_unit (readbase.py:356-359). *)
Definition unit_stage (t : list (string * string)) (b : block A) : result (block A) :=
  do b1 <- guess_units t b; fix_units b1.
End Units.
