(** The older HDF5 format (hftools/file_formats/hdf5/v_01.py:25-127) and the choice of the format
    (hftools/file_formats/hdf5/hdf5.py:41-57).  h5py and the HDF5 library are not in /repo.  A file is
    what is in its root: the attribute "hftools file version", the datasets (newer format, Model_H5File)
    and the groups (older format).  The compression is left out, texts are ASCII. *)
From Coq Require Import Ascii String List Arith Bool.
From Verif Require Import Model_NdArray Model_Dim Model_Array Model_DataDict Model_Block Model_Text Model_Hdf5 Model_H5File Model_Mdif.
Import ListNotations.
Local Open Scope string_scope.
Local Open Scope nat_scope.
Local Open Scope list_scope.

(** [x if x is not None else "None"] (v_01.py:35-38, 63, 75). *)
Definition none_text (u : option string) : string := match u with Some s => s | None => "None" end.
(** [if x.lower() == "none": x = None] (v_01.py:93-94, 109-110, 117-118). *)
Definition text_none (s : string) : option string :=
  if String.eqb (string_of_list_ascii (map lower_char (list_ascii_of_string s))) "none" then None else Some s.

(** dims_dict.get(name, DimRep) (v_01.py:81, 106): the classes that hftools/dataset/__init__.py:9-12
    imports. *)
Definition old_class (c : dimclass) : dimclass :=
  match c with
  | CDimSweep | CDimRep | CMatrix_i | CMatrix_j | CDimMatrix | CDerivAxis | CIndepAxis | CDiagAxis
  | CComplexDeriv | CComplexIndep | CComplexDiag | CDimPartial | CDimBase => c
  | _ => CDimRep
  end.

(** What is in a group: a dataset or a further group. *)
Inductive item (X : Type) : Type := IData (x : X) | IGroup.
Arguments IData {X} _.
Arguments IGroup {X}.

(** group.create_dataset(k, ...): the key is a path, the groups on the way are made (h5py).  What is in
    these groups is left out, and so are keys from the root. *)
Definition put {X} (k : string) (x : X) (g : list (string * item X)) : result (list (string * item X)) :=
  match list_ascii_of_string k with
  | c :: _ => if Ascii.eqb c slash then Err GenericError else
      match path k with
      | [] => Err ValueError
      | [n] => if pd_has n g then Err ValueError else Ok (g ++ [(n, IData x)])
      | n :: _ => match pd_get n g with
                  | None => Ok (g ++ [(n, IGroup)])
                  | Some IGroup => Ok g
                  | Some (IData _) => Err ValueError
                  end
      end
  | [] => Err ValueError
  end.

Section Old.
Context {A D : Type}.
(** As in Model_H5File.  The attributes data\dtype and info\dtype hold the type of dates (v_01.py:47-77),
    any other type is the one of the dataset. *)
Variable enc : dtype -> A -> D.
Variable dec : dtype -> D -> A.
Variable dimenc : list label -> list label.

(** A dataset of vardata with info\name and data\unit, one of ivardata with info\class and info\unit. *)
Record oldvar : Type := mkOV { ov_data : nd D; ov_dt : dtype; ov_names : list string; ov_unit : string }.
Record olddim : Type := mkOD { od_class : dimclass; od_data : list label; od_unit : string }.
(** The group of a block with its attribute and its three groups. *)
Record oldgroup : Type := mkOG {
  og_name : string; og_comments : list (list ascii);
  og_var : list (string * item oldvar); og_ivar : list (string * item olddim) }.

Fixpoint puts {X Y} (step : string -> X -> list (string * item Y) -> result (list (string * item Y)))
    (l : list (string * X)) (g : list (string * item Y)) : result (list (string * item Y)) :=
  match l with
  | [] => Ok g
  | (k, v) :: l' => do g' <- step k v g; puts step l' g'
  end.
(** The loop body for a variable (v_01.py:46-64).  db[k] is the variable: no dimension has its name. *)
Definition old_save_var (k : string) (x : hf A) (g : list (string * item oldvar)) : result (list (string * item oldvar)) :=
  put k (mkOV (nd_map (enc (h_dt x)) (h_nd x)) (h_dt x) (map d_name (h_dims x)) (none_text (h_unit x))) g.
(** The loop body for a dimension (v_01.py:66-76). *)
Definition old_save_dim (k : string) (d : dim) (g : list (string * item olddim)) : result (list (string * item olddim)) :=
  do a <- dim_array d;
  put k (mkOD (d_class d) (dimenc (nd_elems (h_nd a))) (none_text (d_unit d))) g.
(** save_hdf5 (v_01.py:28-78): the group of the block. *)
Definition old_save (blockname : option string) (comments : list (list ascii)) (b : block A) : result oldgroup :=
  do vs <- dd_items (b_var b);
  do gv <- puts old_save_var vs [];
  do ivs <- dd_items (b_ivar b);
  do gi <- puts old_save_dim ivs [];
  Ok (mkOG (none_text blockname) comments gv gi).

(** v_01.py:103-113; a group has no attribute info\dtype. *)
Fixpoint old_read_dims (l : list (string * item olddim)) (b : block A) : result (block A) :=
  match l with
  | [] => Ok b
  | (k, IData s) :: l' => old_read_dims l' (b_set_dim k (mkDim (old_class (od_class s)) k (od_data s) (text_none (od_unit s)) None) b)
  | (_, IGroup) :: _ => Err KeyError
  end.
(** v_01.py:114-120. *)
Fixpoint old_read_vars (lab : A -> label) (l : list (string * item oldvar)) (b : block A) : result (block A) :=
  match l with
  | [] => Ok b
  | (k, IData s) :: l' =>
      do ds <- mapM (fun n => dd_get n (b_ivar b)) (ov_names s);
      do x <- new_raw (nd_map (dec (ov_dt s)) (ov_data s)) (ov_dt s) (Some ds) (text_none (ov_unit s)) None;
      do b' <- b_set lab k x b;
      old_read_vars lab l' b'
  | (_, IGroup) :: _ => Err KeyError
  end.
(** read_hdf5 (v_01.py:84-127) without property_to_vars: the name of the block, its comments (fullcomments;
    their properties are made from these, Model_Comments) and the block. *)
Definition old_read (lab : A -> label) (g : oldgroup) : result (option string * list (list ascii) * block A) :=
  do b <- old_read_dims (og_ivar g) b_empty;
  do b' <- old_read_vars lab (og_var g) b;
  Ok (text_none (og_name g), map strip (og_comments g), b').

(** The root of a file. *)
Record root : Type := mkRoot {
  r_version : option string; r_sets : list (string * hset (D := D)); r_groups : list (string * oldgroup) }.
(** The labels of a dimension in the newer format, where dates become integers. *)
Variable dimenc2 : list label -> list label.

(** save_hdf5 (hdf5.py:50-57) to a new file; [name] is used by the older format, [expand] by the newer. *)
Definition save_any (version name : string) (expand : option dim) (blockname : option string)
    (comments : list (list ascii)) (b : block A) : result root :=
  if String.eqb version "0.2" then
    do f <- save_hdf5 enc dimenc2 expand b; Ok (mkRoot (Some "0.2") f [])
  else
    do g <- old_save blockname comments b; Ok (mkRoot None [] [(name, g)]).
(** read_hdf5 (hdf5.py:41-48); the newer format gives a block without name and comments
    (v_02.py:102, 107). *)
Definition read_any (lab : A -> label) (name : string) (r : root) : result (option string * list (list ascii) * block A) :=
  if String.eqb (match r_version r with Some v => v | None => "" end) "0.2" then
    do b <- read_hdf5 dec lab (r_sets r); Ok (None, [], b)
  else
    do g <- of_option KeyError (pd_get name (r_groups r)); old_read lab g.
End Old.
Arguments mkOG {D} _ _ _ _.
Arguments og_name {D} _.
Arguments og_comments {D} _.
Arguments og_var {D} _.
Arguments og_ivar {D} _.
Arguments mkRoot {D} _ _ _.
Arguments r_version {D} _.
Arguments r_sets {D} _.
Arguments r_groups {D} _.
