(** Writing a block to an HDF5 file and reading it back (hftools/file_formats/hdf5/v_02.py:24-30,
    44-178).  h5py and the HDF5 library are not in /repo: a file is the list of the datasets of its
    root group with their attributes; groups inside the root, maxshape and the attributes
    "arraytype" and "hftools file version" are left out. *)
From Coq Require Import Ascii String List Arith Bool.
From Verif Require Import Model_NdArray Model_Dim Model_Array Model_DataDict Model_Block Model_Text Model_Hdf5.
Import ListNotations.
Local Open Scope string_scope.
Local Open Scope nat_scope.
Local Open Scope list_scope.

(** escape_varname and unescape_varname (v_02.py:33-38) of a string. *)
Definition esc (k : string) : string := string_of_list_ascii (escape_varname (list_ascii_of_string k)).
Definition unesc (k : string) : string := string_of_list_ascii (unescape_varname (list_ascii_of_string k)).

(** [if v.unit:] and [if v.outputformat:] (v_02.py:131-134, 154-157): an attribute is written for a
    text that is not empty. *)
Definition attr (u : option string) : option string :=
  match u with Some s => if String.eqb s "" then None else Some s | None => None end.

(** The parts of an HDF5 path: parts that are empty or "." are skipped (HDF5 library). *)
Fixpoint path_parts (cur : list ascii) (s : list ascii) : list string :=
  let part := let p := string_of_list_ascii (rev cur) in if String.eqb p "" || String.eqb p "." then [] else [p] in
  match s with
  | [] => part
  | c :: s' => if Ascii.eqb c slash then part ++ path_parts [] s' else path_parts (c :: cur) s'
  end.
Definition path (s : string) : list string := path_parts [] (list_ascii_of_string s).

(** dimrep (v_02.py:24-29): the classes by which a dimension can be read. *)
Definition dimrep (c : dimclass) : bool :=
  match c with CDimRep | CDimSweep | CMatrix_i | CMatrix_j | CDimPartial => true | _ => false end.

Section File.
Context {A D : Type}.
(** cast_arrays_to_hdf5 (v_02.py:69-80) and the conversion in h5py: what is on the disk for an element
    of an array of a given type, and what numpy makes of it under the attribute "dtype" (v_02.py:58, 97). *)
Variable enc : dtype -> A -> D.
Variable dec : dtype -> D -> A.
(** The labels of a dimension as they come from the disk.  The attribute "dtype" is not looked at for
    a dimension (v_02.py:50-53), so dates come back as integers. *)
Variable dimenc : list label -> list label.

(** A dataset with "dimtype" or one with an array, its "dtype" and the names of the scales attached
    to its axes; the attributes "unit" and "outputformat". *)
Inductive hdata : Type :=
| HDim (c : dimclass) (l : list label)
| HVar (a : nd D) (t : dtype) (scales : list string).
Record hset : Type := mkSet { hs_data : hdata; hs_unit : option string; hs_fmt : option string }.
Notation h5file := (list (string * hset)).

(** filehandle.create_dataset(key, ...) (v_02.py:83-97): an error for a key that is not one part of a
    path ("/" is refused in v_02.py:84; empty names and "." by HDF5) and for one that exists. *)
Definition h5_create (k : string) (s : hset) (f : h5file) : result h5file :=
  if list_eqb String.eqb (path k) [k] then
    if pd_has k f then Err ValueError else Ok (f ++ [(k, s)])
  else Err GenericError.

(** The loop body for an independent variable (v_02.py:125-134) and, with the key not escaped, the
    dataset of the append dimension (v_02.py:136-146). *)
Definition save_scale (k : string) (d : dim) (f : h5file) : result h5file :=
  do g <- outputformat d;
  h5_create k (mkSet (HDim (d_class d) (dimenc (d_data d))) (attr (d_unit d)) (attr (Some g))) f.

(** filehandle[name]: the name is taken as a path.  Nothing is inside a dataset. *)
Definition resolve (f : h5file) (name : string) : result string :=
  match path name with
  | [c] => if pd_has c f then Ok c else Err KeyError
  | _ => Err KeyError
  end.

(** v_02.py:150-155: the append dimension in front of a 0-dimensional array, else after the first axis. *)
Definition expanded (expand : option dim) (x : hf A) : result (hf A) :=
  match expand with
  | None => Ok x
  | Some d => if h_ndim x =? 0 then add_dim d 0 x else add_dim d 1 x
  end.

(** The loop body for a variable (v_02.py:148-167). *)
Definition save_var (expand : option dim) (k : string) (x : hf A) (f : h5file) : result h5file :=
  do y <- expanded expand x;
  let s c := mkSet (HVar (nd_map (enc (h_dt y)) (h_nd y)) (h_dt y) c) (attr (h_unit y)) (attr (Some (h_fmt y))) in
  do f1 <- h5_create (esc k) (s []) f;
  do c <- mapM (resolve f1) (map d_name (h_dims y));
  h5_create (esc k) (s c) f.

Fixpoint each {X} (step : string -> X -> h5file -> result h5file) (l : list (string * X)) (f : h5file) : result h5file :=
  match l with
  | [] => Ok f
  | (k, v) :: l' => do f' <- step k v f; each step l' f'
  end.

(** save_hdf5_handle (v_02.py:121-167); [expand] is the append dimension of an expandable file. *)
Definition save_hdf5 (expand : option dim) (b : block A) : result h5file :=
  do ivs <- dd_items (b_ivar b);
  do f0 <- each (fun k d => save_scale (esc k) d) ivs [];
  do f1 <- match expand with None => Ok f0 | Some d => save_scale (d_name d) d f0 end;
  do vs <- dd_items (b_var b);
  each (save_var expand) vs f1.

(** One axis in getvar (v_02.py:48-54).  That a variable is attached as a scale is not modelled
    (TypeError): a block has a dimension of that name. *)
Definition read_dim (f : h5file) (n : string) : result dim :=
  do s <- of_option KeyError (pd_get n f);
  match hs_data s with
  | HDim c l => if dimrep c then Ok (mkDim c n l (hs_unit s) None) else Err KeyError
  | HVar _ _ _ => Err TypeError
  end.

(** getvar (v_02.py:44-66) for a dataset with a scale on each axis. *)
Definition getvar (f : h5file) (a : nd D) (t : dtype) (scales : list string) (s : hset) : result (hf A) :=
  do ds <- mapM (read_dim f) scales;
  new_raw (nd_map (dec t) a) t (Some ds) (hs_unit s) (hs_fmt s).

(** read_hdf5_handle (v_02.py:100-109); [f] lists the datasets in the order of iteration. *)
Fixpoint read_loop (lab : A -> label) (f : h5file) (l : h5file) (b : block A) : result (block A) :=
  match l with
  | [] => Ok b
  | (k, s) :: l' =>
      match hs_data s with
      | HDim _ _ => read_loop lab f l' b
      | HVar a t scales =>
          do x <- getvar f a t scales s;
          do b' <- b_set lab (unesc k) x b;
          read_loop lab f l' b'
      end
  end.
Definition read_hdf5 (lab : A -> label) (f : h5file) : result (block A) := read_loop lab f f b_empty.

End File.
Arguments mkSet {D} _ _ _.
Arguments hs_data {D} _.
Arguments hs_unit {D} _.
Arguments hs_fmt {D} _.
