(** HDF5 files, layout version 2 (file_formats/hdf5/v_02.py of /repo/hftools). *)
From Coq Require Import Ascii String List Bool.
From Verif Require Import Model_NdArray Model_Text.
Import ListNotations.

(** escape_varname and unescape_varname (v_02.py:32-37): str.replace with one
    character. *)
Definition replace_char (a b : ascii) (s : list ascii) : list ascii := map (fun c => if Ascii.eqb c a then b else c) s.
Definition slash : ascii := "/".
Definition backslash : ascii := "\".
Definition escape_varname (s : list ascii) : list ascii := replace_char slash backslash s.
Definition unescape_varname (s : list ascii) : list ascii := replace_char backslash slash s.
