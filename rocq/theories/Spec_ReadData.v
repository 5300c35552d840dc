(** What tells the format of a file: the marks that a line may bear, as sets of
    texts, and which mark counts. *)
From Coq Require Import Ascii String List Arith.
From Verif Require Import Spec_ConfigText.
Import ListNotations.
Local Open Scope string_scope.
Local Open Scope char_scope.
Local Open Scope list_scope.

Definition small : text := txt "abcdefghijklmnopqrstuvwxyz".
Definition capital : text := txt "ABCDEFGHIJKLMNOPQRSTUVWXYZ".
Definition alphabet : text := small ++ capital.
Definition whites : text := map ascii_of_nat [9; 10; 11; 12; 13; 32].
(** A name as it may stand in a VAR line. *)
Definition plain_name (n : text) : Prop := incl n (alphabet ++ figures ++ ["_"; "."]).

(** VAR name(type) *)
Definition mdif_mark (l : text) : Prop :=
  exists b1 b2 n t rest, l = b1 ++ txt "VAR" ++ b2 ++ n ++ "(" :: t ++ ")" :: rest /\
    gap b1 /\ gap b2 /\ n <> [] /\ plain_name n /\ t <> [] /\ incl t alphabet.
(** # GHz S RI, the case of letters does not matter *)
Definition touchstone_mark (l : text) : Prop :=
  exists b1 b2 p h z b3 k b4 x y rest, l = b1 ++ "#" :: b2 ++ p ++ h :: z :: b3 ++ k :: b4 ++ x :: y :: rest /\
    incl b1 whites /\ incl b2 whites /\ (p = [] \/ exists c, p = [c] /\ In c (txt "kmgtpKMGTP")) /\
    In h (txt "hH") /\ In z (txt "zZ") /\ b3 <> [] /\ incl b3 whites /\ In k (txt "szyghSZYGH") /\
    b4 <> [] /\ incl b4 whites /\ In x alphabet /\ In y alphabet.
Definition citi_mark (l : text) : Prop := exists rest, l = txt "CITIFILE" ++ rest.
Definition matlab_mark (l : text) : Prop := exists rest, l = txt "MATLAB 5.0 MAT-file" ++ rest.

Inductive format := Mdif | Hdf5 | Citi | Touchstone | Matlab | Spdata.
(** [hdf5]: the file is a HDF5 file; this counts as a mark on every line. *)
Definition mark (hdf5 : Prop) (f : format) (l : text) : Prop :=
  match f with
  | Mdif => mdif_mark l
  | Hdf5 => hdf5
  | Citi => citi_mark l
  | Touchstone => touchstone_mark l
  | Matlab => matlab_mark l
  | Spdata => False
  end.

(** The first line with a mark decides; a file without marks is taken for SP-data.
    A line of a HDF5 file counts as HDF5 unless it bears the mark of MDIF. *)
Definition recognised (hdf5 : Prop) (lines : list text) (f : format) : Prop :=
  (exists before l after, lines = before ++ l :: after /\ (forall l' g, In l' before -> ~ mark hdf5 g l') /\
     mark hdf5 f l /\ (hdf5 -> f = Hdf5 \/ f = Mdif) /\ (f = Hdf5 -> ~ mdif_mark l)) \/
  (f = Spdata /\ forall l g, In l lines -> ~ mark hdf5 g l).

(** The text of a file with some lines. *)
Definition text_of (lines : list text) : text := flat_map (fun l => l ++ [newline]) lines.
