(** The choice of a reader (hftools/file_formats/__init__.py:44-83) and the tests it
    makes on the lines of a file.  Texts are byte strings; a file is its text. *)
From Coq Require Import Ascii String List Arith Bool.
From Verif Require Import Model_NdArray Model_Text Model_Words Model_Comments Model_ConfigText.
Import ListNotations.
Local Open Scope char_scope.
Local Open Scope string_scope.
Local Open Scope nat_scope.
Local Open Scope list_scope.

(** bool(reg.match(text)): whether an expression fits some beginning of the text. *)
Definition matches (g : piece unit) (l : list ascii) : bool :=
  match g (fun _ _ => Some tt) [] l with Some _ => true | None => false end.

(** The classes of characters of the expressions below: letters, [A-Za-z_0-9.], and
    \s of a byte string (fewer characters than those of str.isspace of unicode). *)
Definition az_char (c : ascii) : bool :=
  let n := nat_of_ascii c in ((65 <=? n) && (n <=? 90)) || ((97 <=? n) && (n <=? 122)).
Definition name_char (c : ascii) : bool := az_char c || is "_" c || is_digit c || is "." c.
Definition re_space (c : ascii) : bool := let n := nat_of_ascii c in ((9 <=? n) && (n <=? 13)) || (n =? 32).

(** reg_mdif and is_mdif (mdif.py:39-43). *)
Definition reg_mdif {R} : piece R :=
  seq (many blank) (seq (word (chars "VAR")) (seq (many blank) (seq (some name_char)
    (seq (single (is "(")) (seq (some az_char) (single (is ")"))))))).
Definition is_mdif (rad : list ascii) : bool := matches reg_mdif rad.

(** One of some letters, whatever the case (re.I). *)
Definition any_case (s : string) (c : ascii) : bool := existsb (is (upper_char c)) (chars s).
(** reg_touch and is_touchstone (touchstone.py:137-142). *)
Definition reg_touch {R} : piece R :=
  seq (many re_space) (seq (single (is "#")) (seq (many re_space) (seq (maybe (single (any_case "KMGTP")))
    (seq (single (any_case "H")) (seq (single (any_case "Z")) (seq (some re_space) (seq (single (any_case "SZYGH"))
      (seq (some re_space) (seq (single az_char) (seq (single az_char)
        (maybe (seq (some re_space) (seq (single (any_case "R")) (seq (some re_space) (some is_digit))))))))))))))).
Definition is_touchstone (rad : list ascii) : bool := matches reg_touch rad.

(** is_citi (citi.py:242-243) and is_muwave_matlabdata (muwave_mat.py:41-43). *)
Definition is_citi (rad : list ascii) : bool := starts_with (chars "CITIFILE") rad.
Definition is_muwave_matlabdata (rad : list ascii) : bool := starts_with (chars "MATLAB 5.0 MAT-file") rad.

Inductive reader := ReadMdif | ReadHdf5 | ReadCiti | ReadTouchstone | ReadMatlab | ReadSpdata.
(** isfile (__init__.py:44-49) applied to a line; is_hdf5 (hdf5/hdf5.py:38-41) is
    h5py's, which looks at the file and not at the line. *)
Definition isfile (hdf5 : bool) (rad : list ascii) : list (bool * reader) :=
  [(is_mdif rad, ReadMdif); (hdf5, ReadHdf5); (is_citi rad, ReadCiti); (is_touchstone rad, ReadTouchstone);
   (is_muwave_matlabdata rad, ReadMatlab)].

(** The lines of a file, each with the newline that ends it. *)
Fixpoint lines_of (t : list ascii) : list (list ascii) :=
  match t with
  | [] => []
  | c :: t' =>
      if Ascii.eqb c (ascii_of_nat 10) then [c] :: lines_of t'
      else match lines_of t' with [] => [[c]] | l :: ls => (c :: l) :: ls end
  end.

(** The two loops (__init__.py:73-83). *)
Fixpoint guess (hdf5 : bool) (lines : list (list ascii)) : reader :=
  match lines with
  | [] => ReadSpdata
  | rad :: ls =>
      match find fst (isfile hdf5 rad) with
      | Some p => snd p
      | None => guess hdf5 ls
      end
  end.

(** read_data (__init__.py:55-83): the reader called and its argument.  [glob] is
    glob.glob; a single name is a list of one; IOError is GenericError here.  The
    file is taken to be readable. *)
Section Read.
Context (glob : list ascii -> list (list ascii)) (content : list ascii -> list ascii) (hdf5 : list ascii -> bool).
Fixpoint first_file (filenames : list (list ascii)) : option (list ascii) :=
  match filenames with
  | [] => None
  | f :: fs => match glob f with [] => first_file fs | fname :: _ => Some fname end
  end.
Definition read_data (filenames : list (list ascii)) : result (reader * list (list ascii)) :=
  do fname <- of_option GenericError (first_file filenames);
  Ok (guess (hdf5 fname) (lines_of (content fname)), filenames).
End Read.
