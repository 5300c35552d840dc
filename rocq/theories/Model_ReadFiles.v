(** Reading one or several files (hftools/file_formats/readbase.py:245-401 and, for
    MDIF, mdif.py:108-156, 311-326).  What is done with each block (tokenizing and
    parsing, complex numbers, properties, units, names, matrices) and the merging
    of blocks are parameters; they are modelled elsewhere.  Messages are left out. *)
From Coq Require Import Ascii String List Arith ZArith Bool.
From Verif Require Import Model_NdArray Model_Dim Model_Array Model_DataDict Model_Block Model_Text Model_Utils.
Import ListNotations.
Local Open Scope string_scope.
Local Open Scope nat_scope.
Local Open Scope list_scope.

(** The attributes of ReadFileFormat (readbase.py:246-263). *)
Record options : Type := { o_complex : bool; o_property : bool; o_unit : bool; o_normalize : bool; o_matrix : bool; o_merge : bool; o_hyper : bool }.
(** self.stage for each block, if the option is set (readbase.py:342-376). *)
Definition stage {B} (on : bool) (f : B -> result B) (bs : list B) : result (list B) := if on then mapM f bs else Ok bs.

Section Files.
Context {A content : Type} (lab : A -> label).
(** hfarray(fname); glob.glob; io.open (IOError is GenericError). *)
Context (name_array : list ascii -> hf A) (glob1 : list ascii -> list (list ascii)) (open_ : list ascii -> result content).

(** "FILEINDEX" not in b: b["FILEINDEX"] = DimPartial("FILEINDEX", [i]) (readbase.py:322-338). *)
Definition index_of_file (i : nat) : dim := mkDim CDimPartial "FILEINDEX" [LZ (Z.of_nat i)] None None.
Definition with_index (i : nat) (b : block A) : block A :=
  if b_contains "FILEINDEX" b then b else b_set_dim "FILEINDEX" (index_of_file i) b.
(** utils.glob (utils.py:163-164) for every pattern (readbase.py:276-281). *)
Definition glob_all (pats : list (list ascii)) : result (list (list ascii)) :=
  do ls <- mapM (fun p => lex_order (glob1 p)) pats; Ok (concat ls).

(** ** Formats other than MDIF *)
Record format : Type := {
  f_parse : content -> result (list (block A));
  f_complex : block A -> result (block A); f_property : block A -> result (block A); f_unit : block A -> result (block A);
  f_normalize : block A -> result (block A); f_matrix : block A -> result (block A) }.
Context (merge_blocks : bool -> list (block A) -> result (block A)).

(** _merge (readbase.py:394-401). *)
Definition merge_ (o : options) (bs : list (block A)) : result (block A + list (block A)) :=
  if o_merge o then match bs with [b] => Ok (inl b) | _ => do b <- merge_blocks (o_hyper o) bs; Ok (inl b) end
  else Ok (inr bs).
(** do_file (readbase.py:307-340); ParseError is GenericError.  Without merging
    [blocks] is a list, which has no method values. *)
Definition do_file (fmt : format) (o : options) (index : nat) (c : content) : result (block A) :=
  do blocks <- f_parse fmt c;
  match blocks with
  | [] => Err GenericError
  | _ =>
      do blocks <- stage (o_complex o) (f_complex fmt) blocks;
      do blocks <- stage (o_property o) (f_property fmt) blocks;
      do blocks <- stage (o_unit o) (f_unit fmt) blocks;
      do blocks <- stage (o_normalize o) (f_normalize fmt) blocks;
      do blocks <- stage (o_matrix o) (f_matrix fmt) blocks;
      do m <- merge_ o blocks;
      match m with
      | inl b => Ok (with_index index b)
      | inr _ => Err AttributeError
      end
  end.
(** The loop of read_file (readbase.py:288-299); [index] is self.file_index. *)
Definition with_name (n : list ascii) (b : block A) : result (block A) :=
  if b_contains "FILENAME" b then Ok b else b_set lab "FILENAME" (name_array n) b.
Fixpoint read_loop (fmt : format) (o : options) (multiple : bool) (index : nat) (names : list (list ascii)) : result (list (block A)) :=
  match names with
  | [] => Ok []
  | n :: names' =>
      do c <- open_ n;
      do b <- do_file fmt o index c;
      do b' <- (if multiple then with_name n b else Ok b);
      do bs <- read_loop fmt o multiple (S index) names';
      Ok (b' :: bs)
  end.
(** read_file (readbase.py:265-305); a single name is a list of one.  The result is a
    block or a list of blocks. *)
Definition read_file (fmt : format) (o : options) (multiple : bool) (pats : list (list ascii)) : result (block A + list (block A)) :=
  do names <- (if multiple then glob_all pats else Ok pats);
  match names with
  | [] => Err GenericError
  | _ =>
      do bs <- read_loop fmt o multiple 0 names;
      if multiple then merge_ o bs else Ok (inr bs)
  end.

(** ** MDIF *)
(** Blocks with their names; dictionaries from names to lists of blocks are lists
    of their items, in the order in which the names come first. *)
Definition named : Type := string * block A.
Fixpoint extend (k : string) (v : list (block A)) (d : list (string * list (block A))) : list (string * list (block A)) :=
  match d with
  | [] => [(k, v)]
  | (k', v') :: d' => if String.eqb k' k then (k', v' ++ v) :: d' else (k', v') :: extend k v d'
  end.
Context (mdif_parse : content -> result (list named)) (stages : options -> list named -> result (list named)).
Context (simple_merge : list (block A) -> result (block A)) (guess_units : block A -> result (block A)).

(** _merge (mdif.py:311-326); a merged block is written as a list of one. *)
Definition mdif_merge (o : options) (bs : list named) : result (list (string * list (block A))) :=
  let groups := fold_left (fun d p => extend (fst p) [snd p] d) bs [] in
  if o_merge o then mapM (fun g => do b <- simple_merge (snd g); Ok (fst g, [b])) groups else Ok groups.
(** do_file for MDIF: the blocks of the dictionary get FILEINDEX (readbase.py:326-338). *)
Definition mdif_file (o : options) (index : nat) (c : content) : result (list (string * list (block A))) :=
  do blocks <- mdif_parse c;
  match blocks with
  | [] => Err GenericError
  | _ =>
      do blocks <- stages o blocks;
      do d <- mdif_merge o blocks;
      Ok (map (fun g => (fst g, map (with_index index) (snd g))) d)
  end.
(** The loop over the files (mdif.py:132-143). *)
Definition add_file (n : list ascii) (d objs : list (string * list (block A))) : result (list (string * list (block A))) :=
  do d' <- mapM (fun g => do bs <- mapM (b_set lab "FILENAME" (name_array n)) (snd g); Ok (fst g, bs)) d;
  Ok (fold_left (fun objs g => extend (fst g) (snd g) objs) d' objs).
Fixpoint mdif_loop (o : options) (index : nat) (names : list (list ascii)) (objs : list (string * list (block A))) : result (list (string * list (block A))) :=
  match names with
  | [] => Ok objs
  | n :: names' =>
      do c <- open_ n;
      do d <- mdif_file o index c;
      do objs' <- add_file n d objs;
      mdif_loop o (S index) names' objs'
  end.
(** read_file (mdif.py:115-156): a dictionary, the blocks of the name asked for, or
    None (the exception MDIFError is made but not raised). *)
Inductive mdif_result := MDict (d : list (string * list (block A))) | MBlocks (bs : list (block A)) | MNone.
Definition mdif_read (o : options) (multiple : bool) (blockname : option string) (pat : list ascii) : result mdif_result :=
  let o := if multiple then {| o_complex := o_complex o; o_property := o_property o; o_unit := o_unit o; o_normalize := o_normalize o; o_matrix := o_matrix o; o_merge := false; o_hyper := o_hyper o |} else o in
  do names <- (if multiple then lex_order (glob1 pat) else Ok [pat]);
  do objs <- mdif_loop o 0 names [];
  do res <- (if multiple then mapM (fun g => do b <- simple_merge (snd g); do b' <- guess_units b; Ok (fst g, [b'])) objs else Ok objs);
  match blockname with
  | None | Some "" => Ok (MDict res)
  | Some k => match find (fun g => String.eqb (fst g) k) res with Some g => Ok (MBlocks (snd g)) | None => Ok MNone end
  end.
End Files.
