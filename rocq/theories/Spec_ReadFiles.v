(** What reading files gives, block by block and file by file. *)
From Coq Require Import Ascii String List Arith ZArith Bool.
From Verif Require Import Model_NdArray Model_Dim Model_Array Model_DataDict Model_Block Model_Text Model_Utils Model_ReadFiles.
Import ListNotations.
Local Open Scope string_scope.
Local Open Scope nat_scope.
Local Open Scope list_scope.

(** Something is done if an option is set. *)
Definition opt {B} (on : bool) (f : B -> result B) (x y : B) : Prop := if on then f x = Ok y else y = x.
(** [R i x y] for the elements at the positions i, i+1, ... of two lists. *)
Inductive each {X Y} (R : nat -> X -> Y -> Prop) : nat -> list X -> list Y -> Prop :=
| each_nil : forall i, each R i [] []
| each_cons : forall i x y xs ys, R i x y -> each R (S i) xs ys -> each R i (x :: xs) (y :: ys).

Section Spec.
Context {A content : Type} (lab : A -> label) (name_array : list ascii -> hf A) (glob1 : list ascii -> list (list ascii)) (open_ : list ascii -> result content).
Context (merge_blocks : bool -> list (block A) -> result (block A)).

(** What happens to one block, independently of the others. *)
Definition processed (fmt : @format A content) (o : options) (b b' : block A) : Prop :=
  exists b1 b2 b3 b4, opt (o_complex o) (f_complex fmt) b b1 /\ opt (o_property o) (f_property fmt) b1 b2 /\ opt (o_unit o) (f_unit fmt) b2 b3 /\
    opt (o_normalize o) (f_normalize fmt) b3 b4 /\ opt (o_matrix o) (f_matrix fmt) b4 b'.
(** One block is left as it is, several are merged. *)
Definition merged (o : options) (bs : list (block A)) (m : block A) : Prop := bs = [m] \/ (length bs <> 1 /\ merge_blocks (o_hyper o) bs = Ok m).
(** The number of the file, unless the block has one; everything else is as before. *)
Definition numbered (i : nat) (b b' : block A) : Prop :=
  (b_contains "FILEINDEX" b = true /\ b' = b) \/
  (b_contains "FILEINDEX" b = false /\ b_var b' = b_var b /\ b_ivar b' = dd_set "FILEINDEX" (mkDim CDimPartial "FILEINDEX" [LZ (Z.of_nat i)] None None) (b_ivar b) /\
   b_x b' = match b_x b with None => Some "FILEINDEX" | x => x end).
(** The name of the file likewise. *)
Definition labelled (n : list ascii) (b b' : block A) : Prop :=
  (b_contains "FILENAME" b = true /\ b' = b) \/
  (b_contains "FILENAME" b = false /\ b_var b' = dd_set "FILENAME" (name_array n) (b_var b) /\ b_ivar b' = b_ivar b /\ b_x b' = None).
(** One file. *)
Definition file_gives (fmt : format) (o : options) (c : content) (i : nat) (b : block A) : Prop :=
  exists bs ps m, f_parse fmt c = Ok bs /\ bs <> [] /\ Forall2 (processed fmt o) bs ps /\ merged o ps m /\ numbered i m b.
(** The files that match patterns, sorted for each of them. *)
Definition matching (pats names : list (list ascii)) : Prop :=
  exists ls, Forall2 (fun p l => lex_order (glob1 p) = Ok l) pats ls /\ names = concat ls.

(** The blocks of a MDIF file in order, with their names. *)
Context (mdif_parse : content -> result (list (string * block A))) (stages : options -> list (string * block A) -> result (list (string * block A))).
Definition without_merge (o : options) : options :=
  {| o_complex := o_complex o; o_property := o_property o; o_unit := o_unit o; o_normalize := o_normalize o; o_matrix := o_matrix o; o_merge := false; o_hyper := o_hyper o |}.
Definition mdif_gives (o : options) (i : nat) (n : list ascii) (l : list (string * block A)) : Prop :=
  exists c bs ps, open_ n = Ok c /\ mdif_parse c = Ok bs /\ bs <> [] /\ stages o bs = Ok ps /\
    Forall2 (fun p q => fst q = fst p /\ exists b, numbered i (snd p) b /\ b_set lab "FILENAME" (name_array n) b = Ok (snd q)) ps l.
Definition of_name (k : string) (l : list (string * block A)) : list (block A) := map snd (filter (fun p => String.eqb (fst p) k) l).
End Spec.
