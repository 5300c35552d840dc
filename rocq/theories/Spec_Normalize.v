(** What a renaming of the variables of a block is, without the functions of
    Model_Normalize.v. *)
From Coq Require Import Ascii String List Arith ZArith Bool.
From Verif Require Import Model_NdArray Model_Dim Model_Array Model_DataDict Model_Text Model_Block.
Import ListNotations.
Local Open Scope nat_scope.
Local Open Scope string_scope.
Local Open Scope list_scope.

(** The same dimension under another name; its output format may become
    explicit. *)
Definition dim_named (g : string -> string) (d d' : dim) : Prop :=
  d_name d' = g (d_name d) /\ d_class d' = d_class d /\ d_data d' = d_data d /\ d_unit d' = d_unit d.

(** The same data, the dimensions renamed. *)
Definition array_named {A} (g : string -> string) (x y : hf A) : Prop :=
  h_nd y = h_nd x /\ h_dt y = h_dt x /\ h_unit y = h_unit x /\ h_fmt y = h_fmt x /\ Forall2 (dim_named g) (h_dims x) (h_dims y).

(** All variables and dimensions in the same order with the same data,
    variables renamed by [gv], dimensions by [gi]. *)
Definition renamed {A} (gv gi : string -> string) (b b' : block A) : Prop :=
  exists vs ws is js, dd_items (b_var b) = Ok vs /\ dd_items (b_var b') = Ok ws /\ dd_items (b_ivar b) = Ok is /\ dd_items (b_ivar b') = Ok js /\
    Forall2 (fun kx ky => fst ky = gv (fst kx) /\ array_named gi (snd kx) (snd ky)) vs ws /\
    Forall2 (fun nd nd' => fst nd' = gi (fst nd) /\ dim_named gi (snd nd) (snd nd')) is js.

(** Blocks in order: no variable has the name of a dimension, dimensions are
    stored under their names and agree with the dimensions of the variables. *)
Definition orderly {A} (b : block A) : Prop :=
  (forall k, dd_contains k (b_var b) = true -> dd_contains k (b_ivar b) = false) /\
  (forall n d, dd_get n (b_ivar b) = Ok d -> d_name d = n /\ (d_data d <> [] \/ d_fmt d <> None)) /\
  (forall k x d i, dd_get k (b_var b) = Ok x -> In d (h_dims x) -> dd_get (d_name d) (b_ivar b) = Ok i ->
     d_class i = d_class d /\ d_data i = d_data d /\ d_unit i = d_unit d).

(** Names that mean the same: the raw wave ratios, the waves, the frequency. *)
Inductive standard : string -> string -> Prop :=
| st_raw : forall x y i j, In (x, y) [("b", "a")] -> In i ["1"; "2"] -> In j ["1"; "2"] ->
    standard (String.append (String.append (String.append (String.append x i) "/") (String.append y j)) " raw") (String.append x (String.append i j))
| st_ratio : forall x y i j, In (x, y) [("b", "a")] -> In i ["1"; "2"] -> In j ["1"; "2"] ->
    standard (String.append (String.append (String.append x i) "/") (String.append y j)) (String.append x (String.append i j))
| st_wave : forall i r, In i ["1"; "2"] -> In r [""; " raw"] -> standard (String.append (String.append "a" i) r) (String.append "a" (String.append i i))
| st_waves : forall i j r, In (i, j) [("1", "2"); ("2", "1")] -> In r [""; " raw"] ->
    standard (String.append (String.append (String.append (String.append "a" i) "/a") j) r) (String.append "a" (String.append i j))
| st_freq : forall n, In n ["Freq[Hz]"; "Frequency"; "Freq"] -> standard n "freq".

(** [s] is the call of a function: f(body). *)
Definition encloses (f s body : string) : Prop :=
  s = String.append f (String.append "(" (String.append body ")")) /\ body <> "" /\ ~ In (ascii_of_nat 10) (chars body).

(** [m] is what becomes of [n] when calls of [f] are replaced by [pre] and what
    is inside. *)
Definition unwrap (f pre n m : string) : Prop :=
  (exists body, encloses f n body /\ m = String.append pre body) \/ ((forall body, ~ encloses f n body) /\ m = n).

Definition in_block {A} (n : string) (b : block A) : Prop :=
  dd_contains n (b_var b) = true \/ dd_contains n (b_ivar b) = true.

(** [m] is the standard name of [n] in [b]: names that have one get it, unless
    the block already has something of that name. *)
Definition target {A} (b : block A) (n m : string) : Prop :=
  (forall new, standard n new -> in_block new b -> m = n) /\
  (forall new, standard n new -> ~ in_block new b -> m = new) /\
  ((forall new, ~ standard n new) -> m = n).

(** No two names of the block compete for a standard name. *)
Definition no_rivals {A} (b : block A) : Prop :=
  forall n m new, standard n new -> standard m new -> in_block n b -> in_block m b -> ~ in_block new b -> n = m.
