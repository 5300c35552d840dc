(** Units in the names of variables and guessed units. *)
From Coq Require Import Ascii String List Arith ZArith Bool.
From Verif Require Import Model_NdArray Model_Dim Model_Array Model_Block Model_Si Spec_H5File Prop_Si.
Import ListNotations.
Local Open Scope string_scope.
Local Open Scope char_scope.
Local Open Scope nat_scope.
Local Open Scope list_scope.

Definition tab : ascii := ascii_of_nat 9.
Definition newline : ascii := ascii_of_nat 10.
Definition letter (c : ascii) : Prop := let n := nat_of_ascii c in (65 <= n /\ n <= 90) \/ (97 <= n /\ n <= 122).
(** The name [k] is the name [v] followed by the unit [u] in brackets, as in "freq [GHz]"; the closing bracket
    may be missing or there may be several. *)
Definition named_unit (k v u : list ascii) : Prop :=
  exists sp cl nl, k = v ++ sp ++ "[" :: u ++ cl ++ nl /\
    Forall (fun c => c = " " \/ c = tab) sp /\ u <> [] /\ Forall letter u /\ Forall (fun c => c = "]") cl /\ (nl = [] \/ nl = [newline]) /\
    ~ In newline v /\ (forall c r, v = r ++ [c] -> c <> " " /\ c <> tab).
Definition named (k v u : string) : Prop := named_unit (list_ascii_of_string k) (list_ascii_of_string v) (list_ascii_of_string u).

(** The unit [u] is ten to the power [e] times the unit [w]. *)
Definition unit_means (u : string) (e : Z) (w : string) : Prop :=
  (exists c, u = String c w /\ prefix c e /\ base_unit (list_ascii_of_string w)) \/
  (e = 0%Z /\ w = u /\ forall c e b, u = String c b -> prefix c e -> ~ base_unit (list_ascii_of_string b)).

Section Fixed.
Context {A : Type}.
Variable scale : Z -> A -> A.
Variable scale_labels : Z -> list label -> list label.
Variable scale_dt : Z -> dtype -> dtype.

Definition fixed_dim (d d' : dim) : Prop :=
  (forall v u, named (d_name d) v u -> exists e w, unit_means u e w /\ d_class d' = d_class d /\ d_name d' = v /\
     d_data d' = scale_labels e (d_data d) /\ d_unit d' = Some w /\ option_map Ok (d_fmt d') = Some (outputformat d)) /\
  ((forall v u, ~ named (d_name d) v u) -> d' = d).
(** An axis is the dimension of the block of its name. *)
Definition fixed_axis (ivs : list (string * dim)) (a a' : dim) : Prop :=
  (forall v u, named (d_name a) v u -> exists d, in_list ivs (d_name a) = Some d /\ fixed_dim d a') /\
  ((forall v u, ~ named (d_name a) v u) -> a' = a).
Definition fixed_var (ivs : list (string * dim)) (p p' : string * hf A) : Prop :=
  h_fmt (snd p') = h_fmt (snd p) /\ Forall2 (fixed_axis ivs) (h_dims (snd p)) (h_dims (snd p')) /\
  (forall v u, named (fst p) v u -> exists e w, unit_means u e w /\ fst p' = v /\
     h_nd (snd p') = nd_map (scale e) (h_nd (snd p)) /\ h_dt (snd p') = scale_dt e (h_dt (snd p)) /\ h_unit (snd p') = Some w) /\
  ((forall v u, ~ named (fst p) v u) -> fst p' = fst p /\ h_nd (snd p') = h_nd (snd p) /\ h_dt (snd p') = h_dt (snd p) /\ h_unit (snd p') = h_unit (snd p)).
End Fixed.

(** Names without unit are different from each other and from all names, and no matrix has an element of such
    a name. *)
Definition names_apart (ns vars : list string) : Prop :=
  NoDup ns /\
  (forall n m v u, In n ns -> named n v u -> In m ns -> v <> m) /\
  (forall n m v u u', In n ns -> In m ns -> named n v u -> named m v u' -> n = m) /\
  (forall n v u m e, In n vars -> named n v u -> is_matrix_name v = Some (m, e) -> ~ In m vars /\ forall n' u', In n' vars -> ~ named n' m u').
(** Dimensions under their names, with an output format. *)
Definition proper_dims (ivs : list (string * dim)) : Prop :=
  Forall (fun p => fst p = d_name (snd p) /\ (d_fmt (snd p) <> None \/ d_data (snd p) <> [])) ivs.

(** Guessed units: only what has no unit gets one. *)
Definition guessed_dim (guess : string -> option string) (d d' : dim) : Prop :=
  d_class d' = d_class d /\ d_name d' = d_name d /\ d_data d' = d_data d /\ d_unit d' = guess (d_name d) /\ option_map Ok (d_fmt d') = Some (outputformat d).
Definition unitless (d : dim) : bool := match d_unit d with None => true | Some _ => false end.
Definition guessed_axis (guess : string -> option string) (ivs : list (string * dim)) (a a' : dim) : Prop :=
  forall d, in_list ivs (d_name a) = Some d -> (d_unit d = None -> guessed_dim guess d a') /\ (d_unit d <> None -> a' = a).
Definition guessed_var {A} (guess : string -> option string) (ivs : list (string * dim)) (p p' : string * hf A) : Prop :=
  fst p' = fst p /\ h_nd (snd p') = h_nd (snd p) /\ h_dt (snd p') = h_dt (snd p) /\ h_fmt (snd p') = h_fmt (snd p) /\
  (h_unit (snd p) = None -> h_unit (snd p') = guess (fst p)) /\ (h_unit (snd p) <> None -> h_unit (snd p') = h_unit (snd p)) /\
  Forall2 (guessed_axis guess ivs) (h_dims (snd p)) (h_dims (snd p')).

(** Names whose unit is known: voltages and currents of transistors and frequencies, in lower and upper case. *)
Local Open Scope string_scope.
Inductive known : string -> string -> Prop :=
| kV : forall p, In p ["ds"; "gs"; "dg"; "gd"; "be"; "ce"; "DS"; "GS"; "DG"; "GD"; "BE"; "CE"; "DS_SET"; "GS_SET"; "DG_SET"; "GD_SET"; "BE_SET"; "CE_SET"] -> known ("V" ++ p) "V"
| kv : forall p, In p ["ds"; "gs"; "dg"; "gd"; "be"; "ce"] -> known ("v" ++ p) "V"
| kI : forall p, In p ["d"; "g"; "s"; "b"; "e"; "c"; "D"; "G"; "S"; "B"; "E"; "C"] -> known ("I" ++ p) "A"
| ki : forall p, In p ["d"; "g"; "s"; "b"; "e"; "c"] -> known ("i" ++ p) "A"
| kf : forall p, In p ["f"; "F"] -> forall r, In r [""; "req"; "requency"] -> known (p ++ r) "Hz"
| kF : forall r, In r ["REQ"; "REQUENCY"] -> known ("F" ++ r) "Hz".
