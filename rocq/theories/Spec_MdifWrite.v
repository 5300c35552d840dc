(** What can be written to an MDIF file and what must be found in it. *)
From Coq Require Import Ascii String List Arith ZArith Bool.
From Verif Require Import Model_NdArray Model_Text Model_Mdif Model_MdifWrite Spec_TsText.
Import ListNotations.
Local Open Scope string_scope.
Local Open Scope nat_scope.
Local Open Scope list_scope.

Section Spec.
Context {V : Type} (float : list ascii -> result V) (as_index : V -> option Z).

(** The text of a number: perhaps padded, without an equal sign or quotes and not
    the beginning of another kind of line. *)
Definition number_text (t : list ascii) (v : V) : Prop :=
  exists b0 c w b1, t = b0 ++ (c :: w) ++ b1 /\ spaces b0 /\ spaces b1 /\ solid (c :: w) /\ float (c :: w) = Ok v /\
    (forall x, In x (c :: w) -> x <> "="%char /\ x <> quote) /\ ~ In c ["!"; "%"; "#"; "B"; "E"; "V"]%char.

(** Names *)
Definition plain_name (n : list ascii) : Prop := solid n /\ forall c, In c n -> c <> "("%char /\ c <> "="%char.
Definition not_sweep (n : list ascii) : Prop := forall pre r, in_capitals pre "SWEEP." -> n <> pre ++ r.

(** [ws] are the variables with exactly these dimensions, in their order. *)
Inductive vars_over (ns : list (list ascii)) : list (wvar V) -> list (wvar V) -> Prop :=
| vo_none : vars_over ns [] []
| vo_in : forall v vs ws, wv_dims v = ns -> vars_over ns vs ws -> vars_over ns (v :: vs) (v :: ws)
| vo_out : forall v vs ws, wv_dims v <> ns -> vars_over ns vs ws -> vars_over ns (v :: vs) ws.

(** The number in a variable at a position. *)
Definition number_at (v : wvar V) (ix : list nat) : mval V :=
  match wv_data v with WReal f => MReal (f ix) | WComplex f => MComplex (fst (f ix)) (snd (f ix)) end.
(** The positions inside the dimensions. *)
Definition inside (ds : list (wdim V)) (ix : list nat) : Prop := Forall2 (fun d k => k < length (wd_vals d)) ds ix.
(** The variable prints its numbers. *)
Definition prints_all (ds : list (wdim V)) (v : wvar V) : Prop :=
  forall ix, inside ds ix -> match wv_data v with
                             | WReal f => number_text (wv_fmt v (f ix)) (f ix)
                             | WComplex f => number_text (wv_fmt v (fst (f ix))) (fst (f ix)) /\ number_text (wv_fmt v (snd (f ix))) (snd (f ix))
                             end.

(** A block over [d0] and the outer dimensions [ds] with the attributes [ats], over
    [ds] alone, and the columns [cols] can be written and read. *)
Record writable (d0 : wdim V) (ds : list (wdim V)) (b : wblock V) (ats cols : list (wvar V)) : Prop := {
  w_ats : vars_over (map wd_name ds) (wb_vars b) ats;
  w_cols : vars_over (wd_name d0 :: map wd_name ds) (wb_vars b) cols;
  w_some_ats : ats <> [];
  w_some_cols : cols <> [];
  w_some_vals : wd_vals d0 <> [];
  w_names : Forall plain_name (wd_name d0 :: map wd_name ds ++ map wv_name ats ++ map wv_name cols);
  w_nodup : NoDup (wd_name d0 :: map wv_name cols);
  w_sweep : not_sweep (wd_name d0);
  w_attr_names : Forall (fun v => forall r, wv_name v <> chars "SWEEP." ++ r) ats;
  w_block : forall n, wb_name b = Some n -> trimmed_of n n;
  w_real : Forall (fun v => exists f, wv_data v = WReal f) ats;
  w_print_ats : Forall (prints_all ds) ats;
  w_print_cols : Forall (prints_all (d0 :: ds)) cols;
  w_print_sweep : forall v, In v (wd_vals d0) -> number_text (wd_fmt d0 v) v;
  w_print_outer : forall d v, In d ds -> In v (wd_vals d) -> number_text (wd_fmt d v) v;
  (* the formats of the columns are used for the outer dimensions as well *)
  w_print_later : forall c d v, In c cols -> In d ds -> In v (wd_vals d) -> number_text (wv_fmt c v) v }.

(** The block to be found at the values [coord] of the outer dimensions with the
    numbers at the position [ix]. *)
Definition block_at (d0 : wdim V) (ds : list (wdim V)) (b : wblock V) (ats cols : list (wvar V)) (coord : list V) (ix : list nat) (m : mblock V) : Prop :=
  m_name m = match wb_name b with Some n => n | None => chars "DATABLOCK" end /\
  m_sweep m = (wd_name d0, map MReal (wd_vals d0)) /\
  Forall2 (fun c p => fst p = wv_name c /\ length (snd p) = length (wd_vals d0) /\
                      forall k, k < length (wd_vals d0) -> nth_error (snd p) k = Some (number_at c (k :: ix))) cols (m_cols m) /\
  map fst (m_partials m) = map wd_name ds /\ map snd (m_partials m) = coord /\
  Forall2 (fun a p => fst p = wv_name a /\ number_at a ix = MReal (snd p)) ats (m_attribs m).

(** The positions of an array of the given lengths, the last one running fastest. *)
Fixpoint tuples (ns : list nat) : list (list nat) :=
  match ns with [] => [[]] | n :: ns' => flat_map (fun k => map (cons k) (tuples ns')) (seq 0 n) end.
(** The values of the dimensions at a position. *)
Definition values_at (ds : list (wdim V)) (ix : list nat) (coord : list V) : Prop :=
  length coord = length ds /\ length ix = length ds /\
  forall j d k, nth_error ds j = Some d -> nth_error ix j = Some k -> nth_error (wd_vals d) k = nth_error coord j.
(** Every value of the dimension is its own index, as the indices of repetitions are. *)
Definition own_index (d : wdim V) : Prop := forall k v, nth_error (wd_vals d) k = Some v -> as_index v = Some (Z.of_nat k).
(** The position meant by a value used as an index. *)
Definition points_to (d : wdim V) (v : V) (k : nat) : Prop :=
  exists z, as_index v = Some z /\ k < length (wd_vals d) /\
    (z = Z.of_nat k \/ z = (Z.of_nat k - Z.of_nat (length (wd_vals d)))%Z).
Inductive meant : list (wdim V) -> list V -> list nat -> Prop :=
| me_nil : meant [] [] []
| me_cons : forall d ds v vs k ks, points_to d v k -> meant ds vs ks -> meant (d :: ds) (v :: vs) (k :: ks).

(** What must be read of a file: for each block and each position of its outer
    dimensions one block, in order. *)
Definition can_write (s : list (wdim V) * wblock V) : Prop :=
  fst s = [] \/ exists d0 ds ats cols, fst s = d0 :: ds /\ writable d0 ds (snd s) ats cols /\ Forall own_index ds /\
    (length ds <= length cols \/ length (tuples (map (fun d => length (wd_vals d)) ds)) <= 1).
Definition found (s : list (wdim V) * wblock V) (ms : list (mblock V)) : Prop :=
  match fst s with
  | [] => ms = []
  | d0 :: ds => forall ats cols, vars_over (map wd_name ds) (wb_vars (snd s)) ats -> vars_over (wd_name d0 :: map wd_name ds) (wb_vars (snd s)) cols ->
      Forall2 (fun ix m => exists coord, values_at ds ix coord /\ block_at d0 ds (snd s) ats cols coord ix m) (tuples (map (fun d => length (wd_vals d)) ds)) ms
  end.
End Spec.
