(** Touchstone files (hftools/file_formats/touchstone.py): arranging the numbers
    of the data lines into records. *)
From Coq Require Import Ascii String List Arith ZArith Bool.
From Verif Require Import Model_NdArray.
Import ListNotations.
Local Open Scope nat_scope.
Local Open Scope list_scope.

Section Records.
(** The numbers and [a <= b] on them. *)
Context {R : Type} (leb : R -> R -> bool).
Local Notation line := (list R).

(** The loop of _process_data (touchstone.py:97-120).  [noise] is the recursive
    call for the noise data of a two-port, [out] the records found so far,
    [cur] the numbers of the current one. *)
Fixpoint rows_loop (noise : option (list line -> result (option (list line)))) (N : nat) (data : list line)
    (cur : line) (out : list line) : result (option (list line * list line)) :=
  match data with
  | [] => match cur with [] => Ok (Some (out, [])) | _ => Ok None end
  | rad :: data' =>
      let step :=
        let row := cur ++ rad in
        if N <? length row then Ok None
        else if Nat.eqb (length row) N then rows_loop noise N data' [] (out ++ [row])
        else rows_loop noise N data' row out in
      match cur, out with
      | [], _ :: _ =>
          do a <- of_option IndexError (hd_error rad);
          do b <- of_option IndexError (hd_error (last out []));
          if leb a b then
            match noise with
            | Some f =>
                do r <- f data;
                match r with
                | Some (x :: l) => Ok (Some (out, x :: l))
                | _ => Ok None
                end
            | None => Ok None
            end
          else step
      | _, _ => step
      end
  end.

(** _process_data (touchstone.py:93-120). *)
Definition process_rows (data : list line) (N : nat) : result (option (list line * list line)) :=
  let noise d := do r <- rows_loop None 5 d [] []; Ok (option_map fst r) in
  rows_loop (if Nat.eqb N 9 then Some noise else None) N data [] [].

(** The loop over the number of ports (touchstone.py:85-89): [n] counts up from
    [n], [k] more attempts. *)
Fixpoint try_ports (data : list line) (n k : nat) : result (list line * list line) :=
  match k with
  | 0 => Err GenericError
  | S k' =>
      do r <- process_rows data (2 * n ^ 2 + 1);
      match r with
      | Some (x :: o, nz) => Ok (x :: o, nz)
      | _ => try_ports data (S n) k'
      end
  end.

(** process_data (touchstone.py:82-90).  [int(sqrt(x)/2 + 1)] is computed
    exactly; the sum is at least 1 unless the file has no numbers, when
    [int(nan)] fails. *)
Definition process_data (data : list line) : result (list line * list line) :=
  match length (concat data) with
  | 0 => Err ValueError
  | S t => let max_N := Nat.sqrt t / 2 + 1 in try_ports data 1 (max_N - 1)
  end.
End Records.
