(** Shortening of dotted names (file_formats/mdif.py:439-461 of /repo/hftools). *)
From Coq Require Import Ascii String List Arith Bool.
From Verif Require Import Model_NdArray Model_DataDict Model_Words Model_Spdata.
Import ListNotations.
Local Open Scope nat_scope.
Local Open Scope list_scope.

Section Names.
  Context {V : Type}.
  (** The loop of shorten_name (mdif.py:443-447): [is] are the values of i left. *)
  Fixpoint shorten_loop (names : list (list ascii)) (name : string) (is : list nat) (d : ddict V) : result (string * ddict V) :=
    match is with
    | [] => Ok (name, d)
    | i :: is' =>
        let new := string_of_list_ascii (join ["."%char] (skipn (length names - (i + 1)) names)) in
        if dd_contains new d then shorten_loop names name is' d
        else do d' <- dd_rename name new d; Ok (new, d')
    end.
  (** shorten_name (mdif.py:439-448) *)
  Definition shorten_name (d : ddict V) (name : string) : result (string * ddict V) :=
    let names := split_on "."%char (list_ascii_of_string name) in
    if length names <=? 1 then Ok (name, d) else shorten_loop names name (seq 0 (length names)) d.

  (** v.endswith("." + c) and v[:-2] *)
  Definition ends_dot (c : ascii) (v : list ascii) : bool :=
    match rev v with a :: b :: _ => Ascii.eqb a c && Ascii.eqb b "."%char | _ => false end.
  Definition cut2 (v : list ascii) : list ascii := firstn (length v - 2) v.
  (** The loop over one block of fixnames (mdif.py:453-460) *)
  Definition fix_step (v : string) (d : ddict V) : result (ddict V) :=
    let l := list_ascii_of_string v in
    if ends_dot "s"%char l then dd_del v d
    else
      do r <- (if ends_dot "m"%char l
               then let w := string_of_list_ascii (cut2 l) in do d' <- dd_rename v w d; Ok (w, d')
               else Ok (v, d));
      do r' <- shorten_name (snd r) (fst r); Ok (snd r').
  Fixpoint fix_all (vs : list string) (d : ddict V) : result (ddict V) :=
    match vs with
    | [] => Ok d
    | v :: vs' => do d' <- fix_step v d; fix_all vs' d'
    end.
  (** fixnames (mdif.py:451-460) for one block; list(b.vardata) are the names
      before the loop. *)
  Definition fixnames (d : ddict V) : result (ddict V) := fix_all (dd_iter d) d.
End Names.
