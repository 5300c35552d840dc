(** Model of DataDict (hftools/dataset/dataset.py:88-179): a Python dict
    together with a list [order] of its keys. *)
From Coq Require Import String List Arith ZArith Bool Lia.
From Verif Require Import Model_NdArray.
Import ListNotations.

(** ** Python's built-in dict with string keys

    An association list in insertion order (CPython >= 3.7); keys are unique.
    dict itself is not in /repo. *)
Fixpoint pd_get {V} (k : string) (m : list (string * V)) : option V :=
  match m with
  | [] => None
  | (k', v) :: m' => if String.eqb k k' then Some v else pd_get k m'
  end.
Definition pd_has {V} (k : string) (m : list (string * V)) : bool :=
  match pd_get k m with Some _ => true | None => false end.
Fixpoint pd_set {V} (k : string) (v : V) (m : list (string * V)) : list (string * V) :=
  match m with
  | [] => [(k, v)]
  | (k', v') :: m' => if String.eqb k k' then (k', v) :: m' else (k', v') :: pd_set k v m'
  end.
Fixpoint pd_del {V} (k : string) (m : list (string * V)) : list (string * V) :=
  match m with
  | [] => []
  | (k', v') :: m' => if String.eqb k k' then m' else (k', v') :: pd_del k m'
  end.

(** ** Python lists of strings *)
Definition l_in (k : string) (l : list string) : bool := existsb (String.eqb k) l.
Fixpoint l_index (k : string) (l : list string) : result nat :=
  match l with
  | [] => Err ValueError
  | x :: l' => if String.eqb k x then Ok 0 else do n <- l_index k l'; Ok (S n)
  end.
(** [del l[n]] and [l[n] = k] for a position inside the list. *)
Fixpoint l_del (n : nat) (l : list string) : list string :=
  match l, n with
  | [], _ => []
  | _ :: l', 0 => l'
  | x :: l', S n' => x :: l_del n' l'
  end.
Fixpoint l_set (n : nat) (k : string) (l : list string) : list string :=
  match l, n with
  | [], _ => []
  | _ :: l', 0 => k :: l'
  | x :: l', S n' => x :: l_set n' k l'
  end.

(** dataset.py:88-91: the dict and the attribute [order]. *)
Record ddict (V : Type) : Type := mkDD { dd_map : list (string * V); dd_order : list string }.
Arguments mkDD {V} _ _.
Arguments dd_map {V} _.
Arguments dd_order {V} _.

(** DataDict() (dataset.py:89-91). *)
Definition dd_empty {V} : ddict V := mkDD [] [].

(** DataDict(pairs): dict.__init__ does not go through __setitem__, [order]
    stays empty (dataset.py:89-91). *)
Definition dd_of_pairs {V} (l : list (string * V)) : ddict V :=
  mkDD (fold_left (fun m p => pd_set (fst p) (snd p) m) l []) [].

Section DataDict.
Context {V : Type}.
Implicit Type d : ddict V.

(** dict.__getitem__ and dict.__contains__ are inherited. *)
Definition dd_get (k : string) d : result V := of_option KeyError (pd_get k (dd_map d)).
Definition dd_contains (k : string) d : bool := pd_has k (dd_map d).
Definition dd_len d : nat := length (dd_map d).

(** __delitem__ (dataset.py:114-118). *)
Definition dd_del (k : string) d : result (ddict V) :=
  let m := if pd_has k (dd_map d) then pd_del k (dd_map d) else dd_map d in
  if l_in k (dd_order d) then do n <- l_index k (dd_order d); Ok (mkDD m (l_del n (dd_order d)))
  else Ok (mkDD m (dd_order d)).

(** __setitem__ (dataset.py:129-132). *)
Definition dd_set (k : string) (v : V) d : ddict V :=
  mkDD (pd_set k v (dd_map d)) (if l_in k (dd_order d) then dd_order d else dd_order d ++ [k]).

(** setdefault (dataset.py:134-138): also returns the value. *)
Definition dd_setdefault (k : string) (v : V) d : V * ddict V :=
  let o := if l_in k (dd_order d) then dd_order d else dd_order d ++ [k] in
  match pd_get k (dd_map d) with
  | Some a => (a, mkDD (dd_map d) o)
  | None => (v, mkDD (pd_set k v (dd_map d)) o)
  end.

(** rename (dataset.py:140-145). *)
Definition dd_rename (old new : string) d : result (ddict V) :=
  do v <- dd_get old d;
  do o <- (if l_in new (dd_order d) then Ok (dd_order d)
           else do n <- l_index old (dd_order d); Ok (l_set n new (dd_order d)));
  do d' <- dd_del old (mkDD (dd_map d) o);
  Ok (dd_set new v d').

(** __iter__ (dataset.py:170-176): the order list, then the keys of the dict
    that are not in it. *)
Definition dd_iter d : list string :=
  dd_order d ++ filter (fun k => negb (l_in k (dd_order d))) (map fst (dd_map d)).

(** items() (dataset.py:167-168); raises KeyError for a key in [order] that the
    dict does not hold. keys() is [dd_iter], values() the second components. *)
Definition dd_items d : result (list (string * V)) :=
  mapM (fun k => do v <- dd_get k d; Ok (k, v)) (dd_iter d).
Definition dd_values d : result (list V) := do l <- dd_items d; Ok (map snd l).

(** dict.update and dict.pop are inherited and do not know [order]. *)
Definition dd_update (l : list (string * V)) d : ddict V :=
  mkDD (fold_left (fun m p => pd_set (fst p) (snd p) m) l (dd_map d)) (dd_order d).
Definition dd_pop (k : string) d : result (V * ddict V) :=
  do v <- dd_get k d; Ok (v, mkDD (pd_del k (dd_map d)) (dd_order d)).
End DataDict.

(** copy and view (dataset.py:147-155): [f] is v.copy() or v.view(). *)
Definition dd_copy {V W} (f : V -> W) (d : ddict V) : result (ddict W) :=
  do l <- dd_items d;
  Ok (mkDD (dd_map (dd_of_pairs (map (fun p => (fst p, f (snd p))) l))) (dd_order d)).
