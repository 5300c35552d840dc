(** What DataDict is meant to be: a sequence of (name, value) pairs with
    distinct names, in order of insertion. Nothing here refers to the model. *)
From Coq Require Import String List Bool.
Import ListNotations.

Section Spec.
Context {V : Type}.

(** Store: replaced in its place, or put last. *)
Fixpoint store (k : string) (v : V) (l : list (string * V)) : list (string * V) :=
  match l with
  | [] => [(k, v)]
  | p :: l' => if string_dec (fst p) k then (k, v) :: l' else p :: store k v l'
  end.
(** Remove. *)
Definition remove (k : string) (l : list (string * V)) : list (string * V) :=
  filter (fun p => if string_dec (fst p) k then false else true) l.
(** Look up. *)
Definition lookup (k : string) (l : list (string * V)) : option V :=
  option_map snd (find (fun p => if string_dec (fst p) k then true else false) l).
(** The entry [old] gets the name [new]. *)
Definition relabel (old new : string) (l : list (string * V)) : list (string * V) :=
  map (fun p => if string_dec (fst p) old then (new, snd p) else p) l.

(** Operations a user can perform, and what they are to do. [CopyOp f] replaces
    the dictionary by a copy, with every value copied by [f]. *)
Inductive op : Type :=
| Store (k : string) (v : V) | Remove (k : string) | SetDefault (k : string) (v : V)
| Rename (old new : string) | CopyOp (f : V -> V).

Definition spec_step (l : list (string * V)) (o : op) : list (string * V) :=
  match o with
  | Store k v => store k v l
  | Remove k => remove k l
  | SetDefault k v => match lookup k l with Some _ => l | None => store k v l end
  | Rename old new =>
      match lookup old l with
      | None => l                                   (* KeyError *)
      | Some v =>
          if string_dec old new then store new v (remove old l)     (* moved to the end *)
          else match lookup new l with
               | None => relabel old new l          (* in its place *)
               | Some _ => store new v (remove old l)
               end
      end
  | CopyOp f => map (fun p => (fst p, f (snd p))) l
  end.
End Spec.
Arguments op V : clear implicits.
