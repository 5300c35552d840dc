(** Configuration dictionaries with scoping (file_formats/config.py:37-144 of
    /repo/hftools).

    The objects live in a heap, because dictionaries refer to their parents and
    are assigned to in place.  An object is an OrderedDict, a list or a
    MergedDicts; of the elements of a list only those that are strings matter
    (for [in]). *)
From Coq Require Import String List Arith Bool Lia.
From Verif Require Import Model_NdArray Model_DataDict.
Import ListNotations.
Local Open Scope nat_scope.

Section Config.
  Variable V : Type.
  Inductive cell : Type :=
  | CDict (m : list (string * V))
  | CList (l : list (option string))
  | CMerged (ds : list nat).
  (** The attribute [parent] (config.py:40, 65, 115). *)
  Record obj : Type := mkObj { o_cell : cell; o_parent : option nat }.
  Definition heap : Type := list obj.

  (** find_next_dict (config.py:52-60). [fuel] bounds the recursion; the
      theorems are about heaps in which it suffices. *)
  Fixpoint find_next_dict (fuel : nat) (h : heap) (a : nat) : option nat :=
    match fuel with
    | 0 => None
    | S f =>
        match nth_error h a with
        | None => None                                   (* AttributeError *)
        | Some o =>
            match o_parent o with
            | None => None                               (* None has no parent *)
            | Some p =>
                match nth_error h p with
                | Some (mkObj (CDict _) _) => Some p
                | _ => find_next_dict f h p
                end
            end
        end
    end.

  (** bool(obj): empty lists and dictionaries are false, MergedDicts is true. *)
  Definition truthy (h : heap) (a : nat) : bool :=
    match nth_error h a with
    | Some (mkObj (CDict []) _) | Some (mkObj (CList []) _) | None => false
    | _ => true
    end.

  (** obj[key]: LexicalScopeDict.__getitem__ (config.py:83-94),
      MergedDicts.__getitem__ (config.py:136-144); a list refuses a string. *)
  Fixpoint getitem (fuel : nat) (h : heap) (a : nat) (key : string) : result V :=
    match fuel with
    | 0 => Err GenericError
    | S f =>
        match nth_error h a with
        | None => Err TypeError
        | Some (mkObj (CDict m) par) =>
            match pd_get key m with
            | Some v => Ok v
            | None =>
                match par with
                | Some _ => match find_next_dict (S f) h a with Some d => getitem f h d key | None => Err KeyError end
                | None => Err KeyError
                end
            end
        | Some (mkObj (CList _) _) => Err TypeError
        | Some (mkObj (CMerged ds) par) =>
            (fix loop ds :=
               match ds with
               | [] => match par with
                       | Some p => if truthy h p then getitem f h p key else Err KeyError
                       | None => Err KeyError
                       end
               | d :: ds' => match getitem f h d key with Err KeyError => loop ds' | r => r end
               end) ds
        end
    end.

  (** key in obj (config.py:73-76, 122-128; list.__contains__). *)
  Fixpoint contains (fuel : nat) (h : heap) (a : nat) (key : string) : bool :=
    match fuel with
    | 0 => false
    | S f =>
        let up par := match par with Some p => truthy h p && contains f h p key | None => false end in
        match nth_error h a with
        | None => false
        | Some (mkObj (CDict m) par) => pd_has key m || up par
        | Some (mkObj (CList l) _) => existsb (fun e => match e with Some s => String.eqb key s | None => false end) l
        | Some (mkObj (CMerged ds) par) => existsb (fun d => contains f h d key) ds || up par
        end
    end.

  (** d[key] = v, inherited from OrderedDict. *)
  Definition heap_set (a : nat) (o : obj) (h : heap) : heap := firstn a h ++ o :: skipn (S a) h.
  Definition setitem (h : heap) (a : nat) (key : string) (v : V) : result heap :=
    match nth_error h a with
    | Some (mkObj (CDict m) par) => Ok (heap_set a (mkObj (CDict (pd_set key v m)) par) h)
    | _ => Err TypeError
    end.

  (** LexicalScopeDict.copy (config.py:105-106): a new dictionary, without parent,
      here at the end of the heap. *)
  Definition copy_dict (h : heap) (a : nat) : result (heap * nat) :=
    match nth_error h a with
    | Some (mkObj (CDict m) _) => Ok (h ++ [mkObj (CDict m) None], length h)
    | _ => Err TypeError
    end.

  (** MergedDicts(d1, ..., dn) (config.py:113-115): the last one comes first. *)
  Definition merged (dicts : list nat) : obj := mkObj (CMerged (rev dicts)) None.
  (** MergedDicts.keys (config.py:130-134): the dictionaries' own keys, a set. *)
  Definition own_keys (h : heap) (d : nat) : list string :=
    match nth_error h d with Some (mkObj (CDict m) _) => map fst m | _ => [] end.
  Definition merged_keys (h : heap) (ds : list nat) : list string := flat_map (own_keys h) ds.
End Config.
Arguments CDict {V}. Arguments CList {V}. Arguments CMerged {V}. Arguments mkObj {V}. Arguments o_cell {V}. Arguments o_parent {V}.
Arguments find_next_dict {V}. Arguments truthy {V}. Arguments getitem {V}. Arguments contains {V}. Arguments heap_set {V}.
Arguments setitem {V}. Arguments copy_dict {V}. Arguments merged {V}. Arguments own_keys {V}. Arguments merged_keys {V}.
