(** Reading a configuration (file_formats/config.py:168-183 and 347-387 of
    /repo/hftools): the objects that LexicalLoader makes from the nodes of a YAML
    document, and LexicalConfig.  The nodes are a tree (no aliases) whose keys are
    strings; what scalars are read as is the subject of Model_ConfigText.v. *)
From Coq Require Import String List Arith Bool.
From Verif Require Import Model_NdArray Model_DataDict Model_Config.
Import ListNotations.
Local Open Scope nat_scope.
Local Open Scope list_scope.

Inductive node (T : Type) : Type :=
| NScalar (s : T)
| NMap (l : list (string * node T))
| NSeq (l : list (node T)).
Arguments NScalar {T} s.
Arguments NMap {T} l.
Arguments NSeq {T} l.

Section Load.
  Variable T : Type.
  Inductive value : Type := VScalar (s : T) | VObj (a : nat).
  (** LexicalScopeDict and LexicalScopeList with their attribute [parent]
      (config.py:37-40, 63-66). *)
  Inductive content : Type := LDict (m : list (string * value)) | LList (l : list value).
  Record lobj : Type := mkL { l_content : content; l_parent : option nat }.
  Definition lheap : Type := list lobj.
  Definition put (a : nat) (o : lobj) (h : lheap) : lheap := firstn a h ++ o :: skipn (S a) h.

  (** value.parent = p for dictionaries and lists (config.py:364-365, 378-379) *)
  Definition set_parent (v : value) (p : nat) (h : lheap) : lheap :=
    match v with
    | VScalar _ => h
    | VObj b => match nth_error h b with Some o => put b (mkL (l_content o) (Some p)) h | None => h end
    end.
  (** mapping[key] = value (config.py:366), out.append(value) (config.py:380) *)
  Definition dict_set (a : nat) (k : string) (v : value) (h : lheap) : lheap :=
    match nth_error h a with Some (mkL (LDict m) par) => put a (mkL (LDict (pd_set k v m)) par) h | _ => h end.
  Definition list_append (a : nat) (v : value) (h : lheap) : lheap :=
    match nth_error h a with Some (mkL (LList l) par) => put a (mkL (LList (l ++ [v])) par) h | _ => h end.

  (** construct_mapping and construct_sequence (config.py:349-381), called through
      construct_yaml_map and construct_yaml_seq (config.py:383-387).  A new
      object is put at the end of the heap. *)
  Fixpoint construct (n : node T) (h : lheap) : value * lheap :=
    match n with
    | NScalar s => (VScalar s, h)
    | NMap l =>
        let a := length h in
        (VObj a, (fix loop l h :=
                    match l with
                    | [] => h
                    | (k, c) :: l' => let r := construct c h in loop l' (dict_set a k (fst r) (set_parent (fst r) a (snd r)))
                    end) l (h ++ [mkL (LDict []) None]))
    | NSeq l =>
        let a := length h in
        (VObj a, (fix loop l h :=
                    match l with
                    | [] => h
                    | c :: l' => let r := construct c h in loop l' (list_append a (fst r) (set_parent (fst r) a (snd r)))
                    end) l (h ++ [mkL (LList []) None]))
    end.

  (** LexicalConfig.reload_settings (config.py:173-179): self.clear(), then
      self.update(loaded) (config.py:78-80); the configuration is put at the end
      of the heap.  Without items() the update fails. *)
  Definition load_config (n : node T) : result (lheap * nat) :=
    let r := construct n [] in
    match fst r with
    | VObj a =>
        match nth_error (snd r) a with
        | Some (mkL (LDict m) _) => Ok (snd r ++ [mkL (LDict (fold_left (fun d e => pd_set (fst e) (snd e) d) m [])) None], length (snd r))
        | _ => Err AttributeError
        end
    | VScalar _ => Err AttributeError
    end.

  (** convert_to_standard (config.py:42-49, 96-103); [fuel] bounds the depth. *)
  Fixpoint standard (fuel : nat) (h : lheap) (v : value) : option (node T) :=
    match fuel, v with
    | 0, _ => None
    | S f, VScalar s => Some (NScalar s)
    | S f, VObj a =>
        match nth_error h a with
        | Some (mkL (LDict m) _) =>
            option_map NMap ((fix loop m :=
              match m with
              | [] => Some []
              | (k, w) :: m' => match standard f h w, loop m' with Some c, Some r => Some ((k, c) :: r) | _, _ => None end
              end) m)
        | Some (mkL (LList l) _) =>
            option_map NSeq ((fix loop l :=
              match l with
              | [] => Some []
              | w :: l' => match standard f h w, loop l' with Some c, Some r => Some (c :: r) | _, _ => None end
              end) l)
        | None => None
        end
    end.

  (** The objects as those of Model_Config.v; [text] gives the scalars that are
      strings. *)
  Variable text : T -> option string.
  Definition forget (h : lheap) : heap value :=
    map (fun o => mkObj (match l_content o with
                         | LDict m => CDict m
                         | LList l => CList (map (fun v => match v with VScalar s => text s | VObj _ => None end) l)
                         end) (l_parent o)) h.
End Load.
Arguments VScalar {T} s.
Arguments VObj {T} a.
Arguments LDict {T} m.
Arguments LList {T} l.
Arguments mkL {T} _ _.
Arguments l_content {T} _.
Arguments l_parent {T} _.
Arguments construct {T} n h.
Arguments load_config {T} n.
Arguments standard {T} fuel h v.
Arguments forget {T} text h.
Arguments put {T} a o h.
Arguments set_parent {T} v p h.
Arguments dict_set {T} a k v h.
Arguments list_append {T} a v h.
