(** Where things are in a tree of directories, and in which order. *)
From Coq Require Import Ascii String List Arith Sorted.
From Verif Require Import Model_NdArray Model_Path Model_Walk.
Import ListNotations.
Local Open Scope nat_scope.
Local Open Scope list_scope.

(** [item n pos names k]: [k] is found below [n] at the position [pos] (the number
    of the entry in every directory on the way), along the names [names]. *)
Inductive item : node -> list nat -> list (list ascii) -> node -> Prop :=
| item_here : forall n, item n [] [] n
| item_in : forall es i name k pos names k', nth_error es i = Some (name, k) -> item k pos names k' -> item (Dir es) (i :: pos) (name :: names) k'.

(** Names of entries are not empty and do not contain slashes. *)
Definition proper (n : node) : Prop := forall pos names k, item n pos names k -> Forall (fun s => s <> [] /\ ~ In sep s) names.

(** The order of a depth-first traversal: a directory before what it contains, and
    all of this before the next entry. *)
Inductive before : list nat -> list nat -> Prop :=
| before_inside : forall i p, before [] (i :: p)
| before_next : forall i j p q, i < j -> before (i :: p) (j :: q)
| before_same : forall i p q, before p q -> before (i :: p) (i :: q).

(** [listed n P ps]: the positions and names of all items below [n] with the
    property [P] of the last name and the item, each once, in this order. *)
Definition place : Type := list nat * list (list ascii).
Definition listed (n : node) (P : list ascii -> node -> Prop) (ps : list place) : Prop :=
  StronglySorted (fun a b => before (fst a) (fst b)) ps /\
  forall pos names, In (pos, names) ps <-> exists names' name k, names = names' ++ [name] /\ item n pos names k /\ P name k.
(** The path of an item. *)
Definition path_of (root : list ascii) (p : place) : list ascii := os_join root (snd p).

(** What a traversal does, with places instead of paths; [true] marks a warning
    about a directory, which comes after the directory itself. *)
Definition tag : Type := place * bool.
Definition tag_before (a b : tag) : Prop := before (fst (fst a)) (fst (fst b)) \/ (fst (fst a) = fst (fst b) /\ snd a = false /\ snd b = true).
Definition ev (root : list ascii) (t : tag) : event := if snd t then Warned (path_of root (fst t)) else Yield (path_of root (fst t)).
Definition yields (ts : list tag) : list place := map fst (filter (fun t => negb (snd t)) ts).
Definition warns (ts : list tag) : list place := map fst (filter snd ts).

(** The directories that cannot be listed, in the order of the traversal. *)
Definition closed (n : node) (ps : list place) : Prop :=
  StronglySorted (fun a b => before (fst a) (fst b)) ps /\ forall pos names, In (pos, names) ps <-> item n pos names Closed.
(** The items meant: those of some kind whose name fits the pattern, if there is one. *)
Definition picks (fnmatch : list ascii -> list ascii -> bool) (pattern : option (list ascii)) (kind : node -> Prop) (name : list ascii) (k : node) : Prop :=
  kind k /\ forall t, pattern = Some t -> fnmatch name t = true.
Definition any (k : node) : Prop := True.
Definition directory (k : node) : Prop := k = Closed \/ exists es, k = Dir es.
Definition file (k : node) : Prop := k = File.

Definition traversal (fnmatch : list ascii -> list ascii -> bool) (go : option (list ascii) -> errors -> list ascii -> node -> trace) (kind : node -> Prop) : Prop :=
  forall pattern root n, directory n -> proper n ->
  exists ts ps cs, StronglySorted tag_before ts /\ yields ts = ps /\ warns ts = cs /\
    listed n (picks fnmatch pattern kind) ps /\ closed n cs /\
    (* errors are ignored: all the items in order, each once *)
    go pattern Ignore root n = (map (fun p => Yield (path_of root p)) ps, None) /\
    (* errors are warned about: in addition a warning for every directory that cannot be listed *)
    go pattern Warn root n = (map (ev root) ts, None) /\
    (* strict: the first such directory ends the traversal, after what comes before it and itself *)
    (cs = [] -> go pattern Strict root n = (map (fun p => Yield (path_of root p)) ps, None)) /\
    (forall c cs', cs = c :: cs' -> exists ps' rest, ps = ps' ++ rest /\ go pattern Strict root n = (map (fun p => Yield (path_of root p)) ps', Some GenericError) /\
       forall p, In p ps' <-> In p ps /\ (before (fst p) (fst c) \/ fst p = fst c)).

(** No directory has two entries of the same name. *)
Definition unambiguous (n : node) : Prop := forall pos names es, item n pos names (Dir es) -> NoDup (map fst es).
