(** Going through directories (hftools/_external/path.py:301-480).  The part of the
    file system below a directory is a finite tree that does not change meanwhile;
    there are no cycles of links.  fnmatch.fnmatch is a parameter. *)
From Coq Require Import Ascii String List Arith Bool.
From Verif Require Import Model_NdArray Model_Text Model_Path.
Import ListNotations.
Local Open Scope nat_scope.
Local Open Scope list_scope.

(** A file, something that is neither file nor directory, a directory that cannot
    be listed and one with entries in the order of os.listdir.  os.path.isfile and
    os.path.isdir do not raise exceptions, so the handlers around them
    (path.py:376-385, 459-468) are never entered. *)
Inductive node := File | Special | Closed | Dir (entries : list (list ascii * node)).
Definition isdir (n : node) : bool := match n with Closed | Dir _ => true | _ => false end.
Definition isfile (n : node) : bool := match n with File => true | _ => false end.

(** What an iterator does: the paths it yields and the warnings it gives, in order,
    and the exception that ends it, if any (OSError is GenericError here). *)
Inductive event := Yield (p : list ascii) | Warned (p : list ascii).
Definition trace : Type := list event * option err.
Definition nothing : trace := ([], None).
Definition andthen (a b : trace) : trace := match snd a with Some _ => a | None => (fst a ++ fst b, snd b) end.

(** The parameter errors: the three values allowed and any other. *)
Inductive errors := Strict | Warn | Ignore | Invalid.

Section Walk.
Context (fnmatch : list ascii -> list ascii -> bool).

(** path.fnmatch (path.py:480-486). *)
Definition path_fnmatch (p pattern : list ascii) : bool := fnmatch (snd (os_split p)) pattern.
Definition wanted (pattern : option (list ascii)) (p : list ascii) : bool :=
  match pattern with None => true | Some t => path_fnmatch p t end.
Definition yield_if (b : bool) (p : list ascii) : trace := if b then ([Yield p], None) else nothing.

(** listdir (path.py:301-315), dirs (317-328) and files (330-340): names and what
    they name; None if os.listdir raises. *)
Definition listdir (self : list ascii) (n : node) (pattern : option (list ascii)) : option (list (list ascii * node)) :=
  match n with
  | Dir es => Some (map (fun e => (os_join1 self (fst e), snd e))
                        (filter (fun e => match pattern with None => true | Some t => fnmatch (fst e) t end) es))
  | _ => None
  end.
Definition dirs (self : list ascii) (n : node) (pattern : option (list ascii)) : option (list (list ascii * node)) :=
  match listdir self n pattern with Some es => Some (filter (fun e => isdir (snd e)) es) | None => None end.
Definition files (self : list ascii) (n : node) (pattern : option (list ascii)) : option (list (list ascii * node)) :=
  match listdir self n pattern with Some es => Some (filter (fun e => isfile (snd e)) es) | None => None end.

(** The handler of the exception of listdir (path.py:363-373, 414-424, 446-456). *)
Definition unlistable (errs : errors) (self : list ascii) : trace :=
  match errs with
  | Ignore => nothing
  | Warn => ([Warned self], None)
  | _ => ([], Some GenericError)
  end.

(** walk (path.py:343-394). *)
Fixpoint walk (pattern : option (list ascii)) (errs : errors) (self : list ascii) (n : node) : trace :=
  match errs with Invalid => ([], Some ValueError) | _ =>
    match n with
    | Dir es =>
        (fix loop (es : list (list ascii * node)) : trace :=
           match es with
           | [] => nothing
           | (name, k) :: es' =>
               let child := os_join1 self name in
               andthen (yield_if (wanted pattern child) child)
                 (andthen (if isdir k then walk pattern errs child k else nothing) (loop es'))
           end) es
    | _ => unlistable errs self
    end
  end.

(** walkdirs (path.py:396-430): the loop is over those entries that are directories. *)
Fixpoint walkdirs (pattern : option (list ascii)) (errs : errors) (self : list ascii) (n : node) : trace :=
  match errs with Invalid => ([], Some ValueError) | _ =>
    match n with
    | Dir es =>
        (fix loop (es : list (list ascii * node)) : trace :=
           match es with
           | [] => nothing
           | (name, k) :: es' =>
               if isdir k then
                 let child := os_join1 self name in
                 andthen (yield_if (wanted pattern child) child) (andthen (walkdirs pattern errs child k) (loop es'))
               else loop es'
           end) es
    | _ => unlistable errs self
    end
  end.

(** walkfiles (path.py:432-478). *)
Fixpoint walkfiles (pattern : option (list ascii)) (errs : errors) (self : list ascii) (n : node) : trace :=
  match errs with Invalid => ([], Some ValueError) | _ =>
    match n with
    | Dir es =>
        (fix loop (es : list (list ascii * node)) : trace :=
           match es with
           | [] => nothing
           | (name, k) :: es' =>
               let child := os_join1 self name in
               if isfile k then andthen (yield_if (wanted pattern child) child) (loop es')
               else if isdir k then andthen (walkfiles pattern errs child k) (loop es')
               else loop es'
           end) es
    | _ => unlistable errs self
    end
  end.
End Walk.
