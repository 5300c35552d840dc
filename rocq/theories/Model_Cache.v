(** The cache of files read (hftools/file_formats/__init__.py:86-114).  What is in
    the cache directory is a map from paths to contents; creating the directory
    (path.py:609-614) and reading and writing files as such are assumed to
    succeed.  The name of a file is a single path. *)
From Coq Require Import Ascii String List Arith Bool.
From Verif Require Import Model_NdArray Model_Text Model_Path.
Import ListNotations.
Local Open Scope nat_scope.
Local Open Scope list_scope.

(** str.rfind, plus one (0 for absent). *)
Fixpoint rfind1 (c : ascii) (s : list ascii) : nat :=
  match s with
  | [] => 0
  | d :: s' => match rfind1 c s' with 0 => if Ascii.eqb d c then 1 else 0 | n => S n end
  end.
Definition extsep : ascii := "."%char.
(** os.path.splitext of Python 2.7 (genericpath._splitext), used in path.py:131-137
    and 190-201. *)
Definition splitext (p : list ascii) : list ascii * list ascii :=
  let sepi := rfind1 sep p in
  let doti := rfind1 extsep p in
  if Nat.ltb sepi doti then
    if existsb (fun c => negb (Ascii.eqb c extsep)) (skipn sepi (firstn (doti - 1) p))
    then (firstn (doti - 1) p, skipn (doti - 1) p) else (p, [])
  else (p, []).
(** path.namebase and path.ext (path.py:131-137). *)
Definition namebase (p : list ascii) : list ascii := fst (splitext (snd (os_split p))).
Definition ext (p : list ascii) : list ascii := snd (splitext (snd (os_split p))).

Section Cache.
Context {data content : Type}.
(** save_hdf5: what is in the file afterwards, also if an exception is raised
    (hdf5.py:51-57 opens the file for writing first); read_hdf5 of a content. *)
Context (save : data -> content * option err) (load : content -> result data).

(** One use of the context manager: its arguments, what read_data gives at that
    time, and the body of the with statement, which may change the data or raise. *)
Record use : Type := { u_file : list ascii; u_name : option (list ascii); u_reread : bool; u_read : result data; u_body : data -> bool -> result data }.
Definition disk : Type := list ascii -> option content.
Definition put (k : list ascii) (c : content) (d : disk) : disk := fun k' => if eqb_chars k' k then Some c else d k'.

(** cachedir / name + ".hdf5" (__init__.py:94-98). *)
Definition cache_path (cachedir name : list ascii) : list ascii := os_join1 cachedir name ++ list_ascii_of_string ".hdf5".
Definition key (cachedir : list ascii) (u : use) : list ascii :=
  cache_path cachedir (match u_name u with None => namebase (u_file u) | Some n => n end).

(** What the with statement gets, if anything, and the exception it ends with, if any. *)
Definition outcome : Type := option (data * bool) * option err.
(** read_to_cache (__init__.py:86-105).  An exception of the body is raised at the
    yield, so that nothing is saved. *)
Definition read_to_cache (cachedir : list ascii) (u : use) (d : disk) : disk * outcome :=
  let cachename := key cachedir u in
  match d cachename with
  | Some c =>
      if u_reread u then
        match u_read u with
        | Err e => (d, (None, Some e))
        | Ok x => match u_body u x true with
                  | Err e => (d, (Some (x, true), Some e))
                  | Ok y => (put cachename (fst (save y)) d, (Some (x, true), snd (save y)))
                  end
        end
      else
        match load c with
        | Err e => (d, (None, Some e))
        | Ok x => match u_body u x false with
                  | Err e => (d, (Some (x, false), Some e))
                  | Ok _ => (d, (Some (x, false), None))
                  end
        end
  | None =>
      match u_read u with
      | Err e => (d, (None, Some e))
      | Ok x => match u_body u x true with
                | Err e => (d, (Some (x, true), Some e))
                | Ok y => (put cachename (fst (save y)) d, (Some (x, true), snd (save y)))
                end
      end
  end.
(** read_from_cache (__init__.py:108-114); reread is not used. *)
Definition read_from_cache (cachedir name : list ascii) (reread : bool) (d : disk) : result data :=
  match d (cache_path cachedir name) with Some c => load c | None => Err GenericError end.

(** Uses one after the other, exceptions being caught. *)
Fixpoint uses (cachedir : list ascii) (us : list use) (d : disk) : disk * list outcome :=
  match us with
  | [] => (d, [])
  | u :: us' => let '(d1, o) := read_to_cache cachedir u d in
                let '(d2, os) := uses cachedir us' d1 in (d2, o :: os)
  end.
End Cache.
