(** What an extension is, and what a use of the cache stores. *)
From Coq Require Import Ascii String List.
From Verif Require Import Model_NdArray Model_Path Model_Cache.
Import ListNotations.
Local Open Scope list_scope.

(** A last segment of a path, and what is before it. *)
Definition segment (p dir seg : list ascii) : Prop := p = dir ++ seg /\ ~ In sep seg /\ (dir = [] \/ exists d, dir = d ++ [sep]).
(** [e] is an extension after [a]: a dot and what follows it, without further dots
    and slashes; before it the last segment has something other than dots. *)
Definition extension (a e : list ascii) : Prop :=
  (exists t, e = extsep :: t /\ ~ In extsep t /\ ~ In sep t) /\ exists dir seg c, segment a dir seg /\ In c seg /\ c <> extsep.
(** [a] and [e] are the path without its extension, and the extension. *)
Definition parts (p a e : list ascii) : Prop :=
  p = a ++ e /\ (extension a e \/ (e = [] /\ forall a' e', p = a' ++ e' -> ~ extension a' e')).

(** If the file is read, this is stored unless something fails. *)
Definition stores {data content} (save : data -> content * option err) (u : use) (c : content) : Prop :=
  exists x y, u_read u = Ok x /\ u_body u x true = Ok y /\ c = fst (save y).
