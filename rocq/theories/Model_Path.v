(** Paths (_external/path.py of /repo/hftools) on POSIX: posixpath.split, join,
    normpath and abspath of the standard library, splitall and relpathto. *)
From Coq Require Import Ascii String List Arith Bool Lia.
From Verif Require Import Model_NdArray Model_Text.
Import ListNotations.
Local Open Scope nat_scope.

Definition sep : ascii := "/"%char.
Definition is_sep (c : ascii) : bool := Ascii.eqb c sep.
Definition curdir : list ascii := ["."%char].
Definition pardir : list ascii := ["."%char; "."%char].

(** posixpath.split: after the last slash; trailing slashes of the head are
    removed unless it has nothing else. *)
Definition os_split (p : list ascii) : list ascii * list ascii :=
  let head := rev (drop_while (fun c => negb (is_sep c)) (rev p)) in
  let tail := rev (take_while (fun c => negb (is_sep c)) (rev p)) in
  if forallb is_sep head then (head, tail) else (rev (drop_while is_sep (rev head)), tail).
(** posixpath.join. *)
Definition os_join1 (a b : list ascii) : list ascii :=
  match b with
  | c :: _ => if is_sep c then b
              else match rev a with
                   | [] => b
                   | d :: _ => if is_sep d then a ++ b else a ++ sep :: b
                   end
  | [] => match rev a with
          | [] => []
          | d :: _ => if is_sep d then a else a ++ [sep]
          end
  end.
Definition os_join (a : list ascii) (ps : list (list ascii)) : list ascii := fold_left os_join1 ps a.
(** str.split("/"). *)
Fixpoint split_sep (l : list ascii) : list (list ascii) :=
  match l with
  | [] => [[]]
  | c :: l' => if is_sep c then [] :: split_sep l'
               else match split_sep l' with s :: ss => (c :: s) :: ss | [] => [[c]] end
  end.
(** "/".join(...). *)
Fixpoint join_sep (l : list (list ascii)) : list ascii :=
  match l with
  | [] => []
  | [s] => s
  | s :: l' => s ++ sep :: join_sep l'
  end.
(** posixpath.normpath. *)
Definition initial_slashes (p : list ascii) : nat :=
  match p with
  | a :: b :: c :: _ => if is_sep a then (if is_sep b then (if is_sep c then 1 else 2) else 1) else 0
  | [a; b] => if is_sep a then (if is_sep b then 2 else 1) else 0
  | [a] => if is_sep a then 1 else 0
  | [] => 0
  end.
(** The loop over the components; [acc] is new_comps reversed. *)
Fixpoint norm_loop (rooted : bool) (comps acc : list (list ascii)) : list (list ascii) :=
  match comps with
  | [] => rev acc
  | c :: cs =>
      if eqb_chars c [] || eqb_chars c curdir then norm_loop rooted cs acc
      else if negb (eqb_chars c pardir)
              || (negb rooted && match acc with [] => true | _ => false end)
              || match acc with a :: _ => eqb_chars a pardir | [] => false end
           then norm_loop rooted cs (c :: acc)
           else norm_loop rooted cs (tl acc)
  end.
Definition normpath (p : list ascii) : list ascii :=
  match p with
  | [] => curdir
  | _ =>
      let n := initial_slashes p in
      let r := repeat sep n ++ join_sep (norm_loop (negb (Nat.eqb n 0)) (split_sep p) []) in
      match r with [] => curdir | _ => r end
  end.
(** posixpath.abspath; [cwd] is what os.getcwd() gives. *)
Definition isabs (p : list ascii) : bool := match p with c :: _ => is_sep c | [] => false end.
Definition abspath (cwd p : list ascii) : list ascii := normpath (if isabs p then p else os_join1 cwd p).

(** path.splitall (path.py:232-252); [fuel] bounds the loop, which shortens
    the path each time. *)
Fixpoint splitall_loop (fuel : nat) (loc : list ascii) (parts : list (list ascii)) : list (list ascii) :=
  match fuel with
  | 0 => loc :: parts
  | S f =>
      if eqb_chars loc curdir || eqb_chars loc pardir then loc :: parts
      else let '(loc', child) := os_split loc in
           if eqb_chars loc' loc then loc' :: parts else splitall_loop f loc' (child :: parts)
  end.
Definition splitall (p : list ascii) : list (list ascii) := splitall_loop (S (length p)) p [].

(** The number of equal leading segments (path.py:279-283); os.path.normcase is
    the identity on POSIX. *)
Fixpoint common (a b : list (list ascii)) : nat :=
  match a, b with
  | x :: a', y :: b' => if eqb_chars x y then S (common a' b') else 0
  | _, _ => 0
  end.
(** path.relpathto (path.py:261-297). *)
Definition relpathto (cwd self dest : list ascii) : list ascii :=
  let origin := abspath cwd self in
  let dest := abspath cwd dest in
  let orig_list := splitall origin in
  let dest_list := splitall dest in
  match orig_list, dest_list with
  | o :: _, d :: _ =>
      if negb (eqb_chars o d) then dest
      else let i := common orig_list dest_list in
           match repeat pardir (length orig_list - i) ++ skipn i dest_list with
           | [] => curdir
           | s :: ss => os_join s ss
           end
  | _, _ => dest
  end.
