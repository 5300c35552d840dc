(** Token streams and their combinators (file_formats/readbase.py:33-121 of
    /repo/hftools). *)
From Coq Require Import String List Bool.
From Verif Require Import Model_NdArray.
Import ListNotations.
Local Open Scope list_scope.

Section Stream.
  (** Token (readbase.py:37); [tag] compared by ==. *)
  Variables (R V : Type).
  Record token : Type := mkTok { t_tag : string; t_line : nat; t_rad : R }.
  (** Stream (readbase.py:40-54): an iterator with push-back; the state is the
      list of tokens still to come. *)
  Definition stream : Type := list token.
  Definition s_next (s : stream) : result (token * stream) :=
    match s with [] => Err StopIter | t :: s' => Ok (t, s') end.
  Definition s_push (t : token) (s : stream) : stream := t :: s.

  (** A parser gives its outcome and the stream it leaves behind, also when it
      raises. *)
  Definition parser (A : Type) : Type := stream -> result A * stream.

  (** ExpectEndOfFile (readbase.py:57-62). *)
  Definition expect_end : parser unit := fun s =>
    match s_next s with
    | Ok (_, s') => (Err GenericError, s')          (* ParseError *)
    | Err _ => (Ok tt, s)
    end.

  (** ManyOptional (readbase.py:65-80).  The loop holds one token already taken
      from the stream. *)
  Fixpoint many_loop (name : string) (func : R -> V) (cur : token) (s : stream) (acc : list V) : result (list V) * stream :=
    if String.eqb (t_tag cur) name then
      match s with
      | [] => (Ok (acc ++ [func (t_rad cur)]), [])
      | t :: s' => many_loop name func t s' (acc ++ [func (t_rad cur)])
      end
    else (Ok acc, s_push cur s).
  Definition many_optional (name : string) (func : R -> V) : parser (list V) := fun s =>
    match s_next s with
    | Ok (t, s') => many_loop name func t s' []
    | Err e => (Err e, s)
    end.

  (** Optional (readbase.py:83-96); None is what Python returns when the token
      is not there. *)
  Definition optional (name : string) (func : R -> V) : parser (option V) := fun s =>
    match s_next s with
    | Err _ => (Ok None, s)
    | Ok (t, s') =>
        if String.eqb (t_tag t) name then (Ok (Some (func (t_rad t))), s') else (Ok None, s_push t s')
    end.

  (** OneOf and One (readbase.py:99-116): [func] is never applied. *)
  Definition one_of (names : list string) (func : R -> V) : parser (list R) := fun s =>
    match s_next s with
    | Err e => (Err e, s)
    | Ok (t, s') =>
        if existsb (String.eqb (t_tag t)) names then (Ok [t_rad t], s') else (Err GenericError, s')
    end.
  Definition one (name : string) (func : R -> V) : parser (list R) := one_of [name] func.
End Stream.
Arguments mkTok {R}. Arguments t_tag {R}. Arguments t_line {R}. Arguments t_rad {R}.
