(** What appending to a file means. *)
From Coq Require Import Ascii String List Arith Bool.
From Verif Require Import Model_NdArray Model_Text Model_Hdf5 Model_Append.
Import ListNotations.
Local Open Scope nat_scope.

Section Spec.
Context {A : Type}.
(** [a'] is [a] with one entry more on axis [ax]: [last] tells what is there. *)
Definition extends (ax : nat) (a a' : nd A) (last : list nat -> option A) : Prop :=
  exists pre n post, nd_shape a = pre ++ n :: post /\ length pre = ax /\ nd_shape a' = pre ++ S n :: post /\ nd_wf a' /\
    forall p i q, length p = ax -> nd_get a' (p ++ i :: q) = if i <? n then nd_get a (p ++ i :: q) else if i =? n then (if inb (pre ++ post) (p ++ q) then last (p ++ q) else None) else None.
(** The array without the axis. *)
Definition slice_shape (ax : nat) (sh sl : list nat) : Prop := exists pre n post, sh = pre ++ n :: post /\ length pre = ax /\ sl = pre ++ post.
(** The first axis without limit. *)
Definition open_axis (d : dset A) (ax : nat) : Prop :=
  nth_error (ds_max d) ax = Some None /\ forall k, k < ax -> nth_error (ds_max d) k <> Some None.
(** Files: different names, arrays with as many limits as axes. *)
Definition dset_ok (d : dset A) : Prop := nd_wf (ds_nd d) /\ length (ds_max d) = length (nd_shape (ds_nd d)).
Definition h5_ok (f : h5 A) : Prop := NoDup (map fst (f_items f)) /\ forall k d, In (k, d) (f_items f) -> dset_ok d.
Definition plain_name (n : list ascii) : Prop := ~ In slash n /\ ~ In backslash n.
(** The name of the variable that is stored under [k]. *)
Definition var_name (k n : list ascii) : Prop := Forall2 (fun c x => if Ascii.eqb c backslash then x = slash else x = c) k n.
End Spec.
