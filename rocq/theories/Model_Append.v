(** Appending to an HDF5 file (hftools/file_formats/hdf5/v_02.py:40-41, 180-200).
    h5py is not in /repo: a file is its version attribute and its datasets in the
    order of iteration; a dataset is its array and its maxshape ([None] is an axis
    without limit).  Attributes and dimension scales of datasets, which append does
    not touch, are left out. *)
From Coq Require Import Ascii String List Arith Bool.
From Verif Require Import Model_NdArray Model_Text Model_Merge Model_Hdf5.
Import ListNotations.
Local Open Scope nat_scope.

Section Append.
Context {A : Type}.
Variable fill : A.                (* what new elements of a dataset are before they are written *)
Variable conv : A -> A.           (* cast_arrays_to_hdf5 (v_02.py:69-80) and storing in the dataset *)

Record dset : Type := mkDset { ds_nd : nd A; ds_max : list (option nat) }.
Record h5 : Type := mkH5 { f_version : option (list ascii); f_items : list (list ascii * dset) }.

(** dataset.resize(dataset.shape[ax] + 1, axis=ax) (v_02.py:40-41): an axis with a
    limit cannot be extended (files written by save_hdf5 have no room on it). *)
Definition change_at {X} (k : nat) (f : X -> X) (l : list X) : list X :=
  firstn k l ++ match skipn k l with [] => [] | x :: r => f x :: r end.
Definition nd_grow (ax : nat) (a : nd A) : nd A :=
  nd_tab (change_at ax S (nd_shape a))
         (fun ix => if nth ax ix 0 <? nth ax (nd_shape a) 0 then nd_get a ix else Some fill).
Definition expand_dataset (ax : nat) (d : dset) : result dset :=
  match nth_error (ds_max d) ax with
  | Some None => Ok (mkDset (nd_grow ax (ds_nd d)) (ds_max d))
  | _ => Err TypeError
  end.
(** dataset[(slice(None),) * ax + (shape[ax] - 1,)] = x (v_02.py:199-200). *)
Definition drop_at {X} (k : nat) (l : list X) : list X := firstn k l ++ skipn (S k) l.
Definition write_last (ax : nat) (x : nd A) (d : dset) : result dset :=
  let sh := nd_shape (ds_nd d) in
  match fit (drop_at ax sh) (nd_shape x) with
  | None => Err TypeError
  | Some s =>
      Ok (mkDset (nd_tab sh (fun ix => if S (nth ax ix 0) =? nth ax sh 0
                                       then option_map conv (nd_get (mkNd s (nd_elems x)) (bindex s (drop_at ax ix)))
                                       else nd_get (ds_nd d) ix))
                 (ds_max d))
  end.
(** maxshape.index(None) *)
Fixpoint index_none (l : list (option nat)) : option nat :=
  match l with
  | [] => None
  | None :: _ => Some 0
  | Some _ :: l' => option_map S (index_none l')
  end.

(** The body of the loop for one dataset (v_02.py:191-200): the exception, if any,
    and the dataset as it is then.  [ivars] and [vars] are the independent and the
    other variables of the block, [ename] the name of the append dimension. *)
Definition has_name (n : list ascii) (l : list (list ascii)) : bool := existsb (eqb_chars n) l.
Fixpoint var_of (n : list ascii) (vars : list (list ascii * nd A)) : option (nd A) :=
  match vars with [] => None | (m, x) :: r => if eqb_chars m n then Some x else var_of n r end.
Definition append_one (ename : list ascii) (ivars : list (list ascii)) (vars : list (list ascii * nd A)) (p : list ascii * dset) : option err * dset :=
  let uk := unescape_varname (fst p) in
  if has_name uk ivars || eqb_chars uk ename then (None, snd p)
  else match var_of uk vars with
       | None => (Some ValueError, snd p)
       | Some x =>
           match index_none (ds_max (snd p)) with
           | None => (Some ValueError, snd p)
           | Some ax =>
               match expand_dataset ax (snd p) with
               | Err e => (Some e, snd p)
               | Ok d => match write_last ax x d with
                         | Err e => (Some e, d)
                         | Ok d' => (None, d')
                         end
               end
           end
       end.
Fixpoint append_loop ename ivars vars (items : list (list ascii * dset)) : option err * list (list ascii * dset) :=
  match items with
  | [] => (None, [])
  | p :: r =>
      match append_one ename ivars vars p with
      | (Some e, d) => (Some e, (fst p, d) :: r)
      | (None, d) => let '(e, r') := append_loop ename ivars vars r in (e, (fst p, d) :: r')
      end
  end.
(** filehandle[name] and replacing it. *)
Fixpoint item (n : list ascii) (items : list (list ascii * dset)) : option dset :=
  match items with [] => None | (m, d) :: r => if eqb_chars m n then Some d else item n r end.
Fixpoint set_item (n : list ascii) (d : dset) (items : list (list ascii * dset)) : list (list ascii * dset) :=
  match items with [] => [] | (m, e) :: r => if eqb_chars m n then (m, d) :: r else (m, e) :: set_item n d r end.
Definition version2 : list ascii := chars "0.2".

(** append_hdf5 (v_02.py:180-200): the exception, if any, and the file as it is then.
    [filehandle[expanddim.name].value[-1] = idx] changes a copy of the data. *)
Definition append_hdf5 (ename : list ascii) (ivars : list (list ascii)) (vars : list (list ascii * nd A)) (f : h5) : option err * h5 :=
  match f_version f with
  | Some v =>
      if eqb_chars v version2 then
        match item ename (f_items f) with
        | None => (Some KeyError, f)
        | Some d =>
            match nd_shape (ds_nd d) with
            | [] | 0 :: _ => (Some ValueError, f)
            | _ =>
                match expand_dataset 0 d with
                | Err e => (Some e, f)
                | Ok d' => let '(e, r) := append_loop ename ivars vars (set_item ename d' (f_items f)) in (e, mkH5 (f_version f) r)
                end
            end
        end
      else (Some GenericError, f)
  | None => (Some GenericError, f)
  end.
End Append.
Arguments dset : clear implicits.
Arguments h5 : clear implicits.
