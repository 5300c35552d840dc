(** Merging blocks with scalar sweep parameters into a hypercube
    (hftools/file_formats/merge.py:21-103). *)
From Coq Require Import Ascii String List Arith ZArith Bool.
From Verif Require Import Model_NdArray Model_Dim Model_Array Model_Spdata.
Import ListNotations.
Local Open Scope nat_scope.

Section Merge.
Context {A : Type}.
Variable sltb : string -> string -> bool.        (* < of names *)
Variable ltb : label -> label -> bool.           (* < of values *)
Variable cast : dtype -> A -> A.                 (* storing an element in an array of the type *)

(** A block as it is seen here: the items of ivardata and of vardata. *)
Record mblk : Type := mkBlk { k_ivars : list (string * dim); k_vars : list (string * hf A) }.
Definition coord : Type := list (string * label).

(** coord.sort() (merge.py:32): tuples (name, value). *)
Definition pair_lt (a b : string * label) : bool :=
  if String.eqb (fst a) (fst b) then ltb (snd a) (snd b) else sltb (fst a) (fst b).
Fixpoint coord_insert (x : string * label) (l : coord) : coord :=
  match l with
  | [] => [x]
  | y :: l' => if pair_lt y x then y :: coord_insert x l' else x :: l
  end.
Definition coord_sort (l : coord) : coord := fold_right coord_insert [] l.

(** The coordinates of a block (merge.py:28-33). *)
Definition block_coord (b : mblk) : result coord :=
  do c <- mapM (fun p => do v <- of_option IndexError (hd_error (d_data (snd p))); Ok (fst p, v))
               (filter (fun p => subclass (d_class (snd p)) CDimPartial) (k_ivars b));
  Ok (coord_sort c).

(** data.setdefault(v, []).append(e) (merge.py:36).  (The DataDict is a list of
    keys with their values in the order of the keys.) *)
Fixpoint assoc_add (v : string) (e : coord * hf A) (d : list (string * list (coord * hf A))) : list (string * list (coord * hf A)) :=
  match d with
  | [] => [(v, [e])]
  | (w, es) :: d' => if String.eqb w v then (w, es ++ [e]) :: d' else (w, es) :: assoc_add v e d'
  end.
(** merge_blocks_to_association_list (merge.py:21-37). *)
Fixpoint assoc_loop (bs : list mblk) (d : list (string * list (coord * hf A))) : result (list (string * list (coord * hf A))) :=
  match bs with
  | [] => Ok d
  | b :: bs' => do c <- block_coord b;
                assoc_loop bs' (fold_left (fun d p => assoc_add (fst p) (c, snd p) d) (k_vars b) d)
  end.
Definition association_list (bs : list mblk) : result (list (string * list (coord * hf A))) := assoc_loop bs [].

(** sorted(set(l)) *)
Fixpoint set_insert (x : label) (l : list label) : list label :=
  match l with
  | [] => [x]
  | y :: l' => if label_eqb x y then l else if ltb y x then y :: set_insert x l' else x :: l
  end.
Definition sorted_set (l : list label) : list label := fold_right set_insert [] l.
(** itertools.product *)
Fixpoint product {X} (ls : list (list X)) : list (list X) :=
  match ls with
  | [] => [[]]
  | l :: ls' => flat_map (fun x => map (cons x) (product ls')) l
  end.
(** list.index *)
Fixpoint find_index (x : list label) (l : list (list label)) : option nat :=
  match l with
  | [] => None
  | y :: l' => if list_eqb label_eqb x y then Some 0 else option_map S (find_index x l')
  end.

(** association_list_in_hypercube_order (merge.py:40-58).  (The values in [uniq] are
    different, so that len(p) is the length of the product.)  HFError is
    HFToolsHyperCubeError. *)
Definition hypercube_order (al : list (coord * hf A)) : result (list string * list (list label) * list (list nat * hf A)) :=
  match al with
  | [] => Err IndexError
  | e0 :: _ =>
      let names := map fst (fst e0) in
      let idx := map (fun e => map snd (fst e)) al in
      let uniq := map sorted_set (zip_star idx) in
      let p := product uniq in
      if negb (Nat.eqb (length p) (length al)) then Err HFError
      else
        do out <- mapM (fun q => do k <- of_option ValueError (find_index (fst q) idx);
                                 do e <- of_option IndexError (nth_error al k);
                                 Ok (snd q, snd e))
                       (combine p (product (map (fun u => seq 0 (length u)) uniq)));
        Ok (names, uniq, out)
  end.

(** What an array of shape [s] is taken as when it is assigned to a part of shape
    [t]: axes of length one are added or left out at the front. *)
Definition fit (t s : list nat) : option (list nat) :=
  let s' := if Nat.leb (length s) (length t) then Some (repeat 1 (length t - length s) ++ s)
            else if forallb (Nat.eqb 1) (firstn (length s - length t) s) then Some (skipn (length s - length t) s) else None in
  match s' with
  | Some u => if forallb (fun p => Nat.eqb (fst p) (snd p) || Nat.eqb (fst p) 1) (combine u t) then Some u else None
  | None => None
  end.

(** merge_variable (merge.py:61-103): the variable and the dimensions of its
    parameters.  [np] is 1, or 0 for scalars: the place of the new axes. *)
Definition inner_ix (np k : nat) (ix : list nat) : list nat := firstn k (skipn np ix).
Definition outer_ix (np k : nat) (ix : list nat) : list nat := firstn np ix ++ skipn k (skipn np ix).
Fixpoint assign_all (np k : nat) (t : dtype) (sh : list nat) (out : list (list nat * hf A)) (f : list nat -> option A) : result (list nat -> option A) :=
  match out with
  | [] => Ok f
  | (idx, x) :: out' =>
      match fit sh (h_shape x) with
      | None => Err ValueError
      | Some s => assign_all np k t sh out'
          (fun ix => if list_eqb Nat.eqb (inner_ix np k ix) idx
                     then option_map (cast t) (nd_get (mkNd s (nd_elems (h_nd x))) (bindex s (outer_ix np k ix)))
                     else f ix)
      end
  end.
Definition same_unit (us : list (option string)) : option string :=
  match us with
  | [] => None
  | u :: us' => if forallb (option_eqb String.eqb u) us' then u else None
  end.
Definition merge_variable (al : list (coord * hf A)) : result (hf A * list dim) :=
  do r <- hypercube_order al;
  let names := fst (fst r) in
  let uniq := snd (fst r) in
  match snd r with
  | [] => Err IndexError
  | [(_, x)] => Ok (x, [])
  | (_, proto) :: _ =>
      let sh := h_shape proto in
      let np := Nat.min 1 (length sh) in
      let inner := map (fun p => mkDim CDimRep (fst p) (snd p) None None) (combine names uniq) in
      let newshape := firstn 1 sh ++ map (@length label) uniq ++ skipn 1 sh in
      do f <- assign_all np (length uniq) (h_dt proto) sh (snd r) (fun _ => None);
      do v <- new_raw (nd_tab newshape f) (h_dt proto)
                (Some (firstn 1 (h_dims proto) ++ inner ++ skipn 1 (h_dims proto)))
                (same_unit (map (fun e => h_unit (snd e)) (snd r))) None;
      Ok (v, inner)
  end.
End Merge.
Arguments mblk : clear implicits.
