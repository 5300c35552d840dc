(** The attributes of multiports that stand for their elements: x.S21 of
    hftools/networks/multiports.py.  An array is its shape and its elements
    (Model_NdArray.v); that hfarray(x, copy=False) is a view of the array x, so
    that what is assigned to it arrives in x, is taken as given, as are the
    dimensions, which are those of the view. *)
From Coq Require Import Ascii String List Arith Bool.
From Verif Require Import Model_NdArray Model_Text Model_Words Model_Mdif Model_Merge.
Import ListNotations.
Local Open Scope nat_scope.
Local Open Scope list_scope.

(** "%s%d%d" % (name, i + 1, j + 1) (multiports.py:97) *)
Definition port_label (name : list ascii) (i j : nat) : list ascii := name ++ print_nat (i + 1) ++ print_nat (j + 1).

(** self._attrfuns[label] = accessor (multiports.py:99); an accessor is the pair
    of positions it was made for (multiports.py:47-57). *)
Fixpoint attr_set (k : list ascii) (v : nat * nat) (d : list (list ascii * (nat * nat))) : list (list ascii * (nat * nat)) :=
  match d with
  | [] => [(k, v)]
  | (k', v') :: d' => if eqb_chars k k' then (k, v) :: d' else (k', v') :: attr_set k v d'
  end.
(** self._attrfuns[key] (multiports.py:197) *)
Fixpoint attr_get (k : list ascii) (d : list (list ascii * (nat * nat))) : option (nat * nat) :=
  match d with
  | [] => None
  | (k', v) :: d' => if eqb_chars k k' then Some v else attr_get k d'
  end.

(** _MultiPortArray.__init__ (multiports.py:88-99): the loops over the names and
    the positions.  Without a name or with fewer than two axes there are no
    accessors (multiports.py:85). *)
Definition port_names (s : list ascii) : list (list ascii) := [map lower_char s; upper s; s].
Definition entries (names : list (list ascii)) (n : nat) : list (list ascii * (nat * nat)) :=
  flat_map (fun name => flat_map (fun i => map (fun j => (port_label name i j, (i, j))) (seq 0 n)) (seq 0 n)) names.
Definition attrfuns (shortname : option (list ascii)) (sh : list nat) : list (list ascii * (nat * nat)) :=
  match shortname with
  | Some s => if 2 <=? length sh
              then fold_left (fun d e => attr_set (fst e) (snd e) d) (entries (port_names s) (last sh 0)) []
              else []
  | None => []
  end.

(** The accessor: hfarray(x, copy=False)[..., i, j] (multiports.py:53-55) *)
Definition pick {A} (i j : nat) (x : nd A) : result (nd A) :=
  let sh := nd_shape x in
  if 2 <=? length sh then
    let lead := firstn (length sh - 2) sh in
    if inb (skipn (length sh - 2) sh) [i; j] then Ok (nd_tab lead (fun ix => nd_get x (ix ++ [i; j])))
    else Err IndexError
  else Err IndexError.

(** __getattr__ (multiports.py:195-199).  Python calls it for names that are no
    attributes of the object. *)
Definition port_getattr {A} (shortname : option (list ascii)) (x : nd A) (key : list ascii) : result (nd A) :=
  match attr_get key (attrfuns shortname (nd_shape x)) with
  | Some (i, j) => pick i j x
  | None => Err AttributeError
  end.

(** view[...] = value, the view being the elements at [..., i, j]: the value is
    broadcast to the shape of the view. *)
Definition store {A} (i j : nat) (x value : nd A) : result (nd A) :=
  let sh := nd_shape x in
  let lead := firstn (length sh - 2) sh in
  match fit lead (nd_shape value) with
  | None => Err ValueError
  | Some s => Ok (nd_tab sh (fun ix => if list_eq_dec Nat.eq_dec (skipn (length sh - 2) ix) [i; j]
                                       then nd_get (mkNd s (nd_elems value)) (bindex s (firstn (length sh - 2) ix))
                                       else nd_get x ix))
  end.

(** __setattr__ (multiports.py:201-208).  [has key] says whether the object has
    an attribute of that name already; then the attribute is replaced and the
    elements stay.  A value that is returned is the array afterwards. *)
Definition port_setattr {A} (has : list ascii -> bool) (shortname : option (list ascii)) (x : nd A) (key : list ascii) (value : nd A) : result (nd A) :=
  if has key then Ok x else
  match attr_get key (attrfuns shortname (nd_shape x)) with
  | Some (i, j) => do v <- pick i j x; store i j x value
  | None => Err AttributeError
  end.
