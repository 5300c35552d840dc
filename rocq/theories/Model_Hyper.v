(** DataBlock.hyper (hftools/dataset/dataset.py:664-710): a flat sweep becomes
    one dimension per named variable. *)
From Coq Require Import Ascii String List Arith ZArith Bool Lia.
From Verif Require Import Model_NdArray Model_Dim Model_Array Model_DataDict Model_Text Model_Block Model_Utils.
Import ListNotations.
Local Open Scope nat_scope.

Section Hyper.
  Context {A : Type}.
  (** What iteration over an array makes of an element, and Python's < on
      these values. *)
  Variable lab : A -> label.
  Variable ltb : label -> label -> bool.

  (** The elements that a loop over self[x] gives (dataset.py:676-679).  Only
      one-dimensional variables are modelled; the rows of others cannot be
      compared with == in a condition (ValueError), a scalar cannot be iterated
      over (TypeError). *)
  Definition column (f : found A) : result (list label) :=
    match f with
    | FVar x => match h_shape x with
                | [] => Err TypeError
                | [_] => Ok (map lab (nd_elems (h_nd x)))
                | _ => Err ValueError
                end
    | FDim x => Ok (nd_elems (h_nd x))
    end.
  Definition found_unit (f : found A) : option string :=
    match f with FVar x => h_unit x | FDim x => h_unit x end.
  Definition found_fmt (f : found A) : string :=
    match f with FVar x => h_fmt x | FDim x => h_fmt x end.

  (** One turn of the loop over dimnames (dataset.py:671-680). *)
  Definition hyper_name (indexed : bool) (x : string) : string :=
    if indexed then (x ++ "_index")%string else x.
  Definition hyper_dim (indexed : bool) (b : block A) (x : string) : result (dim * list label) :=
    do f <- b_get x b;
    do c <- column f;
    Ok (mkDim CDimSweep (hyper_name indexed x) (stable_uniq label_eqb c) (found_unit f) (Some (found_fmt f)), c).

  (** zip of the columns with a last column (dataset.py:684-686): as long as the
      shortest. *)
  Fixpoint zip_rows (cols : list (list label)) (last : list nat) : list (list label * nat) :=
    match cols with
    | [] => map (fun p => ([], p)) last
    | c :: cols' => map (fun q => (fst q :: fst (snd q), snd (snd q))) (combine c (zip_rows cols' last))
    end.

  (** < of the tuples: the first difference decides. *)
  Fixpoint tuple_lt (s t : list label) : bool :=
    match s, t with
    | _, [] => false
    | [], _ :: _ => true
    | x :: s', y :: t' => if label_eqb x y then tuple_lt s' t' else ltb x y
    end.
  Definition row_lt (s t : list label * nat) : bool :=
    if list_eqb label_eqb (fst s) (fst t) then snd s <? snd t else tuple_lt (fst s) (fst t).

  (** sorted: a stable sort that only asks <. *)
  Fixpoint sort_insert (x : list label * nat) (l : list (list label * nat)) : list (list label * nat) :=
    match l with
    | [] => [x]
    | y :: l' => if row_lt y x then y :: sort_insert x l' else x :: l
    end.
  Definition sorted_rows (l : list (list label * nat)) : list (list label * nat) := fold_right sort_insert [] l.

  (** sortorderidx (dataset.py:684-687). *)
  Definition hyper_order (cols : list (list label)) : result (list nat) :=
    match cols with
    | [] => Err IndexError
    | c :: _ => Ok (map snd (sorted_rows (zip_rows cols (seq 0 (length c)))))
    end.

  (** The body of the loop for a variable with the dimension (dataset.py:700-705). *)
  Definition hyper_var (dims : list dim) (order : list nat) (rd : dim) (v : hf A) : result (hf A) :=
    do i <- dims_index (h_dims v) (d_name rd);
    do y <- take (map Z.of_nat order) (AxInt (Z.of_nat i)) v;
    let sh := firstn i (h_shape y) ++ map (fun d => length (d_data d)) dims ++ skipn (S i) (h_shape y) in
    do a <- nd_reshape sh (h_nd y);
    new_raw a (h_dt y) (Some (firstn i (h_dims y) ++ dims ++ skipn (S i) (h_dims y))) (h_unit y) (Some (h_fmt y)).

  Fixpoint hyper_loop (all : bool) (dims : list dim) (order : list nat) (rd : dim)
      (l : list (string * hf A)) (out : block A) : result (block A) :=
    match l with
    | [] => Ok out
    | (k, v) :: l' =>
        do out' <- (if negb (dims_contains (h_dims v) rd) then (if all then b_set lab k v out else Ok out)
                    else if dd_contains k (b_ivar out) then Ok out
                    else do y <- hyper_var dims order rd v; b_set lab k y out);
        hyper_loop all dims order rd l' out'
    end.

  (** The remaining dimensions (dataset.py:707-709). *)
  Fixpoint hyper_rest (rd : dim) (l : list (string * dim)) (out : block A) : block A :=
    match l with
    | [] => out
    | (k, d) :: l' =>
        hyper_rest rd l' (if negb (b_contains k out) && negb (String.eqb k (d_name rd)) then b_set_dim k d out else out)
    end.

  Definition hyper (names : list string) (replacedim : string) (indexed all : bool) (b : block A) : result (block A) :=
    do rd <- dd_get replacedim (b_ivar b);
    do dcs <- mapM (hyper_dim indexed b) names;
    do order <- hyper_order (map snd dcs);
    let dims := map fst dcs in
    let iv := fold_left (fun iv d => dd_set (d_name d) d iv) dims dd_empty in
    do vars <- dd_items (b_var b);
    do out <- hyper_loop all dims order rd vars (mkBlock dd_empty iv None);
    do ivs <- dd_items (b_ivar b);
    Ok (hyper_rest rd ivs out).
End Hyper.
