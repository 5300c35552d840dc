(** The columns of an MDIF file gathered to matrices and vectors
    (hftools/file_formats/mdif.py:274-309, 376-436). *)
From Coq Require Import Ascii String List Arith Bool.
From Verif Require Import Model_NdArray Model_Dim Model_Array Model_DataDict Model_Text Model_Block Model_MatNames Model_Elements.
Import ListNotations.
Local Open Scope char_scope.
Local Open Scope string_scope.
Local Open Scope nat_scope.
Local Open Scope list_scope.

(** What stands in brackets: one index or two. *)
Definition subscript : Type := option (nat * option nat).

(** [a-zA-Z0-9] *)
Definition is_alnum (c : ascii) : bool :=
  let n := nat_of_ascii c in ((65 <=? n) && (n <=? 90)) || ((97 <=? n) && (n <=? 122)) || is_digit c.

(** \(([a-zA-Z0-9]+)\)$ of reg_matrix (mdif.py:378). *)
Definition type_end (l : list ascii) : bool :=
  match l with
  | "("%char :: l' =>
      match take_while is_alnum l', drop_while is_alnum l' with
      | _ :: _, [")"%char] => true
      | _, _ => false
      end
  | _ => false
  end.

(** \[(\d+)(,(\d+))?\] and the type after it (mdif.py:377-378). *)
Definition subscript_end (l : list ascii) : option (nat * option nat) :=
  match l with
  | "["%char :: l1 =>
      let d1 := take_while is_digit l1 in
      match d1, drop_while is_digit l1 with
      | _ :: _, "]"%char :: l2 => if type_end l2 then Some (digits_value d1, None) else None
      | _ :: _, ","%char :: l2 =>
          let d2 := take_while is_digit l2 in
          match d2, drop_while is_digit l2 with
          | _ :: _, "]"%char :: l3 => if type_end l3 then Some (digits_value d1, Some (digits_value d2)) else None
          | _, _ => None
          end
      | _, _ => None
      end
  | _ => None
  end.

(** [^[]+ takes all it can and gives back one character after the other: without
    a bracket the type is what stands in the last parentheses.  [pre] is what
    stands before [l]. *)
Fixpoint scan_plain (pre l : list ascii) : option (list ascii) :=
  match l with
  | [] => None
  | c :: l' =>
      match scan_plain (pre ++ [c]) l' with
      | Some r => Some r
      | None => match pre with
                | [] => None
                | _ => if type_end l then Some pre else None
                end
      end
  end.

(** reg_matrix.match (mdif.py:377-378): name and subscript.  A trailing newline,
    which $ would allow, is not modelled: the words of a header have none. *)
Definition match_column (h : list ascii) : option (list ascii * subscript) :=
  let v := take_while (fun c => negb (Ascii.eqb c "[")) h in
  match drop_while (fun c => negb (Ascii.eqb c "[")) h with
  | [] => option_map (fun n => (n, None)) (scan_plain [] h)
  | r => match v with
         | [] => None
         | _ => option_map (fun s => (v, Some s)) (subscript_end r)
         end
  end.

(** d.setdefault(key, []).append(x) *)
Fixpoint add_to {X} (v : list ascii) (x : X) (g : list (list ascii * list X)) : list (list ascii * list X) :=
  match g with
  | [] => [(v, [x])]
  | (w, xs) :: g' => if eqb_chars v w then (w, xs ++ [x]) :: g' else (w, xs) :: add_to v x g'
  end.

(** match_matrix_names (mdif.py:376-416) without offsets, types and the list of
    scalars, which make_matrices does not use. *)
Definition all_matrices (header : list (list ascii)) : list (list ascii * list (nat * nat)) :=
  fold_left (fun g h => match match_column h with Some (v, Some (i, Some j)) => add_to v (i, j) g | _ => g end) header [].
Definition all_vectors (header : list (list ascii)) : list (list ascii * list nat) :=
  fold_left (fun g h => match match_column h with Some (v, Some (i, None)) => add_to v i g | _ => g end) header [].
Definition match_matrices (header : list (list ascii)) : list (list ascii * list (nat * nat)) :=
  filter (fun p => mdif_is_matrix (snd p)) (all_matrices header).
Definition match_vectors (header : list (list ascii)) : list (list ascii * list nat) :=
  filter (fun p => mdif_is_vector (snd p)) (all_vectors header).

(** "%s[%s,%s]" % (matrix, i, j) and "%s[%s]" % (matrix, i) (mdif.py:281, 296). *)
Definition matrix_column (v : list ascii) (i j : nat) : string :=
  string_of_list_ascii (v ++ "["%char :: print_nat i ++ ","%char :: print_nat j ++ ["]"%char]).
Definition vector_column (v : list ascii) (i : nat) : string :=
  string_of_list_ascii (v ++ "["%char :: print_nat i ++ ["]"%char]).

(** Comparison of pairs for a.sort() (mdif.py:278). *)
Definition pair_ltb (p q : nat * nat) : bool :=
  (fst p <? fst q) || (Nat.eqb (fst p) (fst q) && (snd p <? snd q)).

(** list.insert inside the list or at its end *)
Definition l_insert (n : nat) (k : string) (l : list string) : list string := firstn n l ++ k :: skipn n l.

Section Gather.
Context {A : Type}.
Variable common : list dtype -> dtype.        (* the type that numpy.concatenate chooses *)
Variable cast : dtype -> A -> A.              (* storing an element in an array of the type *)

(** numpy.concatenate([numpy.array(x)[:, newaxis] ...], 1) (mdif.py:282-284,
    297-299).  Columns of more than one dimension, which the reader never makes,
    are not modelled (ValueError here). *)
Definition np_columns (xs : list (hf A)) : result (nd A * dtype) :=
  if existsb (fun x => Nat.eqb (length (h_shape x)) 0) xs then Err IndexError else
  match xs with
  | [] => Err ValueError
  | x0 :: _ =>
      match h_shape x0 with
      | [n] =>
          if forallb (fun x => list_eqb Nat.eqb (h_shape x) [n]) xs then
            let t := common (map h_dt xs) in
            Ok (nd_tab [n; length xs] (fun ix => match ix with
                  | [r; c] => match nth_error xs c with
                              | Some x => option_map (cast t) (nd_get (h_nd x) [r])
                              | None => None
                              end
                  | _ => None
                  end), t)
          else Err ValueError
      | _ => Err ValueError
      end
  end.

(** Deleting variables one after the other (mdif.py:290-291, 306-307). *)
Fixpoint dd_dels (ks : list string) (d : ddict (hf A)) : result (ddict (hf A)) :=
  match ks with [] => Ok d | k :: ks' => do d' <- dd_del k d; dd_dels ks' d' end.

(** min of a list (mdif.py:288, 304) *)
Fixpoint min_of (l : list nat) : result nat :=
  match l with
  | [] => Err ValueError
  | [n] => Ok n
  | n :: l' => do m <- min_of l'; Ok (Nat.min n m)
  end.

(** The body of both loops of make_matrices (mdif.py:279-293, 296-309): [names]
    are the columns in the order of their indices, [tail] the dimensions that
    make_matrix or make_vector adds (arrayobj.py:1014-1022).  The dimensions are
    those of the last column, for which the loop variables are left. *)
Definition gather (v : string) (names : list string) (tail : list dim) (d : ddict (hf A)) : result (ddict (hf A)) :=
  do xs <- mapM (fun k => dd_get k d) names;
  do (X, t) <- np_columns xs;
  do x <- of_option ValueError (hd_error (rev xs));
  do Y <- nd_reshape (firstn 1 (nd_shape X) ++ map (fun e => length (d_data e)) tail) X;
  do m <- new_raw Y t (Some (h_dims x ++ tail)) None None;
  let d1 := dd_set v m d in
  do ps <- mapM (fun k => l_index k (dd_order d1)) names;
  do idx <- min_of ps;
  do d2 <- dd_dels names d1;
  do p <- l_index v (dd_order d2);
  Ok (mkDD (dd_map d2) (l_insert idx v (l_del p (dd_order d2)))).

(** One matrix (mdif.py:276-293) and one vector (mdif.py:295-309). *)
Definition gather_matrix (v : list ascii) (l : list (nat * nat)) (d : ddict (hf A)) : result (ddict (hf A)) :=
  gather (string_of_list_ascii v) (map (fun p => matrix_column v (fst p) (snd p)) (sort_by pair_ltb l))
    [mdim_i (length (int_set (map fst l))); mdim_j (length (int_set (map snd l)))] d.
Definition gather_vector (v : list ascii) (l : list nat) (d : ddict (hf A)) : result (ddict (hf A)) :=
  gather (string_of_list_ascii v) (map (vector_column v) (sort_by Nat.ltb l)) [mdim_j (length l)] d.

Fixpoint each_group {X} (f : list ascii -> X -> ddict (hf A) -> result (ddict (hf A))) (g : list (list ascii * X)) (d : ddict (hf A))
    : result (ddict (hf A)) :=
  match g with [] => Ok d | (v, l) :: g' => do d' <- f v l d; each_group f g' d' end.

(** make_matrices (mdif.py:274-309) on the variables of a block.  [ordm] and
    [ordv] are the orders in which the dictionaries are gone through. *)
Definition make_matrices (ordm : list (list ascii * list (nat * nat)) -> list (list ascii * list (nat * nat)))
    (ordv : list (list ascii * list nat) -> list (list ascii * list nat)) (header : list (list ascii)) (d : ddict (hf A))
    : result (ddict (hf A)) :=
  do d' <- each_group gather_matrix (ordm (match_matrices header)) d;
  each_group gather_vector (ordv (match_vectors header)) d'.
End Gather.
