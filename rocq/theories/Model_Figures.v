(** Arranging the windows of figures (plotting/helper.py:765-784 and 787-876 of
    /repo/hftools). A figure is the width and height of its window; the screen
    size and the width of the first screen are parameters. is_in_ipython and the
    drawing switches are left out. *)
From Coq Require Import ZArith List Bool.
Import ListNotations.
Local Open Scope Z_scope.
Local Open Scope list_scope.

Record fig := mkFig { f_w : Z; f_h : Z }.
(** A call of move_fig: the figure, x and y. *)
Definition move : Type := fig * (Z * Z).

(** fig_fits_w, fig_fits_h (helper.py:765-782) *)
Definition fits_w (W : Z) (f : fig) (x : Z) : bool := x + f_w f <? W.
Definition fits_h (H : Z) (f : fig) (y : Z) : bool := y + f_h f <? H.
(** move_fig (helper.py:862-876): where the window goes. *)
Definition placed (W H : Z) (m : move) : Z * Z :=
  (Z.max 0 (Z.min (fst (snd m)) (W - f_w (fst m))), Z.max 0 (Z.min (snd (snd m)) (H - f_h (fst m)))).

Section Arrange.
  Variables (W H xgap ygap x0 : Z).
  (** The loop of arrange_figures (helper.py:830-849), in one call: the moves made
      and the figures left for the call within. *)
  Fixpoint one_pass (figs : list fig) (x y maxheight : Z) : list move * list fig :=
    match figs with
    | [] => ([], [])
    | f :: rest =>
        if fits_w W f x then
          let r := one_pass rest (x + f_w f + xgap) y (Z.max maxheight (f_h f)) in ((f, (x, y)) :: fst r, snd r)
        else
          let y' := y + maxheight + ygap in
          if fits_h H f y' then
            let r := one_pass rest (x0 + f_w f + xgap) y' 0 in ((f, (x0, y')) :: fst r, snd r)
          else ([], figs)
    end.
End Arrange.
(** arrange_figures (helper.py:787-850). [left] is 0, or the width of the first
    screen if screen is 2; DELTAOFFSET is 10; [fuel] bounds the calls within calls. *)
Fixpoint arrange (fuel : nat) (W H xgap ygap left offset : Z) (figs : list fig) : option (list move) :=
  match fuel with
  | O => None
  | S fuel' =>
      let r := one_pass W H xgap ygap (left + offset) figs (left + offset) offset 0 in
      match snd r with
      | [] => Some (fst r)
      | rest => option_map (app (fst r)) (arrange fuel' W H xgap ygap left 10 rest)
      end
  end.
