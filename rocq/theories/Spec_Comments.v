(** What a comment line says, without the regular expression. *)
From Coq Require Import Ascii String List Arith ZArith Bool.
From Verif Require Import Model_Text Model_Block.
Import ListNotations.
Local Open Scope list_scope.

Definition blank (l : list ascii) : Prop := Forall (fun c => is_space c = true) l.
Definition separator (c : ascii) : Prop := c = ":"%char \/ c = "="%char.
Definition one_line (l : list ascii) : Prop := ~ In (ascii_of_nat 10) l.
(** Neither begins nor ends with white space. *)
Definition trimmed (l : list ascii) : Prop :=
  (forall c r, l = c :: r -> is_space c = false) /\ (forall c r, l = r ++ [c] -> is_space c = false).

(** name : value  or  name = value *)
Definition plain_comment (l name value : list ascii) : Prop :=
  exists w1 w2 s w3, l = w1 ++ name ++ w2 ++ s :: w3 ++ value /\ blank w1 /\ blank w2 /\ separator s /\ blank w3.
(** name [unit] : value *)
Definition unit_comment (l name unit value : list ascii) : Prop :=
  exists w1 w2 w3 s w4, l = w1 ++ name ++ w2 ++ "["%char :: unit ++ "]"%char :: w3 ++ s :: w4 ++ value /\
    blank w1 /\ blank w2 /\ blank w3 /\ separator s /\ blank w4.

Definition good_name (n : list ascii) : Prop :=
  n <> [] /\ trimmed n /\ one_line n /\ (forall c, In c n -> ~ separator c /\ c <> "["%char).
Definition good_value (v : list ascii) : Prop :=
  v <> [] /\ (forall c r, v = c :: r -> is_space c = false) /\ one_line v.
(** Letters, digits, _ % # / : = and white space. *)
Definition good_unit (u : list ascii) : Prop :=
  u <> [] /\ forall c, In c u -> is_alpha c = true \/ is_digit c = true \/ is_space c = true \/ separator c \/ In c (chars "%#/").

(** *** Lines of a file and what they say *)
(** [b] is the line [c] without exclamation marks at the beginning and white space around. *)
Definition stripped (c b : list ascii) : Prop :=
  exists n w1 w2, c = repeat "!"%char n ++ w1 ++ b ++ w2 /\ blank w1 /\ blank w2 /\ trimmed b /\
    (b = [] -> w2 = []) /\ (w1 = [] -> hd_error b <> Some "!"%char).
(** A line which gives a value: name, unit if there is one, and the value. *)
Definition says (c name : list ascii) (unit : option (list ascii)) (value : list ascii) : Prop :=
  good_name name /\ good_value value /\ exists b, stripped c b /\
    match unit with
    | None => plain_comment b name value
    | Some u => good_unit u /\ unit_comment b name u value
    end.

Local Open Scope nat_scope.
Section Values.
  Context {V : Type}.
  (** The first converter which accepts the value gives it, or it remains text. *)
  Definition converted (fs : list (list ascii -> V -> Prop)) (refuses : list (list ascii -> Prop)) (text : list ascii -> V) (v : list ascii) (x : V) : Prop :=
    (exists i f, nth_error fs i = Some f /\ f v x /\ forall j r, j < i -> nth_error refuses j = Some r -> r v) \/
    ((forall r, In r refuses -> r v) /\ x = text v).
  Fixpoint lookup (k : list ascii) (d : list (list ascii * V)) : option V :=
    match d with
    | [] => None
    | (k', x) :: d' => if list_eq_dec ascii_dec k k' then Some x else lookup k d'
    end.
End Values.
