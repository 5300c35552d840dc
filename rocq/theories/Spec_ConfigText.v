(** What the texts of configuration files mean, without reference to how they are
    read: as sets of texts. *)
From Coq Require Import Ascii String List ZArith QArith.
Import ListNotations.
Local Open Scope string_scope.
Local Open Scope char_scope.
Local Open Scope list_scope.

Definition text : Type := list ascii.
Definition txt (s : string) : text := list_ascii_of_string s.
Arguments txt s%string.
Definition figures : list ascii := txt "0123456789".
Definition newline : ascii := ascii_of_nat 10.

(** A number as it may stand before a unit: sign, digits, point, digits,
    exponent. *)
Definition sign (l : text) : Prop := In l [txt ""; txt "-"; txt "+"].
Definition number (n : text) : Prop :=
  exists s d p f e, n = s ++ d ++ p ++ f ++ e /\ sign s /\ incl d figures /\ (p = [] \/ p = ["."]) /\ f <> [] /\ incl f figures /\
    (e = [] \/ exists x s' f', e = x :: s' ++ f' /\ (x = "e" \/ x = "E") /\ sign s' /\ f' <> [] /\ incl f' figures).
(** A plain decimal number without sign and exponent. *)
Definition plain (n : text) : Prop :=
  exists d, d <> [] /\ incl d figures /\ (n = d \/ exists f, incl f figures /\ n = d ++ "." :: f).

(** A text with units of decreasing size; every unit may be missing and blanks may
    follow all but the last one. A newline at the end is ignored. *)
Inductive written (value : text -> Q) : list (Q * list text) -> text -> Q -> Prop :=
| written_end : forall l, l = [] \/ l = [newline] -> written value [] l 0
| written_without : forall u us b l q, incl b [" "] -> (us = [] -> b = []) ->
    written value us l q -> written value (u :: us) (b ++ l) q
| written_with : forall size ws us n b w b' l q, plain n -> incl b [" "] -> In w ws -> incl b' [" "] -> (us = [] -> b' = []) ->
    written value us l q -> written value ((size, ws) :: us) (n ++ b ++ w ++ b' ++ l) (value n * size + q).

Definition interval_units : list (Q * list text) :=
  [(86400, [txt "day"; txt "days"]); (3600, [txt "hour"; txt "hours"]); (60, [txt "minute"; txt "minutes"]); (1, [txt "second"; txt "seconds"])]%Q.

(** The next moment, from [now] on, at which the clock shows hours, minutes and
    seconds; in microseconds since some midnight. *)
Definition next_time (now h m s r : Z) : Prop :=
  (r mod (24 * 60 * 60 * 1000000) = ((h * 60 + m) * 60 + s) * 1000000 /\ now <= r /\ r < now + 24 * 60 * 60 * 1000000)%Z.
(** A number below a hundred in two digits. *)
Definition two_digits (n : Z) (l : text) : Prop :=
  exists a b x y, nth_error figures a = Some x /\ nth_error figures b = Some y /\ l = [x; y] /\ n = Z.of_nat (10 * a + b).
(** "hh:mm:ss..." or "hh:mm..." *)
Definition shows_time (l : text) (h m s : Z) : Prop :=
  exists th tm rest, two_digits h th /\ two_digits m tm /\
    ((exists ts, two_digits s ts /\ l = th ++ ":" :: tm ++ ":" :: ts ++ rest) \/
     (s = 0%Z /\ l = th ++ ":" :: tm ++ rest /\ forall n ts rest', two_digits n ts -> rest <> ":" :: ts ++ rest')).

Definition percents : list (text * Q) := [(txt "%", 1 # 100); (txt "ppm", 1 # 1000000); (txt "ppb", 1 # 1000000000)]%Q.
Definition prefixes : list (ascii * Z) :=
  [("E", 18); ("P", 15); ("T", 12); ("G", 9); ("M", 6); ("k", 3);
   ("d", -1); ("c", -2); ("m", -3); ("u", -6); ("n", -9); ("p", -12); ("f", -15); ("a", -18)]%Z.
Definition units : list text := [txt "Hz"; txt "V"; txt "A"; txt "m"; txt "s"; txt "W"; txt "Ohm"].
Definition ending (l : text) : Prop := l = [] \/ l = [newline].
Definition gap (l : text) : Prop := incl l [" "; ascii_of_nat 9].
