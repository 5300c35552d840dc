(** Numbers, times and intervals written in configuration files
    (file_formats/config.py:23-34 and 204-345 of /repo/hftools): the functions that
    turn the text of a YAML scalar into a value and back.

    Floating point numbers are taken as rational numbers; float(text) and
    '%s' % number are parameters. A timedelta is a number of seconds, a datetime a
    number of microseconds since some midnight (no time zones). The YAML library,
    which finds the scalars and decides which constructor is called, is not
    modelled. *)
From Coq Require Import Ascii String List Arith ZArith QArith Qround Bool Lia.
From Verif Require Import Model_NdArray Model_Text Model_Words Model_Comments Model_Si.
Import ListNotations.
Local Open Scope char_scope.
Local Open Scope string_scope.
Local Open Scope nat_scope.
Local Open Scope list_scope.

(** ** More of regular expressions by backtracking (see Model_Comments) *)
Section Re2.
  Context {R : Type}.
  Definition piece : Type := (list ascii -> list ascii -> option R) -> list ascii -> list ascii -> option R.
  (** One character. *)
  Definition single (p : ascii -> bool) : piece := fun k acc l =>
    match l with c :: l' => if p c then k (acc ++ [c]) l' else None | [] => None end.
  (** (piece)?: with it if possible *)
  Definition maybe (g : piece) : piece := fun k acc l =>
    match g k acc l with Some r => Some r | None => k acc l end.
  Definition many (p : ascii -> bool) : piece := fun k acc l => star p k acc l.
  (** One piece after the other. *)
  Definition seq (g h : piece) : piece := fun k => g (h k).
  Definition some (p : ascii -> bool) : piece := seq (single p) (many p).
  (** A word, and one of several words, the first that does. *)
  Definition word (w : list ascii) : piece := fun k acc l =>
    if starts_with w l then k (acc ++ w) (skipn (length w) l) else None.
  Fixpoint alt (ws : list (list ascii)) : piece := fun k acc l =>
    match ws with
    | [] => None
    | w :: ws' => match word w k acc l with Some r => Some r | None => alt ws' k acc l end
    end.
End Re2.
Arguments piece : clear implicits.

(** $: the end, or before a newline at the end *)
Definition at_end (l : list ascii) : bool :=
  match l with [] => true | [c] => Ascii.eqb c (ascii_of_nat 10) | _ => false end.
Definition is (c : ascii) : ascii -> bool := Ascii.eqb c.
Definition blank (c : ascii) : bool := is " " c || is (ascii_of_nat 9) c.

(** [-+]?[0-9]*\.?[0-9]+([eE][-+]?[0-9]+)? (config.py:255, 258) *)
Definition re_sign {R} : piece R := maybe (single (fun c => is "-" c || is "+" c)).
Definition re_number {R} : piece R :=
  seq re_sign (seq (many is_digit) (seq (maybe (single (is "."))) (seq (some is_digit)
    (maybe (seq (single is_e) (seq re_sign (some is_digit))))))).

(** reg_si_value.match (config.py:255-256): the groups num, exp and unit. The
    group around the two optional groups may be empty, so its own question mark
    changes nothing. *)
Definition si_prefix_letters : list ascii := chars "dcmunpfakMGTPE".
Definition config_units : list (list ascii) := map chars ["Hz"; "V"; "A"; "m"; "s"; "W"; "Ohm"].
Definition one_of (cs : list ascii) (c : ascii) : bool := existsb (is c) cs.
Definition opt_text (l : list ascii) : option (list ascii) := match l with [] => None | _ => Some l end.
Definition reg_si_value (l : list ascii) : option (list ascii * option (list ascii) * option (list ascii)) :=
  re_number (fun num l1 =>
    many blank (fun _ l2 =>
      maybe (single (one_of si_prefix_letters)) (fun e l3 =>
        maybe (alt config_units) (fun u l4 =>
          if at_end l4 then Some (num, opt_text e, opt_text u) else None) [] l3) [] l2) [] l1) [] l.

(** reg_percent_value.match (config.py:258-259): the groups v and kind. *)
Definition percent_kinds : list (list ascii) := map chars ["%"; "ppm"; "ppb"].
Definition reg_percent_value (l : list ascii) : option (list ascii * list ascii) :=
  re_number (fun v l1 =>
    many blank (fun _ l2 =>
      alt percent_kinds (fun kind l3 => if at_end l3 then Some (v, kind) else None) [] l2) [] l1) [] l.

(** timeintervallpattern.match (config.py:269-272): the groups days, hours, minutes
    and seconds. Blanks may stand between two of the four groups. *)
Definition interval_words : list (list (list ascii)) :=
  [map chars ["days"; "day"]; map chars ["hour"; "hours"]; map chars ["minutes"; "minute"]; map chars ["second"; "seconds"]].
Definition re_plain {R} : piece R := seq (some is_digit) (maybe (seq (single (is ".")) (many is_digit))).
Definition re_amount {R} (ws : list (list ascii)) (k : option (list ascii) -> list ascii -> option R) (l : list ascii) : option R :=
  match re_plain (fun n l1 => seq (many (is " ")) (alt ws) (fun _ l2 => k (Some n) l2) [] l1) [] l with
  | Some r => Some r
  | None => k None l
  end.
Fixpoint re_interval (wss : list (list (list ascii))) (got : list (option (list ascii))) (l : list ascii)
  : option (list (option (list ascii))) :=
  match wss with
  | [] => if at_end l then Some got else None
  | ws :: wss' =>
      re_amount ws (fun o l' =>
        match wss' with
        | [] => if at_end l' then Some (got ++ [o]) else None
        | _ => many (is " ") (fun _ l'' => re_interval wss' (got ++ [o]) l'') [] l'
        end) l
  end.

(** regtime.match (config.py:262): hours, minutes and seconds. *)
Definition re_2digits {R} (k : list ascii -> list ascii -> option R) (l : list ascii) : option R :=
  seq (single is_digit) (single is_digit) k [] l.
Definition re_colon {R} (k : list ascii -> option R) (l : list ascii) : option R := single (is ":") (fun _ => k) [] l.
Definition regtime (l : list ascii) : option (list ascii * list ascii * option (list ascii)) :=
  re_2digits (fun h l1 => re_colon (re_2digits (fun m l2 =>
    match re_colon (re_2digits (fun s _ => Some (h, m, Some s))) l2 with
    | Some r => Some r
    | None => Some (h, m, None)
    end)) l1) l.

Section Values.
  (** float(text), and '%s' % number. *)
  Variable to_float : list ascii -> Q.
  Variable show : Q -> list ascii.
  Local Open Scope Q_scope.

  (** convert_si_value (config.py:23-34) of a text, and SIValue.__new__
      (config.py:204-210): a text that does not match goes to float. *)
  Definition convert_si_value (l : list ascii) : option (Q * option (list ascii)) :=
    match reg_si_value l with
    | Some (num, e, unit) =>
        match e with
        | None => Some (to_float num, unit)
        | Some p => match p with
                    | [c] => match assoc_char c siprefixes with
                             | Some x => Some (to_float num * pow10 x, unit)
                             | None => None
                             end
                    | _ => None
                    end
        end
    | None => None
    end.
  Definition new_sivalue (l : list ascii) : Q * option (list ascii) :=
    match convert_si_value l with Some r => r | None => (to_float l, None) end.
  (** sivalue_representer (config.py:220-224): the text. *)
  Definition sivalue_representer (data : Q * option (list ascii)) : list ascii :=
    match snd data with
    | Some unit => show (fst data) ++ unit
    | None => show (fst data)
    end.

  (** percentvalue_constructor (config.py:280-291). *)
  Definition percentvalue_constructor (l : list ascii) : result Q :=
    match reg_percent_value l with
    | None => Err AttributeError
    | Some (v, kind) =>
        if eqb_chars kind (chars "%") then Ok (to_float v * (1 # 100))
        else if eqb_chars kind (chars "ppm") then Ok (to_float v * (1 # 1000000))
        else if eqb_chars kind (chars "ppb") then Ok (to_float v * (1 # 1000000000))
        else Err ValueError
    end.

  (** timeintervall_representer (config.py:228-247): the text. [//] rounds down. *)
  Definition floordiv (a b : Q) : Q := inject_Z (Qfloor (a / b)).
  Definition said (n : Q) (w : string) : list (list ascii) :=
    if Qeq_bool n 0 then [] else [show n ++ chars w].
  Definition timeintervall_representer (data : Q) : list ascii :=
    let tremain := data in
    let days := floordiv tremain (3600 * 24) in
    let tremain := tremain - days * 3600 * 24 in
    let hours := floordiv tremain 3600 in
    let tremain := tremain - hours * 3600 in
    let minutes := floordiv tremain 60 in
    let tremain := tremain - minutes * 60 in
    let seconds := tremain in
    join (chars " ") (said days " days" ++ said hours " hours" ++ said minutes " minutes" ++ said seconds " seconds").

  (** timeintervall_constructor (config.py:294-306). timedelta adds the four up (it
      rounds to microseconds, which is not modelled). *)
  Definition amount (o : option (list ascii)) : Q := match o with None => 0 | Some t => to_float t end.
  Definition timeintervall_constructor (l : list ascii) : result Q :=
    match re_interval interval_words [] l with
    | Some [days; hours; minutes; seconds] =>
        Ok (amount days * (3600 * 24) + amount hours * 3600 + amount minutes * 60 + amount seconds)
    | _ => Err AttributeError
    end.
End Values.

Section Clock.
  Local Open Scope Z_scope.
  Definition second : Z := 1000000.
  Definition day : Z := 86400 * second.
  (** datetime.time(h, m, s) *)
  Definition clock_time (h m s : nat) : result Z :=
    if (h <? 24)%nat && (m <? 60)%nat && (s <? 60)%nat then Ok ((Z.of_nat h * 3600 + Z.of_nat m * 60 + Z.of_nat s) * second)
    else Err ValueError.
  (** time_constructor (config.py:314-325); [dnow] is datetime.today(). *)
  Definition time_constructor (dnow : Z) (l : list ascii) : result Z :=
    match regtime l with
    | None => Err AttributeError
    | Some (h, m, s) =>
        let s := match s with None => 0%nat | Some t => digits_value t end in
        do t <- clock_time (digits_value h) (digits_value m) s;
        let d2 := dnow / day * day + t in
        Ok (if d2 <? dnow then d2 + day else d2)
    end.
  (** overrideint (config.py:328-334); [yaml_int] is the constructor of the library. *)
  Definition overrideint {V} (moment : Z -> V) (yaml_int : list ascii -> result V) (dnow : Z) (l : list ascii) : result V :=
    match regtime l with
    | Some _ => do t <- time_constructor dnow l; Ok (moment t)
    | None => yaml_int l
    end.
End Clock.
