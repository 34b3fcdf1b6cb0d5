(** Model of pyswagger/utils.py:112-205 (FixedTZ, from_iso8601), of the parts of
    CPython's datetime it uses, and of isoformat() as used by
    pyswagger/primitives/_time.py:7-17. *)
From Verif Require Import PyBase.
Open Scope Z_scope.

(** datetime.datetime; the tzinfo is a FixedTZ, i.e. an offset in minutes (utils.py:112-127). *)
Record datetime := DT { year : Z; month : Z; day : Z; hour : Z; minute : Z; second : Z; micro : Z; tz : option Z }.

(** CPython: calendar check of the datetime constructor (Lib/_pydatetime.py
    _check_date_fields, _check_time_fields). *)
Definition is_leap (y : Z) : bool := (y mod 4 =? 0) && (negb (y mod 100 =? 0) || (y mod 400 =? 0)).
Definition days_in_month (y m : Z) : Z :=
  if (m =? 2) then (if is_leap y then 29 else 28)
  else if (m =? 4) || (m =? 6) || (m =? 9) || (m =? 11) then 30 else 31.
Definition between (a x b : Z) : bool := (a <=? x) && (x <=? b).
Definition check_fields (d : datetime) : bool :=
  between 1 (year d) 9999 && between 1 (month d) 12 && between 1 (day d) (days_in_month (year d) (month d)) &&
  between 0 (hour d) 23 && between 0 (minute d) 59 && between 0 (second d) 59 && between 0 (micro d) 999999.
Definition make (d : datetime) : res datetime := if check_fields d then Ok d else Err ValueError.

(** The regular expressions of utils.py:129-135, as deterministic matchers: everything
    after hh:mm is optional, so greedy matching never backtracks. *)
Fixpoint digits_exactly (n : nat) (s : str) : option (str * str) :=
  match n with
  | O => Some ([], s)
  | S n => match s with
           | c :: s => if is_digit c then match digits_exactly n s with Some (d, r) => Some (c :: d, r) | None => None end else None
           | [] => None
           end
  end.
Fixpoint digits_upto (n : nat) (s : str) : str * str :=
  match n with
  | O => ([], s)
  | S n => match s with
           | c :: s' => if is_digit c then let (d, r) := digits_upto n s' in (c :: d, r) else ([], s)
           | [] => ([], [])
           end
  end.
Definition eat (c : ascii) (s : str) : option str :=
  match s with d :: s => if Ascii.eqb c d then Some s else None | [] => None end.
(** int() of a digit string *)
Definition to_int (s : str) : Z := fold_left (fun acc c => acc * 10 + digit_val c) s 0.

Notation "'let?' x := e 'in' f" := (match e with Some x => f | None => None end)
  (at level 200, x pattern, f at level 200).

(** utils.py:135: (year, month, day, rest) *)
Definition match_date (s : str) : option (str * str * str * str) :=
  let? (y, s) := digits_exactly 4 s in let? s := eat "-" s in
  let? (m, s) := digits_exactly 2 s in let? s := eat "-" s in
  let? (d, s) := digits_exactly 2 s in Some (y, m, d, s).
(** utils.py:132 up to the minute: (hour, minute, rest) *)
Definition match_hm (s : str) : option (str * str * str) :=
  let? s := eat "T" s in let? (h, s) := digits_exactly 2 s in let? s := eat ":" s in
  let? (m, s) := digits_exactly 2 s in Some (h, m, s).
(** [(:(?P<second>\d{1,2})(\.(?P<microsecond>\d{1,6}))?)?] *)
Definition match_sec (s : str) : option str * option str * str :=
  match eat ":" s with
  | Some s1 => match digits_upto 2 s1 with
               | ([], _) => (None, None, s)
               | (sec, s2) => match eat "." s2 with
                              | Some s3 => match digits_upto 6 s3 with
                                           | ([], _) => (Some sec, None, s2)
                                           | (f, s4) => (Some sec, Some f, s4)
                                           end
                              | None => (Some sec, None, s2)
                              end
               end
  | None => (None, None, s)
  end.
(** [(?P<tz>Z|[+-]\d{2}:\d{2})?] with utils.py:184-195; only the offset is kept. *)
Definition match_tz (s : str) : option Z :=
  match s with
  | "Z"%char :: _ => Some 0
  | c :: s1 =>
      if Ascii.eqb c "+" || Ascii.eqb c "-" then
        let? (h, s2) := digits_exactly 2 s1 in let? s3 := eat ":" s2 in let? (m, _) := digits_exactly 2 s3 in
        let neg := if Ascii.eqb c "-" then -1 else 1 in
        Some (60 * (to_int h * neg) + to_int m * neg)
      else None
  | [] => None
  end.

(** utils.py:137-205 *)
Definition from_iso8601 (s : str) : res datetime :=
  match match_date s with
  | None => Err ValueError
  | Some (y, m, d, r) =>
      let nonzero := negb (to_int y =? 0) && negb (to_int m =? 0) && negb (to_int d =? 0) in
      if negb nonzero then Err ValueError else
      match match_hm r with
      | None => make (DT (to_int y) (to_int m) (to_int d) 0 0 0 0 None)
      | Some (hh, mm, r) =>
          match match_sec r with
          | (sec, fr, r) =>
              make (DT (to_int y) (to_int m) (to_int d) (to_int hh) (to_int mm)
                      match sec with Some x => to_int x | None => 0 end
                      match fr with Some x => to_int (x ++ repeat "0"%char (6 - length x)) | None => 0 end
                      (match_tz r))
          end
      end
  end.

(** CPython: "%0*d" *)
Fixpoint pad (n : nat) (x : Z) : str :=
  match n with
  | O => []
  | S n => pad n (x / 10) ++ [ascii_of_nat (Z.to_nat (48 + x mod 10))]
  end.
(** CPython date.isoformat *)
Definition iso_date (y m d : Z) : str := pad 4 y ++ "-"%char :: pad 2 m ++ "-"%char :: pad 2 d.
(** CPython datetime.isoformat: the fraction is left out when zero; the offset is a whole
    number of minutes. *)
Definition iso_offset (o : Z) : str :=
  (if o <? 0 then "-"%char else "+"%char) :: pad 2 (Z.abs o / 60) ++ ":"%char :: pad 2 (Z.abs o mod 60).
Definition isoformat (d : datetime) : str :=
  iso_date (year d) (month d) (day d) ++ "T"%char :: pad 2 (hour d) ++ ":"%char :: pad 2 (minute d) ++
  ":"%char :: pad 2 (second d) ++
  (if micro d =? 0 then [] else "."%char :: pad 6 (micro d)) ++
  match tz d with Some o => iso_offset o | None => [] end.

(** _time.py:20-38, _time.py:41-58: the string case of Date and Datetime. *)
Definition date_of_text (s : str) : res (Z * Z * Z) :=
  do d <- from_iso8601 s; Ok (year d, month d, day d).
Definition datetime_of_text (s : str) : res datetime := from_iso8601 s.
