(** Specification of ISO-8601 texts (C10, C11). *)
From Verif Require Import PyBase M_Time.
Open Scope Z_scope.

(** Digit strings and their value. *)
Definition digits (n : nat) (s : str) : Prop := length s = n /\ forall c, In c s -> In c (lit "0123456789").
Fixpoint num (s : str) : Z :=
  match s with [] => 0 | c :: s => (Z.of_nat (nat_of_ascii c) - 48) * 10 ^ Z.of_nat (length s) + num s end.

(** The calendar. *)
Definition leap (y : Z) : Prop := (4 | y) /\ (~ (100 | y) \/ (400 | y)).
Definition month_length (y m n : Z) : Prop :=
  (In m [1; 3; 5; 7; 8; 10; 12] /\ n = 31) \/ (In m [4; 6; 9; 11] /\ n = 30) \/
  (m = 2 /\ ((leap y /\ n = 29) \/ (~ leap y /\ n = 28))).
Definition valid_date (y m d : Z) : Prop :=
  1 <= y <= 9999 /\ exists n, month_length y m n /\ 1 <= d <= n.
Definition valid_time (h m s u : Z) : Prop :=
  0 <= h < 24 /\ 0 <= m < 60 /\ 0 <= s < 60 /\ 0 <= u < 1000000.
Definition valid (d : datetime) : Prop :=
  valid_date (year d) (month d) (day d) /\ valid_time (hour d) (minute d) (second d) (micro d).

(** The pieces of a text. *)
Inductive zone := Zulu | Offset (neg : bool) (hh mm : str).
Record parts := Parts { pY : str; pM : str; pD : str; ph : str; pm : str;
                        psec : option (str * option str); pz : option zone; prest : str }.
Definition date_text (y m d : str) : str := y ++ lit "-" ++ m ++ lit "-" ++ d.
Definition text (p : parts) : str :=
  date_text (pY p) (pM p) (pD p) ++ lit "T" ++ ph p ++ lit ":" ++ pm p ++
  match psec p with
  | None => []
  | Some (s, None) => lit ":" ++ s
  | Some (s, Some f) => lit ":" ++ s ++ lit "." ++ f
  end ++
  match pz p with
  | None => []
  | Some Zulu => lit "Z"
  | Some (Offset neg hh mm) => (if neg then lit "-" else lit "+") ++ hh ++ lit ":" ++ mm
  end ++ prest p.
Definition date_formed (y m d : str) : Prop := digits 4 y /\ digits 2 m /\ digits 2 d.
Definition formed (p : parts) : Prop :=
  date_formed (pY p) (pM p) (pD p) /\ digits 2 (ph p) /\ digits 2 (pm p) /\
  match psec p with
  | None => True
  | Some (s, f) => (digits 1 s \/ digits 2 s) /\
                   match f with None => True | Some f => exists n, (1 <= n <= 6)%nat /\ digits n f end
  end /\
  match pz p with Some (Offset _ hh mm) => digits 2 hh /\ digits 2 mm | _ => True end.
(** Ignored trailing text does not continue the parts before it. *)
Definition starts_digit (s : str) : Prop := exists c s', s = c :: s' /\ In c (lit "0123456789").
Definition starts_zone (s : str) : Prop :=
  exists z r, match z with Zulu => True | Offset _ hh mm => digits 2 hh /\ digits 2 mm end /\
    s = match z with Zulu => lit "Z"
        | Offset neg hh mm => (if neg then lit "-" else lit "+") ++ hh ++ lit ":" ++ mm end ++ r.
Definition longest (p : parts) : Prop :=
  match pz p with
  | Some _ => True
  | None =>
      ~ starts_zone (prest p) /\
      match psec p with
      | None => ~ exists s, prest p = lit ":" ++ s /\ starts_digit s
      | Some (s, None) => (length s = 1%nat -> ~ starts_digit (prest p)) /\
                          ~ exists f, prest p = lit "." ++ f /\ starts_digit f
      | Some (s, Some f) => (length f < 6)%nat -> ~ starts_digit (prest p)
      end
  end.
(** What the text says. *)
Definition meaning (p : parts) : datetime :=
  DT (num (pY p)) (num (pM p)) (num (pD p)) (num (ph p)) (num (pm p))
     match psec p with Some (s, _) => num s | None => 0 end
     match psec p with Some (_, Some f) => num f * 10 ^ (6 - Z.of_nat (length f)) | _ => 0 end
     match pz p with
     | None => None
     | Some Zulu => Some 0
     | Some (Offset neg hh mm) => Some ((if neg then -1 else 1) * (60 * num hh + num mm))
     end.
(** A time after the date: Thh:mm. *)
Definition starts_time (s : str) : Prop :=
  exists h m r, digits 2 h /\ digits 2 m /\ s = lit "T" ++ h ++ lit ":" ++ m ++ r.
