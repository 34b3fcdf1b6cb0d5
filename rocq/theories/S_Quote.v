(** Independent decoders for percent-encoded text and URL templates. *)
From Verif Require Import PyBase.

Definition hex_val (c : ascii) : nat :=
  let n := nat_of_ascii c in if n <? 58 then n - 48 else n - 55.
(** "%XY" is a byte, "+" is a blank, anything else stands for itself. *)
Fixpoint unpercent (s : str) : str :=
  match s with
  | "%"%char :: a :: b :: s' => ascii_of_nat (16 * hex_val a + hex_val b) :: unpercent s'
  | "+"%char :: s' => " "%char :: unpercent s'
  | c :: s' => c :: unpercent s'
  | [] => []
  end.
(** UTF-8 for characters below U+0100. *)
Fixpoint utf8_read (s : str) : str :=
  match s with
  | [] => []
  | a :: s' =>
      if nat_of_ascii a <? 128 then a :: utf8_read s'
      else match s' with
           | b :: s'' => ascii_of_nat ((nat_of_ascii a - 192) * 64 + (nat_of_ascii b - 128)) :: utf8_read s''
           | [] => []
           end
  end.
Definition unquote_plus (s : str) : str := utf8_read (unpercent s).

(** Characters that may appear in an encoded argument. *)
Definition url_unreserved : str :=
  "ABCDEFGHIJKLMNOPQRSTUVWXYZabcdefghijklmnopqrstuvwxyz0123456789_.-~+%"%string.

(** application/x-www-form-urlencoded: pairs separated by "&", name and value by the
    first "=". *)
Fixpoint before_eq (s : str) : str :=
  match s with [] => [] | "="%char :: _ => [] | c :: s' => c :: before_eq s' end.
Fixpoint after_eq (s : str) : str :=
  match s with [] => [] | "="%char :: s' => s' | _ :: s' => after_eq s' end.
Definition read_form (s : str) : list (str * str) :=
  match s with
  | [] => []
  | _ => map (fun p => (unquote_plus (before_eq p), unquote_plus (after_eq p)))
             (split "&"%string s)
  end.

(** A URL template: literal text, its braces doubled, and named holes. *)
Definition double_braces (s : str) : str :=
  flat_map (fun c => if Ascii.eqb c "{" || Ascii.eqb c "}" then [c; c] else [c]) s.
Inductive piece := Text (s : str) | Hole (name : str).
Definition piece_ok (p : piece) : Prop :=
  match p with
  | Text _ => True
  | Hole n => (forall c, In c n -> ~ In c (lit ".[!:{}")) /\
              (exists c, In c n /\ ~ In c (lit "0123456789"))
  end.
Definition template (l : list piece) : str :=
  flat_map (fun p => match p with Text s => double_braces s | Hole n => "{"%char :: n ++ ["}"%char] end) l.
Definition holes (l : list piece) : list str :=
  flat_map (fun p => match p with Text _ => [] | Hole n => [n] end) l.
(** Fill the holes. *)
Definition fill (f : str -> str) (l : list piece) : str :=
  flat_map (fun p => match p with Text s => s | Hole n => f n end) l.
