(** Python's [int(text)]. *)
From Verif Require Import PyBase.
(** digits with single underscores between them *)
Fixpoint int_digits (s : str) (after : bool) (acc : Z) : option Z :=
  match s with
  | [] => if after then Some acc else None
  | c :: s => if is_digit c then int_digits s true (10 * acc + digit_val c)%Z
              else if Ascii.eqb c "_"%char && after then int_digits s false acc else None
  end.
(** [int(s)]; texts with characters beyond ASCII are not modelled *)
Definition py_int (s : str) : res Z :=
  let r := match strip s with
           | "-"%char :: s => match int_digits s false 0 with Some z => Some (- z)%Z | None => None end
           | "+"%char :: s => int_digits s false 0
           | s => int_digits s false 0
           end in
  match r with Some z => Ok z | None => Err ValueError end.
