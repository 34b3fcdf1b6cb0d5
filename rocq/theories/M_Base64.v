(** Model of Python's base64 encoders (RFC 4648), used by core.py:482 and
    primitives/_byte.py.  Bytes are [ascii] values. *)
From Verif Require Import PyBase.

Definition b64_std : str :=
  "ABCDEFGHIJKLMNOPQRSTUVWXYZabcdefghijklmnopqrstuvwxyz0123456789+/"%string.
Definition b64_url : str :=
  "ABCDEFGHIJKLMNOPQRSTUVWXYZabcdefghijklmnopqrstuvwxyz0123456789-_"%string.

Definition b2n (b : bool) : nat := if b then 1 else 0.
(** A 6-bit value, most significant bit first. *)
Definition sextet (a b c d e f : bool) : nat :=
  32 * b2n a + 16 * b2n b + 8 * b2n c + 4 * b2n d + 2 * b2n e + b2n f.

(** [base64.standard_b64encode] / [base64.urlsafe_b64encode], three bytes at a time. *)
Fixpoint b64encode (alpha : str) (s : str) : str :=
  let ch n := nth n alpha "="%char in
  match s with
  | [] => []
  | [Ascii a0 a1 a2 a3 a4 a5 a6 a7] =>
      [ch (sextet a7 a6 a5 a4 a3 a2); ch (sextet a1 a0 false false false false);
       "="%char; "="%char]
  | [Ascii a0 a1 a2 a3 a4 a5 a6 a7; Ascii b0 b1 b2 b3 b4 b5 b6 b7] =>
      [ch (sextet a7 a6 a5 a4 a3 a2); ch (sextet a1 a0 b7 b6 b5 b4);
       ch (sextet b3 b2 b1 b0 false false); "="%char]
  | Ascii a0 a1 a2 a3 a4 a5 a6 a7 :: Ascii b0 b1 b2 b3 b4 b5 b6 b7 ::
    Ascii c0 c1 c2 c3 c4 c5 c6 c7 :: s' =>
      ch (sextet a7 a6 a5 a4 a3 a2) :: ch (sextet a1 a0 b7 b6 b5 b4) ::
      ch (sextet b3 b2 b1 b0 c7 c6) :: ch (sextet c5 c4 c3 c2 c1 c0) ::
      b64encode alpha s'
  end.
Definition standard_b64encode := b64encode b64_std.
Definition urlsafe_b64encode := b64encode b64_url.
