(** Independent base64 reader (RFC 4648): look each character up in the alphabet,
    write its index as six bits, drop the padding, cut the bits into octets. *)
From Verif Require Import PyBase.

Fixpoint position (c : ascii) (l : str) : option nat :=
  match l with
  | [] => None
  | x :: l' => if Ascii.eqb c x then Some 0 else option_map S (position c l')
  end.

Definition bits6 (n : nat) : list bool :=
  [Nat.testbit n 5; Nat.testbit n 4; Nat.testbit n 3;
   Nat.testbit n 2; Nat.testbit n 1; Nat.testbit n 0].

Fixpoint octets (l : list bool) : str :=
  match l with
  | b7 :: b6 :: b5 :: b4 :: b3 :: b2 :: b1 :: b0 :: l' =>
      Ascii b0 b1 b2 b3 b4 b5 b6 b7 :: octets l'
  | _ => []
  end.

Definition b64_read (alpha s : str) : str :=
  octets (flat_map (fun c => match position c alpha with
                             | Some n => bits6 n
                             | None => []            (* padding *)
                             end) s).
