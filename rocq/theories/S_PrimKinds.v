(** Specification of what a value becomes, by the type and format of its schema (C60). *)
From Coq Require Import QArith.
From Verif Require Import PyBase M_Time M_Prim.
Close Scope Q_scope.
Open Scope nat_scope.

(** [z] is [q] without its fraction: rounded towards zero. *)
Definition cut (q : Q) (z : Z) : Prop :=
  if Qle_bool 0 q then (inject_Z z <= q < inject_Z (z + 1))%Q else (inject_Z (z - 1) < q <= inject_Z z)%Q.
(** The values that count as false. *)
Definition empty_value (v : value) : Prop :=
  match v with
  | VNull => True | VBool b => b = false | VInt z => z = 0%Z | VFloat q => (q == 0)%Q
  | VStr s | VBytes s => s = [] | VList l => l = [] | VDict d => d = []
  | _ => False
  end.
(** A number written in bytes, the most significant one first. *)
Fixpoint big_endian (s : str) : Z :=
  match s with
  | [] => 0
  | c :: r => Z.of_N (N_of_ascii c) * 256 ^ Z.of_nat (length r) + big_endian r
  end%Z.
(** The entry of a dict, or something else. *)
Definition entry (k : string) (d : sdict value) (dflt : value) : value :=
  match sget (lit k) d with Some v => v | None => dflt end.
(** The types there are. *)
Definition types : list string := ["integer"; "number"; "string"; "boolean"; "file"; "array"; "object"]%string.
