(** Independent specification of JSON pointers (RFC 6901, section 3-4). *)
From Verif Require Import PyBase.

(** '~' is written "~0" and '/' is written "~1". *)
Definition rfc_escape_char (c : ascii) : str :=
  if Ascii.eqb c "~"%char then "~0"%string
  else if Ascii.eqb c "/"%char then "~1"%string
  else [c].
Definition rfc_escape (s : str) : str := flat_map rfc_escape_char s.

(** Left-to-right reading of a reference token; a '~' that starts no escape is
    kept. *)
Fixpoint rfc_unescape (s : str) : str :=
  match s with
  | [] => []
  | x :: s1 =>
      if Ascii.eqb x "~"%char then
        match s1 with
        | y :: s2 =>
            if Ascii.eqb y "0"%char then "~"%char :: rfc_unescape s2
            else if Ascii.eqb y "1"%char then "/"%char :: rfc_unescape s2
            else x :: rfc_unescape s1
        | [] => [x]
        end
      else x :: rfc_unescape s1
  end.

(** base, then "/" and the escaped token for each token. *)
Definition rfc_pointer (base : str) (tokens : list str) : str :=
  base ++ flat_map (fun t => "/"%char :: rfc_escape t) tokens.

(** [raw] are the maximal '/'-free pieces of [s]. *)
Definition slash_pieces (s : str) (raw : list str) : Prop :=
  raw <> [] /\ Forall (fun p => ~ In "/"%char p) raw /\ s = join "/"%string raw.
