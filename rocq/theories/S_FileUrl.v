(** Specification of the paths that file: URLs and paths with a drive stand for (C47). *)
From Verif Require Import PyBase S_Url S_Getter.
Close Scope Q_scope.

(** [p] is a slash, then a drive in upper-case letters, its colon, and [rest]. *)
Definition with_drive (p d rest : str) : Prop :=
  p = "/"%char :: d ++ ":"%char :: rest /\ d <> [] /\ forall c, In c d -> exists n, 65 <= n <= 90 /\ c = ascii_of_nat n.
(** The text starts with file://, a host, the path [p], and nothing else but a query and a fragment. *)
Definition file_url (s p : str) : Prop := exists host rest, s = lit "file://" ++ host ++ p ++ rest /\ without (lit "/?#[]") host /\
  (p = [] \/ exists p', p = "/"%char :: p') /\ without (lit "?#") p /\ (rest = [] \/ exists c r, rest = c :: r /\ In c (lit "?#")).
(** The text is a path itself, or the URL of a file with that path. *)
Definition names_path (s p : str) : Prop := (startswith s "file://"%string = false /\ p = s) \/ file_url s p.
(** The path that is looked at: what starts with a drive is made absolute, without the slash. *)
Definition stands (abspath : str -> str) (s p : str) : Prop := exists q, names_path s q /\
  ((exists d rest, with_drive q d rest /\ p = abspath (d ++ ":"%char :: rest)) \/ ((forall d rest, ~ with_drive q d rest) /\ p = q)).
