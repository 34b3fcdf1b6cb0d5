(** Specification of the addresses of documents: a URL, or the path of a file (C70). *)
From Verif Require Import PyBase M_Url S_Url.

(** A path that starts with a Windows drive, such as C:\api.json *)
Definition drive_path (s : str) : Prop := exists c r, s = c :: lit ":\" ++ r /\ is_alpha c = true.
(** [p] is what is in front of the first '?' or '#' of [s]. *)
Definition front (s p : str) : Prop := exists r, s = p ++ r /\ without (lit "?#") p /\ (r = [] \/ exists c r', r = c :: r' /\ In c (lit "?#")).
(** Something is left when ';' and what follows in the last segment is dropped. *)
Definition path_text (p : str) : Prop := p <> [] /\ forall p', p = ";"%char :: p' -> In "/"%char p'.
Definition two_slashes (s : str) : Prop := exists r, s = lit "//" ++ r.
(** A URL whose host has one of the brackets of IPv6 addresses without the other *)
Definition bad_host (s : str) : Prop := exists c a n t, s = c :: a ++ lit "://" ++ n ++ t /\ is_alpha c = true /\ forallb scheme_char a = true /\
  without (lit "/?#") n /\ (t = [] \/ exists d t', t = d :: t' /\ In d (lit "/?#")) /\ ~ (In "["%char n <-> In "]"%char n).
Inductive taken (abs_uri win_uri : str -> str) : str -> res str -> Prop :=
| tk_nothing : taken abs_uri win_uri [] (Ok [])
(* Windows paths and other paths become the URLs of these files, *)
| tk_drive s : drive_path s -> taken abs_uri win_uri s (Ok (win_uri s))
| tk_path s p : ~ has_scheme s -> ~ two_slashes s -> front s p -> path_text p -> taken abs_uri win_uri s (Ok (abs_uri s))
| tk_three r : taken abs_uri win_uri (lit "///" ++ r) (Ok (abs_uri (lit "///" ++ r)))
(* URLs stay as they are; *)
| tk_url s : has_scheme s -> ~ drive_path s -> ~ bad_host s -> taken abs_uri win_uri s (Ok s)
(* what is neither is refused: a bad host, no scheme and a host, or no path. *)
| tk_bad_host s : bad_host s -> taken abs_uri win_uri s (Err ValueError)
| tk_host c r : ~ In c (lit "/?#") -> taken abs_uri win_uri (lit "//" ++ c :: r) (Err ValueError)
| tk_no_path s p : s <> [] -> ~ has_scheme s -> ~ two_slashes s -> front s p -> ~ path_text p -> taken abs_uri win_uri s (Err ValueError)
| tk_two r : r = [] \/ (exists c r', r = c :: r' /\ In c (lit "?#")) -> taken abs_uri win_uri (lit "//" ++ r) (Err ValueError).
