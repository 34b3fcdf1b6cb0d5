(** Specification of the paths that are kept when they are written as URLs (C70). *)
From Verif Require Import PyBase S_Url S_Address.

Definition plain_chars : str := lit "ABCDEFGHIJKLMNOPQRSTUVWXYZabcdefghijklmnopqrstuvwxyz0123456789_.-~/".
(** The address is a path, and [a] is the absolute path for it. *)
Definition path_address (abspath : str -> str) (s a : str) : Prop :=
  (exists p, ~ has_scheme s /\ ~ two_slashes s /\ front s p /\ path_text p) /\ abspath s = a /\ exists a', a = "/"%char :: a'.
