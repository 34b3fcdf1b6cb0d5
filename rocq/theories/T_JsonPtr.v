(** C01, C02: JSON pointers. *)
From Verif Require Import PyBase M_JsonPtr S_JsonPtr P_JsonPtr.

(** C01: what [jp_compose] writes is the RFC 6901 pointer. *)
Theorem c01_compose_is_rfc6901 : forall base ts,
  base <> [] -> jp_compose (JPList ts) (Some base) = Some (rfc_pointer base ts).
Proof. exact compose_pointer_ok. Qed.
Print Assumptions c01_compose_is_rfc6901.

(** C01: what [jp_split] reads is the RFC 6901 reading of the '/'-free pieces. *)
Theorem c01_split_is_rfc6901 : forall s raw,
  slash_pieces s raw -> s <> [] -> jp_split (Some s) = map rfc_unescape raw.
Proof. exact jp_split_pieces. Qed.
Print Assumptions c01_split_is_rfc6901.
Theorem c01_pieces_exist : forall s, exists raw, slash_pieces s raw.
Proof. exact slash_pieces_exist. Qed.
Print Assumptions c01_pieces_exist.

(** C01: round trip on a base. *)
Theorem c01_roundtrip_base : forall base ts,
  base <> [] ->
  jp_split (jp_compose (JPList ts) (Some base)) = jp_split (Some base) ++ ts.
Proof. exact roundtrip_base. Qed.
Print Assumptions c01_roundtrip_base.

(** C01: round trip without base. *)
Theorem c01_roundtrip_nobase : forall ts,
  ts <> [[]] -> jp_split (jp_compose (JPList ts) None) = ts.
Proof. exact roundtrip_nobase. Qed.
Print Assumptions c01_roundtrip_nobase.
(** The only exception: the list of one empty token. *)
Theorem c01_roundtrip_nobase_exception :
  jp_split (jp_compose (JPList [[]]) None) = [].
Proof. reflexivity. Qed.
Print Assumptions c01_roundtrip_nobase_exception.

(** C01: appending token by token is the same as appending the list. *)
Theorem c01_incremental : forall base ts,
  base <> [] ->
  jp_compose (JPList ts) (Some base) =
  fold_left (fun b t => jp_compose (JPStr t) b) ts (Some base).
Proof. exact compose_fold. Qed.
Print Assumptions c01_incremental.

(** C02: injectivity. *)
Theorem c02_compose_injective : forall base t1 t2,
  base <> [] ->
  jp_compose (JPList t1) (Some base) = jp_compose (JPList t2) (Some base) -> t1 = t2.
Proof. exact compose_injective. Qed.
Print Assumptions c02_compose_injective.
Theorem c02_compose_injective_nobase : forall t1 t2,
  t1 <> [[]] -> t2 <> [[]] ->
  jp_compose (JPList t1) None = jp_compose (JPList t2) None -> t1 = t2.
Proof. exact compose_injective_nobase. Qed.
Print Assumptions c02_compose_injective_nobase.
(** C02: an encoded token has no '/'. *)
Theorem c02_token_no_slash : forall t s,
  jp_compose (JPStr t) None = Some s -> ~ In "/"%char s.
Proof.
  intros t s H. inversion H; subst. change (~ In "/"%char (jp_encode t)).
  rewrite jp_encode_rfc. apply rfc_escape_no_slash.
Qed.
Print Assumptions c02_token_no_slash.

(** Non-vacuity and fidelity: tests/test_utils.py (JsonPointer cases). *)
(** No token: the base is returned as it is; one string is one token. *)
Theorem c01_none_and_string : forall s base,
  jp_compose JPNone base = base /\ jp_compose (JPStr s) base = jp_compose (JPList [s]) base.
Proof. intros s base. split; [reflexivity|apply compose_str]. Qed.
Print Assumptions c01_none_and_string.
Example c01_ex1 : jp_compose (JPStr "/test"%string) (Some (lit "a")) = Some (lit "a/~1test").
Proof. vm_compute. reflexivity. Qed.
Example c01_ex2 : jp_compose (JPList [lit "/a"; lit "/b"]) (Some (lit "base")) = Some (lit "base/~1a/~1b").
Proof. vm_compute. reflexivity. Qed.
Example c01_ex3 : jp_split (Some (lit "/~0test/~1qoo/~1foo")) = [lit ""; lit "~test"; lit "/qoo"; lit "/foo"].
Proof. vm_compute. reflexivity. Qed.
Example c01_ex4 :
  jp_split (jp_compose (JPList [lit "a~1/b"; lit "~"; lit ""]) (Some (lit "#"))) =
  [lit "#"; lit "a~1/b"; lit "~"; lit ""].
Proof. vm_compute. reflexivity. Qed.
Example c01_ex5 : jp_compose JPNone (Some (lit "base")) = Some (lit "base").
Proof. reflexivity. Qed.
Example c01_ex6 : slash_pieces (lit "#/a~1b") [lit "#"; lit "a~1b"].
Proof.
  repeat split; try easy. repeat constructor; cbv; intuition discriminate.
Qed.
