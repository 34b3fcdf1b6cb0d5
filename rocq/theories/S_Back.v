(** Specification of the primitives whose texts say which primitives they are (C68). *)
From Coq Require Import QArith.
From Verif Require Import PyBase M_SpecVal S_Merge M_Quote M_Time S_Time S_Declared.
From Verif Require M_Prim S_Prim M_PrimText.
Close Scope Q_scope.

Section Carries.
  (** What Python reads in texts, and how it writes bytes, floats and UUIDs; as in M_Prim and
      M_PrimText *)
  Context (int_of : str -> res Z) (float_of : str -> res Q) (uuid_of : str -> option Z) (decode : str -> res str) (show_other : M_Prim.prim -> str).
  (** The text of a primitive *)
  Notation shown := (M_PrimText.show decode show_other).
  Import M_Prim.
  (** The text of [p] says which primitive it is, where [f] is declared.  Numbers, bytes and UUIDs:
      if Python reads again what it has written.  Texts and valid dates: always.  Arrays: if the
      texts of the elements say it, have no separators in them, differ if they have to, and the
      first of them is not empty. *)
  Inductive carries : val -> prim -> Prop :=
  | ca_integer f z s : shown (PInt z) = Ok s -> int_of s = Ok z -> carries f (PInt z)
  | ca_number f q s : shown (PFloat q) = Ok s -> float_of s = Ok q -> carries f (PFloat q)
  | ca_text f s : carries f (PStr s)
  | ca_bytes f b s : shown (PByte b) = Ok s -> utf8 s = b -> carries f (PByte b)
  | ca_uuid f z s : shown (PUuid z) = Ok s -> uuid_of s = Some z -> carries f (PUuid z)
  | ca_date f y m d : valid_date y m d -> carries f (PDate y m d)
  | ca_moment f d : of_format f ["date-time"]%string -> valid d -> (forall z, tz d = Some z -> (Z.abs z < 24 * 60)%Z) -> carries f (PDatetime d)
  | ca_array f i fmt sp rs t ts : text_at f "collectionFormat" (lit fmt) -> S_Prim.sep_of fmt = Some sp -> field_of f (lit "items") = Some i ->
      Forall2 (fun p t => shown p = Ok t) rs (t :: ts) -> t <> [] -> Forall (fun t => forall c, In c (lit sp) -> ~ In c t) (t :: ts) ->
      (switched_on f "uniqueItems" -> NoDup (t :: ts)) -> Forall (carries i) rs -> carries f (PArray (lit fmt) rs).
End Carries.
