(** Specification of bodies that are read again as the same (C69). *)
From Coq Require Import QArith.
From Verif Require Import PyBase PyJson M_SpecVal S_SpecTree S_Merge S_MergeRef S_Compose M_Time S_Time S_Declared S_Body M_JBody.
From Verif Require M_Prim.
Close Scope Q_scope.
Import M_Prim.

(** ** JSON documents of primitives
    [shows p j]: the document [j] shows [p]; [stamp], [code] and [number] are the texts of date-times,
    bytes and UUIDs. *)
Section Shows.
  Context (code : str -> str) (number : Z -> str).
  Inductive plain_shows : value -> json -> Prop :=
  | ps_null : plain_shows VNull JNull
  | ps_bool b : plain_shows (VBool b) (JBool b)
  | ps_int z : plain_shows (VInt z) (JInt z)
  | ps_float q : plain_shows (VFloat q) (JFloat q)
  | ps_str s : plain_shows (VStr s) (JStr s)
  | ps_list l js : Forall2 plain_shows l js -> plain_shows (VList l) (JList js)
  | ps_dict d js : Forall2 (fun a b => fst a = fst b /\ plain_shows (snd a) (snd b)) d js -> plain_shows (VDict d) (JObj js).
  Inductive shows : prim -> json -> Prop :=
  | sh_none : shows PNone JNull
  | sh_bool b : shows (PBool b) (JBool b)
  | sh_int z : shows (PInt z) (JInt z)
  | sh_float q : shows (PFloat q) (JFloat q)
  | sh_str s : shows (PStr s) (JStr s)
  | sh_bytes s : shows (PByte s) (JStr (code s))
  | sh_date y m d : shows (PDate y m d) (JStr (iso_date y m d))
  | sh_moment d : shows (PDatetime d) (JStr (isoformat d))
  | sh_uuid z : shows (PUuid z) (JStr (number z))
  | sh_array fmt l js : Forall2 shows l js -> shows (PArray fmt l) (JList js)
  | sh_model m js : Forall2 (fun a b => fst a = fst b /\ shows (snd a) (snd b)) m js -> shows (PModel m) (JObj js)
  | sh_raw v j : plain_shows v j -> shows (PRaw v) j.
End Shows.

Section Returns.
  (** The document [root] at [u], as in S_Body *)
  Context (abs_uri win_uri : str -> str) (u : str) (root : val).
  Notation stands := (stands abs_uri win_uri u root).
  Context (int_of : str -> res Z) (float_of : str -> res Q) (str_of : value -> str)
    (date_at : Q -> res (Z * Z * Z)) (datetime_at : Q -> res datetime) (uuid_of : str -> option Z) (email_ok : str -> bool) (show_other : prim -> str).
  Notation takes := (takes abs_uri win_uri u root int_of float_of str_of date_at datetime_at uuid_of email_ok).
  (** What a server reads for a primitive *)
  Definition arrives (p : prim) (v : value) : Prop := exists j, dump show_other p = Ok j /\ v = load j.
  (** The document says which primitive [p] it is, by the schema [s].  Numbers, booleans, texts and
      valid dates: always.  Nothing: if the schema has no default.  UUIDs: if Python reads again
      what it has written.  Elements of arrays differ in the document if they have to.  The
      discriminator of an object is a property that takes the name of the schema.  What is kept as
      it is always says what it is. *)
  Inductive returns : val -> prim -> Prop :=
  | re_none s : field_of s (lit "default") = Some M_SpecVal.VNone -> returns s PNone
  | re_bool s b : returns s (PBool b)
  | re_int s z : returns s (PInt z)
  | re_float s q : returns s (PFloat q)
  | re_text s t : returns s (PStr t)
  | re_date s y m d : valid_date y m d -> returns s (PDate y m d)
  | re_moment s d : (forall e, stands s e -> of_format e ["date-time"]%string) -> valid d -> (forall z, tz d = Some z -> (Z.abs z < 24 * 60)%Z) -> returns s (PDatetime d)
  | re_uuid s z : uuid_of (show_other (PUuid z)) = Some z -> returns s (PUuid z)
  | re_array s fmt rs : (forall e i, stands s e -> field_of e (lit "items") = Some i -> Forall (returns i) rs) ->
      (forall e vs, stands s e -> switched_on e "uniqueItems" -> Forall2 arrives rs vs -> ForallOrdPairs (fun a b => v_eqb b a = false) vs) -> returns s (PArray fmt rs)
  | re_model s m : (forall e k p y, stands s e -> has_property e k p -> sget k m = Some y -> ~ discriminates e k -> returns p y) ->
      (forall e a k y, stands s e -> more e a -> (forall p, ~ has_property e k p) -> sget k m = Some y -> returns a y) ->
      (forall e k, stands s e -> discriminates e k -> exists p y v z, has_property e k p /\ named e y /\ arrives y v /\ takes true p v z) -> returns s (PModel m).
End Returns.

(** ** Objects are the same if they have the same entries. *)
Inductive same_prim : prim -> prim -> Prop :=
| sp_same p : same_prim p p
| sp_array fmt l l' : Forall2 same_prim l l' -> same_prim (PArray fmt l) (PArray fmt l')
| sp_model m m' : (forall k, sget k m = None <-> sget k m' = None) -> (forall k y y', sget k m = Some y -> sget k m' = Some y' -> same_prim y y') -> same_prim (PModel m) (PModel m').

(** ** Bodies of booleans, numbers, texts and valid dates *)
Inductive ordinary : prim -> Prop :=
| or_bool b : ordinary (PBool b)
| or_int z : ordinary (PInt z)
| or_float q : ordinary (PFloat q)
| or_text t : ordinary (PStr t)
| or_date y m d : valid_date y m d -> ordinary (PDate y m d)
| or_array fmt l : Forall ordinary l -> ordinary (PArray fmt l)
| or_model m : Forall (fun kv => ordinary (snd kv)) m -> ordinary (PModel m).
(** Schemas that neither ask for unique items nor have a discriminator, here and inside *)
Definition straight (abs_uri win_uri : str -> str) (u : str) (root s : val) : Prop :=
  forall e, involves abs_uri win_uri u root s e -> ~ switched_on e "uniqueItems" /\ forall k, ~ discriminates e k.
