(** Specification of the values that declarations of parameters, headers and items take, in terms
    of the fields of these objects (C66). *)
From Coq Require Import QArith.
From Verif Require Import PyBase PyJson M_SpecVal S_Parse S_SpecTree S_Merge S_MergeRef M_Quote M_Time.
From Verif Require M_Prim S_Prim S_PrimKinds.
Close Scope Q_scope.

(** ** Fields *)
Definition text_at (f : val) (n : string) (s : str) : Prop := field_of f (lit n) = Some (VStr s).
Inductive number_at (f : val) (n : string) : Q -> Prop :=
| na_int z : field_of f (lit n) = Some (VInt z) -> number_at f n (inject_Z z)
| na_float q : field_of f (lit n) = Some (VFloat q) -> number_at f n q.
Definition size_at (f : val) (n : string) (z : Z) : Prop := field_of f (lit n) = Some (VInt z).
Definition switched_on (f : val) (n : string) : Prop := exists v, field_of f (lit n) = Some v /\ ~ empty_value v.

(** ** Kinds *)
Definition of_type (f : val) (t : string) : Prop := text_at f "type" (lit t).
Definition of_format (f : val) (l : list string) : Prop := exists s, In s l /\ text_at f "format" (lit s).
Definition integer_decl (f : val) : Prop := of_type f "integer" \/ of_type f "number" /\ of_format f ["int32"; "int64"]%string.
Definition number_decl (f : val) : Prop := of_type f "number" /\ ~ of_format f ["int32"; "int64"]%string.
Definition text_decl (f : val) : Prop := of_type f "string" /\ ~ of_format f ["email"; "uuid"; "byte"; "binary"; "date"; "date-time"]%string.

(** ** Limits *)
Definition in_range (f : val) (q : Q) : Prop :=
  (forall m, number_at f "maximum" m -> (q <= m)%Q /\ (switched_on f "exclusiveMaximum" -> (q < m)%Q)) /\
  (forall m, number_at f "minimum" m -> (m <= q)%Q /\ (switched_on f "exclusiveMinimum" -> (m < q)%Q)).
Definition multiple_of (f : val) (q : Q) : Prop := forall m, number_at f "multipleOf" m -> ~ (m == 0)%Q -> exists k : Z, (q == inject_Z k * m)%Q.
(** A limit of 0 does not count. *)
Definition sized (f : val) (lo hi : string) (n : nat) : Prop :=
  (forall z, size_at f hi z -> z <> 0%Z -> (Z.of_nat n <= z)%Z) /\ (forall z, size_at f lo z -> z <> 0%Z -> (z <= Z.of_nat n)%Z).
Definition in_enum (f : val) (s : str) : Prop := forall l, field_of f (lit "enum") = Some (VList l) -> l <> [] -> In (VStr s) l.
Definition right_text (f : val) (s : str) : Prop := in_enum f s /\ sized f "minLength" "maxLength" (length s).

Import M_Prim.
(** A value of the document *)
Inductive same_value : val -> value -> Prop :=
| sv_none : same_value M_SpecVal.VNone VNull
| sv_bool b : same_value (M_SpecVal.VBool b) (VBool b)
| sv_int z : same_value (M_SpecVal.VInt z) (VInt z)
| sv_float q : same_value (M_SpecVal.VFloat q) (VFloat q)
| sv_str s : same_value (M_SpecVal.VStr s) (VStr s)
| sv_list l m : Forall2 same_value l m -> same_value (M_SpecVal.VList l) (VList m)
| sv_dict d e : Forall2 (fun a b => fst a = fst b /\ same_value (snd a) (snd b)) d e -> same_value (M_SpecVal.VDict d) (VDict e).

Section Becomes.
  (** What Python reads in texts and timestamps, and how it writes values; as in M_Prim *)
  Context (int_of : str -> res Z) (float_of : str -> res Q) (str_of : value -> str)
    (date_at : Q -> res (Z * Z * Z)) (datetime_at : Q -> res datetime) (uuid_of : str -> option Z) (email_ok : str -> bool).
  Inductive whole : value -> Z -> Prop :=
  | wh_int z : whole (VInt z) z
  | wh_bool b : whole (VBool b) (if b then 1 else 0)
  | wh_float q z : S_PrimKinds.cut q z -> whole (VFloat q) z
  | wh_str s z : int_of s = Ok z -> whole (VStr s) z
  | wh_bytes s z : int_of s = Ok z -> whole (VBytes s) z.
  Inductive fraction : value -> Q -> Prop :=
  | fr_int z : fraction (VInt z) (inject_Z z)
  | fr_bool b : fraction (VBool b) (if b then 1%Q else 0%Q)
  | fr_float q : fraction (VFloat q) q
  | fr_str s q : float_of s = Ok q -> fraction (VStr s) q
  | fr_bytes s q : float_of s = Ok q -> fraction (VBytes s) q.
  Definition text (x : value) (s : str) : Prop := x = VStr s \/ (forall t, x <> VStr t) /\ s = str_of x.
  Inductive bytes : value -> str -> Prop :=
  | by_bytes s : bytes (VBytes s) s
  | by_str s : bytes (VStr s) (utf8 s).
  Inductive date : value -> prim -> Prop :=
  | da_float q y m d : date_at q = Ok (y, m, d) -> date (VFloat q) (PDate y m d)
  | da_date y m d : date (VDate y m d) (PDate y m d)
  | da_datetime d : date (VDatetime d) (PDatetime d)
  | da_str s x : from_iso8601 s = Ok x -> date (VStr s) (PDate (year x) (month x) (day x)).
  Inductive moment : value -> datetime -> Prop :=
  | mo_float q d : datetime_at q = Ok d -> moment (VFloat q) d
  | mo_datetime d : moment (VDatetime d) d
  | mo_str s d : from_iso8601 s = Ok d -> moment (VStr s) d.
  Inductive uuid : value -> Z -> Prop :=
  | uu_uuid z : uuid (VUuid z) z
  | uu_str s z : uuid_of s = Some z -> uuid (VStr s) z
  | uu_bytes s : length s = 16 -> uuid (VBytes s) (S_PrimKinds.big_endian s).
  (** The elements of a value for an array: texts are split at the separator. *)
  Inductive elements (f : val) : value -> list value -> Prop :=
  | el_list l : elements f (VList l) l
  | el_dict d : elements f (VDict d) (map (fun kv => VStr (fst kv)) d)
  | el_bytes s : elements f (VBytes s) (map (fun c => VInt (Z.of_N (N_of_ascii c))) s)
  | el_str fmt sp ps : text_at f "collectionFormat" (lit fmt) -> S_Prim.sep_of fmt = Some sp -> ps <> [] ->
      Forall (fun p => forall c, In c (lit sp) -> ~ In c p) ps -> elements f (VStr (join (lit sp) ps)) (map VStr ps).

  (** The value [x] becomes [r] where [f] is declared. *)
  Inductive becomes : val -> value -> prim -> Prop :=
  | be_none f : field_of f (lit "default") = Some M_SpecVal.VNone -> becomes f VNull PNone
  | be_default f d x r : field_of f (lit "default") = Some d -> same_value d x -> x <> VNull -> becomes f x r -> becomes f VNull r
  | be_integer f x z : integer_decl f -> whole x z -> in_range f (inject_Z z) -> becomes f x (PInt z)
  | be_number f x q : number_decl f -> fraction x q -> in_range f q -> multiple_of f q -> becomes f x (PFloat q)
  | be_text f x s : text_decl f -> x <> VNull -> text x s -> right_text f s -> becomes f x (PStr s)
  | be_email f x s : of_type f "string" -> of_format f ["email"]%string -> x <> VNull -> text x s -> right_text f s -> email_ok s = true -> becomes f x (PStr s)
  | be_boolean f x b : of_type f "boolean" -> x <> VNull -> (b = false <-> S_PrimKinds.empty_value x) -> becomes f x (PBool b)
  | be_bytes f x s : of_type f "string" -> of_format f ["byte"; "binary"]%string -> bytes x s -> becomes f x (PByte s)
  | be_date f x r : of_type f "string" -> of_format f ["date"]%string -> date x r -> becomes f x r
  | be_moment f x d : of_type f "string" -> of_format f ["date-time"]%string -> moment x d -> becomes f x (PDatetime d)
  | be_uuid f x z : of_type f "string" -> of_format f ["uuid"]%string -> uuid x z -> becomes f x (PUuid z)
  | be_file f d : of_type f "file" -> let data := S_PrimKinds.entry "data" d VNull in let name := S_PrimKinds.entry "filename" d (VStr []) in
      ~ (data = VNull /\ name = VStr []) -> becomes f (VDict d) (PFile (S_PrimKinds.entry "header" d (VDict [])) data name)
  (* an array: the elements, each once if they shall be unique, as the items are declared *)
  | be_array f x i l l' rs fmt : of_type f "array" -> field_of f (lit "items") = Some i -> elements f x l ->
      (switched_on f "uniqueItems" /\ S_Prim.firsts [] l l' \/ ~ switched_on f "uniqueItems" /\ l' = l) ->
      Forall2 (becomes i) l' rs -> sized f "minItems" "maxItems" (length rs) -> text_at f "collectionFormat" fmt -> becomes f x (PArray fmt rs).
End Becomes.

(** ** Declarations in order: the fields have the types that the specification gives them, and
    arrays say what their items are. *)
Definition text_or_none (v : val) : Prop := v = M_SpecVal.VNone \/ exists s, v = M_SpecVal.VStr s.
Definition number_or_none (v : val) : Prop := v = M_SpecVal.VNone \/ (exists z, v = M_SpecVal.VInt z) \/ exists q, v = M_SpecVal.VFloat q.
Definition size_or_none (v : val) : Prop := v = M_SpecVal.VNone \/ exists z, v = M_SpecVal.VInt z.
Definition list_or_none (v : val) : Prop := v = M_SpecVal.VNone \/ exists l, v = M_SpecVal.VList l.
Definition field_ok (f : val) (ok : val -> Prop) (n : string) : Prop := exists v, field_of f (lit n) = Some v /\ ok v.
Inductive in_order : val -> Prop :=
| io f : match f with VObj h _ _ => h_cls h = CParameter \/ h_cls h = CItems \/ h_cls h = CHeader | _ => False end ->
    (is_class CParameter f -> field_ok f text_or_none "name") ->
    Forall (field_ok f text_or_none) ["type"; "format"]%string ->
    Forall (field_ok f number_or_none) ["maximum"; "minimum"; "multipleOf"]%string ->
    Forall (field_ok f size_or_none) ["maxLength"; "minLength"; "maxItems"; "minItems"]%string ->
    Forall (field_ok f (fun _ => True)) ["exclusiveMaximum"; "exclusiveMinimum"; "uniqueItems"]%string ->
    field_ok f list_or_none "enum" -> field_ok f (fun d => exists x, same_value d x) "default" -> field_ok f (fun v => exists s, v = M_SpecVal.VStr s) "collectionFormat" ->
    (field_of f (lit "items") = Some M_SpecVal.VNone /\ ~ of_type f "array" \/ exists i, field_of f (lit "items") = Some i /\ in_order i) ->
    in_order f.

(** ** Declarations as they are written in documents: the fields that are there have the types of
    the specification. *)
Inductive given (d : sdict json) (n : string) (ok : json -> Prop) : Prop :=
| gi_absent : sget (lit n) d = None -> given d n ok
| gi_null : sget (lit n) d = Some JNull -> given d n ok
| gi_there w : sget (lit n) d = Some w -> ok w -> given d n ok.
Definition is_text (w : json) : Prop := exists s, w = JStr s.
Definition is_size (w : json) : Prop := exists z, w = JInt z.
Definition a_number (w : json) : Prop := (exists z, w = JInt z) \/ exists q, w = JFloat q.
Definition is_list (w : json) : Prop := exists l, w = JList l.
Inductive written : json -> Prop :=
| wr d : Forall (fun n => given d n is_text) ["name"; "type"; "format"]%string ->
    Forall (fun n => given d n a_number) ["maximum"; "minimum"; "multipleOf"]%string ->
    Forall (fun n => given d n is_size) ["maxLength"; "minLength"; "maxItems"; "minItems"]%string ->
    given d "enum" is_list -> (sget (lit "collectionFormat") d = None \/ exists s, sget (lit "collectionFormat") d = Some (JStr s)) ->
    ((sget (lit "items") d = None \/ sget (lit "items") d = Some JNull) /\ sget (lit "type") d <> Some (JStr (lit "array")) \/ exists i, sget (lit "items") d = Some i /\ written i) ->
    written (JObj d).
(** The default and the flags hold no lists or dicts, in the items neither. *)
Inductive plainly : val -> Prop :=
| pl f : (forall n v, In n ["default"; "exclusiveMaximum"; "exclusiveMinimum"; "uniqueItems"]%string -> field_of f (lit n) = Some v -> ~ container v) ->
    (forall i, field_of f (lit "items") = Some i -> i <> M_SpecVal.VNone -> plainly i) -> plainly f.
