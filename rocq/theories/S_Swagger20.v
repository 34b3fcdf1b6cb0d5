(** The objects of the Swagger 2.0 specification (https://swagger.io/specification/v2/): their
    fields, what these hold, and how an object says what a document says. *)
From Verif Require Import PyBase PyJson M_SpecVal.
Close Scope Q_scope.

Inductive kind :=
| Value                (* any JSON value *)
| Object (c : cls)     (* an object *)
| Objects (c : cls)    (* a list of objects *)
| Named (c : cls)      (* objects by name *)
| SchemaOrBool.
(** what a field holds that the document does not give: nothing, or a default *)
Definition field := (str * (kind * val))%type.
Local Definition value (n : string) : field := (lit n, (Value, VNone)).
Local Definition object (n : string) (c : cls) : field := (lit n, (Object c, VNone)).
Local Definition objects (n : string) (c : cls) : field := (lit n, (Objects c, VList [])).
Local Definition named (n : string) (c : cls) : field := (lit n, (Named c, VDict [])).
Local Definition default (n : string) (v : val) : field := (lit n, (Value, v)).
(** validation keywords of JSON Schema that Swagger allows everywhere *)
Definition validation : list field :=
  map value ["type"; "format"; "default"; "multipleOf"; "maximum"; "exclusiveMaximum"; "minimum"; "exclusiveMinimum"; "maxLength"; "minLength"; "pattern";
             "maxItems"; "minItems"; "uniqueItems"; "enum"]%string.
Definition swagger20 (c : cls) : list field :=
  match c with
  | CSwagger => [value "swagger"; object "info" CInfo; value "host"; value "basePath"; default "schemes" (VList []); default "consumes" (VList []); default "produces" (VList []);
                 named "paths" CPathItem; named "definitions" CSchema; named "parameters" CParameter; named "responses" CResponse;
                 named "securityDefinitions" CSecurityScheme; value "security"; objects "tags" CTag; object "externalDocs" CExternalDocs]
  | CInfo => [value "title"; value "description"; value "termsOfService"; object "contact" CContact; object "license" CLicense; value "version"]
  | CContact => [value "name"; value "url"; value "email"]
  | CLicense => [value "name"; value "url"]
  | CPathItem => value "$ref" :: map (fun m => object m COperation) ["get"; "put"; "post"; "delete"; "options"; "head"; "patch"]%string ++ [objects "parameters" CParameter]
  | COperation => [value "tags"; value "summary"; value "description"; value "externalDocs"; value "operationId"; default "consumes" (VList []); default "produces" (VList []);
                   objects "parameters" CParameter; named "responses" CResponse; default "schemes" (VList []); default "deprecated" (VBool false); value "security"]
  | CExternalDocs => [value "description"; value "url"]
  | CParameter => [value "$ref"; value "name"; value "in"; value "description"; value "required"; object "schema" CSchema; default "allowEmptyValue" (VBool false);
                   object "items" CItems; default "collectionFormat" (VStr (lit "csv"))] ++ validation
  | CItems => [object "items" CItems; default "collectionFormat" (VStr (lit "csv"))] ++ validation
  | CHeader => [value "description"; object "items" CItems; default "collectionFormat" (VStr (lit "csv"))] ++ validation
  | CResponse => [value "$ref"; value "description"; object "schema" CSchema; named "headers" CHeader; value "examples"]
  | CTag => [value "name"; value "description"; object "externalDocs" CExternalDocs]
  | CSchema => [value "$ref"; value "title"; value "description"; value "maxProperties"; value "minProperties"; default "required" (VList []); object "items" CSchema;
                objects "allOf" CSchema; named "properties" CSchema; (lit "additionalProperties", (SchemaOrBool, VBool true)); value "discriminator"; value "readOnly";
                object "xml" CXML; object "externalDocs" CExternalDocs; value "example"] ++ validation
  | CXML => [value "name"; value "namespace"; value "prefix"; value "attribute"; value "wrapped"]
  | CSecurityScheme => [value "type"; value "description"; value "name"; value "in"; value "flow"; value "authorizationUrl"; value "tokenUrl"; value "scopes"]
  | COld _ => []
  end.
(** a field for which the document has [null] *)
Definition nothing (k : kind) : val := match k with Objects _ => VList [] | Named _ => VDict [] | _ => VNone end.

(** [v] says, as [k], what the document [j] says. *)
Inductive reads : kind -> json -> val -> Prop :=
| r_value j : reads Value j (inject j)
(** an object has exactly the fields that the specification has *)
| r_object c d h fs ints : h_cls h = c ->
    (forall n k a, In (n, (k, a)) (swagger20 c) -> exists x, sget n fs = Some x /\
       ((sget n d = None /\ x = a) \/ (sget n d = Some JNull /\ x = nothing k) \/ exists w, sget n d = Some w /\ w <> JNull /\ reads k w x)) ->
    (forall n x, sget n fs = Some x -> In n (map fst (swagger20 c))) ->
    reads (Object c) (JObj d) (VObj h fs ints)
(** [null] in a list or among named objects is an object that says nothing *)
| r_null c h fs ints : h_cls h = c -> (forall n k a, In (n, (k, a)) (swagger20 c) -> exists x, sget n fs = Some x /\ (x = a \/ x = VNone)) ->
    (forall n x, sget n fs = Some x -> In n (map fst (swagger20 c))) -> reads (Object c) JNull (VObj h fs ints)
| r_objects c l m : Forall2 (reads (Object c)) l m -> reads (Objects c) (JList l) (VList m)
(** (an empty list is sometimes written otherwise) *)
| r_none c j : j = JObj [] \/ j = JStr [] -> reads (Objects c) j (VList [])
| r_named c d e : Forall2 (fun kj kx => fst kj = fst kx /\ reads (Object c) (snd kj) (snd kx)) d e -> reads (Named c) (JObj d) (VDict e)
| r_bool b : reads SchemaOrBool (JBool b) (VBool b)
| r_schema d v : reads (Object CSchema) (JObj d) v -> reads SchemaOrBool (JObj d) v.
