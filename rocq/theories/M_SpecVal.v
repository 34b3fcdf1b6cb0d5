(** The Swagger 2.0 object classes (pyswagger/spec/v2_0/objects.py), their parsing
    contexts (pyswagger/spec/v2_0/parser.py), the Swagger 1.2 object classes
    (pyswagger/spec/v1_2/objects.py; their contexts are in M_OldParse.v), and Python values
    that may hold such objects.  No class uses [__swagger_rename__], so names of fields and attributes agree. *)
From Verif Require Import PyBase PyJson.
Close Scope Q_scope.

(** ** Classes *)
(** of 1.2 *)
Inductive ocls := OItems | OScope | OLoginEndpoint | OImplicit | OTokenRequestEndpoint | OTokenEndpoint
  | OAuthorizationCode | OGrantType | OAuthorizations | OAuthorization | OResponseMessage | OParameter
  | OOperation | OApi | OProperty | OModel | OResource | OInfo | OResourceList.
Definition ocls_number (c : ocls) : nat :=
  match c with
  | OItems => 0 | OScope => 1 | OLoginEndpoint => 2 | OImplicit => 3 | OTokenRequestEndpoint => 4
  | OTokenEndpoint => 5 | OAuthorizationCode => 6 | OGrantType => 7 | OAuthorizations => 8
  | OAuthorization => 9 | OResponseMessage => 10 | OParameter => 11 | OOperation => 12 | OApi => 13
  | OProperty => 14 | OModel => 15 | OResource => 16 | OInfo => 17 | OResourceList => 18
  end.
Definition ocls_eqb (a b : ocls) : bool := ocls_number a =? ocls_number b.
Inductive cls := CXML | CItems | CSchema | CSwagger | CContact | CLicense | CInfo | CParameter
  | CHeader | CResponse | COperation | CPathItem | CSecurityScheme | CTag | CExternalDocs | COld (c : ocls).
Definition cls_eqb (a b : cls) : bool :=
  match a, b with
  | CXML, CXML | CItems, CItems | CSchema, CSchema | CSwagger, CSwagger | CContact, CContact
  | CLicense, CLicense | CInfo, CInfo | CParameter, CParameter | CHeader, CHeader | CResponse, CResponse
  | COperation, COperation | CPathItem, CPathItem | CSecurityScheme, CSecurityScheme | CTag, CTag
  | CExternalDocs, CExternalDocs => true
  | COld a, COld b => ocls_eqb a b
  | _, _ => false
  end.

Definition nones (l : list string) : list (str * json) := map (fun n => (lit n, JNull)) l.
(** objects.py:30-48 *)
Definition base_schema : list (str * json) := nones
  ["type"; "format"; "items"; "default"; "maximum"; "exclusiveMaximum"; "minimum"; "exclusiveMinimum";
   "maxLength"; "minLength"; "maxItems"; "minItems"; "multipleOf"; "enum"; "pattern"; "uniqueItems"]%string.
(** spec/v1_2/objects.py:34-44 *)
Definition data_type : list (str * json) :=
  nones ["type"; "$ref"; "format"; "defaultValue"; "enum"; "items"; "minimum"; "maximum"; "uniqueItems"]%string.
(** spec/v1_2/objects.py:11-310 *)
Definition o_fields (c : ocls) : list (str * json) :=
  match c with
  | OItems => nones ["$ref"; "type"; "format"]%string
  | OScope | OAuthorizations => nones ["scope"; "description"]%string
  | OLoginEndpoint => nones ["url"]%string
  | OImplicit => nones ["loginEndpoint"; "tokenName"]%string
  | OTokenRequestEndpoint => nones ["url"; "clientIdName"; "clientSecretName"]%string
  | OTokenEndpoint => nones ["url"; "tokenName"]%string
  | OAuthorizationCode => nones ["tokenRequestEndpoint"; "tokenEndpoint"]%string
  | OGrantType => nones ["implicit"; "authorization_code"]%string
  | OAuthorization => nones ["type"; "passAs"; "keyname"; "scopes"; "grantTypes"]%string
  | OResponseMessage => nones ["code"; "message"; "responseModel"]%string
  | OParameter => nones ["paramType"; "name"; "required"; "allowMultiple"; "description"]%string ++ data_type
  | OOperation => nones ["method"; "nickname"; "authorizations"; "parameters"; "responseMessages"; "produces";
                         "consumes"; "deprecated"; "summary"; "notes"]%string ++ data_type
  | OApi => nones ["path"; "operations"; "description"]%string
  | OProperty => nones ["description"]%string ++ data_type
  | OModel => [(lit "id", JNull); (lit "required", JList [])]
      ++ nones ["properties"; "subTypes"; "discriminator"; "description"]%string
  | OResource => nones ["swaggerVersion"; "apiVersion"; "apis"; "basePath"; "resourcePath"; "models"; "produces";
                        "consumes"; "authorizations"; "description"]%string
  | OInfo => nones ["title"; "termsOfServiceUrl"; "contact"; "license"; "licenseUrl"; "description"]%string
  | OResourceList => nones ["swaggerVersion"; "apis"; "apiVersion"; "info"; "authorizations"]%string
  end.
(** [__swagger_fields__] with the defaults, inherited fields last (base.py:477-500 merges
    them): objects.py:16-347 *)
Definition t_fields (c : cls) : list (str * json) :=
  match c with
  | CXML => nones ["name"; "namespace"; "prefix"; "attribute"; "wrapped"]%string
  | CItems => (lit "collectionFormat", JStr "csv"%string) :: base_schema
  | CSchema => nones ["$ref"; "maxProperties"; "minProperties"]%string
      ++ [(lit "required", JList []); (lit "allOf", JList []); (lit "properties", JObj []);
          (lit "additionalProperties", JBool true)]
      ++ nones ["title"; "description"; "discriminator"; "readOnly"; "xml"; "externalDocs"; "example"]%string
      ++ base_schema
  | CSwagger => nones ["swagger"; "info"; "host"; "basePath"]%string
      ++ [(lit "schemes", JList []); (lit "consumes", JList []); (lit "produces", JList [])]
      ++ nones ["paths"; "definitions"; "parameters"; "responses"; "securityDefinitions"; "security";
                "tags"; "externalDocs"]%string
  | CContact => nones ["name"; "url"; "email"]%string
  | CLicense => nones ["name"; "url"]%string
  | CInfo => nones ["version"; "title"; "description"; "termsOfService"; "contact"; "license"]%string
  | CParameter => nones ["$ref"; "name"; "in"; "required"; "schema"]%string
      ++ [(lit "collectionFormat", JStr "csv"%string); (lit "description", JNull); (lit "allowEmptyValue", JBool false)]
      ++ base_schema
  | CHeader => [(lit "collectionFormat", JStr "csv"%string); (lit "description", JNull)] ++ base_schema
  | CResponse => [(lit "$ref", JNull); (lit "schema", JNull); (lit "headers", JObj []);
                  (lit "description", JNull); (lit "examples", JNull)]
  | COperation => nones ["tags"; "operationId"]%string
      ++ [(lit "consumes", JList []); (lit "produces", JList []); (lit "schemes", JList []);
          (lit "parameters", JNull); (lit "responses", JNull); (lit "deprecated", JBool false)]
      ++ nones ["security"; "description"; "summary"; "externalDocs"]%string
  | CPathItem => nones ["$ref"; "get"; "put"; "post"; "delete"; "options"; "head"; "patch"]%string
      ++ [(lit "parameters", JList [])]
  | CSecurityScheme => nones ["type"; "name"; "in"; "flow"; "authorizationUrl"; "tokenUrl"; "scopes"; "description"]%string
  | CTag => nones ["name"; "description"; "externalDocs"]%string
  | CExternalDocs => nones ["description"; "url"]%string
  | COld c => o_fields c
  end.
(** [__internal_fields__] *)
Definition t_internal (c : cls) : list (str * json) :=
  match c with
  | CSchema => nones ["ref_obj"; "final"; "name"]%string
  | CParameter | CResponse => nones ["final"]%string
  | COperation => nones ["method"; "url"; "path"; "base_path"]%string ++ [(lit "cached_schemes", JList [])]
  | COld OOperation => nones ["path"]%string
  | COld OModel => nones ["_extends_"]%string
  | _ => []
  end.

(** ** Parsing contexts *)
(** One context per class, and the one for [additionalProperties] (parser.py:57-97). *)
Inductive ctx := Of (c : cls) | AddP.
(** base.py:11-22; a dict of lists occurs in 1.2 only and is not modelled here *)
Inductive ctype := One | ListOf | DictOf.
Definition one (n : string) (c : cls) : str * (ctype * ctx) := (lit n, (One, Of c)).
Definition list_of (n : string) (c : cls) : str * (ctype * ctx) := (lit n, (ListOf, Of c)).
Definition dict_of (n : string) (c : cls) : str * (ctype * ctx) := (lit n, (DictOf, Of c)).
(** [__swagger_child__]: parser.py:45-47, 100-111, 119-126, 134-136, 144-147, 155-158, 166-175,
    191-193, 212-215, 223-232 *)
Definition t_child (c : cls) : list (str * (ctype * ctx)) :=
  match c with
  | CItems | CHeader => [one "items" CItems]
  | CSchema => [one "items" CSchema; dict_of "properties" CSchema; (lit "additionalProperties", (One, AddP));
                list_of "allOf" CSchema; one "xml" CXML; one "externalDocs" CExternalDocs]
  | CParameter => [one "schema" CSchema; one "items" CItems]
  | CResponse => [one "schema" CSchema; dict_of "headers" CHeader]
  | COperation => [list_of "parameters" CParameter; dict_of "responses" CResponse]
  | CPathItem => [one "get" COperation; one "put" COperation; one "post" COperation; one "delete" COperation;
                  one "options" COperation; one "head" COperation; one "patch" COperation;
                  list_of "parameters" CParameter]
  | CTag => [one "externalDocs" CExternalDocs]
  | CInfo => [one "contact" CContact; one "license" CLicense]
  | CSwagger => [one "info" CInfo; dict_of "paths" CPathItem; dict_of "definitions" CSchema;
                 dict_of "parameters" CParameter; dict_of "responses" CResponse;
                 dict_of "securityDefinitions" CSecurityScheme; list_of "tags" CTag; one "externalDocs" CExternalDocs]
  | CXML | CContact | CLicense | CSecurityScheme | CExternalDocs => []
  | COld _ => []
  end.

(** ** Values *)
(** Where an object was made, as the keys that lead there from the root of the parsed
    document.  It stands for the object's identity. *)
Definition place := list str.
(** What an object holds besides its fields: its class, itself, [_parent__] and
    [__origin_keys] (base.py:203-220). *)
Record head := Head { h_cls : cls; h_place : place; h_parent : option place; h_keys : list str }.
Inductive val :=
| VNone | VBool (b : bool) | VInt (z : Z) | VFloat (q : Q) | VStr (s : str)
| VList (l : list val) | VDict (d : sdict val)
| VObj (h : head) (fs ints : sdict val).

Fixpoint inject (j : json) : val :=
  match j with
  | JNull => VNone | JBool b => VBool b | JInt z => VInt z | JFloat q => VFloat q | JStr s => VStr s
  | JList l => VList (map inject l)
  | JObj d => VDict (map (fun kv => (fst kv, inject (snd kv))) d)
  end.

(** [v == default].  The defaults are None, booleans, texts and empty containers. *)
Definition is_default (v : val) (d : json) : bool :=
  match d, v with
  | JNull, VNone => true
  | JList [], VList [] => true
  | JObj [], VDict [] => true
  | JStr s, VStr t => str_eqb s t
  | JBool b, VBool c => Bool.eqb b c
  | JBool b, VInt z => Z.eqb z (if b then 1 else 0)
  | JBool b, VFloat q => Qeq_bool q (if b then 1%Q else 0%Q)
  | _, _ => false
  end.

(** Loops that stop at the first exception. *)
Fixpoint map_res {A B} (f : A -> res B) (l : list A) : res (list B) :=
  match l with
  | [] => Ok []
  | x :: l => do y <- f x; do l' <- map_res f l; Ok (y :: l')
  end.
Definition str_of_nat (n : nat) : str := str_of_Z (Z.of_nat n).
Fixpoint mapi_res {A B} (f : nat -> A -> res B) (i : nat) (l : list A) : res (list B) :=
  match l with
  | [] => Ok []
  | x :: l => do y <- f i x; do l' <- mapi_res f (S i) l; Ok (y :: l')
  end.
