(** Specification of validating 1.2 documents. *)
From Verif Require Import PyBase PyJson S_JsonPtr M_SpecVal S_Parse S_Validate M_Validate M_OldValidate.
Close Scope Q_scope.

(** At [ts] in the document there is an object of the class [c] with these fields. *)
Definition object_at (root : val) (ts : list str) (c : ocls) (fs : sdict val) : Prop :=
  exists h ints, reach [] root ts (VObj h fs ints) /\ h_cls h = COld c.
Definition has (fs : sdict val) (n : string) (x : val) : Prop := sget (lit n) fs = Some x.
Definition text (s : string) : val := VStr (lit s).
(** [s] is in a list, in a text or among the keys of an object. *)
Inductive mentions (s : str) : val -> Prop :=
| in_elements l : In (VStr s) l -> mentions s (VList l)
| in_text a b : mentions s (VStr (a ++ s ++ b))
| in_keys d x : sget s d = Some x -> mentions s (VDict d).
Definition searchable (v : val) : Prop :=
  match v with VList _ | VStr _ | VDict _ => True | _ => False end.

(** The classes with a data type, and those of them that may not be "void" *)
Definition data_class (c : ocls) : Prop := c = OParameter \/ c = OOperation \/ c = OProperty.
Definition no_void_class (c : ocls) : Prop := c = OParameter \/ c = OProperty \/ c = OItems.
(** The required fields of a class *)
Definition required_fields (c : ocls) : list string :=
  match c with
  | OScope | OAuthorizations => ["scope"]
  | OLoginEndpoint | OTokenRequestEndpoint | OTokenEndpoint => ["url"]
  | OImplicit => ["loginEndpoint"]
  | OAuthorizationCode => ["tokenRequestEndpoint"; "tokenEndpoint"]
  | OAuthorization => ["type"]
  | OResponseMessage => ["code"; "message"]
  | OParameter => ["paramType"; "name"]
  | OOperation => ["method"; "nickname"; "parameters"]
  | OApi => ["path"; "operations"]
  | OModel => ["id"; "properties"]
  | OResource => ["swaggerVersion"; "basePath"; "apis"]
  | OResourceList => ["swaggerVersion"; "apis"]
  | OInfo => ["title"; "description"]
  | OItems | OGrantType | OProperty => []
  end%string.

(** The rules: an object of the class [c] with the fields [fs] at [ts] breaks one. *)
Inductive breaks (root : val) (ts : list str) (c : ocls) (fs : sdict val) : message -> Prop :=
| b_type : data_class c -> has fs "type" VNone -> has fs "$ref" VNone -> breaks root ts c fs ("type or $ref should be existed."%string, VNone)
| b_items t i : data_class c -> has fs "type" t -> has fs "items" i -> ~ (t = text "array" <-> i <> VNone) ->
    breaks root ts c fs ("array should be existed along with items"%string, VNone)
| b_unique t u : data_class c -> has fs "type" t -> has fs "uniqueItems" u -> u <> VNone -> t <> text "array" ->
    breaks root ts c fs ("uniqueItems is only used for array type."%string, VNone)
| b_void : no_void_class c -> has fs "type" (text "void") -> breaks root ts c fs ("void is only allowed in Operation object."%string, VNone)
| b_multiple am pt : c = OParameter -> has fs "allowMultiple" am -> holds_true am -> has fs "paramType" pt ->
    pt <> text "path" -> pt <> text "query" -> pt <> text "header" ->
    breaks root ts c fs ("allowMultiple should be applied on path, header, or query parameters"%string, VNone)
| b_multiple_array am : c = OParameter -> has fs "allowMultiple" am -> holds_true am -> has fs "type" (text "array") ->
    breaks root ts c fs ("array Type with allowMultiple is not supported."%string, VNone)
| b_body n : c = OParameter -> has fs "paramType" (text "body") -> has fs "name" n -> n <> text "" -> n <> text "body" ->
    breaks root ts c fs ("body parameter with invalid name: {0}"%string, n)
| b_file_form n pt : c = OParameter -> has fs "type" (text "File") -> has fs "name" n -> has fs "paramType" pt -> pt <> text "form" ->
    breaks root ts c fs ("File parameter should be form type: {0}"%string, n)
| b_file_consumes n ts0 i fo co : c = OParameter -> has fs "type" (text "File") -> has fs "name" n ->
    ts = ts0 ++ [lit "parameters"; i] -> object_at root ts0 OOperation fo -> has fo "consumes" co -> ~ mentions (lit "multipart/form-data") co ->
    breaks root ts c fs ("File parameter should consume multipart/form-data: {0}"%string, n)
| b_pass_as x : c = OAuthorization -> has fs "type" (text "apiKey") -> has fs "passAs" x -> ~ holds_true x ->
    breaks root ts c fs ("need ""passAs"" for apiKey"%string, VNone)
| b_keyname x : c = OAuthorization -> has fs "type" (text "apiKey") -> has fs "keyname" x -> ~ holds_true x ->
    breaks root ts c fs ("need ""keyname"" for apiKey"%string, VNone)
| b_grant_types x : c = OAuthorization -> has fs "type" (text "oauth2") -> has fs "grantTypes" x -> ~ holds_true x ->
    breaks root ts c fs ("need ""grantTypes"" for oauth2"%string, VNone)
| b_grant x y : c = OGrantType -> has fs "implicit" x -> has fs "authorization_code" y -> ~ holds_true x -> ~ holds_true y ->
    breaks root ts c fs ("Either implicit or authorization_code should be defined."%string, VNone)
| b_scopes auths k v fr defs h fa ints t : c = OOperation -> has fs "authorizations" (VDict auths) -> sget k auths = Some v -> v <> VList [] ->
    object_at root [] OResourceList fr -> has fr "authorizations" (VDict defs) -> sget k defs = Some (VObj h fa ints) ->
    has fa "type" t -> t = text "basicAuth" \/ t = text "apiKey" ->
    breaks root ts c fs ("auth {0} should be an empty list"%string, VStr k)
| b_required r : In r (required_fields c) -> has fs r VNone -> breaks root ts c fs ("requirement {0} not meet."%string, VStr (lit r)).
(** An object in the document breaks a rule. *)
Definition broken (root : val) (ts : list str) (c : ocls) (m : message) : Prop :=
  exists fs, object_at root ts c fs /\ breaks root ts c fs m.
Definition report_of (ts : list str) (c : ocls) (m : message) : report := (rfc_pointer (lit "#") ts, old_name c, m).
(** An operation names an authorization that is not defined. *)
Definition undefined_auth (root : val) : Prop :=
  exists ts fs auths k fr defs, object_at root ts OOperation fs /\ has fs "authorizations" (VDict auths) /\ sget k auths <> None /\
    object_at root [] OResourceList fr /\ has fr "authorizations" (VDict defs) /\ sget k defs = None.
(** What an operation with a file parameter consumes is nothing to search in. *)
Definition unsearchable_consumes (root : val) : Prop :=
  exists ts i fs fo co, object_at root (ts ++ [lit "parameters"; i]) OParameter fs /\ has fs "type" (text "File") /\
    object_at root ts OOperation fo /\ has fo "consumes" co /\ ~ searchable co.
