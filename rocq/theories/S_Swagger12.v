(** The objects of the Swagger 1.2 specification
    (https://github.com/OAI/OpenAPI-Specification/blob/main/versions/1.2.md): their fields, what
    these hold, and how an object says what a document says. *)
From Verif Require Import PyBase PyJson M_SpecVal S_Validate S_OldParse.
Close Scope Q_scope.

Inductive kind12 :=
| Value12                    (* any JSON value *)
| Object12 (c : ocls)        (* an object *)
| Objects12 (c : ocls)       (* a list of objects *)
| Named12 (c : ocls)         (* objects by name *)
| NamedLists12 (c : ocls)    (* lists of objects by name *)
| Items12                    (* the items of an array *)
| Operations12.              (* the operations of a resource, by nickname *)
Definition field12 := (str * (kind12 * val))%type.
Local Definition value (n : string) : field12 := (lit n, (Value12, VNone)).
Local Definition object (n : string) (c : ocls) : field12 := (lit n, (Object12 c, VNone)).
Local Definition objects (n : string) (c : ocls) : field12 := (lit n, (Objects12 c, VList [])).
Local Definition named (n : string) (c : ocls) : field12 := (lit n, (Named12 c, VDict [])).
(** "Data Type Fields", 4.3.3 *)
Definition data_type12 : list field12 :=
  map value ["type"; "$ref"; "format"; "defaultValue"; "enum"; "minimum"; "maximum"; "uniqueItems"]%string ++ [(lit "items", (Items12, VNone))].
Definition swagger12 (c : ocls) : list field12 :=
  match c with
  | OResourceList => [value "swaggerVersion"; value "apiVersion"; object "info" OInfo; named "authorizations" OAuthorization]
  | OInfo => map value ["title"; "description"; "termsOfServiceUrl"; "contact"; "license"; "licenseUrl"]%string
  | OAuthorization => [value "type"; value "passAs"; value "keyname"; objects "scopes" OScope; object "grantTypes" OGrantType]
  | OScope => [value "scope"; value "description"]
  | OGrantType => [object "implicit" OImplicit; object "authorization_code" OAuthorizationCode]
  | OImplicit => [object "loginEndpoint" OLoginEndpoint; value "tokenName"]
  | OAuthorizationCode => [object "tokenRequestEndpoint" OTokenRequestEndpoint; object "tokenEndpoint" OTokenEndpoint]
  | OLoginEndpoint => [value "url"]
  | OTokenRequestEndpoint => [value "url"; value "clientIdName"; value "clientSecretName"]
  | OTokenEndpoint => [value "url"; value "tokenName"]
  | OResource => [value "swaggerVersion"; value "apiVersion"; value "basePath"; value "resourcePath"; (lit "apis", (Operations12, VDict [])); named "models" OModel;
                  value "produces"; value "consumes"; value "authorizations"; value "description"]
  | OApi => [value "path"; value "description"; objects "operations" OOperation]
  | OOperation => [value "method"; value "summary"; value "notes"; value "nickname"; (lit "authorizations", (NamedLists12 OAuthorizations, VDict []));
                   objects "parameters" OParameter; objects "responseMessages" OResponseMessage; value "produces"; value "consumes"; value "deprecated"] ++ data_type12
  | OParameter => [value "paramType"; value "name"; value "description"; value "required"; value "allowMultiple"] ++ data_type12
  | OResponseMessage => [value "code"; value "message"; value "responseModel"]
  | OAuthorizations => [value "scope"; value "description"]
  | OModel => [value "id"; value "description"; (lit "required", (Value12, VList [])); named "properties" OProperty; value "subTypes"; value "discriminator"]
  | OProperty => value "description" :: data_type12
  | OItems => [value "type"; value "format"; value "$ref"]
  end.
(** a field for which the document has [null] *)
Definition nothing12 (k : kind12) : val :=
  match k with Objects12 _ => VList [] | Named12 _ | NamedLists12 _ | Operations12 => VDict [] | _ => VNone end.

(** [v] says, as [k], what the document [j] says. *)
Inductive reads12 : kind12 -> json -> val -> Prop :=
| o_value j : reads12 Value12 j (inject j)
| o_object c d h fs ints : h_cls h = COld c ->
    (forall n k a, In (n, (k, a)) (swagger12 c) -> exists x, sget n fs = Some x /\
       ((sget n d = None /\ x = a) \/ (sget n d = Some JNull /\ x = nothing12 k) \/ exists w, sget n d = Some w /\ w <> JNull /\ reads12 k w x)) ->
    reads12 (Object12 c) (JObj d) (VObj h fs ints)
(** [null] in a list or among named objects is an object that says nothing *)
| o_null c h fs ints : h_cls h = COld c -> (forall n k a, In (n, (k, a)) (swagger12 c) -> exists x, sget n fs = Some x /\ (x = a \/ x = VNone)) ->
    reads12 (Object12 c) JNull (VObj h fs ints)
| o_objects c j l m : listed_here j l -> Forall2 (reads12 (Object12 c)) l m -> reads12 (Objects12 c) j (VList m)
| o_named c d e : Forall2 (fun kj kx => fst kj = fst kx /\ reads12 (Object12 c) (snd kj) (snd kx)) d e -> reads12 (Named12 c) (JObj d) (VDict e)
| o_named_lists c d e :
    Forall2 (fun kj kx => fst kj = fst kx /\ exists l m, listed_here (snd kj) l /\ snd kx = VList m /\ Forall2 (reads12 (Object12 c)) l m) d e ->
    reads12 (NamedLists12 c) (JObj d) (VDict e)
(** the items are an object, unless they are empty *)
| o_no_items j : ~ holds_true (inject j) -> reads12 Items12 j (inject j)
| o_items j v : reads12 (Object12 OItems) j v -> reads12 Items12 j v
(** each operation of each API, with the path of its API *)
| o_operations j apis l ops : listed_here j apis -> api_operations apis l -> NoDup (map fst ops) ->
    Forall2 (fun pj no => entry (snd pj) (lit "nickname") = Some (JStr (fst no)) /\ has_path (snd no) (fst pj) /\ reads12 (Object12 OOperation) (snd pj) (snd no)) l ops ->
    reads12 Operations12 j (VDict ops).
