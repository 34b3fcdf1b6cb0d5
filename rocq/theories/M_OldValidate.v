(** Model of validating 1.2 documents: pyswagger/scanner/v1_2/validate.py:28-225. *)
From Verif Require Import PyBase PyJson M_JsonPtr M_SpecVal M_SpecTree M_Merge M_Patch M_Scan M_Validate.
Close Scope Q_scope.

(** [obj.__class__.__name__] *)
Definition old_name (c : ocls) : string :=
  match c with
  | OItems => "Items" | OScope => "Scope" | OLoginEndpoint => "LoginEndpoint" | OImplicit => "Implicit"
  | OTokenRequestEndpoint => "TokenRequestEndpoint" | OTokenEndpoint => "TokenEndpoint"
  | OAuthorizationCode => "AuthorizationCode" | OGrantType => "GrantType" | OAuthorizations => "Authorizations"
  | OAuthorization => "Authorization" | OResponseMessage => "ResponseMessage" | OParameter => "Parameter"
  | OOperation => "Operation" | OApi => "Api" | OProperty => "Property" | OModel => "Model"
  | OResource => "Resource" | OInfo => "Info" | OResourceList => "ResourceList"
  end%string.
Definition name_of_obj (o : val) : string :=
  match o with VObj (Head (COld c) _ _ _) _ _ => old_name c | _ => ""%string end.
Definition is_text (v : val) (s : string) : bool := match v with VStr t => str_eqb t s | _ => false end.
Definition is_none (v : val) : bool := match v with VNone => true | _ => false end.
Definition when (b : bool) (m : message) : list message := if b then [m] else [].
(** [s in v] for a text *)
Definition text_in (s : str) (v : val) : res bool :=
  match v with
  | VStr t => Ok (contains s t)
  | VList l => Ok (existsb (fun x => match x with VStr t => str_eqb s t | _ => false end) l)
  | VDict d => Ok (smem s d)
  | _ => Err TypeError
  end.
(** [obj._parent_] of a parameter: the object two steps above it in the document.  This is
    its parent as the parser has it (T_OldParse). *)
Definition two_up (root : val) (path : str) : res val :=
  resolve root (removelast (removelast (tl (jp_split (Some path))))).

(** The handlers, and the required fields of a class *)
Inductive rule := RData | RParam | RProp | RItems | RAuth | RGrant | RAuths | RReqs (l : list string).
(** validate.py:36-50 *)
Definition check_data (o : val) : res (list message) :=
  do ty <- get "type" o; do ref <- get "$ref" o; do items <- get "items" o; do ui <- get "uniqueItems" o;
  Ok (when (is_none ty && is_none ref) ("type or $ref should be existed."%string, VNone)
   ++ when (negb (Bool.eqb (is_text ty "array") (negb (is_none items)))) ("array should be existed along with items"%string, VNone)
   ++ when (negb (is_none ui) && negb (is_text ty "array")) ("uniqueItems is only used for array type."%string, VNone)).
(** validate.py:72-75, 77-95 *)
Definition no_void (o : val) : res (list message) :=
  do ty <- get "type" o; Ok (when (is_text ty "void") ("void is only allowed in Operation object."%string, VNone)).
(** validate.py:52-75 *)
Definition check_param (root : val) (path : str) (o : val) : res (list message) :=
  do am <- get "allowMultiple" o; do pt <- get "paramType" o; do ty <- get "type" o; do name <- get "name" o;
  let e1 := when (negb (falsy am) && negb (is_text pt "path" || is_text pt "query" || is_text pt "header"))
              ("allowMultiple should be applied on path, header, or query parameters"%string, VNone)
         ++ when (negb (falsy am) && is_text ty "array") ("array Type with allowMultiple is not supported."%string, VNone)
         ++ when (is_text pt "body" && negb (is_text name "" || is_text name "body")) ("body parameter with invalid name: {0}"%string, name) in
  do e2 <- if is_text ty "File"
           then do p <- two_up root path; do c <- get "consumes" p; do b <- text_in (lit "multipart/form-data") c;
                Ok (when (negb (is_text pt "form")) ("File parameter should be form type: {0}"%string, name)
                 ++ when (negb b) ("File parameter should consume multipart/form-data: {0}"%string, name))
           else Ok [];
  do e3 <- no_void o;
  Ok (e1 ++ e2 ++ e3).
(** validate.py:97-112 *)
Definition check_auth (o : val) : res (list message) :=
  do ty <- get "type" o; do pa <- get "passAs" o; do kn <- get "keyname" o; do gt <- get "grantTypes" o;
  Ok (if is_text ty "apiKey"
      then when (falsy pa) ("need ""passAs"" for apiKey"%string, VNone) ++ when (falsy kn) ("need ""keyname"" for apiKey"%string, VNone)
      else when (is_text ty "oauth2" && falsy gt) ("need ""grantTypes"" for oauth2"%string, VNone)).
(** validate.py:114-122 *)
Definition check_grant (o : val) : res (list message) :=
  do i <- get "implicit" o; do a <- get "authorization_code" o;
  Ok (when (falsy i && falsy a) ("Either implicit or authorization_code should be defined."%string, VNone)).
(** validate.py:131-136.  For a name that is not defined a message is added, but then the
    lookup raises KeyError. *)
Fixpoint check_auth_list (defs : val) (l : sdict val) : res (list message) :=
  match l with
  | [] => Ok []
  | (k, v) :: l =>
      match defs with
      | VDict d =>
          match sget k d with
          | None => Err KeyError
          | Some a =>
              do ty <- get "type" a;
              do r <- check_auth_list defs l;
              Ok (when ((is_text ty "basicAuth" || is_text ty "apiKey") && negb (match v with VList [] => true | _ => false end))
                    ("auth {0} should be an empty list"%string, VStr k) ++ r)
          end
      | _ => Err TypeError
      end
  end.
(** validate.py:124-138; [app.raw] is the object that is scanned *)
Definition check_auths (root o : val) : res (list message) :=
  do au <- get "authorizations" o;
  if falsy au then Ok []
  else match au with
       | VDict l => do defs <- get "authorizations" root; check_auth_list defs l
       | _ => Err AttributeError
       end.
(** validate.py:142-149 *)
Fixpoint check_reqs (reqs : list string) (o : val) : res (list message) :=
  match reqs with
  | [] => Ok []
  | r :: reqs =>
      do rest <- check_reqs reqs o;
      Ok (when (match get r o with Ok v => is_none v | Err _ => true end) ("requirement {0} not meet."%string, VStr r) ++ rest)
  end.
Definition old_check (root : val) (r : rule) (path : str) (o : val) : res (str * string * list message) :=
  do l <- match r with
          | RData => check_data o
          | RParam => check_param root path o
          | RProp | RItems => no_void o
          | RAuth => check_auth o
          | RGrant => check_grant o
          | RAuths => check_auths root o
          | RReqs l => check_reqs l o
          end;
  Ok (path, name_of_obj o, l).
(** validate.py:36-214: the handlers in their order *)
Definition old_rules : list (list pycls * rule) :=
  let on c r := ([Cls (COld c)], r) in
  [ ([DataTypeObj], RData); on OParameter RParam; on OProperty RProp; on OItems RItems; on OAuthorization RAuth;
    on OGrantType RGrant; on OOperation RAuths;
    on OScope (RReqs ["scope"]); on OAuthorizations (RReqs ["scope"]); on OLoginEndpoint (RReqs ["url"]);
    on OImplicit (RReqs ["loginEndpoint"]); on OTokenRequestEndpoint (RReqs ["url"]); on OTokenEndpoint (RReqs ["url"]);
    on OAuthorizationCode (RReqs ["tokenRequestEndpoint"; "tokenEndpoint"]); on OAuthorization (RReqs ["type"]);
    on OResponseMessage (RReqs ["code"; "message"]); on OParameter (RReqs ["paramType"; "name"]);
    on OOperation (RReqs ["method"; "nickname"; "parameters"]); on OApi (RReqs ["path"; "operations"]);
    on OModel (RReqs ["id"; "properties"]); on OResource (RReqs ["swaggerVersion"; "basePath"; "apis"]);
    on OResourceList (RReqs ["swaggerVersion"; "apis"]); on OInfo (RReqs ["title"; "description"]) ]%string.
(** core.py:234-258 for 1.2 *)
Definition validate12 (raw : val) : res (list report) :=
  do routes <- registered pycls_eqb pymro BaseObj [] old_rules;
  do objs <- traverse raw [];
  match scan pycls_eqb pymro BaseObj class_of
          (fun errs (_ : unit) r path o => (errs, old_check raw r path o))
          (fun errs _ ret => (collect errs ret, Ok tt))
          [] [Entry tt routes true] objs with
  | (errs, Ok _) => Ok errs
  | (_, Err e) => Err e
  end.
