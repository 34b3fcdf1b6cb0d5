(** Model of converting 1.2 documents to 2.0: pyswagger/scanner/v1_2/upgrade.py:20-311,
    [get_or_none] (pyswagger/utils.py:567-573) and the first part of [App.prepare_obj]
    (pyswagger/core.py:194-211).  The parent of an object ([_parent_]) is the object that
    holds it in the document, as the parser has it (T_OldParse). *)
From Verif Require Import PyBase PyJson M_JsonPtr M_Url M_Scope M_SpecVal M_Parse M_SpecTree M_Merge M_MergeRef M_Patch M_Scan M_Validate M_OldValidate.
Close Scope Q_scope.

(** [o.update_field(n, x)] for one field after the other *)
Fixpoint sets (l : list (string * val)) (v : val) : res val :=
  match l with
  | [] => Ok v
  | (n, x) :: l => do v <- update_field (lit n) x v; sets l v
  end.
(** utils.py:567-573.  Simplified: what is no object has no attributes. *)
Fixpoint get_or_none (v : val) (names : list string) : val :=
  match names with
  | [] => v
  | n :: names =>
      let x := match get n v with Ok x => x | Err _ => VNone end in
      if falsy x then x else get_or_none x names
  end.
(** base.py:336-343 *)
Definition is_given (n : string) (v : val) : bool := match v with VObj h _ _ => mem (lit n) (h_keys h) | _ => false end.
(** [v.lower()] *)
Definition to_lower (v : val) : res str := match v with VStr s => Ok (lower s) | _ => Err AttributeError end.
(** v1_2/objects.py:146-147, 282-283: [path.split('/', 3)[2]] *)
Definition name_in_path (path : str) : res str :=
  match nth_error (PyBase.split (lit "/") path) 2 with Some s => Ok s | None => Err IndexError end.
(** [obj._parent_]: the object [n] steps above *)
Definition above (n : nat) (root : val) (path : str) : res val :=
  resolve root (rev (skipn n (rev (tl (jp_split (Some path)))))).
Definition text_of (v : val) : res str := match v with VStr s => Ok s | _ => Err TypeError end.
(** Changing a container in place: unlike [update_field] this leaves the origin keys alone. *)
Definition put (n : str) (x v : val) : val := match v with VObj h fs ints => VObj h (sset n x fs) ints | v => v end.

(** The object under construction, [self.__swagger], with the containers that are filled
    later on *)
Record up := Up { u_swagger : val; u_tags : list val; u_paths : sdict val; u_defs : sdict val; u_secs : sdict val }.

Section Upgrade.
  (** [app.prim_factory.is_primitive] for a text (M_Registry), [float] of a text, and the
      separator of the application *)
  Context (prim : str -> bool) (float_of : str -> res Q) (sep : str).
  (** [is_primitive]: looking a value up in a dict whose keys are texts *)
  Definition primitive (v : val) : res bool :=
    match v with VStr s => Ok (prim s) | VList _ | VDict _ => Err TypeError | _ => Ok false end.
  (** utils.py:15-31.  The scope is a text.  Simplified: a name that is neither a text nor
      None is refused also where Python takes it as it is. *)
  Definition compose (scope : str) (name : val) : res str :=
    match name with
    | VNone => Ok scope
    | VStr n => Ok (match scope_compose sep (Some scope) (Some n) with Some s => s | None => [] end)
    | _ => Err TypeError
    end.
  (** upgrade.py:20-28 *)
  Definition type_and_ref (src : val) (scope : str) (dst : val) : res val :=
    do ref <- get "$ref" src;
    do dst <- (if falsy ref then Ok dst
               else do s <- compose scope ref; update_field (lit "$ref") (VStr (lit "#/definitions/" ++ s)) dst);
    do ty <- get "type" src;
    do p <- primitive ty;
    if p then do t <- to_lower ty; update_field (lit "type") (VStr t) dst
    else if falsy ty then Ok dst
    else do s <- compose scope ty; update_field (lit "$ref") (VStr (lit "#/definitions/" ++ s)) dst.
  (** [float(v)]; floats are rational numbers here *)
  Definition to_float (v : val) : res Q :=
    match v with
    | VStr s => float_of s
    | VInt z => Ok (inject_Z z)
    | VFloat q => Ok q
    | VBool b => Ok (if b then 1%Q else 0%Q)
    | _ => Err TypeError
    end.
  (** upgrade.py:31-43 *)
  Definition bound (n : string) (src dst : val) : res val :=
    do v <- get n src;
    if falsy v then update_field (lit n) VNone dst
    else
      do ty <- get "type" src;
      if is_text ty "integer" then do q <- to_float v; update_field (lit n) (VInt (Z.quot (Qnum q) (Zpos (Qden q)))) dst
      else if is_text ty "number" then do q <- to_float v; update_field (lit n) (VFloat q) dst
      else Err SchemaError.
  (** upgrade.py:30-46 *)
  Definition min_max (src dst : val) : res val := do dst <- bound "minimum" src dst; bound "maximum" src dst.
  (** upgrade.py:56-57, 234-235, 240-241 *)
  Definition set_default (wrap : val -> val) (src dst : val) : res val :=
    if is_given "defaultValue" src then do d <- get "defaultValue" src; update_field (lit "default") (wrap d) dst else Ok dst.
  (** upgrade.py:49-67 for an object *)
  Definition schema_from (obj : val) (scope : str) : res val :=
    do s <- fresh CSchema [];
    do s <- type_and_ref obj scope s;
    do f <- get "format" obj;
    do s <- update_field (lit "format") f s;
    do s <- set_default (fun d => d) obj s;
    do s <- min_max obj s;
    do ui <- get "uniqueItems" obj;
    do en <- get "enum" obj;
    do s <- sets [("uniqueItems", ui); ("enum", en)]%string s;
    do items <- get "items" obj;
    if falsy items then Ok s
    else
      do i <- fresh CSchema [];
      do i <- type_and_ref items scope i;
      do f <- get "format" items;
      do i <- update_field (lit "format") f i;
      update_field (lit "items") i s.
  (** upgrade.py:69-78 *)
  Definition items_from (o : val) : res val :=
    do item <- fresh CItems [];
    do ref <- get "$ref" o;
    if negb (falsy ref) then Err SchemaError
    else
      do ty <- get "type" o;
      do p <- primitive ty;
      if negb p then Err SchemaError
      else do t <- to_lower ty; do f <- get "format" o; sets [("type", VStr t); ("format", f)]%string item.

  (** upgrade.py:90-131 *)
  Definition on_list (obj : val) : res up :=
    do o <- fresh CSwagger [];
    do info <- fresh CInfo [];
    do av <- get "apiVersion" obj;
    do info <- sets [("version", av); ("title", get_or_none obj ["info"; "title"]); ("description", get_or_none obj ["info"; "description"]);
                     ("termsOfService", get_or_none obj ["info"; "termsOfServiceUrl"])]%string info;
    do oi <- get "info" obj;
    do c <- get "contact" oi;
    do info <- (if falsy c then Ok info
                else do ct <- fresh CContact []; do ct <- sets [("email", get_or_none obj ["info"; "contact"])]%string ct;
                     update_field (lit "contact") ct info);
    do l <- get "license" oi;
    do lu <- (if falsy l then get "licenseUrl" oi else Ok l);
    do info <- (if falsy lu then Ok info
                else do li <- fresh CLicense [];
                     do li <- sets [("name", get_or_none obj ["info"; "license"]); ("url", get_or_none obj ["info"; "licenseUrl"])]%string li;
                     update_field (lit "license") li info);
    do o <- sets [("info", info); ("swagger", VStr (lit "2.0")); ("schemes", VList [VStr (lit "http"); VStr (lit "https")]);
                  ("host", VStr []); ("basePath", VStr []); ("tags", VList []); ("definitions", VDict []); ("parameters", VDict []);
                  ("responses", VDict []); ("paths", VDict []); ("security", VList []); ("securityDefinitions", VDict []);
                  ("consumes", VList []); ("produces", VList [])]%string o;
    Ok (Up o [] [] [] []).
  (** upgrade.py:136-138 *)
  Fixpoint has_tag (name : str) (l : list val) : res bool :=
    match l with
    | [] => Ok false
    | t :: l => do n <- get "name" t; if elem_eqb n (VStr name) then Ok true else has_tag name l
    end.
  (** upgrade.py:133-142 *)
  Definition on_resource (path : str) (u : up) : res up :=
    do name <- name_in_path path;
    do b <- has_tag name (u_tags u);
    if b then Ok u
    else do t <- fresh CTag []; do t <- sets [("name", VStr name)]%string t;
         Ok (Up (u_swagger u) (u_tags u ++ [t]) (u_paths u) (u_defs u) (u_secs u)).
  (** [x if x and len(x) > 0 else y] *)
  Definition or_of (x y : val) : res val :=
    if falsy x then Ok y else do n <- py_len x; Ok (if 0 <? n then x else y).
  (** [x if x else []] *)
  Definition or_empty (x : val) : val := if falsy x then VList [] else x.
  (** upgrade.py:167-168 *)
  Fixpoint securities (l : sdict val) : res (list val) :=
    match l with
    | [] => Ok []
    | (name, scopes) :: l =>
        do vs <- iterate scopes;
        do ss <- map_res (get "scope") vs;
        do r <- securities l;
        Ok (VDict [(name, VList ss)] :: r)
    end.
  (** upgrade.py:165-168 *)
  Definition security_of (obj parent : val) : res val :=
    do own <- get "authorizations" obj;
    do more <- get "authorizations" parent;
    do auth <- or_of own more;
    if falsy auth then Ok (VList [])
    else match auth with VDict d => do l <- securities d; Ok (VList l) | _ => Err AttributeError end.
  (** upgrade.py:177, 250: [basePath + path].  Simplified: both are texts. *)
  Definition full_path (resource op : val) : res str :=
    do b <- get "basePath" resource; do b <- text_of b;
    do p <- get "path" op; do p <- text_of p;
    Ok (b ++ p).
  (** upgrade.py:144-182.  Simplified: the authorizations of the resource are read also if
      the operation has its own (they are there). *)
  Definition on_operation (root : val) (path : str) (obj : val) (u : up) : res up :=
    do o <- fresh COperation [];
    do parent <- above 2 root path;
    do scope <- name_in_path path;
    do nick <- get "nickname" obj; do su <- get "summary" obj; do no <- get "notes" obj; do de <- get "deprecated" obj;
    do oc <- get "consumes" obj; do pc <- get "consumes" parent; do c <- or_of oc pc;
    do op <- get "produces" obj; do pp <- get "produces" parent; do p <- or_of op pp;
    do sec <- security_of obj parent;
    do ty <- get "type" obj;
    do resp <- fresh CResponse [];
    do resp <- (if is_text ty "void" then Ok resp else do s <- schema_from obj scope; update_field (lit "schema") s resp);
    do o <- sets [("tags", VList [VStr scope]); ("operationId", nick); ("summary", su); ("description", no);
                  ("deprecated", VBool (is_text de "true")); ("consumes", or_empty c); ("produces", or_empty p); ("parameters", VList []);
                  ("security", sec); ("responses", VDict [(lit "default", resp)])]%string o;
    do full <- full_path parent obj;
    do item <- match sget full (u_paths u) with Some i => Ok i | None => fresh CPathItem [] end;
    do m <- get "method" obj; do m <- to_lower m;
    do item <- update_field m o item;
    Ok (Up (u_swagger u) (u_tags u) (sset full item (u_paths u)) (u_defs u) (u_secs u)).
  (** upgrade.py:193-194.  Simplified: the names of scopes are texts (Python takes any key). *)
  Fixpoint scope_dict (l : list val) (d : sdict val) : res (sdict val) :=
    match l with
    | [] => Ok d
    | s :: l => do k <- get "scope" s; do k <- text_of k; do x <- get "description" s; scope_dict l (sset k x d)
    end.
  (** upgrade.py:184-207 *)
  Definition on_authorization (path : str) (obj : val) (u : up) : res up :=
    do o <- fresh CSecurityScheme [];
    do ty <- get "type" obj;
    let ty := if is_text ty "basicAuth" then VStr (lit "basic") else ty in
    do sc <- get "scopes" obj;
    do l <- (if falsy sc then Ok [] else iterate sc);
    do d <- scope_dict l [];
    do o <- sets [("type", ty); ("scopes", VDict d)]%string o;
    do o <- (if is_text ty "oauth2" then
               let au := get_or_none obj ["grantTypes"; "implicit"; "loginEndpoint"; "url"]%string in
               let tu := get_or_none obj ["grantTypes"; "authorization_code"; "tokenEndpoint"; "url"]%string in
               do o <- sets [("authorizationUrl", au); ("tokenUrl", tu)]%string o;
               if negb (falsy au) then sets [("flow", VStr (lit "implicit"))]%string o
               else if negb (falsy tu) then sets [("flow", VStr (lit "access_code"))]%string o
               else Ok o
             else if is_text ty "apiKey" then
               do kn <- get "keyname" obj; do pa <- get "passAs" obj; sets [("name", kn); ("in", pa)]%string o
             else Ok o);
    do name <- name_in_path path;
    Ok (Up (u_swagger u) (u_tags u) (u_paths u) (u_defs u) (sset name o (u_secs u))).
  (** upgrade.py:211-248 *)
  Definition parameter_from (obj : val) (scope : str) : res val :=
    do o <- fresh CParameter [];
    do name <- get "name" obj; do req <- get "required" obj; do de <- get "description" obj; do pt <- get "paramType" obj;
    let place := if is_text pt "form" then VStr (lit "formData") else pt in
    do o <- sets [("name", name); ("required", req); ("description", de); ("in", place)]%string o;
    if is_text place "body" then do s <- schema_from obj scope; update_field (lit "schema") s o
    else
      do ref <- get "$ref" obj;
      if negb (falsy ref) then Err SchemaError
      else
        do am <- get "allowMultiple" obj; do items <- get "items" obj; do ui <- get "uniqueItems" obj; do en <- get "enum" obj;
        do o <- (if elem_eqb am (VBool true) && is_none items then
                   do o <- sets [("type", VStr (lit "array")); ("collectionFormat", VStr (lit "csv")); ("uniqueItems", ui)]%string o;
                   do i <- items_from obj;
                   do o <- update_field (lit "items") i o;
                   do o <- set_default (fun d => VList [d]) obj o;
                   do i <- get "items" o;
                   do i <- update_field (lit "enum") en i;
                   Ok (put (lit "items") i o)
                 else
                   do ty <- get "type" obj; do t <- to_lower ty; do f <- get "format" obj;
                   do o <- sets [("type", VStr t); ("format", f)]%string o;
                   do o <- set_default (fun d => d) obj o;
                   do o <- min_max obj o;
                   update_field (lit "enum") en o);
        if falsy items then Ok o
        else do o <- sets [("collectionFormat", VStr (lit "csv")); ("uniqueItems", ui)]%string o;
             do i <- items_from items;
             update_field (lit "items") i o.
  (** upgrade.py:209-253 *)
  Definition on_parameter (root : val) (path : str) (obj : val) (u : up) : res up :=
    do op <- above 2 root path;
    do resource <- above 4 root path;
    do scope <- name_in_path path;
    do o <- parameter_from obj scope;
    do full <- full_path resource op;
    do m <- get "method" op; do m <- to_lower m;
    match sget full (u_paths u) with
    | None => Err KeyError
    | Some item =>
        do op <- match item with VObj _ fs ints => attr fs ints m | _ => Err AttributeError end;
        do ps <- get "parameters" op;
        match ps with
        | VList l => Ok (Up (u_swagger u) (u_tags u) (sset full (put m (put (lit "parameters") (VList (l ++ [o])) op) item) (u_paths u)) (u_defs u) (u_secs u))
        | _ => Err AttributeError
        end
    end.
  (** upgrade.py:266-268 *)
  Fixpoint properties_from (l : sdict val) (scope : str) : res (sdict val) :=
    match l with
    | [] => Ok []
    | (n, prop) :: l =>
        do s <- schema_from prop scope;
        do d <- get "description" prop;
        do s <- update_field (lit "description") d s;
        do r <- properties_from l scope;
        Ok ((n, s) :: r)
    end.
  (** [definitions.get(s, None)], and a new one if there is none *)
  Definition def_of (s : str) (defs : sdict val) : res val :=
    match sget s defs with Some o => Ok o | None => fresh CSchema [] end.
  (** upgrade.py:274-285 *)
  Fixpoint extend (scope s : str) (l : list val) (defs : sdict val) : res (sdict val) :=
    match l with
    | [] => Ok defs
    | t :: l =>
        do sub_s <- compose scope t;
        do sub_o <- def_of sub_s defs;
        do ref <- fresh CSchema [];
        do ref <- update_field (lit "$ref") (VStr (lit "#/definitions/" ++ s)) ref;
        do all <- get "allOf" sub_o;
        match all with
        | VList a => extend scope s l (sset sub_s (put (lit "allOf") (VList (a ++ [ref])) sub_o) defs)
        | _ => Err AttributeError
        end
    end.
  (** upgrade.py:255-285 *)
  Definition on_model (path : str) (obj : val) (u : up) : res up :=
    do scope <- name_in_path path;
    do id <- get "id" obj;
    do s <- compose scope id;
    do o <- def_of s (u_defs u);
    do props <- get "properties" obj;
    do props <- match props with VDict d => properties_from d scope | _ => Err AttributeError end;
    do rq <- get "required" obj; do di <- get "discriminator" obj; do de <- get "description" obj;
    do o <- sets [("properties", VDict props); ("required", rq); ("discriminator", di); ("description", de)]%string o;
    do st <- get "subTypes" obj;
    do l <- (if falsy st then Ok [] else iterate st);
    do defs <- extend scope s l (sset s o (u_defs u));
    Ok (Up (u_swagger u) (u_tags u) (u_paths u) defs (u_secs u)).

  (** The handlers *)
  Inductive conversion := KList | KResource | KOperation | KAuthorization | KParameter | KModel.
  Definition conversions : list (list pycls * conversion) :=
    let on c r := ([Cls (COld c)], r) in
    [ on OResourceList KList; on OResource KResource; on OOperation KOperation; on OAuthorization KAuthorization;
      on OParameter KParameter; on OModel KModel ].
  Definition convert (root : val) (k : conversion) (path : str) (o : val) (st : option up) : res up :=
    match k, st with
    | KList, _ => on_list o
    | _, None => Err AttributeError
    | KResource, Some u => on_resource path u
    | KOperation, Some u => on_operation root path o u
    | KAuthorization, Some u => on_authorization path o u
    | KParameter, Some u => on_parameter root path o u
    | KModel, Some u => on_model path o u
    end.
  (** The scan, core.py:205 *)
  Definition converted (root : val) : res (option up) :=
    do routes <- registered pycls_eqb pymro BaseObj [] conversions;
    do objs <- traverse root [];
    match scan pycls_eqb pymro BaseObj class_of
            (fun st (_ : unit) k path o => match convert root k path o st with Ok u => (Some u, Ok tt) | Err e => (st, Err e) end)
            (fun st _ (_ : unit) => (st, Ok tt))
            None [Entry tt routes false] objs with
    | (st, Ok _) => Ok st
    | (_, Err e) => Err e
    end.
End Upgrade.

(** [os.path.commonprefix] (CPython 3.11): the longest common prefix, character by character *)
Fixpoint common2 (a b : str) : str :=
  match a, b with
  | x :: a, y :: b => if Ascii.eqb x y then x :: common2 a b else []
  | _, _ => []
  end.
Definition common_prefix (l : list str) : str := match l with [] => [] | s :: l => fold_left common2 l s end.
(** upgrade.py:287-311 *)
Definition finished (u : up) : res val :=
  let common := common_prefix (map fst (u_paths u)) in
  match common with
  | [] => Err IndexError
  | _ =>
      let common := if Ascii.eqb (last common "x"%char) "/" then removelast common else common in
      let sw := put (lit "tags") (VList (u_tags u)) (put (lit "paths") (VDict (u_paths u)) (put (lit "definitions") (VDict (u_defs u))
                  (put (lit "securityDefinitions") (VDict (u_secs u)) (u_swagger u)))) in
      match common with
      | [] => Ok sw
      | _ =>
          do p <- urlparse common;
          do sw <- update_field (lit "host") (VStr (u_netloc p)) sw;
          let cut := length (urlunparse (Url6 (u_scheme p) (u_netloc p) [] [] [] [])) in
          update_field (lit "paths") (VDict (supdate [] (map (fun kv => (skipn cut (fst kv), snd kv)) (u_paths u)))) sw
      end
  end.
(** core.py:201-209 *)
Definition upgrade (prim : str -> bool) (float_of : str -> res Q) (sep : str) (root : val) : res val :=
  do st <- converted prim float_of sep root;
  match st with None => Err GenericException | Some u => finished u end.
