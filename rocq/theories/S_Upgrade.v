(** Specification of converting 1.2 documents to 2.0. *)
From Verif Require Import PyBase PyJson S_JsonPtr S_Url M_SpecVal S_Parse S_SpecTree S_Validate S_OldValidate.
Close Scope Q_scope.

(** ** Objects *)
(** The value of a field (or internal field) *)
Definition has_field (v : val) (n : string) (x : val) : Prop :=
  match v with
  | VObj _ fs ints => sget (lit n) fs = Some x \/ (sget (lit n) fs = None /\ sget (lit n) ints = Some x)
  | _ => False
  end.
Definition in_field (v : val) (n : str) (x : val) : Prop := match v with VObj _ fs _ => sget n fs = Some x | _ => False end.
(** The field was given. *)
Definition given (v : val) (n : string) : Prop := match v with VObj h _ _ => In (lit n) (h_keys h) | _ => False end.
Notation "n '~>' x" := (lit n, x) (at level 60).
(** [v] is an object of the class [c] with these values in its fields and the default in all
    others; the last value counts.  Nothing is in the internal fields. *)
Definition holding (c : cls) (kvs : sdict val) (v : val) : Prop :=
  exists h fs, v = VObj h fs (map (fun nd => (fst nd, VNone)) (t_internal c)) /\ h_cls h = c /\ map fst fs = map fst (t_fields c) /\
    forall n d, sget n (t_fields c) = Some d -> sget n fs = Some (match sget n (rev kvs) with Some x => x | None => inject d end).
(** Exactly these fields count as given. *)
Definition giving (ns : list str) (v : val) : Prop :=
  exists h fs ints, v = VObj h fs ints /\ forall n, In n (h_keys h) <-> In n ns.
Definition made (c : cls) (kvs : sdict val) (v : val) : Prop := holding c kvs v /\ giving (map fst kvs) v.

Section Upgrade.
  (** Which types are primitive, numbers as texts, and the separator *)
  Context (prim : str -> bool) (float_of : str -> res Q) (sep : str).
  (** The name of [n] in the scope [scope] *)
  Definition scoped (scope n : str) : str :=
    match scope, n with
    | [], _ => n
    | _, [] => scope
    | _, _ => scope ++ sep ++ n
    end.
  (** A name is given as a text or not at all. *)
  Inductive names (scope : str) : val -> str -> Prop :=
  | names_none : names scope VNone scope
  | names_text n : names scope (VStr n) (scoped scope n).
  Definition definition_ref (s : str) : val := VStr (lit "#/definitions/" ++ s).

  (** ** Data types *)
  (** The type of a data type is a primitive one, or the name of a model. *)
  Inductive ref_part (scope : str) : val -> sdict val -> Prop :=
  | no_ref r : ~ holds_true r -> ref_part scope r []
  | a_ref r s : holds_true r -> names scope r s -> ref_part scope r ["$ref" ~> definition_ref s].
  Inductive type_part (scope : str) : val -> sdict val -> Prop :=
  | primitive_type t : prim t = true -> type_part scope (VStr t) ["type" ~> VStr (lower t)]
  | model_type t : prim t = false -> t <> [] -> type_part scope (VStr t) ["$ref" ~> definition_ref (scoped scope t)]
  | no_type t : ~ holds_true t -> (forall n, t = VStr n -> prim n = false) -> (forall l, t <> VList l) -> (forall d, t <> VDict d) -> type_part scope t [].
  Definition data_type_of (scope : str) (d : val) (kvs : sdict val) : Prop :=
    exists r t k1 k2, has_field d "$ref" r /\ has_field d "type" t /\ ref_part scope r k1 /\ type_part scope t k2 /\ kvs = k1 ++ k2.
  (** Numbers *)
  Inductive number : val -> Q -> Prop :=
  | num_text s q : float_of s = Ok q -> number (VStr s) q
  | num_int z : number (VInt z) (inject_Z z)
  | num_float q : number (VFloat q) q
  | num_bool b : number (VBool b) (if b then 1%Q else 0%Q).
  (** A limit: for integers it is rounded towards zero. *)
  Definition limit (d : val) (n : string) (x : val) : Prop :=
    exists v, has_field d n v /\
      ((~ holds_true v /\ x = VNone) \/
       (holds_true v /\ exists q, number v q /\
          ((has_field d "type" (text "integer") /\ x = VInt (Z.quot (Qnum q) (Zpos (Qden q)))) \/ (has_field d "type" (text "number") /\ x = VFloat q)))).
  (** The default, if it is given *)
  Definition default_part (d : val) (wrap : val -> val) (kvs : sdict val) : Prop :=
    (exists x, given d "defaultValue" /\ has_field d "defaultValue" x /\ kvs = ["default" ~> wrap x]) \/ (~ given d "defaultValue" /\ kvs = []).
  (** The schema for a data type, an object of 1.2 *)
  Definition schema_kvs (scope : str) (d : val) (kvs : sdict val) : Prop :=
    exists kt f kd mn mx ui en i ki,
      data_type_of scope d kt /\ has_field d "format" f /\ default_part d (fun x => x) kd /\ limit d "minimum" mn /\ limit d "maximum" mx /\
      has_field d "uniqueItems" ui /\ has_field d "enum" en /\ has_field d "items" i /\
      ((~ holds_true i /\ ki = []) \/
       (holds_true i /\ exists ks fi s, data_type_of scope i ks /\ has_field i "format" fi /\ made CSchema (ks ++ ["format" ~> fi]) s /\ ki = ["items" ~> s])) /\
      kvs = kt ++ ["format" ~> f] ++ kd ++ ["minimum" ~> mn; "maximum" ~> mx; "uniqueItems" ~> ui; "enum" ~> en] ++ ki.
  Definition schema_for (scope : str) (d s : val) : Prop := exists kvs, schema_kvs scope d kvs /\ made CSchema kvs s.
  (** The items for a data type: a primitive one *)
  Definition items_for (d : val) (more : sdict val) (i : val) : Prop :=
    exists r t f, has_field d "$ref" r /\ ~ holds_true r /\ has_field d "type" (VStr t) /\ prim t = true /\ has_field d "format" f /\
      made CItems (["type" ~> VStr (lower t); "format" ~> f] ++ more) i.

  (** ** Parameters *)
  Definition equals_true (v : val) : Prop := v = VBool true \/ v = VInt 1 \/ exists q, v = VFloat q /\ (q == 1)%Q.
  Definition parameter_for (scope : str) (d p : val) : Prop :=
    exists name req de pt pl,
      has_field d "name" name /\ has_field d "required" req /\ has_field d "description" de /\ has_field d "paramType" pt /\
      ((pt = text "form" /\ pl = text "formData") \/ (pt <> text "form" /\ pl = pt)) /\
      let base := ["name" ~> name; "required" ~> req; "description" ~> de; "in" ~> pl] in
      ((pl = text "body" /\ exists s, schema_for scope d s /\ made CParameter (base ++ ["schema" ~> s]) p) \/
       (pl <> text "body" /\ exists r am items ui en, has_field d "$ref" r /\ ~ holds_true r /\ has_field d "allowMultiple" am /\ has_field d "items" items /\ has_field d "uniqueItems" ui /\ has_field d "enum" en /\
          ((equals_true am /\ items = VNone /\ exists i kd, items_for d ["enum" ~> en] i /\ default_part d (fun x => VList [x]) kd /\
              made CParameter (base ++ ["type" ~> text "array"; "collectionFormat" ~> text "csv"; "uniqueItems" ~> ui; "items" ~> i] ++ kd) p) \/
           (~ (equals_true am /\ items = VNone) /\ exists t f kd mn mx ki,
              has_field d "type" (VStr t) /\ has_field d "format" f /\ default_part d (fun x => x) kd /\ limit d "minimum" mn /\ limit d "maximum" mx /\
              ((~ holds_true items /\ ki = []) \/ (holds_true items /\ exists i, items_for items [] i /\ ki = ["collectionFormat" ~> text "csv"; "uniqueItems" ~> ui; "items" ~> i])) /\
              made CParameter (base ++ ["type" ~> VStr (lower t); "format" ~> f] ++ kd ++ ["minimum" ~> mn; "maximum" ~> mx; "enum" ~> en] ++ ki) p)))).

  (** ** Operations *)
  (** What an object says, or else what the one around it says, or else nothing *)
  Inductive own_or (own around : val) : val -> Prop :=
  | its_own l : holds_true own -> elements own l -> own_or own around own
  | from_around : ~ holds_true own -> holds_true around -> own_or own around around
  | from_nowhere : ~ holds_true own -> ~ holds_true around -> own_or own around (VList []).
  (** A name with its scopes *)
  Definition requirement (kv : str * val) (x : val) : Prop :=
    exists vs ss, elements (snd kv) vs /\ Forall2 (fun v s => has_field v "scope" s) vs ss /\ x = VDict [(fst kv, VList ss)].
  Definition security_for (own around x : val) : Prop :=
    exists auths l, own_or own around auths /\ x = VList l /\
      (auths = VList [] /\ l = [] \/ exists d, auths = VDict d /\ Forall2 requirement d l).
  (** The operation [d] of the resource [r], with the parameters [ps] *)
  Definition operation_for (scope : str) (r d : val) (ps : list val) (o : val) : Prop :=
    exists nick su no de co pr c p c' p' au ar sec resp ty,
      has_field d "nickname" nick /\ has_field d "summary" su /\ has_field d "notes" no /\ has_field d "deprecated" de /\
      has_field d "consumes" co /\ has_field r "consumes" c /\ own_or co c c' /\ has_field d "produces" pr /\ has_field r "produces" p /\ own_or pr p p' /\
      has_field d "authorizations" au /\ has_field r "authorizations" ar /\ security_for au ar sec /\
      has_field d "type" ty /\ ((ty = text "void" /\ made CResponse [] resp) \/ (ty <> text "void" /\ exists s, schema_for scope d s /\ made CResponse ["schema" ~> s] resp)) /\
      exists b, (b = true <-> de = text "true") /\
      made COperation ["tags" ~> VList [VStr scope]; "operationId" ~> nick; "summary" ~> su; "description" ~> no; "deprecated" ~> VBool b;
                       "consumes" ~> c'; "produces" ~> p'; "parameters" ~> VList ps; "security" ~> sec; "responses" ~> VDict [(lit "default", resp)]] o.

  (** ** Models *)
  Definition property_for (scope : str) (d s : val) : Prop :=
    exists kvs de, schema_kvs scope d kvs /\ has_field d "description" de /\ made CSchema (kvs ++ ["description" ~> de]) s.
  (** What a model says, except for its sub-types *)
  Definition model_kvs (scope : str) (m : val) (kvs : sdict val) : Prop :=
    exists props ps rq di de, has_field m "properties" (VDict props) /\ Forall2 (fun kv ks => fst kv = fst ks /\ property_for scope (snd kv) (snd ks)) props ps /\
      has_field m "required" rq /\ has_field m "discriminator" di /\ has_field m "description" de /\
      kvs = ["properties" ~> VDict ps; "required" ~> rq; "discriminator" ~> di; "description" ~> de].

  (** ** Security *)
  (** The first of the values on the way that does not hold, or the last one *)
  Fixpoint chain (v : val) (names : list string) (x : val) : Prop :=
    match names with
    | [] => x = v
    | n :: names =>
        (exists y, has_field v n y /\ ((~ holds_true y /\ x = y) \/ (holds_true y /\ chain y names x))) \/
        ((forall y, ~ has_field v n y) /\ x = VNone)
    end.
  (** The descriptions of scopes by their names; the last one with a name counts. *)
  Definition scopes_for (l : list val) (d : sdict val) : Prop :=
    Forall (fun s => exists k x, has_field s "scope" (VStr k) /\ has_field s "description" x) l /\ NoDup (map fst d) /\
    forall k x, sget k d = Some x <-> exists l1 s l2, l = l1 ++ s :: l2 /\ has_field s "scope" (VStr k) /\ has_field s "description" x /\ Forall (fun s => ~ has_field s "scope" (VStr k)) l2.
  Definition scheme_for (a s : val) : Prop :=
    exists t t' sc l d more, has_field a "type" t /\ ((t = text "basicAuth" /\ t' = text "basic") \/ (t <> text "basicAuth" /\ t' = t)) /\
      has_field a "scopes" sc /\ ((~ holds_true sc /\ l = []) \/ (holds_true sc /\ elements sc l)) /\ scopes_for l d /\
      ((t' = text "oauth2" /\ exists au tu fl, chain a ["grantTypes"; "implicit"; "loginEndpoint"; "url"]%string au /\ chain a ["grantTypes"; "authorization_code"; "tokenEndpoint"; "url"]%string tu /\
          ((holds_true au /\ fl = ["flow" ~> text "implicit"]) \/ (~ holds_true au /\ holds_true tu /\ fl = ["flow" ~> text "access_code"]) \/ (~ holds_true au /\ ~ holds_true tu /\ fl = [])) /\
          more = ["authorizationUrl" ~> au; "tokenUrl" ~> tu] ++ fl) \/
       (t' = text "apiKey" /\ exists kn pa, has_field a "keyname" kn /\ has_field a "passAs" pa /\ more = ["name" ~> kn; "in" ~> pa]) \/
       (t' <> text "oauth2" /\ t' <> text "apiKey" /\ more = [])) /\
      made CSecurityScheme (["type" ~> t'; "scopes" ~> VDict d] ++ more) s.

  (** ** The document *)
  Section Document.
    Context (raw : val).
    Definition resource_in (r : str) (R : val) : Prop := reach [] raw [lit "apis"; r] R.
    Definition operation_in (r n : str) (R O : val) : Prop := resource_in r R /\ reach [] R [lit "apis"; n] O.
    Definition model_in (r k : str) (M : val) : Prop := reach [] raw [lit "apis"; r; lit "models"; k] M.
    Definition authorization_in (k : str) (A : val) : Prop := reach [] raw [lit "authorizations"; k] A.
    (** An operation is at the path [k], below the method [m]. *)
    Definition located (R O : val) (k m : str) : Prop :=
      exists b p mm, has_field R "basePath" (VStr b) /\ has_field O "path" (VStr p) /\ has_field O "method" (VStr mm) /\ k = b ++ p /\ m = lower mm.
    (** The parameters of an operation come in reverse order. *)
    Definition parameters_for (r : str) (O : val) (ps : list val) : Prop :=
      exists v qs, has_field O "parameters" v /\ (v = VList qs \/ (v = VNone /\ qs = [])) /\ Forall2 (parameter_for (rfc_escape r)) (rev qs) ps.
    (** The name of a model among the definitions *)
    Definition model_named (r : str) (M : val) (s : str) : Prop := exists i, has_field M "id" i /\ names (rfc_escape r) i s.
    (** The sub-types a model has *)
    Definition subtypes (M : val) (l : list val) : Prop :=
      exists st, has_field M "subTypes" st /\ ((~ holds_true st /\ l = []) \/ (holds_true st /\ elements st l)).
    (** [p] for each of the sub-types [l] with the name [s] *)
    Inductive parents (scope s p : str) : list val -> list str -> Prop :=
    | p_nil : parents scope s p [] []
    | p_this t l ps : names scope t s -> parents scope s p l ps -> parents scope s p (t :: l) (p :: ps)
    | p_other t s' l ps : names scope t s' -> s' <> s -> parents scope s p l ps -> parents scope s p (t :: l) ps.
    (** The models of the document, one after the other *)
    Definition all_models (ms : list (str * str * val)) : Prop :=
      NoDup (map fst ms) /\ forall r k M, In (r, k, M) ms <-> model_in r k M.
    (** The parents [ps] of [s]: one for each time a model names it as its sub-type *)
    Definition all_parents (s : str) (ps : list str) : Prop :=
      exists ms pss, all_models ms /\ ps = concat pss /\
        Forall2 (fun m l => exists p st, model_named (fst (fst m)) (snd m) p /\ subtypes (snd m) st /\ parents (rfc_escape (fst (fst m))) s p st l) ms pss.
    (** References to the definitions [ps] *)
    Definition refs_to (ps : list str) (l : list val) : Prop := Forall2 (fun p x => made CSchema ["$ref" ~> definition_ref p] x) ps l.
    (** [x] is the definition [s]; [kvs] is what its model says. *)
    Definition definition_for (s : str) (kvs : sdict val) (x : val) : Prop :=
      exists ps refs, all_parents s ps /\ refs_to ps refs /\ holding CSchema (kvs ++ ["allOf" ~> VList refs]) x /\ giving (map fst kvs) x.
    (** General information *)
    Definition info_for (i : val) : Prop :=
      exists av ti de tos oi c l u kc kl, has_field raw "apiVersion" av /\ chain raw ["info"; "title"]%string ti /\ chain raw ["info"; "description"]%string de /\
        chain raw ["info"; "termsOfServiceUrl"]%string tos /\ has_field raw "info" oi /\ has_field oi "contact" c /\ has_field oi "license" l /\ has_field oi "licenseUrl" u /\
        ((~ holds_true c /\ kc = []) \/ (holds_true c /\ exists x, made CContact ["email" ~> c] x /\ kc = ["contact" ~> x])) /\
        ((~ holds_true l /\ ~ holds_true u /\ kl = []) \/ ((holds_true l \/ holds_true u) /\ exists x, made CLicense ["name" ~> l; "url" ~> u] x /\ kl = ["license" ~> x])) /\
        made CInfo (["version" ~> av; "title" ~> ti; "description" ~> de; "termsOfService" ~> tos] ++ kc ++ kl) i.
    (** The tags: one for each resource *)
    Definition tags_for (l : list val) : Prop :=
      exists ns, NoDup ns /\ (forall n, In n ns <-> exists r R, resource_in r R /\ n = rfc_escape r) /\ Forall2 (fun n t => made CTag ["name" ~> VStr n] t) ns l.
    (** The new document: its general part, and the containers *)
    Definition document_for (host : str) (tags : list val) (paths defs secs : sdict val) (sw : val) : Prop :=
      exists info, info_for info /\
        made CSwagger ["info" ~> info; "swagger" ~> text "2.0"; "schemes" ~> VList [text "http"; text "https"]; "host" ~> VStr host; "basePath" ~> text "";
          "tags" ~> VList tags; "definitions" ~> VDict defs; "parameters" ~> VDict []; "responses" ~> VDict []; "paths" ~> VDict paths;
          "security" ~> VList []; "securityDefinitions" ~> VDict secs; "consumes" ~> VList []; "produces" ~> VList []] sw.
    (** The operation [O] is what is left at the path [k], below the method [m]: it comes before
        all others there. *)
    Definition first_at (r n : str) (R O : val) (k m : str) : Prop :=
      operation_in r n R O /\ located R O k m /\
      forall r' n' R' O', operation_in r' n' R' O' -> located R' O' k m ->
        (r' = r /\ n' = n) \/ earlier raw [lit "apis"; r; lit "apis"; n] [lit "apis"; r'; lit "apis"; n'].
    (** The path item for [k] *)
    Definition item_for (k : str) (item : val) : Prop :=
      exists ops, NoDup (map fst ops) /\ made CPathItem ops item /\
        (forall m, In m (map fst ops) <-> exists r n R O, operation_in r n R O /\ located R O k m) /\
        forall m x, sget m ops = Some x -> In m (map fst (t_fields CPathItem)) /\
          exists r n R O ps, first_at r n R O k m /\ parameters_for r O ps /\ operation_for (rfc_escape r) R O ps x.
    (** The paths: what is left of those of the operations when [base] is taken away *)
    Definition paths_for (base : str) (paths : sdict val) : Prop :=
      NoDup (map fst paths) /\
      (forall p, In p (map fst paths) <-> exists r n R O m, operation_in r n R O /\ located R O (base ++ p) m) /\
      forall p item, sget p paths = Some item -> item_for (base ++ p) item.
    (** The definitions: the models, and the sub-types that are named *)
    Definition named_subtype (s : str) : Prop :=
      exists r k M l t, model_in r k M /\ subtypes M l /\ In t l /\ names (rfc_escape r) t s.
    Definition definitions_for (defs : sdict val) : Prop :=
      NoDup (map fst defs) /\
      (forall s, In s (map fst defs) <-> (exists r k M, model_in r k M /\ model_named r M s) \/ named_subtype s) /\
      forall s x, sget s defs = Some x ->
        exists kvs, definition_for s kvs x /\
          ((exists r k M, model_in r k M /\ model_named r M s /\ model_kvs (rfc_escape r) M kvs) \/
           ((forall r k M, model_in r k M -> ~ model_named r M s) /\ kvs = [])).
    Definition securities_for (secs : sdict val) : Prop :=
      NoDup (map fst secs) /\
      (forall n, In n (map fst secs) <-> exists k A, authorization_in k A /\ n = rfc_escape k) /\
      forall n x, sget n secs = Some x -> exists k A, authorization_in k A /\ n = rfc_escape k /\ scheme_for A x.
    (** The new document *)
    Definition upgraded (host base : str) (sw : val) : Prop :=
      exists tags paths defs secs, document_for host tags paths defs secs sw /\
        tags_for tags /\ paths_for base paths /\ definitions_for defs /\ securities_for secs.
    (** All operations are below [base], that of [host], or there is no host at all. *)
    Definition based (host base : str) : Prop :=
      ((host = [] /\ base = []) \/ (exists sc, scheme_ok sc /\ host <> [] /\ without (lit "/?#[]") host /\ base = sc ++ lit "://" ++ host)) /\
      forall r n R O k m, operation_in r n R O -> located R O k m -> exists p, k = base ++ "/"%char :: p /\ (base = [] -> forall q, p <> "/"%char :: q).
    (** Everything in the document can be converted. *)
    Definition convertible : Prop :=
      (exists i, info_for i) /\ (exists r n R O, operation_in r n R O) /\
      (forall r n R O, operation_in r n R O -> (exists k m, located R O k m /\ In m (map fst (t_fields CPathItem))) /\ exists ps x, operation_for (rfc_escape r) R O ps x /\ parameters_for r O ps) /\
      (forall r k M, model_in r k M -> exists s kvs l, model_named r M s /\ model_kvs (rfc_escape r) M kvs /\ subtypes M l /\ Forall (fun t => exists x, names (rfc_escape r) t x) l) /\
      (forall k A, authorization_in k A -> exists s, scheme_for A s).
  End Document.
End Upgrade.
