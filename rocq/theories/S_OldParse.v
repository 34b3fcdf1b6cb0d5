(** Specification of parsing 1.2 documents: what the objects say, and what they hold. *)
From Verif Require Import PyBase PyJson M_Url M_SpecVal S_Parse S_Typed S_Validate M_OldParse.
Close Scope Q_scope.

(** ** Contents *)
(** A list in a document.  Nothing is an empty list, and so are an empty text and an empty
    object. *)
Inductive listed : option json -> list json -> Prop :=
| listed_none : listed None []
| listed_null : listed (Some JNull) []
| listed_list l : listed (Some (JList l)) l
| listed_str : listed (Some (JStr [])) []
| listed_obj : listed (Some (JObj [])) [].
Definition listed_here (j : json) (l : list json) : Prop := j <> JNull /\ listed (Some j) l.
Inductive keyed : option json -> sdict json -> Prop :=
| keyed_none : keyed None []
| keyed_null : keyed (Some JNull) []
| keyed_obj d : keyed (Some (JObj d)) d.
(** The operations in a list of APIs, each with the path of its API *)
Inductive api_operations : list json -> list (json * json) -> Prop :=
| api_nil : api_operations [] []
| api_cons d ops apis l : listed (sget (lit "operations") d) ops -> api_operations apis l ->
    api_operations (JObj d :: apis) (map (fun op => (match sget (lit "path") d with Some p => p | None => JNull end, op)) ops ++ l).
Definition entry (j : json) (n : str) : option json := match j with JObj d => sget n d | _ => None end.
(** The path an operation got from its API *)
Definition has_path (o : val) (p : json) : Prop := exists h fs ints, o = VObj h fs ints /\ sget (lit "path") ints = Some (inject p).

(** The object [v] of the class [c] says what the document [j] says. *)
Inductive says : ocls -> json -> val -> Prop :=
| says_null c h fs ints : c <> OResource -> h_cls h = COld c -> fs = map (fun nd => (fst nd, inject (snd nd))) (o_fields c) -> says c JNull (VObj h fs ints)
| says_obj c d h fs ints : h_cls h = COld c ->
    (forall n df, sget n (o_fields c) = Some df -> exists x, sget n fs = Some x /\ says_field c n df (sget n d) x) ->
    says c (JObj d) (VObj h fs ints)
with says_field : ocls -> str -> json -> option json -> val -> Prop :=
(** a plain value is taken as it is *)
| field_plain c n df o : sget n (o_child c) = None -> ~ (is_data_type c = true /\ n = lit "items") ->
    says_field c n df o (match o with Some j => inject j | None => inject df end)
(** the items of a parameter, an operation or a property are an object, unless they are empty *)
| field_items c df o : is_data_type c = true -> (o = None \/ exists j, o = Some j /\ ~ holds_true (inject j)) ->
    says_field c (lit "items") df o (match o with Some j => inject j | None => inject df end)
| field_item c df j x : is_data_type c = true -> holds_true (inject j) -> says OItems j x -> says_field c (lit "items") df (Some j) x
(** children *)
| field_child c n df ct cc o x : sget n (o_child c) = Some (ct, cc) -> ~ (c = OResource /\ n = lit "apis") ->
    says_in ct cc o x -> says_field c n df o x
(** the operations of a resource are collected under their nicknames *)
| field_apis df o apis l ops : listed o apis -> api_operations apis l ->
    Forall2 (fun pj no => says OOperation (snd pj) (snd no) /\ entry (snd pj) (lit "nickname") = Some (JStr (fst no)) /\ has_path (snd no) (fst pj)) l ops ->
    NoDup (map fst ops) -> says_field OResource (lit "apis") df o (VDict ops)
with says_in : octype -> ocls -> option json -> val -> Prop :=
| in_none c o : o = None \/ o = Some JNull -> says_in XOne c o VNone
| in_one c j x : j <> JNull -> says c j x -> says_in XOne c (Some j) x
| in_list c o l xs : listed o l -> Forall2 (says c) l xs -> says_in XList c o (VList xs)
| in_dict c o d e : keyed o d -> Forall2 (fun kj kx => fst kj = fst kx /\ says c (snd kj) (snd kx)) d e -> says_in XDict c o (VDict e)
| in_dict_list c o d e : keyed o d ->
    Forall2 (fun kj kx => fst kj = fst kx /\ exists l xs, listed_here (snd kj) l /\ snd kx = VList xs /\ Forall2 (says c) l xs) d e ->
    says_in XDictList c o (VDict e).

(** ** Shapes *)
(** Which objects are where: the contexts have them there, except that resources hold
    operations, the resource list holds the resources, and items become objects, too. *)
Definition o_holds (c : ocls) : list (str * (octype * ocls)) :=
  match c with
  | OResource => [(lit "apis", (XDict, OOperation)); (lit "models", (XDict, OModel))]
  | OResourceList => (lit "apis", (XDict, OResource)) :: o_child OResourceList
  | OParameter | OOperation | OProperty => (lit "items", (XOne, OItems)) :: o_child c
  | c => o_child c
  end.
(** Resources and items have no parent. *)
Definition has_parent (c : ocls) (n : str) : Prop := n <> lit "items" /\ ~ (c = OResourceList /\ n = lit "apis").
Definition of_class (c : ocls) (v : val) : Prop := exists h fs ints, v = VObj h fs ints /\ h_cls h = COld c.
Definition held (ct : octype) (c : ocls) (v : val) : Prop :=
  match ct with
  | XOne => of_class c v
  | XList => exists l, v = VList l /\ Forall (of_class c) l
  | XDict => exists d, v = VDict d /\ Forall (fun kv => of_class c (snd kv)) d
  | XDictList => exists d, v = VDict d /\ Forall (fun kv => exists l, snd kv = VList l /\ Forall (of_class c) l) d
  end.
Definition old_field (c : ocls) (pl : place) (n : str) (x : val) : Prop :=
  match sget n (o_holds c) with
  | None => no_obj x
  | Some (ct, cc) =>
      (held ct cc x /\ (has_parent c n -> forall ts o, inside x ts o -> is_obj o -> parent_of o = Some pl)) \/
      x = VNone \/ (n = lit "items" /\ no_obj x /\ ~ holds_true x)
  end.
Inductive old_value : val -> Prop :=
| old_plain v : no_obj v -> old_value v
| old_list l : Forall old_value l -> old_value (VList l)
| old_dict d : Forall (fun kv => old_value (snd kv)) d -> old_value (VDict d)
| old_obj c h fs ints : h_cls h = COld c -> map fst ints = map fst (t_internal (COld c)) ->
    Forall (fun kv => old_value (snd kv)) fs -> Forall (fun kv => old_field c (h_place h) (fst kv) (snd kv)) fs -> old_value (VObj h fs ints).

(** ** The resource list *)
(** An entry of the listing names the resource [n]: its path without the first character. *)
Definition api_named (api : json) (n : str) : Prop := exists d p, api = JObj d /\ sget (lit "path") d = Some (JStr p) /\ n = tl p.
Definition entries (d : sdict json) (apis : list json) : Prop :=
  (sget (lit "apis") d = None /\ apis = []) \/ sget (lit "apis") d = Some (JList apis).
(** [v] is the resource list that the document [d], found at [root_url], says, with the
    resources from the documents next to it. *)
Definition says_listing (fetch : str -> res json) (root_url : str) (d : sdict json) (v : val) : Prop :=
  exists h fs ints resources apis base,
    v = VObj h fs ints /\ h_cls h = COld OResourceList /\
    (forall n df, sget n (o_fields OResourceList) = Some df -> n <> lit "apis" -> exists x, sget n fs = Some x /\ says_field OResourceList n df (sget n d) x) /\
    sget (lit "apis") fs = Some (VDict resources) /\ NoDup (map fst resources) /\
    entries d apis /\ Forall (fun api => exists n, api_named api n) apis /\
    (forall n, In n (map fst resources) <-> exists api, In api apis /\ api_named api n) /\
    url_dirname root_url = Ok base /\
    forall n r, sget n resources = Some r -> exists url doc, url_join base n = Ok url /\ fetch url = Ok doc /\ says OResource doc r.
(** What is loaded from a listing *)
Definition loaded12 (v : val) : Prop :=
  exists fetch root_url d, wf (JObj d) /\ (forall u doc, fetch u = Ok doc -> wf doc) /\ parse_listing fetch root_url (JObj d) = Ok v.
