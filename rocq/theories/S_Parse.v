(** Specifications for parsing and dumping documents, and for places inside parsed objects. *)
From Verif Require Import PyBase PyJson M_SpecVal.
Close Scope Q_scope.

(** ** Documents *)
(** The same JSON value, whatever the order of the keys. *)
Inductive jsame : json -> json -> Prop :=
| same_null : jsame JNull JNull
| same_bool b : jsame (JBool b) (JBool b)
| same_int z : jsame (JInt z) (JInt z)
| same_float q : jsame (JFloat q) (JFloat q)
| same_str s : jsame (JStr s) (JStr s)
| same_list l m : Forall2 jsame l m -> jsame (JList l) (JList m)
| same_obj d e :
    (forall k x, sget k d = Some x -> exists y, sget k e = Some y /\ jsame x y) ->
    (forall k y, sget k e = Some y -> exists x, sget k d = Some x /\ jsame x y) ->
    jsame (JObj d) (JObj e).

(** What is accepted where an object of a class is expected: null, a JSON object whose
    children are accepted in turn.  A list child may be anything Python can iterate over,
    which only matters when it is empty. *)
Inductive accepted : ctx -> json -> Prop :=
| acc_null c : accepted c JNull
| acc_bool b : accepted AddP (JBool b)
| acc_addp d : accepted (Of CSchema) (JObj d) -> accepted AddP (JObj d)
| acc_obj c d :
    (forall key ct cc v, In (key, (ct, cc)) (t_child c) -> sget key d = Some v -> v <> JNull -> accepted_in ct cc v) ->
    accepted (Of c) (JObj d)
with accepted_in : ctype -> ctx -> json -> Prop :=
| acc_one c v : accepted c v -> accepted_in One c v
| acc_list c l : Forall (accepted c) l -> accepted_in ListOf c (JList l)
| acc_list_obj c : accepted_in ListOf c (JObj [])
| acc_list_str c : accepted_in ListOf c (JStr [])
| acc_dict c d : Forall (fun kv => accepted c (snd kv)) d -> accepted_in DictOf c (JObj d).

(** A value without null and without empty containers, at any depth. *)
Inductive solid : json -> Prop :=
| solid_bool b : solid (JBool b)
| solid_int z : solid (JInt z)
| solid_float q : solid (JFloat q)
| solid_str s : solid (JStr s)
| solid_list l : l <> [] -> Forall solid l -> solid (JList l)
| solid_obj d : d <> [] -> NoDup (map fst d) -> Forall (fun kv => solid (snd kv)) d -> solid (JObj d).
(** A document that says nothing superfluous: only known fields, no field that equals its
    default, no null and no empty container. *)
Inductive tidy : ctx -> json -> Prop :=
| tidy_bool b : tidy AddP (JBool b)
| tidy_addp d : tidy (Of CSchema) (JObj d) -> tidy AddP (JObj d)
| tidy_obj c d :
    d <> [] -> NoDup (map fst d) ->
    (forall k v, sget k d = Some v -> exists df, sget k (t_fields c) = Some df /\ py_eqb v df = false) ->
    (forall k v, sget k d = Some v -> sget k (t_child c) = None -> solid v) ->
    (forall k v ct cc, sget k d = Some v -> sget k (t_child c) = Some (ct, cc) -> tidy_in ct cc v) ->
    tidy (Of c) (JObj d)
with tidy_in : ctype -> ctx -> json -> Prop :=
| tidy_one c v : tidy c v -> tidy_in One c v
| tidy_list c l : l <> [] -> Forall (tidy c) l -> tidy_in ListOf c (JList l)
| tidy_dict c d : d <> [] -> NoDup (map fst d) -> Forall (fun kv => tidy c (snd kv)) d -> tidy_in DictOf c (JObj d).

(** [r] is [j], except that empty containers have become null. *)
Inductive emptied : json -> json -> Prop :=
| emptied_bool b : emptied (JBool b) (JBool b)
| emptied_int z : emptied (JInt z) (JInt z)
| emptied_float q : emptied (JFloat q) (JFloat q)
| emptied_str s : emptied (JStr s) (JStr s)
| emptied_no_list : emptied (JList []) JNull
| emptied_no_obj : emptied (JObj []) JNull
| emptied_list l m : l <> [] -> Forall2 emptied l m -> emptied (JList l) (JList m)
| emptied_obj d e : d <> [] -> Forall2 (fun kv kw => fst kv = fst kw /\ emptied (snd kv) (snd kw)) d e -> emptied (JObj d) (JObj e).
(** [r] is what is kept of the document [j] of an object: exactly the known fields that
    are not equal to their default and not empty, their values kept in turn. *)
Inductive kept : ctx -> json -> json -> Prop :=
| kept_bool b : kept AddP (JBool b) (JBool b)
| kept_true : kept AddP JNull (JBool true)
| kept_addp d r : kept (Of CSchema) (JObj d) r -> kept AddP (JObj d) r
| kept_null c : kept (Of c) JNull JNull
| kept_obj c d e r :
    (forall k y, sget k e = Some y -> y <> JNull /\
       exists df x, sget k (t_fields c) = Some df /\ sget k d = Some x /\ x <> JNull /\ py_eqb x df = false /\ kept_field c k x y) ->
    (forall k df x, sget k (t_fields c) = Some df -> sget k d = Some x -> x <> JNull -> py_eqb x df = false ->
       (exists y, sget k e = Some y /\ kept_field c k x y) \/ (sget k e = None /\ kept_field c k x JNull)) ->
    r = (match e with [] => JNull | _ => JObj e end) ->
    kept (Of c) (JObj d) r
with kept_field : cls -> str -> json -> json -> Prop :=
| kept_plain c k x y : sget k (t_child c) = None -> emptied x y -> kept_field c k x y
| kept_one c k cc x y : sget k (t_child c) = Some (One, cc) -> kept cc x y -> kept_field c k x y
| kept_no_list c k cc x : sget k (t_child c) = Some (ListOf, cc) -> x = JList [] \/ x = JObj [] \/ x = JStr [] -> kept_field c k x JNull
| kept_list c k cc l m : sget k (t_child c) = Some (ListOf, cc) -> l <> [] -> Forall2 (kept cc) l m -> kept_field c k (JList l) (JList m)
| kept_no_dict c k cc : sget k (t_child c) = Some (DictOf, cc) -> kept_field c k (JObj []) JNull
| kept_dict c k cc d e : sget k (t_child c) = Some (DictOf, cc) -> d <> [] ->
    Forall2 (fun kv kw => fst kv = fst kw /\ kept cc (snd kv) (snd kw)) d e -> kept_field c k (JObj d) (JObj e).

(** ** Places inside objects *)
(** Following [ts] from [v] leads to [o] through fields, list positions and dict keys,
    without going below objects of the classes [leaves]. *)
Inductive reach (leaves : list cls) : val -> list str -> val -> Prop :=
| reach_here v : reach leaves v [] v
| reach_field h fs ints n v ts o : ~ In (h_cls h) leaves -> sget n fs = Some v -> reach leaves v ts o ->
    reach leaves (VObj h fs ints) (n :: ts) o
| reach_item l i v ts o : nth_error l i = Some v -> reach leaves v ts o -> reach leaves (VList l) (str_of_nat i :: ts) o
| reach_key d k v ts o : sget k d = Some v -> reach leaves v ts o -> reach leaves (VDict d) (k :: ts) o.
(** Following [ts] inside containers only. *)
Inductive inside : val -> list str -> val -> Prop :=
| inside_here v : inside v [] v
| inside_item l i v ts o : nth_error l i = Some v -> inside v ts o -> inside (VList l) (str_of_nat i :: ts) o
| inside_key d k v ts o : sget k d = Some v -> inside v ts o -> inside (VDict d) (k :: ts) o.
Definition is_obj (v : val) : Prop := match v with VObj _ _ _ => True | _ => False end.
(** [o] is an object held by the object [p] in one of its fields, itself or in containers. *)
Definition holds (p o : val) : Prop :=
  is_obj o /\ exists h fs ints n v ts, p = VObj h fs ints /\ sget n fs = Some v /\ inside v ts o.
(** Where an object was made, and where its parent object was made. *)
Definition place_of (o : val) : option place := match o with VObj h _ _ => Some (h_place h) | _ => None end.
Definition parent_of (o : val) : option place := match o with VObj h _ _ => h_parent h | _ => None end.
