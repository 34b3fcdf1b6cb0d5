(** Specification of merging objects. *)
From Verif Require Import PyBase PyJson M_SpecVal S_Parse S_SpecTree.
Close Scope Q_scope.

(** ** Objects as they come out of documents *)
Definition no_object (v : val) : Prop := forall ts o, inside v ts o -> ~ is_obj o.
(** An object has the fields of its class; those for children hold objects of the right
    class, in the right container or none at all; the others hold no objects. *)
Inductive shaped : ctx -> val -> Prop :=
| sh_bool b : shaped AddP (VBool b)
| sh_addp v : shaped (Of CSchema) v -> shaped AddP v
| sh_obj h fs ints :
    map fst fs = map fst (t_fields (h_cls h)) -> map fst ints = map fst (t_internal (h_cls h)) ->
    (forall n v, sget n fs = Some v -> sget n (t_child (h_cls h)) = None -> wfv v /\ no_object v) ->
    (forall n v ct cc, sget n fs = Some v -> sget n (t_child (h_cls h)) = Some (ct, cc) -> shaped_in ct cc v) ->
    shaped (Of (h_cls h)) (VObj h fs ints)
with shaped_in : ctype -> ctx -> val -> Prop :=
| sh_none ct c : shaped_in ct c VNone
| sh_one c v : shaped c v -> shaped_in One c v
| sh_list c l : Forall (shaped c) l -> shaped_in ListOf c (VList l)
| sh_dict c d : NoDup (map fst d) -> Forall (fun kv => shaped c (snd kv)) d -> shaped_in DictOf c (VDict d).

(** ** Python's notions *)
(** [v == d] for a default [d] of a field *)
Inductive equals_default : val -> json -> Prop :=
| eqd_same v d : v = inject d -> equals_default v d
| eqd_int z b : z = (if b : bool then 1 else 0)%Z -> equals_default (VInt z) (JBool b)
| eqd_float q b : (q == (if b : bool then 1 else 0))%Q -> equals_default (VFloat q) (JBool b).
(** values that are false in a condition *)
Inductive empty_value : val -> Prop :=
| e_none : empty_value VNone
| e_false : empty_value (VBool false)
| e_zero : empty_value (VInt 0)
| e_zerof q : (q == 0)%Q -> empty_value (VFloat q)
| e_text : empty_value (VStr [])
| e_list : empty_value (VList [])
| e_dict : empty_value (VDict []).
Inductive is_number : val -> Q -> Prop :=
| n_true : is_number (VBool true) 1
| n_false : is_number (VBool false) 0
| n_int z : is_number (VInt z) (inject_Z z)
| n_float q : is_number (VFloat q) q.
(** [x == y], for values that can be in a set *)
Inductive equal_elems : val -> val -> Prop :=
| ee_none : equal_elems VNone VNone
| ee_str s : equal_elems (VStr s) (VStr s)
| ee_num x y p q : is_number x p -> is_number y q -> (p == q)%Q -> equal_elems x y
| ee_obj h g fs es i j : h_place h = h_place g -> equal_elems (VObj h fs i) (VObj g es j).
Definition container (v : val) : Prop := (exists l, v = VList l) \/ exists d, v = VDict d.
(** What becomes of two lists: all their elements, once each; but when an element is a
    container they are put one after the other. *)
Definition united (l m r : list val) : Prop :=
  ((exists x, In x (l ++ m) /\ container x) /\ r = l ++ m) \/
  ((forall x, In x (l ++ m) -> ~ container x) /\
   (forall x, In x r -> In x (l ++ m)) /\
   (forall x, In x (l ++ m) -> exists y, In y r /\ equal_elems x y) /\
   ForallOrdPairs (fun x y => ~ equal_elems y x) r).

(** The same object, list or dict of objects, with other parents. *)
Inductive reparent1 : val -> val -> Prop :=
| rp_obj h fs ints p : reparent1 (VObj h fs ints) (VObj (Head (h_cls h) (h_place h) p (h_keys h)) fs ints)
| rp_same v : reparent1 v v.
Inductive reparent : val -> val -> Prop :=
| rp_one v w : reparent1 v w -> reparent v w
| rp_list l m : Forall2 reparent1 l m -> reparent (VList l) (VList m)
| rp_dict d e : Forall2 (fun kv kw => fst kv = fst kw /\ reparent1 (snd kv) (snd kw)) d e -> reparent (VDict d) (VDict e).

(** ** Merging *)
(** [rv] is what becomes of the field [n] with default [df] of an object of class [c] made
    at [pl], when it was [sv] and [ov] is merged into it. *)
Inductive merged : list str -> cls -> place -> str -> json -> val -> val -> val -> Prop :=
| m_excluded exclude c pl n df sv ov rv : In n exclude -> reparent sv rv -> (sget n (t_child c) = None -> rv = sv) -> merged exclude c pl n df sv ov rv
| m_default exclude c pl n df sv ov rv : equals_default ov df -> reparent sv rv -> (sget n (t_child c) = None -> rv = sv) -> merged exclude c pl n df sv ov rv
| m_kept exclude c pl n df sv ov : ~ equals_default ov df -> ~ In n exclude -> sget n (t_child c) = None -> ~ container ov ->
    ~ equals_default sv df -> merged exclude c pl n df sv ov sv
| m_taken exclude c pl n df sv ov : ~ equals_default ov df -> ~ In n exclude -> sget n (t_child c) = None -> ~ container ov ->
    equals_default sv df -> merged exclude c pl n df sv ov ov
| m_list exclude c pl n df sv l m r : ~ equals_default (VList m) df -> ~ In n exclude -> sget n (t_child c) = None ->
    (sv = VList l \/ empty_value sv /\ l = []) -> united l m r -> merged exclude c pl n df sv (VList m) (VList r)
| m_dict exclude c pl n df sv d e r : ~ equals_default (VDict e) df -> ~ In n exclude -> sget n (t_child c) = None ->
    (sv = VDict d \/ empty_value sv /\ d = []) ->
    (forall k, sget k r = match sget k d with Some x => Some x | None => sget k e end) ->
    merged exclude c pl n df sv (VDict e) (VDict r)
| m_child exclude c pl n df sv ov rv ct cc : ~ equals_default ov df -> ~ In n exclude -> sget n (t_child c) = Some (ct, cc) ->
    ~ equals_default sv df -> reparent sv rv -> merged exclude c pl n df sv ov rv
| m_copied exclude c pl n df sv ov w rv ct cc : ~ equals_default ov df -> ~ In n exclude -> sget n (t_child c) = Some (ct, cc) ->
    equals_default sv df -> copied_in ct cc (pl ++ [n]) ov w -> reparent w rv -> merged exclude c pl n df sv ov rv
(** [w] is a copy of the object [v], made at [pl]: what results from merging [v] into a new
    object that has nothing but defaults. *)
with copied : ctx -> place -> val -> val -> Prop :=
| c_bool pl b : copied AddP pl (VBool b) (VBool b)
| c_addp pl v w : copied (Of CSchema) pl v w -> copied AddP pl v w
| c_obj pl h es jnts ks fs ints :
    map fst fs = map fst (t_fields (h_cls h)) -> map fst ints = map fst (t_internal (h_cls h)) ->
    (forall n df ov rv, sget n (t_fields (h_cls h)) = Some df -> sget n es = Some ov -> sget n fs = Some rv ->
       merged [] (h_cls h) pl n df (inject df) ov rv) ->
    (forall n df ov rv, sget n (t_internal (h_cls h)) = Some df -> sget n jnts = Some ov -> sget n ints = Some rv ->
       merged [] (h_cls h) pl n df VNone ov rv) ->
    copied (Of (h_cls h)) pl (VObj h es jnts) (VObj (Head (h_cls h) pl None ks) fs ints)
with copied_in : ctype -> ctx -> place -> val -> val -> Prop :=
| c_none ct c pl : copied_in ct c pl VNone VNone
| c_one c pl v w : copied c pl v w -> copied_in One c pl v w
| c_list c pl l m : length l = length m ->
    (forall i x y, nth_error l i = Some x -> nth_error m i = Some y -> copied c (pl ++ [str_of_nat i]) x y) ->
    copied_in ListOf c pl (VList l) (VList m)
| c_no_list c pl v : v = VDict [] \/ v = VStr [] -> copied_in ListOf c pl v (VList [])
| c_dict c pl d e : Forall2 (fun kv kw => fst kv = fst kw /\ copied c (pl ++ [fst kv]) (snd kv) (snd kw)) d e ->
    copied_in DictOf c pl (VDict d) (VDict e).

(** Merging can be done: where a list or dict comes in for a field without children, there
    is one of the kind already or an empty value. *)
Definition fits (exclude : list str) (t : list (str * json)) (c : cls) (sf : sdict val) (of : sdict val) : Prop :=
  forall n df sv ov, sget n t = Some df -> sget n sf = Some sv -> sget n of = Some ov ->
    ~ In n exclude -> sget n (t_child c) = None -> ~ equals_default ov df ->
    match ov with
    | VList _ => empty_value sv \/ exists l, sv = VList l
    | VDict _ => empty_value sv \/ exists d, sv = VDict d
    | _ => True
    end.
(** Nowhere inside, a collectionFormat is a list or dict. *)
Definition simple_formats (v : val) : Prop :=
  forall ts h fs ints x, reach [] v ts (VObj h fs ints) -> sget (lit "collectionFormat") fs = Some x -> ~ container x.
(** Every object below knows the object that holds it. *)
Definition well_parented (v : val) : Prop := forall ts o o', reach [] v ts o -> holds o o' -> parent_of o' = place_of o.
(** The field is assigned to. *)
Definition updated (ex : list str) (c : cls) (n : str) (df : json) (sv ov : val) : Prop :=
  ~ In n ex /\ ~ equals_default ov df /\ (equals_default sv df \/ sget n (t_child c) = None /\ container ov).
Definition field_of (v : val) (n : str) : option val := match v with VObj _ fs _ => sget n fs | _ => None end.
