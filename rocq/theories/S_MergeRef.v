(** Specification of following references. *)
From Verif Require Import PyBase PyJson M_SpecVal S_Parse S_SpecTree S_Merge.
Close Scope Q_scope.

Definition is_class (c : cls) (v : val) : Prop := exists h fs ints, v = VObj h fs ints /\ h_cls h = c.
(** [o] refers to [s], or to nothing. *)
Definition refers (o : val) (s : str) : Prop := s <> [] /\ field_of o (lit "$ref") = Some (VStr s).
Definition no_reference (o : val) : Prop := exists x, field_of o (lit "$ref") = Some x /\ empty_value x.
(** The objects met from [o] on, all of one class, when those at [seen] have been met
    before: up to the first one without a reference or the last one before a repetition. *)
Inductive chain (look : str -> res val) (c : cls) : list place -> val -> list val -> Prop :=
| chain_end seen o : no_reference o -> chain look c seen o [o]
| chain_again seen o s h fs ints : refers o s -> look s = Ok (VObj h fs ints) -> h_cls h = c -> In (h_place h) seen -> chain look c seen o [o]
| chain_next seen o s h fs ints l : refers o s -> look s = Ok (VObj h fs ints) -> h_cls h = c -> ~ In (h_place h) seen ->
    chain look c (h_place h :: seen) (VObj h fs ints) l -> chain look c seen o (o :: l).
(** After the objects of the list the way ends with an exception: something else than an
    object of the class is met, or the lookup fails. *)
Inductive broken (look : str -> res val) (c : cls) : list place -> val -> list val -> exn -> Prop :=
| broken_class seen o s x : refers o s -> look s = Ok x -> ~ is_class c x -> broken look c seen o [o] TypeError
| broken_look seen o s e : refers o s -> look s = Err e -> broken look c seen o [o] e
| broken_next seen o s h fs ints l e : refers o s -> look s = Ok (VObj h fs ints) -> h_cls h = c -> ~ In (h_place h) seen ->
    broken look c (h_place h :: seen) (VObj h fs ints) l e -> broken look c seen o (o :: l) e.
(** The first object of [l] whose field [n] is not the default [df] has [x] there. *)
Definition first_set (n : str) (df : json) (l : list val) (x : val) : Prop :=
  exists l1 o l2, l = l1 ++ o :: l2 /\ field_of o n = Some x /\ ~ equals_default x df /\
    forall o', In o' l1 -> exists y, field_of o' n = Some y /\ equals_default y df.
Definition never_set (n : str) (df : json) (l : list val) : Prop :=
  forall o, In o l -> exists y, field_of o n = Some y /\ equals_default y df.
(** [y] is what the first of the dicts in the fields [n] has under [k] that has it. *)
Definition first_key (n k : str) (l : list val) (y : option val) : Prop :=
  (exists l1 o l2 d x, l = l1 ++ o :: l2 /\ field_of o n = Some (VDict d) /\ sget k d = Some x /\ y = Some x /\
     forall o' d', In o' l1 -> field_of o' n = Some (VDict d') -> sget k d' = None) \/
  (y = None /\ forall o' d', In o' l -> field_of o' n = Some (VDict d') -> sget k d' = None).
Definition key_in (k : str) (v : val) : option val := match v with VDict d => sget k d | _ => None end.
Definition elem_of (v x : val) : Prop := exists l, v = VList l /\ In x l.
(** Values that one field may have, in objects that are merged with each other. *)
Inductive kind := Scalars | Lists | Dicts.
Definition of_kind (df : json) (k : kind) (v : val) : Prop :=
  match k with
  | Scalars => ~ container v
  | Lists => empty_value (inject df) /\ (equals_default v df \/ exists l, v = VList l)
  | Dicts => empty_value (inject df) /\ (equals_default v df \/ exists d, v = VDict d)
  end.
Definition compatible (c : cls) (l : list val) : Prop :=
  forall n df, sget n (t_fields c) = Some df -> sget n (t_child c) = None -> exists k, forall o v, In o l -> field_of o n = Some v -> of_kind df k v.
(** No internal field of the object is a list or dict. *)
Definition no_containers (v : val) : Prop := match v with VObj _ _ ints => forall n x, sget n ints = Some x -> ~ container x | _ => True end.
(** An object as it may come out of a document, for merging. *)
Definition proper (c : cls) (o : val) : Prop := shaped (Of c) o /\ no_containers o.
(** The object and all objects of its class that can be referred to are proper. *)
Definition world (look : str -> res val) (c : cls) (obj : val) : Prop :=
  proper c obj /\ forall s o, look s = Ok o -> is_class c o -> proper c o.
