(** Specification of prepared applications. *)
From Verif Require Import PyBase PyJson S_JsonPtr M_Url M_SpecVal S_Parse S_SpecTree S_Merge S_MergeRef S_Patch.
Close Scope Q_scope.

(** The object says that [n] has been set ([is_set]). *)
Definition says (f : val) (n : str) : Prop := match f with VObj h _ _ => In n (h_keys h) | _ => False end.
(** [f] has all that the objects [l] of class [c] set: fields that hold no containers and
    children come from the first one that sets them, dicts have the keys of all (the first one
    wins), lists the elements of all.  What none of them sets is not set. *)
Record combined (c : cls) (l : list val) (f : val) : Prop := {
  cb_shape : shaped (Of c) f;
  cb_set : forall n df, sget n (t_fields c) = Some df -> (says f n <-> exists o v, In o l /\ field_of o n = Some v /\ ~ equals_default v df);
  cb_scalar : forall n df, sget n (t_fields c) = Some df -> sget n (t_child c) = None -> (forall o v, In o l -> field_of o n = Some v -> ~ container v) ->
    exists rv, field_of f n = Some rv /\ (first_set n df l rv \/ never_set n df l /\ rv = inject df);
  cb_child : forall n df ct cc, sget n (t_fields c) = Some df -> sget n (t_child c) = Some (ct, cc) ->
    exists rv, field_of f n = Some rv /\
      ((exists x w pl, first_set n df l x /\ copied_in ct cc pl x w /\ reparent w rv) \/ never_set n df l /\ rv = inject df);
  cb_dict : forall n df, sget n (t_fields c) = Some df -> sget n (t_child c) = None -> empty_value (inject df) ->
    (forall o v, In o l -> field_of o n = Some v -> v = inject df \/ exists d, v = VDict d) ->
    exists rv, field_of f n = Some rv /\ (rv = inject df \/ exists d, rv = VDict d) /\ forall k, first_key n k l (key_in k rv);
  cb_list : forall n df, sget n (t_fields c) = Some df -> sget n (t_child c) = None -> empty_value (inject df) ->
    (forall o v, In o l -> field_of o n = Some v -> v = inject df \/ exists m, v = VList m) ->
    exists rv, field_of f n = Some rv /\ (rv = inject df \/ exists m, rv = VList m) /\
      (forall x, elem_of rv x -> exists o v, In o l /\ field_of o n = Some v /\ elem_of v x) /\
      (forall o v x, In o l -> field_of o n = Some v -> elem_of v x -> exists y, elem_of rv y /\ (x = y \/ equal_elems x y)) }.

Section Document.
  Context (abs_uri win_uri : str -> str).
  (** The document at [url] and its content *)
  Context (url : str) (doc : val).
  (** The reference [s] leads to [x] in this document. *)
  Definition points (s : str) (x : val) : Prop :=
    exists ts, jr_split abs_uri win_uri s = Ok (url, rfc_pointer (lit "#") ts) /\ reach [] doc ts x.
  (** The objects of class [c] met from [o] on by following references inside of the document,
      when those at [seen] have been met before: up to the first one without a reference or the
      last one before a repetition. *)
  Inductive way (c : cls) : list place -> val -> list val -> Prop :=
  | way_end seen o : no_reference o -> way c seen o [o]
  | way_again seen o s h fs ints : refers o s -> points s (VObj h fs ints) -> h_cls h = c -> In (h_place h) seen -> way c seen o [o]
  | way_next seen o s h fs ints l : refers o s -> points s (VObj h fs ints) -> h_cls h = c -> ~ In (h_place h) seen ->
      way c (h_place h :: seen) (VObj h fs ints) l -> way c seen o (o :: l).
  (** [p'] is the object [p] of the document in the prepared application: its fields are
      those of [p], and it says what references lead to ("final"). *)
  Definition completed (p p' : val) : Prop :=
    exists h g fs ints jnts f, p = VObj h fs ints /\ p' = VObj g fs jnts /\ h_cls g = h_cls h /\ h_place g = h_place h /\
      sget (lit "final") jnts = Some f /\ forall l, way (h_cls h) [h_place h] p l -> combined (h_cls h) l f.
  (** The same for what is in a field *)
  Inductive completed_in : val -> val -> Prop :=
  | ci_none : completed_in VNone VNone
  | ci_list l m : Forall2 completed l m -> completed_in (VList l) (VList m)
  | ci_dict d e : Forall2 (fun kx ky => fst kx = fst ky /\ completed (snd kx) (snd ky)) d e -> completed_in (VDict d) (VDict e).
End Document.

(** The names [key] that an operation [op] can be asked for by: its id after its first tag, if it
    has one (of a text instead of a list, its first character is taken). *)
Inductive known_as (sep : str) (op : val) : str -> Prop :=
| ka_tag t ts id : field_of op (lit "tags") = Some (VList (VStr t :: ts)) -> t <> [] -> field_of op (lit "operationId") = Some (VStr id) -> id <> [] -> known_as sep op (t ++ sep ++ id)
| ka_text c s id : field_of op (lit "tags") = Some (VStr (c :: s)) -> field_of op (lit "operationId") = Some (VStr id) -> id <> [] -> known_as sep op ([c] ++ sep ++ id)
| ka_plain v id : field_of op (lit "tags") = Some v -> empty_value v \/ (exists ts, v = VList (VNone :: ts)) \/ (exists ts, v = VList (VStr [] :: ts)) ->
    field_of op (lit "operationId") = Some (VStr id) -> id <> [] -> known_as sep op id.
