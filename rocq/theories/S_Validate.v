(** Specification of validating 2.0 documents. *)
From Verif Require Import PyBase PyJson S_JsonPtr M_SpecVal S_Parse M_Validate.
Close Scope Q_scope.

(** What a Python condition takes for true *)
Definition holds_true (v : val) : Prop :=
  match v with
  | VNone => False
  | VBool b => b = true
  | VInt z => z <> 0%Z
  | VFloat q => ~ (q == 0)%Q
  | VStr s => s <> []
  | VList l => l <> []
  | VDict d => d <> []
  | VObj _ _ _ => True
  end.
(** The elements of what is given as a list: a text is taken for the list of its
    characters, an object for the list of its keys. *)
Inductive elements : val -> list val -> Prop :=
| el_list l : elements (VList l) l
| el_text s : elements (VStr s) (map (fun c => VStr [c]) s)
| el_keys d : elements (VDict d) (map (fun kv => VStr (fst kv)) d).
(** At [ts] in the document there is a schema with these fields. *)
Definition schema_at (root : val) (ts : list str) (fs : sdict val) : Prop :=
  exists h ints, reach [] root ts (VObj h fs ints) /\ h_cls h = CSchema.
(** The schema has a property of this name that is read-only. *)
Definition read_only_property (fs : sdict val) (name : val) : Prop :=
  exists s d h fs' ints r, name = VStr s /\ sget (lit "properties") fs = Some (VDict d) /\ sget s d = Some (VObj h fs' ints) /\
    sget (lit "readOnly") fs' = Some r /\ holds_true r.
(** The rule of 2.0: a required property is not read-only. *)
Definition violated (root : val) (ts : list str) (name : val) : Prop :=
  exists fs req l, schema_at root ts fs /\ sget (lit "required") fs = Some req /\ elements req l /\ In name l /\ read_only_property fs name.
Definition entry_for (ts : list str) (name : val) : report :=
  (rfc_pointer (lit "#") ts, "Schema"%string, ("ReadOnly property in required list: {0}"%string, name)).
(** A schema whose "required" is no list of names: nothing to loop over, or a list or an
    object in it *)
Definition unreadable (fs : sdict val) : Prop :=
  exists req, sget (lit "required") fs = Some req /\
    ((forall l, ~ elements req l) \/ exists l x, elements req l /\ In x l /\ ((exists m, x = VList m) \/ exists d, x = VDict d)).
(** The properties of each schema are schemas (as they are after parsing). *)
Definition proper_schemas (root : val) : Prop :=
  forall ts fs, schema_at root ts fs -> exists d, sget (lit "properties") fs = Some (VDict d) /\
    forall n x, sget n d = Some x -> exists h fs' ints, x = VObj h fs' ints /\ h_cls h = CSchema.
