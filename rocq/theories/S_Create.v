(** Specification of documents that applications can be created from (C65). *)
From Verif Require Import PyBase PyJson M_SpecVal S_Parse S_SpecTree S_Merge S_MergeRef S_Patch S_Prepare.
From Verif Require S_Aggt.
Close Scope Q_scope.

(** An object of class [c] somewhere in the document *)
Definition object_in (doc : val) (c : cls) (o : val) : Prop := exists ts, reach [] doc ts o /\ of_class c o.
Definition operation_in (doc : val) (k m : str) (op : val) : Prop := exists pi, path_item doc k pi /\ operation pi m op.

(** In one field of objects of one class there are no lists besides dicts or other values. *)
Definition agree (doc : val) (c : cls) (n : str) (kinds : list (val -> Prop)) : Prop :=
  exists P, In P kinds /\ forall o v, object_in doc c o -> field_of o n = Some v -> P v.

Record acceptable (abs_uri win_uri : str -> str) (sep u : str) (doc : val) : Prop := {
  (* References of schemas, parameters and responses lead to such objects of the document; *)
  ac_refs : forall c o, In c [CSchema; CParameter; CResponse] -> object_in doc c o ->
    no_reference o \/ exists s x, refers o s /\ points abs_uri win_uri u doc s x /\ of_class c x;
  (* path items are no references; *)
  ac_items : forall k pi, path_item doc k pi -> field_of pi (lit "$ref") = Some VNone;
  (* lists and dicts are where they should be; *)
  ac_host : has doc "host" text_or_empty;
  ac_base : has doc "basePath" text_or_empty;
  ac_schemes : has doc "schemes" (fun s => empty_value s \/ sized s);
  ac_shared : forall k pi, path_item doc k pi -> has pi "parameters" (fun v => exists l, v = VList l);
  ac_ops : forall k m op, operation_in doc k m op -> has op "parameters" (fun v => exists l, v = VList l) /\
    has op "consumes" sized /\ has op "produces" sized /\ has op "schemes" sized;
  ac_schemas : forall s, object_in doc CSchema s -> has s "properties" (fun v => exists d, v = VDict d) /\ has s "required" (fun v => exists l, v = VList (map VStr l));
  (* they are not mixed with other values in the same field; *)
  ac_values : forall n, agree doc CSchema n [S_Aggt.list_or_none; S_Aggt.dict_or_none; fun v => ~ container v];
  ac_kinds : forall c n df, c = CParameter \/ c = CResponse -> sget n (t_fields c) = Some df -> sget n (t_child c) = None ->
    agree doc c n (map (of_kind df) [Scalars; Lists; Dicts]);
  ac_formats : simple_formats doc;
  (* the first tag and the id of each operation are texts, and no two operations have a name in common *)
  ac_tags : forall k m op, operation_in doc k m op ->
    has op "tags" (fun v => empty_value v \/ exists t l, v = VList (VStr t :: l)) /\ has op "operationId" text_or_empty;
  ac_names : forall k m op k' m' op' key, operation_in doc k m op -> operation_in doc k' m' op' ->
    known_as sep op key -> known_as sep op' key -> k = k' /\ m = m' }.
