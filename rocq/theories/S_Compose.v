(** Specification of composed schemas in created applications (C63). *)
From Verif Require Import PyBase PyJson M_SpecVal S_Parse S_Merge S_MergeRef S_Patch S_Cycles.
From Verif Require M_Aggt S_Aggt.
Close Scope Q_scope.

Definition has_property (s : val) (k : str) (x : val) : Prop := exists d, field_of s (lit "properties") = Some (VDict d) /\ sget k d = Some x.
Definition requires (s : val) (x : str) : Prop := exists l, field_of s (lit "required") = Some (VList l) /\ In (VStr x) l.
(** The fields of schemas that hold no schemas, and the name *)
Definition plain_names : list str :=
  map lit ["$ref"; "title"; "description"; "maxProperties"; "minProperties"; "required"; "discriminator"; "readOnly"; "xml"; "externalDocs"; "example";
           "type"; "format"; "default"; "multipleOf"; "maximum"; "exclusiveMaximum"; "minimum"; "exclusiveMinimum"; "maxLength"; "minLength"; "pattern";
           "maxItems"; "minItems"; "uniqueItems"; "enum"; "name"]%string.
(** The schema [m] has the same plain fields as the schema [x] of a document. *)
Definition like (x : val) (m : M_Aggt.node) : Prop :=
  forall n v, In n plain_names -> attr_of x n = Some v -> exists w, sget n (M_Aggt.s_plain m) = Some w /\ S_Aggt.same_value v w.
Definition same (x : val) (m : M_Aggt.node) : Prop := forall n v, In n plain_names -> (attr_of x n = Some v <-> sget n (M_Aggt.s_plain m) = Some v).

Section Document.
  Context (abs_uri win_uri : str -> str) (u : str) (root : val).
  (** Following references from the schema [s] ends at the schema [e]. *)
  Inductive stands : val -> val -> Prop :=
  | stands_itself s : no_reference s -> stands s s
  | stands_other s r ts x e : S_MergeRef.refers s r -> points abs_uri win_uri u root r ts x -> stands x e -> stands s e.
  (** [e] is one of the schemas that [s] is composed of by allOf, at any distance. *)
  Inductive includes : val -> val -> Prop :=
  | includes_direct s l x e : field_of s (lit "allOf") = Some (VList l) -> In x l -> stands x e -> includes s e
  | includes_next s e e' : includes s e -> includes e e' -> includes s e'.
  Definition has_part (s e : val) : Prop := s = e \/ includes s e.
  (** [f] is the schema composed of the parts of [e]; [h] has the schemas in its properties. *)
  Record composed_of (h : M_Aggt.heap) (e : val) (f : M_Aggt.node) : Prop := {
    (* it has the properties of all parts, and no others; *)
    co_names : forall k, In k (map fst (M_Aggt.s_props f)) <-> exists p x, has_part e p /\ has_property p k x;
    (* its own are like those of the document; others are like that of some part; *)
    co_own : forall k x, has_property e k x -> exists q m, sget k (M_Aggt.s_props f) = Some q /\ nth_error h q = Some m /\ like x m;
    co_some : forall k q, sget k (M_Aggt.s_props f) = Some q -> exists p x m, has_part e p /\ has_property p k x /\ nth_error h q = Some m /\ like x m;
    (* it requires what any part requires; *)
    co_required : forall x, (exists l, sget (lit "required") (M_Aggt.s_plain f) = Some (VList l) /\ In (VStr x) l) <-> exists p, has_part e p /\ requires p x;
    (* and its own values stay. *)
    co_values : forall n v, In n plain_names -> attr_of e n = Some v -> ~ empty_value v -> ~ container v -> sget n (M_Aggt.s_plain f) = Some v }.
  (** All schemas of the document are kept; that which following references ends at has a composed
      schema, which is none of them. *)
  Definition composes (h : M_Aggt.heap) : Prop := exists l,
    (forall s, In s l <-> exists ts, schema_at root ts s) /\
    (forall i s, nth_error l i = Some s -> exists n, nth_error h i = Some n /\ same s n) /\
    forall ts s e, schema_at root ts s -> stands s e -> exists i n j m,
      nth_error l i = Some e /\ nth_error h i = Some n /\ M_Aggt.s_final n = Some j /\ length l <= j /\ nth_error h j = Some m /\ composed_of h e m.
End Document.
(** Schemas are told apart by the places where they are. *)
Definition settled (root : val) : Prop :=
  forall ts s ts' s', schema_at root ts s -> schema_at root ts' s' -> place_of s = place_of s' -> s = s'.
