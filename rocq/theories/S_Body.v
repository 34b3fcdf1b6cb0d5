(** Specification of the values that schemas of created applications take, in terms of the fields
    of Schema Objects (C67). *)
From Coq Require Import QArith.
From Verif Require Import PyBase PyJson M_SpecVal S_Parse S_SpecTree S_Merge S_MergeRef S_Patch S_Cycles S_Compose M_Time.
From Verif Require Import S_Prepare S_Declared.
From Verif Require M_Prim S_Prim.
Close Scope Q_scope.

(** ** Fields of schemas *)
Definition untyped (s : val) : Prop := field_of s (lit "type") = Some VNone \/ text_at s "type" [].
(** What may be in objects besides the properties: anything, what a schema takes, or nothing *)
Definition anything (s : val) : Prop := field_of s (lit "additionalProperties") = Some (VBool true).
Definition more (s a : val) : Prop := field_of s (lit "additionalProperties") = Some a /\ is_obj a.
Definition nothing (s : val) : Prop := ~ anything s /\ forall a, ~ more s a.
(** Schemas of objects may leave out the type if they say something about the contents. *)
Definition object_decl (s : val) : Prop := of_type s "object" \/ untyped s /\ ((exists k p, has_property s k p) \/ ~ nothing s).
Definition silent (s : val) : Prop := untyped s /\ (forall k p, ~ has_property s k p) /\ nothing s.
Definition discriminates (s : val) (k : str) : Prop := text_at s "discriminator" k /\ k <> [].

Import M_Prim.
Inductive named (s : val) : prim -> Prop :=
| nm_none : internal_of s (lit "name") = Some M_SpecVal.VNone -> named s PNone
| nm_text t : internal_of s (lit "name") = Some (M_SpecVal.VStr t) -> named s (PStr t).
(** The elements of a value for an array: texts are split at commas. *)
Inductive parts : value -> list value -> Prop :=
| pa_list l : parts (VList l) l
| pa_dict d : parts (VDict d) (map (fun kv => VStr (fst kv)) d)
| pa_bytes s : parts (VBytes s) (map (fun c => VInt (Z.of_N (N_of_ascii c))) s)
| pa_str ps : ps <> [] -> Forall (fun p => ~ In ","%char p) ps -> parts (VStr (join (lit ",") ps)) (map VStr ps).
(** Dicts have each key once. *)
Inductive proper : value -> Prop :=
| pr_plain v : (forall l, v <> VList l) -> (forall d, v <> VDict d) -> proper v
| pr_list l : Forall proper l -> proper (VList l)
| pr_dict d : NoDup (map fst d) -> Forall (fun kv => proper (snd kv)) d -> proper (VDict d).

Section Takes.
  (** The document [root] at [u], as in S_Cycles *)
  Context (abs_uri win_uri : str -> str) (u : str) (root : val).
  Notation stands := (stands abs_uri win_uri u root).
  (** As in S_Declared *)
  Context (int_of : str -> res Z) (float_of : str -> res Q) (str_of : value -> str)
    (date_at : Q -> res (Z * Z * Z)) (datetime_at : Q -> res datetime) (uuid_of : str -> option Z) (email_ok : str -> bool).
  Notation becomes := (becomes int_of float_of str_of date_at datetime_at uuid_of email_ok).

  (** The value [x] becomes [r] by the schema [s]; [rd]: it has been received, or is to be sent. *)
  Inductive takes : bool -> val -> value -> prim -> Prop :=
  (* the default of the schema itself, not of what it refers to *)
  | tk_none rd s : field_of s (lit "default") = Some M_SpecVal.VNone -> takes rd s VNull PNone
  | tk_default rd s d x r : field_of s (lit "default") = Some d -> same_value d x -> x <> VNull -> takes rd s x r -> takes rd s VNull r
  (* all but arrays and objects: as parameters are (C66) *)
  | tk_plain rd s e x r : x <> VNull -> stands s e -> ~ of_type e "array" -> becomes e x r -> takes rd s x r
  | tk_array rd s e x i l l' rs : stands s e -> of_type e "array" -> field_of e (lit "items") = Some i -> parts x l ->
      (switched_on e "uniqueItems" /\ S_Prim.firsts [] l l' \/ ~ switched_on e "uniqueItems" /\ l' = l) ->
      Forall2 (takes true i) l' rs -> sized e "minItems" "maxItems" (length rs) -> takes rd s x (PArray (lit "csv") rs)
  (* nothing is said about values, and nothing is made *)
  | tk_silent rd s e x : x <> VNull -> stands s e -> silent e -> takes rd s x PNone
  | tk_object rd s e d m : stands s e -> object_decl e ->
      (* given properties; readOnly ones are not sent *)
      (forall k p w, has_property e k p -> sget k d = Some w ->
         (rd = false -> ~ switched_on p "readOnly") /\ exists y, takes true p w y /\ (sget k m = Some y \/ discriminates e k)) ->
      (* properties that are not given: those with a default are there *)
      (forall k p w x, has_property e k p -> sget k d = None -> says p (lit "default") -> field_of p (lit "default") = Some w -> same_value w x ->
         exists y, takes true p x y /\ (sget k m = Some y \/ discriminates e k)) ->
      (forall k p, has_property e k p -> sget k d = None -> ~ says p (lit "default") -> sget k m = None \/ discriminates e k) ->
      (* what is given besides *)
      (forall k w, (forall p, ~ has_property e k p) -> sget k d = Some w -> anything e -> sget k m = Some (PRaw w)) ->
      (forall k w a, (forall p, ~ has_property e k p) -> sget k d = Some w -> more e a -> exists y, takes true a w y /\ sget k m = Some y) ->
      (forall k w, (forall p, ~ has_property e k p) -> sget k d = Some w -> nothing e -> sget k m = None \/ discriminates e k) ->
      (* nothing else *)
      (forall k, (forall p, ~ has_property e k p) -> sget k d = None -> sget k m = None \/ discriminates e k) ->
      (* the name of the schema *)
      (forall k y, discriminates e k -> (exists p, has_property e k p) \/ sget k d = None \/ nothing e -> named e y -> sget k m = Some y) ->
      (* required properties are declared, and given or have a default *)
      (forall k, requires e k -> exists p, has_property e k p /\ (sget k d <> None \/ says p (lit "default"))) ->
      takes rd s (VDict d) (PModel m).

  (** *** Objects composed by allOf: [ss] are the schema and its parts.  Each property is as the
      first one of them that declares it says; what nobody declares is kept as it is if one of
      them takes anything, and is otherwise as the last one says that says something. *)
  Inductive declared_by (k : str) : list val -> val -> Prop :=
  | db_here s ss p : has_property s k p -> declared_by k (s :: ss) p
  | db_later s ss p : (forall q, ~ has_property s k q) -> declared_by k ss p -> declared_by k (s :: ss) p.
  Inductive default_by (k : str) : list val -> val -> Prop :=
  | df_here s ss p : has_property s k p -> says p (lit "default") -> default_by k (s :: ss) p
  | df_later s ss p : (forall q, has_property s k q -> ~ says q (lit "default")) -> default_by k ss p -> default_by k (s :: ss) p.
  Inductive more_by : list val -> val -> Prop :=
  | mb_last s ss a : more s a -> (forall t b, In t ss -> ~ more t b) -> more_by (s :: ss) a
  | mb_later s ss a : more_by ss a -> more_by (s :: ss) a.
  Record joined (ss : list val) (d : sdict value) (m : sdict prim) : Prop := {
    jo_given : forall k w p, sget k d = Some w -> declared_by k ss p -> exists y, takes true p w y /\ sget k m = Some y;
    jo_default : forall k p, sget k d = None -> default_by k ss p -> exists x w y, field_of p (lit "default") = Some x /\ same_value x w /\ takes true p w y /\ sget k m = Some y;
    jo_missing : forall k, sget k d = None -> (forall p, ~ default_by k ss p) -> sget k m = None;
    jo_any : forall k w, sget k d = Some w -> (forall p, ~ declared_by k ss p) -> (exists s, In s ss /\ anything s) -> sget k m = Some (PRaw w);
    jo_more : forall k w a, sget k d = Some w -> (forall p, ~ declared_by k ss p) -> (forall s, In s ss -> ~ anything s) -> more_by ss a -> exists y, takes true a w y /\ sget k m = Some y;
    jo_nothing : forall k w, sget k d = Some w -> (forall p, ~ declared_by k ss p) -> (forall s, In s ss -> nothing s) -> sget k m = None }.

  (** The schemas that a value may meet *)
  Definition next (e p : val) : Prop := (field_of e (lit "items") = Some p /\ is_obj p) \/ (exists k, has_property e k p) \/ more e p.
  Inductive involves : val -> val -> Prop :=
  | in_itself s e : stands s e -> involves s e
  | in_next s e p t : stands s e -> next e p -> involves p t -> involves s t.
  (** None of them is composed by allOf, and arrays say what their items are. *)
  Definition simple (s : val) : Prop :=
    forall e, involves s e -> (forall l, field_of e (lit "allOf") = Some (M_SpecVal.VList l) -> l = []) /\
      (of_type e "array" -> exists i, field_of e (lit "items") = Some i /\ is_obj i).
End Takes.

(** ** Schemas in order: the fields have the types that the specification gives them. *)
Record schema_order (s : val) : Prop := {
  so_name : exists v, internal_of s (lit "name") = Some v /\ text_or_none v;
  so_texts : Forall (field_ok s text_or_none) ["type"; "format"; "discriminator"]%string;
  so_numbers : Forall (field_ok s number_or_none) ["maximum"; "minimum"; "multipleOf"]%string;
  so_sizes : Forall (field_ok s size_or_none) ["maxLength"; "minLength"; "maxItems"; "minItems"]%string;
  so_flags : Forall (field_ok s (fun _ => True)) ["exclusiveMaximum"; "exclusiveMinimum"; "uniqueItems"; "readOnly"]%string;
  so_enum : field_ok s list_or_none "enum";
  so_default : field_ok s (fun d => exists x, same_value d x /\ proper x) "default";
  so_required : field_ok s (fun v => v = M_SpecVal.VNone \/ exists l, v = M_SpecVal.VList (map M_SpecVal.VStr l)) "required";
  so_ref : field_ok s text_or_none "$ref";
  so_items : field_ok s (fun v => v = M_SpecVal.VNone \/ is_obj v) "items";
  so_allof : field_ok s list_or_none "allOf";
  so_properties : field_ok s (fun v => exists d, v = M_SpecVal.VDict d) "properties";
  so_additional : field_ok s (fun v => v = M_SpecVal.VNone \/ (exists b, v = M_SpecVal.VBool b) \/ is_obj v) "additionalProperties" }.
(** A schema that the application with the document [root] at [u] knows: it refers to schemas of
    the document only, and it and the schemas in it are in order. *)
Record known (abs_uri win_uri : str -> str) (u : str) (root v : val) : Prop := {
  kn_shape : shaped (Of CSchema) v;
  kn_refs : forall ts s r, schema_at v ts s -> field_of s (lit "$ref") = Some (M_SpecVal.VStr r) -> r <> [] -> exists ts' s', S_Cycles.points abs_uri win_uri u root r ts' s';
  kn_order : forall ts s, schema_at v ts s -> schema_order s }.
(** Moreover it is simple. *)
Record belongs (abs_uri win_uri : str -> str) (u : str) (root v : val) : Prop := {
  fi_known : known abs_uri win_uri u root v;
  fi_simple : simple abs_uri win_uri u root v }.
