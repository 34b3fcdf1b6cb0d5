(** Specification of the primitive factory's behaviour, in terms of the schema's
    keywords only. *)
From Coq Require Import QArith.
From Verif Require Import PyBase M_Graph S_Graph M_Prim.
Close Scope Q_scope.
Open Scope nat_scope.

(** Following [$ref]s from [o] ends at [t]. *)
Definition target (h : list schema) (o t : nat) : Prop :=
  chain_to (fun x => s_ref (sch h x)) o t /\ s_ref (sch h t) = None.

(** ** Kinds of schema, by type and format *)
Definition typed (s : schema) (t : string) : Prop := s_type s = Some (lit t).
Definition format_in (s : schema) (l : list string) : Prop :=
  exists f, In f l /\ s_format s = Some (lit f).
Definition integer_kind (s : schema) : Prop :=
  typed s "integer" \/ (typed s "number" /\ format_in s ["int32"; "int64"]%string).
Definition number_kind (s : schema) : Prop :=
  typed s "number" /\ ~ format_in s ["int32"; "int64"]%string.
Definition text_kind (s : schema) : Prop :=
  typed s "string" /\
  ~ format_in s ["email"; "uuid"; "byte"; "binary"; "date"; "date-time"]%string.

(** ** Numeric keywords *)
Definition within (s : schema) (q : Q) : Prop :=
  (forall m, s_max s = Some m -> if s_exmax s then (q < m)%Q else (q <= m)%Q) /\
  (forall m, s_min s = Some m -> if s_exmin s then (m < q)%Q else (m <= q)%Q).
Definition multiple (s : schema) (q : Q) : Prop :=
  forall m, s_multiple s = Some m -> ~ (m == 0)%Q -> exists k : Z, (q == inject_Z k * m)%Q.

(** ** String keywords (0 counts as "not given" for the lengths) *)
Definition text_ok (s : schema) (t : str) : Prop :=
  (s_enum s = [] \/ In (VStr t) (s_enum s)) /\
  (forall n, s_maxlen s = Some n -> n <> 0%Z -> (Z.of_nat (length t) <= n)%Z) /\
  (forall n, s_minlen s = Some n -> n <> 0%Z -> (n <= Z.of_nat (length t))%Z).

(** ** Array keywords *)
Definition count_ok (s : schema) (n : nat) : Prop :=
  (forall k, s_minitems s = Some k -> k <> 0%Z -> (k <= Z.of_nat n)%Z) /\
  (forall k, s_maxitems s = Some k -> k <> 0%Z -> (Z.of_nat n <= k)%Z).
(** [firsts seen l l']: [l'] keeps of [l], in order, the elements equal to no element of
    [seen] and to no element kept before. *)
Inductive firsts : list value -> list value -> list value -> Prop :=
| firsts_nil seen : firsts seen [] []
| firsts_keep seen e l l' :
    (forall y, In y seen -> v_eqb e y = false) -> firsts (seen ++ [e]) l l' -> firsts seen (e :: l) (e :: l')
| firsts_drop seen e l l' :
    (exists y, In y seen /\ v_eqb e y = true) -> firsts seen l l' -> firsts seen (e :: l) l'.
(** The element texts are the pieces between separators. *)
Definition sep_of (fmt : string) : option string :=
  match fmt with
  | "csv"%string => Some ","%string | "ssv"%string => Some " "%string
  | "tsv"%string => Some (String "009" "") | "pipes"%string => Some "|"%string
  | _ => None
  end.

(** The allOf members of a schema (only Schema Objects have any). *)
Definition members (s : schema) : list nat := if s_full s then s_allof s else [].
(** Every allOf member leads to a schema that satisfies [P]. *)
Definition each_member (h : list schema) (s : schema) (P : schema -> Prop) : Prop :=
  forall a, In a (members s) -> exists a', target h a a' /\ P (sch h a').
(** The value [produce] works on: the default replaces None. *)
Definition effective (h : list schema) (o : nat) (v : value) : value :=
  match v with VNull => s_default (sch h o) | _ => v end.

(** ** Object schemas *)
Definition allows_extra (a : addp) : bool := match a with ANone | ABool false => false | _ => true end.
(** type "object", or no type but properties or additionalProperties (true by default). *)
Definition object_kind (s : schema) : Prop :=
  s_full s = true /\
  (typed s "object" \/
   ((s_type s = None \/ s_type s = Some []) /\ (s_props s <> [] \/ allows_extra (s_addp s) = true))).
Section Object.
  (** [conv p v x]: converting the value [v] by the schema [p] gives [x]. *)
  Context (conv : nat -> value -> prim -> Prop) (h : list schema).
  (** Where property [k] of an object made from [d] comes from, when [k] is not the
      discriminator. *)
  Definition property (s : schema) (d : sdict value) (k : str) (r : option prim) : Prop :=
    match sget k (s_props s), sget k d with
    | Some p, Some v => exists x, conv p v x /\ r = Some x
    | Some p, None => if s_default_set (sch h p)
                      then exists x, conv p (s_default (sch h p)) x /\ r = Some x else r = None
    | None, Some v => match s_addp s with
                      | ABool true => r = Some (PRaw v)
                      | ASchema a => exists x, conv a v x /\ r = Some x
                      | _ => r = None
                      end
    | None, None => r = None
    end.
  (** The discriminator holds the schema's name, unless the value has such a key that is
      not a declared property and additional properties are allowed. *)
  Definition holds (s : schema) (d : sdict value) (k : str) (r : option prim) : Prop :=
    if match s_disc s with Some (c :: x) => str_eqb k (c :: x) | _ => false end then
      match sget k (s_props s), sget k d with
      | None, Some v => if allows_extra (s_addp s) then property s d k r
                        else r = Some (match s_name s with Some (Some x) => PStr x | _ => PNone end)
      | _, _ => r = Some (match s_name s with Some (Some x) => PStr x | _ => PNone end)
      end
    else property s d k r.
  (** The property is there without help from additionalProperties or the discriminator. *)
  Definition supplied (s : schema) (d : sdict value) (k : str) : Prop :=
    exists p, sget k (s_props s) = Some p /\ (smem k d = true \/ s_default_set (sch h p) = true).
End Object.

(** ** Objects composed with allOf: [ss] is the schema followed by its members, none of
    them with a discriminator. *)
(** The property schema of the first one that declares [k] (and has a default). *)
Fixpoint first_decl (ss : list schema) (k : str) : option nat :=
  match ss with
  | [] => None
  | s :: ss => match sget k (s_props s) with Some p => Some p | None => first_decl ss k end
  end.
Fixpoint first_default (h : list schema) (ss : list schema) (k : str) : option nat :=
  match ss with
  | [] => None
  | s :: ss => match sget k (s_props s) with
               | Some p => if s_default_set (sch h p) then Some p else first_default h ss k
               | None => first_default h ss k
               end
  end.
(** Some of them has additionalProperties true; the last additionalProperties schema. *)
Definition any_extra (ss : list schema) : Prop := exists s, In s ss /\ s_addp s = ABool true.
Definition extra_schema (ss : list schema) : option nat :=
  fold_left (fun acc s => match s_addp s with ASchema a => Some a | _ => acc end) ss None.
Section Composed.
  Context (conv : nat -> value -> prim -> Prop) (h : list schema).
  Definition composed (ss : list schema) (d : sdict value) (k : str) (r : option prim) : Prop :=
    match sget k d with
    | Some v =>
        match first_decl ss k with
        | Some p => exists x, conv p v x /\ r = Some x
        | None => (any_extra ss -> r = Some (PRaw v)) /\
                  (~ any_extra ss -> match extra_schema ss with
                                     | Some a => exists x, conv a v x /\ r = Some x
                                     | None => r = None
                                     end)
        end
    | None =>
        match first_default h ss k with
        | Some p => exists x, conv p (s_default (sch h p)) x /\ r = Some x
        | None => r = None
        end
    end.
End Composed.
