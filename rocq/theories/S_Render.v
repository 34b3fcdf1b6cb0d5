(** What it means for a value to satisfy a schema, keyword by keyword, and for which
    schemas the generator can be relied on. *)
From Coq Require Import QArith.
From Verif Require Import PyBase M_Graph S_Graph M_Time M_Prim S_Prim M_Render.
Close Scope Q_scope.
Open Scope nat_scope.

(** [q] is a whole multiple of [m]. *)
Definition divides (m q : Q) : Prop := exists k : Z, (q == inject_Z k * m)%Q.
(** enum: one of the listed values, if any is listed. *)
Definition listed (s : schema) (v : value) : Prop := s_enum s = [] \/ In v (s_enum s).
(** Formats that mean nothing special. *)
Definition plain_text (s : schema) : Prop :=
  typed s "string" /\ (s_format s = None \/ format_in s [""; "password"]%string).
Definition text_format (s : schema) (f : string) : Prop := typed s "string" /\ format_in s [f].
(** A value that stands for a file: something to read, or the name of a file. *)
Definition file_value (v : value) : Prop :=
  exists d, v = VDict d /\
    ((exists x, sget (lit "data") d = Some x /\ x <> VNull) \/
     (exists x, sget (lit "filename") d = Some x /\ v_eqb x (VStr []) = false)).

(** The numbers a "number" schema may be given. *)
Definition number_value (v : value) (q : Q) : Prop :=
  v = VFloat q \/ exists z, v = VInt z /\ q = inject_Z z.
(** The schema that describes [o]: where its references end, or the composed schema kept
    for that one. *)
Definition meant (h : list schema) (xs : nat -> more) (o t : nat) : Prop :=
  exists u, target h o u /\ t = match x_final (xs u) with Some f => f | None => u end.

Section Conforms.
  Context (email_ok : str -> bool) (h : list schema) (xs : nat -> more).
  Notation target h := (meant h xs).
  Inductive conforms : nat -> value -> Prop :=
  | conf_integer o t z : target h o t -> typed (sch h t) "integer" ->
      listed (sch h t) (VInt z) -> within (sch h t) (inject_Z z) -> multiple (sch h t) (inject_Z z) ->
      conforms o (VInt z)
  | conf_number o t v q : target h o t -> number_kind (sch h t) -> number_value v q ->
      listed (sch h t) v -> within (sch h t) q -> multiple (sch h t) q ->
      conforms o v
  | conf_text o t s : target h o t -> plain_text (sch h t) -> text_ok (sch h t) s -> conforms o (VStr s)
  | conf_bool o t b : target h o t -> typed (sch h t) "boolean" -> listed (sch h t) (VBool b) -> conforms o (VBool b)
  | conf_uuid o t z : target h o t -> text_format (sch h t) "uuid" -> conforms o (VUuid z)
  | conf_byte o t s : target h o t -> text_format (sch h t) "byte" -> conforms o (VBytes s)
  | conf_byte_text o t s : target h o t -> text_format (sch h t) "byte" -> listed (sch h t) (VStr s) -> conforms o (VStr s)
  | conf_date o t y m d : target h o t -> text_format (sch h t) "date" -> conforms o (VDate y m d)
  | conf_datetime o t d : target h o t -> text_format (sch h t) "date-time" -> conforms o (VDatetime d)
  | conf_email o t s : target h o t -> text_format (sch h t) "email" -> text_ok (sch h t) s -> email_ok s = true -> s <> [] ->
      conforms o (VStr s)
  | conf_file o t v : target h o t -> typed (sch h t) "file" -> file_value v -> conforms o v
  | conf_array o t it l : target h o t -> typed (sch h t) "array" -> s_items (sch h t) = Some it ->
      Forall (conforms it) l -> count_ok (sch h t) (length l) ->
      (s_unique (sch h t) = true -> firsts [] l l) ->
      conforms o (VList l)
  | conf_empty o t : target h o t -> typed (sch h t) "array" -> count_ok (sch h t) 0 -> conforms o (VList [])
  | conf_object o t d : target h o t -> typed (sch h t) "object" -> s_full (sch h t) = true ->
      NoDup (map fst d) ->
      (forall k, In k (s_required (sch h t)) -> smem k d = true) ->
      (forall k p v, sget k (s_props (sch h t)) = Some p -> sget k d = Some v -> conforms p v) ->
      (forall k v, sget k (s_props (sch h t)) = None -> sget k d = Some v ->
         exists a, s_addp (sch h t) = ASchema a /\ conforms a v) ->
      conforms o (VDict d).
End Conforms.

(** The schema positions met when [o] is rendered. *)
Inductive visits (h : list schema) (xs : nat -> more) : nat -> nat -> Prop :=
| visit_here o : visits h xs o o
| visit_prop o t k p u : meant h xs o t -> sget k (s_props (sch h t)) = Some p -> visits h xs p u -> visits h xs o u
| visit_items o t it u : meant h xs o t -> s_items (sch h t) = Some it -> visits h xs it u -> visits h xs o u
| visit_extra o t a u : meant h xs o t -> s_addp (sch h t) = ASchema a -> visits h xs a u -> visits h xs o u.

(** The shape of a generated e-mail address: 1 to 4 names joined by dots, "@", and two
    more names joined by a dot. *)
Definition letter (c : ascii) : Prop := In c ascii_letters.
Definition name_char (c : ascii) : Prop := In c name_chars.
Definition word (lo hi : nat) (s : str) : Prop :=
  exists a m, s = a :: m /\ letter a /\ Forall name_char m /\ lo <= length m <= hi.
Definition mailbox (s : str) : Prop :=
  exists ns hs rs, s = join (lit ".") ns ++ lit "@" ++ hs ++ lit "." ++ rs /\
    1 <= length ns <= 4 /\ Forall (word 2 31) ns /\ word 2 100 hs /\ word 2 30 rs.

(** ** The schemas for which everything rendered conforms *)
(** Limits for numbers when the schema gives none (render.py:20-23, 45-46). *)
Definition top (s : schema) : Q := match s_max s with Some q => q | None => float_max end.
Definition bottom (s : schema) : Q := match s_min s with Some q => q | None => float_min end.
(** A bound of zero is mistaken for no bound. *)
Definition no_zero_bound (s : schema) : Prop :=
  (forall q, s_max s = Some q -> ~ (q == 0)%Q) /\ (forall q, s_min s = Some q -> ~ (q == 0)%Q).
Definition nonneg (z : option Z) : Prop := forall n, z = Some n -> (0 <= n)%Z.
Definition int_sound (s : schema) : Prop :=
  no_zero_bound s /\
  (* rounding down to a multiple must not cross the minimum *)
  (forall m, s_multiple s = Some m -> exists k, (m == inject_Z k)%Q /\ (0 < k)%Z /\
     forall q, s_min s = Some q -> divides m (if s_exmin s then q + 1 else q)).
Definition num_sound (s : schema) : Prop :=
  no_zero_bound s /\
  (bottom s <= top s)%Q /\ (s_exmax s = true -> (bottom s < top s)%Q) /\
  (* rounding towards zero must not cross a bound *)
  (forall m, s_multiple s = Some m -> ~ (m == 0)%Q ->
     (forall q, s_min s = Some q -> (q <= 0)%Q \/ divides m q) /\
     (forall q, s_max s = Some q -> (0 < q)%Q \/ (s_exmax s = false /\ divides m q))).
Section Sound.
  Context (email_ok : str -> bool) (h : list schema) (xs : nat -> more) (opt : options).
  Notation conforms := (conforms email_ok h xs).
  (** Each listed value satisfies the other keywords and counts as true. *)
  Definition enum_sound (t : nat) : Prop :=
    forall e, In e (s_enum (sch h t)) -> truthy e = true /\
      (typed (sch h t) "integer" -> exists z, e = VInt z /\ within (sch h t) (inject_Z z) /\ multiple (sch h t) (inject_Z z)) /\
      (number_kind (sch h t) -> exists q, number_value e q /\ within (sch h t) q /\ multiple (sch h t) q) /\
      (typed (sch h t) "string" -> exists s, e = VStr s /\
         (plain_text (sch h t) -> text_ok (sch h t) s) /\
         (text_format (sch h t) "email" -> text_ok (sch h t) s /\ email_ok s = true)) /\
      (typed (sch h t) "boolean" -> e = VBool true).
  Definition sound (t : nat) : Prop :=
    enum_sound t /\
    (typed (sch h t) "integer" -> s_enum (sch h t) = [] -> int_sound (sch h t)) /\
    (number_kind (sch h t) -> s_enum (sch h t) = [] -> num_sound (sch h t)) /\
    (typed (sch h t) "string" -> nonneg (s_maxlen (sch h t)) /\
       (text_format (sch h t) "email" -> s_enum (sch h t) = [] -> s_maxlen (sch h t) = None /\ s_minlen (sch h t) = None)) /\
    (typed (sch h t) "file" -> Forall file_value (files opt)) /\
    (typed (sch h t) "array" -> nonneg (s_maxitems (sch h t)) /\ s_unique (sch h t) = false) /\
    (typed (sch h t) "object" ->
       NoDup (map fst (s_props (sch h t))) /\
       (forall k, In k (s_required (sch h t)) -> smem k (s_props (sch h t)) = true) /\
       (forall k p v, sget k (s_props (sch h t)) = Some p -> sget k (object_template opt) = Some v -> conforms p v) /\
       (* a made-up property name must not be that of a declared property left out *)
       (forall k p a, s_addp (sch h t) = ASchema a -> sget k (s_props (sch h t)) = Some p ->
          In k (s_required (sch h t)) \/ smem k (object_template opt) = true \/ max_property opt = true \/
          p = a \/ exists c, In c k /\ ~ letter c)).
  Definition all_sound (o : nat) : Prop := forall p t, visits h xs o p -> meant h xs p t -> sound t.
End Sound.

(** The schemas for which the primitive factory takes what conforms: nothing composed, and
    the defaults of declared properties are themselves fine ([accepts]). *)
Definition takes (h : list schema) (xs : nat -> more) (accepts : nat -> value -> Prop) (t : nat) : Prop :=
  x_final (xs t) = None /\ members (sch h t) = [] /\
  NoDup (map fst (s_props (sch h t))) /\
  (forall k, In k (s_required (sch h t)) -> smem k (s_props (sch h t)) = true) /\
  (s_full (sch h t) = true -> s_name (sch h t) <> None) /\
  (forall k p, sget k (s_props (sch h t)) = Some p -> s_default_set (sch h p) = true -> accepts p (s_default (sch h p))).
Definition all_take (h : list schema) (xs : nat -> more) (accepts : nat -> value -> Prop) (o : nat) : Prop :=
  forall p t, visits h xs o p -> target h p t -> takes h xs accepts t.

(** ** Schemas that can always be rendered: no empty range, no schema without a generator,
    no retrying and no endless nesting. *)
Section Ready.
  Context (date_at : Q -> res (Z * Z * Z)) (datetime_at : Q -> res datetime) (h : list schema) (xs : nat -> more) (opt : options).
  (** A limit: [d] if none is given. *)
  Definition limit {A} (x : option A) (d : A) : A := match x with Some q => q | None => d end.
  Definition whole (q : Q) : Prop := exists z, (q == inject_Z z)%Q.
  Definition int_ready (s : schema) : Prop :=
    no_zero_bound s /\
    let big := match s_format s with None => true | Some f => str_eqb f (lit "int32") end in
    let hi := limit (s_max s) (inject_Z (if big then 2 ^ 30 else 2 ^ 62)) in
    let lo := limit (s_min s) (inject_Z (if big then - 2 ^ 30 else - 2 ^ 62)) in
    whole lo /\ whole hi /\ ((if s_exmin s then lo + 1 else lo) <= (if s_exmax s then hi - 1 else hi))%Q.
  Inductive ready : nat -> Prop :=
  | ready_integer o t : meant h xs o t -> typed (sch h t) "integer" ->
      s_format (sch h t) = None \/ format_in (sch h t) [""; "int32"; "int64"]%string -> int_ready (sch h t) -> ready o
  | ready_number o t : meant h xs o t -> typed (sch h t) "number" ->
      s_format (sch h t) = None \/ format_in (sch h t) [""; "float"; "double"]%string -> s_exmin (sch h t) = false -> ready o
  | ready_text o t : meant h xs o t -> plain_text (sch h t) ->
      (forall n, s_minlen (sch h t) = Some n -> n <> 0%Z) -> (forall n, s_maxlen (sch h t) = Some n -> n <> 0%Z) ->
      (limit (s_minlen (sch h t)) 0 <= limit (s_maxlen (sch h t)) (max_str_length opt))%Z -> ready o
  | ready_bool o t : meant h xs o t -> typed (sch h t) "boolean" ->
      s_format (sch h t) = None \/ format_in (sch h t) [""]%string -> ready o
  | ready_byte o t : meant h xs o t -> text_format (sch h t) "byte" -> (0 <= max_byte_length opt)%Z -> ready o
  | ready_uuid o t : meant h xs o t -> text_format (sch h t) "uuid" -> s_enum (sch h t) = [] -> ready o
  | ready_email o t : meant h xs o t -> text_format (sch h t) "email" -> ready o
  | ready_date o t : meant h xs o t -> text_format (sch h t) "date" -> s_enum (sch h t) = [] ->
      (forall q, exists d, date_at q = Ok d) -> ready o
  | ready_datetime o t : meant h xs o t -> text_format (sch h t) "date-time" -> s_enum (sch h t) = [] ->
      (forall q, exists d, datetime_at q = Ok d) -> ready o
  | ready_file o t : meant h xs o t -> typed (sch h t) "file" ->
      s_format (sch h t) = None \/ format_in (sch h t) [""]%string -> (0 <= max_file_length opt)%Z -> ready o
  | ready_array o t it : meant h xs o t -> typed (sch h t) "array" -> s_items (sch h t) = Some it -> ready it ->
      (forall n, s_minitems (sch h t) = Some n -> n <> 0%Z) -> (forall n, s_maxitems (sch h t) = Some n -> n <> 0%Z) ->
      (limit (s_minitems (sch h t)) 0 <= limit (s_maxitems (sch h t)) (max_array_length opt))%Z -> ready o
  | ready_object o t : meant h xs o t -> typed (sch h t) "object" -> s_full (sch h t) = true ->
      (forall k p, In (k, p) (s_props (sch h t)) -> ready p) ->
      (forall a, s_addp (sch h t) <> ASchema a) -> ready o.
  (** What a parameter is rendered from. *)
  Definition ready_param (p : rparam) : Prop :=
    if rp_body p then exists s, rp_schema p = Some s /\ ready s else ready (rp_self p).
End Ready.
(** The schema a parameter is rendered from. *)
Definition param_schema (p : rparam) (o : nat) : Prop := if rp_body p then rp_schema p = Some o else o = rp_self p.
