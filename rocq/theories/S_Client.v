(** Independent specifications for headers, credentials and schemes. *)
From Verif Require Import PyBase M_Base64 S_Base64 M_Client.

Definition same_name (a b : str) : Prop := lower a = lower b.
Definition same_nameb (a b : str) : bool := str_eqb (lower a) (lower b).

(** What a case-insensitive header table holds for name [k] after a history, given
    newest first: the most recent event that concerns this name decides. *)
Fixpoint latest {V} (newest_first : list (cid_op V)) (k : str) : option (str * V) :=
  match newest_first with
  | [] => None
  | CSet k' v :: h => if same_nameb k k' then Some (k', v) else latest h k
  | CDel k' :: h => if same_nameb k k' then None else latest h k
  end.

(** Sub-list of the pairs with (without) a given name. *)
Definition named {V} (n : str) (l : list (str * V)) :=
  filter (fun p => str_eqb (fst p) n) l.
Definition others {V} (n : str) (l : list (str * V)) :=
  filter (fun p => negb (str_eqb (fst p) n)) l.

(** All names an operation requires, in order. *)
Definition req_names (security : option (list (list str))) : list str :=
  match security with Some l => concat l | None => [] end.
(** [c] is the credential that the required [names] put under key [n] in this place
    (header or query): the last required name that is configured so. *)
Definition last_configured (info : sec_info) (place : bool) (names : list str)
  (n : str) (c : cred) : Prop :=
  exists a k b, names = a ++ k :: b /\ sget k info = Some (place, (n, c)) /\
    forall k' c', In k' b -> sget k' info <> Some (place, (n, c')).
Definition not_configured (info : sec_info) (place : bool) (names : list str) (n : str) : Prop :=
  forall k c, In k names -> sget k info <> Some (place, (n, c)).

(** Values given to one header name, in order. *)
Definition values_of (n : str) (l : list (str * str)) : list str :=
  map snd (named n l).
(** Names in order of first occurrence. *)
Fixpoint firsts (l : list str) : list str :=
  match l with
  | [] => []
  | x :: l' => x :: filter (fun y => negb (str_eqb y x)) (firsts l')
  end.

(** Where a credential goes (OpenAPI 2.0 security schemes as pyswagger documents them):
    header?, key and value. *)
Inductive places (defs : sdict sec_def) (name : str) : cred -> bool -> str -> cred -> Prop :=
| pl_basic user pass n i enc :
    sget name defs = Some (SecDef (Some (lit "basic")) n i) ->
    b64_read b64_std enc = user ++ lit ":" ++ pass ->
    (forall c, In c enc -> In c b64_std \/ c = "="%char) ->
    Nat.modulo (length enc) 4 = 0 ->
    places defs name (CPair user pass) true (lit "Authorization") (CTok (lit "Basic " ++ enc))
| pl_key_header c n :
    sget name defs = Some (SecDef (Some (lit "apiKey")) n (Some (lit "header"))) ->
    places defs name c true n c
| pl_key_query c n i :
    sget name defs = Some (SecDef (Some (lit "apiKey")) n i) -> i <> Some (lit "header") ->
    places defs name c false n c
| pl_oauth2 c n i :
    sget name defs = Some (SecDef (Some (lit "oauth2")) n i) ->
    places defs name c true (lit "access_token") c.

(** The last element of a list. *)
Definition last_option {A} (l : list A) : option A :=
  match rev l with x :: _ => Some x | [] => None end.
