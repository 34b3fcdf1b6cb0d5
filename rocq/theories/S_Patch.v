(** Specification of completing operations from their document. *)
From Verif Require Import PyBase PyJson M_SpecVal S_Parse S_SpecTree S_Merge.
Close Scope Q_scope.

Definition internal_of (v : val) (n : str) : option val := match v with VObj _ _ ints => sget n ints | _ => None end.
Definition attr_of (v : val) (n : str) : option val := match field_of v n with Some x => Some x | None => internal_of v n end.

(** ** Values that are the document's unless an operation has its own *)
Definition no_elements (v : val) : Prop := v = VList [] \/ v = VDict [] \/ v = VStr [].
Definition inherited (own doc x : val) : Prop := (no_elements own /\ x = doc) \/ (~ no_elements own /\ x = own).
Definition inherited_security (own root x : val) : Prop := (own = VNone /\ attr_of root (lit "security") = Some x) \/ (own <> VNone /\ x = own).

(** ** Parameters *)
(** The parameter that is meant by a parameter: what following its reference has made
    ("final"), if that was done. *)
Inductive meant : val -> val -> Prop :=
| meant_final p f : attr_of p (lit "final") = Some f -> ~ empty_value f -> meant p f
| meant_itself p : (forall f, attr_of p (lit "final") = Some f -> empty_value f) -> meant p p.
Definition called (p n : val) : Prop := exists q, meant p q /\ attr_of q (lit "name") = Some n.
Definition same_name (p q : val) : Prop := exists a b, called p a /\ called q b /\ equal_elems a b.
(** [chosen l ps more]: those of [ps] that have another name than all of [l] and those
    chosen before *)
Inductive chosen : list val -> list val -> list val -> Prop :=
| ch_end l : chosen l [] []
| ch_skip l p ps more q : In q l -> same_name p q -> chosen l ps more -> chosen l (p :: ps) more
| ch_take l p ps more : (forall q, In q l -> ~ same_name p q) -> chosen (l ++ [p]) ps more -> chosen l (p :: ps) (p :: more).
(** The parameters [x] of an operation that has [own], in a path item that has [shared] *)
Inductive with_shared (own shared x : val) : Prop :=
| ws_none : empty_value own -> x = shared -> with_shared own shared x
| ws_both l ps more : own = VList l -> l <> [] -> shared = VList ps -> chosen l ps more -> x = VList (l ++ more) -> with_shared own shared x.

(** ** URLs *)
(** The document's host, else that of the document's URL, else "localhost" *)
Inductive host_is (root : val) (netloc : str) : str -> Prop :=
| host_own h : field_of root (lit "host") = Some (VStr h) -> h <> [] -> host_is root netloc h
| host_url v : field_of root (lit "host") = Some v -> empty_value v -> netloc <> [] -> host_is root netloc netloc
| host_none v : field_of root (lit "host") = Some v -> empty_value v -> netloc = [] -> host_is root netloc (lit "localhost").
Inductive base_is (root : val) : str -> Prop :=
| base_own b : field_of root (lit "basePath") = Some (VStr b) -> base_is root b
| base_none v : field_of root (lit "basePath") = Some v -> empty_value v -> base_is root [].
(** A path after a host begins with a slash *)
Definition with_slash (p : str) : str := match p with [] => [] | "/"%char :: _ => p | _ => "/"%char :: p end.

(** ** The rest *)
(** The same value, up to what is inside: the fields of an object, the elements of a list or dict. *)
Inductive outside_same : val -> val -> Prop :=
| os_plain v : ~ is_obj v -> (forall l, v <> VList l) -> (forall d, v <> VDict d) -> outside_same v v
| os_list l m : length l = length m -> outside_same (VList l) (VList m)
| os_dict d e : map fst d = map fst e -> outside_same (VDict d) (VDict e)
| os_obj h g fs es ints jnts : h_cls h = h_cls g -> h_place h = h_place g -> h_parent h = h_parent g -> map fst fs = map fst es ->
    (forall n, ~ (h_cls h = COperation /\ In n (map lit ["method"; "url"; "path"; "base_path"; "cached_schemes"]%string)) ->
               ~ (h_cls h = CSchema /\ n = lit "name") -> sget n jnts = sget n ints) ->
    outside_same (VObj h fs ints) (VObj g es jnts).
Definition op_fields : list str := map lit ["consumes"; "produces"; "security"; "parameters"]%string.

(** ** Where operations are *)
Definition of_class (c : cls) (v : val) : Prop := exists h fs ints, v = VObj h fs ints /\ h_cls h = c.
Definition path_item (root : val) (k : str) (p : val) : Prop :=
  exists ps, field_of root (lit "paths") = Some (VDict ps) /\ sget k ps = Some p /\ of_class CPathItem p.
Definition operation (p : val) (m : str) (o : val) : Prop := field_of p m = Some o /\ of_class COperation o.
(** The schemes of a document loaded from a URL *)
Inductive doc_schemes (scheme : str) (root : val) : val -> Prop :=
| ds_own s : field_of root (lit "schemes") = Some s -> ~ empty_value s -> doc_schemes scheme root s
| ds_url s : field_of root (lit "schemes") = Some s -> empty_value s -> scheme <> [] -> doc_schemes scheme root (VList [VStr scheme])
| ds_none s : field_of root (lit "schemes") = Some s -> empty_value s -> scheme = [] -> doc_schemes scheme root (VList []).

(** ** Documents that can be completed *)
Definition sized (v : val) : Prop := (exists l, v = VList l) \/ (exists d, v = VDict d) \/ exists s, v = VStr s.
Definition text_or_empty (v : val) : Prop := empty_value v \/ exists s, v = VStr s.
Definition named_list (v : val) : Prop := exists l, v = VList l /\ Forall (fun p => exists n, called p n) l.
Definition has (v : val) (n : string) (P : val -> Prop) : Prop := exists x, field_of v (lit n) = Some x /\ P x.
Definition ready (root : val) : Prop :=
  has root "host" text_or_empty /\ has root "basePath" text_or_empty /\ has root "schemes" (fun s => empty_value s \/ sized s) /\
  forall k pi, path_item root k pi -> has pi "parameters" named_list /\
    forall m op, operation pi m op -> has op "parameters" named_list /\ has op "consumes" sized /\ has op "produces" sized /\ has op "schemes" sized.
