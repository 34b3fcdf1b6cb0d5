(** Specifications for documents, references and the objects they lead to. *)
From Verif Require Import PyBase PyJson S_JsonPtr M_Url M_SpecVal M_SpecTree S_Parse M_App.
Close Scope Q_scope.

(** ** Normalised references *)
(** The classes whose objects may be given by a reference. *)
Definition ref_class (c : cls) : Prop := In c [CSchema; CParameter; CResponse; CPathItem].
(** What becomes of the content of "$ref" in the document at [url]. *)
Inductive completed_ref (url : str) : val -> val -> Prop :=
| cr_none : completed_ref url VNone VNone
| cr_text s t : normalize_jr s (Some url) = Ok t -> completed_ref url (VStr s) (VStr t).
Definition not_container (v : val) : Prop :=
  match v with VList _ | VDict _ | VObj _ _ _ => False | _ => True end.
(** The same value, but for the references of all objects inside. *)
Inductive normal (url : str) : val -> val -> Prop :=
| nm_plain v : not_container v -> normal url v v
| nm_list l m : Forall2 (normal url) l m -> normal url (VList l) (VList m)
| nm_dict d e : Forall2 (fun kx ky => fst kx = fst ky /\ normal url (snd kx) (snd ky)) d e -> normal url (VDict d) (VDict e)
| nm_obj h h' fs fs' ints :
    h_cls h' = h_cls h -> h_place h' = h_place h -> h_parent h' = h_parent h ->
    (forall k, k <> lit "$ref" -> In k (h_keys h') <-> In k (h_keys h)) ->
    Forall2 (fun kx ky => fst kx = fst ky /\ normal_field url (h_cls h) (fst kx) (snd kx) (snd ky)) fs fs' ->
    normal url (VObj h fs ints) (VObj h' fs' ints)
with normal_field (url : str) : cls -> str -> val -> val -> Prop :=
| nf_ref c x y : ref_class c -> completed_ref url x y -> normal_field url c (lit "$ref") x y
| nf_other c n x y : ~ (ref_class c /\ n = lit "$ref") -> normal url x y -> normal_field url c n x y.
(** A reference that cannot be normalised: no text, or none that could be read. *)
Definition bad_ref (url : str) (v : val) (e : exn) : Prop :=
  match v with
  | VNone => False
  | VStr s => normalize_jr s (Some url) = Err e
  | _ => e = AttributeError
  end.

(** ** The cache *)
Definition is_prefix (p s : str) : Prop := exists r, s = p ++ r.
(** The document at [url] is there as a whole. *)
Definition whole (a : app) (url : str) (o : obj) : Prop := sget url (a_objs a) = Some (Whole o).
(** The part at the pointer [k] of the document at [url] is there. *)
Definition part_at (a : app) (url k : str) (o : obj) : Prop :=
  exists d, sget url (a_objs a) = Some (Parts d) /\ sget k d = Some o.
(** Nothing of the document is there that the pointer [jp] could lead into. *)
Definition unknown (a : app) (url jp : str) : Prop :=
  (forall o, ~ whole a url o) /\ (forall k o, part_at a url k o -> ~ is_prefix k jp).
(** Values that are given back by [resolve] *)
Definition returned (v : val) : Prop :=
  match v with VNone | VFloat _ => False | _ => True end.
(** What the cache of an application looks like at any time. *)
Record sound (a : app) : Prop := {
  so_local : sget [] (a_objs a) = None;
  so_whole : forall url n v, whole a url (n, v) -> v <> VNone /\ n < a_loads a;
  so_part : forall url k n v, part_at a url k (n, v) -> v <> VNone /\ n < a_loads a;
  so_keys : forall url d, sget url (a_objs a) = Some (Parts d) -> NoDup (map fst d) }.

(** ** Documents that refer to each other *)
Section Documents.
  Context (abs_uri win_uri : str -> str) (fetch : str -> res json).
  Context {old : Type} (parse_old : str -> json -> res old) (upgrade : old -> res val).
  (** What is found at the reference [j] mentions references of [R] only. *)
  Definition refers_into (R : list str) (j : str) : Prop :=
    forall url jp o v v' ts h fs ints r, jr_split abs_uri win_uri j = Ok (url, jp) ->
      ((exists p ver, load_obj fetch parse_old j p = Ok (New o, ver) /\ v = o) \/
       (exists p ver w, load_obj fetch parse_old j p = Ok (Old w, ver) /\ upgrade w = Ok v)) ->
      normal url v v' -> reach [] v' ts (VObj h fs ints) -> h_cls h = CSchema -> sget (lit "$ref") fs = Some (VStr r) -> r <> [] -> In r R.
  (** No two different references of [R] into one document are such that the text of one
      pointer continues the text of the other. *)
  Definition apart_refs (R : list str) : Prop :=
    forall i j url p q, In i R -> In j R -> jr_split abs_uri win_uri i = Ok (url, p) -> jr_split abs_uri win_uri j = Ok (url, q) ->
      is_prefix p q -> p = q.
  (** All parts in the cache came by references of [R]. *)
  Definition cached_by (R : list str) (a : app) : Prop :=
    forall url k o, part_at a url k o -> exists j, In j R /\ jr_split abs_uri win_uri j = Ok (url, k).
End Documents.
