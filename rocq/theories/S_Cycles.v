(** Specification of circular references between the schemas of a document (C61). *)
From Coq Require Import Relations.
From Verif Require Import PyBase M_JsonPtr S_JsonPtr M_Url M_SpecVal M_Parse S_Parse S_Merge S_Patch M_App.

Definition schema_at (root : val) (ts : list str) (s : val) : Prop := reach [] root ts s /\ of_class CSchema s.
(** [y] is the schema [s], or inside it: in its properties, allOf, additionalProperties or items. *)
Inductive part_of : val -> val -> Prop :=
| part_here s : part_of s s
| part_property s d k x y : field_of s (lit "properties") = Some (VDict d) -> In (k, x) d -> part_of x y -> part_of s y
| part_member s l x y : field_of s (lit "allOf") = Some (VList l) -> In x l -> part_of x y -> part_of s y
| part_additional s x y : field_of s (lit "additionalProperties") = Some x -> is_obj x -> part_of x y -> part_of s y
| part_items s x y : field_of s (lit "items") = Some x -> is_obj x -> part_of x y -> part_of s y.
Definition mentions (s : val) (r : str) : Prop := exists y, part_of s y /\ field_of y (lit "$ref") = Some (VStr r) /\ r <> [].

Section Document.
  (** A document [root] that is known as [u]; the other two are about URLs of files. *)
  Context (abs_uri win_uri : str -> str) (u : str) (root : val).
  (** The reference leads to the schema at [ts]. *)
  Definition points (r : str) (ts : list str) (s : val) : Prop :=
    r <> [] /\ jr_split abs_uri win_uri r = Ok (u, rfc_pointer (lit "#") ts) /\ schema_at root ts s.
  (** All schemas of the document refer to schemas of the document. *)
  Definition self_contained : Prop :=
    forall ts s r, schema_at root ts s -> field_of s (lit "$ref") = Some (VStr r) -> r <> [] -> exists ts' s', points r ts' s'.
  (** The schema at the first place refers, in itself or inside, to that at the second. *)
  Definition refers (ts ts' : list str) : Prop :=
    exists s r s', schema_at root ts s /\ mentions s r /\ points r ts' s'.
  (** The schema at [ts] refers to itself, through any number of others. *)
  Definition circular (ts : list str) : Prop := clos_trans _ refers ts ts.
  (** Each of the references leads to a schema that mentions the next one. *)
  Fixpoint linked (l : list str) : Prop :=
    match l with
    | x :: ((y :: _) as l') => (exists ts s, points x ts s /\ mentions s y) /\ linked l'
    | _ => True
    end.
End Document.
