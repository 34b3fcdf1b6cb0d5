(** Specification of what becomes of a converted document: it is the one C44 has, but every
    object knows where it is, and most know which object holds them. *)
From Verif Require Import PyBase PyJson M_SpecVal S_Parse S_SpecTree S_App S_Merge S_Patch S_Prepare.
Close Scope Q_scope.

(** The classes whose objects are told to their children *)
Definition tells (c : cls) : Prop := In c [CItems; CSchema; CParameter; CHeader; CResponse; COperation; CPathItem; CSwagger].
(** What is in the field [n] of an object at [pl] gets to know about it. *)
Inductive told (c : cls) (pl : place) (n : str) : option place -> Prop :=
| told_child : tells c -> sget n (t_child c) <> None -> told c pl n (Some pl)
| told_nothing : ~ (tells c /\ sget n (t_child c) <> None) -> told c pl n None.
Definition parent_now (p : option place) (h : head) : option place := match p with Some q => Some q | None => h_parent h end.
(** [w] is [v] at the place [pl]; its parent is [p] if there is one. *)
Inductive moved : option place -> place -> val -> val -> Prop :=
| mv_plain p pl v : not_container v -> moved p pl v v
| mv_list p pl l m : length l = length m ->
    (forall i x y, nth_error l i = Some x -> nth_error m i = Some y -> moved p (pl ++ [str_of_nat i]) x y) -> moved p pl (VList l) (VList m)
| mv_dict p pl d e : Forall2 (fun kx ky => fst kx = fst ky /\ moved p (pl ++ [fst kx]) (snd kx) (snd ky)) d e -> moved p pl (VDict d) (VDict e)
| mv_obj p pl h fs es ints :
    Forall2 (fun kx ky => fst kx = fst ky /\ exists q, told (h_cls h) pl (fst kx) q /\ moved q (pl ++ [fst kx]) (snd kx) (snd ky)) fs es ->
    moved p pl (VObj h fs ints) (VObj (Head (h_cls h) pl (parent_now p h) (h_keys h)) es ints).

(** What is at [pl] of the document that an application has for [x] of the converted one: its
    references are complete. *)
Definition brought (u : str) (pl : place) (x y : val) : Prop := exists q x1, moved q pl x x1 /\ normal u x1 y.

Section Offered.
  Context (abs_uri win_uri : str -> str).
  (** The document at [u] that the application has *)
  Context (u : str) (doc : val).
  (** [z] is what is at [pl] of the prepared application for the parameter or response [x] of
      the converted document: what references lead to is put together. *)
  Definition carried (pl : place) (x z : val) : Prop := exists y, brought u pl x y /\ completed abs_uri win_uri u doc y z.
  (** [op] is the operation at [path], below [m], for [op0] of the converted document. *)
  Record offers (host path m : str) (op0 op : val) : Prop := {
    of_url : internal_of op (lit "url") = Some (VStr (lit "//" ++ host ++ with_slash path));
    of_path : internal_of op (lit "path") = Some (VStr path);
    of_base : internal_of op (lit "base_path") = Some (VStr []);
    of_method : internal_of op (lit "method") = Some (VStr m);
    of_schemes : internal_of op (lit "cached_schemes") = Some (VList [VStr (lit "http"); VStr (lit "https")]);
    of_fields : forall n, n <> lit "parameters" -> n <> lit "responses" -> field_of op n = field_of op0 n;
    of_parameters : exists ps l, field_of op0 (lit "parameters") = Some (VList ps) /\ field_of op (lit "parameters") = Some (VList l) /\ length l = length ps /\
      forall i x z, nth_error ps i = Some x -> nth_error l i = Some z -> carried ([lit "paths"; path; m; lit "parameters"] ++ [str_of_nat i]) x z;
    of_responses : exists x z, field_of op0 (lit "responses") = Some (VDict [(lit "default", x)]) /\ field_of op (lit "responses") = Some (VDict [(lit "default", z)]) /\
      carried [lit "paths"; path; m; lit "responses"; lit "default"] x z }.
End Offered.
(** The host: that of the listing, else that of its URL, else "localhost" *)
Definition host_now (host netloc h : str) : Prop :=
  host <> [] /\ h = host \/ host = [] /\ netloc <> [] /\ h = netloc \/ host = [] /\ netloc = [] /\ h = lit "localhost".
