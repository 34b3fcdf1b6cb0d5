(** Specification of the composed schemas that a prepared application keeps for its schemas
    ([final]), where the schemas are not composed by allOf: they are copies (C46). *)
From Coq Require Import QArith.
From Verif Require Import PyBase M_Graph S_Graph M_Prim S_Prim M_Render S_Render.
Close Scope Q_scope.

Section Copies.
  Context (R : nat -> nat -> Prop).
  (** [a] has the same keywords as [b], and its parts are those of [b] or copies of them ([R]);
      copied lists may be in any order (spec/base.py:306-310). *)
  Record copy (a b : schema) : Prop := {
    cp_kind : s_full a = s_full b /\ s_type a = s_type b /\ s_format a = s_format b;
    cp_numbers : s_max a = s_max b /\ s_exmax a = s_exmax b /\ s_min a = s_min b /\ s_exmin a = s_exmin b /\ s_multiple a = s_multiple b;
    cp_sizes : s_maxlen a = s_maxlen b /\ s_minlen a = s_minlen b /\ s_maxitems a = s_maxitems b /\ s_minitems a = s_minitems b /\ s_unique a = s_unique b;
    cp_enum : forall v, In v (s_enum a) <-> In v (s_enum b);
    cp_required : forall k, In k (s_required a) <-> In k (s_required b);
    cp_items : match s_items a, s_items b with Some i, Some j => R i j | None, None => True | _, _ => False end;
    cp_props : forall k, match sget k (s_props a), sget k (s_props b) with Some i, Some j => R i j | None, None => True | _, _ => False end;
    cp_more : match s_addp a, s_addp b with ASchema i, ASchema j => R i j | ASchema _, _ | _, ASchema _ => False | _, _ => True end }.
  (** Where [R o o'], what the renderer takes for [o] is a copy of the schema at the end of the
      references of [o']. *)
  Definition copies (h : list schema) (xs : nat -> more) : Prop :=
    forall o o', R o o' -> forall t, meant h xs o t -> exists t', target h o' t' /\ copy (sch h t) (sch h t').
End Copies.
(** No schema has a composed one. *)
Definition uncomposed_only (xs : nat -> more) (i : nat) : more := More (x_minprops (xs i)) (x_maxprops (xs i)) None.
