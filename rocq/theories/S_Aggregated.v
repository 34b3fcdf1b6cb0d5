(** Specification of how the schemas composed by [Aggregate] (M_Aggt.v) are those the renderer and
    the primitive factory read (M_Prim.v, M_Render.v): the same fields of the same objects. *)
From Coq Require Import QArith.
From Verif Require Import PyBase M_SpecVal M_Merge M_Declared M_Body M_Prim M_Render.
From Verif Require M_Aggt S_Aggt.
Close Scope Q_scope.

(** The field [k] is there, and is read as [x]. *)
Definition field_is {A} (n : M_Aggt.node) (k : string) (f : val -> res A) (x : A) : Prop :=
  exists v, sget (lit k) (M_Aggt.s_plain n) = Some v /\ f v = Ok x.
Definition flag (v : val) : res bool := Ok (negb (M_Merge.falsy v)).
(** spec/v2_0/objects.py:31-47, 67-89 *)
Record views (n : M_Aggt.node) (s : schema) : Prop := {
  w_full : s_full s = true;
  w_type : field_is n "type" opt_text (s_type s);
  w_format : field_is n "format" opt_text (s_format s);
  w_max : field_is n "maximum" opt_number (s_max s);
  w_exmax : field_is n "exclusiveMaximum" flag (s_exmax s);
  w_min : field_is n "minimum" opt_number (s_min s);
  w_exmin : field_is n "exclusiveMinimum" flag (s_exmin s);
  w_multiple : field_is n "multipleOf" opt_number (s_multiple s);
  w_maxlen : field_is n "maxLength" opt_size (s_maxlen s);
  w_minlen : field_is n "minLength" opt_size (s_minlen s);
  w_maxitems : field_is n "maxItems" opt_size (s_maxitems s);
  w_minitems : field_is n "minItems" opt_size (s_minitems s);
  w_unique : field_is n "uniqueItems" flag (s_unique s);
  w_enum : field_is n "enum" opt_list (s_enum s);
  w_required : field_is n "required" texts (s_required s);
  w_ref : s_ref s = M_Aggt.s_ref n;
  w_items : s_items s = M_Aggt.s_items n;
  w_props : s_props s = M_Aggt.s_props n;
  w_addl : s_addp s = match M_Aggt.s_addl n with M_Aggt.ABool b => ABool b | M_Aggt.AObj j => ASchema j end }.
Definition seen (h : M_Aggt.heap) (l : list schema) (xs : nat -> more) : Prop :=
  Forall2 views h l /\ forall i n, S_Aggt.is_node h i n -> x_final (xs i) = M_Aggt.s_final n.
(** Schemas that are not composed, and list texts in enum *)
Definition simple (n : M_Aggt.node) : Prop :=
  M_Aggt.s_allof n = [] /\ forall l, sget (lit "enum") (M_Aggt.s_plain n) = Some (M_SpecVal.VList l) -> forall x, In x l -> exists s, x = M_SpecVal.VStr s.
