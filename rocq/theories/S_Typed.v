(** Values whose objects hold what their class says. *)
From Verif Require Import PyBase PyJson M_SpecVal S_Parse.
Close Scope Q_scope.

(** An object of the class ([additionalProperties] may be a boolean, too) *)
Definition child1 (c : ctx) (v : val) : Prop :=
  match v with
  | VBool _ => c = AddP
  | VObj h _ _ => match c with Of c => h_cls h = c | AddP => h_cls h = CSchema end
  | _ => False
  end.
Definition child_ok (ct : ctype) (c : ctx) (v : val) : Prop :=
  match v with
  | VNone => True
  | VList l => ct = ListOf /\ Forall (child1 c) l
  | VDict d => ct = DictOf /\ Forall (fun kv => child1 c (snd kv)) d
  | v => ct = One /\ child1 c v
  end.
Definition no_obj (v : val) : Prop := forall ts o, reach [] v ts o -> ~ is_obj o.
(** What may be in the field [n] of an object: children in the fields for children, no
    objects elsewhere.  Containers may only be missing if that is their default. *)
Definition field_ok (c : cls) (n : str) (x : val) : Prop :=
  match sget n (t_child c) with
  | Some (ct, cc) => child_ok ct cc x /\ (x = VNone -> ct <> One -> sget n (t_fields c) = Some JNull)
  | None => no_obj x
  end.
Inductive wtv : val -> Prop :=
| wt_none : wtv VNone
| wt_bool b : wtv (VBool b)
| wt_int z : wtv (VInt z)
| wt_float q : wtv (VFloat q)
| wt_str s : wtv (VStr s)
| wt_list l : Forall wtv l -> wtv (VList l)
| wt_dict d : Forall (fun kv => wtv (snd kv)) d -> wtv (VDict d)
| wt_obj h fs ints : Forall (fun kv => wtv (snd kv)) fs -> Forall (fun kv => field_ok (h_cls h) (fst kv) (snd kv)) fs -> wtv (VObj h fs ints).
