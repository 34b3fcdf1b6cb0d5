(** Model of [BaseObj.merge] (pyswagger/spec/base.py:280-334), and of
    [AdditionalPropertiesContext._TmpObj.merge] (pyswagger/spec/v2_0/parser.py:61-67). *)
From Verif Require Import PyBase PyJson M_SpecVal M_Parse M_SpecTree.
Close Scope Q_scope.

(** [not v] *)
Definition falsy (v : val) : bool :=
  match v with
  | VNone | VBool false | VInt 0 | VStr [] | VList [] | VDict [] => true
  | VFloat q => Qeq_bool q 0
  | _ => false
  end.
(** [getattr(self, name) or []], as the left operand of [+ v] for a list [v] *)
Definition as_list (v : val) : res (list val) :=
  if falsy v then Ok [] else match v with VList l => Ok l | _ => Err TypeError end.
(** [getattr(self, name) or {}], as the argument of [d.update].  Simplified: a list is
    always refused (Python takes a list of pairs). *)
Definition as_dict (v : val) : res (sdict val) :=
  if falsy v then Ok []
  else match v with VDict d => Ok d | VStr _ => Err ValueError | _ => Err TypeError end.
Definition hashable (v : val) : bool := match v with VList _ | VDict _ => false | _ => true end.
Definition number_of (v : val) : option Q :=
  match v with
  | VBool b => Some (if b then 1%Q else 0%Q)
  | VInt z => Some (inject_Z z)
  | VFloat q => Some q
  | _ => None
  end.
Definition place_eqb (a b : place) : bool := if list_eq_dec (list_eq_dec ascii_dec) a b then true else false.
(** [x == y] for hashable values: objects are only equal to themselves *)
Definition elem_eqb (x y : val) : bool :=
  match number_of x, number_of y with
  | Some p, Some q => Qeq_bool p q
  | None, None => match x, y with
                  | VNone, VNone => true
                  | VStr a, VStr b => str_eqb a b
                  | VObj h _ _, VObj g _ _ => place_eqb (h_place h) (h_place g)
                  | _, _ => false
                  end
  | _, _ => false
  end.
(** [list(set(l))].  Simplified: Python gives no order, here the first occurrences stay. *)
Fixpoint dedup (seen l : list val) : list val :=
  match l with
  | [] => []
  | x :: l => if existsb (fun y => elem_eqb x y) seen then dedup seen l else x :: dedup (x :: seen) l
  end.
(** base.py:305-308 *)
Definition union (l m : list val) : list val :=
  let all := l ++ m in
  if forallb hashable all then dedup [] all else all.

(** [X(NullContext())], and [XContext(None, None).produce()] for an object's class *)
Definition fresh (c : cls) (pl : place) : res val := produce c pl [].

Section Step.
  (** [_produce_new_obj] on a child, base.py:287-288 *)
  Context (clone : ctx -> place -> val -> res val).
  (** [container_apply] with it, base.py:24-49; the places are those of the new objects *)
  Definition clone_child (ct : ctype) (c : ctx) (pl : place) (v : val) : res val :=
    match ct, v with
    | _, VNone => Ok VNone
    | One, v => clone c pl v
    | ListOf, VList l => do l <- mapi_res (fun i x => clone c (pl ++ [str_of_nat i]) x) 0 l; Ok (VList l)
    | ListOf, VDict [] | ListOf, VStr [] => Ok (VList [])
    | ListOf, VDict _ | ListOf, VStr _ => Err AttributeError
    | ListOf, _ => Err TypeError
    | DictOf, VDict d => do d <- map_res (fun kv => do x <- clone c (pl ++ [fst kv]) (snd kv); Ok (fst kv, x)) d; Ok (VDict d)
    | DictOf, _ => Err AttributeError
    end.
  (** base.py:290-327 for one name: what the field is updated with, if it is *)
  Definition merge1 (exclude : list str) (c : cls) (pl : place) (n : str) (df : json) (sv ov : val) : res (option val) :=
    if mem n exclude then Ok None
    else if is_default ov df then Ok None
    else match sget n (t_child c) with
         | None =>
             match ov with
             | VList l => do m <- as_list sv; Ok (Some (VList (union m l)))
             | VDict d => do m <- as_dict sv; Ok (Some (VDict (supdate d m)))
             | _ => Ok (if is_default sv df then Some ov else None)
             end
         | Some (ct, cc) =>
             if is_default sv df then do x <- clone_child ct cc (pl ++ [n]) ov; Ok (Some x) else Ok None
         end.
  (** base.py:290-327: the new values and the names of the updated fields *)
  Fixpoint merge_names (exclude : list str) (c : cls) (pl : place) (t : list (str * json)) (sf of : sdict val) : res (sdict val * list str) :=
    match t with
    | [] => Ok ([], [])
    | (n, df) :: t =>
        match sget n sf, sget n of with
        | Some sv, Some ov =>
            do x <- merge1 exclude c pl n df sv ov;
            do r <- merge_names exclude c pl t sf of;
            Ok (match x with
                | None => ((n, sv) :: fst r, snd r)
                | Some v => ((n, v) :: fst r, n :: snd r)
                end)
        | _, _ => Err AttributeError
        end
    end.
  (** base.py:280-334.  Simplified: [other] has to be of the same class, as it always is. *)
  Definition merge_obj (exclude : list str) (self other : val) : res val :=
    match self, other with
    | VObj h fs ints, VObj g es jnts =>
        if cls_eqb (h_cls h) (h_cls g) then
          let c := h_cls h in
          do f <- merge_names exclude c (h_place h) (t_fields c) fs es;
          do i <- merge_names exclude c (h_place h) (t_internal c) ints jnts;
          do fs' <- assign_fields (h_place h) (t_child c) (fst f);
          Ok (VObj (Head c (h_place h) (h_parent h) (h_keys h ++ snd f ++ snd i)) fs' (fst i))
        else Err AttributeError
    | _, _ => Err AttributeError
    end.
  (** base.py:287-288, parser.py:61-67 *)
  Definition clone_step (c : ctx) (pl : place) (v : val) : res val :=
    match c, v with
    | AddP, VBool b => Ok (VBool b)
    | AddP, VObj _ _ _ => do s <- fresh CSchema pl; merge_obj [] s v
    | Of c, VObj _ _ _ => do s <- fresh c pl; merge_obj [] s v
    | _, _ => Err AttributeError
    end.
End Step.
Fixpoint clonef (fuel : nat) (c : ctx) (pl : place) (v : val) : res val :=
  match fuel with
  | O => Err OutOfFuel
  | S fuel => clone_step (clonef fuel) c pl v
  end.
Definition clone (c : ctx) (pl : place) (v : val) : res val := clonef (S (vdepth v)) c pl v.
(** [self.merge(other, XContext, exclude)] *)
Definition merge (self other : val) (exclude : list str) : res val := merge_obj clone exclude self other.
