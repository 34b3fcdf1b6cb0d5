(** Model of walking through parsed objects: [_children_], [resolve], [compare]
    (pyswagger/spec/base.py:259-278, 345-391, 451-474) and [default_tree_traversal]
    (pyswagger/scan.py:6-20). *)
From Verif Require Import PyBase PyJson PyInt M_JsonPtr M_SpecVal.
Close Scope Q_scope.

(** [jp_compose(name, base)] for a text and a non-empty base: always a text. *)
Definition sub (name base : str) : str :=
  match jp_compose (JPStr name) (Some base) with Some s => s | None => [] end.
(** [jp_compose(name)] *)
Definition top (name : str) : str := match jp_compose (JPStr name) None with Some s => s | None => [] end.

(** base.py:460-469.  An object in a field is never a weak proxy: those are only put into
    the internal fields. *)
Fixpoint down (name : str) (v : val) : list (str * val) :=
  match v with
  | VObj _ _ _ => [(name, v)]
  | VList l => (fix go (i : nat) l := match l with [] => [] | x :: l => down (sub (str_of_nat i) name) x ++ go (S i) l end) 0 l
  | VDict d => (fix go d := match d with [] => [] | (k, x) :: d => down (sub k name) x ++ go d end) d
  | _ => []
  end.
(** base.py:451-474 *)
Definition children (v : val) : sdict val :=
  match v with
  | VObj _ fs _ => supdate [] (flat_map (fun nv => down (top (fst nv)) (snd nv)) fs)
  | _ => []
  end.

(** scan.py:10-20: the end of the stack is its top.  What has been yielded comes in the
    order of the calls. *)
Fixpoint walk_stack (fuel : nat) (leaves : list cls) (objs : list (str * val)) : res (list (str * val)) :=
  match objs with
  | [] => Ok []
  | _ =>
      match fuel with
      | O => Err OutOfFuel
      | S fuel =>
          let '(path, o) := last objs ([], VNone) in
          let rest := removelast objs in
          let more := match o with
                      | VObj h _ _ => if existsb (cls_eqb (h_cls h)) leaves then []
                                      else map (fun i => (path ++ "/"%char :: fst i, snd i)) (children o)
                      | _ => []
                      end in
          do r <- walk_stack fuel leaves (rest ++ more);
          Ok ((path, o) :: r)
      end
  end.
(** How many objects there are in a value. *)
Fixpoint count (v : val) : nat :=
  match v with
  | VList l => (fix go l := match l with [] => 0 | x :: l => count x + go l end) l
  | VDict d => (fix go d := match d with [] => 0 | (_, x) :: d => count x + go d end) d
  | VObj _ fs _ => S ((fix go d := match d with [] => 0 | (_, x) :: d => count x + go d end) fs)
  | _ => 0
  end.
(** scan.py:6-20 *)
Definition traverse (root : val) (leaves : list cls) : res (list (str * val)) :=
  walk_stack (count root) leaves [(lit "#", root)].

(** [getattr(obj, t)].  Simplified: attributes that are neither fields nor internal fields
    (methods, for example) are not modelled. *)
Definition attr (fs ints : sdict val) (t : str) : res val :=
  match sget t fs with
  | Some v => Ok v
  | None => match sget t ints with Some v => Ok v | None => Err AttributeError end
  end.
(** [l[i]] *)
Definition index {A} (l : list A) (i : Z) : res A :=
  let i := if (i <? 0)%Z then (i + Z.of_nat (length l))%Z else i in
  if (i <? 0)%Z then Err IndexError
  else match nth_error l (Z.to_nat i) with Some x => Ok x | None => Err IndexError end.
(** base.py:259-278 with a list of tokens; a token below a plain value is passed over. *)
Fixpoint resolve (v : val) (ts : list str) : res val :=
  match ts with
  | [] => Ok v
  | t :: ts =>
      match v with
      | VObj _ fs ints => do x <- attr fs ints t; resolve x ts
      | VList l => do i <- py_int t; do x <- index l i; resolve x ts
      | VDict d => match sget t d with Some x => resolve x ts | None => Err KeyError end
      | v => resolve v ts
      end
  end.

(** [s == o] for values of one class that are no containers and no objects *)
Definition scalar_eqb (s o : val) : bool :=
  match s, o with
  | VNone, VNone => true
  | VBool a, VBool b => Bool.eqb a b
  | VInt a, VInt b => Z.eqb a b
  | VFloat a, VFloat b => Qeq_bool a b
  | VStr a, VStr b => str_eqb a b
  | _, _ => false
  end.
Definition lacking (d e : sdict val) : option str :=
  match filter (fun k => negb (smem k e)) (map fst d) with [] => None | k :: _ => Some k end.
(** base.py:345-391: [compare] on objects, [cmp_func] on what is in their fields.
    The result is the two values returned.  Simplified: of several missing keys the first
    one is reported (Python takes any, [list(set)[0]]), and the fields are compared in the
    order of the class. *)
Section Cmp.
  Context (cmp : str -> val -> val -> res (bool * str)).
  Fixpoint cmp_items (name : str) (i : nat) (l m : list val) : res (bool * str) :=
    match l with
    | [] => Ok (true, name)
    | x :: l => match nth_error m i with
                | None => Err IndexError
                | Some y => do r <- cmp (sub (str_of_nat i) name) x y;
                            if fst r then cmp_items name (S i) l m else Ok r
                end
    end.
  Fixpoint cmp_keys (name : str) (d e : sdict val) : res (bool * str) :=
    match d with
    | [] => Ok (true, name)
    | (k, x) :: d => match sget k e with
                     | None => Err KeyError
                     | Some y => do r <- cmp (sub k name) x y;
                                 if fst r then cmp_keys name d e else Ok r
                     end
    end.
  Fixpoint cmp_fields (full : str -> str) (fs es : sdict val) : res (bool * str) :=
    match fs with
    | [] => Ok (true, [])
    | (n, x) :: fs => match sget n es with
                      | None => Err AttributeError
                      | Some y => do r <- cmp (full n) x y;
                                  if fst r then cmp_fields full fs es else Ok r
                      end
    end.
  Definition cmp_step (name : str) (s o : val) : res (bool * str) :=
    match s, o with
    | VObj h fs _, VObj g es _ => if cls_eqb (h_cls h) (h_cls g) then cmp_fields (fun n => sub n name) fs es else Ok (false, name)
    | VList l, VList m => cmp_items name 0 l m
    | VDict d, VDict e =>
        match lacking d e with
        | Some k => Ok (false, sub k name)
        | None => match lacking e d with
                  | Some k => Ok (false, sub k name)
                  | None => cmp_keys name d e
                  end
        end
    | s, o => Ok (scalar_eqb s o, name)
    end.
End Cmp.
Fixpoint vdepth (v : val) : nat :=
  match v with
  | VList l => S ((fix go l := match l with [] => 0 | x :: l => Nat.max (vdepth x) (go l) end) l)
  | VDict d => S ((fix go d := match d with [] => 0 | (_, x) :: d => Nat.max (vdepth x) (go d) end) d)
  | VObj _ fs _ => S ((fix go d := match d with [] => 0 | (_, x) :: d => Nat.max (vdepth x) (go d) end) fs)
  | _ => 0
  end.
Fixpoint cmpf (fuel : nat) (name : str) (s o : val) : res (bool * str) :=
  match fuel with
  | O => Err OutOfFuel
  | S fuel => cmp_step (cmpf fuel) name s o
  end.
(** [a.compare(b)] *)
Definition compare (a b : val) : res (bool * str) :=
  match a, b with
  | VObj h fs _, VObj g es _ =>
      if cls_eqb (h_cls h) (h_cls g) then cmp_fields (cmpf (vdepth a)) top fs es else Ok (false, [])
  | _, _ => Ok (false, [])
  end.
