(** Model of [Model.__eq__] and [Model.__ne__] (pyswagger/primitives/_model.py:77-101),
    and of Python's [==] on the values a Model holds, as far as it leads there. *)
From Verif Require Import PyBase.

Section Eq.
  (** Leaves: numbers, strings, bytes, dates, files, ... *)
  Context {L : Type} (leaf_eq : L -> L -> bool).
  Inductive mval :=
  | MNone | MLeaf (x : L) | MList (l : list mval) | MDict (d : sdict mval) | MModel (d : sdict mval).
  (** [other.get(k, None)] *)
  Definition get_or_none (k : str) (d : sdict mval) : mval := match sget k d with Some v => v | None => MNone end.

  Section Step.
    Context (rec : mval -> mval -> res bool).
    (** _model.py:87-89: the loop over the model's own items ([v != w] is [not v == w]) *)
    Fixpoint items_eq (a b : sdict mval) : res bool :=
      match a with
      | [] => Ok true
      | (k, v) :: a => do e <- rec v (get_or_none k b); if e then items_eq a b else Ok false
      end.
    (** _model.py:91-94: keys only the other one has.  Simplified: in the order of the
        other dictionary (a Python set has no fixed order; only None or not None counts) *)
    Fixpoint residual_none (a b : sdict mval) : bool :=
      match b with
      | [] => true
      | (k, v) :: b => if smem k a then residual_none a b
                       else match v with MNone => residual_none a b | _ => false end
      end.
    (** _model.py:77-96, for another dict *)
    Definition model_eq (a b : sdict mval) : res bool :=
      do e <- items_eq a b;
      if e then Ok (residual_none a b) else Ok false.
    (** CPython [dict == dict], [list == list] (without the identity shortcut) *)
    Fixpoint dict_items_eq (a b : sdict mval) : res bool :=
      match a with
      | [] => Ok true
      | (k, v) :: a => match sget k b with
                       | Some w => do e <- rec v w; if e then dict_items_eq a b else Ok false
                       | None => Ok false
                       end
      end.
    Fixpoint list_eq (a b : list mval) : res bool :=
      match a, b with
      | [], [] => Ok true
      | v :: a, w :: b => do e <- rec v w; if e then list_eq a b else Ok false
      | _, _ => Ok false
      end.
    (** [v == w].  A Model on either side decides: it is a subclass of dict, so Python
        tries its [__eq__] first against a dict; other classes give up and Python asks
        the Model, which then calls [get] or [keys] on something that has none. *)
    Definition eq_step (v w : mval) : res bool :=
      match v, w with
      | MNone, MNone => Ok true
      | MNone, _ | _, MNone => Ok false
      | MModel a, MModel b | MModel a, MDict b => model_eq a b
      | MDict a, MModel b => model_eq b a
      | MModel _, _ | _, MModel _ => Err AttributeError
      | MDict a, MDict b => if Nat.eqb (length a) (length b) then dict_items_eq a b else Ok false
      | MList a, MList b => if Nat.eqb (length a) (length b) then list_eq a b else Ok false
      | MLeaf x, MLeaf y => Ok (leaf_eq x y)
      | _, _ => Ok false
      end.
  End Step.
  Fixpoint eqf (fuel : nat) (v w : mval) : res bool :=
    match fuel with
    | O => Err OutOfFuel
    | S fuel => eq_step (eqf fuel) v w
    end.
  (** How deep a value is. *)
  Fixpoint depth (v : mval) : nat :=
    match v with
    | MNone | MLeaf _ => 0
    | MList l => S ((fix go l := match l with [] => 0 | x :: l => Nat.max (depth x) (go l) end) l)
    | MDict d | MModel d => S ((fix go d := match d with [] => 0 | (_, x) :: d => Nat.max (depth x) (go d) end) d)
    end.
  (** [v == w] and [v != w] (for a Model: _model.py:98-99) *)
  Definition py_eq (v w : mval) : res bool := eqf (S (Nat.max (depth v) (depth w))) v w.
  Definition py_ne (v w : mval) : res bool := do e <- py_eq v w; Ok (negb e).
End Eq.
Arguments mval : clear implicits.
