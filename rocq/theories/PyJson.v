(** Python values that come from JSON or YAML documents, used by several model files.
    Floats are rationals (no NaN, infinities or rounding); a dict is an association list
    without repeated keys ([wf]).  Only definitions and the induction principle. *)
From Coq Require Export QArith.
From Verif Require Import PyBase.
Close Scope Q_scope.

Inductive json :=
| JNull | JBool (b : bool) | JInt (z : Z) | JFloat (q : Q) | JStr (s : str)
| JList (l : list json) | JObj (d : sdict json).

Section Ind.
  Context (P : json -> Prop).
  Context (Hnull : P JNull) (Hbool : forall b, P (JBool b)) (Hint : forall z, P (JInt z))
    (Hfloat : forall q, P (JFloat q)) (Hstr : forall s, P (JStr s))
    (Hlist : forall l, Forall P l -> P (JList l))
    (Hobj : forall d, Forall (fun kv => P (snd kv)) d -> P (JObj d)).
  Fixpoint json_ind' (j : json) : P j :=
    match j with
    | JNull => Hnull | JBool b => Hbool b | JInt z => Hint z | JFloat q => Hfloat q | JStr s => Hstr s
    | JList l => Hlist l ((fix go l := match l return Forall P l with
                           | [] => Forall_nil _ | x :: l => Forall_cons _ (json_ind' x) (go l) end) l)
    | JObj d => Hobj d ((fix go d := match d return Forall (fun kv => P (snd kv)) d with
                         | [] => Forall_nil _ | kv :: d => Forall_cons _ (json_ind' (snd kv)) (go d) end) d)
    end.
End Ind.

(** No repeated keys, at any depth. *)
Inductive wf : json -> Prop :=
| wf_null : wf JNull | wf_bool b : wf (JBool b) | wf_int z : wf (JInt z) | wf_float q : wf (JFloat q)
| wf_str s : wf (JStr s)
| wf_list l : Forall wf l -> wf (JList l)
| wf_obj d : NoDup (map fst d) -> Forall (fun kv => wf (snd kv)) d -> wf (JObj d).

(** [type(x).__name__] *)
Inductive jty := TNone | TBool | TInt | TFloat | TStr | TList | TDict.
Definition jtype (j : json) : jty :=
  match j with
  | JNull => TNone | JBool _ => TBool | JInt _ => TInt | JFloat _ => TFloat | JStr _ => TStr
  | JList _ => TList | JObj _ => TDict
  end.
Definition jty_eqb (a b : jty) : bool :=
  match a, b with
  | TNone, TNone | TBool, TBool | TInt, TInt | TFloat, TFloat | TStr, TStr | TList, TList | TDict, TDict => true
  | _, _ => false
  end.

(** A number's value: [True == 1 == 1.0] in Python. *)
Definition num_val (j : json) : option Q :=
  match j with
  | JBool b => Some (if b then 1%Q else 0%Q)
  | JInt z => Some (inject_Z z)
  | JFloat q => Some q
  | _ => None
  end.

(** [a == b] *)
Fixpoint py_eqb (a b : json) : bool :=
  match a, b with
  | JNull, JNull => true
  | JStr s, JStr t => str_eqb s t
  | JList l, JList m =>
      (fix go l m := match l, m with
                     | [], [] => true
                     | x :: l, y :: m => py_eqb x y && go l m
                     | _, _ => false
                     end) l m
  | JObj d, JObj e =>
      Nat.eqb (length d) (length e) &&
      (fix go d := match d with
                   | [] => true
                   | (k, x) :: d => match sget k e with Some y => py_eqb x y | None => false end && go d
                   end) d
  | _, _ => match num_val a, num_val b with Some p, Some q => Qeq_bool p q | _, _ => false end
  end.
