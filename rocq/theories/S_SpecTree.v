(** Specifications for walking through and comparing objects. *)
From Verif Require Import PyBase PyJson S_JsonPtr M_SpecVal.
Close Scope Q_scope.

(** Python values: the keys of a dict differ, and an object has the fields of its class. *)
Inductive wfv : val -> Prop :=
| wf_none : wfv VNone
| wf_bool b : wfv (VBool b)
| wf_int z : wfv (VInt z)
| wf_float q : wfv (VFloat q)
| wf_str s : wfv (VStr s)
| wf_list l : Forall wfv l -> wfv (VList l)
| wf_dict d : NoDup (map fst d) -> Forall (fun kv => wfv (snd kv)) d -> wfv (VDict d)
| wf_obj h fs ints : map fst fs = map fst (t_fields (h_cls h)) -> Forall (fun kv => wfv (snd kv)) fs -> wfv (VObj h fs ints).

(** Two values that do not differ as such: equal plain values, or containers, or objects
    of one class (whatever they hold). *)
Inductive alike : val -> val -> Prop :=
| alike_none : alike VNone VNone
| alike_bool b : alike (VBool b) (VBool b)
| alike_int z : alike (VInt z) (VInt z)
| alike_float q r : (q == r)%Q -> alike (VFloat q) (VFloat r)
| alike_str s : alike (VStr s) (VStr s)
| alike_list l m : alike (VList l) (VList m)
| alike_dict d e : alike (VDict d) (VDict e)
| alike_obj h g fs es i j : h_cls h = h_cls g -> alike (VObj h fs i) (VObj g es j).
(** [step v t x]: [x] is in the field, at the position or under the key [t] of [v]. *)
Inductive step : val -> str -> val -> Prop :=
| step_field h fs i n x : sget n fs = Some x -> step (VObj h fs i) n x
| step_item l i x : nth_error l i = Some x -> step (VList l) (str_of_nat i) x
| step_key d k x : sget k d = Some x -> step (VDict d) k x.
(** At the end of [ts] the two values differ, or only one of them has the last key. *)
Inductive differ_at : val -> val -> list str -> Prop :=
| diff_here a b : ~ alike a b -> differ_at a b []
| diff_left d e k x : sget k d = Some x -> sget k e = None -> differ_at (VDict d) (VDict e) [k]
| diff_right d e k y : sget k d = None -> sget k e = Some y -> differ_at (VDict d) (VDict e) [k]
| diff_below a b t x y ts : alike a b -> step a t x -> step b t y -> differ_at x y ts -> differ_at a b (t :: ts).
(** Equal up to further elements at the end of the second one's lists. *)
Inductive covers : val -> val -> Prop :=
| cov_none : covers VNone VNone
| cov_bool b : covers (VBool b) (VBool b)
| cov_int z : covers (VInt z) (VInt z)
| cov_float q r : (q == r)%Q -> covers (VFloat q) (VFloat r)
| cov_str s : covers (VStr s) (VStr s)
| cov_list l m more : Forall2 covers l m -> covers (VList l) (VList (m ++ more))
| cov_dict d e :
    (forall k x, sget k d = Some x -> exists y, sget k e = Some y /\ covers x y) ->
    (forall k y, sget k e = Some y -> exists x, sget k d = Some x) ->
    covers (VDict d) (VDict e)
| cov_obj h g fs es i j : h_cls h = h_cls g ->
    (forall n x, sget n fs = Some x -> exists y, sget n es = Some y /\ covers x y) ->
    covers (VObj h fs i) (VObj g es j).
(** Somewhere the second value has a shorter list. *)
Inductive shorter : val -> val -> Prop :=
| short_here l m : length m < length l -> shorter (VList l) (VList m)
| short_below a b t x y : alike a b -> step a t x -> step b t y -> shorter x y -> shorter a b.
(** A place below an object: the tokens, escaped, with slashes between them. *)
Definition name_of (ts : list str) : str := match ts with [] => [] | n :: ts => rfc_pointer (rfc_escape n) ts end.
(** [t] comes before [t'] in [v]. *)
Inductive step_before : val -> str -> str -> Prop :=
| before_field h f1 n x f2 m y f3 i : step_before (VObj h (f1 ++ (n, x) :: f2 ++ (m, y) :: f3) i) n m
| before_item l i j : i < j -> j < length l -> step_before (VList l) (str_of_nat i) (str_of_nat j)
| before_key d1 n x d2 m y d3 : step_before (VDict (d1 ++ (n, x) :: d2 ++ (m, y) :: d3)) n m.
(** The place [ts] comes before the place [us] in [v]; neither is inside the other. *)
Inductive earlier : val -> list str -> list str -> Prop :=
| earlier_here v t t' ts us : step_before v t t' -> earlier v (t :: ts) (t' :: us)
| earlier_below v t x ts us : step v t x -> earlier x ts us -> earlier v (t :: ts) (t :: us).
