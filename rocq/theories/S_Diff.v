(** Specification of document comparison (C09). *)
From Verif Require Import PyBase PyFacts PyJson S_JsonPtr M_Diff.

(** The part of a document at a path of keys and (decimal) list positions. *)
Inductive At : list str -> json -> json -> Prop :=
| At_here x : At [] x x
| At_key k d v p x : sget k d = Some v -> At p v x -> At (k :: p) (JObj d) x
| At_index i l v p x : nth_error l i = Some v -> At p v x -> At (str_of_Z (Z.of_nat i) :: p) (JList l) x.

Definition scalar (j : json) : Prop := match j with JObj _ | JList _ => False | _ => True end.
(** Same type; bool counts as int. *)
Definition same_type (x y : json) : Prop :=
  jtype x = jtype y \/ (In (jtype x) [TInt; TBool] /\ In (jtype y) [TInt; TBool]).

Section Spec.
  Context (include exclude : list str).
  Definition shown (k : str) : Prop := (include <> [] -> In k include) /\ ~ In k exclude.

  (** Equal documents, as far as the shown keys go. *)
  Inductive same : json -> json -> Prop :=
  | same_scalar x y : scalar x -> py_eqb x y = true -> same x y
  | same_list l m : Forall2 same l m -> (forall x y, In x l -> In y m -> same_type x y) -> same (JList l) (JList m)
  | same_obj d e :
      (forall k, shown k -> (sget k d = None <-> sget k e = None)) ->
      (forall k x y, shown k -> sget k d = Some x -> sget k e = Some y -> same x y) -> same (JObj d) (JObj e).

  (** A reported difference is real: the two documents have different parts there. *)
  Definition clash (x y : json) (k : kind) : Prop :=
    match k with
    | DLen n m => exists l l', x = JList l /\ y = JList l' /\ length l = n /\ length l' = m /\ n <> m
    | DType s t => (jtype x = s /\ jtype y = t /\ s <> t) \/
                   exists l l', x = JList l /\ y = JList l' /\ l <> [] /\ l' <> [] /\
                     (forall u, In u l -> jtype u = s) /\ (forall u, In u l' -> jtype u = t) /\ s <> t
    | DVal u v => x = u /\ y = v /\ py_eqb u v = false
    | DKey => False
    end.
  Definition real (a b : json) (path : list str) (k : kind) : Prop :=
    (exists x y, At path a x /\ At path b y /\ clash x y k) \/
    (k = DKey /\ exists p key d e, path = p ++ [key] /\ At p a (JObj d) /\ At p b (JObj e) /\ shown key /\
       ((sget key d = None /\ sget key e <> None) \/ (sget key d <> None /\ sget key e = None))).
End Spec.

(** Lists whose elements have one type; lists of null have at most one element, since
    Python cannot sort them; [sort_lists] tells which lists of lists it can sort. *)
Inductive uniform (sort_lists : list json -> bool) : json -> Prop :=
| uni_scalar x : scalar x -> uniform sort_lists x
| uni_list l : Forall (uniform sort_lists) l -> (forall x y, In x l -> In y l -> jtype x = jtype y) ->
    (In JNull l -> length l <= 1) -> ((exists m, In (JList m) l) -> sort_lists l = true) ->
    uniform sort_lists (JList l)
| uni_obj d : Forall (fun kv => uniform sort_lists (snd kv)) d -> uniform sort_lists (JObj d).
