(** Independent specification of scope names and of the lookup in App.op. *)
From Verif Require Import PyBase M_Scope.

Definition ends_with (ik k : str) : Prop := exists p, ik = p ++ k.

Definition has_sub (sep s : str) : Prop := exists a b, s = a ++ sep ++ b.

(** [c] is what follows the right-most occurrence of [sep] in [k], or all of [k]. *)
Definition last_component (sep k c : str) : Prop :=
  (~ has_sub sep k /\ c = k) \/
  (exists p, k = p ++ sep ++ c /\
     forall p' c', k = p' ++ sep ++ c' -> length c <= length c').

(** Entries that end with [k], and among them those with the same last component. *)
Definition cand {V} (d : sdict V) (k ik : str) : Prop :=
  In ik (map fst d) /\ ends_with ik k.
Definition cand_last {V} (sep : str) (d : sdict V) (k ik : str) : Prop :=
  cand d k ik /\ exists c, last_component sep k c /\ last_component sep ik c.

(** The documented precedence. *)
Inductive lookup {V} (sep : str) (d : sdict V) (k : str) : res V -> Prop :=
| L_exact v : In (k, v) d -> lookup sep d k (Ok v)
| L_suffix ik v :
    ~ In k (map fst d) -> In (ik, v) d -> cand d k ik ->
    (forall ik', cand d k ik' -> ik' = ik) ->
    lookup sep d k (Ok v)
| L_last a b ik v :
    ~ In k (map fst d) -> cand d k a -> cand d k b -> a <> b ->
    In (ik, v) d -> cand_last sep d k ik ->
    (forall ik', cand_last sep d k ik' -> ik' = ik) ->
    lookup sep d k (Ok v)
| L_ambiguous a b :
    ~ In k (map fst d) -> cand d k a -> cand d k b -> a <> b ->
    (~ exists ik, cand_last sep d k ik /\
         forall ik', cand_last sep d k ik' -> ik' = ik) ->
    lookup sep d k (Err ValueError)
| L_missing :
    (forall ik, ~ cand d k ik) -> lookup sep d k (Err KeyError).

(** Key under which an operation with these tags and id is to be found;
    [None] when it has no (or an empty) operationId. *)
Definition op_key (sep : str) (tags : option (list str)) (opid : option str) : option str :=
  match opid with
  | None | Some [] => None
  | Some id =>
      match tags with
      | Some ((_ :: _) as t :: _) => Some (t ++ sep ++ id)
      | _ => Some id
      end
  end.

(** The table of all operations that have a key, in visiting order. *)
Definition keyed {O} (sep : str) (l : list (tr_op O)) : list (str * O) :=
  flat_map (fun o => match op_key sep (tr_tags o) (tr_opid o) with
                     | Some k => [(k, tr_obj o)] | None => [] end) l.
