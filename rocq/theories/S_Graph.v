(** Independent specification of reference chains and elementary cycles. *)
From Verif Require Import PyBase M_Graph.

(** ** Reference chains: [next o] is the object [o] refers to, if any. *)
Inductive chain_to {O} (next : O -> option O) : O -> O -> Prop :=
| chain_here o : chain_to next o o
| chain_step o n e : next o = Some n -> chain_to next n e -> chain_to next o e.

(** ** Graphs: [out v] lists the successors of [v]. *)
Section Graph.
  Context {V : Type} (out : V -> list V).

  (** consecutive vertices are joined by edges *)
  Fixpoint edges (l : list V) : Prop :=
    match l with
    | x :: ((y :: _) as l') => In y (out x) /\ edges l'
    | _ => True
    end.

  Inductive reach : V -> V -> Prop :=
  | reach_refl v : reach v v
  | reach_step v w x : In w (out v) -> reach w x -> reach v x.

  (** [x :: c] is an elementary cycle: no repeated vertex, edges between
      consecutive vertices and back to the first one. *)
  Definition elementary_cycle (x : V) (c : list V) : Prop :=
    NoDup (x :: c) /\ edges (x :: c ++ [x]).

  (** How the tool lists a cycle: smallest vertex first, closed by repeating it. *)
  Definition listed_cycle (le : V -> V -> Prop) (start : V) (z : list V) : Prop :=
    exists x c, z = x :: c ++ [x] /\ elementary_cycle x c /\
      (forall y, In y c -> le x y) /\ reach start x.

  Definition finite_graph (start : V) : Prop :=
    exists u : list V, In start u /\ forall v w, In v u -> In w (out v) -> In w u.
End Graph.

(** [ref_inside r s]: the schema object [s] contains the reference [r] somewhere in
    its properties, allOf, additionalProperties, items or as its own $ref. *)
Inductive ref_inside : str -> sch -> Prop :=
| RI_own r p a ap i : r <> [] -> ref_inside r (Sch p a ap i (Some r))
| RI_prop r n s p a ap i o : In (n, s) p -> ref_inside r s -> ref_inside r (Sch p a ap i o)
| RI_allof r s p a ap i o : In s a -> ref_inside r s -> ref_inside r (Sch p a ap i o)
| RI_addp r s p a i o : ref_inside r s -> ref_inside r (Sch p a (Some s) i o)
| RI_items r s p a ap o : ref_inside r s -> ref_inside r (Sch p a ap (Some s) o).
