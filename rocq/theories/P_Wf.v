(** Deciding that a document has no key twice, for examples. *)
From Verif Require Import PyBase PyFacts PyJson M_SpecVal P_SpecBase.
Close Scope Q_scope.

Fixpoint wfb (j : json) : bool :=
  match j with
  | JList l => forallb wfb l
  | JObj d => nodupb (map fst d) && forallb (fun kv => wfb (snd kv)) d
  | _ => true
  end.
Fixpoint wfb_ok (j : json) : wfb j = true -> wf j.
Proof.
  destruct j as [| | | | |l|d]; intro E; try constructor.
  - cbn [wfb] in E. induction l as [|x l IH]; constructor; cbn [forallb] in E; apply andb_prop in E as (A & B); [now apply wfb_ok|now apply IH].
  - cbn [wfb] in E. apply andb_prop in E as (A & _). now apply nodupb_ok.
  - cbn [wfb] in E. apply andb_prop in E as (_ & B). induction d as [|[k x] d IH]; constructor; cbn [forallb snd] in B; apply andb_prop in B as (A & B); [now apply wfb_ok|now apply IH].
Qed.
