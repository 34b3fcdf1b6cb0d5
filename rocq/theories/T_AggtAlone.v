(** C41, continued: schemas that are not composed of others. *)
From Coq Require Import Lia.
From Verif Require Import PyBase PyFacts PyJson M_SpecVal M_Merge S_Merge P_SpecBase P_Op P_Merge M_Aggt S_Aggt P_Aggt P_AggtMerge P_AggtGather P_AggtAll P_AggtRegular P_AggtAlone T_Aggt.
Close Scope Q_scope.

(** The schema that is read for [o]: the composed one of the schema where its references end, or
    that schema if it has none (primitives/render.py:174). *)
Definition read_for (h : heap) (o t : oid) : Prop := exists u n, ends h o u /\ is_node h u n /\ t = match s_final n with Some f => f | None => u end.

Section Done.
  Context (fuel : nat) (h h' : heap) (ids : list oid).
  Hypothesis F : fresh_heap h.
  Hypothesis LI : forall i, In i ids -> exists n, is_node h i n.
  Hypothesis E : aggregate fuel h ids = Ok h'.
  Lemma done_alone : alone h'.
  Proof.
    apply (aggregate_alone (length h) fuel ids h h'); [now apply fresh_good| | |exact E].
    - intros i I. destruct (LI _ I) as (n & X). apply nth_error_Some. unfold is_node in X. congruence.
    - intros i n f N X. destruct (F _ _ N) as (_ & _ & Y & _). congruence.
  Qed.
  (** The composed schema of a schema without allOf is a copy of it: all its values, its items,
      properties and additionalProperties. *)
  Theorem c41_alone : forall i e n, In i ids -> ends h i e -> is_node h e n -> s_allof n = [] -> exists f, final_is h' e f /\ copy h' e f.
  Proof.
    intros i e n I EE N L. destruct (done _ _ _ _ F LI E) as (_ & GR & D). destruct (D _ _ I EE) as (f & FF). exists f. split; [exact FF|].
    destruct FF as (n' & N' & X). destruct (GR _ _ N) as (m & M & (_ & _ & _ & AL & _)). pose proof (node_fun _ _ _ _ N' M) as <-. eapply done_alone; eauto. congruence.
  Qed.
  (** So it is for the copies inside composed schemas: what is read for a copy [o] of [o'] is a copy of
      what [o'] refers to. *)
  Theorem c41_read : forall o o' u' n', copy h' o' o -> ends h' o' u' -> is_node h' u' n' -> s_allof n' = [] ->
    exists t, read_for h' o t /\ copy h' u' t /\ forall t', read_for h' o t' -> t' = t.
  Proof.
    intros o o' u' n' K EE N' L. destruct (done _ _ _ _ F LI E) as (G & _). destruct (copy_end _ (g_closed _ _ G) _ _ _ K EE) as (u & EU & KU).
    destruct (ends_node _ _ _ EU) as (n & N). exists (match s_final n with Some f => f | None => u end). split; [exists u, n; auto|]. split.
    - destruct (s_final n) as [f|] eqn:X; [|exact KU]. eapply (proj1 (copy_trans h')); [exact KU|]. eapply done_alone; [exact N|exact X|].
      apply copy_inv in KU as (a & b & A & B & (_ & _ & _ & KL & _)). pose proof (node_fun _ _ _ _ A N') as ->. pose proof (node_fun _ _ _ _ B N) as ->. rewrite L in KL. now inversion KL.
    - intros t' (v & m & EV & M & ->). pose proof (ends_fun _ _ _ _ EV EU) as ->. now rewrite (node_fun _ _ _ _ M N).
  Qed.
End Done.
Print Assumptions c41_alone.
Print Assumptions c41_read.

(** ** Example: a pet with tags, an owner that refers to a person, and a person with pets. *)
Definition array_of (i : oid) : node := Node (supdate (s_plain new_node) [(lit "type", VStr (lit "array")); (lit "maxItems", VInt 2)]) None None (Some i) [] [] (ABool true).
Definition pets : heap :=
  [ schema [("type"%string, VStr (lit "object")); req ["tags"%string]] None [] [("tags"%string, 2); ("owner"%string, 4)];
    schema [("type"%string, VStr (lit "object"))] None [] [("pets"%string, 5)];
    array_of 3; typed "string"; schema [] (Some 1) [] []; array_of 6; schema [] (Some 0) [] [] ].
Example pets_fresh : fresh_heap pets.
Proof. apply fresh_ok. vm_compute. reflexivity. Qed.
Example pets_done : aggregate 30 pets [0; 1; 2; 3; 5] = Ok (match aggregate 30 pets [0; 1; 2; 3; 5] with Ok h => h | Err _ => [] end) /\
  forall i, In i [0; 1; 2; 3; 5] -> exists n, is_node pets i n /\ ends pets i i /\ s_allof n = [].
Proof.
  split; [vm_compute; reflexivity|]. intros i I.
  repeat (destruct I as [<-|I]; [eexists; split; [reflexivity|split; [eapply ends_here; reflexivity|reflexivity]]|]). destruct I.
Qed.
(** The composed pet has its own copy of the tags, and the same reference. *)
Example pets_final : exists f x y, final_is (result pets [0; 1; 2; 3; 5]) 0 f /\ property (result pets [0; 1; 2; 3; 5]) f (lit "tags") x /\ x <> 2 /\
  property (result pets [0; 1; 2; 3; 5]) f (lit "owner") y /\ ends (result pets [0; 1; 2; 3; 5]) y 1.
Proof.
  do 3 eexists. split; [eexists; split; vm_compute; reflexivity|]. split; [eexists; split; vm_compute; reflexivity|]. split; [discriminate|].
  split; [eexists; split; vm_compute; reflexivity|]. eapply ends_there; [vm_compute; reflexivity|vm_compute; reflexivity|]. eapply ends_here; vm_compute; reflexivity.
Qed.
