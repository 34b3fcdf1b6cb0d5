(** C41: composing schemas. *)
From Coq Require Import Lia.
From Verif Require Import PyBase PyFacts PyJson M_SpecVal M_Merge S_Merge P_SpecBase M_Aggt S_Aggt P_Aggt P_AggtMerge P_AggtGather P_AggtAll P_AggtEnds P_AggtRegular.
Close Scope Q_scope.

(** Composing the schemas of a document ends, whatever they refer to, unless values cannot
    be merged. *)
Theorem c41_terminates : forall h ids, fresh_heap h -> (forall i, In i ids -> exists n, is_node h i n) ->
  exists N r, ((exists h', r = Ok h') \/ r = Err TypeError \/ r = Err ValueError) /\ forall fuel, N <= fuel -> aggregate fuel h ids = r.
Proof.
  intros h ids F LI. destruct (any_aggregate h ids F LI) as (N & r & P & E). exists N, r. split; [|exact E]. destruct r as [h'|e]; [left; eauto|right]. destruct (P e eq_refl) as [->| ->]; auto.
Qed.
Print Assumptions c41_terminates.

(** It succeeds when lists and dicts are not mixed with other values in the same field. *)
Theorem c41_possible : forall h ids, fresh_heap h -> regular h -> (forall i, In i ids -> exists n, is_node h i n) ->
  exists N h', forall fuel, N <= fuel -> aggregate fuel h ids = Ok h'.
Proof. intros h ids F R LI. now apply regular_aggregate. Qed.
Print Assumptions c41_possible.

Section Done.
  Context (fuel : nat) (h h' : heap) (ids : list oid).
  Hypothesis F : fresh_heap h.
  Hypothesis LI : forall i, In i ids -> exists n, is_node h i n.
  Hypothesis E : aggregate fuel h ids = Ok h'.
  Lemma done : good (length h) h' /\ grows h h' /\ forall i e, In i ids -> ends h i e -> exists f, final_is h' e f.
  Proof.
    apply (aggregate_ok (length h) fuel ids h h'); [now apply fresh_good| |exact E]. intros i I. destruct (LI _ I) as (n & X). apply nth_error_Some. unfold is_node in X. congruence.
  Qed.
  (** The schema behind every schema gets a composed schema. *)
  Theorem c41_composed : forall i e, In i ids -> ends h i e -> exists f, final_is h' e f /\ composed h' e f.
  Proof.
    intros i e I EE. destruct done as (G & _ & D). destruct (D _ _ I EE) as (f & FF). exists f. split; [exact FF|]. destruct FF as (n & N & X). now destruct (g_final _ _ G _ _ _ N X) as (m & _ & _ & _ & _ & _ & C).
  Qed.
  (** No schema gets another one. *)
  Theorem c41_only : forall i f, final_is h' i f -> composed h' i f /\ length h <= f.
  Proof.
    intros i f (n & N & X). destruct done as (G & _). destruct (g_final _ _ G _ _ _ N X) as (m & L & _ & _ & _ & _ & C). auto.
  Qed.
  (** The schemas of the document do not change. *)
  Theorem c41_unchanged : forall i n, is_node h i n -> unchanged h h' i.
  Proof.
    intros i n N. destruct done as (_ & G & _). destruct (G _ _ N) as (m & M & X). exists n, m. split; [exact N|]. split; [exact M|]. destruct X as (A1 & A2 & A3 & A4 & A5 & A6 & _). auto 10.
  Qed.
  (** So the parts, properties and required names are those of the document. *)
  Theorem c41_document : forall i e, In i ids -> ends h i e -> exists f, final_is h' e f /\
    (forall k, (exists q, property h' f k q) <-> exists j p, part h e j /\ property h j k p) /\
    (forall k p, property h e k p -> exists q, property h' f k q /\ copy h' p q) /\
    (forall x, requires h' f x <-> exists j, part h e j /\ requires h j x).
  Proof.
    intros i e I EE. destruct (c41_composed _ _ I EE) as (f & FF & (C1 & C2 & _ & C4 & _)). exists f. split; [exact FF|]. destruct done as (_ & G & _). pose proof (g_closed _ _ (fresh_good _ F)) as C.
    assert (NE : exists n, is_node h e n) by (eapply ends_node; eauto). split; [|split].
    - intro k. rewrite (C1 k). split; intros (j & p & P & PP).
      + apply (part_same h h' C G) in P; [|exact NE]. exists j, p. split; [exact P|]. apply (property_same h h' G); [exact (part_node h e j NE P)|exact PP].
      + pose proof (part_node h e j NE P) as NJ. apply (part_same h h' C G) in P; [|exact NE]. exists j, p. split; [exact P|]. now apply (property_same h h' G).
    - intros k p P. apply C2. now apply (property_same h h' G).
    - intro x. rewrite (C4 x). split; intros (j & P & PP).
      + apply (part_same h h' C G) in P; [|exact NE]. exists j. split; [exact P|]. apply (requires_same h h' G); [exact (part_node h e j NE P)|exact PP].
      + pose proof (part_node h e j NE P) as NJ. apply (part_same h h' C G) in P; [|exact NE]. exists j. split; [exact P|]. now apply (requires_same h h' G).
  Qed.
End Done.
Print Assumptions c41_composed.
Print Assumptions c41_only.
Print Assumptions c41_unchanged.
Print Assumptions c41_document.

(** ** Examples *)
Definition schema (fs : list (string * val)) (ref : option oid) (allof : list oid) (props : list (string * oid)) : node :=
  Node (supdate (s_plain new_node) (map (fun kv => (lit (fst kv), snd kv)) fs)) ref None None allof (map (fun kp => (lit (fst kp), snd kp)) props) (ABool true).
Definition typed (t : string) : node := schema [("type"%string, VStr t)] None [] [].
Definition req (l : list string) : string * val := ("required"%string, VList (map (fun s => VStr (lit s)) l)).

(** 0: allOf [-> 1], with "own" and "x"; 1: allOf [-> 2], with "x"; 2: with "x" and "deep";
    9 refers to 0. *)
Definition chain : heap :=
  [ schema [req ["own"%string]] None [3] [("own"%string, 4)];
    schema [] None [5] [("x"%string, 6)];
    schema [req ["deep"%string; "x"%string]] None [] [("x"%string, 7); ("deep"%string, 8)];
    schema [] (Some 1) [] []; typed "boolean"; schema [] (Some 2) [] []; typed "integer"; typed "string"; typed "number"; schema [] (Some 0) [] [] ].
Example chain_fresh : fresh_heap chain.
Proof. apply fresh_ok. vm_compute. reflexivity. Qed.
Lemma always_by h k (P : val -> Prop) : (forall n v, In n h -> sget (lit k) (s_plain n) = Some v -> P v) -> always h k P.
Proof. intros H i v (n & N & S). eapply H; [eapply nth_error_In; exact N|exact S]. Qed.
Example chain_regular : regular chain.
Proof.
  split; [|intro k; destruct (string_dec k "required") as [->|D]; [left|right; right]].
  1,2: apply always_by; intros n v I; repeat (destruct I as [<-|I]; [vm_compute; intro E; injection E as <-; left; eexists; reflexivity|]); destruct I.
  apply always_by. intros n v I G C.
  assert (X : forall f, In f chain -> forall k' w, In (k', w) (s_plain f) -> k' = lit "required" \/ match w with VList _ | VDict _ => False | _ => True end).
  { intros f If. repeat (destruct If as [<-|If]; [vm_compute; intros k' w J; repeat (destruct J as [J|J]; [injection J as <- <-; auto|]); destruct J|]). destruct If. }
  destruct (X _ I _ _ (sget_In _ _ _ G)) as [E|E]; [apply lit_inj in E; auto|]. destruct C as [(l & ->)|(d & ->)]; exact E.
Qed.
Definition result (h : heap) (ids : list oid) : heap := match aggregate 20 h ids with Ok h' => h' | Err _ => [] end.
Example chain_done : aggregate 20 chain [9; 0; 1; 2] = Ok (result chain [9; 0; 1; 2]) /\ final_is (result chain [9; 0; 1; 2]) 0 22 /\ ends chain 9 0 /\ ends chain 2 2.
Proof.
  split; [vm_compute; reflexivity|]. split; [eexists; split; vm_compute; reflexivity|]. split; [eapply ends_there; [reflexivity|reflexivity|]|]; eapply ends_here; reflexivity.
Qed.
Example chain_parts : exists p, part chain 0 2 /\ property chain 2 (lit "deep") p /\ requires chain 2 (lit "deep") /\ ~ property chain 0 (lit "deep") p.
Proof.
  exists 8. split; [|split; [|split]].
  - right. apply member_next with 1; [eapply (member_direct _ 0 _ 3 1)|eapply (member_direct _ 1 _ 5 2)]; [reflexivity|now left|eapply ends_there; [reflexivity|reflexivity|eapply ends_here; reflexivity]|reflexivity|now left|eapply ends_there; [reflexivity|reflexivity|eapply ends_here; reflexivity]].
  - eexists. split; reflexivity.
  - eexists. split; [eexists; split; [reflexivity|vm_compute; reflexivity]|]. now left.
  - intros (n & N & S). injection N as <-. discriminate S.
Qed.
(** Schemas that are composed of each other *)
Definition ring : heap :=
  [ schema [req ["a"%string]] None [2] [("a"%string, 4)]; schema [req ["b"%string]] None [3] [("b"%string, 5)]; schema [] (Some 1) [] []; schema [] (Some 0) [] []; typed "string"; typed "integer"; schema [] (Some 6) [] [] ].
Example ring_fresh : fresh_heap ring.
Proof. apply fresh_ok. vm_compute. reflexivity. Qed.
Example ring_done : aggregate 20 ring [0; 1; 2; 3; 6] = Ok (result ring [0; 1; 2; 3; 6]) /\ final_is (result ring [0; 1; 2; 3; 6]) 0 14 /\ property (result ring [0; 1; 2; 3; 6]) 14 (lit "b") 10.
Proof. split; [vm_compute; reflexivity|]. split; eexists; split; vm_compute; reflexivity. Qed.

(** A property that several parts have is not always taken from the nearest of them: here
    a schema has one with a member, and the member's members's wins. *)
Theorem c41_nearest_refuted : exists h h' i f m k p q r, fresh_heap h /\ regular h /\ aggregate 20 h [i] = Ok h' /\ final_is h' i f /\
  member h i m /\ property h m k p /\ member h m q /\ property h q k r /\ (exists x, property h' f k x /\ field h' x "type" (VStr (lit "string")) /\ field h r "type" (VStr (lit "string")) /\ field h p "type" (VStr (lit "integer"))).
Proof.
  exists chain, (result chain [0]), 0, 22, 1, (lit "x"), 6, 2, 7. split; [exact chain_fresh|]. split; [exact chain_regular|]. split; [vm_compute; reflexivity|].
  split; [eexists; split; vm_compute; reflexivity|].
  split; [eapply (member_direct _ 0 _ 3 1); [reflexivity|now left|eapply ends_there; [reflexivity|reflexivity|eapply ends_here; reflexivity]]|].
  split; [eexists; split; reflexivity|].
  split; [eapply (member_direct _ 1 _ 5 2); [reflexivity|now left|eapply ends_there; [reflexivity|reflexivity|eapply ends_here; reflexivity]]|].
  split; [eexists; split; reflexivity|].
  eexists. split; [eexists; split; vm_compute; reflexivity|]. split; [|split]; eexists; split; vm_compute; reflexivity.
Qed.
Print Assumptions c41_nearest_refuted.
