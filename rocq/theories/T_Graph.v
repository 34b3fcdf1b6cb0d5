(** C06 (deref), C07 (walk), C08 (strict preparation). *)
From Verif Require Import PyBase PyFacts M_Graph S_Graph P_Graph.

(** C06: deref returns exactly the end of a finite reference chain. *)
Theorem c06_deref_end : forall h o e,
  (exists g', deref h o [] = Ok (e, g')) <->
  (chain_to (ref_obj h) o e /\ ref_obj h e = None).
Proof.
  intros h o e. rewrite deref_Ok_iff. split; [tauto|].
  intros [A B]. repeat split; auto.
Qed.
Print Assumptions c06_deref_end.
(** C06: and raises CycleDetectionError exactly when the chain runs into a cycle. *)
Theorem c06_deref_cycle : forall h o,
  deref h o [] = Err CycleDetectionError <->
  exists x n, chain_to (ref_obj h) o x /\ ref_obj h x = Some n /\ chain_to (ref_obj h) n x.
Proof. exact deref_cycle_iff. Qed.
Print Assumptions c06_deref_cycle.
(** C06: with a guard that already saw [g]: those objects may not be met again. *)
Theorem c06_deref_guarded : forall h o g e,
  (exists g', deref h o g = Ok (e, g')) <->
  (chain_to (ref_obj h) o e /\ ref_obj h e = None /\
   forall x, chain_to (ref_obj h) o x -> ~ In x g).
Proof. exact deref_Ok_iff. Qed.
Print Assumptions c06_deref_guarded.
(** C06: it terminates (the model's fuel is never exhausted); the only exception is
    CycleDetectionError. *)
Theorem c06_total : forall h o g e, deref h o g = Err e -> e = CycleDetectionError.
Proof. exact deref_errs. Qed.
Print Assumptions c06_total.
Example c06_ex1 : deref [(1, 2); (2, 3)] 1 [] = Ok (3, [1; 2; 3]).
Proof. reflexivity. Qed.
Example c06_ex2 : deref [(1, 2); (2, 3); (3, 2)] 1 [] = Err CycleDetectionError.
Proof. reflexivity. Qed.
Example c06_ex3 : deref [(1, 2)] 1 [2] = Err CycleDetectionError.
Proof. reflexivity. Qed.

(** C07: termination, exactness and absence of duplicates, for strings (as used by
    CycleDetector). *)
Theorem c07_walk : forall (out : str -> list str) start cyc,
  finite_graph out start ->
  exists r m, (forall m', m <= m' -> walk str_eqb str_leb m' start out cyc = Ok r) /\
    (forall z, In z r <->
       In z cyc \/ listed_cycle out (fun a b => str_leb a b = true) start z) /\
    (NoDup cyc -> NoDup r).
Proof.
  intros. apply walk_correct; auto using str_eqb_eq, str_leb_total, str_leb_antisym.
  apply str_leb_trans.
Qed.
Print Assumptions c07_walk.
(** C07: for every vertex type with a decidable equality and a total order. *)
Theorem c07_walk_generic : forall V (eqb leb : V -> V -> bool),
  (forall a b, eqb a b = true <-> a = b) ->
  (forall a b, leb a b = true \/ leb b a = true) ->
  (forall a b c, leb a b = true -> leb b c = true -> leb a c = true) ->
  (forall a b, leb a b = true -> leb b a = true -> a = b) ->
  forall (out : V -> list V) start cyc,
  finite_graph out start ->
  exists r m, (forall m', m <= m' -> walk eqb leb m' start out cyc = Ok r) /\
    (forall z, In z r <-> In z cyc \/ listed_cycle out (fun a b => leb a b = true) start z) /\
    (NoDup cyc -> NoDup r).
Proof. intros. now apply walk_correct. Qed.
Print Assumptions c07_walk_generic.
(** C07: the result does not depend on the number of steps granted. *)
Theorem c07_walk_unique : forall (out : str -> list str) start cyc m1 m2 r1 r2,
  walk str_eqb str_leb m1 start out cyc = Ok r1 ->
  walk str_eqb str_leb m2 start out cyc = Ok r2 -> r1 = r2.
Proof. intros. eapply walk_Ok_unique; eauto. Qed.
Print Assumptions c07_walk_unique.

(** Fidelity: tests/test_utils.py WalkTestCase. *)
Definition natout (l : list (nat * list nat)) (v : nat) : list nat :=
  match dget Nat.eqb v l with Some x => x | None => [] end.
Definition nwalk := fun s l c => @walk nat Nat.eqb Nat.leb 200 s (natout l) c.
Example c07_ex_self : nwalk 0 [(0, [0]); (1, [2]); (2, [])] [] = Ok [[0; 0]].
Proof. vm_compute. reflexivity. Qed.
(** walk from every vertex in turn, as the tests do *)
Fixpoint nwalks (starts : list nat) (l : list (nat * list nat)) (c : list (list nat)) :=
  match starts with
  | [] => Ok c
  | s :: ss => do c' <- nwalk s l c; nwalks ss l c'
  end.
Example c07_ex_long : nwalks (seq 0 6) [(0,[1]);(1,[2]);(2,[3]);(3,[4]);(4,[5]);(5,[1])] [] =
  Ok [[1; 2; 3; 4; 5; 1]].
Proof. vm_compute. reflexivity. Qed.
Example c07_ex_multiple :
  nwalks (seq 0 9) [(0,[6]);(1,[6]);(2,[0]);(3,[1]);(4,[4]);(5,[3]);(6,[3]);(7,[4]);(8,[0])] [] =
  Ok [[1; 6; 3; 1]; [4; 4]].
Proof. vm_compute. reflexivity. Qed.
Example c07_ex_border :
  nwalks (seq 0 6) [(0,[1]);(1,[2]);(2,[3]);(3,[0;5]);(4,[2]);(5,[4])] [] =
  Ok [[0; 1; 2; 3; 0]; [2; 3; 5; 4; 2]].
Proof. vm_compute. reflexivity. Qed.
Example c07_ex_none : nwalk 0 [(0, [1; 2]); (1, [3]); (2, [3; 4]); (3, [4]); (4, [])] [] = Ok [].
Proof. vm_compute. reflexivity. Qed.
Example c07_ex_finite :
  finite_graph (natout [(0, [1]); (1, [2]); (2, [3; 4]); (3, [1]); (4, [0])]) 0.
Proof.
  exists [0; 1; 2; 3; 4]. split; [simpl; auto|].
  intros v w [<-|[<-|[<-|[<-|[<-|[]]]]]]; simpl; tauto.
Qed.

(** C08: the schema cycles recorded by a full scan. *)
Theorem c08_detect_exact : forall doc paths,
  exists r m, (forall m', m <= m' -> detect m' doc paths [] = Ok r) /\
    (forall z, In z r <-> exists p, In p paths /\
       listed_cycle (schema_out doc) (fun a b => str_leb a b = true) p z) /\
    NoDup r.
Proof.
  intros doc paths. destruct (detect_correct doc paths []) as (r & m & D & S & N).
  exists r, m. split; auto. split; [|apply N; constructor].
  intros z. rewrite S. simpl. tauto.
Qed.
Print Assumptions c08_detect_exact.
(** C08: strict preparation raises iff some schema in the document reaches a circular
    reference. *)
Theorem c08_strict_iff : forall doc paths r m,
  detect m doc paths [] = Ok r ->
  (prepare_cycle_check true r = Err CycleDetectionError <->
   exists p x y, In p paths /\ reach (schema_out doc) p x /\
                 In y (schema_out doc x) /\ reach (schema_out doc) y x).
Proof. exact prepare_strict_iff. Qed.
Print Assumptions c08_strict_iff.
(** C08: otherwise, and always without strict, this check passes. *)
Theorem c08_otherwise_ok : forall strict r,
  prepare_cycle_check strict r = Err CycleDetectionError \/ prepare_cycle_check strict r = Ok tt.
Proof. intros [] [|z r]; simpl; auto. Qed.
Print Assumptions c08_otherwise_ok.
Theorem c08_not_strict : forall r, prepare_cycle_check false r = Ok tt.
Proof. intros [|z r]; reflexivity. Qed.
Print Assumptions c08_not_strict.
(** C08: the edges are exactly the (non-empty) references inside the schema. *)
Theorem c08_edges_complete : forall r s, ref_inside r s -> In r (schema_out_obj s).
Proof.
  induction 1; simpl; rewrite !in_app_iff.
  - destruct r; [easy|]. do 4 right. now left.
  - left. apply in_flat_map. exists (n, s). auto.
  - right. left. apply in_flat_map. exists s. split; auto.
  - auto.
  - auto.
Qed.
Print Assumptions c08_edges_complete.
Theorem c08_edges_sound : forall s r, In r (schema_out_obj s) -> ref_inside r s.
Proof.
  fix IH 1. intros [p a ap i o] r. simpl. rewrite !in_app_iff.
  intros [H|[H|[H|[H|H]]]].
  - assert (exists n s, In (n, s) p /\ ref_inside r s) as (n & s & Hi & Hr).
    { induction p as [|[n s] p IHp]; simpl in H; [easy|].
      apply in_app_iff in H as [H|H].
      - exists n, s. split; [now left|]. now apply IH.
      - destruct (IHp H) as (n' & s' & Hi & Hr). exists n', s'. split; [now right|auto]. }
    eapply RI_prop; eauto.
  - assert (exists s, In s a /\ ref_inside r s) as (s & Hi & Hr).
    { induction a as [|s a IHa]; simpl in H; [easy|].
      apply in_app_iff in H as [H|H].
      - exists s. split; [now left|]. now apply IH.
      - destruct (IHa H) as (s' & Hi & Hr). exists s'. split; [now right|auto]. }
    eapply RI_allof; eauto.
  - destruct ap as [s|]; [|easy]. apply RI_addp. now apply IH.
  - destruct i as [s|]; [|easy]. apply RI_items. now apply IH.
  - destruct o as [[|c o]|]; simpl in H; try easy. destruct H as [<-|[]]. now apply RI_own.
Qed.
Print Assumptions c08_edges_sound.
Definition sref (r : string) : sch := Sch [] [] None None (Some (lit r)).
Definition doc_ex : sdict sch :=
  [(lit "#/definitions/a", Sch [(lit "x", sref "#/definitions/b")] [] None None None);
   (lit "#/definitions/b", Sch [] [sref "#/definitions/a"] None None None)].
Example c08_ex : detect 100 doc_ex (map fst doc_ex) [] =
  Ok [[lit "#/definitions/a"; lit "#/definitions/b"; lit "#/definitions/a"]].
Proof. vm_compute. reflexivity. Qed.
