(** C54: scanning calls every handler that is due, once and in order. *)
From Coq Require Import Lia Sorting.Sorted.
From Verif Require Import PyBase M_Scan S_Scan P_Scan.

Section Scan.
  Context {K H O W R S : Type} (eqb : K -> K -> bool) (eqb_spec : forall a b, reflect (a = b) (eqb a b)) (mro : K -> list K) (base : K) (cls_of : O -> K).
  Context (call : S -> W -> H -> str -> O -> S * res R) (result : S -> W -> R -> S * res unit).
  (** A scan performs exactly the calls that are due, each one once, ordered by the visited
      objects, the scanners, the classes from the object's own one upwards, and the
      registrations.  The first exception ends it. *)
  Theorem c54_calls : forall (s : S) (route : list (entry K H W)) (objs : list (str * O)), exists calls,
    scan eqb mro base cls_of call result s route objs = each (perform call result) s (map snd calls) /\
    (forall p ev, In (p, ev) calls <-> due eqb mro base cls_of route objs p ev) /\
    StronglySorted before (map fst calls).
  Proof.
    intros s route objs. exists (all_events eqb mro base cls_of route objs). split; [apply scan_events|].
    split; [intros p ev; now apply events_due|apply events_sorted].
  Qed.
  (** The handlers of a class are those registered for it, in the order of the registration. *)
  Theorem c54_routes : forall hist r, registered eqb mro base [] hist = Ok r -> forall (c : K) (f : H),
    (exists fs, dget eqb c r = Some fs /\ In f fs) <-> exists ts, In (ts, f) hist /\ In c ts.
  Proof.
    intros hist r E c f. apply (registered_ok eqb eqb_spec) in E as (_ & E). specialize (E c). unfold handlers_of at 2 in E. cbn [dget app] in E.
    assert (Q : (exists fs, dget eqb c r = Some fs /\ In f fs) <-> In f (handlers_of eqb c r)).
    { unfold handlers_of. destruct (dget eqb c r) as [l|]; split.
      - intros (fs & F & IN). injection F as ->. exact IN.
      - eauto.
      - intros (fs & F & _). discriminate F.
      - intros []. }
    rewrite Q, E, in_flat_map. split.
    - intros ((ts & g) & IN & X). apply in_flat_map in X as (t & IT & X). destruct (eqb_spec c t) as [->|]; [|destruct X]. destruct X as [<-|[]]. eauto.
    - intros (ts & IN & IC). exists (ts, f). split; [exact IN|]. apply in_flat_map. exists c. split; [exact IC|]. destruct (eqb_spec c c); [now left|congruence].
  Qed.
  Theorem c54_order : forall hist r, registered eqb mro base [] hist = Ok r -> forall (c : K),
    match dget eqb c r with Some fs => fs | None => [] end = flat_map (fun tf : list K * H => flat_map (fun t => if eqb c t then [snd tf] else []) (fst tf)) hist.
  Proof. intros hist r E c. apply (registered_ok eqb eqb_spec) in E as (_ & E). exact (E c). Qed.
  (** Only classes of objects of the specification can be registered. *)
  Theorem c54_refused : forall (hist : list (list K * H)),
    (forall r, registered eqb mro base [] hist = Ok r -> forall ts f t, In (ts, f) hist -> In t ts -> In base (mro t)) /\
    (forall e, registered eqb mro base [] hist = Err e -> e = ValueError /\ exists ts f t, In (ts, f) hist /\ In t ts /\ ~ In base (mro t)).
  Proof.
    intros hist. split.
    - intros r E ts f t IN IT. apply (registered_ok eqb eqb_spec) in E as (F & _). rewrite Forall_forall in F. specialize (F _ IN). rewrite Forall_forall in F. now apply F.
    - intros e E. apply (registered_err eqb eqb_spec) in E as (-> & N). split; [reflexivity|].
      assert (D : forall t, {In base (mro t)} + {~ In base (mro t)}).
      { intros t. apply in_dec. intros a b. destruct (eqb_spec a b); [now left|now right]. }
      apply Exists_Forall_neg in N.
      + apply Exists_exists in N as ((ts & f) & IN & N). cbn [fst] in N. apply Exists_Forall_neg in N.
        * apply Exists_exists in N as (t & IT & N). exists ts, f, t. auto.
        * intros t. destruct (D t); unfold below_base; tauto.
      + intros (ts & f). cbn [fst]. destruct (Forall_dec (below_base mro base) D ts); tauto.
  Qed.
End Scan.
Print Assumptions c54_calls.
Print Assumptions c54_routes.
Print Assumptions c54_order.
Print Assumptions c54_refused.

(** A class 4 below 3 below the base 1 below object 0; two scanners, the second one with a
    function for results; handlers write down what they are called with. *)
Definition ex_mro (c : nat) : list nat := match c with 4 => [4; 3; 1; 0] | 3 => [3; 1; 0] | 1 => [1; 0] | c => [c; 0] end.
Definition ex_route (l : list (list nat * nat)) : dict nat (list nat) := match registered Nat.eqb ex_mro 1 [] l with Ok r => r | Err _ => [] end.
Definition ex_call (s : list (nat * nat * nat)) (w f : nat) (p : str) (o : nat) : list (nat * nat * nat) * res nat := (s ++ [(w, f, o)], Ok f).
Definition ex_result (s : list (nat * nat * nat)) (w r : nat) : list (nat * nat * nat) * res unit := (s ++ [(w, r, 100)], Ok tt).
Example c54_ex :
  scan Nat.eqb ex_mro 1 (fun o => o) ex_call ex_result [] [Entry 0 (ex_route [([3; 4], 10); ([4], 11)]) false; Entry 1 (ex_route [([3], 12)]) true] [(lit "#", 4); (lit "#/x", 3)] =
  ([(0, 10, 4); (0, 11, 4); (0, 10, 4); (1, 12, 4); (1, 12, 100); (0, 10, 3); (1, 12, 3); (1, 12, 100)], Ok tt).
Proof. vm_compute. reflexivity. Qed.
Example c54_ex_refused : registered Nat.eqb ex_mro 1 [] [([3; 0], 10)] = Err ValueError.
Proof. reflexivity. Qed.
