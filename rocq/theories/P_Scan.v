(** Proofs about scanning. *)
From Coq Require Import Lia Sorting.Sorted.
From Verif Require Import PyBase M_Scan S_Scan.

Lemma each_app {S A} (f : S -> A -> S * res unit) l : forall s m,
  each f s (l ++ m) = match each f s l with (s, Ok _) => each f s m | (s, Err e) => (s, Err e) end.
Proof.
  induction l as [|x l IH]; intros s m; [reflexivity|]. cbn [each app]. destruct (f s x) as [s' [u|e]]; [apply IH|reflexivity].
Qed.
Lemma each_flat {S A B} (f : S -> B -> S * res unit) (g : A -> list B) l : forall s,
  each f s (flat_map g l) = each (fun s x => each f s (g x)) s l.
Proof.
  induction l as [|x l IH]; intros s; [reflexivity|]. cbn [each flat_map]. rewrite each_app.
  destruct (each f s (g x)) as [s' [u|e]]; [apply IH|reflexivity].
Qed.
Lemma each_map {S A B} (f : S -> B -> S * res unit) (g : A -> B) l : forall s,
  each f s (map g l) = each (fun s x => f s (g x)) s l.
Proof. induction l as [|x l IH]; intros s; [reflexivity|]. cbn [each map]. destruct (f s (g x)) as [s' [u|e]]; [apply IH|reflexivity]. Qed.
Lemma each_ext {S A} (f g : S -> A -> S * res unit) l : (forall s x, f s x = g s x) -> forall s, each f s l = each g s l.
Proof. intros E. induction l as [|x l IH]; intros s; [reflexivity|]. cbn [each]. rewrite E. destruct (g s x) as [s' [u|e]]; auto. Qed.

(** Numbered elements and positions *)
Fixpoint numbered {A} (i : nat) (l : list A) : list (nat * A) :=
  match l with [] => [] | x :: l => (i, x) :: numbered (S i) l end.
Lemma numbered_In {A} (l : list A) : forall i j x, In (j, x) (numbered i l) <-> i <= j /\ nth_error l (j - i) = Some x.
Proof.
  induction l as [|y l IH]; intros i j x; cbn [numbered In].
  - split; [intros []|]. intros (_ & E). now destruct (j - i).
  - rewrite IH. split.
    + intros [E|(L & E)]; [injection E as -> ->; split; [lia|]; now rewrite Nat.sub_diag|].
      split; [lia|]. replace (j - i) with (S (j - S i)) by lia. exact E.
    + intros (L & E). destruct (Nat.eq_dec i j) as [->|N]; [rewrite Nat.sub_diag in E; injection E as ->; now left|].
      right. split; [lia|]. replace (j - i) with (S (j - S i)) in E by lia. exact E.
Qed.
Lemma numbered_snd {A} (l : list A) : forall i, map snd (numbered i l) = l.
Proof. induction l as [|x l IH]; intros i; [reflexivity|]. cbn. now rewrite IH. Qed.
(** The positions below each element *)
Definition spread {A B} (g : A -> list (list nat * B)) (l : list A) : list (list nat * B) :=
  flat_map (fun ix => map (fun pe => (fst ix :: fst pe, snd pe)) (g (snd ix))) (numbered 0 l).
Lemma spread_In {A B} (g : A -> list (list nat * B)) l p e :
  In (p, e) (spread g l) <-> exists i q x, p = i :: q /\ nth_error l i = Some x /\ In (q, e) (g x).
Proof.
  unfold spread. rewrite in_flat_map. split.
  - intros ([i x] & IN & M). apply in_map_iff in M as ([q e'] & E & M). cbn in E. injection E as <- <-.
    apply numbered_In in IN as (_ & IN). rewrite Nat.sub_0_r in IN. exists i, q, x. auto.
  - intros (i & q & x & -> & N & IN). exists (i, x). split; [apply numbered_In; rewrite Nat.sub_0_r; auto with arith|].
    apply in_map_iff. exists (q, e). auto.
Qed.
Lemma sorted_app {A} (R : A -> A -> Prop) l : forall m, StronglySorted R l -> StronglySorted R m -> (forall x y, In x l -> In y m -> R x y) -> StronglySorted R (l ++ m).
Proof.
  induction l as [|x l IH]; intros m SL SM X; [exact SM|]. inversion SL as [|? ? SL' FL]; subst. cbn [app]. constructor.
  - apply IH; auto. intros a b A1 B1. apply X; [now right|exact B1].
  - apply Forall_app. split; [exact FL|]. apply Forall_forall. intros y IY. apply X; [now left|exact IY].
Qed.
Lemma spread_sorted {A B} (g : A -> list (list nat * B)) l :
  (forall x, In x l -> StronglySorted before (map fst (g x))) -> StronglySorted before (map fst (spread g l)).
Proof.
  unfold spread. generalize 0. induction l as [|x l IH]; intros i G; [constructor|].
  cbn [numbered flat_map fst snd]. rewrite map_app. apply sorted_app.
  - rewrite map_map. cbn [fst]. pose proof (G x (or_introl eq_refl)) as SX. clear -SX. induction (g x) as [|pe m IH]; [constructor|].
    cbn [map] in *. inversion SX as [|? ? SX' F]; subst. constructor; [now apply IH|].
    rewrite Forall_forall in *. intros q Q. apply in_map_iff in Q as (pe' & <- & Q). apply before_later, F. apply in_map_iff. eauto.
  - apply IH. intros y Y. apply G. now right.
  - intros a b A1 B1. rewrite map_map in A1. apply in_map_iff in A1 as (pe & <- & _).
    apply in_map_iff in B1 as ((b' & e) & <- & B1). apply in_flat_map in B1 as ((j & y) & NY & B1). apply numbered_In in NY as (L & _).
    apply in_map_iff in B1 as (pe' & E & _). injection E as <- _. cbn [fst]. apply before_here. lia.
Qed.
Lemma each_spread {S A B} (f : S -> B -> S * res unit) (g : A -> list (list nat * B)) l : forall s,
  each f s (map snd (spread g l)) = each (fun s x => each f s (map snd (g x))) s l.
Proof.
  unfold spread. generalize 0. induction l as [|x l IH]; intros i s; [reflexivity|].
  cbn [numbered flat_map fst snd each]. rewrite map_app, each_app, map_map. cbn [snd].
  destruct (each f s (map snd (g x))) as [s' [u|e]]; [apply IH|reflexivity].
Qed.

Section Scan.
  Context {K H O W R S : Type} (eqb : K -> K -> bool) (eqb_spec : forall a b, reflect (a = b) (eqb a b)) (mro : K -> list K) (base : K) (cls_of : O -> K).
  Context (call : S -> W -> H -> str -> O -> S * res R) (result : S -> W -> R -> S * res unit).
  Notation entry := (entry K H W).
  Notation event := (@event K H O W).
  Notation perform := (perform call result).
  (** The classes that are looked at *)
  Fixpoint looked (cs : list K) : list K :=
    match cs with [] => [] | c :: cs => if eqb c base then [] else c :: looked cs end.
  Lemma looked_nth cs : forall k c, nth_error (looked cs) k = Some c <-> nth_error cs k = Some c /\ forall k', k' <= k -> nth_error cs k' <> Some base.
  Proof.
    induction cs as [|c0 cs IH]; intros k c; cbn [looked].
    - split; [intros E|intros (E & _)]; destruct k; discriminate E.
    - destruct (eqb_spec c0 base) as [->|N].
      + split; [intros E; destruct k; discriminate E|]. intros (_ & X). elim (X 0 (Nat.le_0_l _)). reflexivity.
      + destruct k as [|k]; cbn [nth_error].
        * split; [|intros (E & _); exact E]. intros E. split; [exact E|]. intros k' L. assert (k' = 0) as -> by lia. cbn. congruence.
        * rewrite IH. split; intros (E & X); (split; [exact E|]).
          -- intros [|k'] L; cbn; [congruence|]. apply X. lia.
          -- intros k' L. apply (X (Datatypes.S k')). lia.
  Qed.
  Lemma nth_removelast {A} (l : list A) : forall k x, nth_error (removelast l) k = Some x <-> nth_error l k = Some x /\ k + 1 < length l.
  Proof.
    induction l as [|y l IH]; intros k x; [cbn; split; [intros E|intros (E & _)]; destruct k; discriminate E|].
    destruct l as [|z l].
    - cbn. split; [intros E; destruct k; discriminate E|]. intros (_ & L). lia.
    - change (removelast (y :: z :: l)) with (y :: removelast (z :: l)). destruct k as [|k]; cbn [nth_error].
      + split; [intros E; split; [exact E|cbn; lia]|intros (E & _); exact E].
      + rewrite IH. cbn [length]. split; intros (E & L); (split; [exact E|lia]).
  Qed.
  Definition of_class (e : entry) (path : str) (o : O) (c : K) : list (list nat * event) :=
    match dget eqb c (e_route e) with
    | Some fs => spread (fun f => [([], Event e path o f)]) fs
    | None => []
    end.
  Definition of_entry (path : str) (o : O) (e : entry) : list (list nat * event) :=
    spread (of_class e path o) (looked (removelast (mro (cls_of o)))).
  Definition of_obj (route : list entry) (po : str * O) : list (list nat * event) :=
    spread (of_entry (fst po) (snd po)) route.
  Definition all_events (route : list entry) (objs : list (str * O)) : list (list nat * event) := spread (of_obj route) objs.

  Lemma one_sorted {B} (x : B) : StronglySorted before (map fst [([] : list nat, x)]).
  Proof. constructor; constructor. Qed.
  Lemma events_sorted route objs : StronglySorted before (map fst (all_events route objs)).
  Proof.
    apply spread_sorted. intros po _. apply spread_sorted. intros e _. apply spread_sorted. intros c _. unfold of_class.
    destruct (dget eqb c (e_route e)) as [fs|]; [|constructor]. apply spread_sorted. intros f _. apply one_sorted.
  Qed.
  Lemma events_due route objs p ev : In (p, ev) (all_events route objs) <-> due eqb mro base cls_of route objs p ev.
  Proof.
    split.
    - intros IN. apply spread_In in IN as (i & q1 & [path o] & -> & Ni & IN). apply spread_In in IN as (j & q2 & e & -> & Nj & IN).
      apply spread_In in IN as (k & q3 & c & -> & Nk & IN). unfold of_class in IN.
      destruct (dget eqb c (e_route e)) as [fs|] eqn:D; [|destruct IN]. apply spread_In in IN as (l & q4 & f & -> & Nl & [IN|[]]).
      injection IN as <- <-. apply looked_nth in Nk as (Nk & X). apply nth_removelast in Nk as (Nk & L).
      cbn [fst snd] in *. econstructor; eauto. intros k' L' E. apply (X k' L'). apply nth_removelast. split; [exact E|]. lia.
    - intros [i j k l path o e c fs f Hi Hj Hk HL HB HD Hl]. apply spread_In. exists i, [j; k; l], (path, o). split; [reflexivity|]. split; [assumption|].
      apply spread_In. exists j, [k; l], e. split; [reflexivity|]. split; [assumption|].
      apply spread_In. exists k, [l], c. split; [reflexivity|]. split.
      + apply looked_nth. split; [apply nth_removelast; auto|]. intros k' L' E. apply nth_removelast in E as (E & _). eapply HB; eauto.
      + unfold of_class. rewrite HD. apply spread_In. exists l, [], f. split; [reflexivity|]. split; [assumption|]. now left.
  Qed.
  Lemma handle_looked e path o cs : forall s, handle_all eqb base call result e path o s cs = each (handle_cls eqb call result e path o) s (looked cs).
  Proof.
    induction cs as [|c cs IH]; intros s; [reflexivity|]. cbn [handle_all looked]. destruct (eqb c base); [reflexivity|].
    cbn [each]. destruct (handle_cls eqb call result e path o s c) as [s' [u|x]]; [apply IH|reflexivity].
  Qed.
  Lemma scan_events s route objs : scan eqb mro base cls_of call result s route objs = each perform s (map snd (all_events route objs)).
  Proof.
    unfold scan, all_events. rewrite each_spread. apply each_ext. intros s1 po. unfold of_obj. rewrite each_spread. apply each_ext. intros s2 e.
    unfold of_entry. rewrite handle_looked, each_spread. apply each_ext. intros s3 c. unfold handle_cls, of_class.
    destruct (dget eqb c (e_route e)) as [fs|]; [|reflexivity]. rewrite each_spread. apply each_ext. intros s4 f. cbn [map snd each]. unfold call_one, S_Scan.perform.
    cbn [ev_entry ev_path ev_obj ev_handler]. destruct (call s4 (e_self e) f (fst po) (snd po)) as [s5 [r|x]]; [|reflexivity]. destruct (e_result e); [|reflexivity].
    now destruct (result s5 (e_self e) r) as [s6 [[]|x]].
  Qed.

  (** Registering *)
  Definition handlers_of (c : K) (r : dict K (list H)) : list H := match dget eqb c r with Some l => l | None => [] end.
  Lemma dget_dset_same (r : dict K (list H)) c l : dget eqb c (dset eqb c l r) = Some l.
  Proof.
    induction r as [|[k v] r IH]; cbn [dset dget]; [destruct (eqb_spec c c); congruence|].
    destruct (eqb_spec c k) as [->|N]; cbn [dget]; [destruct (eqb_spec k k); congruence|]. destruct (eqb_spec c k); congruence.
  Qed.
  Lemma dget_dset_other (r : dict K (list H)) c d l : c <> d -> dget eqb c (dset eqb d l r) = dget eqb c r.
  Proof.
    intros N. induction r as [|[k v] r IH]; cbn [dset dget]; [destruct (eqb_spec c d); congruence|].
    destruct (eqb_spec d k) as [->|N2]; cbn [dget]; [destruct (eqb_spec c k); congruence|]. destruct (eqb_spec c k); congruence.
  Qed.
  Definition below_base (t : K) : Prop := In base (mro t).
  Lemma below_base_iff t : existsb (eqb base) (mro t) = true <-> below_base t.
  Proof.
    rewrite existsb_exists. split; [intros (x & IN & E)|intros IN; exists base; split; [exact IN|destruct (eqb_spec base base); congruence]].
    destruct (eqb_spec base x) as [Q|]; [unfold below_base; now rewrite Q|discriminate E].
  Qed.
  Lemma add_route_ok r t f r' : add_route eqb mro base r t f = Ok r' ->
    below_base t /\ forall c, handlers_of c r' = handlers_of c r ++ (if eqb c t then [f] else []).
  Proof.
    unfold add_route. destruct (existsb (eqb base) (mro t)) eqn:B; cbn [negb]; [|discriminate]. intros E. split; [now apply below_base_iff|].
    intros c. unfold handlers_of. destruct (eqb_spec c t) as [->|N].
    - destruct (dget eqb t r) as [l|] eqn:D; injection E as <-; now rewrite dget_dset_same.
    - destruct (dget eqb t r) as [l|] eqn:D; injection E as <-; rewrite dget_dset_other by exact N; now rewrite app_nil_r.
  Qed.
  Lemma register_ok f ts : forall r r', register eqb mro base r ts f = Ok r' ->
    Forall below_base ts /\ forall c, handlers_of c r' = handlers_of c r ++ flat_map (fun t => if eqb c t then [f] else []) ts.
  Proof.
    induction ts as [|t ts IH]; intros r r' E; cbn [register] in E.
    - injection E as <-. split; [constructor|]. intros c. cbn. now rewrite app_nil_r.
    - destruct (add_route eqb mro base r t f) as [r1|] eqn:A; [|discriminate E]. cbn [bind] in E.
      apply add_route_ok in A as (B & A). apply IH in E as (F & E). split; [now constructor|]. intros c. cbn [flat_map]. now rewrite E, A, app_assoc.
  Qed.
  Lemma registered_ok hist : forall r r', registered eqb mro base r hist = Ok r' ->
    Forall (fun tf : list K * H => Forall below_base (fst tf)) hist /\
    forall c, handlers_of c r' = handlers_of c r ++ flat_map (fun tf => flat_map (fun t => if eqb c t then [snd tf] else []) (fst tf)) hist.
  Proof.
    induction hist as [|[ts f] hist IH]; intros r r' E; cbn [registered] in E.
    - injection E as <-. split; [constructor|]. intros c. cbn. now rewrite app_nil_r.
    - destruct (register eqb mro base r ts f) as [r1|] eqn:A; [|discriminate E]. cbn [bind] in E.
      apply register_ok in A as (B & A). apply IH in E as (F & E). split; [now constructor|]. intros c. cbn [flat_map fst snd]. now rewrite E, A, app_assoc.
  Qed.
  Lemma registered_err hist : forall r e, registered eqb mro base r hist = Err e -> e = ValueError /\ ~ Forall (fun tf : list K * H => Forall below_base (fst tf)) hist.
  Proof.
    induction hist as [|[ts f] hist IH]; intros r e E; cbn [registered] in E; [discriminate E|].
    destruct (register eqb mro base r ts f) as [r1|x] eqn:A; cbn [bind] in E.
    - apply IH in E as (-> & N). split; [reflexivity|]. intros F. inversion F; auto.
    - injection E as ->. cut (e = ValueError /\ ~ Forall below_base ts); [intros (-> & N); split; [reflexivity|]; intros F; inversion F; auto|].
      clear IH. revert r A. induction ts as [|t ts IH]; intros r A; cbn [register] in A; [discriminate A|].
      destruct (add_route eqb mro base r t f) as [r1|x] eqn:B; cbn [bind] in A.
      + apply IH in A as (-> & N). split; [reflexivity|]. intros F. inversion F; auto.
      + injection A as ->. unfold add_route in B. destruct (existsb (eqb base) (mro t)) eqn:X; cbn [negb] in B; [destruct (dget eqb t r); discriminate B|].
        injection B as <-. split; [reflexivity|]. intros F. inversion F as [|? ? BB _]; subst. apply below_base_iff in BB. congruence.
  Qed.
End Scan.
