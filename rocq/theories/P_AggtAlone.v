(** Proofs about composing schemas: schemas without allOf. *)
From Coq Require Import Lia.
From Verif Require Import PyBase PyFacts PyJson M_SpecVal M_Merge S_Merge P_SpecBase P_Op P_Merge M_Aggt S_Aggt P_Aggt P_AggtMerge P_AggtGather P_AggtAll.
Close Scope Q_scope.

(** The composed schema of a schema without allOf is a copy of it. *)
Definition alone (h : heap) : Prop := forall i n f, is_node h i n -> s_final n = Some f -> s_allof n = [] -> copy h i f.
Lemma alone_snoc h m : alone h -> (forall f, s_final m = Some f -> s_allof m = [] -> copy (h ++ [m]) (length h) f) -> alone (h ++ [m]).
Proof.
  intros A M i n f N F L. destruct (Nat.lt_ge_cases i (length h)) as [LT|GE].
  - unfold is_node in N. rewrite nth_error_app1 in N by exact LT. apply (copy_grows _ _ (grows_app h [m])). eapply A; eauto.
  - unfold is_node in N. rewrite nth_error_app2 in N by exact GE. destruct (i - length h) as [|k] eqn:D; [|destruct k; discriminate N]. injection N as <-. assert (i = length h) as -> by lia. auto.
Qed.
Lemma copy_list_nil h l : copy_list h l [] -> l = [].
Proof. intro C. now inversion C. Qed.
Section Alone.
  Context (N0 : nat).
  Definition keeps (cl : heap -> oid -> res (heap * oid)) : Prop := forall h i a, good N0 h -> alone h -> cl h i = Ok a -> alone (fst a).
  Context (cl : heap -> oid -> res (heap * oid)) (OK : copies N0 cl) (KE : keeps cl).
  Lemma clone_list_alone : forall l h a, good N0 h -> alone h -> clone_list cl h l = Ok a -> alone (fst a).
  Proof.
    induction l as [|i l IH]; intros h a G A E; [injection E as <-; exact A|]. cbn [clone_list] in E. apply bind_ok in E as (b & B & E). apply bind_ok in E as (c & C & E). injection E as <-. cbn [fst].
    destruct (OK _ _ _ G B) as (_ & G1 & _). eauto.
  Qed.
  Lemma clone_dict_alone : forall l h a, good N0 h -> alone h -> clone_dict cl h l = Ok a -> alone (fst a).
  Proof.
    induction l as [|[k i] l IH]; intros h a G A E; [injection E as <-; exact A|]. cbn [clone_dict] in E. apply bind_ok in E as (b & B & E). apply bind_ok in E as (c & C & E). injection E as <-. cbn [fst].
    destruct (OK _ _ _ G B) as (_ & G1 & _). eauto.
  Qed.
  Lemma merge_node_alone ex h f o a : good N0 h -> alone h -> merge_node cl ex h f o = Ok a -> alone (fst a).
  Proof.
    intros G A E. unfold merge_node in E. apply bind_ok in E as (p & P & E). apply bind_ok in E as (a1 & E1 & E). apply bind_ok in E as (a2 & E2 & E). apply bind_ok in E as (a3 & E3 & E). apply bind_ok in E as (a4 & E4 & E).
    injection E as <-. cbn [fst snd].
    assert (X1 : good N0 (fst a1) /\ alone (fst a1)).
    { destruct (s_items o) as [i|]; [destruct (s_items f)|]; [injection E1 as <-; auto| |injection E1 as <-; auto]. apply bind_ok in E1 as (b & B & E1). injection E1 as <-. destruct (OK _ _ _ G B) as (_ & G1 & _). split; [exact G1|]. exact (KE _ _ _ G A B). }
    destruct X1 as (G1 & A1). clear E1.
    assert (X2 : good N0 (fst a2) /\ alone (fst a2)).
    { destruct (s_allof o) as [|i l]; [injection E2 as <-; auto|]. destruct (s_allof f); [|injection E2 as <-; auto]. destruct (mem _ ex); [injection E2 as <-; auto|].
      destruct (clone_list_ok _ _ OK _ _ _ G1 E2) as (_ & G2 & _). split; [exact G2|]. exact (clone_list_alone _ _ _ G1 A1 E2). }
    destruct X2 as (G2 & A2). clear E2.
    assert (X3 : good N0 (fst a3) /\ alone (fst a3)).
    { destruct (s_props o) as [|i l]; [injection E3 as <-; auto|]. destruct (s_props f); [|injection E3 as <-; auto].
      destruct (clone_dict_ok _ _ OK _ _ _ G2 E3) as (_ & G3 & _). split; [exact G3|]. exact (clone_dict_alone _ _ _ G2 A2 E3). }
    destruct X3 as (G3 & A3). clear E3.
    destruct (s_addl o) as [[]|i]; [injection E4 as <-; auto|destruct (s_addl f) as [[]|]; injection E4 as <-; auto|].
    destruct (s_addl f) as [[]|]; [|injection E4 as <-; auto..]. apply bind_ok in E4 as (b & B & E4). injection E4 as <-. exact (KE _ _ _ G3 A3 B).
  Qed.
End Alone.
Section All.
  Context (N0 : nat).
  Lemma clone_alone fuel : keeps N0 (clone fuel).
  Proof.
    induction fuel as [|fuel IH]; intros h i a G A E; [discriminate E|]. pose proof (clone_ok N0 (S fuel) h i a G E) as (_ & _ & CP).
    cbn [clone] in E. apply bind_ok in E as (n & N & E). apply bind_ok in E as (b & B & E). injection E as <-. cbn [fst snd alloc] in *.
    apply get_ok in N. pose proof (node_fit _ _ _ (g_closed _ _ G) N) as O. pose proof (merge_node_ok _ _ _ _ _ _ _ (clone_ok N0 fuel) G B) as M. destruct (merged_new _ _ _ _ _ G O M) as (K & F).
    pose proof (merge_node_alone N0 _ (clone_ok N0 fuel) IH _ _ _ _ _ G A B) as A1. apply alone_snoc; [exact A1|].
    intros f FF L. rewrite F in FF. destruct K as (_ & _ & _ & KL & _). rewrite L in KL. apply copy_list_nil in KL.
    eapply (proj1 (copy_trans _)); [apply (proj1 (copy_sym _)); exact CP|]. apply (copy_grows _ _ (grows_app (fst b) [snd b])). eapply A1; [eapply adds_node; [eapply m_adds; eauto|exact N]|exact FF|exact KL].
  Qed.
  Lemma gather_alone fuel own : forall h g f stk a, good N0 h -> alone h -> gather fuel own h g f stk = Ok a -> alone (fst a).
  Proof.
    induction fuel as [|fuel IH]; intros h g f stk a G A E; (destruct stk as [|x stk]; cbn [gather] in E; [injection E as <-; exact A|]); [discriminate E|].
    apply bind_ok in E as ([g' oe] & D & E). cbn [fst snd] in E. destruct oe as [e|]; [|eauto]. apply bind_ok in E as (ne & NE & E). apply bind_ok in E as (o & O & E). apply bind_ok in E as (b & B & E).
    pose proof (merge_node_ok _ _ _ _ _ _ _ (clone_ok N0 fuel) G B) as M. eapply IH; [exact (m_good _ _ _ _ _ _ _ M)|exact (merge_node_alone N0 _ (clone_ok N0 fuel) (clone_alone fuel) _ _ _ _ _ G A B)|exact E].
  Qed.
  Lemma compose_alone fuel : forall h g i a, good N0 h -> guard_ok h g -> i < N0 -> alone h -> compose fuel h g i = Ok a -> alone (fst a).
  Proof.
    induction fuel as [|fuel IH]; intros h g i a G GO LI A E; [discriminate E|]. cbn [compose] in E. unfold compose_step in E. apply bind_ok in E as ([g1 oe] & D & E). cbn [fst snd] in E.
    pose proof (region_node _ _ _ G LI) as NI. pose proof (guard_deref _ _ _ _ _ (g_closed _ _ G) NI D GO) as GO1. unfold deref in D. destruct oe as [e|]; [|injection E as <-; exact A].
    apply deref_loop_some in D as (EX & NIN & IN & INC & _). apply bind_ok in E as (n & N & E). apply get_ok in N. destruct (s_final n) as [F0|] eqn:FN; [injection E as <-; exact A|].
    fold (below n) in E. pose proof (region_ends _ _ _ _ G LI EX) as LE. apply bind_ok in E as (b & B & E). assert (LB : forall j, In j (below n) -> j < N0) by (intros j I; exact (proj1 (g_region _ _ G _ _ N LE) _ (below_holds _ _ I))).
    destruct (compose_all_ok _ _ (compose_ok N0 fuel) _ _ _ _ G GO1 LB B) as (G2 & GR2 & GO2 & I2 & F2).
    assert (A2 : alone (fst b)).
    { clear - IH G GO1 LB A B. revert h g1 G GO1 A B. induction (below n) as [|j l IHl]; intros h g1 G GO A B; cbn [compose_all] in B; [injection B as <-; exact A|].
      apply bind_ok in B as (c & C & B). destruct (compose_ok N0 _ _ _ _ _ G GO (LB _ (or_introl eq_refl)) C) as (G1 & _ & GO1 & _).
      eapply IHl; [intros x X; apply LB; now right|exact G1|exact GO1|exact (IH _ _ _ _ G GO (LB _ (or_introl eq_refl)) A C)|exact B]. }
    apply bind_ok in E as (n2 & N2 & E). apply get_ok in N2. apply bind_ok in E as (m & M & E). apply bind_ok in E as (f & F & E). injection E as <-. cbn [fst snd alloc].
    assert (FN2 : s_final n2 = None) by (rewrite <- FN; eapply F2; eauto).
    assert (RN2 : s_ref n2 = None). { destruct (GR2 _ _ N) as (n2' & N2' & (_ & X & _)). rewrite (node_fun _ _ _ _ N2 N2'), X. eapply ends_none; eauto. }
    pose proof (merge_node_ok _ _ _ _ _ _ _ (clone_ok N0 fuel) G2 M) as MM. pose proof (start_ok _ _ _ _ _ _ G2 N2 RN2 FN2 MM) as I0.
    destruct (gather_ok _ _ _ _ _ _ _ _ _ _ I0 (fun z (H : In z []) => match H with end) F) as (A3 & g3 & dn & I3). pose proof (gi_node _ _ _ _ _ _ _ _ I3) as N3.
    pose proof (merge_node_alone N0 _ (clone_ok N0 fuel) (clone_alone fuel) _ _ _ _ _ G2 A2 M) as AM. pose proof (gather_alone _ _ _ _ _ _ _ (m_good _ _ _ _ _ _ _ MM) AM F) as AF.
    assert (A4 : alone (fst f ++ [snd f])).
    { apply alone_snoc; [exact AF|]. intros x X. rewrite (gi_final _ _ _ _ _ _ _ _ I3) in X. discriminate X. }
    assert (N4 : is_node (fst f ++ [snd f]) e n2) by now apply node_app.
    pose proof (update_grows _ _ _ (length (fst f)) N4 FN2) as G45. pose proof (proj1 (copy_grows _ _ G45)) as CG.
    intros j x k X FX LX. apply update_node in X as (y & Y & [(_ & ->)|(<- & ->)]); [apply CG; eapply A4; eauto|]. injection FX as <-. cbn in LX. pose proof (node_fun _ _ _ _ Y N4) as ->. apply CG.
    rewrite LX in F. cbn [rev] in F. assert (f = m) as ->.
    { destruct fuel; cbn [gather] in F; injection F as <-; now destruct m. }
    destruct (merged_new _ _ _ _ _ G2 (node_fit _ _ _ (g_closed _ _ G2) N2) MM) as (K & _). eapply copy_nodes; [exact N4|apply node_last|]. eapply node_copy_grows; [apply grows_app|exact K].
  Qed.
  Lemma aggregate_alone fuel : forall ids h h', good N0 h -> (forall i, In i ids -> i < N0) -> alone h -> aggregate fuel h ids = Ok h' -> alone h'.
  Proof.
    induction ids as [|i ids IH]; intros h h' G LI A E; cbn [aggregate] in E; [injection E as <-; exact A|]. apply bind_ok in E as (a & C & E).
    destruct (compose_ok N0 _ _ _ _ _ G (guard_nil h) (LI _ (or_introl eq_refl)) C) as (G1 & _). eapply IH; [exact G1|intros j J; apply LI; now right|exact (compose_alone _ _ _ _ _ G (guard_nil h) (LI _ (or_introl eq_refl)) A C)|exact E].
  Qed.
End All.
