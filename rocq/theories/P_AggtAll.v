(** Proofs about composing schemas: all schemas of a document, and that it ends. *)
From Coq Require Import Lia.
From Verif Require Import PyBase PyFacts PyJson M_SpecVal M_Merge S_Parse S_SpecTree S_Merge P_SpecBase P_Op P_Merge M_Aggt S_Aggt P_Aggt P_AggtMerge P_AggtGather.
Close Scope Q_scope.

(** ** Setting the composed schema *)
Lemma nth_update {A} (f : A -> A) : forall l i j, nth_error (update l i f) j = if Nat.eqb i j then option_map f (nth_error l j) else nth_error l j.
Proof.
  induction l as [|x l IH]; intros i j; [destruct j; cbn; now destruct (Nat.eqb i _)|]. destruct i, j; cbn; try reflexivity. apply IH.
Qed.
Lemma update_length {A} (f : A -> A) : forall l i, length (update l i f) = length l.
Proof. induction l as [|x l IH]; intros [|i]; cbn; auto. Qed.
Lemma update_node h i j F m : is_node (update h i (set_final F)) j m -> exists n, is_node h j n /\ (i <> j /\ m = n \/ i = j /\ m = set_final F n).
Proof.
  unfold is_node. rewrite nth_update. destruct (Nat.eqb_spec i j) as [->|D]; intro E; [|eauto]. destruct (nth_error h j) as [n|]; [|discriminate E]. injection E as <-. eauto.
Qed.
Lemma update_grows h i n F : is_node h i n -> s_final n = None -> grows h (update h i (set_final F)).
Proof.
  intros N FN j m M. unfold is_node. rewrite nth_update. destruct (Nat.eqb_spec i j) as [->|D].
  - rewrite M. cbn. eexists. split; [reflexivity|]. pose proof (node_fun _ _ _ _ N M) as <-. repeat split; auto. rewrite FN. discriminate.
  - exists m. split; [exact M|apply node_ext_refl].
Qed.
Lemma update_ext F n m (P : Prop) Q : P /\ m = n \/ Q /\ m = set_final F n -> s_plain m = s_plain n /\ s_ref m = s_ref n /\ s_items m = s_items n /\ s_allof m = s_allof n /\ s_props m = s_props n /\ s_addl m = s_addl n.
Proof. intros [(_ & ->)|(_ & ->)]; repeat split; reflexivity. Qed.
Section All.
  Context (N0 : nat).
  Lemma good_update h i n F m : good N0 h -> is_node h i n -> s_final n = None -> i < N0 -> N0 <= F -> is_node h F m -> s_ref m = None -> s_final m = None ->
    copy_list h (s_allof n) (s_allof m) -> composed h i F -> good N0 (update h i (set_final F)).
  Proof.
    intros [[CT CR CK CP] L R FF] N FN LI LF M RM FM KL CO. pose proof (update_grows _ _ _ F N FN) as G. pose proof (copy_grows _ _ G) as CG.
    constructor; [constructor|..].
    - intros j x X. apply update_node in X as (y & Y & _). destruct (CT _ _ Y) as (d & T). exists d. eapply tree_grows; eauto.
    - intros j x k X RX. apply update_node in X as (y & Y & E). apply update_ext in E as (_ & ER & _). rewrite ER in RX. destruct (CR _ _ _ Y RX) as (z & Z). destruct (G _ _ Z) as (z' & Z' & _). eauto.
    - intros j x X. apply update_node in X as (y & Y & E). apply update_ext in E as (_ & _ & _ & _ & ER & _). rewrite ER. eauto.
    - intros j x X. apply update_node in X as (y & Y & E). apply update_ext in E as (ER & _). rewrite ER. eauto.
    - now rewrite update_length.
    - intros j x X LJ. apply update_node in X as (y & Y & E). apply update_ext in E as (_ & E2 & E3 & E4 & E5 & E6). destruct (R _ _ Y LJ) as (A & B). split; [|intros k H; apply B; congruence]. intros k H. apply A. unfold holds in *. now rewrite E3, E4, E5, E6 in H.
    - intros j x f X FX. apply update_node in X as (y & Y & E). pose proof (update_ext _ _ _ _ _ E) as (_ & _ & _ & E4 & _).
      assert (FY : forall k z, is_node h k z -> s_ref z = None -> s_final z = None -> N0 <= k -> exists z', is_node (update h i (set_final F)) k z' /\ s_ref z' = None /\ s_final z' = None /\ s_allof z' = s_allof z).
      { intros k z Z RZ FZ LK. exists z. split; [|auto]. unfold is_node. rewrite nth_update. destruct (Nat.eqb_spec i k) as [->|D]; [lia|exact Z]. }
      destruct E as [(D & ->)|(<- & ->)].
      + destruct (FF _ _ _ Y FX) as (k & LK & K & A1 & A2 & A3 & A4). destruct (FY _ _ K A1 A2 LK) as (z & Z & B1 & B2 & B3). exists z. split; [exact LK|]. split; [exact Z|]. split; [exact B1|]. split; [exact B2|].
        rewrite B3. split; [now apply CG|]. eapply composed_same; eauto. constructor; auto.
      + injection FX as <-. pose proof (node_fun _ _ _ _ Y N) as ->. destruct (FY _ _ M RM FM LF) as (z & Z & B1 & B2 & B3). exists z. split; [exact LF|]. split; [exact Z|]. split; [exact B1|]. split; [exact B2|].
        rewrite B3. cbn. split; [now apply CG|]. eapply composed_same; eauto. constructor; auto.
  Qed.

  (** ** Guards *)
  Definition guard_ok (h : heap) (g : list oid) : Prop := NoDup g /\ forall z, In z g -> exists m, is_node h z m.
  Lemma deref_nodup h fuel : forall g i g' o, deref_loop fuel h g i = Ok (g', o) -> NoDup g -> NoDup g'.
  Proof.
    induction fuel as [|fuel IH]; intros g i g' o E ND; cbn [deref_loop] in E; (destruct (existsb (Nat.eqb i) g) eqn:M; [injection E as <- <-; exact ND|]); apply bind_ok in E as (n' & N' & E);
      assert (NI : ~ In i g) by (intro I; apply memb_In in I; congruence); destruct (s_ref n') as [j|] eqn:R; try discriminate E.
    1,3: injection E as <- <-; now constructor.
    eapply IH; [exact E|]. now constructor.
  Qed.
  Lemma guard_deref h g i g' o : closed h -> (exists n, is_node h i n) -> deref h g i = Ok (g', o) -> guard_ok h g -> guard_ok h g'.
  Proof. intros C N D (ND & NG). split; [eapply deref_nodup; eauto|]. eapply deref_nodes; eauto. Qed.
  Lemma guard_grows h h' g : grows h h' -> guard_ok h g -> guard_ok h' g.
  Proof. intros G (ND & NG). split; [exact ND|]. intros z I. destruct (NG _ I) as (m & M). destruct (G _ _ M) as (m' & M' & _). eauto. Qed.
  Lemma region_ends h i e : good N0 h -> i < N0 -> ends h i e -> e < N0.
  Proof. intros G L E. induction E as [i n N R|i n j k N R E IH]; [exact L|]. apply IH. eapply (g_region _ _ G); eauto. Qed.
  Lemma region_node h i : good N0 h -> i < N0 -> exists n, is_node h i n.
  Proof. intros G L. pose proof (g_len _ _ G). unfold is_node. destruct (nth_error h i) eqn:E; [eauto|]. apply nth_error_None in E. lia. Qed.
  Lemma ends_none h i e n : ends h i e -> is_node h e n -> s_ref n = None.
  Proof. intros E NE. induction E as [i n' N R|]; [|auto]. now rewrite (node_fun _ _ _ _ NE N). Qed.

  (** ** Composing *)
  Definition finals_kept (h h' : heap) (g : list oid) : Prop := forall z n n', In z g -> is_node h z n -> is_node h' z n' -> s_final n' = s_final n.
  Definition composes (rec : heap -> list oid -> oid -> res (heap * list oid)) : Prop := forall h g i a, good N0 h -> guard_ok h g -> i < N0 -> rec h g i = Ok a ->
    good N0 (fst a) /\ grows h (fst a) /\ guard_ok (fst a) (snd a) /\ incl g (snd a) /\ finals_kept h (fst a) g /\ (g = [] -> forall e, ends h i e -> exists f, final_is (fst a) e f).
  Lemma finals_trans h h1 h2 g g1 : grows h h1 -> incl g g1 -> finals_kept h h1 g -> finals_kept h1 h2 g1 -> finals_kept h h2 g.
  Proof. intros G I A B z n n' Z N N'. destruct (G _ _ N) as (m & M & _). rewrite (B _ _ _ (I _ Z) M N'). eauto. Qed.
  Lemma compose_all_ok rec : composes rec -> forall l h g a, good N0 h -> guard_ok h g -> (forall i, In i l -> i < N0) -> compose_all rec h g l = Ok a ->
    good N0 (fst a) /\ grows h (fst a) /\ guard_ok (fst a) (snd a) /\ incl g (snd a) /\ finals_kept h (fst a) g.
  Proof.
    intro RC. induction l as [|i l IH]; intros h g a G GO LI E; cbn [compose_all] in E.
    - injection E as <-. split; [exact G|]. split; [apply grows_refl|]. split; [exact GO|]. split; [apply incl_refl|]. intros z n n' _ N N'. cbn in N'. now rewrite (node_fun _ _ _ _ N N').
    - apply bind_ok in E as (b & B & E). destruct (RC _ _ _ _ G GO (LI _ (or_introl eq_refl)) B) as (G1 & GR1 & GO1 & I1 & F1 & _).
      destruct (IH _ _ _ G1 GO1 (fun i H => LI i (or_intror H)) E) as (G2 & GR2 & GO2 & I2 & F2). split; [exact G2|]. split; [eapply grows_trans; eauto|]. split; [exact GO2|]. split; [eapply incl_tran; eauto|]. eapply finals_trans; eauto.
  Qed.
  Definition below (n : node) : list oid := match s_items n with Some j => [j] | None => [] end ++ map snd (s_props n) ++ s_allof n.
  Lemma below_holds n j : In j (below n) -> holds n j.
  Proof.
    unfold below. intro I. apply in_app_or in I as [I|I]; [|apply in_app_or in I as [I|I]].
    - left. destruct (s_items n); [destruct I as [->|[]]; auto|destruct I].
    - right. right. left. apply in_map_iff in I as ([k x] & <- & I). eauto.
    - right. now left.
  Qed.
  Lemma compose_ok fuel : composes (compose fuel).
  Proof.
    induction fuel as [|fuel IH]; intros h g i a G GO LI E; [discriminate E|]. cbn [compose] in E. unfold compose_step in E. apply bind_ok in E as ([g1 oe] & D & E). cbn [fst snd] in E.
    pose proof (region_node _ _ G LI) as NI. pose proof (guard_deref _ _ _ _ _ (g_closed _ _ G) NI D GO) as GO1. unfold deref in D. destruct oe as [e|].
    2: { injection E as <-. cbn [fst snd]. apply deref_loop_none in D as (A & _ & B). split; [exact G|]. split; [apply grows_refl|]. split; [exact GO1|]. split; [exact A|]. split; [intros z n n' _ N N'; now rewrite (node_fun _ _ _ _ N N')|].
         intros -> e EE. apply ends_endsn in EE as (c & EE). destruct (B _ _ EE) as (c' & y & _ & [] & _). }
    apply deref_loop_some in D as (EX & NIN & IN & A & _). apply bind_ok in E as (n & N & E). apply get_ok in N. destruct (s_final n) as [F0|] eqn:FN.
    - injection E as <-. cbn [fst snd]. split; [exact G|]. split; [apply grows_refl|]. split; [exact GO1|]. split; [exact A|]. split; [intros z m m' _ M M'; now rewrite (node_fun _ _ _ _ M M')|].
      intros -> e' EE. pose proof (ends_fun _ _ _ _ EX EE) as <-. exists F0, n. auto.
    - fold (below n) in E. pose proof (region_ends _ _ _ G LI EX) as LE. apply bind_ok in E as (b & B & E). assert (LB : forall j, In j (below n) -> j < N0) by (intros j I; exact (proj1 (g_region _ _ G _ _ N LE) _ (below_holds _ _ I))).
      destruct (compose_all_ok _ IH _ _ _ _ G GO1 LB B) as (G2 & GR2 & GO2 & I2 & F2).
      apply bind_ok in E as (n2 & N2 & E). apply get_ok in N2. apply bind_ok in E as (m & M & E). apply bind_ok in E as (f & F & E). injection E as <-. cbn [fst snd alloc].
      assert (FN2 : s_final n2 = None) by (rewrite <- FN; eapply F2; eauto).
      assert (RN2 : s_ref n2 = None). { destruct (GR2 _ _ N) as (n2' & N2' & (_ & X & _)). rewrite (node_fun _ _ _ _ N2 N2'), X. eapply ends_none; eauto. }
      pose proof (merge_node_ok _ _ _ _ _ _ _ (clone_ok N0 fuel) G2 M) as MM. pose proof (start_ok _ _ _ _ _ _ G2 N2 RN2 FN2 MM) as I0.
      destruct (gather_ok _ _ _ _ _ _ _ _ _ _ I0 (fun z (H : In z []) => match H with end) F) as (A3 & g3 & dn & I3). pose proof (end_ok _ _ _ _ _ _ _ I3) as CO.
      pose proof (gi_good _ _ _ _ _ _ _ _ I3) as G3. assert (G4 : good N0 (fst f ++ [snd f])).
      { apply good_snoc; [exact G3|eapply gi_fit; eauto|]. intros x X. rewrite (gi_final _ _ _ _ _ _ _ _ I3) in X. discriminate X. }
      pose proof (gi_node _ _ _ _ _ _ _ _ I3) as N3. assert (N4 : is_node (fst f ++ [snd f]) e n2) by now apply node_app.
      assert (G24 : grows (fst b) (fst f ++ [snd f])).
      { eapply grows_trans; [apply adds_grows; eapply m_adds; eauto|]. eapply grows_trans; [apply adds_grows; exact A3|]. apply grows_app. }
      pose proof (update_grows _ _ _ (length (fst f)) N4 FN2) as G45. assert (GB : grows h (update (fst f ++ [snd f]) e (set_final (length (fst f))))) by (eapply grows_trans; [exact GR2|]; eapply grows_trans; eauto).
      split.
      { eapply good_update; eauto using node_last, gi_ref, gi_final.
        - apply (g_len _ _ G3).
        - apply (copy_grows _ _ (grows_app (fst f) [snd f])). eapply gi_allof; eauto. }
      split; [exact GB|]. split; [eapply guard_grows; [eapply grows_trans; [exact G24|exact G45]|exact GO2]|]. split; [eapply incl_tran; eauto|]. split.
      + intros z nz nz' Z NZ NZ'. assert (ZE : e <> z) by (intros ->; auto). unfold is_node in NZ'. rewrite nth_update in NZ'. apply Nat.eqb_neq in ZE. rewrite ZE in NZ'.
        destruct (GR2 _ _ NZ) as (nb & NB & _). assert (NF : is_node (fst f ++ [snd f]) z nb) by (apply node_app; eapply adds_node; [exact A3|]; eapply adds_node; [eapply m_adds; eauto|exact NB]).
        rewrite (node_fun _ _ _ _ NZ' NF). exact (F2 _ _ _ (A _ Z) NZ NB).
      + intros _ e' EE. pose proof (ends_fun _ _ _ _ EX EE) as <-. exists (length (fst f)), (set_final (length (fst f)) n2). split; [|reflexivity]. unfold is_node. rewrite nth_update, Nat.eqb_refl. unfold is_node in N4. now rewrite N4.
  Qed.
  Lemma guard_nil h : guard_ok h [].
  Proof. split; [constructor|intros ? []]. Qed.
  Lemma final_grows h h' e f : grows h h' -> final_is h e f -> final_is h' e f.
  Proof. intros G (n & N & F). destruct (G _ _ N) as (n' & N' & (_ & _ & _ & _ & _ & _ & X)). exists n'. auto. Qed.
  Lemma aggregate_ok fuel : forall ids h h', good N0 h -> (forall i, In i ids -> i < N0) -> aggregate fuel h ids = Ok h' ->
    good N0 h' /\ grows h h' /\ forall i e, In i ids -> ends h i e -> exists f, final_is h' e f.
  Proof.
    induction ids as [|i ids IH]; intros h h' G LI E; cbn [aggregate] in E; [injection E as <-; split; [exact G|split; [apply grows_refl|intros ? ? []]]|].
    apply bind_ok in E as (a & A & E). destruct (compose_ok _ _ _ _ _ G (guard_nil h) (LI _ (or_introl eq_refl)) A) as (G1 & GR1 & _ & _ & _ & F1). destruct (IH _ _ G1 (fun i H => LI i (or_intror H)) E) as (G2 & GR2 & F2).
    split; [exact G2|]. split; [eapply grows_trans; eauto|]. intros j e [<-|J] EE.
    - destruct (F1 eq_refl _ EE) as (f & FF). exists f. eapply final_grows; eauto.
    - eapply F2; [exact J|]. eapply ends_forth; eauto.
  Qed.
End All.
Lemma fresh_good h : fresh_heap h -> good (length h) h.
Proof.
  intro F. assert (LT : forall j m, is_node h j m -> j < length h) by (intros j m M; apply nth_error_Some; unfold is_node in M; congruence). constructor.
  - constructor; intros i n; [| |intro N; now destruct (F _ _ N) as (_ & _ & _ & A & _)|intro N; now destruct (F _ _ N) as (_ & _ & _ & _ & A)].
    + intro N. now destruct (F _ _ N) as (A & _).
    + intros j N. destruct (F _ _ N) as (_ & A & _). apply A.
  - lia.
  - intros i n N _. destruct (F _ _ N) as ((d & T) & R & _). split.
    + intros j H. inversion T as [? ? n' N' X]; subst. pose proof (node_fun _ _ _ _ N N') as <-. destruct (tree_exists _ _ _ (X _ H)) as (m & M). eauto.
    + intros j E. destruct (R _ E) as (m & M). eauto.
  - intros i n f N E. destruct (F _ _ N) as (_ & _ & X & _). congruence.
Qed.
