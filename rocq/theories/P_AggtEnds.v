(** Proofs about composing schemas: it ends, and with which exceptions. *)
From Coq Require Import Lia.
From Verif Require Import PyBase PyFacts PyJson M_SpecVal M_Merge S_Parse S_SpecTree S_Merge P_SpecBase P_Op P_Merge M_Aggt S_Aggt P_Aggt P_AggtMerge P_AggtGather P_AggtAll.
Close Scope Q_scope.

Section Ends.
  (** The exceptions that may occur, and the values that fields may hold *)
  Context (allowed : exn -> Prop) (okv : str -> val -> Prop).
  Context (plain_err : forall ex n df sv ov e, In (n, df) plain_fields -> okv n sv -> okv n ov -> plain1 ex n df sv ov = Err e -> allowed e).
  Context (plain_val : forall ex n df sv ov x, In (n, df) plain_fields -> okv n sv -> okv n ov -> plain1 ex n df sv ov = Ok x -> okv n x).
  Context (plain_new : forall n df, In (n, df) plain_fields -> okv n (inject df)).

  (** ** Functions with enough steps *)
  Definition ends_in {A} (f : nat -> res A) : Prop := exists N r, (forall e, r = Err e -> allowed e) /\ forall fuel, N <= fuel -> f fuel = r.
  Lemma ends_const {A} (r : res A) : (forall e, r = Err e -> allowed e) -> ends_in (fun _ => r).
  Proof. intro H. exists 0, r. auto. Qed.
  Lemma ends_ok {A} (x : A) : ends_in (fun _ => Ok x).
  Proof. apply ends_const. discriminate. Qed.
  Lemma ends_bind {A B} (f : nat -> res A) (k : nat -> A -> res B) : ends_in f -> (forall x fuel, f fuel = Ok x -> ends_in (fun n => k n x)) -> ends_in (fun n => bind (f n) (k n)).
  Proof.
    intros (N & r & R & E) K. destruct r as [x|e].
    - destruct (K x N (E N (le_n _))) as (M & s & S & F). exists (Nat.max N M), s. split; [exact S|]. intros fuel L. rewrite E by lia. cbn [bind]. apply F. lia.
    - exists N, (Err e). split; [intros e' X; injection X as <-; auto|]. intros fuel L. now rewrite E.
  Qed.
  Lemma ends_step {A} (f : nat -> res A) : ends_in f -> ends_in (fun n => match n with O => Err OutOfFuel | S n => f n end).
  Proof. intros (N & r & R & E). exists (S N), r. split; [exact R|]. intros [|fuel] L; [lia|]. apply E. lia. Qed.
  Lemma ends_get {B} h i n (k : nat -> node -> res B) : is_node h i n -> ends_in (fun m => k m n) -> ends_in (fun m => bind (get h i) (k m)).
  Proof. intros N E. unfold get. unfold is_node in N. rewrite N. exact E. Qed.
  Lemma ends_eq {A} (f g : nat -> res A) : (forall n, f n = g n) -> ends_in g -> ends_in f.
  Proof. intros H (N & r & R & E). exists N, r. split; [exact R|]. intros. rewrite H. auto. Qed.

  (** ** Values *)
  Definition nvals (n : node) : Prop := forall k v, sget k (s_plain n) = Some v -> okv k v.
  Definition vals (h : heap) : Prop := forall i n, is_node h i n -> nvals n.
  Definition keeps (cl : heap -> oid -> res (heap * oid)) : Prop := forall h i a, vals h -> cl h i = Ok a -> vals (fst a).
  Lemma clone_list_vals cl : keeps cl -> forall l h a, vals h -> clone_list cl h l = Ok a -> vals (fst a).
  Proof.
    intros CL. induction l as [|i l IH]; intros h a G E; [injection E as <-; exact G|]. cbn [clone_list] in E. apply bind_ok in E as (b & B & E). apply bind_ok in E as (c & C & E). injection E as <-. cbn [fst]. eauto.
  Qed.
  Lemma clone_dict_vals cl : keeps cl -> forall l h a, vals h -> clone_dict cl h l = Ok a -> vals (fst a).
  Proof.
    intros CL. induction l as [|[k i] l IH]; intros h a G E; [injection E as <-; exact G|]. cbn [clone_dict] in E. apply bind_ok in E as (b & B & E). apply bind_ok in E as (c & C & E). injection E as <-. cbn [fst]. eauto.
  Qed.
  Lemma merge_plain_vals ex f o r : nvals f -> nvals o -> merge_plain ex plain_fields (s_plain f) (s_plain o) = Ok r -> forall k v, sget k r = Some v -> okv k v.
  Proof. intros F O E k v G. destruct (merge_plain_get _ _ _ _ _ E plain_nodup _ _ G) as (df & sv & ov & I & SV & OV & P). exact (plain_val _ _ _ _ _ _ I (F _ _ SV) (O _ _ OV) P). Qed.
  Lemma merge_node_vals cl ex h f o a : keeps cl -> vals h -> nvals f -> nvals o -> merge_node cl ex h f o = Ok a -> vals (fst a) /\ nvals (snd a).
  Proof.
    intros CL V F O E. unfold merge_node in E. apply bind_ok in E as (p & P & E). apply bind_ok in E as (a1 & E1 & E). apply bind_ok in E as (a2 & E2 & E). apply bind_ok in E as (a3 & E3 & E). apply bind_ok in E as (a4 & E4 & E).
    injection E as <-. cbn [fst snd]. split; [|intros k v G; exact (merge_plain_vals _ _ _ _ F O P _ _ G)].
    assert (V1 : vals (fst a1)). { destruct (s_items o); [destruct (s_items f)|]; try (injection E1 as <-; exact V). apply bind_ok in E1 as (b & B & E1). injection E1 as <-. exact (CL _ _ _ V B). }
    assert (V2 : vals (fst a2)). { destruct (s_allof o); [injection E2 as <-; exact V1|]. destruct (s_allof f); [|injection E2 as <-; exact V1]. destruct (mem _ ex); [injection E2 as <-; exact V1|]. exact (clone_list_vals _ CL _ _ _ V1 E2). }
    assert (V3 : vals (fst a3)). { destruct (s_props o); [injection E3 as <-; exact V2|]. destruct (s_props f); [|injection E3 as <-; exact V2]. exact (clone_dict_vals _ CL _ _ _ V2 E3). }
    destruct (s_addl o) as [[]|]; [injection E4 as <-; exact V3|destruct (s_addl f) as [[]|]; injection E4 as <-; exact V3|]. destruct (s_addl f) as [[]|]; try (injection E4 as <-; exact V3).
    apply bind_ok in E4 as (b & B & E4). injection E4 as <-. exact (CL _ _ _ V3 B).
  Qed.
  Lemma vals_snoc h m : vals h -> nvals m -> vals (h ++ [m]).
  Proof. intros V M i n N. apply node_snoc in N as [N|(-> & ->)]; eauto. Qed.
  Lemma new_vals : nvals new_node.
  Proof.
    intros k v G. assert (X : In k (map fst plain_fields)). { rewrite <- (f_plain [] new_node (new_fit [])). eapply sget_Some_key. eauto. }
    apply in_map_iff in X as ([k' df] & Y & I). cbn in Y. subst k'. rewrite (new_plain _ _ I) in G. injection G as <-. auto.
  Qed.
  Lemma clone_vals fuel : keeps (clone fuel).
  Proof.
    induction fuel as [|fuel IH]; intros h i a V E; [discriminate E|]. cbn [clone] in E. apply bind_ok in E as (n & N & E). apply bind_ok in E as (b & B & E). injection E as <-. cbn [fst alloc]. apply get_ok in N.
    destruct (merge_node_vals _ _ _ _ _ _ IH V new_vals (V _ _ N) B) as (V1 & M1). now apply vals_snoc.
  Qed.

  (** ** Merging ends *)
  Context (N0 : nat).
  Lemma merge_plain_err ex : forall t f o e, (forall nd, In nd t -> In nd plain_fields) -> map fst f = map fst plain_fields -> map fst o = map fst plain_fields ->
    (forall k v, sget k f = Some v -> okv k v) -> (forall k v, sget k o = Some v -> okv k v) -> merge_plain ex t f o = Err e -> allowed e.
  Proof.
    induction t as [|[n df] t IH]; intros f o e S KF KO VF VO E; [discriminate E|]. cbn [merge_plain] in E. pose proof (S _ (or_introl eq_refl)) as I.
    destruct (merge_plain_total _ _ _ KF _ I) as (sv & SV). destruct (merge_plain_total _ _ _ KO _ I) as (ov & OV). rewrite SV, OV in E. destruct (plain1 ex n df sv ov) as [x|e'] eqn:P.
    - cbn [bind] in E. destruct (merge_plain ex t f o) eqn:M; [discriminate E|]. cbn in E. injection E as <-. apply (IH f o _); auto. intros nd H. apply S. now right.
    - cbn in E. injection E as <-. exact (plain_err _ _ _ _ _ _ I (VF _ _ SV) (VO _ _ OV) P).
  Qed.
  Definition clone_ends (d : nat) : Prop := forall h i, good N0 h -> vals h -> tree h d i -> ends_in (fun n => clone n h i).
  Lemma clone_list_ends d : clone_ends d -> forall l h, good N0 h -> vals h -> (forall j, In j l -> tree h d j) -> ends_in (fun n => clone_list (clone n) h l).
  Proof.
    intro CE. induction l as [|i l IH]; intros h G V T; cbn [clone_list]; [apply ends_ok|]. apply ends_bind; [apply CE; auto; apply T; now left|]. intros b fuel B. destruct (clone_ok N0 fuel _ _ _ G B) as (A1 & G1 & _).
    apply ends_bind; [|intros; apply ends_ok]. apply IH; [exact G1|exact (clone_vals _ _ _ _ V B)|]. intros j J. eapply tree_grows; [apply adds_grows; exact A1|]. apply T. now right.
  Qed.
  Lemma clone_dict_ends d : clone_ends d -> forall (l : sdict oid) h, good N0 h -> vals h -> (forall k j, In (k, j) l -> tree h d j) -> ends_in (fun n => clone_dict (clone n) h l).
  Proof.
    intro CE. induction l as [|[k i] l IH]; intros h G V T; cbn [clone_dict]; [apply ends_ok|]. apply ends_bind; [apply CE; auto; eapply T; now left|]. intros b fuel B. destruct (clone_ok N0 fuel _ _ _ G B) as (A1 & G1 & _).
    apply ends_bind; [|intros; apply ends_ok]. apply IH; [exact G1|exact (clone_vals _ _ _ _ V B)|]. intros k' j J. eapply tree_grows; [apply adds_grows; exact A1|]. eapply T. right. eauto.
  Qed.
  Lemma merge_node_ends d ex h f o : clone_ends d -> good N0 h -> vals h -> fit h f -> fit h o -> nvals f -> nvals o -> (forall j, holds o j -> tree h d j) -> ends_in (fun n => merge_node (clone n) ex h f o).
  Proof.
    intros CE G V FF FO NF NO T. unfold merge_node. apply ends_bind.
    { apply ends_const. intros e E. eapply merge_plain_err; [|apply FF|apply FO|exact NF|exact NO|exact E]. auto. }
    intros p _ P. apply ends_bind.
    { destruct (s_items o) as [i|] eqn:IO; [destruct (s_items f)|]; try apply ends_ok. apply ends_bind; [|intros; apply ends_ok]. apply CE; auto. apply T. now left. }
    intros a1 fu1 E1.
    assert (X1 : adds h (fst a1) /\ good N0 (fst a1) /\ vals (fst a1)).
    { destruct (s_items o); [destruct (s_items f)|]; try (injection E1 as <-; cbn [fst]; auto using adds_refl). apply bind_ok in E1 as (b & B & E1). injection E1 as <-. destruct (clone_ok N0 _ _ _ _ G B) as (A & B' & _). split; [exact A|]. split; [exact B'|]. exact (clone_vals _ _ _ _ V B). }
    destruct X1 as (A1 & G1 & V1). clear E1. assert (T1 : forall j, holds o j -> tree (fst a1) d j) by (intros j J; eapply tree_grows; [apply adds_grows; exact A1|auto]). clear T. apply ends_bind.
    { destruct (s_allof o) as [|i l] eqn:LO; [apply ends_ok|]. destruct (s_allof f); [|apply ends_ok]. destruct (mem _ ex); [apply ends_ok|]. rewrite <- LO. apply (clone_list_ends d); auto. intros j J. apply T1. right. now left. }
    intros a2 fu2 E2.
    assert (X2 : adds (fst a1) (fst a2) /\ good N0 (fst a2) /\ vals (fst a2)).
    { destruct (s_allof o); [injection E2 as <-; auto using adds_refl|]. destruct (s_allof f); [|injection E2 as <-; auto using adds_refl]. destruct (mem _ ex); [injection E2 as <-; auto using adds_refl|].
      destruct (clone_list_ok _ _ (clone_ok N0 fu2) _ _ _ G1 E2) as (A & B & _). split; [exact A|]. split; [exact B|]. exact (clone_list_vals _ (clone_vals fu2) _ _ _ V1 E2). }
    destruct X2 as (A2 & G2 & V2). clear E2. assert (T2 : forall j, holds o j -> tree (fst a2) d j) by (intros j J; eapply tree_grows; [apply adds_grows; exact A2|auto]). clear T1. apply ends_bind.
    { destruct (s_props o) as [|i l] eqn:LO; [apply ends_ok|]. destruct (s_props f); [|apply ends_ok]. rewrite <- LO. apply (clone_dict_ends d); auto. intros k j J. apply T2. right. right. left. eauto. }
    intros a3 fu3 E3.
    assert (X3 : adds (fst a2) (fst a3) /\ good N0 (fst a3) /\ vals (fst a3)).
    { destruct (s_props o); [injection E3 as <-; auto using adds_refl|]. destruct (s_props f); [|injection E3 as <-; auto using adds_refl].
      destruct (clone_dict_ok _ _ (clone_ok N0 fu3) _ _ _ G2 E3) as (A & B & _). split; [exact A|]. split; [exact B|]. exact (clone_dict_vals _ (clone_vals fu3) _ _ _ V2 E3). }
    destruct X3 as (A3 & G3 & V3). clear E3. apply ends_bind; [|intros; apply ends_ok].
    destruct (s_addl o) as [[]|i] eqn:AO; [apply ends_ok|destruct (s_addl f) as [[]|]; apply ends_ok|]. destruct (s_addl f) as [[]|]; try apply ends_ok. apply ends_bind; [|intros; apply ends_ok].
    apply CE; auto. eapply tree_grows; [apply adds_grows; exact A3|]. apply T2. do 3 right. exact AO.
  Qed.
  Lemma clone_end d : clone_ends d.
  Proof.
    induction d as [|d IH]; intros h i G V T; inversion T as [? ? n N H]; subst. apply ends_eq with (g := fun m => match m with O => Err OutOfFuel | S m => do n <- get h i; do a <- merge_node (clone m) [] h new_node n; Ok (alloc (fst a) (snd a)) end).
    - now intros [|m].
    - apply ends_step. apply (ends_get h i n); [exact N|]. apply ends_bind; [|intros; apply ends_ok]. apply (merge_node_ends d); auto using new_fit, new_vals; [eapply node_fit; [apply (g_closed _ _ G)|exact N]|eapply V; eauto].
  Qed.
  Lemma merge_end ex h f o : good N0 h -> vals h -> fit h f -> fit h o -> nvals f -> nvals o -> ends_in (fun n => merge_node (clone n) ex h f o).
  Proof. intros G V FF FO NF NO. destruct (kids_trees h o (g_closed _ _ G) (f_kids _ _ FO)) as (d & D). eapply merge_node_ends; eauto. apply clone_end. Qed.

  (** ** The loop ends *)
  Definition free (N : nat) (g : list oid) : nat := length (filter (fun z => negb (existsb (Nat.eqb z) g)) (seq 0 N)).
  Lemma filter_le {A} (p q : A -> bool) l : (forall x, In x l -> q x = true -> p x = true) -> length (filter q l) <= length (filter p l).
  Proof.
    induction l as [|x l IH]; intro H; [auto|]. cbn. assert (IH' := IH (fun x I => H x (or_intror I))). destruct (q x) eqn:Q; [rewrite (H x (or_introl eq_refl) Q); cbn; lia|]. destruct (p x); cbn; lia.
  Qed.
  Lemma filter_lt {A} (p q : A -> bool) l y : (forall x, In x l -> q x = true -> p x = true) -> In y l -> p y = true -> q y = false -> length (filter q l) < length (filter p l).
  Proof.
    induction l as [|x l IH]; intros H I P Q; [destruct I|]. cbn. assert (H' : forall x, In x l -> q x = true -> p x = true) by (intros; apply H; [now right|assumption]). destruct I as [->|I].
    - rewrite P, Q. cbn. pose proof (filter_le _ _ _ H'). lia.
    - pose proof (IH H' I P Q). destruct (q x) eqn:QX; [rewrite (H x (or_introl eq_refl) QX); cbn; lia|]. destruct (p x); cbn; lia.
  Qed.
  Lemma free_le N g g' : incl g g' -> free N g' <= free N g.
  Proof. intro I. apply filter_le. intros x _ E. apply Bool.negb_true_iff in E. apply Bool.negb_true_iff. destruct (existsb (Nat.eqb x) g) eqn:X; [|reflexivity]. apply memb_In, I, memb_In in X. congruence. Qed.
  Lemma free_lt N g g' e : incl g g' -> ~ In e g -> In e g' -> e < N -> free N g' < free N g.
  Proof.
    intros I NI IE L. apply (filter_lt _ _ _ e).
    - intros x _ E. apply Bool.negb_true_iff in E. apply Bool.negb_true_iff. destruct (existsb (Nat.eqb x) g) eqn:X; [|reflexivity]. apply memb_In, I, memb_In in X. congruence.
    - apply in_seq. lia.
    - apply Bool.negb_true_iff. destruct (existsb (Nat.eqb e) g) eqn:X; [|reflexivity]. now apply memb_In in X.
    - apply memb_In in IE. rewrite IE. reflexivity.
  Qed.
  Lemma guard_bound h g : guard_ok h g -> forall z, In z g -> z < length h.
  Proof. intros (_ & NG) z I. destruct (NG _ I) as (m & M). apply nth_error_Some. unfold is_node in M. congruence. Qed.
  Lemma deref_err h : closed h -> forall fuel g i e, (exists n, is_node h i n) -> deref_loop fuel h g i = Err e -> e = OutOfFuel.
  Proof.
    intro C. induction fuel as [|fuel IH]; intros g i e (n & N) E; cbn [deref_loop] in E; (destruct (existsb (Nat.eqb i) g); [discriminate E|]); unfold get in E; unfold is_node in N; rewrite N in E; cbn [bind] in E;
      (destruct (s_ref n) eqn:R; [|discriminate E]).
    - congruence.
    - eapply IH; [|exact E]. eapply c_ref; [exact C| |exact R]. exact N.
  Qed.
  Lemma deref_ends {B} h g i (k : nat -> (list oid * option oid) -> res B) : closed h -> (exists n, is_node h i n) -> guard_ok h g ->
    (forall g' o, deref h g i = Ok (g', o) -> ends_in (fun n => k n (g', o))) -> ends_in (fun n => bind (deref h g i) (k n)).
  Proof.
    intros C N GO K. destruct (deref h g i) as [[g' o]|e] eqn:D; [cbn [bind]; auto|]. exfalso. unfold deref in D. pose proof (deref_err _ C _ _ _ _ N D) as ->.
    apply (deref_loop_fuel h (length h) g i) in D; auto; [apply GO|apply guard_bound, GO|lia].
  Qed.
  (** The schemas that exist at the start; copies that are made meanwhile are not visited. *)
  Lemma gather_ends own h0 : good N0 h0 -> forall c stk h g f, good N0 h -> vals h -> adds h0 h -> guard_ok h g -> fit h f -> nvals f -> (forall x, In x stk -> x < length h0) -> free (length h0) g <= c ->
    ends_in (fun n => gather n own h g f stk).
  Proof.
    intro G0.
    assert (OLD : forall h i n, adds h0 h -> i < length h0 -> is_node h i n -> is_node h0 i n).
    { intros h i n (l & ->) L N. unfold is_node in *. now rewrite nth_error_app1 in N. }
    assert (LT : forall i n, is_node h0 i n -> i < length h0) by (intros i n N; apply nth_error_Some; unfold is_node in N; congruence).
    assert (KID : forall i n j, is_node h0 i n -> In j (s_allof n) -> j < length h0).
    { intros i n j N I. destruct (node_kids _ _ _ (g_closed _ _ G0) N j) as (m & M); [right; now left|]. eauto. }
    induction c as [|c IHc]; (induction stk as [|x stk IHs]; intros h g f G V A GO F NF LS LF; [apply ends_eq with (g := fun _ => Ok (h, f)); [now intros [|n]|apply ends_ok]|]);
      pose proof (LS _ (or_introl eq_refl)) as LX; assert (NX : exists n, is_node h x n) by (unfold is_node; destruct A as (l & ->); destruct (nth_error (h0 ++ l) x) eqn:E; [eauto|]; apply nth_error_None in E; rewrite app_length in E; lia).
    all: apply ends_eq with (g := fun n => match n with O => Err OutOfFuel | S n => do gd <- deref h g x; match snd gd with None => gather n own h (fst gd) f stk | Some i =>
              do o <- get h i; do o <- match s_final o with Some j => get h j | None => Ok o end; do a <- merge_node (clone n) not_merged h f o;
              gather n own (fst a) (fst gd) (with_props (snd a) (add_props own (s_props (snd a)) (s_props o))) (rev (s_allof o) ++ stk) end end); [now intros [|n]|]; apply ends_step;
      apply deref_ends; [apply (g_closed _ _ G)|exact NX|exact GO|]; intros g' oe D; cbn [fst snd]; pose proof (guard_deref _ _ _ _ _ (g_closed _ _ G) NX D GO) as GO'; unfold deref in D; destruct oe as [e|].
    2,4: apply deref_loop_none in D as (INC & _); apply IHs; auto; [intros y Y; apply LS; now right|]; pose proof (free_le (length h0) _ _ INC); lia.
    all: apply deref_loop_some in D as (EX & NI & IE & INC & _).
    all: assert (LE : e < length h0) by (clear - OLD A LX EX G0 LT; induction EX as [i n N R|i n j k N R E IH]; [exact LX|]; apply IH; pose proof (OLD _ _ _ A LX N) as N'; destruct (c_ref _ (g_closed _ _ G0) _ _ _ N' R) as (m & M); eauto).
    all: pose proof (free_lt (length h0) _ _ _ INC NI IE LE) as FL.
    1: lia.
    destruct (ends_node _ _ _ EX) as (ne & NE). apply (ends_get h e ne); [exact NE|]. pose proof (OLD _ _ _ A LE NE) as NE0.
    assert (O : exists eo o, is_node h0 eo o /\ match s_final ne with Some j => get h j | None => Ok ne end = Ok o).
    { destruct (s_final ne) as [j|] eqn:FN.
      - destruct (g_final _ _ G0 _ _ _ NE0 FN) as (m & _ & M & _). exists j, m. split; [exact M|]. unfold get. pose proof (adds_node _ _ _ _ A M) as M'. unfold is_node in M'. now rewrite M'.
      - exists e, ne. split; [exact NE0|reflexivity]. }
    destruct O as (eo & o & NO & EO). rewrite EO. cbn [bind]. pose proof (adds_node _ _ _ _ A NO) as NO'. pose proof (node_fit _ _ _ (g_closed _ _ G) NO') as FO. apply ends_bind; [apply merge_end; auto; eapply V; eauto|].
    intros b fuel B. pose proof (merge_node_ok _ _ _ _ _ _ _ (clone_ok N0 fuel) G B) as M. destruct (merge_node_vals _ _ _ _ _ _ (clone_vals fuel) V NF (V _ _ NO') B) as (V1 & VN1).
    pose proof (merged_fit _ _ _ _ _ _ _ M F FO) as FR. pose proof (m_adds _ _ _ _ _ _ _ M) as A1. apply IHc; auto.
    - eapply m_good; eauto.
    - eapply adds_trans; eauto.
    - eapply guard_grows; [apply adds_grows; exact A1|exact GO'].
    - constructor; cbn [with_props s_plain s_ref s_props].
      + intros j [H|[H|[(k & H)|H]]]; [apply FR; now left|apply FR; right; now left| |apply FR; do 3 right; exact H].
        apply add_props_In in H as [H|H]; [apply FR; right; right; left; eauto|]. apply in_map_iff in H as ([k' j'] & <- & H). destruct (f_kids _ _ FO j') as (m & MM); [right; right; left; eauto|]. exists m. eapply adds_node; eauto.
      + apply FR.
      + apply add_props_nodup, FR.
      + apply FR.
    - intros y Y. apply in_app_or in Y as [Y|Y]; [|apply LS; now right]. apply in_rev in Y. eapply KID; eauto.
    - lia.
  Qed.
  (** ** Composing ends *)
  Lemma vals_grows h h' : vals h -> (forall i n, is_node h' i n -> exists m, nvals m /\ s_plain n = s_plain m) -> vals h'.
  Proof. intros V H i n N k v S. destruct (H _ _ N) as (m & M & E). rewrite E in S. eauto. Qed.
  Lemma gather_vals fuel own : forall h g f stk a, vals h -> nvals f -> gather fuel own h g f stk = Ok a -> vals (fst a) /\ nvals (snd a).
  Proof.
    induction fuel as [|fuel IH]; intros h g f stk a V F E; (destruct stk as [|x stk]; cbn [gather] in E; [injection E as <-; auto|]); [discriminate E|].
    apply bind_ok in E as ([g' oe] & D & E). cbn [fst snd] in E. destruct oe as [e|]; [|eauto]. apply bind_ok in E as (ne & NE & E). apply get_ok in NE. apply bind_ok in E as (o & O & E). apply bind_ok in E as (b & B & E).
    assert (NO : nvals o) by (destruct (s_final ne); [apply get_ok in O; eauto|injection O as <-; eauto]). destruct (merge_node_vals _ _ _ _ _ _ (clone_vals fuel) V F NO B) as (V1 & N1). eapply IH; [exact V1| |exact E]. exact N1.
  Qed.
  Lemma compose_all_vals rec : (forall h g i a, vals h -> rec h g i = Ok a -> vals (fst a)) -> forall l h g a, vals h -> compose_all rec h g l = Ok a -> vals (fst a).
  Proof. intro R. induction l as [|i l IH]; intros h g a V E; cbn [compose_all] in E; [injection E as <-; exact V|]. apply bind_ok in E as (b & B & E). eauto. Qed.
  Lemma compose_vals fuel : forall h g i a, vals h -> compose fuel h g i = Ok a -> vals (fst a).
  Proof.
    induction fuel as [|fuel IH]; intros h g i a V E; [discriminate E|]. cbn [compose] in E. unfold compose_step in E. apply bind_ok in E as ([g1 oe] & D & E). cbn [fst snd] in E. destruct oe as [e|]; [|injection E as <-; exact V].
    apply bind_ok in E as (n & N & E). destruct (s_final n); [injection E as <-; exact V|]. apply bind_ok in E as (b & B & E). pose proof (compose_all_vals _ IH _ _ _ _ V B) as V1. apply bind_ok in E as (n2 & N2 & E). apply get_ok in N2.
    apply bind_ok in E as (m & M & E). apply bind_ok in E as (f & F & E). injection E as <-. cbn [fst alloc]. destruct (merge_node_vals _ _ _ _ _ _ (clone_vals fuel) V1 new_vals (V1 _ _ N2) M) as (V2 & VM). destruct (gather_vals _ _ _ _ _ _ _ V2 VM F) as (V3 & VF).
    intros j x X. apply update_node in X as (y & Y & X). apply update_ext in X as (X & _). intros k v S. rewrite X in S. eapply (vals_snoc _ _ V3 VF); eauto.
  Qed.
  Lemma compose_ends : forall c h g i, good N0 h -> vals h -> guard_ok h g -> i < N0 -> free N0 g <= c -> ends_in (fun n => compose n h g i).
  Proof.
    induction c as [|c IHc]; intros h g i G V GO LI LF; apply ends_eq with (g := fun n => match n with O => Err OutOfFuel | S n => compose_step (compose n) n h g i end); try (now intros [|n]); apply ends_step; unfold compose_step;
      pose proof (region_node _ _ _ G LI) as NI; apply deref_ends; try exact GO; try exact NI; try apply (g_closed _ _ G); intros g1 oe D; cbn [fst snd];
      pose proof (guard_deref _ _ _ _ _ (g_closed _ _ G) NI D GO) as GO1; unfold deref in D; (destruct oe as [e|]; [|apply ends_ok]); apply deref_loop_some in D as (EX & NIN & IN & INC & _); pose proof (region_ends _ _ _ _ G LI EX) as LE;
      pose proof (free_lt N0 _ _ _ INC NIN IN LE) as FL; [lia|].
    destruct (ends_node _ _ _ EX) as (n & N). apply (ends_get h e n); [exact N|]. destruct (s_final n) eqn:FN; [apply ends_ok|]. fold (below n).
    assert (LB : forall j, In j (below n) -> j < N0) by (intros j I; exact (proj1 (g_region _ _ G _ _ N LE) _ (below_holds _ _ I))). apply ends_bind.
    - assert (FC : free N0 g1 <= c) by lia. clear - IHc G V GO1 LB FC plain_val plain_new. revert h g1 G V GO1 FC. induction (below n) as [|j l IH]; intros h g1 G V GO FC; cbn [compose_all]; [apply ends_ok|].
      apply ends_bind; [apply IHc; auto; apply LB; now left|]. intros b fuel B. destruct (compose_ok _ _ _ _ _ _ G GO (LB _ (or_introl eq_refl)) B) as (G1 & _ & GO1 & I1 & _). apply IH; auto.
      + intros x X. apply LB. now right.
      + exact (compose_vals _ _ _ _ _ V B).
      + pose proof (free_le N0 _ _ I1). lia.
    - intros b fuel B. destruct (compose_all_ok _ _ (compose_ok N0 fuel) _ _ _ _ G GO1 LB B) as (G2 & GR2 & GO2 & I2 & F2). pose proof (compose_all_vals _ (compose_vals fuel) _ _ _ _ V B) as V2.
      destruct (GR2 _ _ N) as (n2 & N2 & X2). apply (ends_get (fst b) e n2); [exact N2|]. pose proof (node_fit _ _ _ (g_closed _ _ G2) N2) as FO. apply ends_bind; [apply merge_end; auto using new_fit, new_vals; eapply V2; eauto|].
      intros m fu2 M. pose proof (merge_node_ok _ _ _ _ _ _ _ (clone_ok N0 fu2) G2 M) as MM. destruct (merge_node_vals _ _ _ _ _ _ (clone_vals fu2) V2 new_vals (V2 _ _ N2) M) as (V3 & VN3).
      apply ends_bind; [|intros; apply ends_ok]. pose proof (m_good _ _ _ _ _ _ _ MM) as G3. eapply (gather_ends _ (fst m)); auto using adds_refl, guard_nil.
      + eapply merged_fit; eauto using new_fit.
      + intros x X. apply in_rev in X. destruct (node_kids _ _ _ (g_closed _ _ G2) N2 x) as (y & Y); [right; now left|]. apply nth_error_Some. pose proof (adds_node _ _ _ _ (m_adds _ _ _ _ _ _ _ MM) Y) as Y'. unfold is_node in Y'. congruence.
  Qed.
  Lemma aggregate_ends : forall ids h, good N0 h -> vals h -> (forall i, In i ids -> i < N0) -> ends_in (fun n => aggregate n h ids).
  Proof.
    induction ids as [|i ids IH]; intros h G V LI; cbn [aggregate]; [apply ends_ok|]. apply ends_bind; [eapply compose_ends; eauto using guard_nil; apply LI; now left|]. intros a fuel A.
    destruct (compose_ok _ _ _ _ _ _ G (guard_nil h) (LI _ (or_introl eq_refl)) A) as (G1 & _). apply IH; auto; [exact (compose_vals _ _ _ _ _ V A)|]. intros j J. apply LI. now right.
  Qed.
End Ends.
