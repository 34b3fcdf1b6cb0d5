(** Proofs about converting 1.2 documents to 2.0: from the objects visited to the document. *)
From Coq Require Import Lia.
From Verif Require Import PyBase PyFacts PyJson S_JsonPtr M_JsonPtr P_JsonPtr M_Scope M_SpecVal M_Parse P_SpecBase P_Op P_Parse P_Typed M_SpecTree S_SpecTree P_SpecTree P_Order T_SpecTree M_Merge P_Merge M_MergeRef M_Patch P_Patch
  M_Scan M_Validate S_Parse S_Validate P_Validate M_OldParse S_OldParse P_OldParse T_OldParse M_OldValidate S_OldValidate P_OldValidate M_Upgrade S_Upgrade P_UpgradeObj P_Upgrade.
Close Scope Q_scope.

(** ** Lists *)
Lemma Forall2_split_l {A B} (P : A -> B -> Prop) l1 x l2 m : Forall2 P (l1 ++ x :: l2) m -> exists m1 y m2, m = m1 ++ y :: m2 /\ Forall2 P l1 m1 /\ P x y /\ Forall2 P l2 m2.
Proof. intro F. apply Forall2_app_inv_l in F as (m1 & m' & F1 & F2 & ->). inversion F2; subst. eauto 8. Qed.
Lemma Forall2_split_r {A B} (P : A -> B -> Prop) l m1 y m2 : Forall2 P l (m1 ++ y :: m2) -> exists l1 x l2, l = l1 ++ x :: l2 /\ Forall2 P l1 m1 /\ P x y /\ Forall2 P l2 m2.
Proof. intro F. apply Forall2_app_inv_r in F as (l1 & l' & F1 & F2 & ->). inversion F2; subst. eauto 8. Qed.
Lemma nodup_split {A} (l1 l2 m1 m2 : list A) x : NoDup (l1 ++ x :: l2) -> l1 ++ x :: l2 = m1 ++ x :: m2 -> l1 = m1 /\ l2 = m2.
Proof.
  revert m1. induction l1 as [|y l1 IH]; intros m1 N E; destruct m1 as [|z m1]; cbn in *.
  - injection E as ->. auto.
  - injection E as -> ->. inversion N as [|? ? NI _]; subst. elim NI. apply in_or_app. right. now left.
  - injection E as -> <-. inversion N as [|? ? NI _]; subst. elim NI. apply in_or_app. right. now left.
  - injection E as -> E. inversion N; subst. destruct (IH m1) as (-> & ->); auto.
Qed.
(** numbers going down *)
Fixpoint down_from (l : list nat) : Prop := match l with [] => True | i :: l => (forall j, In j l -> j < i) /\ down_from l end.
Lemma count_down {A} : forall (l : list A) pr, down_from (map fst pr) -> (forall i x, In (i, x) pr <-> nth_error l i = Some x) -> map snd pr = rev l.
Proof.
  induction l as [|z l IH] using rev_ind; intros pr D I.
  - destruct pr as [|[i x] pr]; [reflexivity|]. specialize (I i x). destruct i; destruct I as (I & _); discriminate (I (or_introl eq_refl)).
  - rewrite rev_app_distr. cbn [rev app]. assert (IZ : In (length l, z) pr) by (apply I; rewrite nth_error_app2, Nat.sub_diag by lia; reflexivity).
    destruct pr as [|[i x] pr]; [destruct IZ|]. cbn [map fst snd] in *. destruct D as (D1 & D2).
    assert (BI : forall j y, In (j, y) ((i, x) :: pr) -> j <= length l) by (intros j y J; apply I in J; assert (N : nth_error (l ++ [z]) j <> None) by congruence; apply nth_error_Some in N; rewrite app_length in N; cbn in N; lia).
    assert (i = length l) as ->. { pose proof (BI i x (or_introl eq_refl)). destruct IZ as [E|IZ]; [now injection E|]. apply (in_map fst) in IZ. apply D1 in IZ. cbn [fst] in IZ. lia. }
    assert (x = z) as ->. { pose proof (proj1 (I _ _) (or_introl eq_refl)) as E. rewrite nth_error_app2, Nat.sub_diag in E by lia. now injection E. }
    f_equal. apply IH; [exact D2|]. intros j y. split.
    + intro J. pose proof (D1 j (in_map fst _ _ J)) as LT. pose proof (proj1 (I j y) (or_intror J)) as E. now rewrite nth_error_app1 in E by lia.
    + intro E. assert (LT : j < length l) by (apply nth_error_Some; congruence). assert (J : In (j, y) ((length l, z) :: pr)) by (apply I; now rewrite nth_error_app1 by lia). destruct J as [J|J]; [|exact J]. injection J as J _. lia.
Qed.

(** ** What is visited *)
Inductive event := ERes (r : str) | EOp (r n : str) (R O : val) | EParam (r n : str) (i : nat) (R O q : val) | EModel (r k : str) (M : val) | EAuth (k : str) (A : val) | EOther.
Definition is_op (e : event) : Prop := match e with EOp _ _ _ _ => True | _ => False end.
Section Events.
  Context (raw : val) (LOADED : loaded12 raw).
  Inductive event_of : str * val -> event -> Prop :=
  | ev_res r o : resource_in raw r o -> event_of (at_resource r, o) (ERes r)
  | ev_op r n R o : operation_in raw r n R o -> event_of (at_op r n, o) (EOp r n R o)
  | ev_param r n i R O q : operation_in raw r n R O -> reach [] O [lit "parameters"; str_of_nat i] q -> event_of (at_param r n (str_of_nat i), q) (EParam r n i R O q)
  | ev_model r k M : model_in raw r k M -> event_of (at_model r k, M) (EModel r k M)
  | ev_auth k A : authorization_in raw k A -> event_of (at_auth k, A) (EAuth k A)
  | ev_other p o c : of_class c o -> kind_of c = [] -> event_of (p, o) EOther.
  Lemma reach_obj ts o : reach [] raw ts o -> is_obj o -> ts <> [] -> exists e, event_of (rfc_pointer (lit "#") ts, o) e.
  Proof.
    intros R O N. destruct (old_class raw LOADED _ _ R O) as (c & C). destruct c; try (eexists; eapply ev_other; [exact C|reflexivity]).
    - destruct (authorization_place raw LOADED _ _ R C) as (k & -> & A). eexists. now apply ev_auth.
    - destruct (parameter_place raw LOADED _ _ R C) as (r & n & i & RS & OP & -> & OI & _ & CO & RQ).
      assert (X : exists j, i = str_of_nat j).
      { destruct CO as (h & fs & ints & -> & HC). destruct (reach_two _ _ _ _ _ _ _ eq_refl RQ) as (x & G & RX).
        destruct (raw_shape raw LOADED) as (W & V & _). destruct OI as (HR & HO). pose proof (reach_app _ _ _ _ _ _ HR HO) as HRO. pose proof (reach_old _ _ _ HRO W V) as VP.
        inversion VP as [? NO| | |c ? ? ? C' IK FV FF]; subst; [elim (no_obj_VObj _ _ _ NO)|]. rewrite HC in C'. injection C' as <-. rewrite Forall_forall in FF. pose proof (FF _ (sget_In _ _ _ G)) as OF. unfold old_field in OF. cbn [fst snd] in OF.
        change (sget (lit "parameters") (o_holds OOperation)) with (Some (XList, OParameter)) in OF. destruct OF as [(HD & _)|[->|(E & _)]]; [|inversion RX|discriminate E]. destruct HD as (l & -> & _). inversion RX; subst. eauto. }
      destruct X as (j & ->). exists (EParam r n j RS OP o). apply ev_param; assumption.
    - destruct (operation_place raw LOADED _ _ R C) as (r & n & RS & -> & OI & _). exists (EOp r n RS o). now apply ev_op.
    - destruct (model_place raw LOADED _ _ R C) as (r & k & -> & M). eexists. now apply ev_model.
    - destruct (resource_place raw LOADED _ _ R C) as (r & ->). eexists. now apply ev_res.
    - now apply (list_place raw LOADED) in R.
  Qed.
  Lemma event_inv p o e : event_of (p, o) e ->
    match e with
    | ERes r => p = at_resource r /\ resource_in raw r o
    | EOp r n R P => p = at_op r n /\ o = P /\ operation_in raw r n R P
    | EParam r n i R P q => p = at_param r n (str_of_nat i) /\ o = q /\ operation_in raw r n R P /\ reach [] P [lit "parameters"; str_of_nat i] q
    | EModel r k M => p = at_model r k /\ o = M /\ model_in raw r k M
    | EAuth k A => p = at_auth k /\ o = A /\ authorization_in raw k A
    | EOther => exists c, of_class c o /\ kind_of c = []
    end.
  Proof. intro E. remember (p, o) as po eqn:Q. assert (Q1 : p = fst po) by (rewrite Q; reflexivity). assert (Q2 : o = snd po) by (rewrite Q; reflexivity). clear Q. destruct E; cbn [fst snd] in Q1, Q2; subst; eauto. Qed.
  Ltac unptr := repeat match goal with H : rfc_pointer (lit "#") _ = rfc_pointer (lit "#") _ |- _ => apply pointer_inj in H; [|discriminate]; first [discriminate H|injection H; clear H; intros; subst] end.
  Ltac unev E := apply event_inv in E; match type of E with match ?e with _ => _ end => destruct e end; unfold at_resource, at_op, at_param, at_model, at_auth in *;
    repeat match goal with H : _ /\ _ |- _ => destruct H | H : exists _, _ |- _ => destruct H end; unptr.
  Lemma kind_class c c' o : of_class c o -> of_class c' o -> kind_of c' = [] -> kind_of c <> [] -> False.
  Proof. intros A B K N. rewrite (class_unique _ _ _ A B) in N. contradiction. Qed.
  Lemma is_res r o e : resource_in raw r o -> event_of (at_resource r, o) e -> e = ERes r.
  Proof. intros H E. unev E; try reflexivity. exfalso. eapply kind_class; [exact (resource_class raw LOADED _ _ H)|eassumption..|discriminate]. Qed.
  Lemma is_oper r n R o e : operation_in raw r n R o -> event_of (at_op r n, o) e -> e = EOp r n R o.
  Proof.
    intros H E. unev E.
    - f_equal. match goal with H' : operation_in raw _ _ ?R' _ |- ?R' = R => exact (reach_unique _ _ _ _ (proj1 H') (proj1 H)) end.
    - exfalso. eapply kind_class; [exact (operation_class raw LOADED _ _ _ _ H)|eassumption..|discriminate].
  Qed.
  Lemma op_unique r n R O R' O' : operation_in raw r n R O -> operation_in raw r n R' O' -> R = R' /\ O = O'.
  Proof. intros (A & B) (A' & B'). pose proof (reach_unique _ _ _ _ A A') as <-. split; [reflexivity|exact (reach_unique _ _ _ _ B B')]. Qed.
  Lemma is_par r n i R O q e : operation_in raw r n R O -> reach [] O [lit "parameters"; str_of_nat i] q -> event_of (at_param r n (str_of_nat i), q) e -> e = EParam r n i R O q.
  Proof.
    intros H Q E. unev E.
    - match goal with H' : operation_in raw ?r ?n ?R' ?O', H : operation_in raw ?r ?n R O |- _ => destruct (op_unique _ _ _ _ _ _ H' H) as (-> & ->) end. match goal with H' : str_of_nat _ = str_of_nat _ |- _ => apply str_of_nat_inj in H' as -> end. reflexivity.
    - exfalso. eapply kind_class; [exact (parameter_class raw LOADED _ _ _ _ _ _ H Q)|eassumption..|discriminate].
  Qed.
  Lemma is_mod r k M e : model_in raw r k M -> event_of (at_model r k, M) e -> e = EModel r k M.
  Proof. intros H E. unev E; try reflexivity. exfalso. eapply kind_class; [exact (model_class raw LOADED _ _ _ H)|eassumption..|discriminate]. Qed.
  Lemma is_auth k A e : authorization_in raw k A -> event_of (at_auth k, A) e -> e = EAuth k A.
  Proof. intros H E. unev E; try reflexivity. exfalso. eapply kind_class; [exact (authorization_class raw LOADED _ _ H)|eassumption..|discriminate]. Qed.

  Lemma raw_ok : wfv raw /\ is_obj raw.
  Proof. destruct (raw_shape raw LOADED) as (W & _ & h & fs & ints & d & -> & _). split; [exact W|exact Logic.I]. Qed.
  Context (rest : list (str * val)) (es : list event) (TR : traverse raw [] = Ok ((lit "#", raw) :: rest)) (EV : Forall2 event_of rest es).
  Lemma in_rest ts o : reach [] raw ts o -> is_obj o -> ts <> [] -> In (rfc_pointer (lit "#") ts, o) rest.
  Proof.
    intros R O N. destruct raw_ok as (W & OR). destruct (c35_visits raw [] W OR) as (l & E & V). rewrite TR in E. injection E as <-. assert (I : In (rfc_pointer (lit "#") ts, o) ((lit "#", raw) :: rest)) by (apply V; eauto).
    destruct I as [I|I]; [|exact I]. exfalso. apply (f_equal fst) in I. cbn [fst] in I. rename I into E. pose proof (pointer_longer (lit "#") ts N) as L. rewrite <- E in L. lia.
  Qed.
  Lemma rest_nodup : NoDup (map fst rest).
  Proof. destruct raw_ok as (W & OR). pose proof (c35_once _ _ _ W OR TR) as N. now inversion N. Qed.
  Lemma rest_nodup' : NoDup rest.
  Proof. eapply NoDup_map_inv, rest_nodup. Qed.
  Lemma from_rest ts o (P : event -> Prop) : reach [] raw ts o -> is_obj o -> ts <> [] -> (forall e, event_of (rfc_pointer (lit "#") ts, o) e -> P e) -> exists e, In e es /\ P e.
  Proof. intros R O N H. apply (in_rest ts o R O) in N as I. destruct (Forall2_In_l _ _ _ _ EV I) as (e & IE & E). exists e. split; [exact IE|now apply H]. Qed.
  Lemma from_es e : In e es -> exists po, In po rest /\ event_of po e.
  Proof. intro I. destruct (Forall2_In_r _ _ _ _ EV I) as (po & J & E). eauto. Qed.
  Lemma es_res r : In (ERes r) es <-> exists R, resource_in raw r R.
  Proof.
    split.
    - intro I. apply from_es in I as ((p & o) & _ & E). apply event_inv in E as (_ & E). eauto.
    - intros (R & H). destruct (from_rest [lit "apis"; r] R (eq (ERes r)) H (class_obj _ _ (resource_class raw LOADED _ _ H)) ltac:(discriminate)) as (e & I & <-); [|exact I]. intros e E. symmetry. eapply is_res; eauto.
  Qed.
  Lemma es_op r n R O : In (EOp r n R O) es <-> operation_in raw r n R O.
  Proof.
    split.
    - intro I. apply from_es in I as ((p & o) & _ & E). apply event_inv in E as (_ & _ & E). exact E.
    - intros H. destruct (from_rest [lit "apis"; r; lit "apis"; n] O (eq (EOp r n R O)) (reach_app _ _ _ _ _ _ (proj1 H) (proj2 H)) (class_obj _ _ (operation_class raw LOADED _ _ _ _ H)) ltac:(discriminate)) as (e & I & <-); [|exact I]. intros e E. symmetry. eapply is_oper; eauto.
  Qed.
  Lemma param_reach r n i R O q : operation_in raw r n R O -> reach [] O [lit "parameters"; i] q -> reach [] raw [lit "apis"; r; lit "apis"; n; lit "parameters"; i] q.
  Proof. intros (A & B) Q. exact (reach_app _ _ _ _ _ _ (reach_app _ _ _ _ _ _ A B) Q). Qed.
  Lemma es_param r n i R O q : In (EParam r n i R O q) es <-> operation_in raw r n R O /\ reach [] O [lit "parameters"; str_of_nat i] q.
  Proof.
    split.
    - intro I. apply from_es in I as ((p & o) & _ & E). apply event_inv in E as (_ & _ & E). exact E.
    - intros (H & Q). destruct (from_rest _ q (eq (EParam r n i R O q)) (param_reach _ _ _ _ _ _ H Q) (class_obj _ _ (parameter_class raw LOADED _ _ _ _ _ _ H Q)) ltac:(discriminate)) as (e & I & <-); [|exact I]. intros e E. symmetry. eapply is_par; eauto.
  Qed.
  Lemma es_model r k M : In (EModel r k M) es <-> model_in raw r k M.
  Proof.
    split.
    - intro I. apply from_es in I as ((p & o) & _ & E). apply event_inv in E as (_ & _ & E). exact E.
    - intros H. destruct (from_rest _ M (eq (EModel r k M)) H (class_obj _ _ (model_class raw LOADED _ _ _ H)) ltac:(discriminate)) as (e & I & <-); [|exact I]. intros e E. symmetry. eapply is_mod; eauto.
  Qed.
  Lemma es_auth k A : In (EAuth k A) es <-> authorization_in raw k A.
  Proof.
    split.
    - intro I. apply from_es in I as ((p & o) & _ & E). apply event_inv in E as (_ & _ & E). exact E.
    - intros H. destruct (from_rest _ A (eq (EAuth k A)) H (class_obj _ _ (authorization_class raw LOADED _ _ H)) ltac:(discriminate)) as (e & I & <-); [|exact I]. intros e E. symmetry. eapply is_auth; eauto.
  Qed.

  (** The order *)
  Lemma op_split r n R O e1 e2 : es = e1 ++ EOp r n R O :: e2 -> exists l1 a b, rest = l1 ++ (at_op r n, O) :: a ++ b /\ Forall2 event_of l1 e1 /\ Forall2 event_of (a ++ b) e2 /\
    (forall q x, In (q, x) a <-> exists ts, ts <> [] /\ q = rfc_pointer (at_op r n) ts /\ reach [] O ts x /\ is_obj x) /\ (forall q x ts, In (q, x) b -> q <> rfc_pointer (at_op r n) ts).
  Proof.
    intro E. pose proof EV as F. rewrite E in F. apply Forall2_split_r in F as (l1 & (p0 & o0) & l2 & ER & F1 & P & F2). apply event_inv in P as (-> & -> & P). subst rest. destruct raw_ok as (W & OR).
    destruct (c35_depth_first _ _ _ ((lit "#", raw) :: l1) (at_op r n) O l2 W OR TR eq_refl) as (a & b & -> & IA & IB). exists l1, a, b. auto.
  Qed.
  (** a parameter comes after its operation, with no other operation between *)
  Lemma after_op r n i R O q e1 e2 : es = e1 ++ EParam r n i R O q :: e2 -> exists a1 a2, e1 = a1 ++ EOp r n R O :: a2 /\ Forall (fun e => ~ is_op e) a2.
  Proof.
    intro E. assert (IP : In (EParam r n i R O q) es) by (rewrite E; apply in_or_app; right; now left). apply es_param in IP as (HO & HQ). pose proof (proj2 (es_op r n R O) HO) as IO. apply in_split in IO as (f1 & f2 & EF).
    destruct (op_split _ _ _ _ _ _ EF) as (l1 & a & b & ER & F1 & F2 & IA & IB). pose proof EV as F. rewrite E in F. apply Forall2_split_r in F as (m1 & (p0 & o0) & m2 & ER' & G1 & P & G2). apply event_inv in P as (-> & -> & _).
    assert (J : In (at_param r n (str_of_nat i), q) a).
    { apply IA. exists [lit "parameters"; str_of_nat i]. split; [discriminate|]. split; [unfold at_param, at_op; now rewrite <- pointer_app|]. split; [exact HQ|]. exact (class_obj _ _ (parameter_class raw LOADED _ _ _ _ _ _ HO HQ)). }
    apply in_split in J as (x1 & x2 & EA).
    assert (EM : m1 = l1 ++ (at_op r n, O) :: x1).
    { rewrite EA in ER. replace (l1 ++ (at_op r n, O) :: (x1 ++ (at_param r n (str_of_nat i), q) :: x2) ++ b) with ((l1 ++ (at_op r n, O) :: x1) ++ (at_param r n (str_of_nat i), q) :: x2 ++ b) in ER by (rewrite <- !app_assoc; reflexivity).
      rewrite ER' in ER. apply nodup_split in ER as (-> & _); [reflexivity|]. rewrite <- ER'. exact rest_nodup'. }
    subst m1. apply Forall2_split_l in G1 as (a1 & e & a2 & -> & _ & EO & G). apply (is_oper r n R O) in EO; [|exact HO]. subst e. exists a1, a2. split; [reflexivity|]. apply Forall_forall. intros e IE OE. destruct (Forall2_In_r _ _ _ _ G IE) as ((p' & o') & IX & EE).
    assert (IX' : In (p', o') a) by (rewrite EA; apply in_or_app; now left). apply IA in IX' as (ts & NT & -> & _ & _). destruct e; try contradiction. apply event_inv in EE as (EP & _). unfold at_op in EP. rewrite <- pointer_app in EP. apply pointer_inj in EP; [|discriminate]. cbn [app] in EP. injection EP as _ _ EP. now apply NT.
  Qed.
  Fixpoint params_of (r n : str) (l : list event) : list (nat * val) :=
    match l with
    | [] => []
    | EParam r' n' i _ _ q :: l => if str_eqb r' r && str_eqb n' n then (i, q) :: params_of r n l else params_of r n l
    | _ :: l => params_of r n l
    end.
  Lemma params_In r n l : forall i q, In (i, q) (params_of r n l) <-> exists R O, In (EParam r n i R O q) l.
  Proof.
    induction l as [|e l IH]; intros i q; [split; [intros []|now intros (R & O & [])]|]. destruct e as [r1|r1 n1 R1 O1|r' n' j R' O' q'|r1 k1 M1|k1 A1|]; cbn [params_of].
    3:{ destruct (str_eqb r' r && str_eqb n' n) eqn:E.
        - apply andb_true_iff in E as (E1 & E2). apply str_eqb_eq in E1 as ->. apply str_eqb_eq in E2 as ->. cbn [In]. rewrite IH. split.
          + intros [X|(R & O & X)]; [injection X as -> ->; eauto|eauto].
          + intros (R & O & [X|X]); [injection X as -> -> -> ->; auto|eauto].
        - rewrite IH. split; [intros (R & O & X); exists R, O; now right|]. intros (R & O & [X|X]); [|eauto]. injection X as -> -> _ _ _ _. rewrite !str_eqb_refl in E. discriminate E. }
    all: rewrite IH; (split; [intros (R & O & X); exists R, O; now right|]); intros (R & O & [X|X]); [discriminate X|eauto].
  Qed.
  Lemma params_app r n a : forall b, params_of r n (a ++ b) = params_of r n a ++ params_of r n b.
  Proof. induction a as [|e a IH]; intro b; [reflexivity|]. destruct e; cbn [app params_of]; rewrite ?IH; try reflexivity. destruct (_ && _); reflexivity. Qed.
  Lemma precede_two l r n i q j q' : precede (params_of r n l) (i, q) (j, q') -> exists R O R' O', precede l (EParam r n i R O q) (EParam r n j R' O' q').
  Proof.
    induction l as [|e l IH]; intros (p1 & p2 & E & I); [destruct p1; discriminate E|].
    assert (SKIP : params_of r n (e :: l) = params_of r n l -> exists R O R' O', precede (e :: l) (EParam r n i R O q) (EParam r n j R' O' q')).
    { intro Q. rewrite Q in E. destruct IH as (R & O & R' & O' & P); [exists p1, p2; auto|]. exists R, O, R', O'. exact (precede_app_r _ [e] _ _ P). }
    destruct e as [r1|r1 n1 R1 O1|r' n' k R0 O0 q0|r1 k1 M1|k1 A1|]; try (apply SKIP; reflexivity). cbn [params_of] in E, SKIP. destruct (str_eqb r' r && str_eqb n' n) eqn:EQ; [clear SKIP|apply SKIP; reflexivity].
    apply andb_true_iff in EQ as (E1 & E2). apply str_eqb_eq in E1 as ->. apply str_eqb_eq in E2 as ->. destruct p1 as [|y p1]; cbn [app] in E.
    - injection E as -> -> <-. apply params_In in I as (R' & O' & I). exists R0, O0, R', O'. exists [], l. auto.
    - injection E as <- E. destruct IH as (R & O & R' & O' & P); [exists p1, p2; auto|]. exists R, O, R', O'. exact (precede_app_r _ [_] _ _ P).
  Qed.
  Lemma down_precede l : (forall i q j q', precede l (i, q) (j, q') -> j < i) -> down_from (map (@fst nat val) l).
  Proof.
    induction l as [|[i q] l IH]; intro H; [exact Logic.I|]. cbn [map fst down_from]. split.
    - intros j J. apply in_map_iff in J as ((j' & q') & <- & J). apply (H i q j' q'). exists [], l. auto.
    - apply IH. intros. eapply H, (precede_app_r _ [_]); eassumption.
  Qed.
  Lemma op_object r n R O : operation_in raw r n R O -> exists h fs ints, O = VObj h fs ints /\ h_cls h = COld OOperation /\ exists v qs, sget (lit "parameters") fs = Some v /\ (v = VList qs \/ (v = VNone /\ qs = [])).
  Proof.
    intro HO. destruct (operation_class raw LOADED _ _ _ _ HO) as (h & fs & ints & -> & HC). exists h, fs, ints. split; [reflexivity|]. split; [exact HC|].
    destruct (raw_shape raw LOADED) as (W & V & _). pose proof (reach_app _ _ _ _ _ _ (proj1 HO) (proj2 HO)) as HRO. pose proof (reach_old _ _ _ HRO W V) as VP. pose proof (reach_wf _ _ _ _ HRO W) as WP.
    inversion WP as [| | | | | | |? ? ? K F]; subst. rewrite HC in K. destruct (sget (lit "parameters") fs) as [x|] eqn:G; [|exfalso; apply sget_None in G; apply G; rewrite K; vm_compute; tauto].
    inversion VP as [? NO| | |c ? ? ? C' IK FV FF]; subst; [elim (no_obj_VObj _ _ _ NO)|]. rewrite HC in C'. injection C' as <-. rewrite Forall_forall in FF. pose proof (FF _ (sget_In _ _ _ G)) as OF. unfold old_field in OF. cbn [fst snd] in OF.
    change (sget (lit "parameters") (o_holds OOperation)) with (Some (XList, OParameter)) in OF. destruct OF as [(HD & _)|[->|(E & _)]]; [|exists VNone, []; auto|discriminate E]. destruct HD as (l & -> & _). exists (VList l), l. auto.
  Qed.
  Lemma param_nth h fs ints v qs i q : sget (lit "parameters") fs = Some v -> (v = VList qs \/ (v = VNone /\ qs = [])) -> (reach [] (VObj h fs ints) [lit "parameters"; str_of_nat i] q <-> nth_error qs i = Some q).
  Proof.
    intros G V. split.
    - intro R. destruct (reach_two _ _ _ _ _ _ _ eq_refl R) as (x & G' & RX). assert (x = v) as -> by congruence. destruct V as [->|(-> & _)]; inversion RX as [| |? j y ? ? N R'|]; subst. inversion R'; subst. match goal with H : str_of_nat _ = str_of_nat _ |- _ => apply str_of_nat_inj in H as -> end. exact N.
    - intro N. destruct V as [->|(-> & ->)]; [|now destruct i]. eapply reach_field; [intros []|exact G|]. eapply reach_item; [exact N|apply reach_here].
  Qed.
  (** the parameters of an operation, in the order visited *)
  Lemma params_rev r n R O e1 e2 v qs : es = e1 ++ EOp r n R O :: e2 -> has_field O "parameters" v -> (v = VList qs \/ (v = VNone /\ qs = [])) -> map snd (params_of r n e2) = rev qs.
  Proof.
    intros E HF V. assert (HO : operation_in raw r n R O) by (apply es_op; rewrite E; apply in_or_app; right; now left). destruct (op_object _ _ _ _ HO) as (h & fs & ints & -> & HC & v' & qs' & G & V').
    assert (v' = v) as ->. { destruct HF as [HF|(HF & _)]; congruence. }
    destruct (op_split _ _ _ _ _ _ E) as (l1 & a & b & ER & F1 & F2 & IA & IB). apply count_down.
    - apply down_precede. intros i q j q' P. apply precede_two in P as (R1 & O1 & R2 & O2 & P). assert (PE : precede es (EParam r n i R1 O1 q) (EParam r n j R2 O2 q')) by (rewrite E; apply (precede_app_r _ _), (precede_app_r _ [_]), P).
      assert (I1 : In (EParam r n i R1 O1 q) es) by (destruct PE as (x1 & x2 & -> & _); apply in_or_app; right; now left). assert (I2 : In (EParam r n j R2 O2 q') es) by (destruct PE as (x1 & x2 & -> & J); apply in_or_app; right; now right).
      apply es_param in I1 as (H1 & Q1), I2 as (H2 & Q2). destruct (op_unique _ _ _ _ _ _ H1 HO) as (-> & ->). destruct (op_unique _ _ _ _ _ _ H2 HO) as (-> & ->). apply (param_nth _ _ _ _ _ _ _ G V) in Q1 as N1, Q2 as N2.
      destruct (Nat.lt_trichotomy j i) as [L|[L|L]]; [exact L|exfalso..].
      + subst j. assert (q' = q) as -> by congruence. destruct PE as (x1 & x2 & EE & J). apply in_split in J as (y1 & y2 & ->). pose proof EV as FE. rewrite EE in FE. apply Forall2_split_r in FE as (m1 & po & m2 & ER' & _ & P1 & G2). apply Forall2_split_r in G2 as (m3 & po' & m4 & -> & _ & P2 & _).
        assert (po = po') as <- by (destruct po, po'; apply event_inv in P1 as (-> & -> & _), P2 as (-> & -> & _); reflexivity). pose proof rest_nodup' as ND. rewrite ER' in ND. apply NoDup_remove_2 in ND. apply ND. apply in_or_app. right. apply in_or_app. right. now left.
      + destruct raw_ok as (W & OR). pose proof (param_reach _ _ _ _ _ _ HO Q1) as T1. pose proof (param_reach _ _ _ _ _ _ HO Q2) as T2.
        assert (EA : earlier raw [lit "apis"; r; lit "apis"; n; lit "parameters"; str_of_nat i] [lit "apis"; r; lit "apis"; n; lit "parameters"; str_of_nat j]).
        { assert (ST : forall ts w x us us', reach [] w ts x -> earlier x us us' -> earlier w (ts ++ us) (ts ++ us')).
          { clear. induction 1 as [v|h fs ints n v ts o L G R IH|l i v ts o N R IH|d k v ts o G R IH]; intro EA; [exact EA|..]; cbn [app]; (eapply earlier_below; [|apply IH; exact EA]); constructor; assumption. }
          apply (ST [lit "apis"; r; lit "apis"; n] raw (VObj h fs ints) [lit "parameters"; str_of_nat i] [lit "parameters"; str_of_nat j] (reach_app _ _ _ _ _ _ (proj1 HO) (proj2 HO))).
          eapply earlier_below; [apply step_field; exact G|]. destruct V as [->|(-> & ->)]; [|now destruct i]. apply earlier_here. apply before_item; [exact L|]. apply nth_error_Some. congruence. }
        destruct (c35_last_first _ _ _ _ _ _ _ W OR TR T1 (class_obj _ _ (parameter_class raw LOADED _ _ _ _ _ _ HO Q1)) T2 (class_obj _ _ (parameter_class raw LOADED _ _ _ _ _ _ HO Q2)) EA) as (x1 & x2 & EX & J).
        destruct PE as (y1 & y2 & EE & J2). apply in_split in J2 as (z1 & z2 & ->). pose proof EV as FE. rewrite EE in FE. apply Forall2_split_r in FE as (m1 & po & m2 & ER' & _ & P1 & G2). apply Forall2_split_r in G2 as (m3 & po' & m4 & -> & _ & P2 & _). destruct po, po'; apply event_inv in P1 as (-> & -> & _), P2 as (-> & -> & _).
        apply (precede_not rest (at_param r n (str_of_nat i), q) (at_param r n (str_of_nat j), q') rest_nodup').
        * rewrite ER'. exists m1, (m3 ++ (at_param r n (str_of_nat j), q') :: m4). split; [reflexivity|]. apply in_or_app. right. now left.
        * destruct x1 as [|x x1]; cbn [app] in EX; [apply (f_equal (hd (lit "#", raw))) in EX; apply (f_equal fst) in EX; cbn [hd fst] in EX; discriminate EX|]. apply (f_equal (@tl _)) in EX; cbn [tl] in EX. exists x1, x2. split; [exact EX|exact J].
    - intros i q. rewrite params_In. rewrite <- (param_nth h fs ints v qs i q G V). split.
      + intros (R' & O' & I). assert (I' : In (EParam r n i R' O' q) es) by (rewrite E; apply in_or_app; right; now right). apply es_param in I' as (H1 & Q1). destruct (op_unique _ _ _ _ _ _ H1 HO) as (-> & ->). exact Q1.
      + intro Q. exists R, (VObj h fs ints). assert (I : In (at_param r n (str_of_nat i), q) a).
        { apply IA. exists [lit "parameters"; str_of_nat i]. split; [discriminate|]. split; [unfold at_param, at_op; now rewrite <- pointer_app|]. split; [exact Q|]. exact (class_obj _ _ (parameter_class raw LOADED _ _ _ _ _ _ HO Q)). }
        assert (I' : In (at_param r n (str_of_nat i), q) (a ++ b)) by (apply in_or_app; now left). destruct (Forall2_In_l _ _ _ _ F2 I') as (e & IE & EE). apply (is_par r n i R (VObj h fs ints) q) in EE; [|assumption..]. now subst e.
  Qed.
End Events.
