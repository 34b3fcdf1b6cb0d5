(** Proofs about converting 1.2 documents to 2.0: what has been built after some of the
    objects have been visited. *)
From Coq Require Import Lia.
From Verif Require Import PyBase PyFacts PyJson S_JsonPtr M_JsonPtr P_JsonPtr M_Scope M_SpecVal M_Parse P_SpecBase P_Op P_Parse P_Typed M_SpecTree S_SpecTree P_SpecTree P_Order T_SpecTree M_Merge P_Merge M_MergeRef M_Patch P_Patch
  M_Scan M_Validate S_Parse S_Validate P_Validate M_OldParse S_OldParse P_OldParse T_OldParse M_OldValidate S_OldValidate P_OldValidate M_Upgrade S_Upgrade P_UpgradeObj P_Upgrade P_UpgradeDoc.
Close Scope Q_scope.

Lemma last_unique {A} (P : A -> Prop) l1 x l2 : forall m1 y m2, l1 ++ x :: l2 = m1 ++ y :: m2 -> P x -> P y -> Forall (fun z => ~ P z) l2 -> Forall (fun z => ~ P z) m2 -> l1 = m1 /\ x = y /\ l2 = m2.
Proof.
  induction l1 as [|z l1 IH]; intros m1 y m2 E PX PY F G; destruct m1 as [|w m1]; cbn [app] in E.
  - injection E as -> ->. auto.
  - injection E as -> ->. exfalso. rewrite Forall_forall in F. apply (F y); [apply in_or_app; right; now left|exact PY].
  - injection E as -> <-. exfalso. rewrite Forall_forall in G. apply (G x); [apply in_or_app; right; now left|exact PX].
  - injection E as -> E. destruct (IH _ _ _ E PX PY F G) as (-> & -> & ->). auto.
Qed.
Lemma sets_both c l : forall kvs ns v, holding c kvs v -> giving ns v -> forallb (fun nx => smem (lit (fst nx)) (t_fields c)) l = true ->
  exists v', sets l v = Ok v' /\ holding c (kvs ++ lits l) v' /\ giving (ns ++ map fst (lits l)) v'.
Proof.
  induction l as [|[n x] l IH]; intros kvs ns v H G F; cbn [sets lits map].
  - exists v. rewrite !app_nil_r. auto.
  - cbn [forallb fst] in F. apply andb_true_iff in F as (F1 & F2). destruct (set_put c kvs v (lit n) x H F1) as (w & -> & HW & GW). cbn [bind]. destruct (IH _ _ w HW (GW _ G) F2) as (v' & E & H' & G'). exists v'. split; [exact E|]. cbn [fst snd]. rewrite <- !app_assoc in *. auto.
Qed.
Lemma rev_unique (d : sdict val) n : NoDup (map fst d) -> sget n (rev d) = sget n d.
Proof.
  induction d as [|[k x] d IH]; intro N; [reflexivity|]. cbn [rev]. inversion N as [|? ? NI N']; subst. rewrite sget_app, (IH N'), !sget_cons. destruct (str_eqb n k) eqn:E.
  - apply str_eqb_eq in E as ->. destruct (sget k d) eqn:G; [elim NI; apply sget_In in G; exact (in_map fst _ _ G)|reflexivity].
  - now destruct (sget n d).
Qed.
Lemma sset_nodup (d : sdict val) n x : NoDup (map fst d) -> NoDup (map fst (sset n x d)).
Proof. apply sset_NoDup. Qed.
Lemma rev_sset (d : sdict val) n x m : NoDup (map fst d) -> sget m (rev (sset n x d)) = sget m (rev (d ++ [(n, x)])).
Proof.
  intro N. rewrite rev_get, (rev_unique (sset n x d)), (rev_unique d) by auto using sset_nodup. destruct (str_eqb m n) eqn:E; [apply str_eqb_eq in E as ->; apply sget_sset_same|]. apply sget_sset_other. intros ->. rewrite str_eqb_refl in E. discriminate E.
Qed.
Lemma In_keys_sset (d : sdict val) n x m : In m (map fst (sset n x d)) <-> In m (map fst d) \/ m = n.
Proof.
  induction d as [|[k y] d IH]; cbn; [intuition|]. destruct (str_eqb n k) eqn:E; cbn; [apply str_eqb_eq in E as ->; intuition|]. rewrite IH. intuition.
Qed.

Definition tags_inv (L : list event) (tags : list val) : Prop :=
  exists ns, NoDup ns /\ (forall n, In n ns <-> exists r, In (ERes r) L /\ n = rfc_escape r) /\ Forall2 (fun n t => made CTag ["name" ~> VStr n] t) ns tags.
Definition secs_inv (L : list event) (secs : sdict val) : Prop :=
  NoDup (map fst secs) /\ (forall n x, sget n secs = Some x -> exists k A, In (EAuth k A) L /\ n = rfc_escape k /\ scheme_for A x) /\
  (forall k A, In (EAuth k A) L -> exists x, sget (rfc_escape k) secs = Some x).
Definition models_of (L : list event) : list (str * str * val) := flat_map (fun e => match e with EModel r k M => [(r, k, M)] | _ => [] end) L.
Lemma models_In L r k M : In (r, k, M) (models_of L) <-> In (EModel r k M) L.
Proof.
  unfold models_of. rewrite in_flat_map. split.
  - intros (e & I & J). destruct e; try contradiction J. destruct J as [J|[]]. injection J as -> -> ->. exact I.
  - intro I. exists (EModel r k M). split; [exact I|now left].
Qed.
Section Fold.
  Context (prim : str -> bool) (float_of : str -> res Q) (sep : str) (raw : val) (LOADED : loaded12 raw).
  Notation operation_for := (operation_for prim float_of sep). Notation parameter_for := (parameter_for prim float_of sep).
  Definition do_event (e : event) (u : up) : res up :=
    match e with
    | ERes r => on_resource (at_resource r) u
    | EOp r n R P => on_operation prim float_of sep raw (at_op r n) P u
    | EParam r n i R P q => on_parameter prim float_of sep raw (at_param r n (str_of_nat i)) q u
    | EModel r k M => on_model prim float_of sep (at_model r k) M u
    | EAuth k A => on_authorization (at_auth k) A u
    | EOther => Ok u
    end.
  Fixpoint fold_ev (l : list event) (u : up) : res up := match l with [] => Ok u | e :: l => do u <- do_event e u; fold_ev l u end.
  Lemma class_convs c o : of_class c o -> convs_upto (removelast (pymro (class_of o))) = kind_of c.
  Proof. intros (h & fs & ints & -> & C). now apply convs_class. Qed.
  Lemma steps_events l es : Forall2 (event_of raw) l es -> forall u, steps prim float_of sep raw l (Some u) = (do u <- fold_ev es u; Ok (Some u)).
  Proof.
    induction 1 as [|[p o] e l es E F IH]; intro u; [reflexivity|]. cbn [steps fold_ev].
    assert (X : runs prim float_of sep raw (convs_upto (removelast (pymro (class_of o)))) p o (Some u) = (do u <- do_event e u; Ok (Some u))).
    { apply event_inv in E. destruct e; cbn [do_event].
      - destruct E as (-> & H). rewrite (class_convs _ _ (resource_class raw LOADED _ _ H)). reflexivity.
      - destruct E as (-> & -> & H). rewrite (class_convs _ _ (operation_class raw LOADED _ _ _ _ H)). reflexivity.
      - destruct E as (-> & -> & H & Q). rewrite (class_convs _ _ (parameter_class raw LOADED _ _ _ _ _ _ H Q)). reflexivity.
      - destruct E as (-> & -> & H). rewrite (class_convs _ _ (model_class raw LOADED _ _ _ H)). reflexivity.
      - destruct E as (-> & -> & H). rewrite (class_convs _ _ (authorization_class raw LOADED _ _ H)). reflexivity.
      - destruct E as (c & C & K). rewrite (class_convs _ _ C), K. reflexivity. }
    rewrite X. destruct (do_event e u) as [u'|]; [|reflexivity]. cbn [bind]. apply IH.
  Qed.
  (** The objects visited *)
  Lemma events_exist : exists rest es, traverse raw [] = Ok ((lit "#", raw) :: rest) /\ Forall2 (event_of raw) rest es.
  Proof.
    destruct (raw_ok raw LOADED) as (W & O). destruct (c35_visits raw [] W O) as (l & T & I). destruct (traverse_visits _ _ _ W O T) as (G & V). inversion V as [|? ? ? a b A B]; subst. inversion B; subst. rewrite app_nil_r in *.
    pose proof (c35_once _ _ _ W O T) as N. inversion N as [|? ? NI _]; subst. exists a.
    assert (X : Forall (fun po => exists e, event_of raw po e) a).
    { apply Forall_forall. intros [p o] IA. pose proof (proj1 (I p o) (or_intror IA)) as (ts & -> & R & OO). apply (reach_obj raw LOADED _ _ R OO). intros ->. apply NI. rewrite pointer_nil in IA. exact (in_map fst _ _ IA). }
    clear - T X. assert (Y : exists es, Forall2 (event_of raw) a es) by (clear T; induction X as [|po a (e & E) _ (es & F)]; [exists []; constructor|exists (e :: es); now constructor]). destruct Y as (es & F). eauto.
  Qed.
  Lemma converted_events rest es : traverse raw [] = Ok ((lit "#", raw) :: rest) -> Forall2 (event_of raw) rest es ->
    converted prim float_of sep raw = (do u <- on_list raw; do u <- fold_ev es u; Ok (Some u)).
  Proof.
    intros T F. rewrite converted_steps, T. cbn [bind steps]. rewrite (class_convs _ _ (raw_class raw LOADED)). cbn [kind_of runs]. unfold convert. destruct (on_list raw) as [u|]; [|reflexivity]. cbn [bind]. now apply steps_events.
  Qed.

  (** ** Tags and security *)
  Lemma tags_other L e tags : (forall r, e <> ERes r) -> tags_inv L tags -> tags_inv (L ++ [e]) tags.
  Proof.
    intros NE (ns & N & I & F). exists ns. split; [exact N|]. split; [|exact F]. intro n. rewrite I. split; intros (r & J & ->); exists r; (split; [|reflexivity]); [apply in_or_app; now left|]. apply in_app_or in J as [J|[J|[]]]; [exact J|]. now elim (NE r).
  Qed.
  Lemma has_tag_ok n ns tags : Forall2 (fun n t => made CTag ["name" ~> VStr n] t) ns tags -> exists b, has_tag n tags = Ok b /\ (b = true <-> In n ns).
  Proof.
    induction 1 as [|k t ns tags (H & _) F (b & E & IB)]; [exists false; split; [reflexivity|split; [discriminate|intros []]]|]. cbn [has_tag].
    assert (G : get "name" t = Ok (VStr k)) by (apply get_has; apply (holding_get _ _ _ "name" JNull) in H; [exact H|reflexivity]). rewrite G. cbn [bind]. change (elem_eqb (VStr k) (VStr n)) with (str_eqb k n). destruct (str_eqb k n) eqn:Q.
    - apply str_eqb_eq in Q as ->. exists true. split; [reflexivity|]. split; [intros _; now left|reflexivity].
    - exists b. split; [exact E|]. rewrite IB. cbn. split; [auto|]. intros [->|J]; [rewrite str_eqb_refl in Q; discriminate Q|exact J].
  Qed.
  Lemma tags_step L r u : tags_inv L (u_tags u) -> exists tags, on_resource (at_resource r) u = Ok (Up (u_swagger u) tags (u_paths u) (u_defs u) (u_secs u)) /\ tags_inv (L ++ [ERes r]) tags.
  Proof.
    intros (ns & N & I & F). unfold on_resource, at_resource. rewrite nth_split_pointer. cbn [bind]. destruct (has_tag_ok (rfc_escape r) _ _ F) as (b & -> & IB). cbn [bind]. destruct b.
    - exists (u_tags u). split; [now destruct u|]. exists ns. split; [exact N|]. split; [|exact F]. intro n. rewrite I. split; intros (r' & J & ->).
      + exists r'. split; [apply in_or_app; now left|reflexivity].
      + apply in_app_or in J as [J|[J|[]]]; [eauto|]. injection J as <-. apply I. now apply IB.
    - rewrite (fresh_new CTag ltac:(mk)). cbn [bind]. destruct (sets_ok CTag [("name", VStr (rfc_escape r))]%string _ _ (new_made CTag) ltac:(fieldsok)) as (t & -> & T). cbn [bind]. eexists. split; [reflexivity|].
      exists (ns ++ [rfc_escape r]). split; [|split].
      + apply NoDup_app_snoc; [exact N|]. intro J. apply IB in J. discriminate J.
      + intro n. rewrite in_app_iff, I. cbn [In]. split.
        * intros [(r' & J & ->)|[<-|[]]]; [exists r'; split; [apply in_or_app; now left|reflexivity]|exists r; split; [apply in_or_app; right; now left|reflexivity]].
        * intros (r' & J & ->). apply in_app_or in J as [J|[J|[]]]; [left; eauto|]. injection J as <-. right. now left.
      + apply Forall2_app; [exact F|]. constructor; [exact T|constructor].
  Qed.
  Lemma secs_other L e secs : (forall k A, e <> EAuth k A) -> secs_inv L secs -> secs_inv (L ++ [e]) secs.
  Proof.
    intros NE (N & A & B). split; [exact N|]. split.
    - intros n x G. destruct (A _ _ G) as (k & O & I & H). exists k, O. split; [apply in_or_app; now left|exact H].
    - intros k O I. apply in_app_or in I as [I|[I|[]]]; [eauto|]. now elim (NE k O).
  Qed.
  Lemma secs_step L k A u u' : secs_inv L (u_secs u) -> on_authorization (at_auth k) A u = Ok u' -> exists secs, u' = Up (u_swagger u) (u_tags u) (u_paths u) (u_defs u) secs /\ secs_inv (L ++ [EAuth k A]) secs.
  Proof.
    intros (N & HA & HB) E. apply (authorization_ok prim float_of sep) in E as (name & s & NM & SF & ->). unfold at_auth in NM. rewrite nth_split_pointer in NM. injection NM as <-. eexists. split; [reflexivity|]. split; [now apply sset_nodup|]. split.
    - intros n x G. destruct (str_eqb n (rfc_escape k)) eqn:E.
      + apply str_eqb_eq in E as ->. rewrite sget_sset_same in G. injection G as <-. exists k, A. split; [apply in_or_app; right; now left|auto].
      + rewrite sget_sset_other in G by (intros ->; rewrite str_eqb_refl in E; discriminate E). destruct (HA _ _ G) as (k' & A' & I & H). exists k', A'. split; [apply in_or_app; now left|exact H].
    - intros k' A' I. destruct (str_eqb (rfc_escape k') (rfc_escape k)) eqn:E; [apply str_eqb_eq in E as ->; rewrite sget_sset_same; eauto|]. rewrite sget_sset_other by (intros Q; rewrite Q, str_eqb_refl in E; discriminate E).
      apply in_app_or in I as [I|[I|[]]]; [eauto|]. injection I as <- <-. rewrite str_eqb_refl in E. discriminate E.
  Qed.

  (** ** Definitions *)
  Definition defs_inv (L : list event) (defs : sdict val) : Prop :=
    exists kvs ps, (forall s, def_state (sget s defs) (kvs s) (ps s)) /\ NoDup (map fst defs) /\
      (forall s kv, kvs s = Some kv -> exists r k M, In (EModel r k M) L /\ model_named sep r M s /\ model_kvs prim float_of sep (rfc_escape r) M kv) /\
      (forall s, kvs s = None -> forall r k M, In (EModel r k M) L -> ~ model_named sep r M s) /\
      (forall s, exists pss, ps s = concat pss /\
        Forall2 (fun m l => exists p st, model_named sep (fst (fst m)) (snd m) p /\ subtypes (snd m) st /\ parents sep (rfc_escape (fst (fst m))) s p st l) (models_of L) pss).
  Lemma defs_other L e defs : (forall r k M, e <> EModel r k M) -> defs_inv L defs -> defs_inv (L ++ [e]) defs.
  Proof.
    intros NE (kvs & ps & ST & N & A & B & C). exists kvs, ps. split; [exact ST|]. split; [exact N|]. split; [|split].
    - intros s kv K. destruct (A _ _ K) as (r & k & M & I & H). exists r, k, M. split; [apply in_or_app; now left|exact H].
    - intros s K r k M I. apply in_app_or in I as [I|[I|[]]]; [eauto|]. now elim (NE r k M).
    - intro s. destruct (C s) as (pss & P & F). exists pss. split; [exact P|]. unfold models_of. rewrite flat_map_app. cbn [flat_map]. destruct e; rewrite ?app_nil_r; try exact F. now elim (NE r k M).
  Qed.
  Lemma names_unique scope v a b : names sep scope v a -> names sep scope v b -> a = b.
  Proof. intros A B. apply compose_iff in A, B. congruence. Qed.
  Lemma named_unique r M a b : model_named sep r M a -> model_named sep r M b -> a = b.
  Proof. intros (i & I & A) (j & J & B). rewrite (has_unique _ _ _ _ I J) in A. eapply names_unique; eauto. Qed.
  Lemma subtypes_iff M l : subtypes M l <-> exists st, get "subTypes" M = Ok st /\ (if falsy st then Ok [] else iterate st) = Ok l.
  Proof.
    split.
    - intros (st & H & D). exists st. apply get_has in H. split; [exact H|]. destruct D as [(F & ->)|(T & E)]; [apply falsy_iff in F; now rewrite F|]. apply holds_true_iff in T. rewrite T. now apply elements_iterate.
    - intros (st & H & D). exists st. apply get_has in H. split; [exact H|]. destruct (falsy st) eqn:F; [left; injection D as <-; split; [now apply falsy_iff|reflexivity]|right; split; [now apply holds_true_iff|now apply elements_iterate]].
  Qed.
  Lemma def_nodup scope s l : forall defs defs', extend sep scope s l defs = Ok defs' -> NoDup (map fst defs) -> NoDup (map fst defs').
  Proof.
    induction l as [|t l IH]; intros defs defs' E N; cbn [extend] in E; [now injection E as <-|]. apply bind_ok in E as (a & _ & E). apply bind_ok in E as (b & _ & E). apply bind_ok in E as (c & _ & E). apply bind_ok in E as (d & _ & E). apply bind_ok in E as (f & _ & E).
    destruct f; try discriminate E. eapply IH; [exact E|]. now apply sset_nodup.
  Qed.
  Lemma restate defs s kvs ps o o' l : (forall s, def_state (sget s defs) (kvs s) (ps s)) -> (forall kv0, kvs s = Some kv0 -> map fst kv0 = map fst (lits l)) -> def_of s defs = Ok o ->
    forallb (fun nx => smem (lit (fst nx)) (t_fields CSchema)) l = true -> ~ In (lit "allOf") (map fst (lits l)) -> sets l o = Ok o' -> forall s', def_state (sget s' (sset s o' defs)) (if str_eqb s s' then Some (lits l) else kvs s') (ps s').
  Proof.
    intros ST KEYS DO FB NA E s'. destruct (str_eqb s s') eqn:Q; [|rewrite sget_sset_other by (intros ->; rewrite str_eqb_refl in Q; discriminate Q); apply ST]. apply str_eqb_eq in Q as <-. rewrite sget_sset_same. destruct (state_obj prim float_of sep _ _ _ _ _ (ST s) DO) as (refs & RT & H & G).
    destruct (sets_both CSchema l _ _ o H G FB) as (w & EW & HW & GW). assert (w = o') as -> by congruence. cbn [def_state]. exists refs. split; [exact RT|]. split; [discriminate|]. split.
    - eapply holding_ext; [|exact HW]. intro n. rewrite !rev_app_distr. cbn [rev app]. rewrite !sget_app, !sget_cons. destruct (str_eqb n (lit "allOf")) eqn:QA.
      + apply str_eqb_eq in QA as ->. destruct (sget (lit "allOf") (rev (lits l))) eqn:GL; [|reflexivity]. elim NA. apply sget_In in GL. apply in_rev in GL. exact (in_map fst _ _ GL).
      + destruct (sget n (rev (lits l))) eqn:GL; [reflexivity|]. destruct (kvs s) as [kv0|]; [|reflexivity]. destruct (sget n (rev kv0)) eqn:G0; [|reflexivity]. exfalso. apply sget_None in GL. apply GL. rewrite map_rev. apply -> in_rev. rewrite <- (KEYS kv0 eq_refl). apply sget_In, in_rev in G0. exact (in_map fst _ _ G0).
    - eapply giving_ext; [|exact GW]. intro n. rewrite in_app_iff. destruct (kvs s) as [kv0|]; [rewrite (KEYS kv0 eq_refl); tauto|cbn; tauto].
  Qed.
  Definition model_sets (props : sdict val) (rq di de : val) : list (string * val) := [("properties", VDict props); ("required", rq); ("discriminator", di); ("description", de)]%string.
  Lemma kvs_keys scope M kv props rq di de : model_kvs prim float_of sep scope M kv -> map fst kv = map fst (lits (model_sets props rq di de)).
  Proof. intros (a & b & c & d & e & _ & _ & _ & _ & _ & ->). reflexivity. Qed.
  Lemma model_step L r k M u u' : defs_inv L (u_defs u) -> on_model prim float_of sep (at_model r k) M u = Ok u' ->
    exists defs, u' = Up (u_swagger u) (u_tags u) (u_paths u) defs (u_secs u) /\ defs_inv (L ++ [EModel r k M]) defs.
  Proof.
    intros (kvs & ps & ST & N & HA & HB & HC) E. unfold on_model, at_model in E. rewrite nth_split_pointer in E. cbn [bind] in E. set (scope := rfc_escape r) in *.
    apply bind_ok in E as (id & ID & E). apply bind_ok in E as (s & SN & E). apply bind_ok in E as (o & O & E). apply bind_ok in E as (pv & PV & E). apply bind_ok in E as (props & PR & E). apply bind_ok in E as (rq & RQ & E). apply bind_ok in E as (di & DI & E). apply bind_ok in E as (de & DE & E).
    apply bind_ok in E as (o' & O' & E). apply bind_ok in E as (st & SU & E). apply bind_ok in E as (l & SL & E). apply bind_ok in E as (defs & EX & E). injection E as <-. exists defs. split; [reflexivity|].
    destruct pv as [| | | | | |d|]; try discriminate PR. apply properties_ok in PR. assert (SUB : subtypes M l) by (apply subtypes_iff; eauto). apply get_has in ID, PV, RQ, DI, DE. apply compose_iff in SN. assert (MN : model_named sep r M s) by (exists id; auto).
    assert (MK : model_kvs prim float_of sep scope M (lits (model_sets props rq di de))) by (exists d, props, rq, di, de; auto 9).
    pose proof (def_nodup _ _ _ _ _ EX (sset_nodup _ s o' N)) as ND.
    apply (extend_ok prim float_of sep scope s l _ _ (fun s' => if str_eqb s s' then Some (lits (model_sets props rq di de)) else kvs s') ps) in EX as (PA & ST').
    - exists (fun s' => if str_eqb s s' then Some (lits (model_sets props rq di de)) else kvs s'), (fun s' => ps s' ++ adds sep scope s l s'). split; [exact ST'|]. split; [exact ND|]. split; [|split].
      + intros s' kv K. destruct (str_eqb s s') eqn:Q; [apply str_eqb_eq in Q as <-; injection K as <-; exists r, k, M; split; [apply in_or_app; right; now left|auto]|]. destruct (HA _ _ K) as (r' & k' & M' & I & H). exists r', k', M'. split; [apply in_or_app; now left|exact H].
      + intros s' K r' k' M' I MN'. destruct (str_eqb s s') eqn:Q; [discriminate K|]. apply in_app_or in I as [I|[I|[]]]; [exact (HB _ K _ _ _ I MN')|]. injection I as <- <- <-. rewrite (named_unique _ _ _ _ MN MN'), str_eqb_refl in Q. discriminate Q.
      + intro s'. destruct (HC s') as (pss & -> & F). exists (pss ++ [adds sep scope s l s']). split; [now rewrite concat_app; cbn [concat]; rewrite app_nil_r|]. unfold models_of. rewrite flat_map_app. apply Forall2_app; [exact F|]. constructor; [|constructor]. exists s, l. cbn [fst snd]. auto.
    - eapply restate; eauto.
      + intros kv0 K. destruct (HA _ _ K) as (r' & k' & M' & _ & _ & H). eapply kvs_keys; eauto.
      + vm_compute. intuition discriminate.
  Qed.
  Lemma model_step_works L r k M u kv s l : defs_inv L (u_defs u) -> model_named sep r M s -> model_kvs prim float_of sep (rfc_escape r) M kv -> subtypes M l -> Forall (fun t => exists x, names sep (rfc_escape r) t x) l ->
    exists u', on_model prim float_of sep (at_model r k) M u = Ok u'.
  Proof.
    intros (kvs & ps & ST & N & HA & HB & HC) (id & ID & SN) (props & ps' & rq & di & de & PV & PR & RQ & DI & DE & ->) SUB F. unfold on_model, at_model. rewrite nth_split_pointer. cbn [bind]. set (scope := rfc_escape r) in *.
    apply get_has in ID, PV, RQ, DI, DE. apply compose_iff in SN. rewrite ID. cbn [bind]. rewrite SN. cbn [bind]. destruct (def_of_works prim float_of sep s (u_defs u)) as (o & O). rewrite O. cbn [bind]. rewrite PV. cbn [bind].
    apply properties_works in PR as (pr & ->). cbn [bind]. rewrite RQ, DI, DE. cbn [bind]. destruct (state_obj prim float_of sep _ _ _ _ _ (ST s) O) as (refs & _ & H & G).
    destruct (sets_both CSchema (model_sets pr rq di de) _ _ o H G eq_refl) as (o' & EO & _). pose proof EO as EO'. unfold model_sets in EO'. rewrite EO'. cbn [bind]. apply subtypes_iff in SUB as (st & -> & SL). cbn [bind]. rewrite SL. cbn [bind].
    destruct (extend_works prim float_of sep scope s l (sset s o' (u_defs u)) (fun s' => if str_eqb s s' then Some (lits (model_sets pr rq di de)) else kvs s') ps) as (defs & ->); [|exact F|cbn [bind]; eauto].
    eapply restate; eauto.
    - intros kv0 K. destruct (HA _ _ K) as (r' & k' & M' & _ & _ & H'). eapply kvs_keys; eauto.
    - vm_compute. intuition discriminate.
  Qed.

  (** ** Operations *)
  Definition located_ev (k m : str) (e : event) : Prop := match e with EOp _ _ R P => located R P k m | _ => False end.
  Definition slot_ok (L : list event) (k m : str) (x : val) : Prop :=
    smem m (t_fields CPathItem) = true /\ exists L1 r n R P L2 ps, L = L1 ++ EOp r n R P :: L2 /\ located R P k m /\ Forall (fun e => ~ located_ev k m e) L2 /\
      operation_for (rfc_escape r) R P ps x /\ Forall2 (parameter_for (rfc_escape r)) (map snd (params_of r n L2)) ps.
  Definition item_ok (L : list event) (k : str) (item : val) (ops : sdict val) : Prop :=
    NoDup (map fst ops) /\ ops <> [] /\ made CPathItem ops item /\ (forall m x, sget m ops = Some x -> slot_ok L k m x) /\
    (forall r n R P m, In (EOp r n R P) L -> located R P k m -> exists x, sget m ops = Some x).
  Definition paths_inv (L : list event) (paths : sdict val) : Prop :=
    NoDup (map fst paths) /\ (forall k item, sget k paths = Some item -> exists ops, item_ok L k item ops) /\
    (forall r n R P k m, In (EOp r n R P) L -> located R P k m -> exists item, sget k paths = Some item).
  Lemma located_unique R P k m k' m' : located R P k m -> located R P k' m' -> k = k' /\ m = m'.
  Proof.
    intros (b & p & mm & B & PA & M & -> & ->) (b' & p' & mm' & B' & PA' & M' & -> & ->). pose proof (has_unique _ _ _ _ B B') as X. pose proof (has_unique _ _ _ _ PA PA') as Y. pose proof (has_unique _ _ _ _ M M') as Z. injection X as <-. injection Y as <-. injection Z as <-. auto.
  Qed.
  Lemma slot_other L e k m x : ~ located_ev k m e -> (forall r n i R P q, e = EParam r n i R P q -> forall R' P', In (EOp r n R' P') L -> ~ located R' P' k m) -> slot_ok L k m x -> slot_ok (L ++ [e]) k m x.
  Proof.
    intros NL NP (SM & L1 & r & n & R & P & L2 & ps & -> & LO & F & OF & PF). split; [exact SM|]. exists L1, r, n, R, P, (L2 ++ [e]), ps. split; [now rewrite <- app_assoc|]. split; [exact LO|]. split; [apply Forall_app; split; [exact F|constructor; [exact NL|constructor]]|]. split; [exact OF|].
    rewrite params_app, map_app. replace (params_of r n [e]) with (@nil (nat * val)); [now rewrite app_nil_r|]. destruct e as [|r' n' R' P'|r' n' i R' P' q| | |]; try reflexivity. cbn [params_of]. destruct (str_eqb r' r && str_eqb n' n) eqn:Q; [|reflexivity].
    exfalso. apply andb_true_iff in Q as (Q1 & Q2). apply str_eqb_eq in Q1 as ->. apply str_eqb_eq in Q2 as ->. apply (NP r n i R' P' q eq_refl R P); [apply in_or_app; right; now left|exact LO].
  Qed.
  Lemma paths_other L e paths : (forall r n R P, e <> EOp r n R P) -> (forall r n i R P q, e <> EParam r n i R P q) -> paths_inv L paths -> paths_inv (L ++ [e]) paths.
  Proof.
    intros NO NP (N & A & B).
    assert (IN : forall r n R P, In (EOp r n R P) (L ++ [e]) -> In (EOp r n R P) L) by (intros r n R P I; apply in_app_or in I as [I|[I|[]]]; [exact I|now elim (NO r n R P)]).
    split; [exact N|]. split; [|intros; eauto]. intros k item G. destruct (A _ _ G) as (ops & NO' & NE & MA & SL & CO). exists ops. split; [exact NO'|]. split; [exact NE|]. split; [exact MA|]. split; [|intros; eauto]. intros m x GM. apply slot_other; [|intros r n i R P q ->; now elim (NP r n i R P q)|auto]. destruct e; try (intros []). now elim (NO r n R O).
  Qed.
  Lemma made_sset ops item m x item' : NoDup (map fst ops) -> made CPathItem ops item -> update_field m x item = Ok item' -> smem m (t_fields CPathItem) = true /\ made CPathItem (sset m x ops) item'.
  Proof.
    intros N MA E. assert (FM : smem m (t_fields CPathItem) = true).
    { destruct MA as ((h & fs & -> & C & K & _) & _). unfold update_field in E. rewrite ?C in K. rewrite <- (smem_keys m _ _ K). destruct (smem m fs) eqn:Q; [reflexivity|]. discriminate E. }
    split; [exact FM|]. destruct (set_made _ _ _ _ _ _ MA FM E) as (H & G). split.
    - eapply holding_ext; [|exact H]. intro n. symmetry. now apply rev_sset.
    - eapply giving_ext; [|exact G]. intro n. rewrite In_keys_sset, map_app, in_app_iff. cbn. intuition.
  Qed.
  Lemma sget_sset (d : sdict val) n x m : sget m (sset n x d) = if str_eqb m n then Some x else sget m d.
  Proof. destruct (str_eqb m n) eqn:E; [apply str_eqb_eq in E as ->; apply sget_sset_same|]. apply sget_sset_other. intros ->. rewrite str_eqb_refl in E. discriminate E. Qed.
  Lemma sset_not_nil (d : sdict val) n x : sset n x d <> [].
  Proof. destruct d as [|[k y] d]; cbn; [discriminate|]. destruct (str_eqb n k); discriminate. Qed.
  Lemma item_at_ok L k u : paths_inv L (u_paths u) -> exists ops, NoDup (map fst ops) /\ made CPathItem ops (item_at k u) /\ (forall m x, sget m ops = Some x -> slot_ok L k m x) /\
    (forall r n R P m, In (EOp r n R P) L -> located R P k m -> exists x, sget m ops = Some x).
  Proof.
    intros (N & A & B). unfold item_at. destruct (sget k (u_paths u)) as [item|] eqn:G.
    - destruct (A _ _ G) as (ops & NO & _ & MA & SL & CO). exists ops. auto.
    - exists []. split; [constructor|]. split; [apply new_made|]. split; [discriminate|]. intros r n R P m I LO. destruct (B _ _ _ _ _ _ I LO) as (item & X). congruence.
  Qed.
  Lemma op_step L r n R P u u' : operation_in raw r n R P -> paths_inv L (u_paths u) -> on_operation prim float_of sep raw (at_op r n) P u = Ok u' ->
    exists paths, u' = set_paths u paths /\ paths_inv (L ++ [EOp r n R P]) paths.
  Proof.
    intros OI PI E. destruct (operation_step _ _ _ _ _ _ _ _ _ _ OI E) as (k & m & x & item' & LO & OF & UF & ->). eexists. split; [reflexivity|]. destruct (item_at_ok L k u PI) as (ops & NO & MA & SL & CO). destruct PI as (N & A & B). destruct (made_sset _ _ _ _ _ NO MA UF) as (FM & MA').
    split; [now apply sset_nodup|]. split.
    - intros k' item G. rewrite sget_sset in G. destruct (str_eqb k' k) eqn:Q.
      + apply str_eqb_eq in Q as ->. injection G as <-. exists (sset m x ops). split; [now apply sset_nodup|]. split; [apply sset_not_nil|]. split; [exact MA'|]. split.
        * intros m' x' G. rewrite sget_sset in G. destruct (str_eqb m' m) eqn:Q.
          -- apply str_eqb_eq in Q as ->. injection G as <-. split; [exact FM|]. exists L, r, n, R, P, [], []. split; [reflexivity|]. split; [exact LO|]. split; [constructor|]. split; [exact OF|constructor].
          -- apply slot_other; [|discriminate|auto]. cbn [located_ev]. intro LO'. destruct (located_unique _ _ _ _ _ _ LO LO') as (_ & <-). rewrite str_eqb_refl in Q. discriminate Q.
        * intros r' n' R' P' m' I LO'. rewrite sget_sset. destruct (str_eqb m' m) eqn:Q; [eauto|]. apply in_app_or in I as [I|[I|[]]]; [eauto|]. injection I as <- <- <- <-. destruct (located_unique _ _ _ _ _ _ LO LO') as (_ & <-). rewrite str_eqb_refl in Q. discriminate Q.
      + destruct (A _ _ G) as (ops' & NO' & NE & MA1 & SL' & CO'). exists ops'. split; [exact NO'|]. split; [exact NE|]. split; [exact MA1|]. split.
        * intros m' x' G'. apply slot_other; [|discriminate|auto]. cbn [located_ev]. intro LO'. destruct (located_unique _ _ _ _ _ _ LO LO') as (<- & _). rewrite str_eqb_refl in Q. discriminate Q.
        * intros r' n' R' P' m' I LO'. apply in_app_or in I as [I|[I|[]]]; [eauto|]. injection I as <- <- <- <-. destruct (located_unique _ _ _ _ _ _ LO LO') as (<- & _). rewrite str_eqb_refl in Q. discriminate Q.
    - intros r' n' R' P' k' m' I LO'. rewrite sget_sset. destruct (str_eqb k' k) eqn:Q; [eauto|]. apply in_app_or in I as [I|[I|[]]]; [eauto|]. injection I as <- <- <- <-. destruct (located_unique _ _ _ _ _ _ LO LO') as (<- & _). rewrite str_eqb_refl in Q. discriminate Q.
  Qed.
  Lemma attr_made ops item m x : NoDup (map fst ops) -> made CPathItem ops item -> sget m ops = Some x -> smem m (t_fields CPathItem) = true -> exists h fs ints, item = VObj h fs ints /\ attr fs ints m = Ok x.
  Proof.
    intros N ((h & fs & -> & C & K & F) & _) G S'. exists h, fs. eexists. split; [reflexivity|]. apply smem_In, in_map_iff in S' as ((m' & d) & <- & I). apply In_sget in I; [|apply fields_nodup]. cbn [fst] in *. specialize (F _ _ I). rewrite (rev_unique ops _ N), G in F. unfold attr. now rewrite F.
  Qed.
  Lemma rev_replace (a : sdict val) k v b v' n : ~ In k (map fst b) -> sget n (rev ((a ++ (k, v) :: b) ++ [(k, v')])) = sget n (rev (a ++ (k, v') :: b)).
  Proof.
    intro N. rewrite rev_get, !rev_app_distr. cbn [rev]. rewrite <- !app_assoc, !sget_app. cbn [app]. rewrite !sget_cons. destruct (str_eqb n k) eqn:E; [|reflexivity]. apply str_eqb_eq in E as ->. destruct (sget k (rev b)) eqn:G; [|reflexivity]. elim N. apply sget_In, in_rev in G. exact (in_map fst _ _ G).
  Qed.
  Lemma operation_put scope R P ps x ps' : operation_for scope R P ps x -> has_field x "parameters" (VList ps) /\ operation_for scope R P ps' (put (lit "parameters") (VList ps') x).
  Proof.
    intros (nick & su & no & de & co & pr & c & p & c' & p' & au & ar & sec & resp & ty & H1 & H2 & H3 & H4 & H5 & H6 & H7 & H8 & H9 & H10 & H11 & H12 & H13 & H14 & H15 & b & HB & (H & G)). split.
    - apply (holding_get _ _ _ "parameters" JNull) in H; [exact H|reflexivity].
    - exists nick, su, no, de, co, pr, c, p, c', p', au, ar, sec, resp, ty. repeat (split; [assumption|]). exists b. split; [exact HB|]. split; [|now apply giving_put].
      apply (holding_put _ _ _ (lit "parameters") (VList ps')) in H; [|fieldsok]. eapply holding_ext; [|exact H]. intro n.
      apply (rev_replace ["tags" ~> VList [VStr scope]; "operationId" ~> nick; "summary" ~> su; "description" ~> no; "deprecated" ~> VBool b; "consumes" ~> c'; "produces" ~> p'] (lit "parameters") (VList ps) ["security" ~> sec; "responses" ~> VDict [(lit "default", resp)]]). vm_compute. intuition discriminate.
  Qed.
  Lemma param_step L r n i R P q u u' : operation_in raw r n R P -> (forall r' n' R' P', In (EOp r' n' R' P') L -> operation_in raw r' n' R' P') ->
    (exists a1 a2, L = a1 ++ EOp r n R P :: a2 /\ Forall (fun e => ~ is_op e) a2) -> paths_inv L (u_paths u) -> on_parameter prim float_of sep raw (at_param r n (str_of_nat i)) q u = Ok u' ->
    exists paths, u' = set_paths u paths /\ paths_inv (L ++ [EParam r n i R P q]) paths.
  Proof.
    intros OI LI (a1 & a2 & EL & FA) (N & A & B) E. destruct (parameter_step _ _ _ _ _ _ _ _ _ _ _ _ OI E) as (k & m & p & item & x & l & LO & PF & GK & AT & PS & ->). eexists. split; [reflexivity|].
    destruct (A _ _ GK) as (ops & NO & NE & MA & SL & CO). destruct (CO r n R P m) as (x0 & GM); [rewrite EL; apply in_or_app; right; now left|exact LO|].
    pose proof (SL _ _ GM) as (SM & L1 & r0 & n0 & R0 & P0 & L2 & ps & EL' & LO0 & F & OF & PFS). destruct (attr_made _ _ _ _ NO MA GM SM) as (h & fs & ints & -> & AT'). rewrite AT in AT'. injection AT' as ->.
    assert (EE : L1 = a1 /\ EOp r0 n0 R0 P0 = EOp r n R P /\ L2 = a2).
    { apply (last_unique (located_ev k m)); [congruence|exact LO0|exact LO|exact F|]. eapply Forall_impl; [|exact FA]. intros e NI LE. apply NI. now destruct e. }
    destruct EE as (-> & EE & ->). injection EE as -> -> -> ->. destruct (operation_put _ _ _ _ _ (ps ++ [p]) OF) as (HP & OF'). pose proof (has_unique _ _ _ _ PS HP) as EQ. injection EQ as ->.
    set (x' := put (lit "parameters") (VList (ps ++ [p])) x0) in *.
    assert (IN : forall r' n' R' P', In (EOp r' n' R' P') (L ++ [EParam r n i R P q]) -> In (EOp r' n' R' P') L) by (intros r1 n1 R1 P1 I; apply in_app_or in I as [I|[I|[]]]; [exact I|discriminate I]).
    assert (OTH : forall k' m' y, k' <> k \/ m' <> m -> slot_ok L k' m' y -> slot_ok (L ++ [EParam r n i R P q]) k' m' y).
    { intros k' m' y D SO. apply slot_other; [intros []| |exact SO]. intros r1 n1 i1 R1 P1 q1 EQ R2 P2 I LO2. injection EQ as <- <- <- <- <- <-. apply LI in I. destruct (op_unique _ _ _ _ _ _ _ I OI) as (-> & ->). destruct (located_unique _ _ _ _ _ _ LO LO2) as (-> & ->). destruct D; congruence. }
    split; [now apply sset_nodup|]. split.
    - intros k' item' G. rewrite sget_sset in G. destruct (str_eqb k' k) eqn:Q.
      + apply str_eqb_eq in Q as ->. injection G as <-. exists (sset m x' ops). split; [now apply sset_nodup|]. split; [apply sset_not_nil|]. split.
        { destruct MA as (H & GV). split.
          - eapply holding_ext; [|exact (holding_put _ _ _ m x' H SM)]. intro z. symmetry. now apply rev_sset.
          - eapply giving_ext; [|apply (giving_put _ _ m x' GV)]. intro z. rewrite In_keys_sset. split; [auto|]. intros [Z| ->]; [exact Z|]. apply sget_In in GM. exact (in_map fst _ _ GM). }
        split.
        * intros m' y G. rewrite sget_sset in G. destruct (str_eqb m' m) eqn:Q.
          -- apply str_eqb_eq in Q as ->. injection G as <-. split; [exact SM|]. exists a1, r, n, R, P, (a2 ++ [EParam r n i R P q]), (ps ++ [p]). split; [rewrite EL, <- app_assoc; reflexivity|]. split; [exact LO|]. split; [apply Forall_app; split; [exact F|constructor; [intros []|constructor]]|]. split; [exact OF'|].
             rewrite params_app, map_app. apply Forall2_app; [exact PFS|]. cbn [params_of]. rewrite !str_eqb_refl. cbn [andb map snd]. constructor; [exact PF|constructor].
          -- apply OTH; [right; intros ->; rewrite str_eqb_refl in Q; discriminate Q|auto].
        * intros r' n' R' P' m' I LO'. rewrite sget_sset. destruct (str_eqb m' m); [eauto|]. apply IN in I. eauto.
      + destruct (A _ _ G) as (ops' & NO' & NE' & MA' & SL' & CO'). exists ops'. split; [exact NO'|]. split; [exact NE'|]. split; [exact MA'|]. split.
        * intros m' y G'. apply OTH; [left; intros ->; rewrite str_eqb_refl in Q; discriminate Q|auto].
        * intros r' n' R' P' m' I LO'. apply IN in I. eauto.
    - intros r' n' R' P' k' m' I LO'. rewrite sget_sset. destruct (str_eqb k' k); [eauto|]. apply IN in I. eauto.
  Qed.
  Lemma param_works L r n i R P q p u : operation_in raw r n R P -> (exists a1 a2, L = a1 ++ EOp r n R P :: a2 /\ Forall (fun e => ~ is_op e) a2) -> (exists k m, located R P k m) -> parameter_for (rfc_escape r) q p -> paths_inv L (u_paths u) ->
    exists u', on_parameter prim float_of sep raw (at_param r n (str_of_nat i)) q u = Ok u'.
  Proof.
    intros OI (a1 & a2 & EL & FA) (k & m & LO) PF (N & A & B). assert (I : In (EOp r n R P) L) by (rewrite EL; apply in_or_app; right; now left). destruct (B _ _ _ _ _ _ I LO) as (item & GK). destruct (A _ _ GK) as (ops & NO & NE & MA & SL & CO).
    destruct (CO r n R P m I LO) as (x0 & GM). pose proof (SL _ _ GM) as (SM & L1 & r0 & n0 & R0 & P0 & L2 & ps & EL' & LO0 & F & OF & PFS). destruct (attr_made _ _ _ _ NO MA GM SM) as (h & fs & ints & -> & AT'). destruct (operation_put _ _ _ _ _ [] OF) as (HP & _).
    eapply parameter_step_works; eauto.
  Qed.
  Lemma op_works L r n R P ps x k m u : operation_in raw r n R P -> located R P k m -> smem m (t_fields CPathItem) = true -> operation_for (rfc_escape r) R P ps x -> paths_inv L (u_paths u) -> exists u', on_operation prim float_of sep raw (at_op r n) P u = Ok u'.
  Proof.
    intros OI LO SM OF PI. destruct (item_at_ok L k u PI) as (ops & NO & MA & _). eapply operation_works; eauto. intro y. destruct (set_ok CPathItem _ _ m y MA SM) as (v & E & _). eauto.
  Qed.

  (** ** Everything *)
  Context (rest : list (str * val)) (es : list event) (TR : traverse raw [] = Ok ((lit "#", raw) :: rest)) (EV : Forall2 (event_of raw) rest es).
  Definition inv (sw : val) (L : list event) (u : up) : Prop :=
    u_swagger u = sw /\ tags_inv L (u_tags u) /\ paths_inv L (u_paths u) /\ defs_inv L (u_defs u) /\ secs_inv L (u_secs u).
  Lemma inv_start sw : inv sw [] (Up sw [] [] [] []).
  Proof.
    split; [reflexivity|]. split; [exists []; split; [constructor|split; [|constructor]]; intro n; split; [intros []|now intros (r & [] & _)]|]. split; [split; [constructor|split; [discriminate|intros r n R P k m []]]|]. split.
    - exists (fun _ => None), (fun _ => []). split; [intro s; split; reflexivity|]. split; [constructor|]. split; [discriminate|]. split; [intros s _ r k M []|]. intro s. exists []. split; [reflexivity|constructor].
    - split; [constructor|]. split; [discriminate|intros k A []].
  Qed.
  Lemma inv_step sw L e l u u' : es = L ++ e :: l -> inv sw L u -> do_event e u = Ok u' -> inv sw (L ++ [e]) u'.
  Proof.
    intros EQ (SW & T & P & D & S') E.
    assert (LI : forall r' n' R' P', In (EOp r' n' R' P') L -> operation_in raw r' n' R' P') by (intros; eapply es_op; eauto; rewrite EQ; apply in_or_app; now left).
    assert (IE : In e es) by (rewrite EQ; apply in_or_app; right; now left). destruct e; cbn [do_event] in E.
    - destruct (tags_step L r u T) as (tags & E' & T'). rewrite E in E'. injection E' as ->. split; [exact SW|]. split; [exact T'|]. split; [apply paths_other; [discriminate|discriminate|exact P]|]. split; [apply defs_other; [discriminate|exact D]|]. apply secs_other; [discriminate|exact S'].
    - apply (es_op raw LOADED rest es TR EV) in IE. destruct (op_step L _ _ _ _ _ _ IE P E) as (paths & -> & P'). split; [exact SW|]. split; [apply tags_other; [discriminate|exact T]|]. split; [exact P'|]. split; [apply defs_other; [discriminate|exact D]|]. apply secs_other; [discriminate|exact S'].
    - apply (es_param raw LOADED rest es TR EV) in IE as (IE & _). destruct (param_step L _ _ _ _ _ _ _ _ IE LI (after_op raw LOADED rest es TR EV _ _ _ _ _ _ _ _ EQ) P E) as (paths & -> & P'). split; [exact SW|]. split; [apply tags_other; [discriminate|exact T]|]. split; [exact P'|]. split; [apply defs_other; [discriminate|exact D]|]. apply secs_other; [discriminate|exact S'].
    - destruct (model_step L _ _ _ _ _ D E) as (defs & -> & D'). split; [exact SW|]. split; [apply tags_other; [discriminate|exact T]|]. split; [apply paths_other; [discriminate|discriminate|exact P]|]. split; [exact D'|]. apply secs_other; [discriminate|exact S'].
    - destruct (secs_step L _ _ _ _ S' E) as (secs & -> & S2). split; [exact SW|]. split; [apply tags_other; [discriminate|exact T]|]. split; [apply paths_other; [discriminate|discriminate|exact P]|]. split; [apply defs_other; [discriminate|exact D]|exact S2].
    - injection E as <-. split; [exact SW|]. split; [apply tags_other; [discriminate|exact T]|]. split; [apply paths_other; [discriminate|discriminate|exact P]|]. split; [apply defs_other; [discriminate|exact D]|]. apply secs_other; [discriminate|exact S'].
  Qed.
  Lemma inv_fold sw l : forall L u u', es = L ++ l -> inv sw L u -> fold_ev l u = Ok u' -> inv sw es u'.
  Proof.
    induction l as [|e l IH]; intros L u u' EQ IV E; cbn [fold_ev] in E.
    - injection E as <-. rewrite EQ, app_nil_r. exact IV.
    - apply bind_ok in E as (u1 & E1 & E). apply (IH (L ++ [e]) u1 u'); [now rewrite <- app_assoc|eapply inv_step; eauto|exact E].
  Qed.
  Lemma fold_works sw l : (forall L e l' u, es = L ++ e :: l' -> inv sw L u -> exists u', do_event e u = Ok u') -> forall L u, es = L ++ l -> inv sw L u -> exists u', fold_ev l u = Ok u'.
  Proof.
    intro H. induction l as [|e l IH]; intros L u EQ IV; cbn [fold_ev]; [eauto|]. destruct (H _ _ _ _ EQ IV) as (u1 & E1). rewrite E1. cbn [bind]. apply (IH (L ++ [e])); [now rewrite <- app_assoc|eapply inv_step; eauto].
  Qed.
End Fold.
