(** Proofs about converting 1.2 documents to 2.0: the document. *)
From Coq Require Import Lia Permutation.
From Verif Require Import PyBase PyFacts PyJson S_JsonPtr M_JsonPtr P_JsonPtr M_Scope M_SpecVal M_Parse P_SpecBase P_Op P_Parse P_Typed M_SpecTree S_SpecTree P_SpecTree T_SpecTree M_Merge P_Merge M_MergeRef M_Patch P_Patch
  M_Scan M_Validate S_Parse S_Validate P_Validate M_OldParse S_OldParse P_OldParse T_OldParse M_OldValidate S_OldValidate P_OldValidate M_Upgrade S_Upgrade P_UpgradeObj.
Close Scope Q_scope.

(** ** The scan *)
Definition routes_up : dict pycls (list conversion) := match registered pycls_eqb pymro BaseObj [] conversions with Ok r => r | Err _ => [] end.
Lemma routes_up_ok : registered pycls_eqb pymro BaseObj [] conversions = Ok routes_up.
Proof. vm_compute. reflexivity. Qed.
Fixpoint convs_upto (cs : list pycls) : list conversion :=
  match cs with
  | [] => []
  | c :: cs => if pycls_eqb c BaseObj then [] else (match dget pycls_eqb c routes_up with Some f => f | None => [] end) ++ convs_upto cs
  end.
Definition kind_of (c : ocls) : list conversion :=
  match c with
  | OResourceList => [KList] | OResource => [KResource] | OOperation => [KOperation]
  | OAuthorization => [KAuthorization] | OParameter => [KParameter] | OModel => [KModel] | _ => []
  end.
Lemma convs_class h fs ints c : h_cls h = COld c -> convs_upto (removelast (pymro (class_of (VObj h fs ints)))) = kind_of c.
Proof. intro C. unfold class_of. rewrite C. destruct c; vm_compute; reflexivity. Qed.

Section Upgrade.
  Context (prim : str -> bool) (float_of : str -> res Q) (sep : str).
  Section Steps.
    Context (root : val).
    Fixpoint runs (ks : list conversion) (p : str) (o : val) (st : option up) : res (option up) :=
      match ks with
      | [] => Ok st
      | k :: ks => do u <- convert prim float_of sep root k p o st; runs ks p o (Some u)
      end.
    Fixpoint steps (objs : list (str * val)) (st : option up) : res (option up) :=
      match objs with
      | [] => Ok st
      | (p, o) :: objs => do st <- runs (convs_upto (removelast (pymro (class_of o)))) p o st; steps objs st
      end.
    Let call := fun (st : option up) (_ : unit) k path o => match convert prim float_of sep root k path o st with Ok u => (Some u, Ok tt) | Err e => (st, Err e) end.
    Let result := fun (st : option up) (_ _ : unit) => (st, Ok tt).
    Lemma runs_app a p o : forall b st, runs (a ++ b) p o st = (do st <- runs a p o st; runs b p o st).
    Proof. induction a as [|k a IH]; intros b st; [reflexivity|]. cbn [app runs]. destruct (convert prim float_of sep root k p o st); [|reflexivity]. cbn [bind]. apply IH. Qed.
    Lemma each_runs p o ks : forall st, to_res (each (call_one call result (Entry tt routes_up false) p o) st ks) = runs ks p o st.
    Proof.
      induction ks as [|k ks IH]; intro st; [reflexivity|]. cbn [each runs]. unfold call_one at 1. cbn [e_self e_result]. unfold call at 1. destruct (convert prim float_of sep root k p o st) as [x|e]; [|reflexivity]. cbn [bind]. apply IH.
    Qed.
    Lemma handle_runs p o cs : forall st, to_res (handle_all pycls_eqb BaseObj call result (Entry tt routes_up false) p o st cs) = runs (convs_upto cs) p o st.
    Proof.
      induction cs as [|c cs IH]; intro st; [reflexivity|]. cbn [handle_all convs_upto]. destruct (pycls_eqb c BaseObj); [reflexivity|]. rewrite runs_app.
      unfold handle_cls. cbn [e_route]. destruct (dget pycls_eqb c routes_up) as [f|]; [|cbn [runs bind]; apply IH].
      rewrite <- each_runs. destruct (each (call_one call result (Entry tt routes_up false) p o) st f) as [s [u|e]]; cbn [to_res bind]; [apply IH|reflexivity].
    Qed.
    Lemma scan_steps objs : forall st, to_res (scan pycls_eqb pymro BaseObj class_of call result st [Entry tt routes_up false] objs) = steps objs st.
    Proof.
      unfold scan. induction objs as [|[p o] objs IH]; intro st; [reflexivity|]. cbn [each steps fst snd]. rewrite <- handle_runs.
      destruct (handle_all pycls_eqb BaseObj call result (Entry tt routes_up false) p o st (removelast (pymro (class_of o)))) as [s [u|e]]; cbn [to_res bind]; [apply IH|reflexivity].
    Qed.
    Lemma converted_steps : converted prim float_of sep root = (do objs <- traverse root []; steps objs None).
    Proof.
      unfold converted. rewrite routes_up_ok. cbn [bind]. destruct (traverse root []) as [objs|]; [|reflexivity]. cbn [bind]. rewrite <- scan_steps. unfold to_res, call, result. reflexivity.
    Qed.
  End Steps.
End Upgrade.

(** ** Places *)
Lemma nth_split_pointer a b ts : name_in_path (rfc_pointer (lit "#") (a :: b :: ts)) = Ok (rfc_escape b).
Proof. unfold name_in_path. change (lit "/") with ["/"%char]. rewrite split_pointer. reflexivity. Qed.
Lemma above_reach n root ts us o : reach [] root ts o -> length us = n -> above n root (rfc_pointer (lit "#") (ts ++ us)) = Ok o.
Proof.
  intros R L. unfold above. rewrite split_hash. cbn [tl]. rewrite rev_app_distr, skipn_app, rev_length, L, skipn_all2 by (rewrite rev_length; lia). rewrite Nat.sub_diag, skipn_O. cbn [app]. rewrite rev_involutive. eapply resolve_reach; eauto.
Qed.
Lemma reach_unique v ts a b : reach [] v ts a -> reach [] v ts b -> a = b.
Proof. intros A B. apply resolve_reach in A, B. congruence. Qed.
Lemma reach_app_inv lv v ts : forall us o, reach lv v (ts ++ us) o -> exists p, reach lv v ts p /\ reach lv p us o.
Proof.
  revert v. induction ts as [|t ts IH]; intros v us o R; cbn [app] in R; [exists v; split; [constructor|exact R]|].
  inversion R as [|h fs i n w ? ? L G R'|l i w ? ? N R'|d k w ? ? G R']; subst; destruct (IH _ _ _ R') as (p & P & Q); exists p; (split; [econstructor; eauto|exact Q]).
Qed.
Section Places.
  Context (raw : val) (LOADED : loaded12 raw).
  Lemma held_by ts o c : reach [] raw ts o -> of_class c o ->
    (ts = [] /\ c = OResourceList) \/
    exists ts0 p n ts1 cp ct, ts = ts0 ++ n :: ts1 /\ reach [] raw ts0 p /\ of_class cp p /\ sget n (o_holds cp) = Some (ct, c) /\ length ts1 = depth_of ct.
  Proof.
    intros R (h & fs & ints & -> & C). destruct (raw_shape raw LOADED) as (W & V & hr & fr & ir & defs & ER & CR & _).
    destruct (holder _ _ _ R W V Logic.I) as [IN|(ts0 & p & n & ts1 & -> & h' & fs' & ints' & cp & ct & cc & x & -> & C' & R' & G & IN & H & (h2 & f2 & i2 & E2 & C2) & L & _)].
    - left. rewrite ER in IN. inversion IN; subst. split; [reflexivity|congruence].
    - right. injection E2 as <- <- <-. rewrite C in C2. injection C2 as <-. exists ts0, (VObj h' fs' ints'), n, ts1, cp, ct. split; [reflexivity|]. split; [exact R'|]. split; [exists h', fs', ints'; auto|]. split; [exact H|exact L].
  Qed.
  Ltac holds_by H := let H' := fresh in pose proof H as H'; apply sget_In in H; cbn in H; repeat destruct H as [H|H]; try contradiction; try discriminate H; injection H as <- <-; vm_compute in H'; try discriminate H'; clear H'.
  Lemma list_place ts o : reach [] raw ts o -> of_class OResourceList o -> ts = [].
  Proof.
    intros R C. destruct (held_by _ _ _ R C) as [(-> & _)|(ts0 & p & n & ts1 & cp & ct & -> & R' & C' & H & L)]; [reflexivity|]. exfalso. destruct cp; holds_by H.
  Qed.
  Lemma resource_place ts o : reach [] raw ts o -> of_class OResource o -> exists r, ts = [lit "apis"; r].
  Proof.
    intros R C. destruct (held_by _ _ _ R C) as [(_ & E)|(ts0 & p & n & ts1 & cp & ct & -> & R' & C' & H & L)]; [discriminate E|]. destruct cp; holds_by H. apply list_place in R' as ->; [|exact C'].
    destruct ts1 as [|r [|]]; try discriminate L. now exists r.
  Qed.
  Lemma operation_place ts o : reach [] raw ts o -> of_class OOperation o -> exists r n R, ts = [lit "apis"; r; lit "apis"; n] /\ operation_in raw r n R o /\ of_class OResource R.
  Proof.
    intros R C. destruct (held_by _ _ _ R C) as [(_ & E)|(ts0 & p & n & ts1 & cp & ct & -> & R' & C' & H & L)]; [discriminate E|].
    destruct cp; holds_by H; try (destruct (resource_place _ _ R' C') as (r & ->); destruct ts1 as [|m [|]]; try discriminate L; exists r, m, p; split; [reflexivity|]; split; [split; [exact R'|]|exact C']).
    - (* an Api object would hold operations *) exfalso. destruct (held_by _ _ _ R' C') as [(_ & E)|(ts0' & p' & n' & ts1' & cp & ct & -> & _ & _ & H & _)]; [discriminate E|]. destruct cp; holds_by H.
    - destruct (reach_app_inv [] raw [lit "apis"; r] [lit "apis"; m] o R) as (q & Q1 & Q2). now rewrite (reach_unique _ _ _ _ R' Q1).
  Qed.
  Lemma parameter_place ts o : reach [] raw ts o -> of_class OParameter o -> exists r n i R O, ts = [lit "apis"; r; lit "apis"; n; lit "parameters"; i] /\ operation_in raw r n R O /\ of_class OResource R /\ of_class OOperation O /\ reach [] O [lit "parameters"; i] o.
  Proof.
    intros R C. destruct (held_by _ _ _ R C) as [(_ & E)|(ts0 & p & n & ts1 & cp & ct & -> & R' & C' & H & L)]; [discriminate E|].
    destruct cp; holds_by H. destruct ts1 as [|i [|]]; try discriminate L. destruct (operation_place _ _ R' C') as (r & m & RS & -> & O & CR). exists r, m, i, RS, p. split; [reflexivity|]. split; [exact O|]. split; [exact CR|]. split; [exact C'|].
    destruct (reach_app_inv [] raw _ _ o R) as (q & Q1 & Q2). now rewrite (reach_unique _ _ _ _ R' Q1).
  Qed.
  Lemma model_place ts o : reach [] raw ts o -> of_class OModel o -> exists r k, ts = [lit "apis"; r; lit "models"; k] /\ model_in raw r k o.
  Proof.
    intros R C. destruct (held_by _ _ _ R C) as [(_ & E)|(ts0 & p & n & ts1 & cp & ct & -> & R' & C' & H & L)]; [discriminate E|].
    destruct cp; holds_by H. destruct ts1 as [|k [|]]; try discriminate L. destruct (resource_place _ _ R' C') as (r & ->). exists r, k. split; [reflexivity|exact R].
  Qed.
  Lemma authorization_place ts o : reach [] raw ts o -> of_class OAuthorization o -> exists k, ts = [lit "authorizations"; k] /\ authorization_in raw k o.
  Proof.
    intros R C. destruct (held_by _ _ _ R C) as [(_ & E)|(ts0 & p & n & ts1 & cp & ct & -> & R' & C' & H & L)]; [discriminate E|].
    destruct cp; holds_by H. destruct ts1 as [|k [|]]; try discriminate L. apply list_place in R' as ->; [|exact C']. exists k. split; [reflexivity|exact R].
  Qed.
  (** what is at these places *)
  Lemma reach_two ts1 n k h fs ints o : ts1 = [n; k] -> reach [] (VObj h fs ints) ts1 o -> exists x, sget n fs = Some x /\ reach [] x [k] o.
  Proof. intros -> R. inversion R as [|? ? ? ? x ? ? _ G R'| |]; subst. eauto. Qed.
  Lemma descend cp p n ct cc k o ts : reach [] raw ts p -> of_class cp p -> sget n (o_holds cp) = Some (ct, cc) -> (ct = XDict \/ ct = XList) -> n <> lit "items" ->
    reach [] p [n; k] o -> of_class cc o.
  Proof.
    intros RP (h & fs & ints & -> & C) H CT NI R. destruct (raw_shape raw LOADED) as (W & V & _). pose proof (reach_wf _ _ _ _ RP W) as WP. pose proof (reach_old _ _ _ RP W V) as VP.
    destruct (reach_two _ _ _ _ _ _ _ eq_refl R) as (x & G & RX). inversion VP as [? NO| | |c ? ? ? C' IK FV FF]; subst; [elim (no_obj_VObj _ _ _ NO)|]. rewrite C in C'. injection C' as <-.
    rewrite Forall_forall in FF. pose proof (FF _ (sget_In _ _ _ G)) as OF. unfold old_field in OF. cbn [fst snd] in OF. rewrite H in OF. destruct OF as [(HD & _)|[->|(E & _)]]; [|inversion RX|now elim NI].
    destruct CT as [-> | ->]; cbn [held] in HD; destruct HD as (l & -> & F); rewrite Forall_forall in F; inversion RX as [| |? i y ? ? N R'|? ? y ? ? N R']; subst; inversion R'; subst.
    - exact (F _ (sget_In _ _ _ N)).
    - exact (F _ (nth_error_In _ _ N)).
  Qed.
  Lemma raw_class : of_class OResourceList raw.
  Proof. destruct (raw_shape raw LOADED) as (_ & _ & h & fr & ir & defs & -> & C & _). do 3 eexists. split; [reflexivity|exact C]. Qed.
  Lemma resource_class r R : resource_in raw r R -> of_class OResource R.
  Proof. intro H. eapply (descend OResourceList raw (lit "apis") XDict); [apply reach_here|exact raw_class|reflexivity|auto|discriminate|exact H]. Qed.
  Lemma operation_class r n R O : operation_in raw r n R O -> of_class OOperation O.
  Proof. intros (HR & HO). eapply (descend OResource R (lit "apis") XDict); [exact HR|exact (resource_class _ _ HR)|reflexivity|auto|discriminate|exact HO]. Qed.
  Lemma parameter_class r n i R O q : operation_in raw r n R O -> reach [] O [lit "parameters"; i] q -> of_class OParameter q.
  Proof.
    intros HO HQ. eapply (descend OOperation O (lit "parameters") XList); [|exact (operation_class _ _ _ _ HO)|reflexivity|auto|discriminate|exact HQ]. destruct HO as (HR & HO). exact (reach_app _ _ _ _ _ _ HR HO).
  Qed.
  Lemma model_class r k M : model_in raw r k M -> of_class OModel M.
  Proof.
    intro H. destruct (reach_app_inv [] raw [lit "apis"; r] [lit "models"; k] M H) as (R & HR & HM). eapply (descend OResource R (lit "models") XDict); [exact HR|exact (resource_class _ _ HR)|reflexivity|auto|discriminate|exact HM].
  Qed.
  Lemma authorization_class k A : authorization_in raw k A -> of_class OAuthorization A.
  Proof. intro H. eapply (descend OResourceList raw (lit "authorizations") XDict); [apply reach_here|exact raw_class|reflexivity|auto|discriminate|exact H]. Qed.
  Lemma class_obj c v : of_class c v -> is_obj v.
  Proof. intros (h & fs & ints & -> & _). exact Logic.I. Qed.
  Lemma class_unique c c' v : of_class c v -> of_class c' v -> c = c'.
  Proof. intros (h & fs & ints & -> & C) (h' & fs' & ints' & E & C'). injection E as <- <- <-. congruence. Qed.
  Lemma old_class ts o : reach [] raw ts o -> is_obj o -> exists c, of_class c o.
  Proof.
    intros R O. destruct (raw_shape raw LOADED) as (W & V & _). pose proof (reach_old _ _ _ R W V) as VO. destruct o; try contradiction. inversion VO as [? NO| | |c ? ? ? C IK FV FF]; subst; [elim (no_obj_VObj _ _ _ NO)|]. exists c. do 3 eexists. eauto.
  Qed.
  Lemma info_shape : info_whole raw.
  Proof.
    intros oi c I C. destruct raw_class as (h & fs & ints & E & CR). destruct (raw_shape raw LOADED) as (W & V & _). rewrite E in W, V, I. inversion V as [? NO| | |c' ? ? ? C' IK FV FF]; subst; [elim (no_obj_VObj _ _ _ NO)|]. rewrite CR in C'. injection C' as <-.
    inversion W as [| | | | | | |? ? ? K FW]; subst. rewrite CR in K. apply get_has in I. destruct I as [I|(I & _)]; [|exfalso; apply sget_None in I; apply I; rewrite K; vm_compute; tauto].
    rewrite Forall_forall in FF, FW. pose proof (FF _ (sget_In _ _ _ I)) as OF. pose proof (FW _ (sget_In _ _ _ I)) as WO. unfold old_field in OF. cbn [fst snd] in OF, WO. change (sget (lit "info") (o_holds OResourceList)) with (Some (XOne, OInfo)) in OF.
    destruct OF as [(HD & _)|[->|(E' & _)]]; [|discriminate C|discriminate E']. destruct HD as (h' & fs' & ints' & -> & C'). inversion WO as [| | | | | | |? ? ? K' FW']; subst. rewrite C' in K'.
    destruct (sget (lit "licenseUrl") fs') as [u|] eqn:G; [exists u; now apply get_field|]. exfalso. apply sget_None in G. apply G. rewrite K'. vm_compute. tauto.
  Qed.
End Places.

(** ** The handlers *)
Definition at_op (r n : str) : str := rfc_pointer (lit "#") [lit "apis"; r; lit "apis"; n].
Definition at_param (r n i : str) : str := rfc_pointer (lit "#") [lit "apis"; r; lit "apis"; n; lit "parameters"; i].
Definition at_model (r k : str) : str := rfc_pointer (lit "#") [lit "apis"; r; lit "models"; k].
Definition at_resource (r : str) : str := rfc_pointer (lit "#") [lit "apis"; r].
Definition at_auth (k : str) : str := rfc_pointer (lit "#") [lit "authorizations"; k].
Section Handlers.
  Context (prim : str -> bool) (float_of : str -> res Q) (sep : str) (raw : val).
  Notation operation_for := (operation_for prim float_of sep). Notation parameter_for := (parameter_for prim float_of sep).
  Notation on_operation := (on_operation prim float_of sep raw). Notation on_parameter := (on_parameter prim float_of sep raw). Notation on_model := (on_model prim float_of sep).
  Definition item_at (k : str) (u : up) : val := match sget k (u_paths u) with Some i => i | None => new_obj CPathItem end.
  Definition set_paths (u : up) (ps : sdict val) : up := Up (u_swagger u) (u_tags u) ps (u_defs u) (u_secs u).
  Lemma full_ok R O k : full_path R O = Ok k <-> exists b p, has_field R "basePath" (VStr b) /\ has_field O "path" (VStr p) /\ k = b ++ p.
  Proof.
    unfold full_path. split.
    - intro E. apply bind_ok in E as (b & B & E). apply bind_ok in E as (b' & B' & E). apply bind_ok in E as (p & P & E). apply bind_ok in E as (p' & P' & E). injection E as <-.
      destruct b; try discriminate B'. destruct p; try discriminate P'. injection B' as ->. injection P' as ->. apply get_has in B, P. eauto.
    - intros (b & p & B & P & ->). apply get_has in B, P. rewrite B, P. reflexivity.
  Qed.
  Lemma above_op r n R O : operation_in raw r n R O -> above 2 raw (at_op r n) = Ok R.
  Proof. intros (HR & _). exact (above_reach 2 raw [lit "apis"; r] [lit "apis"; n] R HR eq_refl). Qed.
  Lemma operation_step r n R O u u' : operation_in raw r n R O -> on_operation (at_op r n) O u = Ok u' ->
    exists k m x item', located R O k m /\ operation_for (rfc_escape r) R O [] x /\ update_field m x (item_at k u) = Ok item' /\ u' = set_paths u (sset k item' (u_paths u)).
  Proof.
    intros OI E. unfold M_Upgrade.on_operation in E. apply bind_ok in E as (o0 & O0 & E). apply fresh_made in O0; [|mk]. rewrite (above_op _ _ _ _ OI) in E. cbn [bind] in E. unfold at_op in E. rewrite nth_split_pointer in E. cbn [bind] in E.
    set (scope := rfc_escape r) in *.
    apply bind_ok in E as (nick & NK & E). apply bind_ok in E as (su & SU & E). apply bind_ok in E as (no & NO & E). apply bind_ok in E as (de & DE & E).
    apply bind_ok in E as (oc & OC & E). apply bind_ok in E as (pc & PC & E). apply bind_ok in E as (c & C & E). apply bind_ok in E as (op & OP & E). apply bind_ok in E as (pp & PP & E). apply bind_ok in E as (p & P & E).
    apply bind_ok in E as (sec & SEC & E). apply bind_ok in E as (ty & TY & E). apply bind_ok in E as (r0 & R0 & E). apply fresh_made in R0; [|mk]. apply bind_ok in E as (resp & RESP & E). apply bind_ok in E as (x & X & E). stps X O0.
    apply bind_ok in E as (k & K & E). apply bind_ok in E as (item & IT & E). apply bind_ok in E as (mv & MV & E). apply bind_ok in E as (m & M & E). apply bind_ok in E as (item' & IT' & E). injection E as <-.
    apply full_ok in K as (b & pa & B & PA & ->). destruct mv as [| | | |mm| | |]; try discriminate M. cbn in M. injection M as <-. apply get_has in NK, SU, NO, DE, OC, PC, OP, PP, TY, MV. apply or_ok in C, P. apply security_ok in SEC as (au & ar & AU & AR & SEC).
    exists (b ++ pa), (lower mm), x, item'. split; [exists b, pa, mm; auto 6|]. split; [|split; [|reflexivity]].
    - exists nick, su, no, de, oc, op, pc, pp, (or_empty c), (or_empty p), au, ar, sec, resp, ty. repeat (split; [assumption|]). split.
      { destruct (is_text ty "void") eqn:I; [left; injection RESP as <-; split; [now apply is_text_iff|exact R0]|right; split; [now apply is_text_no|]].
        apply bind_ok in RESP as (s & S' & RESP). stp RESP R0. exists s. split; [now apply schema_for_ok|exact RESP]. }
      exists (is_text de "true"). split; [apply is_text_iff|exact X].
    - unfold item_at. destruct (sget (b ++ pa) (u_paths u)); [injection IT as <-; exact IT'|]. rewrite (fresh_new CPathItem ltac:(mk)) in IT. injection IT as <-. exact IT'.
  Qed.
  Lemma operation_works r n R O u k m ps x : operation_in raw r n R O -> located R O k m -> operation_for (rfc_escape r) R O ps x ->
    (forall y, exists item', update_field m y (item_at k u) = Ok item') -> exists u', on_operation (at_op r n) O u = Ok u'.
  Proof.
    intros OI (b & pa & mm & B & PA & MM & -> & ->) (nick & su & no & de & co & pr & c & p & c' & p' & au & ar & sec & resp & ty & NK & SU & NO & DE & CO & C & CC & PR & P & PP & AU & AR & SEC & TY & RESP & _) UP.
    unfold M_Upgrade.on_operation. rewrite (fresh_new COperation ltac:(mk)), (above_op _ _ _ _ OI). cbn [bind]. unfold at_op. rewrite nth_split_pointer. cbn [bind].
    destruct (security_works _ _ _ _ _ AU AR SEC) as (sec' & ES). apply or_works in CC as (cc & CC & _). apply or_works in PP as (p2 & PP & _). apply get_has in NK, SU, NO, DE, CO, C, PR, P, TY, MM.
    rewrite NK, SU, NO, DE, CO, C, PR, P. cbn [bind]. rewrite CC, PP. cbn [bind]. rewrite ES, TY. cbn [bind]. rewrite (fresh_new CResponse ltac:(mk)). cbn [bind].
    assert (ER : exists resp, (if is_text ty "void" then Ok (new_obj CResponse) else do s <- schema_from prim float_of sep O (rfc_escape r); update_field (lit "schema") s (new_obj CResponse)) = Ok resp).
    { destruct RESP as [(-> & _)|(NV & s & (kvs & SK & _) & _)]; [eexists; reflexivity|]. apply is_text_no in NV. rewrite NV. destruct (schema_works _ _ _ _ _ _ SK) as (s' & ->). cbn [bind].
      destruct (set_ok CResponse _ _ (lit "schema") s' (new_made CResponse) ltac:(fieldsok)) as (r' & -> & _). eauto. }
    destruct ER as (resp' & ->). cbn [bind].
    match goal with |- context [sets ?k (new_obj COperation)] => destruct (sets_ok COperation k _ _ (new_made COperation) ltac:(fieldsok)) as (o & -> & _) end. cbn [bind].
    rewrite (proj2 (full_ok R O (b ++ pa))) by eauto. cbn [bind]. destruct (UP o) as (item' & U). unfold item_at in U.
    destruct (sget (b ++ pa) (u_paths u)); [|rewrite (fresh_new CPathItem ltac:(mk))]; cbn [bind]; rewrite MM; cbn [bind to_lower]; rewrite U; cbn [bind]; eauto.
  Qed.
  Lemma above_param1 r n i R O : operation_in raw r n R O -> above 2 raw (at_param r n i) = Ok O.
  Proof. intros (HR & HO). exact (above_reach 2 raw [lit "apis"; r; lit "apis"; n] [lit "parameters"; i] O (reach_app _ _ _ _ _ _ HR HO) eq_refl). Qed.
  Lemma above_param2 r n i R O : operation_in raw r n R O -> above 4 raw (at_param r n i) = Ok R.
  Proof. intros (HR & _). exact (above_reach 4 raw [lit "apis"; r] [lit "apis"; n; lit "parameters"; i] R HR eq_refl). Qed.
  Lemma parameter_step r n i R O q u u' : operation_in raw r n R O -> on_parameter (at_param r n i) q u = Ok u' ->
    exists k m p item x l, located R O k m /\ parameter_for (rfc_escape r) q p /\ sget k (u_paths u) = Some item /\
      match item with VObj _ fs ints => attr fs ints m = Ok x | _ => False end /\ has_field x "parameters" (VList l) /\
      u' = set_paths u (sset k (put m (put (lit "parameters") (VList (l ++ [p])) x) item) (u_paths u)).
  Proof.
    intros OI E. unfold M_Upgrade.on_parameter in E. rewrite (above_param1 _ _ _ _ _ OI), (above_param2 _ _ _ _ _ OI) in E. cbn [bind] in E. unfold at_param in E. rewrite nth_split_pointer in E. cbn [bind] in E.
    apply bind_ok in E as (p & P & E). apply parameter_ok in P. apply bind_ok in E as (k & K & E). apply full_ok in K as (b & pa & B & PA & ->). apply bind_ok in E as (mv & MV & E). apply bind_ok in E as (m & M & E).
    destruct mv as [| | | |mm| | |]; try discriminate M. cbn in M. injection M as <-. apply get_has in MV. destruct (sget (b ++ pa) (u_paths u)) as [item|] eqn:IT; [|discriminate E].
    apply bind_ok in E as (x & X & E). apply bind_ok in E as (ps & PS & E). destruct ps as [| | | | |l| |]; try discriminate E. injection E as <-. apply get_has in PS.
    exists (b ++ pa), (lower mm), p, item, x, l. split; [exists b, pa, mm; auto 6|]. split; [exact P|]. split; [exact IT|]. split; [|auto]. destruct item; try discriminate X. exact X.
  Qed.
  Lemma parameter_step_works r n i R O q u k m p h fs ints x l : operation_in raw r n R O -> located R O k m -> parameter_for (rfc_escape r) q p -> sget k (u_paths u) = Some (VObj h fs ints) ->
    attr fs ints m = Ok x -> has_field x "parameters" (VList l) -> exists u', on_parameter (at_param r n i) q u = Ok u'.
  Proof.
    intros OI (b & pa & mm & B & PA & MM & -> & ->) P IT X PS. unfold M_Upgrade.on_parameter. rewrite (above_param1 _ _ _ _ _ OI), (above_param2 _ _ _ _ _ OI). cbn [bind]. unfold at_param. rewrite nth_split_pointer. cbn [bind].
    destruct (parameter_works _ _ _ _ _ _ P) as (p' & ->). cbn [bind]. rewrite (proj2 (full_ok R O (b ++ pa))) by eauto. cbn [bind]. apply get_has in MM, PS. rewrite MM. cbn [bind to_lower]. rewrite IT, X. cbn [bind]. rewrite PS. cbn [bind]. eauto.
  Qed.

  (** ** Models *)
  Notation names := (names sep). Notation refs_to := refs_to.
  (** How far the definition [s] has come: what its model has said, and its parents so far *)
  Definition def_state (d : option val) (kvs : option (sdict val)) (ps : list str) : Prop :=
    match d with
    | None => kvs = None /\ ps = []
    | Some x => exists refs, refs_to ps refs /\ (kvs = None -> ps <> []) /\
        let kv := match kvs with Some kv => kv | None => [] end in holding CSchema (kv ++ ["allOf" ~> VList refs]) x /\ giving (map fst kv) x
    end.
  Definition adds (scope s : str) (l : list val) (s' : str) : list str :=
    flat_map (fun t => match compose sep scope t with Ok x => if str_eqb x s' then [s] else [] | Err _ => [] end) l.
  Lemma holding_default c kvs v n d : holding c kvs v -> sget n (t_fields c) = Some d -> sget n (rev kvs) = None -> holding c (kvs ++ [(n, inject d)]) v.
  Proof.
    intros (h & fs & -> & C & K & F) G N. exists h, fs. repeat (split; [solve [auto]|]). intros m e M. rewrite rev_get. destruct (str_eqb m n) eqn:E; [|now apply F].
    apply str_eqb_eq in E as ->. rewrite (F _ _ M), N. congruence.
  Qed.
  Lemma state_obj defs s kvs ps o : def_state (sget s defs) kvs ps -> def_of s defs = Ok o ->
    exists refs, refs_to ps refs /\ let kv := match kvs with Some kv => kv | None => [] end in holding CSchema (kv ++ ["allOf" ~> VList refs]) o /\ giving (map fst kv) o.
  Proof.
    unfold def_of. intros D E. destruct (sget s defs) as [x|].
    - injection E as <-. destruct D as (refs & A & _ & B). eauto.
    - rewrite (fresh_new CSchema ltac:(mk)) in E. injection E as <-. destruct D as (-> & ->). exists []. split; [constructor|]. destruct (new_made CSchema) as (A & B). split; [|exact B]. exact (holding_default CSchema [] _ (lit "allOf") (JList []) A eq_refl eq_refl).
  Qed.
  Lemma def_of_works s defs : exists o, def_of s defs = Ok o.
  Proof. unfold def_of. destruct (sget s defs); [eauto|]. rewrite (fresh_new CSchema ltac:(mk)). eauto. Qed.
  Lemma state_allOf kvs ps o refs : refs_to ps refs -> holding CSchema ((match kvs with Some kv => kv | None => [] end) ++ ["allOf" ~> VList refs]) o -> get "allOf" o = Ok (VList refs).
  Proof.
    intros _ H. apply get_has. apply (holding_get _ _ _ "allOf" (JList [])) in H; [|reflexivity]. rewrite rev_get, str_eqb_refl in H. exact H.
  Qed.
  Lemma extend_ok scope s l : forall defs defs' kvs ps, (forall s', def_state (sget s' defs) (kvs s') (ps s')) -> extend sep scope s l defs = Ok defs' ->
    (forall s', parents sep scope s' s l (adds scope s l s')) /\ forall s', def_state (sget s' defs') (kvs s') (ps s' ++ adds scope s l s').
  Proof.
    induction l as [|t l IH]; intros defs defs' kvs ps ST E; cbn [extend] in E.
    - injection E as <-. split; intro s'; [constructor|]. cbn [adds flat_map]. rewrite app_nil_r. apply ST.
    - apply bind_ok in E as (sub & SUB & E). apply bind_ok in E as (o & O & E). apply bind_ok in E as (ref & RF & E). apply fresh_made in RF; [|mk]. apply bind_ok in E as (ref' & RF' & E). stp RF' RF.
      destruct (state_obj _ _ _ _ _ (ST sub) O) as (refs & RT & H & G). apply bind_ok in E as (al & AL & E). rewrite (state_allOf _ _ _ _ RT H) in AL. injection AL as <-.
      assert (AD : forall s', adds scope s (t :: l) s' = (if str_eqb sub s' then [s] else []) ++ adds scope s l s') by (intro s'; unfold adds; cbn [flat_map]; now rewrite SUB).
      eapply (IH _ _ kvs (fun s' => ps s' ++ if str_eqb sub s' then [s] else [])) in E as (P & ST').
      + split; intro s'; rewrite AD.
        * apply compose_iff in SUB. destruct (str_eqb sub s') eqn:EQ; cbn [app].
          -- apply str_eqb_eq in EQ as <-. apply p_this; [exact SUB|apply P].
          -- eapply p_other; [exact SUB| |apply P]. intros ->. rewrite str_eqb_refl in EQ. discriminate EQ.
        * specialize (ST' s'). rewrite <- app_assoc in ST'. exact ST'.
      + intro s'. destruct (str_eqb sub s') eqn:EQ.
        * apply str_eqb_eq in EQ as <-. rewrite sget_sset_same. cbn [def_state]. exists (refs ++ [ref']). split; [|split; [|split]].
          -- apply Forall2_app; [exact RT|]. constructor; [|constructor]. exact RF'.
          -- intros _ Q. apply app_eq_nil in Q as (_ & Q). discriminate Q.
          -- eapply holding_ext; [|apply holding_put; [exact H|fieldsok]]. intro n. rewrite !rev_get. destruct (str_eqb n (lit "allOf")); reflexivity.
          -- now apply giving_put.
        * rewrite sget_sset_other by (intros <-; rewrite str_eqb_refl in EQ; discriminate EQ). rewrite app_nil_r. apply ST.
  Qed.
  Lemma extend_works scope s l : forall defs kvs ps, (forall s', def_state (sget s' defs) (kvs s') (ps s')) -> Forall (fun t => exists x, names scope t x) l -> exists defs', extend sep scope s l defs = Ok defs'.
  Proof.
    induction l as [|t l IH]; intros defs kvs ps ST F; cbn [extend]; [eauto|]. inversion F as [|? ? (sub & SUB) F']; subst. apply compose_iff in SUB. rewrite SUB. cbn [bind]. destruct (def_of_works sub defs) as (o & O). rewrite O. cbn [bind].
    rewrite (fresh_new CSchema ltac:(mk)). cbn [bind]. destruct (set_ok CSchema _ _ (lit "$ref") (VStr (lit "#/definitions/" ++ s)) (new_made CSchema) ltac:(fieldsok)) as (ref & -> & RF). cbn [bind].
    destruct (state_obj _ _ _ _ _ (ST sub) O) as (refs & RT & H & G). rewrite (state_allOf _ _ _ _ RT H). cbn [bind].
    eapply (IH _ kvs (fun s' => ps s' ++ if str_eqb sub s' then [s] else [])); [|exact F']. intro s'. destruct (str_eqb sub s') eqn:EQ.
    - apply str_eqb_eq in EQ as <-. rewrite sget_sset_same. cbn [def_state]. exists (refs ++ [ref]). split; [|split; [|split]].
      + apply Forall2_app; [exact RT|]. constructor; [|constructor]. exact RF.
      + intros _ Q. apply app_eq_nil in Q as (_ & Q). discriminate Q.
      + eapply holding_ext; [|apply holding_put; [exact H|fieldsok]]. intro n. rewrite !rev_get. destruct (str_eqb n (lit "allOf")); reflexivity.
      + now apply giving_put.
    - rewrite sget_sset_other by (intros <-; rewrite str_eqb_refl in EQ; discriminate EQ). rewrite app_nil_r. apply ST.
  Qed.
End Handlers.
