(** Lemmas for creating applications: loading and completing the document succeed. *)
From Coq Require Import Lia.
From Verif Require Import PyBase PyFacts PyInt PyJson M_JsonPtr S_JsonPtr M_Url P_Op M_SpecVal M_Parse M_SpecTree M_Merge M_MergeRef S_Parse S_SpecTree S_Merge S_MergeRef P_SpecBase P_Parse P_SpecTree P_Compare P_Merge P_MergeShape P_MergeRef M_Scope M_Patch S_Patch P_Patch P_PatchOp M_App S_App P_App P_Deep M_Validate M_OldValidate M_OldParse M_Upgrade M_Prepare P_Grown P_Grown2 S_Prepare P_Prepare P_Prepare2 P_Prepare3 P_Prepare4 P_Prepare5 P_Prepare6 T_App S_Create P_Create P_Create2.
From Verif Require T_SpecTree T_Patch P_Compose2 S_Cycles.
Close Scope Q_scope.

(** ** Loading *)
Section Load.
  Context (abs_uri win_uri : str -> str) (fetch : str -> res json) (prim : str -> bool) (float_of : str -> res Q) (sep : str).
  Notation conv := (convert_doc prim float_of sep).
  Notation load := (load_obj fetch (parse_listing fetch)).
  Notation normed := (normalised conv as_given).
  Notation solve := (resolvef abs_uri win_uri fetch (parse_listing fetch) conv as_given).
  Context (b : bool) (u : str) (doc : val).
  Hypothesis W : wfv doc.
  Hypothesis O : is_obj doc.
  Hypothesis refs : forall o, object_in doc CSchema o -> no_reference o \/ exists s x, refers o s /\ points abs_uri win_uri u doc s x /\ of_class CSchema x.
  Lemma pre_resolve_Ok fuel a : whole a u (0, doc) -> forall l, (forall r, In r l -> exists o, object_in doc CSchema o /\ refers o r) ->
    pre_resolve (fun a r => solve (S fuel) a (Some r) (Some CSchema)) a l = (a, Ok tt).
  Proof.
    intros WA. induction l as [|r l IH]; intro F; [reflexivity|]. cbn [pre_resolve]. destruct (F r (or_introl eq_refl)) as (o & OI & RF).
    destruct (refs o OI) as [(y & Y & EY)|(s & x & RS & (ts & J & R) & C)].
    { destruct RF as (NE & RF). rewrite RF in Y. injection Y as <-. inversion EY; subst; congruence. }
    assert (s = r) as -> by (destruct RF as (_ & A), RS as (_ & B); congruence). destruct C as (h & fs & ints & -> & C).
    assert (SV : solve (S fuel) a (@Some str r) (Some CSchema) = (a, Ok (0, VObj h fs ints))) by exact (c43_whole abs_uri win_uri fetch (parse_listing fetch) conv as_given fuel a (Some CSchema) r u 0 doc ts (VObj h fs ints) (proj1 RF) J WA R Logic.I).
    rewrite SV. cbn [falsy same_class]. rewrite C. cbn [cls_eqb]. apply IH. intros q I. apply F. now right.
  Qed.
  Lemma create_Ok url nu o ver : normalize_url abs_uri win_uri url = Ok nu -> jr_split abs_uri win_uri nu = Ok (u, lit "#") -> load nu None = Ok (o, ver) -> str_eqb ver (lit "1.2") = b ->
    normed (App [] None b 0) o u = Ok doc -> forall fuel, create abs_uri win_uri fetch (parse_listing fetch) conv as_given (S fuel) url = Ok (at_doc b u 0 doc).
  Proof.
    intros N J L B NV fuel. unfold create. rewrite N. cbn [bind]. rewrite L. cbn [bind fst snd]. rewrite B. unfold prepare_obj. rewrite J. cbn [bind fst snd]. rewrite NV. cbn [bind a_loads].
    unfold store. cbn [a_objs]. change (str_eqb (lit "#") (lit "#")) with true. cbv iota. cbn [sget dget bind].
    assert (TR : exists refs0, to_resolve (App [] None b 0) o doc = Ok refs0 /\ forall r, In r refs0 -> exists x, object_in doc CSchema x /\ refers x r).
    { assert (X : exists refs0, schema_refs doc = Ok refs0 /\ forall r, In r refs0 -> exists x, object_in doc CSchema x /\ refers x r).
      { unfold schema_refs. destruct (T_SpecTree.c35_visits doc [] W O) as (objs & T & IN). rewrite T. cbn [bind]. eexists. split; [reflexivity|]. intros r I. apply in_flat_map in I as ((p & x) & IX & I). cbn [snd] in I.
        destruct x as [| | | | | | |h fs ints]; try contradiction. destruct (cls_eqb (h_cls h) CSchema) eqn:C; [|contradiction]. apply cls_eqb_eq in C. apply IN in IX as (ts & _ & R & _).
        destruct (sget (lit "$ref") fs) as [[| | | |[|c s]| | |]|] eqn:G; try contradiction. destruct I as [<-|[]]. exists (VObj h fs ints). split; [exists ts; split; [exact R|exists h, fs, ints; auto]|]. split; [discriminate|exact G]. }
      unfold to_resolve. cbn [a_old]. destruct b; [exact X|]. destruct o; [|exact X]. exists []. split; [reflexivity|]. intros r []. }
    destruct TR as (refs0 & -> & F). cbn [bind]. rewrite pre_resolve_Ok; [reflexivity| |exact F].
    unfold whole. cbn [a_objs]. apply sget_sset_same'.
  Qed.
End Load.

(** ** Completing *)
Lemma path_item_back P doc mid k pi1 : path_item mid k pi1 -> grown P doc mid -> shaped (Of CSwagger) doc -> exists pi, path_item doc k pi /\ grown (fun us => P (lit "paths" :: k :: us)) pi pi1.
Proof.
  intros (ps & FP & GK & CK) G SR. destruct (shaped_swagger _ SR) as (hr & fr & ir & -> & CR). apply grown_obj in G as (g & es & jnts & -> & CG & _ & K & _ & F & _). cbn [field_of] in FP.
  destruct (same_keys _ _ _ _ (eq_sym K) FP) as (x & X). destruct (F _ _ _ X FP) as [GY|(Y & _)]; [|congruence]. inversion GY as [? NC| |d ? KD FD|]; subst; [destruct NC|].
  destruct (same_keys _ _ _ _ (eq_sym KD) GK) as (z & Z). pose proof (FD _ _ _ Z GK) as GZ. exists z. split; [|exact GZ]. exists d. split; [exact X|]. split; [exact Z|].
  destruct CK as (h1 & f1 & i1 & -> & C1). inversion GZ as [? NC| | |h0 ? fs0 ? ints0 ? C]; subst; [destruct NC|]. exists h0, fs0, ints0. split; [reflexivity|congruence].
Qed.
Lemma operation_back P pi pi1 m op1 : operation pi1 m op1 -> grown P pi pi1 -> field_of pi (lit "$ref") = Some VNone -> exists op, operation pi m op /\ grown (fun us => P (m :: us)) op op1.
Proof.
  intros (FM & CM) G NR. destruct pi as [| | | | | | |hp fp ip]; try discriminate NR. cbn [field_of] in NR. apply grown_obj in G as (g & es & jnts & -> & CG & _ & K & _ & F & _). cbn [field_of] in FM.
  destruct (same_keys _ _ _ _ (eq_sym K) FM) as (x & X). destruct (F _ _ _ X FM) as [GY|(_ & Y & _)]; [|contradiction]. exists x. split; [|exact GY]. split; [exact X|].
  destruct CM as (h1 & f1 & i1 & -> & C1). inversion GY as [? NC| | |h0 ? fs0 ? ints0 ? C]; subst; [destruct NC|]. exists h0, fs0, ints0. split; [reflexivity|congruence].
Qed.
Section Ready.
  Context (abs_uri win_uri : str -> str) (sep u : str) (doc mid : val).
  Hypothesis AC : acceptable abs_uri win_uri sep u doc.
  Hypothesis SH : shaped (Of CSwagger) doc.
  Hypothesis D : deep doc.
  Hypothesis SM : shaped (Of CSwagger) mid.
  Hypothesis GR : grown (fun _ => True) doc mid.
  Hypothesis FN : finals abs_uri win_uri u doc mid.
  Lemma item_refs : no_item_refs doc.
  Proof. intros ts pi R C. destruct (P_Compose2.path_items_at _ _ _ SH R C) as (k & PI). exact (ac_items _ _ _ _ _ AC _ _ PI). Qed.
  Lemma doc_obj : is_obj doc.
  Proof. destruct (shaped_swagger _ SH) as (? & ? & ? & -> & _). exact I. Qed.
  Lemma doc_wfv : wfv doc.
  Proof. pose proof doc_obj. destruct doc; try contradiction. now apply deep_wfv. Qed.
  Lemma param_called ts p : reach [] mid ts p -> of_class CParameter p -> exists n, called p n.
  Proof.
    intros R (h & fs & ints & -> & C). destruct (grown_back _ _ _ R _ _ GR item_refs) as (o0 & R0 & G0). inversion G0 as [? NC| | |h0 ? fs0 ? ints0 ? CC PL _ _ _ FE]; subst; [destruct NC|].
    assert (C0 : h_cls h0 = CParameter) by congruence. rewrite FE in * by (left; exact C0). clear FE.
    destruct (FN _ _ _ _ R0 (or_introl C0)) as (k & jnts & f & R1 & FI & WY). pose proof (reach_fun _ _ _ R _ R1) as X. injection X as <- <-.
    destruct (way_from abs_uri win_uri u doc CParameter doc_wfv doc_obj (fun o => ac_refs _ _ _ _ _ AC CParameter o ltac:(cbn; auto)) [h_place h0] (VObj h0 fs0 ints0)) as (l & WL & _).
    { exists ts. split; [exact R0|]. exists h0, fs0, ints0. auto. }
    rewrite C0 in WY. specialize (WY l WL). pose proof (cb_shape _ _ _ WY) as SF.
    assert (FF : sget (lit "final") fs0 = None).
    { assert (T : typed_value mid) by (left; exists One, (Of CSwagger); now constructor). destruct (typed_reach _ _ _ R T) as [TP|(_ & N)]; [|apply no_object_here in N; elim N; exact I]. apply tame_obj in TP.
      destruct (shaped_parts _ _ _ _ TP) as (_ & K & _). apply sget_None. rewrite K, C. cbn. intuition discriminate. }
    assert (NA : forall h fs ints, shaped (Of CParameter) (VObj h fs ints) -> exists n, attr_of (VObj h fs ints) (lit "name") = Some n).
    { intros h1 fs1 ints1 S1. destruct (shaped_parts _ _ _ _ S1) as (_ & K & _). unfold attr_of. cbn [field_of].
      assert (X : exists n, sget (lit "name") fs1 = Some n) by (apply sget_Some_key; rewrite K; apply mem_In; reflexivity). destruct X as (n & ->). eauto. }
    destruct (shaped_obj _ _ SF) as (hf & ff & fi & -> & CF). destruct (NA _ _ _ SF) as (n & N). exists n. exists (VObj hf ff fi). split; [|exact N].
    apply meant_final; [unfold attr_of; cbn [field_of internal_of]; rewrite FF; exact FI|]. intro X. inversion X.
  Qed.
  Lemma parameters_named ts ct x m : reach [] mid (ts ++ [lit "parameters"]) m -> grown (fun _ => True) x m -> (exists l, x = VList l) -> shaped_in ct (Of CParameter) m -> named_list m.
  Proof.
    intros R G (l & ->) SI. apply grown_list in G as (m' & -> & _). exists m'. split; [reflexivity|]. inversion SI as [|? ? S1|? ? F|]; subst; [inversion S1|].
    apply Forall_forall. intros p I. rewrite Forall_forall in F. apply In_nth_error in I as (i & I). eapply (param_called ((ts ++ [lit "parameters"]) ++ [str_of_nat i])).
    - eapply reach_app; [exact R|]. econstructor; [exact I|constructor].
    - apply (shaped_obj CParameter). apply F. eapply nth_error_In; eauto.
  Qed.
  Lemma mid_ready : ready mid.
  Proof.
    assert (TOP : forall n P, smem (lit n) (t_fields CSwagger) = true -> sget (lit n) (t_child CSwagger) = None -> has doc n P -> has mid n P).
    { intros n P _ T (x & X & PX). exists x. split; [|exact PX]. rewrite (grown_swagger _ _ _ _ SH GR T). exact X. }
    split; [|split; [|split]].
    - apply TOP; [reflexivity|reflexivity|exact (ac_host _ _ _ _ _ AC)].
    - apply TOP; [reflexivity|reflexivity|exact (ac_base _ _ _ _ _ AC)].
    - apply TOP; [reflexivity|reflexivity|exact (ac_schemes _ _ _ _ _ AC)].
    - intros k pi1 PI1. destruct (path_item_back _ _ _ _ _ PI1 GR SH) as (pi & PI & GP). pose proof (ac_items _ _ _ _ _ AC _ _ PI) as NR. pose proof (path_item_reach _ _ _ PI1) as RP.
      assert (SP : shaped (Of CPathItem) pi1).
      { assert (T : typed_value mid) by (left; exists One, (Of CSwagger); now constructor). destruct PI1 as (? & _ & _ & (h & fs & ints & -> & C)). destruct (typed_reach _ _ _ RP T) as [TP|(_ & N)]; [|apply no_object_here in N; elim N; exact I]. apply tame_obj in TP. rewrite <- C. exact TP. }
      split.
      + destruct (ac_shared _ _ _ _ _ AC _ _ PI) as (x & X & LX). destruct pi as [| | | | | | |hp fp ip]; try discriminate X. cbn [field_of] in X, NR. pose proof GP as GP'. apply grown_obj in GP as (g & es & jnts & -> & CG & _ & K & _ & F & _).
        destruct (same_keys _ _ _ _ K X) as (y & Y). destruct (F _ _ _ X Y) as [GY|(_ & Z & _)]; [|contradiction]. exists y. split; [exact Y|]. apply (parameters_named [lit "paths"; k] ListOf x y).
        * cbn [List.app]. change [lit "paths"; k; lit "parameters"] with ([lit "paths"; k] ++ [lit "parameters"]). eapply reach_app; [exact RP|]. econstructor; [intros []|exact Y|constructor].
        * exact GY.
        * exact LX.
        * refine (shaped_child _ _ _ _ _ _ _ _ SP Y _). reflexivity.
      + intros m op1 OP1. destruct (operation_back _ _ _ _ _ OP1 GP NR) as (op & OP & GO). pose proof (operation_reach _ _ _ _ _ PI1 OP1) as RO.
        destruct OP1 as (_ & (ho & fo & io & -> & CO)).
        assert (SO : shaped (Of COperation) (VObj ho fo io)).
        { assert (T : typed_value mid) by (left; exists One, (Of CSwagger); now constructor). destruct (typed_reach _ _ _ RO T) as [TP|(_ & N)]; [|apply no_object_here in N; elim N; exact I]. apply tame_obj in TP. rewrite <- CO. exact TP. }
        destruct (ac_ops _ _ _ _ _ AC k m op) as (PX & CX & DX & EX); [exists pi; auto|]. pose proof (operation_reach _ _ _ _ _ PI OP) as R0'. destruct OP as (_ & (h0 & f0 & i0 & -> & C0)).
        assert (S0 : shaped (Of (h_cls h0)) (VObj h0 f0 i0)).
        { assert (T : typed_value doc) by (left; exists One, (Of CSwagger); now constructor).
          destruct (typed_reach _ _ _ R0' T) as [TP|(_ & N)]; [|apply no_object_here in N; elim N; exact I]. apply tame_obj in TP. exact TP. }
        assert (KEEP : forall n P, sget (lit n) (t_child COperation) = None -> has (VObj h0 f0 i0) n P -> has (VObj ho fo io) n P).
        { intros n P T (x & X & HP). exists x. split; [|exact HP]. assert (Q : field_of (VObj ho fo io) (lit n) = sget (lit n) f0) by (eapply grown_field; [exact S0|congruence|exact GO|rewrite C0; exact T]). rewrite Q. exact X. }
        split; [|split; [|split]]; [|now apply KEEP..].
        destruct PX as (x & X & LX). cbn [field_of] in X. apply grown_obj in GO as (g & es & jnts & E & CG & _ & K & _ & F & _). injection E as <- <- <-.
        destruct (same_keys _ _ _ _ K X) as (y & Y). destruct (F _ _ _ X Y) as [GY|(Z & _)]; [|congruence]. exists y. split; [exact Y|]. apply (parameters_named [lit "paths"; k; m] ListOf x y).
        * eapply (reach_app _ [lit "paths"; k; m]); [exact RO|]. econstructor; [intros []|exact Y|constructor].
        * exact GY.
        * exact LX.
        * refine (shaped_child _ _ _ _ _ _ _ _ SO Y _). reflexivity.
  Qed.
End Ready.
