(** Lemmas for creating applications: operations and circular schemas come from the document. *)
From Coq Require Import Lia Relations.
From Verif Require Import PyBase PyFacts PyInt PyJson M_JsonPtr S_JsonPtr M_Url P_Op M_SpecVal M_Parse M_SpecTree M_Merge M_MergeRef S_Parse S_SpecTree S_Merge S_MergeRef S_Typed S_Validate P_SpecBase P_Parse P_SpecTree P_Compare P_Merge P_MergeShape P_MergeRef M_App S_App P_App P_Deep M_OldParse S_OldParse P_OldParse T_OldParse S_OldValidate P_OldValidate M_Upgrade S_Upgrade P_UpgradeObj P_Upgrade P_UpgradeDoc P_UpgradeFold P_UpgradeEnd M_Scope S_Scope M_Patch S_Patch P_Patch P_PatchOp M_Prepare P_Grown P_Grown2 S_Prepare P_Prepare5 P_Prepare6 P_Prepare7 S_Convert P_Convert P_Convert4 P_Convert5 P_Prepare4 P_Prepare7 P_Compose2 S_Cycles P_Cycles P_Compose S_Create P_Create P_Create2 P_Create3 P_Create4.
From Verif Require T_Patch.
Close Scope Q_scope.

Section Back.
  Context (abs_uri win_uri : str -> str) (sep u nu : str) (b : bool) (doc mid root : val).
  Hypothesis AC : acceptable abs_uri win_uri sep u doc.
  Hypothesis SD : shaped (Of CSwagger) doc.
  Hypothesis SM : shaped (Of CSwagger) mid.
  Hypothesis GR : grown (fun _ => True) doc mid.
  Hypothesis PT : patch_app nu b mid = Ok root.
  Lemma op_back k m pi' op' : path_item root k pi' -> operation pi' m op' -> (forall pi, path_item doc k pi -> field_of pi (lit "$ref") = Some VNone) ->
    exists pi op, path_item doc k pi /\ operation pi m op.
  Proof.
    intros PI' OP' NR.
    pose proof (path_item_reach _ _ _ PI') as RPI. pose proof (operation_reach _ _ _ _ _ PI' OP') as ROP. destruct PI' as (ps' & FP' & GK' & CP').
    destruct (shaped_swagger _ SD) as (h & fs & ints & ED & CD). pose proof GR as G. rewrite ED in G. apply grown_obj in G as (g & es & jnts & EM & CM & _ & K & _ & F & _).
    destruct (swagger_field doc (lit "paths") SD eq_refl) as (x & X). rewrite ED in X. cbn [field_of] in X. destruct (same_keys _ _ _ _ K X) as (y & Y). destruct (F _ _ _ X Y) as [GY|(Q & _)]; [|congruence].
    assert (RM : reach [] mid [lit "paths"] y) by (rewrite EM; econstructor; [intros []|exact Y|constructor]).
    destruct (T_Patch.c39_rest nu b mid root SM PT _ _ RM) as (z & RZ & OZ).
    { right. intros us n' h' fs' ints' E RU CU IN. destruct us as [|? [|? ?]]; try discriminate E. rewrite EM in RU. apply reach_none in RU. injection RU as -> _ _. congruence. }
    destruct root as [| | | | | | |hr fr ir]; try discriminate FP'. cbn [field_of] in FP'. apply reach_one in RZ. rewrite FP' in RZ. injection RZ as <-.
    assert (exists ps1, y = VDict ps1 /\ map fst ps1 = map fst ps') as (ps1 & -> & K1) by (inversion OZ as [v NO NL ND| | |]; subst; [now elim (ND ps')|eauto]).
    destruct (same_keys _ _ _ _ (eq_sym K1) GK') as (pi1 & G1).
    assert (RM1 : reach [] mid [lit "paths"; k] pi1) by (rewrite EM; econstructor; [intros []|exact Y|]; econstructor; [exact G1|constructor]).
    assert (exists ps0, x = VDict ps0 /\ map fst ps0 = map fst ps1 /\ forall k x y, sget k ps0 = Some x -> sget k ps1 = Some y -> exists P, grown P x y) as (ps0 & -> & K0 & F0).
    { inversion GY as [v NC| |d e KK FF|]; subst; [contradiction NC|]. exists d. split; [reflexivity|]. split; [exact KK|]. intros k0 x0 y0 A B. eauto. }
    destruct (same_keys _ _ _ _ (eq_sym K0) G1) as (pi0 & G0). destruct (F0 _ _ _ G0 G1) as (P & GP).
    assert (C0 : of_class CPathItem pi0).
    { rewrite ED in SD. rewrite <- CD in SD. destruct (shaped_field _ _ _ _ _ SD X) as [(Q & _)|(ct & cc & T & SI)]; [rewrite CD in Q; discriminate Q|]. rewrite CD in T. injection T as <- <-.
      inversion SI as [| | |? ? ND FA]; subst. rewrite Forall_forall in FA. exact (shaped_obj _ _ (FA _ (sget_In _ _ _ G0))). }
    assert (PI : path_item doc k pi0) by (exists ps0; rewrite ED; auto). specialize (NR _ PI). exists pi0. destruct C0 as (h0 & f0 & i0 & -> & C0).
    apply grown_obj in GP as (g1 & es1 & j1 & -> & CG & _ & KK & _ & FF & _).
    destruct OP' as (FO & (ho & fo & io & -> & CO)).
    assert (OS : exists pi2, reach [] (VObj hr fr ir) [lit "paths"; k] pi2 /\ outside_same (VObj g1 es1 j1) pi2) by (apply (T_Patch.c39_rest nu b mid _ SM PT _ _ RM1); left; exact Logic.I).
    destruct OS as (pi2 & R2 & O2). rewrite (reach_fun _ _ _ R2 _ RPI) in *. apply outside_obj in O2 as (g2 & es2 & j2 & -> & C2 & _ & KS). cbn [field_of] in FO.
    destruct (same_keys _ _ _ _ (eq_sym KS) FO) as (op1 & F1).
    assert (RO : reach [] mid [lit "paths"; k; m] op1). { eapply (P_OldValidate.reach_app [] mid [lit "paths"; k] _ [m] _ RM1). econstructor; [intros []|exact F1|constructor]. }
    destruct (T_Patch.c39_rest nu b mid _ SM PT _ _ RO) as (op2 & RO2 & OO2).
    { right. intros us n' h' fs' ints' E RU CU IN. destruct us as [|? [|? [|? us]]]; try discriminate E; [injection E as <- <- <-|injection E as _ _ _ E; destruct us; discriminate E]. pose proof (reach_fun _ _ _ RM1 _ RU) as E1. injection E1 as E1 _ _. congruence. }
    rewrite (reach_fun _ _ _ ROP _ RO2) in OO2. apply outside_to_obj in OO2 as (h1 & f1 & i1 & -> & C1).
    destruct (same_keys _ _ _ _ (eq_sym KK) F1) as (op0 & F00). destruct (FF _ _ _ F00 F1) as [GO|(_ & NN & _)]; [|cbn [field_of] in NR; congruence].
    apply grown_to_obj in GO as (h2 & f2 & i2 & -> & C3). exists (VObj h2 f2 i2). split; [exact PI|]. split; [exact F00|]. exists h2, f2, i2. split; [reflexivity|congruence].
  Qed.
  Lemma root_op k m op' : operation_in root k m op' -> exists op, operation_in doc k m op /\ forall n, ~ In n op_fields -> sget n (t_child COperation) = None -> field_of op' n = field_of op n.
  Proof.
    intros (pi' & PI' & OP'). destruct (op_back _ _ _ _ PI' OP') as (pi & op & PI & OP). { intros pi PI. exact (ac_items _ _ _ _ _ AC _ _ PI). }
    exists op. split; [exists pi; auto|]. destruct (grown_path_item _ _ _ _ _ PI GR SD) as (pi1 & PI1 & G1). destruct (grown_operation _ _ _ _ _ OP G1) as (op1 & OP1 & G2).
    destruct (T_Patch.c39_others nu b mid root SM PT k m pi1 op1 pi' op' PI1 OP1 PI' OP') as (A & _). intros n N T. rewrite (A n N).
    assert (SO : exists h fs ints, op = VObj h fs ints /\ h_cls h = COperation /\ shaped (Of COperation) op).
    { pose proof (operation_reach _ _ _ _ _ PI OP) as R. destruct OP as (FM & (h & fs & ints & -> & C)). exists h, fs, ints. split; [reflexivity|]. split; [exact C|].
      assert (TY : typed_value doc) by (left; exists One, (Of CSwagger); now constructor).
      destruct (typed_reach _ _ _ R TY) as [TP|(_ & NO)]; [|apply no_object_here in NO; elim NO; exact Logic.I]. apply tame_obj in TP. now rewrite C in TP. }
    destruct SO as (h & fs & ints & -> & C & S). rewrite <- C in S. eapply (grown_field _ h fs ints op1 n S); [congruence|exact G2|now rewrite C].
  Qed.
  Lemma kept_tags : ~ In (lit "tags") op_fields /\ ~ In (lit "operationId") op_fields.
  Proof. split; intro IN; apply mem_In in IN; vm_compute in IN; discriminate IN. Qed.
  Lemma root_tags k m op : operation_in root k m op -> has op "tags" (fun v => empty_value v \/ exists t l, v = VList (VStr t :: l)) /\ has op "operationId" text_or_empty.
  Proof.
    intro OI. destruct (root_op _ _ _ OI) as (op0 & O0 & K). destruct (ac_tags _ _ _ _ _ AC _ _ _ O0) as (T & I). destruct kept_tags as (N1 & N2). split.
    - destruct T as (x & X & P). exists x. split; [|exact P]. rewrite (K _ N1 eq_refl). exact X.
    - destruct I as (x & X & P). exists x. split; [|exact P]. rewrite (K _ N2 eq_refl). exact X.
  Qed.
  Lemma known_same op op0 key : (forall n, ~ In n op_fields -> sget n (t_child COperation) = None -> field_of op n = field_of op0 n) -> known_as sep op key -> known_as sep op0 key.
  Proof.
    intros K KA. destruct kept_tags as (N1 & N2). pose proof (K _ N1 eq_refl) as KT. pose proof (K _ N2 eq_refl) as KI.
    inversion KA as [t ts id T TN I IN'|c r id T I IN'|v id T W I IN']; subst; rewrite KT in T; rewrite KI in I; [eapply ka_tag|eapply ka_text|eapply ka_plain]; eauto.
  Qed.
  Lemma root_names k m op k' m' op' key : operation_in root k m op -> operation_in root k' m' op' -> known_as sep op key -> known_as sep op' key -> k = k' /\ m = m'.
  Proof.
    intros A B KA KB. destruct (root_op _ _ _ A) as (op0 & O0 & K0). destruct (root_op _ _ _ B) as (op1 & O1 & K1).
    exact (ac_names _ _ _ _ _ AC _ _ _ _ _ _ _ O0 O1 (known_same _ _ _ K0 KA) (known_same _ _ _ K1 KB)).
  Qed.
End Back.
