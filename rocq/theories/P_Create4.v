(** Lemmas for creating applications: the schemas of the completed document. *)
From Coq Require Import Lia.
From Verif Require Import PyBase PyFacts PyInt PyJson M_JsonPtr S_JsonPtr M_Url P_Op M_SpecVal M_Parse M_SpecTree M_Merge M_MergeRef S_Parse S_SpecTree S_Merge S_MergeRef P_SpecBase P_Parse P_SpecTree P_Compare P_Merge P_MergeShape P_MergeRef M_Scope M_Patch S_Patch P_Patch P_PatchOp M_App S_App P_App P_Deep M_OldParse M_Upgrade M_Prepare P_Grown S_Prepare P_Prepare3 P_Prepare5 P_Prepare6 P_Compose2 S_Create P_Create P_Create2 P_Create3.
From Verif Require T_Patch S_Cycles S_Aggt.
Close Scope Q_scope.

Definition same_sort (x y : val) : Prop :=
  match x, y with
  | VList _, VList _ | VDict _, VDict _ | VObj _ _ _, VObj _ _ _ => True
  | _, _ => x = y
  end.
Lemma sort_list x y : same_sort x y -> S_Aggt.list_or_none x -> S_Aggt.list_or_none y.
Proof. intros SS [(l & ->)| ->]; destruct y; try discriminate SS; [left; eauto|now right]. Qed.
Lemma sort_dict x y : same_sort x y -> S_Aggt.dict_or_none x -> S_Aggt.dict_or_none y.
Proof. intros SS [(l & ->)| ->]; destruct y; try discriminate SS; [left; eauto|now right]. Qed.
Lemma sort_plain x y : same_sort x y -> ~ container x -> ~ container y.
Proof. intros SS N C. destruct C as [(l & ->)|(d & ->)]; destruct x; try discriminate SS; apply N; [left|right]; eauto. Qed.

Section Schemas.
  Context (abs_uri win_uri : str -> str) (sep u : str) (doc mid root : val) (a : papp).
  Hypothesis AC : acceptable abs_uri win_uri sep u doc.
  Hypothesis SH : shaped (Of CSwagger) doc.
  Hypothesis D : deep doc.
  Hypothesis SM : shaped (Of CSwagger) mid.
  Hypothesis GR : grown (fun _ => True) doc mid.
  Hypothesis RA : p_root a = mid.
  Hypothesis E : patch a None (lit "#") mid = Ok root.
  Lemma schema_patched h fs ints path s : shaped (Of CSchema) (VObj h fs ints) -> patch a None path (VObj h fs ints) = Ok s ->
    (forall n y, field_of s n = Some y -> exists x, sget n fs = Some x /\ same_sort x y /\ (sget n (t_child CSchema) = None -> x = y)) /\
    (forall x, internal_of s (lit "name") = Some x -> sget (lit "name") ints = Some x \/ ~ container x).
  Proof.
    intros S P. pose proof S as S0. destruct (shaped_parts _ _ _ _ S0) as (C & _). rewrite <- C in S. destruct (class_complete _ _ _ S) as (KF & KI). rewrite patch_obj_eq in P. apply bind_ok in P as (fs1 & M & P). apply patch_dict_ok in M. pose proof (drel_keys _ _ _ M) as K1.
    apply P_Patch.visit_ok in P as (g & fs2 & ints2 & base & url & -> & _ & K2 & _ & VF & K3 & VI); [|congruence|exact KI]. split.
    - intros n y Y. cbn [field_of] in Y. destruct (same_keys _ _ _ _ K2 Y) as (y' & Y'). destruct (VF _ _ Y') as (x' & X' & V). assert (x' = y) as -> by congruence.
      rewrite C in V. change (y = y') in V. subst y'. destruct (drel_get_r _ _ _ _ _ M Y') as (x & X & PX). exists x. split; [exact X|].
      assert (Q : quiet (h_cls h) = true) by (rewrite C; reflexivity). pose proof (fields_calm h fs ints n x (or_introl Q) S X) as CX. split.
      + destruct x as [| | | | |l|d|k es jnts].
        1-5: cbn in PX; injection PX as <-; reflexivity.
        * rewrite patch_list_eq in PX. apply bind_ok in PX as (m & _ & PX). injection PX as <-. exact I.
        * rewrite patch_dict_eq in PX. apply bind_ok in PX as (m & _ & PX). injection PX as <-. exact I.
        * apply obj_patched in PX; [|exact CX]. destruct y; try contradiction. exact I.
      + intro T. destruct (shaped_field _ _ _ _ _ S X) as [(_ & W & NO)|(ct & cc & T' & _)]; [|rewrite C in T'; congruence]. rewrite patch_plain in PX by assumption. now injection PX.
    - intros x X. rewrite C in VI. destruct VI as (_ & VI). cbn [internal_of] in X. destruct (startswith path "#/definitions"%string).
      + destruct VI as (z & Z & SN). assert (z = x) as -> by congruence. right. unfold schema_name in SN. destruct (p_old a).
        * destruct SN as (l & _ & ->). destruct (last l None); intros [(? & Q)|(? & Q)]; discriminate Q.
        * rewrite SN. intros [(? & Q)|(? & Q)]; discriminate Q.
      + left. congruence.
  Qed.
  Lemma root_schema us s : reach [] root us s -> of_class CSchema s -> exists ts h fs ints, reach [] doc ts (VObj h fs ints) /\ h_cls h = CSchema /\
    (forall n y, field_of s n = Some y -> exists x, sget n fs = Some x /\ same_sort x y /\ (sget n (t_child CSchema) = None -> x = y)) /\
    (forall x, internal_of s (lit "name") = Some x -> ~ container x).
  Proof.
    intros R CS. destruct (all_from a mid root SM RA E us s R CS) as (ts & F). destruct (from_schema a mid root SM RA E ts s F CS) as (h & fs & ints & R1 & C & _ & P).
    assert (S1 : shaped (Of CSchema) (VObj h fs ints)).
    { assert (T : typed_value mid) by (left; exists One, (Of CSwagger); now constructor). destruct (typed_reach _ _ _ R1 T) as [TP|(_ & N)]; [|apply no_object_here in N; elim N; exact I]. apply tame_obj in TP. rewrite <- C. exact TP. }
    destruct (grown_back _ _ _ R1 _ _ GR (item_refs _ _ _ _ _ AC SH)) as (o0 & R0 & G0). inversion G0 as [? NC| | |h0 ? fs0 ? ints0 ? CC PL _ _ _ FI]; subst; [destruct NC|].
    assert (C0 : h_cls h0 = CSchema) by congruence. 
    assert (IN : inner (h_cls h0)) by (rewrite C0; right; right; left; reflexivity). rewrite (FI IN) in *.
    destruct (schema_patched _ _ _ _ _ S1 P) as (PF & PN). exists ts, h0, fs0, ints0. split; [exact R0|]. split; [exact C0|]. split; [exact PF|].
    intros x X. destruct (PN x X) as [NX|NX]; [|exact NX]. apply (deep_reach _ _ _ R0), deep_obj in D as (_ & NC & _). apply (NC (lit "name")). rewrite <- NX. symmetry.
    match goal with H : forall n, n <> lit "final" -> _ |- _ => apply H end. discriminate.
  Qed.
  Lemma root_has us s n x : reach [] root us s -> of_class CSchema s -> field_of s n = Some x -> sget n (t_child CSchema) = None -> exists o, object_in doc CSchema o /\ field_of o n = Some x.
  Proof.
    intros R CS F T. destruct (root_schema _ _ R CS) as (ts & h & fs & ints & R0 & C & PF & _). destruct (PF _ _ F) as (y & Y & _ & X). rewrite (X T) in Y.
    exists (VObj h fs ints). split; [|exact Y]. exists ts. split; [exact R0|]. exists h, fs, ints. auto.
  Qed.
  Lemma root_props us s : reach [] root us s -> of_class CSchema s -> (exists x, field_of s (lit "properties") = Some x) -> exists d, field_of s (lit "properties") = Some (VDict d).
  Proof.
    intros R CS (y & Y). destruct (root_schema _ _ R CS) as (ts & h & fs & ints & R0 & C & PF & _). destruct (PF _ _ Y) as (x & X & SS & _).
    destruct (ac_schemas _ _ _ _ _ AC (VObj h fs ints)) as ((x' & X' & d & ->) & _). { exists ts. split; [exact R0|]. exists h, fs, ints. auto. }
    cbn [field_of] in X'. assert (x = VDict d) as -> by congruence. destruct y; try discriminate SS. eauto.
  Qed.
  Lemma root_required us s y : reach [] root us s -> of_class CSchema s -> field_of s (lit "required") = Some y -> S_Aggt.list_or_none y.
  Proof.
    intros R CS F. destruct (root_has _ _ _ _ R CS F) as (o & OI & FO); [reflexivity|]. destruct (ac_schemas _ _ _ _ _ AC o OI) as (_ & (x & X & l & ->)). left. exists (map VStr l). congruence.
  Qed.
  Lemma root_values n : let all (P : val -> Prop) := forall us s y, reach [] root us s -> of_class CSchema s -> field_of s n = Some y -> P y in
    all S_Aggt.list_or_none \/ all S_Aggt.dict_or_none \/ all (fun v => ~ container v).
  Proof.
    intro all. destruct (ac_values _ _ _ _ _ AC n) as (P & IP & A).
    assert (X : forall us s y, reach [] root us s -> of_class CSchema s -> field_of s n = Some y -> exists x, same_sort x y /\ P x).
    { intros us s y R CS F. destruct (root_schema _ _ R CS) as (ts & h & fs & ints & R0 & C & PF & _). destruct (PF _ _ F) as (x & X & SS & _). exists x. split; [exact SS|]. apply (A (VObj h fs ints)); [|exact X]. exists ts. split; [exact R0|]. exists h, fs, ints. auto. }
    destruct IP as [<-|[<-|[<-|[]]]]; [left|right; left|right; right]; intros us s y R CS F; destruct (X _ _ _ R CS F) as (x & SS & PX); [eapply sort_list|eapply sort_dict|eapply sort_plain]; eauto.
  Qed.
  Lemma root_name us s x : reach [] root us s -> of_class CSchema s -> internal_of s (lit "name") = Some x -> ~ container x.
  Proof. intros R CS F. destruct (root_schema _ _ R CS) as (ts & h & fs & ints & _ & _ & _ & N). exact (N _ F). Qed.
  Lemma root_reaches ts h fs ints nu b : patch_app nu b mid = Ok root -> reach [] doc ts (VObj h fs ints) -> exists g es jnts, reach [] root ts (VObj g es jnts) /\ h_cls g = h_cls h.
  Proof.
    intros PT R. destruct (grown_reach _ _ _ _ _ R Logic.I GR) as (o1 & R1 & G1). apply grown_obj in G1 as (g1 & es1 & j1 & -> & C1 & _).
    destruct (T_Patch.c39_rest nu b mid root SM PT _ _ R1 (or_introl Logic.I)) as (x' & R' & OS). inversion OS as [v NO| | |? g ? es ? jnts C2 P2 _ K2 _]; subst; [elim NO; exact Logic.I|].
    exists g, es, jnts. split; [exact R'|congruence].
  Qed.
  Lemma root_contained nu b : patch_app nu b mid = Ok root -> S_Cycles.self_contained abs_uri win_uri u root.
  Proof.
    intros PT ts s r (R & CS) F NE. destruct (root_has _ _ _ _ R CS F eq_refl) as (o & OI & FO).
    destruct (ac_refs _ _ _ _ _ AC CSchema o ltac:(cbn; auto) OI) as [(y & Y & EY)|(q & x & (_ & RF) & (us & J & RX) & (h & fs & ints & -> & C))].
    { rewrite FO in Y. injection Y as <-. inversion EY; subst. now elim NE. }
    assert (q = r) as -> by congruence. destruct (root_reaches _ _ _ _ _ _ PT RX) as (g & es & jnts & R' & CG). exists us, (VObj g es jnts). split; [exact NE|]. split; [exact J|]. split; [exact R'|]. exists g, es, jnts. split; [reflexivity|congruence].
  Qed.
  Lemma root_ref us s x : reach [] root us s -> of_class CSchema s -> field_of s (lit "$ref") = Some x -> empty_value x \/ exists r, x = VStr r.
  Proof.
    intros R CS F. destruct (root_has _ _ _ _ R CS F eq_refl) as (o & OI & FO).
    destruct (ac_refs _ _ _ _ _ AC CSchema o ltac:(cbn; auto) OI) as [(y & Y & EY)|(q & _ & (_ & RF) & _)]; [left; congruence|right; exists q; congruence].
  Qed.
End Schemas.
