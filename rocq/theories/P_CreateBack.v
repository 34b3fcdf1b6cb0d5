(** Lemmas for creating applications: circular schemas of the document stay. *)
From Coq Require Import Lia Relations.
From Verif Require Import PyBase PyFacts PyInt PyJson M_JsonPtr S_JsonPtr M_Url P_Op M_SpecVal M_Parse M_SpecTree M_Merge M_MergeRef S_Parse S_SpecTree S_Merge S_MergeRef P_SpecBase P_Parse P_SpecTree P_Merge P_MergeShape P_MergeRef M_Scope M_Patch S_Patch P_Patch P_PatchOp M_App S_App P_App P_Deep M_OldParse M_Upgrade M_Prepare P_Grown S_Prepare P_Prepare3 P_Prepare5 P_Prepare6 P_Compose2 T_App S_Cycles P_Cycles S_Create P_Create P_Create3 P_Create4 P_Create8.
From Verif Require M_Graph T_Graph T_Patch.
Close Scope Q_scope.

Section Parts.
  Context (a : papp).
  Lemma field_kept h fs ints par path s n x0 : shaped (Of CSchema) (VObj h fs ints) -> patch a par path (VObj h fs ints) = Ok s -> sget n fs = Some x0 ->
    exists x par' path', field_of s n = Some x /\ patch a par' path' x0 = Ok x.
  Proof.
    intros S P F. destruct (shaped_parts _ _ _ _ S) as (C & _). rewrite <- C in S. destruct (class_complete _ _ _ S) as (KF & KI). rewrite patch_obj_eq in P. apply bind_ok in P as (fs1 & M & P). apply patch_dict_ok in M. pose proof (drel_keys _ _ _ M) as K1.
    apply P_Patch.visit_ok in P as (g & fs2 & ints2 & base & url & -> & _ & K2 & _ & VF & _); [|congruence|exact KI]. cbn [field_of].
    destruct (drel_get_l _ _ _ _ _ M F) as (y & Y & PY). destruct (VF _ _ Y) as (x' & X' & V). rewrite C in V. change (x' = y) in V. subst y. eauto.
  Qed.
  Lemma part_forth s0 y0 : part_of s0 y0 -> forall s par path, shaped (Of CSchema) s0 -> patch a par path s0 = Ok s -> exists y par' path', part_of s y /\ shaped (Of CSchema) y0 /\ patch a par' path' y0 = Ok y.
  Proof.
    induction 1 as [s0|s0 d k x y F IK PO IH|s0 l x y F IX PO IH|s0 x y F O PO IH|s0 x y F O PO IH]; intros s par path SH P.
    - exists s, par, path. split; [constructor|auto].
    - destruct (shaped_obj _ _ SH) as (h & fs & ints & -> & C). cbn [field_of] in F. destruct (field_kept _ _ _ _ _ _ _ _ SH P F) as (x1 & p' & q & X1 & PX).
      rewrite patch_dict_eq in PX. apply bind_ok in PX as (m & M & PX). injection PX as <-. apply patch_dict_ok in M.
      pose proof (child_shaped _ _ _ (lit "properties") DictOf (Of CSchema) _ SH eq_refl F) as SI. inversion SI as [| | |? ? ND FA]; subst.
      destruct (drel_get_l _ _ _ _ _ M (In_sget _ _ _ ND IK)) as (z & Z & PZ). rewrite Forall_forall in FA. pose proof (FA _ IK) as SZ. cbn [snd] in SZ.
      destruct (IH z _ _ SZ PZ) as (y1 & r & t & PY & SY & Q). exists y1, r, t. split; [|auto]. eapply part_property; [exact X1|exact (sget_In _ _ _ Z)|exact PY].
    - destruct (shaped_obj _ _ SH) as (h & fs & ints & -> & C). cbn [field_of] in F. destruct (field_kept _ _ _ _ _ _ _ _ SH P F) as (x1 & p' & q & X1 & PX).
      rewrite patch_list_eq in PX. apply bind_ok in PX as (m & M & PX). injection PX as <-. apply patch_list_ok in M as (_ & M).
      pose proof (child_shaped _ _ _ (lit "allOf") ListOf (Of CSchema) _ SH eq_refl F) as SI. inversion SI as [| |? ? FA|]; subst. pose proof IX as IX'. apply In_nth_error in IX' as (i & NX). destruct (M _ _ NX) as (z & Z & PZ). rewrite Forall_forall in FA.
      destruct (IH z _ _ (FA _ IX) PZ) as (y1 & r & t & PY & SY & Q). exists y1, r, t. split; [|auto]. eapply part_member; [exact X1|eapply nth_error_In; exact Z|exact PY].
    - destruct (shaped_obj _ _ SH) as (h & fs & ints & -> & C). cbn [field_of] in F. destruct (field_kept _ _ _ _ _ _ _ _ SH P F) as (x1 & p' & q & X1 & PX).
      assert (O1 : is_obj x1). { destruct x; try contradiction. apply obj_patched in PX; [exact PX|exact (calm_of _ _ _ _ _ SH F)]. }
      pose proof (child_shaped _ _ _ (lit "additionalProperties") One AddP _ SH eq_refl F) as SI.
      assert (SX : shaped (Of CSchema) x). { inversion SI as [|? ? SA| |]; subst; [destruct O|]. inversion SA; subst; [destruct O|assumption]. }
      destruct (IH x1 _ _ SX PX) as (y1 & r & t & PY & SY & Q). exists y1, r, t. split; [|auto]. eapply part_additional; [exact X1|exact O1|exact PY].
    - destruct (shaped_obj _ _ SH) as (h & fs & ints & -> & C). cbn [field_of] in F. destruct (field_kept _ _ _ _ _ _ _ _ SH P F) as (x1 & p' & q & X1 & PX).
      assert (O1 : is_obj x1). { destruct x; try contradiction. apply obj_patched in PX; [exact PX|exact (calm_of _ _ _ _ _ SH F)]. }
      pose proof (child_shaped _ _ _ (lit "items") One (Of CSchema) _ SH eq_refl F) as SI.
      assert (SX : shaped (Of CSchema) x). { inversion SI as [|? ? SA| |]; subst; [destruct O|assumption]. }
      destruct (IH x1 _ _ SX PX) as (y1 & r & t & PY & SY & Q). exists y1, r, t. split; [|auto]. eapply part_items; [exact X1|exact O1|exact PY].
  Qed.
  Lemma mentions_forth s0 par path s r : shaped (Of CSchema) s0 -> patch a par path s0 = Ok s -> mentions s0 r -> mentions s r.
  Proof.
    intros SH P (y & PY & F & NE). destruct (part_forth _ _ PY _ _ _ SH P) as (y1 & p' & q & P1 & S0 & PP). exists y1. split; [exact P1|]. split; [|exact NE]. destruct (shaped_obj _ _ S0) as (h & fs & ints & -> & C).
    cbn [field_of] in F. destruct (field_kept _ _ _ _ _ _ _ _ S0 PP F) as (x1 & p2 & q2 & X1 & PX). rewrite <- C in S0. destruct (shaped_field _ _ _ _ _ S0 F) as [(_ & W & NO)|(ct & cc & T & _)]; [|rewrite C in T; discriminate T]. rewrite patch_plain in PX by assumption. congruence.
  Qed.
End Parts.

Section Circular.
  Context (abs_uri win_uri : str -> str) (u nu : str) (b : bool) (doc mid root : val).
  Hypothesis SM : shaped (Of CSwagger) mid.
  Hypothesis GR : grown (fun _ => True) doc mid.
  Hypothesis PT : patch_app nu b mid = Ok root.
  Lemma schema_kept ts s : schema_at doc ts s -> exists s', schema_at root ts s' /\ forall r, mentions s r -> mentions s' r.
  Proof.
    intros (R & (h & fs & ints & -> & C)). pose proof PT as PT'. unfold patch_app in PT'. apply bind_ok in PT' as (sc & _ & E).
    destruct (grown_reach _ _ _ _ _ R I GR) as (o1 & R1 & G1). apply grown_obj in G1 as (g1 & es1 & j1 & -> & C1 & _ & _ & _ & _ & FI & _). rewrite FI in R1 by (rewrite C; right; right; left; reflexivity).
    assert (TY : typed_value mid) by (left; exists One, (Of CSwagger); now constructor).
    destruct (patch_at _ _ _ _ R1 None (lit "#") root ltac:(discriminate) TY E (or_introl I)) as (x' & RX' & _ & PX). destruct (PX I) as (par & x1 & P1 & T1).
    assert (TP : tame (VObj g1 fs j1)) by (destruct (typed_reach _ _ _ R1 TY) as [TP|(_ & NO)]; [exact TP|apply no_object_here in NO; elim NO; exact I]).
    pose proof (patch_outside _ _ _ _ _ TP P1) as OS.
    assert (x1 = x') as ->.
    { destruct T1 as [T1|(_ & [T1|(h' & fs' & ints' & ba & ur & k & n & -> & CO & PM)])]; [exact T1|exact T1|]. exfalso.
      inversion OS; subst; [match goal with H : ~ is_obj _ |- _ => now elim H end|]. congruence. }
    assert (SX : shaped (Of CSchema) (VObj g1 fs j1)). { apply tame_obj in TP. rewrite <- C1, C in TP. exact TP. }
    exists x'. split.
    - split; [exact RX'|]. inversion OS as [v NO| | |? g ? es ? jnts C2 P2 _ K2 _]; subst; [elim NO; exact I|]. exists g, es, jnts. split; [reflexivity|congruence].
    - intros r M0. apply (mentions_forth _ _ _ _ _ _ SX P1). exact (mentions_fields h g1 fs ints j1 r M0).
  Qed.
  Lemma circular_kept ts : circular abs_uri win_uri u doc ts -> circular abs_uri win_uri u root ts.
  Proof.
    intro CI. unfold circular in *. assert (X : forall t t', clos_trans _ (refers abs_uri win_uri u doc) t t' -> clos_trans _ (refers abs_uri win_uri u root) t t').
    { induction 1 as [t t' (s & r & s' & S1 & M & (NE & J & S2))|t t1 t2 _ IH1 _ IH2]; [|eapply t_trans; eauto]. apply t_step.
      destruct (schema_kept _ _ S1) as (s1 & S1' & M1). destruct (schema_kept _ _ S2) as (s2 & S2' & _). exists s1, r, s2. split; [exact S1'|]. split; [auto|]. split; [exact NE|]. split; [exact J|exact S2']. }
    auto.
  Qed.
End Circular.
