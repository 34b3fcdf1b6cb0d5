(** Lemmas for creating applications: circular schemas come from the document. *)
From Coq Require Import Lia Relations.
From Verif Require Import PyBase PyFacts PyInt PyJson M_JsonPtr S_JsonPtr M_Url P_Op M_SpecVal M_Parse M_SpecTree M_Merge M_MergeRef S_Parse S_SpecTree S_Merge S_MergeRef P_SpecBase P_Parse P_SpecTree P_Merge P_MergeShape P_MergeRef M_Scope M_Patch S_Patch P_Patch P_PatchOp M_App S_App P_App P_Deep M_OldParse M_Upgrade M_Prepare P_Grown S_Prepare P_Prepare3 P_Prepare5 P_Prepare6 P_Compose2 T_App S_Cycles P_Cycles S_Create P_Create P_Create3 P_Create4.
From Verif Require M_Graph T_Graph T_Patch.
Close Scope Q_scope.

Section Parts.
  Context (a : papp).
  Lemma field_patched h fs ints par path s n x : shaped (Of CSchema) (VObj h fs ints) -> patch a par path (VObj h fs ints) = Ok s -> field_of s n = Some x ->
    exists x0 par' path', sget n fs = Some x0 /\ patch a par' path' x0 = Ok x.
  Proof.
    intros S P F. destruct (shaped_parts _ _ _ _ S) as (C & _). rewrite <- C in S. destruct (class_complete _ _ _ S) as (KF & KI). rewrite patch_obj_eq in P. apply bind_ok in P as (fs1 & M & P). apply patch_dict_ok in M. pose proof (drel_keys _ _ _ M) as K1.
    apply P_Patch.visit_ok in P as (g & fs2 & ints2 & base & url & -> & _ & K2 & _ & VF & _); [|congruence|exact KI]. cbn [field_of] in F.
    destruct (same_keys _ _ _ _ K2 F) as (y & Y). destruct (VF _ _ Y) as (x' & X' & V). assert (x' = x) as -> by congruence. rewrite C in V. change (x = y) in V. subst y.
    destruct (drel_get_r _ _ _ _ _ M Y) as (x0 & X0 & PX). eauto.
  Qed.
  Lemma calm_of n x0 h fs ints : shaped (Of CSchema) (VObj h fs ints) -> sget n fs = Some x0 -> calm x0.
  Proof. intros S X. destruct (shaped_parts _ _ _ _ S) as (C & _). rewrite <- C in S. apply (fields_calm h fs ints n x0); auto. left. rewrite C. reflexivity. Qed.
  Lemma patched_from_obj par path x0 x : calm x0 -> patch a par path x0 = Ok x -> is_obj x -> is_obj x0.
  Proof.
    intros K P O. destruct x0; cbn [is_obj]; auto; try (cbn in P; injection P as <-; exact O).
    - rewrite patch_list_eq in P. apply bind_ok in P as (m & _ & P). injection P as <-. exact O.
    - rewrite patch_dict_eq in P. apply bind_ok in P as (m & _ & P). injection P as <-. exact O.
  Qed.
  Lemma patched_from_dict par path x0 d : calm x0 -> patch a par path x0 = Ok (VDict d) -> exists d0, x0 = VDict d0 /\ drel (fun k x y => patch a par (sub k path) x = Ok y) d0 d.
  Proof.
    intros K P. destruct x0 as [| | | | |l|e|h fs ints]; try discriminate P.
    - rewrite patch_list_eq in P. apply bind_ok in P as (m & _ & P). discriminate P.
    - rewrite patch_dict_eq in P. apply bind_ok in P as (m & M & P). injection P as ->. apply patch_dict_ok in M. eauto.
    - apply obj_patched in P; [destruct P|exact K].
  Qed.
  Lemma patched_from_list par path x0 m : calm x0 -> patch a par path x0 = Ok (VList m) -> exists l0, x0 = VList l0 /\ forall y, In y m -> exists x path', In x l0 /\ patch a par path' x = Ok y.
  Proof.
    intros K P. destruct x0 as [| | | | |l|e|h fs ints]; try discriminate P.
    - rewrite patch_list_eq in P. apply bind_ok in P as (m' & M & P). injection P as ->. apply patch_list_ok in M as (L & M). exists l. split; [reflexivity|]. intros y IY. apply In_nth_error in IY as (i & IY).
      destruct (same_length _ _ _ _ (eq_sym L) IY) as (x & X). destruct (M _ _ X) as (y' & Y' & PY). assert (y' = y) as -> by congruence. exists x. eexists. split; [eapply nth_error_In; eauto|exact PY].
    - rewrite patch_dict_eq in P. apply bind_ok in P as (? & _ & P). discriminate P.
    - apply obj_patched in P; [destruct P|exact K].
  Qed.
  Lemma child_shaped h fs ints n ct cc x0 : shaped (Of CSchema) (VObj h fs ints) -> sget n (t_child CSchema) = Some (ct, cc) -> sget n fs = Some x0 -> shaped_in ct cc x0.
  Proof.
    intros H T X. destruct (shaped_parts _ _ _ _ H) as (C & _). rewrite <- C in H, T. destruct (shaped_field _ _ _ _ _ H X) as [(T' & _)|(? & ? & T' & SI)]; congruence.
  Qed.
  Lemma part_back s y : part_of s y -> forall s0 par path, shaped (Of CSchema) s0 -> patch a par path s0 = Ok s -> exists y0 par' path', part_of s0 y0 /\ shaped (Of CSchema) y0 /\ patch a par' path' y0 = Ok y.
  Proof.
    induction 1 as [s|s d k x y F IK PO IH|s l x y F IX PO IH|s x y F O PO IH|s x y F O PO IH]; intros s0 par path SH P.
    - exists s0, par, path. split; [constructor|auto].
    - destruct (shaped_obj _ _ SH) as (h & fs & ints & -> & C). destruct (field_patched _ _ _ _ _ _ _ _ SH P F) as (x0 & p' & q & X0 & PX). destruct (patched_from_dict _ _ _ _ (calm_of _ _ _ _ _ SH X0) PX) as (d0 & -> & DR).
      pose proof (child_shaped _ _ _ (lit "properties") DictOf (Of CSchema) _ SH eq_refl X0) as SI. inversion SI as [| | |? ? ND FA]; subst. assert (ND' : NoDup (map fst d)) by (rewrite (drel_keys _ _ _ DR) in ND; exact ND).
      destruct (drel_get_r _ _ _ _ _ DR (In_sget _ _ _ ND' IK)) as (z & Z & PZ). rewrite Forall_forall in FA. pose proof (FA _ (sget_In _ _ _ Z)) as SZ. cbn [snd] in SZ.
      destruct (IH z _ _ SZ PZ) as (y0 & r & t & PY & SY & Q). exists y0, r, t. split; [|auto]. eapply part_property; [exact X0|exact (sget_In _ _ _ Z)|exact PY].
    - destruct (shaped_obj _ _ SH) as (h & fs & ints & -> & C). destruct (field_patched _ _ _ _ _ _ _ _ SH P F) as (x0 & p' & q & X0 & PX). destruct (patched_from_list _ _ _ _ (calm_of _ _ _ _ _ SH X0) PX) as (l0 & -> & LR).
      pose proof (child_shaped _ _ _ (lit "allOf") ListOf (Of CSchema) _ SH eq_refl X0) as SI. inversion SI as [| |? ? FA|]; subst. destruct (LR _ IX) as (z & q' & Z & PZ). rewrite Forall_forall in FA.
      destruct (IH z _ _ (FA _ Z) PZ) as (y0 & r & t & PY & SY & Q). exists y0, r, t. split; [|auto]. eapply part_member; [exact X0|exact Z|exact PY].
    - destruct (shaped_obj _ _ SH) as (h & fs & ints & -> & C). destruct (field_patched _ _ _ _ _ _ _ _ SH P F) as (x0 & p' & q & X0 & PX). pose proof (patched_from_obj _ _ _ _ (calm_of _ _ _ _ _ SH X0) PX O) as O0.
      pose proof (child_shaped _ _ _ (lit "additionalProperties") One AddP _ SH eq_refl X0) as SI.
      assert (SX : shaped (Of CSchema) x0). { inversion SI as [|? ? SA| |]; subst; [destruct O0|]. inversion SA; subst; [destruct O0|assumption]. }
      destruct (IH x0 _ _ SX PX) as (y0 & r & t & PY & SY & Q). exists y0, r, t. split; [|auto]. eapply part_additional; [exact X0|exact O0|exact PY].
    - destruct (shaped_obj _ _ SH) as (h & fs & ints & -> & C). destruct (field_patched _ _ _ _ _ _ _ _ SH P F) as (x0 & p' & q & X0 & PX). pose proof (patched_from_obj _ _ _ _ (calm_of _ _ _ _ _ SH X0) PX O) as O0.
      pose proof (child_shaped _ _ _ (lit "items") One (Of CSchema) _ SH eq_refl X0) as SI.
      assert (SX : shaped (Of CSchema) x0). { inversion SI as [|? ? SA| |]; subst; [destruct O0|assumption]. }
      destruct (IH x0 _ _ SX PX) as (y0 & r & t & PY & SY & Q). exists y0, r, t. split; [|auto]. eapply part_items; [exact X0|exact O0|exact PY].
  Qed.
  Lemma mentions_back s0 par path s r : shaped (Of CSchema) s0 -> patch a par path s0 = Ok s -> mentions s r -> mentions s0 r.
  Proof.
    intros SH P (y & PY & F & NE). destruct (part_back _ _ PY _ _ _ SH P) as (y0 & p' & q & P0 & S0 & PP). exists y0. split; [exact P0|]. split; [|exact NE]. destruct (shaped_obj _ _ S0) as (h & fs & ints & -> & C).
    destruct (field_patched _ _ _ _ _ _ _ _ S0 PP F) as (x0 & p2 & q2 & X0 & PX). cbn [field_of]. rewrite <- C in S0. destruct (shaped_field _ _ _ _ _ S0 X0) as [(_ & W & NO)|(ct & cc & T & _)]; [|rewrite C in T; discriminate T]. rewrite patch_plain in PX by assumption. congruence.
  Qed.
End Parts.
Lemma part_fields h g fs ints jnts y : part_of (VObj h fs ints) y -> y = VObj h fs ints \/ part_of (VObj g fs jnts) y.
Proof.
  intro P. inversion P as [|? d k x ? F IK PO|? l x ? F IX PO|? x ? F O PO|? x ? F O PO]; subst; [now left|right..]; [eapply part_property|eapply part_member|eapply part_additional|eapply part_items]; eauto.
Qed.
Lemma mentions_fields h g fs ints jnts r : mentions (VObj h fs ints) r -> mentions (VObj g fs jnts) r.
Proof.
  intros (y & P & F & NE). destruct (part_fields h g fs ints jnts y P) as [-> |P']; [|exists y; auto]. exists (VObj g fs jnts). split; [constructor|auto].
Qed.

Section Circular.
  Context (abs_uri win_uri : str -> str) (sep u nu : str) (b : bool) (doc mid root : val).
  Hypothesis AC : acceptable abs_uri win_uri sep u doc.
  Hypothesis SD : shaped (Of CSwagger) doc.
  Hypothesis D : deep doc.
  Hypothesis SM : shaped (Of CSwagger) mid.
  Hypothesis GR : grown (fun _ => True) doc mid.
  Hypothesis PT : patch_app nu b mid = Ok root.
  Lemma points_doc q ts0 s0 : (exists ts s, schema_at root ts s /\ mentions s q) -> points abs_uri win_uri u root q ts0 s0 -> exists x, points abs_uri win_uri u doc q ts0 x /\ forall r, mentions s0 r -> mentions x r.
  Proof.
    intros (ts & s & (R & C) & M) (NE & J & (R0 & C0)). pose proof PT as PT'. unfold patch_app in PT'. apply bind_ok in PT' as (sc & SC & E).
    assert (SR : shaped (Of CSwagger) root) by exact (patch_app_shaped _ _ _ _ SM PT).
    destruct (mentioned root SR ts s q (conj R C) M) as (us & y & (RY & CY) & F & _).
    destruct (root_has abs_uri win_uri sep u doc mid root (PApp mid nu sc b) AC SD D SM GR eq_refl E us y (lit "$ref") _ RY CY F eq_refl) as (o & OI & FO).
    destruct (ac_refs _ _ _ _ _ AC CSchema o ltac:(cbn; auto) OI) as [(z & Z & EZ)|(q' & x & (_ & RF) & (ts' & J' & RX) & (h & fs & ints & -> & CX))].
    { rewrite FO in Z. injection Z as <-. inversion EZ; subst. now elim NE. }
    assert (q' = q) as -> by congruence. assert (ts' = ts0) as ->. { apply (pointer_inj (lit "#")); [discriminate|congruence]. }
    exists (VObj h fs ints). split; [split; [exact NE|split; [exact J|split; [exact RX|exists h, fs, ints; auto]]]|].
    destruct (grown_reach _ _ _ _ _ RX I GR) as (o1 & R1 & G1). apply grown_obj in G1 as (g1 & es1 & j1 & -> & C1 & _ & _ & _ & _ & FI & _). rewrite FI in R1 by (rewrite CX; right; right; left; reflexivity).
    assert (TY : typed_value mid) by (left; exists One, (Of CSwagger); now constructor).
    destruct (patch_at _ _ _ _ R1 None (lit "#") root ltac:(discriminate) TY E (or_introl I)) as (x' & RX' & _ & PX). destruct (PX I) as (par & x1 & P1 & T1). assert (x' = s0) as -> by (pose proof (reach_fun _ _ _ R0 _ RX'); congruence).
    assert (SX : shaped (Of CSchema) (VObj g1 fs j1)). { destruct (typed_reach _ _ _ R1 TY) as [TP|(_ & NO)]; [|apply no_object_here in NO; elim NO; exact I]. apply tame_obj in TP. rewrite <- C1, CX in TP. exact TP. }
    assert (x1 = s0) as ->.
    { destruct T1 as [T1|(_ & [T1|(h' & fs' & ints' & ba & ur & k & n & -> & CO & PM)])]; [exact T1|exact T1|]. exfalso.
      assert (TP : tame (VObj g1 fs j1)) by (destruct (typed_reach _ _ _ R1 TY) as [TP|(_ & NO)]; [exact TP|apply no_object_here in NO; elim NO; exact I]).
      pose proof (patch_outside _ _ _ _ _ TP P1) as OS. inversion OS; subst; [match goal with H : ~ is_obj _ |- _ => now elim H end|]. congruence. }
    intros r M0. apply (mentions_fields g1 h fs j1 ints). exact (mentions_back _ _ _ _ _ _ SX P1 M0).
  Qed.
  Lemma linked_doc l : (forall q, In q l -> exists ts s, schema_at root ts s /\ mentions s q) -> linked abs_uri win_uri u root l -> linked abs_uri win_uri u doc l.
  Proof.
    induction l as [|x l IH]; intros M L; [exact I|]. destruct l as [|y l]; [exact I|]. cbn [linked] in L |- *. destruct L as ((ts & s & P & MS) & L). split.
    - destruct (points_doc x ts s (M x (or_introl eq_refl)) P) as (x0 & P0 & M0). exists ts, x0. auto.
    - apply IH; [|exact L]. intros q IQ. apply M. now right.
  Qed.
  Lemma linked_mentioned l : forall x, linked abs_uri win_uri u root (x :: l) -> forall q, In q l -> exists ts s, schema_at root ts s /\ mentions s q.
  Proof.
    induction l as [|y l IH]; intros x L q IQ; [destruct IQ|]. cbn [linked] in L. destruct L as ((ts & s & (_ & _ & P) & MS) & L). destruct IQ as [<-|IQ]; [eauto|]. exact (IH y L q IQ).
  Qed.
  Lemma circular_doc x c : linked abs_uri win_uri u root (x :: c ++ [x]) -> exists ts, circular abs_uri win_uri u doc ts.
  Proof.
    intro L. pose proof (linked_mentioned _ _ L) as M.
    assert (MX : forall q, In q (x :: c ++ [x]) -> exists ts s, schema_at root ts s /\ mentions s q). { intros q [<-|IQ]; apply M; [apply in_or_app; right; now left|exact IQ]. }
    assert (PX : exists ts s, points abs_uri win_uri u root x ts s). { destruct c as [|y c]; cbn [List.app linked] in L; destruct L as ((ts & s & P & _) & _); eauto. }
    destruct PX as (ts & s & P). destruct (points_doc x ts s (MX x (or_introl eq_refl)) P) as (x0 & P0 & _). exists ts. exact (linked_places abs_uri win_uri u doc c x x (linked_doc _ MX L) ts x0 ts x0 P0 P0).
  Qed.
End Circular.
