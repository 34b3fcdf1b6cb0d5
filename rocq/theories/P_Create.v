(** Lemmas for creating applications: following references succeeds. *)
From Coq Require Import Lia.
From Verif Require Import PyBase PyFacts PyInt PyJson M_JsonPtr S_JsonPtr M_Url P_Op M_SpecVal M_Parse M_SpecTree M_Merge M_MergeRef S_Parse S_SpecTree S_Merge S_MergeRef P_SpecBase P_Parse P_SpecTree P_Compare P_Merge P_MergeShape P_MergeRef P_Patch M_App S_App P_App P_Deep M_Scope M_Patch M_Validate M_OldValidate M_OldParse M_Upgrade M_Prepare P_Grown P_Grown2 S_Prepare T_MergeRef T_App P_Prepare P_Prepare2 S_Patch S_Create.
From Verif Require P_OldValidate T_SpecTree.
Close Scope Q_scope.

(** ** Merging what is set in both *)
Lemma merge_obj_Ok' h fs ints k es jnts : shaped (Of (h_cls h)) (VObj h fs ints) -> shaped (Of (h_cls h)) (VObj k es jnts) ->
  (forall n df sv ov ct cc, sget n (t_fields (h_cls h)) = Some df -> sget n fs = Some sv -> sget n es = Some ov -> sget n (t_child (h_cls h)) = Some (ct, cc) -> is_default sv df = true -> is_default ov df = true) ->
  fits [] (t_fields (h_cls h)) (h_cls h) fs es -> fits [] (t_internal (h_cls h)) (h_cls h) ints jnts ->
  exists r, merge_obj clone [] (VObj h fs ints) (VObj k es jnts) = Ok r.
Proof.
  intros SS SO CH FF FI. inversion SS as [| |? ? ? KS IS PS CHS]; subst. inversion SO as [| |? ? ? KO IO PO CHO]; subst. cbn [merge_obj].
  match goal with H : h_cls k = h_cls h |- _ => rename H into C end. rewrite C, cls_eqb_refl in *.
  destruct (merge_names_Ok clone [] (h_cls h) (h_place h) fs es (t_fields (h_cls h))) as (f & F).
  { intros n df I. apply In_fields in I. cbn [fst snd] in I.
    assert (exists sv, sget n fs = Some sv) as (sv & S) by (apply (sget_fields_all (t_fields (h_cls h))); eauto).
    assert (exists ov, sget n es = Some ov) as (ov & O) by (apply (sget_fields_all (t_fields (h_cls h))); eauto).
    assert (exists x, merge1 clone [] (h_cls h) (h_place h) n df sv ov = Ok x) as (x & X); [|exists sv, ov, x; auto].
    destruct (sget n (t_child (h_cls h))) as [[ct cc]|] eqn:TC.
    - unfold merge1. change (mem n []) with false. cbv iota. destruct (is_default ov df) eqn:DO; [eauto|]. rewrite TC. destruct (is_default sv df) eqn:DS; [|eauto]. rewrite (CH _ _ _ _ _ _ I S O TC DS) in DO. discriminate DO.
    - apply merge1_Ok; [eapply fields_default; eauto|intros; congruence|exact (FF n df sv ov I S O)]. }
  destruct (merge_names_Ok clone [] (h_cls h) (h_place h) ints jnts (t_internal (h_cls h))) as (i & I).
  { intros n df I. apply In_sget in I; [|apply internal_nodup].
    assert (exists sv, sget n ints = Some sv) as (sv & S) by (apply (sget_fields_all (t_internal (h_cls h))); eauto).
    assert (exists ov, sget n jnts = Some ov) as (ov & O) by (apply (sget_fields_all (t_internal (h_cls h))); eauto).
    pose proof (internal_no_child _ _ _ I) as T.
    destruct (merge1_Ok [] (h_cls h) (h_place h) n df sv ov) as (x & X); [eapply internal_default; eauto|intros; congruence|exact (FI n df sv ov I S O)|]. exists sv, ov, x. auto. }
  rewrite F, I. cbn [bind].
  assert (X : exists fs', assign_fields (h_place h) (t_child (h_cls h)) (fst f) = Ok fs').
  { apply merge_names_ok in F as (KF & GF & _); [|apply fields_nodup].
    assert (AF : forall n v, In (n, v) (fst f) -> exists v', match sget n (t_child (h_cls h)) with Some (ct, c) => assign_field (h_place h) ct c v | None => Ok v end = Ok v').
    { intros n v IN. destruct (sget n (t_child (h_cls h))) as [[ct cc]|] eqn:TC; [|eauto].
      assert (G : sget n (fst f) = Some v) by (apply In_sget; [rewrite KF; apply fields_nodup|exact IN]).
      assert (T : exists df, sget n (t_fields (h_cls h)) = Some df) by (apply sget_Some_key; rewrite <- KF; apply sget_Some_key; eauto). destruct T as (df & T).
      destruct (GF n df T) as (sv & ov & x & S & O & M & G' & _). rewrite G in G'. injection G' as ->.
      assert (SY : shaped_in ct cc (outcome sv x)).
      { unfold merge1 in M. change (mem n []) with false in M. cbv iota in M. destruct (is_default ov df); [injection M as <-; eapply CHS; eauto|]. rewrite TC in M.
        destruct (is_default sv df); [|injection M as <-; eapply CHS; eauto]. apply bind_ok in M as (w & M & X). injection X as <-. cbn [outcome]. eapply clone_child_shaped; [|exact M]. eapply CHO; eauto. }
      rewrite (shaped_assign _ _ _ _ SY). eauto. }
    clear - AF. induction (fst f) as [|[n v] l IH]; cbn [assign_fields]; [eauto|]. destruct (AF n v (or_introl eq_refl)) as (v' & ->). cbn [bind].
    destruct IH as (l' & ->); [intros; apply AF; now right|]. cbn [bind]. eauto. }
  destruct X as (fs' & ->). cbn [bind]. eauto.
Qed.
Lemma formats_alike h g fs ints jnts : simple_formats (VObj h fs ints) -> simple_formats (VObj g fs jnts).
Proof.
  intros S ts k es knts x R G. inversion R as [|? ? ? n z us ? _ GZ RZ| |]; subst.
  - exact (S [] h es ints x (reach_here _ _) G).
  - eapply (S (n :: us)); [econstructor; [intros []|exact GZ|exact RZ]|exact G].
Qed.
Definition no_item_refs (doc : val) : Prop := forall ts pi, reach [] doc ts pi -> of_class CPathItem pi -> field_of pi (lit "$ref") = Some VNone.
Lemma grown_back v ts o : reach [] v ts o -> forall P doc, grown P doc v -> no_item_refs doc -> exists o0, reach [] doc ts o0 /\ grown (fun us => P (ts ++ us)) o0 o.
Proof.
  induction 1 as [v|k es jnts n v ts o _ G R IH|l i v ts o G R IH|d k v ts o G R IH]; intros P doc GR NR.
  - exists doc. split; [constructor|exact GR].
  - inversion GR as [? NC| | |h0 ? fs0 ? ints0 ? C PL K _ F]; subst; [destruct NC|]. destruct (same_keys _ _ _ _ (eq_sym K) G) as (x & GX). destruct (F _ _ _ GX G) as [GY|(CP & X & _)].
    + destruct (IH _ _ GY) as (o0 & R' & E); [intros us pi RP; apply NR with (n :: us); econstructor; [intros []|exact GX|exact RP]|].
      exists o0. split; [econstructor; [intros []|exact GX|exact R']|exact E].
    + elim X. apply (NR [] _ (reach_here _ _)). exists h0, fs0, ints0. auto.
  - inversion GR as [? NC|l0 ? L F| |]; subst; [destruct NC|]. destruct (same_length _ _ _ _ (eq_sym L) G) as (x & GX). destruct (IH _ _ (F _ _ _ GX G)) as (o0 & R' & E).
    + intros us pi RP. apply NR with (str_of_nat i :: us). econstructor; eauto.
    + exists o0. split; [econstructor; eauto|exact E].
  - inversion GR as [? NC| |d0 ? K F|]; subst; [destruct NC|]. destruct (same_keys _ _ _ _ (eq_sym K) G) as (x & GX). destruct (IH _ _ (F _ _ _ GX G)) as (o0 & R' & E).
    + intros us pi RP. apply NR with (k :: us). econstructor; eauto.
    + exists o0. split; [econstructor; eauto|exact E].
Qed.
Lemma formats_grown P doc v : grown P doc v -> no_item_refs doc -> simple_formats doc -> simple_formats v.
Proof.
  intros G NR S ts h fs ints x R GX. destruct (grown_back _ _ _ R _ _ G NR) as (o0 & R0 & G0).
  inversion G0 as [? NC| | |h0 ? fs0 ? ints0 ? C PL K _ F]; subst; [destruct NC|]. destruct (same_keys _ _ _ _ (eq_sym K) GX) as (x0 & X0).
  specialize (S _ _ _ _ _ R0 X0). destruct (F _ _ _ X0 GX) as [GY|(CP & X & _)].
  - destruct x0 as [| | | | | | |h1 fs1 ints1]; try (apply grown_scalar in GY; [subst; exact S|exact I]).
    + elim S. left. eauto.
    + elim S. right. eauto.
    + apply grown_obj in GY as (? & ? & ? & -> & _). intros [(? & X)|(? & X)]; discriminate X.
  - elim X. apply (NR _ _ R0). exists h0, fs0, ints0. auto.
Qed.
Lemma formats_reach v ts o : reach [] v ts o -> simple_formats v -> simple_formats o.
Proof. intros R S us h fs ints x RO G. eapply S; [eapply P_OldValidate.reach_app; [exact R|exact RO]|exact G]. Qed.

(** ** Ways exist *)
Section Ways.
  Context (abs_uri win_uri : str -> str) (u : str) (doc : val) (c : cls).
  Hypothesis W : wfv doc.
  Hypothesis O : is_obj doc.
  Hypothesis refs : forall o, object_in doc c o -> no_reference o \/ exists s x, refers o s /\ points abs_uri win_uri u doc s x /\ of_class c x.
  Lemma place_dec (p q : place) : {p = q} + {p <> q}. Proof. apply list_eq_dec, str_eq_dec. Qed.
  Lemma fewer (L seen : list place) p : In p L -> ~ In p seen -> length (filter (fun q => if in_dec place_dec q (p :: seen) then false else true) L) < length (filter (fun q => if in_dec place_dec q seen then false else true) L).
  Proof.
    intros I N. assert (LE : forall M, length (filter (fun q => if in_dec place_dec q (p :: seen) then false else true) M) <= length (filter (fun q => if in_dec place_dec q seen then false else true) M)).
    { induction M as [|q M IH]; cbn [filter]; [lia|]. destruct (in_dec place_dec q (p :: seen)) as [X|X], (in_dec place_dec q seen) as [Y|Y]; cbn [length]; try lia. elim X. now right. }
    induction L as [|q L IH]; [destruct I|]. cbn [filter]. destruct I as [->|I].
    - destruct (in_dec place_dec p (p :: seen)) as [X|X]; [|elim X; now left]. destruct (in_dec place_dec p seen) as [Y|Y]; [contradiction|]. cbn [length]. specialize (LE L). lia.
    - specialize (IH I). destruct (in_dec place_dec q (p :: seen)) as [X|X], (in_dec place_dec q seen) as [Y|Y]; cbn [length]; try lia. elim X. now right.
  Qed.
  Lemma way_from : forall seen o, object_in doc c o -> exists l, way abs_uri win_uri u doc c seen o l /\ Forall (object_in doc c) l.
  Proof.
    destruct (T_SpecTree.c35_visits doc [] W O) as (objs & T & IN).
    set (L := flat_map (fun po => place_in (snd po)) objs).
    assert (PL : forall ts h fs ints, reach [] doc ts (VObj h fs ints) -> In (h_place h) L).
    { intros ts h fs ints R. apply in_flat_map. exists (rfc_pointer (lit "#") ts, VObj h fs ints). split; [|now left]. apply IN. exists ts. split; [reflexivity|]. split; [exact R|exact Logic.I]. }
    assert (X : forall k seen o, length (filter (fun q => if in_dec place_dec q seen then false else true) L) < k -> object_in doc c o -> exists l, way abs_uri win_uri u doc c seen o l /\ Forall (object_in doc c) l).
    { induction k as [|k IH]; intros seen o LT OI; [lia|]. destruct (refs o OI) as [NO|(s & x & RF & PT & CX)].
      - exists [o]. split; [now apply way_end|auto].
      - destruct CX as (h & fs & ints & -> & CX). pose proof PT as (ts & _ & RX). destruct (in_dec place_dec (h_place h) seen) as [I|NI].
        + exists [o]. split; [eapply way_again; eauto|auto].
        + destruct (IH (h_place h :: seen) (VObj h fs ints)) as (l & WL & FL).
          * pose proof (fewer L seen (h_place h) (PL _ _ _ _ RX) NI). lia.
          * exists ts. split; [exact RX|]. exists h, fs, ints. auto.
          * exists (o :: l). split; [eapply way_next; eauto|auto]. }
    intros seen o OI. eapply X; [apply Nat.lt_succ_diag_r|exact OI].
  Qed.
End Ways.
