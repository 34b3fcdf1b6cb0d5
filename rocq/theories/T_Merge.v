(** C37: merging objects. *)
From Coq Require Import Lia.
From Verif Require Import PyBase PyFacts PyJson M_SpecVal M_Parse M_SpecTree M_Merge S_Parse S_SpecTree S_Merge P_SpecBase P_Parse P_SpecTree P_Compare P_Merge P_MergeShape T_Parse.
Close Scope Q_scope.

(** Only objects of one class are merged; the result is the object itself, each of its
    fields, internal ones too, being what [merged] says. *)
Theorem c37_merged : forall h fs ints k es jnts ex r, wfv (VObj h fs ints) -> (forall n d, sget n ints = Some (VDict d) -> NoDup (map fst d)) ->
  merge (VObj h fs ints) (VObj k es jnts) ex = Ok r ->
  h_cls h = h_cls k /\ exists fs' ints' ks, r = VObj (Head (h_cls h) (h_place h) (h_parent h) ks) fs' ints' /\
    map fst fs' = map fst (t_fields (h_cls h)) /\ map fst ints' = map fst (t_internal (h_cls h)) /\
    (forall n df, sget n (t_fields (h_cls h)) = Some df -> exists sv ov rv, sget n fs = Some sv /\ sget n es = Some ov /\ sget n fs' = Some rv /\
       merged ex (h_cls h) (h_place h) n df sv ov rv) /\
    (forall n df, sget n (t_internal (h_cls h)) = Some df -> exists sv ov rv, sget n ints = Some sv /\ sget n jnts = Some ov /\ sget n ints' = Some rv /\
       merged ex (h_cls h) (h_place h) n df sv ov rv).
Proof.
  intros h fs ints k es jnts ex r W NI E. apply merge_obj_merged in E as (C & fs' & ints' & ks & -> & KF & KI & MF & MI & _); auto.
  - split; [exact C|]. exists fs', ints', (h_keys h ++ ks). auto.
  - apply clones_well_all.
  - inversion W as [| | | | | | |? ? ? _ F]; subst. intros n d G. apply sget_In in G. rewrite Forall_forall in F. apply F in G. cbn in G. now inversion G.
Qed.
(** Afterwards those keys are set that were set or have been assigned to. *)
Theorem c37_is_set : forall h fs ints k es jnts ex h' fs' ints' n,
  wfv (VObj h fs ints) -> (forall n d, sget n ints = Some (VDict d) -> NoDup (map fst d)) ->
  merge (VObj h fs ints) (VObj k es jnts) ex = Ok (VObj h' fs' ints') ->
  is_set h' n = true <-> is_set h n = true \/ exists df sv ov,
    (sget n (t_fields (h_cls h)) = Some df /\ sget n fs = Some sv /\ sget n es = Some ov \/
     sget n (t_internal (h_cls h)) = Some df /\ sget n ints = Some sv /\ sget n jnts = Some ov) /\ updated ex (h_cls h) n df sv ov.
Proof.
  intros h fs ints k es jnts ex h' fs' ints' n W NI E. apply merge_obj_merged in E as (C & fs2 & ints2 & ks & E & _ & _ & _ & _ & U); auto.
  - injection E as -> <- <-. unfold is_set. cbn [h_keys]. rewrite !mem_In, in_app_iff, U. reflexivity.
  - apply clones_well_all.
  - inversion W as [| | | | | | |? ? ? _ F]; subst. intros n' d G. apply sget_In in G. rewrite Forall_forall in F. apply F in G. cbn in G. now inversion G.
Qed.
(** The parts of the claim, for each field. *)
Section Field.
  Context (ex : list str) (c : cls) (pl : place) (n : str) (df : json) (sv ov rv : val) (M : merged ex c pl n df sv ov rv).
  (** What is not the default is kept, when it is an object (or container of objects), or
      when it is not a container merged with a container. *)
  Theorem c37_mine : ~ equals_default sv df -> (sget n (t_child c) = None -> ~ container ov) ->
    reparent sv rv /\ (sget n (t_child c) = None -> rv = sv).
  Proof.
    intros D C. destruct M; auto; try contradiction; try (split; [apply rp_refl|reflexivity]).
    - exfalso. apply C; auto. left. eauto.
    - exfalso. apply C; auto. right. eauto.
    - split; [assumption|congruence].
  Qed.
  (** Else the other value is taken, *)
  Theorem c37_theirs : equals_default sv df -> ~ In n ex -> sget n (t_child c) = None -> ~ container ov -> ~ equals_default ov df -> rv = ov.
  Proof. intros D I T C O. destruct M; auto; try contradiction; try congruence; exfalso; apply C; [left|right]; eauto. Qed.
  (** but a copy in the case of objects. *)
  Theorem c37_copy : equals_default sv df -> ~ In n ex -> ~ equals_default ov df ->
    forall ct cc, sget n (t_child c) = Some (ct, cc) -> exists w, copied_in ct cc (pl ++ [n]) ov w /\ reparent w rv.
  Proof. intros D I O ct cc T. destruct M; try contradiction; try congruence. match goal with H : sget n (t_child c) = Some _ |- _ => rewrite T in H; injection H as <- <- end. eauto. Qed.
  (** Of two dicts all keys are there, with one's own values where both have the key. *)
  Theorem c37_dicts : forall d e, sv = VDict d -> ov = VDict e -> ~ equals_default ov df -> ~ In n ex -> sget n (t_child c) = None ->
    exists r, rv = VDict r /\ forall k, sget k r = match sget k d with Some x => Some x | None => sget k e end.
  Proof.
    intros d e S O N I T. destruct M as [? ? ? ? ? ? ? ? X| ? ? ? ? ? ? ? ? D| | | |? ? ? ? ? ? d' e' r D _ _ SD H| |]; try contradiction; try congruence.
    - exfalso. subst. match goal with H : ~ container _ |- _ => apply H end. right. eauto.
    - exfalso. subst. match goal with H : ~ container _ |- _ => apply H end. right. eauto.
    - injection O as ->. exists r. split; [reflexivity|]. intro k. rewrite H. subst sv. destruct SD as [E|[E ->]]; [now injection E as <-|]. inversion E; subst. reflexivity.
  Qed.
  (** Two lists are united. *)
  Theorem c37_lists : forall l m, sv = VList l -> ov = VList m -> ~ equals_default ov df -> ~ In n ex -> sget n (t_child c) = None ->
    exists r, rv = VList r /\ united l m r.
  Proof.
    intros l m S O N I T. destruct M as [? ? ? ? ? ? ? ? X| ? ? ? ? ? ? ? ? D| | |? ? ? ? ? ? l' m' r D _ _ SD H| | |]; try contradiction; try congruence.
    - exfalso. subst. match goal with H : ~ container _ |- _ => apply H end. left. eauto.
    - exfalso. subst. match goal with H : ~ container _ |- _ => apply H end. left. eauto.
    - injection O as ->. exists r. split; [reflexivity|]. subst sv. destruct SD as [E|[E ->]]; [now injection E as <-|]. inversion E; subst. exact H.
  Qed.
  (** Nothing happens to an excluded field, *)
  Theorem c37_excluded : In n ex -> reparent sv rv /\ (sget n (t_child c) = None -> rv = sv).
  Proof. intro I. destruct M; auto; contradiction. Qed.
  (** nor where the other object has the default. *)
  Theorem c37_nothing : equals_default ov df -> reparent sv rv /\ (sget n (t_child c) = None -> rv = sv).
  Proof. intro D. destruct M; auto; contradiction. Qed.
End Field.
(** Merging works whenever no list or dict meets another kind of value, a result of
    merging can be merged in turn, *)
Theorem c37_possible : forall h fs ints k es jnts ex, shaped (Of (h_cls h)) (VObj h fs ints) -> shaped (Of (h_cls h)) (VObj k es jnts) ->
  fits ex (t_fields (h_cls h)) (h_cls h) fs es -> fits ex (t_internal (h_cls h)) (h_cls h) ints jnts -> simple_formats (VObj k es jnts) ->
  exists r, merge (VObj h fs ints) (VObj k es jnts) ex = Ok r /\ shaped (Of (h_cls h)) r.
Proof.
  intros h fs ints k es jnts ex SS SO FF FI SF. destruct (merge_obj_Ok ex h fs ints k es jnts) as (r & R); auto.
  - intros n ov ct cc O T. apply clone_child_Ok; [exact (shaped_child _ _ _ _ _ _ _ _ SO O T)|eapply formats_field; eauto].
  - exists r. split; [exact R|]. eapply merge_shaped; [exact SS|exact SO|exact R].
Qed.
(** and every object in it knows its parent. *)
Theorem c37_parents : forall c self other ex r, shaped (Of c) self -> shaped (Of c) other -> well_parented self ->
  merge self other ex = Ok r -> well_parented r.
Proof. intros. eapply merge_well_parented; [| | |eassumption]; eassumption. Qed.
(** Objects parsed from documents qualify. *)
Theorem c37_parsed : forall c pl j v, wf j -> parse (Of c) pl j = Ok v -> shaped (Of c) v /\ well_parented v.
Proof.
  intros c pl j v W E. split; [eapply (parse_shaped (S (jdepth j))); eauto|]. intros ts o o' R H.
  assert (IO : is_obj o) by (destruct H as (_ & h & fs & ints & n & x & us & -> & _); exact I).
  destruct (parse_good (S (jdepth j)) _ _ _ _ (Nat.lt_succ_diag_r _) E _ _ R IO) as (_ & G). auto.
Qed.
(** Copying an enum of the values 1 and true drops one of them, as they are equal in Python. *)
Theorem c37_enum_refuted : exists a b l r m, parse (Of CSchema) [] JNull = Ok a /\ parse (Of CSchema) [] (JObj [(lit "enum", JList [JInt 1; JBool true])]) = Ok b /\
  merge a b [] = Ok r /\ field_of b (lit "enum") = Some (VList l) /\ field_of r (lit "enum") = Some (VList m) /\ length l = 2 /\ length m = 1.
Proof.
  eexists. eexists. eexists. eexists. eexists. split; [vm_compute; reflexivity|]. split; [vm_compute; reflexivity|]. split; [vm_compute; reflexivity|].
  split; [vm_compute; reflexivity|]. split; [vm_compute; reflexivity|]. split; reflexivity.
Qed.
Print Assumptions c37_merged.
Print Assumptions c37_is_set.
Print Assumptions c37_mine.
Print Assumptions c37_theirs.
Print Assumptions c37_copy.
Print Assumptions c37_dicts.
Print Assumptions c37_lists.
Print Assumptions c37_excluded.
Print Assumptions c37_nothing.
Print Assumptions c37_possible.
Print Assumptions c37_parents.
Print Assumptions c37_parsed.
Print Assumptions c37_enum_refuted.

(** ** Examples *)
Definition dog : json := JObj
  [(lit "title", s "dog"); (lit "type", s "object"); (lit "required", JList [s "name"; s "id"]);
   (lit "properties", JObj [(lit "name", JObj [(lit "type", s "string")])])].
(** A title, the properties and a list are there already; the additional properties are copied. *)
Example c37_ex : exists a b r, parse (Of CSchema) [lit "a"] dog = Ok a /\ parse (Of CSchema) [lit "b"] pet = Ok b /\ merge a b [] = Ok r /\
  field_of r (lit "title") = Some (VStr (lit "dog")) /\ field_of r (lit "required") = Some (VList [VStr (lit "name"); VStr (lit "id")]) /\
  field_of r (lit "properties") = field_of a (lit "properties") /\
  exists o, field_of r (lit "additionalProperties") = Some o /\ place_of o = Some [lit "a"; lit "additionalProperties"] /\ parent_of o = Some [lit "a"] /\
    field_of o (lit "maxLength") = Some (VInt 3).
Proof.
  eexists. eexists. eexists. split; [vm_compute; reflexivity|]. split; [vm_compute; reflexivity|]. split; [vm_compute; reflexivity|].
  split; [vm_compute; reflexivity|]. split; [vm_compute; reflexivity|]. split; [vm_compute; reflexivity|]. eexists. repeat split; vm_compute; reflexivity.
Qed.
(** The hypotheses of [c37_possible] hold for these. *)
Example c37_ex_possible : forall h fs ints k es jnts, parse (Of CSchema) [lit "a"] dog = Ok (VObj h fs ints) -> parse (Of CSchema) [lit "b"] pet = Ok (VObj k es jnts) ->
  fits [] (t_fields CSchema) CSchema fs es /\ fits [] (t_internal CSchema) CSchema ints jnts /\ simple_formats (VObj k es jnts).
Proof.
  intros h fs ints k es jnts A B. vm_compute in A. injection A as <- <- <-. vm_compute in B. injection B as <- <- <-.
  split; [|split; [|apply formatsb_ok; vm_compute; reflexivity]]; intros n df sv ov T S O _ TC _; apply sget_In in T; vm_compute in T;
    repeat (destruct T as [T|T]; [injection T as <- <-; try (vm_compute in TC; discriminate TC); vm_compute in S; injection S as <-; vm_compute in O; injection O as <-; cbn; auto; right; eexists; reflexivity|]); destruct T.
Qed.
(** A list where the other object has a text is refused. *)
Example c37_ex_refused : exists a b, parse (Of CParameter) [] (JObj [(lit "default", s "x")]) = Ok a /\ parse (Of CParameter) [] (JObj [(lit "default", JList [s "y"])]) = Ok b /\
  merge a b [] = Err TypeError /\ exists r, merge a b [lit "default"] = Ok r.
Proof.
  eexists. eexists. split; [vm_compute; reflexivity|]. split; [vm_compute; reflexivity|]. split; [vm_compute; reflexivity|]. eexists. vm_compute. reflexivity.
Qed.
