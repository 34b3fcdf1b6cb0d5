(** C45: validating 2.0 documents. *)
From Coq Require Import Lia.
From Verif Require Import PyBase PyFacts PyJson S_JsonPtr M_SpecVal M_Parse M_SpecTree M_Merge M_Scan S_Parse S_SpecTree P_SpecBase P_SpecTree T_SpecTree P_Op S_Typed P_Typed M_Validate S_Validate P_Validate.
Close Scope Q_scope.

(** There is an entry for each violation, and none besides. *)
Theorem c45_reports : forall raw errs, wfv raw -> is_obj raw -> validate20 raw = Ok errs ->
  forall r, In r errs <-> exists ts name, violated raw ts name /\ r = entry_for ts name.
Proof.
  intros raw errs W O E r. rewrite validate_over in E by exact O. destruct (c35_visits raw [] W O) as (objs & T & V). rewrite T in E. cbn [bind] in E.
  apply over_ok in E as (rs & -> & F). cbn [app]. rewrite in_concat. split.
  - intros (x & IX & IR). destruct (Forall2_In_r _ _ _ _ F IX) as ([p o] & IO & Q). cbn [fst snd] in Q.
    destruct (schemab o) eqn:SO; [|subst x; destruct IR]. apply V in IO as (ts & -> & RE & _).
    pose proof (proj1 (for_schema_In _ _ _ _ Q) IR) as (h & fs & ints & req & l & v & EO & R & EL & IV & RP & ER). subst o r.
    exists ts, v. split; [|reflexivity]. exists fs, req, l. repeat split; auto. exists h, ints. split; [exact RE|]. now apply cls_eqb_eq.
  - intros (ts & v & (fs & req & l & (h & ints & RE & C) & R & EL & IV & RP) & ->).
    assert (IO : In (rfc_pointer (lit "#") ts, VObj h fs ints) objs) by (apply V; exists ts; repeat split; auto).
    destruct (Forall2_In_l _ _ _ _ F IO) as (x & IX & Q). cbn [fst snd] in Q. assert (SO : schemab (VObj h fs ints) = true) by (apply schemab_iff; eauto 6).
    rewrite SO in Q. exists x. split; [exact IX|]. apply (for_schema_In _ _ _ _ Q). exists h, fs, ints, req, l, v. repeat split; auto.
Qed.

(** The entries for a place are, in order, the read-only ones among the required names given
    there: one for each time a name is given. *)
Theorem c45_each : forall raw errs ts fs req l, wfv raw -> is_obj raw -> validate20 raw = Ok errs ->
  schema_at raw ts fs -> sget (lit "required") fs = Some req -> elements req l ->
  exists bs, Forall2 (fun v b => b = true <-> read_only_property fs v) l bs /\
    filter (fun r : report => str_eqb (fst (fst r)) (rfc_pointer (lit "#") ts)) errs = map (entry_for ts) (map fst (filter snd (combine l bs))).
Proof.
  intros raw errs ts fs req l W O E (h & ints & RE & C) R EL. rewrite validate_over in E by exact O.
  destruct (c35_visits raw [] W O) as (objs & T & V). pose proof (c35_once raw [] objs W O T) as ND. rewrite T in E. cbn [bind] in E.
  apply over_ok in E as (rs & -> & F). cbn [app].
  assert (IO : In (rfc_pointer (lit "#") ts, VObj h fs ints) objs) by (apply V; exists ts; repeat split; auto).
  assert (SO : schemab (VObj h fs ints) = true) by (apply schemab_iff; eauto 6).
  destruct (only_there _ _ _ _ F ND IO) as (x & -> & Q). cbn [fst snd] in Q. rewrite SO in Q.
  destruct Q as (h' & fs' & ints' & req' & props & l' & bs & EQ & R' & P & EL' & FB & ->). injection EQ as <- <- <-.
  rewrite R in R'. injection R' as <-. apply elements_iterate in EL, EL'. rewrite EL in EL'. injection EL' as <-.
  exists bs. split.
  - eapply Forall2_weaken; [|exact FB]. intros v b RO. exact (read_only_iff fs props v b P RO).
  - clear. revert bs. induction l as [|v l IH]; intros [|b bs]; try reflexivity. cbn [combine flat_map filter fst snd]. destruct b; cbn [app map reports]; unfold reports in *; cbn [map]; now rewrite IH.
Qed.
(** In strict mode a violation is an exception; otherwise the entries are returned. *)
Theorem c45_strict : forall errors strict,
  (forall errs, errors = Ok errs -> validate errors strict = if strict then match errs with [] => Ok [] | _ => Err ValidationError end else Ok errs) /\
  (forall e, errors = Err e -> validate errors strict = Err e).
Proof.
  intros errors strict. split; [intros errs ->|intros e ->; reflexivity]. unfold validate. cbn [bind]. destruct strict; [|reflexivity]. destruct errs; reflexivity.
Qed.
Theorem c45_valid : forall raw strict, wfv raw -> is_obj raw -> (forall ts name, ~ violated raw ts name) ->
  (exists errs, validate20 raw = Ok errs) -> validate (validate20 raw) strict = Ok [].
Proof.
  intros raw strict W O N (errs & E). rewrite E. assert (errs = []) as ->.
  { destruct errs as [|r errs]; [reflexivity|]. pose proof (proj1 (c45_reports _ _ W O E r) (or_introl eq_refl)) as (ts & n & V & _). now elim (N ts n). }
  unfold validate. cbn [bind]. now destruct strict.
Qed.
Theorem c45_invalid : forall raw ts name, wfv raw -> is_obj raw -> violated raw ts name -> (exists errs, validate20 raw = Ok errs) ->
  validate (validate20 raw) true = Err ValidationError /\ exists errs, validate (validate20 raw) false = Ok errs /\ In (entry_for ts name) errs.
Proof.
  intros raw ts name W O V (errs & E). assert (I : In (entry_for ts name) errs) by (apply (c45_reports _ _ W O E); eauto).
  rewrite E. split; [|exists errs; auto]. unfold validate. cbn [bind andb]. destruct errs; [destruct I|reflexivity].
Qed.
(** It fails exactly if the required names of some schema cannot be read. *)
Theorem c45_fails : forall raw, wfv raw -> is_obj raw -> proper_schemas raw ->
  (forall e, validate20 raw = Err e -> e = TypeError) /\
  ((exists e, validate20 raw = Err e) <-> exists ts fs, schema_at raw ts fs /\ unreadable fs).
Proof.
  intros raw W O PS. rewrite validate_over by exact O. destruct (c35_visits raw [] W O) as (objs & T & V). rewrite T. cbn [bind].
  assert (A : forall e, over objs [] = Err e -> e = TypeError /\ exists ts fs, schema_at raw ts fs /\ unreadable fs).
  { intros e E. apply over_err in E as (p & o & IN & SO & E). apply V in IN as (ts & -> & RE & _). apply schemab_iff in SO as (h & fs & ints & -> & C).
    assert (SA : schema_at raw ts fs) by (exists h, ints; auto). destruct (PS _ _ SA) as (d & P & D).
    cut (e = TypeError /\ unreadable fs); [intros (-> & U); eauto|]. apply (schema_err (rfc_pointer (lit "#") ts) h fs ints d); auto.
    { intros n h' fs' ints' G RN. assert (WO : wfv (VObj h fs ints)) by (eapply reach_wf; eauto). assert (WP : wfv (VObj h' fs' ints')).
      { inversion WO as [| | | | | | |? ? ? _ FW]; subst. rewrite Forall_forall in FW. specialize (FW _ (sget_In _ _ _ P)). cbn [snd] in FW.
        inversion FW as [| | | | | |? _ FD|]; subst. rewrite Forall_forall in FD. exact (FD _ (sget_In _ _ _ G)). }
      destruct (D _ _ G) as (? & ? & ? & EQ & CH). injection EQ as <- <- <-. inversion WP as [| | | | | | |? ? ? K _]; subst. apply sget_None in RN. apply RN. rewrite K, CH. cbn. tauto. }
    assert (WO : wfv (VObj h fs ints)) by (eapply reach_wf; eauto). inversion WO as [| | | | | | |? ? ? K _]; subst. intros E2. apply sget_None in E2. apply E2. rewrite K, C. cbn. tauto. }
  split; [intros e E; now apply A|]. split; [intros (e & E); now apply A in E|].
  intros (ts & fs & (h & ints & RE & C) & U). destruct (over objs []) as [errs|e] eqn:E; [|eauto]. exfalso. apply over_ok in E as (rs & _ & F).
  assert (IO : In (rfc_pointer (lit "#") ts, VObj h fs ints) objs) by (apply V; exists ts; repeat split; auto).
  destruct (Forall2_In_l _ _ _ _ F IO) as (x & _ & Q). cbn [fst snd] in Q. assert (SO : schemab (VObj h fs ints) = true) by (apply schemab_iff; eauto 6).
  rewrite SO in Q. destruct Q as (h' & fs' & ints' & req & props & l & bs & EQ & R & P & EL & FB & _). injection EQ as <- <- <-.
  destruct U as (req' & R' & U). rewrite R in R'. injection R' as <-. destruct U as [U|(l' & y & EL' & IY & U)]; [now elim (U l)|].
  apply elements_iterate in EL, EL'. rewrite EL in EL'. injection EL' as <-. destruct (Forall2_In_l _ _ _ _ FB IY) as (b & _ & RO).
  destruct props; try discriminate RO. destruct U as [(m & ->)|(m & ->)]; discriminate RO.
Qed.
(** What was parsed has schemas as properties of schemas. *)
Theorem c45_parsed : forall c pl j v, wf j -> parse (Of c) pl j = Ok v -> proper_schemas v.
Proof.
  intros c pl j v W E ts fs (h & ints & RE & C). pose proof (wtv_step _ _ _ RE (parsed_wtv _ _ _ _ W E)) as WT.
  destruct (c35_parsed c pl j v W E) as (WF & _). assert (WO : wfv (VObj h fs ints)) by (eapply reach_wf; eauto).
  inversion WT as [| | | | | | |? ? ? _ FO]; subst. inversion WO as [| | | | | | |? ? ? K _]; subst. rewrite Forall_forall in FO.
  destruct (sget (lit "properties") fs) as [x|] eqn:P.
  2: { apply sget_None in P. elim P. rewrite K, C. cbn. tauto. }
  specialize (FO _ (sget_In _ _ _ P)). cbn [fst snd] in FO. unfold field_ok in FO. rewrite C in FO. cbn [t_child] in FO.
  match type of FO with match ?g with _ => _ end => change g with (Some (DictOf, Of CSchema)) in FO end. cbv iota in FO. destruct FO as (FO & N).
  destruct x as [| | | | | |d|]; try (destruct FO as (FO & _); discriminate FO).
  { specialize (N eq_refl ltac:(discriminate)). vm_compute in N. discriminate N. }
  destruct FO as (_ & FO). exists d. split; [reflexivity|]. intros n x G. rewrite Forall_forall in FO. specialize (FO _ (sget_In _ _ _ G)). cbn [snd] in FO.
  destruct x as [| | | | | | |h' fs' i']; try contradiction; [discriminate FO|]. eauto 6.
Qed.

Print Assumptions c45_reports.
Print Assumptions c45_each.
Print Assumptions c45_strict.
Print Assumptions c45_valid.
Print Assumptions c45_invalid.
Print Assumptions c45_fails.
Print Assumptions c45_parsed.

(** A document with a violation, and one whose required names cannot be read *)
Definition ro_doc (req : json) : json :=
  JObj [(lit "swagger", JStr (lit "2.0")); (lit "definitions", JObj [(lit "a/b", JObj [(lit "required", req);
    (lit "properties", JObj [(lit "id", JObj [(lit "readOnly", JBool true)]); (lit "tag", JObj [])])])])].
Definition ro_val (req : json) : val := match parse (Of CSwagger) [] (ro_doc req) with Ok v => v | Err _ => VNone end.
Example c45_ex : validate (validate20 (ro_val (JList [JStr (lit "tag"); JStr (lit "id"); JStr (lit "none")]))) false =
  Ok [(lit "#/definitions/a~1b", "Schema"%string, ("ReadOnly property in required list: {0}"%string, VStr (lit "id")))] /\
  validate (validate20 (ro_val (JList [JStr (lit "tag"); JStr (lit "id")]))) true = Err ValidationError /\
  validate (validate20 (ro_val (JList [JStr (lit "tag")]))) true = Ok [] /\
  validate (validate20 (ro_val (JBool true))) true = Err TypeError.
Proof. repeat split; vm_compute; reflexivity. Qed.
