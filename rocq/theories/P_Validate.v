(** Proofs about validating 2.0 documents. *)
From Coq Require Import Lia.
From Verif Require Import PyBase PyFacts PyJson S_JsonPtr M_SpecVal M_Parse M_SpecTree M_Merge M_Scan P_Scan S_Parse S_SpecTree P_SpecBase P_SpecTree T_SpecTree P_Op M_Validate S_Validate.
Close Scope Q_scope.

Lemma holds_true_iff v : holds_true v <-> falsy v = false.
Proof.
  destruct v as [|b|z|q|s|l|d|h fs i]; cbn [holds_true falsy].
  - split; [intros []|discriminate].
  - destruct b; split; congruence.
  - destruct z; split; congruence.
  - split.
    + intros N. destruct (Qeq_bool q 0) eqn:E; [|reflexivity]. apply Qeq_bool_iff in E. contradiction.
    + intros E Q. apply Qeq_bool_iff in Q. congruence.
  - destruct s; split; congruence.
  - destruct l; split; congruence.
  - destruct d; split; congruence.
  - tauto.
Qed.
Lemma elements_iterate v l : elements v l <-> iterate v = Ok l.
Proof.
  split; [intros []; reflexivity|]. destruct v; cbn [iterate]; intros E; try discriminate E; injection E as <-; constructor.
Qed.
Lemma pycls_eqb_spec a b : reflect (a = b) (pycls_eqb a b).
Proof.
  destruct a as [c| | | | | |], b as [d| | | | | |]; cbn [pycls_eqb]; try (constructor; congruence).
  destruct (cls_eqb c d) eqn:E; constructor; [f_equal; now apply cls_eqb_eq|]. intros Q. injection Q as ->.
  assert (T : cls_eqb d d = true) by now apply cls_eqb_eq. congruence.
Qed.
(** The scan comes down to a loop over the schemas. *)
Definition schemab (v : val) : bool := match v with VObj h _ _ => cls_eqb (h_cls h) CSchema | _ => false end.
Fixpoint over (l : list (str * val)) (errs : list report) : res (list report) :=
  match l with
  | [] => Ok errs
  | (p, o) :: l => if schemab o then do r <- validate_schema p o; over l (collect errs r) else over l errs
  end.
Lemma routes : validate_routes = Ok [(Cls CSchema, [tt])].
Proof. reflexivity. Qed.
Lemma validate_over raw : is_obj raw -> validate20 raw = (do objs <- traverse raw []; over objs []).
Proof.
  intros O. unfold validate20. rewrite routes. cbn [bind]. destruct (traverse raw []) as [l|e]; [|reflexivity]. cbn [bind].
  generalize (@nil report) as errs. induction l as [|[p o] l IH]; intros errs; [reflexivity|]. unfold scan in *. cbn [each fst snd over].
  assert (Q : handle_all pycls_eqb BaseObj (fun errs (_ _ : unit) path o => (errs, validate_schema path o)) (fun errs _ ret => (collect errs ret, Ok tt))
      (Entry tt [(Cls CSchema, [tt])] true) p o errs (removelast (pymro (class_of o))) =
    if schemab o then match validate_schema p o with Ok r => (collect errs r, Ok tt) | Err e => (errs, Err e) end else (errs, Ok tt)).
  { destruct o as [|?|?|?|?|?|?|h fs i]; try reflexivity. unfold class_of, schemab. destruct (h_cls h) as [| | | | | | | | | | | | | | |[]]; try reflexivity.
    cbn [removelast pymro handle_all pycls_eqb cls_eqb handle_cls dget e_route each]. unfold call_one. cbn [e_self e_result].
    unfold handle_cls. cbn [dget pycls_eqb cls_eqb e_route each]. unfold call_one. cbn [e_self e_result]. now destruct (validate_schema p (VObj h fs i)). }
  rewrite Q. destruct (schemab o); [|apply IH]. destruct (validate_schema p o) as [r|e]; [apply IH|reflexivity].
Qed.

Lemma required_ok props l : forall r, check_required props l = Ok r ->
  exists bs, Forall2 (fun v b => read_only props v = Ok b) l bs /\
    r = flat_map (fun vb : val * bool => if snd vb then [("ReadOnly property in required list: {0}"%string, fst vb)] else []) (combine l bs).
Proof.
  induction l as [|v l IH]; intros r E; cbn [check_required] in E.
  - injection E as <-. exists []. split; [constructor|reflexivity].
  - apply bind_ok in E as (b & RO & E). apply bind_ok in E as (r' & R & E). injection E as <-. apply IH in R as (bs & F & ->).
    exists (b :: bs). split; [now constructor|]. cbn [combine flat_map fst snd]. now destruct b.
Qed.
Lemma read_only_iff fs props v b : sget (lit "properties") fs = Some props -> read_only props v = Ok b -> (b = true <-> read_only_property fs v).
Proof.
  intros P E. unfold read_only_property. rewrite P. destruct props as [| | | | | |d|]; cbn [read_only] in E; try discriminate E.
  destruct (hashable v); cbn [negb] in E; [|discriminate E]. split.
  - intros ->. destruct v as [| | | |s| | |]; try discriminate E. destruct (sget s d) as [[| | | | | | |h fs' i]|] eqn:G; try discriminate E.
    destruct (sget (lit "readOnly") fs') as [r|] eqn:RO; [|discriminate E]. injection E as E. exists s, d, h, fs', i, r. repeat split; auto.
    apply holds_true_iff. now destruct (falsy r).
  - intros (s & d' & h & fs' & i & r & -> & D & G & RO & T). injection D as <-. rewrite G, RO in E. injection E as <-. apply holds_true_iff in T. now rewrite T.
Qed.
Definition reports (p : str) (l : list message) : list report := map (fun m => (p, "Schema"%string, m)) l.
Lemma collect_app errs p l : collect errs (p, "Schema"%string, l) = errs ++ reports p l.
Proof. unfold collect. destruct l; [cbn; now rewrite app_nil_r|reflexivity]. Qed.
(** What is reported for one schema *)
Definition for_schema (p : str) (o : val) (rs : list report) : Prop :=
  exists h fs ints req props l bs, o = VObj h fs ints /\ sget (lit "required") fs = Some req /\ sget (lit "properties") fs = Some props /\ elements req l /\
    Forall2 (fun v b => read_only props v = Ok b) l bs /\
    rs = reports p (flat_map (fun vb : val * bool => if snd vb then [("ReadOnly property in required list: {0}"%string, fst vb)] else []) (combine l bs)).
Lemma schema_ok p o n l : validate_schema p o = Ok (n, l) -> n = (p, "Schema"%string) /\ for_schema p o (reports p l).
Proof.
  unfold validate_schema. destruct o as [| | | | | | |h fs ints]; try discriminate. destruct (sget (lit "required") fs) as [req|] eqn:R; [|discriminate].
  destruct (sget (lit "properties") fs) as [props|] eqn:P; [|discriminate]. intros E. apply bind_ok in E as (rl & I & E). apply bind_ok in E as (errs & C & E). injection E as <- <-.
  split; [reflexivity|]. apply elements_iterate in I. apply required_ok in C as (bs & F & ->).
  exists h, fs, ints, req, props, rl, bs. repeat (split; [solve [auto]|]). reflexivity.
Qed.
Lemma over_ok objs : forall errs r, over objs errs = Ok r ->
  exists rs, r = errs ++ concat rs /\ Forall2 (fun po x => if schemab (snd po) then for_schema (fst po) (snd po) x else x = []) objs rs.
Proof.
  induction objs as [|[p o] objs IH]; intros errs r E; cbn [over] in E.
  - injection E as <-. exists []. cbn. rewrite app_nil_r. auto.
  - destruct (schemab o) eqn:SO.
    + apply bind_ok in E as ([n l] & V & E). apply schema_ok in V as (-> & V). rewrite collect_app in E. apply IH in E as (rs & -> & F).
      exists (reports p l :: rs). cbn [concat]. split; [now rewrite app_assoc|]. constructor; [|exact F]. cbn [fst snd]. now rewrite SO.
    + apply IH in E as (rs & -> & F). exists ([] :: rs). split; [reflexivity|]. constructor; [|exact F]. cbn [fst snd]. now rewrite SO.
Qed.
Lemma over_err objs : forall errs e, over objs errs = Err e -> exists p o, In (p, o) objs /\ schemab o = true /\ validate_schema p o = Err e.
Proof.
  induction objs as [|[p o] objs IH]; intros errs e E; cbn [over] in E; [discriminate E|].
  destruct (schemab o) eqn:SO.
  - destruct (validate_schema p o) as [[n l]|x] eqn:V; cbn [bind] in E.
    + apply IH in E as (p' & o' & IN & E). exists p', o'. split; [now right|exact E].
    + injection E as ->. exists p, o. split; [now left|auto].
  - apply IH in E as (p' & o' & IN & E). exists p', o'. split; [now right|exact E].
Qed.
Lemma combine_flat {A} (P : A -> bool -> Prop) (g : A -> message) l bs m : Forall2 P l bs ->
  In m (flat_map (fun vb : A * bool => if snd vb then [g (fst vb)] else []) (combine l bs)) <-> exists v, In v l /\ (exists i, nth_error l i = Some v /\ nth_error bs i = Some true) /\ m = g v.
Proof.
  intros F. induction F as [|v b l bs PV F IH].
  - cbn. split; [intros []|intros (v & [] & _)].
  - cbn [combine flat_map fst snd]. rewrite in_app_iff, IH. split.
    + intros [X|(w & IN & (i & N & B) & E)].
      * destruct b; [|destruct X]. destruct X as [<-|[]]. exists v. split; [now left|]. split; [now exists 0|reflexivity].
      * exists w. split; [now right|]. split; [now exists (S i)|exact E].
    + intros (w & IN & (i & N & B) & E). destruct i as [|i].
      * cbn in N, B. injection N as ->. injection B as ->. left. now left.
      * right. cbn in N, B. exists w. split; [eapply nth_error_In; exact N|]. split; [now exists i|exact E].
Qed.
Lemma Forall2_nth {A B} (P : A -> B -> Prop) l m i x : Forall2 P l m -> nth_error l i = Some x -> exists y, nth_error m i = Some y /\ P x y.
Proof.
  intros F. revert i. induction F as [|a b l m Q F IH]; intros i N; [destruct i; discriminate N|].
  destruct i as [|i]; [injection N as ->; exists b; auto|]. now apply IH.
Qed.
Lemma for_schema_In p o rs m : for_schema p o rs ->
  In m rs <-> exists h fs ints req l v, o = VObj h fs ints /\ sget (lit "required") fs = Some req /\ elements req l /\ In v l /\ read_only_property fs v /\
    m = (p, "Schema"%string, ("ReadOnly property in required list: {0}"%string, v)).
Proof.
  intros (h & fs & ints & req & props & l & bs & -> & R & P & EL & F & ->). unfold reports. rewrite in_map_iff. split.
  - intros (x & <- & IN). apply (combine_flat _ (fun v => ("ReadOnly property in required list: {0}"%string, v)) _ _ _ F) in IN as (v & IV & (i & N & B) & ->).
    exists h, fs, ints, req, l, v. repeat split; auto. destruct (Forall2_nth _ _ _ _ _ F N) as (b & B' & RO). rewrite B in B'. injection B' as <-.
    now apply (read_only_iff fs _ _ true P RO).
  - intros (h' & fs' & ints' & req' & l' & v & E & R' & EL' & IV & RP & ->). injection E as <- <- <-. rewrite R in R'. injection R' as <-.
    apply elements_iterate in EL, EL'. rewrite EL in EL'. injection EL' as <-.
    eexists. split; [reflexivity|]. apply (combine_flat _ (fun v => ("ReadOnly property in required list: {0}"%string, v)) _ _ _ F). exists v. split; [exact IV|]. split; [|reflexivity].
    destruct (In_nth_error _ _ IV) as (i & N). exists i. split; [exact N|]. destruct (Forall2_nth _ _ _ _ _ F N) as (b & B & RO). rewrite B. f_equal.
    now apply (read_only_iff fs props v b P RO).
Qed.
Lemma schemab_iff o : schemab o = true <-> exists h fs ints, o = VObj h fs ints /\ h_cls h = CSchema.
Proof.
  destruct o as [| | | | | | |h fs ints]; cbn [schemab]; try (split; [discriminate|intros (? & ? & ? & E & _); discriminate E]).
  rewrite cls_eqb_eq. split; [eauto 6|]. intros (? & ? & ? & E & C). injection E as <- <- <-. exact C.
Qed.

Lemma for_schema_path p o rs : for_schema p o rs -> forall r, In r rs -> fst (fst r) = p.
Proof.
  intros (h & fs & ints & req & props & l & bs & _ & _ & _ & _ & _ & ->) r IN. unfold reports in IN. apply in_map_iff in IN as (m & <- & _). reflexivity.
Qed.
Lemma filter_all {A} (f : A -> bool) l : (forall x, In x l -> f x = true) -> filter f l = l.
Proof. induction l as [|x l IH]; intros F; [reflexivity|]. cbn [filter]. rewrite (F x (or_introl eq_refl)), IH; [reflexivity|]. intros y Y. apply F. now right. Qed.
Lemma filter_no {A} (f : A -> bool) l : (forall x, In x l -> f x = false) -> filter f l = [].
Proof. induction l as [|x l IH]; intros F; [reflexivity|]. cbn [filter]. rewrite (F x (or_introl eq_refl)). apply IH. intros y Y. apply F. now right. Qed.
Lemma only_there objs rs p o : Forall2 (fun po x => if schemab (snd po) then for_schema (fst po) (snd po) x else x = []) objs rs ->
  NoDup (map fst objs) -> In (p, o) objs ->
  exists x, filter (fun r : report => str_eqb (fst (fst r)) p) (concat rs) = x /\ if schemab o then for_schema p o x else x = [].
Proof.
  intros F. induction F as [|[q o'] x objs rs Q F IH]; intros ND IN; [destruct IN|].
  assert (PX : forall r, In r x -> fst (fst r) = q).
  { cbn [fst snd] in Q. destruct (schemab o'); [now apply (for_schema_path _ _ _ Q)|]. subst x. intros r []. }
  assert (PR : forall r, In r (concat rs) -> In (fst (fst r)) (map fst objs)).
  { clear - F. induction F as [|[q o'] x objs rs Q F IH]; intros r IR; [destruct IR|]. cbn [concat] in IR. apply in_app_iff in IR as [IR|IR]; [|right; now apply IH].
    left. cbn [fst snd] in *. destruct (schemab o'); [now rewrite (for_schema_path _ _ _ Q r IR)|]. subst x. destruct IR. }
  cbn [map fst] in ND. inversion ND as [|? ? NI ND']; subst. cbn [concat]. rewrite filter_app. destruct IN as [E|IN].
  - injection E as -> ->. exists x. split; [|exact Q]. rewrite (filter_all _ x), (filter_no _ (concat rs)), app_nil_r; [reflexivity|..].
    + intros r IR. apply PR in IR. destruct (str_eqb_spec (fst (fst r)) p) as [E|]; [|reflexivity]. rewrite E in IR. contradiction.
    + intros r IR. rewrite (PX r IR). apply str_eqb_refl.
  - destruct (IH ND' IN) as (y & <- & Y). eexists. split; [reflexivity|]. rewrite (filter_no _ x); [exact Y|]. intros r IR. rewrite (PX r IR).
    destruct (str_eqb_spec q p) as [->|]; [|reflexivity]. elim NI. apply (in_map fst) in IN. exact IN.
Qed.
Lemma reach_wf lv v ts o : reach lv v ts o -> wfv v -> wfv o.
Proof.
  induction 1 as [v|h fs i n v ts o _ G R IH|l i v ts o N R IH|d k v ts o G R IH]; intro W; [exact W|..]; apply IH; inversion W as [| | | | |? F|? _ F|? ? ? _ F]; subst; rewrite Forall_forall in F.
  - apply sget_In in G. exact (F _ G).
  - apply F. eapply nth_error_In; eauto.
  - apply sget_In in G. exact (F _ G).
Qed.
Lemma schema_err p h fs ints d e : h_cls h = CSchema -> sget (lit "properties") fs = Some (VDict d) ->
  (forall n x, sget n d = Some x -> exists h fs' ints, x = VObj h fs' ints /\ h_cls h = CSchema) ->
  (forall n h' fs' ints', sget n d = Some (VObj h' fs' ints') -> sget (lit "readOnly") fs' <> None) ->
  sget (lit "required") fs <> None -> validate_schema p (VObj h fs ints) = Err e -> e = TypeError /\ unreadable fs.
Proof.
  intros C P D RN RQ E. unfold validate_schema in E. destruct (sget (lit "required") fs) as [req|] eqn:R; [|now elim RQ]. rewrite P in E.
  destruct (iterate req) as [l|x] eqn:I; cbn [bind] in E.
  - assert (Q : forall m, (forall x, In x m -> In x l) -> forall y, check_required (VDict d) m = Err y -> y = TypeError /\ unreadable fs).
    { induction m as [|v m IH]; intros SUB y CR; cbn [check_required] in CR; [discriminate CR|].
      destruct (read_only (VDict d) v) as [b|z] eqn:RO; cbn [bind] in CR.
      - destruct (check_required (VDict d) m) as [r|z] eqn:CM; cbn [bind] in CR; [discriminate CR|]. injection CR as ->. apply IH; [|reflexivity]. intros x X. apply SUB. now right.
      - injection CR as ->. cbn [read_only] in RO. destruct (hashable v) eqn:HV; cbn [negb] in RO.
        + destruct v as [| | | |s| | |]; try discriminate RO. destruct (sget s d) as [w|] eqn:G; [|discriminate RO]. destruct (D _ _ G) as (h' & fs' & ints' & -> & _).
          destruct (sget (lit "readOnly") fs') eqn:RR; [discriminate RO|]. now elim (RN _ _ _ _ G).
        + injection RO as <-. split; [reflexivity|]. exists req. split; [exact R|]. right. exists l, v. split; [now apply elements_iterate|].
          split; [apply SUB; now left|]. destruct v; try discriminate HV; eauto. }
    destruct (check_required (VDict d) l) as [r|y] eqn:CR; cbn [bind] in E; [discriminate E|]. injection E as ->. apply (Q l); auto.
  - injection E as ->. assert (e = TypeError) as -> by (destruct req; cbn in I; congruence). split; [reflexivity|].
    exists req. split; [exact R|]. left. intros l EL. apply elements_iterate in EL. congruence.
Qed.
