(** C62: every field of the specification is there, with what the document says. *)
From Coq Require Import Lia.
From Verif Require Import PyBase PyFacts PyJson P_Op M_SpecVal M_Parse S_Parse P_SpecBase P_Parse P_Wf T_Parse S_Swagger20.
Close Scope Q_scope.

(** ** Lemmas *)
Definition is_new (c : cls) : Prop := match c with COld _ => False | _ => True end.
Definition meant (c : cls) (n : str) (k : kind) (a : val) : Prop := exists df, sget n (t_fields c) = Some df /\
  match k with
  | Value => sget n (t_child c) = None /\ a = inject df
  | Object cc => sget n (t_child c) = Some (One, Of cc) /\ a = inject df /\ a = VNone
  | Objects cc => sget n (t_child c) = Some (ListOf, Of cc) /\ a = VList [] /\ (inject df = a \/ inject df = VNone)
  | Named cc => sget n (t_child c) = Some (DictOf, Of cc) /\ a = VDict [] /\ (inject df = a \/ inject df = VNone)
  | SchemaOrBool => sget n (t_child c) = Some (One, AddP) /\ a = inject df /\ a = VBool true
  end.
Lemma tables c n k a : is_new c -> In (n, (k, a)) (swagger20 c) -> meant c n k a.
Proof.
  intro NC. assert (F : Forall (fun f : field => meant c (fst f) (fst (snd f)) (snd (snd f))) (swagger20 c)).
  { destruct c; try destruct NC; repeat (constructor; [eexists; split; [vm_compute; reflexivity|]; cbn [fst snd]; split; [vm_compute; reflexivity|]; first [reflexivity|split; [reflexivity|]; first [reflexivity|left; reflexivity|right; reflexivity]]|]); constructor. }
  intro I. rewrite Forall_forall in F. exact (F _ I).
Qed.
Lemma no_more c n df : is_new c -> sget n (t_fields c) = Some df -> In n (map fst (swagger20 c)).
Proof.
  intros NC E. assert (F : forallb (fun x => mem (fst x) (map fst (swagger20 c))) (t_fields c) = true) by (destruct c; try destruct NC; vm_compute; reflexivity).
  rewrite forallb_forall in F. apply sget_In in E. now apply F in E; apply mem_In in E.
Qed.
Lemma table_new c n k a : is_new c -> In (n, (k, a)) (swagger20 c) -> match k with Object cc | Objects cc | Named cc => is_new cc | _ => True end.
Proof.
  intros NC I. assert (F : Forall (fun f : field => match fst (snd f) with Object cc | Objects cc | Named cc => is_new cc | _ => True end) (swagger20 c)) by (destruct c; try destruct NC; repeat constructor).
  rewrite Forall_forall in F. exact (F _ I).
Qed.
Lemma reads_parent p k j v : reads k j v -> reads k j (set_parent p v).
Proof.
  intro R. destruct R as [j|c d h fs ints C A B|c h fs ints C A B|c l m F|c j E|c d e F|b|d v R].
  - replace (set_parent p (inject j)) with (inject j) by (destruct j; reflexivity). constructor.
  - cbn [set_parent]. apply r_object; auto.
  - cbn [set_parent]. apply r_null; auto.
  - now constructor.
  - now constructor.
  - now constructor.
  - constructor.
  - apply r_schema. inversion R; subst; cbn [set_parent]; apply r_object; auto.
Qed.
Lemma nth_Forall2 {A B} (P : A -> B -> Prop) : forall l m, length l = length m -> (forall i y, nth_error m i = Some y -> exists x, nth_error l i = Some x /\ P x y) -> Forall2 P l m.
Proof.
  induction l as [|x l IH]; intros [|y m] L F; try discriminate L; constructor.
  - destruct (F 0 y eq_refl) as (x' & E & H). now injection E as ->.
  - apply IH; [now injection L|]. intros i z Z. exact (F (S i) z Z).
Qed.
Lemma parse_reads : forall N c pl j v, jdepth j < N -> wf j -> is_new c -> parse (Of c) pl j = Ok v -> reads (Object c) j v.
Proof.
  induction N as [|N IH]; intros c pl j v D W NC E; [lia|]. destruct j as [| | | | | |d]; try (rewrite parse_cls_eq in E; discriminate E).
  - rewrite parse_null in E. injection E as <-. apply r_null; [reflexivity| |].
    + intros n k a I. destruct (tables c n k a NC I) as (df & F & M). eexists. split; [rewrite (sget_map (fun nd => inject nd)), F; reflexivity|].
      destruct k; [destruct M as (_ & ->); auto|destruct M as (_ & -> & _); auto|destruct M as (_ & _ & [->| ->]); auto|destruct M as (_ & _ & [->| ->]); auto|destruct M as (_ & -> & _); auto].
    + intros n x X. rewrite (sget_map (fun nd => inject nd)) in X. destruct (sget n (t_fields c)) as [df|] eqn:F; [|discriminate X]. eapply no_more; eauto.
  - pose proof E as E'. apply parse_shape in E' as (ks & fs & ints & ->). inversion W as [| | | | | |? ND FW]; subst. rewrite Forall_forall in FW. rewrite jdepth_obj in D.
    assert (WG : forall n w, sget n d = Some w -> wf w /\ jdepth w < N). { intros n w G. split; [exact (FW _ (sget_In _ _ _ G))|]. pose proof (jddepth_get _ _ _ G). lia. }
    apply r_object; [reflexivity| |].
    + intros n k a I. destruct (tables c n k a NC I) as (df & F & M). pose proof (table_new c n k a NC I) as NK. destruct k as [|cc|cc|cc|].
      * destruct M as (T & ->). rewrite (c36_plain_field _ _ _ _ _ _ _ _ E F T). eexists. split; [reflexivity|]. destruct (sget n d) as [w|]; [|auto]. right. destruct w; [left; auto|right; eexists; split; [reflexivity|]; split; [discriminate|constructor]..].
      * destruct M as (T & -> & A). pose proof (c36_one_child _ _ _ _ _ _ _ _ E T) as O. destruct (sget n d) as [w|] eqn:G.
        -- destruct w; try (destruct O as (x & P & Q); eexists; split; [exact Q|]; right; right; eexists; split; [reflexivity|]; split; [discriminate|]; apply reads_parent; destruct (WG _ _ G); eapply IH; eauto).
           eexists. split; [exact O|]. right; left. auto.
        -- destruct O as (df' & F' & O). assert (df' = df) as -> by congruence. eauto.
      * destruct M as (T & -> & A). destruct (c36_list_child _ _ _ _ _ _ _ _ E T) as (l & G & O). eexists. split; [exact G|]. destruct (sget n d) as [w|] eqn:GD; [|subst l; auto]. right.
        assert (AC : accepted (Of c) (JObj d)) by (apply (c36_accepted _ pl); eauto). inversion AC as [| | |? ? AC']; subst. pose proof (fun X => AC' _ _ _ _ (sget_In _ _ _ T) GD X) as AI.
        destruct w as [| | | |s|m|e]; try (exfalso; specialize (AI ltac:(discriminate)); inversion AI; fail).
        -- subst l. auto.
        -- specialize (AI ltac:(discriminate)). inversion AI; subst. right. eexists. split; [reflexivity|]. split; [discriminate|]. apply r_none. auto.
        -- right. eexists. split; [reflexivity|]. split; [discriminate|]. apply r_objects. destruct O as (L & O). destruct (WG _ _ GD) as (WM & DM). rewrite jdepth_list in DM. inversion WM as [| | | | |? FM|]; subst. rewrite Forall_forall in FM.
           apply nth_Forall2; [auto|]. intros i y Y. destruct (O _ _ Y) as (z & w & NW & P & ->). exists w. split; [exact NW|]. apply reads_parent. apply nth_error_In in NW. pose proof (jldepth_In _ _ NW). eapply IH; [|apply FM; exact NW|exact NK|exact P]. lia.
        -- specialize (AI ltac:(discriminate)). inversion AI; subst. right. eexists. split; [reflexivity|]. split; [discriminate|]. apply r_none. auto.
      * destruct M as (T & -> & A). destruct (c36_dict_child _ _ _ _ _ _ _ _ E T) as (l & G & O). eexists. split; [exact G|]. destruct (sget n d) as [w|] eqn:GD; [|subst l; auto]. right.
        assert (AC : accepted (Of c) (JObj d)) by (apply (c36_accepted _ pl); eauto). inversion AC as [| | |? ? AC']; subst. pose proof (fun X => AC' _ _ _ _ (sget_In _ _ _ T) GD X) as AI.
        destruct w as [| | | |s|m|e]; try (exfalso; specialize (AI ltac:(discriminate)); inversion AI; fail).
        -- subst l. auto.
        -- right. eexists. split; [reflexivity|]. split; [discriminate|]. apply r_named. destruct O as (L & O). destruct (WG _ _ GD) as (WM & DM). rewrite jdepth_obj in DM. inversion WM as [| | | | | |? NM FM]; subst. rewrite Forall_forall in FM.
           apply nth_Forall2; [rewrite <- (map_length fst e), <- L; apply map_length|]. intros i [key y] Y. assert (NK' : nth_error (map fst e) i = Some key) by (rewrite <- L, nth_error_map, Y; reflexivity).
           rewrite nth_error_map in NK'. destruct (nth_error e i) as [[key' w]|] eqn:NE; [|discriminate NK']. cbn in NK'. injection NK' as ->. exists (key, w). split; [reflexivity|]. split; [reflexivity|]. cbn [snd].
           assert (GL : sget key l = Some y) by (apply In_sget; [rewrite L; exact NM|eapply nth_error_In; eauto]). destruct (O _ _ GL) as (z & w' & GW & P & ->). apply nth_error_In in NE. pose proof (In_sget _ _ _ NM NE) as GE. assert (w' = w) as -> by congruence.
           apply reads_parent. pose proof (jddepth_In _ _ _ NE). eapply IH; [|exact (FM _ NE)|exact NK|exact P]. lia.
      * destruct M as (T & -> & A). pose proof (c36_one_child _ _ _ _ _ _ _ _ E T) as O. destruct (sget n d) as [w|] eqn:G.
        -- destruct w as [|b| | | | |e]; try (destruct O as (x & P & Q); rewrite parse_eq in P; discriminate P).
           ++ eexists. split; [exact O|]. right; left. auto.
           ++ destruct O as (x & P & Q). rewrite parse_eq in P. cbn in P. injection P as <-. eexists. split; [exact Q|]. right; right. eexists. split; [reflexivity|]. split; [discriminate|constructor].
           ++ destruct O as (x & P & Q). rewrite parse_addp_obj in P. eexists. split; [exact Q|]. right; right. eexists. split; [reflexivity|]. split; [discriminate|]. apply r_schema, reads_parent. destruct (WG _ _ G). eapply IH; eauto.
        -- destruct O as (df' & F' & O). assert (df' = df) as -> by congruence. eauto.
    + intros n x X. apply parse_obj in E as (kids & fs' & _ & Y & R). injection Y as _ -> _. destruct (drel_get_r _ _ _ _ _ R X) as (df & F & _). eapply no_more; eauto.
Qed.

(** ** C62 *)
(** Whatever document is parsed as an object of the specification: the result has exactly the fields
    of the specification, and each of them says what the document says there. *)
Theorem c62_reads : forall c pl j v, is_new c -> wf j -> parse (Of c) pl j = Ok v -> reads (Object c) j v.
Proof. intros c pl j v NC W E. eapply parse_reads; eauto. Qed.
Print Assumptions c62_reads.
(** The specification has an External Documentation Object in operations too; there, the parsed
    object has what the document has, not an object. *)
Theorem c62_operation_docs_refuted : exists j v w, parse (Of COperation) [] j = Ok v /\ parse (Of CTag) [] j = Ok w /\
  (exists h fs ints, w = VObj h fs ints /\ exists h' fs' ints', sget (lit "externalDocs") fs = Some (VObj h' fs' ints') /\ h_cls h' = CExternalDocs) /\
  (exists h fs ints, v = VObj h fs ints /\ exists d, sget (lit "externalDocs") fs = Some (VDict d)).
Proof.
  exists (JObj [(lit "externalDocs", JObj [(lit "url", JStr (lit "http://a"))])]). do 2 eexists. split; [vm_compute; reflexivity|]. split; [vm_compute; reflexivity|]. split.
  - do 3 eexists. split; [reflexivity|]. do 3 eexists. split; [vm_compute; reflexivity|reflexivity].
  - do 3 eexists. split; [reflexivity|]. eexists. vm_compute. reflexivity.
Qed.
Print Assumptions c62_operation_docs_refuted.
Example c62_hypotheses : wf T_Parse.doc /\ exists v, parse (Of CSwagger) [] T_Parse.doc = Ok v /\ is_new CSwagger.
Proof. split; [apply wfb_ok; vm_compute; reflexivity|]. eexists. split; [vm_compute; reflexivity|exact I]. Qed.
(** what the theorem says about a parameter that the document only names *)
Example c62_ex : exists v h fs ints, parse (Of CParameter) [] (JObj [(lit "name", JStr (lit "limit")); (lit "in", JStr (lit "query"))]) = Ok v /\ v = VObj h fs ints /\
  sget (lit "name") fs = Some (VStr (lit "limit")) /\ sget (lit "collectionFormat") fs = Some (VStr (lit "csv")) /\ sget (lit "minItems") fs = Some VNone /\ sget (lit "flow") fs = None.
Proof. do 4 eexists. repeat split; vm_compute; reflexivity. Qed.
