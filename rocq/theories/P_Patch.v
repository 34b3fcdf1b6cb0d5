(** Proofs about completing operations. *)
From Coq Require Import Lia.
From Verif Require Import PyBase PyFacts PyJson M_JsonPtr S_JsonPtr P_JsonPtr M_Url P_Url M_Scope P_Op M_SpecVal M_Parse M_SpecTree M_Merge M_MergeRef S_Parse S_SpecTree S_Merge P_SpecBase P_Parse P_SpecTree P_Compare P_Merge P_MergeShape M_Patch S_Patch.
Close Scope Q_scope.

(** ** Values *)
Lemma attr_of_ok h fs ints n x : attr fs ints n = Ok x <-> attr_of (VObj h fs ints) n = Some x.
Proof.
  unfold attr, attr_of. cbn [field_of internal_of]. destruct (sget n fs); [split; congruence|]. destruct (sget n ints); split; congruence.
Qed.
Lemma get_ok n v x : get n v = Ok x <-> attr_of v n = Some x.
Proof. destruct v; try (split; discriminate). apply attr_of_ok. Qed.
Lemma get_field n h fs ints x : sget (lit n) fs = Some x -> get n (VObj h fs ints) = Ok x.
Proof. intro G. unfold get, attr. now rewrite G. Qed.
Lemma own_or_ok own x y : own_or own x = Ok y -> inherited own x y.
Proof.
  unfold own_or, inherited, no_elements. destruct own; try discriminate; cbn; intro E; injection E as <-.
  - destruct s; cbn; [left; auto|right]. intuition discriminate.
  - destruct l; cbn; [left; auto|right]. intuition discriminate.
  - destruct d; cbn; [left; auto|right]. intuition discriminate.
Qed.
Lemma final_meant v x : get "name" (final v) = Ok x -> called v x.
Proof.
  rewrite get_ok. intro E. exists (final v). split; [|exact E]. destruct v as [| | | | | | |h fs ints]; try (apply meant_itself; cbn; discriminate).
  cbn [final]. destruct (attr fs ints "final"%string) as [f|e] eqn:A.
  - apply (attr_of_ok h) in A. destruct (falsy f) eqn:F.
    + apply meant_itself. intros g G. rewrite A in G. injection G as <-. now apply falsy_spec.
    + apply meant_final; [exact A|]. rewrite <- falsy_spec, F. discriminate.
  - apply meant_itself. intros g G. apply (attr_of_ok h) in G. congruence.
Qed.
Lemma meant_fun p q r : meant p q -> meant p r -> q = r.
Proof.
  intros A B. destruct A as [p f F N|p H]; inversion B as [? g G M|? K]; subst.
  - congruence.
  - elim N. now apply K.
  - elim M. now apply H.
  - reflexivity.
Qed.
Lemma called_fun p a b : called p a -> called p b -> a = b.
Proof. intros (q & M & A) (r & N & B). rewrite (meant_fun _ _ _ M N) in A. congruence. Qed.
Lemma name_in_ok n l : forall b, name_in n l = Ok b -> forall p, called p n ->
  if b then exists q, In q l /\ same_name p q else forall q, In q l -> ~ same_name p q.
Proof.
  induction l as [|q l IH]; intros b E p P; cbn [name_in] in E.
  - injection E as <-. intros q [].
  - apply bind_ok in E as (m & M & E). apply final_meant in M. destruct (elem_eqb n m) eqn:Q.
    + injection E as <-. exists q. split; [now left|]. exists n, m. split; [exact P|]. split; [exact M|]. now apply elem_spec.
    + apply (IH _ E) in P as H. destruct b.
      * destruct H as (r & I & S). exists r. split; [now right|exact S].
      * intros r [<-|I]; [|now apply H]. intros (x & y & A & B & EQ). rewrite (called_fun _ _ _ A P), (called_fun _ _ _ B M) in EQ. apply elem_spec in EQ. congruence.
Qed.
Lemma add_params_ok ps : forall l r, add_params l ps = Ok r -> exists more, r = l ++ more /\ chosen l ps more.
Proof.
  induction ps as [|p ps IH]; intros l r E; cbn [add_params] in E.
  - injection E as <-. exists []. split; [now rewrite app_nil_r|constructor].
  - apply bind_ok in E as (n & N & E). apply bind_ok in E as (b & B & E). apply final_meant in N. pose proof (name_in_ok _ _ _ B _ N) as H.
    destruct b; apply IH in E as (more & -> & C).
    + destruct H as (q & I & S). exists more. split; [reflexivity|]. eapply ch_skip; eauto.
    + exists (p :: more). split; [now rewrite <- app_assoc|]. now apply ch_take.
Qed.

(** ** Updating *)
Definition key_added (f : str) (h : head) : head := Head (h_cls h) (h_place h) (h_parent h) (f :: h_keys h).
Lemma update_own f x h fs ints v : smem f fs = true -> update_field f x (VObj h fs ints) = Ok v -> v = VObj (key_added f h) (sset f x fs) ints.
Proof. intros M E. unfold update_field in E. rewrite M in E. injection E as <-. reflexivity. Qed.
Lemma update_int f x h fs ints v : smem f fs = false -> update_field f x (VObj h fs ints) = Ok v -> smem f ints = true /\ v = VObj (key_added f h) fs (sset f x ints).
Proof. intros M E. unfold update_field in E. rewrite M in E. destruct (smem f ints); [|discriminate E]. injection E as <-. auto. Qed.
Lemma sset_keys {A} f (x : A) d : smem f d = true -> map fst (sset f x d) = map fst d.
Proof.
  unfold dmem. induction d as [|[k y] d IH]; cbn; [discriminate|]. destruct (str_eqb f k) eqn:E; cbn; [reflexivity|]. intro M. f_equal. now apply IH.
Qed.
Lemma smem_keys {A B} f (d : sdict A) (e : sdict B) : map fst d = map fst e -> smem f d = smem f e.
Proof.
  revert e. induction d as [|[k x] d IH]; intros [|[k' y] e] E; try discriminate E; [reflexivity|]. cbn in E. injection E as -> E. apply IH in E.
  unfold dmem in *. cbn. now destruct (str_eqb f k').
Qed.
Lemma sget_sset_same' {A} k (x : A) d : sget k (sset k x d) = Some x.
Proof. apply sget_sset_same. Qed.

(** What becomes of a field of an operation *)
Definition op_field (a : papp) (parent : option val) (n : str) (own x : val) : Prop :=
  if str_eqb n (lit "produces") then if is_swagger (p_root a) then exists d, attr_of (p_root a) (lit "produces") = Some d /\ inherited own d x else x = own
  else if str_eqb n (lit "consumes") then if is_swagger (p_root a) then exists d, attr_of (p_root a) (lit "consumes") = Some d /\ inherited own d x else x = own
  else if str_eqb n (lit "parameters") then match parent with Some p => exists more, attr_of p (lit "parameters") = Some more /\ with_shared own more x | None => x = own end
  else if str_eqb n (lit "security") then if is_swagger (p_root a) then inherited_security own (p_root a) x else x = own
  else x = own.
Definition same_head (h g : head) : Prop := h_cls g = h_cls h /\ h_place g = h_place h /\ h_parent g = h_parent h.
Lemma same_head_refl h : same_head h h. Proof. repeat split. Qed.
Lemma same_head_added f h g : same_head h g -> same_head h (key_added f g).
Proof. intros (A & B & C). repeat split; assumption. Qed.
Lemma inherit_ok root n h fs ints v : smem (lit n) fs = true -> inherit root n (VObj h fs ints) = Ok v ->
  exists own d x, sget (lit n) fs = Some own /\ attr_of root (lit n) = Some d /\ inherited own d x /\ v = VObj (key_added n h) (sset (lit n) x fs) ints.
Proof.
  intros M E. unfold inherit in E. apply bind_ok in E as (own & O & E). apply bind_ok in E as (d & D & E). apply bind_ok in E as (x & X & E).
  apply update_own in E; [|exact M]. exists own, d, x. repeat split.
  - rewrite smem_sget in M. unfold get, attr in O. destruct (sget (lit n) fs); [congruence|discriminate M].
  - now apply get_ok.
  - now apply own_or_ok.
  - exact E.
Qed.
Lemma combine_ok p h fs ints v : smem (lit "parameters") fs = true -> combine_params p (VObj h fs ints) = Ok v ->
  exists own more x g, sget (lit "parameters") fs = Some own /\ attr_of p (lit "parameters") = Some more /\ with_shared own more x /\ same_head h g /\ v = VObj g (sset (lit "parameters") x fs) ints.
Proof.
  intros M E. unfold combine_params in E. apply bind_ok in E as (own & O & E). apply bind_ok in E as (more & D & E). apply get_ok in D.
  assert (G : sget (lit "parameters") fs = Some own) by (rewrite smem_sget in M; unfold get, attr in O; destruct (sget (lit "parameters") fs); [congruence|discriminate M]).
  destruct (falsy own) eqn:F.
  - apply update_own in E; [|exact M]. exists own, more, more, (key_added (lit "parameters") h). repeat split; auto. apply ws_none; [now apply falsy_spec|reflexivity].
  - destruct own as [| | | | |l| |]; try discriminate E. destruct more as [| | | | |ps| |]; try discriminate E. apply bind_ok in E as (r & R & E). cbn [put_params] in E. injection E as <-.
    apply add_params_ok in R as (more & -> & C). exists (VList l), (VList ps), (VList (l ++ more)), h. repeat split; auto. eapply ws_both; eauto. intros ->. discriminate F.
Qed.
Section Op.
  Context (a : papp) (parent : option val).
  Lemma patch_operation_ok h fs ints v : h_cls h = COperation -> map fst fs = map fst (t_fields COperation) -> map fst ints = map fst (t_internal COperation) ->
    patch_operation a parent (VObj h fs ints) = Ok v ->
    exists g fs' ints', v = VObj g fs' ints' /\ same_head h g /\ map fst fs' = map fst fs /\
      (forall n own, sget n fs = Some own -> exists x, sget n fs' = Some x /\ op_field a parent n own x) /\
      map fst ints' = map fst ints /\ (forall n, n <> lit "cached_schemes" -> sget n ints' = sget n ints) /\
      exists own s, sget (lit "schemes") fs = Some own /\ sget (lit "cached_schemes") ints' = Some s /\ inherited own (p_schemes a) s.
  Proof.
    intros C KF KI E. unfold patch_operation in E.
    assert (SM : forall n (d : sdict val), map fst d = map fst fs -> smem n d = smem n (t_fields COperation)) by (intros n d K; apply smem_keys; congruence).
    (* consumes and produces *)
    apply bind_ok in E as (v1 & E1 & E).
    assert (A1 : exists g1 fs1, v1 = VObj g1 fs1 ints /\ same_head h g1 /\ map fst fs1 = map fst fs /\
      forall n own, sget n fs = Some own -> exists x, sget n fs1 = Some x /\
        if str_eqb n (lit "produces") || str_eqb n (lit "consumes") then if is_swagger (p_root a) then exists d, attr_of (p_root a) n = Some d /\ inherited own d x else x = own else x = own).
    { destruct (is_swagger (p_root a)).
      - apply bind_ok in E1 as (v0 & E0 & E1). apply inherit_ok in E0 as (o1 & d1 & x1 & G1 & D1 & I1 & ->); [|now rewrite SM].
        apply inherit_ok in E1 as (o2 & d2 & x2 & G2 & D2 & I2 & ->). 2: { rewrite SM; [reflexivity|]. apply sset_keys. now rewrite SM. }
        eexists _, _. split; [reflexivity|]. split; [apply same_head_added, same_head_added, same_head_refl|]. split.
        { rewrite sset_keys; [apply sset_keys; now rewrite SM|]. rewrite SM; [reflexivity|]. apply sset_keys. now rewrite SM. }
        intros n own G. destruct (str_eqb_spec n (lit "produces")) as [->|NP]; [|destruct (str_eqb_spec n (lit "consumes")) as [->|NC]]; cbn [orb].
        + exists x1. rewrite sget_sset_other by discriminate. split; [apply sget_sset_same|]. exists d1. split; [exact D1|]. congruence.
        + exists x2. split; [apply sget_sset_same|]. exists d2. split; [exact D2|]. rewrite sget_sset_other in G2 by discriminate. congruence.
        + exists own. split; [|reflexivity]. rewrite !sget_sset_other by auto. exact G.
      - injection E1 as <-. eexists _, _. split; [reflexivity|]. split; [apply same_head_refl|]. split; [reflexivity|]. intros n own G. exists own. split; [exact G|]. now destruct (_ || _). }
    destruct A1 as (g1 & fs1 & -> & H1 & K1 & F1). clear E1.
    (* parameters *)
    apply bind_ok in E as (v2 & E2 & E).
    assert (A2 : exists g2 fs2, v2 = VObj g2 fs2 ints /\ same_head h g2 /\ map fst fs2 = map fst fs /\
      (forall n, n <> lit "parameters" -> sget n fs2 = sget n fs1) /\
      forall own, sget (lit "parameters") fs1 = Some own -> exists x, sget (lit "parameters") fs2 = Some x /\
        match parent with Some p => exists more, attr_of p (lit "parameters") = Some more /\ with_shared own more x | None => x = own end).
    { destruct parent as [p|].
      - apply combine_ok in E2 as (own & more & x & g & G & M & W & SH & ->); [|now rewrite SM].
        eexists _, _. split; [reflexivity|]. split; [destruct H1 as (? & ? & ?), SH as (? & ? & ?); repeat split; congruence|].
        split; [rewrite sset_keys; [exact K1|now rewrite SM]|]. split; [intros n N; now apply sget_sset_other|].
        intros own' G'. exists x. split; [apply sget_sset_same|]. exists more. split; [exact M|]. congruence.
      - injection E2 as <-. eexists _, _. split; [reflexivity|]. split; [exact H1|]. split; [exact K1|]. split; [reflexivity|]. intros own G. eauto. }
    destruct A2 as (g2 & fs2 & -> & H2 & K2 & F2 & P2). clear E2.
    (* schemes *)
    apply bind_ok in E as (os & OS & E). apply bind_ok in E as (s & S & E). apply own_or_ok in S. apply bind_ok in E as (v3 & E3 & E).
    apply update_int in E3 as (_ & ->); [|now rewrite SM].
    assert (OS' : sget (lit "schemes") fs = Some os).
    { pose proof (SM (lit "schemes") fs eq_refl) as M. rewrite smem_sget in M. destruct (sget (lit "schemes") fs) as [o|] eqn:G; [|discriminate M].
      destruct (F1 _ _ G) as (x & X & ->). rewrite <- F2 in X by discriminate. unfold get, attr in OS. rewrite X in OS. congruence. }
    (* security *)
    apply bind_ok in E as (sec & SEC & E).
    assert (A3 : exists g3 fs3, v = VObj g3 fs3 (sset (lit "cached_schemes") s ints) /\ same_head h g3 /\ map fst fs3 = map fst fs /\
      (forall n, n <> lit "security" -> sget n fs3 = sget n fs2) /\
      forall own, sget (lit "security") fs2 = Some own -> exists x, sget (lit "security") fs3 = Some x /\
        if is_swagger (p_root a) then inherited_security own (p_root a) x else x = own).
    { assert (GS : forall own, sget (lit "security") fs2 = Some own -> own = sec) by (intros own G; unfold get, attr in SEC; rewrite G in SEC; congruence).
      assert (KEEP : sec <> VNone \/ is_swagger (p_root a) = false -> v = VObj (key_added (lit "cached_schemes") g2) fs2 (sset (lit "cached_schemes") s ints) ->
        exists g3 fs3, v = VObj g3 fs3 (sset (lit "cached_schemes") s ints) /\ same_head h g3 /\ map fst fs3 = map fst fs /\
        (forall n, n <> lit "security" -> sget n fs3 = sget n fs2) /\
        forall own, sget (lit "security") fs2 = Some own -> exists x, sget (lit "security") fs3 = Some x /\
          if is_swagger (p_root a) then inherited_security own (p_root a) x else x = own).
      { intros K ->. eexists _, _. split; [reflexivity|]. split; [now apply same_head_added|]. split; [exact K2|]. split; [reflexivity|]. intros own G. exists own. split; [exact G|].
        apply GS in G. subst own. destruct (is_swagger (p_root a)); [|reflexivity]. right. destruct K as [K|K]; [auto|discriminate K]. }
      destruct sec as [| | | | | | |].
      1: { destruct (is_swagger (p_root a)) eqn:SW.
        - apply bind_ok in E as (d & D & E). apply get_ok in D. apply update_own in E; [|now rewrite SM]. subst v.
          eexists _, _. split; [reflexivity|]. split; [now apply same_head_added, same_head_added|]. split; [rewrite sset_keys; [exact K2|now rewrite SM]|].
          split; [intros n N; now apply sget_sset_other|]. intros own G. exists d. split; [apply sget_sset_same|]. left. split; [now apply GS|exact D].
        - injection E as <-. apply KEEP; auto. }
      all: injection E as <-; apply KEEP; [left; discriminate|reflexivity]. }
    destruct A3 as (g3 & fs3 & -> & H3 & K3 & F3 & P3). exists g3, fs3, (sset (lit "cached_schemes") s ints).
    assert (MC : smem (lit "cached_schemes") ints = true) by (rewrite (smem_keys _ ints (t_internal COperation)) by exact KI; reflexivity).
    split; [reflexivity|]. split; [exact H3|]. split; [exact K3|]. split; [|split; [now apply sset_keys|split; [intros n N; now apply sget_sset_other|]]].
    - intros n own G. destruct (F1 _ _ G) as (x1 & X1 & R1). unfold op_field. destruct (str_eqb_spec n (lit "produces")) as [->|NP]; [|destruct (str_eqb_spec n (lit "consumes")) as [->|NC]]; cbn [orb] in R1.
      + exists x1. rewrite F3, F2 by discriminate. auto.
      + exists x1. rewrite F3, F2 by discriminate. auto.
      + subst x1. destruct (str_eqb_spec n (lit "parameters")) as [->|NA].
        * destruct (P2 _ X1) as (x & X & R). exists x. rewrite F3 by discriminate. auto.
        * destruct (str_eqb_spec n (lit "security")) as [->|NS].
          -- apply P3. rewrite F2 by discriminate. exact X1.
          -- exists own. rewrite F3, F2 by auto. auto.
    - exists os, s. split; [exact OS'|]. split; [apply sget_sset_same|exact S].
  Qed.
End Op.

(** ** The other handlers *)
Lemma class_complete h fs ints : shaped (Of (h_cls h)) (VObj h fs ints) -> map fst fs = map fst (t_fields (h_cls h)) /\ map fst ints = map fst (t_internal (h_cls h)).
Proof. intro S. inversion S; subst. auto. Qed.
Definition method_fields : list str := map lit ["method"; "url"; "path"; "base_path"]%string.
Lemma patch_method_ok base url k n h fs ints y : h_cls h = COperation -> map fst fs = map fst (t_fields COperation) ->
  patch_method base url k n (VObj h fs ints) = Ok y ->
  exists g ints', y = VObj g fs ints' /\ same_head h g /\ map fst ints' = map fst ints /\ (forall m, ~ In m method_fields -> sget m ints' = sget m ints) /\
    sget (lit "base_path") ints' = Some base /\ sget (lit "path") ints' = Some (VStr k) /\ sget (lit "url") ints' = Some url /\ sget (lit "method") ints' = Some (VStr n).
Proof.
  intros C K E. unfold patch_method in E. cbn [same_class] in E. rewrite C in E. cbn [cls_eqb] in E.
  assert (SM : forall n, smem n fs = smem n (t_fields COperation)) by (intro; now apply smem_keys).
  apply bind_ok in E as (v1 & E1 & E). apply update_int in E1 as (M1 & ->); [|now rewrite SM].
  apply bind_ok in E as (v2 & E2 & E). apply update_int in E2 as (M2 & ->); [|now rewrite SM].
  apply bind_ok in E as (v3 & E3 & E). apply update_int in E3 as (M3 & ->); [|now rewrite SM].
  apply update_int in E as (M4 & ->); [|now rewrite SM].
  eexists _, _. split; [reflexivity|]. split; [now repeat apply same_head_added|]. split; [|split].
  - rewrite !sset_keys; auto.
  - intros m N. cbn [method_fields map In] in N. rewrite !sget_sset_other by (intros ->; apply N; tauto). reflexivity.
  - split; [rewrite !sget_sset_other by discriminate; apply sget_sset_same|]. split; [rewrite !sget_sset_other by discriminate; apply sget_sset_same|].
    split; [rewrite !sget_sset_other by discriminate; apply sget_sset_same|apply sget_sset_same].
Qed.
Lemma patch_methods_ok base url k fs : forall fs', patch_methods base url k fs = Ok fs' ->
  drel (fun n x y => if smem n (t_child CPathItem) then patch_method base url k n x = Ok y else y = x) fs fs'.
Proof.
  induction fs as [|[n x] fs IH]; intros fs' E; cbn [patch_methods] in E.
  - injection E as <-. constructor.
  - apply bind_ok in E as (y & Y & E). apply bind_ok in E as (r & R & E). injection E as <-. constructor; [|now apply IH].
    cbn [fst snd]. split; [reflexivity|]. destruct (smem n (t_child CPathItem)); [exact Y|congruence].
Qed.
(** What becomes of the field [n] of an object of class [c] when the object is visited *)
Definition visit_field (a : papp) (parent : option val) (c : cls) (base url : val) (k n : str) (x y : val) : Prop :=
  match c with
  | COperation => op_field a parent n x y
  | CPathItem => if smem n (t_child CPathItem) then patch_method base url k n x = Ok y else y = x
  | _ => y = x
  end.
Definition path_token (path : str) : str := last (jp_split (Some path)) [].
Definition urls_ok (a : papp) (path : str) (base url : val) : Prop :=
  if is_swagger (p_root a) then exists u, url_of a (path_token path) = Ok u /\ url = VStr u /\ attr_of (p_root a) (lit "basePath") = Some base else base = VNone /\ url = VNone.
Definition schema_name (a : papp) (t : str) (x : val) : Prop :=
  if p_old a then exists l, scope_split SCOPE_SEPARATOR (Some t) = Ok l /\ x = match last l None with Some s => VStr s | None => VNone end else x = VStr t.
Definition visit_ints (a : papp) (path : str) (c : cls) (fs ints ints' : sdict val) : Prop :=
  match c with
  | COperation => (forall n, n <> lit "cached_schemes" -> sget n ints' = sget n ints) /\
      exists own s, sget (lit "schemes") fs = Some own /\ sget (lit "cached_schemes") ints' = Some s /\ inherited own (p_schemes a) s
  | CSchema => (forall n, n <> lit "name" -> sget n ints' = sget n ints) /\
      if startswith path "#/definitions"%string then exists x, sget (lit "name") ints' = Some x /\ schema_name a (path_token path) x else sget (lit "name") ints' = sget (lit "name") ints
  | _ => ints' = ints
  end.
Lemma visit_ok a parent path h fs ints v : map fst fs = map fst (t_fields (h_cls h)) -> map fst ints = map fst (t_internal (h_cls h)) ->
  patch_visit a parent path (VObj h fs ints) = Ok v ->
  exists g fs' ints' base url, v = VObj g fs' ints' /\ same_head h g /\ map fst fs' = map fst fs /\
    (h_cls h = CPathItem -> urls_ok a path base url) /\
    (forall n x, sget n fs = Some x -> exists y, sget n fs' = Some y /\ visit_field a parent (h_cls h) base url (path_token path) n x y) /\
    map fst ints' = map fst ints /\ visit_ints a path (h_cls h) fs ints ints'.
Proof.
  intros KF KI E.
  assert (KEEP : v = VObj h fs ints -> (match h_cls h with COperation | CPathItem | CSchema => False | _ => True end) -> exists g fs' ints' base url, v = VObj g fs' ints' /\ same_head h g /\ map fst fs' = map fst fs /\
    (h_cls h = CPathItem -> urls_ok a path base url) /\
    (forall n x, sget n fs = Some x -> exists y, sget n fs' = Some y /\ visit_field a parent (h_cls h) base url (path_token path) n x y) /\
    map fst ints' = map fst ints /\ visit_ints a path (h_cls h) fs ints ints').
  { intros -> N. exists h, fs, ints, VNone, VNone. split; [reflexivity|]. split; [apply same_head_refl|]. split; [reflexivity|]. split; [intro X; rewrite X in N; destruct N|].
    split; [|split; [reflexivity|destruct (h_cls h); try destruct N; reflexivity]]. intros n x G. exists x. split; [exact G|]. destruct (h_cls h); try destruct N; reflexivity. }
  cbn [patch_visit] in E. destruct (h_cls h) eqn:C; try (injection E as <-; apply KEEP; [reflexivity|exact I]).
  - (* schema *)
    unfold patch_schema in E. cbn [visit_ints visit_field]. destruct (startswith path "#/definitions"%string).
    + assert (X : exists x, schema_name a (path_token path) x /\ update_field (lit "name") x (VObj h fs ints) = Ok v).
      { unfold schema_name, path_token. destruct (p_old a); [|eauto]. apply bind_ok in E as (l & L & E). eauto. }
      destruct X as (x & X & U). apply update_int in U as (M & ->). 2: { rewrite (smem_keys _ fs (t_fields CSchema)) by exact KF. reflexivity. }
      eexists _, _, _, VNone, VNone. split; [reflexivity|]. split; [apply same_head_added, same_head_refl|]. split; [reflexivity|]. split; [discriminate|].
      split; [intros n y G; exists y; auto|]. split; [now apply sset_keys|]. split; [intros n N; now apply sget_sset_other|]. exists x. split; [apply sget_sset_same|exact X].
    + injection E as <-. eexists _, _, _, VNone, VNone. split; [reflexivity|]. split; [apply same_head_refl|]. split; [reflexivity|]. split; [discriminate|].
      split; [intros n y G; exists y; auto|]. split; [reflexivity|]. split; reflexivity.
  - (* operation *)
    destruct (patch_operation_ok a parent h fs ints v C KF KI E) as (g & fs' & ints' & -> & SH & K' & F' & KI' & FI & SC).
    exists g, fs', ints', VNone, VNone. split; [reflexivity|]. split; [exact SH|]. split; [exact K'|]. split; [discriminate|]. split; [exact F'|]. split; [exact KI'|]. split; [exact FI|exact SC].
  - (* path item *)
    cbn [patch_path_item] in E. apply bind_ok in E as ([u b] & U & E). apply bind_ok in E as (fs' & M & E). injection E as <-. cbn [fst snd] in M. apply patch_methods_ok in M.
    exists h, fs', ints, b, u. split; [reflexivity|]. split; [apply same_head_refl|]. split; [symmetry; apply (drel_keys _ _ _ M)|]. split.
    { intros _. unfold urls_ok. destruct (is_swagger (p_root a)).
      - apply bind_ok in U as (t & T & U). apply bind_ok in U as (bb & B & U). injection U as <- <-. exists t. split; [exact T|]. split; [reflexivity|]. now apply get_ok.
      - injection U as <- <-. auto. }
    split; [|split; reflexivity]. intros n x G. destruct (drel_get_l _ _ _ _ _ M G) as (y & Y & R). exists y. split; [exact Y|exact R].
Qed.

(** ** The scan *)
Definition patch_list a par path := fix go (i : nat) (l : list val) : res (list val) := match l with
  | [] => Ok [] | x :: l => do y <- patch a par (sub (str_of_nat i) path) x; do l' <- go (S i) l; Ok (y :: l') end.
Definition patch_dict a par path := fix go (d : sdict val) : res (sdict val) := match d with
  | [] => Ok [] | (k, x) :: d => do y <- patch a par (sub k path) x; do d' <- go d; Ok ((k, y) :: d') end.
Lemma patch_list_eq a par path l : patch a par path (VList l) = do l <- patch_list a par path 0 l; Ok (VList l).
Proof. reflexivity. Qed.
Lemma patch_dict_eq a par path d : patch a par path (VDict d) = do l <- patch_dict a par path d; Ok (VDict l).
Proof. reflexivity. Qed.
Lemma patch_obj_eq a par path h fs ints : patch a par path (VObj h fs ints) =
  do fs' <- patch_dict a (Some (VObj h fs ints)) path fs; patch_visit a par path (VObj h fs' ints).
Proof. reflexivity. Qed.
Lemma patch_list_ok a par path l : forall i m, patch_list a par path i l = Ok m -> length l = length m /\
  forall j x, nth_error l j = Some x -> exists y, nth_error m j = Some y /\ patch a par (sub (str_of_nat (i + j)) path) x = Ok y.
Proof.
  induction l as [|x l IH]; intros i m E; cbn [patch_list] in E.
  - injection E as <-. split; [reflexivity|]. intros [|j] x X; discriminate X.
  - apply bind_ok in E as (y & Y & E). apply bind_ok in E as (r & R & E). injection E as <-. apply IH in R as (L & R). split; [cbn; congruence|].
    intros [|j] z Z; cbn [nth_error] in *.
    + injection Z as ->. exists y. rewrite Nat.add_0_r. auto.
    + replace (i + S j) with (S i + j) by lia. now apply R.
Qed.
Lemma patch_dict_ok a par path d : forall e, patch_dict a par path d = Ok e -> drel (fun k x y => patch a par (sub k path) x = Ok y) d e.
Proof.
  induction d as [|[k x] d IH]; intros e E; cbn [patch_dict] in E.
  - injection E as <-. constructor.
  - apply bind_ok in E as (y & Y & E). apply bind_ok in E as (r & R & E). injection E as <-. constructor; [cbn; auto|now apply IH].
Qed.
Lemma no_object_ind (P : val -> Prop) : (forall v, ~ is_obj v -> (forall l, v <> VList l) -> (forall d, v <> VDict d) -> P v) ->
  (forall l, Forall P l -> P (VList l)) -> (forall d, Forall (fun kv => P (snd kv)) d -> P (VDict d)) -> forall v, wfv v -> no_object v -> P v.
Proof.
  intros A B C v. induction v using val_ind'; intros W N; try (apply A; [intros []|discriminate|discriminate]).
  - apply B. inversion W as [| | | | |? F| |]; subst. rewrite Forall_forall in *. intros x I. apply H; auto. eapply no_object_item; eauto.
  - apply C. inversion W as [| | | | | |? ND F|]; subst. rewrite Forall_forall in *. intros [k x] J. apply (H (k, x) J); [exact (F _ J)|].
    apply (no_object_key d k x N). now apply In_sget.
  - apply no_object_here in N. elim N. exact Logic.I.
Qed.
Lemma patch_plain a v : wfv v -> no_object v -> forall par path, patch a par path v = Ok v.
Proof.
  intros W N. pattern v. apply no_object_ind; auto; clear v W N.
  - intros v N L D par path. destruct v; try reflexivity; [now elim (L l)|now elim (D d)|elim N; exact I].
  - intros l F par path. rewrite patch_list_eq. assert (G : forall i, patch_list a par path i l = Ok l); [|now rewrite G].
    induction F as [|x l X F IH]; intro i; cbn [patch_list]; [reflexivity|]. now rewrite X, IH.
  - intros d F par path. rewrite patch_dict_eq. assert (G : patch_dict a par path d = Ok d); [|now rewrite G].
    induction F as [|[k x] d X F IH]; cbn [patch_dict]; [reflexivity|]. cbn [snd] in X. now rewrite X, IH.
Qed.
Definition tame (v : val) : Prop := exists ct c, shaped_in ct c v.
Lemma tame_obj h fs ints : tame (VObj h fs ints) -> shaped (Of (h_cls h)) (VObj h fs ints).
Proof.
  intros (ct & c & S). inversion S as [|? ? S'| |]; subst. inversion S' as [|? S''|]; subst; [|exact S'].
  inversion S''; subst. now constructor.
Qed.
Lemma tame_item l i x : tame (VList l) -> nth_error l i = Some x -> tame x.
Proof.
  intros (ct & c & S) G. inversion S as [|? ? S'|? ? F|]; subst.
  - inversion S' as [|? S''|]; subst. inversion S''.
  - rewrite Forall_forall in F. exists One, c. constructor. apply F. eapply nth_error_In; eauto.
Qed.
Lemma tame_key d k x : tame (VDict d) -> sget k d = Some x -> tame x.
Proof.
  intros (ct & c & S) G. inversion S as [|? ? S'| |? ? ND F]; subst.
  - inversion S' as [|? S''|]; subst. inversion S''.
  - rewrite Forall_forall in F. exists One, c. constructor. apply sget_In in G. exact (F _ G).
Qed.
Lemma shaped_field h fs ints n x : shaped (Of (h_cls h)) (VObj h fs ints) -> sget n fs = Some x -> (sget n (t_child (h_cls h)) = None /\ wfv x /\ no_object x) \/
  exists ct cc, sget n (t_child (h_cls h)) = Some (ct, cc) /\ shaped_in ct cc x.
Proof.
  intros S G. inversion S as [| |? ? ? _ _ P Q]; subst. destruct (sget n (t_child (h_cls h))) as [[ct cc]|] eqn:T.
  - right. exists ct, cc. split; [reflexivity|]. eauto.
  - left. split; [reflexivity|]. eauto.
Qed.
Lemma plain_reach v ts o : wfv v -> no_object v -> reach [] v ts o -> wfv o /\ no_object o.
Proof.
  intros W N R. apply no_object_reach in R; [|exact N]. split; [eapply inside_wf; eauto|]. intros us p I. apply (N (ts ++ us)). clear - R I. induction R; cbn; [exact I|econstructor; eauto|econstructor; eauto].
Qed.
(** An operation whose method and URL were filled in *)
Definition touched (v w : val) : Prop := v = w \/ exists h fs ints base url k n, v = VObj h fs ints /\ h_cls h = COperation /\ patch_method base url k n v = Ok w.
Definition allowed (v : val) (ts : list str) : Prop :=
  forall us n h fs ints, ts = us ++ [n] -> reach [] v us (VObj h fs ints) -> h_cls h = COperation -> ~ In n op_fields.
Lemma plain_same v : ~ is_obj v -> outside_same v v.
Proof. intro N. destruct v; try (apply os_plain; [exact N|discriminate|discriminate]); [now apply os_list|now apply os_dict]. Qed.
Lemma patch_outside a par path v v' : tame v -> patch a par path v = Ok v' -> outside_same v v'.
Proof.
  intros T E. destruct v as [|b|z|q|s|l|d|h fs ints].
  1-5: cbn in E; injection E as <-; apply plain_same; intros [].
  - rewrite patch_list_eq in E. apply bind_ok in E as (m & M & E). injection E as <-. apply patch_list_ok in M as (L & _). now apply os_list.
  - rewrite patch_dict_eq in E. apply bind_ok in E as (m & M & E). injection E as <-. apply patch_dict_ok in M. apply os_dict. now apply drel_keys in M.
  - apply tame_obj in T. destruct (class_complete _ _ _ T) as (KF & KI). rewrite patch_obj_eq in E. apply bind_ok in E as (fs' & M & E). apply patch_dict_ok in M. apply drel_keys in M as K.
    apply visit_ok in E as (g & fs2 & ints' & base & url & -> & (S1 & S2 & S3) & K2 & _ & _ & _ & VI); [|congruence|exact KI].
    apply os_obj; try congruence. intros n N1 N2. destruct (h_cls h) eqn:C; cbn [visit_ints] in VI; try now rewrite VI.
    + destruct VI as (VI & _). apply VI. intros ->. now apply N2.
    + destruct VI as (VI & _). apply VI. intros ->. apply N1. split; [reflexivity|]. cbn. tauto.
Qed.
Lemma reach_same_fields h g fs ints ints' n ts x : reach [] (VObj h fs ints) (n :: ts) x -> reach [] (VObj g fs ints') (n :: ts) x.
Proof. intro R. inversion R; subst. econstructor; eauto. Qed.
Lemma outside_method x y h fs ints base url k n w : outside_same x y -> y = VObj h fs ints -> h_cls h = COperation -> map fst fs = map fst (t_fields COperation) ->
  patch_method base url k n y = Ok w -> outside_same x w.
Proof.
  intros O -> C K E. apply patch_method_ok in E as (g & ints' & -> & (S1 & S2 & S3) & _ & OI & _); auto. inversion O as [v N| | |h0 ? fs0 ? ints0 ? A1 A2 A3 A4 A5]; subst.
  - elim N. exact I.
  - apply os_obj; try congruence. intros m N1 N2. rewrite OI; [now apply A5|]. intro J. apply N1. split; [congruence|]. cbn in *. tauto.
Qed.
Lemma reach_below v t ts x : reach [] v (t :: ts) x -> ~ no_elements v /\ v <> VNone /\ ~ empty_value v.
Proof.
  intro R. unfold no_elements. inversion R; subst.
  - repeat split; [intuition discriminate|discriminate|intro E; inversion E].
  - destruct l; [destruct i; discriminate|]. repeat split; [intuition discriminate|discriminate|intro E; inversion E].
  - destruct d; [discriminate|]. repeat split; [intuition discriminate|discriminate|intro E; inversion E].
Qed.
Lemma visit_persist a par c base url k n y z ts x : visit_field a par c base url k n y z ->
  (forall h fs ints, y = VObj h fs ints -> map fst fs = map fst (t_fields (h_cls h))) ->
  reach [] y ts x -> (ts = [] -> c = COperation -> ~ In n op_fields) ->
  exists x', reach [] z ts x' /\ (x = x' \/ ts = [] /\ touched x x').
Proof.
  intros V KY R A.
  assert (SAME : z = y -> exists x', reach [] z ts x' /\ (x = x' \/ ts = [] /\ touched x x')) by (intros ->; exists x; split; [exact R|now left]).
  destruct c; cbn [visit_field] in V; auto.
  - (* operation *)
    unfold op_field in V. destruct ts as [|t ts].
    + specialize (A eq_refl eq_refl). cbn [op_fields map In] in A.
      destruct (str_eqb_spec n (lit "produces")) as [->|_]; [elim A; tauto|]. destruct (str_eqb_spec n (lit "consumes")) as [->|_]; [elim A; tauto|].
      destruct (str_eqb_spec n (lit "parameters")) as [->|_]; [elim A; tauto|]. destruct (str_eqb_spec n (lit "security")) as [->|_]; [elim A; tauto|]. auto.
    + destruct (reach_below _ _ _ _ R) as (B1 & B2 & B3).
      destruct (str_eqb n (lit "produces")). { destruct (is_swagger (p_root a)); [|auto]. destruct V as (d & _ & [(N & _)|(_ & V)]); [contradiction|auto]. }
      destruct (str_eqb n (lit "consumes")). { destruct (is_swagger (p_root a)); [|auto]. destruct V as (d & _ & [(N & _)|(_ & V)]); [contradiction|auto]. }
      destruct (str_eqb n (lit "parameters")).
      { destruct par as [p|]; [|auto]. destruct V as (more & _ & [E _|l ps m -> _ _ _ ->]); [contradiction|]. exists x. split; [|now left].
        inversion R as [| |? i w ? ? N RW|]; subst. econstructor; [|exact RW]. rewrite nth_error_app1; [exact N|]. apply nth_error_Some. congruence. }
      destruct (str_eqb n (lit "security")). { destruct (is_swagger (p_root a)); [|auto]. destruct V as [(N & _)|(_ & V)]; [contradiction|auto]. }
      auto.
  - (* path item *)
    destruct (smem n (t_child CPathItem)); [|auto]. destruct (same_class COperation y) eqn:SC.
    + destruct y as [| | | | | | |h fs ints]; try discriminate SC. cbn [same_class] in SC. apply cls_eqb_eq in SC. symmetry in SC. pose proof (KY _ _ _ eq_refl) as K. rewrite SC in K.
      destruct (patch_method_ok _ _ _ _ _ _ _ _ SC K V) as (g & ints' & -> & _). destruct ts as [|t ts].
      * inversion R; subst. eexists. split; [constructor|]. right. split; [reflexivity|]. right. exists h, fs, ints, base, url, k, n. auto.
      * exists x. split; [|now left]. eapply reach_same_fields; eauto.
    + unfold patch_method in V. rewrite SC in V. injection V as <-. auto.
Qed.
Lemma outside_trans_touched x y w : outside_same x y -> (forall h fs ints, y = VObj h fs ints -> map fst fs = map fst (t_fields (h_cls h))) -> touched y w -> outside_same x w.
Proof.
  intros O K [<-|(h & fs & ints & base & url & k & n & -> & C & E)]; [exact O|]. eapply outside_method; eauto. rewrite <- C. eauto.
Qed.
Lemma outside_complete x y : outside_same x y -> tame x -> forall h fs ints, y = VObj h fs ints -> map fst fs = map fst (t_fields (h_cls h)).
Proof.
  intros O T h fs ints ->. inversion O as [v N| | |h0 ? fs0 ? ints0 ? A1 A2 A3 A4 A5]; subst; [elim N; exact I|]. apply tame_obj in T. destruct (class_complete _ _ _ T). congruence.
Qed.
Definition typed_value (v : val) : Prop := tame v \/ (wfv v /\ no_object v).
Lemma typed_reach v ts x : reach [] v ts x -> typed_value v -> typed_value x.
Proof.
  induction 1 as [v|h fs ints n v ts x _ G R IH|l i v ts x G R IH|d k v ts x G R IH]; intro T; [exact T|..]; apply IH.
  - destruct T as [T|(W & N)]; [|apply no_object_here in N; elim N; exact I]. apply tame_obj in T. destruct (shaped_field _ _ _ _ _ T G) as [(_ & H)|(ct & cc & _ & H)]; [now right|left; exists ct, cc; exact H].
  - destruct T as [T|(W & N)]; [left; eapply tame_item; eauto|right]. split; [|eapply no_object_item; [exact N|eapply nth_error_In; eauto]]. inversion W as [| | | | |? F| |]; subst. rewrite Forall_forall in F. apply F. eapply nth_error_In; eauto.
  - destruct T as [T|(W & N)]; [left; eapply tame_key; eauto|right]. split; [|eapply no_object_key; eauto]. inversion W as [| | | | | |? ND F|]; subst. rewrite Forall_forall in F. apply sget_In in G. exact (F _ G).
Qed.
Theorem patch_at a : forall v ts x, reach [] v ts x -> forall par path v', path <> [] -> typed_value v -> patch a par path v = Ok v' -> is_obj x \/ allowed v ts ->
  exists x', reach [] v' ts x' /\ outside_same x x' /\ (is_obj x -> exists par' x1, patch a par' (rfc_pointer path ts) x = Ok x1 /\ (x1 = x' \/ ts <> [] /\ touched x1 x')).
Proof.
  assert (PLAIN : forall v ts x par path v', reach [] v ts x -> wfv v -> no_object v -> patch a par path v = Ok v' -> exists x', reach [] v' ts x' /\ outside_same x x' /\ (is_obj x -> exists par' x1, patch a par' (rfc_pointer path ts) x = Ok x1 /\ (x1 = x' \/ ts <> [] /\ touched x1 x'))).
  { intros v ts x par path v' R W N E. rewrite (patch_plain a v W N) in E. injection E as <-. destruct (plain_reach _ _ _ W N R) as (_ & NO). apply no_object_here in NO.
    exists x. split; [exact R|]. split; [now apply plain_same|]. intro O. contradiction. }
  induction 1 as [v|h fs ints n v ts x _ G R IH|l i v ts x G R IH|d k v ts x G R IH]; intros par path v' NP [T|(W & N)] E OA;
    try (eapply PLAIN; [|exact W|exact N|exact E]; econstructor; eauto; fail).
  - exists v'. split; [constructor|]. split; [eapply patch_outside; eauto|]. intros _. exists par, v'. rewrite pointer_nil. split; [exact E|now left].
  - pose proof (tame_obj _ _ _ T) as S. destruct (class_complete _ _ _ S) as (KF & KI). rewrite patch_obj_eq in E. apply bind_ok in E as (fs1 & M & E). apply patch_dict_ok in M.
    pose proof (drel_keys _ _ _ M) as K1. destruct (drel_get_l _ _ _ _ _ M G) as (y & Y & PY).
    apply visit_ok in E as (g & fs2 & ints2 & base & url & -> & SH & K2 & UO & VF & _ & _); [|congruence|exact KI].
    destruct (VF _ _ Y) as (z & Z & VZ).
    assert (TV : typed_value v).
    { destruct (shaped_field _ _ _ _ _ S G) as [(_ & H)|(ct & cc & _ & H)]; [now right|left; exists ct, cc; exact H]. }
    assert (OA' : is_obj x \/ allowed v ts).
    { destruct OA as [O|A]; [now left|]. right. intros us m h' fs' ints' -> RR C. apply (A (n :: us) m h' fs' ints'); [reflexivity| |exact C]. econstructor; eauto. }
    assert (NS : sub n path <> []) by (rewrite sub_pointer by exact NP; now apply pointer_nonempty).
    destruct (IH (Some (VObj h fs ints)) (sub n path) y NS TV PY OA') as (x' & RX & OX & PX).
    assert (KY : forall h fs ints, y = VObj h fs ints -> map fst fs = map fst (t_fields (h_cls h))).
    { destruct TV as [TV|(WV & NV)]; [eapply outside_complete; [eapply patch_outside; eauto|exact TV]|]. rewrite (patch_plain a v WV NV) in PY. injection PY as <-.
      intros h' fs' ints' ->. apply no_object_here in NV. elim NV. exact I. }
    destruct (visit_persist a par (h_cls h) base url (path_token path) n y z ts x' VZ KY RX) as (x'' & RZ & TX).
    { intros -> C IN. destruct OA as [O|A].
      - inversion R; subst. clear - S G O IN C. destruct (shaped_field _ _ _ _ _ S G) as [(_ & _ & NO)|(ct & cc & TC & SX)]; [apply no_object_here in NO; contradiction|].
        rewrite C in TC. cbn [op_fields map In] in IN. destruct IN as [<-|[<-|[<-|[<-|[]]]]]; try discriminate TC. vm_compute in TC. injection TC as <- <-. inversion SX; subst; destruct O.
      - refine (A [] n h fs ints eq_refl _ C IN). constructor. }
    exists x''. split; [econstructor; eauto|].
    assert (KX : forall h fs ints, x' = VObj h fs ints -> map fst fs = map fst (t_fields (h_cls h))).
    { destruct (typed_reach _ _ _ R TV) as [TX'|(_ & NX)]; [eapply outside_complete; eauto|]. intros h' fs' ints' ->. apply no_object_here in NX. inversion OX as [? N0| | |]; subst; [elim N0; exact Logic.I|elim NX; exact Logic.I]. }
    split; [destruct TX as [<-|(_ & TX)]; [exact OX|eapply outside_trans_touched; eauto]|].
    intro O. destruct (PX O) as (par' & x1 & P1 & T1). exists par', x1. rewrite sub_pointer, <- pointer_app in P1 by exact NP. split; [exact P1|]. right. split; [discriminate|].
    destruct TX as [<-|(-> & TX)].
    + destruct T1 as [->|(_ & T1)]; [now left|exact T1].
    + destruct T1 as [->|(T1 & _)]; [exact TX|now elim T1].
  - rewrite patch_list_eq in E. apply bind_ok in E as (m & M & E). injection E as <-. apply patch_list_ok in M as (L & M). destruct (M _ _ G) as (y & Y & PY). cbn [Nat.add] in PY.
    pose proof (tame_item _ _ _ T G) as TV.
    destruct (IH par (sub (str_of_nat i) path) y) as (x' & RX & OX & PX).
    { rewrite sub_pointer by exact NP. now apply pointer_nonempty. }
    { now left. }
    { exact PY. }
    { destruct OA as [O|A]; [now left|]. right. intros us q h' fs' ints' -> RR C. apply (A (str_of_nat i :: us) q h' fs' ints'); [reflexivity| |exact C]. econstructor; eauto. }
    exists x'. split; [econstructor; eauto|]. split; [exact OX|]. rewrite sub_pointer in PX by exact NP. rewrite <- pointer_app in PX. intro O. destruct (PX O) as (par' & x1 & P1 & T1). exists par', x1. split; [exact P1|]. destruct T1 as [->|(_ & T1)]; [now left|right; split; [discriminate|exact T1]].
  - rewrite patch_dict_eq in E. apply bind_ok in E as (m & M & E). injection E as <-. apply patch_dict_ok in M. destruct (drel_get_l _ _ _ _ _ M G) as (y & Y & PY).
    pose proof (tame_key _ _ _ T G) as TV.
    destruct (IH par (sub k path) y) as (x' & RX & OX & PX).
    { rewrite sub_pointer by exact NP. now apply pointer_nonempty. }
    { now left. }
    { exact PY. }
    { destruct OA as [O|A]; [now left|]. right. intros us q h' fs' ints' -> RR C. apply (A (k :: us) q h' fs' ints'); [reflexivity| |exact C]. econstructor; eauto. }
    exists x'. split; [econstructor; eauto|]. split; [exact OX|]. rewrite sub_pointer in PX by exact NP. rewrite <- pointer_app in PX. intro O. destruct (PX O) as (par' & x1 & P1 & T1). exists par', x1. split; [exact P1|]. destruct T1 as [->|(_ & T1)]; [now left|right; split; [discriminate|exact T1]].
Qed.
