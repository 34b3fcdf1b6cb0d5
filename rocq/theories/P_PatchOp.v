(** Proofs about completing operations: what an operation has afterwards. *)
From Coq Require Import Lia.
From Verif Require Import PyBase PyFacts PyJson M_JsonPtr S_JsonPtr M_Url M_Scope M_SpecVal M_SpecTree M_Merge M_MergeRef M_Patch S_Parse S_SpecTree S_Merge S_Patch P_SpecBase P_Op P_SpecTree P_Merge P_MergeShape P_Patch.
Close Scope Q_scope.

(** ** What is below operations is not changed *)
Definition quiet (c : cls) : bool := match c with CSwagger | COperation | CPathItem => false | _ => true end.
Definition quiet_ctx (c : ctx) : bool := match c with Of c => quiet c | AddP => true end.
Lemma quiet_child c n ct cc : quiet c = true -> sget n (t_child c) = Some (ct, cc) -> quiet_ctx cc = true.
Proof.
  intros Q G. apply sget_In in G. destruct c; try discriminate Q; cbn in G;
    repeat (destruct G as [G|G]; [injection G as <- <- <-; reflexivity|]); destruct G.
Qed.
Lemma operation_child n ct cc : sget n (t_child COperation) = Some (ct, cc) -> quiet_ctx cc = true.
Proof. intro G. apply sget_In in G. cbn in G. repeat (destruct G as [G|G]; [injection G as <- <- <-; reflexivity|]); destruct G. Qed.
Definition calm (v : val) : Prop := (exists ct c, quiet_ctx c = true /\ shaped_in ct c v) \/ (wfv v /\ no_object v).
Definition below_paths (path : str) : Prop := prefixb (lit "#/paths") path = true.
Lemma below_sub k path : below_paths path -> below_paths (sub k path).
Proof.
  unfold below_paths. intro P. apply prefixb_spec in P as (r & ->). rewrite sub_pointer by discriminate. apply prefixb_spec.
  unfold rfc_pointer. rewrite <- !app_assoc. eauto.
Qed.
Lemma below_not path : below_paths path -> startswith path "#/definitions"%string = false.
Proof.
  unfold below_paths, startswith. intro P. apply prefixb_spec in P as (r & ->). reflexivity.
Qed.
Lemma patch_list_id a par path l : (forall i x, In x l -> patch a par (sub (str_of_nat i) path) x = Ok x) -> forall i, patch_list a par path i l = Ok l.
Proof.
  induction l as [|x l IH]; intros H i; [reflexivity|]. cbn [patch_list]. rewrite (H i x) by (now left). cbn [bind]. fold (patch_list a par path). rewrite IH by (intros j y IN; apply H; now right). reflexivity.
Qed.
Lemma patch_dict_id a par path d : (forall k x, In (k, x) d -> patch a par (sub k path) x = Ok x) -> patch_dict a par path d = Ok d.
Proof.
  induction d as [|[k x] d IH]; intro H; [reflexivity|]. cbn [patch_dict]. rewrite (H k x) by (now left). cbn [bind]. fold (patch_dict a par path). rewrite IH by (intros j y IN; apply H; now right). reflexivity.
Qed.
Lemma calm_item l x : calm (VList l) -> In x l -> calm x.
Proof.
  intros [(ct & c & Q & S)|(W & N)] IN.
  - left. inversion S as [|? ? S1|? ? F|]; subst; [inversion S1; match goal with H : shaped _ _ |- _ => inversion H end|]. rewrite Forall_forall in F. exists One, c. split; [exact Q|]. constructor. auto.
  - right. split; [|eapply no_object_item; eauto]. inversion W as [| | | | |? F| |]; subst. rewrite Forall_forall in F. auto.
Qed.
Lemma calm_key d k x : calm (VDict d) -> In (k, x) d -> calm x.
Proof.
  intros [(ct & c & Q & S)|(W & N)] IN.
  - left. inversion S as [|? ? S1| |? ? ND F]; subst; [inversion S1; match goal with H : shaped _ _ |- _ => inversion H end|]. rewrite Forall_forall in F. exists One, c. split; [exact Q|]. constructor. exact (F _ IN).
  - right. inversion W as [| | | | | |? ND F|]; subst. split; [|eapply no_object_key; [exact N|apply In_sget; eauto]]. rewrite Forall_forall in F. exact (F _ IN).
Qed.
Lemma calm_obj h fs ints : calm (VObj h fs ints) -> quiet (h_cls h) = true /\ shaped (Of (h_cls h)) (VObj h fs ints).
Proof.
  intros [(ct & c & Q & S)|(W & N)].
  - inversion S as [|? ? S1| |]; subst. inversion S1 as [|? S2|]; subst.
    + assert (h_cls h = CSchema) as X by (now inversion S2). rewrite X. split; [reflexivity|exact S2].
    + split; assumption.
  - apply no_object_here in N. elim N. exact Logic.I.
Qed.
Lemma fields_calm h fs ints k x : (quiet (h_cls h) = true \/ h_cls h = COperation) -> shaped (Of (h_cls h)) (VObj h fs ints) -> sget k fs = Some x -> calm x.
Proof.
  intros Q S G. destruct (shaped_field _ _ _ _ _ S G) as [(_ & H)|(ct & cc & T & H)]; [now right|]. left. exists ct, cc. split; [|exact H].
  destruct Q as [Q|Q]; [eapply quiet_child; eauto|]. rewrite Q in T. eapply operation_child; eauto.
Qed.
Lemma patch_calm a v : calm v -> forall par path, below_paths path -> patch a par path v = Ok v.
Proof.
  induction v as [| | | | |l IH|d IH|h fs ints IH] using val_ind'; intros K par path P; try reflexivity.
  - rewrite patch_list_eq, patch_list_id; [reflexivity|]. intros i x IN. rewrite Forall_forall in IH. apply IH; [exact IN|eapply calm_item; eauto|now apply below_sub].
  - rewrite patch_dict_eq, patch_dict_id; [reflexivity|]. intros k x IN. rewrite Forall_forall in IH. apply (IH _ IN); [eapply calm_key; eauto|now apply below_sub].
  - destruct (calm_obj _ _ _ K) as (Q & S). rewrite patch_obj_eq, patch_dict_id.
    + cbn [bind patch_visit]. destruct (h_cls h) eqn:C; try discriminate Q; try reflexivity. unfold patch_schema. now rewrite below_not.
    + intros k x IN. rewrite Forall_forall in IH. apply (IH _ IN); [|now apply below_sub]. apply (fields_calm h fs ints k x (or_introl Q) S). apply In_sget; [|exact IN]. destruct (class_complete _ _ _ S) as (-> & _). apply fields_nodup.
Qed.

(** ** An operation and its path item *)
Lemma pointer_paths ts : below_paths (rfc_pointer (lit "#") (lit "paths" :: ts)).
Proof.
  unfold below_paths. apply prefixb_spec. exists (flat_map (fun t => "/"%char :: rfc_escape t) ts). reflexivity.
Qed.
Lemma token_last ts t : path_token (rfc_pointer (lit "#") (ts ++ [t])) = t.
Proof. unfold path_token. rewrite split_hash. apply (last_last (lit "#" :: ts) t []). Qed.
Section Op.
  Context (a : papp) (root root' : val).
  Hypothesis SR : shaped (Of CSwagger) root.
  Hypothesis E : patch a None (lit "#") root = Ok root'.
  Context (k m : str) (pi op : val).
  Hypothesis PI : path_item root k pi.
  Hypothesis OP : operation pi m op.
  (** The path item and the operation afterwards *)
  Lemma op_complete : exists pi' op' base url,
    path_item root' k pi' /\ operation pi' m op' /\ urls_ok a (rfc_pointer (lit "#") [lit "paths"; k]) base url /\
    (forall n, smem n (t_child CPathItem) = false \/ n = lit "parameters" -> field_of pi' n = field_of pi n) /\
    (forall n own, field_of op n = Some own -> exists x, field_of op' n = Some x /\ op_field a (Some pi) n own x) /\
    (forall n, field_of op n = None -> field_of op' n = None) /\
    (exists own s, field_of op (lit "schemes") = Some own /\ internal_of op' (lit "cached_schemes") = Some s /\ inherited own (p_schemes a) s) /\
    internal_of op' (lit "base_path") = Some base /\ internal_of op' (lit "path") = Some (VStr k) /\ internal_of op' (lit "url") = Some url /\ internal_of op' (lit "method") = Some (VStr m) /\
    (forall n, ~ In n method_fields -> n <> lit "cached_schemes" -> internal_of op' n = internal_of op n).
  Proof.
    destruct PI as (ps & FP & GK & (h & fs & ints & -> & C)). destruct OP as (FM & (g & os & oi & -> & CO)). cbn [field_of] in FM.
    assert (R : reach [] root [lit "paths"; k] (VObj h fs ints)).
    { destruct root as [| | | | | | |hr fr ir]; try discriminate FP. cbn [field_of] in FP. econstructor; [intros []|exact FP|]. econstructor; [exact GK|constructor]. }
    assert (T : typed_value root) by (left; exists One, (Of CSwagger); now constructor).
    destruct (patch_at a _ _ _ R None (lit "#") root' ltac:(discriminate) T E (or_introl Logic.I)) as (pi' & R' & O & PX).
    destruct (PX Logic.I) as (par' & x1 & P1 & T1). clear PX.
    assert (TP : tame (VObj h fs ints)). { destruct (typed_reach _ _ _ R T) as [TP|(_ & N)]; [exact TP|]. apply no_object_here in N. elim N. exact Logic.I. }
    pose proof (tame_obj _ _ _ TP) as S. pose proof (patch_outside _ _ _ _ _ TP P1) as O1.
    assert (x1 = pi') as ->.
    { destruct T1 as [->|(_ & [->|(h1 & f1 & i1 & b1 & u1 & k1 & n1 & -> & C1 & _)])]; [reflexivity|reflexivity|]. inversion O1; subst; congruence. }
    clear T1. destruct (class_complete _ _ _ S) as (KF & KI). rewrite patch_obj_eq in P1. apply bind_ok in P1 as (fs1 & M & P1). apply patch_dict_ok in M.
    pose proof (drel_keys _ _ _ M) as K1. destruct (drel_get_l _ _ _ _ _ M FM) as (y & Y & PY).
    apply visit_ok in P1 as (g2 & fs2 & ints2 & base & url & -> & SH & K2 & UO & VF & KI2 & VI); [|congruence|exact KI]. rewrite C in UO, VF, VI. specialize (UO eq_refl). cbn [visit_ints] in VI.
    destruct (VF _ _ Y) as (z & Z & VZ). cbn [visit_field] in VZ.
    assert (MC : smem m (t_child CPathItem) = true).
    { destruct (shaped_field _ _ _ _ _ S FM) as [(_ & _ & N)|(ct & cc & TC & _)]; [apply no_object_here in N; elim N; exact Logic.I|]. rewrite smem_sget, <- C, TC. reflexivity. }
    rewrite MC in VZ.
    (* the operation itself *)
    assert (SO : shaped (Of COperation) (VObj g os oi)).
    { rewrite <- CO. apply tame_obj. destruct (shaped_field _ _ _ _ _ S FM) as [(_ & _ & N)|(ct & cc & TC & X)]; [apply no_object_here in N; elim N; exact Logic.I|]. exists ct, cc. exact X. }
    rewrite <- CO in SO. destruct (class_complete _ _ _ SO) as (KO & KOI).
    assert (BP : below_paths (sub m (rfc_pointer (lit "#") [lit "paths"; k]))) by (apply below_sub, pointer_paths).
    rewrite patch_obj_eq, patch_dict_id in PY.
    2: { intros n x IN. apply patch_calm; [|now apply below_sub]. eapply fields_calm; [right; exact CO|exact SO|]. apply In_sget; [|exact IN]. rewrite KO. apply fields_nodup. }
    cbn [bind] in PY. apply visit_ok in PY as (g3 & os3 & oi3 & b3 & u3 & -> & SH3 & K3 & _ & VF3 & KI3 & VI3); [|exact KO|exact KOI].
    rewrite CO in VF3, VI3. cbn [visit_field visit_ints] in VF3, VI3. destruct VI3 as (VN & (own & s & G1 & G2 & IH)).
    assert (CG : h_cls g3 = COperation) by (destruct SH3; congruence).
    destruct (patch_method_ok base url (path_token (rfc_pointer (lit "#") [lit "paths"; k])) m g3 os3 oi3 z CG ltac:(congruence) VZ) as (g4 & oi4 & -> & SH4 & K4 & NM & MB & MP & MU & MM).
    replace (path_token (rfc_pointer (lit "#") [lit "paths"; k])) with k in MP by (symmetry; exact (token_last [lit "paths"] k)).
    exists (VObj g2 fs2 ints2), (VObj g4 os3 oi4), base, url. cbn [field_of internal_of].
    split; [|split; [|split; [exact UO|split; [|split; [|split; [|split]]]]]].
    - destruct root as [| | | | | | |hr fr ir]; try discriminate FP. cbn [field_of] in FP.
      assert (CR : h_cls hr = CSwagger) by (now inversion SR).
      assert (RP : reach [] (VObj hr fr ir) [lit "paths"] (VDict ps)) by (econstructor; [intros []|exact FP|constructor]).
      destruct (patch_at a _ _ _ RP None (lit "#") root' ltac:(discriminate) T E) as (x' & RX & OX & _).
      { right. intros us n h' fs' ints' EQ RU CU. destruct us as [|u [|? ?]]; try discriminate EQ. inversion RU; subst. congruence. }
      pose proof (patch_outside _ _ _ _ _ (ex_intro _ One (ex_intro _ (Of CSwagger) (sh_one _ _ SR))) E) as OR.
      inversion OR as [? NO| | |? gr ? fr' ? ir' A1 A2 A3 A4 A5]; subst; [elim NO; exact Logic.I|].
      inversion RX as [|? ? ? ? w ? ? _ GP RW| |]; subst. inversion RW; subst. inversion R' as [|? ? ? ? w ? ? _ GP' RW'| |]; subst. rewrite GP in GP'. injection GP' as <-.
      inversion OX as [|? ? L|? e L|]; subst; try congruence. exists e. split; [exact GP|]. inversion RW' as [| | |? ? w ? ? GQ RQ]; subst. inversion RQ; subst. split; [exact GQ|].
      eexists _, _, _. split; [reflexivity|]. destruct SH. congruence.
    - split; [exact Z|]. exists g4, os3, oi4. split; [reflexivity|]. destruct SH4 as (X & _). congruence.
    - intros n N. destruct (sget n fs) as [x|] eqn:G.
      2: { apply sget_None. apply sget_None in G. congruence. }
      destruct (drel_get_l _ _ _ _ _ M G) as (x1 & X1 & PX1). destruct (VF _ _ X1) as (x2 & X2 & VX). cbn [visit_field] in VX. rewrite X2. f_equal.
      assert (CX : calm x -> x1 = x).
      { intro CX. rewrite patch_calm in PX1; [congruence|exact CX|]. apply below_sub, pointer_paths. }
      destruct N as [N| ->].
      + rewrite N in VX. subst x2. apply CX. destruct (shaped_field _ _ _ _ _ S G) as [(_ & H)|(ct & cc & TC & _)]; [now right|]. rewrite smem_sget, <- C, TC in N. discriminate N.
      + assert (x1 = x) as ->.
        { apply CX. destruct (shaped_field _ _ _ _ _ S G) as [(_ & H)|(ct & cc & TC & H)]; [now right|]. left. exists ct, cc. split; [|exact H]. rewrite C in TC. vm_compute in TC. injection TC as <- <-. reflexivity. }
        destruct (shaped_field _ _ _ _ _ S G) as [(TC & H)|(ct & cc & TC & H)]; rewrite C in TC; vm_compute in TC; [discriminate TC|]. injection TC as <- <-.
        change (patch_method base url (path_token (rfc_pointer (lit "#") [lit "paths"; k])) (lit "parameters") x = Ok x2) in VX. unfold patch_method in VX. inversion H as [| |? l F|]; subst; cbn [same_class] in VX; congruence.
    - exact VF3.
    - intros n N. apply sget_None. rewrite K3. now apply sget_None.
    - exists own, s. rewrite NM; [auto|]. cbn. intuition discriminate.
    - repeat (split; [assumption|]). intros n N1 N2. rewrite NM by exact N1. now apply VN.
  Qed.
End Op.

(** ** When nothing fails *)
Lemma update_total f x h fs ints : smem f fs = true \/ smem f ints = true ->
  exists g fs' ints', update_field f x (VObj h fs ints) = Ok (VObj g fs' ints') /\ h_cls g = h_cls h /\ map fst fs' = map fst fs /\ map fst ints' = map fst ints /\
    (forall n, n <> f -> sget n fs' = sget n fs).
Proof.
  intro M. unfold update_field. destruct (smem f fs) eqn:F.
  - eexists _, _, _. split; [reflexivity|]. split; [reflexivity|]. split; [now apply sset_keys|]. split; [reflexivity|]. intros n N. now apply sget_sset_other.
  - destruct M as [M|M]; [discriminate M|]. rewrite M. eexists _, _, _. split; [reflexivity|]. split; [reflexivity|]. split; [reflexivity|]. split; [now apply sset_keys|reflexivity].
Qed.
Lemma dict_total a par path d : (forall k x, In (k, x) d -> exists y, patch a par (sub k path) x = Ok y) -> exists e, patch_dict a par path d = Ok e.
Proof.
  induction d as [|[k x] d IH]; intro H; [now exists []|]. destruct (H k x) as (y & Y); [now left|]. destruct IH as (e & E); [intros j z IN; apply H; now right|].
  exists ((k, y) :: e). cbn [patch_dict]. rewrite Y. cbn [bind]. fold (patch_dict a par path). now rewrite E.
Qed.
Lemma list_total a par path l : (forall i x, In x l -> exists y, patch a par (sub (str_of_nat i) path) x = Ok y) -> forall i, exists e, patch_list a par path i l = Ok e.
Proof.
  induction l as [|x l IH]; intros H i; [now exists []|]. destruct (H i x) as (y & Y); [now left|]. destruct (IH ltac:(intros j z IN; apply H; now right) (S i)) as (e & E).
  exists (y :: e). cbn [patch_list]. rewrite Y. cbn [bind]. fold (patch_list a par path). now rewrite E.
Qed.
Lemma calm_total a v : calm v -> forall par path, exists v', patch a par path v = Ok v'.
Proof.
  induction v as [| | | | |l IH|d IH|h fs ints IH] using val_ind'; intros K par path; try (eexists; reflexivity).
  - rewrite patch_list_eq. destruct (list_total a par path l) with (i := 0) as (e & E); [|rewrite E; eexists; reflexivity]. intros i x IN. rewrite Forall_forall in IH. apply IH; [exact IN|eapply calm_item; eauto].
  - rewrite patch_dict_eq. destruct (dict_total a par path d) as (e & E); [|rewrite E; eexists; reflexivity]. intros k x IN. rewrite Forall_forall in IH. apply (IH _ IN). eapply calm_key; eauto.
  - destruct (calm_obj _ _ _ K) as (Q & S). destruct (class_complete _ _ _ S) as (KF & KI). rewrite patch_obj_eq. destruct (dict_total a (Some (VObj h fs ints)) path fs) as (e & E).
    + intros k x IN. rewrite Forall_forall in IH. apply (IH _ IN). apply (fields_calm h fs ints k x (or_introl Q) S). apply In_sget; [|exact IN]. rewrite KF. apply fields_nodup.
    + rewrite E. cbn [bind patch_visit]. destruct (h_cls h) eqn:C; try discriminate Q; try (eexists; reflexivity). unfold patch_schema. destruct (startswith path "#/definitions"%string); [|eexists; reflexivity].
      assert (M : smem (lit "name") ints = true) by (rewrite (smem_keys _ _ _ KI); reflexivity).
      destruct (p_old a).
      * assert (SP : exists l, scope_split SCOPE_SEPARATOR (Some (last (jp_split (Some path)) [])) = Ok l) by (unfold scope_split; destruct (nonempty _); eexists; reflexivity).
        destruct SP as (l & ->). cbn [bind]. destruct (update_total (lit "name") (match last l None with Some s => VStr s | None => VNone end) h e ints (or_intror M)) as (g & f & i & U & _). eauto.
      * destruct (update_total (lit "name") (VStr (last (jp_split (Some path)) [])) h e ints (or_intror M)) as (g & f & i & U & _). eauto.
Qed.
Lemma called_get p n : called p n -> get "name" (final p) = Ok n.
Proof.
  intros (q & M & A). apply get_ok. destruct M as [p f F N|p F].
  - destruct p as [| | | | | | |h fs ints]; try discriminate F. apply attr_of_ok in F. cbn [final]. rewrite F. destruct (falsy f) eqn:X; [apply falsy_spec in X; contradiction|exact A].
  - destruct p as [| | | | | | |h fs ints]; try exact A. cbn [final]. destruct (attr fs ints "final"%string) as [f|] eqn:X; [|exact A]. apply (attr_of_ok h) in X. apply F, falsy_spec in X. now rewrite X.
Qed.
Lemma name_in_total n l : Forall (fun p => exists n, called p n) l -> exists b, name_in n l = Ok b.
Proof.
  induction 1 as [|p l (m & C) F IH]; [now exists false|]. cbn [name_in]. rewrite (called_get _ _ C). cbn [bind]. destruct (elem_eqb n m); eauto.
Qed.
Lemma add_params_total ps : Forall (fun p => exists n, called p n) ps -> forall l, Forall (fun p => exists n, called p n) l -> exists r, add_params l ps = Ok r.
Proof.
  induction 1 as [|p ps (m & C) F IH]; intros l L; [now exists l|]. cbn [add_params]. rewrite (called_get _ _ C). cbn [bind]. destruct (name_in_total m l L) as (b & ->). cbn [bind]. apply IH.
  destruct b; [exact L|]. apply Forall_app. split; [exact L|]. constructor; [eauto|constructor].
Qed.
Lemma own_or_total own x : sized own -> exists y, own_or own x = Ok y.
Proof. intros [(l & ->)|[(d & ->)|(s & ->)]]; eexists; reflexivity. Qed.
Section Total.
  Context (a : papp).
  Hypothesis SR : shaped (Of CSwagger) (p_root a).
  Lemma root_get n : smem (lit n) (t_fields CSwagger) = true -> exists x, get n (p_root a) = Ok x.
  Proof.
    intro M. remember (Of CSwagger) as c eqn:C. destruct SR as [| |h fs ints K1 K2 A B]; try discriminate C. injection C as C. unfold get, attr. rewrite C in K1.
    rewrite <- (smem_keys _ fs _ K1), smem_sget in M. destruct (sget (lit n) fs); [eauto|discriminate M].
  Qed.
  (** An operation on its way; the fields [ns] were not changed yet. *)
  Definition on_way (os : sdict val) (ns : list str) (v : val) : Prop := exists g fs ints, v = VObj g fs ints /\ h_cls g = COperation /\ map fst fs = map fst (t_fields COperation) /\
    map fst ints = map fst (t_internal COperation) /\ forall n, In n ns -> sget n fs = sget n os.
  Lemma way_update os ns f x v : on_way os ns v -> (smem f (t_fields COperation) = true \/ smem f (t_internal COperation) = true) -> ~ In f ns -> exists w, update_field f x v = Ok w /\ on_way os ns w.
  Proof.
    intros (g & fs & ints & -> & C & KF & KI & NS) M N. destruct (update_total f x g fs ints) as (g' & fs' & ints' & U & C' & F' & I' & O).
    { rewrite (smem_keys f fs _ KF), (smem_keys f ints _ KI). exact M. }
    exists (VObj g' fs' ints'). split; [exact U|]. exists g', fs', ints'. repeat split; try congruence. intros n IN. rewrite O; [now apply NS|]. intros ->. contradiction.
  Qed.
  Lemma way_get os ns f v x : on_way os ns v -> In (lit f) ns -> sget (lit f) os = Some x -> get f v = Ok x.
  Proof. intros (g & fs & ints & -> & C & KF & KI & NS) IN G. unfold get, attr. now rewrite NS, G. Qed.
  Lemma way_any os ns f v : on_way os ns v -> smem (lit f) (t_fields COperation) = true -> exists x, get f v = Ok x.
  Proof. intros (g & fs & ints & -> & C & KF & KI & NS) M. unfold get, attr. rewrite <- (smem_keys _ fs _ KF), smem_sget in M. destruct (sget (lit f) fs); [eauto|discriminate M]. Qed.
  Lemma way_less os ns ms v : on_way os ns v -> (forall n, In n ms -> In n ns) -> on_way os ms v.
  Proof. intros (g & fs & ints & -> & C & KF & KI & NS) I. exists g, fs, ints. repeat split; auto. Qed.
  Lemma inherit_total os n ns v own : on_way os (lit n :: ns) v -> sget (lit n) os = Some own -> sized own -> smem (lit n) (t_fields CSwagger) = true -> smem (lit n) (t_fields COperation) = true -> ~ In (lit n) ns ->
    exists w, inherit (p_root a) n v = Ok w /\ on_way os ns w.
  Proof.
    intros W G S MS MO N. unfold inherit. rewrite (way_get _ _ _ _ _ W (or_introl eq_refl) G). cbn [bind]. destruct (root_get n MS) as (d & ->). cbn [bind].
    destruct (own_or_total own d S) as (x & ->). cbn [bind]. apply way_update; [|now left|exact N]. eapply way_less; [exact W|]. intros m IN. now right.
  Qed.
  Lemma operation_total pi h fs ints : shaped (Of (h_cls h)) (VObj h fs ints) -> h_cls h = COperation -> has pi "parameters" named_list ->
    has (VObj h fs ints) "parameters" named_list -> has (VObj h fs ints) "consumes" sized -> has (VObj h fs ints) "produces" sized -> has (VObj h fs ints) "schemes" sized ->
    exists w, patch_operation a (Some pi) (VObj h fs ints) = Ok w /\ on_way fs [] w.
  Proof.
    intros SO C (pp & GP & (ps & -> & NP)) (op & GO & (l & -> & NL)) (co & GC & SC) (pr & GPR & SPR) (sc & GS & SS). cbn [field_of] in GO, GC, GPR, GS.
    destruct (class_complete _ _ _ SO) as (KF & KI). rewrite C in KF, KI.
    assert (W : on_way fs (map lit ["produces"; "consumes"; "parameters"; "schemes"; "security"]%string) (VObj h fs ints)) by (exists h, fs, ints; repeat split; auto).
    unfold patch_operation.
    assert (W1 : exists v1, (if is_swagger (p_root a) then do v <- inherit (p_root a) "produces" (VObj h fs ints); inherit (p_root a) "consumes" v else Ok (VObj h fs ints)) = Ok v1 /\
      on_way fs (map lit ["parameters"; "schemes"; "security"]%string) v1).
    { destruct (is_swagger (p_root a)).
      - destruct (inherit_total fs "produces" _ _ _ W GPR SPR eq_refl eq_refl) as (v1 & -> & V1); [cbn; intuition discriminate|]. cbn [bind].
        destruct (inherit_total fs "consumes" _ _ _ V1 GC SC eq_refl eq_refl) as (v2 & -> & V2); [cbn; intuition discriminate|]. eauto.
      - eexists. split; [reflexivity|]. eapply way_less; [exact W|]. cbn. intuition. }
    destruct W1 as (v1 & -> & W1). cbn [bind].
    assert (W2 : exists v2, combine_params pi v1 = Ok v2 /\ on_way fs (map lit ["schemes"; "security"]%string) v2).
    { unfold combine_params. rewrite (way_get _ _ _ _ _ W1 (or_introl eq_refl) GO). cbn [bind].
      assert (G : get "parameters" pi = Ok (VList ps)) by (destruct pi; try discriminate GP; unfold get, attr; cbn [field_of] in GP; now rewrite GP). rewrite G. cbn [bind].
      assert (W1' : on_way fs (map lit ["schemes"; "security"]%string) v1) by (eapply way_less; [exact W1|]; cbn; intuition).
      destruct (falsy (VList l)).
      - apply way_update; [exact W1'|now left|cbn; intuition discriminate].
      - destruct (add_params_total ps NP l NL) as (r & ->). cbn [bind]. eexists. split; [reflexivity|]. destruct W1' as (g & f & i & -> & C' & KF' & KI' & NS). cbn [put_params]. exists g, (sset (lit "parameters") (VList r) f), i.
        repeat split; auto; [rewrite sset_keys; [exact KF'|rewrite (smem_keys _ f _ KF'); reflexivity]|]. intros n IN. rewrite sget_sset_other; [auto|]. cbn in IN. intuition (subst; discriminate). }
    destruct W2 as (v2 & -> & W2). cbn [bind]. rewrite (way_get _ _ _ _ _ W2 (or_introl eq_refl) GS). cbn [bind]. destruct (own_or_total sc (p_schemes a) SS) as (s & ->). cbn [bind].
    destruct (way_update fs (map lit ["schemes"; "security"]%string) (lit "cached_schemes") s v2 W2) as (v3 & -> & W3); [now right|cbn; intuition discriminate|]. cbn [bind].
    destruct (way_any _ _ "security" _ W3 eq_refl) as (sec & ->). cbn [bind].
    assert (WE : on_way fs [] v3) by (eapply way_less; [exact W3|]; intros n []).
    destruct sec; try (eexists; split; [reflexivity|exact WE]). destruct (is_swagger (p_root a)); [|eauto]. destruct (root_get "security" eq_refl) as (x & ->). cbn [bind].
    apply way_update; [exact WE|now left|intros []].
  Qed.
  Lemma method_total os base url k n v : on_way os [] v -> exists w, patch_method base url k n v = Ok w.
  Proof.
    intro W. unfold patch_method. assert (SC : same_class COperation v = true) by (destruct W as (g & fs & ints & -> & C & _); cbn; now rewrite C). rewrite SC.
    destruct (way_update os [] (lit "base_path") base v W (or_intror eq_refl)) as (v1 & -> & W1); [intros []|]. cbn [bind].
    destruct (way_update os [] (lit "path") (VStr k) v1 W1 (or_intror eq_refl)) as (v2 & -> & W2); [intros []|]. cbn [bind].
    destruct (way_update os [] (lit "url") url v2 W2 (or_intror eq_refl)) as (v3 & -> & W3); [intros []|]. cbn [bind].
    destruct (way_update os [] (lit "method") (VStr n) v3 W3 (or_intror eq_refl)) as (v4 & -> & W4); [intros []|]. eauto.
  Qed.
  Lemma methods_total base url k fs : (forall n x, In (n, x) fs -> same_class COperation x = true -> exists os, on_way os [] x) -> exists r, patch_methods base url k fs = Ok r.
  Proof.
    induction fs as [|[n x] fs IH]; intro H; [now exists []|]. cbn [patch_methods].
    assert (X : exists y, (if smem n (t_child CPathItem) then patch_method base url k n x else Ok x) = Ok y).
    { destruct (smem n (t_child CPathItem)); [|eauto]. destruct (same_class COperation x) eqn:SC; [|unfold patch_method; rewrite SC; eauto]. destruct (H n x (or_introl eq_refl) SC) as (os & W). eapply method_total; eauto. }
    destruct X as (y & ->). cbn [bind]. destruct IH as (r & ->); [intros m z IN; apply (H m); now right|]. cbn [bind]. eauto.
  Qed.
  Hypothesis HT : exists x, field_of (p_root a) (lit "host") = Some x /\ text_or_empty x.
  Hypothesis BT : exists x, field_of (p_root a) (lit "basePath") = Some x /\ text_or_empty x.
  Hypothesis UT : exists u, urlparse (p_url a) = Ok u.
  Lemma field_get n v x : field_of v (lit n) = Some x -> get n v = Ok x.
  Proof. destruct v; try discriminate. cbn [field_of]. intro G. unfold get, attr. now rewrite G. Qed.
  Lemma text_cases v : text_or_empty v -> falsy v = true \/ exists s, v = VStr s.
  Proof. intros [E|S]; [left; now apply falsy_spec|now right]. Qed.
  Lemma url_total k : exists u, url_of a k = Ok u.
  Proof.
    destruct HT as (hv & HG & HX), BT as (bv & BG & BX), UT as (u & U). unfold url_of, host_of. rewrite (field_get _ _ _ HG), (field_get _ _ _ BG), U. cbn [bind].
    assert (H : exists h, (if falsy hv then Ok (u_netloc u) else match hv with VStr s => Ok s | _ => Err TypeError end) = Ok h).
    { destruct (text_cases hv HX) as [-> |(s & ->)]; [eauto|destruct (falsy (VStr s)); eauto]. }
    assert (B : exists b, (if falsy bv then Ok [] else match bv with VStr s => Ok s | _ => Err TypeError end) = Ok b).
    { destruct (text_cases bv BX) as [-> |(s & ->)]; [eauto|destruct (falsy (VStr s)); eauto]. }
    destruct H as (h & H). rewrite H. cbn [bind]. destruct B as (b & B). rewrite B. cbn [bind]. eauto.
  Qed.
  Lemma path_item_total k h fs ints par : shaped (Of (h_cls h)) (VObj h fs ints) -> h_cls h = CPathItem -> has (VObj h fs ints) "parameters" named_list ->
    (forall m op, operation (VObj h fs ints) m op -> has op "parameters" named_list /\ has op "consumes" sized /\ has op "produces" sized /\ has op "schemes" sized) ->
    exists w, patch a par (rfc_pointer (lit "#") [lit "paths"; k]) (VObj h fs ints) = Ok w.
  Proof.
    intros S C HP HO. destruct (class_complete _ _ _ S) as (KF & KI). set (path := rfc_pointer (lit "#") [lit "paths"; k]). assert (BP : below_paths path) by apply pointer_paths.
    assert (EACH : forall n x, In (n, x) fs -> exists y, patch a (Some (VObj h fs ints)) (sub n path) x = Ok y /\ (same_class COperation y = true -> exists os, on_way os [] y)).
    { intros n x IN. assert (G : sget n fs = Some x) by (apply In_sget; [rewrite KF; apply fields_nodup|exact IN]).
      assert (PL : calm x -> same_class COperation x = false -> exists y, patch a (Some (VObj h fs ints)) (sub n path) x = Ok y /\ (same_class COperation y = true -> exists os, on_way os [] y)).
      { intros CX SC. exists x. split; [apply patch_calm; [exact CX|now apply below_sub]|]. congruence. }
      destruct (shaped_field _ _ _ _ _ S G) as [(_ & W & NO)|(ct & cc & TC & X)].
      - apply PL; [now right|]. apply no_object_here in NO. destruct x; try reflexivity. elim NO. exact Logic.I.
      - assert (CC : (ct, cc) = (One, Of COperation) \/ (ct, cc) = (ListOf, Of CParameter)).
        { rewrite C in TC. apply sget_In in TC. cbn in TC. repeat (destruct TC as [TC|TC]; [injection TC as <- <- <-; auto|]). destruct TC. }
        destruct CC as [CC|CC]; injection CC as -> ->.
        + inversion X as [|? ? X1| |]; subst; [apply PL; [|reflexivity]; left; exists One, (Of CParameter); split; [reflexivity|constructor]|].
          remember (Of COperation) as c eqn:EC. destruct X1 as [| |g os oi A1 A2 A3 A4]; try discriminate EC. injection EC as EC.
          assert (SO : shaped (Of (h_cls g)) (VObj g os oi)) by (constructor; assumption).
          destruct (HO n (VObj g os oi)) as (O1 & O2 & O3 & O4). { split; [exact G|]. exists g, os, oi. auto. }
          destruct (operation_total _ g os oi SO EC HP O1 O2 O3 O4) as (w & PW & W). exists w. split; [|eauto].
          rewrite patch_obj_eq, patch_dict_id; [cbn [bind patch_visit]; rewrite EC; exact PW|].
          intros n' x' IN'. apply patch_calm; [|now apply below_sub, below_sub]. eapply fields_calm; [right; exact EC|exact SO|]. apply In_sget; [|exact IN']. rewrite A1. apply fields_nodup.
        + apply PL; [left; exists ListOf, (Of CParameter); auto|]. inversion X; reflexivity. }
    rewrite patch_obj_eq. destruct (dict_total a (Some (VObj h fs ints)) path fs) as (e & E). { intros n x IN. destruct (EACH n x IN) as (y & Y & _). eauto. }
    rewrite E. cbn [bind patch_visit]. rewrite C. cbn [patch_path_item].
    assert (UB : exists ub, (if is_swagger (p_root a) then do u <- url_of a (last (jp_split (Some path)) []); do b <- get "basePath" (p_root a); Ok (VStr u, b) else Ok (VNone, VNone)) = Ok ub).
    { destruct (is_swagger (p_root a)); [|eauto]. destruct (url_total (last (jp_split (Some path)) [])) as (u & ->). cbn [bind]. destruct BT as (b & GB & _). rewrite (field_get _ _ _ GB). cbn [bind]. eauto. }
    destruct UB as (ub & ->). cbn [bind]. destruct (methods_total (snd ub) (fst ub) (last (jp_split (Some path)) []) e) as (r & ->); [|cbn [bind]; eauto].
    intros n y IN SC. apply patch_dict_ok in E. assert (GY : sget n e = Some y). { apply In_sget; [|exact IN]. rewrite <- (drel_keys _ _ _ E), KF. apply fields_nodup. }
    destruct (drel_get_r _ _ _ _ _ E GY) as (x & GX & PX). destruct (EACH n x (sget_In _ _ _ GX)) as (y' & PY & W). rewrite PX in PY. injection PY as <-. auto.
  Qed.
End Total.
Theorem patch_total a : shaped (Of CSwagger) (p_root a) -> ready (p_root a) -> (exists u, urlparse (p_url a) = Ok u) -> exists v, patch a None (lit "#") (p_root a) = Ok v.
Proof.
  intros SR (HT & BT & _ & RP) UT. remember (p_root a) as root eqn:ER. remember (Of CSwagger) as c eqn:EC. destruct SR as [| |h fs ints A1 A2 A3 A4]; try discriminate EC. injection EC as C.
  rewrite patch_obj_eq. destruct (dict_total a (Some (VObj h fs ints)) (lit "#") fs) as (e & ->); [|cbn [bind patch_visit]; rewrite C; eauto].
  assert (S : shaped (Of (h_cls h)) (VObj h fs ints)) by (constructor; assumption). destruct (class_complete _ _ _ S) as (KF & KI).
  intros n x IN. assert (G : sget n fs = Some x) by (apply In_sget; [rewrite KF; apply fields_nodup|exact IN]).
  destruct (shaped_field _ _ _ _ _ S G) as [(_ & H)|(ct & cc & TC & X)]; [apply calm_total; now right|].
  assert (CC : quiet_ctx cc = true \/ n = lit "paths" /\ ct = DictOf /\ cc = Of CPathItem).
  { rewrite C in TC. apply sget_In in TC. cbn in TC. repeat (destruct TC as [TC|TC]; [injection TC as <- <- <-; auto|]). destruct TC. }
  destruct CC as [Q|(-> & -> & ->)]; [apply calm_total; left; eauto|].
  inversion X as [| | |? d ND F]; subst; [eexists; reflexivity|]. rewrite patch_dict_eq. destruct (dict_total a (Some (VObj h fs ints)) (sub (lit "paths") (lit "#")) d) as (e & ->); [|cbn [bind]; eauto].
  intros k p INP. rewrite Forall_forall in F. specialize (F _ INP). cbn [snd] in F. remember (Of CPathItem) as c eqn:EC. destruct F as [| |g ps pints B1 B2 B3 B4]; try discriminate EC. injection EC as EC.
  assert (PI : path_item (VObj h fs ints) k (VObj g ps pints)). { exists d. split; [exact G|]. split; [now apply In_sget|]. exists g, ps, pints. auto. }
  destruct (RP _ _ PI) as (R1 & R2). rewrite sub_pointer, sub_pointer, <- pointer_app by (try discriminate; now apply pointer_nonempty).
  assert (SR1 : shaped (Of CSwagger) (p_root a)) by (rewrite <- ER, <- C; exact S). rewrite ER in HT, BT. eapply path_item_total; eauto. constructor; assumption.
Qed.
