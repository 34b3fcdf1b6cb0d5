(** Proofs about parsing 1.2 documents. *)
From Coq Require Import Lia.
From Verif Require Import PyBase PyFacts PyJson P_Op M_Url M_SpecVal M_Parse M_SpecTree M_MergeRef M_Merge M_Patch M_Validate S_Parse S_SpecTree S_Typed S_Validate P_SpecBase P_Parse P_SpecTree P_Compare P_Typed P_Validate P_Patch M_OldParse S_OldParse.
Close Scope Q_scope.

(** ** Tables *)
Lemma o_fields_nodup c : NoDup (map fst (o_fields c)).
Proof. exact (fields_nodup (COld c)). Qed.
Lemma o_child_nodup c : NoDup (map fst (o_child c)).
Proof. apply nodupb_ok. destruct c; vm_compute; reflexivity. Qed.
Lemma o_child_default c n k : sget n (o_child c) = Some k -> sget n (o_fields c) = Some JNull.
Proof.
  intro E. apply sget_In in E.
  assert (B : forallb (fun kv => match sget (fst kv) (o_fields c) with Some JNull => true | _ => false end) (o_child c) = true) by (destruct c; vm_compute; reflexivity).
  rewrite forallb_forall in B. specialize (B _ E). cbn [fst] in B. destruct (sget n (o_fields c)) as [[]|]; try discriminate B. reflexivity.
Qed.
Lemma o_child_list c n ct cc : sget n (o_child c) = Some (ct, cc) -> cc <> OResourceList /\ cc <> OResource.
Proof.
  intro E. apply sget_In in E.
  assert (B : forallb (fun kv : str * (octype * ocls) => match snd (snd kv) with OResourceList | OResource => false | _ => true end) (o_child c) = true) by (destruct c; vm_compute; reflexivity).
  rewrite forallb_forall in B. specialize (B _ E). cbn [fst snd] in B. destruct cc; try discriminate B; split; discriminate.
Qed.
Lemma o_child_no_items c : is_data_type c = true -> sget (lit "items") (o_child c) = None.
Proof. destruct c; try discriminate; intros _; vm_compute; reflexivity. Qed.

(** ** Parents *)
Definition oown (p : place) (v : val) : val :=
  match v with
  | VList l => VList (map (set_parent p) l)
  | VDict d => VDict (map (fun kv => (fst kv, match snd kv with VList l => VList (map (set_parent p) l) | x => set_parent p x end)) d)
  | v => set_parent p v
  end.
Lemma assign_of_class p c v : of_class c v -> assign1 p (Of (COld c)) v = Ok (set_parent p v).
Proof. intros (h & fs & i & -> & C). unfold assign1, is_produced. rewrite C. now rewrite cls_eqb_refl. Qed.
Lemma of_class_parent p c v : of_class c v -> of_class c (set_parent p v).
Proof. intros (h & fs & i & -> & C). cbn [set_parent]. do 3 eexists. split; [reflexivity|exact C]. Qed.
Lemma map_res_list p c l : Forall (of_class c) l -> map_res (assign1 p (Of (COld c))) l = Ok (map (set_parent p) l).
Proof. intro F. apply map_res_const. rewrite Forall_forall in *. intros x I. apply assign_of_class. auto. Qed.
Lemma apply_held p ct c x y : held ct c x \/ x = VNone -> o_apply ct (assign1 p (Of (COld c))) x = Ok y -> y = oown p x.
Proof.
  intros [H| ->]; [|destruct ct; cbn; congruence]. destruct ct; cbn [held o_apply container_apply] in *.
  - destruct H as (h & fs & i & -> & C). cbn [container_apply]. rewrite assign_of_class by (exists h, fs, i; auto). intro E. injection E as <-. reflexivity.
  - destruct H as (l & -> & F). cbn [container_apply]. rewrite (map_res_list p c l F). cbn [bind]. intro E. injection E as <-. reflexivity.
  - destruct H as (d & -> & F). cbn [container_apply oown].
    rewrite (map_res_const _ (fun kv : str * val => (fst kv, set_parent p (snd kv)))).
    + cbn [bind]. intro E. injection E as <-. f_equal. rewrite Forall_forall in F. apply map_ext_in. intros kv I. destruct (F _ I) as (h & fs & i & E & _). now rewrite E.
    + rewrite Forall_forall in *. intros kv I. rewrite (assign_of_class p c (snd kv)) by (apply F; exact I). reflexivity.
  - destruct H as (d & -> & F). cbn [container_apply oown].
    rewrite (map_res_const _ (fun kv : str * val => (fst kv, match snd kv with VList l => VList (map (set_parent p) l) | x => set_parent p x end))).
    + cbn [bind]. intro E. injection E as <-. reflexivity.
    + rewrite Forall_forall in *. intros kv I. destruct (F _ I) as (l & -> & FL). cbn [container_apply]. rewrite (map_res_list p c l FL). reflexivity.
Qed.
Lemma Forall_map {A B} (P : B -> Prop) (f : A -> B) l : Forall (fun x => P (f x)) l -> Forall P (map f l).
Proof. induction 1; constructor; auto. Qed.
Lemma held_oown p ct c x : held ct c x -> held ct c (oown p x).
Proof.
  destruct ct; cbn [held].
  - intros (h & fs & i & -> & C). cbn [oown]. apply of_class_parent. exists h, fs, i. auto.
  - intros (l & -> & F). eexists. split; [reflexivity|]. apply Forall_map. eapply Forall_impl; [|exact F]. intros a. apply of_class_parent.
  - intros (d & -> & F). eexists. split; [reflexivity|]. apply Forall_map. eapply Forall_impl; [|exact F]. intros kv O. cbn [snd]. apply (of_class_parent p) in O. destruct O as (h & fs & i & E & C). destruct (snd kv); try discriminate E; cbn [set_parent] in *. exists h, fs, i. auto.
  - intros (d & -> & F). eexists. split; [reflexivity|]. apply Forall_map. eapply Forall_impl; [|exact F]. intros kv (l & E & FL). cbn [snd]. rewrite E. eexists. split; [reflexivity|]. apply Forall_map. eapply Forall_impl; [|exact FL]. intros a. apply of_class_parent.
Qed.
Lemma inside_obj h fs i ts o : inside (VObj h fs i) ts o -> o = VObj h fs i.
Proof. intro H. inversion H. reflexivity. Qed.
Lemma inside_class p c v ts o : of_class c v -> inside (set_parent p v) ts o -> parent_of o = Some p.
Proof. intros (h & fs & i & -> & _) I. cbn [set_parent] in I. apply inside_obj in I. now subst. Qed.
Lemma held_parents p ct c x : held ct c x -> forall ts o, inside (oown p x) ts o -> is_obj o -> parent_of o = Some p.
Proof.
  assert (L : forall l ts o, Forall (of_class c) l -> inside (VList (map (set_parent p) l)) ts o -> is_obj o -> parent_of o = Some p).
  { intros l ts o F I O. inversion I as [|? j w ? ? N X|]; subst; [destruct O|]. rewrite nth_error_map in N. destruct (nth_error l j) as [y|] eqn:E; [|discriminate N]. injection N as <-.
    eapply inside_class; [|exact X]. rewrite Forall_forall in F. apply F. eapply nth_error_In; eauto. }
  destruct ct; cbn [held].
  - intros H ts o I _. destruct H as (h & fs & i & -> & C). cbn [oown] in I. eapply inside_class; [|exact I]. exists h, fs, i. eauto.
  - intros (l & -> & F) ts o I O. eapply L; eauto.
  - intros (d & -> & F) ts o I O. cbn [oown] in I. inversion I as [| |? k w ? ? G X]; subst; [destruct O|]. apply sget_In in G. apply in_map_iff in G as (kv & E & G). injection E as <- <-.
    rewrite Forall_forall in F. specialize (F _ G). pose proof F as (h & fs & i & E & _). rewrite E in *. eapply inside_class; [exact F|exact X].
  - intros (d & -> & F) ts o I O. cbn [oown] in I. inversion I as [| |? k w ? ? G X]; subst; [destruct O|]. apply sget_In in G. apply in_map_iff in G as (kv & E & G). injection E as <- <-.
    rewrite Forall_forall in F. specialize (F _ G). destruct F as (l & E & FL). rewrite E in *. eapply L; eauto.
Qed.
Lemma no_obj_VObj h fs i : ~ no_obj (VObj h fs i).
Proof. intro N. exact (N _ _ (reach_here _ _) Logic.I). Qed.
Lemma old_value_parent p v : old_value v -> old_value (set_parent p v).
Proof.
  intro O. destruct v as [| | | | | | |h fs i]; try exact O. cbn [set_parent]. inversion O as [? N| | |c ? ? ? C K F G]; subst.
  - now apply no_obj_VObj in N.
  - now apply (old_obj c).
Qed.
Lemma no_obj_item l x : no_obj (VList l) -> In x l -> no_obj x.
Proof. intros N I ts o R. apply In_nth_error in I as (i & E). apply (N (str_of_nat i :: ts)). econstructor; eauto. Qed.
Lemma no_obj_key d k x : NoDup (map fst d) -> no_obj (VDict d) -> In (k, x) d -> no_obj x.
Proof. intros ND N I ts o R. apply (N (k :: ts)). econstructor; [apply In_sget; eauto|exact R]. Qed.
Lemma old_list_inv l : old_value (VList l) -> Forall old_value l.
Proof. intro O. inversion O as [? N|? F| |]; subst; [|exact F]. apply Forall_forall. intros x I. apply old_plain. eapply no_obj_item; eauto. Qed.
Lemma old_dict_inv d : NoDup (map fst d) -> old_value (VDict d) -> Forall (fun kv => old_value (snd kv)) d.
Proof. intros ND O. inversion O as [? N| |? F|]; subst; [|exact F]. apply Forall_forall. intros [k x] I. apply old_plain. eapply no_obj_key; eauto. Qed.
Lemma wfv_parent p v : wfv v -> wfv (set_parent p v).
Proof. destruct v; intro W; try exact W. inversion W; subst. now constructor. Qed.
Lemma oown_keys (p : place) (d : sdict val) : map fst (map (fun kv => (fst kv, match snd kv with VList l => VList (map (set_parent p) l) | x => set_parent p x end)) d) = map fst d.
Proof. rewrite map_map. cbn [fst]. reflexivity. Qed.
Lemma oown_good p v : wfv v -> old_value v -> wfv (oown p v) /\ old_value (oown p v).
Proof.
  assert (L : forall l, wfv (VList l) -> old_value (VList l) -> wfv (VList (map (set_parent p) l)) /\ old_value (VList (map (set_parent p) l))).
  { intros l W O. apply old_list_inv in O. inversion W as [| | | | |? F| |]; subst. split; constructor; apply Forall_map.
    - eapply Forall_impl; [|exact F]. intros a. apply wfv_parent.
    - eapply Forall_impl; [|exact O]. intros a. apply old_value_parent. }
  intros W O. destruct v as [| | | | |l|d|h fs i]; try (split; assumption).
  - now apply L.
  - cbn [oown]. inversion W as [| | | | | |? ND F|]; subst. pose proof (old_dict_inv d ND O) as O'. split.
    + constructor; [now rewrite oown_keys|]. apply Forall_map. rewrite Forall_forall in *. intros kv I. cbn [snd]. specialize (F _ I). specialize (O' _ I). destruct (snd kv); try (now apply wfv_parent). now apply L.
    + apply old_dict. apply Forall_map. rewrite Forall_forall in *. intros kv I. cbn [snd]. specialize (F _ I). specialize (O' _ I). destruct (snd kv); try (now apply old_value_parent). now apply L.
  - cbn [oown]. split; [now apply wfv_parent|now apply old_value_parent].
Qed.

(** ** Contents *)
Lemma says_class c j v : says c j v -> of_class c v.
Proof. destruct 1; do 3 eexists; eauto. Qed.
Lemma says_parent p c j v : says c j v -> says c j (set_parent p v).
Proof. destruct 1 as [c h fs i C E|c d h fs i C H]; cbn [set_parent]; [now apply says_null|now apply says_obj]. Qed.
Lemma says_parents p c l xs : Forall2 (says c) l xs -> Forall2 (says c) l (map (set_parent p) xs).
Proof. induction 1; constructor; auto. now apply says_parent. Qed.
Lemma says_in_held ct c o x : says_in ct c o x -> held ct c x \/ x = VNone.
Proof.
  destruct 1 as [c o _|c j x _ S|c o l xs _ F|c o d e _ F|c o d e _ F]; [now right|left; cbn [held]..].
  - eapply says_class; eauto.
  - exists xs. split; [reflexivity|]. induction F; constructor; auto. eapply says_class; eauto.
  - exists e. split; [reflexivity|]. induction F as [|? ? ? ? (_ & S)]; constructor; auto. eapply says_class; eauto.
  - exists e. split; [reflexivity|]. induction F as [|? ? ? ? (_ & m & xs & _ & E & S)]; constructor; auto. exists xs. split; [exact E|]. clear - S. induction S; constructor; auto. eapply says_class; eauto.
Qed.
Lemma says_in_own p ct c o x : says_in ct c o x -> says_in ct c o (oown p x).
Proof.
  destruct 1 as [c o N|c j x N S|c o l xs L F|c o d e K F|c o d e K F]; cbn [oown].
  - now constructor.
  - constructor; [exact N|]. pose proof (says_class _ _ _ S) as (h & fs & i & -> & _). cbn [oown]. now apply says_parent.
  - econstructor; [exact L|]. now apply says_parents.
  - econstructor; [exact K|]. rewrite Forall2_map_r. eapply Forall2_weaken; [|exact F]. cbn [fst snd]. intros kj kx (E & S). split; [exact E|].
    pose proof (says_class _ _ _ S) as (h & fs & i & X & _). rewrite X in *. now apply says_parent.
  - econstructor; [exact K|]. rewrite Forall2_map_r. eapply Forall2_weaken; [|exact F]. cbn [fst snd]. intros kj kx (E & l & xs & L & X & S). split; [exact E|].
    exists l, (map (set_parent p) xs). rewrite X. split; [exact L|]. split; [reflexivity|]. now apply says_parents.
Qed.

(** ** Parsing *)
(** What a parser of the children makes. *)
Definition made_of (c : ocls) (pl : place) (j : json) (v : val) : Prop :=
  says c j v /\ old_value v /\ wfv v /\ exists ks fs ints, v = VObj (Head (COld c) pl None ks) fs ints.
Lemma old_VNone : old_value VNone.
Proof. apply old_plain. intros ts o R. inversion R; subst. intros []. Qed.
Lemma old_inject j : old_value (inject j).
Proof. apply old_plain. apply inject_none_obj. Qed.
Lemma iter_wf j l : wf j -> iter_json j = Ok l -> Forall wf l.
Proof.
  intros W. destruct j; cbn [iter_json]; intro E; try discriminate E; injection E as <-.
  - apply Forall_map. apply Forall_forall. intros. constructor.
  - now inversion W.
  - apply Forall_map. apply Forall_forall. intros. constructor.
Qed.
Section Rec.
  Context (rec : ocls -> place -> json -> res val).
  Context (REC : forall c pl j v, c <> OResourceList -> wf j -> rec c pl j = Ok v -> made_of c pl j v).
  Context (OBJ : forall c pl j v, rec c pl j = Ok v -> j = JNull \/ exists d, j = JObj d).
  Lemma parse_list_ok c pl j x : c <> OResourceList -> wf j -> o_parse_list rec c pl j = Ok x ->
    exists l xs, listed_here j l /\ x = VList xs /\ Forall2 (says c) l xs /\ old_value x /\ wfv x.
  Proof.
    intros NC W E. unfold o_parse_list in E. apply bind_ok in E as (l & I & E). apply bind_ok in E as (m & E & X). injection X as <-.
    apply mapi_res_ok in E. pose proof (iter_wf _ _ W I) as WL.
    assert (LL : listed_here j l).
    { split; [intros ->; discriminate I|]. destruct j as [| | | |s|l'|d]; cbn [iter_json] in I; try discriminate I; injection I as <-.
      - destruct s as [|a s]; [constructor|]. cbn [map] in E. destruct m as [|y m]; [destruct E|]. destruct E as (E & _). apply OBJ in E as [E|(d & E)]; discriminate E.
      - constructor.
      - destruct d as [|a d]; [constructor|]. cbn [map] in E. destruct m as [|y m]; [destruct E|]. destruct E as (E & _). apply OBJ in E as [E|(d' & E)]; discriminate E. }
    assert (F : Forall2 (fun x y => says c x y /\ old_value y /\ wfv y) l m).
    { clear I LL. revert m E. generalize 0. induction l as [|a l IH]; intros k [|y m] E; cbn [irel] in E; try contradiction; [constructor|]. destruct E as (E & R). inversion WL as [|? ? WA WL']; subst. constructor; [|eapply IH; eauto].
      apply REC in E as (A & B & C & _); auto. }
    exists l, m. split; [exact LL|]. split; [reflexivity|]. split; [|split].
    - eapply Forall2_weaken; [|exact F]. intros a b (X & _). exact X.
    - apply old_list. clear - F. induction F as [|? ? ? ? (_ & O & _)]; constructor; auto.
    - constructor. clear - F. induction F as [|? ? ? ? (_ & _ & O)]; constructor; auto.
  Qed.
  Lemma parse_child_ok ct c pl j x : c <> OResourceList -> j <> JNull -> wf j -> o_parse_child rec ct c pl j = Ok x ->
    says_in ct c (Some j) x /\ old_value x /\ wfv x.
  Proof.
    intros NC NN W E. destruct ct; cbn [o_parse_child] in E.
    - apply REC in E as (A & B & C & _); auto. split; [now constructor|auto].
    - destruct (parse_list_ok _ _ _ _ NC W E) as (l & xs & (_ & L) & -> & F & O & WV). split; [econstructor; eauto|auto].
    - destruct j as [| | | | | |d]; try discriminate E. apply bind_ok in E as (e & E & X). injection X as <-. rewrite (map_res_dict (fun k x => rec c (pl ++ [k]) x)) in E.
      inversion W as [| | | | | |? ND WF]; subst. rewrite Forall_forall in WF.
      assert (F : Forall2 (fun kj kx => fst kj = fst kx /\ (says c (snd kj) (snd kx) /\ old_value (snd kx) /\ wfv (snd kx))) d e).
      { eapply Forall2_weaken_In; [|exact E]. cbn beta. intros [k y] [k' z] I _ (Q & R). cbn [fst snd] in *. split; [exact Q|]. apply REC in R as (A & B & C & _); auto. exact (WF _ I). }
      split; [|split].
      + econstructor; [constructor|]. eapply Forall2_weaken; [|exact F]. intros a b (Q & X & _). auto.
      + apply old_dict. clear - F. induction F as [|? ? ? ? (_ & _ & O & _)]; constructor; auto.
      + constructor; [rewrite <- (drel_keys _ _ _ E); exact ND|]. clear - F. induction F as [|? ? ? ? (_ & _ & _ & O)]; constructor; auto.
    - destruct j as [| | | | | |d]; try discriminate E. apply bind_ok in E as (e & E & X). injection X as <-. rewrite (map_res_dict (fun k x => o_parse_list rec c (pl ++ [k]) x)) in E.
      inversion W as [| | | | | |? ND WF]; subst. rewrite Forall_forall in WF.
      assert (F : Forall2 (fun kj kx => fst kj = fst kx /\ exists l xs, listed_here (snd kj) l /\ snd kx = VList xs /\ Forall2 (says c) l xs /\ old_value (snd kx) /\ wfv (snd kx)) d e).
      { eapply Forall2_weaken_In; [|exact E]. cbn beta. intros [k y] [k' z] I _ (Q & R). cbn [fst snd] in *. split; [exact Q|]. apply parse_list_ok in R; auto. exact (WF _ I). }
      split; [|split].
      + econstructor; [constructor|]. eapply Forall2_weaken; [|exact F]. intros a b (Q & l & xs & A & B & C & _). split; [exact Q|]. exists l, xs. auto.
      + apply old_dict. clear - F. induction F as [|? ? ? ? (_ & l & xs & _ & _ & _ & O & _)]; constructor; auto.
      + constructor; [rewrite <- (drel_keys _ _ _ E); exact ND|]. clear - F. induction F as [|? ? ? ? (_ & l & xs & _ & _ & _ & _ & O)]; constructor; auto.
  Qed.
  (** the entry [n] of what was parsed as children *)
  Definition okid (d : sdict json) (t : list (str * (octype * ocls))) (n : str) (o : option val) : Prop :=
    match sget n t with
    | None => o = None
    | Some (ct, cc) =>
        match o with
        | Some x => says_in ct cc (sget n d) x /\ old_value x /\ wfv x
        | None => ct = XOne /\ (sget n d = None \/ sget n d = Some JNull)
        end
    end.
  Lemma empty_child ct c o : ct <> XOne -> o = None \/ o = Some JNull ->
    let x := match ct with XList => VList [] | _ => VDict [] end in says_in ct c o x /\ old_value x /\ wfv x.
  Proof.
    intros N O x. assert (OX : old_value x /\ wfv x).
    { destruct ct; [congruence| | |]; cbv [x]; split; try (apply old_list; constructor); try (apply old_dict; constructor); constructor; constructor. }
    split; [|exact OX]. destruct ct; [congruence| | |]; cbv [x]; destruct O as [-> | ->]; econstructor; try constructor.
  Qed.
  Lemma okids pl d t : forall kids, NoDup (map fst t) -> wf (JObj d) -> (forall n ct cc, sget n t = Some (ct, cc) -> cc <> OResourceList) ->
    o_parse_children rec pl t d = Ok kids -> forall n, okid d t n (sget n kids).
  Proof.
    induction t as [|[key [ct c]] t IH]; intros kids ND W NC E n; cbn [o_parse_children] in E.
    - injection E as <-. reflexivity.
    - inversion ND as [|? ? NI ND']; subst. apply bind_ok in E as (kv & A & E). apply bind_ok in E as (r & B & E). injection E as <-.
      assert (NC' : forall n ct cc, sget n t = Some (ct, cc) -> cc <> OResourceList).
      { intros m ct' cc' S. apply (NC m ct'). rewrite sget_cons. destruct (str_eqb m key) eqn:Q; [|exact S]. apply str_eqb_eq in Q. subst. rewrite (proj2 (sget_None key t) NI) in S. discriminate S. }
      specialize (IH _ ND' W NC' B n). unfold okid in *. rewrite sget_cons.
      assert (C : c <> OResourceList) by (apply (NC key ct); rewrite sget_cons, str_eqb_refl; reflexivity).
      destruct (str_eqb n key) eqn:Q.
      + apply str_eqb_eq in Q. subst n. rewrite (proj2 (sget_None key t) NI) in IH.
        assert (AB : sget key d = None \/ sget key d = Some JNull -> kv = match ct with XOne => [] | XList => [(key, VList [])] | _ => [(key, VDict [])] end ->
          match sget key (kv ++ r) with Some x => says_in ct c (sget key d) x /\ old_value x /\ wfv x | None => ct = XOne /\ (sget key d = None \/ sget key d = Some JNull) end).
        { intros O ->. pose proof (empty_child ct c (sget key d)) as EM. destruct ct; cbn [app]; rewrite ?sget_cons, ?str_eqb_refl; [rewrite IH; auto|..]; apply EM; auto; discriminate. }
        destruct (sget key d) as [v|] eqn:G.
        * assert (WV : wf v). { inversion W as [| | | | | |? ? WF]; subst. rewrite Forall_forall in WF. apply sget_In in G. exact (WF _ G). }
          destruct (match v with JNull => true | _ => false end) eqn:Z.
          -- destruct v; try discriminate Z. injection A as <-. apply AB; auto.
          -- assert (A' : (do x <- o_parse_child rec ct c (pl ++ [key]) v; Ok [(key, x)]) = Ok kv) by (destruct v; try discriminate Z; exact A).
             apply bind_ok in A' as (x & A' & X). injection X as <-. cbn [app]. rewrite sget_cons, str_eqb_refl. eapply parse_child_ok; eauto. intros ->. discriminate Z.
        * injection A as <-. apply AB; auto.
      + assert (X : sget n (kv ++ r) = sget n r).
        { destruct (sget key d) as [[]|]; try (apply bind_ok in A as (x & A & X); injection X as <-; cbn [app]; rewrite sget_cons, Q; reflexivity);
            injection A as <-; destruct ct; cbn [app]; rewrite ?sget_cons, ?Q; reflexivity. }
        now rewrite X.
  Qed.
  (** the entry [n] of what a context has gathered *)
  Definition gathers (c : ocls) (d : sdict json) (n : str) (o : option val) : Prop :=
    match sget n (o_child c) with
    | None => o = option_map inject (sget n d)
    | Some (ct, cc) =>
        match o with
        | Some x => says_in ct cc (sget n d) x /\ old_value x /\ wfv x
        | None => ct = XOne /\ sget n d = None
        end
    end.
  Lemma gather_ok c pl d obj : wf (JObj d) -> o_gather rec c pl d = Ok obj -> forall n, gathers c d n (sget n obj).
  Proof.
    intros W E n. unfold o_gather in E. apply bind_ok in E as (kids & K & E). injection E as <-. fold (all_of kids d). rewrite sget_all_of.
    pose proof (okids pl d _ kids (o_child_nodup c) W (fun n ct cc S => proj1 (o_child_list c n ct cc S)) K n) as Q. unfold okid in Q. unfold gathers.
    destruct (sget n (o_child c)) as [[ct cc]|] eqn:T; [|now rewrite Q]. destruct (sget n kids) as [x|]; [exact Q|]. destruct Q as (-> & [Q|Q]); rewrite Q; cbn [option_map inject].
    - auto.
    - split; [now constructor; right|]. split; [apply old_VNone|constructor].
  Qed.
End Rec.
Lemma o_assign_ok p t fs : forall fs', o_assign p t fs = Ok fs' ->
  drel (fun n v v' => match sget n t with Some (ct, c) => o_apply ct (assign1 p (Of (COld c))) v | None => Ok v end = Ok v') fs fs'.
Proof.
  induction fs as [|[n v] fs IH]; intros fs' E; cbn [o_assign] in E.
  - injection E as <-. constructor.
  - apply bind_ok in E as (v' & A & E). apply bind_ok in E as (r & B & E). injection E as <-. constructor; [auto|now apply IH].
Qed.
(** An Items object *)
Lemma items_ok pl d i : wf (JObj d) -> produce (COld OItems) pl (map (fun kv => (fst kv, inject (snd kv))) d) = Ok i -> says OItems (JObj d) i /\ old_value i /\ wfv i.
Proof.
  intros W E. rewrite produce_fields in E by (intros n df ct cc _ T; discriminate T). injection E as <-.
  set (f := fun (n : str) (df : json) => match sget n (map (fun kv => (fst kv, inject (snd kv))) d) with Some v => v | None => inject df end).
  match goal with |- context [VObj ?h ?a ?b] => change (says OItems (JObj d) (VObj h (map (fun nd => (fst nd, f (fst nd) (snd nd))) (o_fields OItems)) b) /\ old_value (VObj h (map (fun nd => (fst nd, f (fst nd) (snd nd))) (o_fields OItems)) b) /\ wfv (VObj h (map (fun nd => (fst nd, f (fst nd) (snd nd))) (o_fields OItems)) b)) end.
  assert (FV : forall n df, f n df = match sget n d with Some j => inject j | None => inject df end) by (intros; unfold f; rewrite sget_map; now destruct (sget n d)).
  assert (P : forall n df, exists j, f n df = inject j) by (intros; rewrite FV; destruct (sget n d); eauto).
  split; [|split].
  - constructor; [reflexivity|]. intros n df F. rewrite sget_mapk, F. cbn [option_map]. eexists. split; [reflexivity|]. rewrite FV. apply field_plain; [reflexivity|]. intros (X & _). discriminate X.
  - apply (old_obj OItems); [reflexivity|reflexivity|apply Forall_map; apply Forall_forall; intros nd _; cbn [fst snd]..].
    + destruct (P (fst nd) (snd nd)) as (j & ->). apply old_inject.
    + unfold old_field. cbn [o_holds o_child dget]. destruct (P (fst nd) (snd nd)) as (j & ->). apply inject_none_obj.
  - constructor; [rewrite map_map; reflexivity|]. apply Forall_map. apply Forall_forall. intros nd I. cbn [fst snd]. rewrite FV. destruct (sget (fst nd) d) as [j|] eqn:G.
    + apply wfv_inject. inversion W as [| | | | | |? ? F]; subst. rewrite Forall_forall in F. apply sget_In in G. exact (F _ G).
    + apply (wfv_default (COld OItems) (fst nd)). destruct nd. apply In_sget; [apply fields_nodup|exact I].
Qed.
(** One field of an object, before the operations are collected *)
Definition base_fs (c : ocls) (obj : sdict val) : sdict val :=
  map (fun nd => (fst nd, match sget (fst nd) obj with Some v => v | None => inject (snd nd) end)) (o_fields c).
Definition field_made (c : ocls) (pl : place) (d : sdict json) (n : str) (df : json) (x : val) : Prop :=
  wfv x /\ old_value x /\
  match sget n (o_child c) with
  | Some (ct, cc) => exists y, says_in ct cc (sget n d) y /\ x = oown pl y
  | None => says_field c n df (sget n d) x /\ (no_obj x \/ (is_data_type c = true /\ n = lit "items" /\ of_class OItems x)) /\
            (is_data_type c = true /\ n = lit "items" -> of_class OItems x \/ ~ holds_true x)
  end.
Lemma item_none : ~ holds_true (inject JNull). Proof. intros []. Qed.
Lemma items_default c df : is_data_type c = true -> sget (lit "items") (o_fields c) = Some df -> df = JNull.
Proof. destruct c; try discriminate; intros _ E; vm_compute in E; congruence. Qed.
Lemma base_field c pl d obj obj' fs n df : wf (JObj d) -> gathers c d n (sget n obj) ->
  (if is_data_type c then old_items pl obj else Ok obj) = Ok obj' -> o_assign pl (o_child c) (base_fs c obj') = Ok fs ->
  sget n (o_fields c) = Some df -> exists x, sget n fs = Some x /\ field_made c pl d n df x.
Proof.
  intros W G IT A F. apply o_assign_ok in A.
  assert (B : sget n (base_fs c obj') = Some (match sget n obj' with Some v => v | None => inject df end)).
  { unfold base_fs. rewrite (sget_mapk (fun n df => match sget n obj' with Some v => v | None => inject df end)), F. reflexivity. }
  destruct (drel_get_l _ _ _ _ _ A B) as (x & X & R). cbn beta in R. exists x. split; [exact X|]. clear A X.
  assert (WF : forall j, sget n d = Some j -> wf j). { intros j E. inversion W as [| | | | | |? ? FF]; subst. rewrite Forall_forall in FF. apply sget_In in E. exact (FF _ E). }
  assert (OTHER : ~ (is_data_type c = true /\ n = lit "items") -> sget n obj' = sget n obj).
  { intro N. destruct (is_data_type c); [|congruence]. unfold old_items in IT. destruct (sget (lit "items") obj) as [v|]; [|congruence]. destruct (falsy v); [congruence|]. destruct v; try discriminate IT.
    apply bind_ok in IT as (i & _ & E). injection E as <-. apply sget_sset_other. intros ->. auto. }
  unfold field_made, gathers in *. destruct (sget n (o_child c)) as [[ct cc]|] eqn:T.
  - rewrite OTHER in R by (intros (D & ->); rewrite (o_child_no_items c D) in T; discriminate T).
    assert (Y : exists y, says_in ct cc (sget n d) y /\ old_value y /\ wfv y /\ match sget n obj with Some v => v | None => inject df end = y).
    { destruct (sget n obj) as [y|]; [destruct G as (S & O & WV); exists y; auto|]. destruct G as (-> & ->). rewrite (o_child_default _ _ _ T) in F. injection F as <-. exists VNone. split; [constructor; now left|]. split; [apply old_VNone|split; [constructor|reflexivity]]. }
    destruct Y as (y & S & O & WV & Y). rewrite Y in R. apply apply_held in R; [|eapply says_in_held; eauto]. subst x. destruct (oown_good pl y WV O) as (WV' & O'). split; [exact WV'|]. split; [exact O'|]. eauto.
  - injection R as <-.
    destruct (is_data_type c && str_eqb n (lit "items"))%bool eqn:ITM.
    + apply andb_prop in ITM as (D & E). apply str_eqb_eq in E. subst n. rewrite D in IT. pose proof (items_default c df D F) as ->. unfold old_items in IT. rewrite G in IT.
      destruct (sget (lit "items") d) as [j|] eqn:J; cbn [option_map] in IT, G.
      * destruct (falsy (inject j)) eqn:FA.
        -- injection IT as <-. rewrite G. assert (NH : ~ holds_true (inject j)) by (intro H; apply holds_true_iff in H; congruence).
           split; [apply wfv_inject; now apply WF|]. split; [apply old_inject|]. split; [apply (field_items c JNull (Some j) D); eauto|]. split; [left; apply inject_none_obj|auto].
        -- destruct (inject j) as [| | | | | |dd|] eqn:IJ; try discriminate IT. apply bind_ok in IT as (i & P & E). injection E as <-. rewrite sget_sset_same.
           destruct j as [| | | | | |d0]; try discriminate IJ. cbn [inject] in IJ. injection IJ as <-. apply items_ok in P as (S & O & WV); [|now apply WF].
           pose proof (says_class _ _ _ S) as OC. split; [exact WV|]. split; [exact O|]. split; [apply field_item; [exact D|apply holds_true_iff; cbn [inject]; exact FA|exact S]|]. split; [right; auto|auto].
      * injection IT as <-. rewrite G. cbn [inject]. split; [constructor|]. split; [apply old_VNone|]. split; [apply (field_items c JNull None D); auto|]. split; [left; exact (inject_none_obj JNull)|]. intros _. right. exact item_none.
    + assert (N : ~ (is_data_type c = true /\ n = lit "items")). { intros (D & E). rewrite D, (proj2 (str_eqb_eq _ _) E) in ITM. discriminate ITM. }
      rewrite (OTHER N), G. assert (V : match option_map inject (sget n d) with Some v => v | None => inject df end = match sget n d with Some j => inject j | None => inject df end) by now destruct (sget n d).
      rewrite V. split; [|split; [|split; [|split]]].
      * destruct (sget n d) as [j|]; [apply wfv_inject; now apply WF|]. now apply (wfv_default (COld c) n).
      * destruct (sget n d); apply old_inject.
      * now apply field_plain.
      * left. destruct (sget n d); apply inject_none_obj.
      * intro X. contradiction.
Qed.
Lemma holds_child c n : ~ (c = OResource /\ n = lit "apis") -> ~ (c = OResourceList /\ n = lit "apis") ->
  sget n (o_holds c) = if (is_data_type c && str_eqb n (lit "items"))%bool then Some (XOne, OItems) else sget n (o_child c).
Proof.
  intros N1 N2. destruct c; cbn [is_data_type andb o_holds]; try reflexivity.
  - cbn [o_child]. rewrite !sget_cons. destruct (str_eqb n (lit "apis")) eqn:E; [|reflexivity]. apply str_eqb_eq in E. tauto.
  - rewrite sget_cons. destruct (str_eqb n (lit "apis")) eqn:E; [|reflexivity]. apply str_eqb_eq in E. tauto.
Qed.
Lemma made_old c pl d n df x : ~ (c = OResource /\ n = lit "apis") -> ~ (c = OResourceList /\ n = lit "apis") ->
  field_made c pl d n df x -> old_field c pl n x.
Proof.
  intros N1 N2 (WV & O & M). unfold old_field. rewrite holds_child by assumption. destruct (is_data_type c && str_eqb n (lit "items"))%bool eqn:B.
  - apply andb_prop in B as (D & E). apply str_eqb_eq in E. subst n. rewrite (o_child_no_items c D) in M. destruct M as (_ & NO & M). destruct (M (conj D eq_refl)) as [OC|NH].
    + left. split; [exact OC|]. intros (X & _). congruence.
    + destruct NO as [NO|(_ & _ & (h & fs & i & -> & _))]; [auto|]. elim NH. exact Logic.I.
  - destruct (sget n (o_child c)) as [[ct cc]|].
    + destruct M as (y & S & ->). destruct (says_in_held _ _ _ _ S) as [H| ->]; [|right; left; reflexivity]. left. split; [now apply held_oown|]. intros _. now apply (held_parents pl ct cc).
    + destruct M as (_ & [NO|(D & E & _)] & _); [exact NO|]. rewrite D, (proj2 (str_eqb_eq _ _) E) in B. discriminate B.
Qed.
Lemma made_says c pl d n df x : ~ (c = OResource /\ n = lit "apis") -> field_made c pl d n df x -> says_field c n df (sget n d) x.
Proof.
  intros N (WV & O & M). destruct (sget n (o_child c)) as [[ct cc]|] eqn:T; [|apply M]. destruct M as (y & S & ->). apply (field_child c n df ct cc); auto. now apply says_in_own.
Qed.

(** ** Operations of a resource *)
Definition op_made (rp : place) (pj : json * json) (no : str * val) : Prop :=
  says OOperation (snd pj) (snd no) /\ entry (snd pj) (lit "nickname") = Some (JStr (fst no)) /\ has_path (snd no) (fst pj) /\
  old_value (snd no) /\ wfv (snd no) /\ parent_of (snd no) = Some rp.
Definition good_obj (c : ocls) (j : json) (o : val) : Prop := says c j o /\ old_value o /\ wfv o.
Lemma sset_new {V} k (v : V) d : smem k d = false -> sset k v d = d ++ [(k, v)].
Proof.
  intro E. induction d as [|[k' x] d IH]; [reflexivity|]. rewrite smem_sget, sget_cons in E. cbn [dset app]. destruct (str_eqb k k'); [discriminate E|]. f_equal. apply IH. now rewrite smem_sget.
Qed.
Lemma NoDup_app_snoc {A} (l : list A) x : NoDup l -> ~ In x l -> NoDup (l ++ [x]).
Proof. intros N I. induction N as [|y l NY N IH]; cbn [app]; constructor; [intros []|constructor|..].
  - intro X. apply in_app_or in X as [X|[X|[]]]; [auto|]. subst. apply I. now left.
  - apply IH. intro X. apply I. now right.
Qed.
Lemma inject_str j s : inject j = VStr s -> j = JStr s.
Proof. destruct j; cbn [inject]; intro E; try discriminate E. congruence. Qed.
Lemma plain_field c n df o x : sget n (o_child c) = None -> ~ (is_data_type c = true /\ n = lit "items") -> says_field c n df o x ->
  x = match o with Some j => inject j | None => inject df end.
Proof.
  intros T N S. destruct S as [| | |? ? ? ? ? ? ? T'|]; try reflexivity.
  - elim N. auto.
  - congruence.
  - discriminate T.
Qed.
Lemma child_field_in c n df o x k : sget n (o_child c) = Some k -> ~ (c = OResource /\ n = lit "apis") -> says_field c n df o x -> says_in (fst k) (snd k) o x.
Proof.
  intros T N S. destruct S as [? ? ? ? T'|? ? ? D|? ? ? ? D|? ? ? ? ? ? ? T' _ S|].
  - congruence.
  - rewrite (o_child_no_items _ D) in T. discriminate T.
  - rewrite (o_child_no_items _ D) in T. discriminate T.
  - rewrite T in T'. injection T' as ->. exact S.
  - elim N. auto.
Qed.
Ltac not_items := let X := fresh in let Y := fresh in intros (X & Y); first [discriminate X|discriminate Y].
Lemma op_path h fs ints p v : h_cls h = COld OOperation -> wfv (VObj h fs ints) -> old_value (VObj h fs ints) -> update_field (lit "path") p (VObj h fs ints) = Ok v ->
  v = VObj (key_added (lit "path") h) fs [(lit "path", p)].
Proof.
  intros C W O E. inversion W as [| | | | | | |? ? ? K _]; subst. rewrite C in K.
  inversion O as [? N| | |c ? ? ? C' KI _ _]; subst; [now apply no_obj_VObj in N|]. rewrite C in C'. injection C' as <-. cbn in KI.
  apply update_int in E as (_ & ->).
  - destruct ints as [|[k x] [|]]; try discriminate KI. cbn [map fst] in KI. injection KI as ->. reflexivity.
  - rewrite (smem_keys (lit "path") fs (t_fields (COld OOperation)) K). reflexivity.
Qed.
Lemma flat_ops_ok rp pj : forall ops jops acc acc', Forall2 (good_obj OOperation) jops ops -> flat_ops rp (inject pj) ops acc = Ok acc' ->
  exists new, acc' = acc ++ new /\ Forall2 (op_made rp) (map (fun op => (pj, op)) jops) new /\ (NoDup (map fst acc) -> NoDup (map fst acc')).
Proof.
  induction ops as [|op ops IH]; intros jops acc acc' F E; cbn [flat_ops] in E.
  - injection E as <-. inversion F; subst. exists []. rewrite app_nil_r. split; [reflexivity|]. split; [constructor|auto].
  - inversion F as [|j ? jops' ? (S & O & W) F']; subst. apply bind_ok in E as (name & G & E). destruct name as [| | | |n| | |]; try discriminate E.
    destruct (smem n acc) eqn:M; [discriminate E|]. apply bind_ok in E as (op' & U & E).
    pose proof (says_class _ _ _ S) as (h & fs & ints & -> & C). apply (op_path h fs ints _ _ C W O) in U. subst op'. rewrite sset_new in E by exact M.
    destruct (IH _ _ _ F' E) as (new & -> & FN & ND). cbn [set_parent] in *. rewrite <- app_assoc in ND |- *. exists ([(n, VObj (Head (h_cls (key_added (lit "path") h)) (h_place (key_added (lit "path") h)) (Some rp) (h_keys (key_added (lit "path") h))) fs [(lit "path", inject pj)])] ++ new).
    split; [reflexivity|]. split.
    + cbn [map app]. constructor; [|exact FN]. unfold op_made. cbn [fst snd]. unfold get in G. assert (NF : sget (lit "nickname") fs = Some (VStr n)).
      { unfold attr in G. destruct (sget (lit "nickname") fs) eqn:Q; [congruence|]. inversion W as [| | | | | | |? ? ? K _]; subst. apply sget_None in Q. elim Q. rewrite K, C. cbn. tauto. }
      split; [|split; [|split; [|split; [|split]]]].
      * inversion S as [? ? ? ? C' E'|? d ? ? ? C' H]; subst; [discriminate NF|]. apply says_obj; [exact C|exact H].
      * inversion S as [? ? ? ? C' E'|? d ? ? ? C' H]; subst; [discriminate NF|]. cbn [entry]. destruct (H (lit "nickname") JNull eq_refl) as (x & X & SF). rewrite NF in X. injection X as <-.
        apply plain_field in SF; [|reflexivity|not_items]. destruct (sget (lit "nickname") d) as [jn|]; [|discriminate SF]. f_equal. now apply inject_str.
      * do 3 eexists. split; [reflexivity|reflexivity].
      * inversion O as [? N| | |c ? ? ? C' KI FO FF]; subst; [now apply no_obj_VObj in N|]. rewrite C in C'. injection C' as <-. apply (old_obj OOperation); auto.
      * inversion W as [| | | | | | |? ? ? K FW]; subst. now constructor.
      * reflexivity.
    + intro NA. apply ND. rewrite map_app. cbn [map fst]. apply NoDup_app_snoc; [exact NA|]. intro I. apply smem_In in I. congruence.
Qed.
Lemma flat_apis_ok rp : forall apis japis acc acc', Forall2 (good_obj OApi) japis apis -> flat_apis rp apis acc = Ok acc' ->
  exists l new, api_operations japis l /\ acc' = acc ++ new /\ Forall2 (op_made rp) l new /\ (NoDup (map fst acc) -> NoDup (map fst acc')).
Proof.
  induction apis as [|api apis IH]; intros japis acc acc' F E; cbn [flat_apis] in E.
  - injection E as <-. inversion F; subst. exists [], []. rewrite app_nil_r. split; [constructor|]. split; [reflexivity|]. split; [constructor|auto].
  - inversion F as [|j ? japis' ? (S & O & W) F']; subst. apply bind_ok in E as (ops & G & E). apply bind_ok in E as (lops & IT & E). apply bind_ok in E as (path & P & E). apply bind_ok in E as (acc1 & A1 & E).
    inversion S as [c h fs ints C EF|c d h fs ints C H]; subst.
    + exfalso. unfold get in G. cbn in G. injection G as <-. discriminate IT.
    + assert (OF : exists jops, listed (sget (lit "operations") d) jops /\ Forall2 (good_obj OOperation) jops lops).
      { destruct (H (lit "operations") JNull eq_refl) as (x & X & SF). assert (x = ops) as -> by (unfold get, attr in G; rewrite X in G; congruence).
        inversion W as [| | | | | | |? ? ? K FW]; subst. rewrite Forall_forall in FW. specialize (FW _ (sget_In _ _ _ X)). cbn [snd] in FW.
        inversion O as [? N| | |c' ? ? ? C' KI FO FF]; subst; [now apply no_obj_VObj in N|]. rewrite Forall_forall in FO. specialize (FO _ (sget_In _ _ _ X)). cbn [snd] in FO.
        apply child_field_in with (k := (XList, OOperation)) in SF as SI; [|reflexivity|not_items]. cbn [fst snd] in SI. inversion SI as [| |? ? jl xs L FS| |]; subst. cbn [iterate] in IT. injection IT as <-.
        exists jl. split; [exact L|]. apply old_list_inv in FO. inversion FW as [| | | | |? FW'| |]; subst. clear - FS FO FW'. induction FS; constructor; inversion FO; inversion FW'; subst; auto. split; auto. }
      destruct OF as (jops & L & FO).
      assert (PP : path = inject (match sget (lit "path") d with Some p => p | None => JNull end)).
      { destruct (H (lit "path") JNull eq_refl) as (x & X & SF). assert (x = path) as -> by (unfold get, attr in P; rewrite X in P; congruence).
        apply plain_field in SF; [|reflexivity|not_items]. rewrite SF. now destruct (sget (lit "path") d). }
      subst path. apply flat_ops_ok with (jops := jops) in A1; [|exact FO]. destruct A1 as (n1 & -> & F1 & ND1). destruct (IH _ _ _ F' E) as (l & n2 & AO & -> & F2 & ND2).
      exists (map (fun op => (match sget (lit "path") d with Some p => p | None => JNull end, op)) jops ++ l), (n1 ++ n2). split; [now constructor|]. split; [now rewrite app_assoc|]. split; [now apply Forall2_app|auto].
Qed.

(** ** All of it *)
Lemma obj_keys c pl obj fs : o_assign pl (o_child c) (base_fs c obj) = Ok fs -> map fst fs = map fst (o_fields c).
Proof. intro A. apply o_assign_ok in A. rewrite <- (drel_keys _ _ _ A). unfold base_fs. rewrite map_map. reflexivity. Qed.
Lemma all_fields (P : str -> val -> Prop) c fs : map fst fs = map fst (o_fields c) -> (forall n df x, sget n (o_fields c) = Some df -> sget n fs = Some x -> P n x) ->
  Forall (fun kv => P (fst kv) (snd kv)) fs.
Proof.
  intros K H. apply Forall_forall. intros [n x] I. cbn [fst snd].
  assert (ND : NoDup (map fst fs)) by (rewrite K; apply o_fields_nodup).
  assert (IN : In n (map fst (o_fields c))) by (rewrite <- K; apply (in_map fst _ _ I)). apply sget_Some_key in IN as (df & D). apply (H n df x D). now apply In_sget.
Qed.
Lemma produce_ok c pl d obj v : c <> OResourceList -> wf (JObj d) -> (forall n, gathers c d n (sget n obj)) -> o_produce c pl obj = Ok v -> made_of c pl (JObj d) v.
Proof.
  intros NC W G E. unfold o_produce in E. apply bind_ok in E as (obj' & IT & E). apply bind_ok in E as (fs & A & E). fold (base_fs c obj') in A.
  pose proof (obj_keys _ _ _ _ A) as K.
  assert (FM : forall n df, sget n (o_fields c) = Some df -> exists x, sget n fs = Some x /\ field_made c pl d n df x) by (intros n df; now apply (base_field c pl d obj obj' fs n df W (G n) IT A)).
  assert (IK : map fst (map (fun nd : str * json => (fst nd, VNone)) (t_internal (COld c))) = map fst (t_internal (COld c))) by (rewrite map_map; reflexivity).
  assert (NR : c <> OResource -> v = VObj (Head (COld c) pl None (map fst obj')) fs (map (fun nd => (fst nd, VNone)) (t_internal (COld c))) -> made_of c pl (JObj d) v).
  { intros N ->. assert (N1 : forall n, ~ (c = OResource /\ n = lit "apis")) by (intros n (X & _); congruence). assert (N2 : forall n, ~ (c = OResourceList /\ n = lit "apis")) by (intros n (X & _); congruence).
    assert (FA : forall n df x, sget n (o_fields c) = Some df -> sget n fs = Some x -> field_made c pl d n df x) by (intros n df x F X; destruct (FM n df F) as (y & Y & M); congruence).
    split; [|split; [|split]].
    - apply says_obj; [reflexivity|]. intros n df F. destruct (FM n df F) as (x & X & M). exists x. split; [exact X|]. now apply (made_says c pl d n df x (N1 n)).
    - apply (old_obj c); [reflexivity|exact IK|..].
      + apply (all_fields (fun _ x => old_value x) c); [exact K|]. intros n df x F X. apply (FA n df x F X).
      + apply (all_fields (fun n x => old_field c pl n x) c); [exact K|]. intros n df x F X. apply (made_old c pl d n df x (N1 n) (N2 n)). now apply FA.
    - constructor; [exact K|]. apply (all_fields (fun _ x => wfv x) c); [exact K|]. intros n df x F X. apply (FA n df x F X).
    - eauto. }
  destruct (match c with OResource => true | _ => false end) eqn:RC.
  2: { apply NR; [now destruct c|]. destruct c; try discriminate RC; congruence. }
  destruct c; try discriminate RC. clear NR RC.
  destruct (FM (lit "apis") JNull eq_refl) as (x & X & WX & OX & M). change (sget (lit "apis") (o_child OResource)) with (Some (XList, OApi)) in M. cbv iota in M. destruct M as (y & S & ->).
  inversion S as [| |? ? japis xs L F| |]; subst. cbn [oown] in *. rewrite X in E. apply bind_ok in E as (ops & FL & E).
  assert (GA : Forall2 (good_obj OApi) japis (map (set_parent pl) xs)).
  { apply (says_parents pl) in F. apply old_list_inv in OX. inversion WX as [| | | | |? FW| |]; subst. clear - F OX FW. induction F; constructor; inversion OX; inversion FW; subst; auto. split; auto. }
  destruct (flat_apis_ok pl _ _ _ _ GA FL) as (l & new & AO & -> & FO & ND). cbn [app] in *. specialize (ND (NoDup_nil _)).
  apply update_own in E; [|rewrite smem_sget, X; reflexivity]. subst v.
  assert (FA : forall n df x, n <> lit "apis" -> sget n (o_fields OResource) = Some df -> sget n (sset (lit "apis") (VDict new) fs) = Some x -> field_made OResource pl d n df x).
  { intros n df x N Fn Xn. rewrite sget_sset_other in Xn by exact N. destruct (FM n df Fn) as (z & Z & MM). congruence. }
  assert (K' : map fst (sset (lit "apis") (VDict new) fs) = map fst (o_fields OResource)) by (rewrite sset_keys; [exact K|rewrite smem_sget, X; reflexivity]).
  assert (OV : old_value (VDict new)). { apply old_dict. clear - FO. induction FO as [|? ? ? ? (_ & _ & _ & O & _)]; constructor; auto. }
  assert (WV : wfv (VDict new)). { constructor; [exact ND|]. clear - FO. induction FO as [|? ? ? ? (_ & _ & _ & _ & O & _)]; constructor; auto. }
  assert (HD : Forall (fun kv => of_class OOperation (snd kv) /\ parent_of (snd kv) = Some pl) new). { clear - FO. induction FO as [|? ? ? ? (A & _ & _ & _ & _ & O)]; constructor; auto. split; [|exact O]. eapply says_class; eauto. }
  split; [|split; [|split]].
  - apply says_obj; [reflexivity|]. intros n df Fn. destruct (str_eqb_spec n (lit "apis")) as [->|N].
    + rewrite sget_sset_same. eexists. split; [reflexivity|]. apply (field_apis df _ japis l new L AO); [|exact ND]. eapply Forall2_weaken; [|exact FO]. intros a b (A1 & A2 & A3 & _). auto.
    + rewrite sget_sset_other by exact N. destruct (FM n df Fn) as (z & Z & MM). exists z. split; [exact Z|]. apply (made_says OResource pl d n df z); [|exact MM]. intros (_ & Q). contradiction.
  - apply (old_obj OResource); [reflexivity|exact IK|..].
    + apply (all_fields (fun _ x => old_value x) OResource); [exact K'|]. intros n df z Fn Z. destruct (str_eqb_spec n (lit "apis")) as [->|N]; [|apply (FA n df z N Fn Z)]. rewrite sget_sset_same in Z. injection Z as <-. exact OV.
    + apply (all_fields (fun n x => old_field OResource pl n x) OResource); [exact K'|]. intros n df z Fn Z. destruct (str_eqb_spec n (lit "apis")) as [->|N].
      * rewrite sget_sset_same in Z. injection Z as <-. unfold old_field. change (sget (lit "apis") (o_holds OResource)) with (Some (XDict, OOperation)). cbv iota. left. split.
        -- exists new. split; [reflexivity|]. eapply Forall_impl; [|exact HD]. intros a (A1 & _). exact A1.
        -- intros _ ts o I O. inversion I as [| |? k w ? ? GK IK']; subst; [destruct O|]. apply sget_In in GK. rewrite Forall_forall in HD. destruct (HD _ GK) as ((h & f & i & Q & _) & PP). cbn [snd] in *. subst w. apply inside_obj in IK'. now subst.
      * apply (made_old OResource pl d n df z); [intros (_ & Q); contradiction|not_items|]. now apply FA.
  - constructor; [exact K'|]. apply (all_fields (fun _ x => wfv x) OResource); [exact K'|]. intros n df z Fn Z. destruct (str_eqb_spec n (lit "apis")) as [->|N]; [|apply (FA n df z N Fn Z)]. rewrite sget_sset_same in Z. injection Z as <-. exact WV.
  - unfold key_added. eauto.
Qed.
Lemma produce_null c pl v : c <> OResourceList -> o_produce c pl [] = Ok v -> made_of c pl JNull v.
Proof.
  intros NC E. unfold o_produce in E. apply bind_ok in E as (obj' & IT & E). assert (obj' = []) by (destruct c; cbv in IT; now inversion IT). subst obj'. clear IT.
  apply bind_ok in E as (fs & A & E). fold (base_fs c []) in A. apply o_assign_ok in A.
  assert (EQ : fs = map (fun nd => (fst nd, inject (snd nd))) (o_fields c)).
  { change (base_fs c []) with (map (fun nd => (fst nd, inject (snd nd))) (o_fields c)) in A.
    assert (B : drel (fun n (v v' : val) => v' = v) (map (fun nd => (fst nd, inject (snd nd))) (o_fields c)) fs).
    { unfold drel in *. eapply Forall2_weaken_In; [|exact A]. intros [n y] [n' z] I _ (Q & R). cbn [fst snd] in *. split; [exact Q|]. destruct (sget n (o_child c)) as [[ct cc]|] eqn:T; [|congruence].
      apply in_map_iff in I as ([m df] & E' & I). cbn [fst snd] in E'. injection E' as -> <-. apply o_child_default in T. rewrite (In_sget _ _ _ (o_fields_nodup c) I) in T. injection T as ->. destruct ct; cbv in R; now inversion R. }
    clear - B. unfold drel in B. remember (map (fun nd => (fst nd, inject (snd nd))) (o_fields c)) as l. clear Heql. induction B as [|[a b] [a' b'] l m (E & F) B IH]; [reflexivity|]. cbn in E, F. now rewrite E, F, IH. }
  assert (PL : forall n x, In (n, x) fs -> exists df, sget n (o_fields c) = Some df /\ x = inject df).
  { intros n x I. rewrite EQ in I. apply in_map_iff in I as ([m df] & E' & I). cbn in E'. injection E' as -> <-. exists df. split; [|reflexivity]. apply In_sget; [apply o_fields_nodup|exact I]. }
  assert (M : v = VObj (Head (COld c) pl None []) fs (map (fun nd => (fst nd, VNone)) (t_internal (COld c))) -> c <> OResource -> made_of c pl JNull v).
  { intros -> NR. split; [|split; [|split; [|eauto]]].
    - now apply says_null.
    - apply (old_obj c); [reflexivity|rewrite map_map; reflexivity|..]; apply Forall_forall; intros [n x] I; cbn [fst snd]; destruct (PL n x I) as (df & F & ->).
      + apply old_inject.
      + unfold old_field. rewrite holds_child by (intros (Q & _); congruence). destruct (is_data_type c && str_eqb n (lit "items"))%bool eqn:B.
        * apply andb_prop in B as (D & Q). apply str_eqb_eq in Q. subst n. rewrite (items_default c df D F). right. now left.
        * destruct (sget n (o_child c)) as [[ct cc]|] eqn:T; [|apply inject_none_obj]. apply o_child_default in T. rewrite F in T. injection T as ->. right. now left.
    - constructor; [rewrite EQ, map_map; reflexivity|]. apply Forall_forall. intros [n x] I. cbn [snd]. destruct (PL n x I) as (df & F & ->). now apply (wfv_default (COld c) n). }
  destruct (match c with OResource => true | _ => false end) eqn:RC.
  - destruct c; try discriminate RC. subst fs. discriminate E.
  - apply M; [|now destruct c]. destruct c; try discriminate RC; cbn [map] in E; congruence.
Qed.
Lemma parsef_made : forall f c pl j v, c <> OResourceList -> wf j -> o_parsef f c pl j = Ok v -> made_of c pl j v.
Proof.
  induction f as [|f IH]; intros c pl j v NC W E; cbn [o_parsef] in E; [discriminate E|]. destruct j; cbn [o_parse_step] in E; try discriminate E.
  - now apply produce_null.
  - apply bind_ok in E as (obj & G & E). eapply produce_ok; [exact NC|exact W| |exact E]. eapply gather_ok; [exact IH| |exact W|exact G].
    intros c' pl' j' v' P. destruct f; [discriminate P|]. cbn [o_parsef] in P. destruct j'; cbn [o_parse_step] in P; try discriminate P; eauto.
Qed.

(** ** Fuel *)
Definition rank (c : ocls) : nat :=
  match c with
  | OImplicit | OAuthorizationCode | OOperation | OModel => 2
  | OGrantType | OApi => 3
  | OAuthorization | OResource | OResourceList => 4
  | _ => 1
  end.
Lemma child_rank c n ct cc : sget n (o_child c) = Some (ct, cc) -> S (rank cc) <= rank c \/ c = OResourceList.
Proof.
  intro E. apply sget_In in E. destruct c; cbn in E; repeat (destruct E as [E|E]; [injection E; intros; subst; cbn; first [now right|left; lia]|]); destruct E.
Qed.
Lemma map_res_ext {A B} (f g : A -> res B) l : (forall x, f x = g x) -> map_res f l = map_res g l.
Proof. intros E. induction l as [|x l IH]; [reflexivity|]. cbn [map_res]. now rewrite E, IH. Qed.
Lemma mapi_res_ext {A B} (f g : nat -> A -> res B) l : (forall i x, f i x = g i x) -> forall i, mapi_res f i l = mapi_res g i l.
Proof. intros E. induction l as [|x l IH]; intro i; [reflexivity|]. cbn [mapi_res]. now rewrite E, IH. Qed.
Lemma parse_list_ext r s c pl j : (forall pl j, r c pl j = s c pl j) -> o_parse_list r c pl j = o_parse_list s c pl j.
Proof. intro E. unfold o_parse_list. destruct (iter_json j) as [l|]; [|reflexivity]. cbn [bind]. now rewrite (mapi_res_ext _ (fun i x => s c (pl ++ [str_of_nat i]) x) l) by (intros; apply E). Qed.
Lemma parse_child_ext r s ct c pl j : (forall pl j, r c pl j = s c pl j) -> o_parse_child r ct c pl j = o_parse_child s ct c pl j.
Proof.
  intro E. destruct ct; cbn [o_parse_child]; [apply E|now apply parse_list_ext|..]; destruct j; try reflexivity.
  - rewrite (map_res_ext _ (fun kv => do x <- s c (pl ++ [fst kv]) (snd kv); Ok (fst kv, x))); [reflexivity|]. intro. now rewrite E.
  - rewrite (map_res_ext _ (fun kv => do x <- o_parse_list s c (pl ++ [fst kv]) (snd kv); Ok (fst kv, x))); [reflexivity|]. intro. now rewrite (parse_list_ext r s).
Qed.
Lemma children_ext r s pl d t : (forall n ct c, In (n, (ct, c)) t -> forall pl j, r c pl j = s c pl j) -> o_parse_children r pl t d = o_parse_children s pl t d.
Proof.
  induction t as [|[n [ct c]] t IH]; intro E; [reflexivity|]. cbn [o_parse_children]. rewrite IH by (intros m ct' c' I; apply (E m ct' c'); now right).
  assert (X : forall j, o_parse_child r ct c (pl ++ [n]) j = o_parse_child s ct c (pl ++ [n]) j) by (intro; apply parse_child_ext, (E n ct c); now left).
  destruct (sget n d) as [[]|]; try reflexivity; now rewrite X.
Qed.
Lemma step_ext r s c pl j : (forall n ct cc, In (n, (ct, cc)) (o_child c) -> forall pl j, r cc pl j = s cc pl j) -> o_parse_step r c pl j = o_parse_step s c pl j.
Proof. intro E. destruct j; try reflexivity. cbn [o_parse_step]. unfold o_gather. now rewrite (children_ext r s) by exact E. Qed.
Lemma fuel_more f : forall c pl j, c <> OResourceList -> rank c <= f -> o_parsef (S f) c pl j = o_parsef f c pl j.
Proof.
  induction f as [|f IH]; intros c pl j NC R; [exfalso; destruct c; cbn in R; lia|].
  change (o_parse_step (o_parsef (S f)) c pl j = o_parse_step (o_parsef f) c pl j). apply step_ext. intros n ct cc I pl' j'.
  apply In_sget in I; [|apply o_child_nodup]. apply IH; [apply (o_child_list _ _ _ _ I)|]. destruct (child_rank _ _ _ _ I) as [X|X]; [lia|contradiction].
Qed.
(** Parsing a child is parsing. *)
Lemma o_parse_eq c pl j : c <> OResourceList -> o_parse c pl j = o_parse_step o_parse c pl j.
Proof.
  intro N. unfold o_parse. change (o_parsef 4 c pl j) with (o_parse_step (o_parsef 3) c pl j). apply step_ext. intros n ct cc I pl' j'.
  apply In_sget in I; [|apply o_child_nodup]. symmetry. apply fuel_more; [apply (o_child_list _ _ _ _ I)|]. destruct (child_rank _ _ _ _ I) as [X|X]; [|contradiction].
  assert (rank c <= 4) by (destruct c; cbn; lia). lia.
Qed.

(** ** The resource list *)
Section Listing.
  Context (fetch : str -> res json).
  Definition fetched (base n : str) (r : val) : Prop :=
    exists url doc, url_join base n = Ok url /\ fetch url = Ok doc /\ o_parse OResource [lit "apis"; n] doc = Ok r.
  Lemma fetch_all_ok base paths : forall acc apis, fetch_all fetch base paths acc = Ok apis -> NoDup (map fst acc) ->
    NoDup (map fst apis) /\
    (forall n r, sget n apis = Some r -> fetched base n r \/ sget n acc = Some r) /\
    (forall n, In n (map fst apis) <-> In n (map fst acc) \/ exists p, In p paths /\ n = tl p).
  Proof.
    induction paths as [|p paths IH]; intros acc apis E ND; cbn [fetch_all] in E.
    - injection E as <-. split; [exact ND|]. split; [auto|]. intro n. split; [auto|]. intros [H|(? & [] & _)]; exact H.
    - apply bind_ok in E as (url & U & E). apply bind_ok in E as (doc & D & E). apply bind_ok in E as (r & R & E).
      apply IH in E as (N' & V & K); [|now apply sset_NoDup]. split; [exact N'|]. split.
      + intros n x G. destruct (V n x G) as [F|F]; [now left|]. destruct (str_eqb_spec n (tl p)) as [->|N].
        * rewrite sget_sset_same in F. injection F as <-. left. now exists url, doc.
        * rewrite sget_sset_other in F by exact N. now right.
      + intro n. rewrite K. assert (X : In n (map fst (sset (tl p) r acc)) <-> n = tl p \/ In n (map fst acc)).
        { split.
          - intro I. apply sget_Some_key in I as (x & G). destruct (str_eqb_spec n (tl p)) as [->|N]; [now left|]. right. rewrite sget_sset_other in G by exact N. apply sget_In in G. apply (in_map fst _ _ G).
          - intros [->|I].
            + assert (G : sget (tl p) (sset (tl p) r acc) = Some r) by apply sget_sset_same. apply sget_In in G. apply (in_map fst _ _ G).
            + apply sget_Some_key in I as (x & G). destruct (str_eqb_spec n (tl p)) as [->|N].
              * assert (G' : sget (tl p) (sset (tl p) r acc) = Some r) by apply sget_sset_same. apply sget_In in G'. apply (in_map fst _ _ G').
              * assert (G' : sget n (sset (tl p) r acc) = Some x) by now rewrite sget_sset_other. apply sget_In in G'. apply (in_map fst _ _ G'). }
        rewrite X. split.
        * intros [[->|H]|(q & Q & ->)]; [|now left|]; right; [exists p|exists q]; cbn [In]; auto.
        * intros [H|(q & [<-|Q] & ->)]; [auto|auto|]. right. exists q. auto.
  Qed.
  (** the paths in the listing *)
  Definition api_paths (d : sdict json) : res (list str) :=
    match sget (lit "apis") d with None => Ok [] | Some (JList l) => map_res api_path l | Some _ => Err TypeError end.
  Lemma listing_ok root_url d v : wf (JObj d) -> (forall u doc, fetch u = Ok doc -> wf doc) -> parse_listing fetch root_url (JObj d) = Ok v ->
    exists paths base apis ks fs ints, api_paths d = Ok paths /\ url_dirname root_url = Ok base /\ fetch_all fetch base paths [] = Ok apis /\
      v = VObj (Head (COld OResourceList) [] None ks) fs ints /\ sget (lit "apis") fs = Some (VDict apis) /\
      (forall n df, sget n (o_fields OResourceList) = Some df -> n <> lit "apis" -> exists x, sget n fs = Some x /\ says_field OResourceList n df (sget n d) x) /\
      wfv v /\ old_value v.
  Proof.
    intros W FW E. cbn [parse_listing] in E. apply bind_ok in E as (obj & G & E). fold (api_paths d) in E. apply bind_ok in E as (paths & P & E). apply bind_ok in E as (base & B & E). apply bind_ok in E as (apis & F & E).
    assert (GO : forall n, gathers OResourceList d n (sget n obj)).
    { apply (gather_ok o_parse) with (pl := []); [| |exact W|exact G].
      - intros c pl j x. apply parsef_made.
      - intros c' pl' j' v' Q. unfold o_parse in Q. cbn [o_parsef] in Q. destruct j'; cbn [o_parse_step] in Q; try discriminate Q; eauto. }
    unfold o_produce in E. cbn [is_data_type bind] in E. apply bind_ok in E as (fs & A & E). injection E as <-. match type of A with o_assign _ _ ?b = _ => change b with (base_fs OResourceList (sset (lit "apis") (VDict apis) obj)) in A end.
    pose proof (obj_keys _ _ _ _ A) as K.
    assert (FM : forall n df, sget n (o_fields OResourceList) = Some df -> n <> lit "apis" -> exists x, sget n fs = Some x /\ field_made OResourceList [] d n df x).
    { intros n df D N. apply (base_field OResourceList [] d (sset (lit "apis") (VDict apis) obj) (sset (lit "apis") (VDict apis) obj) fs n df W); [|reflexivity|exact A|exact D]. rewrite sget_sset_other by exact N. apply GO. }
    assert (AP : sget (lit "apis") fs = Some (VDict apis)).
    { apply o_assign_ok in A. destruct (drel_get_l _ _ _ (lit "apis") (VDict apis) A) as (y & Y & Q).
      - change (Some (match sget (lit "apis") (sset (lit "apis") (VDict apis) obj) with Some v => v | None => inject JNull end) = Some (VDict apis)). now rewrite sget_sset_same.
      - change (Ok (VDict apis) = Ok y) in Q. injection Q as <-. exact Y. }
    destruct (fetch_all_ok _ _ _ _ F (NoDup_nil _)) as (ND & FV & _).
    assert (MD : Forall (fun kv => of_class OResource (snd kv) /\ old_value (snd kv) /\ wfv (snd kv)) apis).
    { apply Forall_forall. intros [n r] I. cbn [snd]. apply In_sget in I; [|exact ND]. destruct (FV n r I) as [(url & doc & _ & D & R)|Q]; [|discriminate Q].
      apply parsef_made in R; [|discriminate|exact (FW _ _ D)]. destruct R as (S & O & WR & _). split; [exact (says_class _ _ _ S)|auto]. }
    assert (FA : forall n df x, sget n (o_fields OResourceList) = Some df -> sget n fs = Some x -> n <> lit "apis" -> field_made OResourceList [] d n df x) by (intros n df x D X N; destruct (FM n df D N) as (y & Y & M); congruence).
    exists paths, base, apis, (map fst (sset (lit "apis") (VDict apis) obj)), fs, (map (fun nd => (fst nd, VNone)) (t_internal (COld OResourceList))).
    split; [exact P|]. split; [exact B|]. split; [exact F|]. split; [reflexivity|]. split; [exact AP|]. split; [|split].
    - intros n df D N. destruct (FM n df D N) as (x & X & M). exists x. split; [exact X|]. apply (made_says OResourceList [] d n df x); [not_items|exact M].
    - constructor; [exact K|]. apply (all_fields (fun _ x => wfv x) OResourceList); [exact K|]. intros n df x D X. destruct (str_eqb_spec n (lit "apis")) as [->|N]; [|apply (FA n df x D X N)].
      rewrite AP in X. injection X as <-. constructor; [exact ND|]. eapply Forall_impl; [|exact MD]. intros a (_ & _ & Q). exact Q.
    - apply (old_obj OResourceList); [reflexivity|reflexivity|..].
      + apply (all_fields (fun _ x => old_value x) OResourceList); [exact K|]. intros n df x D X. destruct (str_eqb_spec n (lit "apis")) as [->|N]; [|apply (FA n df x D X N)].
        rewrite AP in X. injection X as <-. apply old_dict. eapply Forall_impl; [|exact MD]. intros a (_ & Q & _). exact Q.
      + apply (all_fields (fun n x => old_field OResourceList [] n x) OResourceList); [exact K|]. intros n df x D X. destruct (str_eqb_spec n (lit "apis")) as [->|N].
        * rewrite AP in X. injection X as <-. left. split; [|intros (_ & Q); elim Q; auto]. exists apis. split; [reflexivity|]. eapply Forall_impl; [|exact MD]. intros a (Q & _). exact Q.
        * apply (made_old OResourceList [] d n df x); [not_items|intros (_ & Q); contradiction|now apply FA].
  Qed.
End Listing.

(** ** Holders *)
(** how far an object is from the field it is in *)
Definition depth_of (ct : octype) : nat := match ct with XOne => 0 | XList | XDict => 1 | XDictList => 2 end.
Lemma held_inside ct c x ts o : held ct c x -> inside x ts o -> is_obj o -> of_class c o /\ length ts = depth_of ct.
Proof.
  intros H I O. destruct ct; cbn [held depth_of] in *.
  - destruct H as (h & fs & i & -> & C). pose proof (inside_obj _ _ _ _ _ I) as ->. split; [now exists h, fs, i|]. now inversion I.
  - destruct H as (l & -> & F). inversion I as [|? j w ts' ? N I'|]; subst; [destruct O|]. rewrite Forall_forall in F. apply nth_error_In in N. pose proof (F _ N) as (h & fs & i & -> & C).
    pose proof (inside_obj _ _ _ _ _ I') as ->. split; [now exists h, fs, i|]. inversion I'; subst. reflexivity.
  - destruct H as (d & -> & F). inversion I as [| |? k w ts' ? G I']; subst; [destruct O|]. rewrite Forall_forall in F. apply sget_In in G. pose proof (F _ G) as (h & fs & i & Q & C). cbn [snd] in Q. subst w.
    pose proof (inside_obj _ _ _ _ _ I') as ->. split; [now exists h, fs, i|]. inversion I'; subst. reflexivity.
  - destruct H as (d & -> & F). inversion I as [| |? k w ts' ? G I']; subst; [destruct O|]. rewrite Forall_forall in F. apply sget_In in G. pose proof (F _ G) as (l & Q & FL). cbn [snd] in Q. subst w.
    inversion I' as [|? j w ts'' ? N I''|]; subst; [destruct O|]. rewrite Forall_forall in FL. apply nth_error_In in N. pose proof (FL _ N) as (h & fs & i & -> & C).
    pose proof (inside_obj _ _ _ _ _ I'') as ->. split; [now exists h, fs, i|]. inversion I''; subst. reflexivity.
Qed.
Lemma no_obj_inside x ts o : no_obj x -> inside x ts o -> is_obj o -> False.
Proof. intros N I O. refine (N ts o _ O). clear - I. induction I; econstructor; eauto. Qed.
(** At [ts] the object [p] holds [o] in its field [n]. *)
Definition held_at (root : val) (ts0 : list str) (p : val) (n : str) (ts1 : list str) (o : val) : Prop :=
  exists h fs ints cp ct cc x, p = VObj h fs ints /\ h_cls h = COld cp /\ reach [] root ts0 p /\ sget n fs = Some x /\ inside x ts1 o /\
    sget n (o_holds cp) = Some (ct, cc) /\ of_class cc o /\ length ts1 = depth_of ct /\ (has_parent cp n -> parent_of o = Some (h_place h)).
Lemma holder v ts o : reach [] v ts o -> wfv v -> old_value v -> is_obj o ->
  inside v ts o \/ exists ts0 p n ts1, ts = ts0 ++ n :: ts1 /\ held_at v ts0 p n ts1 o.
Proof.
  induction 1 as [v|h fs i n v ts o _ G R IH|l i v ts o N R IH|d k v ts o G R IH]; intros W V O.
  - left. constructor.
  - right. inversion W as [| | | | | | |? ? ? K FW]; subst. inversion V as [? NO| | |c ? ? ? C IK FV FF]; subst; [elim (no_obj_VObj _ _ _ NO)|].
    rewrite Forall_forall in FW, FV, FF. pose proof (sget_In _ _ _ G) as IN. destruct (IH (FW _ IN) (FV _ IN) O) as [I|(ts0 & p & m & ts1 & -> & H)].
    + exists [], (VObj h fs i), n, ts. split; [reflexivity|]. pose proof (FF _ IN) as OF. cbn [fst snd] in OF. unfold old_field in OF. destruct (sget n (o_holds c)) as [[ct cc]|] eqn:HC; [|elim (no_obj_inside _ _ _ OF I O)].
      destruct OF as [(HD & PA)|[->|(_ & NO & _)]].
      * destruct (held_inside _ _ _ _ _ HD I O) as (CO & L). exists h, fs, i, c, ct, cc, v. repeat (split; [solve [auto | constructor]|]). intro HP. exact (PA HP _ _ I O).
      * inversion I; subst. destruct O.
      * elim (no_obj_inside _ _ _ NO I O).
    + exists (n :: ts0), p, m, ts1. split; [reflexivity|]. destruct H as (h' & fs' & i' & cp & ct & cc & x & -> & C' & R' & H). exists h', fs', i', cp, ct, cc, x. repeat (split; [solve [auto]|]). split; [|exact H]. econstructor; eauto.
  - inversion W as [| | | | |? FW| |]; subst. apply old_list_inv in V. rewrite Forall_forall in FW, V. pose proof (nth_error_In _ _ N) as IN. destruct (IH (FW _ IN) (V _ IN) O) as [I|(ts0 & p & m & ts1 & -> & H)].
    + left. econstructor; eauto.
    + right. exists (str_of_nat i :: ts0), p, m, ts1. split; [reflexivity|]. destruct H as (h' & fs' & i' & cp & ct & cc & x & -> & C' & R' & H). exists h', fs', i', cp, ct, cc, x. repeat (split; [solve [auto]|]). split; [|exact H]. econstructor; eauto.
  - inversion W as [| | | | | |? ND FW|]; subst. apply old_dict_inv in V; [|exact ND]. rewrite Forall_forall in FW, V. pose proof (sget_In _ _ _ G) as IN. destruct (IH (FW _ IN) (V _ IN) O) as [I|(ts0 & p & m & ts1 & -> & H)].
    + left. econstructor; eauto.
    + right. exists (k :: ts0), p, m, ts1. split; [reflexivity|]. destruct H as (h' & fs' & i' & cp & ct & cc & x & -> & C' & R' & H). exists h', fs', i', cp, ct, cc, x. repeat (split; [solve [auto]|]). split; [|exact H]. econstructor; eauto.
Qed.

(** ** What can be loaded *)
Lemma apply_works p ct c x : held ct c x \/ x = VNone -> exists y, o_apply ct (assign1 p (Of (COld c))) x = Ok y.
Proof.
  intros [H| ->]; [|destruct ct; eexists; reflexivity]. destruct ct; cbn [held o_apply] in *.
  - pose proof H as (h & fs & i & -> & C). eexists. apply (assign_of_class p c _ H).
  - destruct H as (l & -> & F). cbn [container_apply]. rewrite map_res_list by exact F. eexists. reflexivity.
  - destruct H as (d & -> & F). cbn [container_apply].
    assert (X : exists e, map_res (fun kv : str * val => do x <- assign1 p (Of (COld c)) (snd kv); Ok (fst kv, x)) d = Ok e).
    { induction F as [|[k v] d Q F (e & IH)]; [eexists; reflexivity|]. cbn [map_res fst snd]. rewrite (assign_of_class p c v Q). cbn [bind]. rewrite IH. eexists. reflexivity. }
    destruct X as (e & ->). eexists. reflexivity.
  - destruct H as (d & -> & F). cbn [container_apply].
    assert (X : exists e, map_res (fun kv : str * val => do x <- container_apply ListOf (assign1 p (Of (COld c))) (snd kv); Ok (fst kv, x)) d = Ok e).
    { induction F as [|[k v] d (l & Q & FL) F (e & IH)]; [eexists; reflexivity|]. cbn [snd] in Q. subst v. cbn [map_res fst snd].
      change (container_apply ListOf (assign1 p (Of (COld c))) (VList l)) with (do l0 <- map_res (assign1 p (Of (COld c))) l; Ok (VList l0)). rewrite map_res_list by exact FL. cbn [bind]. rewrite IH. eexists. reflexivity. }
    destruct X as (e & X). change (exists y, (do d0 <- map_res (fun kv : str * val => do x <- container_apply ListOf (assign1 p (Of (COld c))) (snd kv); Ok (fst kv, x)) d; Ok (VDict d0)) = Ok y). rewrite X. eexists. reflexivity.
Qed.
Lemma assign_works p t fs : (forall n v ct c, In (n, v) fs -> sget n t = Some (ct, c) -> held ct c v \/ v = VNone) -> exists fs', o_assign p t fs = Ok fs'.
Proof.
  induction fs as [|[n v] fs IH]; intro H; [eexists; reflexivity|]. cbn [o_assign]. destruct IH as (fs' & ->); [intros m w ct c I; apply (H m w ct c); now right|].
  destruct (sget n t) as [[ct c]|] eqn:T; [|eexists; reflexivity]. destruct (apply_works p ct c v) as (y & ->); [apply (H n v ct c); [now left|exact T]|]. eexists. reflexivity.
Qed.
Section Works.
  Context (rec : ocls -> place -> json -> res val) (ok : ocls -> Prop).
  Context (WORKS : forall c pl j v, ok c -> wf j -> says c j v -> exists w, rec c pl j = Ok w).
  Lemma listed_iter j l : listed (Some j) l -> j <> JNull -> iter_json j = Ok l.
  Proof. intros L N. inversion L; subst; [now elim N|reflexivity..]. Qed.
  Lemma list_works c pl j l xs : ok c -> wf j -> listed (Some j) l -> j <> JNull -> Forall2 (says c) l xs -> exists w, o_parse_list rec c pl j = Ok w.
  Proof.
    intros K W L N F. pose proof (listed_iter _ _ L N) as I. pose proof (iter_wf _ _ W I) as WL. unfold o_parse_list. rewrite I. cbn [bind].
    assert (X : forall i, exists ys, mapi_res (fun i x => rec c (pl ++ [str_of_nat i]) x) i l = Ok ys).
    { clear L I. induction F as [|a b l xs S F IH]; intro i; [eexists; reflexivity|]. inversion WL as [|? ? WA WL']; subst. cbn [mapi_res]. destruct (WORKS c (pl ++ [str_of_nat i]) a b K WA S) as (w & ->). cbn [bind]. destruct (IH WL' (Datatypes.S i)) as (ys & ->). eexists. reflexivity. }
    destruct (X 0) as (ys & ->). eexists. reflexivity.
  Qed.
  Lemma child_works ct c pl j x : ok c -> wf j -> j <> JNull -> says_in ct c (Some j) x -> exists w, o_parse_child rec ct c pl j = Ok w.
  Proof.
    intros K W N S. inversion S as [? o D|? ? ? N' S'|? ? l xs L F|? ? d e KE F|? ? d e KE F]; subst.
    - destruct D; congruence.
    - cbn [o_parse_child]. eapply WORKS; eauto.
    - cbn [o_parse_child]. eapply list_works; eauto.
    - inversion KE; subst; [now elim N|]. cbn [o_parse_child]. inversion W as [| | | | | |? _ WF]; subst. assert (X : exists y, map_res (fun kv : str * json => do x <- rec c (pl ++ [fst kv]) (snd kv); Ok (fst kv, x)) d = Ok y).
      { clear - F WORKS K WF. induction F as [|[k a] [k' b] d e (_ & S) F IH]; [eexists; reflexivity|]. inversion WF as [|? ? WA WF']; subst. destruct (IH WF') as (y & Y). cbn [map_res fst snd] in *. destruct (WORKS c (pl ++ [k]) a b K WA S) as (w & ->). cbn [bind]. rewrite Y. eexists. reflexivity. }
      destruct X as (y & ->). eexists. reflexivity.
    - inversion KE; subst; [now elim N|]. cbn [o_parse_child]. inversion W as [| | | | | |? _ WF]; subst. assert (X : exists y, map_res (fun kv : str * json => do x <- o_parse_list rec c (pl ++ [fst kv]) (snd kv); Ok (fst kv, x)) d = Ok y).
      { clear - F WORKS K WF. induction F as [|[k a] [k' b] d e (_ & l & xs & (N & L) & _ & S) F IH]; [eexists; reflexivity|]. inversion WF as [|? ? WA WF']; subst. destruct (IH WF') as (y & Y). cbn [map_res fst snd] in *.
        destruct (list_works c (pl ++ [k]) a l xs K WA L N S) as (w & ->). cbn [bind]. rewrite Y. eexists. reflexivity. }
      destruct X as (y & ->). eexists. reflexivity.
  Qed.
  Lemma children_works pl d t : wf (JObj d) -> (forall n ct cc j, In (n, (ct, cc)) t -> sget n d = Some j -> j <> JNull -> ok cc /\ exists x, says_in ct cc (Some j) x) ->
    exists kids, o_parse_children rec pl t d = Ok kids.
  Proof.
    intros W. induction t as [|[n [ct cc]] t IH]; intro H; [eexists; reflexivity|]. cbn [o_parse_children].
    destruct IH as (r & ->); [intros m c' cc' j I; apply (H m c' cc' j); now right|].
    assert (X : exists kv, match sget n d with None | Some JNull => Ok (match ct with XOne => [] | XList => [(n, VList [])] | _ => [(n, VDict [])] end)
                           | Some v => do x <- o_parse_child rec ct cc (pl ++ [n]) v; Ok [(n, x)] end = Ok kv).
    { destruct (sget n d) as [j|] eqn:G; [|eexists; reflexivity].
      assert (J : j = JNull \/ j <> JNull) by (destruct j; auto; right; discriminate). destruct J as [->|J]; [eexists; reflexivity|].
      destruct (H n ct cc j (or_introl eq_refl) G J) as (K & x & S). assert (WJ : wf j). { inversion W as [| | | | | |? _ WF]; subst. rewrite Forall_forall in WF. exact (WF _ (sget_In _ _ _ G)). }
      destruct (child_works ct cc (pl ++ [n]) j x K WJ J S) as (w & E). exists [(n, w)]. rewrite E. destruct j; try reflexivity. now elim J. }
    destruct X as (kv & X). rewrite X. eexists. reflexivity.
  Qed.
End Works.
Lemma listed_unique o l m : listed o l -> listed o m -> l = m.
Proof. intros A B. destruct A; inversion B; reflexivity. Qed.
Lemma api_says d jops ops : listed (sget (lit "operations") d) jops -> Forall2 (says OOperation) jops ops -> exists w, says OApi (JObj d) w.
Proof.
  intros L F. exists (VObj (Head (COld OApi) [] None []) (map (fun nd => (fst nd, if str_eqb (fst nd) (lit "operations") then VList ops else match sget (fst nd) d with Some j => inject j | None => inject (snd nd) end)) (o_fields OApi)) []).
  apply says_obj; [reflexivity|]. intros n df D. apply sget_In in D. cbn in D. repeat destruct D as [D|D]; try contradiction; injection D as <- <-; (eexists; split; [reflexivity|]).
  - apply (field_plain OApi (lit "path") JNull (sget (lit "path") d)); [reflexivity|not_items].
  - apply (field_child OApi (lit "operations") JNull XList OOperation); [reflexivity|not_items|]. econstructor; eauto.
  - apply (field_plain OApi (lit "description") JNull (sget (lit "description") d)); [reflexivity|not_items].
Qed.
Definition nicked (j : json) (n : str) : Prop := entry j (lit "nickname") = Some (JStr n).
Lemma flat_ops_works rp path : forall ops jops names acc, Forall2 (good_obj OOperation) jops ops -> Forall2 nicked jops names -> NoDup (map fst acc ++ names) ->
  exists acc', flat_ops rp path ops acc = Ok acc' /\ map fst acc' = map fst acc ++ names.
Proof.
  induction ops as [|op ops IH]; intros jops names acc F NK ND; inversion F as [|j ? jops' ? (S & O & W) F']; subst.
  - inversion NK; subst. exists acc. cbn. now rewrite app_nil_r.
  - inversion NK as [|? n ? names' NJ NK']; subst. cbn [flat_ops]. unfold nicked, entry in NJ. destruct j; try discriminate NJ.
    inversion S as [|? d' h fs ints C H]; subst. destruct (H (lit "nickname") JNull eq_refl) as (x & X & SF). apply plain_field in SF; [|reflexivity|not_items]. rewrite NJ in SF. cbn in SF. subst x.
    unfold get, attr. change (lit "nickname") with (lit "nickname") in X. rewrite X. cbn [bind].
    assert (M : smem n acc = false). { destruct (smem n acc) eqn:M; [|reflexivity]. apply smem_In in M. exfalso. revert ND M. clear. induction (map fst acc) as [|a l IH]; cbn; intros ND []; inversion ND as [|? ? NI ND']; subst; [apply NI, in_or_app; right; now left|auto]. }
    rewrite M. assert (U : exists op', update_field (lit "path") path (VObj h fs ints) = Ok op').
    { unfold update_field. destruct (smem (lit "path") fs); [eexists; reflexivity|]. inversion O as [? N| | |c ? ? ? C' KI _ _]; subst; [now apply no_obj_VObj in N|]. rewrite C in C'. injection C' as <-.
      rewrite (smem_keys (lit "path") ints (t_internal (COld OOperation)) KI). eexists. reflexivity. }
    destruct U as (op' & ->). cbn [bind]. rewrite sset_new by exact M. destruct (IH jops' names' (acc ++ [(n, set_parent rp op')]) F' NK') as (acc' & E & K).
    + rewrite map_app. cbn [map fst]. rewrite <- app_assoc. exact ND.
    + exists acc'. split; [exact E|]. rewrite K, map_app. cbn [map fst]. now rewrite <- app_assoc.
Qed.
Lemma NoDup_app_l {A} (l m : list A) : NoDup (l ++ m) -> NoDup l.
Proof. induction l as [|a l IH]; cbn; intro N; constructor; inversion N; subst; auto. intro. apply H1. apply in_or_app. now left. Qed.
Lemma flat_apis_works rp : forall apis japis l names acc, Forall2 (good_obj OApi) japis apis -> api_operations japis l -> Forall2 nicked (map snd l) names -> NoDup (map fst acc ++ names) ->
  exists acc', flat_apis rp apis acc = Ok acc'.
Proof.
  induction apis as [|api apis IH]; intros japis l names acc F AO NK ND; inversion F as [|j ? japis' ? (S & O & W) F']; subst; [eexists; reflexivity|].
  inversion AO as [|d jops ? l' L AO']; subst. inversion S as [|? ? h fs ints C H]; subst. cbn [flat_apis].
  destruct (H (lit "operations") JNull eq_refl) as (x & X & SF). destruct (H (lit "path") JNull eq_refl) as (p & P & SP).
  apply child_field_in with (k := (XList, OOperation)) in SF as SI; [|reflexivity|not_items]. cbn [fst snd] in SI. inversion SI as [| |? ? jl xs L' FS| |]; subst. pose proof (listed_unique _ _ _ L L') as <-.
  unfold get, attr. rewrite X. cbn [bind iterate]. rewrite P. cbn [bind].
  inversion W as [| | | | | | |? ? ? K FW]; subst. rewrite Forall_forall in FW. specialize (FW _ (sget_In _ _ _ X)). cbn [snd] in FW.
  inversion O as [? N| | |c' ? ? ? C' KI FO FF]; subst; [now apply no_obj_VObj in N|]. rewrite Forall_forall in FO. specialize (FO _ (sget_In _ _ _ X)). cbn [snd] in FO.
  assert (GO : Forall2 (good_obj OOperation) jops xs).
  { apply old_list_inv in FO. inversion FW as [| | | | |? FW'| |]; subst. clear - FS FO FW'. induction FS; constructor; inversion FO; inversion FW'; subst; auto. split; auto. }
  rewrite map_app, map_map in NK. cbn [snd] in NK. rewrite map_id in NK. apply Forall2_app_inv_l in NK as (n1 & n2 & N1 & N2 & ->). rewrite app_assoc in ND.
  destruct (flat_ops_works rp p xs jops n1 acc GO N1 (NoDup_app_l _ _ ND)) as (acc1 & E & K1). rewrite E. cbn [bind].
  apply (IH japis' l' n2 acc1 F' AO' N2). rewrite K1. exact ND.
Qed.
Lemma inject_obj d : inject (JObj d) = VDict (map (fun kv => (fst kv, inject (snd kv))) d).
Proof. reflexivity. Qed.
Lemma items_works c pl d (obj : sdict val) v : is_data_type c = true -> says c (JObj d) v -> gathers c d (lit "items") (sget (lit "items") obj) ->
  exists obj' : sdict val, old_items pl obj = Ok obj' /\ forall n, n <> lit "items" -> sget n obj' = sget n obj.
Proof.
  intros D S G. unfold gathers in G. rewrite (o_child_no_items c D) in G. unfold old_items. rewrite G. destruct (sget (lit "items") d) as [j|] eqn:J; [|exists obj; auto]. cbn [option_map].
  inversion S as [|? ? h fs ints C H]; subst. assert (FI : exists df, sget (lit "items") (o_fields c) = Some df) by (destruct c; try discriminate D; eexists; reflexivity). destruct FI as (df & FI).
  destruct (H _ _ FI) as (x & _ & SF). rewrite J in SF.
  assert (Q : falsy (inject j) = true \/ exists d', j = JObj d').
  { inversion SF as [? ? ? ? T N|? ? ? _ Z|? ? ? ? _ _ SI|? ? ? ? ? ? ? T _ _|]; subst; [elim N; auto| | |rewrite (o_child_no_items c D) in T; discriminate T].
    - left. destruct Z as [Z|(? & Z & NT)]; [discriminate Z|]. injection Z as <-. rewrite holds_true_iff in NT. destruct (falsy (inject j)); [reflexivity|now elim NT].
    - inversion SI; subst; [left; reflexivity|right; eauto]. }
  destruct Q as [Q|(d' & ->)]; [rewrite Q; exists obj; auto|]. destruct (falsy (inject (JObj d'))); [exists obj; auto|]. rewrite inject_obj.
  eexists. split; [reflexivity|]. intros n N. now rewrite sget_sset_other.
Qed.
Lemma produce_works c pl d (obj : sdict val) v : wf (JObj d) -> c <> OResourceList -> says c (JObj d) v -> (forall n, gathers c d n (sget n obj)) -> exists w, o_produce c pl obj = Ok w.
Proof.
  intros W NC S G. unfold o_produce.
  assert (X : exists obj' : sdict val, (if is_data_type c then old_items pl obj else Ok obj) = Ok obj' /\ forall n, (is_data_type c = true -> n <> lit "items") -> sget n obj' = sget n obj).
  { destruct (is_data_type c) eqn:D; [|exists obj; auto]. destruct (items_works c pl d obj v D S (G _)) as (obj' & E & H). exists obj'. auto. }
  destruct X as (obj' & E & H). pose proof E as IT. rewrite E. cbn [bind]. fold (base_fs c obj').
  assert (HH : forall n ct cc, sget n (o_child c) = Some (ct, cc) -> is_data_type c = true -> n <> lit "items") by (intros n ct cc T D ->; rewrite (o_child_no_items c D) in T; discriminate T).
  destruct (assign_works pl (o_child c) (base_fs c obj')) as (fs & A).
  { intros n y ct cc I T. apply in_map_iff in I as ([m df] & Q & I). cbn [fst snd] in Q. injection Q as -> <-. rewrite (H n (HH n ct cc T)). specialize (G n). unfold gathers in G. rewrite T in G.
    destruct (sget n obj) as [z|]; [apply (says_in_held _ _ _ _ (proj1 G))|]. right. apply o_child_default in T. rewrite (In_sget _ _ _ (o_fields_nodup c) I) in T. now injection T as ->. }
  rewrite A. cbn [bind]. destruct (match c with OResource => true | _ => false end) eqn:RC; [|destruct c; try discriminate RC; eexists; reflexivity].
  destruct c; try discriminate RC. destruct (base_field OResource pl d obj obj' fs (lit "apis") JNull W (G _) IT A eq_refl) as (x & Q & WX & OX & M).
  change (sget (lit "apis") (o_child OResource)) with (Some (XList, OApi)) in M. cbv iota in M. destruct M as (y & SI & ->).
  inversion SI as [| |? ? japis xs L F| |]; subst. cbn [oown] in *. rewrite Q.
  assert (GA : Forall2 (good_obj OApi) japis (map (set_parent pl) xs)).
  { apply (says_parents pl) in F. apply old_list_inv in OX. inversion WX as [| | | | |? FW| |]; subst. clear - F OX FW. induction F; constructor; inversion OX; inversion FW; subst; auto. split; auto. }
  inversion S as [|? ? h fs0 ints C HF]; subst. destruct (HF (lit "apis") JNull eq_refl) as (z & _ & SF).
  assert (FA : exists apis l (ops : sdict val), listed (sget (lit "apis") d) apis /\ api_operations apis l /\ Forall2 nicked (map snd l) (map fst ops) /\ NoDup (map fst ops)).
  { inversion SF as [? ? ? ? T _|? ? ? D _|? ? ? ? D _|? ? ? ? ? ? ? _ N _|? ? apis l ops LA AO FO ND]; subst; [discriminate T|elim N; auto|]. exists apis, l, (ops : sdict val). split; [exact LA|]. split; [exact AO|]. split; [|exact ND].
    clear - FO. induction FO as [|a b l m (_ & NK & _)]; constructor; auto. }
  destruct FA as (apis & l & ops & LA & AO & NK & ND). pose proof (listed_unique _ _ _ L LA) as <-.
  destruct (flat_apis_works pl _ _ _ _ [] GA AO NK ND) as (acc & ->). cbn [bind]. unfold update_field. destruct (smem (lit "apis") fs) eqn:SM; [eexists; reflexivity|]. rewrite smem_sget, Q in SM. discriminate SM.
Qed.
Lemma parsef_works f : forall c pl j v, rank c <= f /\ c <> OResourceList -> wf j -> says c j v -> exists w, o_parsef f c pl j = Ok w.
Proof.
  induction f as [|f IH]; intros c pl j v (R & NC) W S; [exfalso; destruct c; cbn in R; lia|]. cbn [o_parsef]. inversion S as [? h fs ints NR C E|? d h fs ints C H]; subst; cbn [o_parse_step].
  - destruct c; try (now elim NR); eexists; reflexivity.
  - destruct (children_works (o_parsef f) (fun cc => rank cc <= f /\ cc <> OResourceList) IH pl d (o_child c) W) as (kids & K).
    { intros n ct cc j I G J. apply In_sget in I; [|apply o_child_nodup]. pose proof (o_child_default _ _ _ I) as D. destruct (H _ _ D) as (x & _ & SF). rewrite G in SF. split.
      - split; [|apply (o_child_list _ _ _ _ I)]. destruct (child_rank _ _ _ _ I); [lia|contradiction].
      - destruct (match c with OResource => str_eqb n (lit "apis") | _ => false end) eqn:B.
        + destruct c; try discriminate B. apply str_eqb_eq in B. subst n. cbn in I. injection I as <- <-.
          inversion SF as [? ? ? ? T _|? ? ? D' _|? ? ? ? D' _|? ? ? ? ? ? ? _ N _|? ? apis l ops LA AO FO ND]; subst; [discriminate T|elim N; auto|].
          assert (Q : exists ws, Forall2 (says OApi) apis ws). { clear - AO FO. revert ops FO. induction AO as [|d jops apis l L AO IH]; intros ops FO; [exists []; constructor|]. apply Forall2_app_inv_l in FO as (o1 & o2 & F1 & F2 & _). destruct (IH o2 F2) as (ws & FW).
            rewrite Forall2_map_l in F1. destruct (api_says d jops (map snd o1) L) as (w & SW); [rewrite Forall2_map_r; eapply Forall2_weaken; [|exact F1]; intros a b (SA & _); exact SA|]. exists (w :: ws). now constructor. }
          destruct Q as (ws & FW). exists (VList ws). econstructor; eauto.
        + apply child_field_in with (k := (ct, cc)) in SF; [eauto|exact I|]. intros (-> & ->). rewrite str_eqb_refl in B. discriminate B. }
    unfold o_gather. rewrite K. cbn [bind]. eapply produce_works; [exact W|exact NC|exact S|]. apply (gather_ok (o_parsef f)) with (pl := pl).
    + intros. now apply (parsef_made f).
    + intros c' pl' j' v' P. destruct f; [discriminate P|]. cbn [o_parsef] in P. destruct j'; cbn [o_parse_step] in P; try discriminate P; eauto.
    + exact W.
    + unfold o_gather. rewrite K. reflexivity.
Qed.
Section ListingWorks.
  Context (fetch : str -> res json) (WF : forall u doc, fetch u = Ok doc -> wf doc).
  Lemma api_path_ok api p : api_path api = Ok p -> api_named api (tl p).
  Proof. unfold api_path, api_named. destruct api as [| | | | | |d]; try discriminate. destruct (sget (lit "path") d) as [[| | | |s| |]|] eqn:G; try discriminate. intros E. injection E as <-. eauto. Qed.
  Lemma named_path api n : api_named api n -> exists p, api_path api = Ok p /\ tl p = n.
  Proof. intros (d & p & -> & G & ->). cbn [api_path]. rewrite G. eauto. Qed.
  Lemma paths_ok l paths : map_res api_path l = Ok paths -> Forall (fun api => exists n, api_named api n) l /\ (forall n, (exists p, In p paths /\ n = tl p) <-> exists api, In api l /\ api_named api n).
  Proof.
    intro E. apply map_res_ok in E. split.
    - induction E as [|a p l ps X E IH]; constructor; auto. eexists. apply api_path_ok. exact X.
    - intro n. split.
      + intros (p & I & ->). destruct (Forall2_In_r _ _ _ _ E I) as (api & IA & X). exists api. split; [exact IA|]. now apply api_path_ok.
      + intros (api & I & N). destruct (Forall2_In_l _ _ _ _ E I) as (p & IP & X). exists p. split; [exact IP|]. apply named_path in N as (p' & X' & <-). congruence.
  Qed.
  Lemma listing_says root_url d v : wf (JObj d) -> parse_listing fetch root_url (JObj d) = Ok v -> says_listing fetch root_url d v.
  Proof.
    intros W E. destruct (listing_ok fetch root_url d v W WF E) as (paths & base & rs & ks & fs & ints & P & B & F & -> & AP & FM & _). destruct (fetch_all_ok _ _ _ _ _ F (NoDup_nil _)) as (ND & FV & FK).
    assert (X : exists apis, entries d apis /\ map_res api_path apis = Ok paths).
    { unfold api_paths in P. unfold entries. destruct (sget (lit "apis") d) as [[| | | | |l|]|]; try discriminate P; [exists l; auto|]. injection P as <-. exists []. auto. }
    destruct X as (apis & EN & MP). destruct (paths_ok _ _ MP) as (FN & NI).
    exists (Head (COld OResourceList) [] None ks), fs, ints, rs, apis, base. split; [reflexivity|]. split; [reflexivity|]. split; [exact FM|]. split; [exact AP|]. split; [exact ND|]. split; [exact EN|]. split; [exact FN|]. split; [|split; [exact B|]].
    - intro n. rewrite FK, <- NI. cbn [map In]. tauto.
    - intros n r G. destruct (FV n r G) as [(url & doc & U & D & R)|Q]; [|discriminate Q]. exists url, doc. split; [exact U|]. split; [exact D|]. apply (parsef_made 4 OResource _ doc r ltac:(discriminate) (WF _ _ D) R).
  Qed.
  Lemma fetch_all_works base paths : (forall p, In p paths -> exists r, fetched fetch base (tl p) r) -> forall acc, exists rs, fetch_all fetch base paths acc = Ok rs.
  Proof.
    induction paths as [|p paths IH]; intros H acc; [eexists; reflexivity|]. cbn [fetch_all]. destruct (H p (or_introl eq_refl)) as (r & url & doc & -> & D & R). cbn [bind]. rewrite D. cbn [bind]. match goal with |- context [o_parse OResource ?a doc] => change (o_parse OResource a doc = Ok r) in R end. rewrite R. cbn [bind].
    apply IH. intros q I. apply H. now right.
  Qed.
  Lemma listing_works root_url d v : wf (JObj d) -> says_listing fetch root_url d v -> exists w, parse_listing fetch root_url (JObj d) = Ok w.
  Proof.
    intros W (h & fs & ints & rs & apis & base & -> & C & FM & AP & ND & EN & FN & KN & B & FV). cbn [parse_listing].
    destruct (children_works o_parse (fun cc => rank cc <= 4 /\ cc <> OResourceList) (parsef_works 4) [] d (o_child OResourceList) W) as (kids & K).
    { intros n ct cc j I G J. apply In_sget in I; [|apply o_child_nodup]. pose proof (o_child_default _ _ _ I) as D. assert (N : n <> lit "apis") by (intros ->; discriminate I). destruct (FM _ _ D N) as (x & _ & SF). rewrite G in SF. split.
      - split; [destruct cc; cbn; lia|apply (o_child_list _ _ _ _ I)].
      - apply child_field_in with (k := (ct, cc)) in SF; [eauto|exact I|not_items]. }
    assert (GA : exists obj, o_gather o_parse OResourceList [] d = Ok obj) by (unfold o_gather; rewrite K; eexists; reflexivity). destruct GA as (obj & GA). rewrite GA. cbn [bind]. fold (api_paths d).
    assert (P : exists paths, api_paths d = Ok paths /\ map_res api_path apis = Ok paths).
    { assert (X : exists paths, map_res api_path apis = Ok paths). { clear - FN. induction FN as [|a l (n & N) F (ps & IH)]; [eexists; reflexivity|]. apply named_path in N as (p & X & _). cbn [map_res]. rewrite X. cbn [bind]. rewrite IH. eexists. reflexivity. }
      destruct X as (paths & X). exists paths. split; [|exact X]. unfold api_paths. destruct EN as [(-> & ->)| ->]; [cbn in X; congruence|exact X]. }
    destruct P as (paths & P & MP). rewrite P. cbn [bind]. rewrite B. cbn [bind]. destruct (paths_ok _ _ MP) as (_ & NI).
    assert (FE : forall p, In p paths -> exists r, fetched fetch base (tl p) r).
    { intros p I. assert (Q : In (tl p) (map fst rs)) by (apply KN, NI; eauto). apply sget_Some_key in Q as (r & G). destruct (FV _ _ G) as (url & doc & U & D & S).
      destruct (parsef_works 4 OResource [lit "apis"; tl p] doc r) as (w & R); [split; [cbn; lia|discriminate]|exact (WF _ _ D)|exact S|]. exists w, url, doc. auto. }
    destruct (fetch_all_works base paths FE []) as (res & F). rewrite F. cbn [bind].
    assert (GO : forall n, gathers OResourceList d n (sget n obj)).
    { apply (gather_ok o_parse) with (pl := []); [| |exact W|exact GA].
      - intros c pl j x. apply parsef_made.
      - intros c' pl' j' v' Q. unfold o_parse in Q. cbn [o_parsef] in Q. destruct j'; cbn [o_parse_step] in Q; try discriminate Q; eauto. }
    unfold o_produce. cbn [is_data_type bind].
    destruct (assign_works [] (o_child OResourceList) (base_fs OResourceList (sset (lit "apis") (VDict res) obj))) as (fs' & A).
    { intros n y ct cc I T. apply in_map_iff in I as ([m df] & Q & I). cbn [fst snd] in Q. injection Q as -> <-. assert (N : n <> lit "apis") by (intros ->; discriminate T). rewrite sget_sset_other by exact N. specialize (GO n). unfold gathers in GO. rewrite T in GO.
      destruct (sget n obj) as [z|]; [apply (says_in_held _ _ _ _ (proj1 GO))|]. right. apply o_child_default in T. rewrite (In_sget _ _ _ (o_fields_nodup OResourceList) I) in T. now injection T as ->. }
    match goal with |- context [o_assign _ _ ?b] => change b with (base_fs OResourceList (sset (lit "apis") (VDict res) obj)) end. rewrite A. eexists. reflexivity.
  Qed.
End ListingWorks.
