(** Proofs about merging objects. *)
From Coq Require Import Lia.
From Verif Require Import PyBase PyFacts PyJson P_Op M_SpecVal M_Parse M_SpecTree M_Merge S_Parse S_SpecTree S_Merge P_SpecBase P_Parse P_SpecTree P_Compare.
Close Scope Q_scope.

(** ** The recursion *)
Lemma vddepth_get d k x : sget k d = Some x -> vdepth x <= vddepth d.
Proof. intro E. apply sget_In in E. eapply vddepth_In; eauto. Qed.
Lemma vdepth_obj h fs i : vdepth (VObj h fs i) = S (vddepth fs). Proof. reflexivity. Qed.
Lemma vdepth_list l : vdepth (VList l) = S (vldepth l). Proof. reflexivity. Qed.
Lemma vdepth_dict d : vdepth (VDict d) = S (vddepth d). Proof. reflexivity. Qed.
Section Ext.
  Context (f g : ctx -> place -> val -> res val).
  Lemma clone_child_ext ct c pl v : (forall c pl w, vdepth w <= vdepth v -> f c pl w = g c pl w) -> clone_child f ct c pl v = clone_child g ct c pl v.
  Proof.
    intro H. destruct ct, v; cbn [clone_child]; try reflexivity; try (apply H; lia).
    - erewrite mapi_res_ext; [reflexivity|]. intros i x I. apply H. apply vldepth_In in I. rewrite vdepth_list. lia.
    - erewrite map_res_ext; [reflexivity|]. intros [k x] I. cbn [fst snd]. rewrite H; [reflexivity|]. apply vddepth_In in I. rewrite vdepth_dict. lia.
  Qed.
  Lemma merge1_ext ex c pl n df sv ov : (forall c pl w, vdepth w <= vdepth ov -> f c pl w = g c pl w) ->
    merge1 f ex c pl n df sv ov = merge1 g ex c pl n df sv ov.
  Proof.
    intro H. unfold merge1. destruct (mem n ex); [reflexivity|]. destruct (is_default ov df); [reflexivity|].
    destruct (sget n (t_child c)) as [[ct cc]|]; [|reflexivity]. now rewrite (clone_child_ext ct cc (pl ++ [n]) ov H).
  Qed.
  Lemma merge_names_ext ex c pl t sf of : (forall n ov, sget n of = Some ov -> forall c pl w, vdepth w <= vdepth ov -> f c pl w = g c pl w) ->
    merge_names f ex c pl t sf of = merge_names g ex c pl t sf of.
  Proof.
    intro H. induction t as [|[n df] t IH]; [reflexivity|]. cbn [merge_names].
    destruct (sget n sf) as [sv|]; [|reflexivity]. destruct (sget n of) as [ov|] eqn:O; [|reflexivity].
    rewrite (merge1_ext ex c pl n df sv ov) by eauto. now rewrite IH.
  Qed.
End Ext.
(** Internal fields are never cloned into. *)
Lemma internal_no_child c n df : sget n (t_internal c) = Some df -> sget n (t_child c) = None.
Proof.
  intro E. apply sget_In in E.
  assert (B : forallb (fun nd => match sget (fst nd) (t_child c) with None => true | _ => false end) (t_internal c) = true) by (each_class c; vm_compute; reflexivity).
  rewrite forallb_forall in B. apply B in E. cbn in E. destruct (sget n (t_child c)); [discriminate E|reflexivity].
Qed.
Lemma internal_nodup c : NoDup (map fst (t_internal c)).
Proof. apply nodupb_ok. each_class c; vm_compute; reflexivity. Qed.
Lemma internal_default c n df : sget n (t_internal c) = Some df -> simple_default df = true.
Proof.
  intro E. apply sget_In in E.
  assert (B : forallb (fun nd => simple_default (snd nd)) (t_internal c) = true) by (each_class c; vm_compute; reflexivity).
  rewrite forallb_forall in B. now apply B in E.
Qed.
Lemma merge_internals f g ex c pl sf of : forall t, (forall n df, In (n, df) t -> sget n (t_child c) = None) ->
  merge_names f ex c pl t sf of = merge_names g ex c pl t sf of.
Proof.
  induction t as [|[n df] t IH]; intro H; [reflexivity|]. cbn [merge_names].
  destruct (sget n sf) as [sv|]; [|reflexivity]. destruct (sget n of) as [ov|] eqn:O; [|reflexivity].
  unfold merge1. rewrite (H n df) by now left. rewrite IH; [reflexivity|]. intros. eapply H. right. eauto.
Qed.
Lemma merge_obj_ext f g ex s o : (forall c pl w, vdepth w < vdepth o -> f c pl w = g c pl w) -> merge_obj f ex s o = merge_obj g ex s o.
Proof.
  intro H. destruct s as [| | | | | | |h fs ints], o as [| | | | | | |k es jnts]; try reflexivity. cbn [merge_obj].
  destruct (cls_eqb (h_cls h) (h_cls k)); [|reflexivity]. rewrite (merge_names_ext f g).
  - rewrite (merge_internals f g); [reflexivity|]. intros n df I. apply (internal_no_child _ _ df). apply In_sget; [apply internal_nodup|exact I].
  - intros n ov G c pl w D. apply H. apply vddepth_get in G. rewrite vdepth_obj. lia.
Qed.
Lemma clone_step_ext f g c pl v : (forall c pl w, vdepth w < vdepth v -> f c pl w = g c pl w) -> clone_step f c pl v = clone_step g c pl v.
Proof.
  intro H. destruct v as [| | | | | | |h fs ints]; [destruct c; reflexivity..|].
  assert (X : forall c, (do s <- fresh c pl; merge_obj f [] s (VObj h fs ints)) = do s <- fresh c pl; merge_obj g [] s (VObj h fs ints)).
  { intro c'. destruct (fresh c' pl); cbn [bind]; [now apply merge_obj_ext|reflexivity]. }
  destruct c as [c|]; cbn [clone_step]; apply X.
Qed.
Lemma clonef_fuel : forall N n m c pl v, vdepth v <= N -> N < n -> N < m -> clonef n c pl v = clonef m c pl v.
Proof.
  induction N as [|N IH]; intros [|n] [|m] c pl v D A B; try lia; cbn [clonef].
  - apply clone_step_ext. intros. lia.
  - apply clone_step_ext. intros. apply IH; lia.
Qed.
Lemma clone_eq c pl v : clone c pl v = clone_step clone c pl v.
Proof.
  unfold clone at 1. cbn [clonef]. apply clone_step_ext. intros. unfold clone. apply (clonef_fuel (vdepth w)); lia.
Qed.
Lemma fresh_eq c pl : fresh c pl = Ok (VObj (Head c pl None []) (map (fun nd => (fst nd, inject (snd nd))) (t_fields c)) (map (fun nd => (fst nd, VNone)) (t_internal c))).
Proof. unfold fresh. rewrite <- parse_null. rewrite parse_cls_eq. reflexivity. Qed.

(** ** Python's notions *)
Lemma equals_default_spec v d : simple_default d = true -> is_default v d = true <-> equals_default v d.
Proof.
  intro S. split.
  - destruct d as [|b| | |s|[|]|[|]]; try discriminate S; destruct v as [|c|z|q|t|[|]|[|]|]; try discriminate; cbn [is_default]; intro E; try (constructor; reflexivity).
    + apply eqb_prop in E as ->. now constructor.
    + apply Z.eqb_eq in E. now constructor.
    + apply Qeq_bool_iff in E. now constructor.
    + apply str_eqb_eq in E as ->. now constructor.
  - intro E. destruct E as [v d ->|z b E|q b E].
    + destruct d as [|b| | |s|[|]|[|]]; try discriminate S; cbn; try reflexivity; [apply eqb_reflx|apply str_eqb_refl].
    + cbn. now apply Z.eqb_eq.
    + cbn. apply Qeq_bool_iff. exact E.
Qed.
Lemma not_default_spec v d : simple_default d = true -> is_default v d = false <-> ~ equals_default v d.
Proof. intro S. rewrite <- (equals_default_spec v d S). destruct (is_default v d); split; congruence. Qed.
Lemma falsy_spec v : falsy v = true <-> empty_value v.
Proof.
  split.
  - destruct v as [|[]|[]|q|[]|[]|[]|]; try discriminate; cbn; intro E; try constructor. now apply Qeq_bool_iff.
  - intros []; cbn; try reflexivity. now apply Qeq_bool_iff.
Qed.
Lemma as_list_ok v l : as_list v = Ok l <-> v = VList l \/ empty_value v /\ l = [].
Proof.
  unfold as_list. rewrite <- falsy_spec. destruct (falsy v) eqn:F.
  - split; [intro E; injection E as <-; auto|]. intros [->|[_ ->]]; [|reflexivity]. destruct l; [reflexivity|discriminate F].
  - destruct v; split; intro E; try discriminate E; try (destruct E as [E|[E _]]; discriminate E); try (injection E as <-; auto).
    destruct E as [E|[E _]]; [injection E as <-; auto|discriminate E].
Qed.
Lemma as_dict_ok v d : as_dict v = Ok d <-> v = VDict d \/ empty_value v /\ d = [].
Proof.
  unfold as_dict. rewrite <- falsy_spec. destruct (falsy v) eqn:F.
  - split; [intro E; injection E as <-; auto|]. intros [->|[_ ->]]; [|reflexivity]. destruct d; [reflexivity|discriminate F].
  - destruct v; split; intro E; try discriminate E; try (destruct E as [E|[E _]]; discriminate E); try (injection E as <-; auto).
    destruct E as [E|[E _]]; [injection E as <-; auto|discriminate E].
Qed.
Lemma number_spec v q : number_of v = Some q <-> is_number v q.
Proof.
  split.
  - destruct v as [|[]| | | | | |]; try discriminate; cbn; intro E; injection E as <-; constructor.
  - intros []; reflexivity.
Qed.
Lemma hashable_spec v : hashable v = true <-> ~ container v.
Proof.
  split.
  - intros H [[l ->]|[d ->]]; discriminate H.
  - intro H. destruct v; try reflexivity; exfalso; apply H; [left|right]; eauto.
Qed.
Lemma elem_spec x y : elem_eqb x y = true <-> equal_elems x y.
Proof.
  unfold elem_eqb. split.
  - destruct (number_of x) as [p|] eqn:X, (number_of y) as [q|] eqn:Y; try discriminate.
    + intro E. apply Qeq_bool_iff in E. apply number_spec in X, Y. econstructor; eauto.
    + destruct x, y; try discriminate; intro E; [constructor|apply str_eqb_eq in E as ->; constructor|].
      constructor. unfold place_eqb in E. destruct (list_eq_dec _ _ _); [assumption|discriminate E].
  - intros [|s|x' y' p q X Y E|h g fs es i j E]; try reflexivity.
    + cbn. apply str_eqb_refl.
    + apply number_spec in X, Y. rewrite X, Y. now apply Qeq_bool_iff.
    + cbn. unfold place_eqb. destruct (list_eq_dec _ _ _); congruence.
Qed.
Lemma equal_refl x : ~ container x -> equal_elems x x.
Proof.
  intro H. destruct x as [|[]|z|q|s|l|d|h fs i]; [constructor| | | | |constructor| | |now constructor].
  1-4: econstructor; [constructor|constructor|reflexivity].
  - exfalso. apply H. left. eauto.
  - exfalso. apply H. right. eauto.
Qed.
Lemma dedup_In l : forall seen x, In x (dedup seen l) -> In x l.
Proof.
  induction l as [|y l IH]; intros seen x; [auto|]. cbn [dedup]. destruct (existsb _ seen); [right; eauto|]. intros [->|I]; [now left|right; eauto].
Qed.
Lemma dedup_covers l : forall seen x, In x l -> ~ container x -> exists y, (In y (dedup seen l) \/ In y seen) /\ equal_elems x y.
Proof.
  induction l as [|y l IH]; intros seen x; [intros []|]. intros [->|I] C; cbn [dedup].
  - destruct (existsb _ seen) eqn:E.
    + apply existsb_exists in E as (y & I & E). apply elem_spec in E. eauto.
    + exists x. split; [left; now left|]. now apply equal_refl.
  - destruct (existsb _ seen); [eauto|]. destruct (IH (y :: seen) x I C) as (z & [Z|[Z|Z]] & E); exists z; split; auto; left; [now right|now left].
Qed.
Lemma dedup_apart l : forall seen, (forall x y, In x seen -> In y (dedup seen l) -> ~ equal_elems y x) /\ ForallOrdPairs (fun x y => ~ equal_elems y x) (dedup seen l).
Proof.
  induction l as [|z l IH]; intro seen; cbn [dedup]; [split; [intros ? ? _ []|constructor]|].
  destruct (existsb _ seen) eqn:E; [apply IH|]. destruct (IH (z :: seen)) as [A B].
  assert (Z : forall x, In x seen -> ~ equal_elems z x).
  { intros x I Q. apply elem_spec in Q. assert (X : existsb (fun y => elem_eqb z y) seen = true) by (apply existsb_exists; eauto). congruence. }
  split.
  - intros x y I [<-|J]; [auto|]. apply A; [now right|exact J].
  - constructor; [|exact B]. apply Forall_forall. intros y J. apply A; [now left|exact J].
Qed.
Lemma union_spec l m : united l m (union l m).
Proof.
  unfold union, united. destruct (forallb hashable (l ++ m)) eqn:H.
  - right. rewrite forallb_forall in H. split; [intros x I; apply hashable_spec; auto|].
    split; [apply dedup_In|]. split; [|apply dedup_apart]. intros x I. destruct (dedup_covers (l ++ m) [] x I) as (y & [Y|[]] & E); [apply hashable_spec; auto|eauto].
  - left. split; [|reflexivity]. assert (X : exists x, In x (l ++ m) /\ hashable x = false).
    { revert H. generalize (l ++ m). intro a. induction a as [|x a IH]; [discriminate|]. cbn. destruct (hashable x) eqn:E; [|exists x; auto].
      intro H. destruct (IH H) as (y & I & Y). eauto. }
    destruct X as (x & I & X). exists x. split; [exact I|]. destruct x; try discriminate X; [left|right]; eauto.
Qed.
Lemma supdate_get {A} (m : sdict A) : forall d k, NoDup (map fst m) -> sget k (supdate d m) = match sget k m with Some x => Some x | None => sget k d end.
Proof.
  unfold dupdate. induction m as [|[k' x] m IH]; intros d k N; [reflexivity|]. inversion N as [|? ? NI N']; subst. cbn [fold_left fst snd]. rewrite IH by exact N'.
  rewrite sget_cons. destruct (str_eqb_spec k k') as [->|D].
  - assert (X : sget k' m = None) by now apply sget_None. rewrite X. apply sget_sset_same.
  - destruct (sget k m); [reflexivity|]. now apply sget_sset_other.
Qed.

(** ** Parents *)
Lemma reparent_assign1 p c v w : assign1 p c v = Ok w -> reparent1 v w.
Proof.
  unfold assign1. destruct v; intro E; try (destruct (is_produced c _); [injection E as <-|discriminate E]); try (injection E as <-); cbn [set_parent]; constructor.
Qed.
Lemma reparent_assign p ct c v w : assign_field p ct c v = Ok w -> reparent v w.
Proof.
  unfold assign_field. intro E. apply bind_ok in E as (x & E & F). injection F as F.
  assert (O : forall v, container_apply One (assign1 p c) v = Ok x -> reparent v x).
  { intros u U. destruct u; cbn [container_apply] in U; try (injection U as <-; repeat constructor; fail); apply reparent_assign1 in U; now constructor. }
  destruct ct.
  - subst. auto.
  - destruct v as [|b|z|q|s|l|d|h fs i]; cbn [container_apply] in E; try discriminate E; [|subst w; apply rp_one, rp_same| |subst w; apply rp_one, rp_same].
    + injection E as <-. subst. repeat constructor.
    + apply bind_ok in E as (m & E & X). injection X as <-. subst. apply map_res_ok in E. apply rp_list. eapply Forall2_weaken; [|exact E]. intros x y H. eapply reparent_assign1. exact H.
  - destruct v as [|b|z|q|s|l|d|h fs i]; cbn [container_apply] in E; try discriminate E.
    + injection E as <-. subst. repeat constructor.
    + apply bind_ok in E as (m & E & X). injection X as <-. subst. rewrite (map_res_dict (fun _ => assign1 p c)) in E. apply rp_dict.
      unfold drel in E. eapply Forall2_weaken; [|exact E]. intros [k a] [k' b] (K & H). cbn in *. split; [exact K|]. eapply reparent_assign1; eauto.
Qed.

(** ** Merging one field *)
Definition outcome (sv : val) (x : option val) : val := match x with Some v => v | None => sv end.
Lemma child_simple c n df : sget n (t_fields c) = Some df \/ sget n (t_internal c) = Some df -> simple_default df = true.
Proof. intros [H|H]; [eapply fields_default; eauto|eapply internal_default; eauto]. Qed.
Definition reparented (c : cls) (n : str) (v w : val) : Prop := match sget n (t_child c) with Some _ => reparent v w | None => v = w end.
Lemma rp_refl v : reparent v v. Proof. repeat constructor. Qed.
Lemma merge1_merged ex c pl n df sv ov x rv :
  (forall ct cc w, sget n (t_child c) = Some (ct, cc) -> clone_child clone ct cc (pl ++ [n]) ov = Ok w -> copied_in ct cc (pl ++ [n]) ov w) ->
  simple_default df = true -> (forall d, sv = VDict d -> NoDup (map fst d)) ->
  merge1 clone ex c pl n df sv ov = Ok x -> reparented c n (outcome sv x) rv -> merged ex c pl n df sv ov rv.
Proof.
  intros CH SD ND E R. unfold merge1 in E. destruct (mem n ex) eqn:M.
  { injection E as <-. apply m_excluded; [now apply mem_In|..]; unfold reparented in R; destruct (sget n (t_child c)); auto; try discriminate; subst; apply rp_refl. }
  apply mem_false in M. destruct (is_default ov df) eqn:D.
  { injection E as <-. apply m_default; [now apply equals_default_spec|..]; unfold reparented in R; destruct (sget n (t_child c)); auto; try discriminate; subst; apply rp_refl. }
  apply not_default_spec in D; [|exact SD]. unfold reparented in R. destruct (sget n (t_child c)) as [[ct cc]|] eqn:T.
  - destruct (is_default sv df) eqn:SV.
    + apply bind_ok in E as (w & E & X). injection X as <-. apply equals_default_spec in SV; [|exact SD]. eapply m_copied; eauto.
    + injection E as <-. apply not_default_spec in SV; [|exact SD]. eapply m_child; eauto.
  - subst rv. assert (PL : ~ container ov -> Ok (if is_default sv df then Some ov else None) = Ok x -> merged ex c pl n df sv ov (outcome sv x)).
    { intros C Z. injection Z as <-. destruct (is_default sv df) eqn:SV; cbn [outcome].
      - apply equals_default_spec in SV; [|exact SD]. now apply m_taken.
      - apply not_default_spec in SV; [|exact SD]. now apply m_kept. }
    destruct ov; try (apply PL; [intros [[? Q]|[? Q]]; discriminate Q|exact E]).
    + apply bind_ok in E as (m & E & X). injection X as <-. apply as_list_ok in E. cbn [outcome]. eapply m_list; eauto. apply union_spec.
    + apply bind_ok in E as (m & E & X). injection X as <-. apply as_dict_ok in E. cbn [outcome]. eapply m_dict; eauto. intro k. apply supdate_get.
      destruct E as [->|[_ ->]]; [now apply ND|constructor].
Qed.
Lemma merge_names_ok f ex c pl sf of : forall t r, NoDup (map fst t) -> merge_names f ex c pl t sf of = Ok r ->
  map fst (fst r) = map fst t /\
  (forall n df, sget n t = Some df -> exists sv ov x, sget n sf = Some sv /\ sget n of = Some ov /\
     merge1 f ex c pl n df sv ov = Ok x /\ sget n (fst r) = Some (outcome sv x) /\ (In n (snd r) <-> x <> None)) /\
  (forall n, In n (snd r) -> In n (map fst t)).
Proof.
  induction t as [|[n df] t IH]; intros r N E; cbn [merge_names] in E.
  { injection E as <-. split; [reflexivity|]. split; [intros ? ? X; discriminate X|intros ? []]. }
  inversion N as [|? ? NI N']; subst.
  destruct (sget n sf) as [sv|] eqn:S; [|discriminate E]. destruct (sget n of) as [ov|] eqn:O; [|discriminate E].
  apply bind_ok in E as (x & M & E). apply bind_ok in E as (r' & R & E). injection E as <-.
  destruct (IH r' N' R) as (K & G & U).
  assert (NR : ~ In n (snd r')) by (intro I; apply NI, U, I).
  split; [destruct x; cbn; now rewrite K|]. split.
  - intros n' df' T. rewrite sget_cons in T. destruct (str_eqb_spec n' n) as [->|D].
    + injection T as <-. exists sv, ov, x. repeat split; auto.
      * destruct x; cbn [fst outcome]; rewrite sget_cons, str_eqb_refl; reflexivity.
      * destruct x; [discriminate|]. intro I. now apply NR in I.
      * destruct x; [left; reflexivity|congruence].
    + destruct (G n' df' T) as (sv' & ov' & x' & A1 & A2 & A3 & A4 & A5). exists sv', ov', x'. repeat split; auto.
      * destruct x; cbn [fst]; rewrite sget_cons; destruct (str_eqb_spec n' n); try congruence; exact A4.
      * destruct x; cbn [snd]; intro I; [destruct I as [<-|I]; [congruence|]|]; now apply A5.
      * intro I. apply A5 in I. destruct x; cbn [snd]; auto. now right.
  - intros n' I. destruct x; cbn [snd] in I; [destruct I as [->|I]; [now left|]|]; right; now apply U.
Qed.
Lemma merge_names_Ok f ex c pl sf of : forall t,
  (forall n df, In (n, df) t -> exists sv ov x, sget n sf = Some sv /\ sget n of = Some ov /\ merge1 f ex c pl n df sv ov = Ok x) ->
  exists r, merge_names f ex c pl t sf of = Ok r.
Proof.
  induction t as [|[n df] t IH]; intro H; [eexists; reflexivity|]. cbn [merge_names]. destruct (H n df (or_introl eq_refl)) as (sv & ov & x & -> & -> & ->).
  destruct IH as (r & ->); [intros; apply H; now right|]. cbn [bind]. eauto.
Qed.

(** ** Merging objects *)
Definition clones_well (c : cls) (pl : place) (es : sdict val) : Prop := forall n ov ct cc w,
  sget n es = Some ov -> sget n (t_child c) = Some (ct, cc) -> clone_child clone ct cc (pl ++ [n]) ov = Ok w -> copied_in ct cc (pl ++ [n]) ov w.
Lemma merge1_updated f ex c pl n df sv ov x : simple_default df = true -> merge1 f ex c pl n df sv ov = Ok x -> x <> None <-> updated ex c n df sv ov.
Proof.
  intros SD E. unfold merge1 in E. unfold updated. destruct (mem n ex) eqn:M.
  { injection E as <-. apply mem_In in M. split; [congruence|tauto]. }
  apply mem_false in M. destruct (is_default ov df) eqn:D.
  { injection E as <-. apply equals_default_spec in D; [|exact SD]. split; [congruence|tauto]. }
  apply not_default_spec in D; [|exact SD].
  assert (SP : forall b, is_default sv df = b -> if b then equals_default sv df else ~ equals_default sv df).
  { intros [] B; [now apply equals_default_spec|now apply not_default_spec]. }
  destruct (sget n (t_child c)) as [[ct cc]|] eqn:T.
  - destruct (is_default sv df); specialize (SP _ eq_refl); cbn in SP.
    + apply bind_ok in E as (w & E & X). injection X as <-. split; [tauto|discriminate].
    + injection E as <-. split; [congruence|]. intros (_ & _ & [?|[? _]]); [tauto|discriminate].
  - assert (PL : ~ container ov -> Ok (if is_default sv df then Some ov else None) = Ok x -> x <> None <-> ~ In n ex /\ ~ equals_default ov df /\ (equals_default sv df \/ None (A:=ctype * ctx) = None /\ container ov)).
    { intros C Z. injection Z as <-. destruct (is_default sv df); specialize (SP _ eq_refl); cbn in SP; split; try tauto; try congruence. }
    destruct ov; try (apply PL; [intros [[? Q]|[? Q]]; discriminate Q|exact E]);
      apply bind_ok in E as (m & _ & X); injection X as <-; (split; [intros _|discriminate]); repeat split; auto; right; split; auto; [left|right]; eauto.
Qed.
Lemma sget_fields_all {A B} (t : sdict A) (fs : sdict B) n : map fst fs = map fst t -> (exists x, sget n t = Some x) <-> exists y, sget n fs = Some y.
Proof. intro E. rewrite <- !sget_Some_key, E. reflexivity. Qed.
Lemma merge_obj_shape ex h fs ints k es jnts r : merge_obj clone ex (VObj h fs ints) (VObj k es jnts) = Ok r ->
  exists f i fs', h_cls h = h_cls k /\
    merge_names clone ex (h_cls h) (h_place h) (t_fields (h_cls h)) fs es = Ok f /\
    merge_names clone ex (h_cls h) (h_place h) (t_internal (h_cls h)) ints jnts = Ok i /\
    drel (fun n v v' => match sget n (t_child (h_cls h)) with Some (ct, c) => assign_field (h_place h) ct c v | None => Ok v end = Ok v') (fst f) fs' /\
    r = VObj (Head (h_cls h) (h_place h) (h_parent h) (h_keys h ++ snd f ++ snd i)) fs' (fst i).
Proof.
  cbn [merge_obj]. destruct (cls_eqb (h_cls h) (h_cls k)) eqn:C; [|discriminate]. apply cls_eqb_eq in C. intro E.
  apply bind_ok in E as (f & F & E). apply bind_ok in E as (i & I & E). apply bind_ok in E as (fs' & A & E). injection E as <-.
  apply assign_fields_ok in A. exists f, i, fs'. auto.
Qed.
Lemma assign_reparented p c n v v' : match sget n (t_child c) with Some (ct, cc) => assign_field p ct cc v | None => Ok v end = Ok v' -> reparented c n v v'.
Proof. unfold reparented. destruct (sget n (t_child c)) as [[ct cc]|]; intro E; [eapply reparent_assign; eauto|now injection E]. Qed.
Lemma merge_obj_merged ex h fs ints k es jnts r : clones_well (h_cls h) (h_place h) es ->
  (forall n d, sget n fs = Some (VDict d) -> NoDup (map fst d)) -> (forall n d, sget n ints = Some (VDict d) -> NoDup (map fst d)) ->
  merge_obj clone ex (VObj h fs ints) (VObj k es jnts) = Ok r ->
  h_cls h = h_cls k /\ exists fs' ints' ks, r = VObj (Head (h_cls h) (h_place h) (h_parent h) (h_keys h ++ ks)) fs' ints' /\
    map fst fs' = map fst (t_fields (h_cls h)) /\ map fst ints' = map fst (t_internal (h_cls h)) /\
    (forall n df, sget n (t_fields (h_cls h)) = Some df -> exists sv ov rv, sget n fs = Some sv /\ sget n es = Some ov /\ sget n fs' = Some rv /\
       merged ex (h_cls h) (h_place h) n df sv ov rv) /\
    (forall n df, sget n (t_internal (h_cls h)) = Some df -> exists sv ov rv, sget n ints = Some sv /\ sget n jnts = Some ov /\ sget n ints' = Some rv /\
       merged ex (h_cls h) (h_place h) n df sv ov rv) /\
    (forall n, In n ks <-> exists df sv ov,
       (sget n (t_fields (h_cls h)) = Some df /\ sget n fs = Some sv /\ sget n es = Some ov \/
        sget n (t_internal (h_cls h)) = Some df /\ sget n ints = Some sv /\ sget n jnts = Some ov) /\ updated ex (h_cls h) n df sv ov).
Proof.
  intros CW NF NI E. apply merge_obj_shape in E as (f & i & fs' & C & MF & MI & A & ->). split; [exact C|].
  apply merge_names_ok in MF as (KF & GF & UF); [|apply fields_nodup]. apply merge_names_ok in MI as (KI & GI & UI); [|apply internal_nodup].
  exists fs', (fst i), (snd f ++ snd i). split; [reflexivity|]. split; [now rewrite <- (drel_keys _ _ _ A)|]. split; [exact KI|]. split; [|split].
  - intros n df T. destruct (GF n df T) as (sv & ov & x & S & O & M & G & _). destruct (drel_get_l _ _ _ _ _ A G) as (rv & R & P).
    exists sv, ov, rv. repeat split; auto. eapply merge1_merged; [| | |exact M|].
    + intros ct cc w TC. apply CW; auto.
    + eapply fields_default; eauto.
    + intros d ->. eauto.
    + eapply assign_reparented; eauto.
  - intros n df T. destruct (GI n df T) as (sv & ov & x & S & O & M & G & _). exists sv, ov, (outcome sv x). repeat split; auto.
    pose proof (internal_no_child _ _ _ T) as TC. eapply merge1_merged; [| | |exact M|].
    + intros ct cc w TC'. rewrite TC in TC'. discriminate TC'.
    + eapply internal_default; eauto.
    + intros d ->. eauto.
    + unfold reparented. now rewrite TC.
  - intro n. rewrite in_app_iff. split.
    + intros [I|I].
      * pose proof (UF _ I) as T. apply sget_Some_key in T as (df & T). destruct (GF n df T) as (sv & ov & x & S & O & M & _ & U).
        apply U in I. exists df, sv, ov. split; [auto|]. eapply merge1_updated; [eapply fields_default; eauto|exact M|exact I].
      * pose proof (UI _ I) as T. apply sget_Some_key in T as (df & T). destruct (GI n df T) as (sv & ov & x & S & O & M & _ & U).
        apply U in I. exists df, sv, ov. split; [auto|]. eapply merge1_updated; [eapply internal_default; eauto|exact M|exact I].
    + intros (df & sv & ov & [(T & S & O)|(T & S & O)] & Q).
      * destruct (GF n df T) as (sv' & ov' & x & S' & O' & M & _ & U). rewrite S in S'. rewrite O in O'. injection S' as <-. injection O' as <-.
        left. apply U. eapply merge1_updated; [eapply fields_default; eauto|exact M|exact Q].
      * destruct (GI n df T) as (sv' & ov' & x & S' & O' & M & _ & U). rewrite S in S'. rewrite O in O'. injection S' as <-. injection O' as <-.
        right. apply U. eapply merge1_updated; [eapply internal_default; eauto|exact M|exact Q].
Qed.
(** What is copied is [copied]. *)
Lemma fresh_dict c n d : sget n (map (fun nd => (fst nd, inject (snd nd))) (t_fields c)) = Some (VDict d) -> d = [].
Proof.
  rewrite sget_map. destruct (sget n (t_fields c)) as [df|] eqn:T; [|discriminate]. apply fields_default in T. intro E. injection E as E.
  destruct df as [| | | | |[]|[]]; try discriminate; cbn in E; congruence.
Qed.
Lemma fresh_none c n v : sget n (map (fun nd : str * json => (fst nd, VNone)) (t_internal c)) = Some v -> v = VNone.
Proof. rewrite (sget_map (fun _ => VNone)). destruct (sget n (t_internal c)); [|discriminate]. intro E. now injection E as <-. Qed.
Lemma clone_obj c pl h es jnts w : clones_well c pl es -> (do s <- fresh c pl; merge_obj clone [] s (VObj h es jnts)) = Ok w -> copied (Of c) pl (VObj h es jnts) w.
Proof.
  intros CW E. rewrite fresh_eq in E. cbn [bind] in E. apply merge_obj_merged in E as (C & fs' & ints' & ks & -> & KF & KI & MF & MI & _).
  - cbn [h_cls h_place h_parent] in *. subst c. constructor; auto.
    + intros n df ov rv T O R. destruct (MF n df T) as (sv & ov' & rv' & S & O' & R' & M). rewrite O in O'. rewrite R in R'. injection O' as <-. injection R' as <-.
      rewrite sget_map, T in S. injection S as <-. exact M.
    + intros n df ov rv T O R. destruct (MI n df T) as (sv & ov' & rv' & S & O' & R' & M). rewrite O in O'. rewrite R in R'. injection O' as <-. injection R' as <-.
      apply fresh_none in S as ->. exact M.
  - exact CW.
  - intros n d G. apply fresh_dict in G as ->. constructor.
  - intros n d G. now apply fresh_none in G.
Qed.
Lemma clone_child_copied ct cc pl ov w : (forall c pl x y, vdepth x <= vdepth ov -> clone c pl x = Ok y -> copied c pl x y) ->
  clone_child clone ct cc pl ov = Ok w -> copied_in ct cc pl ov w.
Proof.
  intros IH E. destruct ct.
  - assert (X : ov = VNone \/ clone cc pl ov = Ok w) by (destruct ov; auto). destruct X as [->|X]; [injection E as <-; constructor|]. constructor. now apply IH.
  - destruct ov as [| | | |[]|l|[]|]; cbn [clone_child] in E; try discriminate E; try (injection E as <-; constructor; auto; fail).
    apply bind_ok in E as (m & E & X). injection X as <-. apply mapi_res_ok in E. constructor.
    + eapply Forall2_len. eapply irel_Forall2; [|exact E]. intros. exact Logic.I.
    + intros i x y X Y. destruct (irel_nth _ _ _ _ E _ _ Y) as (x' & X' & P). rewrite X in X'. injection X' as <-. apply IH; [|exact P].
      apply nth_error_In, vldepth_In in X. rewrite vdepth_list. lia.
  - destruct ov as [| | | |[]|l|d|]; cbn [clone_child] in E; try discriminate E; try (injection E as <-; constructor; auto; fail).
    apply bind_ok in E as (m & E & X). injection X as <-. rewrite (map_res_dict (fun k x => clone cc (pl ++ [k]) x)) in E. constructor.
    eapply Forall2_weaken_In; [|exact E]. intros [a x] [b y] I J (K & P). cbn [fst snd] in *. split; [exact K|]. apply IH; [|exact P].
    apply vddepth_In in I. rewrite vdepth_dict. lia.
Qed.
Lemma clone_copied : forall N c pl v w, vdepth v < N -> clone c pl v = Ok w -> copied c pl v w.
Proof.
  induction N as [|N IH]; intros c pl v w D E; [lia|]. rewrite clone_eq in E.
  destruct v as [|b| | | | | |h es jnts]; try (destruct c; discriminate E).
  - destruct c; [discriminate E|]. injection E as <-. constructor.
  - assert (CW : forall c, clones_well c pl es).
    { intros c' n ov ct cc x O T X. eapply clone_child_copied; [|exact X]. intros. eapply IH; [|eauto]. apply vddepth_get in O. rewrite vdepth_obj in D. lia. }
    destruct c; cbn [clone_step] in E; [now apply clone_obj|]. apply c_addp. now apply clone_obj.
Qed.
Lemma clones_well_all c pl es : clones_well c pl es.
Proof. intros n ov ct cc w O T X. eapply clone_child_copied; [|exact X]. intros. eapply clone_copied; eauto. Qed.
