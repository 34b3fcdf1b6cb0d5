(** Proofs about merging objects: shapes, parents, and that merging can be done. *)
From Coq Require Import Lia.
From Verif Require Import PyBase PyFacts PyJson P_Op M_SpecVal M_Parse M_SpecTree M_Merge S_Parse S_SpecTree S_Merge P_SpecBase P_Parse P_SpecTree P_Compare P_Merge.
Close Scope Q_scope.

Lemma shaped_obj c v : shaped (Of c) v -> exists h fs ints, v = VObj h fs ints /\ h_cls h = c.
Proof. intro S. inversion S; subst. eauto. Qed.
Lemma shaped_produced c v : shaped c v -> is_produced c v = true.
Proof.
  intro S. inversion S as [b|v' S'|h fs ints]; subst; [reflexivity| |cbn; apply cls_eqb_refl].
  apply shaped_obj in S' as (h & fs & ints & -> & E). cbn. rewrite E. reflexivity.
Qed.
Lemma shaped_typed1 c v : shaped c v -> typed1 c v. Proof. intro S. right. now apply shaped_produced. Qed.
Lemma shaped_assign p ct c v : shaped_in ct c v -> assign_field p ct c v = Ok (own p v).
Proof.
  intro S. destruct v as [| | | | | | |].
  1: destruct ct; reflexivity.
  all: apply assign_typed; inversion S; subst; cbn [typed].
  all: try (now apply shaped_typed1).
  - eexists. split; [reflexivity|]. eapply Forall_impl; [|eassumption]. intros. now apply shaped_typed1.
  - eexists. split; [reflexivity|]. eapply Forall_impl; [|eassumption]. intros. now apply shaped_typed1.
Qed.
Lemma shaped_set_parent p c v : shaped c v -> shaped c (set_parent p v).
Proof.
  intro S. induction S as [b|v S IH|h fs ints A B C D]; cbn [set_parent]; [constructor|now constructor|].
  change (shaped (Of (h_cls (Head (h_cls h) (h_place h) (Some p) (h_keys h)))) (VObj (Head (h_cls h) (h_place h) (Some p) (h_keys h)) fs ints)).
  now constructor.
Qed.
Lemma shaped_own p ct c v : shaped_in ct c v -> shaped_in ct c (own p v).
Proof.
  intro S. inversion S as [|c' v' S'|c' l F|c' d N F]; subst.
  - constructor.
  - constructor. assert (own p v = set_parent p v) as -> by (apply shaped_produced in S'; destruct v; try reflexivity; destruct c; discriminate S').
    now apply shaped_set_parent.
  - cbn [own]. constructor. apply Forall_forall. intros x I. apply in_map_iff in I as (y & <- & I). apply shaped_set_parent. rewrite Forall_forall in F. auto.
  - cbn [own]. constructor; [now rewrite (map_fst_map (fun _ => set_parent p))|]. apply Forall_forall. intros x I. apply in_map_iff in I as (y & <- & I).
    cbn [snd]. apply shaped_set_parent. rewrite Forall_forall in F. auto.
Qed.
Lemma no_object_here v : no_object v -> ~ is_obj v. Proof. intro N. apply (N [] v). constructor. Qed.
Lemma no_object_reach v ts o : reach [] v ts o -> no_object v -> inside v ts o.
Proof.
  intro R. induction R as [v|h fs ints n v ts o _ G R IH|l i v ts o G R IH|d k v ts o G R IH]; intro N.
  - constructor.
  - exfalso. apply no_object_here in N; now apply N.
  - econstructor; [exact G|]. apply IH. intros us o' I. apply (N (str_of_nat i :: us)). econstructor; eauto.
  - econstructor; [exact G|]. apply IH. intros us o' I. apply (N (k :: us)). econstructor; eauto.
Qed.
Lemma no_object_list l : (forall x, In x l -> no_object x) -> no_object (VList l).
Proof. intros H ts o I. inversion I; subst; [auto|]. eapply H; [eapply nth_error_In; eauto|eauto]. Qed.
Lemma no_object_dict d : (forall k x, sget k d = Some x -> no_object x) -> no_object (VDict d).
Proof. intros H ts o I. inversion I; subst; [auto|]. eapply H; eauto. Qed.
Lemma no_object_item l x : no_object (VList l) -> In x l -> no_object x.
Proof. intros N I ts o J. apply In_nth_error in I as (i & I). apply (N (str_of_nat i :: ts)). econstructor; eauto. Qed.
Lemma no_object_key d k x : no_object (VDict d) -> sget k d = Some x -> no_object x.
Proof. intros N I ts o J. apply (N (k :: ts)). econstructor; eauto. Qed.
Lemma no_object_inject j : no_object (inject j).
Proof. intros ts o I. exact (inject_no_obj _ _ _ (P_Parse.inside_reach [] _ _ _ I)). Qed.

(** ** Plain fields *)
Definition plain (v : val) : Prop := wfv v /\ no_object v.
Lemma plain_nil : plain (VList []). Proof. split; [repeat constructor|]. apply no_object_list. intros ? []. Qed.
Lemma In_supdate {A} (m : sdict A) : forall d kv, In kv (supdate d m) -> In kv d \/ In kv m.
Proof.
  unfold dupdate. induction m as [|[k x] m IH]; intros d kv; [auto|]. cbn [fold_left fst snd]. intro I. apply IH in I as [I|I]; [|right; now right].
  assert (X : In kv d \/ kv = (k, x)).
  { revert I. clear. induction d as [|[k' y] d IH]; cbn; [intros [<-|[]]; auto|].
    destruct (str_eqb_spec k k') as [->|D]; intros [<-|I]; auto. apply IH in I as [I|I]; auto. }
  destruct X as [X| ->]; [auto|]. right. now left.
Qed.
Lemma supdate_keys_nodup {A} (m : sdict A) : forall d, NoDup (map fst d) -> NoDup (map fst (supdate d m)).
Proof.
  unfold dupdate. induction m as [|[k x] m IH]; intros d N; [exact N|]. cbn [fold_left fst snd]. apply IH. now apply sset_NoDup.
Qed.
Lemma merge1_plain ex c pl n df sv ov x : sget n (t_child c) = None -> plain sv -> plain ov -> merge1 clone ex c pl n df sv ov = Ok x -> plain (outcome sv x).
Proof.
  intros T PS PO E. unfold merge1 in E. rewrite T in E. destruct (mem n ex); [injection E as <-; exact PS|]. destruct (is_default ov df); [injection E as <-; exact PS|].
  assert (PL : Ok (if is_default sv df then Some ov else None) = Ok x -> plain (outcome sv x)).
  { intro Z. injection Z as <-. destruct (is_default sv df); assumption. }
  destruct PS as [WS NS], PO as [WO NO]. destruct ov; auto.
  - apply bind_ok in E as (m & E & X). injection X as <-. cbn [outcome]. apply as_list_ok in E.
    assert (M : Forall wfv m /\ no_object (VList m)).
    { destruct E as [->|[_ ->]]; [|split; [constructor|apply plain_nil]]. inversion WS; subst. auto. }
    destruct M as [M1 M2]. inversion WO as [| | | | |? FO| |]; subst. rewrite Forall_forall in M1, FO.
    assert (I : forall y, In y (union m l) -> In y m \/ In y l).
    { intros y I. apply in_app_iff. unfold union in I. destruct (forallb _ _); [now apply dedup_In in I|exact I]. }
    split; [constructor; apply Forall_forall; intros y Y; apply I in Y as [Y|Y]; auto|].
    apply no_object_list. intros y Y. apply I in Y as [Y|Y]; [exact (no_object_item _ _ M2 Y)|exact (no_object_item _ _ NO Y)].
  - apply bind_ok in E as (m & E & X). injection X as <-. cbn [outcome]. apply as_dict_ok in E.
    assert (M : NoDup (map fst m) /\ Forall (fun kv => wfv (snd kv)) m /\ no_object (VDict m)).
    { destruct E as [->|[_ ->]].
      - inversion WS; subst. auto.
      - repeat split; try constructor. apply no_object_dict. discriminate. }
    destruct M as (M0 & M1 & M2). inversion WO as [| | | | | |? ND FO|]; subst. rewrite Forall_forall in M1, FO.
    split; [constructor; [now apply supdate_keys_nodup|apply Forall_forall; intros y Y; apply In_supdate in Y as [Y|Y]; auto]|].
    apply no_object_dict. intros k y Y. rewrite supdate_get in Y by exact M0. destruct (sget k m) eqn:G; [injection Y as <-; exact (no_object_key _ _ _ M2 G)|exact (no_object_key _ _ _ NO Y)].
Qed.

(** ** Shapes *)
Section Shapes.
  (** what is known about the objects cloned *)
  Context (P : ctx -> place -> val -> val -> Prop).
  Lemma clone_child_each ct cc pl ov w : (forall c pl x y, vdepth x <= vdepth ov -> shaped c x -> clone c pl x = Ok y -> P c pl x y) ->
    shaped_in ct cc ov -> clone_child clone ct cc pl ov = Ok w ->
    (ov = VNone /\ w = VNone) \/
    match ct with
    | One => P cc pl ov w
    | ListOf => exists l m, ov = VList l /\ w = VList m /\ irel (fun i x y => shaped cc x /\ P cc (pl ++ [str_of_nat i]) x y) 0 l m
    | DictOf => exists d e, ov = VDict d /\ w = VDict e /\ NoDup (map fst d) /\ drel (fun k x y => shaped cc x /\ P cc (pl ++ [k]) x y) d e
    end.
  Proof.
    intros IH S E. inversion S as [|c' v' S'|c' l F|c' d N F]; subst.
    - left. destruct ct; injection E as <-; auto.
    - destruct ov; try (right; apply IH; auto; fail). left. injection E as <-. auto.
    - right. cbn [clone_child] in E. apply bind_ok in E as (m & E & X). injection X as <-. exists l, m. repeat split; auto.
      apply mapi_res_ok in E.
      assert (H : forall x, In x l -> shaped cc x /\ forall pl y, clone cc pl x = Ok y -> P cc pl x y).
      { intros x I. rewrite Forall_forall in F. split; [auto|]. intros pl' y. apply IH; [|auto]. apply vldepth_In in I. rewrite vdepth_list. lia. }
      clear - H E. revert E. generalize 0 as i. revert m. induction l as [|x l IHl]; intros [|y m] i E; cbn [irel] in *; try contradiction; [exact Logic.I|].
      destruct E as [E1 E2]. destruct (H x (or_introl eq_refl)) as [H1 H2]. split; [auto|]. apply IHl; [|exact E2]. intros z Z. apply H. now right.
    - right. cbn [clone_child] in E. apply bind_ok in E as (m & E & X). injection X as <-. exists d, m. repeat split; auto.
      rewrite (map_res_dict (fun k x => clone cc (pl ++ [k]) x)) in E. rewrite Forall_forall in F.
      eapply Forall2_weaken_In; [|exact E]. intros [a x] [b y] I J (K & Q). cbn [fst snd] in *. split; [exact K|]. pose proof (F _ I) as SX. cbn [snd] in SX. split; [exact SX|].
      apply IH; auto. apply vddepth_In in I. rewrite vdepth_dict. lia.
  Qed.
End Shapes.

(** The fields of what merging results in: for children, a value of the right shape, whose
    objects are given a new parent. *)
Lemma merge_fields ex h fs ints k es jnts r :
  shaped (Of (h_cls h)) (VObj h fs ints) -> shaped (Of (h_cls h)) (VObj k es jnts) ->
  (forall n ov ct cc w, sget n es = Some ov -> sget n (t_child (h_cls h)) = Some (ct, cc) -> clone_child clone ct cc (h_place h ++ [n]) ov = Ok w -> shaped_in ct cc w) ->
  merge_obj clone ex (VObj h fs ints) (VObj k es jnts) = Ok r ->
  exists ks fs' ints', r = VObj (Head (h_cls h) (h_place h) (h_parent h) ks) fs' ints' /\
    map fst fs' = map fst (t_fields (h_cls h)) /\ map fst ints' = map fst (t_internal (h_cls h)) /\
    forall n rv, sget n fs' = Some rv ->
      (sget n (t_child (h_cls h)) = None /\ plain rv) \/
      exists ct cc y sv ov, sget n (t_child (h_cls h)) = Some (ct, cc) /\ sget n fs = Some sv /\ sget n es = Some ov /\
        shaped_in ct cc y /\ rv = own (h_place h) y /\ (y = sv \/ clone_child clone ct cc (h_place h ++ [n]) ov = Ok y).
Proof.
  intros SS SO CS E. apply merge_obj_shape in E as (f & i & fs' & C & MF & MI & A & ->).
  apply merge_names_ok in MF as (KF & GF & _); [|apply fields_nodup]. apply merge_names_ok in MI as (KI & _ & _); [|apply internal_nodup].
  exists (h_keys h ++ snd f ++ snd i), fs', (fst i). split; [reflexivity|]. split; [now rewrite <- (drel_keys _ _ _ A)|]. split; [exact KI|].
  inversion SS as [| |? ? ? _ _ PS CHS]; subst. inversion SO as [| |? ? ? _ _ PO CHO]; subst. rewrite <- C in *.
  intros n rv R. destruct (drel_get_r _ _ _ _ _ A R) as (y & Y & AY).
  assert (T : exists df, sget n (t_fields (h_cls h)) = Some df).
  { apply sget_Some_key. rewrite <- KF. apply sget_Some_key. eauto. }
  destruct T as (df & T). destruct (GF n df T) as (sv & ov & x & S & O & M & G & _). rewrite Y in G. injection G as ->.
  destruct (sget n (t_child (h_cls h))) as [[ct cc]|] eqn:TC.
  - right. exists ct, cc, (outcome sv x), sv, ov. pose proof (CHS _ _ _ _ S TC) as SSV.
    assert (Z : outcome sv x = sv \/ clone_child clone ct cc (h_place h ++ [n]) ov = Ok (outcome sv x)).
    { unfold merge1 in M. destruct (mem n ex); [injection M as <-; now left|]. destruct (is_default ov df); [injection M as <-; now left|]. rewrite TC in M.
      destruct (is_default sv df); [|injection M as <-; now left]. apply bind_ok in M as (w & M & X). injection X as <-. now right. }
    assert (SY : shaped_in ct cc (outcome sv x)) by (destruct Z as [->|Z]; [exact SSV|eapply CS; eauto]).
    repeat split; auto. rewrite (shaped_assign _ _ _ _ SY) in AY. now injection AY.
  - left. split; [reflexivity|]. injection AY as <-. apply (merge1_plain _ _ _ _ _ _ _ _ TC) in M; [exact M|apply (PS n); auto|apply (PO n); auto].
Qed.
Lemma fresh_shaped c pl : shaped (Of c) (VObj (Head c pl None []) (map (fun nd => (fst nd, inject (snd nd))) (t_fields c)) (map (fun nd => (fst nd, VNone)) (t_internal c))).
Proof.
  change (Of c) with (Of (h_cls (Head c pl None []))). constructor; cbn [h_cls].
  - apply (map_fst_map (fun _ => inject)).
  - apply (map_fst_map (fun _ (_ : json) => VNone)).
  - intros n v G T. rewrite sget_map in G. destruct (sget n (t_fields c)) eqn:F; [|discriminate G]. injection G as <-. split; [eapply wfv_default; eauto|apply no_object_inject].
  - intros n v ct cc G T. rewrite sget_map in G. destruct (sget n (t_fields c)) as [df|] eqn:F; [|discriminate G]. injection G as <-. apply sget_In in T.
    assert (B : forallb (fun kv => match sget (fst kv) (t_fields c), snd kv with
                  | Some JNull, _ | Some (JBool true), (One, AddP) | Some (JList []), (ListOf, _) | Some (JObj []), (DictOf, _) => true | _, _ => false end) (t_child c) = true) by (each_class c; vm_compute; reflexivity).
    rewrite forallb_forall in B. apply B in T. cbn [fst snd] in T. rewrite F in T.
    destruct df as [|[]| | | |[]|[]]; try discriminate T; cbn [inject map]; [constructor| | |]; destruct ct; try discriminate T; try (destruct cc; try discriminate T); repeat constructor.
Qed.
Lemma clone_fresh c pl h es jnts w : clone_step clone (Of c) pl (VObj h es jnts) = Ok w ->
  merge_obj clone [] (VObj (Head c pl None []) (map (fun nd => (fst nd, inject (snd nd))) (t_fields c)) (map (fun nd => (fst nd, VNone)) (t_internal c))) (VObj h es jnts) = Ok w.
Proof. cbn [clone_step]. now rewrite fresh_eq. Qed.
(** Induction over clones *)
Lemma clone_ind (P : ctx -> place -> val -> val -> Prop) :
  (forall pl b, P AddP pl (VBool b) (VBool b)) ->
  (forall pl v w, P (Of CSchema) pl v w -> P AddP pl v w) ->
  (forall c pl h es jnts w, shaped (Of c) (VObj h es jnts) ->
     (forall n ov ct cc, sget n es = Some ov -> sget n (t_child c) = Some (ct, cc) -> forall c pl x y, vdepth x <= vdepth ov -> shaped c x -> clone c pl x = Ok y -> P c pl x y) ->
     merge_obj clone [] (VObj (Head c pl None []) (map (fun nd => (fst nd, inject (snd nd))) (t_fields c)) (map (fun nd => (fst nd, VNone)) (t_internal c))) (VObj h es jnts) = Ok w ->
     P (Of c) pl (VObj h es jnts) w) ->
  forall N c pl v w, vdepth v < N -> shaped c v -> clone c pl v = Ok w -> P c pl v w.
Proof.
  intros HB HA HO. induction N as [|N IH]; intros c pl v w D S E; [lia|].
  assert (X : forall c, shaped (Of c) v -> clone (Of c) pl v = Ok w -> P (Of c) pl v w).
  { clear c S E. intros c S E. rewrite clone_eq in E. pose proof (shaped_obj _ _ S) as (h & fs & ints & -> & <-). apply clone_fresh in E.
    eapply HO; eauto. intros n ov ct cc O _ c pl' x y DX. apply IH. apply vddepth_get in O. rewrite vdepth_obj in D. lia. }
  inversion S as [b|v' S'|h fs ints]; subst.
  - rewrite clone_eq in E. injection E as <-. apply HB.
  - apply HA. apply X; [exact S'|]. pose proof (shaped_obj _ _ S') as (h & fs & ints & -> & _). rewrite clone_eq in *. exact E.
  - now apply X.
Qed.
Lemma irel_r_Forall {A B} (P : nat -> A -> B -> Prop) (R : B -> Prop) l : (forall i x y, P i x y -> R y) -> forall i m, irel P i l m -> Forall R m.
Proof. intro H. induction l as [|x l IH]; intros i [|y m]; cbn [irel]; intro E; try contradiction; constructor; [eapply H, E|eapply IH, E]. Qed.
Lemma shaped_in_of (P : ctx -> place -> val -> val -> Prop) ct cc pl ov w : (forall c pl x y, P c pl x y -> shaped c y) -> shaped_in ct cc ov ->
  (forall c pl x y, vdepth x <= vdepth ov -> shaped c x -> clone c pl x = Ok y -> P c pl x y) -> clone_child clone ct cc pl ov = Ok w -> shaped_in ct cc w.
Proof.
  intros HP S IH E. apply (clone_child_each P) in E as [[-> ->]|E]; auto. destruct ct.
  - constructor. eauto.
  - destruct E as (l & m & -> & -> & R). constructor. eapply irel_r_Forall; [|exact R]. cbn. intros i x y (_ & Q). eauto.
  - destruct E as (d & e & -> & -> & N & R). constructor; [now rewrite <- (drel_keys _ _ _ R)|]. apply Forall_forall. intros [a y] I. cbn [snd].
    destruct (Forall2_In_r _ _ _ _ R I) as ([b x] & _ & _ & _ & Q). eauto.
Qed.
Lemma clone_shaped N c pl v w : vdepth v < N -> shaped c v -> clone c pl v = Ok w -> shaped c w.
Proof.
  apply (clone_ind (fun c _ _ w => shaped c w)); clear.
  - constructor.
  - intros. now constructor.
  - intros c pl h es jnts w S IH E. pose proof (shaped_obj _ _ S) as (h' & fs' & ints' & X & C). injection X as <- <- <-. subst c.
    apply merge_fields in E as (ks & fs & ints & -> & KF & KI & F); [|apply fresh_shaped|exact S|].
    + cbn [h_cls h_place h_parent] in *. change (Of (h_cls h)) with (Of (h_cls (Head (h_cls h) pl None ks))). constructor; cbn [h_cls]; auto.
      * intros n v G T. destruct (F n v G) as [[_ PL]|(ct & cc & y & sv & ov & T' & _)]; [exact PL|congruence].
      * intros n v ct cc G T. destruct (F n v G) as [[T' _]|(ct' & cc' & y & sv & ov & T' & _ & _ & SY & -> & _)]; [congruence|]. rewrite T in T'. injection T' as <- <-. now apply shaped_own.
    + cbn [h_cls h_place]. intros n ov ct cc w' O T X. eapply (shaped_in_of (fun c _ _ w => shaped c w)); eauto.
      * inversion S; subst. eauto.
Qed.
Lemma clone_child_shaped ct cc pl ov w : shaped_in ct cc ov -> clone_child clone ct cc pl ov = Ok w -> shaped_in ct cc w.
Proof. intros S E. eapply (shaped_in_of (fun c _ _ w => shaped c w)); eauto. intros. eapply clone_shaped; eauto. Qed.
Lemma shaped_child h es jnts c n ov ct cc : shaped (Of c) (VObj h es jnts) -> sget n es = Some ov -> sget n (t_child c) = Some (ct, cc) -> shaped_in ct cc ov.
Proof. intro S. inversion S; subst. eauto. Qed.
Lemma merge_shaped ex c self other r : shaped (Of c) self -> shaped (Of c) other -> merge self other ex = Ok r -> shaped (Of c) r.
Proof.
  intros SS SO E. pose proof (shaped_obj _ _ SS) as (h & fs & ints & -> & <-). pose proof (shaped_obj _ _ SO) as (k & es & jnts & -> & C).
  apply merge_fields in E as (ks & fs' & ints' & -> & KF & KI & F); auto.
  - change (Of (h_cls h)) with (Of (h_cls (Head (h_cls h) (h_place h) (h_parent h) ks))). constructor; cbn [h_cls]; auto.
    + intros n v G T. destruct (F n v G) as [[_ PL]|(ct & cc & y & sv & ov & T' & _)]; [exact PL|congruence].
    + intros n v ct cc G T. destruct (F n v G) as [[T' _]|(ct' & cc' & y & sv & ov & T' & _ & _ & SY & -> & _)]; [congruence|]. rewrite T in T'. injection T' as <- <-. now apply shaped_own.
  - intros n ov ct cc w O T. apply clone_child_shaped. exact (shaped_child _ _ _ _ _ _ _ _ SO O T).
Qed.

(** ** Parents *)
Lemma plain_wp v : no_object v -> well_parented v.
Proof.
  intros N ts o o' R (_ & h & fs & ints & n & x & us & -> & _). exfalso. apply no_object_reach in R; [|exact N]. apply N in R. now apply R.
Qed.
Lemma wp_set_parent p v : well_parented v -> well_parented (set_parent p v).
Proof.
  intros W ts o o' R H. apply reach_set_parent in R as [(-> & ->)|R]; [|eapply W; eauto].
  destruct v as [| | | | | | |h fs ints]; cbn [set_parent] in *; try (eapply W; [constructor|exact H]).
  assert (X : parent_of o' = place_of (VObj h fs ints)).
  { eapply W; [constructor|]. destruct H as (IO & h' & fs' & ints' & n & x & us & E & G & I). injection E as <- <- <-. split; [exact IO|]. eauto 10. }
  exact X.
Qed.
Lemma wp_list l : (forall x, In x l -> well_parented x) -> well_parented (VList l).
Proof.
  intros W ts o o' R H. inversion R; subst; [destruct H as (_ & ? & ? & ? & ? & ? & ? & X & _); discriminate X|].
  eapply W; [eapply nth_error_In; eauto|eauto|exact H].
Qed.
Lemma wp_dict d : (forall k x, sget k d = Some x -> well_parented x) -> well_parented (VDict d).
Proof.
  intros W ts o o' R H. inversion R; subst; [destruct H as (_ & ? & ? & ? & ? & ? & ? & X & _); discriminate X|]. eapply W; eauto.
Qed.
Lemma wp_item l x : well_parented (VList l) -> In x l -> well_parented x.
Proof. intros W I ts o o' R. apply In_nth_error in I as (i & I). eapply W. econstructor; eauto. Qed.
Lemma wp_key d k x : well_parented (VDict d) -> sget k d = Some x -> well_parented x.
Proof. intros W I ts o o' R. eapply W. econstructor; eauto. Qed.
Lemma wp_own p v : well_parented v -> well_parented (own p v).
Proof.
  intro W. destruct v; cbn [own]; try (now apply wp_set_parent).
  - apply wp_list. intros x I. apply in_map_iff in I as (y & <- & I). apply wp_set_parent. eapply wp_item; eauto.
  - apply wp_dict. intros k x G. rewrite sget_map in G. destruct (sget k d) eqn:GD; [|discriminate G]. injection G as <-. apply wp_set_parent. eapply wp_key; eauto.
Qed.
Lemma shaped_in_typed ct cc v : shaped_in ct cc v -> v = VNone \/ typed ct cc v.
Proof.
  intro S. inversion S as [|c' v' S'|c' l F|c' d N F]; subst; [now left|right..]; cbn [typed].
  - now apply shaped_typed1.
  - eexists. split; [reflexivity|]. eapply Forall_impl; [|exact F]. intros. now apply shaped_typed1.
  - eexists. split; [reflexivity|]. eapply Forall_impl; [|exact F]. intros. now apply shaped_typed1.
Qed.
Lemma merge_wp ex h fs ints k es jnts r :
  shaped (Of (h_cls h)) (VObj h fs ints) -> shaped (Of (h_cls h)) (VObj k es jnts) -> (forall n v, sget n fs = Some v -> well_parented v) ->
  (forall n ov ct cc w, sget n es = Some ov -> sget n (t_child (h_cls h)) = Some (ct, cc) -> clone_child clone ct cc (h_place h ++ [n]) ov = Ok w -> well_parented w) ->
  merge_obj clone ex (VObj h fs ints) (VObj k es jnts) = Ok r -> well_parented r.
Proof.
  intros SS SO WS WC E. apply merge_fields in E as (ks & fs' & ints' & -> & KF & KI & F); auto.
  - intros ts o o' R H. inversion R as [|? ? ? n x ts' ? _ G R'| |]; subst.
    + destruct H as (IO & h' & fs0 & ints0 & n & x & us & E & G & I). injection E as <- <- <-. cbn [place_of h_place].
      destruct (F n x G) as [[_ [_ N]]|(ct & cc & y & sv & ov & T' & _ & _ & SY & -> & _)]; [apply N in I; now apply I in IO|].
      apply shaped_in_typed in SY as [->|SY]; [inversion I; subst; destruct IO|]. eapply inside_own; eauto.
    + destruct (F n x G) as [[_ [_ N]]|(ct & cc & y & sv & ov & T' & S & O & SY & -> & Z)]; [eapply plain_wp; eauto|].
      assert (W : well_parented y) by (destruct Z as [->|Z]; eauto). eapply wp_own; eauto.
  - intros n ov ct cc w O T. apply clone_child_shaped. exact (shaped_child _ _ _ _ _ _ _ _ SO O T).
Qed.
Lemma clone_child_wp ct cc pl ov w : shaped_in ct cc ov -> (forall c pl x y, vdepth x <= vdepth ov -> shaped c x -> clone c pl x = Ok y -> well_parented y) ->
  clone_child clone ct cc pl ov = Ok w -> well_parented w.
Proof.
  intros S IH E. apply (clone_child_each (fun _ _ _ y => well_parented y)) in E as [[-> ->]|E]; auto; [apply (plain_wp VNone), (no_object_inject JNull)|]. destruct ct.
  - exact E.
  - destruct E as (l & m & -> & -> & R). apply wp_list. apply Forall_forall. eapply irel_r_Forall; [|exact R]. cbn. tauto.
  - destruct E as (d & e & -> & -> & N & R). apply wp_dict. intros k x G. destruct (drel_get_r _ _ _ _ _ R G) as (? & _ & _ & W). exact W.
Qed.
Lemma clone_wp N c pl v w : vdepth v < N -> shaped c v -> clone c pl v = Ok w -> well_parented w.
Proof.
  apply (clone_ind (fun _ _ _ w => well_parented w)); clear.
  - intros. apply plain_wp, (no_object_inject (JBool b)).
  - auto.
  - intros c pl h es jnts w S IH E. eapply merge_wp; [| | | |exact E]; cbn [h_cls h_place].
    + apply fresh_shaped.
    + exact S.
    + intros n v G. rewrite sget_map in G. destruct (sget n (t_fields c)); [|discriminate G]. injection G as <-. apply plain_wp, no_object_inject.
    + intros n ov ct cc x O T. apply clone_child_wp; [eapply shaped_child; eauto|]. intros. eapply IH; eauto.
Qed.
Lemma wp_field h fs ints n v : well_parented (VObj h fs ints) -> sget n fs = Some v -> well_parented v.
Proof. intros W G ts o o' R. eapply W. econstructor; eauto. Qed.
Lemma merge_well_parented ex c self other r : shaped (Of c) self -> shaped (Of c) other -> well_parented self -> merge self other ex = Ok r -> well_parented r.
Proof.
  intros SS SO W E. pose proof (shaped_obj _ _ SS) as (h & fs & ints & -> & <-). pose proof (shaped_obj _ _ SO) as (k & es & jnts & -> & C).
  eapply merge_wp; [exact SS|exact SO| | |exact E].
  - intros. eapply wp_field; eauto.
  - intros n ov ct cc x O T. apply clone_child_wp; [exact (shaped_child _ _ _ _ _ _ _ _ SO O T)|]. intros. eapply clone_wp; eauto.
Qed.

(** ** Merging can be done *)
Lemma merge1_Ok ex c pl n df sv ov : simple_default df = true ->
  (forall ct cc, sget n (t_child c) = Some (ct, cc) -> exists w, clone_child clone ct cc (pl ++ [n]) ov = Ok w) ->
  (~ In n ex -> sget n (t_child c) = None -> ~ equals_default ov df ->
    match ov with VList _ => empty_value sv \/ exists l, sv = VList l | VDict _ => empty_value sv \/ exists d, sv = VDict d | _ => True end) ->
  exists x, merge1 clone ex c pl n df sv ov = Ok x.
Proof.
  intros SD CH FI. unfold merge1. destruct (mem n ex) eqn:M; [eauto|]. apply mem_false in M. destruct (is_default ov df) eqn:D; [eauto|]. apply not_default_spec in D; [|exact SD].
  destruct (sget n (t_child c)) as [[ct cc]|] eqn:T.
  - destruct (is_default sv df); [|eauto]. destruct (CH ct cc eq_refl) as (w & ->). cbn [bind]. eauto.
  - specialize (FI M eq_refl D). destruct ov; eauto.
    + assert (X : exists m, as_list sv = Ok m). { destruct FI as [X|(m & ->)]; [exists []|exists m]; apply as_list_ok; auto. } destruct X as (m & ->). cbn [bind]. eauto.
    + assert (X : exists m, as_dict sv = Ok m). { destruct FI as [X|(m & ->)]; [exists []|exists m]; apply as_dict_ok; auto. } destruct X as (m & ->). cbn [bind]. eauto.
Qed.
Lemma merge_obj_Ok ex h fs ints k es jnts : shaped (Of (h_cls h)) (VObj h fs ints) -> shaped (Of (h_cls h)) (VObj k es jnts) ->
  (forall n ov ct cc, sget n es = Some ov -> sget n (t_child (h_cls h)) = Some (ct, cc) -> exists w, clone_child clone ct cc (h_place h ++ [n]) ov = Ok w) ->
  fits ex (t_fields (h_cls h)) (h_cls h) fs es -> fits ex (t_internal (h_cls h)) (h_cls h) ints jnts ->
  exists r, merge_obj clone ex (VObj h fs ints) (VObj k es jnts) = Ok r.
Proof.
  intros SS SO CH FF FI. inversion SS as [| |? ? ? KS IS PS CHS]; subst. inversion SO as [| |? ? ? KO IO PO CHO]; subst. cbn [merge_obj].
  match goal with H : h_cls k = h_cls h |- _ => rename H into C end. rewrite C, cls_eqb_refl in *.
  destruct (merge_names_Ok clone ex (h_cls h) (h_place h) fs es (t_fields (h_cls h))) as (f & F).
  { intros n df I. apply In_fields in I. cbn [fst snd] in I.
    assert (exists sv, sget n fs = Some sv) as (sv & S) by (apply (sget_fields_all (t_fields (h_cls h))); eauto).
    assert (exists ov, sget n es = Some ov) as (ov & O) by (apply (sget_fields_all (t_fields (h_cls h))); eauto).
    destruct (merge1_Ok ex (h_cls h) (h_place h) n df sv ov) as (x & X); [eapply fields_default; eauto|intros; eapply CH; eauto|exact (FF n df sv ov I S O)|]. exists sv, ov, x. auto. }
  destruct (merge_names_Ok clone ex (h_cls h) (h_place h) ints jnts (t_internal (h_cls h))) as (i & I).
  { intros n df I. apply In_sget in I; [|apply internal_nodup].
    assert (exists sv, sget n ints = Some sv) as (sv & S) by (apply (sget_fields_all (t_internal (h_cls h))); eauto).
    assert (exists ov, sget n jnts = Some ov) as (ov & O) by (apply (sget_fields_all (t_internal (h_cls h))); eauto).
    pose proof (internal_no_child _ _ _ I) as T.
    destruct (merge1_Ok ex (h_cls h) (h_place h) n df sv ov) as (x & X); [eapply internal_default; eauto|intros; congruence|exact (FI n df sv ov I S O)|]. exists sv, ov, x. auto. }
  rewrite F, I. cbn [bind].
  assert (X : exists fs', assign_fields (h_place h) (t_child (h_cls h)) (fst f) = Ok fs').
  { apply merge_names_ok in F as (KF & GF & _); [|apply fields_nodup].
    assert (AF : forall n v, In (n, v) (fst f) -> exists v', match sget n (t_child (h_cls h)) with Some (ct, c) => assign_field (h_place h) ct c v | None => Ok v end = Ok v').
    { intros n v IN. destruct (sget n (t_child (h_cls h))) as [[ct cc]|] eqn:TC; [|eauto].
      assert (G : sget n (fst f) = Some v) by (apply In_sget; [rewrite KF; apply fields_nodup|exact IN]).
      assert (T : exists df, sget n (t_fields (h_cls h)) = Some df) by (apply sget_Some_key; rewrite <- KF; apply sget_Some_key; eauto). destruct T as (df & T).
      destruct (GF n df T) as (sv & ov & x & S & O & M & G' & _). rewrite G in G'. injection G' as ->.
      assert (SY : shaped_in ct cc (outcome sv x)).
      { unfold merge1 in M. destruct (mem n ex); [injection M as <-; eapply CHS; eauto|]. destruct (is_default ov df); [injection M as <-; eapply CHS; eauto|]. rewrite TC in M.
        destruct (is_default sv df); [|injection M as <-; eapply CHS; eauto]. apply bind_ok in M as (w & M & X). injection X as <-. cbn [outcome]. eapply clone_child_shaped; [|exact M]. eapply CHO; eauto. }
      rewrite (shaped_assign _ _ _ _ SY). eauto. }
    clear - AF. induction (fst f) as [|[n v] l IH]; cbn [assign_fields]; [eauto|]. destruct (AF n v (or_introl eq_refl)) as (v' & ->). cbn [bind].
    destruct IH as (l' & ->); [intros; apply AF; now right|]. cbn [bind]. eauto. }
  destruct X as (fs' & ->). cbn [bind]. eauto.
Qed.
(** Nothing but the default of [collectionFormat] keeps a list from coming in. *)
Lemma default_empty c n df : sget n (t_fields c) = Some df -> sget n (t_child c) = None -> n = lit "collectionFormat" \/ empty_value (inject df).
Proof.
  intros T TC. apply sget_In in T.
  assert (B : forallb (fun nd => match sget (fst nd) (t_child c), snd nd with
                | Some _, _ | _, JNull | _, JBool false | _, JList [] | _, JObj [] => true | _, _ => str_eqb (fst nd) "collectionFormat"%string end) (t_fields c) = true) by (each_class c; vm_compute; reflexivity).
  rewrite forallb_forall in B. apply B in T. cbn [fst snd] in T. rewrite TC in T.
  destruct df as [|[]| | | |[]|[]]; try (left; now apply str_eqb_eq in T); right; constructor.
Qed.
Lemma formats_field h fs ints n v : simple_formats (VObj h fs ints) -> sget n fs = Some v -> simple_formats v.
Proof. intros S G ts h' fs' ints' x R. eapply S. econstructor; eauto. Qed.
Lemma clone_Ok : forall N c pl v, vdepth v < N -> shaped c v -> simple_formats v -> exists w, clone c pl v = Ok w.
Proof.
  induction N as [|N IH]; intros c pl v D S SF; [lia|].
  assert (CH : forall ct cc pl ov, vdepth ov < N -> shaped_in ct cc ov -> simple_formats ov -> exists w, clone_child clone ct cc pl ov = Ok w).
  { clear c pl v D S SF. intros ct cc pl ov D S SF. inversion S as [|c' v' S'|c' l F|c' d ND F]; subst.
    - exists VNone. destruct ct; reflexivity.
    - destruct (IH cc pl ov D S' SF) as (w & W). destruct ov; cbn [clone_child]; eauto.
    - cbn [clone_child]. rewrite vdepth_list in D.
      assert (H : forall x, In x l -> forall pl, exists y, clone cc pl x = Ok y).
      { intros x I pl'. apply IH; [apply vldepth_In in I; lia|rewrite Forall_forall in F; auto|]. apply In_nth_error in I as (i & I). intros ts h fs ints z R. eapply SF. econstructor; eauto. }
      assert (X : forall i, exists m, mapi_res (fun i x => clone cc (pl ++ [str_of_nat i]) x) i l = Ok m).
      { clear - H. induction l as [|x l IHl]; intro i; cbn [mapi_res]; [eauto|]. destruct (H x (or_introl eq_refl) (pl ++ [str_of_nat i])) as (y & ->). cbn [bind].
        destruct (IHl (fun x I => H x (or_intror I)) (S i)) as (m & ->). cbn [bind]. eauto. }
      destruct (X 0) as (m & ->). cbn [bind]. eauto.
    - cbn [clone_child]. rewrite vdepth_dict in D.
      assert (H : forall kx, In kx d -> forall pl, exists y, clone cc pl (snd kx) = Ok y).
      { intros [k x] I pl'. apply IH; [apply vddepth_In in I; cbn [snd]; lia|rewrite Forall_forall in F; auto|]. apply In_sget in I; [|exact ND]. intros ts h fs ints z R. eapply SF. econstructor; eauto. }
      assert (X : exists m, map_res (fun kv => do x <- clone cc (pl ++ [fst kv]) (snd kv); Ok (fst kv, x)) d = Ok m).
      { clear - H. induction d as [|kx d IHd]; cbn [map_res]; [eauto|]. destruct (H kx (or_introl eq_refl) (pl ++ [fst kx])) as (y & ->). cbn [bind].
        destruct (IHd (fun x I => H x (or_intror I))) as (m & ->). cbn [bind]. eauto. }
      destruct X as (m & ->). cbn [bind]. eauto. }
  assert (X : forall c, shaped (Of c) v -> exists w, clone (Of c) pl v = Ok w).
  { clear c S. intros c S. rewrite clone_eq. pose proof (shaped_obj _ _ S) as (h & fs & ints & -> & <-). cbn [clone_step]. rewrite fresh_eq. cbn [bind].
    rewrite vdepth_obj in D. apply merge_obj_Ok; cbn [h_cls h_place].
    - apply fresh_shaped.
    - exact S.
    - intros n ov ct cc O T. apply CH; [apply vddepth_get in O; lia|eapply shaped_child; eauto|eapply formats_field; eauto].
    - intros n df sv ov T G O _ TC _. rewrite sget_map, T in G. injection G as <-. destruct (default_empty _ _ _ T TC) as [->|EM]; [|destruct ov; auto].
      destruct ov; auto; exfalso; (eapply (SF [] h fs ints); [constructor|exact O|]); [left|right]; eauto.
    - intros n df sv ov T G O _ TC _. apply fresh_none in G as ->. destruct ov; auto; left; constructor. }
  inversion S as [b|v' S'|h fs ints]; subst.
  - rewrite clone_eq. cbn [clone_step]. eauto.
  - destruct (X CSchema S') as (w & W). exists w. pose proof (shaped_obj _ _ S') as (h & fs & ints & -> & _). rewrite clone_eq in *. exact W.
  - now apply X.
Qed.
Lemma clone_child_Ok ct cc pl ov : shaped_in ct cc ov -> simple_formats ov -> exists w, clone_child clone ct cc pl ov = Ok w.
Proof.
  intros S SF. inversion S as [|c' v' S'|c' l F|c' d ND F]; subst.
  - exists VNone. destruct ct; reflexivity.
  - destruct (clone_Ok _ cc pl ov (Nat.lt_succ_diag_r _) S' SF) as (w & W). destruct ov; cbn [clone_child]; eauto.
  - cbn [clone_child].
    assert (H : forall x, In x l -> forall pl, exists y, clone cc pl x = Ok y).
    { intros x I pl'. eapply clone_Ok; [apply Nat.lt_succ_diag_r|rewrite Forall_forall in F; auto|]. apply In_nth_error in I as (i & I). intros ts h fs ints z R. eapply SF. econstructor; eauto. }
    assert (X : forall i, exists m, mapi_res (fun i x => clone cc (pl ++ [str_of_nat i]) x) i l = Ok m).
    { clear - H. induction l as [|x l IHl]; intro i; cbn [mapi_res]; [eauto|]. destruct (H x (or_introl eq_refl) (pl ++ [str_of_nat i])) as (y & ->). cbn [bind].
      destruct (IHl (fun x I => H x (or_intror I)) (S i)) as (m & ->). cbn [bind]. eauto. }
    destruct (X 0) as (m & ->). cbn [bind]. eauto.
  - cbn [clone_child].
    assert (H : forall kx, In kx d -> forall pl, exists y, clone cc pl (snd kx) = Ok y).
    { intros [k x] I pl'. eapply clone_Ok; [apply Nat.lt_succ_diag_r|rewrite Forall_forall in F; auto|]. apply In_sget in I; [|exact ND]. intros ts h fs ints z R. eapply SF. econstructor; eauto. }
    assert (X : exists m, map_res (fun kv => do x <- clone cc (pl ++ [fst kv]) (snd kv); Ok (fst kv, x)) d = Ok m).
    { clear - H. induction d as [|kx d IHd]; cbn [map_res]; [eauto|]. destruct (H kx (or_introl eq_refl) (pl ++ [fst kx])) as (y & ->). cbn [bind].
      destruct (IHd (fun x I => H x (or_intror I))) as (m & ->). cbn [bind]. eauto. }
    destruct X as (m & ->). cbn [bind]. eauto.
Qed.

(** ** Objects that come out of documents *)
Lemma parse_shaped : forall N c pl j v, jdepth j < N -> wf j -> parse c pl j = Ok v -> shaped c v.
Proof.
  induction N as [|N IH]; intros c pl j v D W E; [lia|].
  assert (X : forall c pl d v, jdepth (JObj d) <= N -> wf (JObj d) -> parse (Of c) pl (JObj d) = Ok v -> shaped (Of c) v).
  { clear c pl j v D W E. intros c pl d v D W E. pose proof (parse_wfv _ _ _ _ _ (Nat.lt_succ_diag_r _) W E) as WV.
    apply parse_obj in E as (kids & fs & _ & -> & R). inversion W as [| | | | | |? ND F]; subst. rewrite Forall_forall in F. rewrite jdepth_obj in D.
    match goal with |- shaped _ (VObj ?h _ _) => change (Of c) with (Of (h_cls h)) end. constructor; cbn [h_cls].
    - symmetry. apply (drel_keys _ _ _ R).
    - apply (map_fst_map (fun _ (_ : json) => VNone)).
    - intros n x G T. destruct (drel_get_r _ _ _ _ _ R G) as (df & DF & FV). split.
      + inversion WV as [| | | | | | |? ? ? _ FW]; subst. rewrite Forall_forall in FW. apply sget_In in G. exact (FW _ G).
      + destruct (field_no_child _ _ _ _ _ _ T FV) as (k & ->). apply no_object_inject.
    - intros n x ct cc G T. destruct (drel_get_r _ _ _ _ _ R G) as (df & DF & (y & GA & ->)). rewrite T. apply shaped_own.
      unfold gathered in GA. rewrite T in GA.
      assert (A : forall k, y = absent ct k -> (ct = One -> k = df \/ k = JNull) -> shaped_in ct cc y).
      { intros k -> K. pose proof (fresh_shaped c pl) as FS. inversion FS as [| |? ? ? _ _ _ CH]; subst. cbn [h_cls] in CH.
        destruct ct; cbn [absent]; try (repeat constructor; fail). destruct (K eq_refl) as [->| ->]; [|constructor].
        apply (CH n); [|exact T]. rewrite sget_map, DF. reflexivity. }
      destruct (sget n d) as [w|] eqn:S; [|apply (A df); auto].
      assert (WW : wf w) by (apply sget_In in S; exact (F _ S)). assert (DW : jdepth w <= jddepth d) by eauto using jddepth_get.
      assert (P : parse_child parse ct cc (pl ++ [n]) w = Ok y -> shaped_in ct cc y).
      { clear - IH WW DW D. destruct ct; cbn [parse_child]; intro P.
        - constructor. eapply IH; [|exact WW|exact P]. lia.
        - apply bind_ok in P as (l & J & P). apply bind_ok in P as (m & P & Q). injection Q as <-. constructor. apply Forall_forall. intros z Z.
          apply mapi_res_ok in P. assert (exists i x, nth_error m i = Some z /\ In x l /\ parse cc ((pl ++ [n]) ++ [str_of_nat i]) x = Ok z) as (i & x & _ & I & PZ).
          { apply In_nth_error in Z as (i & Z). destruct (irel_nth _ _ _ _ P _ _ Z) as (x & NX & PX). exists i, x. split; [exact Z|]. split; [eapply nth_error_In; eauto|exact PX]. }
          destruct w; cbn [iter_json] in J; try discriminate J; injection J as <-.
          + apply in_map_iff in I as (a & <- & _). refine (IH _ _ _ _ _ _ PZ); [|constructor]. cbn [jdepth]. cbn in DW. lia.
          + inversion WW as [| | | | |? FW|]; subst. rewrite Forall_forall in FW. eapply IH; [|exact (FW _ I)|exact PZ]. apply jldepth_In in I. rewrite jdepth_list in DW. lia.
          + apply in_map_iff in I as (a & <- & _). refine (IH _ _ _ _ _ _ PZ); [|constructor]. rewrite jdepth_obj in DW. cbn [jdepth]. lia.
        - destruct w as [| | | | | |e]; try discriminate P. apply bind_ok in P as (m & P & Q). injection Q as <-.
          rewrite (map_res_dict (fun k x => parse cc ((pl ++ [n]) ++ [k]) x)) in P. inversion WW as [| | | | | |? NE FE]; subst. rewrite Forall_forall in FE.
          assert (NM : NoDup (map fst m)) by (rewrite <- (drel_keys _ _ _ P); exact NE).
          constructor; [exact NM|]. apply Forall_forall. intros [k z] Z. cbn [snd].
          destruct (drel_get_r _ _ _ _ _ P (In_sget _ _ _ NM Z)) as (x & GX & PX). apply sget_In in GX.
          eapply IH; [|exact (FE _ GX)|exact PX]. apply jddepth_In in GX. rewrite jdepth_obj in DW. cbn [snd]. lia. }
      destruct w; try (exact (P GA)). cbv iota in GA. apply (A JNull); auto. }
  assert (NUL : forall c pl, parse (Of c) pl JNull = Ok v -> shaped (Of c) v).
  { clear. intros c pl E. rewrite parse_null in E. injection E as <-. apply fresh_shaped. }
  destruct c as [c|].
  - destruct j; try (rewrite parse_eq in E; discriminate E).
    + eapply NUL; eauto.
    + eapply X; [|exact W|exact E]. lia.
  - destruct j; try (rewrite parse_eq in E; discriminate E).
    + rewrite parse_eq in E. injection E as <-. constructor.
    + rewrite parse_eq in E. injection E as <-. constructor.
    + rewrite parse_addp_obj in E. constructor. eapply X; [|exact W|exact E]. lia.
Qed.

(** Deciding [simple_formats] *)
Fixpoint formatsb (v : val) : bool :=
  match v with
  | VList l => forallb formatsb l
  | VDict d => forallb (fun kv => formatsb (snd kv)) d
  | VObj _ fs _ => match sget (lit "collectionFormat") fs with Some (VList _) | Some (VDict _) => false | _ => true end
                   && forallb (fun kv => formatsb (snd kv)) fs
  | _ => true
  end.
Lemma formatsb_ok v : formatsb v = true -> simple_formats v.
Proof.
  intros F ts h fs ints x R. remember (VObj h fs ints) as o eqn:O. revert F. induction R as [v|h' fs' ints' n v ts o _ G R IH|l i v ts o G R IH|d k v ts o G R IH]; subst; intro F.
  - cbn [formatsb] in F. apply andb_prop in F as [F _]. intros X C. rewrite X in F. destruct C as [[? ->]|[? ->]]; discriminate F.
  - apply IH; [reflexivity|]. cbn [formatsb] in F. apply andb_prop in F as [_ F]. rewrite forallb_forall in F. apply sget_In in G. exact (F _ G).
  - apply IH; [reflexivity|]. cbn [formatsb] in F. rewrite forallb_forall in F. apply nth_error_In in G. exact (F _ G).
  - apply IH; [reflexivity|]. cbn [formatsb] in F. rewrite forallb_forall in F. apply sget_In in G. exact (F _ G).
Qed.
