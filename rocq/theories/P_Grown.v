(** Lemmas: documents in which references have been merged in place. *)
From Coq Require Import Lia.
From Verif Require Import PyBase PyFacts PyInt PyJson M_JsonPtr M_Url P_Op M_SpecVal M_Parse M_SpecTree M_Merge M_MergeRef S_Parse S_SpecTree S_Merge S_MergeRef P_SpecBase P_Parse P_SpecTree P_Compare P_Merge P_MergeShape P_MergeRef P_Patch M_App S_App P_App P_Deep M_Scope M_Patch M_Validate M_OldValidate M_OldParse M_Upgrade M_Prepare.
Close Scope Q_scope.

(** The classes of which merging leaves the fields alone *)
Definition low (c : cls) : Prop := In c [CSchema; CItems; CHeader; CXML; CExternalDocs].
Definition inner (c : cls) : Prop := c = CParameter \/ c = CResponse \/ low c.
Definition fillable (c : cls) (fs : sdict val) (n : str) (x : val) : Prop := c = CPathItem /\ sget (lit "$ref") fs <> Some VNone /\ (x = VNone \/ x = VList [] \/ n = lit "$ref" /\ no_object x).
(** [grown P v w]: [w] came from [v] by merging at places of [P]. *)
Inductive grown (P : list str -> Prop) : val -> val -> Prop :=
| gr_plain v : not_container v -> grown P v v
| gr_list l m : length l = length m ->
    (forall i x y, nth_error l i = Some x -> nth_error m i = Some y -> grown (fun us => P (str_of_nat i :: us)) x y) -> grown P (VList l) (VList m)
| gr_dict d e : map fst d = map fst e ->
    (forall k x y, sget k d = Some x -> sget k e = Some y -> grown (fun us => P (k :: us)) x y) -> grown P (VDict d) (VDict e)
| gr_obj h g fs es ints jnts : h_cls h = h_cls g -> h_place h = h_place g -> map fst fs = map fst es -> map fst ints = map fst jnts ->
    (forall n x y, sget n fs = Some x -> sget n es = Some y -> grown (fun us => P (n :: us)) x y \/ fillable (h_cls h) fs n x) ->
    (inner (h_cls h) -> es = fs) ->
    (forall n, n <> lit "final" -> sget n jnts = sget n ints) ->
    ((h_cls h = CParameter \/ h_cls h = CResponse) /\ P [] \/ jnts = ints) ->
    grown P (VObj h fs ints) (VObj g es jnts).

Lemma grown_list P l m : grown P (VList l) m -> exists m', m = VList m' /\ length l = length m' /\
  forall i x y, nth_error l i = Some x -> nth_error m' i = Some y -> grown (fun us => P (str_of_nat i :: us)) x y.
Proof. intro G. inversion G; subst; [contradiction|eauto]. Qed.
Lemma grown_dict P d m : grown P (VDict d) m -> exists e, m = VDict e /\ map fst d = map fst e /\
  forall k x y, sget k d = Some x -> sget k e = Some y -> grown (fun us => P (k :: us)) x y.
Proof. intro G. inversion G; subst; [contradiction|eauto]. Qed.
Lemma grown_obj P h fs ints m : grown P (VObj h fs ints) m -> exists g es jnts, m = VObj g es jnts /\ h_cls h = h_cls g /\ h_place h = h_place g /\ map fst fs = map fst es /\ map fst ints = map fst jnts /\
    (forall n x y, sget n fs = Some x -> sget n es = Some y -> grown (fun us => P (n :: us)) x y \/ fillable (h_cls h) fs n x) /\
    (inner (h_cls h) -> es = fs) /\
    (forall n, n <> lit "final" -> sget n jnts = sget n ints) /\
    ((h_cls h = CParameter \/ h_cls h = CResponse) /\ P [] \/ jnts = ints).
Proof. intro G. inversion G as [| | |h' g fs' es ints' jnts]; subst; [contradiction|]. exists g, es, jnts. auto 12. Qed.
Lemma grown_scalar P v w : not_container v -> grown P v w -> w = v.
Proof. intros N G. inversion G; subst; auto; contradiction. Qed.
Lemma grown_not_container P v w : not_container w -> grown P v w -> w = v.
Proof. intros N G. inversion G; subst; auto; contradiction. Qed.

Lemma grown_refl : forall N P v, vdepth v < N -> grown P v v.
Proof.
  induction N as [|N IH]; intros P v D; [lia|]. destruct v as [|b|z|q|s|l|d|h fs ints]; try (now apply gr_plain).
  - apply gr_list; [reflexivity|]. intros i x y X Y. rewrite X in Y. injection Y as <-. apply IH. rewrite vdepth_list in D. apply nth_error_In in X. apply vldepth_In in X. lia.
  - apply gr_dict; [reflexivity|]. intros k x y X Y. rewrite X in Y. injection Y as <-. apply IH. rewrite vdepth_dict in D. apply vddepth_get in X. lia.
  - apply gr_obj; auto. intros n x y X Y. rewrite X in Y. injection Y as <-. left. apply IH. rewrite vdepth_obj in D. apply vddepth_get in X. lia.
Qed.
Lemma grown_same P v : grown P v v. Proof. eapply grown_refl, Nat.lt_succ_diag_r. Qed.
Lemma grown_mono_N : forall N (P Q : list str -> Prop) v w, vdepth v < N -> (forall us, P us -> Q us) -> grown P v w -> grown Q v w.
Proof.
  induction N as [|N IH]; intros P Q v w D H G; [lia|]. destruct v as [|b|z|q|s|l|d|h fs ints]; try (apply grown_scalar in G as ->; [apply grown_same|exact I]).
  - apply grown_list in G as (m & -> & L & F). apply gr_list; [exact L|]. intros i x y X Y. eapply IH; [| |eapply F; eauto].
    + rewrite vdepth_list in D. apply nth_error_In in X. apply vldepth_In in X. lia.
    + intros us. apply H.
  - apply grown_dict in G as (e & -> & L & F). apply gr_dict; [exact L|]. intros k x y X Y. eapply IH; [| |eapply F; eauto].
    + rewrite vdepth_dict in D. apply vddepth_get in X. lia.
    + intros us. apply H.
  - apply grown_obj in G as (g & es & jnts & -> & A & B & C & DD & F & IN & O & FI). apply gr_obj; auto.
    + intros n x y X Y. destruct (F n x y X Y) as [G|G]; [left|now right]. eapply IH; [| |exact G].
      * rewrite vdepth_obj in D. apply vddepth_get in X. lia.
      * intros us. apply H.
    + destruct FI as [[FI PI]|FI]; [left|now right]. auto.
Qed.
Lemma grown_mono (P Q : list str -> Prop) v w : (forall us, P us -> Q us) -> grown P v w -> grown Q v w.
Proof. eapply grown_mono_N, Nat.lt_succ_diag_r. Qed.

Lemma same_keys {A B} (d : sdict A) (e : sdict B) k x : map fst d = map fst e -> sget k d = Some x -> exists y, sget k e = Some y.
Proof. intros M G. apply sget_Some_key. rewrite <- M. apply sget_Some_key. eauto. Qed.
Lemma same_length {A B} (l : list A) (m : list B) i x : length l = length m -> nth_error l i = Some x -> exists y, nth_error m i = Some y.
Proof. intros L N. destruct (nth_error m i) eqn:E; [eauto|]. apply nth_error_None in E. assert (i < length l) by (apply nth_error_Some; congruence). lia. Qed.

Lemma grown_inside P x : forall ts o y, inside x ts o -> is_obj o -> grown P x y -> exists o', inside y ts o' /\ is_obj o'.
Proof.
  intros ts o y IS. revert P y. induction IS as [v|l i v ts o G R IH|d k v ts o G R IH]; intros P y O GR.
  - exists y. split; [constructor|]. destruct v; try contradiction. apply grown_obj in GR as (? & ? & ? & -> & _). exact I.
  - apply grown_list in GR as (m & -> & L & F). destruct (same_length _ _ _ _ L G) as (z & Z). destruct (IH _ z O (F _ _ _ G Z)) as (o' & A & B). exists o'. split; [econstructor; eauto|exact B].
  - apply grown_dict in GR as (m & -> & L & F). destruct (same_keys _ _ _ _ L G) as (z & Z). destruct (IH _ z O (F _ _ _ G Z)) as (o' & A & B). exists o'. split; [econstructor; eauto|exact B].
Qed.
Lemma grown_no_object P x y : grown P x y -> no_object y -> no_object x.
Proof. intros G N ts o IS O. destruct (grown_inside P x ts o y IS O G) as (o' & A & B). exact (N _ _ A B). Qed.
Lemma grown_trans_N : forall N (P Q : list str -> Prop) u v w, vdepth u < N -> grown P u v -> grown Q v w -> grown (fun us => P us \/ Q us) u w.
Proof.
  induction N as [|N IH]; intros P Q u v w D G H; [lia|]. destruct u as [|b|z|q|s|l|d|h fs ints];
    try (apply grown_scalar in G as ->; [|exact I]; apply grown_scalar in H as ->; [apply grown_same|exact I]).
  - apply grown_list in G as (m & -> & L & F). apply grown_list in H as (m' & -> & L' & F'). apply gr_list; [congruence|]. intros i x z X Z.
    destruct (same_length _ _ _ _ L X) as (y & Y). eapply IH; eauto. rewrite vdepth_list in D. apply nth_error_In in X. apply vldepth_In in X. lia.
  - apply grown_dict in G as (m & -> & L & F). apply grown_dict in H as (m' & -> & L' & F'). apply gr_dict; [congruence|]. intros k x z X Z.
    destruct (same_keys _ _ _ _ L X) as (y & Y). eapply IH; eauto. rewrite vdepth_dict in D. apply vddepth_get in X. lia.
  - apply grown_obj in G as (g & es & jnts & -> & A & B & C & DD & F & IN & O & FI). apply grown_obj in H as (g' & es' & jnts' & -> & A' & B' & C' & DD' & F' & IN' & O' & FI').
    apply gr_obj; try congruence.
    + intros n x z X Z. destruct (same_keys _ _ _ _ C X) as (y & Y). destruct (F n x y X Y) as [G|G]; [|now right]. destruct (F' n y z Y Z) as [H|(HC & HR & H)].
      * left. eapply IH; eauto. rewrite vdepth_obj in D. apply vddepth_get in X. lia.
      * right. split; [congruence|]. split.
        { intro R0. destruct (same_keys _ _ _ _ C R0) as (r1 & R1). destruct (F _ _ _ R0 R1) as [K|(_ & K & _)]; [|contradiction]. apply grown_scalar in K as ->; [contradiction|exact I]. }
        destruct H as [->|[->|[-> H]]].
        -- left. symmetry. now apply grown_not_container in G.
        -- right; left. inversion G as [|l m L| |]; subst; [contradiction|]. destruct l; [reflexivity|discriminate L].
        -- right; right. split; [reflexivity|]. eapply grown_no_object; eauto.
    + intro H. rewrite (IN' ltac:(congruence)). auto.
    + intros n NF. rewrite O' by exact NF. auto.
    + destruct FI' as [[FI' PI']| ->]; [left; split; [rewrite A; exact FI'|now right]|]. destruct FI as [[FI PI]|FI]; [left; auto|now right].
Qed.
Lemma grown_trans P Q u v w : grown P u v -> grown Q v w -> grown (fun us => P us \/ Q us) u w.
Proof. eapply grown_trans_N, Nat.lt_succ_diag_r. Qed.

Lemma list_eq {A} (l m : list A) : length l = length m -> (forall i x y, nth_error l i = Some x -> nth_error m i = Some y -> y = x) -> m = l.
Proof.
  revert m. induction l as [|x l IH]; intros [|y m] L H; try discriminate L; [reflexivity|]. f_equal; [apply (H 0); reflexivity|].
  apply IH; [now injection L|]. intros i. apply (H (S i)).
Qed.
Lemma dict_eq {A} (d e : sdict A) : NoDup (map fst d) -> map fst d = map fst e -> (forall k x y, sget k d = Some x -> sget k e = Some y -> y = x) -> e = d.
Proof.
  intros ND M H. apply list_eq; [rewrite <- (map_length fst d), <- (map_length fst e); now f_equal|].
  intros i [k x] [k' y] X Y. assert (k' = k) as ->.
  { pose proof (map_nth_error fst _ _ X) as X'. pose proof (map_nth_error fst _ _ Y) as Y'. rewrite M in X'. cbn [fst] in *. congruence. }
  f_equal. apply (H k); apply In_sget; auto; try (rewrite <- M; auto); eapply nth_error_In; eauto.
Qed.
Lemma grown_plain : forall N P v w, vdepth v < N -> wfv v -> no_object v -> grown P v w -> w = v.
Proof.
  induction N as [|N IH]; intros P v w D W NO G; [lia|]. destruct v as [|b|z|q|s|l|d|h fs ints]; try (now apply grown_scalar in G).
  - apply grown_list in G as (m & -> & L & F). f_equal. apply list_eq; [exact L|]. intros i x y X Y. pose proof (nth_error_In _ _ X) as XI. eapply IH; [| | |eapply F; eauto].
    + rewrite vdepth_list in D. apply vldepth_In in XI. lia.
    + inversion W as [| | | | |? FW| |]; subst. rewrite Forall_forall in FW. auto.
    + eapply no_object_item; eauto.
  - apply grown_dict in G as (m & -> & L & F). inversion W as [| | | | | |? ND FW|]; subst. f_equal. apply dict_eq; auto. intros k x y X Y. eapply IH; [| | |eapply F; eauto].
    + rewrite vdepth_dict in D. apply vddepth_get in X. lia.
    + rewrite Forall_forall in FW. exact (FW _ (sget_In _ _ _ X)).
    + eapply no_object_key; eauto.
  - exfalso. apply no_object_here in NO. now apply NO.
Qed.
Lemma grown_kept P v w : wfv v -> no_object v -> grown P v w -> w = v.
Proof. eapply grown_plain, Nat.lt_succ_diag_r. Qed.

Lemma grown_reach : forall v ts o P w, reach [] v ts o -> is_obj o -> grown P v w -> exists o', reach [] w ts o' /\ grown (fun us => P (ts ++ us)) o o'.
Proof.
  intros v ts o P w R. revert P w. induction R as [v|h fs ints n v ts o NI G R IH|l i v ts o G R IH|d k v ts o G R IH]; intros P w O GR.
  - exists w. split; [constructor|exact GR].
  - apply grown_obj in GR as (g & es & jnts & -> & A & B & C & DD & F & IN & OT & FI). destruct (same_keys _ _ _ _ C G) as (z & Z). destruct (F _ _ _ G Z) as [H|(HC & HR & H)].
    + destruct (IH _ z O H) as (o' & X & Y). exists o'. split; [|exact Y]. apply reach_field with (v := z); auto.
    + exfalso. destruct H as [->|[->|[_ H]]].
      * inversion R; subst; contradiction.
      * inversion R as [|? ? ? ? ? ? ? ? ? ?|? i x ? ? X ?|]; subst; [contradiction|]. destruct i; discriminate X.
      * apply no_object_reach in R; [|exact H]. exact (H _ _ R O).
  - apply grown_list in GR as (m & -> & L & F). destruct (same_length _ _ _ _ L G) as (z & Z). destruct (IH _ z O (F _ _ _ G Z)) as (o' & X & Y). exists o'. split; [econstructor; eauto|exact Y].
  - apply grown_dict in GR as (m & -> & L & F). destruct (same_keys _ _ _ _ L G) as (z & Z). destruct (IH _ z O (F _ _ _ G Z)) as (o' & X & Y). exists o'. split; [econstructor; eauto|exact Y].
Qed.
Lemma reach_fun v ts o : reach [] v ts o -> forall o', reach [] v ts o' -> o' = o.
Proof. intros R o' R'. apply resolve_reach in R. apply resolve_reach in R'. congruence. Qed.

(** ** Putting values in place *)
Definition put_in (t : str) (ts : list str) (x : val) (kv : str * val) : str * val := if str_eqb (fst kv) t then (fst kv, put_at ts x (snd kv)) else kv.
Definition put_nth (t : str) (ts : list str) (x : val) := fix go (i : nat) (l : list val) : list val := match l with [] => [] | y :: l => (if str_eqb (str_of_nat i) t then put_at ts x y else y) :: go (S i) l end.
Lemma put_obj t ts x h fs ints : put_at (t :: ts) x (VObj h fs ints) = VObj h (map (put_in t ts x) fs) ints. Proof. reflexivity. Qed.
Lemma put_dict t ts x d : put_at (t :: ts) x (VDict d) = VDict (map (put_in t ts x) d). Proof. reflexivity. Qed.
Lemma put_list t ts x l : put_at (t :: ts) x (VList l) = VList (put_nth t ts x 0 l). Proof. reflexivity. Qed.
Lemma put_in_keys t ts x d : map fst (map (put_in t ts x) d) = map fst d.
Proof. rewrite map_map. apply map_ext. intros [k y]. unfold put_in. cbn [fst snd]. destruct (str_eqb k t); reflexivity. Qed.
Lemma put_in_get t ts x d k : sget k (map (put_in t ts x) d) = option_map (fun y => if str_eqb k t then put_at ts x y else y) (sget k d).
Proof.
  induction d as [|[m y] d IH]; [reflexivity|]. cbn [map]. unfold put_in at 1. cbn [fst snd]. destruct (str_eqb m t) eqn:E; rewrite !sget_cons, IH; destruct (str_eqb k m) eqn:F; auto;
    apply str_eqb_eq in F as ->; rewrite E; reflexivity.
Qed.
Lemma put_nth_get t ts x l : forall i k, nth_error (put_nth t ts x i l) k = option_map (fun y => if str_eqb (str_of_nat (i + k)) t then put_at ts x y else y) (nth_error l k).
Proof.
  induction l as [|y l IH]; intros i k; [now destruct k|]. cbn [put_nth]. destruct k as [|k]; cbn [nth_error option_map]; [now rewrite Nat.add_0_r|].
  rewrite IH. now replace (S i + k) with (i + S k) by lia.
Qed.
Lemma put_nth_length t ts x l : forall i, length (put_nth t ts x i l) = length l.
Proof. induction l as [|y l IH]; intro i; [reflexivity|]. cbn [put_nth length]. now rewrite IH. Qed.

Lemma put_reach v ts o x : reach [] v ts o -> reach [] (put_at ts x v) ts x.
Proof.
  induction 1 as [v|h fs ints n v ts o NI G R IH|l i v ts o G R IH|d k v ts o G R IH].
  - constructor.
  - rewrite put_obj. apply reach_field with (v := put_at ts x v); auto. rewrite put_in_get, G. cbn [option_map]. now rewrite str_eqb_refl.
  - rewrite put_list. apply reach_item with (v := put_at ts x v); auto. rewrite put_nth_get, G. cbn [option_map Nat.add]. now rewrite str_eqb_refl.
  - rewrite put_dict. apply reach_key with (v := put_at ts x v); auto. rewrite put_in_get, G. cbn [option_map]. now rewrite str_eqb_refl.
Qed.
Lemma put_back v ts o : reach [] v ts o -> wfv v -> put_at ts o v = v.
Proof.
  induction 1 as [v|h fs ints n v ts o NI G R IH|l i v ts o G R IH|d k v ts o G R IH]; intro W; [reflexivity|..].
  - rewrite put_obj. f_equal. inversion W as [| | | | | | |? ? ? K FW]; subst. apply dict_eq; [rewrite K; apply fields_nodup|now rewrite put_in_keys|].
    intros k x y X Y. rewrite put_in_get, X in Y. cbn [option_map] in Y. injection Y as <-. destruct (str_eqb k n) eqn:E; [|reflexivity]. apply str_eqb_eq in E as ->. rewrite G in X. injection X as <-. apply IH.
    rewrite Forall_forall in FW. exact (FW _ (sget_In _ _ _ G)).
  - rewrite put_list. f_equal. inversion W as [| | | | |? FW| |]; subst. apply list_eq; [now rewrite put_nth_length|].
    intros k x y X Y. rewrite put_nth_get, X in Y. cbn [option_map Nat.add] in Y. injection Y as <-. destruct (str_eqb _ _) eqn:E; [|reflexivity]. apply str_eqb_eq in E. apply str_of_nat_inj in E as ->. rewrite G in X. injection X as <-. apply IH.
    rewrite Forall_forall in FW. exact (FW _ (nth_error_In _ _ G)).
  - rewrite put_dict. f_equal. inversion W as [| | | | | |? ND FW|]; subst. apply dict_eq; [exact ND|now rewrite put_in_keys|].
    intros j x y X Y. rewrite put_in_get, X in Y. cbn [option_map] in Y. injection Y as <-. destruct (str_eqb j k) eqn:E; [|reflexivity]. apply str_eqb_eq in E as ->. rewrite G in X. injection X as <-. apply IH.
    rewrite Forall_forall in FW. exact (FW _ (sget_In _ _ _ G)).
Qed.
(** No object that merging leaves alone is above the place. *)
Definition clear_above (v : val) (ts : list str) : Prop :=
  forall us vs h fs ints, ts = us ++ vs -> vs <> [] -> reach [] v us (VObj h fs ints) -> ~ inner (h_cls h).
Lemma put_grown v ts o x (Q : list str -> Prop) : reach [] v ts o -> grown Q o x -> clear_above v ts ->
  grown (fun us => exists vs, us = ts ++ vs /\ Q vs) v (put_at ts x v).
Proof.
  induction 1 as [v|h fs ints n v ts o NI G R IH|l i v ts o G R IH|d k v ts o G R IH]; intros GR CA.
  - cbn [put_at]. eapply grown_mono; [|exact GR]. intros us U. exists us. auto.
  - rewrite put_obj. apply gr_obj; auto.
    + now rewrite put_in_keys.
    + intros k x' y X Y. left. rewrite put_in_get, X in Y. cbn [option_map] in Y. injection Y as <-. destruct (str_eqb k n) eqn:E; [|apply grown_same]. apply str_eqb_eq in E as ->. rewrite G in X. injection X as <-.
      eapply grown_mono; [|apply IH; auto].
      * intros us (vs & -> & U). exists vs. auto.
      * intros us vs h' fs' ints' -> NV RV. apply (CA (n :: us) vs h' fs' ints'); auto. apply reach_field with (v := v); auto.
    + intro IN. exfalso. apply (CA [] (n :: ts) h fs ints); auto; [discriminate|constructor].
  - rewrite put_list. apply gr_list; [now rewrite put_nth_length|]. intros k x' y X Y. rewrite put_nth_get, X in Y. cbn [option_map Nat.add] in Y. injection Y as <-.
    destruct (str_eqb (str_of_nat k) _) eqn:E; [|apply grown_same]. apply str_eqb_eq in E. apply str_of_nat_inj in E as ->. rewrite G in X. injection X as <-.
    eapply grown_mono; [|apply IH; auto].
    * intros us (vs & -> & U). exists vs. auto.
    * intros us vs h' fs' ints' -> NV RV. apply (CA (str_of_nat i :: us) vs h' fs' ints'); auto. apply reach_item with (v := v); auto.
  - rewrite put_dict. apply gr_dict; [now rewrite put_in_keys|]. intros j x' y X Y. rewrite put_in_get, X in Y. cbn [option_map] in Y. injection Y as <-.
    destruct (str_eqb j k) eqn:E; [|apply grown_same]. apply str_eqb_eq in E as ->. rewrite G in X. injection X as <-.
    eapply grown_mono; [|apply IH; auto].
    * intros us (vs & -> & U). exists vs. auto.
    * intros us vs h' fs' ints' -> NV RV. apply (CA (k :: us) vs h' fs' ints'); auto. apply reach_key with (v := v); auto.
Qed.
