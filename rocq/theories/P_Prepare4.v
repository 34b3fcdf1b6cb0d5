(** Lemmas for prepared applications: what comes out. *)
From Coq Require Import Lia.
From Verif Require Import PyBase PyFacts PyInt PyJson M_JsonPtr S_JsonPtr M_Url P_Op M_SpecVal M_Parse M_SpecTree M_Merge M_MergeRef S_Parse S_SpecTree S_Merge S_MergeRef P_SpecBase P_Parse P_SpecTree P_Compare P_Merge P_MergeShape P_MergeRef M_Scope M_Patch S_Patch P_Patch M_App S_App P_App P_Deep M_Validate M_OldValidate M_OldParse M_Upgrade M_Prepare P_Grown P_Grown2 S_Prepare P_Prepare T_SpecTree T_MergeRef T_App.
Close Scope Q_scope.

(** ** Fields that references lead to *)
Lemma alike_field x y n : alike_fields x y -> field_of y n = field_of x n.
Proof. intros (h & g & fs & ints & jnts & -> & -> & _). reflexivity. Qed.
Lemma alike_in l m o : Forall2 alike_fields l m -> In o l -> exists o', In o' m /\ forall n, field_of o' n = field_of o n.
Proof. induction 1 as [|x y l m XY F IH]; intros []; [subst; exists y; split; [now left|intro n; now apply alike_field]|]. destruct (IH H) as (o' & A & B). exists o'. split; [now right|exact B]. Qed.
Lemma alike_in' l m o : Forall2 alike_fields l m -> In o m -> exists o', In o' l /\ forall n, field_of o' n = field_of o n.
Proof. induction 1 as [|x y l m XY F IH]; intros []; [subst; exists x; split; [now left|intro n; symmetry; now apply alike_field]|]. destruct (IH H) as (o' & A & B). exists o'. split; [now right|exact B]. Qed.
Lemma alike_split l m m1 o m2 : Forall2 alike_fields l m -> m = m1 ++ o :: m2 -> exists l1 o' l2, l = l1 ++ o' :: l2 /\ Forall2 alike_fields l1 m1 /\ alike_fields o' o /\ Forall2 alike_fields l2 m2.
Proof.
  intros F ->. apply Forall2_app_inv_r in F as (l1 & l2 & F1 & F2 & ->). inversion F2 as [|o' ? l2' ? O F3]; subst. exists l1, o', l2'. auto.
Qed.
Lemma alike_first l m n df x : Forall2 alike_fields l m -> first_set n df m x -> first_set n df l x.
Proof.
  intros F (m1 & o & m2 & E & A & B & C). destruct (alike_split _ _ _ _ _ F E) as (l1 & o' & l2 & -> & F1 & O & _). exists l1, o', l2. split; [reflexivity|]. rewrite <- (alike_field _ _ n O). split; [exact A|]. split; [exact B|].
  intros p P. destruct (alike_in _ _ _ F1 P) as (p' & P' & S). rewrite <- S. auto.
Qed.
Lemma alike_never l m n df : Forall2 alike_fields l m -> never_set n df m -> never_set n df l.
Proof. intros F H o O. destruct (alike_in _ _ _ F O) as (o' & O' & S). rewrite <- S. auto. Qed.
Lemma alike_key l m n k y : Forall2 alike_fields l m -> first_key n k m y -> first_key n k l y.
Proof.
  intros F [(m1 & o & m2 & d & x & E & A & B & C & D)|(-> & D)].
  - left. destruct (alike_split _ _ _ _ _ F E) as (l1 & o' & l2 & -> & F1 & O & _). exists l1, o', l2, d, x. split; [reflexivity|]. rewrite <- (alike_field _ _ n O). split; [exact A|]. split; [exact B|]. split; [exact C|].
    intros p d' P G. destruct (alike_in _ _ _ F1 P) as (p' & P' & S). apply (D p' d' P'). now rewrite S.
  - right. split; [reflexivity|]. intros p d' P G. destruct (alike_in _ _ _ F P) as (p' & P' & S). apply (D p' d' P'). now rewrite S.
Qed.
Lemma no_field_internal c n df : sget n (t_fields c) = Some df -> sget n (t_internal c) = None.
Proof.
  intro T. destruct (sget n (t_internal c)) as [x|] eqn:X; [|reflexivity]. exfalso. apply sget_In in T, X.
  assert (C : forallb (fun k => negb (mem k (map fst (t_internal c)))) (map fst (t_fields c)) = true) by (destruct c as [| | | | | | | | | | | | | | |[]]; vm_compute; reflexivity).
  rewrite forallb_forall in C. specialize (C n (in_map fst _ _ T)). cbn [fst] in C. apply negb_true_iff in C. apply (in_map fst) in X. cbn [fst] in X. apply mem_In in X. congruence.
Qed.
Lemma merge_says c r o r' n df : shaped (Of c) r -> shaped (Of c) o -> no_dicts r -> sget n (t_fields c) = Some df -> merge r o [] = Ok r' ->
  exists sv ov rv, field_of r n = Some sv /\ field_of o n = Some ov /\ field_of r' n = Some rv /\ (says r' n <-> says r n \/ updated [] c n df sv ov) /\
    (equals_default ov df -> equals_default sv df -> equals_default rv df).
Proof.
  intros SR SO ND T E. pose proof (shaped_obj _ _ SR) as (h & fs & ints & -> & <-). pose proof (shaped_obj _ _ SO) as (k & es & jnts & -> & C).
  apply merge_obj_merged in E as (_ & fs' & ints' & ks & -> & KF & KI & MF & MI & U).
  - destruct (MF n df T) as (sv & ov & rv & A & B & R & M). exists sv, ov, rv. cbn [field_of says h_keys]. split; [exact A|]. split; [exact B|]. split; [exact R|]. split.
    + rewrite in_app_iff. apply or_iff_compat_l. rewrite U. split.
      * intros (df' & sv' & ov' & [(T' & A' & B')|(T' & _)] & UP); [|rewrite (no_field_internal _ _ _ T) in T'; discriminate]. assert (df' = df) as -> by congruence. assert (sv' = sv) as -> by congruence. assert (ov' = ov) as -> by congruence. exact UP.
      * intro UP. exists df, sv, ov. split; [left|]; auto.
    + intros DO DS. pose proof (fields_default _ _ _ T) as SDF. assert (RP : reparent sv rv) by (inversion M; subst; try contradiction; auto). now apply (reparent_default sv rv df SDF RP).
  - apply clones_well_all.
  - pose proof (shaped_wfv _ _ _ (Nat.lt_succ_diag_r _) SR) as W. inversion W as [| | | | | | |? ? ? _ F]; subst. intros n' d G. apply sget_In in G. rewrite Forall_forall in F. apply F in G. cbn in G. now inversion G.
  - intros n' d G. elim (ND n' d G).
Qed.
Lemma merge_all_says c n df : sget n (t_fields c) = Some df -> forall m r f, shaped (Of c) r -> no_containers r -> Forall (proper c) m -> merge_all r m = Ok f ->
  (forall sv, field_of r n = Some sv -> ~ equals_default sv df -> says r n) ->
  (says f n <-> says r n \/ exists o v, In o m /\ field_of o n = Some v /\ ~ equals_default v df).
Proof.
  intro T. induction m as [|x m IH]; intros r f SR NR PR M IV; cbn [merge_all] in M.
  - injection M as <-. split; [auto|]. intros [H|(o & v & [] & _)]. exact H.
  - apply bind_ok in M as (g & G & M). inversion PR as [|? ? [SX NX] PR']; subst.
    destruct (merge_field _ _ _ _ SR SX (containers_dicts _ NR) G) as (_ & SG & _). destruct (merge_says _ _ _ _ _ _ SR SX (containers_dicts _ NR) T G) as (sv & ov & rv & A & B & R & U & D).
    pose proof (no_containers_merge _ _ _ _ SR SX NR NX G) as NG.
    assert (IV' : forall sv, field_of g n = Some sv -> ~ equals_default sv df -> says g n).
    { intros y Y ND. assert (y = rv) as -> by congruence. apply U. destruct (default_dec c n df T sv) as [DS|DS]; [|left; eauto]. destruct (default_dec c n df T ov) as [DO|DO]; [elim ND; auto|].
      right. split; [intros []|]. split; [exact DO|now left]. }
    rewrite (IH g f SG NG PR' M IV'). rewrite U. split.
    + intros [[H|(_ & H & _)]|(o & v & I & F)]; [now left|right; exists x, ov; split; [now left|auto]|right; exists o, v; split; [now right|exact F]].
    + intros [H|(o & v & [<-|I] & F & N)]; [left; now left| |right; eauto]. left. assert (v = ov) as -> by congruence.
      destruct (default_dec c n df T sv) as [DS|DS]; [right; split; [intros []|]; split; [exact N|now left]|left; eauto].
Qed.
Lemma made_combined c l f : made_of c l f -> combined c l f.
Proof.
  intros (m & pl & f0 & F & F0 & M & PR). destruct (fresh_proper _ _ _ F0) as ((SF & NF) & PF & FF).
  assert (EV : forall n df (Q : val -> Prop), sget n (t_fields c) = Some df -> (forall o v, In o l -> field_of o n = Some v -> Q v) -> every c n Q m).
  { intros n df Q T H o I. rewrite Forall_forall in PR. destruct (PR o I) as [S N]. split; [exact S|]. split; [now apply containers_dicts|].
    destruct (alike_in' _ _ _ F I) as (o' & I' & SO). pose proof (shaped_obj _ _ S) as (h & fs & ints & -> & C). inversion S as [| |? ? ? K _ _ _]; subst.
    assert (X : exists x, sget n fs = Some x) by (apply (sget_fields_all (t_fields (h_cls h))); eauto). destruct X as (x & X). exists x. split; [exact X|]. apply (H o'); [exact I'|]. rewrite SO. exact X. }
  constructor.
  - clear EV F FF PF F0. revert f0 SF NF M. induction m as [|x m IH]; intros f0 SF NF M; cbn [merge_all] in M; [injection M as <-; exact SF|]. apply bind_ok in M as (g & G & M). inversion PR as [|? ? [SX NX] PR']; subst.
      destruct (merge_field _ _ _ _ SF SX (containers_dicts _ NF) G) as (_ & SG & _). apply (IH PR' g SG); [|exact M]. exact (no_containers_merge _ _ _ _ SF SX NF NX G).
  - intros n df T. rewrite (merge_all_says c n df T m f0 f SF NF PR M).
    + split; [intros [H|(o & v & O & V & D)]|intros (o & v & O & V & D); right].
      * rewrite fresh_eq in F0. injection F0 as <-. destruct H.
      * destruct (alike_in' _ _ _ F O) as (o' & O' & S). exists o', v. rewrite S. auto.
      * destruct (alike_in _ _ _ F O) as (o' & O' & S). exists o', v. rewrite S. auto.
    + intros sv SV D. rewrite (FF _ _ T) in SV. injection SV as <-. elim D. now constructor.
  - intros n df T TC H. destruct (scalars c n df T pl f0 m f TC SF (containers_dicts _ NF) PF (FF _ _ T) (EV _ _ _ T H) M) as (rv & A & B). exists rv. split; [exact A|].
    destruct B as [B|[B ->]]; [left; eapply alike_first; eauto|right; split; [eapply alike_never; eauto|reflexivity]].
  - intros n df ct cc T TC. destruct (children_first c n df T ct cc pl f0 m f TC SF (containers_dicts _ NF) PF (FF _ _ T) (EV _ _ (fun _ => True) T (fun _ _ _ _ => I)) M) as (rv & A & B). exists rv. split; [exact A|].
    destruct B as [(x & w & B & X & Y)|[B ->]]; [left; exists x, w, (pl ++ [n]); split; [eapply alike_first; eauto|auto]|right; split; [eapply alike_never; eauto|reflexivity]].
  - intros n df T TC EM H. destruct (dicts c n df T pl f0 m f TC EM SF (containers_dicts _ NF) PF (FF _ _ T) (EV _ _ _ T H) M) as (rv & A & B & C). exists rv. split; [exact A|]. split; [exact B|]. intro k. eapply alike_key; eauto.
  - intros n df T TC EM H. destruct (lists c n df T pl f0 m f TC EM SF (containers_dicts _ NF) PF (FF _ _ T) (EV _ _ _ T H) M) as (rv & A & B & C & D). exists rv. split; [exact A|]. split; [exact B|]. split.
    + intros x X. destruct (C x X) as (o & v & O & V & E). destruct (alike_in' _ _ _ F O) as (o' & O' & S). exists o', v. rewrite S. auto.
    + intros o v x O V E. destruct (alike_in _ _ _ F O) as (o' & O' & S). apply (D o' v x O'); [now rewrite S|exact E].
Qed.

(** ** Documents in which references have been followed *)
Lemma grown_field P h fs ints w n : shaped (Of (h_cls h)) (VObj h fs ints) -> h_cls h <> CPathItem -> grown P (VObj h fs ints) w -> sget n (t_child (h_cls h)) = None ->
  field_of w n = sget n fs.
Proof.
  intros S NC G T. apply grown_obj in G as (g & es & jnts & -> & _ & _ & K & _ & F & _). cbn [field_of]. destruct (sget n fs) as [x|] eqn:X.
  - destruct (same_keys _ _ _ _ K X) as (y & Y). rewrite Y. f_equal. destruct (F _ _ _ X Y) as [H|(H & _)]; [|contradiction].
    destruct (shaped_field _ _ _ _ _ S X) as [(_ & W & NO)|(ct & cc & T' & _)]; [|congruence]. eapply grown_kept; eauto.
  - destruct (sget n es) as [y|] eqn:Y; [|reflexivity]. destruct (same_keys _ _ _ _ (eq_sym K) Y) as (z & Z). congruence.
Qed.
