(** Lemmas for prepared applications: completed documents. *)
From Coq Require Import Lia.
From Verif Require Import PyBase PyFacts PyInt PyJson M_JsonPtr S_JsonPtr M_Url P_Op M_SpecVal M_Parse M_SpecTree M_Merge M_MergeRef S_Parse S_SpecTree S_Merge S_MergeRef P_SpecBase P_Parse P_SpecTree P_Compare P_Merge P_MergeShape P_MergeRef M_Scope M_Patch S_Patch P_Patch P_Deep M_App S_App P_App M_Validate M_OldValidate M_OldParse M_Upgrade M_Prepare P_Grown.
Close Scope Q_scope.

Lemma chosen_sub l ps more : chosen l ps more -> forall x, In x more -> In x ps.
Proof. induction 1 as [l|l p ps more q I S C IH|l p ps more N C IH]; intros x X; [destruct X|right; auto|]. destruct X as [<-|X]; [now left|right; auto]. Qed.
Lemma operation_child c n ct : sget n (t_child c) = Some (ct, Of COperation) -> c = CPathItem /\ ct = One.
Proof.
  intro G. apply sget_In in G. destruct c; cbn [t_child In] in G; try contradiction.
  all: repeat (destruct G as [G|G]; [try discriminate G|]); try contradiction; injection G as _ <-; auto.
Qed.

Section Patch.
  Context (a : papp).
  Hypothesis SR : shaped (Of CSwagger) (p_root a).
  Lemma root_plain n x : attr_of (p_root a) n = Some x -> smem n (t_fields CSwagger) = true -> sget n (t_child CSwagger) = None -> wfv x /\ no_object x.
  Proof.
    intros A M C. remember (Of CSwagger) as c eqn:CC. destruct SR as [| |h fs ints K1 K2 P Q]; try discriminate CC. injection CC as CC. unfold attr_of in A. cbn [field_of] in A.
    destruct (sget n fs) as [y|] eqn:G; [|rewrite <- CC in M; rewrite <- (smem_keys n fs _ K1), smem_sget, G in M; discriminate M]. injection A as <-. apply (P _ _ G). now rewrite CC.
  Qed.
  Lemma op_field_shaped par n own x : (forall p, par = Some p -> shaped (Of CPathItem) p) -> op_field a par n own x -> sget n (t_child COperation) = None -> wfv own /\ no_object own -> wfv x /\ no_object x.
  Proof.
    intros SP OF C W. unfold op_field in OF.
    destruct (str_eqb_spec n (lit "produces")) as [->|_]. { destruct (is_swagger (p_root a)); [|now subst]. destruct OF as (d & D & [[_ ->]|[_ ->]]); [|exact W]. now apply (root_plain _ _ D). }
    destruct (str_eqb_spec n (lit "consumes")) as [->|_]. { destruct (is_swagger (p_root a)); [|now subst]. destruct OF as (d & D & [[_ ->]|[_ ->]]); [|exact W]. now apply (root_plain _ _ D). }
    destruct (str_eqb_spec n (lit "parameters")) as [->|_]; [discriminate C|].
    destruct (str_eqb_spec n (lit "security")) as [->|_]; [|now subst]. destruct (is_swagger (p_root a)); [|now subst]. destruct OF as [(_ & D)|(_ & ->)]; [|exact W]. now apply (root_plain _ _ D).
  Qed.
  Lemma op_child_shaped par n own x ct cc : (forall p, par = Some p -> shaped (Of CPathItem) p) -> op_field a par n own x -> sget n (t_child COperation) = Some (ct, cc) -> shaped_in ct cc own -> shaped_in ct cc x.
  Proof.
    intros SP OF C W. unfold op_field in OF.
    destruct (str_eqb_spec n (lit "produces")) as [->|_]; [discriminate C|]. destruct (str_eqb_spec n (lit "consumes")) as [->|_]; [discriminate C|].
    destruct (str_eqb_spec n (lit "parameters")) as [->|_]; [|destruct (str_eqb_spec n (lit "security")) as [->|_]; [discriminate C|now subst]].
    destruct par as [p|]; [|now subst]. destruct OF as (more & M & WS). specialize (SP p eq_refl). injection C as <- <-.
    assert (SM : shaped_in ListOf (Of CParameter) more).
    { remember (Of CPathItem) as c eqn:CC. destruct SP as [| |h fs ints K1 K2 P Q]; try discriminate CC. injection CC as CC. unfold attr_of in M. cbn [field_of] in M.
      destruct (sget (lit "parameters") fs) as [y|] eqn:G. { injection M as <-. apply (Q _ _ _ _ G). now rewrite CC. }
      assert (X : smem (lit "parameters") (t_fields (h_cls h)) = true) by (now rewrite CC). rewrite <- (smem_keys _ fs _ K1), smem_sget, G in X. discriminate X. }
    destruct WS as [_ -> | l ps mo -> _ -> CH ->]; [exact SM|]. inversion W as [| |? ? F1|]; subst. inversion SM as [| |? ? F2|]; subst.
    constructor. apply Forall_app. split; [exact F1|]. rewrite Forall_forall in *. intros y Y. apply F2. eapply chosen_sub; eauto.
  Qed.
  Lemma visit_shaped par path h fs ints v' : shaped (Of (h_cls h)) (VObj h fs ints) -> (h_cls h = COperation -> forall p, par = Some p -> shaped (Of CPathItem) p) ->
    patch_visit a par path (VObj h fs ints) = Ok v' -> shaped (Of (h_cls h)) v'.
  Proof.
    intros S SP E. pose proof (shaped_parts _ _ _ _ S) as (_ & K1 & K2 & P). pose proof (fun n x ct cc G T => shaped_child _ _ _ _ n x ct cc S G T) as Q.
    destruct (visit_ok _ _ _ _ _ _ _ K1 K2 E) as (g & fs' & ints' & base & url & -> & (C1 & _) & M1 & _ & F & M2 & _).
    rewrite <- C1. constructor; [congruence|congruence|..]; rewrite C1.
    - intros n v G T. assert (exists x, sget n fs = Some x) as (x & X) by (apply sget_Some_key; rewrite <- M1; apply sget_Some_key; eauto).
      destruct (F _ _ X) as (y & Y & V). rewrite G in Y. injection Y as <-. unfold visit_field in V. destruct (h_cls h) eqn:CH; try (subst v; now apply (P _ _ X)).
      + eapply op_field_shaped; eauto.
      + rewrite smem_sget, T in V. subst v. now apply (P _ _ X).
    - intros n v ct cc G T. assert (exists x, sget n fs = Some x) as (x & X) by (apply sget_Some_key; rewrite <- M1; apply sget_Some_key; eauto).
      destruct (F _ _ X) as (y & Y & V). rewrite G in Y. injection Y as <-. specialize (Q _ _ _ _ X T). unfold visit_field in V. destruct (h_cls h) eqn:CH; try (subst v; exact Q).
      + eapply op_child_shaped; eauto.
      + rewrite smem_sget, T in V. destruct x as [| | | | | | |k es jnts]; try (cbn in V; injection V as <-; exact Q). unfold patch_method in V. destruct (same_class COperation (VObj k es jnts)) eqn:SC; [|injection V as <-; exact Q].
        assert (CK : h_cls k = COperation) by (cbn in SC; destruct (h_cls k); try discriminate SC; reflexivity).
        inversion Q as [|? ? SQ| |]; subst. assert (SK : shaped (Of (h_cls k)) (VObj k es jnts)) by (apply tame_obj; exists One, cc; now constructor).
        pose proof (shaped_parts _ _ _ _ SK) as (_ & L1 & L2 & PK). rewrite CK in L1.
        assert (V' : patch_method base url (path_token path) n (VObj k es jnts) = Ok v) by (unfold patch_method; rewrite SC; exact V).
        destruct (patch_method_ok _ _ _ _ _ _ _ _ CK L1 V') as (g' & jn' & -> & (C2 & _) & M3 & _).
        assert (SV : shaped (Of (h_cls k)) (VObj g' es jn')).
        { rewrite <- C2. constructor; [congruence|congruence|..]; rewrite C2; [exact PK|]. intros m w ct' cc' G' T'. exact (shaped_child _ _ _ _ _ _ _ _ SK G' T'). }
        constructor. destruct cc as [cc|]; [pose proof (shaped_parts _ _ _ _ SQ) as (<- & _); exact SV|]. inversion SQ as [|? SS|]; subst. pose proof (shaped_parts _ _ _ _ SS) as (C3 & _). constructor. now rewrite <- C3.
  Qed.
  Lemma child_depth h fs ints n x N : vdepth (VObj h fs ints) < S N -> sget n fs = Some x -> vdepth x < N.
  Proof. intros D G. rewrite vdepth_obj in D. apply vddepth_get in G. lia. Qed.
  Lemma patch_in N : (forall cc v, vdepth v < N -> shaped cc v -> forall par path v', (cc = Of COperation -> forall p, par = Some p -> shaped (Of CPathItem) p) -> patch a par path v = Ok v' -> shaped cc v') ->
    forall ct cc v, vdepth v < N -> shaped_in ct cc v -> forall par path v', (cc = Of COperation -> forall p, par = Some p -> shaped (Of CPathItem) p) -> patch a par path v = Ok v' -> shaped_in ct cc v'.
  Proof.
    intros IH ct cc v D S par path v' SP E. inversion S as [|? ? S1|? l F|? d ND F]; subst.
    - cbn in E. injection E as <-. constructor.
    - constructor. eauto.
    - rewrite patch_list_eq in E. apply bind_ok in E as (m & M & E). injection E as <-. apply patch_list_ok in M as (L & M). constructor. apply Forall_forall. intros y Y.
      apply In_nth_error in Y as (i & Y). destruct (same_length _ _ _ _ (eq_sym L) Y) as (x & X). destruct (M _ _ X) as (y' & Y' & PX). rewrite Y in Y'. injection Y' as <-.
      rewrite Forall_forall in F. apply nth_error_In in X. eapply IH; [|exact (F _ X)|exact SP|exact PX]. rewrite vdepth_list in D. apply vldepth_In in X. lia.
    - rewrite patch_dict_eq in E. apply bind_ok in E as (e & M & E). injection E as <-. apply patch_dict_ok in M. pose proof (drel_keys _ _ _ M) as KM. constructor; [now rewrite <- KM|].
      apply Forall_forall. intros [k y] Y. cbn [snd]. apply In_sget in Y; [|now rewrite <- KM]. destruct (drel_get_r _ _ _ _ _ M Y) as (x & X & PX).
      rewrite Forall_forall in F. eapply IH; [|exact (F _ (sget_In _ _ _ X))|exact SP|exact PX]. rewrite vdepth_dict in D. apply vddepth_get in X. cbn [snd]. lia.
  Qed.
  Lemma patch_keeps_shape : forall N cc v, vdepth v < N -> shaped cc v -> forall par path v', (cc = Of COperation -> forall p, par = Some p -> shaped (Of CPathItem) p) ->
    patch a par path v = Ok v' -> shaped cc v'.
  Proof.
    induction N as [|N IH]; intros cc v D S1 par path v' SP E; [lia|].
    destruct v as [| | | | | | |h fs ints]; try (cbn in E; injection E as <-; exact S1); try (inversion S1 as [|? SS|]; subst; inversion SS; fail).
    rewrite patch_obj_eq in E. apply bind_ok in E as (fs1 & F1 & E). apply patch_dict_ok in F1.
    assert (SO : shaped (Of (h_cls h)) (VObj h fs ints)) by (apply tame_obj; exists One, cc; now constructor).
    assert (SO1 : shaped (Of (h_cls h)) (VObj h fs1 ints)).
    { pose proof (shaped_parts _ _ _ _ SO) as (_ & K1 & K2 & P). constructor; [rewrite <- K1; symmetry; eapply drel_keys; eauto|exact K2|..].
      - intros n y G T. destruct (drel_get_r _ _ _ _ _ F1 G) as (x & X & PX). destruct (P _ _ X T) as (W & NO). rewrite patch_plain in PX by assumption. injection PX as <-. auto.
      - intros n y ct cc' G T. destruct (drel_get_r _ _ _ _ _ F1 G) as (x & X & PX). eapply (patch_in N IH); [eapply child_depth; eauto|exact (shaped_child _ _ _ _ _ _ _ _ SO X T)| |exact PX].
        intros -> p EP. injection EP as <-. apply operation_child in T as (T & _). rewrite T in SO. exact SO. }
    assert (SP' : h_cls h = COperation -> forall p, par = Some p -> shaped (Of CPathItem) p).
    { intro C. apply SP. destruct cc as [cc|]; [pose proof (shaped_parts _ _ _ _ S1) as (X & _); congruence|]. inversion S1 as [|? SS|]; subst. pose proof (shaped_parts _ _ _ _ SS) as (X & _). congruence. }
    pose proof (visit_shaped _ _ _ _ _ _ SO1 SP' E) as SV. destruct cc as [cc|]; [pose proof (shaped_parts _ _ _ _ S1) as (<- & _); exact SV|].
    inversion S1 as [|? SS|]; subst. pose proof (shaped_parts _ _ _ _ SS) as (X & _). constructor. now rewrite <- X.
  Qed.
End Patch.
Lemma patch_app_shaped url old root root' : shaped (Of CSwagger) root -> patch_app url old root = Ok root' -> shaped (Of CSwagger) root'.
Proof.
  intros S E. unfold patch_app in E. apply bind_ok in E as (s & _ & E). eapply (patch_keeps_shape (PApp root url s old) S); [apply Nat.lt_succ_diag_r|exact S| |exact E]. discriminate.
Qed.
