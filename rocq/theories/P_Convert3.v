(** Lemmas on converted documents: they have the shape of 2.0 documents. *)
From Coq Require Import Lia.
From Verif Require Import PyBase PyFacts PyInt PyJson M_JsonPtr S_JsonPtr M_Url P_Op M_SpecVal M_Parse M_SpecTree M_Merge M_MergeRef S_Parse S_SpecTree S_Merge S_MergeRef S_Typed S_Validate P_SpecBase P_Parse P_SpecTree P_Compare P_Merge P_MergeShape P_MergeRef P_Patch M_App S_App P_App P_Deep M_OldParse S_OldParse P_OldParse T_OldParse S_OldValidate P_OldValidate M_Upgrade S_Upgrade P_UpgradeObj P_Upgrade P_UpgradeDoc P_UpgradeFold P_UpgradeEnd P_Validate M_Prepare S_Convert P_Convert P_Convert2.
Close Scope Q_scope.

(** ** Parts of what has been assigned and normalised *)
Lemma relocate_nth_inv pl l : forall i j x, nth_error l j = Some x -> nth_error (relocate_list pl i l) j = Some (relocate (pl ++ [str_of_nat (i + j)]) x).
Proof.
  induction l as [|y l IH]; intros i j x E; [destruct j; discriminate E|]. destruct j as [|j]; cbn [nth_error relocate_list] in *.
  - injection E as ->. now rewrite Nat.add_0_r.
  - apply (IH (S i)) in E. rewrite <- Nat.add_succ_comm. exact E.
Qed.
Lemma Forall2_nth_l {A B} (P : A -> B -> Prop) l m i x : Forall2 P l m -> nth_error l i = Some x -> exists y, nth_error m i = Some y /\ P x y.
Proof. intro F. revert i. induction F as [|a b l m X F IH]; intros [|i] E; cbn in *; try discriminate E; [injection E as <-; eauto|auto]. Qed.
Lemma Forall2_key {P : str -> val -> val -> Prop} d e k x : Forall2 (fun kx ky => fst kx = fst ky /\ P (fst kx) (snd kx) (snd ky)) d e -> sget k d = Some x -> exists y, sget k e = Some y /\ P k x y.
Proof.
  induction 1 as [|[a b] [a' b'] d e (K & H) F IH]; intro G; [discriminate G|]. cbn [fst snd] in *. subst a'. rewrite sget_cons in G |- *. destruct (str_eqb k a) eqn:E; [|auto]. injection G as <-. apply str_eqb_eq in E as ->. eauto.
Qed.
Lemma assign_dict_get pl d e k x : assign_dict (relocate_dict pl d) = Ok e -> sget k d = Some x -> exists y, sget k e = Some y /\ assign_parents (relocate (pl ++ [k]) x) = Ok y.
Proof.
  intros A G. apply assign_dict_ok in A. destruct (Forall2_key (P := fun k x y => y = relocate (pl ++ [k]) x) _ _ _ _ (relocate_dict_ok pl d) G) as (y & Y & ->).
  exact (Forall2_key (P := fun _ x y => assign_parents x = Ok y) _ _ _ _ A Y).
Qed.
Lemma assign_within v ts o : reach [] v ts o -> forall pl w, assign_parents (relocate pl v) = Ok w -> exists w', assign_parents (relocate (pl ++ ts) o) = Ok w'.
Proof.
  induction 1 as [v|h fs ints n x ts o NI G R IH|l i x ts o G R IH|d k x ts o G R IH]; intros pl w E.
  - rewrite app_nil_r. eauto.
  - change (relocate pl (VObj h fs ints)) with (VObj (Head (h_cls h) pl (h_parent h) (h_keys h)) (relocate_dict pl fs) ints) in E. rewrite assign_obj in E. apply bind_ok in E as (gs & A & _).
    destruct (assign_dict_get _ _ _ _ _ A G) as (y & _ & Y). destruct (IH _ _ Y) as (w' & W). rewrite <- app_assoc in W. eauto.
  - change (relocate pl (VList l)) with (VList (relocate_list pl 0 l)) in E. change (assign_parents (VList (relocate_list pl 0 l))) with (do m <- assign_list (relocate_list pl 0 l); Ok (VList m)) in E.
    apply bind_ok in E as (m & A & _). apply assign_list_ok in A. apply (relocate_nth_inv pl l 0) in G. destruct (Forall2_nth_l _ _ _ _ _ A G) as (y & _ & Y). destruct (IH _ _ Y) as (w' & W). rewrite <- app_assoc in W. eauto.
  - change (relocate pl (VDict d)) with (VDict (relocate_dict pl d)) in E. change (assign_parents (VDict (relocate_dict pl d))) with (do m <- assign_dict (relocate_dict pl d); Ok (VDict m)) in E.
    apply bind_ok in E as (m & A & _). destruct (assign_dict_get _ _ _ _ _ A G) as (y & _ & Y). destruct (IH _ _ Y) as (w' & W). rewrite <- app_assoc in W. eauto.
Qed.
Lemma assign_is_obj pl v w : is_obj v -> assign_parents (relocate pl v) = Ok w -> is_obj w.
Proof.
  intros O E. destruct v as [| | | | | | |h fs ints]; try destruct O. change (relocate pl (VObj h fs ints)) with (VObj (Head (h_cls h) pl (h_parent h) (h_keys h)) (relocate_dict pl fs) ints) in E. rewrite assign_obj in E.
  apply bind_ok in E as (gs & _ & E). apply bind_ok in E as (es & _ & E). injection E as <-. exact Logic.I.
Qed.
Lemma assign_parameters pl h fs ints w x : assign_parents (relocate pl (VObj h fs ints)) = Ok w -> h_cls h = CPathItem -> sget (lit "parameters") fs = Some x -> ~ is_obj x.
Proof.
  intros E C G O. change (relocate pl (VObj h fs ints)) with (VObj (Head (h_cls h) pl (h_parent h) (h_keys h)) (relocate_dict pl fs) ints) in E. rewrite assign_obj in E. cbn [h_cls h_place] in E. rewrite C in E. cbn [assigns] in E.
  apply bind_ok in E as (gs & A & E). apply bind_ok in E as (es & B & _). destruct (assign_dict_get _ _ _ _ _ A G) as (y & Y & AY). pose proof (assign_is_obj _ _ _ O AY) as OY. apply assign_fields_ok in B.
  destruct (Forall2_key (P := fun n x y => match sget n (t_child CPathItem) with Some (ct, cc) => assign_field pl ct cc x = Ok y | None => Ok x = Ok y end) gs es (lit "parameters") y) as (z & _ & Z); [|exact Y|].
  - eapply Forall2_weaken; [|exact B]. intros [a b] [a' b'] (K & H). cbn [fst snd] in *. subst a'. split; [reflexivity|]. destruct (sget a (t_child CPathItem)) as [[ct cc]|]; exact H.
  - destruct y; try destruct OY. discriminate Z.
Qed.
Lemma norm_within url v ts o : reach [] v ts o -> forall w, norm_refs url v = Ok w -> exists w', norm_refs url o = Ok w'.
Proof.
  induction 1 as [v|h fs ints n x ts o NI G R IH|l i x ts o G R IH|d k x ts o G R IH]; intros w E; [eauto| | |].
  - rewrite norm_obj_eq in E. apply bind_ok in E as (gs & A & _). apply norm_dict_ok in A. destruct (drel_fst_l (fun x y => norm_refs url x = Ok y) _ _ A _ _ G) as (y & _ & Y). eauto.
  - rewrite norm_list_eq in E. apply bind_ok in E as (gs & A & _). apply norm_list_ok in A. destruct (Forall2_nth_l _ _ _ _ _ A G) as (y & _ & Y). eauto.
  - rewrite norm_dict_eq in E. apply bind_ok in E as (gs & A & _). apply norm_dict_ok in A. destruct (drel_fst_l (fun x y => norm_refs url x = Ok y) _ _ A _ _ G) as (y & _ & Y). eauto.
Qed.
Lemma norm_reference url h fs ints w x : norm_refs url (VObj h fs ints) = Ok w -> h_cls h = CPathItem -> sget (lit "$ref") fs = Some x -> ~ is_obj x.
Proof.
  intros E C G O. rewrite norm_obj_eq, C in E. cbn [refers_by] in E. apply bind_ok in E as (gs & A & E). apply norm_dict_ok in A. destruct (drel_fst_l (fun x y => norm_refs url x = Ok y) _ _ A _ _ G) as (y & Y & N). rewrite Y in E.
  destruct x; try destruct O. apply norm_obj_obj in N. destruct y; try destruct N. discriminate E.
Qed.
Lemma moved_obj p pl h fs ints w : moved p pl (VObj h fs ints) w -> exists g es, w = VObj g es ints /\ h_cls g = h_cls h.
Proof. intros M. inversion M as [? ? ? X| | |? ? ? ? es]; subst; [destruct X|]. do 2 eexists. split; reflexivity. Qed.

Section Shape.
  Context (prim : str -> bool) (float_of : str -> res Q) (sep : str) (raw : val) (LOADED : loaded12 raw).
  Context (rest : list (str * val)) (es : list event) (TR : traverse raw [] = Ok ((lit "#", raw) :: rest)) (EV : Forall2 (event_of raw) rest es).
  Lemma upgrade_parts sw : upgrade prim float_of sep raw = Ok sw -> exists info host tags paths defs secs, info_for raw info /\ tags_inv es tags /\ defs_inv prim float_of sep es defs /\ secs_inv es secs /\
    NoDup (map fst paths) /\ (forall k item, sget k paths = Some item -> exists k' ops, item_ok prim float_of sep es k' item ops) /\ made CSwagger (doc_kvs info host tags paths defs secs) sw.
  Proof.
    intros E. unfold upgrade in E. rewrite (converted_events prim float_of sep raw LOADED rest es TR EV) in E. destruct (on_list raw) as [u0|] eqn:OL; [|discriminate E]. cbn [bind] in E. destruct (fold_ev prim float_of sep raw es u0) as [u|] eqn:FE; [|discriminate E]. cbn [bind] in E.
    destruct (list_ok prim float_of sep raw u0 (info_shape raw LOADED) OL) as (info & o & IF & MO & ->). destruct (inv_fold prim float_of sep raw LOADED rest es TR EV o es [] _ _ eq_refl (inv_start prim float_of sep o) FE) as (SW & T & (ND & PA & _) & D & S').
    rewrite <- SW in MO. set (sw0 := put (lit "tags") (VList (u_tags u)) (put (lit "paths") (VDict (u_paths u)) (put (lit "definitions") (VDict (u_defs u)) (put (lit "securityDefinitions") (VDict (u_secs u)) (u_swagger u))))).
    assert (M0 : made CSwagger (base_kvs info ++ ["securityDefinitions" ~> VDict (u_secs u); "definitions" ~> VDict (u_defs u); "paths" ~> VDict (u_paths u); "tags" ~> VList (u_tags u)]) sw0).
    { apply (put_made _ _ _ (lit "securityDefinitions") (VDict (u_secs u))) in MO; [|fieldsok|vm_compute; tauto]. apply (put_made _ _ _ (lit "definitions") (VDict (u_defs u))) in MO; [|fieldsok|vm_compute; tauto]. apply (put_made _ _ _ (lit "paths") (VDict (u_paths u))) in MO; [|fieldsok|vm_compute; tauto]. apply (put_made _ _ _ (lit "tags") (VList (u_tags u))) in MO; [|fieldsok|vm_compute; tauto]. exact MO. }
    unfold finished in E. destruct (common_prefix (map fst (u_paths u))) as [|c0 cs]; [discriminate E|]. cbv zeta in E. fold sw0 in E.
    set (common := if Ascii.eqb (last (c0 :: cs) "x"%char) "/" then removelast (c0 :: cs) else c0 :: cs) in E. destruct common as [|d0 ds].
    - injection E as <-. exists info, [], (u_tags u), (u_paths u), (u_defs u), (u_secs u). split; [exact IF|]. split; [exact T|]. split; [exact D|]. split; [exact S'|]. split; [exact ND|]. split; [intros k item G; exists k; auto|].
      eapply made_ext; [| |exact M0].
      + intro n. cbn [doc_kvs base_kvs List.app rev]. rewrite !sget_cons.
        repeat match goal with |- context [str_eqb n (lit ?s)] => let E := fresh in destruct (str_eqb n (lit s)) eqn:E; [apply str_eqb_eq in E as ->; reflexivity|] end. reflexivity.
      + intro n. vm_compute. intuition.
    - apply bind_ok in E as (p & _ & E). apply bind_ok in E as (sw1 & E1 & E). set (cut := length _) in E. set (ren := supdate [] _) in E.
      destruct (set_ok CSwagger _ _ (lit "host") (VStr (u_netloc p)) M0 ltac:(fieldsok)) as (v & EV1 & MV). rewrite EV1 in E1. injection E1 as <-.
      destruct (set_ok CSwagger _ _ (lit "paths") (VDict ren) MV ltac:(fieldsok)) as (w & EW & MW). rewrite EW in E. injection E as <-.
      exists info, (u_netloc p), (u_tags u), ren, (u_defs u), (u_secs u). split; [exact IF|]. split; [exact T|]. split; [exact D|]. split; [exact S'|]. split; [apply supdate_keys_nodup; constructor|]. split; [|now apply doc_ext in MW].
      intros k item G. assert (X : forall l d, sget k (supdate d l) = Some item -> In (k, item) l \/ sget k d = Some item).
      { clear. induction l as [|[a b] l IH]; intros d H; [now right|]. cbn [supdate fold_left] in H. apply IH in H as [H|H]; [left; now right|]. cbn [fst snd] in H. rewrite sget_sset in H. destruct (str_eqb k a) eqn:E; [|now right]. injection H as ->. apply str_eqb_eq in E as ->. left. now left. }
      apply X in G as [G|G]; [|discriminate G]. apply in_map_iff in G as ((a & b) & E & I). injection E as _ <-. apply In_sget in I; [|exact ND]. exists a. now apply PA.
  Qed.
  Lemma old_part ts o : reach [] raw ts o -> old_ok o.
  Proof. intro R. destruct (raw_shape raw LOADED) as (W & V & _). split; [|exact (reach_old _ _ _ R W V)]. exact (reach_wf _ _ _ _ R W). Qed.
  Lemma slot_shape k m x : slot_ok prim float_of sep es k m x -> deep x /\ shaped (Of COperation) x.
  Proof.
    intros SL. destruct (slot_end prim float_of sep raw LOADED rest es TR EV k m x SL) as (_ & r & n & R & P & ps & (OI & _) & (v & qs & HF & Q & PF) & OF).
    pose proof (resource_class raw LOADED _ _ (proj1 OI)) as CR. pose proof (operation_class raw LOADED _ _ _ _ OI) as CO. pose proof (old_part _ _ (proj1 OI)) as OR. pose proof (old_part _ _ (op_reach raw _ _ _ _ OI)) as OO.
    eapply operation_for_ok; [exact CR|exact OR|exact CO|exact OO| |exact OF].
    assert (FQ : Forall (fun q => of_class OParameter q /\ old_ok q) (rev qs)).
    { apply Forall_forall. intros q I. apply in_rev, In_nth_error in I as (i & I). assert (HQ : reach [] P [lit "parameters"; str_of_nat i] q).
      { destruct CO as (h & fs & ints & -> & C). destruct (op_object raw LOADED _ _ _ _ OI) as (h' & fs' & ints' & E & _ & v' & qs' & G & Q'). injection E as <- <- <-. assert (HF' : has_field (VObj h fs ints) "parameters" v') by now left. rewrite (has_unique _ _ _ _ HF HF') in Q.
        assert (qs = qs') as -> by (destruct Q as [->|(-> & ->)]; destruct Q' as [Q'|(Q' & ->)]; congruence). now apply (param_nth h fs ints v' qs' i q G Q'). }
      split; [exact (parameter_class raw LOADED _ _ _ _ _ _ OI HQ)|]. apply (old_part _ _ (reach_app _ _ _ _ _ _ (op_reach raw _ _ _ _ OI) HQ)). }
    clear - PF FQ. induction PF as [|q p l m H F IH]; constructor; inversion FQ as [|? ? (C & O) ?]; subst; auto. eapply parameter_for_ok; eauto.
  Qed.
  Lemma item_shape k item ops : item_ok prim float_of sep es k item ops -> (forall n x, n = lit "$ref" \/ n = lit "parameters" -> in_field item n x -> ~ is_obj x) -> deep item /\ shaped (Of CPathItem) item.
  Proof.
    intros (ND & _ & (M & _) & SL & _) NP. apply (holding_fit _ _ _ M). apply Forall_forall. intros (m & x) G. apply In_sget in G; [|exact ND]. pose proof (SL _ _ G) as SO. destruct (slot_shape _ _ _ SO) as (D & S). destruct SO as (MM & _).
    assert (NX : m <> lit "$ref" /\ m <> lit "parameters").
    { assert (X : ~ (m = lit "$ref" \/ m = lit "parameters")); [|tauto]. intro X. apply (NP m x X); [|inversion S; exact Logic.I].
      destruct M as (h & fs & -> & C & K & F). cbn. apply smem_In, sget_Some_key in MM as (df & T). rewrite (F _ _ T), (rev_unique _ _ ND), G. reflexivity. }
    apply smem_In in MM. vm_compute in MM. destruct NX as (N1 & N2). repeat (destruct MM as [<-|MM]; [first [now elim N1 | now elim N2 | eapply fit_child; [reflexivity|exact D|now constructor]]|]). destruct MM.
  Qed.
  Lemma tags_shape tags : tags_inv es tags -> Forall (fun t => deep t /\ shaped (Of CTag) t) tags.
  Proof. intros (ns & _ & _ & F). induction F as [|n t ns ts (M & _) F IH]; constructor; auto. apply (holding_fit _ _ _ M). apply fits_one, fit_plain; [reflexivity|now apply plain_leaf]. Qed.
  Lemma defs_shape defs : defs_inv prim float_of sep es defs -> NoDup (map fst defs) /\ Forall (fun kv : str * val => deep (snd kv) /\ shaped (Of CSchema) (snd kv)) defs.
  Proof.
    intros (kvs & ps & ST & N & A & _ & _). split; [exact N|]. apply Forall_forall. intros (s & x) G. apply In_sget in G; [|exact N]. specialize (ST s). rewrite G in ST. destruct ST as (refs & RF & _ & H & _). apply (holding_fit _ _ _ H). apply fits_app.
    - destruct (kvs s) as [kv|] eqn:K; [|constructor]. destruct (A _ _ K) as (r & k & M & I & _ & MK). apply (es_model raw LOADED rest es TR EV) in I. eapply model_kvs_fit; [exact (model_class raw LOADED _ _ _ I)|exact (old_part _ _ I)|exact MK].
    - assert (F : Forall (fun t => deep t /\ shaped (Of CSchema) t) refs). { clear - RF. induction RF as [|p x l m (M & _) F IH]; constructor; auto. apply (holding_fit _ _ _ M). apply fits_one, fit_plain; [reflexivity|now apply plain_leaf]. }
      apply fits_one. eapply fit_child; [reflexivity| |].
      + apply dp_list. eapply Forall_impl; [|exact F]. now intros ? [].
      + apply sh_list. eapply Forall_impl; [|exact F]. now intros ? [].
  Qed.
  Lemma secs_shape secs : secs_inv es secs -> NoDup (map fst secs) /\ Forall (fun kv : str * val => deep (snd kv) /\ shaped (Of CSecurityScheme) (snd kv)) secs.
  Proof.
    intros (N & A & _). split; [exact N|]. apply Forall_forall. intros (s & x) G. apply In_sget in G; [|exact N]. destruct (A _ _ G) as (k & a & I & _ & SF). apply (es_auth raw LOADED rest es TR EV) in I. eapply scheme_for_ok; [exact (authorization_class raw LOADED _ _ I)|exact (old_part _ _ I)|exact SF].
  Qed.
  Lemma dict_fit n (cc : cls) (d : sdict val) : sget n (t_child CSwagger) = Some (DictOf, Of cc) -> NoDup (map fst d) -> Forall (fun kv : str * val => deep (snd kv) /\ shaped (Of cc) (snd kv)) d -> fit CSwagger n (VDict d).
  Proof.
    intros T N F. eapply fit_child; [exact T| |].
    - apply dp_dict. eapply Forall_impl; [|exact F]. now intros ? [].
    - apply sh_dict; [exact N|]. eapply Forall_impl; [|exact F]. now intros ? [].
  Qed.
  Lemma document_shape sw v u w : upgrade prim float_of sep raw = Ok sw -> assign_parents (relocate [] sw) = Ok v -> norm_refs u v = Ok w -> deep sw /\ shaped (Of CSwagger) sw.
  Proof.
    intros E A N. destruct (upgrade_parts sw E) as (info & host & tags & paths & defs & secs & IF & T & D & S & ND & P & M).
    destruct (info_for_ok raw info (raw_class raw LOADED) (old_part _ _ (reach_here _ _)) IF) as (DI & SI).
    assert (FP : Forall (fun kv : str * val => deep (snd kv) /\ shaped (Of CPathItem) (snd kv)) paths).
    { apply Forall_forall. intros (k & item) G. apply In_sget in G; [|exact ND]. destruct (P _ _ G) as (k' & ops & IO). apply (item_shape _ _ _ IO). intros n x NN F.
      assert (R : reach [] sw [lit "paths"; k] item). { destruct M as ((h & fs & -> & C & K & H) & _). econstructor; [intros []|rewrite (H (lit "paths") JNull eq_refl); reflexivity|]. econstructor; [exact G|constructor]. }
      destruct IO as (_ & _ & ((h & fs & -> & C & _) & _) & _). cbn in F. destruct NN as [-> | ->].
      - pose proof (moved_ok (Datatypes.S (vdepth sw)) sw [] v (Nat.lt_succ_diag_r _) A) as MV. destruct (moved_reach _ _ _ R _ _ _ MV) as (q & o' & RO & MO). destruct (norm_within u _ _ _ RO _ N) as (w' & NW).
        intro OX. assert (R2 : reach [] (VObj h fs (map (fun nd => (fst nd, VNone)) (t_internal CPathItem))) [lit "$ref"] x) by (econstructor; [intros []|exact F|constructor]). destruct (moved_reach _ _ _ R2 _ _ _ MO) as (q2 & x' & RX & MX).
        apply moved_obj in MO as (g & es' & -> & CG). rewrite C in CG. inversion RX as [|? ? ? ? ? ? ? _ GX RX'| |]; subst. inversion RX'; subst. apply (norm_reference u _ _ _ _ _ NW CG GX). destruct x; try destruct OX. apply moved_obj in MX as (? & ? & -> & _). exact Logic.I.
      - destruct (assign_within _ _ _ R _ _ A) as (w' & AW). exact (assign_parameters _ _ _ _ _ _ AW C F). }
    apply (holding_fit _ _ _ (proj1 M)). unfold doc_kvs.
    pose proof (tags_shape _ T) as FT. destruct (defs_shape _ D) as (N1 & F1). destruct (secs_shape _ S) as (N2 & F2).
    repeat (constructor; [first [apply (dict_fit _ CSchema); [reflexivity|assumption|assumption] | apply (dict_fit _ CPathItem); [reflexivity|assumption|assumption] | apply (dict_fit _ CSecurityScheme); [reflexivity|assumption|assumption]
      | apply (dict_fit _ CParameter); [reflexivity|constructor|constructor] | apply (dict_fit _ CResponse); [reflexivity|constructor|constructor] | apply fit_plain; [reflexivity|first [now apply plain_leaf|apply plain_list; repeat constructor; try (intros ts o I; inversion I; subst; intros [])]] | eapply fit_child; [reflexivity|exact DI|now constructor] | eapply fit_child; [reflexivity| |]; cbn [snd]; [apply dp_list; eapply Forall_impl; [|exact FT]; now intros ? []|apply sh_list; eapply Forall_impl; [|exact FT]; now intros ? []]]|]).
    constructor.
  Qed.
End Shape.
