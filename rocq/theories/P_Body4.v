(** Proofs about what becomes of values by schemas (C67): the heap of an application. *)
From Coq Require Import QArith Lia.
From Verif Require Import PyBase PyFacts PyInt PyJson M_JsonPtr S_JsonPtr M_Url P_Op M_SpecVal M_Parse M_SpecTree M_Merge M_MergeRef S_Parse S_SpecTree S_Merge S_MergeRef P_SpecBase P_Parse P_SpecTree P_Merge P_MergeShape P_MergeRef M_Scope M_Patch S_Patch P_Patch M_App S_App P_App P_Deep M_OldParse M_Upgrade M_Prepare P_Grown T_SpecTree T_App S_Cycles P_Cycles S_Compose P_Compare P_Convert P_Convert3.
From Verif Require M_Prim P_OldValidate P_Compose.
From Verif Require Import S_Declared M_Declared P_Declared P_Declared2 S_Body M_Body P_Body.
Close Scope Q_scope.
Open Scope nat_scope.

(** ** Values with other places *)
Lemma relocate_obj pl h fs ints : relocate pl (VObj h fs ints) = VObj (Head (h_cls h) pl (h_parent h) (h_keys h)) (relocate_dict pl fs) ints. Proof. reflexivity. Qed.
Lemma relocate_vlist pl l : relocate pl (VList l) = VList (relocate_list pl 0 l). Proof. reflexivity. Qed.
Lemma relocate_vdict pl d : relocate pl (VDict d) = VDict (relocate_dict pl d). Proof. reflexivity. Qed.
Lemma relocate_get pl d k : sget k (relocate_dict pl d) = option_map (relocate (pl ++ [k])) (sget k d).
Proof. induction d as [|[k' x] d IH]; [reflexivity|]. cbn [relocate_dict]. rewrite !sget_cons. destruct (str_eqb k k') eqn:E; [apply str_eqb_eq in E as ->; reflexivity|exact IH]. Qed.
Lemma relocate_keys pl d : map fst (relocate_dict pl d) = map fst d.
Proof. induction d as [|[k' x] d IH]; [reflexivity|]. cbn [relocate_dict map fst]. now rewrite IH. Qed.
Lemma relocate_reach v ts o : reach [] v ts o -> forall pl, reach [] (relocate pl v) ts (relocate (pl ++ ts) o).
Proof.
  induction 1 as [v|h fs ints n v ts o NI G R IH|l i v ts o N R IH|d k v ts o G R IH]; intro pl.
  - rewrite app_nil_r. constructor.
  - rewrite relocate_obj. econstructor; [exact NI|rewrite relocate_get, G; reflexivity|]. specialize (IH (pl ++ [n])). rewrite <- app_assoc in IH. exact IH.
  - rewrite relocate_vlist. econstructor; [exact (relocate_nth_inv pl l 0 i v N)|]. specialize (IH (pl ++ [str_of_nat i])). rewrite <- app_assoc in IH. exact IH.
  - rewrite relocate_vdict. econstructor; [rewrite relocate_get, G; reflexivity|]. specialize (IH (pl ++ [k])). rewrite <- app_assoc in IH. exact IH.
Qed.
Lemma reach_relocate w ts o : reach [] w ts o -> forall pl v, w = relocate pl v -> exists o', reach [] v ts o' /\ o = relocate (pl ++ ts) o'.
Proof.
  induction 1 as [w|h fs ints n w ts o NI G R IH|l i w ts o N R IH|d k w ts o G R IH]; intros pl v E.
  - exists v. rewrite app_nil_r. split; [constructor|exact E].
  - destruct v as [| | | | | | |h' fs' ints']; try discriminate E. rewrite relocate_obj in E. injection E as -> -> ->. rewrite relocate_get in G. destruct (sget n fs') as [x|] eqn:X; [|discriminate G]. injection G as <-. destruct (IH _ _ eq_refl) as (o' & R' & ->). exists o'. split; [econstructor; eauto|]. now rewrite <- app_assoc.
  - destruct v as [| | | | |l'| |]; try discriminate E. rewrite relocate_vlist in E. injection E as ->. apply relocate_nth in N as (x & X & ->). destruct (IH _ _ eq_refl) as (o' & R' & ->). exists o'. split; [econstructor; eauto|]. now rewrite <- app_assoc.
  - destruct v as [| | | | | |d'|]; try discriminate E. rewrite relocate_vdict in E. injection E as ->. rewrite relocate_get in G. destruct (sget k d') as [x|] eqn:X; [|discriminate G]. injection G as <-. destruct (IH _ _ eq_refl) as (o' & R' & ->). exists o'. split; [econstructor; eauto|]. now rewrite <- app_assoc.
Qed.
Lemma relocate_dict_In pl d k y : In (k, y) (relocate_dict pl d) -> exists x, In (k, x) d /\ y = relocate (pl ++ [k]) x.
Proof. induction d as [|[k' x] d IH]; cbn [relocate_dict]; [intros []|]. intros [E|I]; [injection E as <- <-; exists x; split; [now left|reflexivity]|]. destruct (IH I) as (z & Z & Q). exists z. split; [now right|exact Q]. Qed.
Lemma relocate_list_In pl l y : forall i, In y (relocate_list pl i l) -> exists x q, In x l /\ y = relocate q x.
Proof. induction l as [|x l IH]; cbn [relocate_list]; intro i; [intros []|]. intros [<-|I]; [exists x; eexists; split; [now left|reflexivity]|]. destruct (IH _ I) as (z & q & Z & Q). exists z, q. split; [now right|exact Q]. Qed.
Lemma relocate_wfv : forall N v pl, vdepth v < N -> wfv v -> wfv (relocate pl v).
Proof.
  induction N as [|N IH]; intros v pl D W; [lia|]. destruct v as [| | | | |l|d|h fs ints]; try exact W.
  - rewrite relocate_vlist. inversion W as [| | | | |? F| |]; subst. constructor. rewrite Forall_forall in F |- *. intros y I. apply relocate_list_In in I as (x & q & I & ->). apply IH; [|auto]. rewrite vdepth_list in D. apply vldepth_In in I. lia.
  - rewrite relocate_vdict. inversion W as [| | | | | |? ND F|]; subst. constructor; [now rewrite relocate_keys|]. rewrite Forall_forall in F |- *. intros [k y] I. apply relocate_dict_In in I as (x & I & ->). cbn [snd]. apply IH; [|exact (F _ I)]. rewrite vdepth_dict in D. apply vddepth_In in I. lia.
  - rewrite relocate_obj. inversion W as [| | | | | | |? ? ? K F]; subst. constructor; [now rewrite relocate_keys|]. rewrite Forall_forall in F |- *. intros [k y] I. apply relocate_dict_In in I as (x & I & ->). cbn [snd]. apply IH; [|exact (F _ I)]. rewrite vdepth_obj in D. apply vddepth_In in I. lia.
Qed.
Lemma relocate_value : forall N v pl, vdepth v < N -> value_of (relocate pl v) = value_of v.
Proof.
  induction N as [|N IH]; intros v pl D; [lia|]. destruct v as [| | | | |l|d|h fs ints]; try reflexivity.
  - rewrite relocate_vlist. cbn [value_of]. f_equal. rewrite vdepth_list in D. assert (X : forall x, In x l -> vdepth x < N) by (intros x I; apply vldepth_In in I; lia). clear D. generalize 0 as i. induction l as [|x l IHl]; intro i; [reflexivity|]. cbn [relocate_list map]. f_equal; [apply IH, X; now left|apply IHl; intros y I; apply X; now right].
  - rewrite relocate_vdict. cbn [value_of]. f_equal. rewrite vdepth_dict in D. assert (X : forall k x, In (k, x) d -> vdepth x < N) by (intros k x I; apply vddepth_In in I; lia). clear D. induction d as [|[k x] d IHd]; [reflexivity|]. cbn [relocate_dict map fst snd]. f_equal; [f_equal; apply IH; eapply X; now left|apply IHd; intros k' y I; eapply X; right; eauto].
Qed.
Lemma relocate_falsy v pl : falsy (relocate pl v) = falsy v.
Proof. destruct v as [| | | | |[|x l]|[|[k x] d]|]; reflexivity. Qed.

(** ** The schema itself *)
Lemma relocate_get_field pl n x : get n (relocate pl x) = match field_of x (lit n) with Some y => Ok (relocate (pl ++ [lit n]) y) | None => get n x end.
Proof. destruct x as [| | | | | | |h fs ints]; try reflexivity. rewrite relocate_obj. cbn [get field_of]. unfold attr. rewrite relocate_get. destruct (sget (lit n) fs); reflexivity. Qed.
Lemma view_relocate r i al p ad pl x : schema_order x -> schema_view r i al p ad (relocate pl x) = schema_view r i al p ad x.
Proof.
  intro O. destruct O as [NM TX NU SI FL EN DF RQ _ _ _ _ _]. rewrite Forall_forall in TX, NU, SI, FL. unfold schema_view.
  assert (IT : match relocate pl x with VObj _ _ ints => match sget (lit "name") ints with Some y => opt_text y | None => Err AttributeError end | _ => Err AttributeError end = match x with VObj _ _ ints => match sget (lit "name") ints with Some y => opt_text y | None => Err AttributeError end | _ => Err AttributeError end) by (destruct x; reflexivity).
  rewrite IT. clear IT NM.
  assert (T : forall n, In n ["type"; "format"; "discriminator"]%string -> get n (relocate pl x) = get n x).
  { intros n I. destruct (TX n I) as (y & F & [->|(s & ->)]); rewrite relocate_get_field, F, (get_field _ _ _ F); reflexivity. }
  assert (T2 : forall n, In n ["maximum"; "minimum"; "multipleOf"]%string -> get n (relocate pl x) = get n x).
  { intros n I. destruct (NU n I) as (y & F & [->|[(s & ->)|(s & ->)]]); rewrite relocate_get_field, F, (get_field _ _ _ F); reflexivity. }
  assert (T3 : forall n, In n ["maxLength"; "minLength"; "maxItems"; "minItems"]%string -> get n (relocate pl x) = get n x).
  { intros n I. destruct (SI n I) as (y & F & [->|(s & ->)]); rewrite relocate_get_field, F, (get_field _ _ _ F); reflexivity. }
  assert (T4 : forall n, In n ["exclusiveMaximum"; "exclusiveMinimum"; "uniqueItems"; "readOnly"]%string -> (do y <- get n (relocate pl x); Ok (negb (falsy y))) = (do y <- get n x; Ok (negb (falsy y)))).
  { intros n I. destruct (FL n I) as (y & F & _). rewrite relocate_get_field, F, (get_field _ _ _ F). cbn [bind]. now rewrite relocate_falsy. }
  rewrite (T "type"%string) by (cbn; auto 6). rewrite (T "format"%string) by (cbn; auto 6). rewrite (T "discriminator"%string) by (cbn; auto 6). rewrite (T2 "maximum"%string) by (cbn; auto 6). rewrite (T2 "minimum"%string) by (cbn; auto 6). rewrite (T2 "multipleOf"%string) by (cbn; auto 6). rewrite (T3 "maxLength"%string) by (cbn; auto 6). rewrite (T3 "minLength"%string) by (cbn; auto 6). rewrite (T3 "maxItems"%string) by (cbn; auto 6). rewrite (T3 "minItems"%string) by (cbn; auto 6). rewrite (T4 "exclusiveMaximum"%string) by (cbn; auto 6). rewrite (T4 "exclusiveMinimum"%string) by (cbn; auto 6). rewrite (T4 "uniqueItems"%string) by (cbn; auto 6). rewrite (T4 "readOnly"%string) by (cbn; auto 6).
  destruct EN as (e & EF & EN). destruct DF as (d & DF & _). destruct RQ as (q & RF & RQ).
  rewrite !relocate_get_field, EF, DF, RF, (get_field _ _ _ EF), (get_field _ _ _ DF), (get_field _ _ _ RF). cbn [bind].
  assert (E1 : opt_list (relocate (pl ++ [lit "enum"]) e) = opt_list e).
  { destruct EN as [->|(l & ->)]; [reflexivity|]. rewrite relocate_vlist. cbn [opt_list]. pose proof (relocate_value _ (VList l) (pl ++ [lit "enum"]) (Nat.lt_succ_diag_r _)) as V. rewrite relocate_vlist in V. cbn [value_of] in V. injection V as V. exact (f_equal Ok V). }
  assert (E2 : texts (relocate (pl ++ [lit "required"]) q) = texts q).
  { destruct RQ as [->|(l & ->)]; [reflexivity|]. rewrite relocate_vlist. assert (L : forall q k, relocate_list q k (map VStr l) = map VStr l); [|now rewrite L]. clear. intro q. induction l as [|s l IH]; intro k; [reflexivity|]. cbn [map relocate_list]. now rewrite IH. }
  rewrite E1, E2, (relocate_value _ d _ (Nat.lt_succ_diag_r _)). destruct x as [| | | | | | |h fs ints]; reflexivity.
Qed.
Lemma texts_ok l : texts (VList (map VStr l)) = Ok l.
Proof. cbn [texts]. induction l as [|s l IH]; [reflexivity|]. cbn [map map_res bind] in *. now rewrite IH. Qed.
(** What is read of a schema in order, besides other schemas *)
Lemma view_full ref items allof props addl x : schema_order x -> exists s, schema_view ref items allof props addl x = Ok s /\
  mirror_plain x s /\ M_Prim.s_full s = true /\ M_Prim.s_cf s = None /\ M_Prim.s_ref s = ref /\ M_Prim.s_items s = items /\ M_Prim.s_allof s = allof /\ M_Prim.s_props s = props /\ M_Prim.s_addp s = addl /\
  (forall k, In k (M_Prim.s_required s) <-> requires x k) /\ (forall k, M_Prim.s_disc s = Some k <-> text_at x "discriminator" k) /\ (M_Prim.s_readonly s = true <-> switched_on x "readOnly") /\
  (exists n, M_Prim.s_name s = Some n /\ forall y, named x y <-> y = match n with Some t => M_Prim.PStr t | None => M_Prim.PNone end) /\
  (M_Prim.s_default_set s = true <-> S_Prepare.says x (lit "default")).
Proof.
  intros [NM TF NF SF FF EN DF RQ _ _ _ _ _]. rewrite Forall_forall in TF, NF, SF, FF. unfold schema_view.
  assert (NE : exists o, match x with VObj _ _ ints => match sget (lit "name") ints with Some y => opt_text y | None => Err AttributeError end | _ => Err AttributeError end = Ok o /\ forall y, named x y <-> y = match o with Some t => M_Prim.PStr t | None => M_Prim.PNone end).
  { destruct NM as (v & IN & TN). destruct x as [| | | | | | |h fs ints]; try discriminate IN. cbn [internal_of] in IN. rewrite IN. destruct TN as [->|(t & ->)]; cbn [opt_text]; eexists; (split; [reflexivity|]); intro y; split.
    - intro Y. inversion Y as [E|t' E]; subst; cbn [internal_of] in E; rewrite IN in E; [reflexivity|discriminate E].
    - intros ->. apply nm_none. exact IN.
    - intro Y. inversion Y as [E|t' E]; subst; cbn [internal_of] in E; rewrite IN in E; [discriminate E|]. now injection E as ->.
    - intros ->. apply nm_text. exact IN. }
  destruct NE as (nm & -> & NE). cbn [bind].
  destruct (opt_text_ok x "type" (TF "type"%string ltac:(cbn; auto))) as (ty & -> & TY). cbn [bind].
  destruct (opt_text_ok x "format" (TF "format"%string ltac:(cbn; auto))) as (fm & -> & FM). cbn [bind].
  destruct DF as (d & DF & NO). rewrite (get_field _ _ _ DF). cbn [bind].
  destruct (opt_number_ok x "maximum" (NF "maximum"%string ltac:(cbn; auto))) as (mx & -> & MX). cbn [bind].
  destruct (flag_ok x "exclusiveMaximum" (FF "exclusiveMaximum"%string ltac:(cbn; auto))) as (xx & -> & XX). cbn [bind].
  destruct (opt_number_ok x "minimum" (NF "minimum"%string ltac:(cbn; auto))) as (mn & -> & MN). cbn [bind].
  destruct (flag_ok x "exclusiveMinimum" (FF "exclusiveMinimum"%string ltac:(cbn; auto))) as (xn & -> & XN). cbn [bind].
  destruct (opt_size_ok x "maxLength" (SF "maxLength"%string ltac:(cbn; auto))) as (mxl & -> & MXL). cbn [bind].
  destruct (opt_size_ok x "minLength" (SF "minLength"%string ltac:(cbn; auto))) as (mnl & -> & MNL). cbn [bind].
  destruct (opt_size_ok x "maxItems" (SF "maxItems"%string ltac:(cbn; auto))) as (mxi & -> & MXI). cbn [bind].
  destruct (opt_size_ok x "minItems" (SF "minItems"%string ltac:(cbn; auto))) as (mni & -> & MNI). cbn [bind].
  destruct (opt_number_ok x "multipleOf" (NF "multipleOf"%string ltac:(cbn; auto))) as (mu & -> & MU). cbn [bind].
  destruct EN as (e & EF & EN). rewrite (get_field _ _ _ EF). cbn [bind].
  assert (EL : exists l, opt_list e = Ok l /\ (e = VNone /\ l = [] \/ exists m, e = VList m /\ l = map value_of m)) by (destruct EN as [->|(l & ->)]; cbn; eexists; split; eauto).
  destruct EL as (el & -> & EL). cbn [bind].
  destruct (flag_ok x "uniqueItems" (FF "uniqueItems"%string ltac:(cbn; auto))) as (un & -> & UN). cbn [bind].
  destruct RQ as (q & RF & RQ). rewrite (get_field _ _ _ RF). cbn [bind].
  assert (RL : exists l, texts q = Ok l /\ forall k, In k l <-> requires x k).
  { destruct RQ as [->|(l & ->)]; [exists []; split; [reflexivity|]|exists l; split; [apply texts_ok|]]; intro k; unfold requires; rewrite RF; split.
    - intros [].
    - intros (l & E & _). discriminate E.
    - intro I. eexists. split; [reflexivity|]. now apply in_map.
    - intros (m & E & I). injection E as <-. apply in_map_iff in I as (s & E & I). injection E as <-. exact I. }
  destruct RL as (rl & -> & RL). cbn [bind].
  destruct (opt_text_ok x "discriminator" (TF "discriminator"%string ltac:(cbn; auto))) as (dc & -> & DC). cbn [bind].
  destruct (flag_ok x "readOnly" (FF "readOnly"%string ltac:(cbn; auto))) as (ro & -> & RO). cbn [bind].
  eexists. split; [reflexivity|]. split; [|cbn].
  - constructor; cbn; auto.
    + exists d. split; [exact DF|]. split; [reflexivity|]. destruct NO as (y & Y & _). eauto.
    + destruct EL as [(-> & ->)|(m & -> & ->)]; [left; auto|right; eauto].
  - do 7 (split; [reflexivity|]). split; [exact RL|]. split; [exact DC|]. split; [exact RO|]. split; [exists nm; split; [reflexivity|exact NE]|].
    destruct x as [| | | | | | |h fs ints]; try discriminate DF. unfold is_set. cbn [S_Prepare.says]. apply mem_In.
Qed.
