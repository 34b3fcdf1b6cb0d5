(** Lemmas for prepared applications: the steps of preparing. *)
From Coq Require Import Lia.
From Verif Require Import PyBase PyFacts PyInt PyJson M_JsonPtr S_JsonPtr M_Url P_Op M_SpecVal M_Parse M_SpecTree M_Merge M_MergeRef S_Parse S_SpecTree S_Merge S_MergeRef P_SpecBase P_Parse P_SpecTree P_Compare P_Merge P_MergeShape P_MergeRef M_Scope M_Patch S_Patch P_Patch M_App S_App P_App P_Deep M_Validate M_OldValidate M_OldParse M_Upgrade M_Prepare P_Grown P_Grown2 S_Prepare P_Prepare P_Prepare2 P_Prepare3 P_Prepare4 T_SpecTree T_MergeRef T_App.
Close Scope Q_scope.

Lemma set_sound v a n w : sound a -> a_root a = Some (n, w) -> is_obj v -> sound (set_root v a).
Proof.
  intros SO R O. assert (NN : v <> VNone) by (intros ->; contradiction).
  assert (RN : forall m x, (x <> VNone /\ m < a_loads a) -> snd (renew n v (m, x)) <> VNone /\ fst (renew n v (m, x)) < a_loads a).
  { intros m x [A B]. unfold renew. cbn [fst]. destruct (m =? n) eqn:E; cbn [fst snd]; [|auto]. apply Nat.eqb_eq in E as <-. auto. }
  assert (LD : a_loads (set_root v a) = a_loads a) by (rewrite (set_root_eq _ _ _ _ R); reflexivity).
  constructor.
  - rewrite (set_root_eq _ _ _ _ R). cbn [a_objs]. rewrite (sget_map (renew_cached n v)), (so_local _ SO). reflexivity.
  - intros url m x H. destruct (set_whole _ _ _ _ _ _ R H) as ((m' & x') & A & B). rewrite LD. pose proof (RN _ _ (so_whole _ SO _ _ _ A)) as X. rewrite <- B in X. exact X.
  - intros url k m x H. destruct (set_part _ _ _ _ _ _ _ R H) as ((m' & x') & A & B). rewrite LD. pose proof (RN _ _ (so_part _ SO _ _ _ _ A)) as X. rewrite <- B in X. exact X.
  - intros url d H. destruct (set_parts _ _ _ _ _ _ R H) as (d' & A & ->). rewrite map_map. cbn [fst]. exact (so_keys _ SO _ _ A).
Qed.
Lemma set_whole_root u v a n w : a_root a = Some (n, w) -> whole a u (n, w) -> whole (set_root v a) u (n, v).
Proof. intros R W. rewrite (set_root_eq _ _ _ _ R). unfold whole in *. cbn [a_objs]. rewrite (sget_map (renew_cached n v)), W. unfold option_map, renew_cached, renew. cbv [fst]. now rewrite Nat.eqb_refl. Qed.

Lemma shaped_swagger v : shaped (Of CSwagger) v -> exists h fs ints, v = VObj h fs ints /\ h_cls h = CSwagger.
Proof. intro S. exact (shaped_obj _ _ S). Qed.
Lemma swagger_field v n : shaped (Of CSwagger) v -> smem n (t_fields CSwagger) = true -> exists x, field_of v n = Some x.
Proof.
  intros S M. destruct (shaped_swagger _ S) as (h & fs & ints & -> & C). destruct (shaped_parts _ _ _ _ S) as (_ & K & _). rewrite smem_sget in M. destruct (sget n (t_fields CSwagger)) as [d|] eqn:D; [|discriminate M].
  destruct (same_keys _ _ _ _ (eq_sym K) D) as (x & X). exists x. exact X.
Qed.
Lemma grown_swagger P v w n : shaped (Of CSwagger) v -> grown P v w -> sget n (t_child CSwagger) = None -> field_of w n = field_of v n.
Proof.
  intros S G N. destruct (shaped_swagger _ S) as (h & fs & ints & -> & C). apply (grown_field P h fs ints w n); [now rewrite C|congruence|exact G|now rewrite C].
Qed.
Lemma schemes_grown P url v w : shaped (Of CSwagger) v -> shaped (Of CSwagger) w -> grown P v w -> app_schemes url w = app_schemes url v.
Proof.
  intros S S' G. pose proof (grown_swagger P v w (lit "schemes") S G eq_refl) as F. destruct (swagger_field v (lit "schemes") S eq_refl) as (x & X).
  destruct (shaped_swagger _ S) as (h & fs & ints & -> & C). destruct (shaped_swagger _ S') as (g & es & jnts & -> & C'). cbn [field_of] in F, X. unfold app_schemes, attr. rewrite F, X. reflexivity.
Qed.

Section Steps.
  Context (abs_uri win_uri : str -> str) (fetch : str -> res json) (prim : str -> bool) (float_of : str -> res Q) (sep : str) (fuel : nat).
  Notation conv := (convert_doc prim float_of sep).
  Notation load := (load_obj fetch (parse_listing fetch)).
  Notation normed := (normalised conv as_given).
  Notation prepare := (prepare abs_uri win_uri fetch prim float_of sep fuel).
  Notation create_app := (create_app abs_uri win_uri fetch prim float_of sep fuel).
  Notation merge_scan := (merge_scan abs_uri win_uri fetch prim float_of sep fuel).
  Notation aggregate_scan := (aggregate_scan abs_uri win_uri fetch prim float_of sep fuel).
  Notation find_cycles := (find_cycles abs_uri win_uri fetch prim float_of sep fuel).
  Context (b : bool).
  Hypothesis loaded_deep : forall a j p o ver url v, a_old a = b -> load j p = Ok (o, ver) -> normed a o url = Ok v -> deep v.

  (** The final of a parameter or response of the document [v0], in the prepared one *)
  Definition finals (u : str) (v0 v1 : val) : Prop :=
    forall ts h fs ints, reach [] v0 ts (VObj h fs ints) -> h_cls h = CParameter \/ h_cls h = CResponse ->
      exists k jnts f, reach [] v1 ts (VObj k fs jnts) /\ sget (lit "final") jnts = Some f /\
        forall l, way abs_uri win_uri u v0 (h_cls h) [h_place h] (VObj h fs ints) l -> combined (h_cls h) l f.
  Record steps (nu u : str) (strict : bool) (o : @loaded val) (pr : prepared) (v0 mid root : val) (objs : list (str * val)) (l : list (tr_op str)) : Prop := {
    st_norm : normed (App [] None b 0) o u = Ok v0;
    st_valid : validate (raw_errors o v0) strict = Ok (pr_errors pr);
    st_schemes : app_schemes nu v0 = Ok (pr_schemes pr);
    st_grown : grown (fun _ => True) v0 mid;
    st_mid : shaped (Of CSwagger) mid;
    st_finals : finals u v0 mid;
    st_patch : patch_app nu b mid = Ok root;
    st_shaped : shaped (Of CSwagger) root;
    st_root : a_root (pr_app pr) = Some (0, root);
    st_whole : whole (pr_app pr) u (0, root);
    st_sound : sound (pr_app pr);
    st_objs : traverse root [] = Ok objs;
    st_heap : aggregate_scan (pr_app pr) objs = Ok (pr_heap pr);
    st_ops : tr_ops objs = Ok l;
    st_reduce : type_reduce sep [] l = Ok (pr_op pr);
    st_models : pr_m pr = models root;
    st_cycles : find_cycles (pr_app pr) objs = Ok (pr_cycles pr);
    st_check : M_Graph.prepare_cycle_check strict (pr_cycles pr) = Ok tt }.
  Lemma steps_ok url strict nu u pr o ver : normalize_url abs_uri win_uri url = Ok nu -> jr_split abs_uri win_uri nu = Ok (u, lit "#") -> u <> [] ->
    load nu None = Ok (o, ver) -> str_eqb ver (lit "1.2") = b -> (forall v0, normed (App [] None b 0) o u = Ok v0 -> shaped (Of CSwagger) v0) ->
    create_app url strict = Ok pr -> exists v0 mid root objs l, steps nu u strict o pr v0 mid root objs l.
  Proof.
    intros N J NU L B SH E. unfold M_Prepare.create_app in E. rewrite N in E. cbn [bind] in E. rewrite L in E. cbn [bind fst] in E. apply bind_ok in E as (a & CR & E).
    destruct (started abs_uri win_uri fetch prim float_of sep fuel b loaded_deep url nu u a o ver N J NU L B CR) as (v0 & NV & HO). specialize (SH _ NV).
    assert (OV : is_obj v0) by (destruct (shaped_swagger _ SH) as (? & ? & ? & -> & _); exact Logic.I).
    unfold M_Prepare.prepare in E. pose proof HO as (FI & RT & WH). unfold root_of in E at 1. rewrite RT in E. cbn [bind] in E.
    apply bind_ok in E as (er & VE & E). apply bind_ok in E as (sc & SC & E). destruct (merge_scan a) as [a1 [[]|e]] eqn:MS; [|discriminate E].
    destruct (merge_scan_ok abs_uri win_uri fetch prim float_of sep fuel b loaded_deep u 0 a v0 a1 HO OV MS) as (mid & HM & OM & GR & KS & FN).
    pose proof HM as (FM & RM & WM). unfold root_of in E. rewrite RM in E. cbn [bind] in E. destruct FM as (SO & AO & AD). rewrite AO in E.
    apply bind_ok in E as (root & PA & E). apply bind_ok in E as (objs & TR & E). apply bind_ok in E as (heap & HE & E). apply bind_ok in E as (l & OP & E).
    apply bind_ok in E as (tb & RE & E). apply bind_ok in E as (cy & CY & E). apply bind_ok in E as ([] & CH & E). injection E as <-.
    specialize (KS _ SH).
    assert (PT : patch_app nu b mid = Ok root). { unfold patch_app. rewrite (schemes_grown _ nu v0 mid SH KS GR), SC. exact PA. }
    pose proof (patch_app_shaped _ _ _ _ KS PT) as SR.
    assert (OR : is_obj root) by (destruct (shaped_swagger _ SR) as (? & ? & ? & -> & _); exact Logic.I).
    exists v0, mid, root, objs, l. constructor; cbn [pr_app pr_errors pr_schemes pr_op pr_m pr_heap pr_cycles]; auto.
    - intros ts h fs ints R C. destruct (FN ts h fs ints R C) as (k & jnts & f & R1 & F & W). exists k, jnts, f. split; [exact R1|]. split; [exact F|]. intros l0 W0. apply made_combined. auto.
    - rewrite (set_root_eq _ _ _ _ RM). reflexivity.
    - now apply (set_whole_root u root a1 0 mid).
    - now apply (set_sound root a1 0 mid).
  Qed.
End Steps.
