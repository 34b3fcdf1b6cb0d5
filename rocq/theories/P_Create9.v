(** Lemmas for creating applications: all steps succeed. *)
From Coq Require Import Lia.
From Verif Require Import PyBase PyFacts PyInt PyJson M_JsonPtr S_JsonPtr M_Url P_Op M_SpecVal M_Parse M_SpecTree M_Merge M_MergeRef S_Parse S_SpecTree S_Merge S_MergeRef P_SpecBase P_Parse P_SpecTree P_Merge P_MergeShape P_MergeRef M_Scope M_Patch S_Patch P_Patch P_PatchOp M_App S_App P_App P_Deep M_Validate M_OldValidate M_OldParse M_Upgrade M_Prepare P_Grown S_Prepare P_Prepare P_Prepare2 P_Prepare3 P_Prepare4 P_Prepare5 P_Prepare6 P_Compose2 T_App S_Cycles P_Cycles P_Compose S_Create P_Create P_Create2 P_Create3 P_Create4 P_Create5 P_Create6 P_Create7 P_Create8 P_CreateBack.
From Verif Require M_Graph T_Graph T_Patch T_SpecTree S_Compose.
Close Scope Q_scope.

Section Total.
  Context (abs_uri win_uri : str -> str) (fetch : str -> res json) (prim : str -> bool) (float_of : str -> res Q) (sep : str) (b : bool).
  Notation conv := (convert_doc prim float_of sep).
  Notation load := (load_obj fetch (parse_listing fetch)).
  Notation normed := (normalised conv as_given).
  Hypothesis loaded_deep : forall a j p o ver url v, a_old a = b -> load j p = Ok (o, ver) -> normed a o url = Ok v -> deep v.
  Context (url nu u : str) (o : @loaded val) (ver : str) (doc : val) (errs : list report).
  Hypothesis N : normalize_url abs_uri win_uri url = Ok nu.
  Hypothesis J : jr_split abs_uri win_uri nu = Ok (u, lit "#").
  Hypothesis U : u <> [].
  Hypothesis L : load nu None = Ok (o, ver).
  Hypothesis B : str_eqb ver (lit "1.2") = b.
  Hypothesis NV : normed (App [] None b 0) o u = Ok doc.
  Hypothesis SH : shaped (Of CSwagger) doc.
  Hypothesis PL : placed doc.
  Hypothesis AC : acceptable abs_uri win_uri sep u doc.
  Hypothesis UP : exists p, urlparse nu = Ok p.
  Hypothesis VE : raw_errors o doc = Ok errs.
  Lemma create_total : exists n pr, pr_errors pr = errs /\ (pr_cycles pr = [] <-> forall ts, ~ circular abs_uri win_uri u doc ts) /\
    forall fuel strict, n <= fuel -> create_app abs_uri win_uri fetch prim float_of sep fuel url strict =
      if strict && nonempty errs then Err ValidationError else if strict && nonempty (pr_cycles pr) then Err CycleDetectionError else Ok pr.
  Proof.
    assert (D : deep doc) by exact (loaded_deep (App [] None b 0) nu None o ver u doc eq_refl L NV).
    assert (O : is_obj doc) by (destruct (shaped_swagger _ SH) as (? & ? & ? & -> & _); exact I).
    assert (W : wfv doc). { revert O D. destruct doc; try contradiction. intros _ D. now apply deep_wfv. }
    pose proof (item_refs abs_uri win_uri sep u doc AC SH) as NR.
    assert (RS : forall c o, c = CParameter \/ c = CResponse -> object_in doc c o -> no_reference o \/ exists s x, S_MergeRef.refers o s /\ S_Prepare.points abs_uri win_uri u doc s x /\ of_class c x).
    { intros c o0 C. apply (ac_refs _ _ _ _ _ AC). destruct C as [-> | ->]; cbn; auto. }
    destruct (merge_scan_Ok abs_uri win_uri fetch prim float_of sep b u 0 doc loaded_deep D O NR (ac_formats _ _ _ _ _ AC) RS (ac_kinds _ _ _ _ _ AC) U) as (n1 & mid & MS).
    pose proof (at_doc_holds b u 0 doc D O U) as HO.
    destruct (merge_scan_ok abs_uri win_uri fetch prim float_of sep n1 b loaded_deep u 0 _ doc _ HO O (MS n1 (le_n n1))) as (mid' & HM & OM & GR & KS & FN).
    pose proof HM as (FM & RM & WM). pose proof RM as RM'. cbn [at_doc a_root] in RM'. injection RM' as <-. pose proof (KS _ SH) as SM.
    assert (FI : finals abs_uri win_uri u doc mid).
    { intros ts h fs ints R C. destruct (FN ts h fs ints R C) as (k & jnts & f & R1 & F & WW). exists k, jnts, f. split; [exact R1|]. split; [exact F|]. intros l0 W0. apply made_combined. auto. }
    pose proof (mid_ready abs_uri win_uri sep u doc mid AC SH D SM GR FI) as RD. destruct UP as (p & UP').
    destruct (T_Patch.c39_possible nu b mid p SM RD UP') as (root & PT). pose proof PT as PT'. unfold patch_app in PT'. apply bind_ok in PT' as (sc & SC & PE).
    pose proof SC as SC'. rewrite (schemes_grown _ nu doc mid SH SM GR) in SC'. pose proof (patch_app_shaped _ _ _ _ SM PT) as SR.
    assert (OR : is_obj root) by (destruct (shaped_swagger _ SR) as (? & ? & ? & -> & _); exact I).
    set (a := at_doc b u 0 root). assert (SA : set_root root (at_doc b u 0 mid) = a) by apply set_at_doc.
    assert (SO : sound a). { rewrite <- SA. destruct FM as (SO & _). now apply (set_sound root _ 0 mid). }
    assert (WH : whole a u (0, root)). { rewrite <- SA. now apply (set_whole_root u root _ 0 mid). }
    assert (RT : a_root a = Some (0, root)) by reflexivity. assert (ONE : documents a = [(0, root)]) by reflexivity.
    destruct (T_SpecTree.c35_visits root [] (shaped_wfv _ _ _ (Nat.lt_succ_diag_r _) SR) OR) as (objs & TR & _).
    set (pa := PApp mid nu sc b). assert (RA : p_root pa = mid) by reflexivity.
    pose proof (root_contained abs_uri win_uri sep u doc mid root pa AC SH D SM GR RA PE nu b PT) as SCN.
    assert (PM : placed mid) by exact (placed_grown _ _ _ GR NR PL).
    pose proof (back_settled pa mid root SM RA PE PM) as ST.
    destruct (aggregate_scan_Ok abs_uri win_uri fetch prim float_of sep a u root objs SR RT WH TR SCN ONE) as (n2 & hp & HE).
    { intros s s' (ts & S1) (ts' & S2). eauto. }
    { intros s x (ts & R & C). exact (root_ref abs_uri win_uri sep u doc mid root pa AC SH D SM GR RA PE ts s x R C). }
    { intros s (ts & R & C). apply (root_props abs_uri win_uri sep u doc mid root pa AC SH D SM GR RA PE ts s R C).
      pose proof (P_Compose.sch_shaped root SR s (ex_intro _ ts (conj R C))) as SS. destruct C as (h & fs & ints & -> & C). rewrite <- C in SS. destruct (class_complete _ _ _ SS) as (KF & _).
      cbn [field_of]. apply sget_Some_key. rewrite KF, C. apply mem_In. reflexivity. }
    { intros s x (ts & R & C). exact (root_required abs_uri win_uri sep u doc mid root pa AC SH D SM GR RA PE ts s x R C). }
    { intro n. destruct (root_values abs_uri win_uri sep u doc mid root pa AC SH D SM GR RA PE n) as [V|[V|V]]; [left|right; left|right; right]; intros s x (ts & R & C); exact (V ts s x R C). }
    { intros s x (ts & R & C). exact (root_name abs_uri win_uri sep u doc mid root pa AC SH D SM GR RA PE ts s x R C). }
    destruct (reduce_Ok sep root objs SR TR (root_tags abs_uri win_uri sep u nu b doc mid root AC SH SM GR PT) (root_names abs_uri win_uri sep u nu b doc mid root AC SH SM GR PT)) as (l & tb & OP & RE).
    destruct (find_cycles_Ok abs_uri win_uri fetch prim float_of sep a u root objs SR SO RT WH TR SCN ONE) as (n3 & cy & CY).
    destruct (known_refs_Ok abs_uri win_uri a u root objs SR RT WH TR SCN ONE) as (refs & KR & _).
    assert (CC : cy = [] <-> forall ts, ~ circular abs_uri win_uri u doc ts).
    { split.
      - intros -> ts CD. apply (circular_kept abs_uri win_uri u nu b doc mid root SM GR PT) in CD.
        apply (proj2 (cycles_places abs_uri win_uri fetch prim float_of sep (S n3) a u root objs [] SR SO RT WH TR (CY (S n3) (Nat.le_succ_diag_r n3)) SCN refs KR n3 eq_refl)); eauto.
      - intro CI. destruct cy as [|z cy]; [reflexivity|]. exfalso.
        destruct (proj1 (cycles_text abs_uri win_uri fetch prim float_of sep (S n3) a u root objs _ SR SO RT WH TR (CY (S n3) (Nat.le_succ_diag_r n3)) SCN refs KR n3 eq_refl z) (or_introl eq_refl)) as (x & c & _ & _ & LK & _).
        destruct (circular_doc abs_uri win_uri sep u nu b doc mid root AC SH D SM GR PT x c LK) as (ts & CC). exact (CI ts CC). }
    exists (S (n1 + n2 + n3)), (Prepared a errs sc tb (models root) hp cy). split; [reflexivity|]. split; [exact CC|]. intros [|f] strict LE; [lia|].
    unfold create_app. rewrite N. cbn [bind]. rewrite L. cbn [bind fst].
    rewrite (create_Ok abs_uri win_uri fetch prim float_of sep b u doc W O (fun o0 => ac_refs _ _ _ _ _ AC CSchema o0 ltac:(cbn; auto)) url nu o ver N J L B NV f). cbn [bind].
    unfold prepare. unfold root_of at 1. cbn [at_doc a_root bind]. rewrite VE. unfold validate. cbn [bind]. destruct (strict && nonempty errs); [reflexivity|]. cbn [bind]. rewrite SC'. cbn [bind]. rewrite (MS (S f)) by lia.
    unfold root_of. cbn [at_doc a_root a_old bind]. rewrite PE. cbn [bind]. cbv zeta. rewrite set_at_doc. fold a. rewrite TR. cbn [bind]. rewrite HE by lia. cbn [bind]. rewrite OP. cbn [bind]. rewrite RE. cbn [bind].
    rewrite CY by lia. cbn [bind]. cbn [pr_cycles]. unfold M_Graph.prepare_cycle_check. rewrite andb_comm. destruct (strict && nonempty cy); reflexivity.
  Qed.
End Total.
