(** Lemmas for creating applications: the scan of [Merge] succeeds. *)
From Coq Require Import Lia.
From Verif Require Import PyBase PyFacts PyInt PyJson M_JsonPtr S_JsonPtr M_Url P_Op M_SpecVal M_Parse M_SpecTree M_Merge M_MergeRef S_Parse S_SpecTree S_Merge S_MergeRef P_SpecBase P_Parse P_SpecTree P_Compare P_Merge P_MergeShape P_MergeRef P_Patch M_App S_App P_App P_Deep M_Scope M_Patch M_Validate M_OldValidate M_OldParse M_Upgrade M_Prepare P_Grown P_Grown2 S_Prepare T_MergeRef T_App P_Prepare P_Prepare2 S_Patch S_Create P_Create.
From Verif Require T_SpecTree.
Close Scope Q_scope.

Section Scan.
  Context (abs_uri win_uri : str -> str) (fetch : str -> res json) (prim : str -> bool) (float_of : str -> res Q) (sep : str).
  Notation conv := (convert_doc prim float_of sep).
  Notation load := (load_obj fetch (parse_listing fetch)).
  Notation normed := (normalised conv as_given).
  Notation solve := (resolvef abs_uri win_uri fetch (parse_listing fetch) conv as_given).
  Notation follow_in := (follow_in abs_uri win_uri fetch prim float_of sep).
  Notation merge_refs_in := (merge_refs_in abs_uri win_uri fetch prim float_of sep).
  Notation merge_obj_in := (merge_obj_in abs_uri win_uri fetch prim float_of sep).
  Notation merge_at := (merge_at abs_uri win_uri fetch prim float_of sep).
  Notation merge_each := (merge_each abs_uri win_uri fetch prim float_of sep).
  Notation merge_scan := (merge_scan abs_uri win_uri fetch prim float_of sep).
  Context (b : bool) (u : str) (n : nat) (doc : val).
  Hypothesis loaded_deep : forall a j p o ver url v, a_old a = b -> load j p = Ok (o, ver) -> normed a o url = Ok v -> deep v.
  Notation holds := (holds b u n).
  Hypothesis D : deep doc.
  Hypothesis O : is_obj doc.
  Hypothesis NR : no_item_refs doc.
  Hypothesis SF : simple_formats doc.
  Hypothesis refs : forall c o, c = CParameter \/ c = CResponse -> object_in doc c o -> no_reference o \/ exists s x, refers o s /\ points abs_uri win_uri u doc s x /\ of_class c x.
  Hypothesis kinds : forall c m df, c = CParameter \/ c = CResponse -> sget m (t_fields c) = Some df -> sget m (t_child c) = None -> agree doc c m (map (of_kind df) [Scalars; Lists; Dicts]).

  Lemma way_start v c seen o l : way abs_uri win_uri u v c seen o l -> exists r l', ref_of o = Ok r /\ l = o :: l'.
  Proof.
    intro WY. inversion WY as [? ? NO|? ? s ? ? ? RF|? ? s ? ? ? ? RF]; subst.
    - apply ref_of_none in NO. eauto.
    - apply ref_of_some in RF. eauto.
    - apply ref_of_some in RF. eauto.
  Qed.
  Lemma follow_ok fuel a v c : holds a v -> 1 <= fuel -> forall seen o l, way abs_uri win_uri u v c seen o l -> forall steps result r f, length l <= steps -> ref_of o = Ok r ->
    merge_all result (map (mark n) (tl l)) = Ok f -> follow_in fuel steps c a result (map (cons (str_of_nat n)) seen) r = (a, Ok f).
  Proof.
    intros (FA & R & W) LF seen o l H. destruct fuel as [|fl]; [lia|]. induction H as [seen o NO|seen o s h fs ints RF (ts & J & RC) C I|seen o s h fs ints l RF (ts & J & RC) C NI WY IH]; intros steps result r f LE RO E.
    - apply ref_of_none in NO. rewrite NO in RO. injection RO as <-. cbn in E. injection E as <-. destruct steps; reflexivity.
    - pose proof (proj1 RF) as NS. apply ref_of_some in RF. rewrite RF in RO. injection RO as <-. cbn in E. injection E as <-. destruct steps as [|steps]; [cbn in LE; lia|]. cbn [M_Prepare.follow_in].
      assert (SV : solve (S fl) a (@Some str s) (Some c) = (a, Ok (n, VObj h fs ints))) by exact (c43_whole abs_uri win_uri fetch (parse_listing fetch) conv as_given fl a (Some c) s u n v ts (VObj h fs ints) NS J W RC Logic.I).
      rewrite SV. cbn [mark]. cbn [same_class h_cls]. rewrite <- C, cls_eqb_refl. cbn [negb].
      assert (V : visited (map (cons (str_of_nat n)) seen) (VObj (Head (h_cls h) (str_of_nat n :: h_place h) (h_parent h) (h_keys h)) fs ints) = true) by (apply visited_spec; cbn [h_place]; now apply in_map).
      now rewrite V.
    - pose proof (proj1 RF) as NS. apply ref_of_some in RF. rewrite RF in RO. injection RO as <-. destruct steps as [|steps]; [cbn in LE; lia|]. cbn [M_Prepare.follow_in].
      assert (SV : solve (S fl) a (@Some str s) (Some c) = (a, Ok (n, VObj h fs ints))) by exact (c43_whole abs_uri win_uri fetch (parse_listing fetch) conv as_given fl a (Some c) s u n v ts (VObj h fs ints) NS J W RC Logic.I).
      rewrite SV. cbn [mark]. cbn [same_class h_cls]. rewrite <- C, cls_eqb_refl. cbn [negb].
      destruct (visited _ _) eqn:V.
      { exfalso. apply visited_spec in V. cbn [h_place] in V. apply in_map_iff in V as (p & P1 & P2). injection P1 as ->. contradiction. }
      destruct (way_start _ _ _ _ _ WY) as (r2 & l' & R2 & ->). cbn [tl map merge_all] in E. apply bind_ok in E as (r1 & M & E). cbn [mark] in M. rewrite M. cbn [bind].
      change (ref_of (VObj (Head (h_cls h) (str_of_nat n :: h_place h) (h_parent h) (h_keys h)) fs ints)) with (ref_of (VObj h fs ints)). rewrite R2. cbn [bind place_in h_place List.app].
      rewrite C. apply (IH steps r1 r2 f); [cbn [length] in *; lia|exact R2|exact E].
  Qed.
  Lemma alike_mark x y : alike_fields x y -> alike_fields x (mark n y).
  Proof. intros (h & g & fs & ints & jnts & -> & -> & E). do 5 eexists. split; [reflexivity|]. split; [reflexivity|]. exact E. Qed.
  Lemma alike_field x y m : alike_fields x y -> field_of y m = field_of x m.
  Proof. intros (h & g & fs & ints & jnts & -> & -> & E). reflexivity. Qed.
  Lemma refs_ok c a v pl ts h fs ints : c = CParameter \/ c = CResponse -> holds a v -> grown (fun _ => True) doc v -> reach [] v ts (VObj h fs ints) -> h_cls h = c ->
    exists N f, forall fuel, N <= fuel -> merge_refs_in fuel a pl (VObj h fs ints) = (a, Ok f).
  Proof.
    intros CC HO GR R CH. pose proof HO as ((_ & _ & AD) & RT & _). pose proof (ad_root _ AD _ _ RT) as DV.
    assert (IC : inner c) by (destruct CC as [-> | ->]; [left; reflexivity|right; left; reflexivity]).
    destruct (grown_back _ _ _ R _ _ GR NR) as (o0 & R0 & G0). inversion G0 as [? NC| | |h0 ? fs0 ? ints0 ? C PL _ _ _ FE]; subst; [destruct NC|]. rewrite <- C in IC. rewrite (FE IC) in *. clear FE.
    assert (OI : object_in doc (h_cls h) (VObj h0 fs0 ints0)) by (exists ts; split; [exact R0|exists h0, fs0, ints0; auto]).
    assert (WV : wfv doc) by (destruct doc; try contradiction; now apply deep_wfv).
    destruct (way_from abs_uri win_uri u doc (h_cls h) WV O (fun o => refs _ o CC) [h_place h] _ OI) as (l & WY & FL).
    assert (AL : alike_fields (VObj h0 fs0 ints0) (VObj h fs0 ints)) by (exists h0, h, fs0, ints0, ints; auto).
    rewrite C in IC. destruct (way_grown _ _ _ _ _ _ _ IC GR _ _ _ WY _ AL) as (m & WM & FM).
    destruct (way_start _ _ _ _ _ WM) as (r & m' & RO & ->).
    pose proof (way_proper abs_uri win_uri u v (h_cls h) DV _ _ _ WM (deep_reach _ _ _ R DV) (ex_intro _ h (ex_intro _ fs0 (ex_intro _ ints (conj eq_refl eq_refl))))) as PR.
    set (k := VObj h fs0 ints :: map (mark n) m'). set (f0 := VObj (Head (h_cls h) pl None []) (map (fun nd => (fst nd, inject (snd nd))) (t_fields (h_cls h))) (map (fun nd => (fst nd, VNone)) (t_internal (h_cls h)))).
    assert (AK : Forall2 alike_fields l k).
    { inversion FM as [|x y l0 m0 A F]; subst. constructor; [exact A|]. clear - F. induction F; cbn [map]; constructor; auto. now apply alike_mark. }
    assert (PK : forall o, In o k -> proper (h_cls h) o).
    { inversion PR as [|x y (A & B) F]; subst. rewrite Forall_forall in F. intros o [<-|I]; [now apply deep_proper|]. apply in_map_iff in I as (x & <- & I). destruct (F x I) as (DX & g & gs & gi & -> & E).
      pose proof (mark_deep n _ DX) as DM. cbn [mark] in *. apply deep_proper in DM. cbn [h_cls] in DM. rewrite <- E. exact DM. }
    destruct (merge_all_Ok (h_cls h) k f0) as (f & MA).
    - split; [apply fresh_shaped|]. intros x y G. rewrite (sget_map (fun _ => VNone)) in G. destruct (sget x (t_internal (h_cls h))); [|discriminate G]. injection G as <-. intros [(? & X)|(? & X)]; discriminate X.
    - intros o I. split; [auto|]. destruct (Forall2_In_r _ _ _ _ AK I) as (x & IX & A). rewrite Forall_forall in FL. destruct (FL x IX) as (us & RX & _). apply formats_reach in RX; [|exact SF].
      destruct A as (a1 & a2 & a3 & a4 & a5 & -> & -> & _). eapply formats_alike; eauto.
    - intros x df T TC. destruct (kinds _ x df CC T TC) as (P & IP & HP). apply in_map_iff in IP as (kd & <- & _). exists kd. split.
      + exists (inject df). split; [|now left]. unfold f0. cbn [field_of]. rewrite (sget_map inject), T. reflexivity.
      + intros o y I G. destruct (Forall2_In_r _ _ _ _ AK I) as (z & IZ & A). rewrite (alike_field _ _ _ A) in G. rewrite Forall_forall in FL. eauto.
    - exists (S (length (VObj h fs0 ints :: m'))), f. intros fuel LE. unfold M_Prepare.merge_refs_in. rewrite RT, fresh_eq. fold f0. cbn [bind].
      unfold k in MA. cbn [merge_all] in MA. apply bind_ok in MA as (r1 & M & MA). rewrite M. cbn [bind]. rewrite RO. cbn [bind mark place_in h_place].
      apply (follow_ok fuel a v (h_cls h) HO ltac:(lia) [h_place h] _ _ WM fuel r1 r f ltac:(lia) RO MA).
  Qed.

  Lemma item_refs_ok a v ts h fs ints pl : holds a v -> grown (fun _ => True) doc v -> reach [] v ts (VObj h fs ints) -> h_cls h = CPathItem ->
    sget (lit "$ref") fs = Some VNone /\ exists f, shaped (Of CPathItem) f /\ forall fuel, merge_refs_in fuel a pl (VObj h fs ints) = (a, Ok f).
  Proof.
    intros HO GR R CH. pose proof HO as ((_ & _ & AD) & RT & _). pose proof (ad_root _ AD _ _ RT) as DV. pose proof (deep_reach _ _ _ R DV) as DO.
    pose proof (deep_shaped _ _ _ DO) as SH. assert (R0 : sget (lit "$ref") fs = Some VNone).
    { destruct (grown_back _ _ _ R _ _ GR NR) as (o0 & R0 & G0). inversion G0 as [? NC| | |h0 ? fs0 ? ints0 ? C PL K _ FI]; subst; [destruct NC|].
      pose proof (NR _ _ R0 ltac:(exists h0, fs0, ints0; split; [reflexivity|congruence])) as E. cbn [field_of] in E. destruct (same_keys _ _ _ _ K E) as (y & Y).
      destruct (FI _ _ _ E Y) as [X|(_ & X & _)]; [|contradiction]. apply grown_scalar in X; [|exact I]. now subst y. }
    split; [exact R0|]. set (f0 := VObj (Head (h_cls h) pl None []) (map (fun nd => (fst nd, inject (snd nd))) (t_fields (h_cls h))) (map (fun nd => (fst nd, VNone)) (t_internal (h_cls h)))).
    assert (S0 : shaped (Of (h_cls h)) f0) by apply fresh_shaped.
    destruct (merge_obj_Ok [] (Head (h_cls h) pl None []) (map (fun nd => (fst nd, inject (snd nd))) (t_fields (h_cls h))) (map (fun nd => (fst nd, VNone)) (t_internal (h_cls h))) h fs ints) as (f & F); cbn [h_cls]; auto.
    - intros m ov ct cc G T. apply clone_child_Ok; [exact (shaped_child _ _ _ _ _ _ _ _ SH G T)|]. eapply formats_field; [|exact G]. eapply formats_reach; [exact R|]. eapply formats_grown; eauto.
    - intros m df sv ov T _ G _ TC _. rewrite CH in T, TC. destruct (str_eq_dec m (lit "$ref")) as [->|NE]; [|exfalso; exact (only_ref m df T TC NE)]. rewrite R0 in G. injection G as <-. exact I.
    - intros m df sv ov T. rewrite CH in T. discriminate T.
    - exists f. split; [rewrite <- CH; exact (merge_shaped [] (h_cls h) f0 (VObj h fs ints) f S0 SH F)|]. intro fuel. unfold M_Prepare.merge_refs_in. rewrite RT, fresh_eq. cbn [bind].
      change (merge_obj clone [] _ _ = Ok f) with (merge f0 (VObj h fs ints) [] = Ok f) in F. fold f0. rewrite F. cbn [bind]. unfold ref_of. rewrite R0. cbn [reference falsy bind]. destruct fuel; reflexivity.
  Qed.
  Lemma visit_ok a v ts h fs ints : holds a v -> grown (fun _ => True) doc v -> reach [] v ts (VObj h fs ints) ->
    exists N x, forall fuel, N <= fuel -> merge_obj_in fuel a (VObj h fs ints) = (a, Ok x).
  Proof.
    intros HO GR R. pose proof HO as ((_ & _ & AD) & RT & _). pose proof (ad_root _ AD _ _ RT) as DV. pose proof (deep_reach _ _ _ R DV) as DO. pose proof (deep_shaped _ _ _ DO) as SH.
    unfold M_Prepare.merge_obj_in.
    assert (PR : h_cls h = CParameter \/ h_cls h = CResponse -> exists N x, forall fuel, N <= fuel ->
      (let (a, f) := merge_refs_in fuel a (h_place h ++ [lit "final"]) (VObj h fs ints) in (a, do f <- f; update_field "final"%string f (VObj h fs ints))) = (a, Ok x)).
    { intro C. destruct (refs_ok (h_cls h) a v (h_place h ++ [lit "final"]) ts h fs ints C HO GR R eq_refl) as (N & f & F).
      pose proof (shaped_parts _ _ _ _ SH) as (_ & KF & KI & _).
      exists N, (VObj (key_added (lit "final") h) fs (sset (lit "final") f ints)). intros fuel LE. rewrite (F _ LE). cbn [bind]. unfold update_field. rewrite (smem_keys _ _ _ KF), (smem_keys _ _ _ KI).
      assert (M1 : smem (lit "final") (t_fields (h_cls h)) = false) by (destruct C as [-> | ->]; reflexivity).
      assert (M2 : smem (lit "final") (t_internal (h_cls h)) = true) by (destruct C as [-> | ->]; reflexivity). rewrite M1, M2. reflexivity. }
    destruct (h_cls h) eqn:C; try (exists 0; eexists; intros; reflexivity); try (apply PR; auto; fail).
    destruct (item_refs_ok a v ts h fs ints (h_place h ++ [lit "final"]) HO GR R C) as (R0 & f & SH' & F).
    pose proof (shaped_obj _ _ SH') as (k & es & jnts & -> & CK).
    destruct (merge_obj_Ok' h fs ints k es jnts) as (x & X).
    - rewrite C. exact SH.
    - rewrite C. exact SH'.
    - intros m df sv ov ct cc T SV OV _ DS. rewrite C in T. refine (no_ref_made abs_uri win_uri fetch prim float_of sep 0 a (h_place h ++ [lit "final"]) h fs ints a _ C DO R0 (F 0) m df sv ov T SV OV DS).
    - intros m df sv ov T SV OV _ TC ND. exfalso. rewrite C in T, TC. destruct (str_eq_dec m (lit "$ref")) as [->|NE]; [|exact (only_ref m df T TC NE)].
      rewrite R0 in SV. injection SV as <-. apply ND. apply equals_default_spec; [eapply fields_default; eauto|]. refine (no_ref_made abs_uri win_uri fetch prim float_of sep 0 a (h_place h ++ [lit "final"]) h fs ints a _ C DO R0 (F 0) _ df VNone ov T R0 OV _).
      injection T as <-. reflexivity.
    - intros m df sv ov T. rewrite C in T. discriminate T.
    - exists 0, x. intros fuel _. rewrite F. cbn [bind]. f_equal. exact X.
  Qed.
  (** Only the document itself is known. *)
  Definition at_doc (v : val) : app := App [(u, Whole (n, v))] (Some (n, v)) b (S n).
  Lemma set_at_doc v w : set_root w (at_doc v) = at_doc w.
  Proof. unfold set_root, at_doc. cbn [a_root a_objs map fst snd a_old a_loads]. rewrite Nat.eqb_refl. reflexivity. Qed.
  Lemma at_doc_holds v : deep v -> is_obj v -> u <> [] -> holds (at_doc v) v.
  Proof.
    intros DV OV NU. assert (NN : v <> VNone) by (intros ->; contradiction). assert (WH : forall url o, whole (at_doc v) url o -> url = u /\ o = (n, v)).
    { intros url o. unfold whole, at_doc. cbn [a_objs]. rewrite sget_cons. destruct (str_eqb url u) eqn:E; [apply str_eqb_eq in E; intro X; injection X as <-; auto|discriminate]. }
    assert (NP : forall url d, sget url (a_objs (at_doc v)) <> Some (Parts d)).
    { intros url d. unfold at_doc. cbn [a_objs]. rewrite sget_cons. destruct (str_eqb url u); discriminate. }
    split; [|split; [reflexivity|unfold whole, at_doc; cbn [a_objs]; rewrite sget_cons, str_eqb_refl; reflexivity]]. split; [|split; [reflexivity|]].
    - constructor.
      + unfold at_doc. cbn [a_objs]. rewrite sget_cons. destruct (str_eqb [] u) eqn:E; [apply str_eqb_eq in E; elim NU; symmetry; exact E|reflexivity].
      + intros url m w H. apply WH in H as (_ & H). injection H as -> ->. split; [exact NN|cbn; lia].
      + intros url k m w (d & G & _). elim (NP _ _ G).
      + intros url d G. elim (NP _ _ G).
    - constructor.
      + intros url m w H. apply WH in H as (_ & H). injection H as -> ->. exact DV.
      + intros url k m w (d & G & _). elim (NP _ _ G).
      + intros m w H. injection H as <- <-. exact DV.
  Qed.
  Lemma merge_at_Ok v ts h fs ints : holds (at_doc v) v -> grown (fun _ => True) doc v -> reach [] v ts (VObj h fs ints) ->
    exists N w, forall fuel, N <= fuel -> merge_at fuel (at_doc v) ts = (at_doc w, Ok tt).
  Proof.
    intros HO GR R. destruct (visit_ok _ _ _ _ _ _ HO GR R) as (N & x & E). exists N, (put_at ts x v). intros fuel LE. unfold M_Prepare.merge_at. unfold root_of at 1. cbn [at_doc a_root bind].
    rewrite (resolve_reach _ _ _ _ R). cbn [bind]. fold (at_doc v). rewrite (E _ LE). rewrite set_at_doc. reflexivity.
  Qed.
  Lemma merge_each_Ok : forall objs v, holds (at_doc v) v -> is_obj v -> grown (fun _ => True) doc v ->
    (forall p o, In (p, o) objs -> exists ts, p = rfc_pointer (lit "#") ts /\ reach [] doc ts o /\ is_obj o) ->
    exists N w, forall fuel, N <= fuel -> merge_each fuel (at_doc v) objs = (at_doc w, Ok tt).
  Proof.
    induction objs as [|[p o] objs IH]; intros v HO OV GR IN; [exists 0, v; reflexivity|].
    destruct (IN p o (or_introl eq_refl)) as (ts & -> & R0 & OO). destruct (grown_reach _ _ _ _ _ R0 OO GR) as (o1 & R1 & G1). destruct o as [| | | | | | |h fs ints]; try contradiction.
    pose proof (grown_class _ _ _ _ _ G1) as (h1 & fs1 & ints1 & -> & C1 & P1).
    destruct (merge_at_Ok _ _ _ _ _ HO GR R1) as (N1 & w & E1).
    destruct (merge_at_ok abs_uri win_uri fetch prim float_of sep N1 b (convert_obj prim float_of sep) loaded_deep u n _ _ _ _ _ _ _ HO OV R1 (E1 N1 (Nat.le_refl _))) as (v1 & H1 & OV1 & GV1 & _).
    assert (w = v1) as -> by (destruct H1 as (_ & RT & _); now injection RT as ->).
    destruct (IH v1 H1 OV1) as (N2 & w2 & E2).
    - eapply grown_mono; [|eapply grown_trans; [exact GR|exact GV1]]. auto.
    - intros q z X. apply IN. now right.
    - exists (Nat.max N1 N2), w2. intros fuel LE. cbn [M_Prepare.merge_each]. rewrite pointer_tokens, (E1 fuel ltac:(lia)). apply E2. lia.
  Qed.
  Lemma merge_scan_Ok : u <> [] -> exists N w, forall fuel, N <= fuel -> merge_scan fuel (at_doc doc) = (at_doc w, Ok tt).
  Proof.
    intro NU. assert (W : wfv doc) by (destruct doc; try contradiction; now apply deep_wfv).
    destruct (T_SpecTree.c35_visits doc [] W O) as (objs & T & IN). destruct (merge_each_Ok objs doc (at_doc_holds _ D O NU) O (grown_same _ _)) as (N & w & E); [intros p o X; now apply IN|].
    exists N, w. intros fuel LE. unfold M_Prepare.merge_scan, root_of. cbn [at_doc a_root bind]. rewrite T. fold (at_doc doc). now apply E.
  Qed.
End Scan.
