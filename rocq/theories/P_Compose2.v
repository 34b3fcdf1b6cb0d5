(** Lemmas for composed schemas: schemas of created applications are told apart by their places. *)
From Coq Require Import Lia.
From Verif Require Import PyBase PyFacts PyInt PyJson M_JsonPtr S_JsonPtr M_Url P_Op M_SpecVal M_Parse M_SpecTree M_Merge M_MergeRef S_Parse S_SpecTree S_Merge S_MergeRef P_SpecBase P_Parse P_SpecTree P_Merge P_MergeShape P_MergeRef M_Scope M_Patch S_Patch P_Patch P_PatchOp M_App S_App P_App P_Deep M_Prepare P_Grown P_Prepare3 P_Prepare5 P_Prepare6 S_Cycles S_Compose.
From Verif Require S_Convert P_Convert.
Close Scope Q_scope.

(** ** Places *)
Definition placed (v : val) : Prop := forall ts h fs ints, reach [] v ts (VObj h fs ints) -> h_place h = ts.
Lemma placed_normal u raw doc : normal u raw doc -> placed raw -> placed doc.
Proof.
  intros NM P ts h fs ints R. assert (X : exists h' fs' ints', reach [] raw ts (VObj h' fs' ints') /\ h_place h' = h_place h).
  { clear P. remember (VObj h fs ints) as o eqn:EO. revert raw NM. induction R as [v|k es jnts n v ts o _ G R IH|l i v ts o G R IH|d k v ts o G R IH]; intros raw NM; subst.
    - inversion NM as [? NC| | |h0 ? fs0 ? ? _ PL _ _ _]; subst; [destruct NC|]. exists h0, fs0, ints. split; [constructor|congruence].
    - inversion NM as [? NC| | |h0 ? fs0 ? ? _ PL _ _ F]; subst; [destruct NC|]. apply (drel_get_r (fun n x y => normal_field u (h_cls h0) n x y)) with (2 := G) in F as (x & GX & NF). inversion NF as [? ? ? _ CR|? ? ? ? _ NX]; subst.
      + inversion CR; subst; inversion R.
      + destruct (IH eq_refl _ NX) as (h' & fs' & ints' & R' & E). exists h', fs', ints'. split; [|exact E]. econstructor; [intros []|exact GX|exact R'].
    - inversion NM as [? NC|l0 ? F| |]; subst; [destruct NC|]. destruct (P_Convert.Forall2_nth_r _ _ _ _ _ F G) as (x & GX & NX). destruct (IH eq_refl _ NX) as (h' & fs' & ints' & R' & E). exists h', fs', ints'. split; [|exact E]. econstructor; eauto.
    - inversion NM as [? NC| |d0 ? F|]; subst; [destruct NC|]. apply (drel_get_r (fun _ x y => normal u x y)) with (2 := G) in F as (x & GX & NX). destruct (IH eq_refl _ NX) as (h' & fs' & ints' & R' & E). exists h', fs', ints'. split; [|exact E]. econstructor; eauto. }
  destruct X as (h' & fs' & ints' & R' & E). rewrite <- E. exact (P _ _ _ _ R').
Qed.
(** No path item of the document refers to another. *)
Lemma placed_grown P doc mid : grown P doc mid -> (forall ts pi, reach [] doc ts pi -> of_class CPathItem pi -> field_of pi (lit "$ref") = Some VNone) -> placed doc -> placed mid.
Proof.
  intros GR NR PD ts h fs ints R. assert (X : exists h' fs' ints', reach [] doc ts (VObj h' fs' ints') /\ h_place h' = h_place h).
  { clear PD. remember (VObj h fs ints) as o eqn:EO. revert P doc GR NR. induction R as [v|k es jnts n v ts o _ G R IH|l i v ts o G R IH|d k v ts o G R IH]; intros P doc GR NR; subst.
    - inversion GR as [? NC| | |h0 ? fs0 ? ints0 ? _ PL]; subst; [destruct NC|]. exists h0, fs0, ints0. split; [constructor|exact PL].
    - inversion GR as [? NC| | |h0 ? fs0 ? ints0 ? C PL K _ F]; subst; [destruct NC|]. destruct (same_keys _ _ _ _ (eq_sym K) G) as (x & GX). destruct (F _ _ _ GX G) as [GY|(CP & X & _)].
      + destruct (IH eq_refl _ _ GY) as (h' & fs' & ints' & R' & E).
        * intros us pi RP. apply NR with (n :: us). econstructor; [intros []|exact GX|exact RP].
        * exists h', fs', ints'. split; [|exact E]. econstructor; [intros []|exact GX|exact R'].
      + elim X. apply (NR [] _ (reach_here _ _)). exists h0, fs0, ints0. auto.
    - inversion GR as [? NC|l0 ? L F| |]; subst; [destruct NC|]. destruct (same_length _ _ _ _ (eq_sym L) G) as (x & GX). destruct (IH eq_refl _ _ (F _ _ _ GX G)) as (h' & fs' & ints' & R' & E).
      + intros us pi RP. apply NR with (str_of_nat i :: us). econstructor; eauto.
      + exists h', fs', ints'. split; [|exact E]. econstructor; eauto.
    - inversion GR as [? NC| |d0 ? K F|]; subst; [destruct NC|]. destruct (same_keys _ _ _ _ (eq_sym K) G) as (x & GX). destruct (IH eq_refl _ _ (F _ _ _ GX G)) as (h' & fs' & ints' & R' & E).
      + intros us pi RP. apply NR with (k :: us). econstructor; eauto.
      + exists h', fs', ints'. split; [|exact E]. econstructor; eauto. }
  destruct X as (h' & fs' & ints' & R' & E). rewrite <- E. exact (PD _ _ _ _ R').
Qed.
(** ** What PatchObject makes of schemas *)
Lemma pointer_snoc ts n : sub n (rfc_pointer (lit "#") ts) = rfc_pointer (lit "#") (ts ++ [n]).
Proof. rewrite sub_pointer by discriminate. unfold rfc_pointer. rewrite flat_map_app, app_assoc. reflexivity. Qed.
Lemma patch_parent a p1 p2 path h fs ints : h_cls h = CSchema -> patch a p1 path (VObj h fs ints) = patch a p2 path (VObj h fs ints).
Proof. intro C. rewrite !patch_obj_eq. destruct (patch_dict a (Some (VObj h fs ints)) path fs) as [fs'|e]; [|reflexivity]. cbn [bind patch_visit]. rewrite C. reflexivity. Qed.
Section Back.
  Context (a : papp) (mid root : val).
  Hypothesis SM : shaped (Of CSwagger) mid.
  Hypothesis RA : p_root a = mid.
  Hypothesis E : patch a None (lit "#") mid = Ok root.
  (** [s] came from the object at [ts]. *)
  Definition from (ts : list str) (s : val) : Prop := exists s0 par, reach [] mid ts s0 /\ patch a par (rfc_pointer (lit "#") ts) s0 = Ok s.
  Lemma obj_patched par path h fs ints w : calm (VObj h fs ints) -> patch a par path (VObj h fs ints) = Ok w -> is_obj w.
  Proof.
    intros K P. destruct (calm_obj _ _ _ K) as (Q & S). destruct (class_complete _ _ _ S) as (KF & KI). rewrite patch_obj_eq in P. apply bind_ok in P as (fs1 & M & P). apply patch_dict_ok in M. pose proof (drel_keys _ _ _ M) as K1.
    apply visit_ok in P as (g & fs2 & ints2 & base & url & -> & _); [exact Logic.I|congruence|exact KI].
  Qed.
  Lemma calm_from w us s : reach [] w us s -> forall v ts par, calm v -> reach [] mid ts v -> patch a par (rfc_pointer (lit "#") ts) v = Ok w -> exists ts', from ts' s.
  Proof.
    induction 1 as [w|h fs ints n x us s NI G R IH|l i x us s G R IH|d k x us s G R IH]; intros v ts par K RV P.
    - exists ts, v, par. auto.
    - destruct v as [| | | | |l0|d0|k es jnts]; try discriminate P. { rewrite patch_list_eq in P. apply bind_ok in P as (? & _ & P). discriminate P. } { rewrite patch_dict_eq in P. apply bind_ok in P as (? & _ & P). discriminate P. }
      destruct (calm_obj _ _ _ K) as (Q & S). destruct (class_complete _ _ _ S) as (KF & KI). rewrite patch_obj_eq in P. apply bind_ok in P as (fs1 & M & P). apply patch_dict_ok in M. pose proof (drel_keys _ _ _ M) as K1.
      apply visit_ok in P as (g & fs2 & ints2 & base & url & X & _ & K2 & _ & VF & _); [|congruence|exact KI]. injection X as <- <- <-.
      destruct (same_keys _ _ _ _ K2 G) as (y & Y). destruct (VF _ _ Y) as (x' & X' & V). assert (x' = x) as -> by congruence.
      assert (x = y) as ->. { unfold visit_field in V. destruct (h_cls k); try exact V; discriminate Q. }
      destruct (drel_get_r _ _ _ _ _ M Y) as (x0 & X0 & P0). rewrite pointer_snoc in P0. eapply (IH x0 (ts ++ [n]) (Some (VObj k es jnts))); [|eapply reach_app; [exact RV|]; econstructor; [intros []|exact X0|constructor]|exact P0].
      apply (fields_calm k es jnts n x0 (or_introl Q) S X0).
    - destruct v as [| | | | |l0|d0|k es jnts]; try discriminate P.
      2: { rewrite patch_dict_eq in P. apply bind_ok in P as (? & _ & P). discriminate P. }
      2: { apply obj_patched in P; [destruct P|exact K]. }
      rewrite patch_list_eq in P. apply bind_ok in P as (m & M & P). injection P as ->. apply patch_list_ok in M as (L & M). destruct (same_length _ _ _ _ (eq_sym L) G) as (x0 & X0). destruct (M _ _ X0) as (y & Y & P0). assert (y = x) as -> by congruence.
      cbn [Nat.add] in P0. rewrite pointer_snoc in P0. eapply (IH x0 (ts ++ [str_of_nat i]) par); [|eapply reach_app; [exact RV|]; econstructor; [exact X0|constructor]|exact P0]. eapply calm_item; [exact K|]. eapply nth_error_In; eauto.
    - destruct v as [| | | | |l0|d0|h es jnts]; try discriminate P. { rewrite patch_list_eq in P. apply bind_ok in P as (? & _ & P). discriminate P. }
      2: { apply obj_patched in P; [destruct P|exact K]. }
      rewrite patch_dict_eq in P. apply bind_ok in P as (m & M & P). injection P as ->. apply patch_dict_ok in M. destruct (drel_get_r _ _ _ _ _ M G) as (x0 & X0 & P0). rewrite pointer_snoc in P0.
      eapply (IH x0 (ts ++ [k]) par); [|eapply reach_app; [exact RV|]; econstructor; [exact X0|constructor]|exact P0]. eapply calm_key; [exact K|]. exact (sget_In _ _ _ X0).
  Qed.
  Lemma paths_from ts v us s : reach [] mid (lit "paths" :: ts) v -> calm v -> reach [] v us s -> exists ts', from ts' s.
  Proof.
    intros R K RS. exists ((lit "paths" :: ts) ++ us), s, None. split; [eapply reach_app; eauto|]. cbn [List.app]. apply patch_calm; [eapply calm_reach; eauto|apply pointer_paths].
  Qed.
  Lemma calm_list l : (forall x, In x l -> shaped (Of CParameter) x) -> calm (VList l).
  Proof. intro F. left. exists ListOf, (Of CParameter). split; [reflexivity|]. constructor. now apply Forall_forall. Qed.
  Lemma no_schema v us s : no_object v -> reach [] v us s -> is_obj s -> False.
  Proof. intros N R O. exact (N _ _ (no_object_reach _ _ _ R N) O). Qed.
  Lemma op_from k n hp fp ip h fs ints par base url m y us s : reach [] mid [lit "paths"; k] (VObj hp fp ip) -> h_cls hp = CPathItem -> shaped (Of CPathItem) (VObj hp fp ip) -> sget n fp = Some (VObj h fs ints) -> h_cls h = COperation -> shaped (Of COperation) (VObj h fs ints) ->
    par = Some (VObj hp fp ip) -> patch a par (rfc_pointer (lit "#") [lit "paths"; k; n]) (VObj h fs ints) = Ok y -> forall kk z, patch_method base url kk m y = Ok z -> reach [] z us s -> of_class CSchema s -> exists ts', from ts' s.
  Proof.
    intros RP CP SP GN C S -> PY kk z PZ RS CS. assert (OS : is_obj s) by (destruct CS as (? & ? & ? & -> & _); exact Logic.I).
    assert (RO : reach [] mid [lit "paths"; k; n] (VObj h fs ints)) by (change [lit "paths"; k; n] with ([lit "paths"; k] ++ [n]); eapply reach_app; [exact RP|]; econstructor; [intros []|exact GN|constructor]).
    rewrite <- C in S. destruct (class_complete _ _ _ S) as (KO & KOI). rewrite patch_obj_eq, patch_dict_id in PY.
    2: { intros n' x IN. apply patch_calm; [|apply below_sub, pointer_paths]. eapply fields_calm; [right; exact C|exact S|]. apply In_sget; [|exact IN]. rewrite KO. apply fields_nodup. }
    cbn [bind] in PY. apply visit_ok in PY as (g3 & os3 & oi3 & b3 & u3 & -> & SH3 & K3 & _ & VF & _); [|exact KO|exact KOI]. rewrite C in VF. cbn [visit_field] in VF.
    assert (CG : h_cls g3 = COperation) by (destruct SH3; congruence). apply patch_method_ok in PZ as (g4 & oi4 & -> & SH4 & _); [|exact CG|congruence].
    inversion RS as [|? ? ? f x us' ? _ GX R'| |]; subst; [destruct CS as (? & ? & ? & X & Y); injection X as <- <- <-; destruct SH4; congruence|].
    destruct (same_keys _ _ _ _ K3 GX) as (own & GO). destruct (VF _ _ GO) as (x' & X' & OF). assert (x' = x) as -> by congruence.
    assert (CO : calm own) by (eapply fields_calm; [right; exact C|exact S|exact GO]).
    assert (OWN : x = own -> exists ts', from ts' s). { intros ->. apply (paths_from [k; n; f] own us'); auto. change (lit "paths" :: [k; n; f]) with ([lit "paths"; k; n] ++ [f]). eapply reach_app; [exact RO|]. econstructor; [intros []|exact GO|constructor]. }
    assert (PLAIN : sget f (t_child COperation) = None -> exists ts', from ts' s).
    { intro T. exfalso. assert (SPM : forall p, Some (VObj hp fp ip) = Some p -> shaped (Of CPathItem) p) by (intros p EP; now injection EP as <-).
      assert (SR : shaped (Of CSwagger) (p_root a)) by (rewrite RA; exact SM). destruct (shaped_field _ _ _ _ _ S GO) as [(_ & W)|(ct & cc & T' & _)]; [|rewrite C in T'; congruence].
      destruct (op_field_shaped a SR (Some (VObj hp fp ip)) f own x SPM OF T W) as (_ & NO). eapply no_schema; eauto. }
    destruct (sget f (t_child COperation)) as [[ct cc]|] eqn:T; [|now apply PLAIN]. unfold op_field in OF.
    destruct (str_eqb_spec f (lit "produces")) as [->|_]; [discriminate T|]. destruct (str_eqb_spec f (lit "consumes")) as [->|_]; [discriminate T|].
    destruct (str_eqb_spec f (lit "parameters")) as [->|_]; [|destruct (str_eqb_spec f (lit "security")) as [->|_]; [discriminate T|now apply OWN]].
    destruct OF as (more & MO & WS).
    assert (GM : sget (lit "parameters") fp = Some more).
    { unfold attr_of in MO. cbn [field_of] in MO. destruct (sget (lit "parameters") fp) as [q|] eqn:G; [congruence|]. rewrite <- CP in SP. destruct (class_complete _ _ _ SP) as (KP & _). apply sget_None in G. elim G. rewrite KP, CP. apply mem_In. reflexivity. }
    assert (RM : reach [] mid (lit "paths" :: [k; lit "parameters"]) more) by (change (lit "paths" :: [k; lit "parameters"]) with ([lit "paths"; k] ++ [lit "parameters"]); eapply reach_app; [exact RP|]; econstructor; [intros []|exact GM|constructor]).
    assert (CM : calm more). { rewrite <- CP in SP. destruct (shaped_field _ _ _ _ _ SP GM) as [(T' & _)|(ct' & cc' & T' & X)]; rewrite CP in T'; [discriminate T'|]. injection T' as <- <-. left. exists ListOf, (Of CParameter). auto. }
    destruct WS as [_ -> | l ps mo -> _ -> CH ->]; [now apply (paths_from [k; lit "parameters"] more us')|].
    inversion R' as [| |? i q us'' ? NQ RQ|]; subst; [destruct OS|]. apply nth_error_In, in_app_iff in NQ as [IQ|IQ].
    - apply In_nth_error in IQ as (i' & IQ). apply (paths_from [k; n; lit "parameters"; str_of_nat i'] q us''); auto.
      + change (lit "paths" :: [k; n; lit "parameters"; str_of_nat i']) with ([lit "paths"; k; n] ++ [lit "parameters"; str_of_nat i']). eapply reach_app; [exact RO|]. econstructor; [intros []|exact GO|]. econstructor; [exact IQ|constructor].
      + eapply calm_item; [exact CO|]. eapply nth_error_In; eauto.
    - apply (chosen_sub _ _ _ CH) in IQ. pose proof IQ as IQ'. apply In_nth_error in IQ as (i' & IQ). apply (paths_from ([k; lit "parameters"] ++ [str_of_nat i']) q us''); auto.
      + rewrite app_comm_cons. eapply reach_app; [exact RM|]. econstructor; [exact IQ|constructor].
      + eapply calm_item; eauto.
  Qed.
  Lemma item_from k par x y us s : reach [] mid [lit "paths"; k] x -> shaped (Of CPathItem) x -> patch a par (rfc_pointer (lit "#") [lit "paths"; k]) x = Ok y -> reach [] y us s -> of_class CSchema s -> exists ts', from ts' s.
  Proof.
    intros RP SP PY RS CS. assert (OS : is_obj s) by (destruct CS as (? & ? & ? & -> & _); exact Logic.I).
    destruct (shaped_obj _ _ SP) as (h & fs & ints & -> & C). pose proof SP as S. rewrite <- C in S. destruct (class_complete _ _ _ S) as (KF & KI). rewrite patch_obj_eq in PY. apply bind_ok in PY as (fs1 & M & P). apply patch_dict_ok in M. pose proof (drel_keys _ _ _ M) as K1.
    apply visit_ok in P as (g & fs2 & ints2 & base & url & -> & SH & K2 & _ & VF & _); [|congruence|exact KI]. rewrite C in VF. cbn [visit_field] in VF.
    inversion RS as [|? ? ? n z us' ? _ GZ R'| |]; subst; [destruct CS as (? & ? & ? & X & Y); injection X as <- <- <-; destruct SH; congruence|].
    destruct (same_keys _ _ _ _ K2 GZ) as (y & GY). destruct (VF _ _ GY) as (z' & Z' & V). assert (z' = z) as -> by congruence. destruct (drel_get_r _ _ _ _ _ M GY) as (x & GX & PX).
    rewrite pointer_snoc in PX. cbn [List.app] in PX.
    assert (CALM : calm x -> exists ts', from ts' s).
    { intro K. assert (y = x) as -> by (rewrite patch_calm in PX; [congruence|exact K|apply pointer_paths]). assert (z = x) as ->.
      { destruct (smem n (t_child CPathItem)); [|exact V]. unfold patch_method in V. destruct (same_class COperation x) eqn:SO; [|congruence]. destruct x as [| | | | | | |hx fx ix]; try discriminate SO. assert (CX : h_cls hx = COperation) by (cbn in SO; destruct (h_cls hx); try discriminate SO; reflexivity). assert (Q : quiet COperation = true) by (eapply calm_class; [exact K|]; exists hx, fx, ix; auto). discriminate Q. }
      apply (paths_from [k; n] x us'); auto. change (lit "paths" :: [k; n]) with ([lit "paths"; k] ++ [n]). eapply reach_app; [exact RP|]. econstructor; [intros []|exact GX|constructor]. }
    destruct (shaped_field _ _ _ _ _ S GX) as [(_ & W)|(ct & cc & T & SI)]; [apply CALM; now right|]. rewrite C in T. destruct (path_child _ _ _ T) as [Q|(-> & ->)]; [apply CALM; left; eauto|].
    rewrite smem_sget, T in V. inversion SI as [|? ? SO| |]; subst.
    - cbn in PX. injection PX as <-. cbn in V. injection V as <-. inversion R'; subst. destruct OS.
    - destruct (shaped_obj _ _ SO) as (ho & fo & io & -> & CO). eapply (op_from k n h fs ints ho fo io (Some (VObj h fs ints)) base url n y us'); eauto.
  Qed.
  Lemma all_from us s : reach [] root us s -> of_class CSchema s -> exists ts', from ts' s.
  Proof.
    intros RS CS. assert (OS : is_obj s) by (destruct CS as (? & ? & ? & -> & _); exact Logic.I).
    destruct (shaped_obj _ _ SM) as (h & fs & ints & EM & C). pose proof SM as S. rewrite EM, <- C in S. pose proof E as P. rewrite EM in P. destruct (class_complete _ _ _ S) as (KF & KI). rewrite patch_obj_eq in P. apply bind_ok in P as (fs1 & M & P). apply patch_dict_ok in M. pose proof (drel_keys _ _ _ M) as K1.
    apply visit_ok in P as (g & fs2 & ints2 & base & url & ER & SH & K2 & _ & VF & _); [|congruence|exact KI]. rewrite C in VF. cbn [visit_field] in VF. rewrite ER in RS.
    assert (RX0 : forall n x, sget n fs = Some x -> reach [] mid [n] x) by (intros n x GX; rewrite EM; econstructor; [intros []|exact GX|constructor]).
    inversion RS as [|? ? ? n z us' ? _ GZ R'| |]; subst; [destruct CS as (? & ? & ? & X & Y); injection X as <- <- <-; destruct SH; congruence|].
    destruct (same_keys _ _ _ _ K2 GZ) as (y & GY). destruct (VF _ _ GY) as (z' & Z' & ->). assert (y = z) as -> by congruence. destruct (drel_get_r _ _ _ _ _ M GY) as (x & GX & PX).
    change (lit "#") with (rfc_pointer (lit "#") []) in PX. rewrite pointer_snoc in PX. cbn [List.app] in PX.
    pose proof (RX0 _ _ GX) as RX.
    assert (CALM : calm x -> exists ts', from ts' s). { intro K. eapply (calm_from z us' s R' x [n]); eauto. }
    destruct (shaped_field _ _ _ _ _ S GX) as [(_ & W)|(ct & cc & T & SI)]; [apply CALM; now right|]. rewrite C in T. destruct (swagger_child _ _ _ T) as [Q|(-> & -> & ->)]; [apply CALM; left; eauto|].
    inversion SI as [|? ? SO| |? d ND F]; subst.
    - cbn in PX. injection PX as <-. inversion R'; subst. destruct OS.
    - rewrite patch_dict_eq in PX. apply bind_ok in PX as (e & PE & PX). injection PX as <-. apply patch_dict_ok in PE. inversion R' as [| | |? k q us'' ? GK RK]; subst; [destruct OS|].
      destruct (drel_get_r _ _ _ _ _ PE GK) as (q0 & Q0 & PQ). rewrite pointer_snoc in PQ. cbn [List.app] in PQ. rewrite Forall_forall in F. eapply item_from; [|exact (F _ (sget_In _ _ _ Q0))|exact PQ|exact RK|exact CS].
      change [lit "paths"; k] with ([lit "paths"] ++ [k]). eapply reach_app; [exact RX|]. econstructor; [exact Q0|constructor].
  Qed.
  Lemma from_schema ts s : from ts s -> of_class CSchema s -> exists h fs ints, reach [] mid ts (VObj h fs ints) /\ h_cls h = CSchema /\ place_of s = Some (h_place h) /\ patch a None (rfc_pointer (lit "#") ts) (VObj h fs ints) = Ok s.
  Proof.
    intros (s0 & par & R & P) (g & es & jnts & -> & C). assert (T : typed_value mid) by (left; exists One, (Of CSwagger); now constructor).
    destruct (typed_reach _ _ _ R T) as [TP|(W & NO)]; [|rewrite patch_plain in P by assumption; injection P as ->; apply no_object_here in NO; elim NO; exact Logic.I].
    pose proof (patch_outside _ _ _ _ _ TP P) as O. inversion O as [? N| | |h ? fs ? ints ? A B]; subst; [elim N; exact Logic.I|]. exists h, fs, ints. split; [exact R|]. split; [congruence|]. split; [cbn; congruence|]. rewrite <- P. apply patch_parent. congruence.
  Qed.
  Lemma back_settled : placed mid -> settled root.
  Proof.
    intros PM ts s ts' s' (R & C) (R' & C') P. destruct (all_from _ _ R C) as (us & F). destruct (all_from _ _ R' C') as (us' & F').
    destruct (from_schema _ _ F C) as (h & fs & ints & A1 & _ & A2 & A3). destruct (from_schema _ _ F' C') as (h' & fs' & ints' & B1 & _ & B2 & B3).
    assert (h_place h = us) by exact (PM _ _ _ _ A1). assert (h_place h' = us') by exact (PM _ _ _ _ B1). assert (us = us') as <- by congruence. pose proof (reach_fun _ _ _ A1 _ B1) as X. rewrite X in B3. congruence.
  Qed.
End Back.

Lemma quiet_not c v : quiet c = false -> calm v -> of_class c v -> False.
Proof. intros Q K C. pose proof (calm_class _ _ K C). congruence. Qed.
Lemma path_items_at root ts o : shaped (Of CSwagger) root -> reach [] root ts o -> of_class CPathItem o -> exists k, path_item root k o.
Proof.
  intros SR R CO. assert (CALM : forall v ts, reach [] v ts o -> calm v -> False) by (intros v us RV K; eapply quiet_not; [|eapply calm_reach; eauto|exact CO]; reflexivity).
  destruct (shaped_swagger _ SR) as (hr & fr & ir & -> & CR). assert (SR' : shaped (Of (h_cls hr)) (VObj hr fr ir)) by (rewrite CR; exact SR).
  inversion R as [|? ? ? n x us ? _ G R1| |]; subst; [destruct CO as (? & ? & ? & X & Y); injection X as <- <- <-; congruence|].
  destruct (shaped_field _ _ _ _ _ SR' G) as [(_ & H)|(ct & cc & T & SI)]; [elim (CALM _ _ R1); now right|]. rewrite CR in T.
  destruct (swagger_child _ _ _ T) as [Q|(-> & -> & ->)]; [elim (CALM _ _ R1); left; eauto|].
  inversion SI as [|? ? S1| |c' d ND F]; subst; [inversion R1; subst; destruct CO as (? & ? & ? & X & _); discriminate X|]. inversion R1 as [| | |? k y us' ? GK R2]; subst; [destruct CO as (? & ? & ? & X & _); discriminate X|]. rewrite Forall_forall in F.
  pose proof (F _ (sget_In _ _ _ GK)) as SY. cbn [snd] in SY. destruct (shaped_obj _ _ SY) as (h & fs & ints & -> & C). rewrite <- C in SY.
  inversion R2 as [|? ? ? m z vs ? _ GM R3| |]; subst; [exists k, d; auto|].
  destruct (shaped_field _ _ _ _ _ SY GM) as [(_ & H)|(ct & cc & T2 & SI2)]; [elim (CALM _ _ R3); now right|]. rewrite C in T2.
  destruct (path_child _ _ _ T2) as [Q|(-> & ->)]; [elim (CALM _ _ R3); left; eauto|].
  inversion SI2 as [|? ? S2| |]; subst; [inversion R3; subst; destruct CO as (? & ? & ? & X & _); discriminate X|]. destruct (shaped_obj _ _ S2) as (g & es & jnts & -> & CG). rewrite <- CG in S2.
  inversion R3 as [|? ? ? n2 w ws ? _ GW R4| |]; subst.
  - destruct CO as (? & ? & ? & X & Y). injection X as <- <- <-. congruence.
  - elim (CALM _ _ R4). exact (fields_calm g es jnts n2 w (or_intror CG) S2 GW).
Qed.
Lemma placed_moved p pl v w : S_Convert.moved p pl v w -> forall ts h fs ints, reach [] w ts (VObj h fs ints) -> h_place h = pl ++ ts.
Proof.
  intros M ts h fs ints R. remember (VObj h fs ints) as o eqn:EO. revert p pl v M. induction R as [w|k es jnts n x ts o _ G R IH|l i x ts o G R IH|d k x ts o G R IH]; intros p pl v M; subst.
  - inversion M as [? ? ? NC| | |]; subst; [destruct NC|]. cbn [h_place]. now rewrite app_nil_r.
  - inversion M as [? ? ? NC| | |? ? h0 fs0 ? ? F]; subst; [destruct NC|]. apply (drel_get_r (fun n x y => exists q, S_Convert.told (h_cls h0) pl n q /\ S_Convert.moved q (pl ++ [n]) x y)) with (2 := G) in F as (x0 & _ & q & _ & MX). rewrite (IH eq_refl _ _ _ MX). now rewrite <- app_assoc.
  - inversion M as [? ? ? NC|? ? l0 ? L F| |]; subst; [destruct NC|]. destruct (same_length _ _ _ _ (eq_sym L) G) as (x0 & X0). rewrite (IH eq_refl _ _ _ (F _ _ _ X0 G)). now rewrite <- app_assoc.
  - inversion M as [? ? ? NC| |? ? d0 ? F|]; subst; [destruct NC|]. apply (drel_get_r (fun n x y => S_Convert.moved p (pl ++ [n]) x y)) with (2 := G) in F as (x0 & _ & MX). rewrite (IH eq_refl _ _ _ MX). now rewrite <- app_assoc.
Qed.
Lemma placed_brought u sw doc : S_Convert.brought u [] sw doc -> placed doc.
Proof. intros (q & x & M & N). apply (placed_normal u x doc N). intros ts h fs ints R. exact (placed_moved _ _ _ _ M _ _ _ _ R). Qed.

Section Prepared.
  Context (abs_uri win_uri : str -> str) (fetch : str -> res json) (prim : str -> bool) (float_of : str -> res Q) (sep : str) (fuel : nat) (b : bool).
  Context (nu u : str) (strict : bool) (o : @loaded val) (pr : prepared) (v0 mid root : val) (objs : list (str * val)) (l : list (tr_op str)).
  Hypothesis ST : steps abs_uri win_uri fetch prim float_of sep fuel b nu u strict o pr v0 mid root objs l.
  Lemma prepared_settled : shaped (Of CSwagger) v0 -> placed v0 -> (forall k pi, path_item v0 k pi -> field_of pi (lit "$ref") = Some VNone) -> settled root.
  Proof.
    intros SV PV NR. destruct ST as [_ _ _ GR SM _ PT _ _ _ _ _ _ _ _ _ _ _].
    assert (PM : placed mid). { apply (placed_grown _ _ _ GR); [|exact PV]. intros ts pi R C. destruct (path_items_at _ _ _ SV R C) as (k & PI). eauto. }
    unfold patch_app in PT. apply bind_ok in PT as (s & _ & PT). exact (back_settled (PApp mid nu s b) mid root SM eq_refl PT PM).
  Qed.
End Prepared.
