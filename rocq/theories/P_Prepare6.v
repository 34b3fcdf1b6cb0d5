(** Lemmas for prepared applications: operations, parameters and responses. *)
From Coq Require Import Lia.
From Verif Require Import PyBase PyFacts PyInt PyJson M_JsonPtr S_JsonPtr M_Url P_Op M_SpecVal M_Parse M_SpecTree M_Merge M_MergeRef S_Parse S_SpecTree S_Merge S_MergeRef P_SpecBase P_Parse P_SpecTree P_Compare P_Merge P_MergeShape P_MergeRef M_Scope M_Patch S_Patch P_Patch P_PatchOp M_App S_App P_App P_Deep M_Prepare P_Grown P_Grown2 S_Prepare P_Prepare P_Prepare3 P_Prepare4 P_Prepare5.
Close Scope Q_scope.

(** ** Path items and operations *)
Lemma grown_path_item P doc mid k pi : path_item doc k pi -> grown P doc mid -> shaped (Of CSwagger) doc -> exists pi1, path_item mid k pi1 /\ grown (fun us => P (lit "paths" :: k :: us)) pi pi1.
Proof.
  intros (ps & FP & GK & (h & fs & ints & -> & C)) G SR. destruct (shaped_swagger _ SR) as (hr & fr & ir & -> & CR). cbn [field_of] in FP.
  apply grown_obj in G as (g & es & jnts & -> & CG & _ & K & _ & F & _). destruct (same_keys _ _ _ _ K FP) as (y & Y). destruct (F _ _ _ FP Y) as [GY|(X & _)]; [|congruence].
  apply grown_dict in GY as (e & -> & KE & FE). destruct (same_keys _ _ _ _ KE GK) as (z & Z). pose proof (FE _ _ _ GK Z) as GZ. exists z. split; [|exact GZ].
  exists e. split; [exact Y|]. split; [exact Z|]. apply grown_class in GZ as (g1 & es1 & jn1 & -> & C1 & _). exists g1, es1, jn1. split; [reflexivity|congruence].
Qed.
Lemma grown_operation P pi pi1 m op : operation pi m op -> grown P pi pi1 -> exists op1, operation pi1 m op1 /\ grown (fun us => P (m :: us)) op op1.
Proof.
  intros (FM & (h & fs & ints & -> & C)) G. destruct pi as [| | | | | | |hp fp ip]; try discriminate FM. cbn [field_of] in FM.
  apply grown_obj in G as (g & es & jnts & -> & CG & _ & K & _ & F & _). destruct (same_keys _ _ _ _ K FM) as (y & Y). destruct (F _ _ _ FM Y) as [GY|(_ & _ & X)].
  - exists y. split; [|exact GY]. split; [exact Y|]. apply grown_class in GY as (g1 & es1 & jn1 & -> & C1 & _). exists g1, es1, jn1. split; [reflexivity|congruence].
  - destruct X as [X|[X|(_ & X)]]; [discriminate X|discriminate X|]. apply no_object_here in X. elim X. exact Logic.I.
Qed.
Lemma path_item_reach root k pi : path_item root k pi -> reach [] root [lit "paths"; k] pi.
Proof.
  intros (ps & FP & GK & _). destruct root as [| | | | | | |hr fr ir]; try discriminate FP. cbn [field_of] in FP. econstructor; [intros []|exact FP|]. econstructor; [exact GK|constructor].
Qed.
Lemma reach_app v ts o : reach [] v ts o -> forall us o', reach [] o us o' -> reach [] v (ts ++ us) o'.
Proof. induction 1; intros us o' R; cbn [List.app]; [exact R|..]; econstructor; eauto. Qed.
Lemma operation_reach root k pi m op : path_item root k pi -> operation pi m op -> reach [] root [lit "paths"; k; m] op.
Proof.
  intros PI (FM & _). apply path_item_reach in PI. change [lit "paths"; k; m] with ([lit "paths"; k] ++ [m]). eapply reach_app; [exact PI|]. destruct pi as [| | | | | | |hp fp ip]; try discriminate FM. cbn [field_of] in FM.
  econstructor; [intros []|exact FM|constructor].
Qed.
(** Operations are nowhere else. *)
Lemma calm_reach v ts o : reach [] v ts o -> calm v -> calm o.
Proof.
  induction 1 as [v|h fs ints n v ts o NI G R IH|l i v ts o G R IH|d k v ts o G R IH]; intro K; [exact K|..]; apply IH.
  - destruct (calm_obj _ _ _ K) as (Q & S). eapply fields_calm; eauto.
  - eapply calm_item; [exact K|]. eapply nth_error_In; eauto.
  - eapply calm_key; [exact K|]. exact (sget_In _ _ _ G).
Qed.
Lemma calm_class c v : calm v -> of_class c v -> quiet c = true.
Proof. intros K (h & fs & ints & -> & <-). now destruct (calm_obj _ _ _ K). Qed.
Lemma swagger_child n ct cc : sget n (t_child CSwagger) = Some (ct, cc) -> quiet_ctx cc = true \/ n = lit "paths" /\ ct = DictOf /\ cc = Of CPathItem.
Proof. intro G. apply sget_In in G. cbn in G. repeat (destruct G as [G|G]; [injection G as <- <- <-; auto|]); destruct G. Qed.
Lemma path_child n ct cc : sget n (t_child CPathItem) = Some (ct, cc) -> quiet_ctx cc = true \/ ct = One /\ cc = Of COperation.
Proof. intro G. apply sget_In in G. cbn in G. repeat (destruct G as [G|G]; [injection G as <- <- <-; auto|]); destruct G. Qed.
Lemma operations_at root ts o : shaped (Of CSwagger) root -> reach [] root ts o -> of_class COperation o -> exists k m pi, ts = [lit "paths"; k; m] /\ path_item root k pi /\ operation pi m o.
Proof.
  intros SR R CO. assert (IO : is_obj o) by (destruct CO as (? & ? & ? & -> & _); exact Logic.I).
  assert (CALM : forall v ts, reach [] v ts o -> calm v -> False). { intros v us RV K. pose proof (calm_class _ _ (calm_reach _ _ _ RV K) CO). discriminate. }
  destruct (shaped_swagger _ SR) as (hr & fr & ir & -> & CR). assert (SR' : shaped (Of (h_cls hr)) (VObj hr fr ir)) by (rewrite CR; exact SR).
  inversion R as [|? ? ? n x us ? _ G R1| |]; subst; [destruct CO as (? & ? & ? & X & Y); injection X as <- <- <-; congruence|].
  destruct (shaped_field _ _ _ _ _ SR' G) as [(_ & H)|(ct & cc & T & SI)]; [elim (CALM _ _ R1); now right|]. rewrite CR in T.
  destruct (swagger_child _ _ _ T) as [Q|(-> & -> & ->)]; [elim (CALM _ _ R1); left; eauto|].
  inversion SI as [|? ? S1| |c' d ND F]; subst; [inversion R1; subst; contradiction|]. inversion R1 as [| | |? k y us' ? GK R2]; subst; [contradiction|]. rewrite Forall_forall in F.
  pose proof (F _ (sget_In _ _ _ GK)) as SY. cbn [snd] in SY. destruct (shaped_obj _ _ SY) as (h & fs & ints & -> & C). rewrite <- C in SY.
  inversion R2 as [|? ? ? m z vs ? _ GM R3| |]; subst; [destruct CO as (? & ? & ? & X & Y); injection X as <- <- <-; congruence|].
  destruct (shaped_field _ _ _ _ _ SY GM) as [(_ & H)|(ct & cc & T2 & SI2)]; [elim (CALM _ _ R3); now right|]. rewrite C in T2.
  destruct (path_child _ _ _ T2) as [Q|(-> & ->)]; [elim (CALM _ _ R3); left; eauto|].
  inversion SI2 as [|? ? S2| |]; subst; [inversion R3; subst; contradiction|]. destruct (shaped_obj _ _ S2) as (g & es & jnts & -> & CG). rewrite <- CG in S2.
  inversion R3 as [|? ? ? n2 w ws ? _ GW R4| |]; subst.
  - exists k, m, (VObj h fs ints). split; [reflexivity|]. split; [exists d; split; [exact G|]; split; [exact GK|]; exists h, fs, ints; auto|]. split; [exact GM|exact CO].
  - elim (CALM _ _ R4). exact (fields_calm g es jnts n2 w (or_intror CG) S2 GW).
Qed.

(** ** Parameters and responses *)
Lemma grown_item_class P h fs ints y : h_cls h = CParameter \/ h_cls h = CResponse -> grown P (VObj h fs ints) y -> exists g jnts, y = VObj g fs jnts /\ h_cls g = h_cls h /\ h_place g = h_place h.
Proof. intros C G. apply grown_alike in G as (_ & H); [exact H|]. destruct C as [-> | ->]; [now left|right; now left]. Qed.
Section Finals.
  Context (abs_uri win_uri : str -> str) (u : str) (doc mid : val).
  Hypothesis FN : finals abs_uri win_uri u doc mid.
  Hypothesis GR : grown (fun _ => True) doc mid.
  Notation completed := (completed abs_uri win_uri u doc).
  Notation completed_in := (completed_in abs_uri win_uri u doc).
  Definition part_class (c : cls) : Prop := c = CParameter \/ c = CResponse.
  Lemma completed_mid ts p : reach [] doc ts p -> (exists c, part_class c /\ of_class c p) -> exists p1, reach [] mid ts p1 /\ completed p p1.
  Proof.
    intros R (c & PC & (h & fs & ints & -> & C)). rewrite <- C in PC. destruct (FN _ _ _ _ R PC) as (g & jnts & f & R1 & F & W). exists (VObj g fs jnts). split; [exact R1|].
    destruct (grown_reach _ _ _ _ _ R Logic.I GR) as (o' & R2 & G2). rewrite (reach_fun _ _ _ R1 _ R2) in G2. apply grown_item_class in G2 as (g' & j' & X & Y & Z); [|exact PC]. injection X as <- <-.
    exists h, g, fs, ints, jnts, f. auto 10.
  Qed.
  Lemma completed_field ts n c ct x y : reach [] doc (ts ++ [n]) x -> reach [] mid (ts ++ [n]) y -> (exists P, grown P x y) -> ct <> One -> shaped_in ct (Of c) x -> part_class c -> completed_in x y.
  Proof.
    intros RX RY (P & G) N1 SI PC. inversion SI as [|? ? S1|? l F|? d ND F]; subst; [apply grown_scalar in G as ->; [constructor|exact Logic.I]|congruence|..].
    - apply grown_list in G as (m & -> & L & E). constructor. rewrite Forall_forall in F.
      assert (H : forall i x y, nth_error l i = Some x -> nth_error m i = Some y -> completed x y).
      { intros i x y X Y. assert (CX : of_class c x) by (apply (shaped_obj c); apply F; eapply nth_error_In; eauto).
        destruct (completed_mid (ts ++ [n] ++ [str_of_nat i]) x) as (p1 & R1 & CP); [|eauto|].
        - rewrite app_assoc. eapply reach_app; [exact RX|]. econstructor; [exact X|constructor].
        - rewrite app_assoc in R1. assert (R2 : reach [] mid ((ts ++ [n]) ++ [str_of_nat i]) y) by (eapply reach_app; [exact RY|]; econstructor; [exact Y|constructor]).
          rewrite (reach_fun _ _ _ R1 _ R2). exact CP. }
      clear - H L. revert m L H. induction l as [|x l IH]; intros [|y m] L H; try discriminate L; constructor; [apply (H 0); reflexivity|]. apply IH; [now injection L|]. intros i x' y' X Y. exact (H (S i) x' y' X Y).
    - apply grown_dict in G as (e & -> & L & E). constructor. rewrite Forall_forall in F.
      assert (H : forall k x y, sget k d = Some x -> sget k e = Some y -> completed x y).
      { intros k x y X Y. assert (CX : of_class c x) by (apply (shaped_obj c); apply (F (k, x)); now apply sget_In).
        destruct (completed_mid (ts ++ [n] ++ [k]) x) as (p1 & R1 & CP); [|eauto|].
        - rewrite app_assoc. eapply reach_app; [exact RX|]. econstructor; [exact X|constructor].
        - rewrite app_assoc in R1. assert (R2 : reach [] mid ((ts ++ [n]) ++ [k]) y) by (eapply reach_app; [exact RY|]; econstructor; [exact Y|constructor]).
          rewrite (reach_fun _ _ _ R1 _ R2). exact CP. }
      assert (NE : NoDup (map fst e)) by (rewrite <- L; exact ND). clear - H L ND NE. revert e L NE H. induction d as [|[k x] d IH]; intros [|[k' y] e] L NE H; try discriminate L; constructor.
      + injection L as -> L. cbn [fst snd]. split; [reflexivity|]. apply (H k'); rewrite sget_cons, str_eqb_refl; reflexivity.
      + injection L as -> L. cbn [map fst] in ND, NE. inversion ND as [|? ? N1 N2]; subst. inversion NE as [|? ? M1 M2]; subst. apply IH; auto. intros j a b A B. apply (H j); rewrite sget_cons.
        * destruct (str_eqb_spec j k') as [->|_]; [|exact A]. elim N1. apply sget_In in A. apply (in_map fst) in A. exact A.
        * destruct (str_eqb_spec j k') as [->|_]; [|exact B]. elim M1. apply sget_In in B. apply (in_map fst) in B. exact B.
  Qed.
End Finals.

(** ** What PatchObject leaves alone *)
Definition away (p : str) : Prop := prefixb (lit "#/definitions") p = false /\ prefixb p (lit "#/definitions") = false.
Lemma prefix_either (a b r s : str) : a ++ r = b ++ s -> prefixb a b = true \/ prefixb b a = true.
Proof.
  revert b. induction a as [|x a IH]; intros [|y b] E; [now left|now left|now right|]. cbn [List.app] in E. injection E as -> E. cbn [prefixb]. rewrite Ascii.eqb_refl. cbn [andb]. eauto.
Qed.
Lemma away_app p r : away p -> away (p ++ r).
Proof.
  intros (A & B). split.
  - destruct (prefixb (lit "#/definitions") (p ++ r)) eqn:E; [|reflexivity]. apply prefixb_spec in E as (s & E). destruct (prefix_either _ _ _ _ E); congruence.
  - destruct (prefixb (p ++ r) (lit "#/definitions")) eqn:E; [|reflexivity]. apply prefixb_spec in E as (s & E). rewrite <- app_assoc in E.
    assert (X : prefixb p (lit "#/definitions") = true) by (apply prefixb_spec; eauto). congruence.
Qed.
Lemma away_sub k p : p <> [] -> away p -> away (sub k p).
Proof. intros N A. rewrite sub_pointer by exact N. unfold rfc_pointer. now apply away_app. Qed.
Lemma away_nonempty p : away p -> p <> [].
Proof. intros (_ & B) ->. discriminate B. Qed.
Lemma patch_away a v : calm v -> forall par path, away path -> patch a par path v = Ok v.
Proof.
  induction v as [| | | | |l IH|d IH|h fs ints IH] using val_ind'; intros K par path P; try reflexivity; assert (SB : forall k, away (sub k path)) by (intro; apply away_sub; [now apply away_nonempty|exact P]).
  - rewrite patch_list_eq, patch_list_id; [reflexivity|]. intros i x IN. rewrite Forall_forall in IH. apply IH; [exact IN|eapply calm_item; eauto|apply SB].
  - rewrite patch_dict_eq, patch_dict_id; [reflexivity|]. intros k x IN. rewrite Forall_forall in IH. apply (IH _ IN); [eapply calm_key; eauto|apply SB].
  - destruct (calm_obj _ _ _ K) as (Q & S). rewrite patch_obj_eq, patch_dict_id.
    + cbn [bind patch_visit]. destruct (h_cls h) eqn:C; try discriminate Q; try reflexivity. unfold patch_schema, startswith. destruct P as (-> & _). reflexivity.
    + intros k x IN. rewrite Forall_forall in IH. apply (IH _ IN); [|apply SB]. apply (fields_calm h fs ints k x (or_introl Q) S). apply In_sget; [|exact IN]. destruct (class_complete _ _ _ S) as (-> & _). apply fields_nodup.
Qed.
Lemma away_pointer t ts : t <> lit "definitions" -> sget t (t_fields CSwagger) <> None -> away (rfc_pointer (lit "#") (t :: ts)).
Proof.
  intros N F. assert (I : In t (map fst (t_fields CSwagger))). { destruct (sget t (t_fields CSwagger)) eqn:G; [|congruence]. apply sget_In in G. apply (in_map fst) in G. exact G. }
  change (rfc_pointer (lit "#") (t :: ts)) with (lit "#" ++ (("/"%char :: rfc_escape t) ++ flat_map (fun t => "/"%char :: rfc_escape t) ts)). rewrite app_assoc. apply away_app. clear F ts.
  cbn in I. repeat (destruct I as [<-|I]; [first [elim N; reflexivity|split; reflexivity]|]). destruct I.
Qed.
Lemma patch_keeps url old mid root ts p : shaped (Of CSwagger) mid -> patch_app url old mid = Ok root -> reach [] mid ts p -> (exists c, part_class c /\ of_class c p) -> reach [] root ts p.
Proof.
  intros SM E R (c & PC & (h & fs & ints & -> & C)). unfold patch_app in E. apply bind_ok in E as (s & _ & E).
  assert (T : typed_value mid) by (left; exists One, (Of CSwagger); now constructor).
  destruct (patch_at _ _ _ _ R None (lit "#") root ltac:(discriminate) T E (or_introl Logic.I)) as (x' & R' & _ & PX). destruct (PX Logic.I) as (par' & x1 & P1 & T1).
  assert (TP : tame (VObj h fs ints)). { destruct (typed_reach _ _ _ R T) as [TP|(_ & N)]; [exact TP|]. apply no_object_here in N. elim N. exact Logic.I. }
  assert (K : calm (VObj h fs ints)). { apply tame_obj in TP. left. exists One, (Of (h_cls h)). split; [rewrite C; destruct PC as [-> | ->]; reflexivity|]. now constructor. }
  assert (AW : away (rfc_pointer (lit "#") ts)).
  { destruct (shaped_swagger _ SM) as (hr & fr & ir & -> & CR). assert (SR' : shaped (Of (h_cls hr)) (VObj hr fr ir)) by (rewrite CR; exact SM).
    inversion R as [|? ? ? n x us ? _ G R1| |]; subst; [destruct PC as [X|X]; rewrite CR in X; discriminate X|].
    apply away_pointer.
    - intros ->. destruct (shaped_field _ _ _ _ _ SR' G) as [(X & _)|(ct & cc & T2 & SI)]; [rewrite CR in X; discriminate X|]. rewrite CR in T2. injection T2 as <- <-.
      pose proof (proj2 (shaped_low _ _ _ R1 Logic.I) _ _ SI (or_introl eq_refl)) as L. cbn [class_in] in L. destruct PC as [X|X]; rewrite X in L; repeat (destruct L as [L|L]; [discriminate L|]); destruct L.
    - destruct (shaped_parts _ _ _ _ SR') as (_ & KF & _). destruct (same_keys _ _ _ _ KF G) as (z & Z). rewrite CR in Z. rewrite Z. discriminate. }
  rewrite (patch_away _ _ K _ _ AW) in P1. injection P1 as <-. destruct T1 as [<-|(_ & [<-|(h1 & f1 & i1 & b1 & u1 & k1 & n1 & X & C1 & _)])]; [exact R'|exact R'|]. injection X as <- <- <-. destruct PC as [X|X]; congruence.
Qed.
