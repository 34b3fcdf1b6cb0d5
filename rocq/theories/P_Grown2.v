(** Lemmas: putting merged objects in place keeps the shape. *)
From Coq Require Import Lia.
From Verif Require Import PyBase PyFacts PyInt PyJson M_JsonPtr M_Url P_Op M_SpecVal M_Parse M_SpecTree M_Merge M_MergeRef S_Parse S_SpecTree S_Merge S_MergeRef P_SpecBase P_Parse P_SpecTree P_Compare P_Merge P_MergeShape P_MergeRef P_Patch M_App S_App P_App P_Deep M_Scope M_Patch M_Validate M_OldValidate M_OldParse M_Upgrade M_Prepare P_Grown.
Close Scope Q_scope.

Definition class_in (S : cls -> Prop) (v : val) : Prop := match v with VObj h _ _ => S (h_cls h) | _ => False end.
Definition low_ctx (cc : ctx) : Prop := match cc with Of c => low c | AddP => True end.
Lemma low_child c n ct cc : inner c -> sget n (t_child c) = Some (ct, cc) -> low_ctx cc.
Proof.
  intros IN G. apply sget_In in G.
  assert (X : forallb (fun x => match snd (snd x) with Of c => existsb (cls_eqb c) [CSchema; CItems; CHeader; CXML; CExternalDocs] | AddP => true end) (t_child c) = true)
    by (destruct IN as [->|[->|IN]]; [reflexivity..|]; repeat (destruct IN as [<-|IN]; [reflexivity|]); destruct IN).
  rewrite forallb_forall in X. specialize (X _ G). cbn [snd] in X. destruct cc as [c'|]; [|exact I]. apply existsb_exists in X as (c2 & X & Y). apply cls_eqb_eq in Y as ->. exact X.
Qed.
Lemma shaped_low v ts o : reach [] v ts o -> is_obj o ->
  (forall cc, shaped cc v -> low_ctx cc -> class_in low o) /\ (forall ct cc, shaped_in ct cc v -> low_ctx cc -> class_in low o).
Proof.
  assert (IN : forall ts o v, (forall cc, shaped cc v -> low_ctx cc -> class_in low o) -> ~ container v -> is_obj o -> reach [] v ts o -> forall ct cc, shaped_in ct cc v -> low_ctx cc -> class_in low o).
  { clear. intros ts o w H NC O R ct cc S L. inversion S as [|c' v' S'|c' l F|c' d N F]; subst.
    - inversion R; subst; contradiction.
    - eauto.
    - destruct NC. left. eauto.
    - destruct NC. right. eauto. }
  assert (AD : forall ts o v, (forall c, shaped (Of c) v -> low c -> class_in low o) -> forall cc, shaped cc v -> low_ctx cc -> is_obj o -> reach [] v ts o -> class_in low o).
  { clear. intros ts o w H cc S L O R. inversion S as [b|w' S'|h fs ints]; subst.
    - inversion R; subst; contradiction.
    - apply (H CSchema); [exact S'|]. left. reflexivity.
    - eapply H; eauto. }
  intro R. induction R as [v|h fs ints n v ts o NI G R IH|l i v ts o G R IH|d k v ts o G R IH]; intro O.
  - assert (A : forall cc, shaped cc v -> low_ctx cc -> class_in low v).
    { intros cc S L. eapply AD; eauto; [|constructor]. intros c S' L'. apply shaped_obj in S' as (h & fs & ints & -> & <-). exact L'. }
    split; [exact A|]. apply (IN []); auto; [|constructor]. intros [[? ->]|[? ->]]; contradiction.
  - assert (RR : reach [] (VObj h fs ints) (n :: ts) o) by (apply reach_field with (v := v); auto).
    assert (A : forall cc, shaped cc (VObj h fs ints) -> low_ctx cc -> class_in low o).
    { intros cc S L. eapply AD; eauto. intros c S' L'. pose proof (shaped_parts _ _ _ _ S') as (C & _). rewrite <- C in *. destruct (shaped_field _ _ _ _ _ S' G) as [(T & W & NO)|(ct & cc' & T & SC)].
      - exfalso. apply no_object_reach in R; [|exact NO]. exact (NO _ _ R O).
      - eapply (proj2 (IH O)); eauto. eapply low_child; eauto. right; right; exact L'. }
    split; [exact A|]. apply (IN (n :: ts)); auto. intros [[? X]|[? X]]; discriminate X.
  - split.
    + intros cc S L. inversion S as [|? S'|]; subst. inversion S'.
    + intros ct cc S L. inversion S as [|? ? S'|? ? F|]; subst; [inversion S' as [|? S2|]; subst; inversion S2|]. rewrite Forall_forall in F. eapply (proj1 (IH O)); eauto. apply F. eapply nth_error_In; eauto.
  - split.
    + intros cc S L. inversion S as [|? S'|]; subst. inversion S'.
    + intros ct cc S L. inversion S as [|? ? S'| |? ? N F]; subst; [inversion S' as [|? S2|]; subst; inversion S2|]. rewrite Forall_forall in F. eapply (proj1 (IH O)); eauto. exact (F _ (sget_In _ _ _ G)).
Qed.

Lemma inner_below h fs ints t ts o : shaped (Of (h_cls h)) (VObj h fs ints) -> inner (h_cls h) -> reach [] (VObj h fs ints) (t :: ts) o -> is_obj o -> class_in low o.
Proof.
  intros S IN R O. inversion R as [|? ? ? ? v ? ? NI G R'| |]; subst. destruct (shaped_field _ _ _ _ _ S G) as [(T & W & NO)|(ct & cc' & T & SC)].
  - exfalso. apply no_object_reach in R'; [|exact NO]. exact (NO _ _ R' O).
  - eapply (proj2 (shaped_low _ _ _ R' O)); eauto. eapply low_child; eauto.
Qed.
Lemma reach_prefix v ts o : reach [] v ts o -> forall us vs, ts = us ++ vs -> exists w, reach [] v us w /\ reach [] w vs o.
Proof.
  induction 1 as [v|h fs ints n v ts o NI G R IH|l i v ts o G R IH|d k v ts o G R IH]; intros us vs E.
  - symmetry in E. apply app_eq_nil in E as [-> ->]. exists v. split; constructor.
  - destruct us as [|u us]; cbn in E; [subst vs; eexists; split; [constructor|econstructor; eauto]|]. injection E as <- E. destruct (IH _ _ E) as (w & A & B). exists w. split; [econstructor; eauto|exact B].
  - destruct us as [|u us]; cbn in E; [subst vs; eexists; split; [constructor|econstructor; eauto]|]. injection E as <- E. destruct (IH _ _ E) as (w & A & B). exists w. split; [econstructor; eauto|exact B].
  - destruct us as [|u us]; cbn in E; [subst vs; eexists; split; [constructor|econstructor; eauto]|]. injection E as <- E. destruct (IH _ _ E) as (w & A & B). exists w. split; [econstructor; eauto|exact B].
Qed.
Definition merged_class (c : cls) : Prop := c = CParameter \/ c = CResponse \/ c = CPathItem.
Lemma clear_merged v ts h fs ints : deep v -> reach [] v ts (VObj h fs ints) -> merged_class (h_cls h) -> clear_above v ts.
Proof.
  intros D R M us vs h' fs' ints' -> NV RU IN. destruct (reach_prefix _ _ _ R _ _ eq_refl) as (w & A & B). pose proof (reach_fun _ _ _ A _ RU). subst w.
  destruct vs as [|t vs]; [now destruct NV|]. assert (L : class_in low (VObj h fs ints)).
  { eapply inner_below; eauto; [|exact I]. apply deep_shaped. eapply deep_reach; eauto. }
  cbn [class_in] in L. destruct M as [M|[M|M]]; rewrite M in L; repeat (destruct L as [L|L]; [discriminate L|]); destruct L.
Qed.

Lemma put_deep v ts h fs ints k es jnts : reach [] v ts (VObj h fs ints) -> deep v -> wfv v -> deep (VObj k es jnts) -> h_cls k = h_cls h ->
  deep (put_at ts (VObj k es jnts) v) /\ (forall cc, shaped cc v -> shaped cc (put_at ts (VObj k es jnts) v)) /\
  (forall ct cc, shaped_in ct cc v -> shaped_in ct cc (put_at ts (VObj k es jnts) v)).
Proof.
  intros R D W DX C. assert (SX : shaped (Of (h_cls h)) (VObj k es jnts)) by (rewrite <- C; now apply deep_shaped).
  remember (VObj h fs ints) as o eqn:EO. revert EO.
  assert (IN : forall v w, is_obj v -> (forall cc, shaped cc v -> shaped cc w) -> forall ct cc, shaped_in ct cc v -> shaped_in ct cc w).
  { intros x w O H ct cc S. inversion S; subst; try contradiction. constructor. auto. }
  assert (AD : forall v w, is_obj v -> (forall c, shaped (Of c) v -> shaped (Of c) w) -> forall cc, shaped cc v -> shaped cc w).
  { intros x w O H cc S. inversion S as [b|w' S'|g gs gnts]; subst; [contradiction|constructor; auto|auto]. }
  induction R as [v|g gs gnts n v ts o NI G R IH|l i v ts o G R IH|d n v ts o G R IH]; intros ->.
  - cbn [put_at]. split; [exact DX|]. assert (A : forall cc, shaped cc (VObj h fs ints) -> shaped cc (VObj k es jnts)).
    { apply AD; [exact I|]. intros c S. apply shaped_parts in S as (<- & _). exact SX. }
    split; [exact A|]. apply IN; [exact I|exact A].
  - assert (WV : wfv v) by (inversion W as [| | | | | | |? ? ? ? FW]; subst; rewrite Forall_forall in FW; exact (FW _ (sget_In _ _ _ G))).
    specialize (IH (deep_field _ _ _ _ _ D G) WV eq_refl) as (I1 & I2 & I3). rewrite put_obj.
    assert (A : forall c, shaped (Of c) (VObj g gs gnts) -> shaped (Of c) (VObj g (map (put_in n ts (VObj k es jnts)) gs) gnts)).
    { intros c S. pose proof (shaped_parts _ _ _ _ S) as (<- & KF & KI & PL). constructor; auto.
      - now rewrite put_in_keys.
      - intros m x X T. rewrite put_in_get in X. destruct (sget m gs) as [y|] eqn:Y; [|discriminate X]. cbn [option_map] in X. injection X as <-. destruct (str_eqb m n) eqn:E; [|eauto]. apply str_eqb_eq in E as ->.
        exfalso. rewrite G in Y. injection Y as <-. destruct (PL _ _ G T) as (_ & NO). pose proof (no_object_reach _ _ _ R NO) as RI. exact (NO _ _ RI Logic.I).
      - intros m x ct cc X T. rewrite put_in_get in X. destruct (sget m gs) as [y|] eqn:Y; [|discriminate X]. cbn [option_map] in X. injection X as <-. pose proof (shaped_child _ _ _ _ _ _ _ _ S Y T) as SC.
        destruct (str_eqb m n) eqn:E; [|exact SC]. apply str_eqb_eq in E as ->. rewrite G in Y. injection Y as <-. auto. }
    split; [|assert (A' : forall cc, shaped cc (VObj g gs gnts) -> shaped cc (VObj g (map (put_in n ts (VObj k es jnts)) gs) gnts)) by (apply AD; [exact Logic.I|exact A]);
      split; [exact A'|apply IN; [exact Logic.I|exact A']]].
    apply deep_obj in D as (DS & DN & DF & DI). apply dp_obj; auto. apply Forall_map. rewrite Forall_forall in *. intros [m x] X. unfold put_in. cbn [fst snd]. destruct (str_eqb m n) eqn:E; [|exact (DF _ X)]. cbn [snd].
    apply str_eqb_eq in E as ->. assert (sget n gs = Some x) as Y. { apply In_sget; [|exact X]. apply shaped_parts in DS as (_ & -> & _). apply fields_nodup. } rewrite G in Y. injection Y as <-. exact I1.
  - pose proof D as DL. rewrite deep_list, Forall_forall in DL. assert (WV : wfv v) by (inversion W as [| | | | |? FW| |]; subst; rewrite Forall_forall in FW; exact (FW _ (nth_error_In _ _ G))).
    specialize (IH (DL _ (nth_error_In _ _ G)) WV eq_refl) as (I1 & I2 & I3). rewrite put_list. split; [|split].
    + apply deep_list, Forall_forall. intros y Y. apply In_nth_error in Y as (j & Y). rewrite put_nth_get in Y. cbn [Nat.add] in Y. destruct (nth_error l j) as [x|] eqn:X; [|discriminate Y]. cbn [option_map] in Y. injection Y as <-.
      destruct (str_eqb _ _) eqn:E; [|exact (DL _ (nth_error_In _ _ X))]. apply str_eqb_eq in E. apply str_of_nat_inj in E as ->. rewrite G in X. injection X as <-. exact I1.
    + intros cc S. inversion S as [|? S'|]; subst. inversion S'.
    + intros ct cc S. inversion S as [|? ? S'|? ? F|]; subst; [inversion S' as [|? S2|]; subst; inversion S2|]. constructor. rewrite Forall_forall in *. intros y Y.
      apply In_nth_error in Y as (j & Y). rewrite put_nth_get in Y. cbn [Nat.add] in Y. destruct (nth_error l j) as [x|] eqn:X; [|discriminate Y]. cbn [option_map] in Y. injection Y as <-.
      destruct (str_eqb _ _) eqn:E; [|exact (F _ (nth_error_In _ _ X))]. apply str_eqb_eq in E. apply str_of_nat_inj in E as ->. rewrite G in X. injection X as <-. apply I2, F. eapply nth_error_In; eauto.
  - pose proof D as DL. rewrite deep_dict, Forall_forall in DL. inversion W as [| | | | | |? ND FW|]; subst. rewrite Forall_forall in FW.
    specialize (IH (DL _ (sget_In _ _ _ G)) (FW _ (sget_In _ _ _ G)) eq_refl) as (I1 & I2 & I3). rewrite put_dict.
    assert (EV : forall Q : val -> Prop, (forall kx, In kx d -> Q (snd kx)) -> (Q v -> Q (put_at ts (VObj k es jnts) v)) -> Forall (fun kx => Q (snd kx)) (map (put_in n ts (VObj k es jnts)) d)).
    { intros Q HA HV. apply Forall_map, Forall_forall. intros [m x] X. unfold put_in. cbn [fst snd]. destruct (str_eqb m n) eqn:E; [|exact (HA _ X)]. cbn [snd]. apply str_eqb_eq in E as ->.
      pose proof (In_sget _ _ _ ND X) as Y. rewrite G in Y. injection Y as <-. apply HV. exact (HA _ X). }
    split; [|split].
    + apply deep_dict. apply EV; auto.
    + intros cc S. inversion S as [|? S'|]; subst. inversion S'.
    + intros ct cc S. inversion S as [|? ? S'| |? ? N F]; subst; [inversion S' as [|? S2|]; subst; inversion S2|]. constructor; [now rewrite put_in_keys|]. rewrite Forall_forall in F. apply (EV (shaped cc)); auto.
Qed.
