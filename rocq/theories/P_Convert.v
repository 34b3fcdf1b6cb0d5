(** Lemmas on converted documents: places and parents. *)
From Coq Require Import Lia.
From Verif Require Import PyBase PyFacts PyInt PyJson M_JsonPtr S_JsonPtr M_Url P_Op M_SpecVal M_Parse M_SpecTree M_Merge M_MergeRef S_Parse S_SpecTree S_Merge S_MergeRef P_SpecBase P_Parse P_SpecTree P_Compare P_Merge P_MergeShape P_MergeRef M_App S_App P_App P_Deep M_Prepare S_Convert.
Close Scope Q_scope.

Definition relocate_list (pl : place) := fix go (i : nat) (l : list val) : list val := match l with [] => [] | x :: l => relocate (pl ++ [str_of_nat i]) x :: go (S i) l end.
Definition relocate_dict (pl : place) := fix go (d : sdict val) : sdict val := match d with [] => [] | (k, x) :: d => (k, relocate (pl ++ [k]) x) :: go d end.
Definition assign_list := fix go (l : list val) : res (list val) := match l with [] => Ok [] | x :: l => do y <- assign_parents x; do l' <- go l; Ok (y :: l') end.
Definition assign_dict := fix go (d : sdict val) : res (sdict val) := match d with [] => Ok [] | (k, x) :: d => do y <- assign_parents x; do d' <- go d; Ok ((k, y) :: d') end.
Lemma assign_obj h fs ints : assign_parents (VObj h fs ints) =
  do fs <- assign_dict fs; do fs <- (if assigns (h_cls h) then assign_fields (h_place h) (t_child (h_cls h)) fs else Ok fs); Ok (VObj h fs ints).
Proof. reflexivity. Qed.
Lemma assigns_tells c : assigns c = true <-> tells c.
Proof. unfold tells. destruct c; cbn; intuition (auto; discriminate). Qed.
Lemma relocate_nth pl l : forall i j y, nth_error (relocate_list pl i l) j = Some y -> exists x, nth_error l j = Some x /\ y = relocate (pl ++ [str_of_nat (i + j)]) x.
Proof.
  induction l as [|x l IH]; intros i j y E; cbn in E; [destruct j; discriminate E|]. destruct j as [|j]; cbn [nth_error] in *.
  - injection E as <-. exists x. now rewrite Nat.add_0_r.
  - apply IH in E as (z & Z & ->). exists z. split; [exact Z|]. now rewrite <- Nat.add_succ_comm.
Qed.
Lemma relocate_len pl l : forall i, length (relocate_list pl i l) = length l.
Proof. induction l as [|x l IH]; intro i; cbn; [reflexivity|]. f_equal. apply IH. Qed.
Lemma assign_list_ok l : forall m, assign_list l = Ok m -> Forall2 (fun x y => assign_parents x = Ok y) l m.
Proof.
  induction l as [|x l IH]; intros m E; cbn in E; [injection E as <-; constructor|].
  apply bind_ok in E as (y & Y & E). apply bind_ok in E as (l' & L & E). injection E as <-. constructor; auto.
Qed.
Lemma assign_dict_ok d : forall e, assign_dict d = Ok e -> Forall2 (fun kx ky => fst kx = fst ky /\ assign_parents (snd kx) = Ok (snd ky)) d e.
Proof.
  induction d as [|[k x] d IH]; intros e E; cbn in E; [injection E as <-; constructor|].
  apply bind_ok in E as (y & Y & E). apply bind_ok in E as (l' & L & E). injection E as <-. constructor; auto.
Qed.
Lemma relocate_dict_ok pl d : Forall2 (fun kx ky => fst kx = fst ky /\ snd ky = relocate (pl ++ [fst kx]) (snd kx)) d (relocate_dict pl d).
Proof. induction d as [|[k x] d IH]; cbn; constructor; auto. Qed.
Lemma Forall2_trans_In {A B C} (P : A -> B -> Prop) (Q : B -> C -> Prop) (R : A -> C -> Prop) l : forall m n, Forall2 P l m -> Forall2 Q m n ->
  (forall x y z, In x l -> P x y -> Q y z -> R x z) -> Forall2 R l n.
Proof.
  induction l as [|x l IH]; intros m n F G H; inversion F; subst; inversion G; subst; constructor; [eapply H; eauto; now left|].
  eapply IH; eauto. intros a b c I. apply H. now right.
Qed.
Lemma Forall2_nth_r {A B} (P : A -> B -> Prop) l m i y : Forall2 P l m -> nth_error m i = Some y -> exists x, nth_error l i = Some x /\ P x y.
Proof. intro F. revert i. induction F as [|a b l m X F IH]; intros [|i] E; cbn in *; try discriminate E; [injection E as <-; eauto|auto]. Qed.
(** Told later *)
Lemma moved_told q pl x y c z : moved None pl x y -> assign1 q c y = Ok z -> moved (Some q) pl x z.
Proof.
  intros M E. unfold assign1 in E. destruct y as [| b | n | r | s | l | d | h es ints].
  1: { injection E as <-. inversion M; subst. now constructor. }
  1-6: destruct (is_produced c _) eqn:PR; [|discriminate E]; injection E as <-; inversion M; subst; try (now constructor); destruct c; discriminate PR.
  destruct (is_produced c _) eqn:PR; [|discriminate E]. injection E as <-. inversion M as [? ? ? N| | |? ? h0 fs es' ints' F]; subst; [destruct N|]. cbn [set_parent h_cls h_place h_keys].
  change (Some q) with (parent_now (Some q) h0) at 2. now constructor.
Qed.
Lemma moved_field q pl ct cc x y z : moved None pl x y -> assign_field q ct cc y = Ok z -> moved (Some q) pl x z.
Proof.
  intros M E. unfold assign_field in E. apply bind_ok in E as (z' & E & X). injection X as X.
  destruct y as [| b | n | r | s | l | d | h es ints]; destruct ct; cbn [container_apply] in E; try discriminate E; try (subst z; eapply (moved_told q pl x _ cc); eauto; fail); try (subst z; injection E as <-; inversion M; subst; constructor; auto; fail).
  - subst z. inversion M; subst. now constructor.
  - apply bind_ok in E as (l' & ML & E). injection E as <-. subst z. apply map_res_ok in ML. inversion M as [|? ? l0 m L F| |]; subst; [now destruct H|]. constructor; [now rewrite L; apply Forall2_len in ML|].
    intros i a b A B. destruct (Forall2_nth_r _ _ _ _ _ ML B) as (y & Y & AY). eapply moved_told; [|exact AY]. eauto.
  - subst z. apply bind_ok in E as (l' & ML & _). apply map_res_ok in ML. destruct d as [|[k y] d]; [|inversion ML as [|? ? ? ? A _]; subst; destruct cc; discriminate A].
    inversion M as [? ? ? N| |? ? d0 e F|]; subst; [destruct N|]. inversion F; subst. apply mv_dict. constructor.
  - apply bind_ok in E as (d' & ML & E). injection E as <-. subst z. apply map_res_ok in ML. inversion M as [? ? ? N| |? ? d0 e F|]; subst; [destruct N|]. constructor.
    eapply Forall2_trans_In; [exact F|exact ML|]. cbn. intros [k a] [k' b] [k'' c] _ (K & MV) E. cbn [fst snd] in *. apply bind_ok in E as (c' & A & E). injection E as <- <-. split; [exact K|]. exact (moved_told _ _ _ _ _ _ MV A).
Qed.
Lemma moved_ok : forall N v pl w, vdepth v < N -> assign_parents (relocate pl v) = Ok w -> moved None pl v w.
Proof.
  induction N as [|N IH]; intros v pl w D E; [lia|]. destruct v as [| b | n | r | s | l | d | h fs ints].
  1-5: cbn in E; injection E as <-; now constructor.
  - change (relocate pl (VList l)) with (VList (relocate_list pl 0 l)) in E. change (assign_parents (VList (relocate_list pl 0 l))) with (do m <- assign_list (relocate_list pl 0 l); Ok (VList m)) in E.
    apply bind_ok in E as (m & A & E). injection E as <-. apply assign_list_ok in A. constructor; [rewrite <- (Forall2_len _ _ _ A); symmetry; apply relocate_len|].
    intros i x y X Y. destruct (Forall2_nth_r _ _ _ _ _ A Y) as (x' & X' & E). apply relocate_nth in X' as (x0 & X0 & ->). rewrite X in X0. injection X0 as <-. cbn [Nat.add] in E. apply IH; [|exact E].
    apply nth_error_In, vldepth_In in X. rewrite vdepth_list in D. lia.
  - change (relocate pl (VDict d)) with (VDict (relocate_dict pl d)) in E. change (assign_parents (VDict (relocate_dict pl d))) with (do m <- assign_dict (relocate_dict pl d); Ok (VDict m)) in E.
    apply bind_ok in E as (m & A & E). injection E as <-. apply assign_dict_ok in A. constructor. eapply Forall2_trans_In; [apply relocate_dict_ok|exact A|].
    intros [k x] [k' y] [k'' z] I (K & Y) (K' & Z). cbn [fst snd] in *. subst. split; [reflexivity|]. apply IH; [|exact Z]. apply vddepth_In in I. rewrite vdepth_dict in D. lia.
  - change (relocate pl (VObj h fs ints)) with (VObj (Head (h_cls h) pl (h_parent h) (h_keys h)) (relocate_dict pl fs) ints) in E. rewrite assign_obj in E. cbn [h_cls h_place] in E.
    apply bind_ok in E as (gs & A & E). apply bind_ok in E as (es & B & E). injection E as <-. apply assign_dict_ok in A.
    assert (F : Forall2 (fun kx ky => fst kx = fst ky /\ moved None (pl ++ [fst kx]) (snd kx) (snd ky)) fs gs).
    { eapply Forall2_trans_In; [apply relocate_dict_ok|exact A|]. intros [k x] [k' y] [k'' z] I (K & Y) (K' & Z). cbn [fst snd] in *. subst. split; [reflexivity|]. apply IH; [|exact Z]. apply vddepth_In in I. rewrite vdepth_obj in D. lia. }
    change (h_parent h) with (parent_now None h). constructor. destruct (assigns (h_cls h)) eqn:T.
    + apply assign_fields_ok in B. eapply Forall2_trans_In; [exact F|exact B|]. intros [k x] [k' y] [k'' z] I (K & Y) (K' & Z). cbn [fst snd] in *. subst k'' k'. split; [reflexivity|].
      destruct (sget k (t_child (h_cls h))) as [[ct cc]|] eqn:TC.
      * exists (Some pl). split; [constructor; [now apply assigns_tells|congruence]|]. eapply moved_field; eauto.
      * injection Z as <-. exists None. split; [apply told_nothing; intros (_ & X); congruence|exact Y].
    + injection B as <-. eapply Forall2_weaken; [|exact F]. intros [k x] [k' y] (K & Y). split; [exact K|]. exists None. split; [|exact Y]. apply told_nothing. intros (X & _). apply assigns_tells in X. congruence.
Qed.
Lemma told_in c pl n q : told c pl n q -> sget n (t_child c) = None -> q = None.
Proof. intros T G. inversion T; subst; [congruence|reflexivity]. Qed.
Lemma moved_drel {P : place -> val -> val -> Prop} pl (d e : sdict val) : Forall2 (fun kx ky => fst kx = fst ky /\ P (pl ++ [fst kx]) (snd kx) (snd ky)) d e -> drel (fun k x y => P (pl ++ [k]) x y) d e.
Proof. exact (fun F => F). Qed.
Lemma moved_same : forall N p pl v w, vdepth v < N -> wfv v -> no_object v -> moved p pl v w -> w = v.
Proof.
  induction N as [|N IH]; intros p pl v w D W NO E; [lia|]. inversion E as [? ? v0 NC|? ? l m L F|? ? d e F|? ? h fs es ints]; subst; [reflexivity| | |].
  - f_equal. inversion W as [| | | | |? FW| |]; subst. rewrite Forall_forall in FW. rewrite vdepth_list in D.
    apply nth_ext with (d := VNone) (d' := VNone); [auto|]. intros i I. rewrite <- L in I. destruct (nth_error l i) as [x|] eqn:X; [|apply nth_error_None in X; lia]. destruct (nth_error m i) as [y|] eqn:Y; [|apply nth_error_None in Y; lia].
    rewrite (nth_error_nth _ _ _ X), (nth_error_nth _ _ _ Y). pose proof (nth_error_In _ _ X) as IX. apply (IH p (pl ++ [str_of_nat i])); auto; [apply vldepth_In in IX; lia|eapply no_object_item; eauto].
  - f_equal. inversion W as [| | | | | |? ND FW|]; subst. rewrite Forall_forall in FW. rewrite vdepth_dict in D.
    assert (H : forall k x y, In (k, x) d -> moved p (pl ++ [k]) x y -> y = x).
    { intros k x y I. apply IH; auto; [apply vddepth_In in I; lia|exact (FW _ I)|eapply no_object_key; eauto; apply In_sget; eauto]. }
    clear - F H. induction F as [|[k x] [k' y] l m (K & X) F IHF]; [reflexivity|]. cbn [fst snd] in *. subst k'. rewrite (H k x y (or_introl eq_refl) X), IHF; [reflexivity|]. intros k' a b I. apply (H k'). now right.
  - now apply no_object_here in NO; elim NO.
Qed.
Lemma moved_deep : forall N p pl v w, vdepth v < N -> moved p pl v w -> (deep v -> deep w) /\ forall c, shaped c v -> shaped c w.
Proof.
  induction N as [|N IH]; intros p pl v w D E; [lia|]. inversion E as [? ? v0 NC|? ? l m L F|? ? d e F|? ? h fs es ints F]; subst; [auto| | |].
  - split; [|intros c SH; inversion SH as [|? SH'|]; subst; inversion SH']. rewrite !deep_list, vdepth_list in *. intro FD.
    apply Forall_forall. intros y Y. apply In_nth_error in Y as (i & Y). destruct (nth_error l i) as [x|] eqn:X; [|apply nth_error_None in X; assert (Z : nth_error m i <> None) by congruence; apply nth_error_Some in Z; lia].
    pose proof (nth_error_In _ _ X) as IX. apply (IH p (pl ++ [str_of_nat i]) x y); auto; [apply vldepth_In in IX; lia|]. rewrite Forall_forall in FD. auto.
  - split; [|intros c SH; inversion SH as [|? SH'|]; subst; inversion SH']. rewrite !deep_dict, vdepth_dict in *. intro FD.
    assert (H : forall k x y, In (k, x) d -> moved p (pl ++ [k]) x y -> deep x -> deep y) by (intros k x y I X; apply (IH p (pl ++ [k]) x y); auto; apply vddepth_In in I; lia).
    clear - F H FD. induction F as [|[k x] [k' y] l m (K & X) F IHF]; constructor; inversion FD; subst; cbn [fst snd] in *; [apply (H k x y); auto; now left|]. apply IHF; try assumption. intros k0 a b I. apply (H k0). now right.
  - rewrite vdepth_obj in D.
    assert (H : forall q k x y, In (k, x) fs -> moved q (pl ++ [k]) x y -> (deep x -> deep y) /\ forall c, shaped c x -> shaped c y) by (intros q k x y I X; apply (IH q (pl ++ [k]) x y); auto; apply vddepth_In in I; lia).
    assert (KEYS : map fst es = map fst fs) by (clear - F; induction F as [|a b l m (K & _) _ IHF]; cbn; congruence).
    assert (SH : shaped (Of (h_cls h)) (VObj h fs ints) -> shaped (Of (h_cls h)) (VObj (Head (h_cls h) pl (parent_now p h) (h_keys h)) es ints)).
    { intro SH. inversion SH as [| |? ? ? KF KI PL CH]; subst. change (Of (h_cls h)) with (Of (h_cls (Head (h_cls h) pl (parent_now p h) (h_keys h)))). constructor; cbn [h_cls]; auto; [congruence|..].
      - intros n y G T. destruct (drel_get_r (fun k x y => exists q, told (h_cls h) pl k q /\ moved q (pl ++ [k]) x y) fs es n y F G) as (x & GX & q & _ & MX). pose proof (PL _ _ GX T) as (W & NO).
        rewrite (moved_same (S (vdepth x)) q (pl ++ [n]) x y); auto.
      - intros n y ct cc G T. destruct (drel_get_r (fun k x y => exists q, told (h_cls h) pl k q /\ moved q (pl ++ [k]) x y) fs es n y F G) as (x & GX & q & _ & MX). pose proof (CH _ _ _ _ GX T) as SX.
        apply sget_In in GX. destruct (H q n x y GX MX) as (_ & HS). pose proof (vddepth_In _ _ _ GX) as DX.
        inversion SX as [|? ? S1|? l FL|? d0 ND FD]; subst.
        + inversion MX; subst. constructor.
        + constructor. auto.
        + inversion MX as [? ? ? NC|? ? ? m L FM| |]; subst; [destruct NC|]. constructor. rewrite vdepth_list in DX.
          apply Forall_forall. intros b B. apply In_nth_error in B as (i & B). destruct (nth_error l i) as [a|] eqn:A; [|apply nth_error_None in A; assert (Z : nth_error m i <> None) by congruence; apply nth_error_Some in Z; lia].
          pose proof (nth_error_In _ _ A) as IA. apply (IH q ((pl ++ [n]) ++ [str_of_nat i]) a b); auto; [apply vldepth_In in IA; lia|]. rewrite Forall_forall in FL. auto.
        + inversion MX as [? ? ? NC| |? ? ? e FM|]; subst; [destruct NC|]. rewrite vdepth_dict in DX.
          assert (HL : forall k a b, In (k, a) d0 -> moved q ((pl ++ [n]) ++ [k]) a b -> shaped cc a -> shaped cc b) by (intros k a b I X; apply (IH q ((pl ++ [n]) ++ [k]) a b); auto; apply vddepth_In in I; lia).
          constructor.
          * assert (map fst e = map fst d0) as ->; [|assumption]. clear - FM; induction FM as [|a b l m (K & _) _ IHF]; cbn; congruence.
          * clear - FM FD HL. induction FM as [|[k a] [k' b] l m (K & X) F IHF]; constructor; inversion FD; subst; cbn [fst snd] in *; [apply (HL k a b); auto; now left|]. apply IHF; try assumption. intros k0 p0 q0 I. apply (HL k0). now right. }
    split.
    + intro DP. apply deep_obj in DP as (A & B & C & DI). apply deep_obj. cbn [h_cls]. split; [auto|]. split; [exact B|]. split; [|exact DI].
      assert (H' : forall q k x y, In (k, x) fs -> moved q (pl ++ [k]) x y -> deep x -> deep y) by (intros q k x y I X; now apply (H q k x y)).
      clear - F C H'. induction F as [|[k x] [k' y] l m (K & q & _ & X) F IHF]; constructor; inversion C; subst; cbn [fst snd] in *.
      * eapply H'; [left; reflexivity|exact X|assumption].
      * apply IHF; try assumption. intros q0 k0 a b I. apply (H' q0 k0). now right.
    + intros c SC. inversion SC as [|? SC2|]; subst; [|auto]. constructor. assert (Q : h_cls h = CSchema) by (inversion SC2; auto). rewrite <- Q in *. exact (SH SC2).
Qed.
(** Where things are *)
Lemma moved_reach v ts o : reach [] v ts o -> forall p pl w, moved p pl v w -> exists q o', reach [] w ts o' /\ moved q (pl ++ ts) o o'.
Proof.
  induction 1 as [v|h fs ints n v ts o _ G R IH|l i v ts o G R IH|d k v ts o G R IH]; intros p pl w M.
  - exists p, w. rewrite app_nil_r. split; [constructor|exact M].
  - inversion M as [? ? ? NC| | |? ? ? ? es ? F]; subst; [destruct NC|]. destruct (drel_get_l (fun k x y => exists q, told (h_cls h) pl k q /\ moved q (pl ++ [k]) x y) fs es n v F G) as (y & Y & q & _ & MY).
    destruct (IH _ _ _ MY) as (q' & o' & R' & M'). exists q', o'. rewrite <- app_assoc in M'. split; [|exact M']. eapply reach_field; eauto.
  - inversion M as [? ? ? NC|? ? ? m L F| |]; subst; [destruct NC|]. destruct (nth_error m i) as [y|] eqn:Y; [|apply nth_error_None in Y; assert (Z : nth_error l i <> None) by congruence; apply nth_error_Some in Z; lia].
    destruct (IH _ _ _ (F _ _ _ G Y)) as (q' & o' & R' & M'). exists q', o'. rewrite <- app_assoc in M'. split; [|exact M']. eapply reach_item; eauto.
  - inversion M as [? ? ? NC| |? ? ? e F|]; subst; [destruct NC|]. destruct (drel_get_l (fun k x y => moved p (pl ++ [k]) x y) d e k v F G) as (y & Y & MY).
    destruct (IH _ _ _ MY) as (q' & o' & R' & M'). exists q', o'. rewrite <- app_assoc in M'. split; [|exact M']. eapply reach_key; eauto.
Qed.
Lemma moved_reach_back w ts o' : reach [] w ts o' -> forall p pl v, moved p pl v w -> exists q o, reach [] v ts o /\ moved q (pl ++ ts) o o'.
Proof.
  induction 1 as [w|h fs ints n v ts o _ G R IH|l i v ts o G R IH|d k v ts o G R IH]; intros p pl w' M.
  - exists p, w'. rewrite app_nil_r. split; [constructor|exact M].
  - inversion M as [? ? ? NC| | |? ? h0 fs0 es ? F]; subst; [destruct NC|]. destruct (drel_get_r (fun k x y => exists q, told (h_cls h0) pl k q /\ moved q (pl ++ [k]) x y) fs0 fs n v F G) as (x & X & q & _ & MY).
    destruct (IH _ _ _ MY) as (q' & o0 & R' & M'). exists q', o0. rewrite <- app_assoc in M'. split; [|exact M']. eapply reach_field; eauto.
  - inversion M as [? ? ? NC|? ? l0 m L F| |]; subst; [destruct NC|]. destruct (nth_error l0 i) as [x|] eqn:X; [|apply nth_error_None in X; assert (Z : nth_error l i <> None) by congruence; apply nth_error_Some in Z; lia].
    destruct (IH _ _ _ (F _ _ _ X G)) as (q' & o0 & R' & M'). exists q', o0. rewrite <- app_assoc in M'. split; [|exact M']. eapply reach_item; eauto.
  - inversion M as [? ? ? NC| |? ? d0 e F|]; subst; [destruct NC|]. destruct (drel_get_r (fun k x y => moved p (pl ++ [k]) x y) d0 d k v F G) as (x & X & MY).
    destruct (IH _ _ _ MY) as (q' & o0 & R' & M'). exists q', o0. rewrite <- app_assoc in M'. split; [|exact M']. eapply reach_key; eauto.
Qed.
