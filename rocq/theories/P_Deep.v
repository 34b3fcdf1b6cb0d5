(** Lemmas: objects of the right shape, also inside of internal fields. *)
From Coq Require Import Lia.
From Verif Require Import PyBase PyFacts PyInt PyJson M_JsonPtr M_Url P_Op M_SpecVal M_Parse M_SpecTree M_Merge M_MergeRef S_Parse S_SpecTree S_Merge S_MergeRef P_SpecBase P_Parse P_SpecTree P_Compare P_Merge P_MergeShape P_MergeRef M_App S_App P_App.
Close Scope Q_scope.

Inductive deep : val -> Prop :=
| dp_plain v : not_container v -> deep v
| dp_list l : Forall deep l -> deep (VList l)
| dp_dict d : Forall (fun kx => deep (snd kx)) d -> deep (VDict d)
| dp_obj h fs ints : shaped (Of (h_cls h)) (VObj h fs ints) -> no_containers (VObj h fs ints) ->
    Forall (fun kx => deep (snd kx)) fs -> Forall (fun kx => deep (snd kx)) ints -> deep (VObj h fs ints).

Lemma deep_list l : deep (VList l) <-> Forall deep l.
Proof. split; [|now constructor]. intro D. inversion D; subst; [contradiction|assumption]. Qed.
Lemma deep_dict d : deep (VDict d) <-> Forall (fun kx => deep (snd kx)) d.
Proof. split; [|now constructor]. intro D. inversion D; subst; [contradiction|assumption]. Qed.
Lemma deep_obj h fs ints : deep (VObj h fs ints) <-> shaped (Of (h_cls h)) (VObj h fs ints) /\ no_containers (VObj h fs ints) /\
  Forall (fun kx => deep (snd kx)) fs /\ Forall (fun kx => deep (snd kx)) ints.
Proof. split; [|intros (A & B & C & D); now constructor]. intro D. inversion D; subst; [contradiction|auto]. Qed.
Lemma deep_get d : Forall (fun kx : str * val => deep (snd kx)) d -> forall k x, sget k d = Some x -> deep x.
Proof. intros F k x G. apply sget_In in G. rewrite Forall_forall in F. exact (F _ G). Qed.
Lemma deep_field h fs ints n x : deep (VObj h fs ints) -> sget n fs = Some x -> deep x.
Proof. intros D G. apply deep_obj in D as (_ & _ & D & _). eauto using deep_get. Qed.
Lemma deep_int h fs ints n x : deep (VObj h fs ints) -> sget n ints = Some x -> deep x.
Proof. intros D G. apply deep_obj in D as (_ & _ & _ & D). eauto using deep_get. Qed.
Lemma deep_shaped h fs ints : deep (VObj h fs ints) -> shaped (Of (h_cls h)) (VObj h fs ints).
Proof. intro D. now apply deep_obj in D. Qed.
Lemma deep_proper h fs ints : deep (VObj h fs ints) -> proper (h_cls h) (VObj h fs ints).
Proof. intro D. apply deep_obj in D as (A & B & _). now split. Qed.

Lemma index_In {A} (l : list A) i x : index l i = Ok x -> In x l.
Proof. unfold index. cbv zeta. destruct (_ <? 0)%Z; [discriminate|]. destruct (nth_error l _) eqn:N; [|discriminate]. intro E. injection E as <-. eapply nth_error_In; eauto. Qed.
Lemma deep_resolve ts : forall v x, deep v -> resolve v ts = Ok x -> deep x.
Proof.
  induction ts as [|t ts IH]; intros v x D E; cbn [resolve] in E; [congruence|].
  destruct v as [|b|z|q|s|l|d|h fs ints]; try (eapply IH; eauto; fail).
  - apply bind_ok in E as (i & _ & E). apply bind_ok in E as (y & Y & E). apply index_In in Y. apply deep_list in D. rewrite Forall_forall in D. eauto.
  - destruct (sget t d) eqn:G; [|discriminate E]. apply deep_dict in D. eauto using deep_get.
  - apply bind_ok in E as (y & Y & E). unfold attr in Y. destruct (sget t fs) eqn:G; [injection Y as ->; eauto using deep_field|].
    destruct (sget t ints) eqn:G'; [injection Y as ->; eauto using deep_int|discriminate Y].
Qed.
Lemma deep_reach v ts o : reach [] v ts o -> deep v -> deep o.
Proof.
  induction 1 as [v|h fs ints n v ts o _ G R IH|l i v ts o G R IH|d k v ts o G R IH]; intro D; auto; apply IH.
  - eauto using deep_field.
  - apply deep_list in D. rewrite Forall_forall in D. apply D. eapply nth_error_In; eauto.
  - apply deep_dict in D. eauto using deep_get.
Qed.
Lemma deep_set_parent p v : deep v -> deep (set_parent p v).
Proof.
  intro D. destruct v as [|b|z|q|s|l|d|h fs ints]; auto. apply deep_obj in D as (A & B & C & D). cbn [set_parent]. apply dp_obj; auto.
  cbn [h_cls]. exact (shaped_set_parent p _ _ A).
Qed.
Lemma deep_own p v : deep v -> deep (own p v).
Proof.
  intro D. destruct v as [|b|z|q|s|l|d|h fs ints]; auto; [| |exact (deep_set_parent p _ D)]; cbn [own].
  - apply deep_list. apply deep_list in D. apply Forall_map. eapply Forall_impl; [|exact D]. intros; now apply deep_set_parent.
  - apply deep_dict. apply deep_dict in D. apply Forall_map. cbn [snd]. eapply Forall_impl; [|exact D]. intros; now apply deep_set_parent.
Qed.
Lemma deep_no_object v : wfv v -> no_object v -> deep v.
Proof.
  enough (forall N v, vdepth v < N -> wfv v -> no_object v -> deep v) by eauto. clear v. induction N as [|N IH]; intros v D W NO; [lia|]. destruct v as [|b|z|q|s|l|d|h fs ints]; try (apply dp_plain; exact I).
  - apply deep_list, Forall_forall. intros x X. apply IH; [|inversion W as [| | | | |? F| |]; subst; rewrite Forall_forall in F; auto|eapply no_object_item; eauto].
    apply vldepth_In in X. rewrite vdepth_list in D. lia.
  - inversion W as [| | | | | |? ND F|]; subst. rewrite Forall_forall in F. apply deep_dict, Forall_forall. intros [k x] X. cbn [snd]. apply IH; [|exact (F _ X)|eapply no_object_key; eauto; apply In_sget; eauto].
    apply vddepth_In in X. rewrite vdepth_dict in D. lia.
  - now apply no_object_here in NO; elim NO.
Qed.

(** ** Merging *)
Lemma deep_fresh c pl : deep (VObj (Head c pl None []) (map (fun nd => (fst nd, inject (snd nd))) (t_fields c)) (map (fun nd => (fst nd, VNone)) (t_internal c))).
Proof.
  apply deep_obj. split; [apply fresh_shaped|]. split; [|split].
  - cbn. intros n x G. apply fresh_none in G as ->. intros [[? X]|[? X]]; discriminate X.
  - apply Forall_forall. intros [n x] X. cbn [snd]. apply in_map_iff in X as ([n' df] & E & X). injection E as <- <-.
    apply deep_no_object; [|apply no_object_inject]. apply In_sget in X; [|apply fields_nodup]. eapply wfv_default; eauto.
  - apply Forall_map, Forall_forall. intros ? _. now apply dp_plain.
Qed.
Lemma Forall_of_get {A} (P : A -> Prop) (d : sdict A) : NoDup (map fst d) -> (forall k x, sget k d = Some x -> P x) -> Forall (fun kx => P (snd kx)) d.
Proof. intros N H. apply Forall_forall. intros [k x] X. apply (H k). now apply In_sget. Qed.
Lemma merge_deep_by h fs ints k es jnts r :
  deep (VObj h fs ints) -> deep (VObj k es jnts) -> h_cls k = h_cls h ->
  (forall n ov ct cc w, sget n es = Some ov -> sget n (t_child (h_cls h)) = Some (ct, cc) -> clone_child clone ct cc (h_place h ++ [n]) ov = Ok w -> deep w) ->
  merge_obj clone [] (VObj h fs ints) (VObj k es jnts) = Ok r -> deep r.
Proof.
  intros DS DO C CD E. pose proof (deep_proper _ _ _ DS) as (SS & NS). pose proof (deep_proper _ _ _ DO) as (SO & NO). rewrite C in SO.
  pose proof (merge_shaped [] _ _ _ _ SS SO E) as SR. pose proof (no_containers_merge _ _ _ _ SS SO NS NO E) as NR.
  pose proof E as E2. apply merge_fields in E as (ks & fs' & ints' & -> & KF & KI & F); auto.
  2: { intros n ov ct cc w O T. apply clone_child_shaped. exact (shaped_child _ _ _ _ _ _ _ _ SO O T). }
  apply deep_obj. split; [exact SR|]. split; [exact NR|]. split.
  - apply Forall_of_get; [rewrite KF; apply fields_nodup|]. intros n rv G. destruct (F n rv G) as [[_ (W & P)]|(ct & cc & y & sv & ov & T & S & O & _ & -> & [->|Y])].
    + now apply deep_no_object.
    + apply deep_own. eauto using deep_field.
    + apply deep_own. eauto.
  - apply merge_obj_shape in E2 as (f & i & fs2 & _ & _ & MI & _ & X). injection X as _ _ ->. apply merge_names_ok in MI as (_ & GI & _); [|apply internal_nodup].
    apply Forall_of_get; [rewrite KI; apply internal_nodup|]. intros n rv G.
    assert (T : exists df, sget n (t_internal (h_cls h)) = Some df) by (apply sget_Some_key; rewrite <- KI; apply sget_Some_key; eauto). destruct T as (df & T).
    destruct (GI n df T) as (sv & ov & x & S & O & M & R & _). rewrite G in R. injection R as ->.
    pose proof (NO _ _ O) as NCO. pose proof (deep_int _ _ _ _ _ DS S) as DSV. pose proof (deep_int _ _ _ _ _ DO O) as DOV.
    unfold merge1 in M. cbn [mem] in M. destruct (is_default ov df); [injection M as <-; exact DSV|]. rewrite (internal_no_child _ _ _ T) in M.
    destruct ov; try (injection M as <-; destruct (is_default sv df); assumption).
    + exfalso. apply NCO. left. eauto.
    + exfalso. apply NCO. right. eauto.
Qed.
Lemma clone_deep N c pl v w : vdepth v < N -> shaped c v -> clone c pl v = Ok w -> deep v -> deep w.
Proof.
  apply (clone_ind (fun c _ v w => deep v -> deep w)); clear; auto.
  intros c pl h es jnts w S IH E D. pose proof (shaped_obj _ _ S) as (h' & fs' & ints' & X & C). injection X as <- <- <-. subst c.
  eapply merge_deep_by in E; [exact E|apply deep_fresh|exact D|reflexivity|]. cbn [h_cls h_place].
  intros n ov ct cc w' O T X. pose proof (deep_field _ _ _ _ _ D O) as DO. pose proof (shaped_child _ _ _ _ _ _ _ _ S O T) as SO.
  apply (clone_child_each (fun _ _ x y => deep x -> deep y)) in X as [[-> ->]|X]; auto; [|intros; eapply IH; eauto].
  destruct ct.
  - auto.
  - destruct X as (l & m & -> & -> & R). apply deep_list. apply deep_list in DO. clear - R DO. revert R. generalize 0 as i. revert m. induction DO as [|x l DX _ IHl]; intros [|y m] i R; cbn [irel] in R; try contradiction; constructor; [now apply R|]. eapply IHl, R.
  - destruct X as (d & e & -> & -> & _ & R). apply deep_dict. apply deep_dict in DO. clear - R DO. induction R as [|[k x] [k' y] d e (K & _ & Q) R IH]; [constructor|]. cbn [fst snd] in *. inversion DO; subst. constructor; auto.
Qed.
Lemma merge_deep h fs ints o r : deep (VObj h fs ints) -> deep o -> merge (VObj h fs ints) o [] = Ok r -> deep r.
Proof.
  intros DS DO E. destruct o as [|b|z|q|s|l|d|k es jnts]; try discriminate E.
  pose proof (merge_obj_shape _ _ _ _ _ _ _ _ E) as (_ & _ & _ & C & _). symmetry in C.
  refine (merge_deep_by _ _ _ _ _ _ _ DS DO C _ E). rewrite <- C. pose proof (deep_shaped _ _ _ DO) as SO.
  intros n ov ct cc w' O T X. pose proof (deep_field _ _ _ _ _ DO O) as DV. pose proof (shaped_child _ _ _ _ _ _ _ _ SO O T) as SV.
  apply (clone_child_each (fun _ _ x y => deep x -> deep y)) in X as [[-> ->]|X]; auto; [|intros; eapply clone_deep; eauto].
  destruct ct.
  - auto.
  - destruct X as (l & m & -> & -> & R). apply deep_list. apply deep_list in DV. clear - R DV. revert R. generalize 0 as i. revert m. induction DV as [|x l DX _ IHl]; intros [|y m] i R; cbn [irel] in R; try contradiction; constructor; [now apply R|]. eapply IHl, R.
  - destruct X as (d & e & -> & -> & _ & R). apply deep_dict. apply deep_dict in DV. clear - R DV. induction R as [|[k' x] [k'' y] d e (K & _ & Q) R IH]; [constructor|]. cbn [fst snd] in *. inversion DV; subst. constructor; auto.
Qed.

(** ** Documents *)
Lemma shaped_parts c h fs ints : shaped (Of c) (VObj h fs ints) -> h_cls h = c /\ map fst fs = map fst (t_fields c) /\ map fst ints = map fst (t_internal c) /\
  (forall n v, sget n fs = Some v -> sget n (t_child c) = None -> wfv v /\ no_object v).
Proof. intro S. inversion S; subst. auto. Qed.
Lemma deep_absent ct df : ct = One -> simple_default df = true -> deep (inject df).
Proof. intros _ S. destruct df as [| | | | |[]|[]]; try discriminate S; try (now apply dp_plain); cbn [inject map]; [apply deep_list|apply deep_dict]; constructor. Qed.
Lemma parse_deep : forall N c pl j v, jdepth j < N -> wf j -> parse c pl j = Ok v -> deep v.
Proof.
  induction N as [|N IH]; intros c pl j v D W E; [lia|].
  assert (CH : forall ct c pl w y, jdepth w < N -> wf w -> parse_child parse ct c pl w = Ok y -> deep y).
  { clear c pl j v D W E. intros ct c pl w y D W P. destruct ct; cbn [parse_child] in P.
    - eapply IH; eauto.
    - apply bind_ok in P as (l & J & P). apply bind_ok in P as (m & P & Q). injection Q as <-. apply deep_list, Forall_forall. intros z Z.
      apply mapi_res_ok in P. apply In_nth_error in Z as (i & Z). destruct (irel_nth _ _ _ _ P _ _ Z) as (x & NX & PX). apply nth_error_In in NX.
      pose proof (iter_json_depth _ _ _ J NX) as DX. refine (IH _ _ _ _ _ _ PX); [lia|].
      destruct w; cbn [iter_json] in J; try discriminate J; injection J as <-.
      + apply in_map_iff in NX as (a & <- & _). constructor.
      + inversion W as [| | | | |? FW|]; subst. rewrite Forall_forall in FW. auto.
      + apply in_map_iff in NX as (a & <- & _). constructor.
    - destruct w as [| | | | | |e]; try discriminate P. apply bind_ok in P as (m & P & Q). injection Q as <-.
      rewrite (map_res_dict (fun k x => parse c (pl ++ [k]) x)) in P. inversion W as [| | | | | |? NE FE]; subst. rewrite Forall_forall in FE.
      apply deep_dict, Forall_forall. intros [k z] Z. cbn [snd]. destruct (Forall2_In_r _ _ _ _ P Z) as ([k' x] & X & _ & PX). cbn [fst snd] in *.
      refine (IH _ _ _ _ _ (FE _ X) PX). apply jddepth_In in X. rewrite jdepth_obj in D. cbn [snd]. lia. }
  assert (OBJ : forall c pl d v, jdepth (JObj d) <= N -> wf (JObj d) -> parse (Of c) pl (JObj d) = Ok v -> deep v).
  { clear c pl j v D W E. intros c pl d v D W E. pose proof (parse_shaped _ _ _ _ _ (Nat.lt_succ_diag_r _) W E) as SH.
    rewrite jdepth_obj in D. apply parse_obj in E as (kids & fs & _ & -> & F).
    apply deep_obj. split; [exact SH|]. apply shaped_parts in SH as (_ & KF & KI & PL). split; [|split].
    - cbn. intros n x G. apply fresh_none in G as ->. intros [[? X]|[? X]]; discriminate X.
    - apply Forall_of_get; [rewrite KF; apply fields_nodup|]. intros n x G. destruct (drel_get_r _ _ _ _ _ F G) as (df & FD & FV).
      destruct (sget n (t_child c)) as [[ct cc]|] eqn:T.
      + destruct FV as (y & GA & ->). rewrite T. apply deep_own. unfold gathered in GA. rewrite T in GA.
        assert (AB : forall k, y = absent ct k -> (k = df \/ k = JNull) -> deep y).
        { intros k -> K. destruct ct; cbn [absent]; [|apply deep_list; constructor|apply deep_dict; constructor]. apply (deep_absent One); [reflexivity|]. destruct K as [->| ->]; [eapply fields_default; eauto|reflexivity]. }
        destruct (sget n d) as [w|] eqn:S; [|apply (AB df); auto].
        assert (P : parse_child parse ct cc (pl ++ [n]) w = Ok y -> deep y).
        { apply CH; [apply jddepth_get in S; lia|]. inversion W as [| | | | | |? ND FW]; subst. rewrite Forall_forall in FW. apply sget_In in S. exact (FW _ S). }
        destruct w; try (exact (P GA)). apply (AB JNull); auto.
      + destruct (PL _ _ G T). now apply deep_no_object.
    - apply Forall_map, Forall_forall. intros ? _. now apply dp_plain. }
  assert (NUL : forall c pl, parse (Of c) pl JNull = Ok v -> deep v).
  { clear. intros c pl E. rewrite parse_null in E. injection E as <-. apply deep_fresh. }
  destruct c as [c|].
  - destruct j; try (rewrite parse_eq in E; discriminate E).
    + eapply NUL; eauto.
    + eapply OBJ; [|exact W|exact E]. lia.
  - destruct j; try (rewrite parse_eq in E; discriminate E).
    + rewrite parse_eq in E. injection E as <-. now apply dp_plain.
    + rewrite parse_eq in E. injection E as <-. now apply dp_plain.
    + rewrite parse_addp_obj in E. eapply OBJ; [|exact W|exact E]. lia.
Qed.

(** ** Completed references *)
Lemma normal_same url : forall N v v', vdepth v < N -> wfv v -> no_object v -> normal url v v' -> v' = v.
Proof.
  induction N as [|N IH]; intros v v' D W NO E; [lia|]. inversion E as [v0 NC|l m F|d e F|h h' fs fs' ints]; subst; [reflexivity| | |].
  - f_equal. inversion W as [| | | | |? FW| |]; subst. rewrite Forall_forall in FW. rewrite vdepth_list in D.
    assert (H : forall x y, In x l -> normal url x y -> y = x).
    { intros x y I. apply IH; auto; [apply vldepth_In in I; lia|eapply no_object_item; eauto]. }
    clear - F H. induction F as [|x y l m X F IHF]; [reflexivity|]. rewrite (H x y (or_introl eq_refl) X), IHF; [reflexivity|]. intros a b I. apply H. now right.
  - f_equal. inversion W as [| | | | | |? ND FW|]; subst. rewrite Forall_forall in FW. rewrite vdepth_dict in D.
    assert (H : forall k x y, In (k, x) d -> normal url x y -> y = x).
    { intros k x y I. apply IH; auto; [apply vddepth_In in I; lia|exact (FW _ I)|eapply no_object_key; eauto; apply In_sget; eauto]. }
    clear - F H. induction F as [|[k x] [k' y] l m (K & X) F IHF]; [reflexivity|]. cbn [fst snd] in *. subst k'. rewrite (H k x y (or_introl eq_refl) X), IHF; [reflexivity|]. intros k' a b I. apply (H k'). now right.
  - now apply no_object_here in NO; elim NO.
Qed.
Lemma normal_deep url : forall N v v', vdepth v < N -> normal url v v' -> (deep v -> deep v') /\ forall c, shaped c v -> shaped c v'.
Proof.
  induction N as [|N IH]; intros v v' D E; [lia|]. inversion E as [v0 NC|l m F|d e F|h h' fs fs' ints HC HP HR HK F]; subst; [auto| | |].
  - split; [|intros c SH; inversion SH as [|? SH'|]; subst; inversion SH']. rewrite !deep_list, vdepth_list in *. intro FD.
    assert (H : forall x y, In x l -> normal url x y -> deep x -> deep y) by (intros x y I X; apply (IH x y); auto; apply vldepth_In in I; lia).
    clear - F H FD. induction F as [|x y l m X F IHF]; constructor; inversion FD; subst; [apply (H x y); auto; now left|]. apply IHF; try assumption. intros a b I. apply H. now right.
  - split; [|intros c SH; inversion SH as [|? SH'|]; subst; inversion SH']. rewrite !deep_dict, vdepth_dict in *. intro FD.
    assert (H : forall k x y, In (k, x) d -> normal url x y -> deep x -> deep y) by (intros k x y I X; apply (IH x y); auto; apply vddepth_In in I; lia).
    clear - F H FD. induction F as [|[k x] [k' y] l m (K & X) F IHF]; constructor; inversion FD; subst; cbn [fst snd] in *; [apply (H k x y); auto; now left|]. apply IHF; try assumption. intros k0 a b I. apply (H k0). now right.
  - rewrite vdepth_obj in D.
    assert (H : forall k x y, In (k, x) fs -> normal url x y -> (deep x -> deep y) /\ forall c, shaped c x -> shaped c y) by (intros k x y I X; apply (IH x y); auto; apply vddepth_In in I; lia).
    assert (KEYS : map fst fs' = map fst fs) by (clear - F; induction F as [|a b l m (K & _) _ IHF]; cbn; congruence).
    assert (SH : shaped (Of (h_cls h)) (VObj h fs ints) -> shaped (Of (h_cls h)) (VObj h' fs' ints)).
    { intro SH. inversion SH as [| |? ? ? KF KI PL CH]; subst. rewrite <- HC. constructor; rewrite ?HC; auto; [congruence|..].
      - intros n y G T. destruct (drel_get_r (fun k x y => normal_field url (h_cls h) k x y) fs fs' n y F G) as (x & GX & NF). pose proof (PL _ _ GX T) as (W & NO).
        inversion NF as [? ? ? RC CR|? ? ? ? NR NX]; subst.
        + inversion CR; subst; [split; assumption|]. split; [constructor|]. intros ts o I. inversion I; subst. intros [].
        + rewrite (normal_same url (S (vdepth x)) x y); auto.
      - intros n y ct cc G T. destruct (drel_get_r (fun k x y => normal_field url (h_cls h) k x y) fs fs' n y F G) as (x & GX & NF). pose proof (CH _ _ _ _ GX T) as SX.
        inversion NF as [? ? ? RC CR|? ? ? ? NR NX]; subst.
        + exfalso. clear - RC T. revert T. unfold ref_class in RC. cbn [In] in RC. destruct RC as [Q|[Q|[Q|[Q|[]]]]]; rewrite <- Q; discriminate.
        + apply sget_In in GX. destruct (H n x y GX NX) as (_ & HS). pose proof (vddepth_In _ _ _ GX) as DX.
          inversion SX as [|? ? S1|? l FL|? d0 ND FD]; subst.
          * inversion NX; subst. constructor.
          * constructor. auto.
          * inversion NX as [? NC|? m FM| |]; subst; [destruct NC|]. constructor. rewrite vdepth_list in DX.
            assert (HL : forall a b, In a l -> normal url a b -> shaped cc a -> shaped cc b) by (intros a b I X; apply (IH a b); auto; apply vldepth_In in I; lia).
            clear - FM FL HL. induction FM as [|a b l m X F IHF]; constructor; inversion FL; subst; [apply (HL a b); auto; now left|]. apply IHF; try assumption. intros p q I. apply HL. now right.
          * inversion NX as [? NC| |? e FM|]; subst; [destruct NC|]. rewrite vdepth_dict in DX.
            assert (HL : forall k a b, In (k, a) d0 -> normal url a b -> shaped cc a -> shaped cc b) by (intros k a b I X; apply (IH a b); auto; apply vddepth_In in I; lia).
            constructor.
            -- assert (map fst e = map fst d0) as ->; [|assumption]. clear - FM; induction FM as [|a b l m (K & _) _ IHF]; cbn; congruence.
            -- clear - FM FD HL. induction FM as [|[k a] [k' b] l m (K & X) F IHF]; constructor; inversion FD; subst; cbn [fst snd] in *; [apply (HL k a b); auto; now left|]. apply IHF; try assumption. intros k0 p q I. apply (HL k0). now right. }
    split.
    + intro DP. apply deep_obj in DP as (A & B & C & DI). apply deep_obj. rewrite HC. split; [auto|]. split; [exact B|]. split; [|exact DI].
      assert (H' : forall k x y, In (k, x) fs -> normal url x y -> deep x -> deep y) by (intros k x y I X; now apply (H k x y)).
      clear - F C H'. induction F as [|[k x] [k' y] l m (K & X) F IHF]; constructor; inversion C; subst; cbn [fst snd] in *.
      * inversion X as [? ? ? RC CR|? ? ? ? NR NX]; subst; [inversion CR; now apply dp_plain|apply (H' k' x y); auto; now left].
      * apply IHF; try assumption. intros k0 a b I. apply (H' k0). now right.
    + intros c SC. inversion SC as [|? SC2|]; subst; [|auto]. constructor. assert (Q : h_cls h = CSchema) by (inversion SC2; auto). rewrite <- Q in *. exact (SH SC2).
Qed.
Lemma norm_deep url v v' : wfv v -> deep v -> norm_refs url v = Ok v' -> deep v'.
Proof. intros W D E. apply (normal_deep url (S (vdepth v)) v v'); auto. eapply norm_ok; eauto. Qed.
(** An object has the fields of its class all the way down. *)
Lemma shaped_wfv : forall N c v, vdepth v < N -> shaped c v -> wfv v.
Proof.
  induction N as [|N IH]; intros c v D S; [lia|].
  assert (X : forall h fs ints, v = VObj h fs ints -> shaped (Of (h_cls h)) v -> wfv v).
  { clear c S. intros h fs ints -> S. inversion S as [| |? ? ? KF KI PL CH]; subst. rewrite vdepth_obj in D. constructor; [exact KF|]. apply Forall_of_get; [rewrite KF; apply fields_nodup|].
    intros n x G. pose proof (vddepth_get _ _ _ G) as DX. destruct (sget n (t_child (h_cls h))) as [[ct cc]|] eqn:T; [|now apply (PL n)].
    pose proof (CH _ _ _ _ G T) as SX. inversion SX as [|? ? S1|? l FL|? d ND FD]; subst.
    - constructor.
    - eapply IH; [|exact S1]. lia.
    - constructor. rewrite vdepth_list in DX. eapply Forall_forall. intros y I. rewrite Forall_forall in FL. eapply IH; [|exact (FL _ I)]. apply vldepth_In in I. lia.
    - constructor; [exact ND|]. rewrite vdepth_dict in DX. eapply Forall_forall. intros [k y] I. rewrite Forall_forall in FD. eapply IH; [|exact (FD _ I)]. apply vddepth_In in I. cbn [snd]. lia. }
  inversion S as [b|v' S'|h fs ints]; subst.
  - constructor.
  - pose proof (shaped_obj _ _ S') as (h & fs & ints & -> & C). rewrite <- C in S'. eauto.
  - eauto.
Qed.
Lemma deep_wfv h fs ints : deep (VObj h fs ints) -> wfv (VObj h fs ints).
Proof. intro D. eapply shaped_wfv; [apply Nat.lt_succ_diag_r|now apply deep_shaped]. Qed.

(** ** Applications *)
Record all_deep (a : app) : Prop := {
  ad_whole : forall url n v, whole a url (n, v) -> deep v;
  ad_part : forall url k n v, part_at a url k (n, v) -> deep v;
  ad_root : forall n v, a_root a = Some (n, v) -> deep v }.
Lemma store_deep a url jp n v a' : all_deep a -> deep v -> store a url jp (n, v) = Ok a' -> all_deep a'.
Proof.
  intros [W P R] D S. unfold store in S.
  assert (ROOT : a_root a' = a_root a) by (destruct (sget url (a_objs a)) as [[?|?]|]; try discriminate S; injection S as <-; reflexivity).
  assert (OTHER : forall u, u <> url -> sget u (a_objs a') = sget u (a_objs a)).
  { intros u NE. destruct (sget url (a_objs a)) as [[?|?]|]; try discriminate S; injection S as <-; cbn [a_objs]; now rewrite sget_sset_other. }
  assert (HERE : sget url (a_objs a') = Some (Whole (n, v)) \/ exists d', sget url (a_objs a') = Some (Parts d') /\ forall k o, sget k d' = Some o -> o = (n, v) \/ part_at a url k o).
  { destruct (sget url (a_objs a)) as [[?|d]|] eqn:G; try discriminate S; injection S as <-; cbn [a_objs]; rewrite sget_sset_same.
    - right. exists (sset jp (n, v) d). split; [reflexivity|]. intros k o Q. destruct (str_eqb_spec k jp) as [->|NE].
      + rewrite sget_sset_same in Q. left. congruence.
      + rewrite sget_sset_other in Q by exact NE. right. exists d. auto.
    - destruct (str_eqb jp _); [now left|]. right. exists [(jp, (n, v))]. split; [reflexivity|]. intros k o Q. cbn in Q. destruct (str_eqb k jp); [left; congruence|discriminate Q]. }
  constructor.
  - intros u m w X. unfold whole in X. destruct (str_eqb_spec u url) as [->|NE]; [|rewrite OTHER in X by exact NE; eauto].
    destruct HERE as [H|(d' & H & _)]; rewrite H in X; congruence.
  - intros u k m w (d & G & K). destruct (str_eqb_spec u url) as [->|NE].
    + destruct HERE as [H|(d' & H & F)]; rewrite H in G; [congruence|]. injection G as ->. destruct (F _ _ K) as [X|X]; [congruence|eauto].
    + rewrite OTHER in G by exact NE. apply (P u k m w). exists d. auto.
  - intros m w. rewrite ROOT. apply R.
Qed.
Lemma lookup_deep a url jp n v : sound a -> all_deep a -> lookup a url jp = Ok (Some (n, v)) -> deep v.
Proof.
  intros SO [W P R] L. unfold lookup in L. destruct (sget url (a_objs a)) as [[[m w]|d]|] eqn:G; [| |discriminate L].
  - apply bind_ok in L as (o & L & X). apply bind_ok in L as (x & L & Y). injection Y as <-.
    assert (x = v) as -> by (destruct x; congruence). eapply deep_resolve; [|exact L]. eapply W. exact G.
  - rewrite in_parts_first in L. destruct (first_match d jp) as [[k [m w]]|] eqn:F; [|discriminate L]. apply bind_ok in L as (o & L & X). apply bind_ok in L as (x & L & Y). injection Y as <-.
    assert (x = v) as -> by (destruct x; congruence). eapply deep_resolve; [|exact L]. eapply P. exists d. split; [exact G|]. eapply first_sget; [|exact F]. eapply so_keys; eauto.
Qed.
Section Deep.
  Context (abs_uri win_uri : str -> str) (fetch : str -> res json).
  Context {old : Type} (parse_old : str -> json -> res old) (upgrade : old -> res val) (as_is : old -> val).
  Hypothesis kept_some : forall o, as_is o <> VNone.
  Hypothesis upgraded : forall o v, upgrade o = Ok v -> is_obj v.
  Notation load := (load_obj fetch parse_old).
  Notation normed := (normalised upgrade as_is).
  Notation solve := (resolvef abs_uri win_uri fetch parse_old upgrade as_is).
  (** which documents are loaded *)
  Context (b : bool).
  Hypothesis loaded_deep : forall a j p o ver url v, a_old a = b -> load j p = Ok (o, ver) -> normed a o url = Ok v -> deep v.

  Definition deeply (rec : app -> str -> app * res obj) : Prop := forall a r a' x, sound a -> a_old a = b -> all_deep a -> rec a r = (a', x) ->
    extends a a' /\ sound a' /\ all_deep a' /\ forall n v, x = Ok (n, v) -> deep v.
  Lemma pre_deep rec refs : deeply rec -> forall a a' x, sound a -> a_old a = b -> all_deep a -> pre_resolve rec a refs = (a', x) -> extends a a' /\ sound a' /\ all_deep a'.
  Proof.
    intro K. induction refs as [|r refs IH]; intros a a' x SO AO AD E; cbn [pre_resolve] in E.
    - injection E as <- _. split; [apply extends_refl|]. auto.
    - destruct (rec a r) as [a1 [[n ro]|e]] eqn:R; apply K in R as (X & S1 & D1 & _); auto.
      + destruct (falsy ro); [injection E as <- _; auto|]. destruct (same_class CSchema ro); [|injection E as <- _; auto].
        apply IH in E as (Y & S2 & D2); auto; [split; [eapply extends_trans; eauto|]; auto|]. now rewrite (ex_old _ _ X).
      + injection E as <- _. auto.
  Qed.
  Lemma prep_deep rec a o jref url jp a' r : deeply rec -> sound a -> a_old a = b -> all_deep a -> jr_split abs_uri win_uri jref = Ok (url, jp) -> url <> [] ->
    lookup a url jp = Ok None -> (forall v, normed a o url = Ok v -> v <> VNone /\ deep v) -> prepare_obj abs_uri win_uri upgrade as_is rec a o jref = (a', r) ->
    extends a a' /\ sound a' /\ all_deep a' /\ forall n v, r = Ok (n, v) -> deep v.
  Proof.
    intros K SO AO AD J NU L NV E. unfold prepare_obj in E. rewrite J in E. cbn [bind fst snd] in E.
    assert (TRIV : forall e, (a, Err e) = (a', r) -> extends a a' /\ sound a' /\ all_deep a' /\ forall n v, r = Ok (n, v) -> deep v).
    { intros e X. injection X as <- <-. split; [apply extends_refl|]. split; [exact SO|]. split; [exact AD|]. discriminate. }
    destruct (normed a o url) as [v|e] eqn:N; cbn [bind] in E; [|eauto]. destruct (NV v eq_refl) as [NN DV].
    destruct (store a url jp (a_loads a, v)) as [a1|e] eqn:S; cbn [bind] in E; [|eauto].
    destruct (to_resolve a o v) as [refs|e] eqn:T; cbn [bind] in E; [|eauto].
    pose proof (store_extends _ _ _ _ _ SO L S) as X1. pose proof (store_sound _ _ _ _ _ SO NU NN S) as S1. pose proof (store_deep _ _ _ _ _ _ AD DV S) as D1.
    destruct (pre_resolve rec a1 refs) as [a2 u] eqn:P. pose proof (pre_deep _ _ K _ _ _ S1 (eq_trans (ex_old _ _ X1) AO) D1 P) as (X2 & S2 & D2).
    assert (EA : a' = a2) by (destruct u; congruence). subst a2.
    split; [eapply extends_trans; eauto|]. split; [exact S2|]. split; [exact D2|].
    intros n w ->. destruct u as [u|e]; [|discriminate E]. injection E as <- <-. exact DV.
  Qed.
  Lemma answer_deep n v m w : deep v -> answer (n, v) = Ok (m, w) -> m = n /\ w = v /\ deep w.
  Proof. intros D. unfold answer. cbn [snd]. destruct v; try discriminate; intro E; injection E as <- <-; auto. Qed.
  Lemma solve_deep fuel : forall a j p a' r, sound a -> a_old a = b -> all_deep a -> solve fuel a j p = (a', r) ->
    extends a a' /\ sound a' /\ all_deep a' /\ forall n v, r = Ok (n, v) -> deep v.
  Proof.
    induction fuel as [|fuel IH]; intros a j p a' r SO AO AD E; cbn [resolvef] in E.
    - injection E as <- <-. split; [apply extends_refl|]. split; [exact SO|]. split; [exact AD|]. discriminate.
    - assert (TRIV : forall x, (forall n v, x = Ok (n, v) -> deep v) -> (a, x) = (a', r) -> extends a a' /\ sound a' /\ all_deep a' /\ forall n v, r = Ok (n, v) -> deep v).
      { intros x X Y. injection Y as <- <-. split; [apply extends_refl|]. auto. }
      unfold resolve_step in E. destruct j as [[|c j]|]; [eapply TRIV; [|exact E]; discriminate| |eapply TRIV; [|exact E]; discriminate].
      destruct (jr_split abs_uri win_uri (c :: j)) as [[url jp]|e] eqn:J; cbn [bind fst snd] in E; [|eapply TRIV; [|exact E]; discriminate].
      destruct (lookup a url jp) as [[[m w]|]|e] eqn:L; cbn [bind] in E; [eapply TRIV; [|exact E]| |eapply TRIV; [|exact E]; discriminate].
      { intros n v Q. apply lookup_deep in L; auto. eapply answer_deep; eauto. }
      destruct (nonempty url) eqn:NU.
      + destruct (load (c :: j) p) as [[o ver]|e] eqn:LO; [|eapply TRIV; [|exact E]; discriminate].
        destruct (prepare_obj abs_uri win_uri upgrade as_is _ a o (c :: j)) as [a1 r1] eqn:P.
        eapply (prep_deep _ a o (c :: j) url jp a1 r1) in P as (X & S1 & D1 & R1); auto.
        * destruct r1 as [[m w]|e]; injection E as <- <-; (split; [exact X|]); (split; [exact S1|]); (split; [exact D1|]); [|discriminate]. intros n v Q. eapply answer_deep; eauto.
        * intros a2 r2 a3 x2 S2 O2 D2. apply IH; auto.
        * now intros ->.
        * intros v N. split; [|eapply loaded_deep; eauto]. eapply normed_some; eauto.
      + destruct (negb (startswith jp "#"%string)); [eapply TRIV; [|exact E]; discriminate|]. destruct (a_root a) as [[m w]|] eqn:RT; [|eapply TRIV; [|exact E]; discriminate].
        destruct (resolve w (tl (jp_split (Some jp)))) as [x|e] eqn:RS; [|eapply TRIV; [|exact E]; discriminate].
        eapply TRIV; [|exact E]. intros n v Q. eapply answer_deep; [|exact Q]. eapply deep_resolve; [|exact RS]. eapply ad_root; eauto.
  Qed.
End Deep.
