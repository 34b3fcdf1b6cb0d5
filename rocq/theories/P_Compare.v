(** Parsed objects are well-formed; comparing objects. *)
From Coq Require Import Lia.
From Verif Require Import PyBase PyFacts PyJson PyInt P_Int M_JsonPtr S_JsonPtr P_JsonPtr P_Op M_SpecVal M_Parse M_SpecTree S_Parse S_SpecTree P_SpecBase P_Parse P_SpecTree.
Close Scope Q_scope.

Lemma wfv_inject j : wf j -> wfv (inject j).
Proof.
  induction j using json_ind'; intro W; cbn [inject]; try constructor.
  - inversion W; subst. apply Forall_forall. intros v I. apply in_map_iff in I as (x & <- & I). rewrite Forall_forall in *. auto.
  - inversion W; subst. now rewrite (map_fst_map (fun _ => inject)).
  - inversion W as [| | | | | |? ? F]; subst. apply Forall_forall. intros v I. apply in_map_iff in I as (x & <- & I). cbn [snd]. rewrite Forall_forall in *. auto.
Qed.
Lemma wfv_set_parent p v : wfv v -> wfv (set_parent p v).
Proof. destruct v; auto. intro W. inversion W; subst. now constructor. Qed.
Lemma wfv_own p v : wfv v -> wfv (own p v).
Proof.
  destruct v; intro W; cbn [own]; try (now apply wfv_set_parent).
  - inversion W; subst. constructor. apply Forall_forall. intros v I. apply in_map_iff in I as (x & <- & I). apply wfv_set_parent. rewrite Forall_forall in *. auto.
  - inversion W as [| | | | | |? N F|]; subst. constructor; [now rewrite (map_fst_map (fun _ => set_parent p))|].
    apply Forall_forall. intros v I. apply in_map_iff in I as (x & <- & I). cbn [snd]. apply wfv_set_parent. rewrite Forall_forall in *. auto.
Qed.
Lemma wfv_default c n df : sget n (t_fields c) = Some df -> wfv (inject df).
Proof.
  intro F. apply fields_default in F. destruct df as [| | | | |[]|[]]; try discriminate F; cbn; repeat constructor.
Qed.
Lemma parse_wfv : forall N c pl j v, jdepth j < N -> wf j -> parse c pl j = Ok v -> wfv v.
Proof.
  induction N as [|N IH]; intros c pl j v D W E; [lia|].
  assert (X : forall c pl d v, jdepth (JObj d) <= N -> wf (JObj d) -> parse (Of c) pl (JObj d) = Ok v -> wfv v).
  { clear c pl j v D W E. intros c pl d v D W E. apply parse_obj in E as (kids & fs & _ & -> & R).
    inversion W as [| | | | | |? ND F]; subst. rewrite Forall_forall in F. rewrite jdepth_obj in D.
    constructor; cbn [h_cls]; [symmetry; apply (drel_keys _ _ _ R)|].
    apply Forall_forall. intros [n x] I. cbn [snd].
    assert (ND' : NoDup (map fst fs)) by (rewrite <- (drel_keys _ _ _ R); apply fields_nodup).
    destruct (drel_get_r _ _ _ _ _ R (In_sget _ _ _ ND' I)) as (df & DF & (y & G & ->)).
    assert (WY : wfv y).
    { unfold gathered in G. destruct (sget n (t_child c)) as [[ct cc]|] eqn:T.
      - assert (A : wfv (absent ct df)).
        { destruct ct; cbn [absent]; [eapply wfv_default; eauto|repeat constructor..]. }
        destruct (sget n d) as [w|] eqn:S; [|now subst].
        assert (WW : wf w) by (apply sget_In in S; exact (F _ S)). assert (DW : jdepth w <= jddepth d) by eauto using jddepth_get.
        assert (P : parse_child parse ct cc (pl ++ [n]) w = Ok y -> wfv y).
        { clear - IH WW DW D. destruct ct; cbn [parse_child]; intro P.
          - eapply IH; [|exact WW|exact P]. lia.
          - apply bind_ok in P as (l & J & P). apply bind_ok in P as (m & P & Q). injection Q as <-. constructor. apply Forall_forall. intros z Z.
            apply mapi_res_ok in P. assert (exists i x, nth_error m i = Some z /\ In x l /\ parse cc ((pl ++ [n]) ++ [str_of_nat i]) x = Ok z) as (i & x & _ & I & PZ).
            { apply In_nth_error in Z as (i & Z). destruct (irel_nth _ _ _ _ P _ _ Z) as (x & NX & PX). exists i, x. split; [exact Z|]. split; [eapply nth_error_In; eauto|exact PX]. }
            destruct w; cbn [iter_json] in J; try discriminate J; injection J as <-.
            + apply in_map_iff in I as (a & <- & _). refine (IH _ _ _ _ _ _ PZ); [|constructor]. cbn [jdepth]. cbn in DW. lia.
            + inversion WW as [| | | | |? FW|]; subst. rewrite Forall_forall in FW. eapply IH; [|exact (FW _ I)|exact PZ]. apply jldepth_In in I. rewrite jdepth_list in DW. lia.
            + apply in_map_iff in I as (a & <- & _). refine (IH _ _ _ _ _ _ PZ); [|constructor]. rewrite jdepth_obj in DW. cbn [jdepth]. lia.
          - destruct w as [| | | | | |e]; try discriminate P. apply bind_ok in P as (m & P & Q). injection Q as <-.
            rewrite (map_res_dict (fun k x => parse cc ((pl ++ [n]) ++ [k]) x)) in P. inversion WW as [| | | | | |? NE FE]; subst. rewrite Forall_forall in FE.
            assert (NM : NoDup (map fst m)) by (rewrite <- (drel_keys _ _ _ P); exact NE).
            constructor; [exact NM|]. apply Forall_forall. intros [k z] Z. cbn [snd].
            destruct (drel_get_r _ _ _ _ _ P (In_sget _ _ _ NM Z)) as (x & GX & PX). apply sget_In in GX.
            eapply IH; [|exact (FE _ GX)|exact PX]. apply jddepth_In in GX. rewrite jdepth_obj in DW. cbn [snd]. lia. }
        destruct w; try (exact (P G)). cbv iota in G. subst y. destruct ct; repeat constructor.
      - subst y. destruct (sget n d) as [w|] eqn:S; [|eapply wfv_default; eauto]. apply sget_In in S. apply wfv_inject. exact (F _ S). }
    destruct (sget n (t_child c)); [now apply wfv_own|exact WY]. }
  assert (NUL : forall c, parse (Of c) pl JNull = Ok v -> wfv v).
  { clear. intros c E. rewrite parse_null in E. injection E as <-. constructor; cbn [h_cls]; [apply (map_fst_map (fun _ => inject))|].
    apply Forall_forall. intros kv I. apply in_map_iff in I as (nd & <- & I). cbn [snd]. eapply wfv_default. apply In_fields in I. exact I. }
  destruct c as [c|].
  - destruct j; try (rewrite parse_eq in E; discriminate E).
    + eapply NUL; eauto.
    + eapply X; [|exact W|exact E]. lia.
  - destruct j; try (rewrite parse_eq in E; discriminate E).
    + rewrite parse_eq in E. injection E as <-. constructor.
    + rewrite parse_eq in E. injection E as <-. constructor.
    + rewrite parse_addp_obj in E. eapply X; [|exact W|exact E]. lia.
Qed.

Lemma Forall2_nth_l {A B} (P : A -> B -> Prop) l m : Forall2 P l m ->
  forall i x, nth_error l i = Some x -> exists y, nth_error m i = Some y /\ P x y.
Proof.
  induction 1 as [|a b l m H F IH]; intros [|i] x E; try discriminate E; cbn in *; [injection E as <-; eauto|eauto].
Qed.
(** ** Comparing *)
Lemma lacking_some d e k : lacking d e = Some k -> (exists x, sget k d = Some x) /\ sget k e = None.
Proof.
  unfold lacking. destruct (filter _ _) as [|k' l] eqn:E; [discriminate|]. intro X. injection X as <-.
  assert (I : In k' (filter (fun k => negb (smem k e)) (map fst d))) by (rewrite E; now left).
  apply filter_In in I as [I B]. split; [now apply sget_Some_key|]. apply negb_true_iff in B. unfold dmem in B. destruct (sget k' e); [discriminate B|reflexivity].
Qed.
Lemma lacking_none d e : lacking d e = None -> forall k x, sget k d = Some x -> exists y, sget k e = Some y.
Proof.
  unfold lacking. destruct (filter _ _) as [|k' l] eqn:E; [|discriminate]. intros _ k x G.
  destruct (sget k e) eqn:Q; [eauto|]. assert (I : In k (filter (fun k => negb (smem k e)) (map fst d))).
  { apply filter_In. split; [apply sget_Some_key; eauto|]. unfold dmem. now rewrite Q. }
  rewrite E in I. destruct I.
Qed.
Lemma scalar_alike a b : match a with VList _ | VDict _ | VObj _ _ _ => False | _ => True end ->
  if scalar_eqb a b then alike a b /\ covers a b else ~ alike a b /\ ~ covers a b.
Proof.
  destruct a as [|x|x|x|x|x|x|h x i], b as [|y|y|y|y|y|y|g y j]; cbn [scalar_eqb]; intros []; try (split; intro Z; now inversion Z).
  - split; constructor.
  - destruct (Bool.eqb x y) eqn:E; [apply eqb_prop in E as ->; split; constructor|]. split; intro Z; inversion Z; subst; now rewrite eqb_reflx in E.
  - destruct (Z.eqb_spec x y) as [->|E]; [split; constructor|]. split; intro Z; inversion Z; congruence.
  - destruct (Qeq_bool x y) eqn:E; [apply Qeq_bool_iff in E; split; now constructor|]. apply Qeq_bool_neq in E. split; intro Z; inversion Z; contradiction.
  - destruct (str_eqb_spec x y) as [->|E]; [split; constructor|]. split; intro Z; inversion Z; congruence.
Qed.
(** What a comparison tells. *)
Definition verdict (loc : list str -> str) (a b : val) (r : res (bool * str)) : Prop :=
  match r with
  | Ok (true, _) => covers a b
  | Ok (false, l) => ~ covers a b /\ exists ts, l = loc ts /\ differ_at a b ts
  | Err e => e = IndexError /\ ~ covers a b /\ shorter a b
  end.
Definition vldepth (l : list val) : nat := (fix go l := match l with [] => 0 | x :: l => Nat.max (vdepth x) (go l) end) l.
Definition vddepth (d : sdict val) : nat := (fix go d := match d with [] => 0 | (_, x) :: d => Nat.max (vdepth x) (go d) end) d.
Lemma vldepth_In l x : In x l -> vdepth x <= vldepth l.
Proof.
  induction l as [|y l IH]; [intros []|]. intros [<-|I]; cbn; [lia|]. specialize (IH I). unfold vldepth in IH. lia.
Qed.
Lemma vddepth_In d k x : In (k, x) d -> vdepth x <= vddepth d.
Proof.
  induction d as [|[k' y] d IH]; [intros []|]. intros [E|I]; cbn; [injection E as -> ->; lia|]. specialize (IH I). unfold vddepth in IH. lia.
Qed.
Section Verdicts.
  Context (cmp : str -> val -> val -> res (bool * str)).
  Lemma items_verdict name l : forall i m, name <> [] ->
    (forall x y nm, In x l -> In y m -> nm <> [] -> verdict (rfc_pointer nm) x y (cmp nm x y)) ->
    match cmp_items cmp name i l m with
    | Ok (true, _) => i + length l <= length m \/ l = []
    | _ => True
    end /\
    match cmp_items cmp name i l m with
    | Ok (true, _) => Forall2 covers l (firstn (length l) (skipn i m))
    | Ok (false, loc) => exists j x y ts, nth_error l j = Some x /\ nth_error m (i + j) = Some y /\ ~ covers x y /\
                           loc = rfc_pointer name (str_of_nat (i + j) :: ts) /\ differ_at x y ts
    | Err e => e = IndexError /\ (length m < i + length l \/
                 exists j x y, nth_error l j = Some x /\ nth_error m (i + j) = Some y /\ ~ covers x y /\ shorter x y)
    end.
  Proof.
    induction l as [|x l IH]; intros i m N V; cbn [cmp_items]; [split; [now right|constructor]|].
    destruct (nth_error m i) as [y|] eqn:Y.
    - assert (VX := V x y (sub (str_of_nat i) name) (or_introl eq_refl) (nth_error_In _ _ Y)).
      rewrite sub_pointer in * by exact N. specialize (VX (pointer_nonempty _ _ N)).
      destruct (cmp _ x y) as [[[] loc]|e]; cbn [bind fst verdict] in *.
      + destruct (IH (S i) m N) as [IH1 IH2]; [intros; apply V; auto; now right|].
        assert (L : i < length m) by (apply nth_error_Some; congruence).
        destruct (cmp_items cmp name (S i) l m) as [[[] loc']|e]; split; auto.
        * left. cbn [length]. destruct IH1 as [IH1| ->]; cbn [length]; lia.
        * cbn [length]. assert (K : skipn i m = y :: skipn (S i) m).
          { clear - Y. revert i Y. induction m as [|z m IH]; intros [|i] Y; try discriminate Y; cbn in *; [congruence|]. apply IH, Y. }
          rewrite K. cbn [firstn]. now constructor.
        * destruct IH2 as (j & x' & y' & ts & H1 & H2 & H3 & H4 & H5). exists (S j), x', y', ts. replace (i + S j) with (S i + j) by lia. auto.
        * destruct IH2 as [-> IH2]. split; [reflexivity|]. destruct IH2 as [IH2|(j & x' & y' & H1 & H2 & H3 & H4)]; [left; cbn [length]; lia|].
          right. exists (S j), x', y'. replace (i + S j) with (S i + j) by lia. auto.
      + split; [exact I|]. destruct VX as (NC & ts & -> & DA). exists 0, x, y, ts. rewrite Nat.add_0_r. repeat split; auto. now rewrite <- pointer_app.
      + split; [exact I|]. destruct VX as (-> & NC & SH). split; [reflexivity|]. right. exists 0, x, y. rewrite Nat.add_0_r. auto.
    - split; [exact I|]. split; [reflexivity|]. left. apply nth_error_None in Y. cbn [length]. lia.
  Qed.
  Lemma keyed_verdict (full : str -> str) (loop : sdict val -> sdict val -> res (bool * str)) (nm : str) (ex : exn) :
    (forall e, loop [] e = Ok (true, nm)) ->
    (forall k x d e, loop ((k, x) :: d) e = match sget k e with None => Err ex | Some y => do r <- cmp (full k) x y; if fst r then loop d e else Ok r end) ->
    forall d e,
    (forall k x, In (k, x) d -> exists y, sget k e = Some y) ->
    (forall k x y, In (k, x) d -> sget k e = Some y -> verdict (rfc_pointer (full k)) x y (cmp (full k) x y)) ->
    match loop d e with
    | Ok (true, _) => forall k x, In (k, x) d -> exists y, sget k e = Some y /\ covers x y
    | Ok (false, loc) => exists k x y ts, In (k, x) d /\ sget k e = Some y /\ ~ covers x y /\ loc = rfc_pointer (full k) ts /\ differ_at x y ts
    | Err er => er = IndexError /\ exists k x y, In (k, x) d /\ sget k e = Some y /\ ~ covers x y /\ shorter x y
    end.
  Proof.
    intros L0 L1. induction d as [|[k x] d IH]; intros e H V; [rewrite L0; intros ? ? []|]. rewrite L1.
    destruct (H k x (or_introl eq_refl)) as (y & Y). rewrite Y.
    assert (VX := V k x y (or_introl eq_refl) Y). destruct (cmp _ x y) as [[[] loc]|er]; cbn [bind fst verdict] in *.
    - specialize (IH e (fun k' x' I => H k' x' (or_intror I)) (fun k' x' y' I => V k' x' y' (or_intror I))).
      destruct (loop d e) as [[[] loc']|er].
      + intros k' x' [E|I]; [injection E as <- <-; eauto|]. eauto.
      + destruct IH as (k' & x' & y' & ts & I & R). exists k', x', y', ts. split; [now right|exact R].
      + destruct IH as (-> & k' & x' & y' & I & R). split; [reflexivity|]. exists k', x', y'. split; [now right|exact R].
    - destruct VX as (NC & ts & -> & DA). exists k, x, y, ts. split; [now left|auto].
    - destruct VX as (-> & NC & SH). split; [reflexivity|]. exists k, x, y. split; [now left|auto].
  Qed.
End Verdicts.

Lemma fields_verdict cmp full nm h fs i g es j : wfv (VObj h fs i) -> wfv (VObj g es j) -> h_cls h = h_cls g ->
  (forall k x y, In (k, x) fs -> sget k es = Some y -> verdict (rfc_pointer (full k)) x y (cmp (full k) x y)) ->
  (forall k ts, In k (map fst fs) -> nm (k :: ts) = rfc_pointer (full k) ts) ->
  verdict nm (VObj h fs i) (VObj g es j) (cmp_fields cmp full fs es).
Proof.
  intros W W' C V F. inversion W as [| | | | | | |? ? ? K _]; subst. inversion W' as [| | | | | | |? ? ? K' _]; subst. clear W W'.
  assert (A : alike (VObj h fs i) (VObj g es j)) by now constructor.
  assert (ND : NoDup (map fst fs)) by (rewrite K; apply fields_nodup).
  assert (NC : forall k x y, In (k, x) fs -> sget k es = Some y -> ~ covers x y -> ~ covers (VObj h fs i) (VObj g es j)).
  { intros k x y I Y N Z. inversion Z as [| | | | | | |? ? ? ? ? ? ? H]; subst. apply In_sget in I; [|exact ND]. destruct (H _ _ I) as (y' & Y' & CV). congruence. }
  pose proof (keyed_verdict cmp full (cmp_fields cmp full) [] AttributeError) as L. specialize (L (fun _ => eq_refl) (fun _ _ _ _ => eq_refl) fs es).
  unfold verdict. destruct (cmp_fields cmp full fs es) as [[[] loc]|e].
  - constructor; [exact C|]. intros n x G. apply sget_In in G. eapply L; eauto. intros k y I. apply sget_Some_key. rewrite K', <- C, <- K. now apply (in_map fst) in I.
  - destruct L as (k & x & y & ts & I & Y & N & -> & DA); [intros k y I; apply sget_Some_key; rewrite K', <- C, <- K; now apply (in_map fst) in I|exact V|].
    split; [eapply NC; eauto|]. exists (k :: ts). split; [now rewrite F by now apply (in_map fst) in I|].
    eapply diff_below; [exact A|constructor; apply In_sget; eauto|constructor; eauto|exact DA].
  - destruct L as (-> & k & x & y & I & Y & N & SH); [intros k y I; apply sget_Some_key; rewrite K', <- C, <- K; now apply (in_map fst) in I|exact V|].
    split; [reflexivity|]. split; [eapply NC; eauto|]. eapply short_below; [exact A|constructor; apply In_sget; eauto|constructor; eauto|exact SH].
Qed.
Lemma cmpf_verdict : forall fuel a b name, vdepth a < fuel -> wfv a -> wfv b -> name <> [] -> verdict (rfc_pointer name) a b (cmpf fuel name a b).
Proof.
  induction fuel as [|fuel IH]; intros a b name D WA WB N; [lia|]. cbn [cmpf].
  assert (SC : match a with VList _ | VDict _ | VObj _ _ _ => False | _ => True end -> verdict (rfc_pointer name) a b (Ok (scalar_eqb a b, name))).
  { intro S. pose proof (scalar_alike a b S) as X. unfold verdict. destruct (scalar_eqb a b); [apply X|]. destruct X as [X Y]. split; [exact Y|].
    exists []. split; [now rewrite pointer_nil|now constructor]. }
  assert (NA : forall loc, ~ alike a b -> ~ covers a b -> loc = name -> verdict (rfc_pointer name) a b (Ok (false, loc))).
  { intros loc X Y ->. split; [exact Y|]. exists []. split; [now rewrite pointer_nil|now constructor]. }
  destruct a as [|x|x|x|x|l|d|h fs i]; try (apply SC; exact I).
  - destruct b as [|y|y|y|y|m|e|g es j]; try (apply NA; [intro Z; now inversion Z|intro Z; now inversion Z|reflexivity]). cbn [cmp_step].
    inversion WA as [| | | | |? FA| |]; subst. inversion WB as [| | | | |? FB| |]; subst. rewrite Forall_forall in FA, FB.
    destruct (items_verdict (cmpf fuel) name l 0 m N) as [L1 L2].
    { intros x y nm X Y NN. apply IH; auto. apply vldepth_In in X. change (vdepth (VList l)) with (S (vldepth l)) in D. lia. }
    assert (NC : forall j x y, nth_error l j = Some x -> nth_error m j = Some y -> ~ covers x y -> ~ covers (VList l) (VList m)).
    { intros j x y X Y H Z. inversion Z as [| | | | |? m' more F| |]; subst. pose proof (Forall2_nth_l _ _ _ F _ _ X) as (y' & Y' & C).
      rewrite nth_error_app1 in Y by (apply nth_error_Some; congruence). congruence. }
    assert (LL : length m < length l -> ~ covers (VList l) (VList m)).
    { intros LT Z. inversion Z as [| | | | |? m' more F| |]; subst. apply Forall2_len in F. rewrite app_length in LT. lia. }
    unfold verdict. destruct (cmp_items (cmpf fuel) name 0 l m) as [[[] loc]|er]; cbn [Nat.add] in *.
    + cbn [skipn] in L2. rewrite <- (firstn_skipn (length l) m). now constructor.
    + destruct L2 as (j & x & y & ts & X & Y & NCV & -> & DA). split; [eapply NC; eauto|]. exists (str_of_nat j :: ts). split; [reflexivity|].
      eapply diff_below; [constructor|constructor; eauto|constructor; eauto|exact DA].
    + destruct L2 as (-> & L2). split; [reflexivity|]. destruct L2 as [L2|(j & x & y & X & Y & NCV & SH)].
      * split; [now apply LL|now constructor].
      * split; [eapply NC; eauto|]. eapply short_below; [constructor|constructor; eauto|constructor; eauto|exact SH].
  - destruct b as [|y|y|y|y|m|e|g es j]; try (apply NA; [intro Z; now inversion Z|intro Z; now inversion Z|reflexivity]). cbn [cmp_step].
    inversion WA as [| | | | | |? NDA FA|]; subst. inversion WB as [| | | | | |? NDB FB|]; subst. rewrite Forall_forall in FA, FB.
    destruct (lacking d e) as [k|] eqn:L1.
    { apply lacking_some in L1 as ((x & X) & Y). split.
      - intro Z. inversion Z as [| | | | | |? ? H1 H2|]; subst. destruct (H1 _ _ X) as (y & Y' & _). congruence.
      - exists [k]. split; [now apply sub_pointer|]. eapply diff_left; eauto. }
    destruct (lacking e d) as [k|] eqn:L2.
    { apply lacking_some in L2 as ((x & X) & Y). split.
      - intro Z. inversion Z as [| | | | | |? ? H1 H2|]; subst. destruct (H2 _ _ X) as (y & Y'). congruence.
      - exists [k]. split; [now apply sub_pointer|]. eapply diff_right; eauto. }
    pose proof (keyed_verdict (cmpf fuel) (fun k => sub k name) (cmp_keys (cmpf fuel) name) name KeyError (fun _ => eq_refl) (fun _ _ _ _ => eq_refl) d e) as L.
    assert (NC : forall k x y, In (k, x) d -> sget k e = Some y -> ~ covers x y -> ~ covers (VDict d) (VDict e)).
    { intros k x y X Y H Z. inversion Z as [| | | | | |? ? H1 H2|]; subst. apply In_sget in X; [|exact NDA]. destruct (H1 _ _ X) as (y' & Y' & C). congruence. }
    assert (H1 : forall k x, In (k, x) d -> exists y, sget k e = Some y).
    { intros k x X. apply In_sget in X; [|exact NDA]. eapply lacking_none; eauto. }
    assert (H2 : forall k x y, In (k, x) d -> sget k e = Some y -> verdict (rfc_pointer (sub k name)) x y (cmpf fuel (sub k name) x y)).
    { intros k x y X Y. apply IH.
      - apply vddepth_In in X. change (vdepth (VDict d)) with (S (vddepth d)) in D. lia.
      - exact (FA _ X).
      - apply sget_In in Y. exact (FB _ Y).
      - rewrite sub_pointer by exact N. now apply pointer_nonempty. }
    specialize (L H1 H2). unfold verdict. destruct (cmp_keys (cmpf fuel) name d e) as [[[] loc]|er].
    + constructor.
      * intros k x X. apply sget_In in X. eauto.
      * intros k y Y. eapply lacking_none; eauto.
    + destruct L as (k & x & y & ts & X & Y & NCV & -> & DA). split; [eapply NC; eauto|]. exists (k :: ts). rewrite sub_pointer, <- pointer_app by exact N. split; [reflexivity|].
      eapply diff_below; [constructor|constructor; apply In_sget; eauto|constructor; eauto|exact DA].
    + destruct L as (-> & k & x & y & X & Y & NCV & SH). split; [reflexivity|]. split; [eapply NC; eauto|].
      eapply short_below; [constructor|constructor; apply In_sget; eauto|constructor; eauto|exact SH].
  - destruct b as [|y|y|y|y|m|e|g es j]; try (apply NA; [intro Z; now inversion Z|intro Z; now inversion Z|reflexivity]). cbn [cmp_step].
    destruct (cls_eqb (h_cls h) (h_cls g)) eqn:C.
    + apply cls_eqb_eq in C. apply fields_verdict; auto.
      * intros k x y X Y. inversion WA as [| | | | | | |? ? ? KA FA]; subst. inversion WB as [| | | | | | |? ? ? KB FB]; subst. rewrite Forall_forall in FA, FB. apply IH.
        -- apply vddepth_In in X. change (vdepth (VObj h fs i)) with (S (vddepth fs)) in D. lia.
        -- exact (FA _ X).
        -- apply sget_In in Y. exact (FB _ Y).
        -- rewrite sub_pointer by exact N. now apply pointer_nonempty.
      * intros k ts _. rewrite sub_pointer, <- pointer_app by exact N. reflexivity.
    + assert (NE : h_cls h <> h_cls g) by (intro Q; rewrite Q, cls_eqb_refl in C; discriminate C).
      apply NA; [intro Z; inversion Z; subst; contradiction|intro Z; inversion Z; subst; contradiction|reflexivity].
Qed.
Lemma compare_verdict a b : wfv a -> wfv b -> is_obj a -> is_obj b -> verdict name_of a b (compare a b).
Proof.
  intros WA WB OA OB. destruct a as [| | | | | | |h fs i]; try destruct OA. destruct b as [| | | | | | |g es j]; try destruct OB. cbn [compare].
  destruct (cls_eqb (h_cls h) (h_cls g)) eqn:C.
  - apply cls_eqb_eq in C. inversion WA as [| | | | | | |? ? ? KA FA]; subst. inversion WB as [| | | | | | |? ? ? KB FB]; subst.
    apply fields_verdict; auto.
    + intros k x y X Y. rewrite Forall_forall in FA, FB. apply cmpf_verdict.
      * apply vddepth_In in X. change (vdepth (VObj h fs i)) with (S (vddepth fs)). lia.
      * exact (FA _ X).
      * apply sget_In in Y. exact (FB _ Y).
      * rewrite top_escape. apply escape_nonempty. apply (field_nonempty (h_cls h)). rewrite <- KA. now apply (in_map fst) in X.
    + intros k ts _. now rewrite top_escape.
  - assert (NE : h_cls h <> h_cls g) by (intro Q; rewrite Q, cls_eqb_refl in C; discriminate C). split; [intro Z; inversion Z; subst; contradiction|].
    exists []. split; [reflexivity|]. constructor. intro Z; inversion Z; subst; contradiction.
Qed.
Lemma covers_refl v : wfv v -> covers v v.
Proof.
  induction v using val_ind'; intro W; try constructor; try reflexivity.
  - rewrite <- (app_nil_r l) at 2. constructor. inversion W as [| | | | |? F| |]; subst. clear W. induction H; constructor; inversion F; auto.
  - intros k x G. exists x. split; [exact G|]. apply sget_In in G. inversion W as [| | | | | |? ? F|]; subst. rewrite Forall_forall in H, F. apply (H _ G). exact (F _ G).
  - intros k y G. eauto.
  - intros k x G. exists x. split; [exact G|]. apply sget_In in G. inversion W as [| | | | | | |? ? ? ? F]; subst. rewrite Forall_forall in H, F. apply (H _ G). exact (F _ G).
Qed.
