(** Lemmas for composed schemas in created applications. *)
From Coq Require Import Lia.
From Verif Require Import PyBase PyFacts PyInt PyJson M_JsonPtr S_JsonPtr M_Url P_Op M_SpecVal M_Parse M_SpecTree M_Merge M_MergeRef S_Parse S_SpecTree S_Merge S_MergeRef P_SpecBase P_Parse P_SpecTree P_Merge P_MergeShape P_MergeRef M_Scope M_Patch S_Patch P_Patch M_App S_App P_App P_Deep M_OldParse M_Upgrade M_Prepare P_Grown P_Prepare5 T_SpecTree T_App S_Cycles P_Cycles S_Compose P_Compare.
From Verif Require M_Aggt S_Aggt P_Aggt P_AggtMerge P_AggtAll T_Aggt P_OldValidate.
Close Scope Q_scope.

Lemma Forall2_nth {A B} (P : A -> B -> Prop) la lb : Forall2 P la lb -> forall i x, nth_error la i = Some x -> exists y, nth_error lb i = Some y /\ P x y.
Proof. induction 1 as [|x y m k X F IH]; intros i z N; destruct i; try discriminate N; [injection N as ->; exists y; split; [reflexivity|exact X]|]. cbn [nth_error] in *. now apply IH. Qed.

Section Heap.
  Context (abs_uri win_uri : str -> str) (fetch : str -> res json) (prim : str -> bool) (float_of : str -> res Q) (sep : str) (f : nat).
  Notation solve := (resolvef abs_uri win_uri fetch (parse_listing fetch) (convert_doc prim float_of sep) as_given).
  Notation fuel := (S f).
  Context (a : app) (u : str) (root : val) (objs : list (str * val)).
  Hypothesis SH : shaped (Of CSwagger) root.
  Hypothesis SO : sound a.
  Hypothesis RT : a_root a = Some (0, root).
  Hypothesis WH : whole a u (0, root).
  Hypothesis TR : traverse root [] = Ok objs.
  Hypothesis SC : self_contained abs_uri win_uri u root.
  Hypothesis ONE : documents a = [(0, root)].
  Notation points := (points abs_uri win_uri u root).
  Notation stands := (stands abs_uri win_uri u root).
  Notation includes := (includes abs_uri win_uri u root).
  Definition sch (s : val) : Prop := exists ts, schema_at root ts s.
  Hypothesis UNIQ : forall s s', sch s -> sch s' -> place_of s = place_of s' -> s = s'.

  Notation node_of := (node_of abs_uri win_uri fetch prim float_of sep fuel a).
  Notation heap_of := (heap_of abs_uri win_uri fetch prim float_of sep fuel a).
  Notation sl := (filter (fun po : str * val => same_class CSchema (snd po)) objs).
  Notation l := (map (fun po : str * val => (0, snd po)) sl).
  Lemma schemas_l : schemas_of (documents a) = Ok l.
  Proof.
    rewrite ONE. cbn [schemas_of]. destruct (shaped_obj _ _ SH) as (h & fs & ints & E & _). rewrite E at 1. rewrite TR. cbn [bind]. now rewrite app_nil_r.
  Qed.
  Lemma visited1 p o : In (p, o) objs <-> exists ts, p = rfc_pointer (lit "#") ts /\ reach [] root ts o /\ is_obj o.
  Proof.
    assert (W : wfv root) by exact (shaped_wfv _ _ _ (Nat.lt_succ_diag_r _) SH). assert (O : is_obj root) by (destruct (shaped_obj _ _ SH) as (? & ? & ? & -> & _); exact Logic.I).
    destruct (traverse_ok root [] W O) as (r & R & I & _). rewrite TR in R. injection R as ->. apply I.
  Qed.
  Lemma in_sl s : (exists p, In (p, s) sl) <-> sch s.
  Proof.
    split.
    - intros (p & I). apply filter_In in I as (I & C). cbn [snd] in C. apply visited1 in I as (ts & _ & R & _). exists ts. split; [exact R|]. now apply schema_same.
    - intros (ts & R & C). exists (rfc_pointer (lit "#") ts). apply filter_In. cbn [snd]. split; [|now apply schema_same]. apply visited1. exists ts. split; [reflexivity|]. split; [exact R|]. destruct C as (? & ? & ? & -> & _). exact Logic.I.
  Qed.
  Lemma sch_obj s : sch s -> exists h fs ints, s = VObj h fs ints /\ h_cls h = CSchema.
  Proof. intros (ts & _ & C). exact C. Qed.
  Lemma sch_shaped s : sch s -> shaped (Of CSchema) s.
  Proof. intros (ts & SA). exact (schema_shaped _ _ _ _ SH SA). Qed.
  Lemma at_l i s : nth_error l i = Some (0, s) -> sch s.
  Proof. intro N. apply nth_error_In, in_map_iff in N as ([p s'] & E & I). injection E as <-. apply in_sl. eauto. Qed.
  (** The number of a schema *)
  Lemma number_at m s i : number_of m 0 s = Ok i -> exists n s', nth_error m i = Some (n, s') /\ n = 0 /\ place_of s' = place_of s /\ is_obj s'.
  Proof.
    revert i. induction m as [|[n v] m IH]; intros i E; [discriminate E|]. cbn [number_of] in E. destruct s as [| | | | | | |h fs ints]; try discriminate E.
    destruct (is_at 0 (h_place h) (n, v)) eqn:A.
    - injection E as <-. unfold is_at in A. cbn [fst snd] in A. apply andb_true_iff in A as (A & B). apply Nat.eqb_eq in A. destruct v as [| | | | | | |k es jnts]; try discriminate B. apply place_eqb_eq in B.
      exists n, (VObj k es jnts). split; [reflexivity|]. split; [exact A|]. split; [cbn; congruence|exact Logic.I].
    - apply bind_ok in E as (j & E & Q). injection Q as <-. now apply IH.
  Qed.
  Lemma number_in m s : is_obj s -> In (0, s) m -> exists i, number_of m 0 s = Ok i.
  Proof.
    intros O. induction m as [|[n v] m IH]; intro I; [destruct I|]. destruct s as [| | | | | | |h fs ints]; try destruct O. cbn [number_of].
    destruct (is_at 0 (h_place h) (n, v)) eqn:A; [eauto|]. destruct I as [E|I].
    - injection E as -> ->. unfold is_at in A. cbn [fst snd Nat.eqb] in A. rewrite (proj2 (place_eqb_eq _ _) eq_refl) in A. discriminate A.
    - destruct (IH I) as (i & ->). cbn [bind]. eauto.
  Qed.
  Definition num (s : val) (i : nat) : Prop := sch s /\ number_of l 0 s = Ok i.
  Lemma num_at s i : num s i -> nth_error l i = Some (0, s).
  Proof.
    intros (S & E). destruct (number_at _ _ _ E) as (n & s' & N & -> & P & _). rewrite N. repeat f_equal. apply UNIQ; [eapply at_l; eauto|exact S|exact P].
  Qed.
  Lemma num_ex s : sch s -> exists i, num s i.
  Proof.
    intro S. destruct (number_in l s) as (i & E); [destruct (sch_obj _ S) as (? & ? & ? & -> & _); exact Logic.I| |exists i; split; auto].
    apply in_sl in S as (p & I). apply in_map_iff. exists (p, s). auto.
  Qed.
  Lemma num_inj s s' i : num s i -> num s' i -> s = s'.
  Proof. intros A B. apply num_at in A, B. rewrite A in B. now injection B. Qed.
  Lemma num_fun s i j : num s i -> num s j -> i = j.
  Proof. intros (_ & A) (_ & B). rewrite A in B. now injection B. Qed.

  (** ** Children of schemas *)
  Lemma kid_sch s n x ts y : sch s -> field_of s (lit n) = Some x -> In n ["properties"; "allOf"; "additionalProperties"; "items"]%string -> inside x ts y -> is_obj y -> sch y.
  Proof.
    intros (us & SA) F I IN O. destruct (schema_child s n x (schema_shaped _ _ _ _ SH SA) F I ts y IN O) as (R & C). exists (us ++ lit n :: ts). split; [|exact C]. eapply P_OldValidate.reach_app; [exact (proj1 SA)|exact R].
  Qed.
  Lemma schema_field s n ct cc x : sch s -> sget (lit n) (t_child CSchema) = Some (ct, cc) -> field_of s (lit n) = Some x -> shaped_in ct cc x.
  Proof.
    intros S T F. pose proof (sch_shaped _ S) as H. destruct (sch_obj _ S) as (h & fs & ints & -> & C). rewrite <- C in H, T. destruct (shaped_field _ _ _ _ _ H F) as [(T' & _)|(? & ? & T' & X)]; congruence.
  Qed.

  (** ** Nodes *)
  Lemma wf_s s : sch s -> wfv s. Proof. intro S. exact (shaped_wfv _ _ _ (Nat.lt_succ_diag_r _) (sch_shaped _ S)). Qed.
  Lemma inside_list (x : val) m : In x m -> exists ts, inside (VList m) ts x.
  Proof. intro I. destruct (In_nth_error _ _ I) as (i & N). eexists. econstructor; [exact N|constructor]. Qed.
  Lemma inside_dict (d : sdict val) k x : sget k d = Some x -> inside (VDict d) [k] x.
  Proof. intro G. econstructor; [exact G|constructor]. Qed.
  Lemma shaped_is c x : shaped (Of c) x -> is_obj x. Proof. intro H. destruct (shaped_obj _ _ H) as (? & ? & ? & -> & _). exact Logic.I. Qed.
  Lemma allof_sch s m x : sch s -> field_of s (lit "allOf") = Some (VList m) -> In x m -> sch x.
  Proof.
    intros S F I. destruct (inside_list _ _ I) as (ts & IN). eapply kid_sch; [exact S|exact F|cbn; auto|exact IN|].
    pose proof (schema_field s "allOf" ListOf (Of CSchema) _ S eq_refl F) as X. inversion X as [| |? ? FA|]; subst. rewrite Forall_forall in FA. eapply shaped_is; eauto.
  Qed.
  Lemma prop_sch s d k x : sch s -> field_of s (lit "properties") = Some (VDict d) -> sget k d = Some x -> sch x.
  Proof.
    intros S F G. eapply kid_sch; [exact S|exact F|cbn; auto|eapply inside_dict; exact G|].
    pose proof (schema_field s "properties" DictOf (Of CSchema) _ S eq_refl F) as X. inversion X as [| | |? ? ND FA]; subst. rewrite Forall_forall in FA. apply sget_In in G. eapply shaped_is. exact (FA _ G).
  Qed.
  Lemma one_sch s n x : sch s -> In n ["additionalProperties"; "items"]%string -> field_of s (lit n) = Some x -> is_obj x -> sch x.
  Proof. intros S I F O. eapply kid_sch; [exact S|exact F| |constructor|exact O]. destruct I as [<-|[<-|[]]]; cbn; auto. Qed.
  (** What the scanner reads of a schema *)
  Record described (s : val) (n : M_Aggt.node) : Prop := {
    d_plain : map fst (M_Aggt.s_plain n) = map fst M_Aggt.plain_fields;
    d_value : forall k v, In k (map fst M_Aggt.plain_fields) -> sget k (M_Aggt.s_plain n) = Some v <-> attr_of s k = Some v;
    d_ref : match M_Aggt.s_ref n with None => no_reference s | Some j => exists r ts x, S_MergeRef.refers s r /\ points r ts x /\ num x j end;
    d_final : M_Aggt.s_final n = None;
    d_items : forall j, M_Aggt.s_items n = Some j -> exists x, field_of s (lit "items") = Some x /\ num x j;
    d_allof : match field_of s (lit "allOf") with Some (VList m) => Forall2 num m (M_Aggt.s_allof n) | _ => M_Aggt.s_allof n = [] end;
    d_props : exists d, field_of s (lit "properties") = Some (VDict d) /\ Forall2 (fun kx kj => fst kx = fst kj /\ num (snd kx) (snd kj)) d (M_Aggt.s_props n);
    d_addl : forall j, M_Aggt.s_addl n = M_Aggt.AObj j -> exists x, field_of s (lit "additionalProperties") = Some x /\ num x j }.
  Lemma attr_field fs ints n x : attr fs ints n = Ok x -> (sget n fs = Some x \/ sget n fs = None /\ sget n ints = Some x).
  Proof. unfold attr. destruct (sget n fs); [intro E; injection E as ->; auto|]. destruct (sget n ints); [intro E; injection E as ->; auto|discriminate]. Qed.
  Lemma attr_of_ok h fs ints n x : attr fs ints n = Ok x <-> attr_of (VObj h fs ints) n = Some x.
  Proof. unfold attr, attr_of. cbn [field_of internal_of]. destruct (sget n fs); [split; intro E; injection E as ->; reflexivity|]. destruct (sget n ints); split; intro E; try discriminate E; injection E as ->; reflexivity. Qed.
  Lemma field_present s n df : sch s -> sget n (t_fields CSchema) = Some df -> exists x, field_of s n = Some x.
  Proof.
    intros S G. pose proof (wf_s _ S) as W. destruct (sch_obj _ S) as (h & fs & ints & -> & C). inversion W as [| | | | | | |? ? ? K _]; subst. cbn [field_of]. destruct (sget n fs) as [x|] eqn:E; [eauto|].
    apply sget_None in E. elim E. rewrite K, C. apply sget_In in G. now apply (in_map fst) in G.
  Qed.
  Lemma attr_is s h fs ints n df x : sch s -> s = VObj h fs ints -> sget n (t_fields CSchema) = Some df -> attr fs ints n = Ok x -> field_of s n = Some x.
  Proof. intros S E G A. destruct (field_present s n df S G) as (y & Y). subst s. cbn [field_of] in *. unfold attr in A. rewrite Y in A |- *. now injection A as ->. Qed.
  Lemma node_described s n : sch s -> node_of l (0, s) = Ok n -> described s n.
  Proof.
    intros S E. destruct (sch_obj _ S) as (h & fs & ints & Q & C). unfold M_Prepare.node_of in E. rewrite Q in E.
    apply bind_ok in E as (plain & PL & E). apply bind_ok in E as (rv & RV & E). apply bind_ok in E as (r & RE & E). apply bind_ok in E as (ref & REF & E).
    apply bind_ok in E as (iv & IV & E). apply bind_ok in E as (items & IT & E). apply bind_ok in E as (av & AV & E). apply bind_ok in E as (allof & AL & E).
    apply bind_ok in E as (pv & PV & E). apply bind_ok in E as (props & PR & E). apply bind_ok in E as (dv & DV & E). apply bind_ok in E as (addl & AD & E). injection E as <-.
    apply (attr_is s h fs ints (lit "$ref") JNull _ S Q eq_refl) in RV. apply (attr_is s h fs ints (lit "items") JNull _ S Q eq_refl) in IV. apply (attr_is s h fs ints (lit "allOf") (JList []) _ S Q eq_refl) in AV.
    apply (attr_is s h fs ints (lit "properties") (JObj []) _ S Q eq_refl) in PV. apply (attr_is s h fs ints (lit "additionalProperties") (JBool true) _ S Q eq_refl) in DV.
    apply map_res_ok in PL.
    assert (PK : map fst plain = map fst M_Aggt.plain_fields). { clear - PL. induction PL as [|a b t m H F IH]; [reflexivity|]. apply bind_ok in H as (x & _ & X). injection X as <-. cbn [map fst]. now rewrite IH. }
    constructor; cbn [M_Aggt.s_plain M_Aggt.s_ref M_Aggt.s_final M_Aggt.s_items M_Aggt.s_allof M_Aggt.s_props M_Aggt.s_addl].
    - exact PK.
    - intros k v IK. assert (ND : NoDup (map fst M_Aggt.plain_fields)) by (apply nodupb_ok; vm_compute; reflexivity).
      assert (A : forall x, attr fs ints k = Ok x -> sget k plain = Some x).
      { intros x X. clear - PL IK X. induction PL as [|a b t m H F IH]; [destruct IK|]. apply bind_ok in H as (y & Y & B). injection B as <-. cbn [dget fst snd]. destruct (str_eqb_spec k (fst a)) as [->|N]; [congruence|]. destruct IK as [E|IK]; [now elim N|]. now apply IH. }
      split; intro G.
      + rewrite Q. apply (attr_of_ok h). assert (exists x, attr fs ints k = Ok x) as (x & X).
        { clear - PL IK. induction PL as [|a b t m H F IH]; [destruct IK|]. apply bind_ok in H as (y & Y & B). destruct IK as [<-|IK]; [eauto|]. now apply IH. }
        rewrite X. rewrite (A _ X) in G. congruence.
      + rewrite Q in G. apply (attr_of_ok h) in G. now apply A.
    - unfold reference in RE. destruct (falsy rv) eqn:FA.
      + injection RE as <-. injection REF as <-. exists rv. split; [exact RV|]. now apply falsy_spec.
      + destruct rv as [| | | |rs| | |]; try discriminate RE. injection RE as <-. apply bind_ok in REF as (o & SV & REF). apply bind_ok in REF as (j & NM & REF). injection REF as <-.
        assert (NE : rs <> []) by (intros ->; discriminate FA). destruct S as (ts0 & SA). destruct (SC _ _ _ SA RV NE) as (ts & x & P). exists rs, ts, x. split; [split; auto|]. split; [exact P|].
        pose proof P as (_ & J & A). assert (RX : returned x) by (destruct (proj2 A) as (? & ? & ? & -> & _); exact Logic.I).
        pose proof (c43_whole abs_uri win_uri fetch (parse_listing fetch) (convert_doc prim float_of sep) as_given f a (Some CSchema) rs u 0 root ts x NE J WH (proj1 A) RX) as X. pose proof (eq_trans (eq_sym SV) (f_equal snd X)) as Y. cbn [snd] in Y. injection Y as ->. cbn [fst snd] in NM. split; [exists ts; exact A|exact NM].
    - reflexivity.
    - intros j ->. destruct iv; try discriminate IT. apply bind_ok in IT as (k & NM & X). injection X as ->. eexists. split; [exact IV|]. split; [|exact NM]. eapply (one_sch s "items"); [exact S|cbn; auto|exact IV|exact Logic.I].
    - rewrite AV. destruct av as [| | | | |m0| |]; try (now injection AL as <-). apply map_res_ok in AL. clear PL. assert (AS : forall x, In x m0 -> sch x) by (intros x I; eapply allof_sch; eauto). clear AV. induction AL as [|x i m k X F IH]; constructor; [split; [apply AS; now left|exact X]|]. apply IH. intros y I. apply AS. now right.
    - destruct pv as [| | | | | |d|]; try discriminate PR. exists d. split; [exact PV|]. apply map_res_ok in PR. assert (ND : NoDup (map fst d)).
      { pose proof (wf_s _ S) as W. rewrite Q in W. inversion W as [| | | | | | |? ? ? _ F]; subst. cbn [field_of] in PV. rewrite Forall_forall in F. apply sget_In in PV. specialize (F _ PV). cbn [snd] in F. now inversion F. }
      assert (AS : forall k x, In (k, x) d -> sch x) by (intros k x I; eapply prop_sch; [exact S|exact PV|apply In_sget; eauto]). clear PV ND. induction PR as [|[k x] kj m e X F IH]; constructor.
      + apply bind_ok in X as (j & X & Y). injection Y as <-. cbn [fst snd] in *. split; [reflexivity|]. split; [eapply AS; now left|exact X].
      + apply IH. intros k' y I. apply (AS k' y). now right.
    - intros j ->. destruct dv; try discriminate AD. apply bind_ok in AD as (k & NM & X). injection X as ->. eexists. split; [exact DV|]. split; [|exact NM]. eapply (one_sch s "additionalProperties"); [exact S|cbn; auto|exact DV|exact Logic.I].
  Qed.

  (** ** The heap *)
  Context (hp : M_Aggt.heap).
  Hypothesis HP : map_res (node_of l) l = Ok hp.
  Lemma hp_at i s : nth_error l i = Some (0, s) -> exists n, nth_error hp i = Some n /\ described s n.
  Proof.
    intro N. pose proof (proj1 (map_res_ok _ _ _) HP) as F. assert (X : exists n, nth_error hp i = Some n /\ node_of l (0, s) = Ok n).
    { destruct (Forall2_nth _ _ _ F _ _ N) as (y & Y & Z). eauto. }
    destruct X as (n & N' & E). exists n. split; [exact N'|]. apply node_described; [eapply at_l; eauto|exact E].
  Qed.
  Lemma hp_num s i : num s i -> exists n, S_Aggt.is_node hp i n /\ described s n.
  Proof. intro N. apply hp_at. now apply num_at. Qed.
  Lemma hp_back i n : S_Aggt.is_node hp i n -> exists s, nth_error l i = Some (0, s) /\ described s n.
  Proof.
    intro N. pose proof (proj1 (map_res_ok _ _ _) HP) as F. assert (L : length l = length hp) by (clear - F; induction F; cbn; congruence).
    assert (X : exists y, nth_error l i = Some y). { destruct (nth_error l i) eqn:E; [eauto|]. apply nth_error_None in E. assert (nth_error hp i = None) by (apply nth_error_None; lia). unfold S_Aggt.is_node in N. congruence. }
    destruct X as (y & Y). assert (Z : exists s, y = (0, s)). { pose proof (nth_error_In _ _ Y) as I. apply in_map_iff in I as ([p s] & <- & _). eauto. } destruct Z as (s & ->). exists s. split; [exact Y|].
    destruct (hp_at _ _ Y) as (n' & N' & D). unfold S_Aggt.is_node in N. assert (n' = n) as -> by congruence. exact D.
  Qed.
  Lemma sub_vdepth s n x ts y : field_of s n = Some x -> inside x ts y -> vdepth y < vdepth s.
  Proof.
    destruct s as [| | | | | | |h fs ints]; try discriminate. cbn [field_of]. intros G IN. rewrite vdepth_obj. pose proof (vddepth_get _ _ _ G). enough (vdepth y <= vdepth x) by lia. clear - IN. induction IN as [v|m i v ts o N R IH|d k v ts o G R IH]; [lia| |].
    - rewrite vdepth_list. apply nth_error_In, vldepth_In in N. lia.
    - rewrite vdepth_dict. apply vddepth_get in G. lia.
  Qed.
  Lemma Forall2_r {A B} (P : A -> B -> Prop) (la : list A) (lb : list B) : Forall2 P la lb -> forall y, In y lb -> exists x, In x la /\ P x y.
  Proof. induction 1 as [|x y m k X F IH]; [intros z []|intros z [<-|I]]; [exists x; split; [now left|exact X]|]. destruct (IH _ I) as (w & W & Q). exists w. split; [now right|exact Q]. Qed.
  Lemma Forall2_l {A B} (P : A -> B -> Prop) (la : list A) (lb : list B) : Forall2 P la lb -> forall x, In x la -> exists y, In y lb /\ P x y.
  Proof. induction 1 as [|x y m k X F IH]; [intros z []|intros z [<-|I]]; [exists y; split; [now left|exact X]|]. destruct (IH _ I) as (w & W & Q). exists w. split; [now right|exact Q]. Qed.
  Lemma props_nodup s d : sch s -> field_of s (lit "properties") = Some (VDict d) -> NoDup (map fst d).
  Proof.
    intros S PV. pose proof (wf_s _ S) as W. destruct (sch_obj _ S) as (h & fs & ints & -> & _). inversion W as [| | | | | | |? ? ? _ F]; subst. cbn [field_of] in PV. rewrite Forall_forall in F. apply sget_In in PV. specialize (F _ PV). cbn [snd] in F. now inversion F.
  Qed.
  Lemma holds_num s n j : sch s -> described s n -> S_Aggt.holds n j -> exists x, num x j /\ vdepth x < vdepth s.
  Proof.
    intros S D [H|[H|[(k & H)|H]]].
    - destruct (d_items _ _ D _ H) as (x & F & N). exists x. split; [exact N|]. eapply sub_vdepth; [exact F|constructor].
    - pose proof (d_allof _ _ D) as A. destruct (field_of s (lit "allOf")) as [v|] eqn:F; [|rewrite A in H; destruct H]. destruct v; try (rewrite A in H; destruct H). destruct (Forall2_r _ _ _ A _ H) as (x & I & N). exists x. split; [exact N|].
      destruct (inside_list _ _ I) as (ts & IN). eapply sub_vdepth; eauto.
    - destruct (d_props _ _ D) as (d & F & A). destruct (Forall2_r _ _ _ A _ H) as ([k' x] & I & E & N). cbn [fst snd] in *. subst k'. exists x. split; [exact N|]. eapply sub_vdepth; [exact F|]. eapply inside_dict. apply In_sget; [eapply props_nodup; eauto|exact I].
    - destruct (d_addl _ _ D _ H) as (x & F & N). exists x. split; [exact N|]. eapply sub_vdepth; [exact F|constructor].
  Qed.
  Lemma hp_tree : forall N s i, vdepth s < N -> nth_error l i = Some (0, s) -> S_Aggt.tree hp N i.
  Proof.
    induction N as [|N IH]; intros s i D A; [lia|]. destruct (hp_at _ _ A) as (n & NN & DE). apply (S_Aggt.tree_node hp N i n NN). intros j H. destruct (holds_num s n j (at_l _ _ A) DE H) as (x & X & DX). apply (IH x); [lia|now apply num_at].
  Qed.
  Lemma hp_fresh : S_Aggt.fresh_heap hp.
  Proof.
    intros i n NN. destruct (hp_back _ _ NN) as (s & A & D). pose proof (at_l _ _ A) as S. split; [exists (Datatypes.S (vdepth s)); apply (hp_tree _ s); [lia|exact A]|]. split; [|split; [exact (d_final _ _ D)|split; [|exact (d_plain _ _ D)]]].
    - intros j R. pose proof (d_ref _ _ D) as X. rewrite R in X. destruct X as (r & ts & x & _ & _ & X). destruct (hp_num _ _ X) as (m & M & _). eauto.
    - destruct (d_props _ _ D) as (d & F & X). pose proof (props_nodup _ _ S F) as ND. assert (K : map fst (M_Aggt.s_props n) = map fst d) by (clear - X; induction X as [|a b m k (E & _) X IH]; [reflexivity|cbn [map]; congruence]). now rewrite K.
  Qed.
  (** ** What the heap says about schemas *)
  Lemma ref_num s i n j : num s i -> S_Aggt.is_node hp i n -> M_Aggt.s_ref n = Some j -> exists r ts x, S_MergeRef.refers s r /\ points r ts x /\ num x j.
  Proof. intros N NN R. destruct (hp_num _ _ N) as (m & M & D). unfold S_Aggt.is_node in *. assert (m = n) as -> by congruence. pose proof (d_ref _ _ D) as X. now rewrite R in X. Qed.
  Lemma ends_stands i j : S_Aggt.ends hp i j -> forall s, num s i -> exists e, stands s e /\ num e j.
  Proof.
    induction 1 as [i n NN R|i n k j NN R E IH]; intros s N.
    - exists s. split; [|exact N]. constructor. destruct (hp_num _ _ N) as (m & M & D). unfold S_Aggt.is_node in *. assert (m = n) as -> by congruence. pose proof (d_ref _ _ D) as X. now rewrite R in X.
    - destruct (ref_num _ _ _ _ N NN R) as (r & ts & x & RF & P & X). destruct (IH x X) as (e & SE & NE). exists e. split; [|exact NE]. econstructor; eauto.
  Qed.
  Lemma not_both s r : no_reference s -> S_MergeRef.refers s r -> False.
  Proof. intros (x & F & E) (N & F'). rewrite F in F'. injection F' as ->. inversion E; subst. now elim N. Qed.
  Lemma stands_ends s e : stands s e -> forall i, num s i -> exists j, S_Aggt.ends hp i j /\ num e j.
  Proof.
    induction 1 as [s NR|s r ts x e RF P SE IH]; intros i N; destruct (hp_num _ _ N) as (n & NN & D); pose proof (d_ref _ _ D) as X.
    - exists i. split; [|exact N]. apply (S_Aggt.ends_here hp i n NN). destruct (M_Aggt.s_ref n) as [j|]; [|reflexivity]. destruct X as (r & ts & x & RF & _). destruct (not_both _ _ NR RF).
    - destruct (M_Aggt.s_ref n) as [k|] eqn:R; [|destruct (not_both _ _ X RF)]. destruct X as (r' & ts' & x' & (NE & F') & P' & X). destruct RF as (_ & F). assert (r' = r) as -> by congruence.
      assert (x' = x) as ->. { destruct P as (_ & J & A), P' as (_ & J' & A'). assert (EQ : rfc_pointer (lit "#") ts = rfc_pointer (lit "#") ts') by congruence. apply pointer_inj in EQ; [|discriminate]. subst ts'. exact (reach_fun _ _ _ (proj1 A) _ (proj1 A')). }
      destruct (IH _ X) as (j & E & NJ). exists j. split; [|exact NJ]. econstructor; eauto.
  Qed.
  Lemma member_includes i j : S_Aggt.member hp i j -> forall s, num s i -> exists e, includes s e /\ num e j.
  Proof.
    induction 1 as [i n m j NN I E|i j k M1 IH1 M2 IH2]; intros s N.
    - destruct (hp_num _ _ N) as (n' & NN' & D). unfold S_Aggt.is_node in *. assert (n' = n) as -> by congruence. pose proof (d_allof _ _ D) as A. destruct (field_of s (lit "allOf")) as [v|] eqn:F; [|rewrite A in I; destruct I]. destruct v; try (rewrite A in I; destruct I).
      destruct (Forall2_r _ _ _ A _ I) as (x & IX & NX). destruct (ends_stands _ _ E _ NX) as (e & SE & NE). exists e. split; [|exact NE]. econstructor; eauto.
    - destruct (IH1 _ N) as (e & E & NE). destruct (IH2 _ NE) as (e' & E' & NE'). exists e'. split; [|exact NE']. eapply includes_next; eauto.
  Qed.
  Lemma includes_member s e : includes s e -> forall i, num s i -> exists j, S_Aggt.member hp i j /\ num e j.
  Proof.
    induction 1 as [s m x e F I SE|s e e' M1 IH1 M2 IH2]; intros i N.
    - destruct (hp_num _ _ N) as (n & NN & D). pose proof (d_allof _ _ D) as A. rewrite F in A. destruct (Forall2_l _ _ _ A _ I) as (k & IK & NK). destruct (stands_ends _ _ SE _ NK) as (j & E & NJ). exists j. split; [|exact NJ]. econstructor; eauto.
    - destruct (IH1 _ N) as (j & E & NE). destruct (IH2 _ NE) as (k & E' & NE'). exists k. split; [|exact NE']. eapply S_Aggt.member_next; eauto.
  Qed.
  Lemma part_num i j s : num s i -> S_Aggt.part hp i j -> exists e, has_part abs_uri win_uri u root s e /\ num e j.
  Proof. intros N [<-|M]; [exists s; split; [now left|exact N]|]. destruct (member_includes _ _ M _ N) as (e & I & NE). exists e. split; [now right|exact NE]. Qed.
  Lemma num_part s e i : num s i -> has_part abs_uri win_uri u root s e -> exists j, S_Aggt.part hp i j /\ num e j.
  Proof. intros N [<-|I]; [exists i; split; [now left|exact N]|]. destruct (includes_member _ _ I _ N) as (j & M & NE). exists j. split; [now right|exact NE]. Qed.
  Lemma property_num s i k j : num s i -> S_Aggt.property hp i k j -> exists x, has_property s k x /\ num x j.
  Proof.
    intros N (n & NN & G). destruct (hp_num _ _ N) as (n' & NN' & D). unfold S_Aggt.is_node in *. assert (n' = n) as -> by congruence. destruct (d_props _ _ D) as (d & F & A). apply sget_In in G. destruct (Forall2_r _ _ _ A _ G) as ([k' x] & I & E & X). cbn [fst snd] in *. subst k'.
    exists x. split; [|exact X]. exists d. split; [exact F|]. apply In_sget; [eapply props_nodup; [exact (proj1 N)|exact F]|exact I].
  Qed.
  Lemma num_property s i k x : num s i -> has_property s k x -> exists j, S_Aggt.property hp i k j /\ num x j.
  Proof.
    intros N (d & F & G). destruct (hp_num _ _ N) as (n & NN & D). destruct (d_props _ _ D) as (d' & F' & A). assert (d' = d) as -> by congruence. pose proof (props_nodup _ _ (proj1 N) F) as ND.
    assert (K : map fst (M_Aggt.s_props n) = map fst d) by (clear - A; induction A as [|a b m k (E & _) X IH]; [reflexivity|cbn [map]; congruence]).
    apply sget_In in G. destruct (Forall2_l _ _ _ A _ G) as ([k' j] & I & E & X). cbn [fst snd] in *. subst k'. exists j. split; [|exact X]. exists n. split; [exact NN|]. apply In_sget; [now rewrite K|exact I].
  Qed.
  Lemma value_num s i n k v : num s i -> S_Aggt.is_node hp i n -> In k (map fst M_Aggt.plain_fields) -> sget k (M_Aggt.s_plain n) = Some v <-> attr_of s k = Some v.
  Proof. intros N NN I. destruct (hp_num _ _ N) as (n' & NN' & D). unfold S_Aggt.is_node in *. assert (n' = n) as -> by congruence. now apply (d_value _ _ D). Qed.
  Lemma plain_same k : In k plain_names <-> In k (map fst M_Aggt.plain_fields).
  Proof.
    assert (A : forallb (fun x => mem x (map fst M_Aggt.plain_fields)) plain_names = true) by (vm_compute; reflexivity). assert (B : forallb (fun x => mem x plain_names) (map fst M_Aggt.plain_fields) = true) by (vm_compute; reflexivity).
    rewrite forallb_forall in A, B. split; intro I; [apply A in I|apply B in I]; now apply mem_In in I.
  Qed.

  Lemma requires_num s i x : num s i -> S_Aggt.requires hp i x <-> requires s x.
  Proof.
    intro N. destruct (hp_num _ _ N) as (n & NN & D). assert (I : In (lit "required") (map fst M_Aggt.plain_fields)) by (apply mem_In; vm_compute; reflexivity).
    assert (FA : forall v, attr_of s (lit "required") = Some v <-> field_of s (lit "required") = Some v).
    { intro v. destruct (field_present s (lit "required") (JList []) (proj1 N) eq_refl) as (y & Y). unfold attr_of. rewrite Y. reflexivity. }
    split.
    - intros (m & (n' & NN' & G) & IX). unfold S_Aggt.is_node in *. assert (n' = n) as -> by congruence. exists m. split; [|exact IX]. apply FA. now apply (d_value _ _ D).
    - intros (m & F & IX). exists m. split; [|exact IX]. exists n. split; [exact NN|]. apply (d_value _ _ D); [exact I|]. now apply FA.
  Qed.
  (** ** The composed schemas *)
  Context (fuel2 : nat) (ids : list nat) (hp' : M_Aggt.heap).
  Hypothesis IDS : map_res (fun po : str * val => number_of l 0 (snd po)) sl = Ok ids.
  Hypothesis AG : M_Aggt.aggregate fuel2 hp ids = Ok hp'.
  Lemma ids_num i : In i ids -> exists s, num s i.
  Proof.
    intro I. pose proof (proj1 (map_res_ok _ _ _) IDS) as F. destruct (Forall2_r _ _ _ F _ I) as ([p s] & IS & N). cbn [snd] in N. exists s. split; [|exact N]. apply in_sl. eauto.
  Qed.
  Lemma num_ids s i : num s i -> In i ids.
  Proof.
    intros (S & N). pose proof (proj1 (map_res_ok _ _ _) IDS) as F. apply in_sl in S as (p & I). destruct (Forall2_l _ _ _ F _ I) as (j & J & N'). cbn [snd] in N'. congruence.
  Qed.
  Lemma ids_nodes i : In i ids -> exists n, S_Aggt.is_node hp i n.
  Proof. intro I. destruct (ids_num _ I) as (s & N). destruct (hp_num _ _ N) as (n & NN & _). eauto. Qed.
  Lemma copy_like x i q : num x i -> S_Aggt.copy hp' i q -> exists m, nth_error hp' q = Some m /\ like x m.
  Proof.
    intros N C. inversion C as [? ? n m NI NQ (K & P)]; subst. exists m. split; [exact NQ|]. intros k v I A. destruct (hp_num _ _ N) as (n0 & NN & D).
    destruct (T_Aggt.c41_unchanged fuel2 hp hp' ids hp_fresh ids_nodes AG i n0 NN) as (n1 & m1 & A1 & A2 & PL & _). unfold S_Aggt.is_node in *. assert (n1 = n0) as -> by congruence. assert (m1 = n) as -> by congruence.
    assert (W : sget k (M_Aggt.s_plain n) = Some v). { rewrite PL. apply (d_value _ _ D); [now apply plain_same|exact A]. }
    destruct (sget k (M_Aggt.s_plain m)) as [w|] eqn:E; [exists w; split; [reflexivity|eapply P; eauto]|]. apply sget_None in E. elim E. rewrite <- K. apply sget_Some_key; eauto.
  Qed.
  Lemma heap_composed s e : sch s -> stands s e -> exists i n j m, number_of l 0 e = Ok i /\ nth_error hp' i = Some n /\ M_Aggt.s_final n = Some j /\ length l <= j /\ nth_error hp' j = Some m /\ composed_of abs_uri win_uri u root hp' e m.
  Proof.
    intros S SE. destruct (num_ex _ S) as (i0 & N0). destruct (stands_ends _ _ SE _ N0) as (i & E & N). pose proof (num_ids _ _ N0) as I0.
    destruct (T_Aggt.c41_document fuel2 hp hp' ids hp_fresh ids_nodes AG i0 i I0 E) as (j & FI & C1 & C2 & C4).
    destruct (T_Aggt.c41_only fuel2 hp hp' ids hp_fresh ids_nodes AG i j FI) as ((_ & _ & C3 & _ & C5) & LE). destruct FI as (n & NN & FN).
    destruct (T_Aggt.done fuel2 hp hp' ids hp_fresh ids_nodes AG) as (G & GR & _). destruct (P_AggtMerge.g_final _ _ G _ _ _ NN FN) as (m & _ & M & _).
    assert (LL : length hp = length l). { pose proof (proj1 (map_res_ok _ _ _) HP) as F. clear - F. induction F; cbn; congruence. }
    pose proof (P_AggtMerge.g_closed _ _ (P_AggtAll.fresh_good _ hp_fresh)) as CL. assert (NE : exists n, S_Aggt.is_node hp i n) by (destruct (hp_num _ _ N) as (n0 & NN0 & _); eauto).
    exists i, n, j, m. split; [exact (proj2 N)|]. split; [exact NN|]. split; [exact FN|]. split; [lia|]. split; [exact M|].
    assert (PR : forall k q, S_Aggt.property hp' j k q <-> sget k (M_Aggt.s_props m) = Some q).
    { intros k q. split; [intros (m' & M' & X); unfold S_Aggt.is_node in M'; congruence|intro X; exists m; auto]. }
    constructor.
    - intro k. split.
      + intro I. assert (exists q, sget k (M_Aggt.s_props m) = Some q) as (q & Q). { destruct (sget k (M_Aggt.s_props m)) eqn:X; [eauto|]. apply sget_None in X. now elim X. }
        apply PR in Q. destruct (proj1 (C1 k) (ex_intro _ q Q)) as (j' & p & P & PP). destruct (part_num _ _ _ N P) as (e' & P' & N'). destruct (property_num _ _ _ _ N' PP) as (x & X & _). eauto.
      + intros (p & x & P & X). destruct (num_part _ _ _ N P) as (j' & P' & N'). destruct (num_property _ _ _ _ N' X) as (y & Y & _). destruct (proj2 (C1 k) (ex_intro _ j' (ex_intro _ y (conj P' Y)))) as (q & Q). apply PR in Q. apply sget_Some_key; eauto.
    - intros k x X. destruct (num_property _ _ _ _ N X) as (y & Y & NY). destruct (C2 _ _ Y) as (q & Q & C). apply PR in Q. destruct (copy_like _ _ _ NY C) as (mq & MQ & L). exists q, mq. auto.
    - intros k q Q. apply PR in Q. destruct (C3 _ _ Q) as (j' & p & P & PP & C). apply (P_Aggt.part_same hp hp' CL GR) in P; [|exact NE]. apply (P_Aggt.property_same hp hp' GR) in PP; [|exact (P_Aggt.part_node hp i j' NE P)].
      destruct (part_num _ _ _ N P) as (e' & P' & N'). destruct (property_num _ _ _ _ N' PP) as (x & X & NX). destruct (copy_like _ _ _ NX C) as (mq & MQ & L). exists e', x, mq. auto.
    - intro x. assert (RQ : S_Aggt.requires hp' j x <-> exists m0, sget (lit "required") (M_Aggt.s_plain m) = Some (VList m0) /\ In (VStr x) m0).
      { split; [intros (m0 & (m' & M' & X) & I); unfold S_Aggt.is_node in M'; assert (m' = m) as -> by congruence; eauto|intros (m0 & X & I); exists m0; split; [exists m; auto|exact I]]. }
      rewrite <- RQ, (C4 x). split.
      + intros (j' & P & R). destruct (part_num _ _ _ N P) as (e' & P' & N'). exists e'. split; [exact P'|]. now apply (requires_num _ _ _ N').
      + intros (p & P & R). destruct (num_part _ _ _ N P) as (j' & P' & N'). exists j'. split; [exact P'|]. now apply (requires_num _ _ _ N').
    - intros k v I A NV NC. assert (exists kk, k = lit kk) as (kk & ->). { unfold plain_names in I. apply in_map_iff in I as (kk & <- & _). eauto. }
      destruct (hp_num _ _ N) as (n0 & NN0 & D). destruct (T_Aggt.c41_unchanged fuel2 hp hp' ids hp_fresh ids_nodes AG i n0 NN0) as (n1 & m1 & A1 & A2 & PL & _). unfold S_Aggt.is_node in *. assert (n1 = n0) as -> by congruence. assert (m1 = n) as -> by congruence.
      destruct (C5 kk v) as (m' & M' & X); [|exact NV|exact NC|]. { exists n. split; [exact NN|]. rewrite PL. apply (d_value _ _ D); [now apply plain_same|exact A]. } unfold S_Aggt.is_node in M'. congruence.
  Qed.
  Lemma heap_composes : composes abs_uri win_uri u root hp'.
  Proof.
    exists (map snd sl). split; [|split].
    - intro s. rewrite in_map_iff. split; [intros ([p s'] & <- & I); apply in_sl; eauto|intro S; apply in_sl in S as (p & I); exists (p, s); auto].
    - intros i s NS. assert (NL : nth_error l i = Some (0, s)). { clear - NS. revert i NS. generalize sl. intro q. induction q as [|[p v] q IH]; intros i N; destruct i; try discriminate N; cbn [nth_error map snd] in *; [congruence|now apply IH]. }
      destruct (hp_at _ _ NL) as (n & NN & D). destruct (T_Aggt.c41_unchanged fuel2 hp hp' ids hp_fresh ids_nodes AG i n NN) as (n1 & m1 & A1 & A2 & PL & _). unfold S_Aggt.is_node in *. assert (n1 = n) as -> by congruence.
      exists m1. split; [exact A2|]. intros k v IK. rewrite PL. symmetry. apply (d_value _ _ D). now apply plain_same.
    - intros ts s e SA SE. destruct (heap_composed s e) as (i & n & j & m & NI & NN & FN & L & M & C); [exists ts; exact SA|exact SE|].
      assert (NE : sch e). { destruct (num_ex s) as (i0 & N0); [exists ts; exact SA|]. destruct (stands_ends _ _ SE _ N0) as (i' & _ & N'). exact (proj1 N'). }
      exists i, n, j, m. assert (NL : nth_error l i = Some (0, e)) by (apply num_at; split; auto). split; [|split; [exact NN|split; [exact FN|split; [|split; [exact M|exact C]]]]].
      + clear - NL. revert i NL. generalize sl. intro q. induction q as [|[p v] q IH]; intros i N; destruct i; try discriminate N; cbn [nth_error map snd] in *; [congruence|now apply IH].
      + rewrite map_length in L |- *. exact L.
  Qed.
End Heap.

Section Prepared.
  Context (abs_uri win_uri : str -> str) (fetch : str -> res json) (prim : str -> bool) (float_of : str -> res Q) (sep : str) (fuel : nat) (b : bool).
  Context (nu u : str) (strict : bool) (o : @loaded val) (pr : prepared) (v0 mid root : val) (objs : list (str * val)) (l : list (tr_op str)).
  Hypothesis ST : steps abs_uri win_uri fetch prim float_of sep fuel b nu u strict o pr v0 mid root objs l.
  Lemma prepared_composes : self_contained abs_uri win_uri u root -> a_objs (pr_app pr) = [(u, Whole (0, root))] -> settled root -> composes abs_uri win_uri u root (pr_heap pr).
  Proof.
    intros SC AO UN. destruct ST as [_ _ _ _ _ _ _ SH RT WH SO TR HE _ _ _ _ _]. unfold aggregate_scan, heap_of in HE. apply bind_ok in HE as (lh & HO & HE). apply bind_ok in HO as (sl & SL & HO). apply bind_ok in HO as (hp & HP & HO). injection HO as <-. cbn [fst snd] in HE.
    rewrite RT in HE. cbn [bind] in HE. apply bind_ok in HE as (ids & IDS & AG).
    assert (ONE : documents (pr_app pr) = [(0, root)]) by (unfold documents; rewrite AO; reflexivity).
    assert (SL' : schemas_of (documents (pr_app pr)) = Ok (map (fun po : str * val => (0, snd po)) (filter (fun po : str * val => same_class CSchema (snd po)) objs))) by (eapply schemas_l; eauto). rewrite SL in SL'. injection SL' as ->.
    assert (UNIQ : forall s s', sch root s -> sch root s' -> place_of s = place_of s' -> s = s') by (intros s s' (ts & A) (ts' & A') P; exact (UN ts s ts' s' A A' P)).
    destruct fuel as [|f].
    - assert (ids = []) as -> by (destruct ids; [reflexivity|discriminate AG]). assert (NO : forall s, ~ sch root s).
      { intros s S. apply (in_sl abs_uri win_uri (pr_app pr) u root objs SH RT WH TR SC ONE) in S as (p & I). pose proof (proj1 (map_res_ok _ _ _) IDS) as F. inversion F as [E|]; subst. rewrite <- E in I. destruct I. }
      exists []. split; [|split].
      + intro s. split; [intros []|]. intro S. exact (NO _ S).
      + intros [|i] s E; discriminate E.
      + intros ts s e SA. destruct (NO s). exists ts. exact SA.
    - eapply (heap_composes abs_uri win_uri fetch prim float_of sep f (pr_app pr) u root objs SH RT WH TR SC ONE UNIQ hp HP); eauto.
  Qed.
End Prepared.
