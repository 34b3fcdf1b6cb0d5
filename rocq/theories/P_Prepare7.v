(** Lemmas for prepared applications: what holds of operations after all steps. *)
From Coq Require Import Lia.
From Verif Require Import PyBase PyFacts PyInt PyJson M_JsonPtr S_JsonPtr M_Url P_Op M_SpecVal M_Parse M_SpecTree M_Merge M_MergeRef S_Parse S_SpecTree S_Merge S_MergeRef P_SpecBase P_Parse P_SpecTree P_Compare P_Merge P_MergeShape P_MergeRef M_Scope S_Scope M_Patch S_Patch P_Patch P_PatchOp M_App S_App P_App P_Deep M_Prepare P_Grown P_Grown2 S_Prepare P_Prepare P_Prepare3 P_Prepare4 P_Prepare5 P_Prepare6 T_SpecTree T_Scope.
From Verif Require T_Patch T_App.
Close Scope Q_scope.

Lemma outside_dict e z : outside_same (VDict e) z -> exists e', z = VDict e' /\ map fst e = map fst e'.
Proof. intro O. inversion O as [v NO NL ND| | |]; subst; [now elim (ND e)|eauto]. Qed.
Lemma outside_obj h fs ints z : outside_same (VObj h fs ints) z -> exists g es jnts, z = VObj g es jnts /\ h_cls g = h_cls h /\ h_place g = h_place h /\ map fst fs = map fst es.
Proof. intro O. inversion O as [v NO NL ND| | |? g ? es ? jnts]; subst; [elim NO; exact Logic.I|exists g, es, jnts; auto]. Qed.
Lemma reach_one h fs ints n x : reach [] (VObj h fs ints) [n] x -> sget n fs = Some x.
Proof. intro R. inversion R as [|? ? ? ? y ? ? _ G R3| |]; subst. inversion R3; subst. exact G. Qed.
Lemma reach_dict_in d k x : reach [] (VDict d) [k] x -> sget k d = Some x.
Proof. intro R. inversion R as [| | |? ? y ? ? G R3]; subst. inversion R3; subst. exact G. Qed.
Lemma reach_none h fs ints x : reach [] (VObj h fs ints) [] x -> x = VObj h fs ints.
Proof. intro R. now inversion R. Qed.

Section Done.
  Context (abs_uri win_uri : str -> str) (fetch : str -> res json) (prim : str -> bool) (float_of : str -> res Q) (sep : str) (fuel : nat) (b : bool).
  Context (nu u : str) (strict : bool) (o : @M_App.loaded val) (pr : prepared) (doc mid root : val) (objs : list (str * val)) (l : list (tr_op str)).
  Hypothesis ST : steps abs_uri win_uri fetch prim float_of sep fuel b nu u strict o pr doc mid root objs l.
  Hypothesis SD : shaped (Of CSwagger) doc.
  Notation completed := (S_Prepare.completed abs_uri win_uri u doc).
  Notation completed_in := (S_Prepare.completed_in abs_uri win_uri u doc).
  Let SM := st_mid _ _ _ _ _ _ _ _ _ _ _ _ _ _ _ _ _ _ ST.
  Let SR := st_shaped _ _ _ _ _ _ _ _ _ _ _ _ _ _ _ _ _ _ ST.
  Let GR := st_grown _ _ _ _ _ _ _ _ _ _ _ _ _ _ _ _ _ _ ST.
  Let PT := st_patch _ _ _ _ _ _ _ _ _ _ _ _ _ _ _ _ _ _ ST.
  Let FN := st_finals _ _ _ _ _ _ _ _ _ _ _ _ _ _ _ _ _ _ ST.

  Lemma mid_field n : sget n (t_child CSwagger) = None -> field_of mid n = field_of doc n.
  Proof. intro N. exact (grown_swagger _ _ _ n SD GR N). Qed.
  Lemma done_completed ts p : reach [] doc ts p -> of_class CParameter p \/ of_class CResponse p -> exists p', reach [] root ts p' /\ completed p p'.
  Proof.
    intros R C. assert (C' : exists c, part_class c /\ of_class c p) by (destruct C as [C|C]; eexists; (split; [|exact C]); [now left|now right]).
    destruct (completed_mid _ _ _ _ _ FN GR _ _ R C') as (p1 & R1 & CP). exists p1. split; [|exact CP]. apply (patch_keeps nu b mid root ts p1 SM PT R1).
    destruct CP as (h & g & fs & ints & jnts & f & -> & -> & CG & _). destruct C' as (c & PC & (h' & fs' & ints' & X & Y)). injection X as <- <- <-. exists c. split; [exact PC|]. exists g, fs, jnts. split; [reflexivity|congruence].
  Qed.

  Section Op.
    Context (k m : str) (pi op : val).
    Hypothesis PI : path_item doc k pi.
    Hypothesis OP : operation pi m op.
    Lemma between : exists pi1 op1, path_item mid k pi1 /\ operation pi1 m op1 /\ (exists P, grown P pi pi1) /\ exists P, grown P op op1.
    Proof.
      destruct (grown_path_item _ _ _ _ _ PI GR SD) as (pi1 & PI1 & G1). destruct (grown_operation _ _ _ _ _ OP G1) as (op1 & OP1 & G2). exists pi1, op1. split; [exact PI1|]. split; [exact OP1|]. split; eauto.
    Qed.
    Lemma done_op : exists pi' op', path_item root k pi' /\ operation pi' m op'.
    Proof. destruct between as (pi1 & op1 & PI1 & OP1 & _). exact (T_Patch.c39_kept nu b mid root SM PT k m pi1 op1 PI1 OP1). Qed.
    Lemma op_shaped : exists h fs ints, op = VObj h fs ints /\ h_cls h = COperation /\ shaped (Of COperation) op.
    Proof.
      pose proof (operation_reach _ _ _ _ _ PI OP) as R. destruct OP as (FM & (h & fs & ints & -> & C)). exists h, fs, ints. split; [reflexivity|]. split; [exact C|].
      assert (T : typed_value doc) by (left; exists One, (Of CSwagger); now constructor).
      destruct (typed_reach _ _ _ R T) as [TP|(_ & N)]; [|apply no_object_here in N; elim N; exact Logic.I]. apply tame_obj in TP. now rewrite C in TP.
    Qed.
    Lemma pi_shaped : exists h fs ints, pi = VObj h fs ints /\ h_cls h = CPathItem /\ shaped (Of CPathItem) pi.
    Proof.
      pose proof (path_item_reach _ _ _ PI) as R. destruct PI as (ps & FP & GK & (h & fs & ints & -> & C)). exists h, fs, ints. split; [reflexivity|]. split; [exact C|].
      assert (T : typed_value doc) by (left; exists One, (Of CSwagger); now constructor).
      destruct (typed_reach _ _ _ R T) as [TP|(_ & N)]; [|apply no_object_here in N; elim N; exact Logic.I]. apply tame_obj in TP. now rewrite C in TP.
    Qed.
    Lemma op_plain P op1 n : grown P op op1 -> sget n (t_child COperation) = None -> field_of op1 n = field_of op n.
    Proof.
      intros G N. destruct op_shaped as (h & fs & ints & -> & C & S). rewrite <- C in S. apply (grown_field P h fs ints op1 n S); [congruence|exact G|now rewrite C].
    Qed.
    Lemma op_internal P op1 n : grown P op op1 -> internal_of op1 n = internal_of op n.
    Proof.
      intros G. destruct op_shaped as (h & fs & ints & -> & C & S). apply grown_obj in G as (g & es & jnts & -> & CG & _ & _ & _ & _ & _ & _ & X). destruct X as [([X|X] & _)| ->]; [congruence|congruence|reflexivity].
    Qed.
    Context (pi' op' : val).
    Hypothesis PI' : path_item root k pi'.
    Hypothesis OP' : operation pi' m op'.
    Lemma done_url : exists s host base bp, urlparse nu = Ok s /\ host_is doc (u_netloc s) host /\ base_is doc base /\ field_of doc (lit "basePath") = Some bp /\
      internal_of op' (lit "url") = Some (VStr (lit "//" ++ host ++ with_slash (base ++ k))) /\
      internal_of op' (lit "path") = Some (VStr k) /\ internal_of op' (lit "base_path") = Some bp /\ internal_of op' (lit "method") = Some (VStr m).
    Proof.
      destruct between as (pi1 & op1 & PI1 & OP1 & _). destruct (T_Patch.c39_url nu b mid root SM PT k m pi1 op1 pi' op' PI1 OP1 PI' OP') as (s & host & base & bp & US & H & B & BP & I1 & I2 & I3 & I4).
      rewrite (mid_field (lit "basePath") eq_refl) in BP. exists s, host, base, bp. split; [exact US|]. split; [|split; [|auto 10]].
      - pose proof (mid_field (lit "host") eq_refl) as MF. inversion H as [h X NE|v X E NE|v X E NE]; subst; rewrite MF in X; [now apply host_own|eapply host_url; eauto|eapply host_none; eauto].
      - pose proof (mid_field (lit "basePath") eq_refl) as MF. inversion B as [h X|v X E]; subst; rewrite MF in X; [now apply base_own|eapply base_none; eauto].
    Qed.
    Lemma done_inherited n : n = lit "consumes" \/ n = lit "produces" -> exists own d x, field_of op n = Some own /\ field_of doc n = Some d /\ field_of op' n = Some x /\ inherited own d x.
    Proof.
      intro N. destruct between as (pi1 & op1 & PI1 & OP1 & _ & (P & G)). destruct (T_Patch.c39_inherited nu b mid root SM PT k m pi1 op1 pi' op' PI1 OP1 PI' OP' n N) as (own & d & x & A & B & C & D).
      rewrite (op_plain _ _ n G) in A by (destruct N as [-> | ->]; reflexivity). rewrite (mid_field n) in B by (destruct N as [-> | ->]; reflexivity). exists own, d, x. auto.
    Qed.
    Lemma done_security : exists own d x, field_of op (lit "security") = Some own /\ field_of doc (lit "security") = Some d /\ field_of op' (lit "security") = Some x /\
      (own = VNone /\ x = d \/ own <> VNone /\ x = own).
    Proof.
      destruct between as (pi1 & op1 & PI1 & OP1 & _ & (P & G)). destruct (T_Patch.c39_security nu b mid root SM PT k m pi1 op1 pi' op' PI1 OP1 PI' OP') as (own & d & x & A & B & C & D).
      rewrite (op_plain _ _ _ G) in A by reflexivity. rewrite mid_field in B by reflexivity. exists own, d, x. auto.
    Qed.
    Lemma done_schemes : exists own s d x, field_of op (lit "schemes") = Some own /\ field_of op' (lit "schemes") = Some own /\ urlparse nu = Ok s /\ doc_schemes (u_scheme s) doc d /\
      internal_of op' (lit "cached_schemes") = Some x /\ inherited own d x.
    Proof.
      destruct between as (pi1 & op1 & PI1 & OP1 & _ & (P & G)). destruct (T_Patch.c39_schemes nu b mid root SM PT k m pi1 op1 pi' op' PI1 OP1 PI' OP') as (own & s & d & x & A & B & C & D & E & F).
      rewrite (op_plain _ _ _ G) in A by reflexivity. exists own, s, d, x. repeat (split; [assumption|]). split; [|auto].
      pose proof (mid_field (lit "schemes") eq_refl) as MF. inversion D as [v X NE|v X NE S|v X NE S]; subst; rewrite MF in X; [now apply ds_own|eapply ds_url; eauto|eapply ds_none; eauto].
    Qed.
    Lemma done_others : (forall n, ~ In n op_fields -> n <> lit "responses" -> field_of op' n = field_of op n) /\
      (forall n, ~ In n (map lit ["method"; "url"; "path"; "base_path"; "cached_schemes"]%string) -> internal_of op' n = internal_of op n).
    Proof.
      destruct between as (pi1 & op1 & PI1 & OP1 & _ & (P & G)). destruct (T_Patch.c39_others nu b mid root SM PT k m pi1 op1 pi' op' PI1 OP1 PI' OP') as (A & B). split.
      - intros n N1 N2. rewrite (A n N1). apply (op_plain _ _ _ G). destruct (sget n (t_child COperation)) as [[ct cc]|] eqn:T; [|reflexivity]. apply sget_In in T. cbn in T.
        destruct T as [T|[T|[]]]; injection T as <- <- <-; [elim N1; cbn; tauto|now elim N2].
      - intros n N. rewrite (B n N). now apply (op_internal P).
    Qed.
    Lemma own_completed op1 P n c ct : grown P op op1 -> forall pi1, path_item mid k pi1 -> operation pi1 m op1 -> sget n (t_child COperation) = Some (ct, Of c) -> ct <> One -> part_class c ->
      exists own own1, field_of op n = Some own /\ field_of op1 n = Some own1 /\ completed_in own own1.
    Proof.
      intros G pi1 PI1 OP1 T N1 PC. pose proof (operation_reach _ _ _ _ _ PI OP) as R. pose proof (operation_reach _ _ _ _ _ PI1 OP1) as R1.
      destruct op_shaped as (h & fs & ints & -> & C & S). apply grown_obj in G as (g & es & jnts & -> & CG & _ & K & _ & F & _).
      destruct (shaped_parts _ _ _ _ S) as (_ & KF & _ & _).
      assert (HX : exists x, sget n fs = Some x). { apply (sget_fields_all (t_fields COperation)); [exact KF|]. apply sget_In in T. cbn in T. destruct T as [T|[T|[]]]; injection T as <- <- <-; eexists; reflexivity. }
      destruct HX as (x & X). destruct (same_keys _ _ _ _ K X) as (y & Y). exists x, y. split; [exact X|]. split; [exact Y|]. destruct (F _ _ _ X Y) as [GY|(Q & _)]; [|congruence].
      rewrite <- C in S. destruct (shaped_field _ _ _ _ _ S X) as [(Q & _)|(ct' & cc & T' & SI)]; [rewrite C in Q; congruence|]. rewrite C, T in T'. injection T' as <- <-.
      apply (completed_field abs_uri win_uri u doc mid FN GR [lit "paths"; k; m] n c ct x y); auto; [|..|eexists; exact GY].
      - eapply reach_app; [exact R|]. econstructor; [intros []|exact X|constructor].
      - eapply reach_app; [exact R1|]. econstructor; [intros []|exact Y|constructor].
    Qed.
    Lemma done_responses : exists own x, field_of op (lit "responses") = Some own /\ field_of op' (lit "responses") = Some x /\ completed_in own x.
    Proof.
      destruct between as (pi1 & op1 & PI1 & OP1 & _ & (P & G)). destruct (T_Patch.c39_others nu b mid root SM PT k m pi1 op1 pi' op' PI1 OP1 PI' OP') as (A & _).
      destruct (own_completed op1 P (lit "responses") CResponse DictOf G pi1 PI1 OP1 eq_refl ltac:(discriminate) (or_intror eq_refl)) as (own & x & X & Y & Z).
      exists own, x. split; [exact X|]. split; [|exact Z]. rewrite A; [exact Y|]. cbn. intros [E|[E|[E|[E|[]]]]]; discriminate E.
    Qed.
    (** Those of the path item are completed too, unless it has none and takes those of another one. *)
    Lemma done_parameters : exists own shared own1 shared1 x, field_of op (lit "parameters") = Some own /\ field_of pi (lit "parameters") = Some shared /\ field_of op' (lit "parameters") = Some x /\
      completed_in own own1 /\ (completed_in shared shared1 \/ empty_value shared /\ field_of pi (lit "$ref") <> Some VNone) /\ with_shared own1 shared1 x.
    Proof.
      destruct between as (pi1 & op1 & PI1 & OP1 & (P1 & G1) & (P & G)). destruct (T_Patch.c39_parameters nu b mid root SM PT k m pi1 op1 pi' op' PI1 OP1 PI' OP') as (own1 & shared1 & x & A & B & C & D).
      destruct (own_completed op1 P (lit "parameters") CParameter ListOf G pi1 PI1 OP1 eq_refl ltac:(discriminate) (or_introl eq_refl)) as (own & y & X & Y & Z).
      rewrite A in Y. injection Y as <-. exists own. pose proof (path_item_reach _ _ _ PI) as R. pose proof (path_item_reach _ _ _ PI1) as R1.
      destruct pi_shaped as (h & fs & ints & -> & CH & S). apply grown_obj in G1 as (g & es & jnts & -> & CG & _ & K & _ & F & _). cbn [field_of] in B |- *.
      destruct (same_keys _ _ _ _ (eq_sym K) B) as (sh & SH). exists sh, own1, shared1, x. split; [exact X|]. split; [exact SH|]. split; [exact C|]. split; [exact Z|]. split; [|exact D].
      rewrite <- CH in S. destruct (shaped_field _ _ _ _ _ S SH) as [(Q & _)|(ct' & cc & T' & SI)]; [rewrite CH in Q; discriminate Q|]. rewrite CH in T'. injection T' as <- <-.
      destruct (F _ _ _ SH B) as [GY|(_ & NR & Q)].
      - left. apply (completed_field abs_uri win_uri u doc mid FN GR [lit "paths"; k] (lit "parameters") CParameter ListOf sh shared1); auto; [..|eexists; exact GY|discriminate|now left].
        + eapply (reach_app _ [_; _]); [exact R|]. econstructor; [intros []|exact SH|constructor].
        + eapply (reach_app _ [_; _]); [exact R1|]. econstructor; [intros []|exact B|constructor].
      - right. split.
        + destruct Q as [-> |[-> |(E & _)]]; [constructor|constructor|discriminate E].
        + exact NR.
    Qed.
  End Op.

  (** ** Finding operations *)
  Lemma root_is_obj : is_obj root. Proof. destruct (shaped_swagger _ SR) as (? & ? & ? & -> & _). exact Logic.I. Qed.
  Lemma in_objs p x : In (p, x) objs <-> exists ts, p = rfc_pointer (lit "#") ts /\ reach [] root ts x /\ is_obj x.
  Proof.
    destruct (c35_visits root [] (shaped_wfv _ _ _ (Nat.lt_succ_diag_r _) SR) root_is_obj) as (objs' & E & V). rewrite (st_objs _ _ _ _ _ _ _ _ _ _ _ _ _ _ _ _ _ _ ST) in E. injection E as <-. apply V.
  Qed.
  Lemma in_ops t : In t l <-> exists p x y, In (p, x) objs /\ tr_of (p, x) = Ok y /\ In t y.
  Proof.
    pose proof (st_ops _ _ _ _ _ _ _ _ _ _ _ _ _ _ _ _ _ _ ST) as E. clear - E. revert l E. induction objs as [|[p x] r IH]; intros l E; cbn [tr_ops] in E.
    - injection E as <-. split; [intros []|intros (? & ? & ? & [] & _)].
    - apply bind_ok in E as (y & Y & E). apply bind_ok in E as (l' & L & E). injection E as <-. rewrite in_app_iff, (IH _ L). split.
      + intros [I|(q & z & w & I & A & B)]; [exists p, x, y; split; [now left|auto]|exists q, z, w; split; [now right|auto]].
      + intros (q & z & w & [I|I] & A & B); [injection I as <- <-; rewrite Y in A; injection A as <-; now left|right; exists q, z, w; auto].
  Qed.
  Lemma get_fields n c v x : shaped (Of c) v -> smem (lit n) (t_fields c) = true -> get n v = Ok x -> field_of v (lit n) = Some x.
  Proof.
    intros S M G. destruct (shaped_obj _ _ S) as (h & fs & ints & -> & C). destruct (shaped_parts _ _ _ _ S) as (_ & K & _). unfold get, attr in G. cbn [field_of].
    rewrite <- (smem_keys (lit n) fs _ K), smem_sget in M. destruct (sget (lit n) fs); [congruence|discriminate M].
  Qed.
  Lemma fields_get n v x : field_of v (lit n) = Some x -> get n v = Ok x.
  Proof. destruct v; try discriminate. cbn [field_of]. intro E. unfold get, attr. now rewrite E. Qed.
  Lemma op_of_root k m pi op : path_item root k pi -> operation pi m op -> shaped (Of COperation) op.
  Proof.
    intros PI OP. pose proof (operation_reach _ _ _ _ _ PI OP) as R. destruct OP as (_ & (h & fs & ints & -> & C)).
    assert (T : typed_value root) by (left; exists One, (Of CSwagger); now constructor).
    destruct (typed_reach _ _ _ R T) as [TP|(_ & N)]; [|apply no_object_here in N; elim N; exact Logic.I]. apply tame_obj in TP. now rewrite C in TP.
  Qed.
  Lemma is_op v : of_class COperation v -> same_class COperation v = true.
  Proof. intros (h & fs & ints & -> & C). unfold same_class. rewrite C. reflexivity. Qed.
  Lemma done_found k m pi op key : path_item root k pi -> operation pi m op -> known_as sep op key -> scope_getitem sep (pr_op pr) (KStr key) = Ok (rfc_pointer (lit "#") [lit "paths"; k; m]).
  Proof.
    intros PI OP KA. pose proof (op_of_root _ _ _ _ PI OP) as SO. assert (IN : In (rfc_pointer (lit "#") [lit "paths"; k; m], op) objs).
    { apply in_objs. exists [lit "paths"; k; m]. split; [reflexivity|]. split; [exact (operation_reach _ _ _ _ _ PI OP)|]. destruct OP as (_ & (? & ? & ? & -> & _)). exact Logic.I. }
    assert (exists tg id, tr_of (rfc_pointer (lit "#") [lit "paths"; k; m], op) = Ok [TrOp tg id (rfc_pointer (lit "#") [lit "paths"; k; m])] /\ op_key sep tg id = Some key) as (tg & id & T & K).
    { unfold tr_of. cbn [snd fst]. rewrite (is_op op) by (now destruct OP). inversion KA as [t ts id T TN I IN'|c r id T I IN'|v id T W I IN']; subst; rewrite (fields_get "tags" _ _ T), (fields_get "operationId" _ _ I); cbn [bind].
      - destruct t as [|c t]; [congruence|]. destruct id as [|d id]; [congruence|]. exists (Some [c :: t]), (Some (d :: id)). split; reflexivity.
      - destruct id as [|d id]; [congruence|]. exists (Some [[c]]), (Some (d :: id)). split; reflexivity.
      - destruct key as [|d id]; [congruence|]. destruct W as [W|[(r & ->)|(r & ->)]].
        + apply falsy_spec in W. exists None, (Some (d :: id)). unfold first_tag. rewrite W. split; reflexivity.
        + exists None, (Some (d :: id)). split; reflexivity.
        + exists (Some [[]]), (Some (d :: id)). split; reflexivity. }
    eapply (c05_reachable _ sep l (pr_op pr) (TrOp tg id _)); [exact (st_reduce _ _ _ _ _ _ _ _ _ _ _ _ _ _ _ _ _ _ ST)| |exact K].
    apply in_ops. do 3 eexists. split; [exact IN|]. split; [exact T|now left].
  Qed.
  Lemma done_only key p : In (key, p) (pr_op pr) -> exists k m pi op, p = rfc_pointer (lit "#") [lit "paths"; k; m] /\ path_item root k pi /\ operation pi m op /\ known_as sep op key.
  Proof.
    intro I. destruct (c05_nothing_else _ _ _ _ _ _ (st_reduce _ _ _ _ _ _ _ _ _ _ _ _ _ _ _ _ _ _ ST) I) as (t & IT & <- & K). apply in_ops in IT as (q & x & y & IQ & TR & IY).
    apply in_objs in IQ as (ts & -> & R & O). unfold tr_of in TR. cbn [fst snd] in TR. destruct (same_class COperation x) eqn:SC; [|injection TR as <-; destruct IY].
    assert (CO : of_class COperation x). { destruct x as [| | | | | | |h fs ints]; try discriminate SC. exists h, fs, ints. split; [reflexivity|]. unfold same_class in SC. symmetry. now apply cls_eqb_eq. }
    destruct (operations_at _ _ _ SR R CO) as (k & m & pi & -> & PI & OP). pose proof (op_of_root _ _ _ _ PI OP) as SO.
    apply bind_ok in TR as (tv & TV & TR). apply bind_ok in TR as (iv & IV & TR). apply bind_ok in TR as (tg & TG & TR). apply bind_ok in TR as (id & ID & TR). injection TR as <-. destruct IY as [<-|[]]. cbn [tr_tags tr_opid tr_obj] in *.
    apply (get_fields "tags" COperation) in TV; [|exact SO|reflexivity]. apply (get_fields "operationId" COperation) in IV; [|exact SO|reflexivity].
    exists k, m, pi, x. split; [reflexivity|]. split; [exact PI|]. split; [exact OP|].
    unfold op_id in ID. destruct (falsy iv) eqn:FI; [injection ID as <-; discriminate K|]. destruct iv as [| | | |s| | |]; try discriminate ID. injection ID as <-. destruct s as [|d id]; [discriminate FI|].
    unfold first_tag in TG. destruct (falsy tv) eqn:FT.
    - injection TG as <-. cbn [op_key] in K. injection K as <-. eapply ka_plain; [exact TV|left; now apply falsy_spec|exact IV|discriminate].
    - destruct tv as [| | | |s|r|e|]; try discriminate TG.
      + destruct s as [|c s]; [discriminate FT|]. injection TG as <-. cbn [op_key] in K. injection K as <-. eapply ka_text; [exact TV|exact IV|discriminate].
      + destruct r as [|[| | | |t| | |] r]; try discriminate TG; injection TG as <-; cbn [op_key] in K.
        * injection K as <-. eapply ka_plain; [exact TV|right; left; eauto|exact IV|discriminate].
        * destruct t as [|c t]; injection K as <-; [eapply ka_plain; [exact TV|right; right; eauto|exact IV|discriminate]|]. apply (ka_tag sep x (c :: t) r (d :: id)); auto; discriminate.
  Qed.

  (** ** The rest *)
  Lemma done_rest ts h fs ints : reach [] doc ts (VObj h fs ints) -> exists g es jnts, reach [] root ts (VObj g es jnts) /\ h_cls g = h_cls h /\ h_place g = h_place h /\
    forall n x, sget n fs = Some x -> not_container x -> h_cls h <> CPathItem -> ~ (h_cls h = COperation /\ In n op_fields) -> sget n es = Some x.
  Proof.
    intro R. destruct (grown_reach _ _ _ _ _ R Logic.I GR) as (o1 & R1 & G1). apply grown_obj in G1 as (g1 & es1 & j1 & -> & C1 & P1 & K1 & _ & F1 & _).
    destruct (T_Patch.c39_rest nu b mid root SM PT _ _ R1 (or_introl Logic.I)) as (x' & R' & OS). inversion OS as [v NO| | |? g ? es ? jnts C2 P2 _ K2 _]; subst; [elim NO; exact Logic.I|].
    exists g, es, jnts. split; [exact R'|]. split; [congruence|]. split; [congruence|]. intros n x X NC NP NOP.
    destruct (same_keys _ _ _ _ K1 X) as (y & Y). destruct (F1 _ _ _ X Y) as [GY|(Q & _)]; [|congruence]. apply grown_scalar in GY as ->; [|exact NC].
    assert (RX : reach [] mid (ts ++ [n]) x). { eapply reach_app; [exact R1|]. econstructor; [intros []|exact Y|constructor]. }
    destruct (T_Patch.c39_rest nu b mid root SM PT _ _ RX) as (z & RZ & OZ).
    { right. intros us n' h' fs' ints' E RU CU IN. apply app_inj_tail in E as (<- & <-). injection (reach_fun _ _ _ R1 _ RU) as -> -> ->. apply NOP. split; [congruence|exact IN]. }
    assert (z = x) as ->. { inversion OZ; subst; [reflexivity|contradiction NC|contradiction NC|contradiction NC]. }
    destruct (reach_prefix _ _ _ RZ _ _ eq_refl) as (w & RW & RN). rewrite (reach_fun _ _ _ R' _ RW) in RN. inversion RN as [|? ? ? ? y' ? ? _ G' R3| |]; subst. inversion R3; subst. exact G'.
  Qed.
  Lemma done_models d : field_of doc (lit "definitions") = Some (VDict d) -> map fst (pr_m pr) = map fst d /\
    forall name x, sget name (pr_m pr) = Some x -> reach [] root [lit "definitions"; name] x /\ of_class CSchema x /\ (b = false -> internal_of x (lit "name") = Some (VStr name)) /\
      (b = true -> forall p q, name = p ++ SCOPE_SEPARATOR ++ q -> p <> [] -> q <> [] -> (forall c, In c SCOPE_SEPARATOR -> ~ In c p /\ ~ In c q) -> internal_of x (lit "name") = Some (VStr q)).
  Proof.
    intro FD. destruct (shaped_swagger _ SD) as (h & fs & ints & ED & CD). rewrite ED in FD. cbn [field_of] in FD. pose proof GR as G. rewrite ED in G. apply grown_obj in G as (g & es & jnts & EM & CM & _ & K & _ & F & _).
    destruct (same_keys _ _ _ _ K FD) as (y & Y). destruct (F _ _ _ FD Y) as [GY|(Q & _)]; [|congruence]. apply grown_dict in GY as (e & -> & KE & FE).
    assert (RM : reach [] mid [lit "definitions"] (VDict e)) by (rewrite EM; econstructor; [intros []|exact Y|constructor]).
    destruct (T_Patch.c39_rest nu b mid root SM PT _ _ RM) as (z & RZ & OZ).
    { right. intros us n' h' fs' ints' E RU CU IN. destruct us as [|? [|? ?]]; try discriminate E. rewrite EM in RU. apply reach_none in RU. injection RU as -> _ _. congruence. }
    apply outside_dict in OZ as (e' & -> & KK). rewrite (st_models _ _ _ _ _ _ _ _ _ _ _ _ _ _ _ _ _ _ ST).
    destruct (shaped_swagger _ SR) as (hr & fr & ir & ER & CR). assert (FR : sget (lit "definitions") fr = Some (VDict e')).
    { rewrite ER in RZ. exact (reach_one _ _ _ _ _ RZ). }
    assert (MR : models root = e') by (rewrite ER; unfold models, attr; now rewrite FR). rewrite MR. split; [congruence|]. intros name x X.
    assert (RX : reach [] root [lit "definitions"; name] x) by (rewrite ER; econstructor; [intros []|exact FR|]; econstructor; [exact X|constructor]). split; [exact RX|].
    destruct (same_keys _ _ _ _ (eq_sym KK) X) as (x1 & X1).
    assert (RX1 : reach [] mid [lit "definitions"; name] x1) by (rewrite EM; econstructor; [intros []|exact Y|]; econstructor; [exact X1|constructor]).
    assert (CX : of_class CSchema x1).
    { pose proof SM as SM'. rewrite EM in SM'. assert (CG : h_cls g = CSwagger) by congruence. rewrite <- CG in SM'. destruct (shaped_field _ _ _ _ _ SM' Y) as [(Q & _)|(ct & cc & T & SI)]; [rewrite CG in Q; discriminate Q|]. rewrite CG in T. injection T as <- <-.
      inversion SI as [| | |? ? ND FA]; subst. rewrite Forall_forall in FA. exact (shaped_obj _ _ (FA _ (sget_In _ _ _ X1))). }
    destruct (T_Patch.c39_names nu b mid root SM PT [] name x1 RX1 CX) as (x' & RX' & NM & NO & _). cbn [List.app] in RX'. assert (x' = x) as -> by exact (reach_fun _ _ _ RX _ RX'). split; [|exact (conj NM NO)].
    destruct (T_Patch.c39_rest nu b mid root SM PT _ _ RX1) as (w & RW & OW); [left; destruct CX as (? & ? & ? & -> & _); exact Logic.I|]. assert (w = x) as -> by exact (reach_fun _ _ _ RX _ RW).
    destruct CX as (h1 & f1 & i1 & -> & C1). apply outside_obj in OW as (g2 & es2 & j2 & E2 & C2 & _). exists g2, es2, j2. split; [exact E2|congruence].
  Qed.
End Done.
