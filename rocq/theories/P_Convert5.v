(** Lemmas on applications created from 1.2 documents. *)
From Coq Require Import Lia.
From Verif Require Import PyBase PyFacts PyInt PyJson M_JsonPtr S_JsonPtr M_Url P_Op M_SpecVal M_Parse M_SpecTree M_Merge M_MergeRef S_Parse S_SpecTree S_Merge S_MergeRef S_Typed S_Validate P_SpecBase P_Parse P_SpecTree P_Compare P_Merge P_MergeShape P_MergeRef M_App S_App P_App P_Deep M_OldParse S_OldParse P_OldParse T_OldParse S_OldValidate P_OldValidate M_Upgrade S_Upgrade P_UpgradeObj P_Upgrade P_UpgradeDoc P_UpgradeFold P_UpgradeEnd M_Scope S_Scope M_Patch S_Patch P_Patch P_PatchOp M_Prepare P_Grown P_Grown2 S_Prepare P_Prepare5 P_Prepare6 P_Prepare7 S_Convert P_Convert P_Convert4.
From Verif Require T_Patch T_Upgrade.
Close Scope Q_scope.

Lemma grown_to_obj P x g es ints : grown P x (VObj g es ints) -> exists h fs jnts, x = VObj h fs jnts /\ h_cls h = h_cls g.
Proof. intro G. inversion G as [v NC| | |h ? fs ? jnts]; subst; [contradiction NC|eauto]. Qed.
Lemma outside_to_obj x g es ints : outside_same x (VObj g es ints) -> exists h fs jnts, x = VObj h fs jnts /\ h_cls h = h_cls g.
Proof. intro O. inversion O as [v NO| | |h ? fs ? jnts]; subst; [elim NO; exact Logic.I|eauto]. Qed.
Lemma brought_to_obj u pl x g es ints : brought u pl x (VObj g es ints) -> exists h fs, x = VObj h fs ints /\ h_cls h = h_cls g.
Proof.
  intros (q & x1 & M & N). inversion N as [v NC| | |h ? fs ? jnts C]; subst; [contradiction NC|]. inversion M as [? ? v NC| | |? ? h' ? es' ?]; subst; [contradiction NC|]. cbn [h_cls] in C. eauto.
Qed.

Section Back.
  Context (abs_uri win_uri : str -> str) (fetch : str -> res json) (prim : str -> bool) (float_of : str -> res Q) (sep : str) (fuel : nat) (b : bool).
  Context (nu u : str) (strict : bool) (o : @M_App.loaded val) (pr : prepared) (doc mid root : val) (objs : list (str * val)) (l : list (tr_op str)).
  Hypothesis ST : steps abs_uri win_uri fetch prim float_of sep fuel b nu u strict o pr doc mid root objs l.
  Hypothesis SD : shaped (Of CSwagger) doc.
  (** Operations of the application come from those of the document, if path items do not refer
      to others. *)
  Lemma done_back k m pi' op' : path_item root k pi' -> operation pi' m op' -> (forall pi, path_item doc k pi -> field_of pi (lit "$ref") = Some VNone) ->
    exists pi op, path_item doc k pi /\ operation pi m op.
  Proof.
    intros PI' OP' NR. pose proof (st_mid _ _ _ _ _ _ _ _ _ _ _ _ _ _ _ _ _ _ ST) as SM. pose proof (st_grown _ _ _ _ _ _ _ _ _ _ _ _ _ _ _ _ _ _ ST) as GR. pose proof (st_patch _ _ _ _ _ _ _ _ _ _ _ _ _ _ _ _ _ _ ST) as PT.
    pose proof (path_item_reach _ _ _ PI') as RPI. pose proof (operation_reach _ _ _ _ _ PI' OP') as ROP. destruct PI' as (ps' & FP' & GK' & CP').
    destruct (shaped_swagger _ SD) as (h & fs & ints & ED & CD). pose proof GR as G. rewrite ED in G. apply grown_obj in G as (g & es & jnts & EM & CM & _ & K & _ & F & _).
    destruct (swagger_field doc (lit "paths") SD eq_refl) as (x & X). rewrite ED in X. cbn [field_of] in X. destruct (same_keys _ _ _ _ K X) as (y & Y). destruct (F _ _ _ X Y) as [GY|(Q & _)]; [|congruence].
    assert (RM : reach [] mid [lit "paths"] y) by (rewrite EM; econstructor; [intros []|exact Y|constructor]).
    destruct (T_Patch.c39_rest nu b mid root SM PT _ _ RM) as (z & RZ & OZ).
    { right. intros us n' h' fs' ints' E RU CU IN. destruct us as [|? [|? ?]]; try discriminate E. rewrite EM in RU. apply reach_none in RU. injection RU as -> _ _. congruence. }
    destruct root as [| | | | | | |hr fr ir]; try discriminate FP'. cbn [field_of] in FP'. apply reach_one in RZ. rewrite FP' in RZ. injection RZ as <-.
    assert (exists ps1, y = VDict ps1 /\ map fst ps1 = map fst ps') as (ps1 & -> & K1) by (inversion OZ as [v NO NL ND| | |]; subst; [now elim (ND ps')|eauto]).
    destruct (same_keys _ _ _ _ (eq_sym K1) GK') as (pi1 & G1).
    assert (RM1 : reach [] mid [lit "paths"; k] pi1) by (rewrite EM; econstructor; [intros []|exact Y|]; econstructor; [exact G1|constructor]).
    assert (exists ps0, x = VDict ps0 /\ map fst ps0 = map fst ps1 /\ forall k x y, sget k ps0 = Some x -> sget k ps1 = Some y -> exists P, grown P x y) as (ps0 & -> & K0 & F0).
    { inversion GY as [v NC| |d e KK FF|]; subst; [contradiction NC|]. exists d. split; [reflexivity|]. split; [exact KK|]. intros k0 x0 y0 A B. eauto. }
    destruct (same_keys _ _ _ _ (eq_sym K0) G1) as (pi0 & G0). destruct (F0 _ _ _ G0 G1) as (P & GP).
    assert (C0 : of_class CPathItem pi0).
    { rewrite ED in SD. rewrite <- CD in SD. destruct (shaped_field _ _ _ _ _ SD X) as [(Q & _)|(ct & cc & T & SI)]; [rewrite CD in Q; discriminate Q|]. rewrite CD in T. injection T as <- <-.
      inversion SI as [| | |? ? ND FA]; subst. rewrite Forall_forall in FA. exact (shaped_obj _ _ (FA _ (sget_In _ _ _ G0))). }
    assert (PI : path_item doc k pi0) by (exists ps0; rewrite ED; auto). specialize (NR _ PI). exists pi0. destruct C0 as (h0 & f0 & i0 & -> & C0).
    apply grown_obj in GP as (g1 & es1 & j1 & -> & CG & _ & KK & _ & FF & _).
    destruct OP' as (FO & (ho & fo & io & -> & CO)).
    assert (OS : exists pi2, reach [] (VObj hr fr ir) [lit "paths"; k] pi2 /\ outside_same (VObj g1 es1 j1) pi2) by (apply (T_Patch.c39_rest nu b mid _ SM PT _ _ RM1); left; exact Logic.I).
    destruct OS as (pi2 & R2 & O2). rewrite (reach_fun _ _ _ R2 _ RPI) in *. apply outside_obj in O2 as (g2 & es2 & j2 & -> & C2 & _ & KS). cbn [field_of] in FO.
    destruct (same_keys _ _ _ _ (eq_sym KS) FO) as (op1 & F1).
    assert (RO : reach [] mid [lit "paths"; k; m] op1). { eapply (P_OldValidate.reach_app [] mid [lit "paths"; k] _ [m] _ RM1). econstructor; [intros []|exact F1|constructor]. }
    destruct (T_Patch.c39_rest nu b mid _ SM PT _ _ RO) as (op2 & RO2 & OO2).
    { right. intros us n' h' fs' ints' E RU CU IN. destruct us as [|? [|? [|? us]]]; try discriminate E; [injection E as <- <- <-|injection E as _ _ _ E; destruct us; discriminate E]. pose proof (reach_fun _ _ _ RM1 _ RU) as E1. injection E1 as E1 _ _. congruence. }
    rewrite (reach_fun _ _ _ ROP _ RO2) in OO2. apply outside_to_obj in OO2 as (h1 & f1 & i1 & -> & C1).
    destruct (same_keys _ _ _ _ (eq_sym KK) F1) as (op0 & F00). destruct (FF _ _ _ F00 F1) as [GO|(_ & NN & _)]; [|cbn [field_of] in NR; congruence].
    apply grown_to_obj in GO as (h2 & f2 & i2 & -> & C3). exists (VObj h2 f2 i2). split; [exact PI|]. split; [exact F00|]. exists h2, f2, i2. split; [reflexivity|congruence].
  Qed.
End Back.

Lemma holds_elements x : holds_true x -> ~ no_elements x.
Proof. intros H [-> |[-> | ->]]; cbn in H; congruence. Qed.
Lemma own_or_elements own around x : S_Upgrade.own_or own around x -> x = VList [] \/ ~ no_elements x.
Proof. intros [l H _|_ H|_ _]; [right|right|left; reflexivity]; now apply holds_elements. Qed.

Section Parts.
  Context (abs_uri win_uri : str -> str) (fetch : str -> res json) (prim : str -> bool) (float_of : str -> res Q) (sep : str) (fuel : nat).
  Context (nu u : str) (strict : bool) (raw : val) (pr : prepared) (sw doc mid root : val) (objs : list (str * val)) (l : list (tr_op str)).
  Hypothesis ST : steps abs_uri win_uri fetch prim float_of sep fuel true nu u strict (Old raw) pr doc mid root objs l.
  Hypothesis LD : loaded12 raw.
  Hypothesis UP : upgrade prim float_of sep raw = Ok sw.
  Hypothesis BR : brought u [] sw doc.
  Hypothesis SS : shaped (Of CSwagger) sw.
  Hypothesis SD : shaped (Of CSwagger) doc.
  Context (host base : str).
  Hypothesis BA : based raw host base.
  Notation parameters_for := (parameters_for prim float_of sep).
  Notation operation_for := (operation_for prim float_of sep).

  Lemma doc_field n : sget n (t_child CSwagger) = None -> field_of doc n = field_of sw n.
  Proof. intro T. apply (brought_field u [] CSwagger); auto. intros ([Q|[Q|[Q|[Q|[]]]]] & _); discriminate Q. Qed.
  Lemma made_field c kvs v n d x : made c kvs v -> sget n (t_fields c) = Some d -> sget n (rev kvs) = Some x -> field_of v n = Some x.
  Proof. intros ((h & fs & -> & C & K & F) & _) T G. specialize (F _ _ T). now rewrite G in F. Qed.
  Lemma sw_parts : exists tags paths defs secs, document_for raw host tags paths defs secs sw /\ tags_for raw tags /\ paths_for prim float_of sep raw base paths /\
    definitions_for prim float_of sep raw defs /\ securities_for raw secs /\
    field_of sw (lit "paths") = Some (VDict paths) /\ field_of sw (lit "definitions") = Some (VDict defs) /\ field_of doc (lit "host") = Some (VStr host) /\ field_of doc (lit "basePath") = Some (VStr []) /\
    field_of doc (lit "schemes") = Some (VList [VStr (lit "http"); VStr (lit "https")]) /\ field_of doc (lit "consumes") = Some (VList []) /\ field_of doc (lit "produces") = Some (VList []) /\ field_of doc (lit "security") = Some (VList []).
  Proof.
    destruct (T_Upgrade.c44_document _ _ _ _ _ _ _ LD BA UP) as (tags & paths & defs & secs & DF & A & B & C & D). exists tags, paths, defs, secs. pose proof DF as (info & _ & MA).
    split; [exact DF|]. split; [exact A|]. split; [exact B|]. split; [exact C|]. split; [exact D|]. rewrite !doc_field by reflexivity.
    repeat (split; [eapply made_field; [exact MA|reflexivity|reflexivity]|]). eapply made_field; [exact MA|reflexivity|reflexivity].
  Qed.
  Lemma operation_obj scope R O ps x : operation_for scope R O ps x -> of_class COperation x.
  Proof. intros (? & ? & ? & ? & ? & ? & ? & ? & ? & ? & ? & ? & ? & ? & ? & OF). destruct OF as (_ & _ & _ & _ & _ & _ & _ & _ & _ & _ & _ & _ & _ & _ & _ & b & _ & (h & fs & -> & C & _) & _). exists h, fs. eauto. Qed.
  Lemma item_sw p pi0 : path_item sw p pi0 -> shaped (Of CPathItem) pi0 /\ item_for prim float_of sep raw (base ++ p) pi0 /\ field_of pi0 (lit "$ref") = Some VNone /\ field_of pi0 (lit "parameters") = Some (VList []).
  Proof.
    intros (ps & FP & GP & CP). destruct sw_parts as (tags & paths & defs & secs & _ & _ & (NP & IP & PI) & _ & _ & FP' & _). assert (ps = paths) as -> by congruence. pose proof (PI _ _ GP) as IF.
    assert (SP : shaped (Of CPathItem) pi0).
    { destruct (shaped_swagger _ SS) as (h & fs & ints & ES & CS). pose proof SS as SS'. rewrite ES in SS', FP. cbn [field_of] in FP. rewrite <- CS in SS'. destruct (shaped_field _ _ _ _ _ SS' FP) as [(Q & _)|(ct & cc & T & SI)]; [rewrite CS in Q; discriminate Q|]. rewrite CS in T. injection T as <- <-.
      inversion SI as [| | |? ? ND FA]; subst. rewrite Forall_forall in FA. exact (FA _ (sget_In _ _ _ GP)). }
    split; [exact SP|]. split; [exact IF|]. destruct IF as (ops & NO & ((h & fs & -> & C & K & F) & _) & _ & SL).
    assert (OO : forall n x, sget n ops = Some x -> of_class COperation x) by (intros n x X; destruct (SL _ _ X) as (_ & ? & ? & ? & ? & ? & _ & _ & OF); eapply operation_obj; exact OF).
    rewrite <- C in SP. cbn [field_of]. split.
    - pose proof (F (lit "$ref") JNull eq_refl) as FR. rewrite rev_unique in FR by exact NO. destruct (sget (lit "$ref") ops) as [x|] eqn:X; [|exact FR]. exfalso. destruct (OO _ _ X) as (h' & f' & i' & -> & _).
      destruct (shaped_field _ _ _ _ _ SP FR) as [(_ & _ & NB)|(ct & cc & T & _)]; [apply no_object_here in NB; elim NB; exact Logic.I|rewrite C in T; discriminate T].
    - pose proof (F (lit "parameters") (JList []) eq_refl) as FR. rewrite rev_unique in FR by exact NO. destruct (sget (lit "parameters") ops) as [x|] eqn:X; [|exact FR]. exfalso. destruct (OO _ _ X) as (h' & f' & i' & -> & _).
      destruct (shaped_field _ _ _ _ _ SP FR) as [(T & _)|(ct & cc & T & SI)]; rewrite C in T; [discriminate T|]. injection T as <- <-. inversion SI.
  Qed.
  (** A path item of the document comes from one of the converted document. *)
  Lemma item_doc p pi : path_item doc p pi -> exists pi0, path_item sw p pi0 /\ brought u [lit "paths"; p] pi0 pi /\ field_of pi (lit "$ref") = Some VNone /\ field_of pi (lit "parameters") = Some (VList []).
  Proof.
    intros (ps & FP & GP & CP). destruct sw_parts as (tags & paths & defs & secs & _ & _ & _ & _ & _ & FP' & _). pose proof BR as B. destruct (shaped_swagger _ SS) as (h & fs & ints & ES & CS). rewrite ES in B, FP'. cbn [field_of] in FP'.
    apply brought_obj in B as (g & es & ED & CG & _ & _ & F). rewrite ED in FP. cbn [field_of] in FP. destruct (F _ _ FP') as (z & Z & [(RC & _)|(_ & BZ)]); [rewrite CS in RC; destruct RC as [Q|[Q|[Q|[Q|[]]]]]; discriminate Q|].
    rewrite FP in Z. injection Z as <-. apply brought_dict in BZ as (e & E & K & FD). injection E as <-. assert (I : In p (map fst paths)) by (rewrite <- K; apply sget_In in GP; exact (in_map fst _ _ GP)). apply keys_iff in I as (pi0 & G0).
    destruct (FD _ _ G0) as (z & Z & BP). rewrite GP in Z. injection Z as <-. exists pi0. destruct CP as (hp & fp & ip & -> & CP). pose proof BP as BP'. apply brought_to_obj in BP' as (h0 & f0 & -> & C0).
    assert (PI : path_item sw p (VObj h0 f0 ip)). { exists paths. split; [rewrite ES; exact FP'|]. split; [exact G0|]. exists h0, f0, ip. split; [reflexivity|congruence]. }
    split; [exact PI|]. split; [exact BP|]. destruct (item_sw _ _ PI) as (SP & _ & R0 & P0). cbn [field_of] in R0, P0. apply brought_obj in BP as (? & ? & E & _ & _ & _ & FF). injection E as <- <-. cbn [field_of]. split.
    - destruct (FF _ _ R0) as (z & Z & [(_ & _ & CR)|(_ & BZ)]); [inversion CR; subst; exact Z|]. apply brought_plain in BZ as ->; [exact Z|exact Logic.I].
    - destruct (FF _ _ P0) as (z & Z & [(_ & Q & _)|(_ & BZ)]); [discriminate Q|]. apply brought_list in BZ as (m & -> & L & _). destruct m; [exact Z|discriminate L].
  Qed.
  Lemma sw_to_doc p pi0 : path_item sw p pi0 -> exists pi, path_item doc p pi /\ brought u [lit "paths"; p] pi0 pi.
  Proof.
    intros PI. pose proof PI as (ps & FP & GP & (h0 & f0 & i0 & E0 & C0)). pose proof BR as B. destruct (shaped_swagger _ SS) as (h & fs & ints & ES & CS). rewrite ES in B, FP. cbn [field_of] in FP.
    apply brought_obj in B as (g & es & ED & CG & _ & _ & F). destruct (F _ _ FP) as (z & Z & [(RC & _)|(_ & BZ)]); [rewrite CS in RC; destruct RC as [Q|[Q|[Q|[Q|[]]]]]; discriminate Q|].
    apply brought_dict in BZ as (e & -> & K & FD). destruct (FD _ _ GP) as (pi & G & BP). exists pi. split; [|exact BP]. exists e. rewrite ED. split; [exact Z|]. split; [exact G|]. rewrite E0 in BP. apply brought_obj in BP as (g' & es' & -> & CG' & _). exists g', es', i0. split; [reflexivity|congruence].
  Qed.
  Lemma op_doc r n R O p m : first_at raw r n R O (base ++ p) m -> exists ps op0 pi op, parameters_for r O ps /\ operation_for (rfc_escape r) R O ps op0 /\ path_item doc p pi /\ operation pi m op /\ brought u [lit "paths"; p; m] op0 op /\
    shaped (Of COperation) op0.
  Proof.
    intros FA. destruct (T_Upgrade.c44_first _ _ _ _ _ _ _ _ _ _ _ _ _ LD BA UP FA) as (ps & op0 & RO & PF & OF). exists ps, op0. pose proof (operation_obj _ _ _ _ _ OF) as CO.
    destruct sw_parts as (tags & paths & defs & secs & _ & _ & (NP & IP & PI) & _ & _ & FP & _). destruct (shaped_swagger _ SS) as (h & fs & ints & ES & CS).
    assert (exists pi0, path_item sw p pi0 /\ field_of pi0 m = Some op0) as (pi0 & PI0 & FO).
    { rewrite ES in RO, FP. cbn [field_of] in FP. inversion RO as [|h9 fs9 i9 n9 y ts9 o9 NI9 G R1| |]. change (sget (lit "paths") fs = Some y) in G. rewrite FP in G. injection G as <-. clear h9 fs9 i9 n9 ts9 o9 H H0 H1 H2 H3 H4. inversion R1 as [| | |? ? pi0 ? ? G R2]; subst. exists pi0. destruct (PI _ _ G) as (ops & _ & ((h' & fs' & -> & C & _) & _) & _).
      inversion R2 as [|? ? ? ? y ? ? _ G' R3| |]; subst. inversion R3; subst. split; [|exact G']. exists paths. split; [exact FP|]. split; [exact G|]. eexists _, _, _. split; [reflexivity|exact C]. }
    destruct (sw_to_doc _ _ PI0) as (pi & PID & BP). exists pi. destruct (item_sw _ _ PI0) as (SP & _). destruct (shaped_obj _ _ SP) as (h0 & f0 & i0 & -> & C0). pose proof BP as BP'. apply brought_obj in BP' as (g & es & -> & CG & _ & _ & F). cbn [field_of] in FO.
    destruct CO as (ho & fo & io & -> & CO). destruct (F _ _ FO) as (op & GO & [(_ & _ & CR)|(_ & BO)]); [inversion CR|]. pose proof BO as BO'. apply brought_obj in BO' as (g' & es' & -> & CG' & _). exists (VObj g' es' io).
    split; [exact PF|]. split; [exact OF|]. split; [exact PID|]. split; [split; [exact GO|]; exists g', es', io; split; [reflexivity|congruence]|]. split; [exact BO|].
    rewrite <- C0 in SP. destruct (shaped_field _ _ _ _ _ SP FO) as [(_ & _ & NB)|(ct & cc & T & SI)]; [apply no_object_here in NB; elim NB; exact Logic.I|]. inversion SI as [| | |]; subst.
    match goal with S : shaped cc _ |- _ => assert (SO : exists c, shaped (Of c) (VObj ho fo io)) by (destruct cc as [c|]; [eauto|inversion S; subst; eauto]) end.
    destruct SO as (c & SO). pose proof (shaped_obj _ _ SO) as (? & ? & ? & E & CC). injection E as <- <- <-. rewrite CO in CC. now subst c.
  Qed.

  Lemma operation_says scope R O ps x : operation_for scope R O ps x -> exists c p sec resp, field_of x (lit "consumes") = Some c /\ (c = VList [] \/ ~ no_elements c) /\ field_of x (lit "produces") = Some p /\ (p = VList [] \/ ~ no_elements p) /\
    field_of x (lit "security") = Some (VList sec) /\ field_of x (lit "parameters") = Some (VList ps) /\ field_of x (lit "responses") = Some (VDict [(lit "default", resp)]) /\ field_of x (lit "schemes") = Some (VList []).
  Proof.
    intros (nick & su & no & de & co & pr0 & c & p & c' & p' & au & ar & sec & resp & ty & _ & _ & _ & _ & _ & _ & OC & _ & _ & OP & _ & _ & SE & _ & _ & b & _ & MA). destruct SE as (auths & sl & _ & -> & _).
    exists c', p', sl, resp. apply own_or_elements in OC. apply own_or_elements in OP.
    split; [eapply made_field; [exact MA|reflexivity|reflexivity]|]. split; [exact OC|]. split; [eapply made_field; [exact MA|reflexivity|reflexivity]|]. split; [exact OP|]. repeat (split; [eapply made_field; [exact MA|reflexivity|reflexivity]|]).
    destruct MA as ((h & fs & -> & C & K & F) & _). exact (F (lit "schemes") (JList []) eq_refl).
  Qed.
  Lemma host_doc netloc h : host_is doc netloc h -> host_now host netloc h.
  Proof.
    destruct sw_parts as (_ & _ & _ & _ & _ & _ & _ & _ & _ & _ & _ & FH & _). intros [h' F NE|v F E NE|v F E NE]; rewrite FH in F; injection F as <-; [left; auto|right; left|right; right]; inversion E; subst; auto.
  Qed.
  Lemma offered r n R O p m : first_at raw r n R O (base ++ p) m -> exists ps op0 pi op s h, parameters_for r O ps /\ operation_for (rfc_escape r) R O ps op0 /\ path_item root p pi /\ operation pi m op /\
    urlparse nu = Ok s /\ host_now host (u_netloc s) h /\ offers abs_uri win_uri u doc h p m op0 op.
  Proof.
    intro FA. destruct (op_doc _ _ _ _ _ _ FA) as (ps & op0 & pi & op & PF & OF & PI & OP & BO & SO). destruct (done_op _ _ _ _ _ _ _ _ _ _ _ _ _ _ _ _ _ _ ST SD p m pi op PI OP) as (pi' & op' & PI' & OP').
    destruct (item_doc _ _ PI) as (pi0 & PI0 & BP & NR & NP).
    destruct (done_url _ _ _ _ _ _ _ _ _ _ _ _ _ _ _ _ _ _ ST SD p m pi op PI OP pi' op' PI' OP') as (s & h & b & bp & US & HI & BI & FB & U1 & U2 & U3 & U4).
    destruct sw_parts as (_ & _ & _ & _ & _ & _ & _ & _ & _ & _ & _ & FH & FBP & FS & FC & FPR & FSE).
    assert (b = []) as -> by (destruct BI as [b F|v F E]; [congruence|reflexivity]). rewrite FBP in FB. injection FB as <-.
    exists ps, op0, pi', op', s, h. split; [exact PF|]. split; [exact OF|]. split; [exact PI'|]. split; [exact OP'|]. split; [exact US|]. split; [now apply host_doc|].
    assert (PL : forall n, sget n (t_child COperation) = None -> field_of op n = field_of op0 n).
    { intros n0 T. apply (brought_field u [lit "paths"; p; m] COperation); auto. intros ([Q|[Q|[Q|[Q|[]]]]] & _); discriminate Q. }
    destruct (operation_says _ _ _ _ _ OF) as (c & pd & sec & resp & F1 & E1 & F2 & E2 & F3 & F4 & F5 & F6).
    destruct (done_others _ _ _ _ _ _ _ _ _ _ _ _ _ _ _ _ _ _ ST SD p m pi op PI OP pi' op' PI' OP') as (OT & _).
    pose proof (done_inherited _ _ _ _ _ _ _ _ _ _ _ _ _ _ _ _ _ _ ST SD p m pi op PI OP pi' op' PI' OP' (lit "consumes") (or_introl eq_refl)) as (c1 & d1 & x1 & A1 & B1 & C1 & D1).
    pose proof (done_inherited _ _ _ _ _ _ _ _ _ _ _ _ _ _ _ _ _ _ ST SD p m pi op PI OP pi' op' PI' OP' (lit "produces") (or_intror eq_refl)) as (c2 & d2 & x2 & A2 & B2 & C2 & D2).
    destruct (done_security _ _ _ _ _ _ _ _ _ _ _ _ _ _ _ _ _ _ ST SD p m pi op PI OP pi' op' PI' OP') as (c3 & d3 & x3 & A3 & B3 & C3 & D3).
    destruct (done_schemes _ _ _ _ _ _ _ _ _ _ _ _ _ _ _ _ _ _ ST SD p m pi op PI OP pi' op' PI' OP') as (c4 & s' & d4 & x4 & A4 & _ & _ & DS & C4 & D4).
    destruct (done_responses _ _ _ _ _ _ _ _ _ _ _ _ _ _ _ _ _ _ ST SD p m pi op PI OP pi' op' PI' OP') as (c5 & x5 & A5 & C5 & D5).
    destruct (done_parameters _ _ _ _ _ _ _ _ _ _ _ _ _ _ _ _ _ _ ST SD p m pi op PI OP pi' op' PI' OP') as (c6 & sh & own1 & sh1 & x6 & A6 & B6 & C6 & D6 & E6 & W6).
    rewrite (PL (lit "consumes") eq_refl) in A1. rewrite (PL (lit "produces") eq_refl) in A2. rewrite (PL (lit "security") eq_refl) in A3. rewrite (PL (lit "schemes") eq_refl) in A4.
    assert (c1 = c) as -> by congruence. assert (d1 = VList []) as -> by congruence. assert (c2 = pd) as -> by congruence. assert (d2 = VList []) as -> by congruence. assert (c3 = VList sec) as -> by congruence. assert (c4 = VList []) as -> by congruence.
    destruct (operation_obj _ _ _ _ _ OF) as (ho & fo & io & E0 & CO). rewrite E0 in BO. pose proof BO as BO'. apply brought_obj in BO' as (g & es & EO & CG & _ & _ & FF). rewrite E0 in F4, F5. cbn [field_of] in F4, F5. rewrite EO in A5, A6. cbn [field_of] in A5, A6.
    constructor; auto.
    - destruct D4 as [(_ & ->)|(NE & _)]; [|elim NE; now left]. rewrite C4. destruct DS as [v F E|v F E|v F E]; rewrite FS in F; injection F as <-; [reflexivity|inversion E|inversion E].
    - intros n0 N1 N2. destruct (str_eqb n0 (lit "consumes")) eqn:Q1; [apply str_eqb_eq in Q1 as ->; rewrite C1, F1; destruct D1 as [(NE & ->)|(_ & ->)]; [destruct E1 as [-> |E1]; [reflexivity|contradiction]|reflexivity]|].
      destruct (str_eqb n0 (lit "produces")) eqn:Q2; [apply str_eqb_eq in Q2 as ->; rewrite C2, F2; destruct D2 as [(NE & ->)|(_ & ->)]; [destruct E2 as [-> |E2]; [reflexivity|contradiction]|reflexivity]|].
      destruct (str_eqb n0 (lit "security")) eqn:Q3; [apply str_eqb_eq in Q3 as ->; rewrite C3, F3; destruct D3 as [(X & _)|(_ & ->)]; [discriminate X|reflexivity]|].
      apply str_eqb_neq in Q1, Q2, Q3. rewrite OT; [apply PL| |exact N2].
      + destruct (sget n0 (t_child COperation)) as [[ct cc]|] eqn:T; [|reflexivity]. apply sget_In in T. cbn in T. destruct T as [T|[T|[]]]; injection T as <- <- <-; [now elim N1|now elim N2].
      + cbn. intros [E|[E|[E|[E|[]]]]]; subst n0; first [now elim Q1|now elim Q2|now elim Q3|now elim N1].
    - exists ps. destruct (FF _ _ F4) as (z & Z & [(_ & Q & _)|(_ & BZ)]); [discriminate Q|]. rewrite A6 in Z. injection Z as <-. apply brought_list in BZ as (l1 & -> & L1 & N1). inversion D6 as [|? l2 CF|]; subst.
      exists l2. cbn [field_of]. split; [exact F4|]. split.
      + assert (x6 = VList l2) as ->; [|exact C6]. rewrite B6 in NP. injection NP as ->. destruct E6 as [CI|(_ & Q)]; [|congruence]. inversion CI as [|? m1 FN|]; subst. inversion FN; subst.
        destruct W6 as [EV ->|l3 ps3 more E3 _ EP CH ->].
        * inversion EV; subst; reflexivity.
        * injection E3 as <-. injection EP as <-. inversion CH; subst. now rewrite app_nil_r.
      + split; [now rewrite <- (Forall2_len _ _ _ CF), L1|]. intros i x z X Z. destruct (Forall2_nth_r _ _ _ _ _ CF Z) as (y & Y & CY). exists y. split; [|exact CY]. exact (N1 _ _ _ X Y).
    - destruct (FF _ _ F5) as (z & Z & [(_ & Q & _)|(_ & BZ)]); [discriminate Q|]. rewrite A5 in Z. injection Z as <-. apply brought_dict in BZ as (e1 & -> & K1 & N1). destruct (N1 (lit "default") resp eq_refl) as (y & Y & BY).
      inversion D5 as [| |? e2 CF]; subst. destruct e1 as [|[k1 y1] [|? ?]]; try discriminate K1. cbn [map fst] in K1. injection K1 as ->. inversion CF as [|? [k2 y2] ? ? (KE & CY) FN]; subst. inversion FN; subst. cbn [fst snd] in KE, CY. subst k2.
      assert (y1 = y) as -> by (rewrite sget_cons in Y; rewrite str_eqb_refl in Y; congruence).
      exists resp, y2. cbn [field_of]. split; [exact F5|]. split; [exact C5|]. exists y. auto.
  Qed.
End Parts.
