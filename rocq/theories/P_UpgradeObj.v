(** Proofs about converting 1.2 documents to 2.0: the objects that are made. *)
From Verif Require Import PyBase PyFacts PyJson S_JsonPtr M_JsonPtr M_Scope M_SpecVal M_Parse P_SpecBase P_Op P_Parse P_Typed M_SpecTree M_Merge P_Merge M_MergeRef M_Patch P_Patch
  M_Validate S_Parse S_Validate P_Validate M_OldValidate S_OldValidate P_OldValidate M_Upgrade S_Upgrade.
From Coq Require Import Lia.
Close Scope Q_scope.

Lemma get_has n v x : get n v = Ok x <-> has_field v n x.
Proof.
  destruct v as [| | | | | | |h fs ints]; cbn [get has_field]; try (split; [discriminate|contradiction]). unfold attr. destruct (sget (lit n) fs) as [y|] eqn:F.
  - split; [intro E; injection E as <-; auto|]. intros [E|(E & _)]; congruence.
  - destruct (sget (lit n) ints) as [y|] eqn:G; split; try discriminate; try (intros [E|(_ & E)]; congruence). intro E. injection E as <-. auto.
Qed.
Lemma is_given_iff n v : is_given n v = true <-> given v n.
Proof. destruct v; cbn; try (split; [discriminate|contradiction]). apply mem_In. Qed.
Lemma given_no n v : is_given n v = false <-> ~ given v n.
Proof. rewrite <- is_given_iff. destruct (is_given n v); intuition congruence. Qed.
Lemma has_unique v n x y : has_field v n x -> has_field v n y -> x = y.
Proof. rewrite <- !get_has. congruence. Qed.

(** ** Making objects *)
Definition new_obj (c : cls) : val := VObj (Head c [] None []) (map (fun nd => (fst nd, inject (snd nd))) (t_fields c)) (map (fun nd => (fst nd, VNone)) (t_internal c)).
Definition makes (c : cls) : Prop := In c [CSchema; CItems; CParameter; COperation; CResponse; CPathItem; CTag; CInfo; CContact; CLicense; CSwagger; CSecurityScheme].
Lemma fresh_new c : makes c -> fresh c [] = Ok (new_obj c).
Proof. unfold makes. cbn [In]. intros [<-|[<-|[<-|[<-|[<-|[<-|[<-|[<-|[<-|[<-|[<-|[<-|[]]]]]]]]]]]]]; vm_compute; reflexivity. Qed.
Lemma new_made c : made c [] (new_obj c).
Proof.
  split.
  - eexists _, _. split; [reflexivity|]. split; [reflexivity|]. split; [now rewrite map_map|]. intros n d G. cbn [rev]. rewrite sget_map, G. reflexivity.
  - do 3 eexists. split; [reflexivity|]. cbn. tauto.
Qed.
Lemma fresh_made c v : makes c -> fresh c [] = Ok v -> made c [] v.
Proof. intros M E. rewrite (fresh_new c M) in E. injection E as <-. apply new_made. Qed.

Lemma rev_get (kvs : sdict val) n x m : sget m (rev (kvs ++ [(n, x)])) = if str_eqb m n then Some x else sget m (rev kvs).
Proof. rewrite rev_app_distr. cbn [rev app]. apply sget_cons. Qed.
Lemma holding_put c kvs v n x : holding c kvs v -> smem n (t_fields c) = true -> holding c (kvs ++ [(n, x)]) (put n x v).
Proof.
  intros (h & fs & -> & C & K & F) M. cbn [put]. eexists _, _. split; [reflexivity|]. split; [exact C|]. split.
  - rewrite sset_keys; [exact K|]. now rewrite (smem_keys n _ _ K).
  - intros m d G. rewrite rev_get. destruct (str_eqb m n) eqn:E.
    + apply str_eqb_eq in E as ->. apply sget_sset_same.
    + rewrite sget_sset_other by (intros ->; rewrite str_eqb_refl in E; discriminate E). now apply F.
Qed.
Lemma giving_put ns v n x : giving ns v -> giving ns (put n x v).
Proof. intros (h & fs & ints & -> & H). cbn [put]. do 3 eexists. split; [reflexivity|exact H]. Qed.
Lemma set_put c kvs v n x : holding c kvs v -> smem n (t_fields c) = true ->
  exists v', update_field n x v = Ok v' /\ holding c (kvs ++ [(n, x)]) v' /\ forall ns, giving ns v -> giving (ns ++ [n]) v'.
Proof.
  intros H M. pose proof (holding_put c kvs v n x H M) as P. destruct H as (h & fs & -> & C & K & F). unfold update_field. rewrite (smem_keys n _ _ K), M.
  eexists. split; [reflexivity|]. split.
  - destruct P as (h' & fs' & E & C' & K' & F'). cbn [put] in E. injection E as <- <-. eexists _, _. split; [reflexivity|]. split; [exact C|auto].
  - intros ns (h0 & f0 & i0 & E & G). injection E as <- <- <-. do 3 eexists. split; [reflexivity|]. cbn [h_keys]. intro m. rewrite in_app_iff. cbn [In]. rewrite G. intuition congruence.
Qed.
Lemma set_made c kvs v n x v' : made c kvs v -> smem n (t_fields c) = true -> update_field n x v = Ok v' -> made c (kvs ++ [(n, x)]) v'.
Proof.
  intros (H & G) M E. destruct (set_put c kvs v n x H M) as (w & U & A & B). assert (w = v') as -> by congruence. split; [exact A|]. rewrite map_app. now apply B.
Qed.
Lemma set_ok c kvs v n x : made c kvs v -> smem n (t_fields c) = true -> exists v', update_field n x v = Ok v' /\ made c (kvs ++ [(n, x)]) v'.
Proof.
  intros (H & G) M. destruct (set_put c kvs v n x H M) as (w & U & A & B). exists w. split; [exact U|]. split; [exact A|]. rewrite map_app. now apply B.
Qed.
Lemma holding_ext c a b v : (forall n, sget n (rev a) = sget n (rev b)) -> holding c a v -> holding c b v.
Proof. intros X (h & fs & -> & C & K & F). exists h, fs. repeat (split; [solve [auto]|]). intros n d G. rewrite <- X. now apply F. Qed.
Lemma giving_ext a b v : (forall n : str, In n a <-> In n b) -> giving a v -> giving b v.
Proof. intros X (h & fs & ints & -> & G). do 3 eexists. split; [reflexivity|]. intro n. now rewrite G. Qed.
Definition lits (l : list (string * val)) : sdict val := map (fun nx => (lit (fst nx), snd nx)) l.
Lemma sets_ok c : forall l kvs v, made c kvs v -> forallb (fun nx => smem (lit (fst nx)) (t_fields c)) l = true ->
  exists v', sets l v = Ok v' /\ made c (kvs ++ lits l) v'.
Proof.
  induction l as [|[n x] l IH]; intros kvs v M F; cbn [sets lits map].
  - exists v. rewrite app_nil_r. auto.
  - cbn [forallb fst] in F. apply andb_true_iff in F as (F1 & F2). destruct (set_ok c kvs v (lit n) x M F1) as (w & -> & W). cbn [bind].
    destruct (IH _ _ W F2) as (v' & E & MV). exists v'. split; [exact E|]. rewrite <- app_assoc in MV. exact MV.
Qed.
Lemma sets_made c l kvs v v' : made c kvs v -> forallb (fun nx => smem (lit (fst nx)) (t_fields c)) l = true -> sets l v = Ok v' -> made c (kvs ++ lits l) v'.
Proof. intros M F E. destruct (sets_ok c l kvs v M F) as (w & W & A). congruence. Qed.
(** what is in an object that was made *)
Lemma holding_get c kvs v n d : holding c kvs v -> sget (lit n) (t_fields c) = Some d ->
  has_field v n (match sget (lit n) (rev kvs) with Some x => x | None => inject d end).
Proof. intros (h & fs & -> & C & K & F) G. left. now apply F. Qed.
Ltac inv E := let x := fresh "x" in let X := fresh "X" in apply bind_ok in E as (x & X & E).
Ltac fieldsok := vm_compute; reflexivity.
Ltac stp S M := eapply set_made in S; [|exact M|fieldsok].
Ltac stps S M := eapply sets_made in S; [|exact M|fieldsok].
Ltac mk := unfold makes; cbn [In]; tauto.

Section Upgrade.
  Context (prim : str -> bool) (float_of : str -> res Q) (sep : str).
  Notation compose := (compose sep). Notation names := (names sep). Notation scoped := (scoped sep).
  Lemma scope_scoped scope n : match scope_compose sep (Some scope) (Some n) with Some s => s | None => [] end = scoped scope n.
  Proof. unfold scope_compose, S_Upgrade.scoped. destruct scope, n; reflexivity. Qed.
  Lemma compose_iff scope n s : compose scope n = Ok s <-> names scope n s.
  Proof.
    split.
    - destruct n as [| | | |n| | |]; unfold M_Upgrade.compose; try discriminate; intro E; [injection E as <-; constructor|].
      rewrite scope_scoped in E. injection E as <-. constructor.
    - intros [|m]; unfold M_Upgrade.compose; [reflexivity|]. now rewrite scope_scoped.
  Qed.
  Lemma type_ref_ok scope c kvs src dst dst' : smem (lit "type") (t_fields c) = true -> smem (lit "$ref") (t_fields c) = true -> made c kvs dst ->
    type_and_ref prim sep src scope dst = Ok dst' -> exists kt, data_type_of prim sep scope src kt /\ made c (kvs ++ kt) dst'.
  Proof.
    intros FT FR M E. unfold type_and_ref in E. apply bind_ok in E as (r & R & E). apply bind_ok in E as (d & D & E). apply bind_ok in E as (t & T & E). apply bind_ok in E as (p & P & E).
    apply get_has in R, T.
    assert (K1 : exists k1, ref_part sep scope r k1 /\ made c (kvs ++ k1) d).
    { destruct (falsy r) eqn:F.
      - injection D as <-. exists []. rewrite app_nil_r. split; [|exact M]. constructor. now apply falsy_iff.
      - apply bind_ok in D as (s & S' & D). apply compose_iff in S'. eexists. split; [econstructor 2; [now apply holds_true_iff|exact S']|]. exact (set_made c _ _ _ _ _ M FR D). }
    destruct K1 as (k1 & R1 & M1).
    assert (K2 : exists k2, type_part prim sep scope t k2 /\ made c (kvs ++ k1 ++ k2) dst').
    { destruct p.
      - apply bind_ok in E as (tl & TL & E). destruct t as [| | | |t| | |]; cbn in TL; try discriminate TL. injection TL as <-. cbn in P. injection P as P.
        eexists. split; [apply primitive_type; exact P|]. rewrite app_assoc. exact (set_made c _ _ _ _ _ M1 FT E).
      - destruct (falsy t) eqn:F.
        + injection E as <-. exists []. rewrite app_nil_r. split; [|exact M1]. apply no_type; [now apply falsy_iff| | |]; intros x ->; cbn in P; try discriminate P. now injection P.
        + apply bind_ok in E as (s & S' & E). apply compose_iff in S'. destruct S' as [|n]; [discriminate F|]. cbn in P. injection P as P. eexists. split; [apply model_type; [exact P|intros ->; discriminate F]|].
          rewrite app_assoc. exact (set_made c _ _ _ _ _ M1 FR E). }
    destruct K2 as (k2 & R2 & M2). exists (k1 ++ k2). split; [|exact M2]. exists r, t, k1, k2. auto.
  Qed.
  Lemma type_ref_works scope c kvs src dst kt : smem (lit "type") (t_fields c) = true -> smem (lit "$ref") (t_fields c) = true -> made c kvs dst ->
    data_type_of prim sep scope src kt -> exists dst', type_and_ref prim sep src scope dst = Ok dst' /\ made c (kvs ++ kt) dst'.
  Proof.
    intros FT FR M (r & t & k1 & k2 & R & T & R1 & R2 & ->). apply get_has in R, T. unfold type_and_ref. rewrite R, T. cbn [bind].
    assert (K1 : exists d, (if falsy r then Ok dst else do s <- compose scope r; update_field (lit "$ref") (VStr (lit "#/definitions/" ++ s)) dst) = Ok d /\ made c (kvs ++ k1) d).
    { destruct R1 as [r F|r s F S']; [apply falsy_iff in F; rewrite F|apply holds_true_iff in F; rewrite F].
      - exists dst. rewrite app_nil_r. auto.
      - apply compose_iff in S'. rewrite S'. cbn [bind]. exact (set_ok c _ _ _ _ M FR). }
    destruct K1 as (d & -> & M1). cbn [bind]. rewrite app_assoc. destruct R2 as [t P|t P NE|t F NP NL ND]; cbn [primitive].
    - rewrite P. cbn [bind to_lower]. exact (set_ok c _ _ _ _ M1 FT).
    - rewrite P. cbn [bind]. destruct t as [|a t]; [congruence|]. cbn [falsy nonempty negb]. rewrite (proj2 (compose_iff scope (VStr (a :: t)) _) (names_text sep scope (a :: t))). cbn [bind]. exact (set_ok c _ _ _ _ M1 FR).
    - assert (PF : primitive prim t = Ok false).
      { destruct t; cbn; try reflexivity; [now rewrite (NP s)|elim (NL l eq_refl)|elim (ND d0 eq_refl)]. }
      rewrite PF. cbn [bind]. apply falsy_iff in F. rewrite F. exists d. rewrite app_nil_r. auto.
  Qed.
  Lemma to_float_iff v q : to_float float_of v = Ok q <-> number float_of v q.
  Proof.
    split.
    - destruct v; cbn [to_float]; intro E; try discriminate E; try (injection E as <-); constructor. exact E.
    - intros []; cbn [to_float]; auto.
  Qed.
  Lemma bound_ok c kvs n src dst dst' : smem (lit n) (t_fields c) = true -> made c kvs dst -> bound float_of n src dst = Ok dst' ->
    exists x, limit float_of src n x /\ made c (kvs ++ [n ~> x]) dst'.
  Proof.
    intros FN M E. unfold bound in E. apply bind_ok in E as (v & V & E). apply get_has in V. destruct (falsy v) eqn:F.
    - eexists. split; [|exact (set_made c _ _ _ _ _ M FN E)]. exists v. split; [exact V|]. left. split; [now apply falsy_iff|reflexivity].
    - apply bind_ok in E as (t & T & E). apply get_has in T. destruct (is_text t "integer") eqn:I; [|destruct (is_text t "number") eqn:I2; [|discriminate E]].
      + apply bind_ok in E as (q & Q & E). apply is_text_iff in I as ->. apply to_float_iff in Q. eexists. split; [|exact (set_made c _ _ _ _ _ M FN E)].
        exists v. split; [exact V|]. right. split; [now apply holds_true_iff|]. exists q. auto.
      + apply bind_ok in E as (q & Q & E). apply is_text_iff in I2 as ->. apply to_float_iff in Q. eexists. split; [|exact (set_made c _ _ _ _ _ M FN E)].
        exists v. split; [exact V|]. right. split; [now apply holds_true_iff|]. exists q. auto.
  Qed.
  Lemma bound_works c kvs n src dst x : smem (lit n) (t_fields c) = true -> made c kvs dst -> limit float_of src n x ->
    exists dst', bound float_of n src dst = Ok dst' /\ made c (kvs ++ [n ~> x]) dst'.
  Proof.
    intros FN M (v & V & H). apply get_has in V. unfold bound. rewrite V. cbn [bind]. destruct H as [(F & ->)|(F & q & Q & [(T & ->)|(T & ->)])].
    - apply falsy_iff in F. rewrite F. exact (set_ok c _ _ _ _ M FN).
    - apply holds_true_iff in F. rewrite F. apply get_has in T. rewrite T. cbn [bind]. apply to_float_iff in Q. rewrite (proj2 (is_text_iff (text "integer") "integer") eq_refl), Q. cbn [bind]. exact (set_ok c _ _ _ _ M FN).
    - apply holds_true_iff in F. rewrite F. apply get_has in T. rewrite T. cbn [bind]. apply to_float_iff in Q. rewrite (proj2 (is_text_no (text "number") "integer") ltac:(discriminate)), (proj2 (is_text_iff (text "number") "number") eq_refl), Q. cbn [bind]. exact (set_ok c _ _ _ _ M FN).
  Qed.
  Lemma min_max_ok c kvs src dst dst' : smem (lit "minimum") (t_fields c) = true -> smem (lit "maximum") (t_fields c) = true -> made c kvs dst -> min_max float_of src dst = Ok dst' ->
    exists x y, limit float_of src "minimum" x /\ limit float_of src "maximum" y /\ made c (kvs ++ ["minimum" ~> x; "maximum" ~> y]) dst'.
  Proof.
    intros A B M E. unfold min_max in E. apply bind_ok in E as (d & D & E). destruct (bound_ok _ _ _ _ _ _ A M D) as (x & LX & MX). destruct (bound_ok _ _ _ _ _ _ B MX E) as (y & LY & MY).
    exists x, y. split; [exact LX|]. split; [exact LY|]. rewrite <- app_assoc in MY. exact MY.
  Qed.
  Lemma min_max_works c kvs src dst x y : smem (lit "minimum") (t_fields c) = true -> smem (lit "maximum") (t_fields c) = true -> made c kvs dst ->
    limit float_of src "minimum" x -> limit float_of src "maximum" y -> exists dst', min_max float_of src dst = Ok dst' /\ made c (kvs ++ ["minimum" ~> x; "maximum" ~> y]) dst'.
  Proof.
    intros A B M LX LY. unfold min_max. destruct (bound_works _ _ _ _ _ _ A M LX) as (d & -> & MX). cbn [bind]. destruct (bound_works _ _ _ _ _ _ B MX LY) as (d' & -> & MY).
    exists d'. split; [reflexivity|]. rewrite <- app_assoc in MY. exact MY.
  Qed.
  Lemma default_ok c kvs wrap src dst dst' : smem (lit "default") (t_fields c) = true -> made c kvs dst -> set_default wrap src dst = Ok dst' ->
    exists kd, default_part src wrap kd /\ made c (kvs ++ kd) dst'.
  Proof.
    intros F M E. unfold set_default in E. destruct (is_given "defaultValue" src) eqn:G.
    - apply bind_ok in E as (d & D & E). eexists. split; [|exact (set_made c _ _ _ _ _ M F E)]. left. exists d. split; [now apply is_given_iff|]. split; [now apply get_has|reflexivity].
    - injection E as <-. exists []. rewrite app_nil_r. split; [|exact M]. right. split; [now apply given_no|reflexivity].
  Qed.
  Lemma default_works c kvs wrap src dst kd : smem (lit "default") (t_fields c) = true -> made c kvs dst -> default_part src wrap kd ->
    exists dst', set_default wrap src dst = Ok dst' /\ made c (kvs ++ kd) dst'.
  Proof.
    intros F M [(x & G & D & ->)|(G & ->)]; unfold set_default.
    - apply is_given_iff in G. rewrite G. apply get_has in D. rewrite D. cbn [bind]. exact (set_ok c _ _ _ _ M F).
    - apply given_no in G. rewrite G. exists dst. rewrite app_nil_r. auto.
  Qed.
  Lemma schema_ok obj scope s : schema_from prim float_of sep obj scope = Ok s -> exists kvs, schema_kvs prim float_of sep scope obj kvs /\ made CSchema kvs s.
  Proof.
    intro E. unfold schema_from in E.
    apply bind_ok in E as (s0 & S0 & E). apply fresh_made in S0; [|mk]. apply bind_ok in E as (s1 & S1 & E). apply type_ref_ok with (c := CSchema) (kvs := []) in S1 as (kt & KT & M1); [|fieldsok..|exact S0].
    apply bind_ok in E as (f & FM & E). apply get_has in FM. apply bind_ok in E as (s2 & S2 & E). stp S2 M1.
    apply bind_ok in E as (s3 & S3 & E). apply default_ok with (c := CSchema) (kvs := ([] ++ kt) ++ ["format" ~> f]) in S3 as (kd & KD & M3); [|fieldsok|exact S2].
    apply bind_ok in E as (s4 & S4 & E). eapply (min_max_ok CSchema) in S4 as (mn & mx & LN & LX & M4); [|fieldsok..|exact M3].
    apply bind_ok in E as (ui & UI & E). apply bind_ok in E as (en & EN & E). apply get_has in UI, EN. apply bind_ok in E as (s5 & S5 & E). stps S5 M4.
    apply bind_ok in E as (items & IT & E). apply get_has in IT.
    assert (K : exists ki, ((~ holds_true items /\ ki = []) \/
       (holds_true items /\ exists ks fi s, data_type_of prim sep scope items ks /\ has_field items "format" fi /\ made CSchema (ks ++ ["format" ~> fi]) s /\ ki = ["items" ~> s])) /\
       made CSchema (((((([] ++ kt) ++ ["format" ~> f]) ++ kd) ++ ["minimum" ~> mn; "maximum" ~> mx]) ++ lits [("uniqueItems", ui); ("enum", en)]%string) ++ ki) s).
    { destruct (falsy items) eqn:FI.
      - injection E as <-. exists []. rewrite app_nil_r. split; [|exact S5]. left. split; [now apply falsy_iff|reflexivity].
      - apply bind_ok in E as (i0 & I0 & E). apply fresh_made in I0; [|mk]. apply bind_ok in E as (i1 & I1 & E). apply type_ref_ok with (c := CSchema) (kvs := []) in I1 as (ks & KS & MI1); [|fieldsok..|exact I0].
        apply bind_ok in E as (fi & FMI & E). apply get_has in FMI. apply bind_ok in E as (i2 & I2 & E). stp I2 MI1. stp E S5.
        eexists. split; [|exact E]. right. split; [now apply holds_true_iff|]. exists ks, fi, i2. auto. }
    destruct K as (ki & KI & M). eexists. split; [exists kt, f, kd, mn, mx, ui, en, items, ki; repeat (split; [eassumption|]); reflexivity|].
    cbn [app lits map fst snd] in *. rewrite <- !app_assoc in M. exact M.
  Qed.
  Lemma schema_works obj scope kvs : schema_kvs prim float_of sep scope obj kvs -> exists s, schema_from prim float_of sep obj scope = Ok s.
  Proof.
    intros (kt & f & kd & mn & mx & ui & en & items & ki & KT & FM & KD & LN & LX & UI & EN & IT & KI & ->). apply get_has in FM, UI, EN, IT.
    unfold schema_from. rewrite (fresh_new CSchema ltac:(mk)). cbn [bind].
    destruct (type_ref_works scope CSchema [] obj _ kt ltac:(fieldsok) ltac:(fieldsok) (new_made CSchema) KT) as (s1 & -> & M1). cbn [bind]. rewrite FM. cbn [bind].
    destruct (set_ok CSchema _ _ (lit "format") f M1 ltac:(fieldsok)) as (s2 & -> & M2). cbn [bind]. destruct (default_works CSchema _ _ _ _ kd ltac:(fieldsok) M2 KD) as (s3 & -> & M3). cbn [bind].
    destruct (min_max_works CSchema _ obj _ mn mx ltac:(fieldsok) ltac:(fieldsok) M3 LN LX) as (s4 & -> & M4). cbn [bind]. rewrite UI, EN. cbn [bind].
    destruct (sets_ok CSchema [("uniqueItems", ui); ("enum", en)]%string _ _ M4 ltac:(fieldsok)) as (s5 & -> & M5). cbn [bind]. rewrite IT. cbn [bind].
    destruct KI as [(F & ->)|(F & ks & fi & s & KS & FI & _ & ->)].
    - apply falsy_iff in F. rewrite F. eauto.
    - apply holds_true_iff in F. rewrite F. apply get_has in FI. cbn [bind].
      destruct (type_ref_works scope CSchema [] items _ ks ltac:(fieldsok) ltac:(fieldsok) (new_made CSchema) KS) as (i1 & -> & MI1). cbn [bind]. rewrite FI. cbn [bind].
      destruct (set_ok CSchema _ _ (lit "format") fi MI1 ltac:(fieldsok)) as (i2 & -> & MI2). cbn [bind].
      destruct (set_ok CSchema _ _ (lit "items") i2 M5 ltac:(fieldsok)) as (r & -> & _). eauto.
  Qed.

  Notation items_from := (items_from prim). Notation items_for := (items_for prim).
  Lemma primitive_true v : primitive prim v = Ok true <-> exists t, v = VStr t /\ prim t = true.
  Proof.
    split.
    - destruct v; cbn [primitive]; intro E; try discriminate E. injection E as E. eauto.
    - intros (t & -> & P). cbn. now rewrite P.
  Qed.
  Lemma items_ok o i : items_from o = Ok i -> items_for o [] i.
  Proof.
    intro E. unfold M_Upgrade.items_from in E. apply bind_ok in E as (i0 & I0 & E). apply fresh_made in I0; [|mk]. apply bind_ok in E as (r & R & E). destruct (falsy r) eqn:F; cbn [negb] in E; [|discriminate E].
    apply bind_ok in E as (t & T & E). apply bind_ok in E as (p & P & E). destruct p; cbn [negb] in E; [|discriminate E]. apply primitive_true in P as (s & -> & P). cbn [to_lower bind] in E.
    apply bind_ok in E as (f & FM & E). stps E I0. exists r, s, f. apply get_has in R, T, FM. apply falsy_iff in F. auto 9.
  Qed.
  Lemma items_works o more i : items_for o more i -> exists i, items_from o = Ok i.
  Proof.
    intros (r & t & f & R & F & T & P & FM & _). apply get_has in R, T, FM. apply falsy_iff in F. unfold M_Upgrade.items_from. rewrite (fresh_new CItems ltac:(mk)). cbn [bind]. rewrite R. cbn [bind]. rewrite F, T. cbn [negb bind].
    rewrite (proj2 (primitive_true (VStr t))) by eauto. cbn [bind negb to_lower]. rewrite FM. cbn [bind].
    destruct (sets_ok CItems [("type", VStr (lower t)); ("format", f)]%string _ _ (new_made CItems) ltac:(fieldsok)) as (i' & -> & _). eauto.
  Qed.
  Lemma equals_true_iff v : elem_eqb v (VBool true) = true <-> equals_true v.
  Proof.
    unfold elem_eqb, equals_true. cbn [number_of]. split.
    - destruct v as [|[]|z|q| | | |]; cbn [number_of]; intro E; try discriminate E; auto.
      + apply Qeq_bool_iff in E. unfold Qeq in E. cbn in E. right. left. f_equal. lia.
      + apply Qeq_bool_iff in E. eauto.
    - intros [->|[->|(q & -> & Q)]]; cbn [number_of]; apply Qeq_bool_iff; [reflexivity..|exact Q].
  Qed.
  Notation schema_for := (schema_for prim float_of sep). Notation schema_from := (schema_from prim float_of sep).
  Notation parameter_for := (parameter_for prim float_of sep). Notation parameter_from := (parameter_from prim float_of sep).
  Lemma schema_for_ok d scope s : schema_from d scope = Ok s -> schema_for scope d s.
  Proof. intro E. destruct (schema_ok _ _ _ E) as (kvs & A & B). exists kvs. auto. Qed.
  Lemma multiple_items (base kd : sdict val) ui i i' : (exists x, kd = ["default" ~> x]) \/ kd = [] -> forall n,
    sget n (rev ((((base ++ ["type" ~> text "array"; "collectionFormat" ~> text "csv"; "uniqueItems" ~> ui]) ++ ["items" ~> i]) ++ kd) ++ ["items" ~> i'])) =
    sget n (rev (base ++ ["type" ~> text "array"; "collectionFormat" ~> text "csv"; "uniqueItems" ~> ui; "items" ~> i'] ++ kd)).
  Proof.
    intros K n. rewrite !rev_app_distr. cbn [rev app]. destruct (str_eqb n (lit "items")) eqn:E.
    - apply str_eqb_eq in E as ->. destruct K as [(x & ->)| ->]; reflexivity.
    - destruct K as [(x & ->)| ->]; cbn [rev app]; rewrite !sget_cons, !E; reflexivity.
  Qed.
  Lemma parameter_ok d scope p : parameter_from d scope = Ok p -> parameter_for scope d p.
  Proof.
    intro E. unfold M_Upgrade.parameter_from in E. apply bind_ok in E as (o0 & O0 & E). apply fresh_made in O0; [|mk].
    apply bind_ok in E as (name & NM & E). apply bind_ok in E as (req & RQ & E). apply bind_ok in E as (de & DE & E). apply bind_ok in E as (pt & PT & E). cbv zeta in E.
    set (pl := if is_text pt "form" then VStr (lit "formData") else pt) in E. apply bind_ok in E as (o1 & O1 & E). stps O1 O0. cbn [app lits map fst snd] in O1.
    apply get_has in NM, RQ, DE, PT. exists name, req, de, pt, pl. repeat (split; [assumption|]). split.
    { unfold pl. destruct (is_text pt "form") eqn:F; [left; apply is_text_iff in F; auto|right; apply is_text_no in F; auto]. }
    intro base. change (made CParameter base o1) in O1. destruct (is_text pl "body") eqn:B.
    - left. split; [now apply is_text_iff|]. apply bind_ok in E as (s & S' & E). stp E O1. exists s. split; [now apply schema_for_ok|exact E].
    - right. split; [now apply is_text_no|]. apply bind_ok in E as (r & R & E). destruct (falsy r) eqn:F; cbn [negb] in E; [|discriminate E].
      apply bind_ok in E as (am & AM & E). apply bind_ok in E as (items & IT & E). apply bind_ok in E as (ui & UI & E). apply bind_ok in E as (en & EN & E). apply get_has in R, AM, IT, UI, EN. apply falsy_iff in F.
      exists r, am, items, ui, en. repeat (split; [assumption|]). apply bind_ok in E as (o2 & O2 & E). destruct (elem_eqb am (VBool true) && is_none items) eqn:C.
      + apply andb_true_iff in C as (CA & CN). apply equals_true_iff in CA. apply is_none_iff in CN as ->. cbn [falsy] in E. injection E as <-. left. split; [exact CA|]. split; [reflexivity|].
        apply bind_ok in O2 as (o3 & O3 & E). stps O3 O1. apply bind_ok in E as (i & I & E). apply items_ok in I. apply bind_ok in E as (o4 & O4 & E). stp O4 O3.
        apply bind_ok in E as (o5 & O5 & E). eapply (default_ok CParameter) in O5 as (kd & KD & M5); [|fieldsok|exact O4]. apply bind_ok in E as (i' & I' & E). apply bind_ok in E as (i2 & I2 & E). injection E as <-.
        assert (KDS : (exists x, kd = ["default" ~> x]) \/ kd = []) by (destruct KD as [(x & _ & _ & ->)|(_ & ->)]; eauto).
        assert (i' = i) as ->.
        { apply get_has in I'. destruct M5 as (H5 & _). apply (holding_get _ _ _ "items" JNull) in H5; [|reflexivity]. pose proof (has_unique _ _ _ _ I' H5) as ->. rewrite rev_app_distr, rev_app_distr, rev_app_distr.
          destruct KDS as [(x & ->)| ->]; reflexivity. }
        destruct I as (ri & t & f & RI & NR & T & P & FM & MI). stp I2 MI. exists i2, kd. split; [exists ri, t, f; auto 9|]. split; [exact KD|]. destruct M5 as (H5 & G5). split.
        * eapply holding_ext; [apply (multiple_items base kd ui i i2 KDS)|]. apply holding_put; [exact H5|fieldsok].
        * apply giving_put. eapply giving_ext; [|exact G5]. intro n. cbn [lits map fst snd]. rewrite <- !app_assoc. reflexivity.
      + right. split.
        { intros (A & B'). apply equals_true_iff in A. apply is_none_iff in B'. rewrite A, B' in C. discriminate C. }
        apply bind_ok in O2 as (ty & TY & O2). apply bind_ok in O2 as (t & T & O2). destruct ty as [| | | |t'| | |]; cbn in T; try discriminate T. injection T as <-. apply bind_ok in O2 as (f & FM & O2). apply get_has in TY, FM.
        apply bind_ok in O2 as (o3 & O3 & O2). stps O3 O1. apply bind_ok in O2 as (o4 & O4 & O2). eapply (default_ok CParameter) in O4 as (kd & KD & M4); [|fieldsok|exact O3].
        apply bind_ok in O2 as (o5 & O5 & O2). eapply (min_max_ok CParameter) in O5 as (mn & mx & LN & LX & M5); [|fieldsok|fieldsok|exact M4]. stp O2 M5.
        destruct (falsy items) eqn:FI.
        * injection E as <-. exists t', f, kd, mn, mx, []. repeat (split; [assumption|]). split; [left; split; [now apply falsy_iff|reflexivity]|].
          cbn [app lits map fst snd] in O2. rewrite <- !app_assoc in O2. exact O2.
        * apply bind_ok in E as (o6 & O6 & E). stps O6 O2. apply bind_ok in E as (i & I & E). apply items_ok in I. stp E O6.
          exists t', f, kd, mn, mx, ["collectionFormat" ~> text "csv"; "uniqueItems" ~> ui; "items" ~> i]. repeat (split; [assumption|]). split; [right; split; [now apply holds_true_iff|]; exists i; auto|].
          cbn [app lits map fst snd] in E. rewrite <- !app_assoc in E. exact E.
  Qed.
  Lemma parameter_works d scope p : parameter_for scope d p -> exists p, parameter_from d scope = Ok p.
  Proof.
    intros (name & req & de & pt & pl & NM & RQ & DE & PT & PL & H). cbv zeta in H. apply get_has in NM, RQ, DE, PT. unfold M_Upgrade.parameter_from.
    rewrite (fresh_new CParameter ltac:(mk)), NM, RQ, DE, PT. cbn [bind].
    assert (EP : (if is_text pt "form" then VStr (lit "formData") else pt) = pl).
    { destruct PL as [(-> & ->)|(N & ->)]; [reflexivity|]. apply is_text_no in N. now rewrite N. }
    rewrite EP. clear EP PL.
    destruct (sets_ok CParameter [("name", name); ("required", req); ("description", de); ("in", pl)]%string _ _ (new_made CParameter) ltac:(fieldsok)) as (o1 & -> & M1). cbn [bind].
    destruct H as [(-> & s & (kvs & SK & _) & _)|(NB & r & am & items & ui & en & R & F & AM & IT & UI & EN & H)].
    - rewrite (proj2 (is_text_iff (text "body") "body") eq_refl). destruct (schema_works _ _ _ SK) as (s' & ->). cbn [bind]. destruct (set_ok CParameter _ _ (lit "schema") s' M1 ltac:(fieldsok)) as (p' & -> & _). eauto.
    - apply is_text_no in NB. rewrite NB. apply get_has in R, AM, IT, UI, EN. apply falsy_iff in F. rewrite R. cbn [bind]. rewrite F. cbn [negb]. rewrite AM, IT, UI, EN. cbn [bind].
      destruct H as [(A & -> & i & kd & IF & KD & _)|(NA & t & f & kd & mn & mx & ki & T & FM & KD & LN & LX & KI & _)].
      + apply equals_true_iff in A. rewrite A. cbn [is_none andb].
        destruct (sets_ok CParameter [("type", VStr (lit "array")); ("collectionFormat", VStr (lit "csv")); ("uniqueItems", ui)]%string _ _ M1 ltac:(fieldsok)) as (o2 & -> & M2). cbn [bind].
        destruct (items_works _ _ _ IF) as (i' & I'). rewrite I'. cbn [bind]. apply items_ok in I'. destruct (set_ok CParameter _ _ (lit "items") i' M2 ltac:(fieldsok)) as (o3 & -> & M3). cbn [bind].
        destruct (default_works CParameter _ _ _ _ kd ltac:(fieldsok) M3 KD) as (o4 & -> & M4). cbn [bind].
        assert (G : get "items" o4 = Ok i').
        { destruct M4 as (H4 & _). apply (holding_get _ _ _ "items" JNull) in H4; [|reflexivity]. apply get_has. revert H4. rewrite rev_app_distr. cbn [rev]. rewrite rev_app_distr. destruct KD as [(x & _ & _ & ->)|(_ & ->)]; auto. }
        rewrite G. cbn [bind]. destruct I' as (ri & t & f & _ & _ & _ & _ & _ & MI). destruct (set_ok CItems _ _ (lit "enum") en MI ltac:(fieldsok)) as (i2 & -> & _). cbn [bind falsy]. eauto.
      + assert (C : elem_eqb am (VBool true) && is_none items = false).
        { apply not_true_iff_false. rewrite andb_true_iff, equals_true_iff, is_none_iff. exact NA. }
        rewrite C. apply get_has in T, FM. rewrite T. cbn [bind to_lower]. rewrite FM. cbn [bind].
        destruct (sets_ok CParameter [("type", VStr (lower t)); ("format", f)]%string _ _ M1 ltac:(fieldsok)) as (o2 & -> & M2). cbn [bind].
        destruct (default_works CParameter _ _ _ _ kd ltac:(fieldsok) M2 KD) as (o4 & -> & M4). cbn [bind].
        destruct (min_max_works CParameter _ d _ mn mx ltac:(fieldsok) ltac:(fieldsok) M4 LN LX) as (o5 & -> & M5). cbn [bind]. destruct (set_ok CParameter _ _ (lit "enum") en M5 ltac:(fieldsok)) as (o6 & -> & M6). cbn [bind].
        destruct KI as [(FI & ->)|(FI & i & IF & ->)].
        * apply falsy_iff in FI. rewrite FI. eauto.
        * apply holds_true_iff in FI. rewrite FI. destruct (sets_ok CParameter [("collectionFormat", VStr (lit "csv")); ("uniqueItems", ui)]%string _ _ M6 ltac:(fieldsok)) as (o7 & -> & M7). cbn [bind].
          destruct (items_works _ _ _ IF) as (i' & ->). cbn [bind]. destruct (set_ok CParameter _ _ (lit "items") i' M7 ltac:(fieldsok)) as (o8 & -> & _). eauto.
  Qed.

  (** ** Operations *)
  Lemma or_ok a b x : or_of a b = Ok x -> own_or a b (or_empty x).
  Proof.
    unfold or_of, or_empty. destruct (falsy a) eqn:F.
    - intro E. injection E as <-. apply falsy_iff in F. destruct (falsy b) eqn:G; [apply from_nowhere; [exact F|now apply falsy_iff]|apply from_around; [exact F|now apply holds_true_iff]].
    - intro E. apply bind_ok in E as (n & N & E). pose proof (proj2 (holds_true_iff a) F) as T. destruct a as [| | | |s|l|d|]; cbn in N; try discriminate N; injection N as <-.
      + destruct s; [discriminate F|]. cbn in E. injection E as <-. rewrite F. eapply its_own; [exact T|constructor].
      + destruct l; [discriminate F|]. cbn in E. injection E as <-. rewrite F. eapply its_own; [exact T|constructor].
      + destruct d; [discriminate F|]. cbn in E. injection E as <-. rewrite F. eapply its_own; [exact T|constructor].
  Qed.
  Lemma or_works a b y : own_or a b y -> exists x, or_of a b = Ok x /\ or_empty x = y.
  Proof.
    unfold or_of, or_empty. intros [l T EL|F T|F G].
    - apply holds_true_iff in T. rewrite T. exists a. destruct EL as [l|s|d]; [destruct l|destruct s|destruct d]; cbn in T |- *; try discriminate T; auto.
    - apply falsy_iff in F. apply holds_true_iff in T. rewrite F. exists b. now rewrite T.
    - apply falsy_iff in F, G. rewrite F. exists b. now rewrite G.
  Qed.
  Lemma scope_list vs ss : map_res (get "scope") vs = Ok ss <-> Forall2 (fun v s => has_field v "scope" s) vs ss.
  Proof. rewrite map_res_ok. split; intro F; (eapply Forall2_weaken; [|exact F]); intros a b; apply get_has. Qed.
  Lemma securities_iff d : forall l, securities d = Ok l <-> Forall2 requirement d l.
  Proof.
    induction d as [|[n sc] d IH]; intro l; cbn [securities].
    - split; [intro E; injection E as <-; constructor|]. intro F. inversion F; subst. reflexivity.
    - split.
      + intro E. apply bind_ok in E as (vs & V & E). apply bind_ok in E as (ss & S' & E). apply bind_ok in E as (r & R & E). injection E as <-. constructor; [|now apply IH].
        exists vs, ss. cbn [fst snd]. split; [now apply elements_iterate|]. split; [now apply scope_list|reflexivity].
      + intro F. inversion F as [|? y ? r (vs & ss & V & S' & ->) F']; subst. cbn [fst snd] in *. apply elements_iterate in V. apply scope_list in S'. apply IH in F'. rewrite V. cbn [bind]. rewrite S'. cbn [bind]. rewrite F'. reflexivity.
  Qed.
  Lemma security_ok obj parent x : security_of obj parent = Ok x -> exists own more, has_field obj "authorizations" own /\ has_field parent "authorizations" more /\ security_for own more x.
  Proof.
    intro E. unfold security_of in E. apply bind_ok in E as (own & O & E). apply bind_ok in E as (more & M & E). apply bind_ok in E as (au & A & E). apply get_has in O, M. apply or_ok in A. unfold or_empty in A.
    exists own, more. split; [exact O|]. split; [exact M|]. destruct (falsy au) eqn:F.
    - injection E as <-. exists (VList []), []. auto.
    - destruct au as [| | | | | |d|]; try discriminate E. apply bind_ok in E as (l & L & E). injection E as <-. exists (VDict d), l. split; [exact A|]. split; [reflexivity|]. right. exists d. split; [reflexivity|now apply securities_iff].
  Qed.
  Lemma security_works obj parent own more x : has_field obj "authorizations" own -> has_field parent "authorizations" more -> security_for own more x -> exists y, security_of obj parent = Ok y.
  Proof.
    intros O M (au & l & A & -> & H). apply get_has in O, M. unfold security_of. rewrite O, M. cbn [bind]. apply or_works in A as (y & -> & Y). cbn [bind]. unfold or_empty in Y. destruct (falsy y) eqn:F; [eauto|]. subst y.
    destruct H as [(-> & _)|(d & -> & R)]; [discriminate F|]. apply securities_iff in R. rewrite R. cbn [bind]. eauto.
  Qed.
  (** ** Models *)
  Notation property_for := (property_for prim float_of sep).
  Lemma properties_ok scope d : forall ps, properties_from prim float_of sep d scope = Ok ps -> Forall2 (fun kv ks => fst kv = fst ks /\ property_for scope (snd kv) (snd ks)) d ps.
  Proof.
    induction d as [|[n p] d IH]; intros ps E; cbn [properties_from] in E.
    - injection E as <-. constructor.
    - apply bind_ok in E as (s & S' & E). apply bind_ok in E as (de & D & E). apply bind_ok in E as (s' & S2 & E). apply bind_ok in E as (r & R & E). injection E as <-. constructor; [|now apply IH].
      cbn [fst snd]. split; [reflexivity|]. apply schema_ok in S' as (kvs & K & M). stp S2 M. apply get_has in D. exists kvs, de. auto.
  Qed.
  Lemma properties_works scope d : forall ps, Forall2 (fun kv ks => fst kv = fst ks /\ property_for scope (snd kv) (snd ks)) d ps -> exists ps, properties_from prim float_of sep d scope = Ok ps.
  Proof.
    induction d as [|[n p] d IH]; intros ps F; cbn [properties_from]; [eauto|]. inversion F as [|? y ? r (_ & kvs & de & K & D & _) F']; subst. cbn [fst snd] in *. destruct (schema_works _ _ _ K) as (s & E). rewrite E. cbn [bind].
    apply get_has in D. rewrite D. cbn [bind]. apply schema_ok in E as (k' & _ & M). destruct (set_ok CSchema _ _ (lit "description") de M ltac:(fieldsok)) as (s' & -> & _). cbn [bind]. destruct (IH _ F') as (ps & ->). cbn [bind]. eauto.
  Qed.
  (** ** Information and security *)
  Lemma chain_ok names : forall v, chain v names (get_or_none v names).
  Proof.
    induction names as [|n names IH]; intro v; cbn [chain get_or_none]; [reflexivity|]. destruct (get n v) as [y|e] eqn:G.
    - left. exists y. split; [now apply get_has|]. destruct (falsy y) eqn:F; [left; split; [now apply falsy_iff|reflexivity]|right; split; [now apply holds_true_iff|apply IH]].
    - right. cbn. split; [|reflexivity]. intros y Y. apply get_has in Y. congruence.
  Qed.
  Lemma chain_unique names : forall v x, chain v names x -> x = get_or_none v names.
  Proof.
    induction names as [|n names IH]; intros v x C; cbn [chain get_or_none] in *; [exact C|]. destruct C as [(y & Y & H)|(N & ->)].
    - apply get_has in Y. rewrite Y. destruct H as [(F & ->)|(T & C)]; [apply falsy_iff in F; now rewrite F|]. apply holds_true_iff in T. rewrite T. now apply IH.
    - destruct (get n v) as [y|e] eqn:G; [apply get_has in G; elim (N _ G)|reflexivity].
  Qed.
  Lemma scope_dict_ok l : forall d d', scope_dict l d = Ok d' -> NoDup (map fst d) ->
    Forall (fun s => exists k x, has_field s "scope" (VStr k) /\ has_field s "description" x) l /\ NoDup (map fst d') /\
    forall k x, sget k d' = Some x <-> (exists l1 s l2, l = l1 ++ s :: l2 /\ has_field s "scope" (VStr k) /\ has_field s "description" x /\ Forall (fun s => ~ has_field s "scope" (VStr k)) l2) \/
      (Forall (fun s => ~ has_field s "scope" (VStr k)) l /\ sget k d = Some x).
  Proof.
    induction l as [|s l IH]; intros d d' E N; cbn [scope_dict] in E.
    - injection E as <-. split; [constructor|]. split; [exact N|]. intros k x. split; [auto|]. intros [(l1 & s & l2 & E & _)|(_ & E)]; [destruct l1; discriminate E|exact E].
    - apply bind_ok in E as (kv & K & E). apply bind_ok in E as (k & T & E). destruct kv as [| | | |k0| | |]; try discriminate T. injection T as ->. apply bind_ok in E as (x & X & E). apply get_has in K, X.
      apply IH in E as (F & N' & G); [|now apply sset_NoDup]. split; [constructor; eauto|]. split; [exact N'|]. intros k' x'. rewrite G. split.
      + intros [(l1 & s' & l2 & -> & H)|(FN & S')]; [left; exists (s :: l1), s', l2; auto|]. destruct (str_eqb k' k) eqn:EK.
        * apply str_eqb_eq in EK as ->. rewrite sget_sset_same in S'. injection S' as ->. left. exists [], s, l. auto.
        * assert (k' <> k) by (intros ->; rewrite str_eqb_refl in EK; discriminate EK). rewrite sget_sset_other in S' by assumption. right. split; [|exact S']. constructor; [|exact FN].
          intro HS. pose proof (has_unique _ _ _ _ K HS) as Q. injection Q as ->. congruence.
      + intros [(l1 & s' & l2 & E' & A & B & C)|(FN & S')].
        * destruct l1 as [|s1 l1]; cbn [app] in E'; injection E' as <- ->.
          -- right. split; [exact C|]. pose proof (has_unique _ _ _ _ K A) as Q. injection Q as ->. rewrite (has_unique _ _ _ _ X B). apply sget_sset_same.
          -- left. exists l1, s', l2. auto.
        * inversion FN as [|? ? NS FN']; subst. right. split; [exact FN'|]. rewrite sget_sset_other; [exact S'|]. intros ->. now apply NS.
  Qed.
  Lemma scope_dict_works l : forall d, Forall (fun s => exists k x, has_field s "scope" (VStr k) /\ has_field s "description" x) l -> exists d', scope_dict l d = Ok d'.
  Proof.
    induction l as [|s l IH]; intros d F; cbn [scope_dict]; [eauto|]. inversion F as [|? ? (k & x & K & X) F']; subst. apply get_has in K, X. rewrite K, X. cbn [bind text_of]. now apply IH.
  Qed.
  Lemma authorization_ok path obj u u' : on_authorization path obj u = Ok u' ->
    exists name s, name_in_path path = Ok name /\ scheme_for obj s /\ u' = Up (u_swagger u) (u_tags u) (u_paths u) (u_defs u) (sset name s (u_secs u)).
  Proof.
    intro E. unfold on_authorization in E. apply bind_ok in E as (o0 & O0 & E). apply fresh_made in O0; [|mk]. apply bind_ok in E as (t & T & E). apply get_has in T. cbv zeta in E.
    set (t' := if is_text t "basicAuth" then VStr (lit "basic") else t) in E. apply bind_ok in E as (sc & SC & E). apply get_has in SC. apply bind_ok in E as (l & L & E). apply bind_ok in E as (d & D & E).
    apply bind_ok in E as (o1 & O1 & E). stps O1 O0. apply bind_ok in E as (o2 & O2 & E). apply bind_ok in E as (name & N & E). injection E as <-. exists name, o2. split; [exact N|]. split; [|reflexivity].
    assert (MORE : exists more, ((t' = text "oauth2" /\ exists au tu fl, chain obj ["grantTypes"; "implicit"; "loginEndpoint"; "url"]%string au /\ chain obj ["grantTypes"; "authorization_code"; "tokenEndpoint"; "url"]%string tu /\
          ((holds_true au /\ fl = ["flow" ~> text "implicit"]) \/ (~ holds_true au /\ holds_true tu /\ fl = ["flow" ~> text "access_code"]) \/ (~ holds_true au /\ ~ holds_true tu /\ fl = [])) /\
          more = ["authorizationUrl" ~> au; "tokenUrl" ~> tu] ++ fl) \/
       (t' = text "apiKey" /\ exists kn pa, has_field obj "keyname" kn /\ has_field obj "passAs" pa /\ more = ["name" ~> kn; "in" ~> pa]) \/
       (t' <> text "oauth2" /\ t' <> text "apiKey" /\ more = [])) /\ made CSecurityScheme (["type" ~> t'; "scopes" ~> VDict d] ++ more) o2).
    { destruct (is_text t' "oauth2") eqn:I1.
      - apply is_text_iff in I1. apply bind_ok in O2 as (o3 & O3 & E). set (au := get_or_none obj ["grantTypes"; "implicit"; "loginEndpoint"; "url"]%string) in *. set (tu := get_or_none obj ["grantTypes"; "authorization_code"; "tokenEndpoint"; "url"]%string) in *.
        stps O3 O1. cbn [app lits map fst snd] in O3.
        assert (FL : exists fl, ((holds_true au /\ fl = ["flow" ~> text "implicit"]) \/ (~ holds_true au /\ holds_true tu /\ fl = ["flow" ~> text "access_code"]) \/ (~ holds_true au /\ ~ holds_true tu /\ fl = [])) /\
          made CSecurityScheme (["type" ~> t'; "scopes" ~> VDict d; "authorizationUrl" ~> au; "tokenUrl" ~> tu] ++ fl) o2).
        { destruct (falsy au) eqn:FA; cbn [negb] in E; [destruct (falsy tu) eqn:FT; cbn [negb] in E|].
          - injection E as <-. exists []. rewrite app_nil_r. apply falsy_iff in FA, FT. auto 9.
          - stps E O3. eexists. split; [|exact E]. apply falsy_iff in FA. apply holds_true_iff in FT. auto 9.
          - stps E O3. eexists. split; [|exact E]. apply holds_true_iff in FA. auto 9. }
        destruct FL as (fl & FL & M). eexists. split; [|exact M]. left. split; [exact I1|]. exists au, tu, fl. split; [apply chain_ok|]. split; [apply chain_ok|]. auto.
      - apply is_text_no in I1. destruct (is_text t' "apiKey") eqn:I2.
        + apply is_text_iff in I2. apply bind_ok in O2 as (kn & KN & E). apply bind_ok in E as (pa & PA & E). apply get_has in KN, PA. stps E O1. eexists. split; [|exact E]. right. left. split; [exact I2|]. exists kn, pa. auto.
        + apply is_text_no in I2. injection O2 as <-. exists []. split; [auto 6|exact O1]. }
    destruct MORE as (more & MO & M). exists t, t', sc, l, d, more. split; [exact T|]. split.
    { unfold t'. destruct (is_text t "basicAuth") eqn:B; [apply is_text_iff in B; auto|apply is_text_no in B; auto]. }
    split; [exact SC|]. split.
    { destruct (falsy sc) eqn:F; [injection L as <-; left; split; [now apply falsy_iff|reflexivity]|right; split; [now apply holds_true_iff|now apply elements_iterate]]. }
    split; [|auto]. apply scope_dict_ok in D as (A & B & C); [|constructor]. split; [exact A|]. split; [exact B|]. intros k x. rewrite C. split; [|auto]. intros [H|(_ & H)]; [exact H|discriminate H].
  Qed.
  Lemma authorization_works path obj s u name : name_in_path path = Ok name -> scheme_for obj s -> exists u', on_authorization path obj u = Ok u'.
  Proof.
    intros N (t & t' & sc & l & d & more & T & TT & SC & L & (F & _) & MO & _). apply get_has in T, SC. unfold on_authorization. rewrite (fresh_new CSecurityScheme ltac:(mk)). cbn [bind]. rewrite T. cbn [bind].
    assert (ET : (if is_text t "basicAuth" then VStr (lit "basic") else t) = t').
    { destruct TT as [(-> & ->)|(NB & ->)]; [reflexivity|]. apply is_text_no in NB. now rewrite NB. }
    rewrite ET, SC. cbn [bind].
    assert (EL : (if falsy sc then Ok [] else iterate sc) = Ok l).
    { destruct L as [(FS & ->)|(TS & EL)]; [apply falsy_iff in FS; now rewrite FS|apply holds_true_iff in TS; rewrite TS; now apply elements_iterate]. }
    rewrite EL. cbn [bind]. destruct (scope_dict_works l [] F) as (d' & ->). cbn [bind].
    destruct (sets_ok CSecurityScheme [("type", t'); ("scopes", VDict d')]%string _ _ (new_made CSecurityScheme) ltac:(fieldsok)) as (o1 & -> & M1). cbn [bind].
    destruct MO as [(-> & au & tu & fl & CA & CT & FL & _)|[(-> & kn & pa & KN & PA & _)|(N1 & N2 & _)]].
    - cbv zeta. rewrite (proj2 (is_text_iff (text "oauth2") "oauth2") eq_refl). rewrite <- (chain_unique _ _ _ CA), <- (chain_unique _ _ _ CT).
      destruct (sets_ok CSecurityScheme [("authorizationUrl", au); ("tokenUrl", tu)]%string _ _ M1 ltac:(fieldsok)) as (o2 & -> & M2). cbn [bind].
      destruct FL as [(TA & _)|[(FA & T2 & _)|(FA & F2 & _)]].
      + apply holds_true_iff in TA. rewrite TA. cbn [negb]. destruct (sets_ok CSecurityScheme [("flow", VStr (lit "implicit"))]%string _ _ M2 ltac:(fieldsok)) as (o3 & -> & _). cbn [bind]. rewrite N. cbn [bind]. eauto.
      + apply falsy_iff in FA. apply holds_true_iff in T2. rewrite FA, T2. cbn [negb]. destruct (sets_ok CSecurityScheme [("flow", VStr (lit "access_code"))]%string _ _ M2 ltac:(fieldsok)) as (o3 & -> & _). cbn [bind]. rewrite N. cbn [bind]. eauto.
      + apply falsy_iff in FA, F2. rewrite FA, F2. cbn [negb bind]. rewrite N. cbn [bind]. eauto.
    - cbv zeta. rewrite (proj2 (is_text_no (text "apiKey") "oauth2") ltac:(discriminate)), (proj2 (is_text_iff (text "apiKey") "apiKey") eq_refl). apply get_has in KN, PA. rewrite KN, PA. cbn [bind].
      destruct (sets_ok CSecurityScheme [("name", kn); ("in", pa)]%string _ _ M1 ltac:(fieldsok)) as (o2 & -> & M2). cbn [bind]. rewrite N. cbn [bind]. eauto.
    - cbv zeta. apply is_text_no in N1, N2. rewrite N1, N2. cbn [bind]. rewrite N. cbn [bind]. eauto.
  Qed.
  Lemma two_get v a b x y : get a v = Ok x -> get b x = Ok y -> get_or_none v [a; b] = y.
  Proof. intros A B. cbn [get_or_none]. rewrite A. destruct x; try discriminate B. cbn [falsy]. rewrite B. now destruct (falsy y). Qed.
  Definition base_kvs (info : val) : sdict val :=
    ["info" ~> info; "swagger" ~> text "2.0"; "schemes" ~> VList [text "http"; text "https"]; "host" ~> VStr []; "basePath" ~> text "";
     "tags" ~> VList []; "definitions" ~> VDict []; "parameters" ~> VDict []; "responses" ~> VDict []; "paths" ~> VDict [];
     "security" ~> VList []; "securityDefinitions" ~> VDict []; "consumes" ~> VList []; "produces" ~> VList []].
  Definition info_whole (raw : val) : Prop := forall oi c, get "info" raw = Ok oi -> get "contact" oi = Ok c -> exists u, get "licenseUrl" oi = Ok u.
  Lemma list_ok raw u : info_whole raw -> on_list raw = Ok u -> exists info o, info_for raw info /\ made CSwagger (base_kvs info) o /\ u = Up o [] [] [] [].
  Proof.
    intros W E. unfold on_list in E. apply bind_ok in E as (o0 & O0 & E). apply bind_ok in E as (i0 & I0 & E). apply fresh_made in O0, I0; [|mk..]. apply bind_ok in E as (av & AV & E). apply bind_ok in E as (i1 & I1 & E). stps I1 I0.
    apply bind_ok in E as (oi & OI & E). apply bind_ok in E as (c & C & E). rewrite (two_get _ _ _ _ _ OI C) in E. apply bind_ok in E as (i2 & I2 & E). apply bind_ok in E as (l & L & E). rewrite (two_get _ _ _ _ _ OI L) in E.
    destruct (W _ _ OI C) as (u' & U). rewrite U, (two_get _ _ _ _ _ OI U) in E. apply bind_ok in E as (lu & LU & E). apply bind_ok in E as (i3 & I3 & E). apply bind_ok in E as (o & O & E). injection E as <-. stps O O0. exists i3, o. split; [|split; [exact O|reflexivity]].
    set (k0 := ["version" ~> av; "title" ~> get_or_none raw ["info"; "title"]%string; "description" ~> get_or_none raw ["info"; "description"]%string; "termsOfService" ~> get_or_none raw ["info"; "termsOfServiceUrl"]%string]).
    change (made CInfo k0 i1) in I1.
    assert (KC : exists kc, ((~ holds_true c /\ kc = []) \/ (holds_true c /\ exists x, made CContact ["email" ~> c] x /\ kc = ["contact" ~> x])) /\ made CInfo (k0 ++ kc) i2).
    { destruct (falsy c) eqn:F.
      - injection I2 as <-. exists []. rewrite app_nil_r. apply falsy_iff in F. auto.
      - apply bind_ok in I2 as (ct & CT & E). apply fresh_made in CT; [|mk]. apply bind_ok in E as (ct' & CT' & E). stps CT' CT. stp E I1. eexists. split; [|exact E]. right. split; [now apply holds_true_iff|]. exists ct'. auto. }
    destruct KC as (kc & KC & M2).
    assert (KL : exists kl, ((~ holds_true l /\ ~ holds_true u' /\ kl = []) \/ ((holds_true l \/ holds_true u') /\ exists x, made CLicense ["name" ~> l; "url" ~> u'] x /\ kl = ["license" ~> x])) /\ made CInfo ((k0 ++ kc) ++ kl) i3).
    { assert (TL : falsy lu = false -> holds_true l \/ holds_true u').
      { intro F. destruct (falsy l) eqn:FL; injection LU as <-; [right|left]; now apply holds_true_iff. }
      destruct (falsy lu) eqn:F.
      - injection I3 as <-. exists []. rewrite app_nil_r. split; [|exact M2]. left. destruct (falsy l) eqn:FL; injection LU as ->; [|congruence]. apply falsy_iff in F, FL. auto.
      - apply bind_ok in I3 as (li & LI & E). apply fresh_made in LI; [|mk]. apply bind_ok in E as (li' & LI' & E). stps LI' LI. stp E M2. eexists. split; [|exact E]. right. split; [auto|]. exists li'. auto. }
    destruct KL as (kl & KL & M3). rewrite <- app_assoc in M3. exists av, (get_or_none raw ["info"; "title"]%string), (get_or_none raw ["info"; "description"]%string), (get_or_none raw ["info"; "termsOfServiceUrl"]%string), oi, c, l, u', kc, kl.
    apply get_has in AV, OI, C, L, U. repeat (split; [solve [assumption|apply chain_ok]|]). exact M3.
  Qed.
  Lemma list_works raw info : info_for raw info -> exists u, on_list raw = Ok u.
  Proof.
    intros (av & ti & de & tos & oi & c & l & u & kc & kl & AV & _ & _ & _ & OI & C & L & U & _). apply get_has in AV, OI, C, L, U. unfold on_list.
    rewrite (fresh_new CSwagger ltac:(mk)), (fresh_new CInfo ltac:(mk)). cbn [bind]. rewrite AV, OI. cbn [bind]. rewrite C, L, U, (two_get _ _ _ _ _ OI C), (two_get _ _ _ _ _ OI L), (two_get _ _ _ _ _ OI U).
    match goal with |- context [sets ?k (new_obj CInfo)] => destruct (sets_ok CInfo k _ _ (new_made CInfo) ltac:(fieldsok)) as (i1 & -> & M1) end. cbn [bind].
    assert (I2 : exists i2 k2, (if falsy c then Ok i1 else do ct <- fresh CContact []; do ct <- sets [("email", c)]%string ct; update_field (lit "contact") ct i1) = Ok i2 /\ made CInfo k2 i2).
    { destruct (falsy c); [eauto|]. rewrite (fresh_new CContact ltac:(mk)). cbn [bind]. destruct (sets_ok CContact [("email", c)]%string _ _ (new_made CContact) ltac:(fieldsok)) as (ct & -> & _). cbn [bind].
      destruct (set_ok CInfo _ _ (lit "contact") ct M1 ltac:(fieldsok)) as (i2 & -> & M2). eauto. }
    destruct I2 as (i2 & k2 & -> & M2). cbn [bind].
    assert (LU : exists lu, (if falsy l then Ok u else Ok l) = Ok lu) by (destruct (falsy l); eauto). destruct LU as (lu & ->). cbn [bind].
    assert (I3 : exists i3, (if falsy lu then Ok i2 else do li <- fresh CLicense []; do li <- sets [("name", l); ("url", u)]%string li; update_field (lit "license") li i2) = Ok i3).
    { destruct (falsy lu); [eauto|]. rewrite (fresh_new CLicense ltac:(mk)). cbn [bind]. destruct (sets_ok CLicense [("name", l); ("url", u)]%string _ _ (new_made CLicense) ltac:(fieldsok)) as (li & -> & _). cbn [bind].
      destruct (set_ok CInfo _ _ (lit "license") li M2 ltac:(fieldsok)) as (i3 & -> & _). eauto. }
    destruct I3 as (i3 & ->). cbn [bind].
    match goal with |- context [sets ?k (new_obj CSwagger)] => destruct (sets_ok CSwagger k _ _ (new_made CSwagger) ltac:(fieldsok)) as (o & -> & _) end. cbn [bind]. eauto.
  Qed.
End Upgrade.
