(** C65: applications can be created from documents that are in order. *)
From Coq Require Import Lia.
From Verif Require Import PyBase PyFacts PyJson M_JsonPtr S_JsonPtr M_Url P_Op M_SpecVal M_Parse M_SpecTree S_Parse S_SpecTree S_Merge P_MergeShape M_Scope S_Patch M_App S_App M_Validate M_OldParse M_OldValidate M_Upgrade S_Upgrade M_Prepare P_Prepare2 P_Prepare5 P_SpecBase P_SpecTree P_App P_Convert4 P_Convert5 P_Deep P_Wf S_Cycles P_Compose2 S_Create P_Create9 P_CreateEx P_Patch S_Convert.
From Verif Require S_Validate P_Cycles T_Parse T_SpecTree T_Merge T_Validate T_Prepare T_Prepare12 T_Cycles T_Compose T_Upgrade T_OldParse.
Close Scope Q_scope.

(** What the model leaves open, as in C57.  Documents are JSON objects without repeated keys. *)
Section Created.
  Context (abs_uri win_uri : str -> str) (fetch : str -> res json) (prim : str -> bool) (float_of : str -> res Q) (sep : str).
  Notation create_app := (create_app abs_uri win_uri fetch prim float_of sep).
  Hypothesis JD : forall j x, fetch j = Ok x -> wf x.
  Hypothesis NEW : forall j x v, fetch j = Ok x -> version_of x = Ok v -> is_version v "1.2" = false.
  Context (url nu u : str).
  Hypothesis N : normalize_url abs_uri win_uri url = Ok nu.
  Hypothesis J : jr_split abs_uri win_uri nu = Ok (u, lit "#").
  Hypothesis U : u <> [].
  Hypothesis P : exists p, urlparse nu = Ok p.
  (** At the URL there is a 2.0 document; [doc] is the document with complete references. *)
  Context (j : json) (ver : option json) (raw doc : val).
  Hypothesis FJ : fetch nu = Ok j.
  Hypothesis VJ : version_of j = Ok ver.
  Hypothesis V2 : is_version ver "2.0" = true.
  Hypothesis PJ : parse (Of CSwagger) [] j = Ok raw.
  Hypothesis NV : norm_refs u raw = Ok doc.
  Hypothesis AC : acceptable abs_uri win_uri sep u doc.
  Lemma parsed_doc : shaped (Of CSwagger) doc /\ placed doc.
  Proof.
    pose proof (JD _ _ FJ) as WJ. destruct (T_SpecTree.c35_parsed _ _ _ _ WJ PJ) as (W & _). destruct (T_Merge.c37_parsed _ _ _ _ WJ PJ) as (SR & _).
    assert (NM : normal u raw doc) by (eapply norm_ok; eauto). destruct (normal_deep u (Datatypes.S (vdepth raw)) raw doc (Nat.lt_succ_diag_r _) NM) as (_ & SD). split; [auto|].
    apply (placed_normal u raw); [exact NM|]. intros ts h fs ints R. destruct (T_Parse.c36_parents _ _ _ _ _ _ PJ R Logic.I) as (Q & _). cbn [place_of List.app] in Q. congruence.
  Qed.
  Lemma doc_valid : exists errs, validate20 doc = Ok errs.
  Proof.
    destruct parsed_doc as (SH & _). assert (O : is_obj doc) by (destruct (shaped_swagger _ SH) as (? & ? & ? & -> & _); exact Logic.I).
    pose proof (shaped_wfv _ _ _ (Nat.lt_succ_diag_r _) SH) as W.
    assert (PS : S_Validate.proper_schemas doc).
    { intros ts fs (h & ints & R & C). assert (SA : schema_at doc ts (VObj h fs ints)) by (split; [exact R|exists h, fs, ints; auto]). pose proof (P_Cycles.schema_shaped _ _ _ _ SH SA) as SS.
      destruct (ac_schemas _ _ _ _ _ AC (VObj h fs ints)) as ((x & X & d & ->) & _); [exists ts; exact SA|]. exists d. split; [exact X|]. intros n x G. rewrite <- C in SS.
      destruct (shaped_field _ _ _ _ _ SS X) as [(T & _)|(ct & cc & T & SI)]; rewrite C in T; [discriminate T|]. injection T as <- <-. inversion SI as [| | |? ? ND FA]; subst. rewrite Forall_forall in FA. specialize (FA _ (sget_In _ _ _ G)). cbn [snd] in FA.
      destruct (shaped_obj _ _ FA) as (h' & fs' & ints' & -> & C'). eauto. }
    destruct (T_Validate.c45_fails doc W O PS) as (_ & F). destruct (validate20 doc) as [errs|e] eqn:E; [eauto|]. exfalso.
    destruct (proj1 F (ex_intro _ e eq_refl)) as (ts & fs & (h & ints & R & C) & (req & RQ & UN)).
    destruct (ac_schemas _ _ _ _ _ AC (VObj h fs ints)) as (_ & (x & X & l & ->)); [exists ts; split; [exact R|exists h, fs, ints; auto]|]. cbn [field_of] in X. assert (req = VList (map VStr l)) as -> by congruence.
    destruct UN as [UN|(m & y & EL & IY & Y)]; [exact (UN _ (S_Validate.el_list _))|]. inversion EL; subst. apply in_map_iff in IY as (s & <- & _). destruct Y as [(? & Y)|(? & Y)]; discriminate Y.
  Qed.
  (** Then an application is created, the same with any sufficient fuel, unless [strict] is on
      and required properties are read-only or schemas refer to themselves. *)
  Theorem c65_outcome : exists n pr, (pr_errors pr = [] <-> forall ts name, ~ S_Validate.violated doc ts name) /\ (pr_cycles pr = [] <-> forall ts, ~ circular abs_uri win_uri u doc ts) /\
    forall fuel strict, n <= fuel -> create_app fuel url strict =
      if strict && nonempty (pr_errors pr) then Err ValidationError else if strict && nonempty (pr_cycles pr) then Err CycleDetectionError else Ok pr.
  Proof.
    destruct parsed_doc as (SH & PL). destruct doc_valid as (errs & VE). assert (O : is_obj doc) by (destruct (shaped_swagger _ SH) as (? & ? & ? & -> & _); exact Logic.I).
    assert (L : load_obj fetch (parse_listing fetch) nu None = Ok (New raw, lit "2.0")).
    { unfold load_obj. rewrite FJ. cbn [bind]. rewrite VJ. cbn [bind]. rewrite (NEW _ _ _ FJ VJ), V2, PJ. reflexivity. }
    destruct (create_total abs_uri win_uri fetch prim float_of sep false (new_deep fetch prim float_of sep JD NEW) url nu u (New raw) (lit "2.0") doc errs N J U L eq_refl NV SH PL AC P VE) as (n & pr & EE & EC & CR).
    exists n, pr. rewrite EE. split; [|auto]. pose proof (T_Validate.c45_reports doc errs (shaped_wfv _ _ _ (Nat.lt_succ_diag_r _) SH) O VE) as RP. split.
    - intros E ts name V. rewrite E in RP. apply (RP (S_Validate.entry_for ts name)). eauto.
    - intro NO. destruct errs as [|r errs]; [reflexivity|]. destruct (proj1 (RP r) (or_introl eq_refl)) as (ts & name & V & _). elim (NO _ _ V).
  Qed.
  (** Without [strict]: always. *)
  Theorem c65_created : exists n pr, forall fuel, n <= fuel -> create_app fuel url false = Ok pr.
  Proof. destruct c65_outcome as (n & pr & _ & _ & CR). exists n, pr. intros fuel LE. exact (CR fuel false LE). Qed.
  (** With [strict]: just when the document is valid and no schema refers to itself. *)
  Theorem c65_strict : exists n, forall fuel, n <= fuel ->
    ((exists pr, create_app fuel url true = Ok pr) <-> (forall ts name, ~ S_Validate.violated doc ts name) /\ forall ts, ~ circular abs_uri win_uri u doc ts).
  Proof.
    destruct c65_outcome as (n & pr & V & C & CR). exists n. intros fuel LE. rewrite (CR fuel true LE). cbn [andb]. rewrite <- V, <- C. split.
    - intros (pr' & E). destruct (pr_errors pr); [|discriminate E]. destruct (pr_cycles pr); [auto|discriminate E].
    - intros (-> & ->). exists pr. reflexivity.
  Qed.
  (** With [strict], documents that are not valid are refused as such, and valid ones with
      circular schemas as those. *)
  Theorem c65_refused : exists n, forall fuel, n <= fuel ->
    ((exists ts name, S_Validate.violated doc ts name) -> create_app fuel url true = Err ValidationError) /\
    ((forall ts name, ~ S_Validate.violated doc ts name) -> (exists ts, circular abs_uri win_uri u doc ts) -> create_app fuel url true = Err CycleDetectionError).
  Proof.
    destruct c65_outcome as (n & pr & V & C & CR). exists n. intros fuel LE. rewrite (CR fuel true LE). cbn [andb]. split.
    - intros (ts & name & X). destruct (pr_errors pr); [|reflexivity]. elim (proj1 V eq_refl ts name X).
    - intros NO (ts & X). apply V in NO as ->. cbn [nonempty]. destruct (pr_cycles pr); [|reflexivity]. elim (proj1 C eq_refl ts X).
  Qed.
End Created.
Print Assumptions c65_outcome.
Print Assumptions c65_created.
Print Assumptions c65_strict.
Print Assumptions c65_refused.

(** The same for 1.2 listings: [doc] is what the listing is converted to, with all its parts at
    their places and complete references.  What is checked is the listing itself. *)
Section Created12.
  Context (abs_uri win_uri : str -> str) (fetch : str -> res json) (prim : str -> bool) (float_of : str -> res Q) (sep : str).
  Notation create_app := (create_app abs_uri win_uri fetch prim float_of sep).
  Hypothesis JD : forall j x, fetch j = Ok x -> wf x.
  Context (url nu u : str).
  Hypothesis N : normalize_url abs_uri win_uri url = Ok nu.
  Hypothesis J : jr_split abs_uri win_uri nu = Ok (u, lit "#").
  Hypothesis U : u <> [].
  Hypothesis P : exists p, urlparse nu = Ok p.
  Context (j : json) (ver : option json) (raw conv doc : val) (errs : list report).
  Hypothesis FJ : fetch nu = Ok j.
  Hypothesis VJ : version_of j = Ok ver.
  Hypothesis OLD : is_version ver "1.2" = true.
  Hypothesis PJ : parse_listing fetch nu j = Ok raw.
  Hypothesis CV : convert_doc prim float_of sep raw = Ok conv.
  Hypothesis NV : norm_refs u conv = Ok doc.
  Hypothesis VE : validate12 raw = Ok errs.
  Hypothesis AC : acceptable abs_uri win_uri sep u doc.
  Theorem c65_old_outcome : exists n pr, pr_errors pr = errs /\ (pr_cycles pr = [] <-> forall ts, ~ circular abs_uri win_uri u doc ts) /\
    forall fuel strict, n <= fuel -> create_app fuel url strict =
      if strict && nonempty errs then Err ValidationError else if strict && nonempty (pr_cycles pr) then Err CycleDetectionError else Ok pr.
  Proof.
    assert (L : load_obj fetch (parse_listing fetch) nu None = Ok (Old raw, lit "1.2")).
    { unfold load_obj. rewrite FJ. cbn [bind]. rewrite VJ. cbn [bind]. rewrite OLD, PJ. reflexivity. }
    destruct (load_old fetch JD _ _ _ _ L) as (_ & LD & _).
    assert (NM : normalised (convert_doc prim float_of sep) as_given (App [] None true 0) (Old raw) u = Ok doc). { unfold normalised. cbn [a_old]. rewrite CV. exact NV. }
    pose proof CV as CV'. unfold convert_doc in CV'. apply bind_ok in CV' as (sw & UP & AS). destruct (converted_deep prim float_of sep _ _ _ _ _ LD UP AS NV) as (MV & NO & _ & S1 & _ & S2).
    assert (BR : brought u [] sw doc) by (exists None, conv; auto).
    exact (create_total abs_uri win_uri fetch prim float_of sep true (old_deep fetch prim float_of sep JD) url nu u (Old raw) (lit "1.2") doc errs N J U L eq_refl NM S2 (placed_brought _ _ _ BR) AC P VE).
  Qed.
End Created12.
Print Assumptions c65_old_outcome.

(** ** Concrete cases *)
Notation same := (fun s : str => s).
Definition raw_of (j : json) : val := match parse (Of CSwagger) [] j with Ok v => v | Err _ => VNone end.
Definition doc_of (j : json) : val := match norm_refs T_Prepare.there (raw_of j) with Ok v => v | Err _ => VNone end.
Definition in_order (j : json) : Prop :=
  (forall s x, T_Prepare.web j s = Ok x -> wf x) /\ (forall s x v, T_Prepare.web j s = Ok x -> version_of x = Ok v -> is_version v "1.2" = false) /\
  normalize_url same same T_Prepare.there = Ok T_Prepare.there /\ jr_split same same T_Prepare.there = Ok (T_Prepare.there, lit "#") /\ T_Prepare.there <> [] /\ (exists p, urlparse T_Prepare.there = Ok p) /\
  T_Prepare.web j T_Prepare.there = Ok j /\ version_of j = Ok (Some (JStr (lit "2.0"))) /\ is_version (Some (JStr (lit "2.0"))) "2.0" = true /\
  parse (Of CSwagger) [] j = Ok (raw_of j) /\ norm_refs T_Prepare.there (raw_of j) = Ok (doc_of j) /\ acceptable same same SCOPE_SEPARATOR T_Prepare.there (doc_of j).
Lemma in_order_ok j : wfb j = true -> version_of j = Ok (Some (JStr (lit "2.0"))) -> parse (Of CSwagger) [] j = Ok (raw_of j) -> norm_refs T_Prepare.there (raw_of j) = Ok (doc_of j) ->
  forall objs, traverse (doc_of j) [] = Ok objs -> acceptableb same same SCOPE_SEPARATOR T_Prepare.there (doc_of j) objs = true -> in_order j.
Proof.
  intros WB VJ PJ NV objs TR AB. pose proof (wfb_ok _ WB) as WJ. split; [now apply T_Prepare.web_wf|]. split.
  { intros s x v E V. unfold T_Prepare.web in E. destruct (str_eqb s T_Prepare.there); [|discriminate E]. injection E as <-. rewrite VJ in V. injection V as <-. reflexivity. }
  destruct T_Cycles.there_ok as (A & B & C). split; [exact A|]. split; [exact B|]. split; [exact C|]. split; [eexists; vm_compute; reflexivity|].
  split; [unfold T_Prepare.web; now rewrite str_eqb_refl|]. split; [exact VJ|]. split; [reflexivity|]. split; [exact PJ|]. split; [exact NV|].
  apply acceptable_ok with objs; auto. destruct (T_SpecTree.c35_parsed _ _ _ _ WJ PJ) as (W & _). destruct (T_Merge.c37_parsed _ _ _ _ WJ PJ) as (SR & _).
  assert (NM : normal T_Prepare.there (raw_of j) (doc_of j)) by (eapply norm_ok; eauto). exact (proj2 (normal_deep _ (Datatypes.S (vdepth (raw_of j))) _ _ (Nat.lt_succ_diag_r _) NM) _ SR).
Qed.
(** The documents of C57, C61 and C63 meet the hypotheses: one with parameters and responses
    that are references, one with circular schemas, one with composed schemas. *)
Example c65_hypotheses : in_order T_Prepare.api /\ in_order T_Cycles.round /\ in_order T_Compose.zoo.
Proof. split; [|split]. - apply in_order_ok with (T_Cycles.objs_of (doc_of T_Prepare.api)); vm_compute; reflexivity. - apply in_order_ok with (T_Cycles.objs_of (doc_of T_Cycles.round)); vm_compute; reflexivity. - apply in_order_ok with (T_Cycles.objs_of (doc_of T_Compose.zoo)); vm_compute; reflexivity. Qed.
(** and this is what becomes of them, and of one with a required property that is read-only. *)
Local Definition t (s : string) : json := JStr (lit s).
Definition locked : json := JObj
  [(lit "swagger", t "2.0"); (lit "paths", JObj []);
   (lit "definitions", JObj [(lit "Pet", JObj [(lit "required", JList [t "id"]); (lit "properties", JObj [(lit "id", JObj [(lit "type", t "integer"); (lit "readOnly", JBool true)])])])])].
Example c65_ex : (exists pr, T_Prepare.made T_Prepare.api true = Ok pr) /\ T_Prepare.made T_Cycles.round true = Err CycleDetectionError /\ (exists pr, T_Prepare.made T_Compose.zoo true = Ok pr) /\
  in_order locked /\ T_Prepare.made locked true = Err ValidationError /\ exists pr, T_Prepare.made locked false = Ok pr.
Proof.
  split; [eexists; vm_compute; reflexivity|]. split; [vm_compute; reflexivity|]. split; [eexists; vm_compute; reflexivity|].
  split; [apply in_order_ok with (T_Cycles.objs_of (doc_of locked)); vm_compute; reflexivity|]. split; [vm_compute; reflexivity|]. eexists; vm_compute; reflexivity.
Qed.
(** The 1.2 listing of C58 *)
Import T_OldParse T_Upgrade.
Lemma acceptable12 fetch nu j raw : (forall s x, fetch s = Ok x -> wf x) -> fetch nu = Ok j -> version_of j = Ok (Some (js "1.2")) -> is_version (Some (js "1.2")) "1.2" = true -> parse_listing fetch nu j = Ok raw ->
  forall conv, convert_doc prim_types (fun _ => Err ValueError) SCOPE_SEPARATOR raw = Ok conv -> forall doc, norm_refs nu conv = Ok doc ->
  forall objs, traverse doc [] = Ok objs -> acceptableb same same SCOPE_SEPARATOR nu doc objs = true -> acceptable same same SCOPE_SEPARATOR nu doc.
Proof.
  intros W FJ VJ OLD PJ conv CV doc NV objs TR AB.
  assert (L : load_obj fetch (parse_listing fetch) nu None = Ok (Old raw, lit "1.2")) by (unfold load_obj; rewrite FJ; cbn [bind]; rewrite VJ; cbn [bind]; rewrite OLD, PJ; reflexivity).
  destruct (load_old _ W _ _ _ _ L) as (_ & LD & _). pose proof CV as CV'. unfold convert_doc in CV'. apply bind_ok in CV' as (sw & UP & AS).
  destruct (converted_deep prim_types (fun _ => Err ValueError) SCOPE_SEPARATOR _ _ _ _ _ LD UP AS NV) as (_ & _ & _ & _ & _ & S2). now apply acceptable_ok with objs.
Qed.
Definition conv12 : val := match convert_doc prim_types (fun _ => Err ValueError) SCOPE_SEPARATOR T_Prepare12.pets2_loaded with Ok v => v | Err _ => VNone end.
Definition doc12 : val := match norm_refs T_Prepare12.there conv12 with Ok v => v | Err _ => VNone end.
Example c65_old_hypotheses : (forall s x, fetch12 T_Prepare12.pet_docs s = Ok x -> wf x) /\ normalize_url same same T_Prepare12.there = Ok T_Prepare12.there /\
  jr_split same same T_Prepare12.there = Ok (T_Prepare12.there, lit "#") /\ T_Prepare12.there <> [] /\ (exists p, urlparse T_Prepare12.there = Ok p) /\
  exists j, fetch12 T_Prepare12.pet_docs T_Prepare12.there = Ok j /\ version_of j = Ok (Some (js "1.2")) /\ is_version (Some (js "1.2")) "1.2" = true /\
    parse_listing (fetch12 T_Prepare12.pet_docs) T_Prepare12.there j = Ok T_Prepare12.pets2_loaded /\ convert_doc prim_types (fun _ => Err ValueError) SCOPE_SEPARATOR T_Prepare12.pets2_loaded = Ok conv12 /\
    norm_refs T_Prepare12.there conv12 = Ok doc12 /\ (exists errs, validate12 T_Prepare12.pets2_loaded = Ok errs) /\ acceptable same same SCOPE_SEPARATOR T_Prepare12.there doc12.
Proof.
  destruct T_Prepare12.c58_hypotheses as (W & A & B & C & (j & FJ & VJ & OLD & PJ & _)). split; [exact W|]. split; [exact A|]. split; [exact B|]. split; [exact C|]. split; [eexists; vm_compute; reflexivity|].
  exists j. split; [exact FJ|]. split; [exact VJ|]. split; [exact OLD|]. split; [exact PJ|].
  assert (CV : convert_doc prim_types (fun _ => Err ValueError) SCOPE_SEPARATOR T_Prepare12.pets2_loaded = Ok conv12) by (vm_compute; reflexivity). assert (NV : norm_refs T_Prepare12.there conv12 = Ok doc12) by (vm_compute; reflexivity).
  split; [exact CV|]. split; [exact NV|]. split; [eexists; vm_compute; reflexivity|].
  apply (acceptable12 _ _ _ _ W FJ VJ OLD PJ _ CV _ NV (T_Cycles.objs_of doc12)); vm_compute; reflexivity.
Qed.
