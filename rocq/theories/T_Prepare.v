(** C57: what an application is after it has been created from the URL of a 2.0 document. *)
From Verif Require Import PyBase PyFacts PyInt PyJson M_JsonPtr S_JsonPtr M_Url P_Op M_SpecVal M_Parse M_SpecTree M_MergeRef S_Parse S_SpecTree S_Merge S_MergeRef M_Scope M_Patch S_Patch M_App S_App M_Validate S_Validate M_OldValidate M_OldParse M_Prepare S_Prepare T_Validate T_Merge P_SpecBase P_SpecTree P_App P_Deep P_Prepare2 P_Prepare5 P_Prepare6 P_Prepare7.
From Verif Require Import P_Wf.
From Verif Require T_App T_Scope.
Close Scope Q_scope.

Section Created.
  (** What the model leaves open: how paths of files become URLs, what is found at a URL, which
      names 1.2 knows as primitive types, how texts become numbers; and the separator of names. *)
  Context (abs_uri win_uri : str -> str) (fetch : str -> res json) (prim : str -> bool) (float_of : str -> res Q) (sep : str) (fuel : nat).
  Notation create_app := (create_app abs_uri win_uri fetch prim float_of sep fuel).
  Notation solve := (resolvef abs_uri win_uri fetch (parse_listing fetch) (convert_doc prim float_of sep) as_given).
  (** Documents are JSON objects without repeated keys, and none of them is of version 1.2. *)
  Hypothesis JD : forall j x, fetch j = Ok x -> wf x.
  Hypothesis NEW : forall j x v, fetch j = Ok x -> version_of x = Ok v -> is_version v "1.2" = false.
  (** An application is created from the URL of a whole document. *)
  Context (url nu u : str) (strict : bool) (pr : prepared).
  Hypothesis N : normalize_url abs_uri win_uri url = Ok nu.
  Hypothesis J : jr_split abs_uri win_uri nu = Ok (u, lit "#").
  Hypothesis U : u <> [].
  Hypothesis CR : create_app url strict = Ok pr.

  (** [doc] is the document found there, with normalised references, and [root] what the
      application has for it. *)
  Definition found_there (doc root : val) : Prop := exists j raw, fetch nu = Ok j /\ parse (Of CSwagger) [] j = Ok raw /\ norm_refs u raw = Ok doc /\
    a_root (pr_app pr) = Some (0, root) /\ whole (pr_app pr) u (0, root).
  Lemma all_steps : exists j raw doc mid root objs l, fetch nu = Ok j /\ parse (Of CSwagger) [] j = Ok raw /\ norm_refs u raw = Ok doc /\ shaped (Of CSwagger) doc /\
    steps abs_uri win_uri fetch prim float_of sep fuel false nu u strict (New raw) pr doc mid root objs l.
  Proof.
    assert (L : exists o ver, load_obj fetch (parse_listing fetch) nu None = Ok (o, ver)).
    { unfold M_Prepare.create_app in CR. rewrite N in CR. cbn [bind] in CR. apply bind_ok in CR as ((o & ver) & L & _). eauto. }
    destruct L as (o & ver & L). destruct (load_new fetch NEW _ _ _ _ L) as (j & c & raw & FJ & -> & PJ & -> & CS). rewrite (CS eq_refl) in PJ.
    assert (SW : forall v0, norm_refs u raw = Ok v0 -> shaped (Of CSwagger) v0).
    { intros v0 NV. pose proof (JD _ _ FJ) as WJ. destruct (T_SpecTree.c35_parsed _ _ _ _ WJ PJ) as (W & _). destruct (c37_parsed _ _ _ _ WJ PJ) as (S & _).
      apply (normal_deep u (Datatypes.S (vdepth raw)) raw v0 (Nat.lt_succ_diag_r _)); [eapply norm_ok; eauto|exact S]. }
    destruct (steps_ok abs_uri win_uri fetch prim float_of sep fuel false (new_deep fetch prim float_of sep JD NEW) url strict nu u pr (New raw) (lit "2.0") N J U L eq_refl SW CR) as (doc & mid & root & objs & l & ST).
    exists j, raw, doc, mid, root, objs, l. split; [exact FJ|]. split; [exact PJ|]. pose proof (st_norm _ _ _ _ _ _ _ _ _ _ _ _ _ _ _ _ _ _ ST) as NV. split; [exact NV|]. split; [exact (SW _ NV)|exact ST].
  Qed.
  (** There is such a document, with references normalised as C53 has it. *)
  Theorem c57_document : exists doc root, found_there doc root /\ exists raw, normal u raw doc.
  Proof.
    destruct all_steps as (j & raw & doc & mid & root & objs & l & FJ & PJ & NV & SD & ST). exists doc, root. split.
    - exists j, raw. split; [exact FJ|]. split; [exact PJ|]. split; [exact NV|]. split; [exact (st_root _ _ _ _ _ _ _ _ _ _ _ _ _ _ _ _ _ _ ST)|exact (st_whole _ _ _ _ _ _ _ _ _ _ _ _ _ _ _ _ _ _ ST)].
    - exists raw. destruct (T_SpecTree.c35_parsed _ _ _ _ (JD _ _ FJ) PJ) as (W & _). eapply norm_ok; eauto.
  Qed.
  Context (doc root : val).
  Hypothesis FT : found_there doc root.
  Lemma here : exists raw mid objs l, shaped (Of CSwagger) doc /\ steps abs_uri win_uri fetch prim float_of sep fuel false nu u strict (New raw) pr doc mid root objs l.
  Proof.
    destruct all_steps as (j & raw & doc' & mid & root' & objs & l & FJ & PJ & NV & SD & ST). destruct FT as (j' & raw' & FJ' & PJ' & NO & RT & _).
    assert (j' = j) as -> by congruence. assert (raw' = raw) as -> by congruence. pose proof (st_root _ _ _ _ _ _ _ _ _ _ _ _ _ _ _ _ _ _ ST) as RT'. assert (root' = root) as -> by congruence.
    assert (doc' = doc) as -> by congruence. exists raw, mid, objs, l. auto.
  Qed.
  (** Parameters and responses of the document are where they were, with their fields; what their
      references lead to in the document is put together. *)
  Theorem c57_completed : forall ts p, reach [] doc ts p -> of_class CParameter p \/ of_class CResponse p ->
    exists p', reach [] root ts p' /\ completed abs_uri win_uri u doc p p'.
  Proof. intros ts p R C. destruct here as (raw & mid & objs & l & SD & ST). exact (done_completed _ _ _ _ _ _ _ _ _ _ _ _ _ _ _ _ _ _ ST ts p R C). Qed.
  (** Every object of the document is where it was.  Its fields that hold no lists, dicts or
      objects are as they were, except those of path items (which can refer to others) and those
      that operations inherit. *)
  Theorem c57_rest : forall ts h fs ints, reach [] doc ts (VObj h fs ints) -> exists g es jnts, reach [] root ts (VObj g es jnts) /\ h_cls g = h_cls h /\ h_place g = h_place h /\
    forall n x, sget n fs = Some x -> not_container x -> h_cls h <> CPathItem -> ~ (h_cls h = COperation /\ In n op_fields) -> sget n es = Some x.
  Proof. intros ts h fs ints R. destruct here as (raw & mid & objs & l & SD & ST). exact (done_rest _ _ _ _ _ _ _ _ _ _ _ _ _ _ _ _ _ _ ST ts h fs ints R). Qed.

  Section Operation.
    (** An operation of the document *)
    Context (k m : str) (pi op : val).
    Hypothesis PI : path_item doc k pi.
    Hypothesis OP : operation pi m op.
    Theorem c57_kept : exists pi' op', path_item root k pi' /\ operation pi' m op'.
    Proof. destruct here as (raw & mid & objs & l & SD & ST). exact (done_op _ _ _ _ _ _ _ _ _ _ _ _ _ _ _ _ _ _ ST SD k m pi op PI OP). Qed.
    Context (pi' op' : val).
    Hypothesis PI' : path_item root k pi'.
    Hypothesis OP' : operation pi' m op'.
    (** It knows its method, its path and its URL, *)
    Theorem c57_url : exists s host base bp, urlparse nu = Ok s /\ host_is doc (u_netloc s) host /\ base_is doc base /\ field_of doc (lit "basePath") = Some bp /\
      internal_of op' (lit "url") = Some (VStr (lit "//" ++ host ++ with_slash (base ++ k))) /\
      internal_of op' (lit "path") = Some (VStr k) /\ internal_of op' (lit "base_path") = Some bp /\ internal_of op' (lit "method") = Some (VStr m).
    Proof. destruct here as (raw & mid & objs & l & SD & ST). exact (done_url _ _ _ _ _ _ _ _ _ _ _ _ _ _ _ _ _ _ ST SD k m pi op PI OP pi' op' PI' OP'). Qed.
    (** and has what the document says when it says nothing itself: consumes and produces, *)
    Theorem c57_inherited : forall n, n = lit "consumes" \/ n = lit "produces" ->
      exists own d x, field_of op n = Some own /\ field_of doc n = Some d /\ field_of op' n = Some x /\ inherited own d x.
    Proof. destruct here as (raw & mid & objs & l & SD & ST). exact (done_inherited _ _ _ _ _ _ _ _ _ _ _ _ _ _ _ _ _ _ ST SD k m pi op PI OP pi' op' PI' OP'). Qed.
    (** security, *)
    Theorem c57_security : exists own d x, field_of op (lit "security") = Some own /\ field_of doc (lit "security") = Some d /\ field_of op' (lit "security") = Some x /\
      (own = VNone /\ x = d \/ own <> VNone /\ x = own).
    Proof. destruct here as (raw & mid & objs & l & SD & ST). exact (done_security _ _ _ _ _ _ _ _ _ _ _ _ _ _ _ _ _ _ ST SD k m pi op PI OP pi' op' PI' OP'). Qed.
    (** schemes. *)
    Theorem c57_schemes : exists own s d x, field_of op (lit "schemes") = Some own /\ field_of op' (lit "schemes") = Some own /\ urlparse nu = Ok s /\ doc_schemes (u_scheme s) doc d /\
      internal_of op' (lit "cached_schemes") = Some x /\ inherited own d x.
    Proof. destruct here as (raw & mid & objs & l & SD & ST). exact (done_schemes _ _ _ _ _ _ _ _ _ _ _ _ _ _ _ _ _ _ ST SD k m pi op PI OP pi' op' PI' OP'). Qed.
    (** Its responses are completed; *)
    Theorem c57_responses : exists own x, field_of op (lit "responses") = Some own /\ field_of op' (lit "responses") = Some x /\ completed_in abs_uri win_uri u doc own x.
    Proof. destruct here as (raw & mid & objs & l & SD & ST). exact (done_responses _ _ _ _ _ _ _ _ _ _ _ _ _ _ _ _ _ _ ST SD k m pi op PI OP pi' op' PI' OP'). Qed.
    (** so are its parameters, to which those of the path item are added that have other names,
        where references have been followed to know the names.  (A path item without parameters
        may have taken those of a path item it refers to.) *)
    Theorem c57_parameters : exists own shared own1 shared1 x, field_of op (lit "parameters") = Some own /\ field_of pi (lit "parameters") = Some shared /\ field_of op' (lit "parameters") = Some x /\
      completed_in abs_uri win_uri u doc own own1 /\
      (completed_in abs_uri win_uri u doc shared shared1 \/ empty_value shared /\ field_of pi (lit "$ref") <> Some VNone) /\ with_shared own1 shared1 x.
    Proof. destruct here as (raw & mid & objs & l & SD & ST). exact (done_parameters _ _ _ _ _ _ _ _ _ _ _ _ _ _ _ _ _ _ ST SD k m pi op PI OP pi' op' PI' OP'). Qed.
    (** The rest is as in the document. *)
    Theorem c57_others : (forall n, ~ In n op_fields -> n <> lit "responses" -> field_of op' n = field_of op n) /\
      (forall n, ~ In n (map lit ["method"; "url"; "path"; "base_path"; "cached_schemes"]%string) -> internal_of op' n = internal_of op n).
    Proof. destruct here as (raw & mid & objs & l & SD & ST). exact (done_others _ _ _ _ _ _ _ _ _ _ _ _ _ _ _ _ _ _ ST SD k m pi op PI OP pi' op' PI' OP'). Qed.
    (** It is found by the names that the document gives it, and resolving what is found there
        gives the operation. *)
    Theorem c57_found : forall key, known_as sep op key ->
      exists p, scope_getitem sep (pr_op pr) (KStr key) = Ok p /\ forall f c, solve (S f) (pr_app pr) (Some p) c = (pr_app pr, Ok (0, op')).
    Proof.
      intros key KA. destruct here as (raw & mid & objs & l & SD & ST). exists (rfc_pointer (lit "#") [lit "paths"; k; m]). destruct c57_others as (F & _). split.
      - eapply (done_found _ _ _ _ _ _ _ _ _ _ _ _ _ _ _ _ _ _ ST); [exact PI'|exact OP'|].
        assert (T : field_of op' (lit "tags") = field_of op (lit "tags")) by (apply F; [cbn; intros [E|[E|[E|[E|[]]]]]; discriminate E|discriminate]).
        assert (I : field_of op' (lit "operationId") = field_of op (lit "operationId")) by (apply F; [cbn; intros [E|[E|[E|[E|[]]]]]; discriminate E|discriminate]).
        destruct KA as [t ts id A B C D|c s id A C D|v id A B C D]; rewrite <- T in A; rewrite <- I in C; [eapply ka_tag; eauto|eapply ka_text; eauto|eapply ka_plain; eauto].
      - intros f c. apply (T_App.c43_local abs_uri win_uri fetch (parse_listing fetch) (convert_doc prim float_of sep) as_given f (pr_app pr) c 0 root).
        + exact (st_sound _ _ _ _ _ _ _ _ _ _ _ _ _ _ _ _ _ _ ST).
        + exact (st_root _ _ _ _ _ _ _ _ _ _ _ _ _ _ _ _ _ _ ST).
        + exact (operation_reach _ _ _ _ _ PI' OP').
        + destruct OP' as (_ & (? & ? & ? & -> & _)). exact Logic.I.
    Qed.
    Theorem c57_found_tag : forall t ts id, field_of op (lit "tags") = Some (VList (VStr t :: ts)) -> t <> [] -> field_of op (lit "operationId") = Some (VStr id) -> id <> [] ->
      exists p, scope_getitem sep (pr_op pr) (KTuple [Some t; Some id]) = Ok p /\ forall f c, solve (S f) (pr_app pr) (Some p) c = (pr_app pr, Ok (0, op')).
    Proof.
      intros t ts id T TN I IN. destruct (c57_found (t ++ sep ++ id)) as (p & G & R); [eapply ka_tag; eauto|]. exists p. split; [|exact R].
      etransitivity; [|exact G]. apply (T_Scope.c04_getitem_tuple _ sep (pr_op pr) t [id]). repeat constructor; assumption.
    Qed.
  End Operation.
  (** No two operations have the same name, and there are no other names. *)
  Theorem c57_only : forall key p, In (key, p) (pr_op pr) ->
    exists k m pi op, p = rfc_pointer (lit "#") [lit "paths"; k; m] /\ path_item root k pi /\ operation pi m op /\ known_as sep op key.
  Proof. destruct here as (raw & mid & objs & l & SD & ST). exact (done_only _ _ _ _ _ _ _ _ _ _ _ _ _ _ _ _ _ _ ST). Qed.
  Theorem c57_distinct : forall key k m pi op k' m' pi' op', path_item root k pi -> operation pi m op -> path_item root k' pi' -> operation pi' m' op' ->
    known_as sep op key -> known_as sep op' key -> k = k' /\ m = m' /\ op = op'.
  Proof.
    intros key k m pi op k' m' pi' op' PI OP PI' OP' A B. destruct here as (raw & mid & objs & l & SD & ST).
    pose proof (done_found _ _ _ _ _ _ _ _ _ _ _ _ _ _ _ _ _ _ ST _ _ _ _ _ PI OP A) as F. pose proof (done_found _ _ _ _ _ _ _ _ _ _ _ _ _ _ _ _ _ _ ST _ _ _ _ _ PI' OP' B) as F'.
    assert (E : rfc_pointer (lit "#") [lit "paths"; k; m] = rfc_pointer (lit "#") [lit "paths"; k'; m']) by congruence. apply pointer_inj in E; [|discriminate]. injection E as -> ->. split; [reflexivity|]. split; [reflexivity|].
    exact (P_Grown.reach_fun _ _ _ (operation_reach _ _ _ _ _ PI' OP') _ (operation_reach _ _ _ _ _ PI OP)).
  Qed.
  (** The definitions of the document are known by their names. *)
  Theorem c57_models : forall d, field_of doc (lit "definitions") = Some (VDict d) -> map fst (pr_m pr) = map fst d /\
    forall name x, sget name (pr_m pr) = Some x -> reach [] root [lit "definitions"; name] x /\ of_class CSchema x /\ internal_of x (lit "name") = Some (VStr name).
  Proof.
    intros d D. destruct here as (raw & mid & objs & l & SD & ST). destruct (done_models _ _ _ _ _ _ _ _ _ _ _ _ _ _ _ _ _ _ ST SD d D) as (A & B). split; [exact A|]. intros name x X. destruct (B name x X) as (P & Q & R & _). auto.
  Qed.
  (** What violates the rules for documents has been reported. *)
  Theorem c57_reported : forall r, In r (pr_errors pr) <-> exists ts name, violated doc ts name /\ r = entry_for ts name.
  Proof.
    destruct here as (raw & mid & objs & l & SD & ST). pose proof (st_valid _ _ _ _ _ _ _ _ _ _ _ _ _ _ _ _ _ _ ST) as V. cbn [raw_errors] in V. unfold validate in V. apply bind_ok in V as (errs & E & V).
    assert (errs = pr_errors pr) as <- by (destruct (strict && _); [discriminate V|now injection V]).
    apply c45_reports; [exact (shaped_wfv _ _ _ (Nat.lt_succ_diag_r _) SD)| |exact E]. destruct (shaped_swagger _ SD) as (? & ? & ? & -> & _). exact Logic.I.
  Qed.
  (** References into the document lead to what the application has there. *)
  Theorem c57_resolves : forall f j c ts x, j <> [] -> jr_split abs_uri win_uri j = Ok (u, rfc_pointer (lit "#") ts) \/ j = rfc_pointer (lit "#") ts -> reach [] root ts x -> returned x ->
    solve (S f) (pr_app pr) (Some j) c = (pr_app pr, Ok (0, x)).
  Proof.
    intros f j c ts x NJ JS R RX. destruct here as (raw & mid & objs & l & SD & ST). destruct JS as [JS| ->].
    - eapply T_App.c43_whole; eauto. exact (st_whole _ _ _ _ _ _ _ _ _ _ _ _ _ _ _ _ _ _ ST).
    - eapply T_App.c43_local; eauto; [exact (st_sound _ _ _ _ _ _ _ _ _ _ _ _ _ _ _ _ _ _ ST)|exact (st_root _ _ _ _ _ _ _ _ _ _ _ _ _ _ _ _ _ _ ST)].
  Qed.
End Created.
Print Assumptions c57_document.
Print Assumptions c57_completed.
Print Assumptions c57_rest.
Print Assumptions c57_kept.
Print Assumptions c57_url.
Print Assumptions c57_inherited.
Print Assumptions c57_security.
Print Assumptions c57_schemes.
Print Assumptions c57_responses.
Print Assumptions c57_parameters.
Print Assumptions c57_others.
Print Assumptions c57_found.
Print Assumptions c57_found_tag.
Print Assumptions c57_only.
Print Assumptions c57_distinct.
Print Assumptions c57_models.
Print Assumptions c57_reported.
Print Assumptions c57_resolves.

(** Strictness only decides whether an application is made: with [strict], there is none if rules
    are violated or schemas refer to each other in a cycle, otherwise it is the same. *)
Theorem c57_strict : forall abs_uri win_uri fetch prim float_of sep fuel url pr,
  create_app abs_uri win_uri fetch prim float_of sep fuel url true = Ok pr <->
  create_app abs_uri win_uri fetch prim float_of sep fuel url false = Ok pr /\ pr_errors pr = [] /\ pr_cycles pr = [].
Proof.
  intros. unfold create_app.
  destruct (normalize_url abs_uri win_uri url) as [nu|e]; [cbn [bind]|split; [discriminate|intros (X & _); discriminate X]].
  destruct (load_obj _ _ _ _) as [[o ver]|e]; [cbn [bind fst]|split; [discriminate|intros (X & _); discriminate X]].
  destruct (create _ _ _ _ _ _ _ _) as [a|e]; [cbn [bind]|split; [discriminate|intros (X & _); discriminate X]].
  unfold prepare. destruct (root_of a) as [v0|e]; [cbn [bind]|split; [discriminate|intros (X & _); discriminate X]].
  unfold validate. destruct (raw_errors o v0) as [errs|e]; [cbn [bind]|split; [discriminate|intros (X & _); discriminate X]].
  cbn [andb]. destruct errs as [|er errs]; cbn [nonempty negb bind].
  - destruct (app_schemes nu v0) as [sc|e]; [cbn [bind]|split; [discriminate|intros (X & _); discriminate X]].
    destruct (merge_scan _ _ _ _ _ _ _ a) as [a1 [[]|e]]; [|split; [discriminate|intros (X & _); discriminate X]].
    destruct (root_of a1) as [v1|e]; [cbn [bind]|split; [discriminate|intros (X & _); discriminate X]].
    destruct (patch _ _ _ v1) as [root|e]; [cbn [bind]|split; [discriminate|intros (X & _); discriminate X]].
    destruct (traverse root []) as [objs|e]; [cbn [bind]|split; [discriminate|intros (X & _); discriminate X]].
    destruct (aggregate_scan _ _ _ _ _ _ _ _ objs) as [heap|e]; [cbn [bind]|split; [discriminate|intros (X & _); discriminate X]].
    destruct (tr_ops objs) as [l|e]; [cbn [bind]|split; [discriminate|intros (X & _); discriminate X]].
    destruct (type_reduce sep [] l) as [tb|e]; [cbn [bind]|split; [discriminate|intros (X & _); discriminate X]].
    destruct (find_cycles _ _ _ _ _ _ _ _ objs) as [cy|e]; [cbn [bind]|split; [discriminate|intros (X & _); discriminate X]].
    unfold M_Graph.prepare_cycle_check. destruct cy as [|c cy]; cbn [nonempty andb bind].
    + split; [intro E; injection E as <-; auto|intros (E & _); exact E].
    + split; [discriminate|intros (E & _ & X)]. injection E as <-. discriminate X.
  - split; [discriminate|]. intros (E & X & _). exfalso. repeat (apply bind_ok in E as (? & _ & E)). destruct (merge_scan _ _ _ _ _ _ _ a) as [a1 [[]|e]]; [|discriminate E].
    repeat (apply bind_ok in E as (? & _ & E)). injection E as <-. discriminate X.
Qed.
Print Assumptions c57_strict.

(** A document with references, in which an operation takes what it does not have itself from
    its path item and the document *)
Local Definition t (s : string) : json := JStr (lit s).
Definition api : json := JObj
  [(lit "swagger", t "2.0"); (lit "basePath", t "/v1"); (lit "produces", JList [t "application/json"]);
   (lit "paths", JObj [(lit "/pet/{id}", JObj
     [(lit "parameters", JList [JObj [(lit "$ref", t "#/parameters/id")]; JObj [(lit "$ref", t "#/parameters/lang")]]);
      (lit "get", JObj [(lit "tags", JList [t "pet"]); (lit "operationId", t "show");
                        (lit "parameters", JList [JObj [(lit "name", t "lang"); (lit "in", t "header"); (lit "type", t "string")]]);
                        (lit "responses", JObj [(lit "404", JObj [(lit "$ref", t "#/responses/none")])])]);
      (lit "put", JObj [(lit "operationId", t "update"); (lit "responses", JObj [])])])]);
   (lit "parameters", JObj [(lit "id", JObj [(lit "$ref", t "#/parameters/key")]);
                            (lit "key", JObj [(lit "name", t "id"); (lit "in", t "path"); (lit "type", t "string")]);
                            (lit "lang", JObj [(lit "name", t "lang"); (lit "in", t "query"); (lit "type", t "string")])]);
   (lit "responses", JObj [(lit "none", JObj [(lit "description", t "no such pet")])]);
   (lit "definitions", JObj [(lit "Pet", JObj [(lit "type", t "object")])])].
Definition there : str := lit "http://example.com/api.json".
Definition web (j : json) (s : str) : res json := if str_eqb s there then Ok j else Err OSError.
Definition made (j : json) (strict : bool) : res prepared :=
  create_app (fun s => s) (fun s => s) (web j) (fun _ => false) (fun _ => Err ValueError) SCOPE_SEPARATOR 10 there strict.
Definition api_app : prepared := match made api true with Ok pr => pr | Err _ => Prepared (App [] None false 0) [] VNone [] [] [] [] end.
Lemma api_made : made api true = Ok api_app. Proof. vm_compute. reflexivity. Qed.
(** The hypotheses hold for it, *)
Lemma web_wf j : wf j -> forall s x, web j s = Ok x -> wf x.
Proof. intros W s x E. unfold web in E. destruct (str_eqb s there); [injection E as <-; exact W|discriminate E]. Qed.
Example c57_hypotheses : (forall j x, web api j = Ok x -> wf x) /\ (forall j x v, web api j = Ok x -> version_of x = Ok v -> is_version v "1.2" = false) /\
  normalize_url (fun s => s) (fun s => s) there = Ok there /\ jr_split (fun s => s) (fun s => s) there = Ok (there, lit "#") /\ there <> [].
Proof.
  split; [apply web_wf, wfb_ok; vm_compute; reflexivity|]. split.
  - intros j x v E V. unfold web in E. destruct (str_eqb j there); [|discriminate E]. injection E as <-. vm_compute in V. injection V as <-. reflexivity.
  - split; [vm_compute; reflexivity|]. split; [vm_compute; reflexivity|discriminate].
Qed.
(** and this is what it says. *)
Definition got (ts : list str) : val := match a_root (pr_app api_app) with Some (_, v) => match resolve v ts with Ok x => x | Err _ => VNone end | None => VNone end.
Local Definition sv (x : string) : option val := Some (VStr (lit x)).
Definition names (v : val) : list (option val * option val) :=
  match v with VList l => map (fun p => match internal_of p (lit "final") with Some f => (field_of f (lit "name"), field_of f (lit "in")) | None => (None, None) end) l | _ => [] end.
Example c57_ex :
  let get := got [lit "paths"; lit "/pet/{id}"; lit "get"] in
  let put := got [lit "paths"; lit "/pet/{id}"; lit "put"] in
  internal_of get (lit "url") = sv "//example.com/v1/pet/{id}" /\ field_of get (lit "produces") = Some (VList [VStr (lit "application/json")]) /\
  internal_of put (lit "cached_schemes") = Some (VList [VStr (lit "http")]) /\
  names (got [lit "paths"; lit "/pet/{id}"; lit "get"; lit "parameters"]) = [(sv "lang", sv "header"); (sv "id", sv "path")] /\
  names (got [lit "paths"; lit "/pet/{id}"; lit "put"; lit "parameters"]) = [(sv "id", sv "path"); (sv "lang", sv "query")] /\
  match internal_of (got [lit "paths"; lit "/pet/{id}"; lit "get"; lit "responses"; lit "404"]) (lit "final") with Some f => field_of f (lit "description") | None => None end = sv "no such pet" /\
  scope_getitem SCOPE_SEPARATOR (pr_op api_app) (KTuple [Some (lit "pet"); Some (lit "show")]) = Ok (lit "#/paths/~1pet~1{id}/get") /\
  scope_getitem SCOPE_SEPARATOR (pr_op api_app) (KStr (lit "update")) = Ok (lit "#/paths/~1pet~1{id}/put") /\
  map fst (pr_m api_app) = [lit "Pet"].
Proof. vm_compute. repeat split. Qed.

(** A path item may refer to another one; but if that one is in the same document and has an
    operation with an id, no application can be made, because the operation is then known twice. *)
Definition alias (id : list (str * json)) : json := JObj
  [(lit "swagger", t "2.0"); (lit "paths", JObj [(lit "/a", JObj [(lit "get", JObj ((lit "responses", JObj []) :: id))]); (lit "/b", JObj [(lit "$ref", t "#/paths/~1a")])])].
Theorem c57_alias_refuted : (exists pr, made (alias []) true = Ok pr) /\ made (alias [(lit "operationId", t "x")]) false = Err SchemaError.
Proof. split; [eexists; vm_compute; reflexivity|vm_compute; reflexivity]. Qed.
Print Assumptions c57_alias_refuted.
(** Parameters of operations that come from another path item are not completed: here the
    parameter of the one at "/b" has no name and does not say what its reference leads to. *)
Definition alias_ref : json := JObj
  [(lit "swagger", t "2.0"); (lit "parameters", JObj [(lit "p", JObj [(lit "name", t "q"); (lit "in", t "query"); (lit "type", t "string")])]);
   (lit "paths", JObj [(lit "/a", JObj [(lit "get", JObj [(lit "responses", JObj []); (lit "parameters", JList [JObj [(lit "$ref", t "#/parameters/p")]])])]);
                       (lit "/b", JObj [(lit "$ref", t "#/paths/~1a")])])].
Theorem c57_alias_parameter_refuted : exists pr root p s, made alias_ref true = Ok pr /\ a_root (pr_app pr) = Some (0, root) /\
  reach [] root (map lit ["paths"; "/b"; "get"; "parameters"; "0"]%string) p /\ refers p s /\ field_of p (lit "name") = Some VNone /\ internal_of p (lit "final") = Some VNone.
Proof.
  do 4 eexists. split; [vm_compute; reflexivity|]. split; [cbn [pr_app a_root]; reflexivity|]. cbn [map]. split.
  - econstructor; [intros []|vm_compute; reflexivity|]. econstructor; [vm_compute; reflexivity|]. econstructor; [intros []|vm_compute; reflexivity|]. econstructor; [intros []|vm_compute; reflexivity|].
    eapply (reach_item [] _ 0); [reflexivity|constructor].
  - split; [split; [|vm_compute; reflexivity]; discriminate|]. split; vm_compute; reflexivity.
Qed.
Print Assumptions c57_alias_parameter_refuted.
