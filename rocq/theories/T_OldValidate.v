(** C45: validating 1.2 documents. *)
From Verif Require Import PyBase PyFacts PyJson M_SpecVal M_Parse M_SpecTree S_Parse S_SpecTree S_Validate M_Validate T_SpecTree M_OldParse S_OldParse T_OldParse M_OldValidate S_OldValidate P_OldValidate.
Close Scope Q_scope.

(** There is an entry for each rule that an object breaks, and none besides. *)
Theorem c45_old_reports : forall raw errs, loaded12 raw -> validate12 raw = Ok errs ->
  forall r, In r errs <-> exists ts c m, broken raw ts c m /\ r = report_of ts c m.
Proof. intros raw errs L E. now apply reports_iff. Qed.
(** No entry occurs twice. *)
Theorem c45_old_once : forall raw errs, loaded12 raw -> validate12 raw = Ok errs -> NoDup errs.
Proof. intros raw errs L E. now apply (reports_once raw). Qed.
(** It fails exactly for an operation with an authorization that is not defined, or with a file
    parameter but nothing to search in as what it consumes. *)
Theorem c45_old_fails : forall raw, loaded12 raw ->
  ((exists e, validate12 raw = Err e) <-> undefined_auth raw \/ unsearchable_consumes raw) /\
  (forall e, validate12 raw = Err e -> (e = KeyError /\ undefined_auth raw) \/ (e = TypeError /\ unsearchable_consumes raw)).
Proof.
  intros raw L. split; [split|intros e E; now apply fails_only].
  - intros (e & E). apply fails_only in E; tauto.
  - intro F. destruct (validate12 raw) as [errs|e] eqn:E; [|eauto]. now elim (fails_when raw L errs F).
Qed.
Theorem c45_old_valid : forall raw strict, loaded12 raw -> (forall ts c m, ~ broken raw ts c m) -> ~ undefined_auth raw -> ~ unsearchable_consumes raw ->
  validate (validate12 raw) strict = Ok [].
Proof.
  intros raw strict L N NU NC. destruct (validate12 raw) as [errs|e] eqn:E.
  2: { apply fails_only in E; tauto. }
  assert (errs = []) as ->.
  { destruct errs as [|r errs]; [reflexivity|]. destruct (proj1 (c45_old_reports _ _ L E r) (or_introl eq_refl)) as (ts & c & m & B & _). now elim (N ts c m). }
  unfold validate. cbn [bind]. now destruct strict.
Qed.
Theorem c45_old_invalid : forall raw ts c m, loaded12 raw -> broken raw ts c m -> ~ undefined_auth raw -> ~ unsearchable_consumes raw ->
  validate (validate12 raw) true = Err ValidationError /\ exists errs, validate (validate12 raw) false = Ok errs /\ In (report_of ts c m) errs.
Proof.
  intros raw ts c m L B NU NC. destruct (validate12 raw) as [errs|e] eqn:E.
  2: { apply fails_only in E; tauto. }
  assert (I : In (report_of ts c m) errs) by (apply (c45_old_reports _ _ L E); eauto). split; [|exists errs; auto]. unfold validate. cbn [bind andb]. destruct errs; [destruct I|reflexivity].
Qed.

(** Documents with broken rules *)
Definition val_op (auth : string) (consumes : list (str * json)) (ptype : string) : json :=
  JObj (consumes ++ [(lit "method", JStr (lit "POST")); (lit "nickname", JStr (lit "a")); (lit "type", JStr (lit "array"));
    (lit "authorizations", JObj [(lit auth, JList [JObj [(lit "scope", JStr (lit "write"))]])]);
    (lit "parameters", JList [JObj [(lit "paramType", JStr (lit "body")); (lit "name", JStr (lit "b")); (lit "type", JStr (lit ptype)); (lit "allowMultiple", JBool true)]])]).
Definition val_doc (auth : string) (consumes : list (str * json)) (ptype : string) : json :=
  JObj [(lit "basePath", JStr (lit "http://h"));
        (lit "apis", JList [JObj [(lit "path", JStr (lit "/pet")); (lit "operations", JList [val_op auth consumes ptype])]])].
Definition val_list : json :=
  JObj [(lit "swaggerVersion", JStr (lit "1.2")); (lit "apis", JList [JObj [(lit "path", JStr (lit "/pet"))]]);
        (lit "authorizations", JObj [(lit "key", JObj [(lit "type", JStr (lit "apiKey")); (lit "passAs", JStr (lit "query"))])])].
Definition val_fetch (auth : string) (consumes : list (str * json)) (ptype : string) (u : str) : res json :=
  if str_eqb u (lit "http://h/api-docs/pet") then Ok (val_doc auth consumes ptype) else Err OSError.
Definition val_raw (auth : string) (consumes : list (str * json)) (ptype : string) : val :=
  match parse_listing (val_fetch auth consumes ptype) (lit "http://h/api-docs") val_list with Ok v => v | Err _ => VNone end.
Definition multi : list (str * json) := [(lit "consumes", JList [JStr (lit "multipart/form-data")])].
Lemma val_loaded auth consumes ptype : consumes = [] \/ consumes = multi ->
  (exists v, parse_listing (val_fetch auth consumes ptype) (lit "http://h/api-docs") val_list = Ok v) -> loaded12 (val_raw auth consumes ptype).
Proof.
  intros K (v & E). unfold val_raw. rewrite E. exists (val_fetch auth consumes ptype), (lit "http://h/api-docs"). unfold val_list in E. eexists. split; [|split; [|exact E]].
  - wfj.
  - intros u doc. unfold val_fetch. destruct (str_eqb _ _); intro Q; [|discriminate Q]. injection Q as <-. destruct K as [->| ->]; unfold val_doc, val_op, multi; cbn [app]; wfj.
Qed.
Definition in_op : str := lit "#/apis/pet/apis/a".
Definition in_param : str := lit "#/apis/pet/apis/a/parameters/0".
Definition rep (p : str) (c f : string) (x : val) : report := (p, c, (f, x)).
Example c45_old_ex : loaded12 (val_raw "key" multi "File") /\ validate (validate12 (val_raw "key" multi "File")) true = Err ValidationError /\
  validate (validate12 (val_raw "key" multi "File")) false = Ok
  [rep (lit "#/authorizations/key") "Authorization" "need ""keyname"" for apiKey" VNone;
   rep (lit "#/apis/pet") "Resource" "requirement {0} not meet." (text "swaggerVersion");
   rep in_op "Operation" "auth {0} should be an empty list" (text "key");
   rep in_op "Operation" "array should be existed along with items" VNone;
   rep in_param "Parameter" "allowMultiple should be applied on path, header, or query parameters" VNone;
   rep in_param "Parameter" "body parameter with invalid name: {0}" (text "b");
   rep in_param "Parameter" "File parameter should be form type: {0}" (text "b")].
Proof. split; [apply val_loaded; [now right|eexists; vm_compute; reflexivity]|]. split; vm_compute; reflexivity. Qed.

(** A rule is broken, but nothing is reported: an operation names an authorization that is not
    defined, or has a file parameter but does not say what it consumes. *)
Theorem c45_old_reports_refuted :
  (exists raw ts c m, loaded12 raw /\ broken raw ts c m /\ validate (validate12 raw) false = Err KeyError) /\
  (exists raw ts c m, loaded12 raw /\ broken raw ts c m /\ validate (validate12 raw) false = Err TypeError).
Proof.
  assert (B : forall raw h fr ints d h' fs ints', raw = VObj h fr ints -> sget (lit "authorizations") fr = Some (VDict d) -> sget (lit "key") d = Some (VObj h' fs ints') ->
            h_cls h' = COld OAuthorization -> sget (lit "type") fs = Some (text "apiKey") -> sget (lit "keyname") fs = Some VNone ->
            broken raw [lit "authorizations"; lit "key"] OAuthorization ("need ""keyname"" for apiKey"%string, VNone)).
  { intros raw h fr ints d h' fs ints' -> A K C T N. exists fs. split.
    - exists h', ints'. split; [|exact C]. eapply reach_field; [intros []|exact A|]. eapply reach_key; [exact K|]. constructor.
    - eapply b_keyname; [reflexivity|exact T|exact N|]. cbn. tauto. }
  split; [exists (val_raw "other" [] "string")|exists (val_raw "key" [] "File")]; do 3 eexists; (split; [apply val_loaded; [now left|eexists; vm_compute; reflexivity]|]; split; [|vm_compute; reflexivity]);
    (eapply B; [vm_compute; reflexivity| | | | |]; vm_compute; reflexivity).
Qed.

Print Assumptions c45_old_reports.
Print Assumptions c45_old_once.
Print Assumptions c45_old_fails.
Print Assumptions c45_old_valid.
Print Assumptions c45_old_invalid.
Print Assumptions c45_old_reports_refuted.

(** A document that breaks no rule *)
Definition good_doc : json :=
  JObj [(lit "swaggerVersion", JStr (lit "1.2")); (lit "basePath", JStr (lit "http://h"));
        (lit "apis", JList [JObj [(lit "path", JStr (lit "/pet")); (lit "operations", JList [op_doc "a"])]])].
Definition good_fetch (u : str) : res json := if str_eqb u (lit "http://h/api-docs/pet") then Ok good_doc else Err OSError.
Definition good_list : sdict json := [(lit "swaggerVersion", JStr (lit "1.2")); (lit "apis", JList [JObj [(lit "path", JStr (lit "/pet"))]])].
Definition good_raw : val := match parse_listing good_fetch (lit "http://h/api-docs") (JObj good_list) with Ok v => v | Err _ => VNone end.
Example c45_old_good : loaded12 good_raw /\ validate (validate12 good_raw) true = Ok [] /\ forall ts c m, ~ broken good_raw ts c m.
Proof.
  assert (L : loaded12 good_raw).
  { exists good_fetch, (lit "http://h/api-docs"), good_list. split; [unfold good_list; wfj|]. split; [|vm_compute; reflexivity].
    intros u doc. unfold good_fetch. destruct (str_eqb _ _); intro Q; [|discriminate Q]. injection Q as <-. unfold good_doc, op_doc. wfj. }
  assert (E : validate12 good_raw = Ok []) by (vm_compute; reflexivity).
  split; [exact L|]. split; [now rewrite E|]. intros ts c m B. apply (c45_old_reports good_raw [] L E (report_of ts c m)). eauto.
Qed.
