(** C63: the composed schemas of created applications. *)
From Verif Require Import PyBase PyFacts PyJson M_JsonPtr S_JsonPtr M_Url M_SpecVal M_Parse M_SpecTree S_Parse S_SpecTree S_Merge M_Scope S_Patch M_App S_App M_OldParse M_Prepare P_Prepare5 P_SpecTree P_App P_Convert5 P_Deep P_Wf S_Upgrade S_Cycles P_Cycles S_Compose P_Compose P_Compose2.
From Verif Require M_Aggt T_Parse T_SpecTree T_Prepare T_Prepare12 T_Cycles T_OldParse T_Upgrade.
Close Scope Q_scope.

(** What the model leaves open, and an application that was created, as in C57 *)
Section Created.
  Context (abs_uri win_uri : str -> str) (fetch : str -> res json) (prim : str -> bool) (float_of : str -> res Q) (sep : str) (fuel : nat).
  Notation create_app := (create_app abs_uri win_uri fetch prim float_of sep fuel).
  Hypothesis JD : forall j x, fetch j = Ok x -> wf x.
  Hypothesis NEW : forall j x v, fetch j = Ok x -> version_of x = Ok v -> is_version v "1.2" = false.
  Context (url nu u : str) (strict : bool) (pr : prepared).
  Hypothesis N : normalize_url abs_uri win_uri url = Ok nu.
  Hypothesis J : jr_split abs_uri win_uri nu = Ok (u, lit "#").
  Hypothesis U : u <> [].
  Hypothesis CR : create_app url strict = Ok pr.
  Context (doc root : val).
  Hypothesis FT : T_Prepare.found_there fetch nu u pr doc root.
  (** The schemas of its document refer to schemas of the document, and no other document has
      been loaded. *)
  Hypothesis SC : self_contained abs_uri win_uri u root.
  Hypothesis ONE : a_objs (pr_app pr) = [(u, Whole (0, root))].
  (** No path item of the document is a reference to one elsewhere. *)
  Hypothesis NR : forall k pi, path_item doc k pi -> field_of pi (lit "$ref") = Some VNone.
  Lemma c63_placed : placed doc.
  Proof.
    destruct FT as (j & raw & FJ & PJ & NV & _). destruct (T_SpecTree.c35_parsed _ _ _ _ (JD _ _ FJ) PJ) as (W & _). apply (placed_normal u raw); [eapply norm_ok; eauto|].
    intros ts h fs ints R. destruct (T_Parse.c36_parents _ _ _ _ _ _ PJ R Logic.I) as (P & _). cbn [place_of List.app] in P. congruence.
  Qed.
  Theorem c63_told_apart : settled root.
  Proof.
    destruct (T_Prepare.here abs_uri win_uri fetch prim float_of sep fuel JD NEW url nu u strict pr N J U CR doc root FT) as (raw & mid & objs & l & SD & ST).
    exact (prepared_settled _ _ _ _ _ _ _ _ _ _ _ _ _ _ _ _ _ _ ST SD c63_placed NR).
  Qed.
  Theorem c63_composed : composes abs_uri win_uri u root (pr_heap pr).
  Proof.
    destruct (T_Prepare.here abs_uri win_uri fetch prim float_of sep fuel JD NEW url nu u strict pr N J U CR doc root FT) as (raw & mid & objs & l & _ & ST).
    exact (prepared_composes _ _ _ _ _ _ _ _ _ _ _ _ _ _ _ _ _ _ ST SC ONE c63_told_apart).
  Qed.
End Created.
Print Assumptions c63_told_apart.
Print Assumptions c63_composed.

(** The same for 1.2 listings, as in C58: models refer to each other, and path items never are
    references. *)
Section Created12.
  Context (abs_uri win_uri : str -> str) (fetch : str -> res json) (prim : str -> bool) (float_of : str -> res Q) (sep : str) (fuel : nat).
  Notation create_app := (create_app abs_uri win_uri fetch prim float_of sep fuel).
  Hypothesis JD : forall j x, fetch j = Ok x -> wf x.
  Context (url nu u : str) (strict : bool) (pr : prepared) (j : json) (ver : option json).
  Hypothesis N : normalize_url abs_uri win_uri url = Ok nu.
  Hypothesis J : jr_split abs_uri win_uri nu = Ok (u, lit "#").
  Hypothesis U : u <> [].
  Hypothesis FJ : fetch nu = Ok j.
  Hypothesis VJ : version_of j = Ok ver.
  Hypothesis OLD : is_version ver "1.2" = true.
  Hypothesis CR : create_app url strict = Ok pr.
  Context (raw sw doc root : val).
  Hypothesis FT : T_Prepare12.found12 fetch prim float_of sep nu u pr j raw sw doc root.
  Hypothesis SC : self_contained abs_uri win_uri u root.
  Hypothesis ONE : a_objs (pr_app pr) = [(u, Whole (0, root))].
  (** All operations of the listing are below [base], that of [host], or there is no host at all. *)
  Context (host base : str).
  Hypothesis BA : based raw host base.
  Theorem c63_old_told_apart : settled root.
  Proof.
    destruct (T_Prepare12.here abs_uri win_uri fetch prim float_of sep fuel JD url nu u strict pr j ver N J U FJ VJ OLD CR raw sw doc root FT) as (mid & objs & l & LD & UP & BR & S1 & S2 & ST).
    apply (prepared_settled _ _ _ _ _ _ _ _ _ _ _ _ _ _ _ _ _ _ ST S2 (placed_brought _ _ _ BR)). intros k pi PI.
    now destruct (item_doc _ _ _ _ _ _ _ _ _ _ _ _ _ _ _ _ _ _ ST LD UP BR S1 S2 host base BA _ _ PI) as (pi0 & _ & _ & NR & _).
  Qed.
  Theorem c63_old_composed : composes abs_uri win_uri u root (pr_heap pr).
  Proof.
    destruct (T_Prepare12.here abs_uri win_uri fetch prim float_of sep fuel JD url nu u strict pr j ver N J U FJ VJ OLD CR raw sw doc root FT) as (mid & objs & l & _ & _ & _ & _ & _ & ST).
    exact (prepared_composes _ _ _ _ _ _ _ _ _ _ _ _ _ _ _ _ _ _ ST SC ONE c63_old_told_apart).
  Qed.
End Created12.
Print Assumptions c63_old_told_apart.
Print Assumptions c63_old_composed.

(** ** Concrete cases *)
Local Definition t (s : string) : json := JStr (lit s).
Local Definition ref (s : string) : json := JObj [(lit "$ref", t s)].
Local Definition ty (s : string) : json := JObj [(lit "type", t s)].
(** Cats are pets with claws and a name of their own, pets are things; a response has cats. *)
Definition zoo : json := JObj
  [(lit "swagger", t "2.0");
   (lit "paths", JObj [(lit "/a", JObj [(lit "get", JObj [(lit "responses", JObj [(lit "200", JObj [(lit "description", t "ok"); (lit "schema", ref "#/definitions/Cat")])])])])]);
   (lit "definitions", JObj
     [(lit "Thing", JObj [(lit "properties", JObj [(lit "id", ty "integer")]); (lit "required", JList [t "id"])]);
      (lit "Pet", JObj [(lit "allOf", JList [ref "#/definitions/Thing"]); (lit "properties", JObj [(lit "name", ty "string")])]);
      (lit "Cat", JObj [(lit "title", t "a cat"); (lit "allOf", JList [ref "#/definitions/Pet"; JObj [(lit "properties", JObj [(lit "claws", ty "integer")]); (lit "required", JList [t "claws"])]]);
                        (lit "properties", JObj [(lit "name", JObj [(lit "type", t "string"); (lit "title", t "what it hears")])])])])].
Import T_Cycles.
Lemma zoo_wf : forall s x, T_Prepare.web zoo s = Ok x -> wf x. Proof. apply T_Prepare.web_wf, wfb_ok. vm_compute. reflexivity. Qed.
Lemma zoo_new : forall s x v, T_Prepare.web zoo s = Ok x -> version_of x = Ok v -> is_version v "1.2" = false.
Proof. intros s x v E V. unfold T_Prepare.web in E. destruct (str_eqb s T_Prepare.there); [|discriminate E]. injection E as <-. vm_compute in V. injection V as <-. reflexivity. Qed.
Definition paths_of (v : val) : list (str * val) := match field_of v (lit "paths") with Some (VDict d) => d | _ => [] end.
Lemma no_reference_ok doc : forallb (fun e => match field_of (snd e) (lit "$ref") with Some VNone => true | _ => false end) (paths_of doc) = true ->
  forall k pi, path_item doc k pi -> field_of pi (lit "$ref") = Some VNone.
Proof.
  intros H k pi (d & F & G & _). unfold paths_of in H. rewrite F in H. rewrite forallb_forall in H. specialize (H _ (sget_In _ _ _ G)). cbn [snd] in H. destruct (field_of pi (lit "$ref")) as [[]|]; congruence.
Qed.
Lemma zoo_composed j pr doc root : (forall s x, T_Prepare.web j s = Ok x -> wf x) -> (forall s x v, T_Prepare.web j s = Ok x -> version_of x = Ok v -> is_version v "1.2" = false) ->
  T_Prepare.made j true = Ok pr -> T_Prepare.found_there (T_Prepare.web j) T_Prepare.there T_Prepare.there pr doc root -> self_contained (fun s => s) (fun s => s) T_Prepare.there root ->
  a_objs (pr_app pr) = [(T_Prepare.there, Whole (0, root))] -> (forall k pi, path_item doc k pi -> field_of pi (lit "$ref") = Some VNone) ->
  composes (fun s => s) (fun s => s) T_Prepare.there root (pr_heap pr).
Proof.
  intros W NW CR FT SC ONE NR. exact (c63_composed (fun s => s) (fun s => s) (T_Prepare.web j) (fun _ => false) (fun _ => Err ValueError) SCOPE_SEPARATOR 10 W NW T_Prepare.there T_Prepare.there T_Prepare.there true pr
    (proj1 there_ok) (proj1 (proj2 there_ok)) (proj2 (proj2 there_ok)) CR doc root FT SC ONE NR).
Qed.
Lemma old_zoo_composed l j ver pr raw sw doc root : (forall s x, T_Upgrade.fetch12 l s = Ok x -> wf x) -> T_Upgrade.fetch12 l T_Prepare12.there = Ok j -> version_of j = Ok ver -> is_version ver "1.2" = true ->
  T_Prepare12.made12 l false = Ok pr -> T_Prepare12.found12 (T_Upgrade.fetch12 l) T_Upgrade.prim_types (fun _ => Err ValueError) SCOPE_SEPARATOR T_Prepare12.there T_Prepare12.there pr j raw sw doc root ->
  self_contained (fun s => s) (fun s => s) T_Prepare12.there root -> a_objs (pr_app pr) = [(T_Prepare12.there, Whole (0, root))] -> forall host base, based raw host base ->
  composes (fun s => s) (fun s => s) T_Prepare12.there root (pr_heap pr).
Proof.
  intros W FJ VJ OLD CR FT SC ONE host base BA. exact (c63_old_composed (fun s => s) (fun s => s) (T_Upgrade.fetch12 l) T_Upgrade.prim_types (fun _ => Err ValueError) SCOPE_SEPARATOR 20 W T_Prepare12.there T_Prepare12.there T_Prepare12.there false pr j ver
    (proj1 there12_ok) (proj1 (proj2 there12_ok)) (proj2 (proj2 there12_ok)) FJ VJ OLD CR raw sw doc root FT SC ONE host base BA).
Qed.
(** The hypotheses hold for an application created from such a document, *)
Example c63_hypotheses : (forall s x, T_Prepare.web zoo s = Ok x -> wf x) /\ (forall s x v, T_Prepare.web zoo s = Ok x -> version_of x = Ok v -> is_version v "1.2" = false) /\
  T_Prepare.made zoo true = Ok (app_of zoo) /\
  (exists doc, T_Prepare.found_there (T_Prepare.web zoo) T_Prepare.there T_Prepare.there (app_of zoo) doc (root_of (app_of zoo)) /\
     forall k pi, path_item doc k pi -> field_of pi (lit "$ref") = Some VNone) /\
  self_contained (fun s => s) (fun s => s) T_Prepare.there (root_of (app_of zoo)) /\
  a_objs (pr_app (app_of zoo)) = [(T_Prepare.there, Whole (0, root_of (app_of zoo)))].
Proof.
  assert (CR : T_Prepare.made zoo true = Ok (app_of zoo)) by (vm_compute; reflexivity).
  assert (CR' : T_Prepare.made zoo false = Ok (app_of zoo)) by (vm_compute; reflexivity).
  assert (FT : exists doc, T_Prepare.found_there (T_Prepare.web zoo) T_Prepare.there T_Prepare.there (app_of zoo) doc (root_of (app_of zoo)) /\
     forall k pi, path_item doc k pi -> field_of pi (lit "$ref") = Some VNone).
  { eexists. split; [do 2 eexists; split; [vm_compute; reflexivity|]; split; [vm_compute; reflexivity|]; split; [vm_compute; reflexivity|]; split; vm_compute; reflexivity|]. apply no_reference_ok. vm_compute. reflexivity. }
  split; [exact zoo_wf|]. split; [exact zoo_new|]. split; [exact CR|]. split; [exact FT|]. destruct FT as (doc & FT & _). split; [|vm_compute; reflexivity].
  apply self_contained_ok with (objs_of (root_of (app_of zoo))); [exact (found_wf _ zoo _ zoo_wf zoo_new _ doc eq_refl CR' FT)|vm_compute; exact Logic.I|vm_compute; reflexivity|vm_compute; reflexivity].
Qed.
Definition titled (s : string) (n : M_Aggt.node) : bool := match sget (lit "title") (M_Aggt.s_plain n) with Some (VStr x) => str_eqb x (lit s) | _ => false end.
(** and the schema composed for cats has the properties of cats, pets and things. *)
Example c63_ex : map (fun n => (M_Aggt.s_final n, map fst (M_Aggt.s_props n), sget (lit "required") (M_Aggt.s_plain n))) (filter (titled "a cat") (pr_heap (app_of zoo))) =
    [(Some 26, [lit "name"], Some (VList [])); (None, [lit "name"; lit "claws"; lit "id"], Some (VList [VStr (lit "claws"); VStr (lit "id")]))] /\
  composes (fun s => s) (fun s => s) T_Prepare.there (root_of (app_of zoo)) (pr_heap (app_of zoo)).
Proof.
  split; [vm_compute; reflexivity|]. destruct c63_hypotheses as (W & NW & CR & (doc & FT & NR) & SC & ONE). exact (zoo_composed zoo (app_of zoo) doc _ W NW CR FT SC ONE NR).
Qed.
(** The 1.2 listing of C58, where cats are a subtype of pets *)
Import T_OldParse T_Upgrade.
Example c63_old_hypotheses : (forall s x, fetch12 T_Prepare12.pet_docs s = Ok x -> wf x) /\ based T_Prepare12.pets2_loaded (lit "h") (lit "http://h") /\
  a_objs (pr_app T_Prepare12.pet_app) = [(T_Prepare12.there, Whole (0, root_of T_Prepare12.pet_app))] /\
  exists j sw doc, fetch12 T_Prepare12.pet_docs T_Prepare12.there = Ok j /\ version_of j = Ok (Some (js "1.2")) /\ T_Prepare12.made12 T_Prepare12.pet_docs false = Ok T_Prepare12.pet_app /\
    T_Prepare12.found12 (fetch12 T_Prepare12.pet_docs) prim_types (fun _ => Err ValueError) SCOPE_SEPARATOR T_Prepare12.there T_Prepare12.there T_Prepare12.pet_app j T_Prepare12.pets2_loaded sw doc (root_of T_Prepare12.pet_app) /\
    self_contained (fun s => s) (fun s => s) T_Prepare12.there (root_of T_Prepare12.pet_app).
Proof.
  destruct T_Prepare12.c58_hypotheses as (W & _ & _ & _ & (_ & _ & _ & _ & _ & BA)). split; [exact W|]. split; [exact BA|]. split; [vm_compute; reflexivity|].
  assert (FT : exists j sw doc, fetch12 T_Prepare12.pet_docs T_Prepare12.there = Ok j /\ version_of j = Ok (Some (js "1.2")) /\
    T_Prepare12.found12 (fetch12 T_Prepare12.pet_docs) prim_types (fun _ => Err ValueError) SCOPE_SEPARATOR T_Prepare12.there T_Prepare12.there T_Prepare12.pet_app j T_Prepare12.pets2_loaded sw doc (root_of T_Prepare12.pet_app)).
  { do 3 eexists. split; [vm_compute; reflexivity|]. split; [vm_compute; reflexivity|]. split; [vm_compute; reflexivity|]. split; [vm_compute; reflexivity|]. split; [eexists; split; vm_compute; reflexivity|]. split; vm_compute; reflexivity. }
  destruct FT as (j & sw & doc & FJ & VJ & FT). exists j, sw, doc. split; [exact FJ|]. split; [exact VJ|]. split; [exact T_Prepare12.pet_made|]. split; [exact FT|].
  apply self_contained_ok with (objs_of (root_of T_Prepare12.pet_app)); [exact (found12_wf _ j _ _ _ sw doc _ W FJ VJ (eq_refl true) T_Prepare12.pet_made FT)|vm_compute; exact Logic.I|vm_compute; reflexivity|vm_compute; reflexivity].
Qed.
Example c63_old_ex : composes (fun s => s) (fun s => s) T_Prepare12.there (root_of T_Prepare12.pet_app) (pr_heap T_Prepare12.pet_app).
Proof.
  destruct c63_old_hypotheses as (W & BA & ONE & (j & sw & doc & FJ & VJ & CR & FT & SC)). exact (old_zoo_composed _ _ _ _ _ sw doc _ W FJ VJ (eq_refl true) CR FT SC ONE _ _ BA).
Qed.
