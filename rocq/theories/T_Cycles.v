(** C61: circular references between the schemas of created applications. *)
From Coq Require Import Relations.
From Verif Require Import PyBase PyFacts PyJson M_JsonPtr S_JsonPtr M_Url M_SpecVal M_Parse M_SpecTree S_Parse S_SpecTree S_Merge M_Scope S_Patch M_App S_App M_OldParse M_Prepare P_Prepare5 P_Deep P_Wf S_Cycles P_Cycles.
From Verif Require T_Prepare T_Prepare12 T_App T_OldParse T_Upgrade.
Close Scope Q_scope.

(** What the model leaves open, and an application that was created, as in C57 *)
Section Created.
  Context (abs_uri win_uri : str -> str) (fetch : str -> res json) (prim : str -> bool) (float_of : str -> res Q) (sep : str) (fuel : nat).
  Notation create_app := (create_app abs_uri win_uri fetch prim float_of sep fuel).
  Hypothesis JD : forall j x, fetch j = Ok x -> wf x.
  Hypothesis NEW : forall j x v, fetch j = Ok x -> version_of x = Ok v -> is_version v "1.2" = false.
  Context (url nu u : str) (strict : bool) (pr : prepared).
  Hypothesis N : normalize_url abs_uri win_uri url = Ok nu.
  Hypothesis J : jr_split abs_uri win_uri nu = Ok (u, lit "#").
  Hypothesis U : u <> [].
  Hypothesis CR : create_app url strict = Ok pr.
  Context (doc root : val).
  Hypothesis FT : T_Prepare.found_there fetch nu u pr doc root.
  (** The schemas of its document refer to schemas of the document. *)
  Hypothesis SC : self_contained abs_uri win_uri u root.
  (** With [strict], no schema refers to itself, however indirectly. *)
  Theorem c61_strict : strict = true -> forall ts, ~ circular abs_uri win_uri u root ts.
  Proof.
    intros S ts C. destruct (T_Prepare.here abs_uri win_uri fetch prim float_of sep fuel JD NEW url nu u strict pr N J U CR doc root FT) as (raw & mid & objs & l & _ & ST).
    apply (proj2 (prepared_circular _ _ _ _ _ _ _ _ _ _ _ _ _ _ _ _ _ _ ST SC)); [eauto|]. exact (prepared_strict _ _ _ _ _ _ _ _ _ _ _ _ _ _ _ _ _ _ ST S).
  Qed.
  (** Without, some schema does just when cycles are reported, *)
  Theorem c61_reported : pr_cycles pr <> [] <-> exists ts, circular abs_uri win_uri u root ts.
  Proof.
    destruct (T_Prepare.here abs_uri win_uri fetch prim float_of sep fuel JD NEW url nu u strict pr N J U CR doc root FT) as (raw & mid & objs & l & _ & ST).
    exact (prepared_circular _ _ _ _ _ _ _ _ _ _ _ _ _ _ _ _ _ _ ST SC).
  Qed.
  (** and then no application can be created with [strict]. *)
  Theorem c61_refused : (exists ts, circular abs_uri win_uri u root ts) -> forall pr', create_app url true <> Ok pr'.
  Proof.
    intros C pr' E. apply c61_reported in C. apply T_Prepare.c57_strict in E as (E & _ & PC). destruct strict eqn:ST.
    - apply T_Prepare.c57_strict in CR as (CR' & _ & PC'). exact (C PC').
    - rewrite CR in E. injection E as <-. exact (C PC).
  Qed.
  (** What is reported: the texts of references that lead around a cycle, each of them once but
      for the first, which is the smallest and comes again at the end; and all such cycles. *)
  Theorem c61_listed : forall z, In z (pr_cycles pr) <->
    exists x c, z = x :: c ++ [x] /\ NoDup (x :: c) /\ linked abs_uri win_uri u root (x :: c ++ [x]) /\ forall y, In y c -> str_leb x y = true.
  Proof.
    destruct (T_Prepare.here abs_uri win_uri fetch prim float_of sep fuel JD NEW url nu u strict pr N J U CR doc root FT) as (raw & mid & objs & l & _ & ST).
    exact (prepared_listed _ _ _ _ _ _ _ _ _ _ _ _ _ _ _ _ _ _ ST SC).
  Qed.
End Created.
Print Assumptions c61_strict.
Print Assumptions c61_reported.
Print Assumptions c61_refused.
Print Assumptions c61_listed.

(** The same for 1.2 listings, as in C58: models refer to each other. *)
Section Created12.
  Context (abs_uri win_uri : str -> str) (fetch : str -> res json) (prim : str -> bool) (float_of : str -> res Q) (sep : str) (fuel : nat).
  Notation create_app := (create_app abs_uri win_uri fetch prim float_of sep fuel).
  Hypothesis JD : forall j x, fetch j = Ok x -> wf x.
  Context (url nu u : str) (strict : bool) (pr : prepared) (j : json) (ver : option json).
  Hypothesis N : normalize_url abs_uri win_uri url = Ok nu.
  Hypothesis J : jr_split abs_uri win_uri nu = Ok (u, lit "#").
  Hypothesis U : u <> [].
  Hypothesis FJ : fetch nu = Ok j.
  Hypothesis VJ : version_of j = Ok ver.
  Hypothesis OLD : is_version ver "1.2" = true.
  Hypothesis CR : create_app url strict = Ok pr.
  Context (raw sw doc root : val).
  Hypothesis FT : T_Prepare12.found12 fetch prim float_of sep nu u pr j raw sw doc root.
  Hypothesis SC : self_contained abs_uri win_uri u root.
  Theorem c61_old_strict : strict = true -> forall ts, ~ circular abs_uri win_uri u root ts.
  Proof.
    intros S ts C. destruct (T_Prepare12.here abs_uri win_uri fetch prim float_of sep fuel JD url nu u strict pr j ver N J U FJ VJ OLD CR raw sw doc root FT) as (mid & objs & l & _ & _ & _ & _ & _ & ST).
    apply (proj2 (prepared_circular _ _ _ _ _ _ _ _ _ _ _ _ _ _ _ _ _ _ ST SC)); [eauto|]. exact (prepared_strict _ _ _ _ _ _ _ _ _ _ _ _ _ _ _ _ _ _ ST S).
  Qed.
  Theorem c61_old_reported : pr_cycles pr <> [] <-> exists ts, circular abs_uri win_uri u root ts.
  Proof.
    destruct (T_Prepare12.here abs_uri win_uri fetch prim float_of sep fuel JD url nu u strict pr j ver N J U FJ VJ OLD CR raw sw doc root FT) as (mid & objs & l & _ & _ & _ & _ & _ & ST).
    exact (prepared_circular _ _ _ _ _ _ _ _ _ _ _ _ _ _ _ _ _ _ ST SC).
  Qed.
  Theorem c61_old_listed : forall z, In z (pr_cycles pr) <->
    exists x c, z = x :: c ++ [x] /\ NoDup (x :: c) /\ linked abs_uri win_uri u root (x :: c ++ [x]) /\ forall y, In y c -> str_leb x y = true.
  Proof.
    destruct (T_Prepare12.here abs_uri win_uri fetch prim float_of sep fuel JD url nu u strict pr j ver N J U FJ VJ OLD CR raw sw doc root FT) as (mid & objs & l & _ & _ & _ & _ & _ & ST).
    exact (prepared_listed _ _ _ _ _ _ _ _ _ _ _ _ _ _ _ _ _ _ ST SC).
  Qed.
End Created12.
Print Assumptions c61_old_strict.
Print Assumptions c61_old_reported.
Print Assumptions c61_old_listed.

(** ** Concrete cases *)
Local Definition t (s : string) : json := JStr (lit s).
Local Definition ref (s : string) : json := JObj [(lit "$ref", t s)].
(** Groups have members that are persons, persons have a group; nodes have a next node. *)
Definition api (next : json) : json := JObj
  [(lit "swagger", t "2.0");
   (lit "paths", JObj [(lit "/a", JObj [(lit "get", JObj [(lit "responses", JObj [(lit "200", JObj [(lit "description", t "ok"); (lit "schema", ref "#/definitions/Group")])])])])]);
   (lit "definitions", JObj
     [(lit "Group", JObj [(lit "properties", JObj [(lit "members", JObj [(lit "type", t "array"); (lit "items", ref "#/definitions/Person")])])]);
      (lit "Person", JObj [(lit "properties", JObj [(lit "group", next)])]);
      (lit "Node", JObj [(lit "properties", JObj [(lit "next", next); (lit "name", JObj [(lit "type", t "string")])])])])].
Definition round : json := api (ref "#/definitions/Group").
Definition straight : json := api (JObj [(lit "type", t "string")]).
Definition no_app : prepared := Prepared (App [] None false 0) [] VNone [] [] [] [].
Definition app_of (j : json) : prepared := match T_Prepare.made j false with Ok pr => pr | Err _ => no_app end.
Definition root_of (pr : prepared) : val := match a_root (pr_app pr) with Some (_, v) => v | None => VNone end.
Definition objs_of (v : val) : list (str * val) := match traverse v [] with Ok l => l | Err _ => [] end.
Lemma there_ok : normalize_url (fun s => s) (fun s => s) T_Prepare.there = Ok T_Prepare.there /\ jr_split (fun s => s) (fun s => s) T_Prepare.there = Ok (T_Prepare.there, lit "#") /\ T_Prepare.there <> [].
Proof. split; [vm_compute; reflexivity|]. split; [vm_compute; reflexivity|discriminate]. Qed.
Lemma found_wf fetch j root : (forall s x, fetch s = Ok x -> wf x) -> (forall s x v, fetch s = Ok x -> version_of x = Ok v -> is_version v "1.2" = false) ->
  forall pr doc, fetch = T_Prepare.web j -> T_Prepare.made j false = Ok pr -> T_Prepare.found_there fetch T_Prepare.there T_Prepare.there pr doc root -> wfv root.
Proof.
  intros JD NEW pr doc -> CR FT. destruct (T_Prepare.here (fun s => s) (fun s => s) (T_Prepare.web j) (fun _ => false) (fun _ => Err ValueError) SCOPE_SEPARATOR 10 JD NEW T_Prepare.there T_Prepare.there T_Prepare.there false pr (proj1 there_ok) (proj1 (proj2 there_ok)) (proj2 (proj2 there_ok)) CR doc root FT) as (raw & mid & objs & l & _ & ST).
  exact (shaped_wfv _ _ _ (Nat.lt_succ_diag_r _) (st_shaped _ _ _ _ _ _ _ _ _ _ _ _ _ _ _ _ _ _ ST)).
Qed.
Lemma made_reported j pr doc root : (forall s x, T_Prepare.web j s = Ok x -> wf x) -> (forall s x v, T_Prepare.web j s = Ok x -> version_of x = Ok v -> is_version v "1.2" = false) ->
  T_Prepare.made j false = Ok pr -> T_Prepare.found_there (T_Prepare.web j) T_Prepare.there T_Prepare.there pr doc root -> self_contained (fun s => s) (fun s => s) T_Prepare.there root ->
  pr_cycles pr <> [] -> exists ts, circular (fun s => s) (fun s => s) T_Prepare.there root ts.
Proof.
  intros W NW CR FT SC. exact (proj1 (c61_reported (fun s => s) (fun s => s) (T_Prepare.web j) (fun _ => false) (fun _ => Err ValueError) SCOPE_SEPARATOR 10 W NW T_Prepare.there T_Prepare.there T_Prepare.there false pr
    (proj1 there_ok) (proj1 (proj2 there_ok)) (proj2 (proj2 there_ok)) CR doc root FT SC)).
Qed.
Lemma round_wf : forall s x, T_Prepare.web round s = Ok x -> wf x. Proof. apply T_Prepare.web_wf, wfb_ok. vm_compute. reflexivity. Qed.
Lemma round_new : forall s x v, T_Prepare.web round s = Ok x -> version_of x = Ok v -> is_version v "1.2" = false.
Proof. intros s x v E V. unfold T_Prepare.web in E. destruct (str_eqb s T_Prepare.there); [|discriminate E]. injection E as <-. vm_compute in V. injection V as <-. reflexivity. Qed.
(** The hypotheses hold for an application created from such a document, *)
Example c61_hypotheses : (forall s x, T_Prepare.web round s = Ok x -> wf x) /\ (forall s x v, T_Prepare.web round s = Ok x -> version_of x = Ok v -> is_version v "1.2" = false) /\
  T_Prepare.made round false = Ok (app_of round) /\
  (exists doc, T_Prepare.found_there (T_Prepare.web round) T_Prepare.there T_Prepare.there (app_of round) doc (root_of (app_of round))) /\
  self_contained (fun s => s) (fun s => s) T_Prepare.there (root_of (app_of round)).
Proof.
  assert (CR : T_Prepare.made round false = Ok (app_of round)) by (vm_compute; reflexivity).
  assert (FT : exists doc, T_Prepare.found_there (T_Prepare.web round) T_Prepare.there T_Prepare.there (app_of round) doc (root_of (app_of round))).
  { eexists. do 2 eexists. split; [vm_compute; reflexivity|]. split; [vm_compute; reflexivity|]. split; [vm_compute; reflexivity|]. split; vm_compute; reflexivity. }
  split; [exact round_wf|]. split; [exact round_new|]. split; [exact CR|]. split; [exact FT|]. destruct FT as (doc & FT).
  apply self_contained_ok with (objs_of (root_of (app_of round))); [exact (found_wf _ round _ round_wf round_new _ doc eq_refl CR FT)|vm_compute; exact Logic.I|vm_compute; reflexivity|vm_compute; reflexivity].
Qed.
(** one cycle is reported, and with [strict] there is no application; without the reference from
    persons to groups there is. *)
Local Definition at_ (n : string) : str := T_Prepare.there ++ lit "#/definitions/" ++ lit n.
Example c61_ex : pr_cycles (app_of round) = [[at_ "Group"; at_ "Person"; at_ "Group"]] /\ T_Prepare.made round true = Err CycleDetectionError /\
  (exists pr, T_Prepare.made straight true = Ok pr) /\ exists ts, circular (fun s => s) (fun s => s) T_Prepare.there (root_of (app_of round)) ts.
Proof.
  split; [vm_compute; reflexivity|]. split; [vm_compute; reflexivity|]. split; [eexists; vm_compute; reflexivity|]. destruct c61_hypotheses as (W & NW & CR & (doc & FT) & SC).
  apply (made_reported round (app_of round) doc _ W NW CR FT SC).
  vm_compute. discriminate.
Qed.
(** A 1.2 listing with a model that has a property of its own type, by way of another *)
Import T_OldParse T_Upgrade.
Definition ring (a b : string) : list (string * json) :=
  let model n r := (lit n, JObj [(lit "id", JStr (lit n)); (lit "properties", JObj [(lit "x", JObj [(lit "$ref", JStr (lit r))])])]) in
  [("/pet", resource12 "http://h/api" [("/pet", [op12 "GET" "a" []])] [model12 "Pet" []; model a b; model b a])]%string.
Definition ring_docs (a b : string) : list (string * json) := ("http://h/d"%string, JObj (listing12 true ["/pet"%string])) :: map (fun nd => (append "http://h/d" (fst nd), snd nd)) (ring a b).
Definition ring_app : prepared := match T_Prepare12.made12 (ring_docs "Cat" "Dog") false with Ok pr => pr | Err _ => no_app end.
Lemma there12_ok : normalize_url (fun s => s) (fun s => s) T_Prepare12.there = Ok T_Prepare12.there /\ jr_split (fun s => s) (fun s => s) T_Prepare12.there = Ok (T_Prepare12.there, lit "#") /\ T_Prepare12.there <> [].
Proof. split; [vm_compute; reflexivity|]. split; [vm_compute; reflexivity|discriminate]. Qed.
Lemma found12_wf l j ver pr raw sw doc root : (forall s x, fetch12 l s = Ok x -> wf x) -> fetch12 l T_Prepare12.there = Ok j -> version_of j = Ok ver -> is_version ver "1.2" = true ->
  T_Prepare12.made12 l false = Ok pr -> T_Prepare12.found12 (fetch12 l) prim_types (fun _ => Err ValueError) SCOPE_SEPARATOR T_Prepare12.there T_Prepare12.there pr j raw sw doc root -> wfv root.
Proof.
  intros JD FJ VJ OLD CR FT. destruct (T_Prepare12.here (fun s => s) (fun s => s) (fetch12 l) prim_types (fun _ => Err ValueError) SCOPE_SEPARATOR 20 JD T_Prepare12.there T_Prepare12.there T_Prepare12.there false pr j ver
    (proj1 there12_ok) (proj1 (proj2 there12_ok)) (proj2 (proj2 there12_ok)) FJ VJ OLD CR raw sw doc root FT) as (mid & objs & l0 & _ & _ & _ & _ & _ & ST).
  exact (shaped_wfv _ _ _ (Nat.lt_succ_diag_r _) (st_shaped _ _ _ _ _ _ _ _ _ _ _ _ _ _ _ _ _ _ ST)).
Qed.
Example c61_old_hypotheses : (forall s x, fetch12 (ring_docs "Cat" "Dog") s = Ok x -> wf x) /\
  exists j raw sw doc, fetch12 (ring_docs "Cat" "Dog") T_Prepare12.there = Ok j /\ version_of j = Ok (Some (js "1.2")) /\ T_Prepare12.made12 (ring_docs "Cat" "Dog") false = Ok ring_app /\
    T_Prepare12.found12 (fetch12 (ring_docs "Cat" "Dog")) prim_types (fun _ => Err ValueError) SCOPE_SEPARATOR T_Prepare12.there T_Prepare12.there ring_app j raw sw doc (root_of ring_app) /\
    self_contained (fun s => s) (fun s => s) T_Prepare12.there (root_of ring_app).
Proof.
  assert (W : forall s x, fetch12 (ring_docs "Cat" "Dog") s = Ok x -> wf x) by (apply fetch_wf; repeat (constructor; [apply wfb_ok; vm_compute; reflexivity|]); constructor).
  assert (CR : T_Prepare12.made12 (ring_docs "Cat" "Dog") false = Ok ring_app) by (vm_compute; reflexivity).
  assert (FT : exists j raw sw doc, fetch12 (ring_docs "Cat" "Dog") T_Prepare12.there = Ok j /\ version_of j = Ok (Some (js "1.2")) /\
    T_Prepare12.found12 (fetch12 (ring_docs "Cat" "Dog")) prim_types (fun _ => Err ValueError) SCOPE_SEPARATOR T_Prepare12.there T_Prepare12.there ring_app j raw sw doc (root_of ring_app)).
  { do 4 eexists. split; [vm_compute; reflexivity|]. split; [vm_compute; reflexivity|]. split; [vm_compute; reflexivity|]. split; [vm_compute; reflexivity|]. split; [eexists; split; vm_compute; reflexivity|]. split; vm_compute; reflexivity. }
  split; [exact W|]. destruct FT as (j & raw & sw & doc & FJ & VJ & FT). exists j, raw, sw, doc. split; [exact FJ|]. split; [exact VJ|]. split; [exact CR|]. split; [exact FT|].
  apply self_contained_ok with (objs_of (root_of ring_app)); [exact (found12_wf _ j _ _ raw sw doc _ W FJ VJ (eq_refl true) CR FT)|vm_compute; exact Logic.I|vm_compute; reflexivity|vm_compute; reflexivity].
Qed.
Example c61_old_ex : pr_cycles ring_app = [map (fun n => T_Prepare12.there ++ lit "#/definitions/pet!##!" ++ lit n) ["Cat"; "Dog"; "Cat"]%string].
Proof. vm_compute. reflexivity. Qed.
