(** C67: values for schemas of created applications, the bodies that are sent and the data of
    responses, are checked and converted as the schemas of the document say. *)
From Coq Require Import QArith Lia.
From Verif Require Import PyBase PyFacts PyInt PyJson M_JsonPtr S_JsonPtr M_Url P_Op M_SpecVal M_Parse M_SpecTree M_Merge M_MergeRef S_Parse S_SpecTree S_Merge S_MergeRef P_SpecBase P_MergeShape P_Patch M_Scope M_Patch S_Patch M_App S_App P_App P_Deep M_OldValidate M_OldParse M_Prepare S_Prepare P_Prepare5 M_Quote S_Quote M_Client S_Client M_Request S_Request M_Op S_Op M_Contrib S_Contrib M_Invoke S_Invoke T_Contrib T_Prepare T_Invoke.
From Verif Require Import S_Cycles P_Cycles S_Compose T_SpecTree T_Cycles T_Compose.
From Verif Require Import M_Declared S_Declared P_Declared P_Declared2 P_Declared3 P_Declared4 T_Declared.
From Verif Require Import M_Body S_Body P_Body P_Body2 P_Body3 P_Body4 P_Body5 P_Body6 P_Wf.
From Verif Require M_Prim M_PrimText M_Time P_PrimMono P_OldValidate.
Close Scope Q_scope.
Open Scope nat_scope.

Section Created.
  Context (abs_uri win_uri : str -> str) (fetch : str -> res json) (prim : str -> bool) (num : str -> res Q) (sep : str) (f : nat).
  Hypothesis JD : forall j x, fetch j = Ok x -> wf x.
  Hypothesis NEW : forall j x v, fetch j = Ok x -> version_of x = Ok v -> is_version v "1.2" = false.
  Context (url nu u : str) (strict : bool) (pr : prepared).
  Hypothesis N : normalize_url abs_uri win_uri url = Ok nu.
  Hypothesis J : jr_split abs_uri win_uri nu = Ok (u, lit "#").
  Hypothesis U : u <> [].
  Hypothesis CR : create_app abs_uri win_uri fetch prim num sep (S f) url strict = Ok pr.
  Context (doc root : val).
  Hypothesis FT : found_there fetch nu u pr doc root.
  (** As in C63 *)
  Hypothesis SC : self_contained abs_uri win_uri u root.
  Hypothesis ONE : a_objs (pr_app pr) = [(u, Whole (0, root))].
  Hypothesis NR : forall k pi, path_item doc k pi -> field_of pi (lit "$ref") = Some VNone.
  (** The schemas of the document are in order. *)
  Hypothesis RO : forall ts s, schema_at root ts s -> schema_order s.
  (** As in M_Prim *)
  Context (int_of : str -> res Z) (float_of : str -> res Q) (str_of : M_Prim.value -> str)
    (date_at : Q -> res (Z * Z * Z)) (datetime_at : Q -> res M_Time.datetime) (uuid_of : str -> option Z) (email_ok : str -> bool).
  Notation takes := (takes abs_uri win_uri u root int_of float_of str_of date_at datetime_at uuid_of email_ok).
  Notation belongs := (belongs abs_uri win_uri u root).
  Notation known := (known abs_uri win_uri u root).
  Notation simple := (simple abs_uri win_uri u root).
  Definition produced (limit : nat) (rd : bool) (v : val) (x : M_Prim.value) : res M_Prim.prim :=
    produce_schema abs_uri win_uri fetch prim num sep (S f) int_of float_of str_of date_at datetime_at uuid_of email_ok (pr_app pr) limit rd v x.

  Lemma root_shaped : shaped (Of CSwagger) root.
  Proof. destruct (T_Prepare.here abs_uri win_uri fetch prim num sep (S f) JD NEW url nu u strict pr N J U CR doc root FT) as (raw & mid & objs & l & _ & ST). exact (st_shaped _ _ _ _ _ _ _ _ _ _ _ _ _ _ _ _ _ _ ST). Qed.
  Lemma heap_is v : known v -> exists l h i, body_heap abs_uri win_uri fetch prim num sep (S f) (pr_app pr) v = Ok (h, i) /\
    (forall j x, at_num (pr_app pr) root v l j x -> full abs_uri win_uri u root (at_num (pr_app pr) root v l) x (M_Prim.sch h j)) /\ at_num (pr_app pr) root v l i v.
  Proof.
    intros [VS VC VO]. destruct (T_Prepare.here abs_uri win_uri fetch prim num sep (S f) JD NEW url nu u strict pr N J U CR doc root FT) as (raw & mid & objs & l & _ & ST).
    apply (heap_of_body abs_uri win_uri fetch prim num sep f (pr_app pr) u root v (st_shaped _ _ _ _ _ _ _ _ _ _ _ _ _ _ _ _ _ _ ST) VS (st_whole _ _ _ _ _ _ _ _ _ _ _ _ _ _ _ _ _ _ ST) SC VC); [unfold documents; rewrite ONE; reflexivity| |exact RO|exact VO].
    exact (c63_told_apart abs_uri win_uri fetch prim num sep (S f) JD NEW url nu u strict pr N J U CR doc root FT NR).
  Qed.
  (** What is made of a value is what the schema says. *)
  Theorem c67_made : forall v, belongs v -> forall limit rd x r, proper x -> produced limit rd v x = Ok r -> takes rd v x r.
  Proof.
    intros v FV limit rd x r P E. destruct (heap_is v (fi_known _ _ _ _ _ FV)) as (l & h & i & H & AT & AI). unfold produced, produce_schema in E. rewrite H in E. cbn [bind fst snd] in E. apply bind_ok in E as ((r', c) & E & Q). injection Q as <-. cbn [fst].
    exact (produce_takes abs_uri win_uri u root int_of float_of str_of date_at datetime_at uuid_of email_ok h _ AT limit i v rd x r' c AI (fi_simple _ _ _ _ _ FV) P E).
  Qed.
  (** Something is made of the values that the schema takes, *)
  Theorem c67_accepted : forall v, belongs v -> forall rd x r, proper x -> takes rd v x r -> exists limit0, forall limit, limit0 <= limit -> exists r', produced limit rd v x = Ok r' /\ takes rd v x r'.
  Proof.
    intros v FV rd x r P T. pose proof (heap_is v (fi_known _ _ _ _ _ FV)) as (l & h & i & H & AT & AI).
    destruct (takes_produce abs_uri win_uri u root int_of float_of str_of date_at datetime_at uuid_of email_ok h _ AT rd v x r T i AI (fi_simple _ _ _ _ _ FV) P) as (n & r' & c & E). exists n. intros limit L.
    assert (X : produced limit rd v x = Ok r'). { unfold produced, produce_schema. rewrite H. cbn [bind fst snd]. rewrite (P_PrimMono.produce_mono _ _ _ _ _ _ _ _ n limit i x _ L _ E). reflexivity. }
    exists r'. split; [exact X|]. exact (c67_made v FV limit rd x r' P X).
  Qed.
  (** and all others are refused. *)
  Theorem c67_refused : forall v, belongs v -> forall rd x, proper x -> (forall r, ~ takes rd v x r) -> forall limit, exists e, produced limit rd v x = Err e.
  Proof. intros v FV rd x P NO limit. destruct (produced limit rd v x) as [r|e] eqn:E; [|eauto]. destruct (NO r (c67_made v FV limit rd x r P E)). Qed.
  Lemma known_at ts v : schema_at root ts v -> known v.
  Proof.
    intro A. assert (IN : forall us s, schema_at v us s -> schema_at root (ts ++ us) s) by (intros us s (R & C); split; [eapply P_OldValidate.reach_app; [exact (proj1 A)|exact R]|exact C]).
    constructor; [exact (schema_shaped _ _ _ _ root_shaped A)| |].
    - intros us s r SA. exact (SC _ _ _ (IN _ _ SA)).
    - intros us s SA. exact (RO _ _ (IN _ _ SA)).
  Qed.
  (** The schemas of the document itself fit, *)
  Theorem c67_document : forall ts v, schema_at root ts v -> simple v -> belongs v.
  Proof.
    intros ts v A SI. constructor; [|exact SI]. exact (known_at ts v A).
  Qed.
  (** if no schema of the document is composed and all arrays say what their items are. *)
  Definition uncomposed (e : val) : Prop := (forall l, field_of e (lit "allOf") = Some (VList l) -> l = []) /\ (of_type e "array" -> exists i, field_of e (lit "items") = Some i /\ is_obj i).
  Theorem c67_simple : (forall ts s, schema_at root ts s -> uncomposed s) -> forall ts v, schema_at root ts v -> simple v.
  Proof.
    intros ALL ts v A. assert (ST : forall s e, S_Compose.stands abs_uri win_uri u root s e -> (exists ts, schema_at root ts s) -> exists ts, schema_at root ts e).
    { induction 1 as [s NF|s r us x e RF P SE IH]; intro A0; [exact A0|]. apply IH. exists us. exact (proj2 (proj2 P)). }
    assert (NX : forall e p, next e p -> (exists ts, schema_at root ts e) -> exists ts, schema_at root ts p).
    { intros e p NX (us & A0). pose proof (schema_shaped _ _ _ _ root_shaped A0) as SE.
      assert (K : forall n x zs, In n ["properties"; "allOf"; "additionalProperties"; "items"]%string -> field_of e (lit n) = Some x -> inside x zs p -> is_obj p -> exists ts, schema_at root ts p).
      { intros n x zs I F IN OB. destruct (schema_child e n x SE F I zs p IN OB) as (R & C). exists (us ++ lit n :: zs). split; [|exact C]. eapply P_OldValidate.reach_app; [exact (proj1 A0)|exact R]. }
      destruct NX as [(F & OB)|[(k & d & F & G)|(F & OB)]].
      - apply (K "items"%string p []); [cbn; auto|exact F|constructor|exact OB].
      - apply (K "properties"%string (VDict d) [k]); [cbn; auto|exact F|econstructor; [exact G|constructor]|].
        destruct (shaped_obj _ _ SE) as (h & fs & ints & -> & C). rewrite <- C in SE. cbn [field_of] in F. destruct (shaped_field _ _ _ _ _ SE F) as [(T & _)|(ct & cc & T & SI)]; rewrite C in T; [discriminate T|]. injection T as <- <-. inversion SI as [| | |? ? ND FA]; subst.
        rewrite Forall_forall in FA. apply sget_In in G. destruct (shaped_obj _ _ (FA _ G)) as (? & ? & ? & E & _). cbn [snd] in E. rewrite E. exact Logic.I.
      - apply (K "additionalProperties"%string p []); [cbn; auto|exact F|constructor|exact OB]. }
    intros e I. assert (X : exists us, schema_at root us e).
    { assert (A' : exists us, schema_at root us v) by eauto. clear A. induction I as [s e SE|s e p t SE NE I IH]; [eauto|]. apply IH. eapply NX; eauto. }
    destruct X as (us & X). exact (ALL _ _ X).
  Qed.

  (** *** Schemas composed by allOf
      Objects have what the schema and its parts require, *)
  Notation stands := (S_Compose.stands abs_uri win_uri u root).
  Notation joined := (joined abs_uri win_uri u root int_of float_of str_of date_at datetime_at uuid_of email_ok).
  Theorem c67_required : forall v, known v -> forall limit rd x m, produced limit rd v x = Ok (M_Prim.PModel m) -> forall e, stands v e ->
    (object_decl e -> forall k, requires e k -> sget k m <> None) /\
    (forall l a a', field_of e (lit "allOf") = Some (VList l) -> In a l -> stands a a' -> object_decl a' -> forall k, requires a' k -> sget k m <> None).
  Proof.
    intros v KV limit rd x m E e SE. destruct (heap_is v KV) as (l & h & i & H & AT & AI). unfold produced, produce_schema in E. rewrite H in E. cbn [bind fst snd] in E. apply bind_ok in E as ((r', c) & E & Q). cbn [fst] in Q. injection Q as ->.
    exact (composed_required abs_uri win_uri u root int_of float_of str_of date_at datetime_at uuid_of email_ok h _ AT limit i v x _ m c e AI E SE).
  Qed.
  (** and if the schema itself has a property of the object, the object is made of what the schema
      and its parts say. *)
  Theorem c67_composed : forall v, known v -> forall e l ms, stands v e -> field_of e (lit "allOf") = Some (VList l) -> Forall2 stands l ms -> object_decl e ->
    (forall s k, In s (e :: ms) -> ~ text_at s "discriminator" k) -> (forall s p, In s (e :: ms) -> next s p -> simple p) ->
    forall limit rd d r, proper (M_Prim.VDict d) -> (exists k p, has_property e k p /\ (sget k d <> None \/ says p (lit "default"))) ->
    produced limit rd v (M_Prim.VDict d) = Ok r -> exists m, r = M_Prim.PModel m /\ joined (e :: ms) d m.
  Proof.
    intros v KV e l ms SE AL FM O ND SI limit rd d r P EX E. destruct (heap_is v KV) as (l' & h & i & H & AT & AI). unfold produced, produce_schema in E. rewrite H in E. cbn [bind fst snd] in E. apply bind_ok in E as ((r', c) & E & Q). cbn [fst] in Q. injection Q as ->.
    exact (composed_joined abs_uri win_uri u root int_of float_of str_of date_at datetime_at uuid_of email_ok h _ AT limit i v e l ms d rd r c AI SE O AL FM ND SI EX P E).
  Qed.

  (** ** Calls and responses
      An operation of the document, as in C59 and C66; [limit] stands for the recursion limit. *)
  Section Called.
    Context (limit : nat).
    Notation produce := (produce_any int_of float_of str_of date_at datetime_at uuid_of email_ok (produced limit)).
    Context (k m : str) (pi op pi' op' : val).
    Hypothesis PI : path_item doc k pi.
    Hypothesis OP : operation pi m op.
    Hypothesis PI' : path_item root k pi'.
    Hypothesis OP' : operation pi' m op'.
    Context {R : Type} (urls : M_Prim.prim -> option (list str)) (show : M_Prim.prim -> str) (files : M_Prim.prim -> list file) (ptext : M_Prim.prim -> option str)
      (encode : val -> str -> M_Prim.prim -> res str) (decode : val -> str -> R -> res M_Prim.value) (disk : str -> res str).
    Hypothesis AR : forall c, urls c <> None -> exists fmt l, c = M_Prim.PArray fmt l.
    Context (ss : list val) (rs : sdict val).
    Hypothesis SL : field_of pi (lit "parameters") = Some (VList ss).
    Hypothesis US : Forall (usable abs_uri win_uri u doc) ss.
    Hypothesis UO : forall os, field_of op (lit "parameters") = Some (VList os) -> Forall (usable abs_uri win_uri u doc) os.
    Hypothesis RS : field_of op (lit "responses") = Some (VDict rs).
    Hypothesis LR : forall n r, In (n, r) rs -> exists l, S_Invoke.leads abs_uri win_uri u doc CResponse r l.
    Notation declares := (declares value_of produce).
    Notation call := (call urls show files value_of produce).
    Lemma produce_is s : belongs s -> forall rd x, produce rd s x = produced limit rd s x.
    Proof. intros F rd x. unfold produce_any. assert (same_class CSchema s = true) as ->; [|reflexivity]. destruct (shaped_obj _ _ (kn_shape _ _ _ _ _ (fi_known _ _ _ _ _ F))) as (h & fs & ints & -> & C). apply schema_same. exists h, fs, ints. auto. Qed.
    (** If a call succeeds, the value given for the body has become what the schema of the body
        says; readOnly properties were not in it.  If the schema does not take it the call fails. *)
    Theorem c67_body : exists ps fs qs, accepted abs_uri win_uri u doc op pi ps /\ Forall2 (says_of abs_uri win_uri u doc) ps fs /\ Forall2 declares fs qs /\ forall args,
      (forall r, call op' args = Ok r -> exists cs, converted args qs cs /\ arranged urls show files cs (r_p r) /\
         forall g s x, In g fs -> text_at g "in" (lit "body") -> field_of g (lit "schema") = Some s -> belongs s -> gets args g x -> proper x ->
           exists q c, In (q, c) cs /\ declares g q /\ q_in q = lit "body" /\ takes false s x c) /\
      (forall g s x, In g fs -> text_at g "in" (lit "body") -> field_of g (lit "schema") = Some s -> belongs s -> gets args g x -> proper x -> (forall c, ~ takes false s x c) -> exists e, call op' args = Err e).
    Proof.
      destruct (c66_call int_of float_of str_of date_at datetime_at uuid_of email_ok (produced limit) abs_uri win_uri fetch prim num sep (S f) JD NEW url nu u strict pr N J U CR doc root FT k m pi op pi' op' PI OP PI' OP' urls show files AR (NR _ _ PI) ss SL US UO) as (ps & fs & qs & AC & SF & DF & CA).
      exists ps, fs, qs. split; [exact AC|]. split; [exact SF|]. split; [exact DF|]. intro args. destruct (CA args) as (C1 & _).
      assert (OKAY : forall r, call op' args = Ok r -> exists cs, converted args qs cs /\ arranged urls show files cs (r_p r) /\
         forall g s x, In g fs -> text_at g "in" (lit "body") -> field_of g (lit "schema") = Some s -> belongs s -> gets args g x -> proper x ->
           exists q c, In (q, c) cs /\ declares g q /\ q_in q = lit "body" /\ takes false s x c).
      { intros r E. destruct (C1 r E) as (cs & CV & AG & _). exists cs. split; [exact CV|]. split; [exact AG|]. intros g s x I B FS FI G P. destruct (Forall2_left _ _ _ _ DF I) as (q & Q & D).
        apply (gets_supplied int_of float_of str_of date_at datetime_at uuid_of email_ok (produced limit) args g q x D) in G. destruct (in_converted args qs cs CV q x Q G) as (c & IC & PC). exists q, c. split; [exact IC|]. split; [exact D|].
        assert (QB : q_in q = lit "body") by (pose proof (de_in _ _ _ _ D) as X; unfold text_at in B; congruence). split; [exact QB|]. destruct (de_prim _ _ _ _ D) as (s' & FS' & X). assert (s' = s) as -> by congruence. destruct (X x) as [(_ & Y)|(NB & _)]; [|now destruct NB]. rewrite Y, (produce_is s FI) in PC. exact (c67_made s FI limit false x c P PC). }
      split; [exact OKAY|]. intros g s x I B FS FI G P NO. destruct (call op' args) as [r|e] eqn:E; [|eauto]. destruct (OKAY r eq_refl) as (cs & _ & _ & A). destruct (A g s x I B FS FI G P) as (q & c & _ & _ & _ & T). destruct (NO c T).
    Qed.
    (** The data of a response is what the schema of the response for its status makes of its body. *)
    Theorem c67_data : forall send c sec args b opt hs sent w,
      use_op urls show files ptext value_of M_Prim.VStr produce encode decode disk send c sec op' args b opt hs sent = Ok (w, Ok tt) ->
      exists msg y, w_sent w = sent ++ [msg] /\ send sent msg = Ok y /\
      forall r, match sget (str_of_Z (y_status y)) rs with Some r' => r = r' | None => sget (lit "default") rs = Some r end ->
      exists l g s, S_Invoke.leads abs_uri win_uri u doc CResponse r l /\ combined CResponse l g /\ field_of g (lit "schema") = Some s /\
        (s = VNone -> p_data (w_resp w) = None) /\
        (belongs s -> exists ct x p, decode s ct (y_body y) = Ok x /\ p_data (w_resp w) = Some p /\ (proper x -> takes true s x p)).
    Proof.
      intros send c sec args b opt hs sent w E.
      destruct (c59_response abs_uri win_uri fetch prim num sep (S f) JD NEW url nu u strict pr N J U CR doc root FT k m pi op pi' op' PI OP PI' OP' urls show files ptext value_of M_Prim.VStr produce encode decode disk rs RS LR send c sec args b opt hs sent w E) as (msg & y & A & B & _ & _ & X).
      exists msg, y. split; [exact A|]. split; [exact B|]. intros r RR.
      assert (Y : exists l g, S_Invoke.leads abs_uri win_uri u doc CResponse r l /\ combined CResponse l g /\ exists sch, field_of g (lit "schema") = Some sch /\
          (sch = VNone /\ p_data (w_resp w) = None \/ sch <> VNone /\ exists ct v p, decode sch ct (y_body y) = Ok v /\ produce true sch v = Ok p /\ p_data (w_resp w) = Some p)).
      { destruct (sget (str_of_Z (y_status y)) rs) as [r'|]; [subst r'|rewrite RR in X]; destruct X as (l & g & L & C & _ & sch & FS & [Z|(NV & ct & v & p & Z1 & Z2 & Z3 & _)]); exists l, g; (split; [exact L|]; split; [exact C|]; exists sch; split; [exact FS|]); [now left| |now left|]; right; split; eauto 8. }
      destruct Y as (l & g & L & C & s & FS & Z). exists l, g, s. split; [exact L|]. split; [exact C|]. split; [exact FS|]. split.
      - intros ->. destruct Z as [(_ & Z)|(NV & _)]; [exact Z|now destruct NV].
      - intro FI. destruct Z as [(-> & _)|(_ & ct & v & p & Z1 & Z2 & Z3)]; [destruct (shaped_obj _ _ (kn_shape _ _ _ _ _ (fi_known _ _ _ _ _ FI))) as (? & ? & ? & E' & _); discriminate E'|]. exists ct, v, p. split; [exact Z1|]. split; [exact Z3|]. intro P. rewrite (produce_is s FI) in Z2. exact (c67_made s FI limit true v p P Z2).
    Qed.
  End Called.
End Created.
Print Assumptions c67_made.
Print Assumptions c67_accepted.
Print Assumptions c67_refused.
Print Assumptions c67_document.
Print Assumptions c67_simple.
Print Assumptions c67_required.
Print Assumptions c67_composed.
Print Assumptions c67_body.
Print Assumptions c67_data.

(** ** Concrete cases *)
Local Definition t (s : string) : json := JStr (lit s).
Local Definition ref (s : string) : json := JObj [(lit "$ref", t s)].
Local Definition ty (s : string) (l : list (str * json)) : json := JObj ((lit "type", t s) :: l).
(** Orders have items, these have parts that are items. *)
Definition orders : json := JObj
  [(lit "swagger", t "2.0");
   (lit "paths", JObj [(lit "/orders", JObj [(lit "post", JObj
      [(lit "parameters", JList [JObj [(lit "name", t "order"); (lit "in", t "body"); (lit "required", JBool true); (lit "schema", ref "#/definitions/Order")]]);
       (lit "responses", JObj [(lit "200", JObj [(lit "description", t "ok"); (lit "schema", ref "#/definitions/Order")])])])])]);
   (lit "definitions", JObj
     [(lit "Kind", ty "string" [(lit "enum", JList [t "new"; t "old"])]);
      (lit "Stamp", ty "string" [(lit "readOnly", JBool true)]);
      (lit "Count", ty "integer" [(lit "default", JInt 1)]);
      (lit "Any", JObj []);
      (lit "None", JObj [(lit "additionalProperties", JBool false)]);
      (lit "Item", JObj [(lit "properties", JObj
         [(lit "id", ty "integer" [(lit "readOnly", JBool true)]); (lit "name", ty "string" [(lit "maxLength", JInt 5)]); (lit "kind", ref "#/definitions/Kind"); (lit "stamp", ref "#/definitions/Stamp");
          (lit "count", ty "integer" [(lit "minimum", JInt 1); (lit "default", JInt 1)]); (lit "more", ref "#/definitions/Count"); (lit "parts", ty "array" [(lit "items", ref "#/definitions/Item")])]);
         (lit "required", JList [t "name"]); (lit "additionalProperties", JBool false)]);
      (lit "Order", ty "object" [(lit "properties", JObj [(lit "items", ty "array" [(lit "minItems", JInt 1); (lit "items", ref "#/definitions/Item")])]);
         (lit "required", JList [t "items"]); (lit "additionalProperties", ty "integer" [])])])].
Definition orders_created : res prepared := create_app (fun s => s) (fun s => s) (T_Prepare.web orders) (fun _ => false) (fun _ => Err ValueError) SCOPE_SEPARATOR 40 T_Prepare.there false.
Definition orders_app : prepared := match orders_created with Ok pr => pr | Err _ => no_app end.
Definition orders_root : val := root_of orders_app.
Lemma orders_made : create_app (fun s => s) (fun s => s) (T_Prepare.web orders) (fun _ => false) (fun _ => Err ValueError) SCOPE_SEPARATOR 40 T_Prepare.there false = Ok orders_app. Proof. vm_compute. reflexivity. Qed.
Notation ex_produced rd v x :=
  (produced (fun s => s) (fun s => s) (T_Prepare.web orders) (fun _ => false) (fun _ => Err ValueError) SCOPE_SEPARATOR 39 orders_app
    ex_int (fun _ => Err ValueError) (fun _ => lit "?") (fun _ => Err ValueError) (fun _ => Err ValueError) (fun _ => None) (fun _ => true) 20 rd v x).
Definition definition (n : string) : val := at_ orders_root ["definitions"%string; n].
Local Definition vs (s : string) : M_Prim.value := M_Prim.VStr (lit s).
Local Definition vd (l : list (string * M_Prim.value)) : M_Prim.value := M_Prim.VDict (map (fun kv => (lit (fst kv), snd kv)) l).

(** Checking all schemas of a document *)
Definition schema_orderb (s : val) : bool :=
  match internal_of s (lit "name") with Some VNone | Some (VStr _) => true | _ => false end &&
  forallb (field_okb s (fun v => match v with VNone | VStr _ => true | _ => false end)) ["type"; "format"; "discriminator"; "$ref"]%string &&
  forallb (field_okb s (fun v => match v with VNone | VInt _ | VFloat _ => true | _ => false end)) ["maximum"; "minimum"; "multipleOf"]%string &&
  forallb (field_okb s (fun v => match v with VNone | VInt _ => true | _ => false end)) ["maxLength"; "minLength"; "maxItems"; "minItems"]%string &&
  forallb (field_okb s (fun _ => true)) ["exclusiveMaximum"; "exclusiveMinimum"; "uniqueItems"; "readOnly"]%string &&
  forallb (field_okb s (fun v => match v with VNone | VList _ => true | _ => false end)) ["enum"; "allOf"]%string &&
  field_okb s (fun v => match v with VNone | VBool _ | VInt _ | VFloat _ | VStr _ => true | _ => false end) "default" &&
  field_okb s (fun v => match v with VNone => true | VList l => forallb (fun x => match x with VStr _ => true | _ => false end) l | _ => false end) "required" &&
  field_okb s (fun v => match v with VNone | VObj _ _ _ => true | _ => false end) "items" &&
  field_okb s (fun v => match v with VDict _ => true | _ => false end) "properties" &&
  field_okb s (fun v => match v with VNone | VBool _ | VObj _ _ _ => true | _ => false end) "additionalProperties".
Lemma schema_orderb_ok s : schema_orderb s = true -> schema_order s.
Proof.
  intro E. unfold schema_orderb in E. apply andb_prop in E as (E & Ad). apply andb_prop in E as (E & Pr). apply andb_prop in E as (E & It). apply andb_prop in E as (E & Rq). apply andb_prop in E as (E & Df). apply andb_prop in E as (E & Ls). apply andb_prop in E as (E & Fl). apply andb_prop in E as (E & Si). apply andb_prop in E as (E & Nu). apply andb_prop in E as (Nm & Tx). rewrite forallb_forall in Tx, Nu, Si, Fl, Ls.
  assert (T : forall m, field_okb s (fun v => match v with VNone | VStr _ => true | _ => false end) m = true -> field_ok s text_or_none m) by (intros m; apply field_okb_ok; intros v H; destruct v; try discriminate H; [now left|right; eexists; reflexivity]).
  assert (L : forall m, field_okb s (fun v => match v with VNone | VList _ => true | _ => false end) m = true -> field_ok s list_or_none m) by (intros m; apply field_okb_ok; intros v H; destruct v; try discriminate H; [now left|right; eexists; reflexivity]).
  constructor.
  - destruct (internal_of s (lit "name")) as [v|]; [|discriminate Nm]. exists v. split; [reflexivity|]. destruct v; try discriminate Nm; [now left|right; eexists; reflexivity].
  - apply Forall_forall. intros x I. apply T, Tx. cbn in *. tauto.
  - apply Forall_forall. intros x I. refine (field_okb_ok _ _ _ _ _ (Nu x I)). intros v H; destruct v; try discriminate H; [now left|right; left; eexists; reflexivity|right; right; eexists; reflexivity].
  - apply Forall_forall. intros x I. refine (field_okb_ok _ _ _ _ _ (Si x I)). intros v H; destruct v; try discriminate H; [now left|right; eexists; reflexivity].
  - apply Forall_forall. intros x I. refine (field_okb_ok _ _ _ _ _ (Fl x I)). intros v _. exact Logic.I.
  - apply L, Ls. cbn. auto.
  - refine (field_okb_ok _ _ _ _ _ Df). intros v H; destruct v; try discriminate H; (eexists; split; [constructor|apply pr_plain; discriminate]).
  - refine (field_okb_ok _ _ _ _ _ Rq). intros v H; destruct v as [| | | | |l| |]; try discriminate H; [now left|]. right. rewrite forallb_forall in H. clear - H. induction l as [|x l IH]; [exists []; reflexivity|]. destruct IH as (m & E); [intros y I; apply H; now right|]. injection E as ->. specialize (H x (or_introl eq_refl)). destruct x; try discriminate H. eexists (_ :: m). reflexivity.
  - apply T, Tx. cbn. auto.
  - refine (field_okb_ok _ _ _ _ _ It). intros v H; destruct v; try discriminate H; [now left|right; exact Logic.I].
  - apply L, Ls. cbn. auto.
  - refine (field_okb_ok _ _ _ _ _ Pr). intros v H; destruct v; try discriminate H. eexists; reflexivity.
  - refine (field_okb_ok _ _ _ _ _ Ad). intros v H; destruct v; try discriminate H; [now left|right; left; eexists; reflexivity|right; right; exact Logic.I].
Qed.
Definition uncomposedb (s : val) : bool :=
  match field_of s (lit "allOf") with Some (VList (_ :: _)) => false | _ => true end &&
  match field_of s (lit "type") with
  | Some (VStr x) => if str_eqb x (lit "array") then match field_of s (lit "items") with Some (VObj _ _ _) => true | _ => false end else true
  | _ => true
  end.
Lemma uncomposedb_ok s : uncomposedb s = true -> uncomposed s.
Proof.
  intro E. unfold uncomposedb in E. apply andb_prop in E as (E1 & E2). split.
  - intros l F. rewrite F in E1. destruct l; [reflexivity|discriminate E1].
  - intro A. unfold of_type, text_at in A. rewrite A, str_eqb_refl in E2. destruct (field_of s (lit "items")) as [i|]; [|discriminate E2]. exists i. split; [reflexivity|]. destruct i; try discriminate E2. exact Logic.I.
Qed.
Lemma all_checked (b : val -> bool) root objs : wfv root -> is_obj root -> traverse root [] = Ok objs -> forallb (fun po => negb (same_class CSchema (snd po)) || b (snd po)) objs = true -> forall ts s, schema_at root ts s -> b s = true.
Proof.
  intros W O TR B ts s (R & C). destruct (traverse_ok root [] W O) as (r & E & I & _). rewrite TR in E. injection E as <-. rewrite forallb_forall in B.
  assert (OS : is_obj s) by (destruct C as (? & ? & ? & -> & _); exact Logic.I). specialize (B (rfc_pointer (lit "#") ts, s) (proj2 (I _ _) (ex_intro _ ts (conj eq_refl (conj R OS))))). cbn [snd] in B. apply schema_same in C. now rewrite C in B.
Qed.

Lemma orders_wf : forall s x, T_Prepare.web orders s = Ok x -> wf x. Proof. apply T_Prepare.web_wf, wfb_ok. vm_compute. reflexivity. Qed.
Lemma orders_new : forall s x v, T_Prepare.web orders s = Ok x -> version_of x = Ok v -> is_version v "1.2" = false.
Proof. intros s x v E V. unfold T_Prepare.web in E. destruct (str_eqb s T_Prepare.there); [|discriminate E]. injection E as <-. vm_compute in V. injection V as <-. reflexivity. Qed.
(** The general facts, for any document that is fetched from one place *)
Section There.
  Context (j : json) (pr : prepared) (doc root : val) (f : nat).
  Hypothesis W : forall s x, T_Prepare.web j s = Ok x -> wf x.
  Hypothesis NW : forall s x v, T_Prepare.web j s = Ok x -> version_of x = Ok v -> is_version v "1.2" = false.
  Hypothesis CR : create_app (fun s => s) (fun s => s) (T_Prepare.web j) (fun _ => false) (fun _ => Err ValueError) SCOPE_SEPARATOR (S f) T_Prepare.there false = Ok pr.
  Hypothesis FT : found_there (T_Prepare.web j) T_Prepare.there T_Prepare.there pr doc root.
  Notation there := T_Prepare.there.
  Lemma there_shaped : shaped (Of CSwagger) root.
  Proof. exact (root_shaped (fun s => s) (fun s => s) (T_Prepare.web j) (fun _ => false) (fun _ => Err ValueError) SCOPE_SEPARATOR f W NW there there there false pr (proj1 there_ok) (proj1 (proj2 there_ok)) (proj2 (proj2 there_ok)) CR doc root FT). Qed.
  Lemma there_wf : wfv root. Proof. exact (shaped_wfv _ _ _ (Nat.lt_succ_diag_r _) there_shaped). Qed.
  Hypothesis SC : self_contained (fun s => s) (fun s => s) there root.
  Hypothesis ONE : a_objs (pr_app pr) = [(there, Whole (0, root))].
  Hypothesis NR : forall k pi, path_item doc k pi -> field_of pi (lit "$ref") = Some VNone.
  Hypothesis RO : forall ts s, schema_at root ts s -> schema_order s.
  Hypothesis UN : forall ts s, schema_at root ts s -> uncomposed s.
  Lemma there_belongs ts v : schema_at root ts v -> belongs (fun s => s) (fun s => s) there root v.
  Proof.
    intro A. apply (c67_document (fun s => s) (fun s => s) (T_Prepare.web j) (fun _ => false) (fun _ => Err ValueError) SCOPE_SEPARATOR f W NW there there there false pr (proj1 there_ok) (proj1 (proj2 there_ok)) (proj2 (proj2 there_ok)) CR doc root FT SC RO ts v A).
    exact (c67_simple (fun s => s) (fun s => s) (T_Prepare.web j) (fun _ => false) (fun _ => Err ValueError) SCOPE_SEPARATOR f W NW there there there false pr (proj1 there_ok) (proj1 (proj2 there_ok)) (proj2 (proj2 there_ok)) CR doc root FT UN ts v A).
  Qed.
  Lemma there_takes int_of float_of str_of date_at datetime_at uuid_of email_ok ts v limit rd x r : schema_at root ts v -> proper x ->
    produced (fun s => s) (fun s => s) (T_Prepare.web j) (fun _ => false) (fun _ => Err ValueError) SCOPE_SEPARATOR f pr int_of float_of str_of date_at datetime_at uuid_of email_ok limit rd v x = Ok r ->
    takes (fun s => s) (fun s => s) there root int_of float_of str_of date_at datetime_at uuid_of email_ok rd v x r.
  Proof.
    intros A P E. exact (c67_made (fun s => s) (fun s => s) (T_Prepare.web j) (fun _ => false) (fun _ => Err ValueError) SCOPE_SEPARATOR f W NW there there there false pr (proj1 there_ok) (proj1 (proj2 there_ok)) (proj2 (proj2 there_ok)) CR doc root FT SC ONE NR RO
      int_of float_of str_of date_at datetime_at uuid_of email_ok v (there_belongs ts v A) limit rd x r P E).
  Qed.
End There.
(** The hypotheses hold for an application created from such a document, *)
Example c67_hypotheses : (forall s x, T_Prepare.web orders s = Ok x -> wf x) /\ (forall s x v, T_Prepare.web orders s = Ok x -> version_of x = Ok v -> is_version v "1.2" = false) /\
  orders_created = Ok orders_app /\
  (exists doc, found_there (T_Prepare.web orders) T_Prepare.there T_Prepare.there orders_app doc orders_root /\ forall k pi, path_item doc k pi -> field_of pi (lit "$ref") = Some VNone) /\
  self_contained (fun s => s) (fun s => s) T_Prepare.there orders_root /\ a_objs (pr_app orders_app) = [(T_Prepare.there, Whole (0, orders_root))] /\
  (forall ts s, schema_at orders_root ts s -> schema_order s) /\ (forall ts s, schema_at orders_root ts s -> uncomposed s).
Proof.
  assert (FT : exists doc, found_there (T_Prepare.web orders) T_Prepare.there T_Prepare.there orders_app doc orders_root /\ forall k pi, path_item doc k pi -> field_of pi (lit "$ref") = Some VNone).
  { eexists. split; [do 2 eexists; split; [vm_compute; reflexivity|]; split; [vm_compute; reflexivity|]; split; [vm_compute; reflexivity|]; split; vm_compute; reflexivity|]. apply no_reference_ok. vm_compute. reflexivity. }
  split; [exact orders_wf|]. split; [exact orders_new|]. split; [exact orders_made|]. split; [exact FT|]. destruct FT as (doc & FT & _).
  assert (W : wfv orders_root) by exact (there_wf orders orders_app doc orders_root 39 orders_wf orders_new orders_made FT). assert (O : is_obj orders_root) by (vm_compute; exact Logic.I). assert (TR : traverse orders_root [] = Ok (objs_of orders_root)) by (vm_compute; reflexivity).
  split; [apply self_contained_ok with (objs_of orders_root); [exact W|exact O|exact TR|vm_compute; reflexivity]|]. split; [vm_compute; reflexivity|]. split.
  - intros ts s A. apply schema_orderb_ok. apply (all_checked schema_orderb orders_root (objs_of orders_root) W O TR) with ts; [vm_compute; reflexivity|exact A].
  - intros ts s A. apply uncomposedb_ok. apply (all_checked uncomposedb orders_root (objs_of orders_root) W O TR) with ts; [vm_compute; reflexivity|exact A].
Qed.

(** and for values of its schemas, *)
Notation ex_takes rd v x r :=
  (takes (fun s => s) (fun s => s) T_Prepare.there orders_root ex_int (fun _ => Err ValueError) (fun _ => lit "?") (fun _ => Err ValueError) (fun _ => Err ValueError) (fun _ => None) (fun _ => true) rd v x r).
Lemma found_at root objs p x : wfv root -> is_obj root -> traverse root [] = Ok objs -> find (fun po => str_eqb (fst po) p) objs = Some x -> same_class CSchema (snd x) = true -> exists ts, schema_at root ts (snd x).
Proof.
  intros W O TR F C. apply find_some in F as (F & _). destruct (traverse_ok root [] W O) as (r & E & I & _). rewrite TR in E. injection E as <-. destruct x as (q & s). apply I in F as (ts & _ & R & _). exists ts. split; [exact R|]. now apply schema_same.
Qed.
Lemma definition_at n x : find (fun po => str_eqb (fst po) (lit "#/definitions/" ++ lit n)) (objs_of orders_root) = Some x -> same_class CSchema (snd x) = true -> snd x = definition n -> exists ts, schema_at orders_root ts (definition n).
Proof.
  intros F C <-. destruct c67_hypotheses as (_ & _ & _ & (doc & FT & _) & _).
  refine (found_at orders_root (objs_of orders_root) _ x (there_wf orders orders_app doc orders_root 39 orders_wf orders_new orders_made FT) _ _ F C); [vm_compute; exact Logic.I|vm_compute; reflexivity].
Qed.
Lemma item_at : exists ts, schema_at orders_root ts (definition "Item"). Proof. eapply definition_at; vm_compute; reflexivity. Qed.
Lemma order_at : exists ts, schema_at orders_root ts (definition "Order"). Proof. eapply definition_at; vm_compute; reflexivity. Qed.
Lemma proper_dict l : NoDup (map fst l) -> Forall (fun kv => proper (snd kv)) l -> proper (vd l).
Proof.
  intros N F. apply pr_dict.
  - rewrite map_map. cbn [fst]. rewrite <- (map_map fst lit). revert N. generalize (map fst l). intro ks. induction ks as [|k ks IH]; intro N; [constructor|]. inversion N; subst. constructor; [|now apply IH]. intro I. apply in_map_iff in I as (k' & E & I). apply lit_inj in E. now subst.
  - apply Forall_map. apply Forall_forall. rewrite Forall_forall in F. intros kv I. exact (F kv I).
Qed.
Lemma ex_sound ts v rd x r : schema_at orders_root ts v -> proper x -> ex_produced rd v x = Ok r -> ex_takes rd v x r.
Proof.
  intros A P E. destruct c67_hypotheses as (W & NW & _ & (doc & FT & NR) & SC & ONE & RO & UN). pose proof orders_made as CR. revert W NW FT NR SC ONE RO UN CR A E. generalize orders_root orders_app orders. intros root pr j W NW FT NR SC ONE RO UN CR A E.
  exact (there_takes j pr doc root 39 W NW CR FT SC ONE NR RO UN ex_int (fun _ => Err ValueError) (fun _ => lit "?") (fun _ => Err ValueError) (fun _ => Err ValueError) (fun _ => None) (fun _ => true) ts v 20 rd x r A P E).
Qed.
Local Ltac is_proper := repeat first [apply proper_dict; [repeat constructor; cbn; intuition discriminate|] | apply pr_list | apply Forall_cons; cbn [snd] | apply Forall_nil | apply pr_plain; discriminate].
(** also where schemas refer to themselves *)
Definition an_order : M_Prim.value :=
  vd [("items"%string, M_Prim.VList [vd [("name"%string, vs "ab"); ("parts"%string, M_Prim.VList [vd [("name"%string, vs "c"); ("kind"%string, vs "new")]])]]); ("note"%string, vs "3")].
Definition the_order : M_Prim.prim := Eval vm_compute in match ex_produced false (definition "Order") an_order with Ok r => r | Err _ => M_Prim.PNone end.
Example c67_ex : (exists ts, schema_at orders_root ts (definition "Order")) /\ proper an_order /\ ex_produced false (definition "Order") an_order = Ok the_order /\ ex_takes false (definition "Order") an_order the_order /\
  the_order = M_Prim.PModel [(lit "items", M_Prim.PArray (lit "csv") [M_Prim.PModel [(lit "name", M_Prim.PStr (lit "ab"));
    (lit "parts", M_Prim.PArray (lit "csv") [M_Prim.PModel [(lit "name", M_Prim.PStr (lit "c")); (lit "kind", M_Prim.PStr (lit "new")); (lit "count", M_Prim.PInt 1)]]); (lit "count", M_Prim.PInt 1)]]); (lit "note", M_Prim.PInt 3)].
Proof.
  split; [exact order_at|]. assert (P : proper an_order) by (unfold an_order; is_proper). split; [exact P|]. assert (E : ex_produced false (definition "Order") an_order = Ok the_order) by (vm_compute; reflexivity).
  split; [exact E|]. split; [destruct order_at as (ts & A); exact (ex_sound ts _ _ _ _ A P E)|reflexivity].
Qed.
(** what is wrong somewhere is refused *)
Example c67_refused_ex :
  (exists m, ex_produced false (definition "Item") (vd [("name"%string, vs "ab"); ("id"%string, M_Prim.VInt 3)]) = Err m) /\
  (exists r, ex_produced true (definition "Item") (vd [("name"%string, vs "ab"); ("id"%string, M_Prim.VInt 3)]) = Ok r) /\
  (exists m, ex_produced false (definition "Order") (vd [("items"%string, M_Prim.VList [])]) = Err m) /\
  (exists m, ex_produced false (definition "Order") (vd [("items"%string, M_Prim.VList [vd [("name"%string, vs "abcdef")]])]) = Err m) /\
  (exists m, ex_produced false (definition "Order") (vd [("items"%string, M_Prim.VList [vd [("name"%string, vs "ab"); ("kind"%string, vs "none")]])]) = Err m) /\
  (exists m, ex_produced false (definition "Order") (vd [("items"%string, M_Prim.VList [vd [("kind"%string, vs "new")]])]) = Err m).
Proof. repeat (match goal with |- _ /\ _ => split end); eexists; vm_compute; reflexivity. Qed.

(** ** What is not as documents declare *)
Definition of_orders (n : string) (s : val) : Prop := s = definition n /\ exists ts, schema_at orders_root ts s.
(** readOnly properties are refused in the object that is sent, but are sent in objects inside it; *)
Theorem c67_readonly_refuted : exists order items item id x y, of_orders "Order" order /\ has_property order (lit "items") items /\ field_of items (lit "items") = Some item /\ text_at item "$ref" (T_Prepare.there ++ lit "#/definitions/Item") /\
  of_orders "Item" id /\ (exists p, has_property id (lit "id") p /\ switched_on p "readOnly") /\
  (exists m, ex_produced false id x = Err m) /\ ex_produced false order (vd [("items"%string, M_Prim.VList [x])]) = Ok (M_Prim.PModel [(lit "items", M_Prim.PArray (lit "csv") [y])]) /\
  exists m, y = M_Prim.PModel m /\ sget (lit "id") m = Some (M_Prim.PInt 3).
Proof.
  exists (definition "Order"), (at_ orders_root ["definitions"; "Order"; "properties"; "items"]%string), (at_ orders_root ["definitions"; "Order"; "properties"; "items"; "items"]%string), (definition "Item"), (vd [("name"%string, vs "ab"); ("id"%string, M_Prim.VInt 3)]). eexists.
  split; [split; [reflexivity|exact order_at]|]. split; [eexists; split; vm_compute; reflexivity|]. split; [vm_compute; reflexivity|]. split; [vm_compute; reflexivity|]. split; [split; [reflexivity|exact item_at]|].
  split; [exists (at_ orders_root ["definitions"; "Item"; "properties"; "id"]%string); split; [eexists; split; vm_compute; reflexivity|eexists; split; [vm_compute; reflexivity|intro Z; inversion Z]]|].
  split; [eexists; vm_compute; reflexivity|]. split; [vm_compute; reflexivity|]. eexists. split; vm_compute; reflexivity.
Qed.
(** so are those where it is the schema referred to that is readOnly; *)
Theorem c67_readonly_target_refuted : exists item p s m, of_orders "Item" item /\ has_property item (lit "stamp") p /\ text_at p "$ref" (T_Prepare.there ++ lit "#/definitions/Stamp") /\ s = definition "Stamp" /\ switched_on s "readOnly" /\
  ex_produced false item (vd [("name"%string, vs "ab"); ("stamp"%string, vs "a")]) = Ok (M_Prim.PModel m) /\ sget (lit "stamp") m = Some (M_Prim.PStr (lit "a")).
Proof.
  exists (definition "Item"), (at_ orders_root ["definitions"; "Item"; "properties"; "stamp"]%string), (definition "Stamp"). eexists.
  split; [split; [reflexivity|exact item_at]|]. split; [eexists; split; vm_compute; reflexivity|]. split; [vm_compute; reflexivity|]. split; [reflexivity|]. split; [eexists; split; [vm_compute; reflexivity|intro Z; inversion Z]|]. split; vm_compute; reflexivity.
Qed.
(** null is taken for required properties whatever their type; *)
Theorem c67_null_refuted : exists item p m, of_orders "Item" item /\ requires item (lit "name") /\ has_property item (lit "name") p /\ of_type p "string" /\
  ex_produced false item (vd [("name"%string, M_Prim.VNull)]) = Ok (M_Prim.PModel m) /\ sget (lit "name") m = Some M_Prim.PNone.
Proof.
  exists (definition "Item"), (at_ orders_root ["definitions"; "Item"; "properties"; "name"]%string). eexists.
  split; [split; [reflexivity|exact item_at]|]. split; [eexists; split; [vm_compute; reflexivity|now left]|]. split; [eexists; split; vm_compute; reflexivity|]. split; [vm_compute; reflexivity|]. split; vm_compute; reflexivity.
Qed.
(** defaults of schemas that properties refer to are not filled in; *)
Theorem c67_default_refuted : exists item p s m, of_orders "Item" item /\ has_property item (lit "more") p /\ text_at p "$ref" (T_Prepare.there ++ lit "#/definitions/Count") /\ s = definition "Count" /\ field_of s (lit "default") = Some (VInt 1) /\
  ex_produced false item (vd [("name"%string, vs "ab")]) = Ok (M_Prim.PModel m) /\ sget (lit "more") m = None /\ sget (lit "count") m = Some (M_Prim.PInt 1).
Proof.
  exists (definition "Item"), (at_ orders_root ["definitions"; "Item"; "properties"; "more"]%string), (definition "Count"). eexists.
  split; [split; [reflexivity|exact item_at]|]. split; [eexists; split; vm_compute; reflexivity|]. split; [vm_compute; reflexivity|]. split; [reflexivity|]. split; [vm_compute; reflexivity|]. split; [vm_compute; reflexivity|]. split; vm_compute; reflexivity.
Qed.
(** the empty schema, which is to take any value, takes objects only, *)
Theorem c67_any_refuted : exists s m, of_orders "Any" s /\ (exists d defs, orders = JObj d /\ sget (lit "definitions") d = Some (JObj defs) /\ sget (lit "Any") defs = Some (JObj [])) /\ ex_produced false s (vs "abc") = Err m.
Proof.
  exists (definition "Any"). eexists. split; [split; [reflexivity|eapply definition_at; vm_compute; reflexivity]|]. split; [|vm_compute; reflexivity]. do 2 eexists. split; [unfold orders; reflexivity|]. split; vm_compute; reflexivity.
Qed.
(** and without a type, properties or further properties nothing is made of any value, not even of objects. *)
Theorem c67_nothing_refuted : exists s, of_orders "None" s /\ untyped s /\ (forall k p, ~ has_property s k p) /\ field_of s (lit "additionalProperties") = Some (VBool false) /\
  ex_produced false s (vs "abc") = Ok M_Prim.PNone /\ ex_produced false s (vd []) = Ok M_Prim.PNone.
Proof.
  exists (definition "None"). split; [split; [reflexivity|eapply definition_at; vm_compute; reflexivity]|]. split; [left; vm_compute; reflexivity|]. split; [|split; [vm_compute; reflexivity|split; vm_compute; reflexivity]].
  intros k p (d & E & G). assert (X : field_of (definition "None") (lit "properties") = Some (VDict [])) by (vm_compute; reflexivity). rewrite X in E. injection E as <-. discriminate G.
Qed.
Print Assumptions c67_readonly_refuted.
Print Assumptions c67_readonly_target_refuted.
Print Assumptions c67_null_refuted.
Print Assumptions c67_default_refuted.
Print Assumptions c67_any_refuted.
Print Assumptions c67_nothing_refuted.

(** ** Composed schemas *)
Definition gifts : json := JObj
  [(lit "swagger", t "2.0"); (lit "paths", JObj []);
   (lit "definitions", JObj
     [(lit "Part", JObj [(lit "properties", JObj [(lit "name", ty "string" [(lit "maxLength", JInt 5)]); (lit "size", ty "integer" [(lit "default", JInt 2)])]); (lit "required", JList [t "name"]); (lit "additionalProperties", JBool false)]);
      (lit "Gift", JObj [(lit "allOf", JList [ref "#/definitions/Part"; JObj [(lit "properties", JObj [(lit "color", ty "string" [])]); (lit "additionalProperties", ty "integer" [])]]);
         (lit "properties", JObj [(lit "card", ty "string" [])]); (lit "required", JList [t "card"]); (lit "additionalProperties", JBool false)])])].
Lemma found_here root objs p x : wfv root -> is_obj root -> traverse root [] = Ok objs -> find (fun po => str_eqb (fst po) p) objs = Some x -> same_class CSchema (snd x) = true -> exists ts, fst x = rfc_pointer (lit "#") ts /\ schema_at root ts (snd x).
Proof.
  intros W O TR F C. apply find_some in F as (F & _). destruct (traverse_ok root [] W O) as (r & E & I & _). rewrite TR in E. injection E as <-. destruct x as (q & s). apply I in F as (ts & Q & R & _). exists ts. split; [exact Q|]. split; [exact R|]. now apply schema_same.
Qed.
Definition gifts_app : prepared := match create_app (fun s => s) (fun s => s) (T_Prepare.web gifts) (fun _ => false) (fun _ => Err ValueError) SCOPE_SEPARATOR 20 T_Prepare.there false with Ok pr => pr | Err _ => no_app end.
Definition gifts_root : val := root_of gifts_app.
Lemma gifts_made : create_app (fun s => s) (fun s => s) (T_Prepare.web gifts) (fun _ => false) (fun _ => Err ValueError) SCOPE_SEPARATOR 20 T_Prepare.there false = Ok gifts_app. Proof. vm_compute. reflexivity. Qed.
Notation gifts_produced rd v x :=
  (produced (fun s => s) (fun s => s) (T_Prepare.web gifts) (fun _ => false) (fun _ => Err ValueError) SCOPE_SEPARATOR 19 gifts_app
    ex_int (fun _ => Err ValueError) (fun _ => lit "?") (fun _ => Err ValueError) (fun _ => Err ValueError) (fun _ => None) (fun _ => true) 20 rd v x).
Definition gift : val := at_ gifts_root ["definitions"; "Gift"]%string.
Definition part : val := at_ gifts_root ["definitions"; "Part"]%string.
Definition link : val := at_ gifts_root ["definitions"; "Gift"; "allOf"; "0"]%string.
Definition rest : val := at_ gifts_root ["definitions"; "Gift"; "allOf"; "1"]%string.
Section There2.
  Context (j : json) (pr : prepared) (doc root : val) (f : nat).
  Hypothesis W : forall s x, T_Prepare.web j s = Ok x -> wf x.
  Hypothesis NW : forall s x v, T_Prepare.web j s = Ok x -> version_of x = Ok v -> is_version v "1.2" = false.
  Hypothesis CR : create_app (fun s => s) (fun s => s) (T_Prepare.web j) (fun _ => false) (fun _ => Err ValueError) SCOPE_SEPARATOR (S f) T_Prepare.there false = Ok pr.
  Hypothesis FT : found_there (T_Prepare.web j) T_Prepare.there T_Prepare.there pr doc root.
  Notation there := T_Prepare.there.
  Hypothesis SC : self_contained (fun s => s) (fun s => s) there root.
  Hypothesis ONE : a_objs (pr_app pr) = [(there, Whole (0, root))].
  Hypothesis NR : forall k pi, path_item doc k pi -> field_of pi (lit "$ref") = Some VNone.
  Hypothesis RO : forall ts s, schema_at root ts s -> schema_order s.
  Context (int_of : str -> res Z) (float_of : str -> res Q) (str_of : M_Prim.value -> str)
    (date_at : Q -> res (Z * Z * Z)) (datetime_at : Q -> res M_Time.datetime) (uuid_of : str -> option Z) (email_ok : str -> bool).
  Notation produced := (produced (fun s => s) (fun s => s) (T_Prepare.web j) (fun _ => false) (fun _ => Err ValueError) SCOPE_SEPARATOR f pr int_of float_of str_of date_at datetime_at uuid_of email_ok).
  Notation stands := (S_Compose.stands (fun s => s) (fun s => s) there root).
  Lemma there_known ts v : schema_at root ts v -> known (fun s => s) (fun s => s) there root v.
  Proof. exact (known_at (fun s => s) (fun s => s) (T_Prepare.web j) (fun _ => false) (fun _ => Err ValueError) SCOPE_SEPARATOR f W NW there there there false pr (proj1 there_ok) (proj1 (proj2 there_ok)) (proj2 (proj2 there_ok)) CR doc root FT SC RO ts v). Qed.
  Lemma there_composed ts v e l ms limit rd d r : schema_at root ts v -> stands v e -> field_of e (lit "allOf") = Some (VList l) -> Forall2 stands l ms -> object_decl e ->
    (forall s k, In s (e :: ms) -> ~ text_at s "discriminator" k) -> (forall s p, In s (e :: ms) -> next s p -> simple (fun s => s) (fun s => s) there root p) ->
    proper (M_Prim.VDict d) -> (exists k p, has_property e k p /\ (sget k d <> None \/ says p (lit "default"))) ->
    produced limit rd v (M_Prim.VDict d) = Ok r -> exists m, r = M_Prim.PModel m /\ joined (fun s => s) (fun s => s) there root int_of float_of str_of date_at datetime_at uuid_of email_ok (e :: ms) d m.
  Proof.
    intros A SE AL FM O ND SI P EX E. exact (c67_composed (fun s => s) (fun s => s) (T_Prepare.web j) (fun _ => false) (fun _ => Err ValueError) SCOPE_SEPARATOR f W NW there there there false pr (proj1 there_ok) (proj1 (proj2 there_ok)) (proj2 (proj2 there_ok)) CR doc root FT SC ONE NR RO
      int_of float_of str_of date_at datetime_at uuid_of email_ok v (there_known ts v A) e l ms SE AL FM O ND SI limit rd d r P EX E).
  Qed.
End There2.
(** Schemas without references that hold no schemas *)
Definition leafb (s : val) : bool :=
  match field_of s (lit "$ref") with Some VNone => true | _ => false end && uncomposedb s &&
  match field_of s (lit "items") with Some VNone => true | _ => false end && match field_of s (lit "properties") with Some (VDict []) => true | _ => false end &&
  match field_of s (lit "additionalProperties") with Some (VBool _) => true | _ => false end.
Lemma leafb_ok abs_uri win_uri u root s : leafb s = true -> simple abs_uri win_uri u root s.
Proof.
  intro E. unfold leafb in E. apply andb_prop in E as (E & Ad). apply andb_prop in E as (E & Pr). apply andb_prop in E as (E & It). apply andb_prop in E as (Rf & Un). apply uncomposedb_ok in Un.
  assert (SE : forall e, S_Compose.stands abs_uri win_uri u root s e -> e = s). { intros e H. inversion H as [|? r ts x ? (N & F) _ _]; subst; [reflexivity|]. rewrite F in Rf. discriminate Rf. }
  assert (NX : forall p, ~ next s p).
  { intros p [(F & O)|[(k & d & F & G)|(F & O)]].
    - rewrite F in It. destruct p; try discriminate It. destruct O.
    - rewrite F in Pr. destruct d; [discriminate G|discriminate Pr].
    - rewrite F in Ad. destruct p; try discriminate Ad. destruct O. }
  intros e I. inversion I as [? ? H|? e' p ? H N _]; subst.
  - rewrite (SE e H). exact Un.
  - rewrite (SE _ H) in N. destruct (NX p N).
Qed.
(** All that the schema holds is so. *)
Definition leavesb (s : val) : bool :=
  match field_of s (lit "items") with Some VNone => true | _ => false end && match field_of s (lit "properties") with Some (VDict d) => forallb (fun kv : str * val => leafb (snd kv)) d | _ => false end &&
  match field_of s (lit "additionalProperties") with Some (VBool _) => true | Some x => leafb x | None => false end.
Lemma leavesb_ok abs_uri win_uri u root s p : leavesb s = true -> next s p -> simple abs_uri win_uri u root p.
Proof.
  intros E N. apply leafb_ok. unfold leavesb in E. apply andb_prop in E as (E & Ad). apply andb_prop in E as (It & Pr). destruct N as [(F & O)|[(k & d & F & G)|(F & O)]].
  - rewrite F in It. destruct p; try discriminate It. destruct O.
  - rewrite F in Pr. rewrite forallb_forall in Pr. apply sget_In in G. exact (Pr _ G).
  - rewrite F in Ad. destruct p; try destruct O. exact Ad.
Qed.
Definition a_gift : sdict M_Prim.value := map (fun kv => (lit (fst kv), snd kv)) [("card"%string, vs "hi"); ("name"%string, vs "n"); ("color"%string, vs "red"); ("other"%string, vs "7")].
Definition the_gift : sdict M_Prim.prim := Eval vm_compute in match gifts_produced false gift (M_Prim.VDict a_gift) with Ok (M_Prim.PModel m) => m | _ => [] end.
Example c67_composed_ex : gifts_produced false gift (M_Prim.VDict a_gift) = Ok (M_Prim.PModel the_gift) /\
  the_gift = [(lit "card", M_Prim.PStr (lit "hi")); (lit "name", M_Prim.PStr (lit "n")); (lit "size", M_Prim.PInt 2); (lit "color", M_Prim.PStr (lit "red")); (lit "other", M_Prim.PInt 7)] /\
  field_of gift (lit "allOf") = Some (VList [link; rest]) /\
  joined (fun s => s) (fun s => s) T_Prepare.there gifts_root ex_int (fun _ => Err ValueError) (fun _ => lit "?") (fun _ => Err ValueError) (fun _ => Err ValueError) (fun _ => None) (fun _ => true) [gift; part; rest] a_gift the_gift.
Proof.
  assert (E : gifts_produced false gift (M_Prim.VDict a_gift) = Ok (M_Prim.PModel the_gift)) by (vm_compute; reflexivity). split; [exact E|]. split; [reflexivity|]. assert (AL : field_of gift (lit "allOf") = Some (VList [link; rest])) by (vm_compute; reflexivity). split; [exact AL|].
  assert (W : forall s x, T_Prepare.web gifts s = Ok x -> wf x) by (apply T_Prepare.web_wf, wfb_ok; vm_compute; reflexivity).
  assert (NW : forall s x v, T_Prepare.web gifts s = Ok x -> version_of x = Ok v -> is_version v "1.2" = false).
  { intros s x v G V. unfold T_Prepare.web in G. destruct (str_eqb s T_Prepare.there); [|discriminate G]. injection G as <-. vm_compute in V. injection V as <-. reflexivity. }
  assert (FT : exists doc, found_there (T_Prepare.web gifts) T_Prepare.there T_Prepare.there gifts_app doc gifts_root /\ forall k pi, path_item doc k pi -> field_of pi (lit "$ref") = Some VNone).
  { eexists. split; [do 2 eexists; split; [vm_compute; reflexivity|]; split; [vm_compute; reflexivity|]; split; [vm_compute; reflexivity|]; split; vm_compute; reflexivity|]. apply no_reference_ok. vm_compute. reflexivity. }
  destruct FT as (doc & FT & NR). assert (WR : wfv gifts_root) by exact (there_wf gifts gifts_app doc gifts_root 19 W NW gifts_made FT). assert (O : is_obj gifts_root) by (vm_compute; exact Logic.I). assert (TR : traverse gifts_root [] = Ok (objs_of gifts_root)) by (vm_compute; reflexivity).
  assert (SC : self_contained (fun s => s) (fun s => s) T_Prepare.there gifts_root) by (apply self_contained_ok with (objs_of gifts_root); [exact WR|exact O|exact TR|vm_compute; reflexivity]).
  assert (ONE : a_objs (pr_app gifts_app) = [(T_Prepare.there, Whole (0, gifts_root))]) by (vm_compute; reflexivity).
  assert (RO : forall ts s, schema_at gifts_root ts s -> schema_order s) by (intros ts s A; apply schema_orderb_ok; apply (all_checked schema_orderb gifts_root (objs_of gifts_root) WR O TR) with ts; [vm_compute; reflexivity|exact A]).
  assert (GA : exists ts, fst (lit "#/definitions/Gift", gift) = rfc_pointer (lit "#") ts /\ schema_at gifts_root ts (snd (lit "#/definitions/Gift", gift))) by (apply (found_here gifts_root (objs_of gifts_root) (lit "#/definitions/Gift")); [exact WR|exact O|exact TR|vm_compute; reflexivity|vm_compute; reflexivity]).
  assert (PA : exists ts, fst (lit "#/definitions/Part", part) = rfc_pointer (lit "#") ts /\ schema_at gifts_root ts (snd (lit "#/definitions/Part", part))) by (apply (found_here gifts_root (objs_of gifts_root) (lit "#/definitions/Part")); [exact WR|exact O|exact TR|vm_compute; reflexivity|vm_compute; reflexivity]).
  cbn [fst snd] in GA, PA. destruct GA as (tg & _ & GA), PA as (tp & TP & PA).
  assert (ST : S_Compose.stands (fun s => s) (fun s => s) T_Prepare.there gifts_root gift gift) by (constructor; exists VNone; split; [vm_compute; reflexivity|constructor]).
  assert (SP : S_Compose.stands (fun s => s) (fun s => s) T_Prepare.there gifts_root link part).
  { assert (LR : S_MergeRef.refers link (T_Prepare.there ++ lit "#/definitions/Part")) by (split; [discriminate|vm_compute; reflexivity]). assert (JS : jr_split (fun s => s) (fun s => s) (T_Prepare.there ++ lit "#/definitions/Part") = Ok (T_Prepare.there, rfc_pointer (lit "#") tp)) by (rewrite <- TP; vm_compute; reflexivity).
    assert (SQ : S_Compose.stands (fun s => s) (fun s => s) T_Prepare.there gifts_root part part) by (constructor; exists VNone; split; [vm_compute; reflexivity|constructor]).
    clear - LR JS SQ PA. refine (S_Compose.stands_other _ _ _ _ link _ tp part part LR _ SQ). split; [discriminate|split; [exact JS|exact PA]]. }
  assert (SR : S_Compose.stands (fun s => s) (fun s => s) T_Prepare.there gifts_root rest rest) by (constructor; exists VNone; split; [vm_compute; reflexivity|constructor]).
  assert (FM : Forall2 (S_Compose.stands (fun s => s) (fun s => s) T_Prepare.there gifts_root) [link; rest] [part; rest]) by (constructor; [exact SP|constructor; [exact SR|constructor]]).
  assert (OD : object_decl gift) by (right; split; [left; vm_compute; reflexivity|left; eexists (lit "card"), (at_ gifts_root ["definitions"; "Gift"; "properties"; "card"]%string), _; split; vm_compute; reflexivity]).
  assert (ND : forall s k, In s [gift; part; rest] -> ~ text_at s "discriminator" k) by (intros s k [<-|[<-|[<-|[]]]]; vm_compute; discriminate).
  assert (SI : forall s p, In s [gift; part; rest] -> next s p -> simple (fun s => s) (fun s => s) T_Prepare.there gifts_root p) by (assert (LV : forallb leavesb [gift; part; rest] = true) by (vm_compute; reflexivity); rewrite forallb_forall in LV; intros s p I; apply leavesb_ok, LV, I).
  assert (P : proper (M_Prim.VDict a_gift)) by (apply (proper_dict [("card"%string, vs "hi"); ("name"%string, vs "n"); ("color"%string, vs "red"); ("other"%string, vs "7")]); [repeat constructor; cbn; intuition discriminate|repeat constructor; discriminate]).
  assert (EX : exists k p, has_property gift k p /\ (sget k a_gift <> None \/ says p (lit "default"))) by (exists (lit "card"), (at_ gifts_root ["definitions"; "Gift"; "properties"; "card"]%string); split; [eexists; split; vm_compute; reflexivity|left; vm_compute; discriminate]).
  pose proof gifts_made as CR. revert W NW CR FT NR SC ONE RO GA ST AL FM OD ND SI EX E. clear - P. generalize gifts_root gifts_app gifts gift part rest link the_gift. intros root pr j g q s1 s2 m W NW CR FT NR SC ONE RO GA ST AL FM OD ND SI EX E.
  destruct (there_composed j pr doc root 19 W NW CR FT SC ONE NR RO _ _ _ _ _ _ _ _ g g _ _ _ _ _ _ GA ST AL FM OD ND SI P EX E) as (m' & X & JO). injection X as ->. exact JO.
Qed.
