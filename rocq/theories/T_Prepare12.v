(** C58: what an application is after it has been created from the URL of a 1.2 listing. *)
From Verif Require Import PyBase PyFacts PyInt PyJson M_JsonPtr S_JsonPtr M_Url P_Op M_SpecVal M_Parse M_SpecTree M_MergeRef S_Parse S_SpecTree S_Merge S_MergeRef P_SpecBase P_SpecTree P_App P_Deep M_Scope M_Patch S_Patch M_App S_App M_Validate S_Validate M_OldParse S_OldParse M_OldValidate S_OldValidate M_Upgrade S_Upgrade P_UpgradeEnd M_Prepare S_Prepare P_Prepare5 P_Prepare6 P_Prepare7 S_Convert P_Convert4 P_Convert5.
From Verif Require Import P_Wf.
From Verif Require T_OldParse T_App T_Scope T_Upgrade T_OldValidate P_Grown.
Close Scope Q_scope.

Section Created.
  (** What the model leaves open: how paths of files become URLs, what is found at a URL, which
      names 1.2 knows as primitive types, how texts become numbers; and the separator of names. *)
  Context (abs_uri win_uri : str -> str) (fetch : str -> res json) (prim : str -> bool) (float_of : str -> res Q) (sep : str) (fuel : nat).
  Notation create_app := (create_app abs_uri win_uri fetch prim float_of sep fuel).
  Notation solve := (resolvef abs_uri win_uri fetch (parse_listing fetch) (convert_doc prim float_of sep) as_given).
  (** Documents are JSON objects without repeated keys. *)
  Hypothesis JD : forall j x, fetch j = Ok x -> wf x.
  (** An application is created from the URL of a whole document, which is of version 1.2. *)
  Context (url nu u : str) (strict : bool) (pr : prepared) (j : json) (ver : option json).
  Hypothesis N : normalize_url abs_uri win_uri url = Ok nu.
  Hypothesis J : jr_split abs_uri win_uri nu = Ok (u, lit "#").
  Hypothesis U : u <> [].
  Hypothesis FJ : fetch nu = Ok j.
  Hypothesis VJ : version_of j = Ok ver.
  Hypothesis OLD : is_version ver "1.2" = true.
  Hypothesis CR : create_app url strict = Ok pr.

  (** [raw] is the listing with its resources, [sw] what it is converted to (C44), [doc] that
      document with all its parts at their places and complete references, and [root] what the
      application has for it. *)
  Definition found12 (raw sw doc root : val) : Prop :=
    parse_listing fetch nu j = Ok raw /\ upgrade prim float_of sep raw = Ok sw /\ (exists v, convert_doc prim float_of sep raw = Ok v /\ norm_refs u v = Ok doc) /\
    a_root (pr_app pr) = Some (0, root) /\ whole (pr_app pr) u (0, root).
  Lemma all_steps : exists raw sw doc mid root objs l, found12 raw sw doc root /\ loaded12 raw /\ brought u [] sw doc /\ shaped (Of CSwagger) sw /\ shaped (Of CSwagger) doc /\
    steps abs_uri win_uri fetch prim float_of sep fuel true nu u strict (Old raw) pr doc mid root objs l.
  Proof.
    assert (L : exists raw, load_obj fetch (parse_listing fetch) nu None = Ok (Old raw, lit "1.2") /\ parse_listing fetch nu j = Ok raw).
    { unfold M_Prepare.create_app in CR. rewrite N in CR. cbn [bind] in CR. apply bind_ok in CR as ((o & v) & L & _). pose proof L as L'. unfold load_obj in L'. rewrite FJ in L'. cbn [bind] in L'. rewrite VJ in L'. cbn [bind] in L'. rewrite OLD in L'. apply bind_ok in L' as (raw & P & E). injection E as <- <-. eauto. }
    destruct L as (raw & L & P). destruct (load_old fetch JD _ _ _ _ L) as (_ & LD & _).
    assert (SW : forall v0, normalised (convert_doc prim float_of sep) as_given (App [] None true 0) (Old raw) u = Ok v0 -> exists sw, upgrade prim float_of sep raw = Ok sw /\ (exists v, convert_doc prim float_of sep raw = Ok v /\ norm_refs u v = Ok v0) /\ brought u [] sw v0 /\ shaped (Of CSwagger) sw /\ shaped (Of CSwagger) v0).
    { intros v0 NV. unfold normalised in NV. cbn [a_old] in NV. apply bind_ok in NV as (v & CV & NV). pose proof CV as CV'. unfold convert_doc in CV'. apply bind_ok in CV' as (sw & UP & AS).
      destruct (converted_deep prim float_of sep _ _ _ _ _ LD UP AS NV) as (MV & NM & _ & S1 & _ & S2). exists sw. split; [exact UP|]. split; [eauto|]. split; [exists None, v; auto|]. auto. }
    destruct (steps_ok abs_uri win_uri fetch prim float_of sep fuel true (old_deep fetch prim float_of sep JD) url strict nu u pr (Old raw) (lit "1.2") N J U L eq_refl (fun v0 NV => let '(ex_intro _ _ H) := SW v0 NV in proj2 (proj2 (proj2 (proj2 H)))) CR) as (doc & mid & root & objs & l & ST).
    destruct (SW _ (st_norm _ _ _ _ _ _ _ _ _ _ _ _ _ _ _ _ _ _ ST)) as (sw & UP & CV & BR & S1 & S2). exists raw, sw, doc, mid, root, objs, l.
    split; [|auto 10]. split; [exact P|]. split; [exact UP|]. split; [exact CV|]. split; [exact (st_root _ _ _ _ _ _ _ _ _ _ _ _ _ _ _ _ _ _ ST)|exact (st_whole _ _ _ _ _ _ _ _ _ _ _ _ _ _ _ _ _ _ ST)].
  Qed.
  (** There are such documents. *)
  Theorem c58_document : exists raw sw doc root, found12 raw sw doc root /\ loaded12 raw /\ brought u [] sw doc.
  Proof. destruct all_steps as (raw & sw & doc & mid & root & objs & l & F & LD & BR & _). exists raw, sw, doc, root. auto. Qed.
  Context (raw sw doc root : val).
  Hypothesis FT : found12 raw sw doc root.
  Lemma here : exists mid objs l, loaded12 raw /\ upgrade prim float_of sep raw = Ok sw /\ brought u [] sw doc /\ shaped (Of CSwagger) sw /\ shaped (Of CSwagger) doc /\
    steps abs_uri win_uri fetch prim float_of sep fuel true nu u strict (Old raw) pr doc mid root objs l.
  Proof.
    destruct all_steps as (raw' & sw' & doc' & mid & root' & objs & l & (P & UP & (v & CV & NV) & RT & _) & LD & BR & S1 & S2 & ST). destruct FT as (P' & UP' & (v' & CV' & NV') & RT' & _).
    assert (raw' = raw) as -> by congruence. assert (sw' = sw) as -> by congruence. assert (root' = root) as -> by congruence. assert (v' = v) as -> by congruence. assert (doc' = doc) as -> by congruence. exists mid, objs, l. auto 10.
  Qed.
  (** Every object of the converted document is in the application and knows its place.  Its
      fields that hold no lists, dicts or objects are as they were (references are complete),
      except those of path items and those that operations inherit. *)
  Theorem c58_rest : forall ts h fs ints, reach [] sw ts (VObj h fs ints) -> exists g es jnts, reach [] root ts (VObj g es jnts) /\ h_cls g = h_cls h /\ h_place g = ts /\
    forall n x, sget n fs = Some x -> not_container x -> h_cls h <> CPathItem -> ~ (h_cls h = COperation /\ In n op_fields) ->
      exists y, sget n es = Some y /\ (ref_class (h_cls h) /\ n = lit "$ref" /\ completed_ref u x y \/ ~ (ref_class (h_cls h) /\ n = lit "$ref") /\ y = x).
  Proof.
    intros ts h fs ints R. destruct here as (mid & objs & l & LD & UP & BR & S1 & S2 & ST). destruct (brought_reach u _ _ _ R Logic.I [] _ BR) as (o' & R' & BO). cbn [List.app] in BO. apply brought_obj in BO as (g & es & -> & CG & PG & _ & F).
    destruct (done_rest _ _ _ _ _ _ _ _ _ _ _ _ _ _ _ _ _ _ ST ts g es ints R') as (g' & es' & jnts & RR & CG' & PG' & FR). exists g', es', jnts. split; [exact RR|]. split; [congruence|]. split; [congruence|].
    intros n x X NC NP NO. destruct (F _ _ X) as (z & Z & D). exists z. assert (NZ : not_container z) by (destruct D as [(_ & _ & CF)|(_ & BZ)]; [inversion CF; exact Logic.I|now rewrite (brought_plain _ _ _ _ NC BZ)]).
    split; [apply FR; auto; congruence|]. destruct D as [D|(D & BZ)]; [left; exact D|right; split; [exact D|exact (brought_plain _ _ _ _ NC BZ)]].
  Qed.

  Section Based.
    (** All operations of the listing are below [base], that of [host], or there is no host at all. *)
    Context (host base : str).
    Hypothesis BA : based raw host base.
    (** The operation [O] of the resource at [r] that is the first one with its path and method
        (others are lost, C44) is offered: it has its URL, method, path and schemes, and what C44
        makes of it. *)
    Theorem c58_operation : forall r n R O p m, first_at raw r n R O (base ++ p) m ->
      exists ps op0 pi op s h, parameters_for prim float_of sep r O ps /\ operation_for prim float_of sep (rfc_escape r) R O ps op0 /\ path_item root p pi /\ operation pi m op /\
        urlparse nu = Ok s /\ host_now host (u_netloc s) h /\ offers abs_uri win_uri u doc h p m op0 op.
    Proof. intros r n R O p m FA. destruct here as (mid & objs & l & LD & UP & BR & S1 & S2 & ST). exact (offered _ _ _ _ _ _ _ _ _ _ _ _ _ _ _ _ _ _ ST LD UP BR S1 S2 host base BA r n R O p m FA). Qed.
    (** There are no other operations. *)
    Theorem c58_no_other : forall p m pi op, path_item root p pi -> operation pi m op -> exists r n R O, first_at raw r n R O (base ++ p) m.
    Proof.
      intros p m pi' op' PI' OP'. destruct here as (mid & objs & l & LD & UP & BR & S1 & S2 & ST).
      destruct (done_back _ _ _ _ _ _ _ _ _ _ _ _ _ _ _ _ _ _ ST S2 p m pi' op' PI' OP') as (pi & op & PI & OP).
      { intros pi PI. now destruct (item_doc _ _ _ _ _ _ _ _ _ _ _ _ _ _ _ _ _ _ ST LD UP BR S1 S2 host base BA _ _ PI) as (pi0 & _ & _ & NR & _). }
      destruct (item_doc _ _ _ _ _ _ _ _ _ _ _ _ _ _ _ _ _ _ ST LD UP BR S1 S2 host base BA _ _ PI) as (pi0 & PI0 & BP & _). pose proof PI0 as (_ & _ & _ & (h0 & f0 & i0 & -> & C0)). apply brought_obj in BP as (g & es & -> & _ & _ & K & F).
      destruct OP as (FO & (ho & fo & io & -> & CO)). cbn [field_of] in FO. destruct (P_Grown.same_keys _ _ _ _ K FO) as (x & X). destruct (F _ _ X) as (z & Z & [(_ & _ & CF)|(_ & BZ)]); rewrite FO in Z; injection Z as <-; [inversion CF|].
      apply brought_to_obj in BZ as (h1 & f1 & -> & C1). apply (T_Upgrade.c44_no_other prim float_of sep raw host base sw p m (VObj h1 f1 io) LD BA UP); [|exact Logic.I].
      apply (P_OldValidate.reach_app [] sw [lit "paths"; p] _ [m] _ (path_item_reach _ _ _ PI0)). econstructor; [intros []|exact X|constructor].
    Qed.
    (** Operations with nicknames are found by the name of the resource and the nickname.  *)
    Theorem c58_found : forall r n R O p m nick, first_at raw r n R O (base ++ p) m -> has_field O "nickname" (VStr nick) -> nick <> [] ->
      exists ptr ps op0 pi op s h, scope_getitem sep (pr_op pr) (KStr (scoped sep (rfc_escape r) nick)) = Ok ptr /\ (forall f c, solve (S f) (pr_app pr) (Some ptr) c = (pr_app pr, Ok (0, op))) /\
        parameters_for prim float_of sep r O ps /\ operation_for prim float_of sep (rfc_escape r) R O ps op0 /\ path_item root p pi /\ operation pi m op /\
        urlparse nu = Ok s /\ host_now host (u_netloc s) h /\ offers abs_uri win_uri u doc h p m op0 op.
    Proof.
      intros r n R O p m nick FA HN NN. destruct (c58_operation _ _ _ _ _ _ FA) as (ps & op0 & pi & op & s & h & PF & OF & PI & OP & US & HO & OFF). destruct here as (mid & objs & l & LD & UP & BR & S1 & S2 & ST).
      exists (rfc_pointer (lit "#") [lit "paths"; p; m]), ps, op0, pi, op, s, h. split; [|split; [|auto 10]].
      - pose proof OF as (nick' & su & no & de & co & pr0 & c & pd & c' & p' & au & ar & sec & resp & ty & HN' & _ & _ & _ & _ & _ & _ & _ & _ & _ & _ & _ & _ & _ & _ & b & _ & MA). rewrite (P_UpgradeObj.has_unique _ _ _ _ HN' HN) in MA.
        assert (TG : field_of op (lit "tags") = Some (VList [VStr (rfc_escape r)])) by (rewrite (of_fields _ _ _ _ _ _ _ _ _ OFF) by discriminate; eapply made_field; [exact MA|reflexivity|reflexivity]).
        assert (ID : field_of op (lit "operationId") = Some (VStr nick)) by (rewrite (of_fields _ _ _ _ _ _ _ _ _ OFF) by discriminate; eapply made_field; [exact MA|reflexivity|reflexivity]).
        eapply (done_found _ _ _ _ _ _ _ _ _ _ _ _ _ _ _ _ _ _ ST); [exact PI|exact OP|]. destruct (rfc_escape r) as [|a e] eqn:RE.
        + cbn [scoped]. eapply ka_plain; [exact TG| |exact ID|exact NN]. right. right. eauto.
        + destruct nick as [|b' nk]; [congruence|]. cbn [scoped]. apply (ka_tag sep op (a :: e) [] (b' :: nk)); auto; discriminate.
      - intros f c. apply (T_App.c43_local abs_uri win_uri fetch (parse_listing fetch) (convert_doc prim float_of sep) as_given f (pr_app pr) c 0 root).
        + exact (st_sound _ _ _ _ _ _ _ _ _ _ _ _ _ _ _ _ _ _ ST).
        + exact (st_root _ _ _ _ _ _ _ _ _ _ _ _ _ _ _ _ _ _ ST).
        + exact (operation_reach _ _ _ _ _ PI OP).
        + destruct OP as (_ & (? & ? & ? & -> & _)). exact Logic.I.
    Qed.
    (** There are no other names. *)
    Theorem c58_only : forall key ptr, In (key, ptr) (pr_op pr) ->
      exists r n R O p m nick, first_at raw r n R O (base ++ p) m /\ has_field O "nickname" (VStr nick) /\ nick <> [] /\ key = scoped sep (rfc_escape r) nick /\ ptr = rfc_pointer (lit "#") [lit "paths"; p; m].
    Proof.
      intros key ptr I. destruct here as (mid & objs & l & LD & UP & BR & S1 & S2 & ST). destruct (done_only _ _ _ _ _ _ _ _ _ _ _ _ _ _ _ _ _ _ ST _ _ I) as (k & m & pi & op & -> & PI & OP & KA).
      destruct (c58_no_other _ _ _ _ PI OP) as (r & n & R & O & FA). exists r, n, R, O, k, m. destruct (c58_operation _ _ _ _ _ _ FA) as (ps & op0 & pi' & op' & s & h & PF & OF & PI' & OP' & US & HO & OFF).
      assert (op' = op) as -> by exact (P_Grown.reach_fun _ _ _ (operation_reach _ _ _ _ _ PI OP) _ (operation_reach _ _ _ _ _ PI' OP')).
      pose proof OF as (nick & su & no & de & co & pr0 & c & pd & c' & p' & au & ar & sec & resp & ty & HN & _ & _ & _ & _ & _ & _ & _ & _ & _ & _ & _ & _ & _ & _ & b & _ & MA).
      assert (TG : field_of op (lit "tags") = Some (VList [VStr (rfc_escape r)])) by (rewrite (of_fields _ _ _ _ _ _ _ _ _ OFF) by discriminate; eapply made_field; [exact MA|reflexivity|reflexivity]).
      assert (ID : field_of op (lit "operationId") = Some nick) by (rewrite (of_fields _ _ _ _ _ _ _ _ _ OFF) by discriminate; eapply made_field; [exact MA|reflexivity|reflexivity]).
      destruct KA as [t ts id T TN D DN|a x id T D DN|v id T E D DN]; rewrite TG in T; rewrite ID in D.
      - injection D as ->. injection T as T _. exists id. split; [exact FA|]. split; [exact HN|]. split; [exact DN|]. split; [|reflexivity]. subst t. destruct (rfc_escape r); [congruence|]. destruct id; [congruence|reflexivity].
      - discriminate T.
      - injection D as ->. injection T as <-. exists id. split; [exact FA|]. split; [exact HN|]. split; [exact DN|]. split; [|reflexivity]. destruct E as [E|[(ts & E)|(ts & E)]]; [inversion E|discriminate E|]. injection E as E _. now rewrite E.
    Qed.
    (** The definitions: one for each model and each sub-type that is named, below the names C44
        gives them; and of these their models' ids are left as their names. *)
    Theorem c58_models : (forall s, In s (map fst (pr_m pr)) <-> (exists r k M, model_in raw r k M /\ model_named sep r M s) \/ named_subtype sep raw s) /\
      forall s x, sget s (pr_m pr) = Some x -> reach [] root [lit "definitions"; s] x /\ S_Patch.of_class CSchema x /\
        (exists x0 kvs, reach [] sw [lit "definitions"; s] x0 /\ definition_for sep raw s kvs x0 /\
          ((exists r k M, model_in raw r k M /\ model_named sep r M s /\ model_kvs prim float_of sep (rfc_escape r) M kvs) \/ ((forall r k M, model_in raw r k M -> ~ model_named sep r M s) /\ kvs = []))) /\
        forall p q, s = p ++ SCOPE_SEPARATOR ++ q -> p <> [] -> q <> [] -> (forall c, In c SCOPE_SEPARATOR -> ~ In c p /\ ~ In c q) -> internal_of x (lit "name") = Some (VStr q).
    Proof.
      destruct here as (mid & objs & l & LD & UP & BR & S1 & S2 & ST). destruct (sw_parts _ _ _ _ _ _ _ LD UP BR S1 host base BA) as (tags & paths & defs & secs & _ & _ & _ & (ND & ID & DD) & _ & _ & FD & _).
      destruct (shaped_swagger _ S1) as (h & fs & ints & ES & CS). pose proof BR as B. rewrite ES in B, FD. cbn [field_of] in FD. apply brought_obj in B as (g & es & ED & CG & _ & _ & F).
      destruct (F _ _ FD) as (z & Z & [(RC & _)|(_ & BZ)]); [rewrite CS in RC; destruct RC as [Q|[Q|[Q|[Q|[]]]]]; discriminate Q|]. apply brought_dict in BZ as (e & -> & K & FF).
      destruct (done_models _ _ _ _ _ _ _ _ _ _ _ _ _ _ _ _ _ _ ST S2 e) as (KM & MM); [rewrite ED; exact Z|]. split.
      - intro s. rewrite KM, K. apply ID.
      - intros s x X. destruct (MM _ _ X) as (R & C & _ & NM). split; [exact R|]. split; [exact C|]. split; [|exact (NM eq_refl)].
        assert (I : In s (map fst defs)) by (rewrite <- K, <- KM; apply sget_In in X; exact (in_map fst _ _ X)). apply keys_iff in I as (x0 & G). destruct (DD _ _ G) as (kvs & DF & D). exists x0, kvs.
        split; [|auto]. rewrite ES. econstructor; [intros []|exact FD|]. econstructor; [exact G|constructor].
    Qed.
    (** The authorizations are there by their names. *)
    Theorem c58_authorization : forall k A, authorization_in raw k A -> exists x h fs ints g es jnts, scheme_for A x /\ x = VObj h fs ints /\
      reach [] root [lit "securityDefinitions"; rfc_escape k] (VObj g es jnts) /\ h_cls g = CSecurityScheme /\ forall n y, sget n fs = Some y -> not_container y -> sget n es = Some y.
    Proof.
      intros k A AI. destruct here as (mid & objs & l & LD & UP & BR & S1 & S2 & ST). destruct (T_Upgrade.c44_authorization _ _ _ _ _ _ _ _ _ LD BA UP AI) as (x & RX & SF).
      pose proof SF as (? & ? & ? & ? & ? & ? & _ & _ & _ & _ & _ & _ & ((h & fs & EX & C & _) & _)). destruct (c58_rest _ _ _ _ (eq_ind _ (fun v => reach [] sw _ v) RX _ EX)) as (g & es & jnts & RR & CG & _ & FR).
      exists x, h, fs. eexists. exists g, es, jnts. split; [exact SF|]. split; [exact EX|]. split; [exact RR|]. split; [congruence|]. intros n y Y NC. destruct (FR n y Y NC) as (y' & Y' & [(RC & _)|(_ & ->)]); [congruence| | |exact Y'].
      - intros (Q & _). congruence.
      - rewrite C in RC. destruct RC as [Q|[Q|[Q|[Q|[]]]]]; discriminate Q.
    Qed.
  End Based.
  (** What violates the rules for listings has been reported. *)
  Theorem c58_reported : forall r, In r (pr_errors pr) <-> exists ts c m, broken raw ts c m /\ r = report_of ts c m.
  Proof.
    destruct here as (mid & objs & l & LD & UP & BR & S1 & S2 & ST). pose proof (st_valid _ _ _ _ _ _ _ _ _ _ _ _ _ _ _ _ _ _ ST) as V. cbn [raw_errors] in V. unfold validate in V. apply bind_ok in V as (errs & E & V).
    assert (errs = pr_errors pr) as <- by (destruct (strict && _); [discriminate V|now injection V]). now apply T_OldValidate.c45_old_reports.
  Qed.
  (** References into the document lead to what the application has there. *)
  Theorem c58_resolves : forall f s c ts x, s <> [] -> jr_split abs_uri win_uri s = Ok (u, rfc_pointer (lit "#") ts) \/ s = rfc_pointer (lit "#") ts -> reach [] root ts x -> returned x ->
    solve (S f) (pr_app pr) (Some s) c = (pr_app pr, Ok (0, x)).
  Proof.
    intros f s c ts x NS JS R RX. destruct here as (mid & objs & l & LD & UP & BR & S1 & S2 & ST). destruct JS as [JS| ->].
    - eapply T_App.c43_whole; eauto. exact (st_whole _ _ _ _ _ _ _ _ _ _ _ _ _ _ _ _ _ _ ST).
    - eapply T_App.c43_local; eauto; [exact (st_sound _ _ _ _ _ _ _ _ _ _ _ _ _ _ _ _ _ _ ST)|exact (st_root _ _ _ _ _ _ _ _ _ _ _ _ _ _ _ _ _ _ ST)].
  Qed.
End Created.
Print Assumptions c58_document.
Print Assumptions c58_rest.
Print Assumptions c58_operation.
Print Assumptions c58_no_other.
Print Assumptions c58_found.
Print Assumptions c58_only.
Print Assumptions c58_models.
Print Assumptions c58_authorization.
Print Assumptions c58_reported.
Print Assumptions c58_resolves.

(** ** A concrete case *)
Import T_OldParse T_Upgrade.
Definition pets2 : list (string * json) :=
  [("/pet", resource12 "http://h/api" [("/pet", [op12 "GET" "a" ["p"; "q"]; op12 "PUT" "b" []])] [model12 "Pet" ["Cat"]; model12 "Cat" []]);
   ("/user", resource12 "http://h/api" [("/user", [op12 "POST" "c" ["p"]])] [model12 "Pet" []])]%string.
Definition pets2_loaded : val := match load12 true pets2 with Ok v => v | Err _ => VNone end.
Definition pet_docs : list (string * json) := ("http://h/d"%string, JObj (listing12 true (map fst pets2))) :: map (fun nd => (append "http://h/d" (fst nd), snd nd)) pets2.
Definition there : str := lit "http://h/d".
Definition made12 (l : list (string * json)) (strict : bool) : res prepared :=
  create_app (fun s => s) (fun s => s) (fetch12 l) prim_types (fun _ => Err ValueError) SCOPE_SEPARATOR 20 there strict.
Definition no_app : prepared := Prepared (App [] None false 0) [] VNone [] [] [] [].
Definition pet_app : prepared := match made12 pet_docs false with Ok pr => pr | Err _ => no_app end.
Lemma pet_made : made12 pet_docs false = Ok pet_app. Proof. vm_compute. reflexivity. Qed.
(** The hypotheses hold for it, *)
Example c58_hypotheses : (forall s x, fetch12 pet_docs s = Ok x -> wf x) /\ normalize_url (fun s => s) (fun s => s) there = Ok there /\
  jr_split (fun s => s) (fun s => s) there = Ok (there, lit "#") /\ there <> [] /\
  exists j, fetch12 pet_docs there = Ok j /\ version_of j = Ok (Some (js "1.2")) /\ is_version (Some (js "1.2")) "1.2" = true /\ parse_listing (fetch12 pet_docs) there j = Ok pets2_loaded /\ based pets2_loaded (lit "h") (lit "http://h").
Proof.
  split; [apply fetch_wf; repeat (constructor; [apply wfb_ok; vm_compute; reflexivity|]); constructor|]. split; [vm_compute; reflexivity|]. split; [vm_compute; reflexivity|]. split; [discriminate|].
  eexists. split; [vm_compute; reflexivity|]. split; [reflexivity|]. split; [reflexivity|]. split; [vm_compute; reflexivity|].
  apply (all_based pets2_loaded (lit "http") (lit "h")); [exact http_ok|discriminate| |vm_compute; reflexivity].
  intros c I J. cbn in I, J. destruct J as [<-|[]]. repeat (destruct I as [I|I]; [discriminate I|]). destruct I.
Qed.
(** and this is what it says. *)
Definition got12 (pr : prepared) (ts : list string) : val := match a_root (pr_app pr) with Some (_, v) => match resolve v (map lit ts) with Ok x => x | Err _ => VNone end | None => VNone end.
Example c58_ex :
  let get := got12 pet_app ["paths"; "/api/pet"; "get"]%string in
  internal_of get (lit "url") = Some (VStr (lit "//h/api/pet")) /\ internal_of get (lit "path") = Some (VStr (lit "/api/pet")) /\ internal_of get (lit "method") = Some (VStr (lit "get")) /\
  internal_of get (lit "cached_schemes") = Some (VList [VStr (lit "http"); VStr (lit "https")]) /\
  scope_getitem SCOPE_SEPARATOR (pr_op pet_app) (KTuple [Some (lit "pet"); Some (lit "a")]) = Ok (lit "#/paths/~1api~1pet/get") /\
  scope_getitem SCOPE_SEPARATOR (pr_op pet_app) (KTuple [Some (lit "user"); Some (lit "c")]) = Ok (lit "#/paths/~1api~1user/post") /\
  map fst (pr_m pet_app) = [lit "user!##!Pet"; lit "pet!##!Cat"; lit "pet!##!Pet"] /\
  internal_of (got12 pet_app ["definitions"; "pet!##!Cat"]%string) (lit "name") = Some (VStr (lit "Cat")) /\
  field_of (got12 pet_app ["definitions"; "pet!##!Cat"; "allOf"; "0"]%string) (lit "$ref") = Some (VStr (lit "http://h/d#/definitions/pet!##!Pet")) /\
  field_of (got12 pet_app ["paths"; "/api/pet"; "get"; "responses"; "default"; "schema"]%string) (lit "$ref") = Some (VStr (lit "http://h/d#/definitions/pet!##!Pet")).
Proof. vm_compute. repeat split. Qed.

(** The types that operations of a resource name are looked for among the models of that resource
    only: here one names a model of another resource, and no application can be made. *)
Theorem c58_foreign_model_refuted : made12 (("http://h/d"%string, JObj (listing12 true (map fst pets))) :: map (fun nd => (append "http://h/d" (fst nd), snd nd)) pets) false = Err KeyError /\
  (exists sw, converted_from (load12 true pets) = Ok sw) /\ follow12 ["apis"; "user"; "apis"; "c"; "type"]%string (load12 true pets) = Ok (VStr (lit "Pet")) /\
  exists m, follow12 ["apis"; "pet"; "models"; "Pet"; "id"]%string (load12 true pets) = Ok m.
Proof. split; [vm_compute; reflexivity|]. split; [eexists; vm_compute; reflexivity|]. split; [vm_compute; reflexivity|eexists; vm_compute; reflexivity]. Qed.
Print Assumptions c58_foreign_model_refuted.
(** A separator other than the usual one separates the names of definitions, but then it is not
    taken away to get the models' names. *)
Theorem c58_separator_refuted : exists pr, create_app (fun s => s) (fun s => s) (fetch12 pet_docs) prim_types (fun _ => Err ValueError) (lit ".") 20 there false = Ok pr /\
  exists x, sget (lit "pet.Pet") (pr_m pr) = Some x /\ internal_of x (lit "name") <> Some (VStr (lit "Pet")).
Proof. eexists. split; [vm_compute; reflexivity|]. eexists. split; [vm_compute; reflexivity|vm_compute; discriminate]. Qed.
Print Assumptions c58_separator_refuted.
