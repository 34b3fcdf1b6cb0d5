(** C39: completing operations from their document. *)
From Coq Require Import Lia.
From Verif Require Import PyBase PyFacts PyJson M_JsonPtr S_JsonPtr M_Url M_Scope S_Scope P_Scope M_SpecVal M_Parse M_SpecTree M_Merge M_MergeRef M_Patch S_Parse S_SpecTree S_Merge S_Patch S_Typed P_SpecBase P_Op P_SpecTree P_Merge P_MergeShape P_Patch P_PatchOp P_Typed P_Wf T_Merge.
Close Scope Q_scope.

Section Complete.
  Context (url : str) (old : bool) (root root' : val).
  Hypothesis SR : shaped (Of CSwagger) root.
  Hypothesis E : patch_app url old root = Ok root'.

  Lemma root_obj : exists h fs ints, root = VObj h fs ints /\ h_cls h = CSwagger /\ map fst fs = map fst (t_fields CSwagger).
  Proof. clear E. remember (Of CSwagger) as c eqn:C. destruct SR as [| |h fs ints K1 K2 A B]; try discriminate C. injection C as C. exists h, fs, ints. rewrite C in K1. auto. Qed.
  Lemma root_swagger : is_swagger root = true.
  Proof. destruct root_obj as (h & fs & ints & -> & C & _). cbn. now rewrite C. Qed.
  Lemma unfold_app : exists s, app_schemes url root = Ok s /\ patch (PApp root url s old) None (lit "#") root = Ok root'.
  Proof. apply bind_ok in E as (s & S & P). eauto. Qed.
  Lemma root_attr n : smem n (t_fields CSwagger) = true -> attr_of root n = field_of root n.
  Proof.
    intro M. destruct root_obj as (h & fs & ints & -> & C & K). unfold attr_of. cbn [field_of]. destruct (sget n fs) eqn:G; [reflexivity|].
    rewrite <- (smem_keys n fs _ K), smem_sget, G in M. discriminate M.
  Qed.

  (** The same path items and operations are there afterwards. *)
  Theorem c39_kept : forall k m pi op, path_item root k pi -> operation pi m op -> exists pi' op', path_item root' k pi' /\ operation pi' m op'.
  Proof.
    intros k m pi op P O. destruct unfold_app as (s & _ & X). destruct (op_complete _ _ _ SR X _ _ _ _ P O) as (pi' & op' & b & u & A & B & _). eauto.
  Qed.

  Section Operation.
    Context (k m : str) (pi op pi' op' : val).
    Hypothesis PI : path_item root k pi.
    Hypothesis OP : operation pi m op.
    Hypothesis PI' : path_item root' k pi'.
    Hypothesis OP' : operation pi' m op'.

    Lemma completed : exists s base u, app_schemes url root = Ok s /\ urls_ok (PApp root url s old) (rfc_pointer (lit "#") [lit "paths"; k]) base u /\
      (forall n, smem n (t_child CPathItem) = false \/ n = lit "parameters" -> field_of pi' n = field_of pi n) /\
      (forall n own, field_of op n = Some own -> exists x, field_of op' n = Some x /\ op_field (PApp root url s old) (Some pi) n own x) /\
      (forall n, field_of op n = None -> field_of op' n = None) /\
      (exists own c, field_of op (lit "schemes") = Some own /\ internal_of op' (lit "cached_schemes") = Some c /\ inherited own s c) /\
      internal_of op' (lit "base_path") = Some base /\ internal_of op' (lit "path") = Some (VStr k) /\ internal_of op' (lit "url") = Some u /\ internal_of op' (lit "method") = Some (VStr m) /\
      (forall n, ~ In n method_fields -> n <> lit "cached_schemes" -> internal_of op' n = internal_of op n).
    Proof.
      destruct unfold_app as (s & S & X). destruct (op_complete _ _ _ SR X _ _ _ _ PI OP) as (pi2 & op2 & base & u & A & B & REST).
      destruct A as (ps & F & G & _), PI' as (ps' & F' & G' & _). rewrite F in F'. injection F' as <-. rewrite G in G'. injection G' as <-.
      destruct B as (B & _), OP' as (B' & _). rewrite B in B'. injection B' as <-. exists s, base, u. cbn [p_schemes] in REST. auto.
    Qed.
    Lemma op_has n : smem n (t_fields COperation) = true -> exists own, field_of op n = Some own.
    Proof.
      intro M. destruct PI as (ps & FP & GK & (h & fs & ints & -> & C)). destruct OP as (FM & (g & os & oi & -> & CO)). cbn [field_of] in *.
      assert (T : typed_value root) by (left; exists One, (Of CSwagger); now constructor).
      assert (R : reach [] root [lit "paths"; k; m] (VObj g os oi)).
      { destruct root as [| | | | | | |hr fr ir]; try discriminate FP. cbn [field_of] in FP. econstructor; [intros []|exact FP|]. econstructor; [exact GK|]. econstructor; [intros []|exact FM|constructor]. }
      destruct (typed_reach _ _ _ R T) as [TP|(_ & N)]; [|apply no_object_here in N; elim N; exact Logic.I]. apply tame_obj in TP. apply class_complete in TP as (K & _). rewrite CO in K.
      rewrite <- (smem_keys n os _ K), smem_sget in M. destruct (sget n os); [eauto|discriminate M].
    Qed.

    (** Consumes and produces are the operation's own if they have elements, else the document's; *)
    Theorem c39_inherited : forall n, n = lit "consumes" \/ n = lit "produces" ->
      exists own doc x, field_of op n = Some own /\ field_of root n = Some doc /\ field_of op' n = Some x /\ inherited own doc x.
    Proof.
      intros n N. destruct completed as (s & base & u & _ & _ & _ & F & _). destruct (op_has n) as (own & O); [destruct N as [-> | ->]; reflexivity|].
      destruct (F _ _ O) as (x & X & OF).
      assert (D : exists d, attr_of root n = Some d /\ inherited own d x).
      { unfold op_field in OF. cbn [p_root] in OF. rewrite root_swagger in OF. destruct N as [-> | ->]; exact OF. }
      destruct D as (d & D & I). rewrite root_attr in D by (destruct N as [-> | ->]; reflexivity). exists own, d, x. auto.
    Qed.
    (** so is the security, if it is given at all; *)
    Theorem c39_security : exists own doc x, field_of op (lit "security") = Some own /\ field_of root (lit "security") = Some doc /\ field_of op' (lit "security") = Some x /\
      (own = VNone /\ x = doc \/ own <> VNone /\ x = own).
    Proof.
      destruct completed as (s & base & u & _ & _ & _ & F & _). destruct (op_has (lit "security") eq_refl) as (own & O). destruct (F _ _ O) as (x & X & OF).
      assert (D : inherited_security own root x). { unfold op_field in OF. cbn [p_root] in OF. rewrite root_swagger in OF. exact OF. }
      assert (H : exists doc, field_of root (lit "security") = Some doc).
      { destruct root_obj as (h & fs & ints & -> & C & K). cbn [field_of]. destruct (sget (lit "security") fs) eqn:G; [eauto|].
        pose proof (smem_keys (lit "security") fs _ K) as M. rewrite smem_sget, G in M. discriminate M. }
      destruct H as (doc & H). exists own, doc, x. repeat (split; [assumption|]). destruct D as [(-> & D)|D]; [left|now right]. rewrite root_attr in D by reflexivity. split; [reflexivity|congruence].
    Qed.
    (** and the schemes, where the URL that the document comes from tells the scheme when the document does not. *)
    Theorem c39_schemes : exists own u doc x, field_of op (lit "schemes") = Some own /\ field_of op' (lit "schemes") = Some own /\ urlparse url = Ok u /\ doc_schemes (u_scheme u) root doc /\
      internal_of op' (lit "cached_schemes") = Some x /\ inherited own doc x.
    Proof.
      destruct completed as (s & base & u & S & _ & _ & F & _ & (own & c & O & CS & I) & _). exists own. unfold app_schemes in S. apply bind_ok in S as (p & P & S). exists p, s, c.
      split; [exact O|]. split. { destruct (F _ _ O) as (x & X & OF). change (x = own) in OF. congruence. }
      split; [exact P|]. split; [|auto]. clear - S SR. destruct root_obj as (h & fs & ints & -> & C & K).
      assert (H : exists d, sget (lit "schemes") fs = Some d).
      { destruct (sget (lit "schemes") fs) eqn:G; [eauto|]. pose proof (smem_keys (lit "schemes") fs _ K) as M. rewrite smem_sget, G in M. discriminate M. }
      destruct H as (d & H). unfold attr in S. rewrite H in S. destruct (falsy d) eqn:FD.
      - apply falsy_spec in FD. injection S as <-. destruct (u_scheme p); [eapply ds_none; cbn; eauto|eapply ds_url; cbn; eauto; discriminate].
      - apply bind_ok in S as (n & _ & S). injection S as <-. apply ds_own; [exact H|]. intro X. apply falsy_spec in X. congruence.
    Qed.
    (** Its parameters are its own and those of the path item that have other names. *)
    Theorem c39_parameters : exists own shared x, field_of op (lit "parameters") = Some own /\ field_of pi (lit "parameters") = Some shared /\ field_of op' (lit "parameters") = Some x /\
      with_shared own shared x.
    Proof.
      destruct completed as (s & base & u & _ & _ & _ & F & _). destruct (op_has (lit "parameters") eq_refl) as (own & O). destruct (F _ _ O) as (x & X & OF).
      destruct OF as (more & M & W). exists own, more, x. repeat (split; [try assumption|]); [|exact W].
      destruct PI as (ps & FP & GK & (h & fs & ints & -> & C)).
      assert (T : typed_value root) by (left; exists One, (Of CSwagger); now constructor).
      assert (R : reach [] root [lit "paths"; k] (VObj h fs ints)).
      { destruct root as [| | | | | | |hr fr ir]; try discriminate FP. cbn [field_of] in FP. econstructor; [intros []|exact FP|]. econstructor; [exact GK|]. constructor. }
      destruct (typed_reach _ _ _ R T) as [TP|(_ & N)]; [|apply no_object_here in N; elim N; exact Logic.I]. apply tame_obj in TP. apply class_complete in TP as (K & _). rewrite C in K.
      unfold attr_of in M. cbn [field_of] in M |- *. destruct (sget (lit "parameters") fs) eqn:G; [congruence|]. pose proof (smem_keys (lit "parameters") fs _ K) as Y. rewrite smem_sget, G in Y. discriminate Y.
    Qed.
    (** Its URL is made of the host, the base path and its path; its method is the name it is found under. *)
    Theorem c39_url : exists u host base bp, urlparse url = Ok u /\ host_is root (u_netloc u) host /\ base_is root base /\ field_of root (lit "basePath") = Some bp /\
      internal_of op' (lit "url") = Some (VStr (lit "//" ++ host ++ with_slash (base ++ k))) /\
      internal_of op' (lit "path") = Some (VStr k) /\ internal_of op' (lit "base_path") = Some bp /\ internal_of op' (lit "method") = Some (VStr m).
    Proof.
      destruct completed as (s & bp & uv & S & U & _ & _ & _ & _ & IB & IP & IU & IM & _). unfold urls_ok in U. cbn [p_root] in U. rewrite root_swagger in U. destruct U as (t & T & -> & B).
      unfold app_schemes in S. apply bind_ok in S as (p & P & _). rewrite root_attr in B by reflexivity.
      change (path_token (rfc_pointer (lit "#") [lit "paths"; k])) with (path_token (rfc_pointer (lit "#") ([lit "paths"] ++ [k]))) in T. rewrite token_last in T.
      unfold url_of in T. apply bind_ok in T as (host & H & T). apply bind_ok in T as (b & GB & T). apply bind_ok in T as (b' & B' & T). injection T as <-. cbn [p_root] in *.
      apply get_ok in GB. rewrite root_attr in GB by reflexivity.
      assert (HN : host <> []). { unfold host_of in H. apply bind_ok in H as (? & _ & H). apply bind_ok in H as ([|c h] & _ & H); injection H as <-; discriminate. }
      exists p, host, b', bp. split; [exact P|]. split.
      { unfold host_of in H. apply bind_ok in H as (hv & H1 & H). apply bind_ok in H as (hs & H2 & H). apply get_ok in H1. cbn [p_root] in H1. rewrite root_attr in H1 by reflexivity.
        destruct (falsy hv) eqn:FH.
        - apply falsy_spec in FH. apply bind_ok in H2 as (u & U & H2). injection H2 as <-. cbn [p_url] in U. rewrite P in U. injection U as <-.
          destruct (u_netloc p) eqn:N; injection H as <-; [exact (host_none root [] hv H1 FH eq_refl)|eapply host_url; eauto; discriminate].
        - destruct hv; try discriminate H2. injection H2 as <-. destruct s0; [discriminate FH|]. injection H as <-. apply host_own; [exact H1|discriminate]. }
      split. { destruct (falsy b) eqn:FB; [injection B' as <-; apply (base_none root b GB); now apply falsy_spec|]. destruct b; try discriminate B'. injection B' as <-. now apply base_own. }
      split; [exact B|]. split; [|auto]. rewrite IU. do 2 f_equal. unfold urlunparse, urlunsplit. cbn [u_params u_path u_scheme u_netloc u_query u_frag nonempty andb].
      destruct host as [|c h]; [congruence|]. cbn [nonempty orb]. do 2 f_equal. destruct (b' ++ k) as [|x p']; [reflexivity|]. cbn [nonempty andb with_slash]. unfold startswith. cbn [prefixb lit].
      destruct (Ascii.eqb_spec "/"%char x) as [<-|NE]; [reflexivity|]. cbn [andb negb]. destruct x as [[] [] [] [] [] [] [] []]; try reflexivity; now elim NE.
    Qed.
    (** The other fields of the operation and its other values are as before. *)
    Theorem c39_others : (forall n, ~ In n op_fields -> field_of op' n = field_of op n) /\
      (forall n, ~ In n (map lit ["method"; "url"; "path"; "base_path"; "cached_schemes"]%string) -> internal_of op' n = internal_of op n).
    Proof.
      destruct completed as (s & base & u & _ & _ & _ & F & NF & _ & _ & _ & _ & _ & NI). split.
      - intros n N. destruct (field_of op n) as [own|] eqn:O; [|now apply NF]. destruct (F _ _ O) as (x & X & OF). rewrite X. f_equal. unfold op_field in OF. cbn [op_fields map In] in N.
        destruct (str_eqb_spec n (lit "produces")) as [->|_]; [elim N; tauto|]. destruct (str_eqb_spec n (lit "consumes")) as [->|_]; [elim N; tauto|].
        destruct (str_eqb_spec n (lit "parameters")) as [->|_]; [elim N; tauto|]. destruct (str_eqb_spec n (lit "security")) as [->|_]; [elim N; tauto|]. exact OF.
      - intros n N. cbn [map In] in N. apply NI; [|intros ->; tauto]. unfold method_fields. cbn [map In]. tauto.
    Qed.
  End Operation.

  (** Everything else stays where it is and as it is, what is inside apart. *)
  Theorem c39_rest : forall ts x, reach [] root ts x ->
    is_obj x \/ (forall us n h fs ints, ts = us ++ [n] -> reach [] root us (VObj h fs ints) -> h_cls h = COperation -> ~ In n op_fields) ->
    exists x', reach [] root' ts x' /\ outside_same x x'.
  Proof.
    intros ts x R A. destruct unfold_app as (s & _ & X).
    destruct (patch_at _ _ _ _ R None (lit "#") root' ltac:(discriminate) (or_introl (ex_intro _ One (ex_intro _ (Of CSwagger) (sh_one _ _ SR)))) X A) as (x' & RX & O & _). eauto.
  Qed.
  (** The schemas of the definitions get the key they are found under as their name (in documents
      converted from version 1.2: what follows the last separator). *)
  Theorem c39_names : forall ts k x, reach [] root (lit "definitions" :: ts ++ [k]) x -> of_class CSchema x -> exists x', reach [] root' (lit "definitions" :: ts ++ [k]) x' /\
    (old = false -> internal_of x' (lit "name") = Some (VStr k)) /\
    (old = true -> forall p q, k = p ++ SCOPE_SEPARATOR ++ q -> p <> [] -> q <> [] -> (forall c, In c SCOPE_SEPARATOR -> ~ In c p /\ ~ In c q) ->
       internal_of x' (lit "name") = Some (VStr q)) /\
    (forall n, n <> lit "name" -> internal_of x' n = internal_of x n).
  Proof.
    intros ts k x R (h & fs & ints & -> & C). destruct unfold_app as (s & _ & X).
    assert (T : typed_value root) by (left; exists One, (Of CSwagger); now constructor).
    destruct (patch_at _ _ _ _ R None (lit "#") root' ltac:(discriminate) T X (or_introl Logic.I)) as (x' & RX & O & P). exists x'. split; [exact RX|].
    destruct (P Logic.I) as (par & x1 & P1 & T1).
    assert (TP : tame (VObj h fs ints)). { destruct (typed_reach _ _ _ R T) as [TP|(_ & N)]; [exact TP|]. apply no_object_here in N. elim N. exact Logic.I. }
    pose proof (patch_outside _ _ _ _ _ TP P1) as O1.
    assert (x1 = x') as ->.
    { destruct T1 as [->|(_ & [->|(h1 & f1 & i1 & b1 & u1 & k1 & n1 & -> & C1 & _)])]; [reflexivity|reflexivity|]. inversion O1; subst; congruence. }
    apply tame_obj in TP. destruct (class_complete _ _ _ TP) as (KF & KI). rewrite patch_obj_eq in P1. apply bind_ok in P1 as (fs1 & M & P1). apply patch_dict_ok in M.
    pose proof (drel_keys _ _ _ M) as K1.
    apply visit_ok in P1 as (g2 & fs2 & ints2 & base & u & -> & SH & K2 & _ & _ & _ & VI); [|congruence|exact KI]. rewrite C in VI. cbn [visit_ints] in VI. destruct VI as (VN & VI). cut ((old = false -> internal_of (VObj g2 fs2 ints2) (lit "name") = Some (VStr k)) /\ (old = true -> forall p q, k = p ++ SCOPE_SEPARATOR ++ q -> p <> [] -> q <> [] -> (forall c, In c SCOPE_SEPARATOR -> ~ In c p /\ ~ In c q) -> internal_of (VObj g2 fs2 ints2) (lit "name") = Some (VStr q))); [tauto|].
    cbn [internal_of].
    assert (SW : startswith (rfc_pointer (lit "#") (lit "definitions" :: ts ++ [k])) "#/definitions"%string = true).
    { unfold startswith. apply prefixb_spec. exists (flat_map (fun t => "/"%char :: rfc_escape t) (ts ++ [k])). reflexivity. }
    rewrite SW in VI. destruct VI as (y & Y & N). unfold schema_name in N. cbn [p_old] in N.
    change (path_token (rfc_pointer (lit "#") (lit "definitions" :: ts ++ [k]))) with (path_token (rfc_pointer (lit "#") ((lit "definitions" :: ts) ++ [k]))) in N. rewrite token_last in N.
    split; [intros ->; now subst y|]. intros -> p q -> PN QN D. destruct N as (l & L & N).
    pose proof (scope_roundtrip SCOPE_SEPARATOR p [q] ltac:(discriminate)) as RT. cbn [map fold_left] in RT. rewrite scope_compose_some in RT by assumption.
    assert (l = [Some p; Some q]) as ->; [|cbn [last] in N; congruence]. cut (Ok l = Ok [Some p; Some q]); [now injection 1|]. etransitivity; [symmetry; exact L|]. apply RT; [auto|..].
    - intros r a b [<-|[]]. apply clean_disjoint; [discriminate|]. intros c IC. now apply D.
    - apply no_sub_disjoint; [discriminate|]. intros c IC. now apply D.
  Qed.
End Complete.

(** ** Parameters: what [with_shared] says *)
(** The operation's own parameters come first; a parameter of the path item is added unless one
    of its name is there; no name comes twice because of it. *)
Theorem c39_chosen : forall l ps more, chosen l ps more ->
  incl more ps /\
  (forall p, In p ps -> In p more \/ exists q, In q (l ++ more) /\ same_name p q) /\
  (forall a p b, more = a ++ p :: b -> forall q, In q (l ++ a) -> ~ same_name p q).
Proof.
  induction 1 as [l|l p ps more q IQ SN C IH|l p ps more NS C IH].
  - split; [intros x []|]. split; [intros x []|]. intros [|? ?] p b E; discriminate E.
  - destruct IH as (I1 & I2 & I3). split; [intros x X; right; auto|]. split; [|exact I3].
    intros x [<-|X]; [|auto]. right. exists q. split; [apply in_or_app; now left|exact SN].
  - destruct IH as (I1 & I2 & I3). split; [intros x [<-|X]; [now left|right; auto]|]. split.
    + intros x [<-|X]; [left; now left|]. destruct (I2 _ X) as [X2|(q & Q & SN)]; [left; now right|right]. exists q. split; [|exact SN]. rewrite <- app_assoc in Q. exact Q.
    + intros [|y a] x b E; cbn [List.app] in E; injection E as -> E.
      * intros q Q. rewrite app_nil_r in Q. now apply NS.
      * intros q Q. eapply I3; [exact E|]. rewrite <- app_assoc. exact Q.
Qed.

(** ** Nothing fails for documents with the right kinds of values *)
Theorem c39_possible : forall url old root u, shaped (Of CSwagger) root -> ready root -> urlparse url = Ok u -> exists root', patch_app url old root = Ok root'.
Proof.
  intros url old root u SR RE U. unfold patch_app.
  assert (S : exists s, app_schemes url root = Ok s).
  { unfold app_schemes. rewrite U. cbn [bind]. destruct RE as (_ & _ & (s & G & S) & _). destruct root as [| | | | | | |h fs ints]; try discriminate G. cbn [field_of] in G. unfold attr. rewrite G.
    destruct (falsy s) eqn:F; [eauto|]. destruct S as [S|[(l & ->)|[(d & ->)|(t & ->)]]]; [apply falsy_spec in S; congruence|cbn; eauto..]. }
  destruct S as (s & ->). cbn [bind]. apply (patch_total (PApp root url s old)); eauto.
Qed.

Print Assumptions c39_kept.
Print Assumptions c39_inherited.
Print Assumptions c39_security.
Print Assumptions c39_schemes.
Print Assumptions c39_parameters.
Print Assumptions c39_url.
Print Assumptions c39_others.
Print Assumptions c39_rest.
Print Assumptions c39_names.
Print Assumptions c39_chosen.
Print Assumptions c39_possible.

(** ** An example *)
Local Definition t (x : string) : json := JStr (lit x).
Local Definition par (n i : string) : json := JObj [(lit "name", t n); (lit "in", t i); (lit "type", t "string")].
Definition shop : json := JObj
  [(lit "swagger", t "2.0"); (lit "basePath", t "/v1"); (lit "produces", JList [t "application/json"]); (lit "consumes", JList [t "application/xml"]);
   (lit "paths", JObj [(lit "/pet/{id}", JObj
     [(lit "parameters", JList [par "id" "path"; par "lang" "query"]);
      (lit "get", JObj [(lit "produces", JList [t "text/plain"]); (lit "parameters", JList [par "lang" "header"])]);
      (lit "put", JObj [(lit "operationId", t "update")])])]);
   (lit "definitions", JObj [(lit "Pet", JObj [(lit "type", t "object")])])].
Definition shop_val : val := match parse (Of CSwagger) [] shop with Ok v => v | Err _ => VNone end.
Definition shop_done : val := match patch_app (lit "http://example.com/api.json") false shop_val with Ok v => v | Err _ => VNone end.
Definition at_ (v : val) (ts : list str) : val := fold_left (fun v t => match v with VObj _ fs _ => match sget t fs with Some x => x | None => VNone end | VDict d => match sget t d with Some x => x | None => VNone end | _ => VNone end) ts v.
Definition names (v : val) : list (option val * option val) := match v with VList l => map (fun p => (field_of p (lit "name"), field_of p (lit "in"))) l | _ => [] end.
Definition get_op := at_ shop_done [lit "paths"; lit "/pet/{id}"; lit "get"].
Definition put_op := at_ shop_done [lit "paths"; lit "/pet/{id}"; lit "put"].
Local Definition sv (x : string) : option val := Some (VStr (lit x)).
Example c39_ex :
  field_of get_op (lit "produces") = Some (VList [VStr (lit "text/plain")]) /\ field_of get_op (lit "consumes") = Some (VList [VStr (lit "application/xml")]) /\
  field_of put_op (lit "produces") = Some (VList [VStr (lit "application/json")]) /\ internal_of put_op (lit "cached_schemes") = Some (VList [VStr (lit "http")]) /\
  internal_of get_op (lit "url") = sv "//example.com/v1/pet/{id}" /\ internal_of get_op (lit "method") = sv "get" /\ internal_of put_op (lit "method") = sv "put" /\
  names (at_ get_op [lit "parameters"]) = [(sv "lang", sv "header"); (sv "id", sv "path")] /\
  names (at_ put_op [lit "parameters"]) = [(sv "id", sv "path"); (sv "lang", sv "query")] /\
  internal_of (at_ shop_done [lit "definitions"; lit "Pet"]) (lit "name") = sv "Pet".
Proof. vm_compute. repeat split. Qed.
(** The hypotheses hold for it. *)
Lemma shop_shaped : shaped (Of CSwagger) shop_val.
Proof.
  apply (c37_parsed CSwagger [] shop); [|vm_compute; reflexivity]. apply wfb_ok. vm_compute. reflexivity.
Qed.

Lemma shop_ready : ready shop_val.
Proof.
  split; [eexists; split; [vm_compute; reflexivity|left; constructor]|]. split; [eexists; split; [vm_compute; reflexivity|right; eexists; reflexivity]|].
  split; [eexists; split; [vm_compute; reflexivity|left; constructor]|].
  assert (NL : forall l, forallb (fun p => match p with VObj _ fs ints => match sget (lit "name") fs, sget (lit "final") fs, sget (lit "final") ints with Some _, None, Some VNone => true | _, _, _ => false end | _ => false end) l = true -> named_list (VList l)).
  { intros l B. exists l. split; [reflexivity|]. apply Forall_forall. intros p IN. rewrite forallb_forall in B. specialize (B _ IN). destruct p as [| | | | | | |h fs ints]; try discriminate B.
    destruct (sget (lit "name") fs) as [n|] eqn:N; [|discriminate B]. destruct (sget (lit "final") fs) eqn:F; [discriminate B|]. destruct (sget (lit "final") ints) as [[]|] eqn:FI; try discriminate B.
    exists n, (VObj h fs ints). split; [|unfold attr_of; cbn [field_of]; now rewrite N]. apply meant_itself. intros f A. unfold attr_of in A. cbn [field_of internal_of] in A. rewrite F, FI in A. injection A as <-. constructor. }
  intros k pi (ps & FP & GK & _). vm_compute in FP. injection FP as <-. apply sget_In in GK. destruct GK as [GK|[]]. injection GK as <- <-.
  split; [eexists; split; [reflexivity|apply NL; vm_compute; reflexivity]|].
  intros m op (FM & (h & fs & ints & -> & C)). cbn [field_of] in FM. apply sget_In in FM.
  repeat (destruct FM as [FM|FM]; [try discriminate FM; injection FM as <- <- <- <-;
    (split; [eexists; split; [reflexivity|apply NL; vm_compute; reflexivity]|]);
    (split; [eexists; split; [reflexivity|left; eexists; reflexivity]|]); (split; [eexists; split; [reflexivity|left; eexists; reflexivity]|]); eexists; (split; [reflexivity|left; eexists; reflexivity])|]).
  destruct FM.
Qed.
(** Parameters are told apart by their names only, although one of the same name may be elsewhere
    in a request: the operation below has "lang" in the header, so that of the path item, which is
    in the query, is lost. *)
Theorem c39_location_refuted : exists root root' k pi pi' op p ps x l, shaped (Of CSwagger) root /\ patch_app (lit "http://h/") false root = Ok root' /\
  path_item root k pi /\ path_item root' k pi' /\ operation pi' (lit "get") op /\ field_of pi (lit "parameters") = Some (VList ps) /\ In p ps /\ field_of p (lit "in") = Some x /\
  field_of op (lit "parameters") = Some (VList l) /\ (forall q, In q l -> field_of q (lit "in") <> Some x).
Proof.
  exists shop_val, (match patch_app (lit "http://h/") false shop_val with Ok v => v | Err _ => VNone end), (lit "/pet/{id}").
  do 7 eexists. split; [exact shop_shaped|]. split; [vm_compute; reflexivity|].
  split; [eexists; split; [vm_compute; reflexivity|]; split; [vm_compute; reflexivity|]; eexists _, _, _; split; reflexivity|].
  split; [eexists; split; [vm_compute; reflexivity|]; split; [vm_compute; reflexivity|]; eexists _, _, _; split; reflexivity|].
  split; [split; [vm_compute; reflexivity|]; eexists _, _, _; split; reflexivity|].
  split; [vm_compute; reflexivity|]. split; [right; left; reflexivity|]. split; [vm_compute; reflexivity|]. split; [vm_compute; reflexivity|].
  intros q [<-|[<-|[]]]; vm_compute; discriminate.
Qed.
Print Assumptions c39_location_refuted.
