(** C59: calling the operations of an application that was created from a 2.0 document. *)
From Verif Require Import PyBase PyFacts PyJson M_JsonPtr S_JsonPtr M_Url P_Op M_SpecVal M_Parse M_SpecTree M_Merge M_MergeRef S_Parse S_SpecTree S_Merge S_MergeRef M_Scope M_Patch S_Patch M_App M_OldValidate M_OldParse M_Prepare S_Prepare M_Quote S_Quote M_Client S_Client M_Request S_Request M_Op S_Op M_Contrib S_Contrib M_Invoke S_Invoke T_Contrib T_Prepare P_Invoke2 P_Invoke3.
From Verif Require P_SpecBase P_SpecTree P_MergeRef P_App P_Prepare6 P_Prepare7.
Close Scope Q_scope.

Section Called.
  (** The application and its document, as in C57 *)
  Context (abs_uri win_uri : str -> str) (fetch : str -> res json) (prim : str -> bool) (float_of : str -> res Q) (sep : str) (fuel : nat).
  Hypothesis JD : forall j x, fetch j = Ok x -> wf x.
  Hypothesis NEW : forall j x v, fetch j = Ok x -> version_of x = Ok v -> is_version v "1.2" = false.
  Context (url nu u : str) (strict : bool) (pr : prepared).
  Hypothesis N : normalize_url abs_uri win_uri url = Ok nu.
  Hypothesis J : jr_split abs_uri win_uri nu = Ok (u, lit "#").
  Hypothesis U : u <> [].
  Hypothesis CR : create_app abs_uri win_uri fetch prim float_of sep fuel url strict = Ok pr.
  Context (doc root : val).
  Hypothesis FT : found_there fetch nu u pr doc root.
  (** An operation [op] of the document, and what the application has for it *)
  Context (k m : str) (pi op pi' op' : val).
  Hypothesis PI : path_item doc k pi.
  Hypothesis OP : operation pi m op.
  Hypothesis PI' : path_item root k pi'.
  Hypothesis OP' : operation pi' m op'.
  (** Values, primitives and bodies of responses; what the model leaves open is described there
      (M_Invoke). *)
  Context {V P R : Type} (urls : P -> option (list str)) (show : P -> str) (files : P -> list file) (ptext : P -> option str) (plain : val -> V) (of_text : str -> V)
    (produce : bool -> val -> V -> res P) (encode : val -> str -> P -> res str) (decode : val -> str -> R -> res V) (disk : str -> res str).
  (** The path item does not refer to another one, the parameters can be used, and all responses
      are in the document. *)
  Hypothesis NR : field_of pi (lit "$ref") = Some VNone.
  Context (ss : list val) (rs : sdict val).
  Hypothesis SL : field_of pi (lit "parameters") = Some (VList ss).
  Hypothesis US : Forall (usable abs_uri win_uri u doc) ss.
  Hypothesis UO : forall os, field_of op (lit "parameters") = Some (VList os) -> Forall (usable abs_uri win_uri u doc) os.
  Hypothesis RS : field_of op (lit "responses") = Some (VDict rs).
  Hypothesis LR : forall n r, In (n, r) rs -> exists l, leads abs_uri win_uri u doc CResponse r l.
  Notation requested := (requested urls show files abs_uri win_uri nu u doc k op).
  Notation stands_for := (stands_for plain produce abs_uri win_uri u doc).
  Notation answers := (answers produce of_text decode abs_uri win_uri u doc).
  Notation use := (use_op urls show files ptext plain of_text produce encode decode disk).

  (** It is found by its name. *)
  Theorem c59_found : forall key, known_as sep op key -> op_named sep pr (KStr key) = Ok op'.
  Proof.
    intros key KA. destruct (here abs_uri win_uri fetch prim float_of sep fuel JD NEW url nu u strict pr N J U CR doc root FT) as (raw & mid & objs & l & SD & ST).
    destruct (c57_others abs_uri win_uri fetch prim float_of sep fuel JD NEW url nu u strict pr N J U CR doc root FT k m pi op PI OP pi' op' PI' OP') as (F & _).
    assert (KA' : known_as sep op' key).
    { assert (T : field_of op' (lit "tags") = field_of op (lit "tags")) by (apply F; [cbn; intros [E|[E|[E|[E|[]]]]]; discriminate E|discriminate]).
      assert (I : field_of op' (lit "operationId") = field_of op (lit "operationId")) by (apply F; [cbn; intros [E|[E|[E|[E|[]]]]]; discriminate E|discriminate]).
      destruct KA as [t ts id A B C D|c s id A C D|v id A B C D]; rewrite <- T in A; rewrite <- I in C; [eapply ka_tag; eauto|eapply ka_text; eauto|eapply ka_plain; eauto]. }
    unfold op_named. rewrite (P_Prepare7.done_found _ _ _ _ _ _ _ _ _ _ _ _ _ _ _ _ _ _ ST _ _ _ _ _ PI' OP' KA'). cbn [bind]. destruct FT as (j & raw' & _ & _ & _ & RT & _). unfold root_of. rewrite RT. cbn [bind].
    rewrite P_SpecTree.split_hash. cbn [tl]. exact (P_SpecTree.resolve_reach _ _ _ _ (P_Prepare6.operation_reach _ _ _ _ _ PI' OP')).
  Qed.
  (** The parameters that it accepts are its own ones and those of its path item, with what their
      references lead to.  A call that succeeds makes the request for it; it succeeds if all
      arguments are known, nothing that is required is missing and the values can be converted.
      Arguments that are not known are refused. *)
  Theorem c59_call : exists ps qs, accepted abs_uri win_uri u doc op pi ps /\ Forall2 stands_for ps qs /\ forall args,
    (forall r, call urls show files plain produce op' args = Ok r -> requested ps qs args r) /\
    (forall cs co pd, converted args qs cs -> (forall x, In x cs -> has_items urls x) -> taken "consumes" op doc co -> taken "produces" op doc pd ->
       ((forall n, In n (map fst args) -> In n (map q_name qs)) -> exists r, call urls show files plain produce op' args = Ok r) /\
       ((exists n, In n (map fst args) /\ ~ In n (map q_name qs)) -> call urls show files plain produce op' args = Err ValueError)).
  Proof.
    destruct (here abs_uri win_uri fetch prim float_of sep fuel JD NEW url nu u strict pr N J U CR doc root FT) as (raw & mid & objs & l & SD & ST).
    destruct (invoked_call _ _ _ _ _ _ _ _ _ _ _ _ _ _ _ _ _ _ ST SD k m pi op pi' op' PI OP PI' OP' urls show files plain produce NR ss SL US UO) as (ps & qs & A & B & _ & C). exists ps, qs. auto.
  Qed.
  (** Using it with a client sends at most one message, which is the right one for that request:
      with the method, schemes and security that the document gives the operation.  Nothing is
      sent only if there is no right message. *)
  Theorem c59_sends : exists ps qs schema s, accepted abs_uri win_uri u doc op pi ps /\ Forall2 stands_for ps qs /\ body_declared abs_uri win_uri u doc ps schema /\ urlparse nu = Ok s /\
    forall send c sec args b opt hs sent w e, use send c sec op' args b opt hs sent = Ok (w, e) ->
    exists r schemes sc, requested ps qs args r /\ taken_schemes (u_scheme s) op doc schemes /\ taken_security op doc sc /\
      let right := faithful (encode schema) disk c sec m sc schemes b r opt hs in
      (w_sent w = sent /\ (forall msg, ~ right msg) /\ exists x, e = Err x) \/ (exists msg, w_sent w = sent ++ [msg] /\ right msg).
  Proof.
    destruct (here abs_uri win_uri fetch prim float_of sep fuel JD NEW url nu u strict pr N J U CR doc root FT) as (raw & mid & objs & l & SD & ST).
    destruct (invoked_call _ _ _ _ _ _ _ _ _ _ _ _ _ _ _ _ _ _ ST SD k m pi op pi' op' PI OP PI' OP' urls show files plain produce NR ss SL US UO) as (ps & qs & A & B & BD & C).
    destruct (invoked_target _ _ _ _ _ _ _ _ _ _ _ _ _ _ _ _ _ _ ST SD k m pi op pi' op' PI OP PI' OP' of_text produce decode rs RS LR) as (s & UP & T1 & _).
    exists ps, qs, (body_schema op'), s. split; [exact A|]. split; [exact B|]. split; [exact BD|]. split; [exact UP|]. intros send c sec args b opt hs sent w e E.
    unfold use_op in E. apply bind_ok in E as (r & CA & E). apply bind_ok in E as (t & TA & E). injection E as E. destruct (T1 t TA) as (TM & TS & TC & _). exists r, (t_schemes t), (t_security t). split; [now apply C|]. split; [exact TS|]. split; [exact TC|].
    cbn zeta. rewrite <- TM. exact (c56_sends _ _ _ _ _ _ _ _ _ _ _ _ E).
  Qed.
  (** Using it is possible if it can be called and its schemes and security are well formed. *)
  Theorem c59_possible : forall s schemes sc, urlparse nu = Ok s -> taken_schemes (u_scheme s) op doc schemes -> taken_security op doc sc ->
    forall send c sec args b opt hs sent, (exists r, call urls show files plain produce op' args = Ok r) -> exists w e, use send c sec op' args b opt hs sent = Ok (w, e).
  Proof.
    intros s schemes sc UP TS TC send c sec args b opt hs sent (r & CA). destruct (here abs_uri win_uri fetch prim float_of sep fuel JD NEW url nu u strict pr N J U CR doc root FT) as (raw & mid & objs & l & SD & ST).
    destruct (invoked_target _ _ _ _ _ _ _ _ _ _ _ _ _ _ _ _ _ _ ST SD k m pi op pi' op' PI OP PI' OP' of_text produce decode rs RS LR) as (s' & UP' & _ & T2). assert (s' = s) as -> by congruence. destruct T2 as (t & T); eauto.
    unfold use_op. rewrite CA. cbn [bind]. rewrite T. cbn [bind]. destruct (client_request _ _ _ _ _ _ _ _ _ _) as [w e]. eauto.
  Qed.
  (** The response object holds what was answered: the status, the body, the headers as primitives
      if the response of the document for that status declares them, and the decoded body if it
      has a schema. *)
  Theorem c59_response : forall send c sec args b opt hs sent w, use send c sec op' args b opt hs sent = Ok (w, Ok tt) ->
    exists msg y, w_sent w = sent ++ [msg] /\ send sent msg = Ok y /\ p_status (w_resp w) = Some (y_status y) /\ p_raw (w_resp w) = Some (y_body y) /\
    match sget (str_of_Z (y_status y)) rs, sget (lit "default") rs with
    | Some r, _ | None, Some r => exists l f, leads abs_uri win_uri u doc CResponse r l /\ combined CResponse l f /\
        (exists hd all, field_of f (lit "headers") = Some hd /\
           Forall2 (fun kv v => match key_in (fst kv) hd, snd kv with
                                | Some h, inl x => exists p, produce true h (of_text x) = Ok p /\ v = inr p
                                | Some _, inr p => True
                                | None, x => v = x
                                end) (y_headers y) all /\
           forall n, values n (w_resp w) = map snd (filter (fun e => str_eqb (lower (fst (fst e))) (lower n)) (combine (y_headers y) all))) /\
        exists sch, field_of f (lit "schema") = Some sch /\
          (sch = VNone /\ p_data (w_resp w) = None \/
           sch <> VNone /\ exists ct v p, decode sch ct (y_body y) = Ok v /\ produce true sch v = Ok p /\ p_data (w_resp w) = Some p /\
             match c with Tornado => ct = lit "application/json" | _ => media (htext ptext) (w_resp w) ct end)
    | None, None => p_data (w_resp w) = None /\ forall n, values n (w_resp w) = map snd (filter (fun e => str_eqb (lower (fst e)) (lower n)) (y_headers y))
    end.
  Proof.
    intros send c sec args b opt hs sent w E. destruct (here abs_uri win_uri fetch prim float_of sep fuel JD NEW url nu u strict pr N J U CR doc root FT) as (raw & mid & objs & l & SD & ST).
    destruct (invoked_target _ _ _ _ _ _ _ _ _ _ _ _ _ _ _ _ _ _ ST SD k m pi op pi' op' PI OP PI' OP' of_text produce decode rs RS LR) as (s & UP & T1 & _).
    unfold use_op in E. apply bind_ok in E as (r & CA & E). apply bind_ok in E as (t & TA & E). injection E as E. destruct (T1 t TA) as (_ & _ & _ & AN). clear T1 TA CA.
    apply c56_response in E as (msg & y & d & MS & SE & ST' & RW & _ & DE & (all & AL & VA) & DT). exists msg, y. cbn [w_sent w_resp] in *. split; [exact MS|]. split; [exact SE|]. split; [exact ST'|]. split; [exact RW|].
    assert (G : forall n, match sget n rs with Some x => exists d, sget n (t_responses t) = Some d /\ answers x d | None => sget n (t_responses t) = None end).
    { intro n. clear - AN. induction AN as [|[a1 a2] [b1 b2] x z (E & A) F IH]; [reflexivity|]. cbn [fst snd] in *. subst b1. rewrite !P_SpecBase.sget_cons. destruct (str_eqb n a1); eauto. }
    unfold decl_for in DE. cbn [p_rawonly resp_new] in DT.
    assert (Z : forall x dd, answers x dd -> d = Some dd -> exists l f, leads abs_uri win_uri u doc CResponse x l /\ combined CResponse l f /\
        (exists hd all, field_of f (lit "headers") = Some hd /\
           Forall2 (fun kv v => match key_in (fst kv) hd, snd kv with
                                | Some h, inl x => exists p, produce true h (of_text x) = Ok p /\ v = inr p
                                | Some _, inr p => True
                                | None, x => v = x
                                end) (y_headers y) all /\
           forall n, values n (w_resp w) = map snd (filter (fun e => str_eqb (lower (fst (fst e))) (lower n)) (combine (y_headers y) all))) /\
        exists sch, field_of f (lit "schema") = Some sch /\
          (sch = VNone /\ p_data (w_resp w) = None \/
           sch <> VNone /\ exists ct v p, decode sch ct (y_body y) = Ok v /\ produce true sch v = Ok p /\ p_data (w_resp w) = Some p /\
             match c with Tornado => ct = lit "application/json" | _ => media (htext ptext) (w_resp w) ct end)).
    { intros x dd (w0 & f & L & CB & DS) ->. exists w0, f. split; [exact L|]. split; [exact CB|]. destruct DS as [(hd & FH & HS) (sch & FS & SS)]. split.
      - exists hd, all. split; [exact FH|]. split; [|exact VA]. clear - AL HS. induction AL as [|[a1 a2] v x z RC F IH]; [constructor|]. constructor; [|exact IH]. unfold received in RC. cbn [fst snd] in *. specialize (HS a1). destruct (key_in a1 hd) as [h|].
        + destruct HS as (g & G1 & G2). rewrite G1 in RC. destruct a2 as [tx|p]; [|exact Logic.I]. rewrite G2 in RC. apply bind_ok in RC as (p & P1 & P2). injection P2 as <-. eauto.
        + now rewrite HS in RC.
      - exists sch. split; [exact FS|]. destruct dd as [dh ds]. cbn [rd_schema] in SS. destruct SS as [(-> & ->)|(NS & g & -> & GS)]; [left; auto|]. right. split; [exact NS|].
        destruct DT as (ct & j & p & UJ & PJ & PD & MD). injection UJ as <-. rewrite GS in PJ. apply bind_ok in PJ as (v & V1 & V2). exists ct, v, p. auto. }
    pose proof (G (str_of_Z (y_status y))) as G1. destruct (sget (str_of_Z (y_status y)) rs) as [x|].
    - destruct G1 as (dd & G1 & G2). rewrite G1 in DE. exact (Z x dd G2 DE).
    - rewrite G1 in DE. pose proof (G (lit "default")) as G2. destruct (sget (lit "default") rs) as [x|].
      + destruct G2 as (dd & G2 & G3). rewrite G2 in DE. exact (Z x dd G3 DE).
      + rewrite G2 in DE. subst d. split; [exact DT|]. intro n. rewrite VA. clear - AL. induction AL as [|[a1 a2] v x z RC F IH]; [reflexivity|]. cbn [received] in RC. subst v. cbn [combine filter fst snd map]. destruct (str_eqb (lower a1) (lower n)); cbn [map]; [f_equal|]; exact IH.
  Qed.
End Called.

(** ** What the right message is *)
Section Message.
  Context (abs_uri win_uri : str -> str) (nu u : str) (doc : val) (k : str) (op : val).
  Context {V P : Type} (urls : P -> option (list str)) (show : P -> str) (files : P -> list file) (marshal : str -> P -> res str) (disk : str -> res str).
  Context (ps : list val) (qs : list (param (V:=V) (P:=P))) (args : sdict V) (r : request (B:=P)).
  Hypothesis RQ : requested urls show files abs_uri win_uri nu u doc k op ps qs args r.
  Context (c : client) (sec : option sec_info) (meth : str) (sc : option (list (list str))) (schemes : list str) (b : str) (opt : opts) (hs : headers_arg) (msg : message).
  Hypothesis FA : faithful marshal disk c sec meth sc schemes b r opt hs msg.
  (** The converted arguments and defaults *)
  Context (cs : list (param (V:=V) (P:=P) * P)).
  Hypothesis CV : converted args qs cs.

  (** Its method is that of the operation. *)
  Theorem c59_method : in_capitals meth (m_method msg).
  Proof. destruct FA as (r' & h & _ & _ & M & _). exact M. Qed.
  (** Its URL: a scheme of the operation (http rather than https), the host and base path of the
      document, and the path with the encoded arguments. *)
  Theorem c59_url : forall s host base lp arg, urlparse nu = Ok s -> host_is doc (u_netloc s) host -> base_is doc base -> no_braces host -> no_braces base -> o_netloc opt = None -> o_scheme opt = None ->
    k = template lp -> Forall piece_ok lp -> (exists x, base ++ k = "/"%char :: x) -> (forall n, In n (holes lp) -> carries urls "path" cs n (arg n)) ->
    exists sch, scheme_used None schemes sch /\ m_url msg = sch ++ lit "://" ++ host ++ base ++ fill (fun n => quote_plus (show (arg n))) lp.
  Proof. exact (sent_url urls show files abs_uri win_uri nu u doc k op ps qs args r RQ cs CV marshal disk c sec sc schemes b meth opt hs msg FA). Qed.
  (** Its query: the arguments for the query, one pair for each text, and the credentials. *)
  Theorem c59_query : exists l, picks (lands urls (lit "query")) cs l /\
    let own := map (fun nv => (fst nv, CTok (snd nv))) (flat_map (pairs urls show) l) in
    match sec with
    | None => m_query msg = own
    | Some info => forall n,
        (forall cr, last_configured info false (req_names sc) n cr -> S_Client.named n (m_query msg) = repeat (n, cr) (Nat.max 1 (length (S_Client.named n own)))) /\
        (not_configured info false (req_names sc) n -> S_Client.named n (m_query msg) = S_Client.named n own)
    end.
  Proof. exact (sent_query urls show files abs_uri win_uri nu u doc k op ps qs args r RQ cs CV marshal disk c sec sc schemes b meth opt hs msg FA). Qed.
  (** Its headers: those for which there is an argument. *)
  Theorem c59_header : forall n v, carries urls "header" cs n v -> let info := match sec with Some i => i | None => [] end in not_configured info true (req_names sc) n ->
    (forall n', same_name n n' -> n' <> n -> not_configured info true (req_names sc) n' /\ forall q x, In (q, x) cs -> lands urls (lit "header") (q, x) -> q_name q <> n') ->
    ~ same_name n (lit "Content-Type") -> ~ same_name n (lit "Accept") -> (forall d, hs = HDict d -> NoDup (map fst d)) ->
    let custom := match hs with HList l | HDict l => values_of n l | _ => [] end in
    sent_values n (m_headers msg) =
      match hs with
      | HNone => [show v]
      | _ => if o_join opt then [join ","%string (show v :: custom)] else match c with Requests => [show v] | _ => show v :: custom end
      end.
  Proof. exact (sent_header urls show files abs_uri win_uri nu u doc k op ps qs args r RQ cs CV marshal disk c sec sc schemes b meth opt hs msg FA). Qed.
  (** Its body: the argument for the body as the first type that the operation consumes, or JSON, *)
  Theorem c59_body : forall n v co p, no_file urls cs -> none_lands urls "formData" cs -> carries urls "body" cs n v -> taken "consumes" op doc co ->
    In p ps -> text_in abs_uri win_uri u doc "in" p (lit "body") -> (forall p, In p ps -> text_in abs_uri win_uri u doc "in" p (lit "body") -> text_in abs_uri win_uri u doc "name" p n) ->
    exists d, marshal (match co with ct :: _ => ct | [] => lit "application/json" end) v = Ok d /\ m_payload msg = PData (DText d).
  Proof. exact (sent_body urls show files abs_uri win_uri nu u doc k op ps qs args r RQ cs CV marshal disk c sec sc schemes b meth opt hs msg FA). Qed.
  (** the form, *)
  Theorem c59_form : forall l, no_file urls cs -> picks (lands urls (lit "formData")) cs l -> flat_map (pairs urls show) l <> [] ->
    (c <> Flask -> m_payload msg = PData (DText (urlencode (flat_map (pairs urls show) l)))) /\
    (c = Flask -> none_lands urls "body" cs -> m_payload msg = PData (DForm (flat_map (pairs urls show) l))).
  Proof. exact (sent_form urls show files abs_uri win_uri nu u doc k op ps qs args r RQ cs CV marshal disk c sec sc schemes b meth opt hs msg FA). Qed.
  (** or nothing. *)
  Theorem c59_no_body : no_file urls cs -> none_lands urls "formData" cs -> none_lands urls "body" cs -> m_payload msg = PData match c with Flask => DForm [] | _ => DNone end.
  Proof. exact (sent_nothing urls show files abs_uri win_uri nu u doc k op ps qs args r RQ cs CV marshal disk c sec sc schemes b meth opt hs msg FA). Qed.
  (** The requests client uploads the files. *)
  Theorem c59_files : c = Requests -> exists l d, picks (fun x => is_file urls (fst x) (snd x)) cs l /\ filled (map named l) d /\ Forall2 (uploaded disk) (all_files (map (fun kv => (fst kv, files (snd kv))) d)) (m_files msg).
  Proof. exact (sent_files urls show files abs_uri win_uri nu u doc k op ps qs args r RQ cs CV marshal disk c sec sc schemes b meth opt hs msg FA). Qed.
End Message.
Print Assumptions c59_found.
Print Assumptions c59_call.
Print Assumptions c59_sends.
Print Assumptions c59_possible.
Print Assumptions c59_response.
Print Assumptions c59_method.
Print Assumptions c59_url.
Print Assumptions c59_query.
Print Assumptions c59_header.
Print Assumptions c59_body.
Print Assumptions c59_form.
Print Assumptions c59_no_body.
Print Assumptions c59_files.

(** ** An application as in C57: the document [api] *)
Definition api_doc : val := match parse (Of CSwagger) [] api with Ok raw => match norm_refs there raw with Ok d => d | Err _ => VNone end | Err _ => VNone end.
Definition api_root : val := match a_root (pr_app api_app) with Some (_, v) => v | None => VNone end.
Definition at_ (v : val) (ts : list string) : val := match resolve v (map lit ts) with Ok x => x | Err _ => VNone end.
(** Values, primitives and bodies are texts here. *)
Definition doc_text (v : val) : str := match v with VStr s => s | _ => [] end.
Definition ex_send (answer : M_Contrib.reply (H:=str + str) (R:=str)) (l : list M_Contrib.message) (x : M_Contrib.message) : res (M_Contrib.reply (H:=str + str) (R:=str)) := Ok answer.
Definition ex_use (op : val) (args : sdict str) :=
  use_op (fun _ => None) (fun c => c) (fun _ => []) (fun c => Some c) doc_text (fun s => s) (fun _ _ v => Ok v) (fun _ ct c => Ok (ct ++ c)) (fun _ _ raw => Ok raw) (fun _ => Err OSError)
    (ex_send (M_Contrib.Reply 404%Z [(lit "X-Id", inl (lit "5"))] (lit "none"))) Requests None op args [] (Opts None None false) HNone [].
(** Conditions of the theorems, to be computed for examples *)
Fixpoint walk (v : val) (ts : list str) : option val :=
  match ts with
  | [] => Some v
  | n :: ts => match v with VObj _ d _ | VDict d => match sget n d with Some x => walk x ts | None => None end | _ => None end
  end.
Lemma walk_reach ts : forall v x, walk v ts = Some x -> reach [] v ts x.
Proof.
  induction ts as [|n ts IH]; intros v x E; [injection E as <-; constructor|]. cbn [walk] in E.
  destruct v as [| | | | | |d|h fs ints]; try discriminate E; destruct (sget n _) as [y|] eqn:G; try discriminate E; econstructor; eauto.
Qed.
Section Conditions.
  Context (url : str) (doc : val).
  Fixpoint follow (n : nat) (c : cls) (seen : list place) (o : val) : option (list val) :=
    match n, field_of o (lit "$ref") with
    | S n, Some (VStr (x :: s)) =>
        match jr_split (fun s => s) (fun s => s) (x :: s) with
        | Ok (u, p) =>
            let ts := tl (jp_split (Some p)) in
            if str_eqb u url && str_eqb p (rfc_pointer (lit "#") ts) then
              match walk doc ts with
              | Some (VObj h fs ints) => if cls_eqb (h_cls h) c then if existsb (place_eqb (h_place h)) seen then None else option_map (cons o) (follow n c (h_place h :: seen) (VObj h fs ints)) else None
              | _ => None
              end
            else None
        | Err _ => None
        end
    | S _, Some VNone => Some [o]
    | _, _ => None
    end.
  Lemma follow_way n c : forall seen o l, follow n c seen o = Some l -> way (fun s => s) (fun s => s) url doc c seen o l.
  Proof.
    induction n as [|n IH]; intros seen o l E; [discriminate E|]. cbn [follow] in E. destruct (field_of o (lit "$ref")) as [v|] eqn:F; [|discriminate E]. destruct v as [| | | |[|x s]| | |]; try discriminate E.
    - injection E as <-. apply way_end. exists VNone. split; [exact F|constructor].
    - destruct (jr_split _ _ _) as [[u p]|e] eqn:JS; [|discriminate E]. destruct (str_eqb_spec u url) as [->|]; [|discriminate E]. cbn [andb] in E. destruct (str_eqb_spec p (rfc_pointer (lit "#") (tl (jp_split (Some p))))) as [EP|]; [|discriminate E].
      destruct (walk doc _) as [[| | | | | | |h fs ints]|] eqn:W; try discriminate E. destruct (cls_eqb (h_cls h) c) eqn:C; [|discriminate E]. destruct (existsb _ seen) eqn:X; [discriminate E|]. destruct (follow n c _ _) as [m|] eqn:FO; [|discriminate E]. injection E as <-.
      apply (way_next _ _ _ _ _ _ _ (x :: s) h fs ints m); [split; [discriminate|exact F]| |now apply P_SpecBase.cls_eqb_eq| |exact (IH _ _ _ FO)].
      + exists (tl (jp_split (Some p))). split; [now rewrite <- EP|now apply walk_reach].
      + intro I. assert (Y : existsb (place_eqb (h_place h)) seen = true) by (apply existsb_exists; exists (h_place h); split; [exact I|now apply P_MergeRef.place_eqb_eq]). congruence.
  Qed.
  Fixpoint first_text (n : str) (l : list val) : option str :=
    match l with
    | [] => None
    | o :: l => match field_of o n with Some (VStr s) => Some s | Some VNone => first_text n l | _ => None end
    end.
  Lemma first_text_ok n l s : first_text n l = Some s -> first_set n JNull l (VStr s).
  Proof.
    induction l as [|o l IH]; [discriminate|]. cbn [first_text]. destruct (field_of o n) as [[| | | |x| | |]|] eqn:F; try discriminate; intro E.
    - destruct (IH E) as (l1 & o' & l2 & -> & A & B & C). exists (o :: l1), o', l2. split; [reflexivity|]. split; [exact A|]. split; [exact B|]. intros y [<-|Y]; [|auto]. exists VNone. split; [exact F|now constructor].
    - injection E as <-. exists [], o, l. split; [reflexivity|]. split; [exact F|]. split; [|intros y []]. intro X. inversion X; discriminate.
  Qed.
  Definition scalar (n : str) (o : val) : bool := match field_of o n with Some (VList _) | Some (VDict _) => false | _ => true end.
  Definition text_inb (n : string) (p : val) : option str :=
    match p with
    | VObj h _ _ => match follow 9 CParameter [h_place h] p with Some l => if forallb (scalar (lit n)) l then first_text (lit n) l else None | None => None end
    | _ => None
    end.
  Lemma text_inb_ok n p s : of_class CParameter p -> text_inb n p = Some s -> text_in (fun s => s) (fun s => s) url doc n p s.
  Proof.
    intros (h & fs & ints & -> & C) E. cbn [text_inb] in E. destruct (follow _ _ _ _) as [l|] eqn:F; [|discriminate E]. destruct (forallb _ l) eqn:A; [|discriminate E]. exists l. split; [exists h, fs, ints; split; [reflexivity|split; [exact C|exact (follow_way _ _ _ _ _ F)]]|].
    split; [|now apply first_text_ok]. intros o v I FO [(x & ->)|(x & ->)]; rewrite forallb_forall in A; specialize (A o I); unfold scalar in A; rewrite FO in A; discriminate A.
  Qed.
  Definition param_class (p : val) : bool := match p with VObj h _ _ => cls_eqb (h_cls h) CParameter | _ => false end.
  Definition usableb (p : val) : bool :=
    param_class p && match text_inb "name" p, text_inb "in" p with Some _, Some i => mem i (map lit ["query"; "formData"; "header"; "path"; "body"]%string) | _, _ => false end.
  Lemma usableb_ok p : usableb p = true -> usable (fun s => s) (fun s => s) url doc p.
  Proof.
    unfold usableb. intro E. apply andb_prop in E as (C & E). assert (OC : of_class CParameter p). { destruct p; try discriminate C. do 3 eexists. split; [reflexivity|now apply P_SpecBase.cls_eqb_eq]. }
    destruct (text_inb "name" p) as [n|] eqn:TN; [|discriminate E]. destruct (text_inb "in" p) as [i|] eqn:TI; [|discriminate E]. apply mem_In in E. split; [exists n; now apply text_inb_ok|]. exists i. split; [now apply text_inb_ok|exact E].
  Qed.
End Conditions.
(** The hypotheses hold for the operation "get" of [api], although parameters and responses are
    references. *)
Definition list_in (v : val) : list val := match v with VList l => l | _ => [] end.
Definition dict_in (v : val) : sdict val := match v with VDict l => l | _ => [] end.
Lemma api_created : create_app (fun s => s) (fun s => s) (web api) (fun _ => false) (fun _ => Err ValueError) SCOPE_SEPARATOR 10 there true = Ok api_app.
Proof. vm_compute. reflexivity. Qed.
Example c59_ex_found : found_there (web api) there there api_app api_doc api_root.
Proof.
  destruct c57_hypotheses as (H1 & H2 & H3 & H4 & H5).
  destruct (c57_document (fun s => s) (fun s => s) (web api) (fun _ => false) (fun _ => Err ValueError) SCOPE_SEPARATOR 10 H1 H2 there there there true api_app H3 H4 H5 api_created) as (d & rt & (j & raw & F & PJ & NO & RT & W) & _).
  assert (E : j = api) by (unfold web in F; rewrite str_eqb_refl in F; congruence). subst j. assert (D : api_doc = d) by (unfold api_doc; rewrite PJ, NO; reflexivity). assert (R : api_root = rt) by (unfold api_root; rewrite RT; reflexivity). subst. exists api, raw. auto.
Qed.
Definition path_there (v : val) : val := at_ v ["paths"; "/pet/{id}"]%string.
Definition op_there (v : val) : val := at_ v ["paths"; "/pet/{id}"; "get"]%string.
Definition obj_of (c : cls) (v : val) : bool := match v with VObj h _ _ => cls_eqb (h_cls h) c | _ => false end.
Lemma obj_of_ok c v : obj_of c v = true -> of_class c v.
Proof. destruct v as [| | | | | | |h fs ints]; try discriminate. intro E. exists h, fs, ints. split; [reflexivity|exact (proj1 (P_SpecBase.cls_eqb_eq _ _) E)]. Qed.
Lemma there_ok v : (exists ps, field_of v (lit "paths") = Some (VDict ps) /\ sget (lit "/pet/{id}") ps = Some (path_there v)) -> field_of (path_there v) (lit "get") = Some (op_there v) -> obj_of CPathItem (path_there v) && obj_of COperation (op_there v) = true ->
  path_item v (lit "/pet/{id}") (path_there v) /\ operation (path_there v) (lit "get") (op_there v).
Proof. intros (ps & A & B) C D. apply andb_prop in D as (D & E). split; [exists ps; split; [exact A|split; [exact B|now apply obj_of_ok]]|split; [exact C|now apply obj_of_ok]]. Qed.
Example c59_ex_operation : path_item api_doc (lit "/pet/{id}") (path_there api_doc) /\ operation (path_there api_doc) (lit "get") (op_there api_doc).
Proof. apply there_ok; [exists (dict_in (at_ api_doc ["paths"]%string)); split| |]; vm_compute; reflexivity. Qed.
Example c59_ex_operation' : path_item api_root (lit "/pet/{id}") (path_there api_root) /\ operation (path_there api_root) (lit "get") (op_there api_root).
Proof. apply there_ok; [exists (dict_in (at_ api_root ["paths"]%string)); split| |]; vm_compute; reflexivity. Qed.
Definition ex_shared : list val := list_in (at_ api_doc ["paths"; "/pet/{id}"; "parameters"]%string).
Definition ex_own : list val := list_in (at_ api_doc ["paths"; "/pet/{id}"; "get"; "parameters"]%string).
Definition ex_responses : sdict val := dict_in (at_ api_doc ["paths"; "/pet/{id}"; "get"; "responses"]%string).
Lemma usable_all l : forallb (usableb there api_doc) l = true -> Forall (usable (fun s => s) (fun s => s) there api_doc) l.
Proof. intros E. rewrite forallb_forall in E. apply Forall_forall. intros p I. apply usableb_ok, E, I. Qed.
Example c59_ex_parameters : field_of (path_there api_doc) (lit "$ref") = Some VNone /\ field_of (path_there api_doc) (lit "parameters") = Some (VList ex_shared) /\ length ex_shared = 2 /\
  field_of (op_there api_doc) (lit "parameters") = Some (VList ex_own) /\ length ex_own = 1.
Proof. vm_compute. repeat split. Qed.
Example c59_ex_usable : Forall (usable (fun s => s) (fun s => s) there api_doc) ex_shared /\ Forall (usable (fun s => s) (fun s => s) there api_doc) ex_own.
Proof. split; apply usable_all; vm_compute; reflexivity. Qed.
Definition leadsb (c : cls) (r : val) : bool := obj_of c r && match r with VObj h _ _ => match follow there api_doc 9 c [h_place h] r with Some _ => true | None => false end | _ => false end.
Lemma leadsb_ok c r : leadsb c r = true -> exists l, leads (fun s => s) (fun s => s) there api_doc c r l.
Proof.
  unfold leadsb. intro E. apply andb_prop in E as (E & F). destruct r as [| | | | | | |h fs ints]; try discriminate E. destruct (follow _ _ _ _ _ _) as [l|] eqn:G; [|discriminate F].
  exists l, h, fs, ints. split; [reflexivity|]. split; [exact (proj1 (P_SpecBase.cls_eqb_eq _ _) E)|exact (follow_way _ _ _ _ _ _ _ G)].
Qed.
Lemma leads_all c (l : sdict val) : forallb (fun nr => leadsb c (snd nr)) l = true -> forall n r, In (n, r) l -> exists w, leads (fun s => s) (fun s => s) there api_doc c r w.
Proof. intros E n r I. rewrite forallb_forall in E. exact (leadsb_ok c r (E (n, r) I)). Qed.
Example c59_ex_responses : field_of (op_there api_doc) (lit "responses") = Some (VDict ex_responses) /\ map fst ex_responses = [lit "404"] /\
  forall n r, In (n, r) ex_responses -> exists l, leads (fun s => s) (fun s => s) there api_doc CResponse r l.
Proof. split; [vm_compute; reflexivity|]. split; [vm_compute; reflexivity|]. apply leads_all. vm_compute. reflexivity. Qed.
(** Calling it sends a message; the answer is read. *)
Example c59_ex : match ex_use (at_ api_root ["paths"; "/pet/{id}"; "get"]%string) [(lit "id", lit "a b"); (lit "lang", lit "de")] with
  | Ok (w, e) => e = Ok tt /\ p_status (w_resp w) = Some 404%Z /\ exists msg, w_sent w = [msg] /\ m_method msg = lit "GET" /\ m_url msg = lit "http://example.com/v1/pet/a+b" /\ sent_values (lit "lang") (m_headers msg) = [lit "de"]
  | Err _ => False
  end.
Proof. vm_compute. split; [reflexivity|]. split; [reflexivity|]. eexists. split; [reflexivity|]. repeat split. Qed.
