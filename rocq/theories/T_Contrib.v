(** C56: what the clients for requests, tornado and flask send, and what they put into
    the response. *)
From Verif Require Import PyBase PyFacts M_Url S_Url P_Url M_Quote S_Quote P_Quote M_Client S_Client P_Client
  M_Request S_Request P_Request T_Request T_Client M_Op S_Op P_Op T_Op M_Contrib S_Contrib P_Contrib.

Section Clients.
Context {B : Type} (marshal : str -> B -> res str) (disk : str -> res str).
Context {H R J D : Type} (text : H -> option str) (unmarshal : str -> R -> res J).
Notation request := (request (B:=B)).
Notation resp := (resp (H:=H) (R:=R) (D:=D)).
Notation target := (target (H:=H) (J:=J) (D:=D)).
Notation world := (world (B:=B) (H:=H) (R:=R) (D:=D)).
Notation reply := (reply (H:=H) (R:=R)).
Notation client_request := (client_request marshal disk text unmarshal).
(** [send]: the HTTP library and the server; [w]: the objects before the call, in any
    state whatever. *)

(** A call sends at most one message, and the right one.  Nothing is sent only if there
    is no right message (preparing the request fails), and then the call raises. *)
Theorem c56_sends : forall send c sec (t : target) b (w w' : world) e,
  client_request send c sec t b w = (w', e) ->
  let right := faithful marshal disk c sec (t_method t) (t_security t) (t_schemes t) b
                        (w_req w) (w_opt w) (w_headers w) in
  (w_sent w' = w_sent w /\ (forall m, ~ right m) /\ exists x, e = Err x) \/
  (exists m, w_sent w' = w_sent w ++ [m] /\ right m).
Proof.
  intros send c sec t b w w' e E right. apply client_spec in E. fold right in E.
  destruct E as [(E1 & _ & E2 & E3)|(m & E1 & E2 & _)]; [left|right]; eauto.
Qed.

(** The response holds what the server answered to that message and nothing of what it
    held before.  Clients other than tornado decode the body for the answer's content
    type; tornado always decodes it as JSON. *)
Lemma reset_reachable rs (s : resp) : reachable text unmarshal rs (resp_reset s).
Proof. exists [ARawOnly (p_rawonly s)]. reflexivity. Qed.
Lemma reachable_step rs (s s' : resp) st raw hd e : reachable text unmarshal rs s ->
  apply_with text unmarshal rs st raw hd s = (s', e) -> reachable text unmarshal rs s'.
Proof.
  intros [l ->] E. exists (l ++ [AApply st raw hd]). rewrite fold_left_app. cbn [fold_left act]. now rewrite E.
Qed.
Lemma apply_rawonly rs st raw hd (s : resp) :
  p_rawonly (fst (apply_with text unmarshal rs st raw hd s)) = p_rawonly s.
Proof.
  unfold apply_with. destruct (convert_headers _ _ _) as [hs [[]|e]]; auto.
  destruct raw; auto. destruct st; [|destruct (p_status s); auto].
  all: destruct (declared _ _) as [[? [?|]]|]; auto; destruct (p_rawonly s) eqn:Ro; auto;
    destruct (bind _ _); reflexivity.
Qed.
Lemma apply_headers_ok (t : target) l : forall (s s' : resp), reachable text unmarshal (t_responses t) s ->
  apply_headers text unmarshal t l s = (s', Ok tt) ->
  exists r, decl_for (t_responses t) (p_status s) r /\ p_status s' = p_status s /\ p_raw s' = p_raw s /\
    p_data s' = p_data s /\ p_rawonly s' = p_rawonly s /\
    exists all, Forall2 (received r) l all /\
      forall n, values n s' = values n s ++
        map snd (filter (fun e => str_eqb (lower (fst (fst e))) (lower n)) (combine l all)).
Proof.
  induction l as [|h l IH]; intros s s' Hr E; cbn [apply_headers] in E.
  - injection E as <-. exists (declared (t_responses t) (p_status s)).
    split; [unfold decl_for, declared, status_text; destruct (sget _ (t_responses t)); reflexivity|].
    repeat split. exists []. split; [constructor|]. intros n. cbn. now rewrite app_nil_r.
  - destruct (apply_with _ _ _ _ _ _ s) as [s1 [[]|e]] eqn:A; [|discriminate].
    pose proof (apply_rawonly (t_responses t) None None (Some [h]) s) as Ro. rewrite A in Ro. cbn [fst] in Ro.
    destruct (c24_apply text unmarshal _ _ _ _ _ _ Hr A) as (r & D1 & D2 & D3 & (a1 & A1 & A2) & _ & D4).
    destruct (IH s1 s' (reachable_step _ _ _ _ _ _ _ Hr A) E) as (r2 & G1 & G2 & G3 & G4 & G5 & a2 & G6 & G7).
    assert (r2 = r). { unfold decl_for in D1, G1. destruct (sget _ (t_responses t)); congruence. }
    subst r2. rewrite D2 in D1. exists r. split; [exact D1|].
    split; [congruence|]. split; [congruence|]. split; [destruct r as [[? []]|]; congruence|]. split; [congruence|].
    inversion A1 as [|? y ? ys P1 P2]; subst. inversion P2; subst.
    exists (y :: a2). split; [constructor; auto|]. intros n. rewrite G7, A2, <- app_assoc. f_equal.
    cbn [combine filter fst snd]. destruct (str_eqb _ _); reflexivity.
Qed.
Theorem c56_response : forall send c sec (t : target) b (w w' : world),
  client_request send c sec t b w = (w', Ok tt) ->
  exists m y r, w_sent w' = w_sent w ++ [m] /\ send (w_sent w) m = Ok y /\
    p_status (w_resp w') = Some (y_status y) /\ p_raw (w_resp w') = Some (y_body y) /\
    p_rawonly (w_resp w') = p_rawonly (w_resp w) /\
    decl_for (t_responses t) (Some (y_status y)) r /\
    (exists all, Forall2 (received r) (y_headers y) all /\
      forall n, values n (w_resp w') =
        map snd (filter (fun e => str_eqb (lower (fst (fst e))) (lower n)) (combine (y_headers y) all))) /\
    match r with
    | Some (RDecl _ (Some prim)) =>
        if p_rawonly (w_resp w) then p_data (w_resp w') = None
        else exists ct j d, unmarshal ct (y_body y) = Ok j /\ prim j = Ok d /\ p_data (w_resp w') = Some d /\
               match c with Tornado => ct = lit "application/json" | _ => media text (w_resp w') ct end
    | _ => p_data (w_resp w') = None
    end.
Proof.
  intros send c sec t b w w' E. apply client_spec in E.
  destruct E as [(_ & _ & _ & x & E)|(m & E1 & _ & E2)]; [discriminate|].
  destruct (send (w_sent w) m) as [y|x] eqn:S; [|destruct E2; discriminate].
  assert (Plain : forall c', c' <> Tornado ->
    (w_resp w', Ok tt) = apply_all text unmarshal t y (resp_reset (w_resp w)) -> c = c' ->
    exists r, p_status (w_resp w') = Some (y_status y) /\ p_raw (w_resp w') = Some (y_body y) /\
    p_rawonly (w_resp w') = p_rawonly (w_resp w) /\
    decl_for (t_responses t) (Some (y_status y)) r /\
    (exists all, Forall2 (received r) (y_headers y) all /\
      forall n, values n (w_resp w') =
        map snd (filter (fun e => str_eqb (lower (fst (fst e))) (lower n)) (combine (y_headers y) all))) /\
    match r with
    | Some (RDecl _ (Some prim)) =>
        if p_rawonly (w_resp w) then p_data (w_resp w') = None
        else exists ct j d, unmarshal ct (y_body y) = Ok j /\ prim j = Ok d /\ p_data (w_resp w') = Some d /\
               match c with Tornado => ct = lit "application/json" | _ => media text (w_resp w') ct end
    | _ => p_data (w_resp w') = None
    end).
  { intros c' Nc A Ec. symmetry in A. unfold apply_all in A.
    pose proof (apply_rawonly (t_responses t) (Some (y_status y)) (Some (y_body y)) (Some (y_headers y)) (resp_reset (w_resp w))) as Ro.
    rewrite A in Ro. cbn [fst resp_reset p_rawonly] in Ro.
    destruct (c24_apply text unmarshal _ _ _ _ _ _ (reset_reachable _ _) A) as (r & D1 & D2 & D3 & (a1 & A1 & A2) & _ & D4).
    rewrite D2 in D1. exists r. split; [exact D2|]. split; [exact D3|]. split; [exact Ro|]. split; [exact D1|].
    split; [exists a1; split; auto|]. destruct r as [[dh [prim|]]|]; auto. cbn [resp_reset p_rawonly p_data] in D4.
    destruct (p_rawonly (w_resp w)); auto. destruct D4 as (ct & j & d & M1 & M2 & M3 & M4).
    exists ct, j, d. repeat split; auto. subst c'. destruct c; auto. now elim Nc. }
  destruct c; cbn [receives] in E2.
  - destruct (Plain Requests) as (r & P); auto; [discriminate|]. exists m, y, r. auto.
  - clear Plain.
    destruct (apply_with _ _ _ _ _ _ (resp_reset (w_resp w))) as [s1 [[]|e]] eqn:A; [|discriminate].
    symmetry in E2.
    pose proof (apply_rawonly (t_responses t) (Some (y_status y)) (Some (y_body y)) None (resp_reset (w_resp w))) as Ro.
    rewrite A in Ro. cbn [fst resp_reset p_rawonly] in Ro.
    destruct (c24_apply text unmarshal _ _ _ _ _ _ (reset_reachable _ _) A) as (r & D1 & D2 & D3 & (a1 & A1 & A2) & _ & D4).
    destruct (apply_headers_ok _ _ _ _ (reachable_step _ _ _ _ _ _ _ (reset_reachable _ _) A) E2)
      as (r2 & G1 & G2 & G3 & G4 & G5 & a2 & G6 & G7).
    assert (r2 = r). { unfold decl_for in D1, G1. destruct (sget _ (t_responses t)); congruence. }
    subst r2. inversion A1; subst. rewrite D2 in G1.
    assert (V : forall n, values n s1 = []) by (intros n; rewrite A2; reflexivity).
    exists m, y, r. split; [exact E1|]. split; [exact S|]. split; [congruence|]. split; [congruence|]. split; [congruence|].
    split; [exact G1|]. split.
    { exists a2. split; auto. intros n. now rewrite G7, V. }
    cbn [resp_reset p_rawonly p_data] in D4. destruct r as [[dh [prim|]]|]; try congruence.
    destruct (p_rawonly (w_resp w)); [congruence|]. destruct D4 as (ct & j & d & M1 & M2 & M3 & M4).
    exists ct, j, d. repeat split; auto; [congruence|]. unfold media in M1. now rewrite V in M1.
  - destruct (Plain Flask) as (r & P); auto; [discriminate|]. exists m, y, r. auto.
Qed.

(** If nothing was sent or the library raises, the response is empty. *)
Theorem c56_no_answer : forall send c sec (t : target) b (w w' : world) e,
  client_request send c sec t b w = (w', e) ->
  (forall m y, w_sent w' = w_sent w ++ [m] -> send (w_sent w) m <> Ok y) ->
  e <> Ok tt /\ w_resp w' = Resp None None None cid_empty (p_rawonly (w_resp w)).
Proof.
  intros send c sec t b w w' e E N. apply client_spec in E.
  destruct E as [(_ & E1 & _ & x & E2)|(m & E1 & _ & E2)].
  - subst e. split; [discriminate|exact E1].
  - destruct (send (w_sent w) m) as [y|x] eqn:S; [elim (N m y); auto|]. destruct E2 as [E2 ->]. split; [discriminate|exact E2].
Qed.

(** Sending a request again, after any number of calls with any of the clients, options
    and headers, answered or failing in any way, sends the same as the first time; the
    clients must have the same security object, and the files be files on disk. *)
Record use := Use { us_client : client; us_opt : opts; us_headers : headers_arg; us_boundary : str;
                    us_send : list message -> message -> res reply }.
Definition do_use sec (t : target) (w : world) (u : use) : world :=
  fst (client_request (us_send u) (us_client u) sec t (us_boundary u)
         (World (w_req w) (w_resp w) (us_opt u) (us_headers u) (w_sent w))).
Theorem c56_again : forall sec (t : target) us (w : world) c b o hs m,
  NoDup (map fst (p_header (r_p (w_req w)))) -> no_streams (p_file (r_p (w_req w))) ->
  let right r := faithful marshal disk c sec (t_method t) (t_security t) (t_schemes t) b r o hs m in
  right (w_req (fold_left (do_use sec t) us w)) <-> right (w_req w).
Proof.
  intros sec t us w c b o hs m N NS right.
  assert (G : forall us (w' : world), input_of (the_info sec) (t_security t) (w_req w) (w_req w') ->
            input_of (the_info sec) (t_security t) (w_req w) (w_req (fold_left (do_use sec t) us w'))).
  { clear us. induction us as [|u us IH]; intros w' I; auto. cbn [fold_left]. apply IH. unfold do_use.
    apply client_input; auto. }
  specialize (G us w (input_refl _ _ _)).
  unfold right, faithful. split; intros (r' & h & M & P); exists r', h; (split; [|exact P]).
  - exact (proj1 (made_ready_input marshal disk _ _ _ _ _ _ _ _ _ N G) M).
  - exact (proj2 (made_ready_input marshal disk _ _ _ _ _ _ _ _ _ N G) M).
Qed.

(** The URL: the scheme and the template of the operation, filled with the encoded path
    arguments.  http is preferred to https unless the request asks for a scheme. *)
Definition scheme_used (preferred : option str) (schemes : list str) (s : str) : Prop :=
  match preferred with
  | Some p => s = p /\ In p schemes
  | None => (s = lit "http" /\ In s schemes) \/ (s = lit "https" /\ In s schemes /\ ~ In (lit "http") schemes)
  end.
Lemma made_ready_url c sec s ss b o (r r' : request) lu lp arg :
  made_ready marshal disk c sec s ss b o r r' ->
  o_url (r_op r) = template lu -> o_path (r_op r) = template lp ->
  Forall piece_ok lu -> Forall piece_ok lp ->
  (forall n, In n (holes lu ++ holes lp) -> sget n (p_path (r_p r)) = Some (arg n)) ->
  exists r2 sch, scheme_used (r_scheme r) ss sch /\
    r_url r2 = sch ++ ":"%char :: fill (fun n => quote_plus (arg n)) lu /\
    patch (o_netloc o) (o_scheme o) r2 = (r', Ok tt).
Proof.
  intros (l & r1 & r2 & -> & M2 & M3 & M4) E1 E2 F1 F2 Ha.
  rewrite secured_eq in M3. rewrite secure_eq in M3.
  assert (Er : set_p (psec (the_info sec) s (r_p (reset r))) (reset r) =
               reset (set_p (psec (the_info sec) s (r_p r)) r)) by reflexivity.
  rewrite Er in M3.
  destruct (c19_request _ _ _ _ _ _ _ _ lu lp arg M3) as (sch & C & U & _); auto.
  exists r2, sch. split; [|auto]. cbn [set_p r_scheme] in C.
  destruct (r_scheme r) as [p|] eqn:P; cbn [scheme_used].
  - cbn [choose_scheme] in C. destruct (mem p l) eqn:Mp; [|discriminate]. injection C as <-. split; auto.
    apply mem_In in Mp. now apply (schemes_In _ _ _ _ M2) in Mp.
  - destruct (scheme_chosen _ _ _ _ M2 C) as (S1 & S2 & S3). destruct S1 as [<-|[<-|[]]]; [left|right]; auto.
    repeat split; auto. intros X. specialize (S3 (lit "http") (or_introl eq_refl) X). vm_compute in S3. discriminate.
Qed.
Theorem c56_url : forall c sec meth s ss b (r : request) o hs m lu lp arg,
  faithful marshal disk c sec meth s ss b r o hs m ->
  o_netloc o = None -> o_scheme o = None ->
  o_url (r_op r) = template lu -> o_path (r_op r) = template lp ->
  Forall piece_ok lu -> Forall piece_ok lp ->
  (forall n, In n (holes lu ++ holes lp) -> sget n (p_path (r_p r)) = Some (arg n)) ->
  exists sch, scheme_used (r_scheme r) ss sch /\
    m_url m = sch ++ ":"%char :: fill (fun n => quote_plus (arg n)) lu.
Proof.
  intros c sec meth s ss b r o hs m lu lp arg (r' & h & M & _ & _ & E & _) O1 O2 E1 E2 F1 F2 Ha.
  destruct (made_ready_url _ _ _ _ _ _ _ _ _ _ _ M E1 E2 F1 F2 Ha) as (r2 & sch & S & U & P).
  exists sch. split; auto. rewrite E. rewrite O1, O2 in P. cbn in P. injection P as <-. exact U.
Qed.
(** The options 'url_netloc' and 'url_scheme' replace exactly these two parts. *)
Theorem c56_url_options : forall c sec meth s ss b (r : request) o hs m lu lp arg,
  faithful marshal disk c sec meth s ss b r o hs m ->
  o_url (r_op r) = template lu -> o_path (r_op r) = template lp ->
  Forall piece_ok lu -> Forall piece_ok lp ->
  (forall n, In n (holes lu ++ holes lp) -> sget n (p_path (r_p r)) = Some (arg n)) ->
  exists sch, scheme_used (r_scheme r) ss sch /\
    forall u, url_ok u -> show u = sch ++ ":"%char :: fill (fun n => quote_plus (arg n)) lu ->
    let u' := Url6 (match o_scheme o with Some (c :: x) => c :: x | _ => u_scheme u end)
                   (match o_netloc o with Some (c :: x) => c :: x | _ => u_netloc u end)
                   (u_path u) (u_params u) (u_query u) (u_frag u) in
    url_ok u' -> m_url m = show u'.
Proof.
  intros c sec meth s ss b r o hs m lu lp arg (r' & h & M & _ & _ & E & _) E1 E2 F1 F2 Ha.
  destruct (made_ready_url _ _ _ _ _ _ _ _ _ _ _ M E1 E2 F1 F2 Ha) as (r2 & sch & S & U & P).
  exists sch. split; auto. intros u Hu Sh u' Hu'. rewrite E. rewrite <- Sh in U.
  unfold patch in P. destruct (truthy (o_netloc o) || truthy (o_scheme o)) eqn:T.
  - unfold rbind, gets, id, lift, modify in P. rewrite U, parse_show in P by auto. injection P as <-.
    cbn [set_url r_url]. rewrite <- (unparse_ok u') by auto. reflexivity.
  - injection P as <-. rewrite U. f_equal. unfold u'.
    destruct (o_netloc o) as [[|]|], (o_scheme o) as [[|]|]; try discriminate T; destruct u; reflexivity.
Qed.

(** The query: the request's own pairs, with the credentials that go there. *)
Theorem c56_query : forall c sec meth s ss b (r : request) o hs m,
  faithful marshal disk c sec meth s ss b r o hs m ->
  NoDup (map fst (p_header (r_p r))) ->
  match sec with
  | None => m_query m = p_query (r_p r)
  | Some info => forall n,
      (forall cr, last_configured info false (req_names s) n cr ->
         S_Client.named n (m_query m) = repeat (n, cr) (Nat.max 1 (length (S_Client.named n (p_query (r_p r)))))) /\
      (not_configured info false (req_names s) n ->
         S_Client.named n (m_query m) = S_Client.named n (p_query (r_p r)))
  end.
Proof.
  intros c sec meth s ss b r o hs m (r' & h & M & _ & _ & _ & Q & _) N.
  apply made_ready_keeps in M as [M _]. rewrite Q, M. destruct sec as [info|]; cbn [the_info].
  - intros n. exact (c17_query info s (SecReq (p_header (r_p r)) (p_query (r_p r))) n N).
  - now rewrite psec_nil.
Qed.

(** A header of the request, or a credential that goes there, is sent under its name.
    The table of the requests client has only the request's value; the other clients send
    the caller's headers of that name after it; with 'join_headers' all are joined. *)
Theorem c56_header : forall c sec meth s ss b (r : request) o hs m n v,
  faithful marshal disk c sec meth s ss b r o hs m ->
  NoDup (map fst (p_header (r_p r))) ->
  let info := match sec with Some i => i | None => [] end in
  header_given info s (p_header (r_p r)) n v -> only_spelling info s (p_header (r_p r)) n ->
  ~ same_name n (lit "Content-Type") -> ~ same_name n (lit "Accept") ->
  (forall d, hs = HDict d -> NoDup (map fst d)) ->
  let custom := match hs with HList l | HDict l => values_of n l | _ => [] end in
  sent_values n (m_headers m) =
    match hs with
    | HNone => [v]
    | _ => if o_join o then [join ","%string (v :: custom)]
           else match c with Requests => [v] | _ => v :: custom end
    end.
Proof.
  intros c sec meth s ss b r o hs m n v (r' & h & M & T & _ & _ & _ & C & _) N info G U N1 N2 Nd custom.
  apply made_ready_keeps in M as (_ & a & ct & M). rewrite M in T. change (the_info sec) with info in T.
  set (l := p_header (psec info s (r_p r))) in *.
  assert (K : forall n', (forall cr, last_configured info true (req_names s) n' cr -> sget n' l = Some cr) /\
                         (not_configured info true (req_names s) n' -> sget n' l = sget n' (p_header (r_p r)))).
  { intros n'. exact (c17_header info s (SecReq (p_header (r_p r)) (p_query (r_p r))) n' N). }
  assert (Nl : NoDup (map fst l)).
  { exact (c17_header_dict info s (SecReq (p_header (r_p r)) (p_query (r_p r))) N). }
  destruct (prepared_values a ct l n v h) as [V Nh]; auto.
  { destruct G as [G|[G1 G2]]; [now apply K|]. rewrite (proj2 (K n)); auto. }
  { intros n' Hn' Sn. destruct (str_eqb_spec n' n) as [|D']; auto. exfalso.
    destruct (U n' Sn D') as [U1 U2]. apply sget_Some_key in Hn' as [x Hx]. rewrite (proj2 (K n')) in Hx; auto. congruence. }
  { intros [X|X]; auto. }
  destruct (o_join o) eqn:Jo.
  - destruct hs as [|cl|cd|].
    + destruct (header_table c); cbn in C; injection C as <-; cbn [sent_values]; auto.
    + destruct (c49_join h (HList cl) cl (or_introl eq_refl)) as [J1 J2].
      assert (X : sent_values n (m_headers m) = values_of n (map (fun n => (n, join ","%string (values_of n (cid_items h ++ cl)))) (firsts (map fst (cid_items h ++ cl))))).
      { destruct (header_table c); rewrite ?J1, ?J2 in C; injection C as <-; reflexivity. }
      rewrite X. unfold custom. replace (v :: values_of n cl) with (values_of n (cid_items h ++ cl)) by now rewrite values_app, V.
      apply values_one.
      * rewrite map_map. cbn [fst]. rewrite map_id. apply firsts_NoDup.
      * apply in_map_iff. exists n. split; auto. apply firsts_In. rewrite map_app. apply in_app_iff. left.
        apply values_In. rewrite V. discriminate.
    + destruct (c49_join h (HDict cd) cd (or_intror eq_refl)) as [J1 J2].
      assert (X : sent_values n (m_headers m) = values_of n (map (fun n => (n, join ","%string (values_of n (cid_items h ++ cd)))) (firsts (map fst (cid_items h ++ cd))))).
      { destruct (header_table c); rewrite ?J1, ?J2 in C; injection C as <-; reflexivity. }
      rewrite X. unfold custom. replace (v :: values_of n cd) with (values_of n (cid_items h ++ cd)) by now rewrite values_app, V.
      apply values_one.
      * rewrite map_map. cbn [fst]. rewrite map_id. apply firsts_NoDup.
      * apply in_map_iff. exists n. split; auto. apply firsts_In. rewrite map_app. apply in_app_iff. left.
        apply values_In. rewrite V. discriminate.
    + rewrite c49_other_types in C. discriminate.
  - destruct hs as [|cl|cd|].
    + destruct (header_table c); cbn in C; injection C as <-; cbn [sent_values]; auto.
    + destruct c; cbn [header_table] in C.
      * destruct (c49_dict h (HList cl) cl (or_introl eq_refl)) as (d & J1 & J2). rewrite J1 in C. injection C as <-.
        specialize (J2 n). rewrite V in J2. cbn [last_option rev app] in J2. cbn [sent_values].
        apply values_one; [|now apply sget_In]. eapply compose_dict_NoDup; [exact J1|]. discriminate.
      * rewrite (proj1 (c49_list h cl)) in C. injection C as <-. unfold sent_values. now rewrite values_app, V.
      * rewrite (proj1 (c49_list h cl)) in C. injection C as <-. unfold sent_values. now rewrite values_app, V.
    + destruct c; cbn [header_table] in C.
      * destruct (c49_dict h (HDict cd) cd) as (d & J1 & J2); [right; auto|]. rewrite J1 in C. injection C as <-.
        specialize (J2 n). rewrite V in J2. cbn [last_option rev app] in J2. cbn [sent_values].
        apply values_one; [|now apply sget_In]. eapply compose_dict_NoDup; [exact J1|]. auto.
      * rewrite (proj2 (c49_list h cd)) in C. injection C as <-. unfold sent_values. now rewrite values_app, V.
      * rewrite (proj2 (c49_list h cd)) in C. injection C as <-. unfold sent_values. now rewrite values_app, V.
    + rewrite c49_other_types in C. discriminate.
Qed.

(** The caller's objects: [opt] loses the options that were used, so it cannot be used
    again; the headers are left alone, except that the requests client puts the request's
    headers into a dict it is given. *)
Theorem c56_caller_options : forall send c sec (t : target) b (w w' : world) e m,
  client_request send c sec t b w = (w', e) -> w_sent w' = w_sent w ++ [m] ->
  w_opt w' = Opts None None (match w_headers w with HNone => o_join (w_opt w) | _ => false end).
Proof.
  intros send c sec t b w w' e m E S. destruct (client_caller _ _ _ _ _ _ _ _ _ _ _ _ E) as (K1 & _ & _).
  destruct K1 as [K1|K1]; auto. rewrite K1 in S. symmetry in S.
  rewrite <- app_nil_r in S. apply app_inv_head in S. discriminate.
Qed.
Theorem c56_caller_headers : forall send c sec (t : target) b (w w' : world) e,
  client_request send c sec t b w = (w', e) ->
  (c <> Requests \/ o_join (w_opt w) = true \/ (forall d, w_headers w <> HDict d) -> w_headers w' = w_headers w) /\
  (forall d m, c = Requests -> o_join (w_opt w) = false -> w_headers w = HDict d -> w_sent w' = w_sent w ++ [m] ->
     exists d', m_headers m = RDict d' /\ w_headers w' = HDict d').
Proof.
  intros send c sec t b w w' e E. destruct (client_caller _ _ _ _ _ _ _ _ _ _ _ _ E) as (_ & K2 & K3). auto.
Qed.
End Clients.
Print Assumptions c56_query.
Print Assumptions c56_header.
Print Assumptions c56_caller_options.
Print Assumptions c56_caller_headers.
Print Assumptions c56_sends.
Print Assumptions c56_response.
Print Assumptions c56_no_answer.
Print Assumptions c56_again.
Print Assumptions c56_url.
Print Assumptions c56_url_options.

(** * Cases *)
Definition op1 : op := Op (lit "//h/{id}") (lit "/{id}") [] [lit "text/plain"] [].
Definition par1 : params (B:=unit) :=
  Params [(lit "X-K", CTok (lit "1"))] [(lit "q", CTok (lit "a"))] [(lit "id", lit "7/8")] [] [] [].
Definition target1 : target (H:=str) (J:=str) (D:=str) :=
  Target (lit "get") [lit "https"; lit "http"] (Some [[lit "k"]])
    [(lit "200", RDecl [(lit "X-N", fun v => Ok (lit "n" ++ v))] (Some (fun j => Ok j)))].
Definition info1 : sec_info := [(lit "k", (true, (lit "Authorization", CTok (lit "secret"))))].
Definition server1 (_ : list message) (m : message) : res (reply (H:=str) (R:=str)) :=
  Ok (Reply 200 [(lit "Content-Type", lit "Text/Plain"); (lit "X-N", lit "1"); (lit "x-n", lit "2")] (lit "body")).
Definition disk1 (n : str) : res str := if str_eqb n "a.txt"%string then Ok (lit "data") else Err OSError.
Definition run1 (c : client) (sec : option sec_info) (p : params (B:=unit)) (o : opts) (hs : headers_arg) :=
  client_request (fun _ _ => Ok []) disk1 (fun h => Some h) (fun ct (r : str) => Ok (ct ++ lit "|" ++ r))
    server1 c sec target1 (lit "xyz") (World (new_request op1 p) (Resp (Some 1%Z) None None cid_empty false) o hs []).
Definition no_opts : opts := Opts None None false.
(** [w] after another call with the same client, request, response, opt and headers. *)
Definition rerun1 (c : client) (sec : option sec_info) w :=
  client_request (B:=unit) (fun _ _ => Ok []) disk1 (fun h => Some h) (fun ct (r : str) => Ok (ct ++ lit "|" ++ r))
    server1 c sec target1 (lit "xyz") w.

(** An ordinary call. *)
Example c56_ex :
  let (w, e) := run1 Requests (Some info1) par1 (Opts (Some (lit "proxy:1")) None false) (HList [(lit "B", lit "2"); (lit "X-K", lit "3")]) in
  (w_sent w, p_status (w_resp w), p_data (w_resp w), values (lit "X-n") (w_resp w), e) =
  ([Msg (lit "GET") (lit "http://proxy:1/7%2F8") [(lit "q", CTok (lit "a"))]
      (RDict [(lit "B", lit "2"); (lit "X-K", lit "1"); (lit "Authorization", lit "secret"); (lit "Accept", lit "text/plain")])
      (PData DNone) []],
   Some 200%Z, Some (lit "text/plain|body"), [lit "n1"; lit "2"], Ok tt).
Proof. vm_compute. reflexivity. Qed.
Example c56_ex_again : (* the hypotheses of c56_again and c56_header hold there *)
  NoDup (map fst (p_header par1)) /\ no_streams (p_file par1) /\
  header_given info1 (t_security target1) (p_header par1) (lit "Authorization") (lit "secret") /\
  header_given info1 (t_security target1) (p_header par1) (lit "X-K") (lit "1") /\
  only_spelling info1 (t_security target1) (p_header par1) (lit "X-K").
Proof.
  split; [repeat constructor; cbn; intuition discriminate|]. split; [intros k f []|].
  split; [left; exists [], (lit "k"), []; repeat split; intros k' c' []|].
  split.
  - right. split; [|reflexivity]. intros k c [<-|[]]. vm_compute. discriminate.
  - intros n' Sn Dn. split.
    + apply sget_None. intros [<-|[]]. now elim Dn.
    + intros k c [<-|[]]. vm_compute. intros [= <- _]. vm_compute in Sn. discriminate.
Qed.
(** No common scheme: nothing is sent, and the old status is gone. *)
Example c56_ex_fail :
  let (w, e) := client_request (B:=unit) (fun _ _ => Ok []) disk1 (fun h : str => Some h) (fun ct (r : str) => Ok ct) server1
    Flask None (Target (D:=str) (lit "get") [lit "ws"] None []) (lit "b")
    (World (new_request op1 par1) (Resp (Some 1%Z) None None cid_empty false) no_opts HNone []) in
  (w_sent w, p_status (w_resp w), e) = ([], None, Err ValueError).
Proof. vm_compute. reflexivity. Qed.

(** tornado decodes the body before it looks at the headers: a text/plain answer is
    decoded as JSON. *)
Theorem c56_tornado_content_type_refuted : exists t (w w' : world (B:=unit) (H:=str) (R:=str) (D:=str)) decode m y,
  client_request (fun _ _ => Ok []) (fun _ => Err OSError) (fun h => Some h) decode server1 Tornado None t (lit "b") w = (w', Ok tt) /\
  w_sent w' = [m] /\ server1 [] m = Ok y /\ In (lit "Content-Type", lit "Text/Plain") (y_headers y) /\
  decode (lit "text/plain") (y_body y) = Ok (lit "plain") /\ p_data (w_resp w') = Some (lit "json").
Proof.
  exists target1, (World (new_request op1 par1) resp_new no_opts HNone []). eexists.
  exists (fun ct _ => if str_eqb ct "text/plain"%string then Ok (lit "plain") else Ok (lit "json")).
  do 2 eexists. split; [vm_compute; reflexivity|]. split; [vm_compute; reflexivity|]. split; [vm_compute; reflexivity|].
  split; [vm_compute; now left|]. split; vm_compute; reflexivity.
Qed.
Print Assumptions c56_tornado_content_type_refuted.
(** flask does not read files from disk: the upload is empty. *)
Theorem c56_flask_disk_refuted : exists p w m k u,
  run1 Flask None p no_opts HNone = (w, Ok tt) /\ w_sent w = [m] /\
  p_file p = [(k, [File (lit "a.txt") [] OnDisk])] /\ disk1 (lit "a.txt") = Ok (lit "data") /\
  m_payload m = PTable [(k, inr [u])] /\ u_content u = None.
Proof.
  exists (Params [] [] [(lit "id", lit "7")] [] [] [(lit "f", [File (lit "a.txt") [] OnDisk])]).
  do 4 eexists. split; [vm_compute; reflexivity|]. split; [reflexivity|]. split; [reflexivity|]. split; [reflexivity|].
  split; [vm_compute; reflexivity|]. reflexivity.
Qed.
Print Assumptions c56_flask_disk_refuted.
(** flask keeps one value only of a repeated form field if there is a file too. *)
Theorem c56_flask_fields_refuted : exists p w m k,
  run1 Flask None p no_opts HNone = (w, Ok tt) /\ w_sent w = [m] /\
  p_form p = [(k, lit "1"); (k, lit "2")] /\
  exists t, m_payload m = PTable t /\ filter (fun e => str_eqb (fst e) k) t = [(k, inl (lit "2"))].
Proof.
  exists (Params [] [] [(lit "id", lit "7")] [] [(lit "k", lit "1"); (lit "k", lit "2")] [(lit "f", [File (lit "n") [] (Stream (lit "x") true)])]).
  do 3 eexists. split; [vm_compute; reflexivity|]. split; [reflexivity|]. split; [reflexivity|].
  eexists. split; vm_compute; reflexivity.
Qed.
Print Assumptions c56_flask_fields_refuted.
(** The same opt dict given twice: the second request goes to another host. *)
Theorem c56_same_options_refuted : forall c, exists p o w w' m m',
  run1 c None p o HNone = (w, Ok tt) /\ rerun1 c None w = (w', Ok tt) /\ w_sent w' = [m; m'] /\
  m_url m = lit "http://proxy/7" /\ m_url m' = lit "http://h/7".
Proof.
  intros c. exists (Params [] [] [(lit "id", lit "7")] [] [] []), (Opts (Some (lit "proxy")) None false).
  destruct c; do 4 eexists; (split; [vm_compute; reflexivity|]); (split; [vm_compute; reflexivity|]);
    (split; [reflexivity|]); split; vm_compute; reflexivity.
Qed.
Print Assumptions c56_same_options_refuted.
(** The same headers dict given to the requests client for two requests: the second
    request carries the first one's headers. *)
Theorem c56_same_headers_refuted : exists p p' hs w w' m m',
  run1 Requests None p no_opts (HDict hs) = (w, Ok tt) /\
  rerun1 Requests None (World (new_request op1 p') (w_resp w) (w_opt w) (w_headers w) (w_sent w)) = (w', Ok tt) /\
  w_sent w' = [m; m'] /\ hs = [] /\ p_header p = [(lit "X-K", CTok (lit "1"))] /\ p_header p' = [] /\
  sent_values (lit "X-K") (m_headers m') = [lit "1"].
Proof.
  exists (Params [(lit "X-K", CTok (lit "1"))] [] [(lit "id", lit "7")] [] [] []), (Params [] [] [(lit "id", lit "8")] [] [] []), [].
  do 4 eexists. split; [vm_compute; reflexivity|]. split; [vm_compute; reflexivity|].
  repeat (split; [reflexivity|]). vm_compute. reflexivity.
Qed.
Print Assumptions c56_same_headers_refuted.
(** A request sent through a client with credentials and then through a client without:
    the credentials are sent again. *)
Theorem c56_credentials_stay_refuted : forall c c', exists p w w' m m',
  run1 c (Some info1) p no_opts HNone = (w, Ok tt) /\ rerun1 c' None w = (w', Ok tt) /\
  w_sent w' = [m; m'] /\ p_header p = [] /\
  sent_values (lit "Authorization") (m_headers m') = [lit "secret"].
Proof.
  intros c c'. exists (Params [] [] [(lit "id", lit "7")] [] [] []).
  destruct c, c'; do 4 eexists; (split; [vm_compute; reflexivity|]); (split; [vm_compute; reflexivity|]);
    (split; [reflexivity|]); (split; [reflexivity|]); vm_compute; reflexivity.
Qed.
Print Assumptions c56_credentials_stay_refuted.
(** A file-like object is empty when the request is sent again. *)
Theorem c56_streams_again_refuted : exists p w w' m m' u u',
  run1 Requests None p no_opts HNone = (w, Ok tt) /\ rerun1 Requests None w = (w', Ok tt) /\
  w_sent w' = [m; m'] /\ m_files m = [u] /\ m_files m' = [u'] /\
  u_content u = Some (lit "data", false) /\ u_content u' = Some ([], false).
Proof.
  exists (Params [] [] [(lit "id", lit "7")] [] [] [(lit "f", [File (lit "n") [] (Stream (lit "data") false)])]).
  do 6 eexists. split; [vm_compute; reflexivity|]. split; [vm_compute; reflexivity|].
  repeat (split; [reflexivity|]). vm_compute. reflexivity.
Qed.
Print Assumptions c56_streams_again_refuted.
