(** C19 (path parameters), C20 (form data), C21 (multipart), C22 (reset and prepare),
    C50 (content negotiation). *)
From Verif Require Import PyBase PyFacts M_Url M_Quote S_Quote P_Quote M_Client P_Client
  M_Request S_Request P_Request.

(** * C19 *)
(** Decoding an encoded argument gives the argument back; it contains only unreserved
    characters, "+" and "%". *)
Theorem c19_decodes : forall s, unquote_plus (quote_plus s) = s.
Proof. exact quote_plus_round. Qed.
Print Assumptions c19_decodes.
Theorem c19_characters : forall s c, In c (quote_plus s) -> In c url_unreserved.
Proof. exact quote_plus_chars. Qed.
Print Assumptions c19_characters.
(** An argument of unreserved characters is written as it is. *)
Theorem c19_plain : forall s, (forall c, In c s -> In c url_unreserved /\ c <> "+"%char /\ c <> "%"%char) ->
  quote_plus s = s.
Proof. exact quote_plus_plain. Qed.
Print Assumptions c19_plain.
Example c19_ex_plain : quote_plus (lit "a-Z_0.9~") = lit "a-Z_0.9~".
Proof. apply c19_plain. intros c Hc. cbn in Hc. repeat (destruct Hc as [<-|Hc]; [cbn; intuition discriminate|]). easy. Qed.
(** Formatting a template fills each hole with its argument... *)
Theorem c19_format : forall params l f, Forall piece_ok l ->
  (forall n, In n (holes l) -> sget n params = Some (f n)) ->
  format (template l) params = Ok (fill f l).
Proof. exact format_ok. Qed.
Print Assumptions c19_format.
(** ... and raises KeyError if one is missing. *)
Theorem c19_missing : forall params l, Forall piece_ok l ->
  (exists n, In n (holes l) /\ sget n params = None) ->
  format (template l) params = Err KeyError.
Proof. exact format_missing. Qed.
Print Assumptions c19_missing.
(** The filled URL has no more delimiters than the template's own text. *)
Theorem c19_no_breakout : forall arg l c, ~ In c url_unreserved ->
  count_occ ascii_dec (fill (fun n => quote_plus (arg n)) l) c =
  count_occ ascii_dec (fill (fun _ => []) l) c.
Proof. intros arg l c H. apply count_fill. intros n _ X. apply H. eapply quote_plus_chars; eauto. Qed.
Print Assumptions c19_no_breakout.
(** A prepared request's URL is the scheme and the template filled with the encoded
    path arguments; so is its path. *)
Theorem c19_request : forall B (marshal : str -> B -> res str) disk b s h r r' lu lp arg,
  prepare marshal disk b s h (reset r) = (r', Ok tt) ->
  o_url (r_op r) = template lu -> o_path (r_op r) = template lp ->
  Forall piece_ok lu -> Forall piece_ok lp ->
  (forall n, In n (holes lu ++ holes lp) -> sget n (p_path (r_p r)) = Some (arg n)) ->
  exists sch, choose_scheme (r_scheme r) s = Ok sch /\
    r_url r' = sch ++ ":"%char :: fill (fun n => quote_plus (arg n)) lu /\
    r_path r' = fill (fun n => quote_plus (arg n)) lp.
Proof.
  intros B marshal disk b s h r r' lu lp arg H Eu Ep Fu Fp Ha.
  apply prepare_ok in H as (sch & path & url & ct & r1 & H1 & H2 & H3 & _ & H4 & H5 & _).
  exists sch. cbn [reset r_url r_path r_p r_scheme r_op] in *. rewrite Eu in H3. rewrite Ep in H2.
  assert (Q : forall n v, sget n (p_path (r_p r)) = Some v -> sget n (quoted_path (r_p r)) = Some (quote_plus v)).
  { intros n v. unfold quoted_path. clear. induction (p_path (r_p r)) as [|[k x] l IH]; [discriminate|].
    intros H. cbn [map dget fst snd] in *. destruct (str_eqb n k); [congruence|auto]. }
  rewrite (format_ok _ lu (fun n => quote_plus (arg n))) in H3; auto.
  2:{ intros n Hn. apply Q, Ha, in_app_iff. now left. }
  rewrite (format_ok _ lp (fun n => quote_plus (arg n))) in H2; auto.
  2:{ intros n Hn. apply Q, Ha, in_app_iff. now right. }
  apply Ok_inj in H2. apply Ok_inj in H3. subst. auto.
Qed.
Print Assumptions c19_request.
Definition tmpl_ex := [Text (lit "//host/pets/"); Hole (lit "id"); Text (lit "/x")].
Example c19_ex_ok : Forall piece_ok tmpl_ex.
Proof.
  unfold tmpl_ex. repeat constructor.
  - intros c Hc Hi. cbn in Hc, Hi. destruct Hc as [<-|[<-|[]]]; intuition discriminate.
  - exists "i"%char. split; [now left|cbn; intuition discriminate].
Qed.
Example c19_ex : format (template tmpl_ex) [(lit "id", quote_plus (lit "../a b?#/{x}"))] =
  Ok (lit "//host/pets/..%2Fa+b%3F%23%2F%7Bx%7D/x").
Proof. vm_compute. reflexivity. Qed.
Example c19_ex_braces : template [Text (lit "/a{b"); Hole (lit "x"); Text (lit "}")] = lit "/a{{b{x}}}".
Proof. reflexivity. Qed.
(** The characters C19 names are indeed not among the unreserved ones. *)
Example c19_ex_chars : forall c, In c (lit "/?#&{} ;=:@") -> ~ In c url_unreserved.
Proof. intros c H. cbn in H. repeat (destruct H as [<-|H]; [cbn; intuition discriminate|]). easy. Qed.
(** An argument "." or ".." is not altered, so it can still be read as a dot segment. *)
Example c19_ex_dots : quote_plus (lit "..") = lit "..".
Proof. reflexivity. Qed.

(** * C20 *)
Theorem c20_round_trip : forall l, read_form (urlencode l) = l.
Proof. exact urlencode_round. Qed.
Print Assumptions c20_round_trip.
(** The request carries this text whenever it has form fields and no files. *)
Theorem c20_request : forall B (marshal : str -> B -> res str) disk b s h r r',
  prepare marshal disk b s h (reset r) = (r', Ok tt) ->
  p_file (r_p r) = [] -> p_form (r_p r) <> [] ->
  exists t, r_data r' = Some (DText t) /\ read_form t = p_form (r_p r) /\
    cid_get (lit "content-type") (r_header r') = Ok (CTok (lit "application/x-www-form-urlencoded")).
Proof.
  intros B marshal disk b s h r r' H Hf Hg.
  apply prepare_ok in H as (sch & path & url & ct & r1 & H1 & H2 & H3 & D & H4 & H5 & H6 & H7 & _).
  apply prepare_data_ok in D.
  cbn [set_header set_url set_path reset r_p r_op r_url r_path r_scheme r_header r_consume] in *.
  destruct D as [D|[D|[D|[D|D]]]]; try tauto.
  destruct D as (_ & _ & -> & _ & D). rewrite H6, D. eexists. split; [reflexivity|]. split; [apply urlencode_round|].
  rewrite H7, accept_keeps_ct. now apply ct_get.
Qed.
Print Assumptions c20_request.
Example c20_ex : urlencode [(lit "a b", lit "1&2=3"); (lit "", lit "%+"); (lit "a b", lit "")] =
  lit "a+b=1%262%3D3&=%25%2B&a+b=".
Proof. vm_compute. reflexivity. Qed.

(** * C21 *)
(** [field_as_part] and [file_as_part] (S_Request) say which part a field or a file is
    sent as; the contents are byte for byte the file's. *)
Theorem c21_multipart : forall B disk b (p : params (B:=B)) fs body,
  multipart disk b p = (fs, Ok body) ->
  ~ In CR b ->
  (forall k v, In (k, v) (p_form p) -> quotable k /\ ~ occurs (lit "--" ++ b) (utf8 v)) ->
  (forall k f, In (k, f) (all_files (p_file p)) -> quotable k /\ quotable (f_name f) /\
     (forall n v, In (n, v) (sent_headers f) -> one_line v) /\
     (forall c, file_bytes disk f c -> ~ occurs (lit "--" ++ b) c)) ->
  exists fparts flparts,
    read_multipart b body = Some (fparts ++ flparts) /\
    Forall2 field_as_part (p_form p) fparts /\
    Forall2 (file_as_part disk) (all_files (p_file p)) flparts.
Proof. exact @multipart_read. Qed.
Print Assumptions c21_multipart.
(** The request carries this body, with its boundary in the content type. *)
Theorem c21_request : forall B (marshal : str -> B -> res str) disk b s r r',
  prepare marshal disk b s true (reset r) = (r', Ok tt) -> p_file (r_p r) <> [] ->
  exists fs body, multipart disk b (r_p r) = (fs, Ok body) /\ r_data r' = Some (DText body) /\
    cid_get (lit "content-type") (r_header r') = Ok (CTok (lit "multipart/form-data; boundary=" ++ b)).
Proof.
  intros B marshal disk b s r r' H Hf.
  apply prepare_ok in H as (sch & path & url & ct & r1 & H1 & H2 & H3 & D & H4 & H5 & H6 & H7 & _).
  apply prepare_data_ok in D.
  cbn [set_header set_url set_path reset r_p r_op r_url r_path r_scheme r_header r_consume] in *.
  destruct D as [D|[D|[D|[D|D]]]]; try tauto; [destruct D as (_ & X & _); discriminate X|].
  destruct D as (_ & _ & -> & _ & fs & body & D1 & D2). exists fs, body. split; [exact D1|]. split; [congruence|].
  rewrite H7, accept_keeps_ct. now apply ct_get.
Qed.
Print Assumptions c21_request.
(** A quote in a field name breaks the framing: names are not escaped. *)
Theorem c21_quote_refuted : exists (p : params (B:=unit)) fs body,
  multipart (fun _ => Err OSError) (lit "b") p = (fs, Ok body) /\
  p_form p = [([DQ], lit "v")] /\
  forall v, read_multipart (lit "b") body <> Some [Part [DQ] None [] v].
Proof.
  exists (Params [] [] [] [] [([DQ], lit "v")] []). do 2 eexists. split; [reflexivity|]. split; [reflexivity|].
  intros v. vm_compute. discriminate.
Qed.
Print Assumptions c21_quote_refuted.
Definition mp_ex : params (B:=unit) :=
  Params [] [] [] [] [(lit "k1", lit "v1"); (lit "k2", CRLF ++ lit "-")]
    [(lit "f", [File (lit "a.txt") [(lit "Content-Type", lit "text/plain")] OnDisk;
                File (lit "b") [] (Stream (lit "data") false)])].
Definition disk_ex (n : str) : res str := if str_eqb n "a.txt"%string then Ok (CRLF ++ CRLF) else Err OSError.
Example c21_ex : exists fs body, multipart disk_ex (lit "xyz") mp_ex = (fs, Ok body) /\
  read_multipart (lit "xyz") body = Some
    [Part (lit "k1") None [] (lit "v1"); Part (lit "k2") None [] (CRLF ++ lit "-");
     Part (lit "f") (Some (lit "a.txt")) [(lit "Content-Type", lit "text/plain")] (CRLF ++ CRLF);
     Part (lit "f") (Some (lit "b")) [] (lit "data")].
Proof. do 2 eexists. split; vm_compute; reflexivity. Qed.
Example c21_ex_hyp : quotable (lit "k1") /\ ~ occurs (lit "--xyz") (CRLF ++ lit "-").
Proof.
  split; [split; cbn; intuition discriminate|].
  intros (a & c & E). do 4 (destruct a as [|? a]; [try discriminate|]; cbn in E; try (injection E as ? E));
    try discriminate.
Qed.

(** * C22 *)
(** Whatever reset, prepare, _patch and security calls happened before, resetting,
    securing and preparing gives the very same request and the same outcome as on the
    original request, if no prepare had to read a file-like object. *)
Theorem c22_again : forall B (marshal : str -> B -> res str) disk info sec l r b s h,
  NoDup (map fst (p_header (r_p r))) ->
  no_streams (p_file (r_p r)) \/ forallb (fun c => negb (reads_files c)) l = true ->
  prepare marshal disk b s h (step marshal disk info sec (reset (history marshal disk info sec l r)) CSecure) =
  prepare marshal disk b s h (step marshal disk info sec (reset r) CSecure).
Proof. intros. now rewrite again_secured. Qed.
Print Assumptions c22_again.
(** The same without security. *)
Theorem c22_again_plain : forall B (marshal : str -> B -> res str) disk info sec l r b s h,
  forallb (fun c => negb (is_secure c)) l = true ->
  no_streams (p_file (r_p r)) \/ forallb (fun c => negb (reads_files c)) l = true ->
  prepare marshal disk b s h (reset (history marshal disk info sec l r)) =
  prepare marshal disk b s h (reset r).
Proof. intros. now rewrite again_plain. Qed.
Print Assumptions c22_again_plain.
(** With file-like objects at least the outcome, the URL, the path and the headers are
    the same. *)
Theorem c22_streams : forall B (marshal : str -> B -> res str) disk b0 s0 h0 b s h r,
  let again := prepare marshal disk b s h (reset (fst (prepare marshal disk b0 s0 h0 (reset r)))) in
  let first := prepare marshal disk b s h (reset r) in
  snd again = snd first /\ r_url (fst again) = r_url (fst first) /\
  r_path (fst again) = r_path (fst first) /\ r_header (fst again) = r_header (fst first).
Proof.
  intros B marshal disk b0 s0 h0 b s h r again first.
  pose proof (frame_prepare marshal disk files_like files_like_refl files_like_trans b0 s0 h0
                (fun _ p => multipart_like disk b0 p) (reset r)) as (K1 & K2 & K3 & K4 & K5 & K6 & K7 & K8 & K9 & K10).
  cbn [reset r_op r_consume r_produce r_scheme r_p] in K1, K2, K3, K4, K5, K6, K7, K8, K9, K10.
  set (x := fst (prepare marshal disk b0 s0 h0 (reset r))) in *.
  destruct (prepare_alike marshal disk b s h (reset r) (reset x)) as [S1 S2].
  { repeat split; cbn [reset r_op r_consume r_scheme r_url r_path r_header r_p]; congruence || (rewrite K1; reflexivity) || auto. }
  { cbn [reset r_produce]. congruence. }
  destruct S2 as (_ & _ & _ & S2 & S3 & S4 & _). unfold again, first. auto.
Qed.
Print Assumptions c22_streams.
(** But the data is not: the second body is empty. *)
Definition op_ex : op := Op (lit "//h/{id}") (lit "/{id}") [] [lit "application/json"] [].
Definition req_ex : request (B:=unit) :=
  new_request op_ex (Params [(lit "X-K", CTok (lit "1"))] [] [(lit "id", lit "a/b")] [] []
    [(lit "f", [File (lit "n") [] (Stream (lit "data") false)])]).
Theorem c22_streams_data_refuted : exists (r : request (B:=unit)) d1 d2,
  let first := fst (prepare (fun _ _ => Ok []) (fun _ => Err OSError) (lit "b") (SchStr (lit "http")) true r) in
  let second := fst (prepare (fun _ _ => Ok []) (fun _ => Err OSError) (lit "b") (SchStr (lit "http")) true (reset first)) in
  r_data first = Some (DText d1) /\ r_data second = Some (DText d2) /\
  option_map (map pt_content) (read_multipart (lit "b") d1) = Some [lit "data"] /\
  option_map (map pt_content) (read_multipart (lit "b") d2) = Some [[]].
Proof.
  exists req_ex. do 2 eexists. cbv zeta. split; [vm_compute; reflexivity|]. split; [vm_compute; reflexivity|].
  split; vm_compute; reflexivity.
Qed.
Print Assumptions c22_streams_data_refuted.
(** Without reset a second prepare is wrong. *)
Example c22_ex_no_reset :
  let r1 := fst (prepare (fun _ _ => Ok []) (fun _ => Err OSError) (lit "b") (SchStr (lit "http")) false req_ex) in
  let r2 := fst (prepare (fun _ _ => Ok []) (fun _ => Err OSError) (lit "b") (SchStr (lit "http")) false r1) in
  (r_url r1, r_url r2) = (lit "http://h/a%2Fb", lit "http:http://h/a%2Fb").
Proof. vm_compute. reflexivity. Qed.
Example c22_ex_hyp : NoDup (map fst (p_header (r_p req_ex))) /\
  forallb (fun c => negb (reads_files c)) [CPrepare (lit "b") (SchStr (lit "http")) false; CSecure; CReset;
    CPatch (Some (lit "localhost")) None; CPrepare (lit "b") (SchStr (lit "https")) false] = true.
Proof. split; [repeat constructor; easy|reflexivity]. Qed.

(** * C50 *)
Theorem c50_content_type : forall B (marshal : str -> B -> res str) disk b s h r r' v,
  prepare marshal disk b s h (reset r) = (r', Ok tt) ->
  o_consumes (r_op r) <> [] ->
  cid_get (lit "content-type") (r_header r') = Ok v ->
  (exists ct, v = CTok ct /\ (In ct (o_consumes (r_op r)) \/
     (ct = lit "multipart/form-data; boundary=" ++ b /\ In (lit "multipart/form-data") (o_consumes (r_op r))))) \/
  (* or it is a header parameter of the user, on a request without encoded data *)
  (exists n, In (n, v) (p_header (r_p r)) /\ lower n = lit "content-type").
Proof.
  intros B marshal disk b s h r r' v H Hc Hv.
  apply prepare_ok in H as (sch & path & url & ct & r1 & H1 & H2 & H3 & D & H4 & H5 & H6 & H7 & _).
  apply prepare_data_ok in D.
  cbn [set_header set_url set_path reset r_p r_op r_url r_path r_scheme r_header r_consume] in *.
  rewrite H7 in Hv.
  assert (Hv' : cid_get (lit "content-type") (ct_header ct (cid_update cid_empty (p_header (r_p r)))) = Ok v).
  { rewrite <- Hv. symmetry. apply accept_keeps_ct. }
  assert (U : ct = None \/ ct = Some [] -> exists n, In (n, v) (p_header (r_p r)) /\ lower n = lit "content-type").
  { intros E. assert (X : cid_get (lit "content-type") (cid_update cid_empty (p_header (r_p r))) = Ok v)
      by (destruct E as [-> | ->]; exact Hv').
    clear - X. unfold cid_update in X.
    assert (G : forall l (d : cid cred), cid_get (lit "content-type") (fold_left (fun acc kv => cid_set (fst kv) (snd kv) acc) l d) = Ok v ->
      (exists n, In (n, v) l /\ lower n = lit "content-type") \/ cid_get (lit "content-type") d = Ok v).
    { induction l as [|[n x] l IH]; intros d Hd; [now right|]. cbn [fold_left] in Hd.
      apply IH in Hd as [(m & Hm & E)|Hd]; [left; exists m; split; auto; now right|].
      cbn [fst snd] in Hd. unfold cid_get, cid_set in Hd.
      destruct (str_eq_dec (lower (lit "content-type")) (lower n)) as [E|E].
      - rewrite E, sget_sset_same in Hd. injection Hd as ->. left. exists n. split; [now left|]. now rewrite <- E.
      - rewrite sget_sset_other in Hd by congruence. now right. }
    apply G in X as [X|X]; auto. discriminate X. }
  assert (V : forall c t, ct = Some (c :: t) -> v = CTok (c :: t)).
  { intros c t E. rewrite E, ct_get in Hv' by discriminate. congruence. }
  destruct D as [D|[D|[D|[D|D]]]].
  - right. apply U. tauto.
  - destruct D as (_ & _ & E & [D|D] & _); [easy|]. left. eexists. split; [apply V; exact E|]. right. split; [reflexivity|exact D].
  - destruct D as (_ & _ & E & [D|D] & _); [easy|]. left. eexists. split; [apply V; exact E|]. left. exact D.
  - destruct D as (_ & _ & _ & [D|D] & [(E & _)|(p & x & d & _ & _ & _ & _ & E & _)]); try easy.
    + right. apply U. tauto.
    + change (body_type (set_header _ _)) with (body_type r) in *.
      destruct (body_type r) as [|c t] eqn:EB.
      * right. apply U. tauto.
      * left. exists (c :: t). split; [now apply V|]. now left.
  - right. apply U. tauto.
Qed.
Print Assumptions c50_content_type.
(** The type of a body is the explicit choice, else the first declared type, else JSON; the
    body is written in that type and the header tells it. *)
Theorem c50_body : forall B (marshal : str -> B -> res str) disk b s h r r' t,
  prepare marshal disk b s h (reset r) = (r', Ok tt) ->
  p_file (r_p r) = [] -> p_form (r_p r) = [] -> p_body (r_p r) <> [] ->
  (exists p, In p (o_params (r_op r)) /\ pa_in p = lit "body") ->
  match r_consume r, o_consumes (r_op r) with
  | Some (c :: x), _ => t = c :: x
  | _, a :: _ => t = a
  | _, [] => t = lit "application/json"
  end ->
  (exists p v d, In p (o_params (r_op r)) /\ pa_in p = lit "body" /\ sget (pa_name p) (p_body (r_p r)) = Some v /\
     marshal t v = Ok d /\ r_data r' = Some (DText d)) /\
  (t <> [] -> cid_get (lit "content-type") (r_header r') = Ok (CTok t)).
Proof.
  intros B marshal disk b s h r r' t H HF HG HB (q & Q1 & Q2) T.
  assert (X : body_type r = t).
  { unfold body_type. destruct (r_consume r) as [[|c x]|]; destruct (o_consumes (r_op r)); auto. }
  apply prepare_ok in H as (sch & path & url & ct & r1 & H1 & H2 & H3 & D & H4 & H5 & H6 & H7 & _).
  apply prepare_data_ok in D. cbn [set_header set_url set_path reset r_p r_op r_url r_path r_scheme r_header r_consume] in *.
  change (body_type (set_header _ _)) with (body_type r) in D. rewrite X in D.
  destruct D as [D|[D|[D|[D|D]]]]; try (destruct D as (? & ? & ?); easy).
  - destruct D as (_ & _ & _ & _ & [(_ & _ & N)|(p & v & d & P1 & P2 & P3 & P4 & -> & P5)]); [destruct (N q Q1 Q2)|].
    split; [exists p, v, d; repeat split; auto; congruence|]. intro NE. rewrite H7, accept_keeps_ct. now apply ct_get.
Qed.
Print Assumptions c50_body.
(** The Accept header is the explicit choice or the first declared type, and declared. *)
Theorem c50_accept : forall B (marshal : str -> B -> res str) disk b s h r r' a rest,
  prepare marshal disk b s h (reset r) = (r', Ok tt) ->
  o_produces (r_op r) = a :: rest -> a <> [] ->
  exists t, cid_get (lit "accept") (r_header r') = Ok (CTok t) /\ In t (o_produces (r_op r)) /\
    match r_produce r with Some (c :: x) => t = c :: x | _ => t = a end.
Proof.
  intros B marshal disk b s h r r' a rest H Hp Ha.
  apply prepare_ok in H as (sch & path & url & ct & r1 & H1 & H2 & H3 & D & H4 & H5 & H6 & H7 & H8).
  cbn [reset r_op r_produce] in *. rewrite H7.
  unfold accept_type in *. cbn [reset r_op r_produce] in *. rewrite Hp in *.
  destruct (r_produce r) as [[|c x]|].
  - exists a. rewrite accept_get by auto. split; auto. split; auto. now left.
  - exists (c :: x). rewrite accept_get by discriminate. split; auto. split; auto.
    destruct (H8 _ eq_refl); auto; discriminate.
  - exists a. rewrite accept_get by auto. split; auto. split; auto. now left.
Qed.
Print Assumptions c50_accept.
(** An explicit choice outside the declared types raises SchemaError (if the request was
    otherwise fine). *)
Definition with_produce {B} (a : option str) (r : request (B:=B)) : request (B:=B) :=
  Req (r_op r) (r_p r) (r_url r) (r_path r) (r_header r) (r_data r) (r_consume r) a (r_scheme r).
Theorem c50_accept_outside : forall B (marshal : str -> B -> res str) disk b s h r a,
  a <> [] -> o_produces (r_op r) <> [] -> ~ In a (o_produces (r_op r)) ->
  snd (prepare marshal disk b s h (with_produce None r)) = Ok tt ->
  snd (prepare marshal disk b s h (with_produce (Some a) r)) = Err SchemaError.
Proof.
  intros B marshal disk b s h r a Ha Hp Hn H. rewrite prepare_front in *. unfold rbind in *.
  destruct (sim_front marshal disk b s h (with_produce None r) (with_produce (Some a) r)) as [S1 S2].
  { repeat split; auto. apply files_like_refl. }
  pose proof (front_produce marshal disk b s h (with_produce (Some a) r)) as [P1 P2].
  destruct (front marshal disk b s h (with_produce None r)) as [x [[]|e]]; [|discriminate H].
  destruct (front marshal disk b s h (with_produce (Some a) r)) as [y [[]|e]]; [|discriminate S1].
  cbn [fst] in P1, P2. cbn [with_produce r_produce r_op] in P1, P2.
  unfold prepare_accept, rbind, gets, id, lift, modify, accept_type. rewrite P1, P2.
  destruct a as [|c a]; [easy|]. destruct (o_produces (r_op r)) as [|q qs] eqn:Q; [easy|]. cbn [nonempty andb].
  destruct (mem (c :: a) (q :: qs)) eqn:M; [apply mem_In in M; easy|]. reflexivity.
Qed.
Print Assumptions c50_accept_outside.
Theorem c50_consume_outside : forall B (marshal : str -> B -> res str) disk b s h r c sch path url,
  r_consume r = Some c -> c <> [] -> o_consumes (r_op r) <> [] -> ~ In c (o_consumes (r_op r)) ->
  p_file (r_p r) = [] -> p_form (r_p r) = [] -> p_body (r_p r) <> [] ->
  choose_scheme (r_scheme r) s = Ok sch ->
  format (r_path r) (quoted_path (r_p r)) = Ok path -> format (r_url r) (quoted_path (r_p r)) = Ok url ->
  snd (prepare marshal disk b s h r) = Err SchemaError.
Proof.
  intros B marshal disk b s h r c sch path url Hc Hn Hcs Hi Hf Hg Hb H1 H2 H3.
  unfold prepare, rbind, gets, id, lift, modify. rewrite H1, H2, H3.
  unfold prepare_data, rbind, gets, id. cbn [set_header set_url set_path r_p r_op]. rewrite Hf, Hg.
  cbn [nonempty]. destruct (p_body (r_p r)) as [|pb pbs] eqn:E; [easy|]. cbn [nonempty].
  unfold prepare_body, rbind, gets, id, lift, body_type. cbn [set_header set_url set_path r_consume r_op].
  rewrite Hc. destruct c as [|c0 c]; [easy|]. unfold check_consumes.
  destruct (o_consumes (r_op r)) as [|q qs] eqn:Q; [easy|]. cbn [nonempty andb].
  destruct (mem (c0 :: c) (q :: qs)) eqn:M; [apply mem_In in M; easy|]. reflexivity.
Qed.
Print Assumptions c50_consume_outside.
(** For form requests the explicit choice is not looked at. *)
Theorem c50_consume_form_refuted : exists (r r' : request (B:=unit)),
  r_consume r = Some (lit "text/plain") /\ o_consumes (r_op r) = [lit "application/x-www-form-urlencoded"] /\
  prepare (fun _ _ => Ok []) (fun _ => Err OSError) (lit "b") (SchStr (lit "http")) true r = (r', Ok tt) /\
  cid_get (lit "Content-Type") (r_header r') = Ok (CTok (lit "application/x-www-form-urlencoded")).
Proof.
  exists (Req (Op (lit "//h/") (lit "/") [lit "application/x-www-form-urlencoded"] [] [])
    (Params [] [] [] [] [(lit "a", lit "b")] []) (lit "//h/") (lit "/") cid_empty None (Some (lit "text/plain")) None None).
  eexists. split; [reflexivity|]. split; [reflexivity|]. split; vm_compute; reflexivity.
Qed.
Print Assumptions c50_consume_form_refuted.
Example c50_ex : exists r', prepare (fun _ _ => Ok (lit "{}")) (fun _ => Err OSError) (lit "b") (SchStr (lit "http")) true
   (reset (new_request (Op (lit "//h/") (lit "/") [lit "text/json"; lit "x/y"] [lit "x/z"] [OParam (lit "body") (lit "p") true])
     (Params [] [] [] [(lit "p", tt)] [] []))) = (r', Ok tt) /\
   cid_items (r_header r') = [(lit "Content-Type", CTok (lit "text/json")); (lit "Accept", CTok (lit "x/z"))].
Proof. eexists. split; vm_compute; reflexivity. Qed.
