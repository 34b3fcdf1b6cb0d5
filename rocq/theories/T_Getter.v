(** C42, C47: locating files, getting parts of documents. *)
From Coq Require Import Lia.
From Verif Require Import PyBase PyFacts PyInt P_Int PyJson P_Op M_JsonPtr S_JsonPtr P_JsonPtr M_Url M_Getter S_Url P_Url S_Getter P_Getter.
Close Scope Q_scope.

(** * C47: the file that is opened *)
(** One with a well-known name, when it is no folder that has such a file; *)
Theorem c47_known_name : forall isfile abspath p n, plain_path p -> In n well_known -> endswith p n = true ->
  (forall m, In m well_known -> isfile (in_folder p m) = false) -> ~ doc_ext (dirname p) -> opens isfile abspath p = Ok p.
Proof.
  intros isfile abspath p n P I E F D. unfold opens, locate. rewrite (local_plain _ _ P). cbn [bind].
  rewrite (by_name_known isfile p p file_names n known_plain F I E). cbn [bind fst snd]. f_equal. apply patch_doc; [exact D|]. exact (known_ext p n I E).
Qed.
(** in a folder the first one with a well-known name; *)
Theorem c47_folder : forall isfile abspath p n, plain_path p -> (forall m, In m well_known -> endswith p m = false) ->
  first_of (fun m => isfile (in_folder p m) = true) well_known n -> ~ doc_ext p -> opens isfile abspath p = Ok (in_folder p n).
Proof.
  intros isfile abspath p n P E F D. unfold opens, locate. rewrite (local_plain _ _ P). cbn [bind].
  rewrite (by_name_folder isfile p p file_names n known_plain E F). cbn [bind fst snd]. f_equal. apply patch_doc; [exact D|].
  destruct F as (l1 & l2 & L & _). assert (I : In n well_known) by (rewrite L; apply in_elt). exact (known_ext _ n I (folder_ends p n)).
Qed.
(** else the file itself, if it has one of the extensions; *)
Theorem c47_given_file : forall isfile abspath p, plain_path p -> (forall m, In m well_known -> endswith p m = false /\ isfile (in_folder p m) = false) ->
  doc_ext p -> ~ doc_ext (dirname p) -> opens isfile abspath p = Ok p.
Proof.
  intros isfile abspath p P N X D. unfold opens, locate. rewrite (local_plain _ _ P). cbn [bind].
  rewrite (by_name_none isfile p p file_names known_plain N).
  assert (K : existsb (endswith (splitext p)) file_exts = true).
  { apply ext_kind. destruct X as (e & I & H). destruct I as [<-|[<-|[<-|[]]]]; eexists; [exists (lit "json")|exists (lit "yaml")|exists (lit "yml")]; (split; [exact H|split; [cbn; auto|reflexivity]]). }
  rewrite K. cbn [bind fst snd]. f_equal. now apply patch_doc.
Qed.
(** else what results from adding the first possible extension; *)
Theorem c47_completed : forall isfile abspath p e, plain_path p -> (forall m, In m well_known -> endswith p m = false /\ isfile (in_folder p m) = false) ->
  (forall x y, has_ext p x -> In y [lit "json"; lit "yaml"; lit "yml"] -> endswith x y = false) -> named p ->
  first_of (fun e => isfile (p ++ e) = true) doc_exts e -> opens isfile abspath p = Ok (p ++ e).
Proof.
  intros isfile abspath p e P N X NM F. unfold opens, locate. rewrite (local_plain _ _ P). cbn [bind].
  rewrite (by_name_none isfile p p file_names known_plain N).
  assert (K : existsb (endswith (splitext p)) file_exts = false).
  { destruct (existsb _ _) eqn:K; [|reflexivity]. apply ext_kind in K as (x & y & H & I & E). rewrite (X x y H I) in E. discriminate. }
  rewrite K. assert (E : exists e', e = "."%char :: e' /\ In e' file_exts /\ first_of (fun e => isfile (p ++ "."%char :: e) = true) file_exts e').
  { destruct F as (l1 & l2 & L & Fe & Ne). unfold doc_exts in L. destruct l1 as [|a [|b [|c l1]]]; cbn [app] in L.
    - injection L as <- <-. exists (lit "json"). split; [reflexivity|]. split; [cbn; auto|]. exists [], (map lit ["yaml"; "yml"]%string). split; [reflexivity|]. split; [exact Fe|intros ? []].
    - injection L as <- <- <-. exists (lit "yaml"). split; [reflexivity|]. split; [cbn; auto|]. exists [lit "json"], [lit "yml"]. split; [reflexivity|]. split; [exact Fe|].
      intros y [<-|[]]. apply (Ne (lit ".json")). now left.
    - injection L as <- <- <- <-. exists (lit "yml"). split; [reflexivity|]. split; [cbn; auto|]. exists [lit "json"; lit "yaml"], []. split; [reflexivity|]. split; [exact Fe|].
      intros y [<-|[<-|[]]]; [apply (Ne (lit ".json")); now left|apply (Ne (lit ".yaml")); right; now left].
    - injection L as _ _ _ L. destruct l1; discriminate L. }
  destruct E as (e' & -> & I & FE). rewrite (by_ext_first isfile p p file_exts e' FE). cbn [bind fst snd]. f_equal. apply patch_doc.
  - intros (x & Ix & H). assert (Z : exists y, In y [lit "json"; lit "yaml"; lit "yml"] /\ endswith x y = true) by
      (destruct Ix as [<-|[<-|[<-|[]]]]; [exists (lit "json")|exists (lit "yaml")|exists (lit "yml")]; split; [cbn; auto|reflexivity|cbn; auto|reflexivity|cbn; auto|reflexivity]).
    destruct Z as (y & Iy & Ey). rewrite (X x y H Iy) in Ey. discriminate.
  - destruct NM as (dir & stem & c & -> & D & NS & Ic & Nc). exists ("."%char :: e'). rewrite <- app_assoc. split; [destruct I as [<-|[<-|[<-|[]]]]; cbn; auto|].
    apply (stem_ext dir stem e' c); auto; destruct I as [<-|[<-|[<-|[]]]]; cbn; intuition discriminate.
Qed.
(** and a [ValueError] if there is nothing of this. *)
Theorem c47_nothing : forall isfile abspath p, plain_path p ->
  opens isfile abspath p = Err ValueError <->
  (forall m, In m well_known -> endswith p m = false /\ isfile (in_folder p m) = false) /\
  (forall x y, has_ext p x -> In y [lit "json"; lit "yaml"; lit "yml"] -> endswith x y = false) /\
  (forall e, In e doc_exts -> isfile (p ++ e) = false).
Proof.
  intros isfile abspath p P. unfold opens, locate. rewrite (local_plain _ _ P). cbn [bind]. split.
  - intro E. destruct (by_name isfile p p file_names) as [r|] eqn:B; [discriminate E|].
    destruct (existsb (endswith (splitext p)) file_exts) eqn:K; [discriminate E|]. destruct (by_ext isfile p p file_exts) as [r|] eqn:X; [discriminate E|]. split; [|split].
    + intros m I. destruct (endswith p m) eqn:Em; destruct (isfile (in_folder p m)) eqn:Fm; auto; exfalso.
      all: clear - B I Em Fm; change file_names with well_known in B; pose proof known_plain as KP; revert I B KP; generalize well_known as l; intro l;
        induction l as [|a l IH]; intros I B KP; [destruct I|]; cbn [by_name] in B; destruct (endswith p a) eqn:Ea; try discriminate B;
        rewrite join_folder in B by (apply KP; now left); destruct (isfile (in_folder p a)) eqn:Fa; try discriminate B; destruct I as [->|I]; try congruence; apply IH; auto; intros; apply KP; now right.
    + intros x y H I. destruct (endswith x y) eqn:Y; [|reflexivity]. exfalso. assert (Z : existsb (endswith (splitext p)) file_exts = true) by (apply ext_kind; eauto). congruence.
    + intros e I. cbn [file_exts map by_ext] in X. destruct (isfile (p ++ "."%char :: lit "json")) eqn:F1; [discriminate X|]. destruct (isfile (p ++ "."%char :: lit "yaml")) eqn:F2; [discriminate X|].
      destruct (isfile (p ++ "."%char :: lit "yml")) eqn:F3; [discriminate X|]. destruct I as [<-|[<-|[<-|[]]]]; assumption.
  - intros (A & B & C). rewrite (by_name_none isfile p p file_names known_plain A).
    assert (K : existsb (endswith (splitext p)) file_exts = false).
    { destruct (existsb _ _) eqn:K; [|reflexivity]. apply ext_kind in K as (x & y & H & I & E). rewrite (B x y H I) in E. discriminate. }
    rewrite K, by_ext_none; [reflexivity|]. intros e [<-|[<-|[<-|[]]]]; [apply (C (lit ".json"))|apply (C (lit ".yaml"))|apply (C (lit ".yml"))]; cbn; auto.
Qed.
(** Texts that begin with a brace are JSON, others YAML; wrong ones are refused. *)
Theorem c47_format : forall json_loads yaml_load text,
  (forall rest, text = "{"%char :: rest -> (forall j, json_loads text = Ok j -> decode json_loads yaml_load text = Ok j) /\
     (json_loads text = Err ValueError -> decode json_loads yaml_load text = Err GenericException)) /\
  ((forall rest, text <> "{"%char :: rest) -> (forall j, yaml_load text = Ok j -> decode json_loads yaml_load text = Ok j) /\
     (yaml_load text = Err ValueError -> decode json_loads yaml_load text = Err GenericException)).
Proof.
  intros json_loads yaml_load text. unfold decode. split.
  - intros rest E. assert (B : startswith text "{"%string = true) by (subst; reflexivity). rewrite B. split; [intros j ->|intros ->]; reflexivity.
  - intro N. assert (B : startswith text "{"%string = false).
    { destruct (startswith text _) eqn:B; [|reflexivity]. apply prefixb_spec in B as (t & B). exfalso. exact (N t B). }
    rewrite B. split; [intros j ->|intros ->]; reflexivity.
Qed.
Theorem c47_loaded : forall json_loads yaml_load isfile abspath read p f text, opens isfile abspath p = Ok f -> read f = Ok text ->
  local_next json_loads yaml_load isfile abspath read p = decode json_loads yaml_load text.
Proof. intros json_loads yaml_load isfile abspath read p f text O R. unfold local_next. rewrite O. cbn [bind]. now rewrite R. Qed.
(** The extension of a folder misleads it: the file that is there is not the one opened. *)
Theorem c47_folder_ext_refuted : exists isfile p, plain_path p /\ isfile (in_folder p (lit "swagger.json")) = true /\
  opens isfile id p = Ok (lit "/v1.yaml/swagger.json.yaml") /\ isfile (lit "/v1.yaml/swagger.json.yaml") = false.
Proof.
  exists (fun f => str_eqb f "/v1.yaml/swagger.json"%string), (lit "/v1.yaml"). split.
  - split; [reflexivity|]. intros (d & rest & E & N & H). injection E as E. destruct d as [|a d]; [congruence|]. injection E as <- _.
    destruct (H "v"%char (or_introl eq_refl)) as (n & L & X). apply (f_equal nat_of_ascii) in X. rewrite nat_ascii_embedding in X by lia. vm_compute in X. lia.
  - split; [vm_compute; reflexivity|]. split; vm_compute; reflexivity.
Qed.
Print Assumptions c47_known_name.
Print Assumptions c47_folder.
Print Assumptions c47_given_file.
Print Assumptions c47_completed.
Print Assumptions c47_nothing.
Print Assumptions c47_format.
Print Assumptions c47_loaded.
Print Assumptions c47_folder_ext_refuted.
Lemma no_drive c p : c <> "/"%char -> startswith (c :: p) "file://"%string = false -> plain_path (c :: p).
Proof. intros N F. split; [exact F|]. intros (d & rest & E & _). injection E as E _. auto. Qed.
Example c47_ex_folder : first_of (fun m => str_eqb (in_folder (lit "api/v1") m) "api/v1/swagger.yaml"%string = true) well_known (lit "swagger.yaml") /\
  plain_path (lit "api/v1") /\ opens (fun f => str_eqb f "api/v1/swagger.yaml"%string) id (lit "api/v1") = Ok (lit "api/v1/swagger.yaml").
Proof.
  split; [|split; [apply no_drive; [discriminate|reflexivity]|vm_compute; reflexivity]]. exists [lit "resource_list.json"; lit "swagger.json"], [lit "swagger.yml"].
  split; [reflexivity|]. split; [vm_compute; reflexivity|]. intros y [<-|[<-|[]]]; vm_compute; discriminate.
Qed.
Example c47_ex_completed : opens (fun f => str_eqb f "api/pets.yml"%string) id (lit "api/pets") = Ok (lit "api/pets.yml") /\ named (lit "api/pets") /\
  opens (fun _ => false) id (lit "api/pets.yml") = Ok (lit "api/pets.yml") /\ opens (fun _ => false) id (lit "api/pets") = Err ValueError.
Proof.
  split; [vm_compute; reflexivity|]. split; [|split; vm_compute; reflexivity]. exists (lit "api/"), (lit "pets"), "p"%char. split; [reflexivity|]. split; [right; now exists (lit "api")|].
  split; [cbn; intuition discriminate|]. split; [now left|discriminate].
Qed.

(** * C42: documents and their parts *)
Section History.
  Context (abs_uri win_uri : str -> str) (hook : option (str -> str)) (default : option getter) (fetch : log -> source -> res json).
  Let run := rrun abs_uri win_uri hook default fetch.
  Let ask := rresolve abs_uri win_uri hook default fetch.
  Let split_ref := jr_split abs_uri win_uri.
  (** Whatever has been asked for: once a document with content has been got for a URL, none
      is got for it again. *)
  Theorem c42_once : forall calls l1 url src doc l2, r_log (run rinit calls) = l1 ++ (url, src, Ok doc) :: l2 -> ~ is_empty doc ->
    forall src' r, ~ In (url, src', r) l2.
  Proof. intros calls l1 url src doc l2. destruct (inv_run abs_uri win_uri hook default fetch calls rinit inv_init) as [_ B]. apply B. Qed.

  Lemma tokens ts : skipn 1 (jp_split (Some (rfc_pointer (lit "#") ts))) = ts.
  Proof.
    assert (E : jp_split (Some (rfc_pointer (lit "#") ts)) = lit "#" :: ts); [|now rewrite E].
    rewrite <- (compose_pointer_ok (lit "#") ts) by discriminate. rewrite roundtrip_base by discriminate. reflexivity.
  Qed.
  (** The part that is asked for comes from this document, without getting anything; *)
  Theorem c42_cached : forall calls jref g url ts doc x, got (run rinit calls) url doc -> split_ref jref = Ok (url, rfc_pointer (lit "#") ts) ->
    selects doc ts x -> ask (run rinit calls) jref g = (run rinit calls, Ok x).
  Proof.
    intros calls jref g url ts doc x G S SL. destruct (inv_run abs_uri win_uri hook default fetch calls rinit inv_init) as [A _]. apply A in G. fold run in G.
    unfold ask, rresolve. unfold split_ref in S. rewrite S, G, tokens. f_equal. now apply walk_selects.
  Qed.
  (** if it has no such part there is an exception. *)
  Theorem c42_absent : forall calls jref g url ts doc, got (run rinit calls) url doc -> split_ref jref = Ok (url, rfc_pointer (lit "#") ts) ->
    (forall t, In t ts -> decimal_if_number t) -> (forall x, ~ selects doc ts x) -> exists e, ask (run rinit calls) jref g = (run rinit calls, Err e).
  Proof.
    intros calls jref g url ts doc G S D N. destruct (inv_run abs_uri win_uri hook default fetch calls rinit inv_init) as [A _]. apply A in G. fold run in G.
    unfold ask, rresolve. unfold split_ref in S. rewrite S, G, tokens. destruct (json_walk doc ts) as [x|e] eqn:W; [|eauto]. exfalso. apply (N x). now apply selects_walk.
  Qed.
  (** A URL without such a document is got, from the right source, the answer is logged, *)
  Theorem c42_got : forall calls jref g url ts src, (forall doc, ~ got (run rinit calls) url doc) -> split_ref jref = Ok (url, rfc_pointer (lit "#") ts) ->
    source_of default g (match hook with Some f => f url | None => url end) = Ok src ->
    r_log (fst (ask (run rinit calls) jref g)) = r_log (run rinit calls) ++ [(url, src, fetch (r_log (run rinit calls)) src)] /\
    match fetch (r_log (run rinit calls)) src with
    | Err e => snd (ask (run rinit calls) jref g) = Err e
    | Ok doc => (is_empty doc -> snd (ask (run rinit calls) jref g) = Err GenericException) /\
                (~ is_empty doc -> forall x, selects doc ts x -> snd (ask (run rinit calls) jref g) = Ok x)
    end.
  Proof.
    intros calls jref g url ts src G S SO. destruct (inv_run abs_uri win_uri hook default fetch calls rinit inv_init) as [A _]. fold run in A.
    assert (C : sget url (r_cache (run rinit calls)) = None) by (destruct (sget url _) as [d|] eqn:C; [apply A, G in C; destruct C|reflexivity]).
    unfold ask, rresolve. unfold split_ref in S. rewrite S, C, SO, tokens. destruct (fetch (r_log (run rinit calls)) src) as [doc|e]; [|split; reflexivity].
    destruct (json_falsy doc) eqn:Z; cbn [fst snd r_log]; (split; [reflexivity|split]).
    - reflexivity.
    - intro N. apply falsy_json in Z. contradiction.
    - intro E. apply falsy_json in E. congruence.
    - intros _ x X. now apply walk_selects.
  Qed.
  (** and an answer is always the part of a document that has been got. *)
  Theorem c42_part : forall calls jref g url ts x st, split_ref jref = Ok (url, rfc_pointer (lit "#") ts) -> (forall t, In t ts -> decimal_if_number t) ->
    ask (run rinit calls) jref g = (st, Ok x) -> exists doc, got st url doc /\ selects doc ts x.
  Proof.
    intros calls jref g url ts x st S D E. pose proof (inv_run abs_uri win_uri hook default fetch calls rinit inv_init) as I. fold run in I.
    pose proof (inv_step abs_uri win_uri hook default fetch _ jref g I) as [A _]. fold ask in A. rewrite E in A. cbn [fst] in A.
    unfold ask, rresolve in E. unfold split_ref in S. rewrite S, tokens in E. destruct (sget url (r_cache (run rinit calls))) as [doc|] eqn:C.
    - injection E as <- W. exists doc. split; [now apply A|now apply selects_walk].
    - destruct (source_of default g _) as [src|e]; [|discriminate E]. destruct (fetch _ src) as [doc|e]; [|discriminate E]. destruct (json_falsy doc); [discriminate E|].
      injection E as <- W. exists doc. split; [apply A; apply sget_sset_same|now apply selects_walk].
  Qed.
End History.
(** A getter that is passed is used; else a local file is read, and what is neither local nor
    for a default getter is downloaded. *)
Theorem c42_source : forall default g url, 
  source_of default (Some (GInstance g)) url = Ok (FromInstance g) /\ source_of default (Some (GClass g)) url = Ok (FromClass g url) /\
  forall u, url_ok u -> url = show u ->
    source_of default None url = Ok (if str_eqb (u_scheme u) "file"%string && nonempty (u_path u) then FromFile (u_path u)
      else match default with
           | Some (GInstance n) => FromInstance n
           | Some (GClass n) => FromClass n url
           | None => FromClass "UrlGetter"%string url
           end).
Proof.
  intros default g url. split; [reflexivity|]. split; [reflexivity|]. intros u U ->. unfold source_of. rewrite parse_show by exact U. cbn [bind].
  destruct (str_eqb (u_scheme u) "file"%string && nonempty (u_path u)) eqn:F.
  - f_equal. f_equal. unfold path_join. apply andb_prop in F as [_ F]. destruct (ok_path_abs u U) as [E|(p & E)]; rewrite E in *; [discriminate F|reflexivity].
  - destruct default as [[]|]; reflexivity.
Qed.
(** Tokens other than decimal numbers select elements of lists, too. *)
Theorem c42_negative_refuted : exists l x, nth_error l 1 = Some x /\ length l = 2 /\ json_walk (JList l) [lit "-1"] = Ok x.
Proof. exists [JInt 5; JInt 7], (JInt 7). repeat split. Qed.
Print Assumptions c42_once.
Print Assumptions c42_cached.
Print Assumptions c42_absent.
Print Assumptions c42_got.
Print Assumptions c42_part.
Print Assumptions c42_source.
Print Assumptions c42_negative_refuted.
(** Two parts of one document, one of them asked for twice; the document is got once. *)
Definition ex_doc : json := JObj [(lit "a/b", JList [JInt 3; JObj [(lit "k", JStr (lit "v"))]]); (lit "c", JNull)].
Definition ex_run := rrun id id None None (fun _ _ => Ok ex_doc).
Definition ex_ask := rresolve id id None None (fun _ _ => Ok ex_doc).
Example c42_ex : exists st, st = ex_run rinit [(lit "http://h/d.json#/c", None); (lit "http://h/d.json#/a~1b/1/k", None); (lit "http://h/d.json#/a~1b/1/k", None)] /\
  r_log st = [(lit "http://h/d.json", FromClass (lit "UrlGetter") (lit "http://h/d.json"), Ok ex_doc)] /\ got st (lit "http://h/d.json") ex_doc /\
  snd (ex_ask st (lit "http://h/d.json#/a~1b/1/k") None) = Ok (JStr (lit "v")) /\ selects ex_doc [lit "a/b"; lit "1"; lit "k"] (JStr (lit "v")) /\
  jr_split id id (lit "http://h/d.json#/a~1b/1/k") = Ok (lit "http://h/d.json", rfc_pointer (lit "#") [lit "a/b"; lit "1"; lit "k"]).
Proof.
  eexists. split; [reflexivity|]. split; [vm_compute; reflexivity|]. split.
  { eexists []. eexists. eexists []. split; [vm_compute; reflexivity|]. intros [E|[E|[E|[(q & E & _)|[E|[E|E]]]]]]; discriminate E. }
  split; [vm_compute; reflexivity|]. split; [|vm_compute; reflexivity].
  eapply sel_key; [vm_compute; reflexivity|]. apply (sel_item _ 1 (JObj [(lit "k", JStr (lit "v"))])); [reflexivity|]. eapply sel_key; [vm_compute; reflexivity|constructor].
Qed.
(** An empty answer is not remembered. *)
Example c42_ex_empty : length (r_log (rrun id id None None (fun _ _ => Ok JNull) rinit [(lit "http://h/d.json", None); (lit "http://h/d.json", None)])) = 2.
Proof. vm_compute. reflexivity. Qed.
