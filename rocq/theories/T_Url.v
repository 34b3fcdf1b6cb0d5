(** C12 (relative references), C13 (splitting references), C14 (joining URLs). *)
From Verif Require Import PyBase PyFacts M_Url S_Url P_Url.

(** The model of urlparse / urlunparse inverts the text of well-formed URLs. *)
Theorem c13_parse_show : forall u, url_ok u -> urlparse (show u) = Ok u /\ urlunparse u = show u.
Proof. intros u H. split; [now apply parse_show|now apply unparse_ok]. Qed.
Print Assumptions c13_parse_show.

(** * C12 *)
(** A relative reference: the directory of the document followed by the reference, with
    dot segments removed, on the same scheme, host, params and query.  [removes_dots]
    determines the segments (c12_removes_dots_unique). *)
Theorem c12_relative : forall u segs file rel jp f,
  url_ok u -> u_frag u = [] ->
  u_path u = lit "/" ++ join "/"%string segs ++ lit "/" ++ file ->
  segs <> [] -> Forall (fun s => s <> [] /\ ~ In "/"%char s) segs -> ~ In "/"%char file ->
  rel <> [] -> ~ has_scheme rel -> without (lit "?#;[]") rel ->
  removes_dots f ->
  normalize_jr (rel ++ part "#" jp) (Some (show u)) =
  Ok (show (with_path u (lit "/" ++ join "/"%string (f (segs ++ split "/"%string rel)))) ++ part "#" jp).
Proof. exact jr_relative. Qed.
Print Assumptions c12_relative.
Theorem c12_removes_dots_unique : forall f g,
  removes_dots f -> removes_dots g -> forall l, f l = g l.
Proof. exact removes_dots_unique. Qed.
Print Assumptions c12_removes_dots_unique.
Theorem c12_removes_dots_exists : removes_dots clean_segments.
Proof. exact clean_removes_dots. Qed.
Print Assumptions c12_removes_dots_exists.
(** No dot segment is left, and every segment left was there before. *)
Theorem c12_no_dots_left : forall f l s, removes_dots f -> In s (f l) -> ~ dots s /\ In s l.
Proof.
  intros f l s H. rewrite (removes_dots_unique _ _ H clean_removes_dots). apply clean_no_dots.
Qed.
Print Assumptions c12_no_dots_left.
(** A local reference gets the document URL and keeps its pointer. *)
Theorem c12_local : forall jp u, u <> [] ->
  normalize_jr ("#"%char :: jp) (Some u) = Ok (u ++ part "#" jp).
Proof. exact jr_local. Qed.
Print Assumptions c12_local.
(** An absolute reference is unchanged, whatever the document. *)
Theorem c12_absolute : forall path jp url p, nonempty path = true -> ~ In "#"%char path ->
  urlparse path = Ok p -> has_scheme path ->
  normalize_jr (path ++ part "#" jp) url = Ok (path ++ part "#" jp).
Proof. exact jr_absolute. Qed.
Print Assumptions c12_absolute.
(** So normalising a well-formed absolute reference again changes nothing. *)
Theorem c12_idempotent : forall u url, url_ok u ->
  normalize_jr (show u) url = Ok (show u).
Proof.
  intros u url H. rewrite (show_frag u).
  apply (jr_absolute (show (no_frag u)) (u_frag u) url (no_frag u)).
  - now apply show_nonempty, url_ok_no_frag.
  - apply show_no_hash; [now apply url_ok_no_frag|reflexivity].
  - now apply parse_show, url_ok_no_frag.
  - apply (has_scheme_spec _ (no_frag u)); [now apply parse_show, url_ok_no_frag|].
    cbn [no_frag u_scheme]. destruct (ok_scheme u H) as (c & s & -> & _). discriminate.
Qed.
Print Assumptions c12_idempotent.
(** Without any document URL a local reference stays local; the empty reference raises. *)
Theorem c12_no_document : forall jp, normalize_jr ("#"%char :: jp) None = Ok ("#"%char :: jp) /\
  normalize_jr [] None = Err TypeError.
Proof. split; reflexivity. Qed.
Print Assumptions c12_no_document.
(** The clean form fails for a document at the root of its host ([segs = []]): the
    result has an empty path segment, so it is not the URL of the sibling document. *)
Theorem c12_root_document_refuted : exists url rel r,
  url = lit "http://test.com/swagger.json" /\ rel = lit "User.json" /\
  normalize_jr rel (Some url) = Ok r /\ r = lit "http://test.com//User.json" /\
  r <> lit "http://test.com/User.json".
Proof. do 3 eexists. split; [reflexivity|]. split; [reflexivity|]. split; [vm_compute; reflexivity|].
  split; [reflexivity|]. discriminate. Qed.
Print Assumptions c12_root_document_refuted.
(** Likewise an absolute-path reference is appended to the directory. *)
Theorem c12_absolute_path_refuted : exists url rel r,
  url = lit "http://test.com/a/swagger.json" /\ rel = lit "/User.json" /\
  normalize_jr rel (Some url) = Ok r /\ r = lit "http://test.com/a//User.json" /\
  r <> lit "http://test.com/User.json".
Proof. do 3 eexists. split; [reflexivity|]. split; [reflexivity|]. split; [vm_compute; reflexivity|].
  split; [reflexivity|]. discriminate. Qed.
Print Assumptions c12_absolute_path_refuted.

Definition url_ex : url6 := Url6 (lit "http") (lit "test.com") (lit "/api/v1/swagger.json") [] (lit "a=b") [].
Example url_ex_ok : url_ok url_ex.
Proof.
  constructor; cbn [url_ex u_scheme u_netloc u_path u_params u_query u_frag].
  - exists "h"%char, (lit "ttp"). split; [reflexivity|]. split; [reflexivity|].
    cbn. intros x H. repeat (destruct H as [<-|H]; [split; reflexivity|]). easy.
  - left. discriminate.
  - intros c Hc Hi. cbn in Hc, Hi. repeat (destruct Hc as [<-|Hc]; [intuition discriminate|]). easy.
  - intros c Hc Hi. cbn in Hc, Hi. repeat (destruct Hc as [<-|Hc]; [intuition discriminate|]). easy.
  - right. eexists. reflexivity.
  - intros c Hc []. 
  - cbn. intuition discriminate.
  - easy.
  - cbn. intuition discriminate.
Qed.
Example c12_ex : normalize_jr (lit "../x/./User.json#/definitions/U") (Some (show url_ex)) =
  Ok (lit "http://test.com/api/x/User.json?a=b#/definitions/U").
Proof. vm_compute. reflexivity. Qed.
Example c12_ex_hyp : ~ has_scheme (lit "../x/./User.json") /\ without (lit "?#;[]") (lit "../x/./User.json").
Proof.
  split.
  - intros (c & a & b & E & Ha & _). inversion E; subst. discriminate.
  - intros c Hc Hi. cbn in Hc, Hi. repeat (destruct Hc as [<-|Hc]; [intuition discriminate|]). easy.
Qed.
Example c12_ex_test1 : normalize_jr (lit "User.json") (Some (lit "http://test.com/api/swagger.json")) =
  Ok (lit "http://test.com/api/User.json"). Proof. vm_compute. reflexivity. Qed.
Example c12_ex_test2 : normalize_jr (lit "#/definitions/User") (Some (lit "http://test.com/api/swagger.json")) =
  Ok (lit "http://test.com/api/swagger.json#/definitions/User"). Proof. vm_compute. reflexivity. Qed.
Example c12_ex_test3 : derelativise_url (lit "https://localhost/hurf/./durf/../starf") =
  Ok (lit "https://localhost/hurf/starf"). Proof. vm_compute. reflexivity. Qed.

(** * C13 *)
Theorem c13_split : forall abs_uri win_uri u, url_ok u ->
  jr_split abs_uri win_uri (show u) = Ok (show (no_frag u), "#"%char :: u_frag u).
Proof. exact jr_split_ok. Qed.
Print Assumptions c13_split.
Theorem c13_no_hash : forall u, url_ok u -> ~ In "#"%char (show (no_frag u)).
Proof. intros u H. apply show_no_hash; [now apply url_ok_no_frag|reflexivity]. Qed.
Print Assumptions c13_no_hash.
(** Recombination (an absent fragment is the pointer "#"). *)
Theorem c13_recombine : forall abs_uri win_uri u url jp, url_ok u ->
  jr_split abs_uri win_uri (show u) = Ok (url, jp) ->
  url ++ (if u_frag u then [] else jp) = show u /\ (u_frag u = [] -> jp = lit "#").
Proof.
  intros a w u url jp H E. rewrite jr_split_ok in E by auto. inversion E; subst. split.
  - rewrite (show_frag u). now destruct (u_frag u).
  - intros ->. reflexivity.
Qed.
Print Assumptions c13_recombine.
(** A local reference has an empty document part. *)
Theorem c13_local : forall abs_uri win_uri jp,
  jr_split abs_uri win_uri ("#"%char :: jp) = Ok ([], "#"%char :: jp).
Proof. exact jr_split_local. Qed.
Print Assumptions c13_local.
Example c13_ex : jr_split id id (lit "http://test.com/api/swagger.json#/definitions/s1") =
  Ok (lit "http://test.com/api/swagger.json", lit "#/definitions/s1").
Proof. vm_compute. reflexivity. Qed.
Example c13_ex_file : jr_split (fun p => lit "file://" ++ p) id (lit "/home/u/a.json#/x") =
  Ok (lit "file:///home/u/a.json", lit "#/x").
Proof. vm_compute. reflexivity. Qed.

(** * C14 *)
(** Exactly one slash between the parts; everything else is kept. *)
Theorem c14_url_join : forall u path, url_ok u ->
  url_join (show u) path = Ok (show (with_path u (rtrim1 (u_path u) ++ lit "/" ++ ltrim1 path))).
Proof. exact url_join_ok. Qed.
Print Assumptions c14_url_join.
(** where [rtrim1]/[ltrim1] drop one slash at the end/beginning, if there is one *)
Theorem c14_trims : forall s,
  (rtrim1 (s ++ lit "/") = s /\ ltrim1 (lit "/" ++ s) = s) /\
  (endswith s "/"%string = false -> rtrim1 s = s) /\ (startswith s "/"%string = false -> ltrim1 s = s).
Proof.
  intros s. split; [split|split].
  - unfold rtrim1. assert (endswith (s ++ lit "/") "/"%string = true) as ->.
    { apply endswith_spec. now exists s. }
    apply removelast_last.
  - reflexivity.
  - intros H. unfold rtrim1. now rewrite H.
  - apply ltrim1_no.
Qed.
Print Assumptions c14_trims.
(** url_dirname keeps a URL whose path does not end in json or yaml... *)
Theorem c14_dirname_other : forall u, url_ok u ->
  endswith (u_path u) "json"%string = false -> endswith (u_path u) "yaml"%string = false ->
  url_dirname (show u) = Ok (show u).
Proof. exact url_dirname_other. Qed.
Print Assumptions c14_dirname_other.
(** ... and otherwise drops exactly the last component. *)
Theorem c14_dirname_file : forall u d f, url_ok u ->
  u_path u = d ++ "/"%char :: f -> ~ In "/"%char f ->
  endswith (u_path u) "json"%string = true \/ endswith (u_path u) "yaml"%string = true ->
  d = [] \/ (d <> [] /\ last d "x"%char <> "/"%char) ->
  url_dirname (show u) = Ok (show (with_path u (match d with [] => lit "/" | _ => d end))).
Proof. exact url_dirname_file. Qed.
Print Assumptions c14_dirname_file.
Example c14_ex1 : url_join (lit "http://localhost/a/?x=1") (lit "/test.json") =
  Ok (lit "http://localhost/a/test.json?x=1"). Proof. vm_compute. reflexivity. Qed.
Example c14_ex2 : url_join (lit "http://localhost/a") (lit "test.json") =
  Ok (lit "http://localhost/a/test.json"). Proof. vm_compute. reflexivity. Qed.
Example c14_ex3 : url_dirname (lit "http://localhost/test/swagger.json") = Ok (lit "http://localhost/test").
Proof. vm_compute. reflexivity. Qed.
Example c14_ex4 : url_dirname (lit "https://localhost/test") = Ok (lit "https://localhost/test").
Proof. vm_compute. reflexivity. Qed.

(** * C47 (first part): completing a file name *)
(** The extension of the base path wins, then the file's own, then ".json"; it is added
    only if the file name does not end with it already. *)
Theorem c47_patch_path_base : forall b p e,
  In e doc_exts -> has_ext b e -> patch_path b p = completed p e.
Proof. exact patch_path_base. Qed.
Print Assumptions c47_patch_path_base.
Theorem c47_patch_path_own : forall b p e, (forall e', In e' doc_exts -> ~ has_ext b e') ->
  In e doc_exts -> has_ext p e -> patch_path b p = p.
Proof. exact patch_path_own. Qed.
Print Assumptions c47_patch_path_own.
Theorem c47_patch_path_default : forall b p, (forall e', In e' doc_exts -> ~ has_ext b e') ->
  (forall e', In e' doc_exts -> ~ has_ext p e') -> patch_path b p = completed p (lit ".json").
Proof. exact patch_path_default. Qed.
Print Assumptions c47_patch_path_default.
Example c47_ex1 : patch_path (lit "/Users/sudeep.agarwal/src/swagger.yaml") (lit "/x/User") = lit "/x/User.yaml".
Proof. vm_compute. reflexivity. Qed.
Example c47_ex2 : patch_path (lit "/Users/sudeep.agarwal/src") (lit "/x/User.yml") = lit "/x/User.yml".
Proof. vm_compute. reflexivity. Qed.
Example c47_ex3 : patch_path (lit "/Users/sudeep.agarwal/src/x.agarwal") (lit "/x/User") = lit "/x/User.json".
Proof. vm_compute. reflexivity. Qed.
Example c47_ex_hyp : has_ext (lit "/a/swagger.yaml") (lit ".yaml").
Proof.
  exists (lit "/a/"), (lit "swagger"), (lit "yaml").
  repeat split; try (cbn; intuition discriminate).
  - right. now exists (lit "/a").
  - exists "s"%char. split; [now left|discriminate].
Qed.
