(** C70: the file that is looked for when the address of a document is a path. *)
From Coq Require Import Lia.
From Verif Require Import PyBase PyFacts M_Quote M_Url M_Getter M_AsUri S_Url S_Getter P_Url P_Getter S_Address P_Address T_Address S_FileUrl P_FileUrl S_AsUri P_AsUri.
Close Scope Q_scope.

(** The file with the quoted path is looked for, *)
Theorem c70_path_source : forall abspath win_uri s a, path_address abspath s a ->
  exists u, normalize_url (as_uri abspath) win_uri s = Ok u /\ source_of None None u = Ok (FromFile (quote a (lit "/"))).
Proof.
  intros abspath win_uri s a ((p & NS & N2 & FR & PT) & A & (a' & E)). exists (as_uri abspath s). split; [apply c70_address; now apply (tk_path _ _ s p)|].
  unfold as_uri. rewrite A, quote_qc. assert (X : flat_map qc a = "/"%char :: flat_map qc a') by (rewrite E; reflexivity).
  assert (SN : split_netloc (lit "//" ++ flat_map qc a) = Ok ([], flat_map qc a)) by (rewrite X; reflexivity).
  unfold source_of. rewrite urlparse_is. change (split_scheme (lit "file://" ++ flat_map qc a)) with (split_scheme ("f"%char :: lit "ile" ++ ":"%char :: lit "//" ++ flat_map qc a)).
  rewrite (scheme_split "f"%char (lit "ile") (lit "//" ++ flat_map qc a) eq_refl eq_refl). cbn [fst snd]. rewrite SN. cbn [bind fst snd u_scheme u_netloc u_path].
  assert (FQ : front (flat_map qc a) (flat_map qc a)).
  { exists []. split; [now rewrite app_nil_r|]. split; [|now left]. intros c J. apply quote_without. cbn in J |- *. tauto. }
  rewrite (front_path _ _ FQ). change (fst (parse_params (lower ("f"%char :: lit "ile")) (flat_map qc a))) with (flat_map qc a). rewrite X. reflexivity.
Qed.
Print Assumptions c70_path_source.
(** which is the file of that path if nothing in it is quoted in URLs, *)
Theorem c70_path_found : forall abspath win_uri s a, path_address abspath s a -> (forall c, In c a -> In c plain_chars) ->
  exists u, normalize_url (as_uri abspath) win_uri s = Ok u /\ source_of None None u = Ok (FromFile a).
Proof.
  intros abspath win_uri s a P H. destruct (c70_path_source abspath win_uri s a P) as (u & N & S). exists u. split; [exact N|]. rewrite S, quote_qc. do 2 f_equal.
  clear - H. induction a as [|c a IH]; [reflexivity|]. cbn [flat_map]. rewrite (qc_plain c) by (apply H; now left). cbn [app]. f_equal. apply IH. intros x I. apply H. now right.
Qed.
Print Assumptions c70_path_found.
(** and another one otherwise: the path of the URL is not unquoted. *)
Theorem c70_path_other : forall abspath win_uri s a, path_address abspath s a -> (exists c, In c a /\ ~ In c plain_chars) ->
  exists u b, normalize_url (as_uri abspath) win_uri s = Ok u /\ source_of None None u = Ok (FromFile b) /\ b <> a.
Proof.
  intros abspath win_uri s a P H. destruct (c70_path_source abspath win_uri s a P) as (u & N & S). exists u, (quote a (lit "/")). split; [exact N|]. split; [exact S|].
  rewrite quote_qc. intro E. destruct (quote_long a) as [_ L]. specialize (L H). rewrite E in L. lia.
Qed.
Print Assumptions c70_path_other.
(** So a document is not found although there is a file of the given path. *)
Theorem c70_existing_path_refuted : exists isfile s u b f, isfile s = true /\ normalize_url (as_uri id) (as_uri id) s = Ok u /\
  source_of None None u = Ok (FromFile b) /\ opens isfile id b = Ok f /\ isfile f = false.
Proof. exists (str_eqb (lit "/my api.json")), (lit "/my api.json"), (lit "file:///my%20api.json"), (lit "/my%20api.json"), (lit "/my%20api.json"). repeat (split; [vm_compute; reflexivity|]). vm_compute. reflexivity. Qed.
Print Assumptions c70_existing_path_refuted.

Lemma slash_address s a' : s = "/"%char :: a' -> ~ two_slashes s -> without (lit "?#") s -> path_address id s s.
Proof.
  intros E N W. split; [|split; [reflexivity|eauto]]. exists s. split; [rewrite E; apply slash_no_scheme|]. split; [exact N|]. split; [exists []; split; [now rewrite app_nil_r|]; split; [exact W|now left]|].
  rewrite E. split; discriminate.
Qed.
Example ex_plain_path : path_address id (lit "/v2/api.json") (lit "/v2/api.json") /\ forall c, In c (lit "/v2/api.json") -> In c plain_chars.
Proof.
  split.
  - apply (slash_address _ (lit "v2/api.json")); [reflexivity|intros (r & E); discriminate E|]. intros c [<-|[<-|[]]] I; apply has_In in I; discriminate I.
  - assert (X : forallb (fun c => has c plain_chars) (lit "/v2/api.json") = true) by (vm_compute; reflexivity). rewrite forallb_forall in X. intros c I. now apply has_In, X.
Qed.
Example ex_blank_path : path_address id (lit "/my api.json") (lit "/my api.json") /\ exists c, In c (lit "/my api.json") /\ ~ In c plain_chars.
Proof.
  split.
  - apply (slash_address _ (lit "my api.json")); [reflexivity|intros (r & E); discriminate E|]. intros c [<-|[<-|[]]] I; apply has_In in I; discriminate I.
  - exists " "%char. split; [apply has_In; reflexivity|]. intro I. apply has_In in I. discriminate I.
Qed.
