(** C70, C47: the file of a given path is opened. *)
From Coq Require Import Lia.
From Verif Require Import PyBase PyFacts M_Url M_Getter M_AsUri S_Url S_Getter P_Url P_Getter T_Getter S_AsUri T_AsUri.
Close Scope Q_scope.

Lemma plain_chars_path a a' : a = "/"%char :: a' -> (forall c, In c a -> In c plain_chars) -> plain_path a.
Proof.
  intros -> H. split; [reflexivity|]. intros (d & rest & E & _). assert (I : In ":"%char plain_chars) by (apply H; rewrite E; right; apply in_or_app; right; now left). apply has_In in I. discriminate I.
Qed.
(** A path of plain characters to a document, when it is no folder with a well-known file: that document is opened. *)
Theorem c70_path_opened : forall isfile abspath win_uri s a, path_address abspath s a -> (forall c, In c a -> In c plain_chars) ->
  doc_ext a -> ~ doc_ext (dirname a) -> (forall m, In m well_known -> isfile (in_folder a m) = false) ->
  exists u b, normalize_url (as_uri abspath) win_uri s = Ok u /\ source_of None None u = Ok (FromFile b) /\ opens isfile abspath b = Ok a.
Proof.
  intros isfile abspath win_uri s a P H X D F. destruct (c70_path_found abspath win_uri s a P H) as (u & N & S). exists u, a. split; [exact N|]. split; [exact S|].
  destruct P as (_ & _ & (a' & E)). pose proof (plain_chars_path a a' E H) as PP. destruct (existsb (endswith a) well_known) eqn:W.
  - apply existsb_exists in W as (n & I & W). now apply (c47_known_name isfile abspath a n).
  - apply c47_given_file; auto. intros m I. split; [|auto]. destruct (endswith a m) eqn:M; [|reflexivity]. assert (Y : existsb (endswith a) well_known = true) by (apply existsb_exists; eauto). congruence.
Qed.
Print Assumptions c70_path_opened.
(** A path to a folder: the first well-known file in it is opened. *)
Theorem c70_folder_opened : forall isfile abspath win_uri s a n, path_address abspath s a -> (forall c, In c a -> In c plain_chars) ->
  (forall m, In m well_known -> endswith a m = false) -> first_of (fun m => isfile (in_folder a m) = true) well_known n -> ~ doc_ext a ->
  exists u b, normalize_url (as_uri abspath) win_uri s = Ok u /\ source_of None None u = Ok (FromFile b) /\ opens isfile abspath b = Ok (in_folder a n).
Proof.
  intros isfile abspath win_uri s a n P H W F D. destruct (c70_path_found abspath win_uri s a P H) as (u & N & S). exists u, a. split; [exact N|]. split; [exact S|].
  destruct P as (_ & _ & (a' & E)). apply c47_folder; auto. exact (plain_chars_path a a' E H).
Qed.
Print Assumptions c70_folder_opened.

Example ex_path_opened : path_address id (lit "/v2/api.json") (lit "/v2/api.json") /\ (forall c, In c (lit "/v2/api.json") -> In c plain_chars) /\
  doc_ext (lit "/v2/api.json") /\ ~ doc_ext (dirname (lit "/v2/api.json")) /\ forall m, In m well_known -> str_eqb (lit "/v2/api.json") (in_folder (lit "/v2/api.json") m) = false.
Proof.
  split; [apply ex_plain_path|]. split; [apply ex_plain_path|]. split; [exists (lit ".json"); split; [now left|apply splitext_spec; [discriminate|reflexivity]]|]. split.
  - intros (e & I & X). apply splitext_spec in X; [|destruct I as [<-|[<-|[<-|[]]]]; discriminate]. vm_compute in X. destruct I as [<-|[<-|[<-|[]]]]; discriminate X.
  - intros m [<-|[<-|[<-|[<-|[]]]]]; vm_compute; reflexivity.
Qed.
Example ex_folder_opened : path_address id (lit "/v2") (lit "/v2") /\ (forall c, In c (lit "/v2") -> In c plain_chars) /\ (forall m, In m well_known -> endswith (lit "/v2") m = false) /\
  first_of (fun m => str_eqb (lit "/v2/swagger.yaml") (in_folder (lit "/v2") m) = true) well_known (lit "swagger.yaml") /\ ~ doc_ext (lit "/v2").
Proof.
  split; [apply (slash_address _ (lit "v2")); [reflexivity|intros (r & E); discriminate E|]; intros c [<-|[<-|[]]] I; apply has_In in I; discriminate I|].
  split; [assert (X : forallb (fun c => has c plain_chars) (lit "/v2") = true) by (vm_compute; reflexivity); rewrite forallb_forall in X; intros c I; now apply has_In, X|].
  split; [intros m [<-|[<-|[<-|[<-|[]]]]]; reflexivity|]. split.
  - exists [lit "resource_list.json"; lit "swagger.json"], [lit "swagger.yml"]. split; [reflexivity|]. split; [reflexivity|]. intros y [<-|[<-|[]]]; discriminate.
  - intros (e & I & X). apply splitext_spec in X; [|destruct I as [<-|[<-|[<-|[]]]]; discriminate]. vm_compute in X. destruct I as [<-|[<-|[<-|[]]]]; discriminate X.
Qed.
