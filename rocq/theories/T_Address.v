(** C70: the address of a document is a URL, or the path of a file. *)
From Verif Require Import PyBase M_Url S_Url S_Address P_Url P_Address.

(** What is said about an address is what is done with it, *)
Theorem c70_address : forall abs_uri win_uri s r, taken abs_uri win_uri s r -> normalize_url abs_uri win_uri s = r.
Proof. exact taken_is. Qed.
Print Assumptions c70_address.
(** something is said about each address, *)
Theorem c70_total : forall abs_uri win_uri s, exists r, taken abs_uri win_uri s r.
Proof. exact taken_total. Qed.
Print Assumptions c70_total.
(** and only one thing: the specification does not contradict itself. *)
Theorem c70_unique : forall abs_uri win_uri s r r', taken abs_uri win_uri s r -> taken abs_uri win_uri s r' -> r = r'.
Proof. intros abs_uri win_uri s r r' A B. apply c70_address in A, B. congruence. Qed.
Print Assumptions c70_unique.
(** Once taken, an address stays as it is, if the URLs of files have a scheme and a host with matching brackets. *)
Theorem c70_again : forall abs_uri win_uri s u,
  (forall p, has_scheme (abs_uri p) /\ ~ drive_path (abs_uri p) /\ ~ bad_host (abs_uri p)) ->
  (forall p, has_scheme (win_uri p) /\ ~ drive_path (win_uri p) /\ ~ bad_host (win_uri p)) ->
  taken abs_uri win_uri s (Ok u) -> taken abs_uri win_uri u (Ok u).
Proof.
  intros abs_uri win_uri s u A W T. remember (Ok u) as r eqn:E. destruct T; try discriminate E; injection E as <-; try (now constructor).
  - destruct (W s) as (X & Y & Z). now apply tk_url.
  - destruct (A s) as (X & Y & Z). now apply tk_url.
  - destruct (A (lit "///" ++ r)) as (X & Y & Z). now apply tk_url.
Qed.
Print Assumptions c70_again.

(** A file: URL, with what is neither a letter nor a digit, '/' or '.' left out *)
Definition file_uri (p : str) : str := lit "file:///" ++ filter (fun c => scheme_char c || Ascii.eqb c "/") p.
Example ex_drive : taken file_uri file_uri (lit "C:\api.json") (Ok (lit "file:///Capi.json")).
Proof. apply (tk_drive file_uri file_uri). exists "C"%char, (lit "api.json"). now split. Qed.
Example ex_http : taken file_uri file_uri (lit "http://h/api?x") (Ok (lit "http://h/api?x")).
Proof.
  apply tk_url.
  - exists "h"%char, (lit "ttp"), (lit "//h/api?x"). repeat split.
  - intros (c & r & E & _). discriminate E.
  - intro B. destruct (bad_host_parse _ (proj1 (bad_host_scheme _ B))) as [[_ P]|[N _]]; [discriminate P|now elim N].
Qed.
Example ex_relative : taken file_uri file_uri (lit "v2/api.json") (Ok (lit "file:///v2/api.json")).
Proof.
  apply (tk_path file_uri file_uri (lit "v2/api.json") (lit "v2/api.json")).
  - intros (c & a & b & E & _). assert (X : In ":"%char (lit "v2/api.json")) by (rewrite E; right; apply in_or_app; right; now left). apply has_In in X. discriminate X.
  - intros (r & E). discriminate E.
  - exists []. split; [reflexivity|]. split; [|now left]. intros c [<-|[<-|[]]] I; apply has_In in I; discriminate I.
  - split; [discriminate|]. intros p' E. discriminate E.
Qed.
Example ex_host : taken file_uri file_uri (lit "//host/api.json") (Err ValueError).
Proof. apply (tk_host _ _ "h"%char (lit "ost/api.json")). intros [E|[E|[E|[]]]]; discriminate E. Qed.
Example ex_query : taken file_uri file_uri (lit "?q") (Err ValueError).
Proof.
  apply (tk_no_path _ _ _ []).
  - discriminate.
  - intros (c & a & b & E & A & _). injection E as <- _. discriminate A.
  - intros (r & E). discriminate E.
  - exists (lit "?q"). split; [reflexivity|]. split; [intros ? _ []|]. right. exists "?"%char, (lit "q"). split; [reflexivity|now left].
  - intros [X _]. now apply X.
Qed.
Example ex_bad_host : taken file_uri file_uri (lit "http://[::1/api") (Err ValueError).
Proof.
  apply tk_bad_host. exists "h"%char, (lit "ttp"), (lit "[::1"), (lit "/api"). split; [reflexivity|]. split; [reflexivity|]. split; [reflexivity|]. split; [intros c [<-|[<-|[<-|[]]]] I; apply has_In in I; discriminate I|].
  split; [right; exists "/"%char, (lit "api"); split; [reflexivity|now left]|]. intros [X _]. assert (I : In "]"%char (lit "[::1")) by (apply X; now left). apply has_In in I. discriminate I.
Qed.
Example ex_ipv6 : normalize_url file_uri file_uri (lit "http://[::1]/api") = Ok (lit "http://[::1]/api").
Proof. reflexivity. Qed.
Example ex_file_uri : forall p, has_scheme (file_uri p) /\ ~ drive_path (file_uri p) /\ ~ bad_host (file_uri p).
Proof.
  intro p. split; [exists "f"%char, (lit "ile"), (lit "///" ++ filter (fun c => scheme_char c || Ascii.eqb c "/") p); repeat split|]. split; [intros (c & r & E & _); discriminate E|].
  intro B. destruct (bad_host_parse _ (proj1 (bad_host_scheme _ B))) as [[_ P]|[N _]]; [|now elim N].
  assert (X : split_netloc (snd (split_scheme (file_uri p))) = Ok ([], lit "/" ++ filter (fun c => scheme_char c || Ascii.eqb c "/") p)) by reflexivity.
  rewrite urlparse_is, X in P. discriminate P.
Qed.
