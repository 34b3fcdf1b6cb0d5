(** C47: file: URLs, and paths with a drive. *)
From Coq Require Import Lia.
From Verif Require Import PyBase PyFacts P_Op M_Url M_Getter S_Url P_Url S_Getter P_Getter S_FileUrl P_FileUrl.
Close Scope Q_scope.

(** The file of the path that the text stands for is opened: one with a well-known name, *)
Theorem c47_url_known_name : forall isfile abspath s p n, stands abspath s p -> In n well_known -> endswith s n = true ->
  (forall m, In m well_known -> isfile (in_folder p m) = false) -> doc_ext p -> ~ doc_ext (dirname s) -> opens isfile abspath s = Ok p.
Proof.
  intros isfile abspath s p n P I E F X D. unfold opens, locate. rewrite (local_stands _ _ _ P). cbn [bind].
  rewrite (by_name_known isfile s p file_names n known_plain F I E). cbn [bind fst snd]. f_equal. now apply patch_doc.
Qed.
Print Assumptions c47_url_known_name.
(** in a folder the first one with a well-known name, *)
Theorem c47_url_folder : forall isfile abspath s p n, stands abspath s p -> (forall m, In m well_known -> endswith s m = false) ->
  first_of (fun m => isfile (in_folder p m) = true) well_known n -> ~ doc_ext s -> opens isfile abspath s = Ok (in_folder p n).
Proof.
  intros isfile abspath s p n P E F D. unfold opens, locate. rewrite (local_stands _ _ _ P). cbn [bind].
  rewrite (by_name_folder isfile s p file_names n known_plain E F). cbn [bind fst snd]. f_equal. apply patch_doc; [exact D|].
  destruct F as (l1 & l2 & L & _). assert (I : In n well_known) by (rewrite L; apply in_elt). exact (known_ext _ n I (folder_ends p n)).
Qed.
Print Assumptions c47_url_folder.
(** otherwise the one of that path, if it has the extension of a document, *)
Theorem c47_url_file : forall isfile abspath s p, stands abspath s p -> (forall m, In m well_known -> endswith s m = false /\ isfile (in_folder p m) = false) ->
  doc_ext p -> ~ doc_ext (dirname p) -> opens isfile abspath s = Ok p.
Proof.
  intros isfile abspath s p P N X D. unfold opens, locate. rewrite (local_stands _ _ _ P). cbn [bind].
  rewrite (by_name_none isfile s p file_names known_plain N).
  assert (K : existsb (endswith (splitext p)) file_exts = true).
  { apply ext_kind. destruct X as (e & I & H). destruct I as [<-|[<-|[<-|[]]]]; eexists; [exists (lit "json")|exists (lit "yaml")|exists (lit "yml")]; (split; [exact H|split; [cbn; auto|reflexivity]]). }
  rewrite K. cbn [bind fst snd]. f_equal. now apply patch_doc.
Qed.
Print Assumptions c47_url_file.
(** or what results from adding the first possible extension, *)
Theorem c47_url_completed : forall isfile abspath s p e, stands abspath s p -> (forall m, In m well_known -> endswith s m = false /\ isfile (in_folder p m) = false) ->
  (forall x y, has_ext p x -> In y [lit "json"; lit "yaml"; lit "yml"] -> endswith x y = false) -> named p -> ~ doc_ext s ->
  first_of (fun e => isfile (p ++ e) = true) doc_exts e -> opens isfile abspath s = Ok (p ++ e).
Proof.
  intros isfile abspath s p e P N X NM NS' F. unfold opens, locate. rewrite (local_stands _ _ _ P). cbn [bind].
  rewrite (by_name_none isfile s p file_names known_plain N).
  assert (K : existsb (endswith (splitext p)) file_exts = false).
  { destruct (existsb _ _) eqn:K; [|reflexivity]. apply ext_kind in K as (x & y & H & I & E). rewrite (X x y H I) in E. discriminate. }
  rewrite K. assert (E : exists e', e = "."%char :: e' /\ In e' file_exts /\ first_of (fun e => isfile (p ++ "."%char :: e) = true) file_exts e').
  { destruct F as (l1 & l2 & L & Fe & Ne). unfold doc_exts in L. destruct l1 as [|a [|b [|c l1]]]; cbn [app] in L.
    - injection L as <- <-. exists (lit "json"). split; [reflexivity|]. split; [cbn; auto|]. exists [], (map lit ["yaml"; "yml"]%string). split; [reflexivity|]. split; [exact Fe|intros ? []].
    - injection L as <- <- <-. exists (lit "yaml"). split; [reflexivity|]. split; [cbn; auto|]. exists [lit "json"], [lit "yml"]. split; [reflexivity|]. split; [exact Fe|].
      intros y [<-|[]]. apply (Ne (lit ".json")). now left.
    - injection L as <- <- <- <-. exists (lit "yml"). split; [reflexivity|]. split; [cbn; auto|]. exists [lit "json"; lit "yaml"], []. split; [reflexivity|]. split; [exact Fe|].
      intros y [<-|[<-|[]]]; [apply (Ne (lit ".json")); now left|apply (Ne (lit ".yaml")); right; now left].
    - injection L as _ _ _ L. destruct l1; discriminate L. }
  destruct E as (e' & -> & I & FE). rewrite (by_ext_first isfile s p file_exts e' FE). cbn [bind fst snd]. f_equal. apply patch_doc.
  - exact NS'.
  - destruct NM as (dir & stem & c & -> & D & NS & Ic & Nc). exists ("."%char :: e'). rewrite <- app_assoc. split; [destruct I as [<-|[<-|[<-|[]]]]; cbn; auto|].
    apply (stem_ext dir stem e' c); auto; destruct I as [<-|[<-|[<-|[]]]]; cbn; intuition discriminate.
Qed.
Print Assumptions c47_url_completed.
(** and a [ValueError] if there is nothing of this. *)
Theorem c47_url_nothing : forall isfile abspath s p, stands abspath s p ->
  opens isfile abspath s = Err ValueError <->
  (forall m, In m well_known -> endswith s m = false /\ isfile (in_folder p m) = false) /\
  (forall x y, has_ext p x -> In y [lit "json"; lit "yaml"; lit "yml"] -> endswith x y = false) /\
  (forall e, In e doc_exts -> isfile (p ++ e) = false).
Proof.
  intros isfile abspath s p P. unfold opens, locate. rewrite (local_stands _ _ _ P). cbn [bind]. split.
  - intro E. destruct (by_name isfile s p file_names) as [r|] eqn:B; [discriminate E|].
    destruct (existsb (endswith (splitext p)) file_exts) eqn:K; [discriminate E|]. destruct (by_ext isfile s p file_exts) as [r|] eqn:X; [discriminate E|]. split; [|split].
    + intros m I. destruct (endswith s m) eqn:Em; destruct (isfile (in_folder p m)) eqn:Fm; auto; exfalso.
      all: clear - B I Em Fm; change file_names with well_known in B; pose proof known_plain as KP; revert I B KP; generalize well_known as l; intro l;
        induction l as [|a l IH]; intros I B KP; [destruct I|]; cbn [by_name] in B; destruct (endswith s a) eqn:Ea; try discriminate B;
        rewrite join_folder in B by (apply KP; now left); destruct (isfile (in_folder p a)) eqn:Fa; try discriminate B; destruct I as [->|I]; try congruence; apply IH; auto; intros; apply KP; now right.
    + intros x y H I. destruct (endswith x y) eqn:Y; [|reflexivity]. exfalso. assert (Z : existsb (endswith (splitext p)) file_exts = true) by (apply ext_kind; eauto). congruence.
    + intros e I. cbn [file_exts map by_ext] in X. destruct (isfile (p ++ "."%char :: lit "json")) eqn:F1; [discriminate X|]. destruct (isfile (p ++ "."%char :: lit "yaml")) eqn:F2; [discriminate X|].
      destruct (isfile (p ++ "."%char :: lit "yml")) eqn:F3; [discriminate X|]. destruct I as [<-|[<-|[<-|[]]]]; assumption.
  - intros (A & B & C). rewrite (by_name_none isfile s p file_names known_plain A).
    assert (K : existsb (endswith (splitext p)) file_exts = false).
    { destruct (existsb _ _) eqn:K; [|reflexivity]. apply ext_kind in K as (x & y & H & I & E). rewrite (B x y H I) in E. discriminate. }
    rewrite K, by_ext_none; [reflexivity|]. intros e [<-|[<-|[<-|[]]]]; [apply (C (lit ".json"))|apply (C (lit ".yaml"))|apply (C (lit ".yml"))]; cbn; auto.
Qed.
Print Assumptions c47_url_nothing.

(** A file: URL whose path has a drive, and the file that is opened *)
Example ex_drive_url : stands (fun p => lit "/work/" ++ p) (lit "file:///C:/v2/api.json") (lit "/work/C:/v2/api.json").
Proof.
  exists (lit "/C:/v2/api.json"). split.
  - right. exists [], []. split; [reflexivity|]. split; [intros ? _ []|]. split; [right; now exists (lit "C:/v2/api.json")|]. split; [|now left]. intros c [<-|[<-|[]]] I; apply has_In in I; discriminate I.
  - left. exists (lit "C"), (lit "/v2/api.json"). split; [|reflexivity]. split; [reflexivity|]. split; [discriminate|]. intros c [<-|[]]. exists 67. split; [lia|reflexivity].
Qed.
Example ex_plain_url : stands id (lit "file://localhost/v2/api.json?x#y") (lit "/v2/api.json").
Proof.
  exists (lit "/v2/api.json"). split.
  - right. exists (lit "localhost"), (lit "?x#y"). split; [reflexivity|]. split; [intros c J I; destruct J as [<-|[<-|[<-|[<-|[<-|[]]]]]]; apply has_In in I; discriminate I|]. split; [right; now exists (lit "v2/api.json")|].
    split; [intros c [<-|[<-|[]]] I; apply has_In in I; discriminate I|]. right. exists "?"%char, (lit "x#y"). split; [reflexivity|now left].
  - right. split; [|reflexivity]. intros d rest W. assert (X : drive (lit "/v2/api.json") = true) by (apply drive_yes; eauto). discriminate X.
Qed.
Example ex_opened : opens (fun _ => false) (fun p => lit "/work/" ++ p) (lit "file:///C:/v2/api.json") = Ok (lit "/work/C:/v2/api.json").
Proof.
  apply c47_url_file; [exact ex_drive_url| | |].
  - intros m [<-|[<-|[<-|[<-|[]]]]]; split; reflexivity.
  - exists (lit ".json"). split; [now left|]. apply splitext_spec; [discriminate|reflexivity].
  - intros (e & I & H). apply splitext_spec in H; [|destruct I as [<-|[<-|[<-|[]]]]; discriminate]. vm_compute in H. destruct I as [<-|[<-|[<-|[]]]]; discriminate H.
Qed.
Example ex_refused : opens (fun _ => false) id (lit "file:///v2/api") = Err ValueError.
Proof. reflexivity. Qed.
Example ex_added : opens (str_eqb (lit "/v2/api.yaml")) id (lit "file:///v2/api") = Ok (lit "/v2/api.yaml").
Proof. reflexivity. Qed.
