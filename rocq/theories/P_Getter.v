(** Proofs about locating files and getting parts of documents. *)
From Coq Require Import Lia.
From Verif Require Import PyBase PyFacts PyInt P_Int PyJson P_Op M_JsonPtr M_Url M_Getter S_Url P_Url S_Getter.
Close Scope Q_scope.

(** ** Files *)
Lemma join_folder p n : startswith n "/"%string = false -> path_join p n = in_folder p n.
Proof. intro N. unfold path_join, in_folder. rewrite N. destruct p as [|c p]; [reflexivity|]. cbn [nonempty negb orb]. reflexivity. Qed.
Lemma known_plain n : In n well_known -> startswith n "/"%string = false.
Proof. intros [<-|[<-|[<-|[<-|[]]]]]; reflexivity. Qed.
Lemma span_split f s a b : span f s = (a, b) -> s = a ++ b /\ (forall c, In c a -> f c = true).
Proof.
  revert a b. induction s as [|c s IH]; intros a b E; cbn [span] in E; [injection E as <- <-; split; [reflexivity|intros ? []]|].
  destruct (f c) eqn:F; [|injection E as <- <-; split; [reflexivity|intros ? []]]. destruct (span f s) as [u v]. injection E as <- <-. destruct (IH u v eq_refl) as [-> H].
  split; [reflexivity|]. intros x [<-|I]; auto.
Qed.
Lemma drive_no p : plain_path p -> drive p = false.
Proof.
  intros [_ N]. destruct (drive p) eqn:D; [|reflexivity]. exfalso. apply N. destruct p as [|c p]; [discriminate D|].
  cbn [drive] in D. destruct (Ascii.eqb c "/") eqn:C.
  - apply Ascii.eqb_eq in C. subst c. destruct (span is_upper p) as [[|a u] v] eqn:SP; [discriminate D|]. apply span_split in SP as [-> U].
    destruct v as [|x v]; [discriminate D|]. exists (a :: u), v. assert (x = ":"%char) as -> by (destruct x as [[|] [|] [|] [|] [|] [|] [|] [|]]; try discriminate D; reflexivity).
    split; [reflexivity|]. split; [discriminate|]. intros y I. apply U in I. unfold is_upper in I. apply andb_prop in I as [I1 I2].
    exists (nat_of_ascii y). split; [apply Nat.leb_le in I1, I2; lia|now rewrite ascii_nat_embedding].
  - destruct c as [[|] [|] [|] [|] [|] [|] [|] [|]]; try discriminate D; discriminate C.
Qed.
Lemma local_plain abspath p : plain_path p -> local_path abspath p = Ok p.
Proof. intro P. unfold local_path. pose proof P as [U _]. rewrite U. cbn [bind]. now rewrite (drive_no p P). Qed.

Lemma endswith_app p n : endswith p n = true <-> exists x, p = x ++ n.
Proof.
  apply endswith_spec.
Qed.
(** Where the last component begins. *)
Lemma last_component x : exists dir stem, x = dir ++ stem /\ (dir = [] \/ exists d, dir = d ++ ["/"%char]) /\ ~ In "/"%char stem.
Proof.
  induction x as [|c x IH]; [exists [], []; auto|]. destruct IH as (dir & stem & -> & D & N). destruct D as [->|(d & ->)].
  - destruct (Ascii.ascii_dec c "/") as [->|C].
    + exists ["/"%char], stem. split; [reflexivity|]. split; [right; now exists []|exact N].
    + exists [], (c :: stem). split; [reflexivity|]. split; [auto|]. intros [E|I]; auto.
  - exists (c :: d ++ ["/"%char]), stem. split; [reflexivity|]. split; [right; now exists (c :: d)|exact N].
Qed.
Lemma stem_ext x stem b c : In c stem -> c <> "."%char -> ~ In "/"%char stem -> ~ In "/"%char b -> ~ In "."%char b -> has_ext (x ++ stem ++ "."%char :: b) ("."%char :: b).
Proof.
  intros I C NS NB DB. destruct (last_component x) as (dir & st & -> & D & N). exists dir, (st ++ stem), b. rewrite <- !app_assoc. split; [reflexivity|]. split; [reflexivity|].
  split; [exact D|]. split; [intro J; apply in_app_or in J as [J|J]; auto|]. split; [exact NB|]. split; [exact DB|]. exists c. split; [apply in_or_app; auto|exact C].
Qed.
Lemma known_ext p n : In n well_known -> endswith p n = true -> doc_ext p.
Proof.
  intros I E. apply endswith_app in E as (x & ->). unfold doc_ext, doc_exts.
  destruct I as [<-|[<-|[<-|[<-|[]]]]]; eexists; (split; [|first
    [ apply (stem_ext x (lit "resource_list") (lit "json") "r"%char) | apply (stem_ext x (lit "swagger") (lit "json") "s"%char)
    | apply (stem_ext x (lit "swagger") (lit "yaml") "s"%char) | apply (stem_ext x (lit "swagger") (lit "yml") "s"%char)]]);
    cbn; auto; try discriminate; intuition discriminate.
Qed.
Lemma folder_ends p n : endswith (in_folder p n) n = true.
Proof.
  apply endswith_app. unfold in_folder. destruct p; [now exists []|]. destruct (endswith _ _); [eauto|]. exists ((a :: p) ++ lit "/"). rewrite <- app_assoc. reflexivity.
Qed.
Lemma patch_doc b p : ~ doc_ext b -> doc_ext p -> patch_path b p = p.
Proof. intros N (e & I & H). apply (patch_path_own b p e); auto. intros e' I' H'. apply N. exists e'. auto. Qed.

Section Files.
  Context (isfile : str -> bool) (abspath : str -> str).
  Lemma by_name_none base path names : (forall n, In n names -> startswith n "/"%string = false) ->
    (forall n, In n names -> endswith base n = false /\ isfile (in_folder path n) = false) -> by_name isfile base path names = None.
  Proof.
    induction names as [|n l IH]; intros S H; [reflexivity|]. cbn [by_name]. destruct (H n (or_introl eq_refl)) as [E F].
    rewrite E, join_folder, F by (apply S; now left). apply IH; intros; [apply S|apply H]; now right.
  Qed.
  Lemma by_name_folder base path names n : (forall n, In n names -> startswith n "/"%string = false) -> (forall n, In n names -> endswith base n = false) ->
    first_of (fun n => isfile (in_folder path n) = true) names n -> by_name isfile base path names = Some (base, in_folder path n).
  Proof.
    intros S E (l1 & l2 & -> & F & N). induction l1 as [|m l1 IH]; cbn [app by_name].
    - rewrite E, join_folder, F; [reflexivity|apply S; now left|now left].
    - rewrite E, join_folder by (try apply S; now left). destruct (isfile (in_folder path m)) eqn:X; [exfalso; apply (N m); [now left|exact X]|].
      apply IH; intros; [apply E|apply S|apply N]; now right.
  Qed.
  Lemma by_name_known base path names n : (forall n, In n names -> startswith n "/"%string = false) -> (forall n, In n names -> isfile (in_folder path n) = false) ->
    In n names -> endswith base n = true -> by_name isfile base path names = Some (dirname base, path).
  Proof.
    intros S F. induction names as [|m l IH]; intros I E; [destruct I|]. cbn [by_name]. destruct (endswith base m) eqn:X; [reflexivity|].
    rewrite join_folder, F by (try apply S; now left). destruct I as [->|I]; [congruence|]. apply IH; auto; intros; [apply S|apply F]; now right.
  Qed.
  Lemma by_ext_first base path exts e : first_of (fun e => isfile (path ++ "."%char :: e) = true) exts e -> by_ext isfile base path exts = Some (base, path ++ "."%char :: e).
  Proof.
    intros (l1 & l2 & -> & F & N). induction l1 as [|m l1 IH]; cbn [app by_ext]; [now rewrite F|].
    destruct (isfile (path ++ "."%char :: m)) eqn:X; [exfalso; apply (N m); [now left|exact X]|]. apply IH. intros. apply N. now right.
  Qed.
  Lemma by_ext_none base path exts : (forall e, In e exts -> isfile (path ++ "."%char :: e) = false) -> by_ext isfile base path exts = None.
  Proof. induction exts as [|e l IH]; intro H; [reflexivity|]. cbn [by_ext]. rewrite (H e) by now left. apply IH. intros. apply H. now right. Qed.
  Lemma ext_kind path : existsb (endswith (splitext path)) file_exts = true <-> exists e x, has_ext path e /\ In x file_exts /\ endswith e x = true.
  Proof.
    rewrite existsb_exists. split.
    - intros (x & I & E). exists (splitext path), x. split; [|auto]. apply splitext_spec; [|reflexivity]. intro Z. rewrite Z in E.
      destruct I as [<-|[<-|[<-|[]]]]; discriminate E.
    - intros (e & x & H & I & E). assert (N : e <> []) by (destruct H as (? & ? & ? & _ & -> & _); discriminate). apply (splitext_spec path e N) in H. rewrite H. eauto.
  Qed.
End Files.

(** ** Parts *)
Lemma list_item_at l i x : nth_error l i = Some x -> list_item l (str_of_Z (Z.of_nat i)) = Ok x.
Proof.
  intro E. unfold list_item. rewrite py_int_str. cbn [bind]. destruct (Z.of_nat i <? 0)%Z eqn:L; [apply Z.ltb_lt in L; lia|]. rewrite L, Nat2Z.id, E. reflexivity.
Qed.
Lemma walk_selects doc ts x : selects doc ts x -> json_walk doc ts = Ok x.
Proof.
  intro H. induction H as [x|d k x ts y G _ IH|l i x ts y G _ IH]; cbn [json_walk]; [reflexivity| |].
  - now rewrite G.
  - now rewrite (list_item_at _ _ _ G).
Qed.
Lemma selects_walk ts : forall doc x, (forall t, In t ts -> decimal_if_number t) -> json_walk doc ts = Ok x -> selects doc ts x.
Proof.
  induction ts as [|t ts IH]; intros doc x D E; cbn [json_walk] in E; [injection E as <-; constructor|].
  apply bind_ok in E as (y & Y & E). apply IH in E; [|intros; apply D; now right]. destruct doc as [| | | | |l|d]; try discriminate Y.
  - unfold list_item in Y. apply bind_ok in Y as (z & Z & Y). destruct (D t (or_introl eq_refl) z Z) as (i & ->). rewrite py_int_str in Z. injection Z as <-.
    destruct (Z.of_nat i <? 0)%Z eqn:L; [apply Z.ltb_lt in L; lia|]. rewrite L, Nat2Z.id in Y. destruct (nth_error l i) eqn:N; [|discriminate Y]. injection Y as ->.
    econstructor; eauto.
  - destruct (sget t d) eqn:G; [|discriminate Y]. injection Y as ->. econstructor; eauto.
Qed.
Lemma falsy_json j : json_falsy j = true <-> is_empty j.
Proof.
  unfold is_empty. split.
  - destruct j as [|[]|z|q|[]|[]|[]]; try discriminate; auto 10.
    + intro E. apply Z.eqb_eq in E as ->. auto.
    + intro E. apply Qeq_bool_iff in E. eauto 10.
  - intros [->|[->|[->|[(q & -> & E)|[->|[->| ->]]]]]]; try reflexivity. now apply Qeq_bool_iff.
Qed.

(** ** Histories *)
Section History.
  Context (abs_uri win_uri : str -> str) (hook : option (str -> str)) (default : option getter) (fetch : log -> source -> res json).
  Notation rresolve := (rresolve abs_uri win_uri hook default fetch).
  Notation rrun := (rrun abs_uri win_uri hook default fetch).
  (** The cache has, of every URL, the one document got for it that is not empty. *)
  Definition inv (st : rstate) : Prop :=
    (forall url doc, sget url (r_cache st) = Some doc <-> got st url doc) /\
    (forall l1 url src doc l2, r_log st = l1 ++ (url, src, Ok doc) :: l2 -> ~ is_empty doc -> forall src' r, ~ In (url, src', r) l2).
  Lemma snoc_split {A} (l : list A) x l1 y l2 : l ++ [x] = l1 ++ y :: l2 -> (l2 = [] /\ l = l1 /\ x = y) \/ exists l2', l2 = l2' ++ [x] /\ l = l1 ++ y :: l2'.
  Proof.
    intro E. destruct l2 as [|z l2 _] using rev_ind.
    - left. apply app_inj_tail in E as [-> ->]. auto.
    - right. exists l2. change (l1 ++ y :: l2 ++ [z]) with (l1 ++ (y :: l2) ++ [z]) in E. rewrite app_assoc in E. apply app_inj_tail in E as [-> ->]. auto.
  Qed.
  Lemma inv_init : inv rinit.
  Proof. split; [intros url doc; split; [discriminate|]; intros (l1 & src & l2 & E & _)|intros l1 url src doc l2 E]; cbn in E; destruct l1; discriminate. Qed.
  (** One more entry that gives nothing. *)
  Lemma inv_none st url src r : inv st -> sget url (r_cache st) = None -> (forall doc, r = Ok doc -> is_empty doc) -> inv (RState (r_cache st) (r_log st ++ [(url, src, r)])).
  Proof.
    intros [A B] N E. split; cbn [r_cache r_log].
    - intros u d. rewrite A. split; intros (l1 & s & l2 & L & ND); cbn [r_log] in *.
      + exists l1, s, (l2 ++ [(url, src, r)]). rewrite L, <- app_assoc. auto.
      + apply snoc_split in L as [(_ & _ & X)|(l2' & -> & L)]; [injection X as -> -> ->; exfalso; now apply ND, E|]. exists l1, s, l2'. auto.
    - intros l1 u s d l2 L ND s' r'. apply snoc_split in L as [(-> & _ & X)|(l2' & -> & L)]; [intros []|]. intro I. apply in_app_or in I as [I|[X|[]]]; [eapply B; eauto|].
      injection X as -> -> ->. assert (G : got st u d) by (exists l1, s, l2'; auto). apply A in G. congruence.
  Qed.
  Lemma inv_some st url src doc : inv st -> sget url (r_cache st) = None -> ~ is_empty doc -> inv (RState (sset url doc (r_cache st)) (r_log st ++ [(url, src, Ok doc)])).
  Proof.
    intros [A B] N E. split; cbn [r_cache r_log].
    - intros u d. destruct (str_eqb u url) eqn:U.
      + apply str_eqb_eq in U as ->. rewrite sget_sset_same. split.
        * intro X. injection X as <-. exists (r_log st), src, []. auto.
        * intros (l1 & s & l2 & L & ND). cbn [r_log] in L. apply snoc_split in L as [(_ & _ & X)|(l2' & -> & L)]; [now injection X as _ ->|].
          assert (G : got st url d) by (exists l1, s, l2'; auto). apply A in G. congruence.
      + rewrite sget_sset_other by (intros ->; now rewrite str_eqb_refl in U). rewrite A. split; intros (l1 & s & l2 & L & ND); cbn [r_log] in *.
        * exists l1, s, (l2 ++ [(url, src, Ok doc)]). rewrite L, <- app_assoc. auto.
        * apply snoc_split in L as [(_ & _ & X)|(l2' & -> & L)]; [injection X as -> _ _; now rewrite str_eqb_refl in U|]. exists l1, s, l2'. auto.
    - intros l1 u s d l2 L ND s' r'. apply snoc_split in L as [(-> & _ & X)|(l2' & -> & L)]; [intros []|]. intro I. apply in_app_or in I as [I|[X|[]]]; [eapply B; eauto|].
      injection X as -> -> <-. assert (G : got st u d) by (exists l1, s, l2'; auto). apply A in G. congruence.
  Qed.
  Lemma inv_step st jref g : inv st -> inv (fst (rresolve st jref g)).
  Proof.
    intro I. unfold M_Getter.rresolve. destruct (jr_split abs_uri win_uri jref) as [[url jp]|e]; [|exact I].
    destruct (sget url (r_cache st)) as [doc|] eqn:C; [exact I|]. destruct (source_of default g _) as [src|e]; [|exact I].
    destruct (fetch (r_log st) src) as [doc|e] eqn:F; cbn [fst].
    - destruct (json_falsy doc) eqn:Z; cbn [fst].
      + apply inv_none; auto. intros d X. injection X as <-. now apply falsy_json.
      + apply inv_some; auto. intro X. apply falsy_json in X. congruence.
    - apply inv_none; auto. intros d X. discriminate X.
  Qed.
  Lemma inv_run calls : forall st, inv st -> inv (rrun st calls).
  Proof. induction calls as [|[r g] calls IH]; intros st I; [exact I|]. cbn [M_Getter.rrun]. apply IH. now apply inv_step. Qed.
End History.
