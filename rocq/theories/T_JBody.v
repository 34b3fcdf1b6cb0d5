(** C69: what is sent as JSON body by a schema of a created application is read again by the same
    schema as the same. *)
From Coq Require Import QArith Lia.
From Verif Require Import PyBase PyFacts PyInt PyJson M_JsonPtr S_JsonPtr M_Url P_Op M_SpecVal M_Parse M_SpecTree M_Merge M_MergeRef S_Parse S_SpecTree S_Merge S_MergeRef P_SpecBase P_MergeShape P_Patch M_Scope M_Patch S_Patch M_App S_App P_App P_Deep M_OldValidate M_OldParse M_Prepare S_Prepare P_Prepare5 M_Quote S_Quote M_Client S_Client M_Request S_Request M_Op S_Op M_Contrib S_Contrib M_Invoke S_Invoke T_Contrib T_Prepare T_Invoke.
From Verif Require Import S_Cycles P_Cycles S_Compose T_SpecTree T_Cycles T_Compose.
From Verif Require Import M_Declared S_Declared P_Declared P_Declared2 P_Declared3 P_Declared4 T_Declared.
From Verif Require Import M_Body S_Body P_Body P_Body2 P_Body3 P_Body4 P_Body5 P_Body6 P_Wf T_Body.
From Verif Require Import M_JBody S_JBody P_JBody P_JBody2 P_JBody3 P_JBody4 P_JBody5 M_Base64.
From Verif Require M_Prim M_PrimText M_Time S_Time P_PrimMono P_OldValidate.
Close Scope Q_scope.
Open Scope nat_scope.

(** The document that is written shows the primitive; files, and dates, bytes and UUIDs that are
    kept as they were given, are refused. *)
Theorem c69_shows : forall show_other p j, dump show_other p = Ok j <-> shows urlsafe_b64encode (fun z => show_other (M_Prim.PUuid z)) p j.
Proof. exact dump_shows. Qed.

Section Created.
  (** As in C67 *)
  Context (abs_uri win_uri : str -> str) (fetch : str -> res json) (prim : str -> bool) (num : str -> res Q) (sep : str) (f : nat).
  Hypothesis JD : forall j x, fetch j = Ok x -> wf x.
  Hypothesis NEW : forall j x v, fetch j = Ok x -> version_of x = Ok v -> is_version v "1.2" = false.
  Context (url nu u : str) (strict : bool) (pr : prepared).
  Hypothesis N : normalize_url abs_uri win_uri url = Ok nu.
  Hypothesis J : jr_split abs_uri win_uri nu = Ok (u, lit "#").
  Hypothesis U : u <> [].
  Hypothesis CR : create_app abs_uri win_uri fetch prim num sep (S f) url strict = Ok pr.
  Context (doc root : val).
  Hypothesis FT : found_there fetch nu u pr doc root.
  Hypothesis SC : self_contained abs_uri win_uri u root.
  Hypothesis ONE : a_objs (pr_app pr) = [(u, Whole (0, root))].
  Hypothesis NR : forall k pi, path_item doc k pi -> field_of pi (lit "$ref") = Some VNone.
  Hypothesis RO : forall ts s, schema_at root ts s -> schema_order s.
  Context (int_of : str -> res Z) (float_of : str -> res Q) (str_of : M_Prim.value -> str)
    (date_at : Q -> res (Z * Z * Z)) (datetime_at : Q -> res M_Time.datetime) (uuid_of : str -> option Z) (email_ok : str -> bool).
  (** As in M_JBody: Python reads again the documents that it writes. *)
  Context (show_other : M_Prim.prim -> str) (write : json -> str) (parse : str -> res json).
  Hypothesis PW : forall j, wf j -> parse (write j) = Ok j.
  Notation stands := (stands abs_uri win_uri u root).
  Notation takes := (takes abs_uri win_uri u root int_of float_of str_of date_at datetime_at uuid_of email_ok).
  Notation belongs := (belongs abs_uri win_uri u root).
  Notation known := (known abs_uri win_uri u root).
  Notation returns := (returns abs_uri win_uri u root int_of float_of str_of date_at datetime_at uuid_of email_ok show_other).
  Notation arrives := (arrives show_other).
  Notation produced := (produced abs_uri win_uri fetch prim num sep f pr int_of float_of str_of date_at datetime_at uuid_of email_ok).

  Lemma known_stands s e : known s -> stands s e -> known e.
  Proof.
    intros K S. revert K. induction S as [s NF|s r ts x e RF P SE IH]; intro K; [exact K|]. apply IH. exact (known_at abs_uri win_uri fetch prim num sep f JD NEW url nu u strict pr N J U CR doc root FT SC RO ts x (proj2 (proj2 P))).
  Qed.
  Lemma known_child e n x zs p : known e -> In n ["properties"; "allOf"; "additionalProperties"; "items"]%string -> field_of e (lit n) = Some x -> inside x zs p -> is_obj p -> known p.
  Proof.
    intros [VS VC VO] I F IN OB. pose proof (schema_child e n x VS F I zs p IN OB) as A.
    assert (B : forall us s, schema_at p us s -> schema_at e ((lit n :: zs) ++ us) s) by (intros us s (R & C); split; [eapply P_OldValidate.reach_app; [exact (proj1 A)|exact R]|exact C]).
    constructor; [exact (schema_shaped _ _ _ _ VS A)| |].
    - intros us s r SA. exact (VC _ _ _ (B _ _ SA)).
    - intros us s SA. exact (VO _ _ (B _ _ SA)).
  Qed.
  Lemma known_itself e : known e -> schema_order e.
  Proof. intros [VS VC VO]. apply (VO []). destruct (shaped_obj _ _ VS) as (h & fs & ints & -> & C). split; [constructor|]. exists h, fs, ints. auto. Qed.
  Lemma known_items e i x c : known e -> field_of e (lit "items") = Some i -> takes true i x c -> known i.
  Proof.
    intros K F T. destruct (so_items _ (known_itself e K)) as (i' & F' & [->|O]).
    - exfalso. assert (i = VNone) as -> by congruence. assert (X : forall e', ~ stands VNone e') by (intros e' S; inversion S as [? (? & E & _)|? ? ? ? ? (_ & E)]; discriminate E). inversion T as [? ? E|? ? ? ? ? E|? ? ? ? ? ? S|? ? ? ? ? ? ? ? S|? ? ? ? ? S|? ? ? ? ? S]; subst; try discriminate E; exact (X _ S).
    - assert (i' = i) as -> by congruence. apply (known_child e "items" i [] i K); [cbn; auto|exact F|constructor|exact O].
  Qed.
  Lemma known_property e k p : known e -> has_property e k p -> known p.
  Proof.
    intros K (d & F & G). apply (known_child e "properties" (VDict d) [k] p K); [cbn; auto|exact F|econstructor; [exact G|constructor]|].
    pose proof (kn_shape _ _ _ _ _ K) as SE. destruct (shaped_obj _ _ SE) as (h & fs & ints & -> & C). rewrite <- C in SE. cbn [field_of] in F. destruct (shaped_field _ _ _ _ _ SE F) as [(T & _)|(ct & cc & T & SI)]; rewrite C in T; [discriminate T|]. injection T as <- <-. inversion SI as [| | |? ? ND FA]; subst.
    rewrite Forall_forall in FA. apply sget_In in G. destruct (shaped_obj _ _ (FA _ G)) as (? & ? & ? & E & _). cbn [snd] in E. rewrite E. exact Logic.I.
  Qed.
  Lemma known_more e a : known e -> more e a -> known a.
  Proof. intros K (F & O). apply (known_child e "additionalProperties" a [] a K); [cbn; auto|exact F|constructor|exact O]. Qed.
  Lemma known_default s : known s -> exists w x, field_of s (lit "default") = Some w /\ same_value w x /\ proper x.
  Proof. intro K. destruct (so_default _ (known_itself s K)) as (w & F & x & SV & P). eauto 6. Qed.
  Lemma known_default' s : known s -> exists w x, field_of s (lit "default") = Some w /\ same_value w x.
  Proof. intro K. destruct (known_default s K) as (w & x & F & SV & _). eauto. Qed.
  Lemma known_name s : known s -> exists y, named s y.
  Proof. intro K. destruct (so_name _ (known_itself s K)) as (v & I & [->|(t & ->)]); [exists M_Prim.PNone; exact (nm_none s I)|exists (M_Prim.PStr t); exact (nm_text s t I)]. Qed.

  (** What schemas make of a value is determined, up to the order of the entries of objects. *)
  Theorem c69_one : forall s, known s -> forall rd rd' x r r', takes rd s x r -> takes rd' s x r' -> same_prim r r'.
  Proof.
    intros s K rd rd' x r r' T T'.
    exact (takes_fun abs_uri win_uri u root int_of float_of str_of date_at datetime_at uuid_of email_ok known known_stands known_items known_property known_more known_default' known_name r rd rd' s x r' K T T').
  Qed.
  (** What the document of a primitive says is taken by the schema that has made it, as the same. *)
  Theorem c69_back : forall s, known s -> forall rd x c v, takes rd s x c -> returns s c -> arrives c v -> takes true s v c.
  Proof.
    intros s K rd x c v T R A.
    exact (returned abs_uri win_uri u root int_of float_of str_of date_at datetime_at uuid_of email_ok show_other known known_stands known_items known_property known_more known_default' c rd s x v K T R A).
  Qed.
  (** Programs that send and receive by the same schema have the same. *)
  Theorem c69_same : forall s, belongs s -> forall limit rd x c, proper x -> produced limit rd s x = Ok c -> returns s c -> forall text, json_marshal show_other write c = Ok text ->
    exists v, json_unmarshal parse text = Ok v /\ proper v /\ takes true s v c /\ exists limit0, forall limit', limit0 <= limit' -> exists c', produced limit' true s v = Ok c' /\ same_prim c c'.
  Proof.
    intros s B limit rd x c P E R text M. pose proof (fi_known _ _ _ _ _ B) as K. unfold json_marshal in M. apply bind_ok in M as (j & D & M). injection M as <-.
    pose proof (c67_made abs_uri win_uri fetch prim num sep f JD NEW url nu u strict pr N J U CR doc root FT SC ONE NR RO int_of float_of str_of date_at datetime_at uuid_of email_ok s B limit rd x c P E) as T.
    assert (A : arrives c (load j)) by (exists j; auto).
    assert (KE : keyed c). { unfold T_Body.produced, produce_schema in E. apply bind_ok in E as (hi & _ & E). apply bind_ok in E as ((r, c0) & E & Q). injection Q as <-. cbn [fst]. exact (produce_keyed _ _ _ _ _ _ _ _ _ _ _ _ _ _ E). }
    assert (PV : proper (load j)) by exact (tidy abs_uri win_uri u root int_of float_of str_of date_at datetime_at uuid_of email_ok show_other known known_stands known_items known_property known_more known_default known_name c rd s x (load j) KE K P T A).
    exists (load j). unfold json_unmarshal. rewrite (PW j (proper_load j PV)). cbn [bind]. split; [reflexivity|]. split; [exact PV|].
    pose proof (c69_back s K rd x c (load j) T R A) as T'. split; [exact T'|].
    destruct (c67_accepted abs_uri win_uri fetch prim num sep f JD NEW url nu u strict pr N J U CR doc root FT SC ONE NR RO int_of float_of str_of date_at datetime_at uuid_of email_ok s B true (load j) c PV T') as (limit0 & L). exists limit0. intros limit' LE.
    destruct (L limit' LE) as (c' & E' & T''). exists c'. split; [exact E'|]. exact (c69_one s K true true (load j) c c' T' T'').
  Qed.
  (** So it is for booleans, numbers, texts and valid dates, in arrays and objects, of schemas
      without unique items and discriminators. *)
  Theorem c69_plain : forall c s, straight abs_uri win_uri u root s -> ordinary c -> returns s c.
  Proof.
    assert (IV : forall s e, involves abs_uri win_uri u root s e -> is_obj s). { intros s e I. destruct I as [s e S|s e p t S _ _]; (destruct S as [s (? & F & _)|s r ts x e (_ & F) _ _]; destruct s; try discriminate F; exact Logic.I). }
    induction c as [|b|z|q|t|t|yy mm dd|t|z|h dt n|fmt l IH|m IH|w] using prim_ind'; intros s ST O; inversion O as [| | | | |? ? F|? F]; subst; try (now constructor).
    - apply re_array.
      + intros e i S FI. rewrite Forall_forall in IH, F |- *. intros r I. apply IH; [exact I| |exact (F r I)]. intros t IT. apply ST. apply (in_next _ _ _ _ s e i t S); [|exact IT]. left. split; [exact FI|exact (IV i t IT)].
      + intros e vs S UQ. exfalso. exact (proj1 (ST e (in_itself _ _ _ _ s e S)) UQ).
    - apply re_model.
      + intros e k p y S HP G _. rewrite Forall_forall in IH, F. apply sget_In in G. apply (IH _ G p); [|exact (F _ G)]. intros t IT. apply ST. apply (in_next _ _ _ _ s e p t S); [|exact IT]. right. left. eauto.
      + intros e a k y S MO _ G. rewrite Forall_forall in IH, F. apply sget_In in G. apply (IH _ G a); [|exact (F _ G)]. intros t IT. apply ST. apply (in_next _ _ _ _ s e a t S); [|exact IT]. right. now right.
      + intros e k S D. exfalso. exact (proj2 (ST e (in_itself _ _ _ _ s e S)) k D).
  Qed.
  (** Schemas of a document are straight if none of the document asks for unique items or has a
      discriminator. *)
  Theorem c69_straight : (forall ts s, schema_at root ts s -> ~ switched_on s "uniqueItems" /\ forall k, ~ discriminates s k) -> forall ts s, schema_at root ts s -> straight abs_uri win_uri u root s.
  Proof.
    intros ALL ts s A e I. assert (X : exists us, schema_at root us e); [|destruct X as (us & X); exact (ALL us e X)].
    assert (A' : exists us, schema_at root us s) by eauto. clear A. pose proof (root_shaped abs_uri win_uri fetch prim num sep f JD NEW url nu u strict pr N J U CR doc root FT) as RS.
    assert (ST : forall s e, stands s e -> (exists us, schema_at root us s) -> exists us, schema_at root us e).
    { induction 1 as [a NF|a r us x b RF P SE IH]; intro A0; [exact A0|]. apply IH. exists us. exact (proj2 (proj2 P)). }
    induction I as [a e S|a e p t S NX I IH]; [exact (ST a e S A')|]. apply IH. destruct (ST a e S A') as (us & A). pose proof (schema_shaped _ _ _ _ RS A) as SE.
    assert (K : forall n x zs, In n ["properties"; "allOf"; "additionalProperties"; "items"]%string -> field_of e (lit n) = Some x -> inside x zs p -> is_obj p -> exists us, schema_at root us p).
    { intros n x zs IN F R O. destruct (schema_child e n x SE F IN zs p R O) as (R' & C). exists (us ++ lit n :: zs). split; [|exact C]. eapply P_OldValidate.reach_app; [exact (proj1 A)|exact R']. }
    destruct NX as [(F & OB)|[(k & d & F & G)|(F & OB)]].
    - apply (K "items"%string p []); [cbn; auto|exact F|constructor|exact OB].
    - apply (K "properties"%string (VDict d) [k]); [cbn; auto|exact F|econstructor; [exact G|constructor]|].
      destruct (shaped_obj _ _ SE) as (h & fs & ints & -> & C). rewrite <- C in SE. cbn [field_of] in F. destruct (shaped_field _ _ _ _ _ SE F) as [(T & _)|(ct & cc & T & SI)]; rewrite C in T; [discriminate T|]. injection T as <- <-. inversion SI as [| | |? ? ND FA]; subst.
      rewrite Forall_forall in FA. apply sget_In in G. destruct (shaped_obj _ _ (FA _ G)) as (? & ? & ? & E & _). cbn [snd] in E. rewrite E. exact Logic.I.
    - apply (K "additionalProperties"%string p []); [cbn; auto|exact F|constructor|exact OB].
  Qed.
End Created.
Print Assumptions c69_straight.
Print Assumptions c69_shows.
Print Assumptions c69_one.
Print Assumptions c69_back.
Print Assumptions c69_same.
Print Assumptions c69_plain.

(** ** Concrete cases
    The orders of C67 are such a document, *)
Definition straightb (s : val) : bool :=
  match field_of s (lit "uniqueItems") with Some VNone | Some (VBool false) => true | _ => false end && match field_of s (lit "discriminator") with Some VNone => true | _ => false end.
Lemma straightb_ok s : straightb s = true -> ~ switched_on s "uniqueItems" /\ forall k, ~ discriminates s k.
Proof.
  intro E. unfold straightb in E. apply andb_prop in E as (E1 & E2). split.
  - intros (v & F & NE). rewrite F in E1. apply NE. destruct v as [|[]| | | | | |]; try discriminate E1; constructor.
  - intros k (T & _). unfold text_at in T. rewrite T in E2. discriminate E2.
Qed.
Section There.
  Context (j : json) (pr : prepared) (doc root : val) (f : nat).
  Hypothesis W : forall s x, T_Prepare.web j s = Ok x -> wf x.
  Hypothesis NW : forall s x v, T_Prepare.web j s = Ok x -> version_of x = Ok v -> is_version v "1.2" = false.
  Hypothesis CR : create_app (fun s => s) (fun s => s) (T_Prepare.web j) (fun _ => false) (fun _ => Err ValueError) SCOPE_SEPARATOR (S f) T_Prepare.there false = Ok pr.
  Hypothesis FT : found_there (T_Prepare.web j) T_Prepare.there T_Prepare.there pr doc root.
  Notation there := T_Prepare.there.
  Lemma there_straight : (forall ts s, schema_at root ts s -> straightb s = true) -> forall ts s, schema_at root ts s -> straight (fun s => s) (fun s => s) there root s.
  Proof.
    intros A. exact (c69_straight (fun s => s) (fun s => s) (T_Prepare.web j) (fun _ => false) (fun _ => Err ValueError) SCOPE_SEPARATOR f W NW there there there false pr (proj1 there_ok) (proj1 (proj2 there_ok)) (proj2 (proj2 there_ok)) CR doc root FT (fun ts s H => straightb_ok s (A ts s H))).
  Qed.
End There.
Notation ex_returns v c :=
  (returns (fun s => s) (fun s => s) T_Prepare.there orders_root ex_int (fun _ => Err ValueError) (fun _ => lit "?") (fun _ => Err ValueError) (fun _ => Err ValueError) (fun _ => None) (fun _ => true) (fun _ => lit "?") v c).
Lemma orders_straight ts s : schema_at orders_root ts s -> straight (fun s => s) (fun s => s) T_Prepare.there orders_root s.
Proof.
  destruct c67_hypotheses as (W & NW & _ & (doc & FT & _) & _). pose proof orders_made as CR. pose proof (there_wf orders orders_app doc orders_root 39 W NW CR FT) as WF.
  assert (B : forall ts s, schema_at orders_root ts s -> straightb s = true). { apply (all_checked straightb orders_root (objs_of orders_root) WF); vm_compute; try exact Logic.I; reflexivity. }
  revert W NW FT CR B. generalize orders_root orders_app orders. intros root pr j W NW FT CR B. exact (there_straight j pr doc root 39 W NW CR FT B ts s).
Qed.
(** and an order of it is read again as it was. *)
Fixpoint ordinaryb (p : M_Prim.prim) : bool :=
  match p with
  | M_Prim.PBool _ | M_Prim.PInt _ | M_Prim.PFloat _ | M_Prim.PStr _ => true
  | M_Prim.PArray _ l => forallb ordinaryb l
  | M_Prim.PModel m => forallb (fun kv => ordinaryb (snd kv)) m
  | _ => false
  end.
Lemma ordinaryb_ok p : ordinaryb p = true -> ordinary p.
Proof.
  induction p as [|b|z|q|t|t|yy mm dd|t|z|h dt n|fmt l IH|m IH|w] using prim_ind'; cbn [ordinaryb]; intro E; try discriminate E; constructor; rewrite forallb_forall in E; rewrite Forall_forall in IH |- *; intros x I; exact (IH x I (E x I)).
Qed.
Example c69_ex : (exists ts, schema_at orders_root ts (definition "Order")) /\ ordinary the_order /\ ex_returns (definition "Order") the_order /\ exists j, dump (fun _ => lit "?") the_order = Ok j /\ wf j /\
  ex_produced true (definition "Order") (load j) = Ok the_order.
Proof.
  split; [exact order_at|]. assert (O : ordinary the_order) by (apply ordinaryb_ok; vm_compute; reflexivity). split; [exact O|].
  split; [destruct order_at as (ts & A); apply c69_plain; [exact (orders_straight ts _ A)|exact O]|].
  eexists. split; [vm_compute; reflexivity|]. split; [apply wfb_ok; vm_compute; reflexivity|]. vm_compute. reflexivity.
Qed.

(** ** What is not read again as the same *)
Local Definition t (s : string) : json := JStr (lit s).
Local Definition ty (s : string) (l : list (str * json)) : json := JObj ((lit "type", t s) :: l).
Definition parcels : json := JObj
  [(lit "swagger", t "2.0"); (lit "paths", JObj []);
   (lit "definitions", JObj
     [(lit "Seal", ty "string" [(lit "format", t "byte")]);
      (lit "Day", ty "string" [(lit "format", t "date")]);
      (lit "Numbers", ty "array" [(lit "uniqueItems", JBool true); (lit "items", ty "integer" [])])])].
Definition parcels_app : prepared := match create_app (fun s => s) (fun s => s) (T_Prepare.web parcels) (fun _ => false) (fun _ => Err ValueError) SCOPE_SEPARATOR 40 T_Prepare.there false with Ok pr => pr | Err _ => no_app end.
Notation parcels_produced rd v x :=
  (produced (fun s => s) (fun s => s) (T_Prepare.web parcels) (fun _ => false) (fun _ => Err ValueError) SCOPE_SEPARATOR 39 parcels_app
    ex_int (fun _ => Err ValueError) (fun _ => lit "?") (fun _ => Err ValueError) (fun _ => Err ValueError) (fun _ => None) (fun _ => true) 20 rd v x).
Definition parcel (n : string) : val := at_ (root_of parcels_app) ["definitions"%string; n].
(** Bytes are written as base64, and this is read as the bytes. *)
Theorem c69_bytes_refuted : exists s x c j c', s = parcel "Seal" /\ of_type s "string" /\ of_format s ["byte"]%string /\ parcels_produced false s x = Ok c /\ dump (fun _ => lit "?") c = Ok j /\ wf j /\
  parcels_produced true s (load j) = Ok c' /\ ~ same_prim c c'.
Proof.
  exists (parcel "Seal"), (M_Prim.VBytes (lit "ab")), (M_Prim.PByte (lit "ab")), (JStr (lit "YWI=")), (M_Prim.PByte (lit "YWI=")).
  split; [reflexivity|]. split; [vm_compute; reflexivity|]. split; [exists "byte"%string; split; [now left|vm_compute; reflexivity]|]. split; [vm_compute; reflexivity|]. split; [vm_compute; reflexivity|]. split; [constructor|]. split; [vm_compute; reflexivity|]. intro E. inversion E.
Qed.
(** A datetime that is given for a date is written with its time, and read as a date. *)
Theorem c69_date_refuted : exists s x c j c', s = parcel "Day" /\ of_type s "string" /\ of_format s ["date"]%string /\ parcels_produced false s x = Ok c /\ dump (fun _ => lit "?") c = Ok j /\ wf j /\
  parcels_produced true s (load j) = Ok c' /\ ~ same_prim c c'.
Proof.
  exists (parcel "Day"), (M_Prim.VDatetime (M_Time.DT 2020 1 2 3 4 5 0 None)), (M_Prim.PDatetime (M_Time.DT 2020 1 2 3 4 5 0 None)), (JStr (lit "2020-01-02T03:04:05")), (M_Prim.PDate 2020 1 2).
  split; [reflexivity|]. split; [vm_compute; reflexivity|]. split; [exists "date"%string; split; [now left|vm_compute; reflexivity]|]. split; [vm_compute; reflexivity|]. split; [vm_compute; reflexivity|]. split; [constructor|]. split; [vm_compute; reflexivity|]. intro E. inversion E.
Qed.
(** Items are unique before they are converted only. *)
Theorem c69_unique_refuted : exists s x c j c', s = parcel "Numbers" /\ of_type s "array" /\ switched_on s "uniqueItems" /\ parcels_produced false s x = Ok c /\ dump (fun _ => lit "?") c = Ok j /\ wf j /\
  parcels_produced true s (load j) = Ok c' /\ ~ same_prim c c'.
Proof.
  exists (parcel "Numbers"), (M_Prim.VList [M_Prim.VInt 1; M_Prim.VStr (lit "1")]), (M_Prim.PArray (lit "csv") [M_Prim.PInt 1; M_Prim.PInt 1]), (JList [JInt 1; JInt 1]), (M_Prim.PArray (lit "csv") [M_Prim.PInt 1]).
  split; [reflexivity|]. split; [vm_compute; reflexivity|]. split; [eexists; split; [vm_compute; reflexivity|intro Z; inversion Z]|]. split; [vm_compute; reflexivity|]. split; [vm_compute; reflexivity|]. split; [repeat constructor|]. split; [vm_compute; reflexivity|].
  intro E. inversion E as [|? ? ? F|]; subst. inversion F as [|? ? ? ? _ F']; subst. inversion F'.
Qed.
Print Assumptions c69_bytes_refuted.
Print Assumptions c69_date_refuted.
Print Assumptions c69_unique_refuted.
