(** C44: converting 1.2 documents to 2.0. *)
From Verif Require Import PyBase PyFacts PyJson S_JsonPtr M_Scope S_Url M_SpecVal M_Parse M_SpecTree S_SpecTree P_SpecBase S_Parse S_Validate M_OldParse S_OldParse T_OldParse S_OldValidate
  T_SpecTree M_Upgrade S_Upgrade P_UpgradeObj P_UpgradeDoc P_UpgradeFold P_UpgradeEnd.
Close Scope Q_scope.

(** The new document has what the old one says: the general part, a tag for each resource, the
    operations by their paths and methods, the models and their sub-types, and the
    authorizations, and nothing else. *)
Theorem c44_document : forall prim float_of sep raw host base sw, loaded12 raw -> based raw host base ->
  upgrade prim float_of sep raw = Ok sw -> upgraded prim float_of sep raw host base sw.
Proof. intros prim float_of sep raw host base sw LD. destruct (events_exist raw LD) as (rest & es & TR & EV). eapply upgrade_ok; eauto. Qed.
(** A document is converted exactly if everything in it can be. *)
Theorem c44_converts : forall prim float_of sep raw host base, loaded12 raw -> based raw host base ->
  (exists sw, upgrade prim float_of sep raw = Ok sw) <-> convertible prim float_of sep raw.
Proof.
  intros prim float_of sep raw host base LD BA. destruct (events_exist raw LD) as (rest & es & TR & EV). split.
  - intros (sw & E). eapply upgrade_convertible; eauto.
  - intro C. eapply upgrade_works; eauto.
Qed.

Lemma in_made c kvs v n x d : made c kvs v -> sget n (t_fields c) = Some d -> sget n (rev kvs) = Some x -> reach [] v [n] x.
Proof. intros ((h & fs & -> & C & K & F) & _) T G. specialize (F _ _ T). rewrite G in F. eapply reach_field; [intros []|exact F|constructor]. Qed.
Lemma in_dict v n d p x : reach [] v [n] (VDict d) -> sget p d = Some x -> reach [] v [n; p] x.
Proof. intros R G. apply (P_OldValidate.reach_app [] v [n] (VDict d) [p] x R). eapply reach_key; [exact G|constructor]. Qed.
Lemma first_unique raw r n R O r' n' R' O' k m : loaded12 raw -> first_at raw r n R O k m -> first_at raw r' n' R' O' k m -> r' = r /\ n' = n.
Proof.
  intros LD (OI & LO & A) (OI' & LO' & A'). destruct (A _ _ _ _ OI' LO') as [H|E]; [exact H|]. destruct (A' _ _ _ _ OI LO) as [(-> & ->)|E']; [now split|]. exfalso.
  destruct (events_exist raw LD) as (rest & es & TR & _). destruct (raw_ok raw LD) as (W & IO). pose proof (c35_once _ _ _ W IO TR) as ND. apply NoDup_map_inv in ND.
  pose proof (op_reach raw _ _ _ _ OI) as RX. pose proof (op_reach raw _ _ _ _ OI') as RY. pose proof (op_is_obj raw LD _ _ _ _ OI) as OX. pose proof (op_is_obj raw LD _ _ _ _ OI') as OY.
  eapply P_Order.precede_not; [exact ND|exact (c35_last_first _ _ _ _ _ _ _ W IO TR RX OX RY OY E)|exact (c35_last_first _ _ _ _ _ _ _ W IO TR RY OY RX OX E')].
Qed.
(** At the path and below the method of an operation, there is the first operation of the
    document with this path and method, with all it says; its parameters come in reverse
    order. *)
Theorem c44_first : forall prim float_of sep raw host base sw r n R O p m, loaded12 raw -> based raw host base ->
  upgrade prim float_of sep raw = Ok sw -> first_at raw r n R O (base ++ p) m ->
  exists ps x, reach [] sw [lit "paths"; p; m] x /\ parameters_for prim float_of sep r O ps /\ operation_for prim float_of sep (rfc_escape r) R O ps x.
Proof.
  intros prim float_of sep raw host base sw r n R O p m LD BA E FA. pose proof FA as (OI & LO & _). destruct (c44_document _ _ _ _ _ _ _ LD BA E) as (tags & paths & defs & secs & (info & _ & MA) & _ & (NP & IP & PI) & _).
  assert (I : In p (map fst paths)) by (apply IP; eauto 7). apply keys_iff in I as (item & G). destruct (PI _ _ G) as (ops & NO & MI & IO & SL).
  assert (I : In m (map fst ops)) by (apply IO; eauto 6). apply keys_iff in I as (x & GX). destruct (SL _ _ GX) as (FM & r' & n' & R' & O' & ps & FA' & PF & OF).
  destruct (first_unique _ _ _ _ _ _ _ _ _ _ _ LD FA FA') as (-> & ->). destruct (op_unique raw _ _ _ _ _ _ OI (proj1 FA')) as (<- & <-). exists ps, x. split; [|auto].
  apply (P_OldValidate.reach_app [] sw [lit "paths"; p] item [m] x).
  - apply (in_dict _ _ paths); [|exact G]. eapply in_made; [exact MA|reflexivity|reflexivity].
  - apply keys_iff in FM as (d & FM). eapply in_made; [exact MI|exact FM|]. now rewrite rev_unique.
Qed.
(** So each operation that is the only one with its path and method is found there. *)
Theorem c44_operation : forall prim float_of sep raw host base sw r n R O p m, loaded12 raw -> based raw host base ->
  upgrade prim float_of sep raw = Ok sw -> operation_in raw r n R O -> located R O (base ++ p) m ->
  (forall r' n' R' O', operation_in raw r' n' R' O' -> located R' O' (base ++ p) m -> r' = r /\ n' = n) ->
  exists ps x, reach [] sw [lit "paths"; p; m] x /\ parameters_for prim float_of sep r O ps /\ operation_for prim float_of sep (rfc_escape r) R O ps x.
Proof. intros prim float_of sep raw host base sw r n R O p m LD BA E OI LO ONE. eapply c44_first; eauto. split; [exact OI|]. split; [exact LO|]. intros. left. eauto. Qed.
(** Nothing else is found below the methods of a path. *)
Theorem c44_no_other : forall prim float_of sep raw host base sw p m x, loaded12 raw -> based raw host base ->
  upgrade prim float_of sep raw = Ok sw -> reach [] sw [lit "paths"; p; m] x -> is_obj x ->
  exists r n R O, first_at raw r n R O (base ++ p) m.
Proof.
  intros prim float_of sep raw host base sw p m x LD BA E RE IO. destruct (c44_document _ _ _ _ _ _ _ LD BA E) as (tags & paths & defs & secs & (info & _ & MA) & _ & (NP & IP & PI) & _).
  pose proof (in_made _ _ _ (lit "paths") (VDict paths) JNull MA eq_refl eq_refl) as RP. destruct (P_Upgrade.reach_app_inv [] sw [lit "paths"] [p; m] x RE) as (pv & R1 & R2). rewrite (P_Upgrade.reach_unique _ _ _ _ R1 RP) in R2.
  inversion R2 as [|? ? ? ? ? ? ? ? G R3|? ? ? ? ? ? ?|? ? item ? ? G R3]; subst. destruct (PI _ _ G) as (ops & NO & ((h & fs & -> & C & K & F) & _) & _ & SL).
  inversion R3 as [|? ? ? ? y ? ? _ GM R4| |]; subst. inversion R4; subst. assert (I : In m (map fst (t_fields CPathItem))) by (rewrite <- K; apply sget_In in GM; exact (in_map fst _ _ GM)).
  apply keys_iff in I as (d & FM). specialize (F _ _ FM). rewrite rev_unique in F by exact NO. rewrite GM in F. injection F as F. destruct (sget m ops) as [y|] eqn:GO.
  - destruct (SL _ _ GO) as (_ & r & n & R & O & ps & FA & _). eauto.
  - subst x. exfalso. revert FM IO. cbn [t_fields app nones map]. clear. unfold PyBase.lit. repeat (rewrite sget_cons; destruct (str_eqb _ _); [intro Q; injection Q as <-; intros []|]). discriminate.
Qed.
(** Each model is found among the definitions. *)
Theorem c44_model : forall prim float_of sep raw host base sw r k M s, loaded12 raw -> based raw host base ->
  upgrade prim float_of sep raw = Ok sw -> model_in raw r k M -> model_named sep r M s ->
  (forall r' k' M', model_in raw r' k' M' -> model_named sep r' M' s -> r' = r /\ k' = k) ->
  exists kvs x, reach [] sw [lit "definitions"; s] x /\ model_kvs prim float_of sep (rfc_escape r) M kvs /\ definition_for sep raw s kvs x.
Proof.
  intros prim float_of sep raw host base sw r k M s LD BA E MI MN ONE. destruct (c44_document _ _ _ _ _ _ _ LD BA E) as (tags & paths & defs & secs & (info & _ & MA) & _ & _ & (ND & ID & DD) & _).
  assert (I : In s (map fst defs)) by (apply ID; left; eauto). apply keys_iff in I as (x & G). destruct (DD _ _ G) as (kvs & DF & [(r' & k' & M' & MI' & MN' & MK)|(NO & _)]); [|elim (NO _ _ _ MI MN)].
  destruct (ONE _ _ _ MI' MN') as (-> & ->). rewrite (P_Upgrade.reach_unique _ _ _ _ MI MI'). exists kvs, x. split; [|auto]. apply (in_dict _ _ defs); [|exact G]. eapply in_made; [exact MA|reflexivity|reflexivity].
Qed.
(** A sub-type refers to the model that names it. *)
Theorem c44_subtype : forall prim float_of sep raw host base sw r k M p l t s, loaded12 raw -> based raw host base ->
  upgrade prim float_of sep raw = Ok sw -> model_in raw r k M -> model_named sep r M p -> subtypes M l -> In t l -> names sep (rfc_escape r) t s ->
  exists x refs ref, reach [] sw [lit "definitions"; s] x /\ has_field x "allOf" (VList refs) /\ In ref refs /\ made CSchema ["$ref" ~> definition_ref p] ref.
Proof.
  intros prim float_of sep raw host base sw r k M p l t s LD BA E MI MN SU IT NT. destruct (c44_document _ _ _ _ _ _ _ LD BA E) as (tags & paths & defs & secs & (info & _ & MA) & _ & _ & (ND & ID & DD) & _).
  assert (I : In s (map fst defs)) by (apply ID; right; exists r, k, M, l, t; auto). apply keys_iff in I as (x & G). destruct (DD _ _ G) as (kvs & (ps & refs & (ms & pss & (_ & AM) & -> & F) & RF & H & _) & _).
  exists x, refs. apply AM in MI. destruct (Forall2_In_l _ _ _ _ F MI) as (ps & IP & p' & l' & MN' & SU' & PA). cbn [fst snd] in *. rewrite <- (named_unique _ _ _ _ _ MN MN') in PA. rewrite <- (subtypes_unique _ _ _ SU SU') in PA. clear MN' SU'.
  assert (X : In p ps). { clear - PA IT NT. induction PA as [|t' l ps N P IH|t' s' l ps N NE P IH]; [destruct IT|now left|]. destruct IT as [->|IT]; [|auto]. elim NE. eapply names_unique; eauto. }
  assert (Y : In p (concat pss)) by (apply in_concat; eauto). destruct (Forall2_In_l _ _ _ _ RF Y) as (ref & IR & MR). exists ref. split; [|split; [|auto]].
  - apply (in_dict _ _ defs); [|exact G]. eapply in_made; [exact MA|reflexivity|reflexivity].
  - apply (holding_get _ _ _ "allOf" (JList [])) in H; [|reflexivity]. rewrite rev_app_distr in H. exact H.
Qed.
(** Each authorization is found by its name. *)
Theorem c44_authorization : forall prim float_of sep raw host base sw k A, loaded12 raw -> based raw host base ->
  upgrade prim float_of sep raw = Ok sw -> authorization_in raw k A ->
  exists x, reach [] sw [lit "securityDefinitions"; rfc_escape k] x /\ scheme_for A x.
Proof.
  intros prim float_of sep raw host base sw k A LD BA E AI. destruct (c44_document _ _ _ _ _ _ _ LD BA E) as (tags & paths & defs & secs & (info & _ & MA) & _ & _ & _ & (NS & IS & SS)).
  assert (I : In (rfc_escape k) (map fst secs)) by (apply IS; eauto). apply keys_iff in I as (x & G). destruct (SS _ _ G) as (k' & A' & AI' & EK & SF). apply (f_equal rfc_unescape) in EK. rewrite !P_JsonPtr.rfc_unescape_escape in EK. subst k'. rewrite (P_Upgrade.reach_unique _ _ _ _ AI AI'). exists x. split; [|exact SF].
  apply (in_dict _ _ secs); [|exact G]. eapply in_made; [exact MA|reflexivity|reflexivity].
Qed.
Print Assumptions c44_document.
Print Assumptions c44_converts.
Print Assumptions c44_first.
Print Assumptions c44_operation.
Print Assumptions c44_no_other.
Print Assumptions c44_model.
Print Assumptions c44_subtype.
Print Assumptions c44_authorization.

(** ** Concrete cases *)
Definition prim_types (s : str) : bool := mem s (map lit ["integer"; "number"; "string"; "boolean"; "file"; "array"; "object"]%string).
Definition converted_from (v : res val) : res val := do r <- v; upgrade prim_types (fun _ => Err ValueError) SCOPE_SEPARATOR r.
Definition js (x : string) : json := JStr (lit x).
Definition op12 (m nick : string) (ps : list string) : json := JObj [(lit "method", js m); (lit "nickname", js nick); (lit "type", js "Pet");
  (lit "parameters", JList (map (fun p => JObj [(lit "name", js p); (lit "paramType", js "query"); (lit "type", js "string")]) ps))].
Definition resource12 (base : string) (apis : list (string * list json)) (models : list (str * json)) : json :=
  JObj [(lit "swaggerVersion", js "1.2"); (lit "basePath", js base);
    (lit "apis", JList (map (fun pa => JObj [(lit "path", js (fst pa)); (lit "operations", JList (snd pa))]) apis)); (lit "models", JObj models)].
Definition model12 (id : string) (subs : list string) : str * json :=
  (lit id, JObj [(lit "id", js id); (lit "properties", JObj [(lit "x", JObj [(lit "type", js "integer")])]); (lit "subTypes", JList (map js subs))]).
Definition listing12 (info : bool) (ps : list string) : sdict json :=
  [(lit "swaggerVersion", js "1.2"); (lit "apis", JList (map (fun p => JObj [(lit "path", js p)]) ps))] ++ (if info then [(lit "info", JObj [(lit "title", js "t")])] else []) ++
  [(lit "authorizations", JObj [(lit "key", JObj [(lit "type", js "apiKey"); (lit "passAs", js "header"); (lit "keyname", js "k")])])].
Definition fetch12 (l : list (string * json)) (u : str) : res json := match find (fun kv => str_eqb (lit (fst kv)) u) l with Some (_, d) => Ok d | None => Err OSError end.
Definition load12 (info : bool) (l : list (string * json)) : res val :=
  parse_listing (fetch12 (map (fun nd => (append "http://h/d" (fst nd), snd nd)) l)) (lit "http://h/d") (JObj (listing12 info (map fst l))).
Definition pets : list (string * json) :=
  [("/pet", resource12 "http://h/api" [("/pet", [op12 "GET" "a" ["p"; "q"]; op12 "PUT" "b" []])] [model12 "Pet" ["Cat"]; model12 "Cat" []]);
   ("/user", resource12 "http://h/api" [("/user", [op12 "POST" "c" ["p"]])] [])]%string.
Lemma fetch_wf l : Forall (fun nd => wf (snd nd)) l -> forall u doc, fetch12 l u = Ok doc -> wf doc.
Proof.
  intros F u doc. unfold fetch12. destruct (find _ l) as [[n d]|] eqn:E; [|discriminate]. intro Q. injection Q as <-. apply find_some in E as (I & _). rewrite Forall_forall in F. exact (F _ I).
Qed.
Ltac wf12 := cbv [pets listing12 resource12 model12 op12 js map app fst snd]; wfj.
Lemma load_loaded info l v : wf (JObj (listing12 info (map fst l))) -> Forall (fun nd => wf (snd nd)) l -> load12 info l = Ok v -> loaded12 v.
Proof.
  intros W F E. do 3 eexists. split; [exact W|]. split; [|exact E]. apply fetch_wf. apply Forall_map. eapply Forall_impl; [|exact F]. now intros [].
Qed.
Definition pets_loaded : val := match load12 true pets with Ok v => v | Err _ => VNone end.
Definition dict_at (v : val) (n : string) : option (sdict val) :=
  match v with VObj _ fs _ => match sget (lit n) fs with Some (VDict d) => Some d | _ => None end | _ => None end.
Lemma dict_reach v n d k x : dict_at v n = Some d -> reach [] v [lit n; k] x -> In (k, x) d.
Proof.
  intros D R. inversion R as [|h fs ints ? w ? ? _ G R'| |]; subst; try discriminate D. cbn [dict_at] in D. rewrite G in D. destruct w; try discriminate D. injection D as ->. inversion R' as [| | |? ? ? ? ? G' R2]; subst. inversion R2; subst. now apply sget_In.
Qed.
(** All operations are below [base]. *)
Definition all_below (raw : val) (base : str) : bool :=
  match dict_at raw "apis" with
  | Some rs => forallb (fun rR => match dict_at (snd rR) "apis", snd rR with
                                  | Some os, VObj _ fs _ =>
                                      match sget (lit "basePath") fs with
                                      | Some (VStr b) => forallb (fun nO => match snd nO with VObj _ fs ints => match sget (lit "path") fs, sget (lit "path") ints with None, Some (VStr p) => prefixb (base ++ lit "/") (b ++ p) | _, _ => false end | _ => false end) os
                                      | _ => false
                                      end
                                  | _, _ => false
                                  end) rs
  | None => false
  end.
Lemma all_based raw sc host : scheme_ok sc -> host <> [] -> without (lit "/?#[]") host -> all_below raw (sc ++ lit "://" ++ host) = true -> based raw host (sc ++ lit "://" ++ host).
Proof.
  intros S' H W A. split; [right; eauto|]. intros r n R O k m (IR & IO) (b & p & mm & HB & HP & _ & -> & _). unfold all_below in A. destruct (dict_at raw "apis") as [rs|] eqn:D; [|discriminate A]. pose proof (dict_reach _ _ _ _ _ D IR) as J. rewrite forallb_forall in A. specialize (A _ J). cbn [snd] in A.
  destruct (dict_at R "apis") as [os|] eqn:D2; [|discriminate A]. destruct R as [| | | | | | |h fs ints]; try discriminate A. destruct (sget (lit "basePath") fs) as [bv|] eqn:GB; [|discriminate A]. destruct HB as [HB|(HB & _)]; [|congruence]. rewrite GB in HB. injection HB as ->.
  pose proof (dict_reach _ _ _ _ _ D2 IO) as K. rewrite forallb_forall in A. specialize (A _ K). cbn [snd] in A. destruct O as [| | | | | | |h' fs' ints']; try discriminate A. destruct (sget (lit "path") fs') eqn:GF; [discriminate A|]. destruct (sget (lit "path") ints') as [pv|] eqn:GP; [|discriminate A]. destruct HP as [HP|(_ & HP)]; [congruence|]. rewrite GP in HP. injection HP as ->.
  apply prefixb_spec in A as (q & A). exists q. split; [rewrite A, <- !app_assoc; reflexivity|]. intro X. apply app_eq_nil in X as (_ & X). discriminate X.
Qed.
Lemma http_ok : scheme_ok (lit "http").
Proof. exists "h"%char, (lit "ttp"). split; [reflexivity|]. split; [reflexivity|]. intros x I. cbn in I. repeat (destruct I as [<-|I]; [split; reflexivity|]). destruct I. Qed.
Example c44_ex_loaded : load12 true pets = Ok pets_loaded /\ loaded12 pets_loaded.
Proof.
  assert (E : load12 true pets = Ok pets_loaded) by (vm_compute; reflexivity). split; [exact E|]. eapply load_loaded; [| |exact E]; [wf12|unfold pets; wf12].
Qed.
Example c44_ex_based : based pets_loaded (lit "h") (lit "http://h").
Proof.
  apply (all_based pets_loaded (lit "http") (lit "h")); [exact http_ok|discriminate| |vm_compute; reflexivity].
  intros c I J. cbn in I, J. destruct J as [<-|[]]. repeat (destruct I as [I|I]; [discriminate I|]). destruct I.
Qed.
Example c44_ex_convertible : exists sw, upgrade prim_types (fun _ => Err ValueError) SCOPE_SEPARATOR pets_loaded = Ok sw /\ convertible prim_types (fun _ => Err ValueError) SCOPE_SEPARATOR pets_loaded /\
  upgraded prim_types (fun _ => Err ValueError) SCOPE_SEPARATOR pets_loaded (lit "h") (lit "http://h") sw.
Proof.
  destruct (upgrade prim_types (fun _ => Err ValueError) SCOPE_SEPARATOR pets_loaded) as [sw|e] eqn:E.
  - exists sw. split; [reflexivity|]. split; [apply (c44_converts _ _ _ _ (lit "h") (lit "http://h")); eauto using c44_ex_based; apply c44_ex_loaded|]. eapply c44_document; eauto using c44_ex_based. apply c44_ex_loaded.
  - exfalso. assert (X : match upgrade prim_types (fun _ => Err ValueError) SCOPE_SEPARATOR pets_loaded with Ok _ => true | Err _ => false end = true) by (vm_compute; reflexivity). rewrite E in X. discriminate X.
Qed.
Example c44_ex : let d := converted_from (load12 true pets) in
  follow12 ["host"]%string d = Ok (VStr (lit "h")) /\
  follow12 ["paths"; "/api/pet"; "get"; "operationId"]%string d = Ok (VStr (lit "a")) /\
  follow12 ["paths"; "/api/pet"; "put"; "operationId"]%string d = Ok (VStr (lit "b")) /\
  follow12 ["paths"; "/api/user"; "post"; "operationId"]%string d = Ok (VStr (lit "c")) /\
  follow12 ["paths"; "/api/pet"; "get"; "parameters"; "0"; "name"]%string d = Ok (VStr (lit "q")) /\
  follow12 ["definitions"; "pet!##!Cat"; "allOf"; "0"; "$ref"]%string d = Ok (VStr (lit "#/definitions/pet!##!Pet")) /\
  follow12 ["securityDefinitions"; "key"; "in"]%string d = Ok (VStr (lit "header")).
Proof. cbv zeta. repeat split; vm_compute; reflexivity. Qed.

(** ** What is not kept *)
(** Of two operations with the same path and method, only one is left. *)
Theorem c44_clash_refuted : exists l v sw, load12 true l = Ok v /\ converted_from (Ok v) = Ok sw /\
  follow12 ["apis"; "pet"; "apis"; "b"; "path"]%string (Ok v) = Ok (VStr (lit "/pet")) /\ follow12 ["apis"; "pet"; "apis"; "b"; "method"]%string (Ok v) = Ok (VStr (lit "GET")) /\
  follow12 ["paths"; "/api/pet"; "get"; "operationId"]%string (Ok sw) = Ok (VStr (lit "a")).
Proof. exists [("/pet", resource12 "http://h/api" [("/pet", [op12 "GET" "a" []; op12 "GET" "b" []])] [])]%string. do 2 eexists. split; [vm_compute; reflexivity|]. split; [vm_compute; reflexivity|]. repeat split; vm_compute; reflexivity. Qed.
(** If the operations are not all on one host, the host of the new document is none of theirs. *)
Theorem c44_hosts_refuted : exists l v sw, load12 true l = Ok v /\ converted_from (Ok v) = Ok sw /\
  follow12 ["apis"; "a"; "basePath"]%string (Ok v) = Ok (VStr (lit "http://api1")) /\ follow12 ["apis"; "b"; "basePath"]%string (Ok v) = Ok (VStr (lit "http://api2")) /\
  follow12 ["host"]%string (Ok sw) = Ok (VStr (lit "api")) /\ follow12 ["paths"; "1/a"; "get"; "operationId"]%string (Ok sw) = Ok (VStr (lit "x")).
Proof. exists [("/a", resource12 "http://api1" [("/a", [op12 "GET" "x" []])] []); ("/b", resource12 "http://api2" [("/b", [op12 "GET" "y" []])] [])]%string. do 2 eexists. split; [vm_compute; reflexivity|]. split; [vm_compute; reflexivity|]. repeat split; vm_compute; reflexivity. Qed.
(** A document without operations is not converted, nor one without general information. *)
Theorem c44_empty_refuted : exists l v, load12 true l = Ok v /\ converted_from (Ok v) = Err IndexError.
Proof. exists [("/a", resource12 "http://h" [] [])]%string. eexists. split; vm_compute; reflexivity. Qed.
Theorem c44_info_refuted : exists l v, load12 false l = Ok v /\ converted_from (Ok v) = Err AttributeError.
Proof. exists pets. eexists. split; vm_compute; reflexivity. Qed.
(** The parameters of an operation are turned round. *)
Theorem c44_order_refuted : exists v sw, load12 true pets = Ok v /\ converted_from (Ok v) = Ok sw /\
  follow12 ["apis"; "pet"; "apis"; "a"; "parameters"; "0"; "name"]%string (Ok v) = Ok (VStr (lit "p")) /\
  follow12 ["paths"; "/api/pet"; "get"; "parameters"; "0"; "name"]%string (Ok sw) = Ok (VStr (lit "q")).
Proof. do 2 eexists. split; [vm_compute; reflexivity|]. split; [vm_compute; reflexivity|]. split; vm_compute; reflexivity. Qed.
(** The name of a resource is escaped, where it becomes a tag. *)
Theorem c44_name_refuted : exists l v sw, load12 true l = Ok v /\ converted_from (Ok v) = Ok sw /\
  (exists r, follow12 ["apis"; "a/b"]%string (Ok v) = Ok r) /\
  follow12 ["paths"; "/a"; "get"; "tags"; "0"]%string (Ok sw) = Ok (VStr (lit "a~1b")).
Proof. exists [("/a/b", resource12 "http://h" [("/a", [op12 "GET" "x" []])] [])]%string. do 2 eexists. split; [vm_compute; reflexivity|]. split; [vm_compute; reflexivity|]. split; [eexists; vm_compute; reflexivity|vm_compute; reflexivity]. Qed.
Print Assumptions c44_clash_refuted.
Print Assumptions c44_hosts_refuted.
Print Assumptions c44_empty_refuted.
Print Assumptions c44_info_refuted.
Print Assumptions c44_order_refuted.
Print Assumptions c44_name_refuted.
