(** C43, C51 and C53: versions, documents and references. *)
From Coq Require Import Lia.
From Verif Require Import PyBase PyFacts PyInt PyJson M_JsonPtr S_JsonPtr P_JsonPtr M_Url S_Url P_Url P_Op M_SpecVal M_Parse M_SpecTree M_Merge M_MergeRef S_Parse S_SpecTree P_SpecBase P_Parse P_SpecTree P_Compare P_MergeRef T_SpecTree M_App S_App P_App.
Close Scope Q_scope.

(** ** C51 *)
Section Versions.
  Context (fetch : str -> res json) {old : Type} (parse_old : str -> json -> res old).
  Notation load := (load_obj fetch parse_old).
  (** "swaggerVersion": "1.2" makes it a 1.2 document, whatever else it says. *)
  Theorem c51_old : forall j d p, fetch j = Ok (JObj d) -> sget (lit "swaggerVersion") d = Some (JStr (lit "1.2")) ->
    load j p = (do o <- parse_old j (JObj d); Ok (Old o, lit "1.2")).
  Proof. intros j d p F V. unfold load_obj. rewrite F. cbn [bind version_of]. rewrite V. reflexivity. Qed.
  (** "swagger": "2.0" makes it a 2.0 document, unless there is a "swaggerVersion". *)
  Theorem c51_new : forall j d p, fetch j = Ok (JObj d) -> sget (lit "swaggerVersion") d = None -> sget (lit "swagger") d = Some (JStr (lit "2.0")) ->
    load j p = (do o <- parse (Of CSwagger) [] (JObj d); Ok (New o, lit "2.0")).
  Proof. intros j d p F V W. unfold load_obj. rewrite F. cbn [bind version_of]. rewrite V, W. reflexivity. Qed.
  (** A fragment: no version in it, and a parser for it. *)
  Theorem c51_fragment : forall j d c, fetch j = Ok (JObj d) -> sget (lit "swaggerVersion") d = None -> sget (lit "swagger") d = None ->
    load j (Some c) = (do o <- parse (Of c) [] (JObj d); Ok (New o, lit "2.0")).
  Proof. intros j d p F V W. unfold load_obj. rewrite F. cbn [bind version_of]. rewrite V, W. reflexivity. Qed.
  (** Any other version, or no version and no parser, is refused. *)
  Theorem c51_other : forall j d p, fetch j = Ok (JObj d) ->
    (forall v, sget (lit "swaggerVersion") d = Some v -> v <> JStr (lit "1.2") /\ v <> JStr (lit "2.0") /\ (v <> JNull \/ p = None)) ->
    (sget (lit "swaggerVersion") d = None ->
       (sget (lit "swagger") d = None /\ p = None) \/
       (exists v, sget (lit "swagger") d = Some v /\ v <> JStr (lit "1.2") /\ v <> JStr (lit "2.0") /\ (v <> JNull \/ p = None))) ->
    load j p = Err NotImplementedError.
  Proof.
    intros j d p F H1 H2. unfold load_obj. rewrite F. cbn [bind version_of].
    assert (G : forall v, v <> JStr (lit "1.2") -> v <> JStr (lit "2.0") -> (v <> JNull \/ p = None) ->
      (if is_version (Some v) "1.2" then do o <- parse_old j (JObj d); Ok (Old o, lit "1.2")
       else if is_version (Some v) "2.0" then do o <- parse (Of CSwagger) [] (JObj d); Ok (New o, lit "2.0")
       else match p with Some c => if no_version (Some v) then do o <- parse (Of c) [] (JObj d); Ok (New o, lit "2.0") else Err NotImplementedError | None => Err NotImplementedError end) = Err NotImplementedError).
    { intros v A B C. destruct v as [|b|z|q|t|l|e]; cbn [is_version no_version].
      - destruct C as [C| ->]; [now elim C|reflexivity].
      - now destruct p.
      - now destruct p.
      - now destruct p.
      - destruct (str_eqb_spec t (lit "1.2")) as [->|_]; [now elim A|]. destruct (str_eqb_spec t (lit "2.0")) as [->|_]; [now elim B|]. now destruct p.
      - now destruct p.
      - now destruct p. }
    destruct (sget (lit "swaggerVersion") d) as [v|].
    - destruct (H1 v eq_refl) as (A & B & C). now apply G.
    - destruct (H2 eq_refl) as [(-> & ->)|(v & -> & A & B & C)]; [reflexivity|now apply G].
  Qed.
  (** What is no JSON object has no version: an exception of another kind. *)
  Theorem c51_no_object_refuted : forall j x p, fetch j = Ok x -> (forall d, x <> JObj d) -> load j p = Err AttributeError.
  Proof. intros j x p F N. unfold load_obj. rewrite F. cbn [bind]. destruct x; try reflexivity. now elim (N d). Qed.
End Versions.
Print Assumptions c51_old.
Print Assumptions c51_new.
Print Assumptions c51_fragment.
Print Assumptions c51_other.
Print Assumptions c51_no_object_refuted.

(** ** C53 *)
(** All references inside are completed with the document's URL, and nothing else changes. *)
Theorem c53_normalised : forall url v v', wfv v -> norm_refs url v = Ok v' -> normal url v v'.
Proof. intros url v v' W. apply (norm_ok url (S (vdepth v))); auto. Qed.
(** It fails only when some reference cannot be completed. *)
Theorem c53_fails : forall url v e, wfv v -> norm_refs url v = Err e ->
  exists ts h fs ints r, reach [] v ts (VObj h fs ints) /\ ref_class (h_cls h) /\ sget (lit "$ref") fs = Some r /\ bad_ref url r e.
Proof. intros url v e W. apply (norm_err url e (S (vdepth v))); auto. Qed.
Print Assumptions c53_normalised.
Print Assumptions c53_fails.

(** ** C43 *)
Lemma rest_pointer k ts : rest_tokens k (rfc_pointer k ts) = ts.
Proof.
  unfold rest_tokens. replace (skipn (length k) (rfc_pointer k ts)) with (rfc_pointer [] ts).
  2: { unfold rfc_pointer. rewrite skipn_app, skipn_all, Nat.sub_diag. reflexivity. }
  destruct ts as [|t ts]; [reflexivity|]. unfold jp_split. destruct (rfc_pointer [] (t :: ts)) as [|c s] eqn:E; [discriminate E|]. rewrite <- E.
  change (lit "/") with ["/"%char]. rewrite split_pointer. change (PyBase.split ["/"%char] []) with [@nil ascii]. cbn [List.app]. cbn [map tl]. apply (map_unescape (t :: ts)).
Qed.
Section Resolve.
  Context (abs_uri win_uri : str -> str) (fetch : str -> res json).
  Context {old : Type} (parse_old : str -> json -> res old) (upgrade : old -> res val) (as_is : old -> val).
  Notation split_ref := (jr_split abs_uri win_uri).
  Notation load := (load_obj fetch parse_old).
  Notation solve := (resolvef abs_uri win_uri fetch parse_old upgrade as_is).
  Notation run := (calls abs_uri win_uri fetch parse_old upgrade as_is).
  Notation start := (create abs_uri win_uri fetch parse_old upgrade as_is).

  (** Empty references *)
  Theorem c43_empty : forall fuel a p, solve (S fuel) a None p = (a, Err ValueError) /\ solve (S fuel) a (Some []) p = (a, Err ValueError).
  Proof. split; reflexivity. Qed.
  (** A local reference leads to what is at that place in the application's document. *)
  Theorem c43_local : forall fuel a p n root ts x, sound a -> a_root a = Some (n, root) -> reach [] root ts x -> returned x ->
    solve (S fuel) a (Some (rfc_pointer (lit "#") ts)) p = (a, Ok (n, x)).
  Proof.
    intros fuel a p n root ts x SO RT RC RX. cbn [resolvef]. unfold resolve_step.
    destruct (rfc_pointer (lit "#") ts) as [|c s] eqn:E; [discriminate E|]. rewrite <- E.
    assert (J : split_ref (rfc_pointer (lit "#") ts) = Ok ([], rfc_pointer (lit "#") ts)) by apply (jr_split_local abs_uri win_uri).
    rewrite J. cbn [bind fst snd].
    assert (L : lookup a [] (rfc_pointer (lit "#") ts) = Ok None) by (unfold lookup; rewrite (so_local _ SO); reflexivity). rewrite L. cbn [bind nonempty].
    assert (H : startswith (rfc_pointer (lit "#") ts) "#"%string = true) by reflexivity. rewrite H. cbn [negb]. rewrite RT, split_hash. cbn [tl].
    rewrite (resolve_reach _ _ _ _ RC). unfold answer. cbn [snd]. destruct x; try reflexivity; destruct RX.
  Qed.
  (** The shortcut leads to the path item of a path, with or without the slash in front; with a
      base of one's own, to what is there in it. *)
  Theorem c43_shortcut : forall fuel a n root p x, sound a -> a_root a = Some (n, root) ->
    reach [] root [lit "paths"; "/"%char :: p] x -> returned x ->
    shortcut abs_uri win_uri fetch parse_old upgrade as_is (S fuel) a ("/"%char :: p) paths_base = (a, Ok (n, x)) /\
    (hd_error p <> Some "/"%char -> shortcut abs_uri win_uri fetch parse_old upgrade as_is (S fuel) a p paths_base = (a, Ok (n, x))).
  Proof.
    intros fuel a n root p x SO RT RC RX.
    assert (P : solve (S fuel) a (jp_compose (JPStr ("/"%char :: p)) (Some (lit "#/paths"))) None = (a, Ok (n, x))).
    { rewrite compose_str, compose_pointer_ok by discriminate.
      exact (c43_local fuel a None n root [lit "paths"; "/"%char :: p] x SO RT RC RX). }
    unfold shortcut, paths_base. cbn [fst snd]. change (nonempty (lit "/")) with true. cbv iota. split.
    - change (prefixb (lit "/") ("/"%char :: p)) with true. exact P.
    - intro H. replace (prefixb (lit "/") p) with false; [exact P|]. symmetry. destruct p as [|c p]; [reflexivity|]. apply not_true_is_false. intro T. apply prefixb_spec in T as (t & T). injection T as -> _. now elim H.
  Qed.
  Theorem c43_shortcut_base : forall fuel a n root k p base ts x, sound a -> a_root a = Some (n, root) ->
    base = rfc_pointer (lit "#") ts -> reach [] root (ts ++ [p]) x -> returned x -> k = [] \/ is_prefix k p ->
    shortcut abs_uri win_uri fetch parse_old upgrade as_is (S fuel) a p (k, base) = (a, Ok (n, x)).
  Proof.
    intros fuel a n root k p base ts x SO RT -> RC RX K. unfold shortcut. cbn [fst snd].
    replace (if nonempty k then if prefixb k p then p else k ++ p else p) with p.
    2: { destruct K as [->|(r & ->)]; [reflexivity|]. destruct (nonempty k); [|reflexivity]. now rewrite (proj2 (prefixb_spec k (k ++ r)) (ex_intro _ r eq_refl)). }
    rewrite compose_str, compose_pointer_ok by (destruct ts; discriminate).
    replace (rfc_pointer (rfc_pointer (lit "#") ts) [p]) with (rfc_pointer (lit "#") (ts ++ [p])); [now apply (c43_local fuel a None n root)|].
    unfold rfc_pointer. now rewrite flat_map_app, app_assoc.
  Qed.
  (** A reference into a document that is known as a whole *)
  Theorem c43_whole : forall fuel a p j url n doc ts x, j <> [] -> split_ref j = Ok (url, rfc_pointer (lit "#") ts) -> whole a url (n, doc) ->
    reach [] doc ts x -> returned x -> solve (S fuel) a (Some j) p = (a, Ok (n, x)).
  Proof.
    intros fuel a p j url n doc ts x NJ J W RC RX. rewrite (found_again abs_uri win_uri fetch parse_old upgrade as_is fuel a j url _ (n, x) p NJ J).
    - unfold answer. cbn [snd]. destruct x; try reflexivity; destruct RX.
    - unfold lookup. unfold whole in W. rewrite W, split_hash. cbn [tl]. rewrite (resolve_reach _ _ _ _ RC). cbn. destruct x; try reflexivity; destruct RX.
  Qed.
  (** A reference into a part that is known, when no other known part is in the way *)
  Theorem c43_part : forall fuel a p j url k n v ts x, sound a -> j <> [] -> split_ref j = Ok (url, rfc_pointer k ts) -> part_at a url k (n, v) ->
    (forall k' o, part_at a url k' o -> is_prefix k' (rfc_pointer k ts) -> k' = k) ->
    reach [] v ts x -> returned x -> solve (S fuel) a (Some j) p = (a, Ok (n, x)).
  Proof.
    intros fuel a p j url k n v ts x SO NJ J (d & G & K) ONLY RC RX. rewrite (found_again abs_uri win_uri fetch parse_old upgrade as_is fuel a j url _ (n, x) p NJ J).
    - unfold answer. cbn [snd]. destruct x; try reflexivity; destruct RX.
    - unfold lookup. rewrite G, in_parts_first. destruct (first_match d (rfc_pointer k ts)) as [[k' o]|] eqn:F.
      + pose proof (first_sget _ _ _ _ (so_keys _ SO _ _ G) F) as SK. apply first_match_In in F as (_ & F).
        assert (k' = k) as -> by (apply (ONLY k' o); [exists d; auto|exact F]). rewrite K in SK. injection SK as <-.
        rewrite rest_pointer, (resolve_reach _ _ _ _ RC). cbn. destruct x; try reflexivity; destruct RX.
      + exfalso. apply (proj1 (first_match_None _ _) F k (n, v)); [now apply sget_In|]. eexists. reflexivity.
  Qed.
  (** A reference to something unknown: it is fetched, parsed as the version says, its
      references are completed, and it is known from then on. *)
  Theorem c43_new : forall fuel a p j url jp a' o, (forall o, as_is o <> VNone) -> (forall o v, upgrade o = Ok v -> is_obj v) -> (forall j x, fetch j = Ok x -> wf x) ->
    sound a -> split_ref j = Ok (url, jp) -> url <> [] -> unknown a url jp -> a_old a = false ->
    solve fuel a (Some j) p = (a', Ok o) ->
    exists l ver, load j p = Ok (l, ver) /\
      fst o = a_loads a /\ match l with New v => normal url v (snd o) | Old w => snd o = as_is w end /\
      forall fuel' p', solve (S fuel') a' (Some j) p' = (a', Ok o).
  Proof.
    intros fuel a p j url jp a' o KS UP JD SO J NU U AO E.
    assert (SAME : forall fuel' p', solve (S fuel') a' (Some j) p' = (a', Ok o)).
    { intros fuel' p'. exact (same_again abs_uri win_uri fetch parse_old upgrade as_is KS UP fuel 0 fuel' a j url jp p p' a' o [] SO J E (or_introl U)). }
    destruct fuel as [|fuel]; [discriminate E|]. cbn [resolvef] in E. unfold resolve_step in E. destruct j as [|c j]; [discriminate E|].
    rewrite J in E. cbn [bind fst snd] in E. rewrite (unknown_lookup a url jp SO U) in E. cbn [bind] in E.
    assert (NE : nonempty url = true) by (destruct url; [now elim NU|reflexivity]). rewrite NE in E.
    destruct (load (c :: j) p) as [[l ver]|e] eqn:L; [|discriminate E]. exists l, ver. split; [reflexivity|].
    destruct (prepare_obj abs_uri win_uri upgrade as_is _ a l (c :: j)) as [a1 [w|e]] eqn:P; [|discriminate E]. injection E as -> A.
    apply (prep_keeps abs_uri win_uri upgrade as_is _ a l (c :: j) url jp) in P; auto.
    2: { intros b s b' y SB F. exact (solve_keeps abs_uri win_uri fetch parse_old upgrade as_is KS UP fuel _ _ _ _ _ SB F). }
    2: { exact (unknown_lookup a url jp SO U). }
    2: { intros v. exact (normed_some fetch parse_old upgrade as_is KS UP a _ _ _ _ url v L). }
    destruct P as (_ & _ & _ & P). destruct (P w eq_refl) as (v & b & -> & N & _).
    assert (o = (a_loads a, v)) as ->. { unfold answer in A. cbn [snd] in A. destruct v; congruence. }
    cbn [fst snd]. split; [reflexivity|]. split; [|exact SAME].
    unfold normalised in N. rewrite AO in N. destruct l as [w|w]; [congruence|].
    eapply (norm_ok url (S (vdepth w))); eauto. clear - L JD. unfold load_obj in L. apply bind_ok in L as (x & FX & L). apply JD in FX. apply bind_ok in L as (ve & _ & E).
    destruct (is_version ve "1.2"); [apply bind_ok in E as (? & _ & E); discriminate E|].
    destruct (is_version ve "2.0").
    - apply bind_ok in E as (y & Y & E). injection E as <- <-. eapply c35_parsed; eauto.
    - destruct p; [|discriminate E]. destruct (no_version ve); [|discriminate E]. apply bind_ok in E as (y & Y & E). injection E as <- <-. eapply c35_parsed; eauto.
  Qed.
  (** What has been found is found again by every later call, whatever is called in
      between: it is the same object. *)
  Theorem c43_same : forall fuel fuel1 fuel2 a j url jp p p' a' o l, (forall o, as_is o <> VNone) -> (forall o v, upgrade o = Ok v -> is_obj v) ->
    sound a -> split_ref j = Ok (url, jp) ->
    solve fuel a (Some j) p = (a', Ok o) -> unknown a url jp \/ a' = a ->
    solve (S fuel2) (run fuel1 a' l) (Some j) p' = (run fuel1 a' l, Ok o).
  Proof. intros fuel fuel1 fuel2 a j url jp p p' a' o l KS UP. now apply same_again. Qed.
  (** The application just made has such a cache, with its own document in it, and every
      call leaves it so. *)
  Theorem c43_created : forall fuel url a u, (forall o, as_is o <> VNone) -> (forall o v, upgrade o = Ok v -> is_obj v) ->
    start fuel url = Ok a -> (forall n, normalize_url abs_uri win_uri url = Ok n -> split_ref n = Ok (u, lit "#")) -> u <> [] ->
    sound a /\ exists o, a_root a = Some o /\ whole a u o /\ fst o = 0.
  Proof.
    intros fuel url a u KS UP E SP NU. unfold create in E. apply bind_ok in E as (n & N & E). pose proof (SP n N) as J.
    apply bind_ok in E as ([o ver] & L & E). cbn [fst snd] in E. set (a0 := App [] None _ 0) in E.
    destruct (prepare_obj abs_uri win_uri upgrade as_is _ a0 o n) as [a1 [w|e]] eqn:P; [|discriminate E]. injection E as <-.
    assert (S0 : sound a0) by (constructor; [reflexivity|unfold whole; cbn; discriminate|intros ? ? ? ? (d & D & _); discriminate D|cbn; discriminate]).
    apply (prep_keeps abs_uri win_uri upgrade as_is _ a0 o n u (lit "#")) in P; auto.
    2: { intros b s b' y SB F. exact (solve_keeps abs_uri win_uri fetch parse_old upgrade as_is KS UP fuel _ _ _ _ _ SB F). }
    2: { intros v. exact (normed_some fetch parse_old upgrade as_is KS UP a0 _ _ _ _ u v L). }
    destruct P as (_ & S1 & _ & P). destruct (P w eq_refl) as (v & b & -> & _ & ST & _ & X). split.
    - destruct S1 as [A B C D]. constructor; cbn; [exact A|exact B|exact C|exact D].
    - exists (a_loads a0, v). cbn. split; [reflexivity|]. split; [|reflexivity]. unfold whole. cbn [a_objs].
      apply (ex_whole _ _ X). unfold store in ST. cbn [a0 a_objs dget] in ST. injection ST as <-. unfold whole. cbn [a_objs]. rewrite sget_cons, str_eqb_refl. reflexivity.
  Qed.
  Theorem c43_kept : forall fuel a l, (forall o, as_is o <> VNone) -> (forall o v, upgrade o = Ok v -> is_obj v) -> sound a ->
    sound (run fuel a l) /\ a_root (run fuel a l) = a_root a /\ forall url o, whole a url o -> whole (run fuel a l) url o.
  Proof.
    intros fuel a l KS UP SO. destruct (run_keeps abs_uri win_uri fetch parse_old upgrade as_is KS UP fuel l a SO) as (X & S1).
    split; [exact S1|]. split; [apply X|]. intros url o. apply X.
  Qed.
  (** If the documents mention finitely many references, and none of their pointers
      continues another one's text, then resolving them comes to an end. *)
  Theorem c43_ends : forall R fuel a j p, (forall o, as_is o <> VNone) -> (forall o v, upgrade o = Ok v -> is_obj v /\ wfv v) ->
    (forall j x, fetch j = Ok x -> wf x) -> (forall j, fetch j <> Err OutOfFuel) -> (forall j x, parse_old j x <> Err OutOfFuel) -> (forall o, upgrade o <> Err OutOfFuel) ->
    (forall j, In j R -> refers_into abs_uri win_uri fetch parse_old upgrade R j) -> apart_refs abs_uri win_uri R ->
    sound a -> cached_by abs_uri win_uri R a -> In j R -> length R < fuel ->
    snd (solve fuel a (Some j) p) <> Err OutOfFuel.
  Proof.
    intros R fuel a j p KS UP JD F1 F2 F3 RC RA SO CB IR LT. destruct (solve fuel a (Some j) p) as [a' x] eqn:E.
    apply (solve_ends abs_uri win_uri fetch parse_old upgrade as_is KS UP JD F1 F2 F3 R RC RA) in E as (_ & NF); auto. apply NF.
    pose proof (left_le abs_uri win_uri R a). lia.
  Qed.
End Resolve.
Print Assumptions c43_empty.
Print Assumptions c43_local.
Print Assumptions c43_shortcut.
Print Assumptions c43_shortcut_base.
Print Assumptions c43_whole.
Print Assumptions c43_part.
Print Assumptions c43_new.
Print Assumptions c43_same.
Print Assumptions c43_created.
Print Assumptions c43_kept.
Print Assumptions c43_ends.

(** ** Where the property fails *)
(** A document in which one definition's name continues another one's. *)
Definition named (n : string) (more : list (str * json)) : json := JObj ((lit "title", JStr (lit n)) :: more).
Definition at_a : str := lit "http://h/d.json#/a".
Definition at_ab : str := lit "http://h/d.json#/ab".
Definition at_abi : str := lit "http://h/d.json#/ab/items".
Definition web (j : str) : res json :=
  if str_eqb j at_a then Ok (named "a" [])
  else if str_eqb j at_ab then Ok (named "ab" [(lit "items", named "i" [])])
  else if str_eqb j at_abi then Ok (named "i" [])
  else Err KeyError.
Definition ask (f : str -> res json) (a : app) (j : str) : app * res obj :=
  resolvef id id f (fun _ _ => Err KeyError) (fun _ : unit => Err KeyError) (fun _ => VBool true) 5 a (Some j) (Some CSchema).
Definition title (r : res obj) : option val :=
  match r with Ok (_, VObj _ fs _) => sget (lit "title") fs | _ => None end.
Definition empty_app : app := App [] None false 0.
(** Once "#/a" has been resolved, "#/ab" leads to the same object. *)
Theorem c43_prefix_refuted :
  title (snd (ask web empty_app at_ab)) = Some (VStr (lit "ab")) /\
  title (snd (ask web (fst (ask web empty_app at_a)) at_ab)) = Some (VStr (lit "a")).
Proof. split; vm_compute; reflexivity. Qed.
(** And "#/ab/items" is not found in the cache: two calls make two objects. *)
Theorem c43_twice_refuted : exists x y a1 a2, let a := fst (ask web empty_app at_a) in
  ask web a at_abi = (a1, Ok x) /\ ask web a1 at_abi = (a2, Ok y) /\ fst x = 1 /\ fst y = 2.
Proof. do 4 eexists. cbv zeta. split; [vm_compute; reflexivity|]. split; [vm_compute; reflexivity|]. split; reflexivity. Qed.
(** If it also refers to itself, the call does not end (Python's recursion limit ends it). *)
Definition web' (j : str) : res json :=
  if str_eqb j at_a then Ok (named "a" [])
  else if str_eqb j at_abi then Ok (named "i" [(lit "allOf", JList [JObj [(lit "$ref", JStr at_abi)]])])
  else Err KeyError.
Definition solve' := resolvef id id web' (fun _ _ => Err KeyError) (fun _ : unit => Err KeyError) (fun _ => VBool true).
Definition a_obj : val := match snd (solve' 1 empty_app (Some at_a) (Some CSchema)) with Ok (_, v) => v | _ => VNone end.
Definition i_doc : val := match parse (Of CSchema) [] (named "i" [(lit "allOf", JList [JObj [(lit "$ref", JStr at_abi)]])]) with Ok v => v | _ => VNone end.
Definition i_norm : val := match norm_refs (lit "http://h/d.json") i_doc with Ok v => v | _ => VNone end.
Lemma endless : forall fuel a d, a_old a = false -> sget (lit "http://h/d.json") (a_objs a) = Some (Parts ((lit "#/a", (0, a_obj)) :: d)) ->
  snd (solve' fuel a (Some at_abi) (Some CSchema)) = Err OutOfFuel.
Proof.
  induction fuel as [|fuel IH]; intros a d AO G; [reflexivity|].
  assert (J : jr_split id id at_abi = Ok (lit "http://h/d.json", lit "#/ab/items")) by (vm_compute; reflexivity).
  unfold solve'. cbn [resolvef]. change (fun (a0 : app) (r : str) => resolvef id id web' _ _ _ fuel a0 (Some r) (Some CSchema)) with (fun (a0 : app) (r : str) => solve' fuel a0 (Some r) (Some CSchema)).
  unfold resolve_step. destruct at_abi as [|c s] eqn:EA; [discriminate EA|]. rewrite J. cbn [bind fst snd].
  assert (L : lookup a (lit "http://h/d.json") (lit "#/ab/items") = Ok None).
  { unfold lookup. rewrite G, in_parts_first. vm_compute. reflexivity. }
  rewrite L. cbn [bind]. change (nonempty (lit "http://h/d.json")) with true. cbv iota. rewrite <- EA in *.
  assert (LO : load_obj web' (fun _ _ => @Err unit KeyError) at_abi (Some CSchema) = Ok (New i_doc, lit "2.0")) by (vm_compute; reflexivity).
  rewrite LO. unfold prepare_obj. rewrite J. cbn [bind fst snd].
  assert (N : forall ug ai, @normalised unit ug ai a (New i_doc) (lit "http://h/d.json") = Ok i_norm).
  { intros ug ai. unfold normalised. rewrite AO. vm_compute. reflexivity. }
  rewrite N. cbn [bind]. unfold store. rewrite G. cbn [bind].
  assert (T : to_resolve a (@New unit i_doc) i_norm = Ok [at_abi]).
  { unfold to_resolve. rewrite AO. vm_compute. reflexivity. }
  rewrite T. cbn [bind pre_resolve].
  match goal with |- context[solve' fuel ?b (Some at_abi) (Some CSchema)] => specialize (IH b (sset (lit "#/ab/items") (a_loads a, i_norm) d) AO); destruct (solve' fuel b (Some at_abi) (Some CSchema)) as [b' r] end.
  cbn [snd] in IH. rewrite IH; [reflexivity|]. cbn [a_objs]. rewrite sget_sset_same. f_equal.
Qed.
Theorem c43_endless_refuted : forall fuel fuel', fuel <> 0 ->
  snd (solve' fuel empty_app (Some at_a) (Some CSchema)) = Ok (0, a_obj) /\
  snd (solve' fuel' (fst (solve' fuel empty_app (Some at_a) (Some CSchema))) (Some at_abi) (Some CSchema)) = Err OutOfFuel.
Proof.
  intros fuel fuel' NF. destruct fuel as [|fuel]; [now elim NF|].
  assert (E : solve' (S fuel) empty_app (Some at_a) (Some CSchema) = (App [(lit "http://h/d.json", Parts [(lit "#/a", (0, a_obj))])] None false 1, Ok (0, a_obj))) by (vm_compute; reflexivity).
  rewrite E. cbn [fst snd]. split; [reflexivity|]. apply (endless fuel' _ []); [reflexivity|]. reflexivity.
Qed.
(** Tokens below a plain value are passed over. *)
Definition small : json := JObj [(lit "swagger", JStr (lit "2.0")); (lit "info", JObj [(lit "title", JStr (lit "t")); (lit "version", JStr (lit "1"))]);
  (lit "definitions", JObj [(lit "P", named "P" [(lit "properties", JObj [(lit "q", JObj [(lit "$ref", JStr (lit "#/definitions/Q"))])])]); (lit "Q", named "Q" [])])].
Definition web2 (j : str) : res json := if str_eqb j (lit "http://h/s.json") then Ok small else Err KeyError.
Definition app2 : res app := create id id web2 (fun _ _ => Err KeyError) (fun _ : unit => Err KeyError) (fun _ => VBool true) 5 (lit "http://h/s.json").
Theorem c43_beyond_refuted : exists a, app2 = Ok a /\ ask web2 a (lit "#/info/title/no/such/thing") = (a, Ok (0, VStr (lit "t"))).
Proof. eexists. split; [vm_compute; reflexivity|]. vm_compute. reflexivity. Qed.
Print Assumptions c43_prefix_refuted.
Print Assumptions c43_twice_refuted.
Print Assumptions c43_endless_refuted.
Print Assumptions c43_beyond_refuted.

(** The method of a path is not found by the shortcut, although its description says so. *)
Definition web3 (j : str) : res json :=
  if str_eqb j (lit "http://h/s.json") then
    Ok (JObj [(lit "swagger", JStr (lit "2.0")); (lit "paths", JObj [(lit "/user", JObj [(lit "get", JObj [(lit "operationId", JStr (lit "u"))])])])])
  else Err KeyError.
Definition no_old := fun (_ : str) (_ : json) => @Err unit KeyError.
Definition app3 : res app := create id id web3 no_old (fun _ => Err KeyError) (fun _ => VBool true) 5 (lit "http://h/s.json").
Definition short (a : app) (p : string) : res obj :=
  snd (shortcut id id web3 no_old (fun _ => Err KeyError) (fun _ => VBool true) 5 a (lit p) paths_base).
Theorem c43_shortcut_method_refuted : exists a o x y, app3 = Ok a /\ a_root a = Some o /\
  reach [] (snd o) (map lit ["paths"; "/user"; "get"]%string) x /\ short a "user" = Ok (0, y) /\ short a "user/get" = Err KeyError.
Proof.
  do 4 eexists. split; [vm_compute; reflexivity|]. split; [reflexivity|]. split; [|split; vm_compute; reflexivity].
  cbn [snd map]. eapply reach_field; [intros []|vm_compute; reflexivity|]. eapply reach_key; [vm_compute; reflexivity|]. eapply reach_field; [intros []|vm_compute; reflexivity|]. constructor.
Qed.
Print Assumptions c43_shortcut_method_refuted.

(** ** Concrete cases *)
Example c43_ex_local : exists a, app2 = Ok a /\ title (snd (ask web2 a (lit "#/definitions/Q"))) = Some (VStr (lit "Q")) /\
  snd (ask web2 a (lit "#/definitions/Q")) = snd (ask web2 a (lit "http://h/s.json#/definitions/Q")).
Proof. eexists. split; [vm_compute; reflexivity|]. split; vm_compute; reflexivity. Qed.
Example c43_ex_new : exists a x, app2 = Ok a /\ unknown a (lit "http://h/d.json") (lit "#/a") /\ ask web a at_a = (fst (ask web a at_a), Ok x) /\ fst x = 1.
Proof.
  eexists. eexists. split; [vm_compute; reflexivity|]. split; [|split; [vm_compute; reflexivity|reflexivity]].
  split; [intros o W; vm_compute in W; discriminate W|]. intros k o (d & G & _). vm_compute in G. discriminate G.
Qed.
Example c53_ex : exists v v' h fs ints, parse (Of CSwagger) [] small = Ok v /\ norm_refs (lit "http://h/s.json") v = Ok v' /\
  resolve v' (map lit ["definitions"; "P"; "properties"; "q"]%string) = Ok (VObj h fs ints) /\ sget (lit "$ref") fs = Some (VStr (lit "http://h/s.json#/definitions/Q")).
Proof.
  do 5 eexists. split; [vm_compute; reflexivity|]. split; [vm_compute; reflexivity|]. split; [vm_compute; reflexivity|]. vm_compute. reflexivity.
Qed.
Example c51_ex : exists v, load_obj web2 (fun _ _ => @Err unit KeyError) (lit "http://h/s.json") None = Ok (New v, lit "2.0").
Proof. eexists. vm_compute. reflexivity. Qed.
