(** C55: loading 1.2 documents. *)
From Coq Require Import Lia.
From Verif Require Import PyBase PyFacts PyJson M_Url M_SpecVal M_Parse M_SpecTree S_Parse S_SpecTree S_Typed S_Validate P_SpecBase P_Validate T_SpecTree M_OldParse S_OldParse P_OldParse.
Close Scope Q_scope.

(** A listing that loads gives a resource list that says what it says, with the resources it
    names, each from the document of that name next to it. *)
Theorem c55_listing : forall fetch root_url d v, wf (JObj d) -> (forall u doc, fetch u = Ok doc -> wf doc) ->
  parse_listing fetch root_url (JObj d) = Ok v -> says_listing fetch root_url d v.
Proof. intros. now apply listing_says. Qed.
(** It loads exactly if there is something it could say. *)
Theorem c55_listing_loads : forall fetch root_url d, wf (JObj d) -> (forall u doc, fetch u = Ok doc -> wf doc) ->
  (exists v, parse_listing fetch root_url (JObj d) = Ok v) <-> exists v, says_listing fetch root_url d v.
Proof.
  intros fetch root_url d W F. split; intros (v & E).
  - exists v. now apply listing_says.
  - now apply (listing_works fetch F root_url d v).
Qed.
(** The same for the objects in the documents. *)
Theorem c55_object : forall c pl j v, c <> OResourceList -> wf j -> o_parse c pl j = Ok v -> says c j v.
Proof. intros c pl j v N W E. apply (parsef_made 4 c pl j v N W E). Qed.
Theorem c55_object_loads : forall c pl j, c <> OResourceList -> wf j -> (exists v, o_parse c pl j = Ok v) <-> exists v, says c j v.
Proof.
  intros c pl j N W. split; intros (v & E).
  - exists v. now apply (c55_object c pl).
  - apply (parsef_works 4 c pl j v); [split; [destruct c; cbn; lia|exact N]|exact W|exact E].
Qed.
(** Each operation of a resource is found under its nickname, with the path of its API, and
    nothing else is. *)
Lemma resource_ops pl d r : wf (JObj d) -> o_parse OResource pl (JObj d) = Ok r ->
  exists h fs ints ops apis l, r = VObj h fs ints /\ sget (lit "apis") fs = Some (VDict ops) /\ listed (sget (lit "apis") d) apis /\ api_operations apis l /\
    Forall2 (fun pj no => says OOperation (snd pj) (snd no) /\ entry (snd pj) (lit "nickname") = Some (JStr (fst no)) /\ has_path (snd no) (fst pj)) l ops /\ NoDup (map fst ops).
Proof.
  intros W E. apply c55_object in E; [|discriminate|exact W]. inversion E as [|? ? h fs ints C H]; subst. destruct (H (lit "apis") JNull eq_refl) as (x & X & SF).
  inversion SF as [? ? ? ? T _|? ? ? D _|? ? ? ? D _|? ? ? ? ? ? ? _ N _|? ? apis l ops LA AO FO ND]; subst; [discriminate T|elim N; auto|]. exists h, fs, ints, ops, apis, l. auto 10.
Qed.
Lemma ops_unique apis l m : api_operations apis l -> api_operations apis m -> l = m.
Proof. intro A. revert m. induction A as [|d ops apis l L A IH]; intros m B; inversion B as [|? ? ? ? L' B']; subst; [reflexivity|]. now rewrite (listed_unique _ _ _ L L'), (IH _ B'). Qed.
Theorem c55_operations : forall pl d r apis l, wf (JObj d) -> o_parse OResource pl (JObj d) = Ok r ->
  listed (sget (lit "apis") d) apis -> api_operations apis l ->
  exists h fs ints ops, r = VObj h fs ints /\ sget (lit "apis") fs = Some (VDict ops) /\
    (forall p op, In (p, op) l -> exists n o, entry op (lit "nickname") = Some (JStr n) /\ sget n ops = Some o /\ says OOperation op o /\ has_path o p) /\
    (forall n o, sget n ops = Some o -> exists p op, In (p, op) l /\ entry op (lit "nickname") = Some (JStr n) /\ says OOperation op o /\ has_path o p).
Proof.
  intros pl d r apis l W E L A. destruct (resource_ops pl d r W E) as (h & fs & ints & ops & apis' & l' & -> & G & L' & A' & F & ND). rewrite <- (listed_unique _ _ _ L L') in A'. rewrite <- (ops_unique _ _ _ A A') in F.
  exists h, fs, ints, ops. split; [reflexivity|]. split; [exact G|]. split.
  - intros p op I. destruct (Forall2_In_l _ _ _ _ F I) as ([n o] & IO & S & N & P). cbn [fst snd] in *. exists n, o. split; [exact N|]. split; [now apply In_sget|auto].
  - intros n o IO. apply sget_In in IO. destruct (Forall2_In_r _ _ _ _ F IO) as ([p op] & I & S & N & P). cbn [fst snd] in *. exists p, op. auto.
Qed.
(** Two operations of a resource do not share a nickname. *)
Theorem c55_duplicate : forall pl d apis l i j p op p' op' n, wf (JObj d) -> listed (sget (lit "apis") d) apis -> api_operations apis l ->
  i <> j -> nth_error l i = Some (p, op) -> nth_error l j = Some (p', op') ->
  entry op (lit "nickname") = Some (JStr n) -> entry op' (lit "nickname") = Some (JStr n) ->
  forall r, o_parse OResource pl (JObj d) <> Ok r.
Proof.
  intros pl d apis l i j p op p' op' n W L A N I J E E' r R. destruct (resource_ops pl d r W R) as (h & fs & ints & ops & apis' & l' & -> & G & L' & A' & F & ND).
  rewrite <- (listed_unique _ _ _ L L') in A'. rewrite <- (ops_unique _ _ _ A A') in F.
  destruct (Forall2_nth _ _ _ _ _ F I) as ([m o] & X & _ & M & _). destruct (Forall2_nth _ _ _ _ _ F J) as ([m' o'] & X' & _ & M' & _). cbn [fst snd] in *.
  assert (m = n) as -> by congruence. assert (m' = n) as -> by congruence. apply N. rewrite NoDup_nth_error in ND. apply ND.
  - rewrite map_length. apply nth_error_Some. congruence.
  - rewrite (map_nth_error fst i ops X), (map_nth_error fst j ops X'). reflexivity.
Qed.
(** What was loaded is a proper value, and every object in it but the list itself is held by
    an object that may hold it there, and has that one for its parent.  Only resources and
    items have none. *)
Theorem c55_shape : forall fetch root_url d v, wf (JObj d) -> (forall u doc, fetch u = Ok doc -> wf doc) ->
  parse_listing fetch root_url (JObj d) = Ok v -> wfv v /\ of_class OResourceList v /\ old_value v.
Proof. intros fetch root_url d v W F E. destruct (listing_ok fetch root_url d v W F E) as (paths & base & apis & ks & fs & ints & _ & _ & _ & -> & _ & _ & WV & OV). split; [exact WV|]. split; [|exact OV]. do 3 eexists. split; reflexivity. Qed.
Theorem c55_parents : forall fetch root_url d v ts o, wf (JObj d) -> (forall u doc, fetch u = Ok doc -> wf doc) ->
  parse_listing fetch root_url (JObj d) = Ok v -> reach [] v ts o -> is_obj o -> ts <> [] ->
  exists ts0 h fs ints n ts1 cp ct cc x, ts = ts0 ++ n :: ts1 /\ reach [] v ts0 (VObj h fs ints) /\ h_cls h = COld cp /\
    sget n fs = Some x /\ inside x ts1 o /\ sget n (o_holds cp) = Some (ct, cc) /\ of_class cc o /\
    (has_parent cp n -> parent_of o = Some (h_place h)).
Proof.
  intros fetch root_url d v ts o W F E R O N. destruct (c55_shape fetch root_url d v W F E) as (WV & (h & fs & ints & -> & C) & OV).
  destruct (holder _ _ _ R WV OV O) as [I|(ts0 & p & n & ts1 & -> & h' & fs' & ints' & cp & ct & cc & x & -> & C' & R' & G & I & H & OC & _ & P)].
  - inversion I; subst. now elim N.
  - exists ts0, h', fs', ints', n, ts1, cp, ct, cc, x. auto 12.
Qed.
(** Parsing the children of an object is parsing. *)
Theorem c55_nested : forall c pl j, c <> OResourceList -> o_parse c pl j = o_parse_step o_parse c pl j.
Proof. exact o_parse_eq. Qed.

Print Assumptions c55_listing.
Print Assumptions c55_listing_loads.
Print Assumptions c55_object.
Print Assumptions c55_object_loads.
Print Assumptions c55_operations.
Print Assumptions c55_duplicate.
Print Assumptions c55_shape.
Print Assumptions c55_parents.
Print Assumptions c55_nested.

(** A listing with a resource *)
Definition op_doc (nick : string) : json := JObj [(lit "method", JStr (lit "GET")); (lit "nickname", JStr (lit nick)); (lit "type", JStr (lit "void"));
  (lit "parameters", JList [JObj [(lit "name", JStr (lit "id")); (lit "paramType", JStr (lit "path")); (lit "type", JStr (lit "array")); (lit "items", JObj [(lit "type", JStr (lit "string"))])]])].
Definition pet_doc (b : string) : json := JObj [(lit "swaggerVersion", JStr (lit "1.2")); (lit "basePath", JStr (lit "http://h/api"));
  (lit "apis", JList [JObj [(lit "path", JStr (lit "/pet")); (lit "operations", JList [op_doc "a"])];
                      JObj [(lit "path", JStr (lit "/pet/{id}")); (lit "operations", JList [op_doc b])]])].
Definition list_doc (p : string) : json := JObj [(lit "swaggerVersion", JStr (lit "1.2")); (lit "apis", JList [JObj [(lit "path", JStr (lit p))]]);
  (lit "info", JObj [(lit "title", JStr (lit "t"))])].
Definition fetch1 (b : string) (u : str) : res json := if str_eqb u (lit "http://h/api-docs/pet") then Ok (pet_doc b) else Err OSError.
Definition loading (b p : string) : res val := parse_listing (fetch1 b) (lit "http://h/api-docs") (list_doc p).
Definition follow12 (ts : list string) (r : res val) : res val := do v <- r; resolve v (map lit ts).
Example c55_ex :
  (do o <- follow12 ["apis"; "pet"; "apis"; "b"]%string (loading "b" "/pet"); follow12 ["nickname"]%string (Ok o)) = Ok (VStr (lit "b")) /\
  follow12 ["apis"; "pet"; "apis"; "b"; "path"]%string (loading "b" "/pet") = Ok (VStr (lit "/pet/{id}")) /\
  follow12 ["apis"; "pet"; "apis"; "a"; "path"]%string (loading "b" "/pet") = Ok (VStr (lit "/pet")) /\
  follow12 ["apis"; "pet"; "apis"; "a"; "parameters"; "0"; "items"; "type"]%string (loading "b" "/pet") = Ok (VStr (lit "string")) /\
  loading "a" "/pet" = Err ValueError /\ loading "b" "pet" = Err OSError.
Proof. repeat split; vm_compute; reflexivity. Qed.
Example c55_wf : wf (list_doc "/pet") /\ forall u doc, fetch1 "b" u = Ok doc -> wf doc.
Proof.
  split; [unfold list_doc; wfj|]. intros u doc. unfold fetch1. destruct (str_eqb _ _); intro E; [|discriminate E]. injection E as <-. unfold pet_doc, op_doc. wfj.
Qed.
