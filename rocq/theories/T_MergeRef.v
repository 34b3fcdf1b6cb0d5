(** C40: following references between parameters, responses and path items. *)
From Coq Require Import Lia.
From Verif Require Import PyBase PyFacts PyJson P_Op M_SpecVal M_Parse M_SpecTree M_Merge M_MergeRef S_Parse S_SpecTree S_Merge S_MergeRef P_SpecBase P_Parse P_SpecTree P_Compare P_Merge P_MergeShape P_MergeRef T_Parse T_Merge.
Close Scope Q_scope.

Lemma chain_class look c : forall seen o l, chain look c seen o l -> forall x, In x l -> x = o \/ (is_class c x /\ exists s, look s = Ok x).
Proof.
  intros seen o l H. induction H as [seen o NO|seen o s h fs ints R LK C I|seen o s h fs ints l R LK C NI CH IH]; intros x [<-|X]; auto; try now destruct X.
  right. destruct (IH x X) as [->|Y]; [|exact Y]. split; [exists h, fs, ints; auto|eauto].
Qed.
Lemma chain_proper look c obj pl0 l : world look c obj -> chain look c [pl0] obj l -> forall x, In x l -> proper c x.
Proof. intros [P W] CH x X. destruct (chain_class _ _ _ _ _ CH x X) as [->|(C & s & LK)]; eauto. Qed.
Lemma refs_all look fuel pl c obj pl0 l r : world look c obj -> place_of obj = Some pl0 -> chain look c [pl0] obj l -> merge_refs look fuel pl obj = Ok r ->
  exists f, fresh c pl = Ok f /\ merge_all f l = Ok r.
Proof.
  intros [[P _] _] PL CH E. apply merge_refs_ok in E as (h & fs & ints & m & -> & CH' & M & _). apply bind_ok in M as (f & F & M).
  injection PL as <-. pose proof (shaped_obj _ _ P) as (h' & fs' & ints' & X & <-). injection X as <- <- <-.
  rewrite (chain_fun _ _ _ _ _ CH _ CH'). eauto.
Qed.
Lemma fresh_proper c pl f : fresh c pl = Ok f -> proper c f /\ place_of f = Some pl /\ forall n df, sget n (t_fields c) = Some df -> field_of f n = Some (inject df).
Proof.
  rewrite fresh_eq. intro E. injection E as <-. split; [|split].
  - split; [apply fresh_shaped|]. cbn [no_containers]. intros n x G. apply fresh_none in G. subst x. intros [[l L]|[d D]]; discriminate.
  - reflexivity.
  - intros n df T. cbn [field_of]. now rewrite sget_map, T.
Qed.

(** When all works out the objects met are a chain, *)
Theorem c40_chain : forall look fuel pl obj r, merge_refs look fuel pl obj = Ok r ->
  exists h fs ints l, obj = VObj h fs ints /\ chain look (h_cls h) [h_place h] obj (obj :: l).
Proof. intros look fuel pl obj r E. apply merge_refs_ok in E as (h & fs & ints & l & -> & CH & _). eauto 8. Qed.

(** and the result is a new object of the class, *)
Theorem c40_made : forall look fuel pl c obj r, world look c obj -> merge_refs look fuel pl obj = Ok r -> shaped (Of c) r /\ place_of r = Some pl.
Proof.
  intros look fuel pl c obj r W E. pose proof W as [[SO _] _]. pose proof (shaped_obj _ _ SO) as (h & fs & ints & -> & C).
  destruct (c40_chain _ _ _ _ _ E) as (h' & fs' & ints' & l & X & CH). injection X as <- <- <-. rewrite C in CH.
  destruct (refs_all _ _ _ c _ (h_place h) _ _ W eq_refl CH E) as (f & F & M). destruct (fresh_proper _ _ _ F) as ((SF & NF) & PF & _).
  assert (HP : forall x, In x (VObj h fs ints :: l) -> proper c x) by (eapply chain_proper; eauto).
  remember (VObj h fs ints :: l) as m eqn:MM. clear - SF NF PF M HP. revert f SF NF PF M. induction m as [|x m IH]; intros f SF NF PF M; cbn [merge_all] in M.
  - injection M as <-. auto.
  - apply bind_ok in M as (g & G & M). destruct (HP x (or_introl eq_refl)) as [SX NX]. destruct (merge_field _ _ _ _ SF SX (containers_dicts _ NF) G) as (PG & SG & _).
    apply (IH (fun y I => HP y (or_intror I)) g); auto; [|now rewrite PG]. exact (no_containers_merge _ _ _ _ SF SX NF NX G).
Qed.

Section Fields.
  Context (look : str -> res val) (fuel : nat) (pl pl0 : place) (c : cls) (obj r : val) (l : list val).
  Context (W : world look c obj) (P : place_of obj = Some pl0) (CH : chain look c [pl0] obj l) (E : merge_refs look fuel pl obj = Ok r).
  Context (n : str) (df : json) (T : sget n (t_fields c) = Some df).

  Lemma every_field (Q : val -> Prop) : (forall o v, In o l -> field_of o n = Some v -> Q v) -> every c n Q l.
  Proof.
    intros H o I. destruct (chain_proper _ _ _ _ _ W CH o I) as [S N]. split; [exact S|]. split; [now apply containers_dicts|].
    pose proof (shaped_obj _ _ S) as (h & fs & ints & -> & C). inversion S as [| |? ? ? K _ _ _]; subst. cbn [field_of].
    assert (X : exists x, sget n fs = Some x) by (apply (sget_fields_all (t_fields (h_cls h))); eauto). destruct X as (x & X). exists x. split; [exact X|]. eapply H; eauto.
  Qed.
  (** its fields being taken from the first object along the chain that sets them: *)
  Theorem c40_first : sget n (t_child c) = None -> (forall o v, In o l -> field_of o n = Some v -> ~ container v) ->
    exists rv, field_of r n = Some rv /\ (first_set n df l rv \/ never_set n df l /\ rv = inject df).
  Proof.
    intros TC H. destruct (refs_all _ _ _ _ _ _ _ _ W P CH E) as (f & F & M). destruct (fresh_proper _ _ _ F) as ((SF & NF) & PF & FF).
    eapply (scalars c n df T pl); eauto; [now apply containers_dicts|now apply every_field].
  Qed.
  (** objects are copied from there, *)
  Theorem c40_objects : forall ct cc, sget n (t_child c) = Some (ct, cc) ->
    exists rv, field_of r n = Some rv /\
      ((exists x w, first_set n df l x /\ copied_in ct cc (pl ++ [n]) x w /\ reparent w rv) \/ never_set n df l /\ rv = inject df).
  Proof.
    intros ct cc TC. destruct (refs_all _ _ _ _ _ _ _ _ W P CH E) as (f & F & M). destruct (fresh_proper _ _ _ F) as ((SF & NF) & PF & FF).
    eapply (children_first c n df T ct cc pl); eauto; [now apply containers_dicts|now apply every_field].
  Qed.
  (** of dicts each key is taken from the first that has it, *)
  Theorem c40_dicts : sget n (t_child c) = None -> empty_value (inject df) ->
    (forall o v, In o l -> field_of o n = Some v -> v = inject df \/ exists d, v = VDict d) ->
    exists rv, field_of r n = Some rv /\ (rv = inject df \/ exists d, rv = VDict d) /\ forall k, first_key n k l (key_in k rv).
  Proof.
    intros TC EM H. destruct (refs_all _ _ _ _ _ _ _ _ W P CH E) as (f & F & M). destruct (fresh_proper _ _ _ F) as ((SF & NF) & PF & FF).
    eapply (dicts c n df T pl); eauto; [now apply containers_dicts|now apply every_field].
  Qed.
  (** and of lists all elements are gathered. *)
  Theorem c40_lists : sget n (t_child c) = None -> empty_value (inject df) ->
    (forall o v, In o l -> field_of o n = Some v -> v = inject df \/ exists m, v = VList m) ->
    exists rv, field_of r n = Some rv /\ (rv = inject df \/ exists m, rv = VList m) /\
      (forall x, elem_of rv x -> exists o v, In o l /\ field_of o n = Some v /\ elem_of v x) /\
      (forall o v x, In o l -> field_of o n = Some v -> elem_of v x -> exists y, elem_of rv y /\ (x = y \/ equal_elems x y)).
  Proof.
    intros TC EM H. destruct (refs_all _ _ _ _ _ _ _ _ W P CH E) as (f & F & M). destruct (fresh_proper _ _ _ F) as ((SF & NF) & PF & FF).
    eapply (lists c n df T pl); eauto; [now apply containers_dicts|now apply every_field].
  Qed.
End Fields.

Lemma all_ok look pl c obj pl0 l : world look c obj -> (forall x, In x l -> proper c x /\ simple_formats x) -> compatible c l ->
  place_of obj = Some pl0 -> exists f r, fresh c pl = Ok f /\ merge_all f l = Ok r.
Proof.
  intros W HP CP PL. destruct (fresh c pl) as [f|e] eqn:F; [|rewrite fresh_eq in F; discriminate]. destruct (fresh_proper _ _ _ F) as (PF & _ & FF).
  destruct (merge_all_Ok c l f PF) as (out & O); [auto| |eauto]. intros n df T TC. destruct (CP n df T TC) as (k & K). exists k. split; [|exact K].
  exists (inject df). split; [now apply FF|now left].
Qed.
(** It does work out when there is a chain and the fields along it go together; *)
Theorem c40_possible : forall look fuel pl c obj pl0 l, world look c obj -> place_of obj = Some pl0 -> chain look c [pl0] obj l ->
  compatible c l -> (forall x, In x l -> simple_formats x) -> length l <= fuel -> exists r, merge_refs look fuel pl obj = Ok r.
Proof.
  intros look fuel pl c obj pl0 l W PL CH CP SF LE. pose proof W as [[SO _] _]. pose proof (shaped_obj _ _ SO) as (h & fs & ints & -> & C). injection PL as <-.
  destruct (all_ok look pl c (VObj h fs ints) (h_place h) l W) as (f & r & F & M); auto.
  { intros x I. split; [eapply chain_proper; eauto|auto]. }
  unfold merge_refs. rewrite C, F. cbn [bind]. assert (exists m, l = VObj h fs ints :: m) as (m & ->) by (inversion CH; eauto).
  cbn [merge_all] in M. apply bind_ok in M as (g & G & M). rewrite G. cbn [bind]. destruct (chain_ref _ _ _ _ _ CH) as (rf & RF). rewrite RF. cbn [bind].
  exists r. eapply follow_chain; eauto.
Qed.
(** a reference to another kind of thing gives a [TypeError], a failing lookup its exception; *)
Theorem c40_broken : forall look fuel pl c obj pl0 l e, world look c obj -> place_of obj = Some pl0 -> broken look c [pl0] obj l e ->
  compatible c l -> (forall x, In x l -> simple_formats x) -> length l <= fuel -> merge_refs look fuel pl obj = Err e.
Proof.
  intros look fuel pl c obj pl0 l e W PL CH CP SF LE. pose proof W as [[SO _] WL]. pose proof (shaped_obj _ _ SO) as (h & fs & ints & -> & C). injection PL as <-.
  destruct (all_ok look pl c (VObj h fs ints) (h_place h) l W) as (f & r & F & M); auto.
  { intros x I. split; [|auto]. assert (X : forall seen o l e, broken look c seen o l e -> forall x, In x l -> x = o \/ (is_class c x /\ exists s, look s = Ok x)).
    { clear. intros seen o l e H. induction H as [seen o s x R LK C|seen o s e R LK|seen o s h fs ints l e R LK C NI CH IH]; intros y [<-|Y]; auto; try now destruct Y.
      right. destruct (IH y Y) as [->|Z]; [|exact Z]. split; [exists h, fs, ints; auto|eauto]. }
    destruct (X _ _ _ _ CH x I) as [->|(K & s & LK)]; [apply W|eauto]. }
  unfold merge_refs. rewrite C, F. cbn [bind]. assert (exists m, l = VObj h fs ints :: m) as (m & ->) by (inversion CH; eauto).
  cbn [merge_all] in M. apply bind_ok in M as (g & G & M). rewrite G. cbn [bind]. destruct (broken_ref _ _ _ _ _ _ CH) as (rf & RF). rewrite RF. cbn [bind].
  eapply follow_broken; eauto.
Qed.
(** and however the references go, the search ends once all places have been seen. *)
Theorem c40_terminates : forall look fuel pl h fs ints L, In (h_place h) L ->
  (forall s k es jnts, look s = Ok (VObj k es jnts) -> h_cls k = h_cls h -> In (h_place k) L) -> (forall s, look s <> Err OutOfFuel) ->
  length L <= fuel -> merge_refs look fuel pl (VObj h fs ints) <> Err OutOfFuel.
Proof. intros look fuel pl h fs ints L I HL LF LE. exact (nofuel_merge_refs look fuel pl h fs ints L HL I LF LE). Qed.

(** The scanner puts the result into the internal field "final" of parameters and responses
    and changes nothing else, *)
Theorem c40_final : forall look fuel pl h fs ints v, h_cls h = CParameter \/ h_cls h = CResponse -> merge_visit look fuel pl (VObj h fs ints) = Ok v ->
  exists r h' fs' ints', merge_refs look fuel pl (VObj h fs ints) = Ok r /\ v = VObj h' fs' ints' /\ h_place h' = h_place h /\ h_parent h' = h_parent h /\ h_cls h' = h_cls h /\
    (map fst fs = map fst (t_fields (h_cls h)) -> map fst ints = map fst (t_internal (h_cls h)) ->
     fs' = fs /\ forall n, sget n ints' = if str_eqb n "final"%string then Some r else sget n ints).
Proof.
  intros look fuel pl h fs ints v C E. cbn [merge_visit] in E.
  assert (E' : (do f <- merge_refs look fuel pl (VObj h fs ints); update_field "final"%string f (VObj h fs ints)) = Ok v) by (destruct C as [C|C]; rewrite C in E; exact E).
  apply bind_ok in E' as (r & R & U). unfold update_field in U.
  destruct (smem (lit "final") fs) eqn:F.
  - injection U as <-. exists r. eexists. eexists. eexists. split; [exact R|]. split; [reflexivity|]. do 3 (split; [reflexivity|]). intros K _. exfalso.
    apply smem_In in F. rewrite K in F. destruct C as [C|C]; rewrite C in F; vm_compute in F; intuition discriminate.
  - destruct (smem (lit "final") ints) eqn:I; [|discriminate U]. injection U as <-. exists r. eexists. eexists. eexists. split; [exact R|]. split; [reflexivity|].
    do 3 (split; [reflexivity|]). intros _ _. split; [reflexivity|]. intro n. destruct (str_eqb n "final"%string) eqn:N.
    + apply str_eqb_eq in N. subst n. apply sget_sset_same.
    + apply sget_sset_other. intros ->. rewrite str_eqb_refl in N. discriminate.
Qed.
(** while a path item itself gets what it does not set from the first path item along the
    chain that sets it; *)
Theorem c40_path_item : forall look fuel pl h fs ints l v, h_cls h = CPathItem -> world look CPathItem (VObj h fs ints) ->
  chain look CPathItem [h_place h] (VObj h fs ints) l -> merge_visit look fuel pl (VObj h fs ints) = Ok v ->
  shaped (Of CPathItem) v /\ place_of v = Some (h_place h) /\
  forall n df ct cc, sget n (t_fields CPathItem) = Some df -> sget n (t_child CPathItem) = Some (ct, cc) ->
    exists own rv, sget n fs = Some own /\ field_of v n = Some rv /\
      ((~ equals_default own df /\ reparent own rv) \/
       (equals_default own df /\ exists x w w1 w2, first_set n df l x /\ copied_in ct cc (pl ++ [n]) x w /\ reparent w w1 /\
          copied_in ct cc (h_place h ++ [n]) w1 w2 /\ reparent w2 rv) \/
       (never_set n df l /\ reparent own rv)).
Proof.
  intros look fuel pl h fs ints l v C W CH E. cbn [merge_visit] in E. rewrite C in E. apply bind_ok in E as (r & R & M).
  destruct (c40_made _ _ _ _ _ _ W R) as [SR PR]. pose proof W as [[SO NO] _].
  destruct (merge_field _ _ _ _ SO SR (containers_dicts _ NO) M) as (PV & SV & _ & MF). split; [exact SV|]. split; [exact PV|].
  intros n df ct cc T TC. destruct (MF n df (h_place h) T eq_refl) as (own & fv & rv & F1 & F2 & F3 & MG). exists own, rv. split; [exact F1|]. split; [exact F3|].
  destruct (c40_objects look fuel pl (h_place h) CPathItem (VObj h fs ints) r l W eq_refl CH R n df T ct cc TC) as (fv' & F2' & K). rewrite F2 in F2'. injection F2' as <-.
  pose proof (fields_default _ _ _ T) as SD.
  inversion MG as [? ? ? ? ? ? ? ? X|? ? ? ? ? ? ? ? D RP RE| | | | |? ? ? ? ? ? ? ? ct' cc' D _ TC' ND RP|? ? ? ? ? ? ? w ? ct' cc' D _ TC' DD CP RP]; subst; try congruence.
  - destruct X.
  - destruct K as [(x & w & FS & CP & RW)|[NS EQ]]; [|right; right; auto]. exfalso. destruct FS as (l1 & o & l2 & EL & FO & ND & _).
    assert (I : In o l) by (rewrite EL; apply in_elt). destruct (chain_proper _ _ _ _ _ W CH o I) as [So _]. pose proof (shaped_obj _ _ So) as (k & es & jnts & -> & Ck).
    rewrite <- Ck in TC, So. pose proof (shaped_child _ _ _ _ _ _ _ _ So FO TC) as SI. pose proof (copied_default CPathItem n df T ct cc _ _ _ SI CP ND) as NW.
    apply NW. apply (reparent_default _ _ _ SD RW). exact D.
  - left. auto.
  - right. rewrite TC in TC'. injection TC' as <- <-. destruct K as [(x & w' & FS & CP' & RW)|[NS EQ]].
    + left. split; [exact DD|]. exists x, w', fv, w. auto 6.
    + exfalso. apply D. subst fv. now constructor.
Qed.
(** other objects stay as they are. *)
Theorem c40_others : forall look fuel pl h fs ints, ~ In (h_cls h) [CParameter; CResponse; CPathItem] ->
  merge_visit look fuel pl (VObj h fs ints) = Ok (VObj h fs ints).
Proof. intros look fuel pl h fs ints N. cbn [merge_visit]. destruct (h_cls h); try reflexivity; exfalso; apply N; cbn; auto. Qed.
Print Assumptions c40_chain.
Print Assumptions c40_made.
Print Assumptions c40_first.
Print Assumptions c40_objects.
Print Assumptions c40_dicts.
Print Assumptions c40_lists.
Print Assumptions c40_possible.
Print Assumptions c40_broken.
Print Assumptions c40_terminates.
Print Assumptions c40_final.
Print Assumptions c40_path_item.
Print Assumptions c40_others.

(** ** Examples *)
Lemma parse_internals c pl j h fs ints : parse (Of c) pl j = Ok (VObj h fs ints) -> ints = map (fun nd : str * json => (fst nd, VNone)) (t_internal c).
Proof.
  destruct j as [| | | | | |d]; try (rewrite parse_cls_eq; cbn [parse_cls]; discriminate).
  - rewrite parse_null. intro E. now injection E as _ _ <-.
  - intro E. apply parse_obj in E as (kids & fs' & _ & X & _). now injection X as _ _ <-.
Qed.
Definition sref (x : string) : json := JObj [(lit "$ref", s x)].
Definition doc_a : json := JObj [(lit "$ref", s "#/b"); (lit "name", s "a")].
Definition doc_b : json := JObj [(lit "$ref", s "#/c"); (lit "name", s "b"); (lit "in", s "query"); (lit "enum", JList [s "x"])].
Definition doc_c : json := JObj [(lit "$ref", s "#/b"); (lit "in", s "header"); (lit "type", s "array"); (lit "enum", JList [s "y"]);
  (lit "items", JObj [(lit "type", s "integer")])].
Definition at_ref (c : cls) (n : string) (j : json) : res val := parse (Of c) [lit n] j.
Definition look_ex (r : str) : res val :=
  if str_eqb r "#/b"%string then at_ref CParameter "b" doc_b else if str_eqb r "#/c"%string then at_ref CParameter "c" doc_c
  else if str_eqb r "#/r"%string then at_ref CResponse "r" (JObj []) else Err KeyError.
(** A cycle of references that is entered from outside. *)
Example c40_ex : exists a b c' r, at_ref CParameter "a" doc_a = Ok a /\ look_ex "#/b"%string = Ok b /\ look_ex "#/c"%string = Ok c' /\
  chain look_ex CParameter [[lit "a"]] a [a; b; c'] /\ merge_refs look_ex 3 [lit "f"] a = Ok r /\
  field_of r (lit "name") = Some (VStr (lit "a")) /\ field_of r (lit "in") = Some (VStr (lit "query")) /\ field_of r (lit "type") = Some (VStr (lit "array")) /\
  field_of r (lit "enum") = Some (VList [VStr (lit "x"); VStr (lit "y")]) /\
  exists i, field_of r (lit "items") = Some i /\ place_of i = Some [lit "f"; lit "items"] /\ field_of i (lit "type") = Some (VStr (lit "integer")).
Proof.
  eexists. eexists. eexists. eexists. split; [vm_compute; reflexivity|]. split; [vm_compute; reflexivity|]. split; [vm_compute; reflexivity|]. split.
  { eapply chain_next; [split; [|vm_compute; reflexivity]; discriminate|vm_compute; reflexivity|reflexivity|vm_compute; intuition discriminate|].
    eapply chain_next; [split; [|vm_compute; reflexivity]; discriminate|vm_compute; reflexivity|reflexivity|vm_compute; intuition discriminate|].
    eapply chain_again; [split; [|vm_compute; reflexivity]; discriminate|vm_compute; reflexivity|reflexivity|vm_compute; auto]. }
  split; [vm_compute; reflexivity|]. repeat (split; [vm_compute; reflexivity|]). eexists. do 2 (split; [vm_compute; reflexivity|]). vm_compute. reflexivity.
Qed.
(** The parsed objects are proper, so the theorems apply to them. *)
Example c40_ex_world : forall a, at_ref CParameter "a" doc_a = Ok a -> world look_ex CParameter a.
Proof.
  assert (PP : forall n j o, wf j -> at_ref CParameter n j = Ok o -> proper CParameter o).
  { intros n j o WJ E. split; [exact (proj1 (c37_parsed _ _ _ _ WJ E))|]. unfold at_ref in E. pose proof (proj1 (c37_parsed _ _ _ _ WJ E)) as S.
    pose proof (shaped_obj _ _ S) as (h & fs & ints & -> & C). cbn [no_containers]. intros m x G. apply parse_internals in E. rewrite E in G.
    apply fresh_none in G. subst x. intros [[l L]|[d D]]; discriminate. }
  intros a E. split; [eapply PP; [|exact E]; repeat constructor; cbn; intuition discriminate|]. intros r o L C. unfold look_ex in L.
  destruct (str_eqb r "#/b"%string); [eapply PP; [|exact L]; repeat constructor; cbn; intuition discriminate|].
  destruct (str_eqb r "#/c"%string); [eapply PP; [|exact L]; repeat constructor; cbn; intuition discriminate|].
  destruct (str_eqb r "#/r"%string); [|discriminate L]. exfalso. vm_compute in L. injection L as <-. destruct C as (h & fs & ints & X & K). injection X as <- _ _. discriminate K.
Qed.
(** A reference to a response in place of a parameter, and one to nothing. *)
Example c40_ex_broken : exists a b, at_ref CParameter "a" (sref "#/r") = Ok a /\ merge_refs look_ex 1 [lit "f"] a = Err TypeError /\ broken look_ex CParameter [[lit "a"]] a [a] TypeError /\
  at_ref CParameter "a" (sref "#/x") = Ok b /\ merge_refs look_ex 1 [lit "f"] b = Err KeyError.
Proof.
  eexists. eexists. split; [vm_compute; reflexivity|]. split; [vm_compute; reflexivity|]. split; [|split; [vm_compute; reflexivity|vm_compute; reflexivity]].
  eapply broken_class; [split; [|vm_compute; reflexivity]; discriminate|vm_compute; reflexivity|]. intros (h & fs & ints & X & K). injection X as <- _ _. discriminate K.
Qed.
(** A path item that takes an operation over from another one. *)
Definition path_b : json := JObj [(lit "get", JObj [(lit "operationId", s "g")]); (lit "put", JObj [(lit "operationId", s "p")])].
Definition path_a : json := JObj [(lit "$ref", s "#/b"); (lit "get", JObj [(lit "operationId", s "mine")])].
Example c40_ex_path : exists a v g p, at_ref CPathItem "a" path_a = Ok a /\ merge_visit (fun _ => at_ref CPathItem "b" path_b) 2 [lit "f"] a = Ok v /\
  field_of v (lit "get") = Some g /\ field_of v (lit "put") = Some p /\ field_of g (lit "operationId") = Some (VStr (lit "mine")) /\
  field_of p (lit "operationId") = Some (VStr (lit "p")) /\ parent_of p = Some [lit "a"].
Proof.
  eexists. eexists. eexists. eexists. split; [vm_compute; reflexivity|]. split; [vm_compute; reflexivity|].
  do 4 (split; [vm_compute; reflexivity|]). vm_compute. reflexivity.
Qed.
