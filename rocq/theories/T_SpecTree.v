(** C35 and C38: visiting and comparing objects. *)
From Coq Require Import Lia.
From Verif Require Import PyBase PyFacts PyJson M_JsonPtr S_JsonPtr P_JsonPtr M_SpecVal M_Parse M_SpecTree S_Parse S_SpecTree P_SpecBase P_Parse P_SpecTree P_Order P_Compare T_Parse.
Close Scope Q_scope.

(** ** C35 *)
Lemma traverse_ok root leaves : wfv root -> is_obj root -> exists r, traverse root leaves = Ok r /\
  (forall p o, In (p, o) r <-> exists ts, p = rfc_pointer (lit "#") ts /\ reach leaves root ts o /\ is_obj o) /\
  NoDup (map fst r) /\
  (forall r1 p o r2 q o', r = r1 ++ (p, o) :: r2 -> In (q, o') r1 -> forall ts, ts <> [] -> q <> rfc_pointer p ts).
Proof.
  intros W O. destruct (walk_ok leaves (count root) [(lit "#", root)]) as (r & R & I & N & P).
  - unfold total. cbn. lia.
  - intros p o [E|[]]. injection E as <- <-. split; [discriminate|auto].
  - cbn. split; [intros b []|exact Logic.I].
  - exists r. split; [exact R|]. split; [|auto]. intros p o. rewrite I. split.
    + intros (q & x & ts & [E|[]] & X). injection E as <- <-. eauto.
    + intros (ts & X). exists (lit "#"), root, ts. split; [now left|exact X].
Qed.
(** The traversal ends, and visits exactly the objects inside the root (but not below the
    classes in [leaves]), each with the JSON pointer of the way to it. *)
Theorem c35_visits : forall root leaves, wfv root -> is_obj root ->
  exists l, traverse root leaves = Ok l /\
    forall p o, In (p, o) l <-> exists ts, p = rfc_pointer (lit "#") ts /\ reach leaves root ts o /\ is_obj o.
Proof. intros root leaves W O. destruct (traverse_ok root leaves W O) as (l & E & I & _). eauto. Qed.
(** No pointer occurs twice. *)
Theorem c35_once : forall root leaves l, wfv root -> is_obj root -> traverse root leaves = Ok l -> NoDup (map fst l).
Proof. intros root leaves l W O E. destruct (traverse_ok root leaves W O) as (l' & E' & _ & N & _). congruence. Qed.
(** Splitting the pointer and resolving the tokens after "#" leads to the object visited. *)
Theorem c35_resolves : forall root leaves l p o, wfv root -> is_obj root -> traverse root leaves = Ok l -> In (p, o) l ->
  exists ts, jp_split (Some p) = lit "#" :: ts /\ resolve root ts = Ok o.
Proof.
  intros root leaves l p o W O E I. destruct (traverse_ok root leaves W O) as (l' & E' & V & _). rewrite E in E'. injection E' as <-.
  apply V in I as (ts & -> & R & _). exists ts. split; [apply split_hash|]. eapply resolve_reach; eauto.
Qed.
(** An object is visited before everything inside it. *)
Theorem c35_outside_first : forall root leaves l l1 l2 p o q o' ts, wfv root -> is_obj root -> traverse root leaves = Ok l ->
  l = l1 ++ (p, o) :: l2 -> In (q, o') l -> q = rfc_pointer p ts -> ts <> [] -> In (q, o') l2.
Proof.
  intros root leaves l l1 l2 p o q o' ts W O E -> I Q N. destruct (traverse_ok root leaves W O) as (l' & E' & _ & _ & P). rewrite E in E'. injection E' as <-.
  apply in_app_or in I as [I|[I|I]].
  - exfalso. eapply P; eauto.
  - exfalso. injection I as <- <-. pose proof (pointer_longer p ts N) as L. rewrite <- Q in L. lia.
  - exact I.
Qed.
(** The traversal as a list of visits *)
Lemma traverse_visits root leaves l : wfv root -> is_obj root -> traverse root leaves = Ok l -> good (lit "#", root) /\ visits leaves [(lit "#", root)] l.
Proof.
  intros W O E. assert (G : good (lit "#", root)) by (split; [discriminate|auto]). split; [exact G|]. apply (walk_visits leaves (count root)); [constructor; [exact G|constructor]|exact E].
Qed.
(** What is inside an object is visited right after it: nothing from outside comes between. *)
Theorem c35_depth_first : forall root leaves l l1 p o l2, wfv root -> is_obj root -> traverse root leaves = Ok l -> l = l1 ++ (p, o) :: l2 ->
  exists a b, l2 = a ++ b /\
    (forall q x, In (q, x) a <-> exists ts, ts <> [] /\ q = rfc_pointer p ts /\ reach leaves o ts x /\ is_obj x) /\
    (forall q x ts, In (q, x) b -> q <> rfc_pointer p ts).
Proof.
  intros root leaves l l1 p o l2 W O E EL. destruct (traverse_visits _ _ _ W O E) as (G & V). pose proof (c35_once _ _ _ W O E) as ND.
  destruct (visits_block _ _ _ V (Forall_cons _ G (Forall_nil _)) _ _ _ _ EL) as (a & b & -> & GO & A). pose proof (visits_In _ _ _ A (pushed_good _ _ _ GO)) as IN. pose proof GO as (P & WO & OO). cbn [fst snd] in *.
  assert (IA : forall q x, In (q, x) a <-> exists ts, ts <> [] /\ q = rfc_pointer p ts /\ reach leaves o ts x /\ is_obj x).
  { intros q x. rewrite IN. split.
    - intros (p' & o' & ts & I & -> & R & OX). apply in_rev, pushed_In in I as (LF & us & I & ->). destruct (child_list_wf _ _ _ WO I) as (_ & _ & NU). exists (us ++ ts). split; [now destruct us|]. split; [now rewrite pointer_app|]. split; [|exact OX]. apply (reach_children leaves o _ _ WO OO OX). right. split; [exact LF|]. eauto 6.
    - intros (ts & NT & -> & R & OX). apply (reach_children leaves o _ _ WO OO OX) in R as [(-> & _)|(LF & us & y & vs & I & -> & R)]; [congruence|]. exists (rfc_pointer p us), y, vs. split; [apply -> in_rev; apply pushed_In; eauto|]. split; [now rewrite pointer_app|auto]. }
  exists a, b. split; [reflexivity|]. split; [exact IA|]. intros q x ts I ->.
  destruct (traverse_ok root leaves W O) as (l' & E' & VI & _). rewrite E in E'. injection E' as <-.
  assert (RO : In (p, o) l) by (rewrite EL; apply in_or_app; right; now left). apply VI in RO as (to & -> & RO & _).
  assert (RX : In (rfc_pointer (rfc_pointer (lit "#") to) ts, x) l) by (rewrite EL; apply in_or_app; right; right; apply in_or_app; now right). apply VI in RX as (tx & EQ & RX & OX). rewrite <- pointer_app in EQ. apply pointer_inj in EQ as <-; [|discriminate].
  assert (RT : reach leaves o ts x).
  { clear - RO RX. revert RX. induction RO as [v|h fs ints n v us o L' G' R' IH|l i v us o N R' IH|d k v us o G' R' IH]; cbn [app]; intro RX; [exact RX|..]; apply IH; inversion RX; subst; try congruence.
    match goal with H : str_of_nat _ = str_of_nat _ |- _ => apply str_of_nat_inj in H; subst end. congruence. }
  rewrite EL, map_app in ND. cbn [map fst] in ND. rewrite map_app in ND. apply in_map with (f := fst) in I. cbn [fst] in I. destruct ts as [|t ts].
  - rewrite pointer_nil in I. apply NoDup_remove_2 in ND. apply ND. apply in_or_app. right. apply in_or_app. now right.
  - assert (J : In (rfc_pointer (rfc_pointer (lit "#") to) (t :: ts), x) a) by (apply IA; exists (t :: ts); split; [discriminate|auto]). apply (in_map fst) in J. cbn [fst] in J.
    apply NoDup_remove_1 in ND. rewrite app_assoc in ND. apply (NoDup_app_disjoint _ _ ND (rfc_pointer (rfc_pointer (lit "#") to) (t :: ts))); [apply in_or_app; now right|exact I].
Qed.
(** Of two objects, neither inside the other, the one that comes later in the document is
    visited first. *)
Theorem c35_last_first : forall root leaves l ts x us y, wfv root -> is_obj root -> traverse root leaves = Ok l ->
  reach leaves root ts x -> is_obj x -> reach leaves root us y -> is_obj y -> earlier root ts us ->
  exists l1 l2, l = l1 ++ (rfc_pointer (lit "#") us, y) :: l2 /\ In (rfc_pointer (lit "#") ts, x) l2.
Proof. intros root leaves l ts x us y W O E RX OX RY OY EA. destruct (traverse_visits _ _ _ W O E) as (G & V). exact (order leaves (length ts) _ _ _ _ _ _ _ (le_n _) G V RX OX RY OY EA). Qed.
(** Parsed documents qualify. *)
Theorem c35_parsed : forall c pl j v, wf j -> parse (Of c) pl j = Ok v -> wfv v /\ is_obj v.
Proof.
  intros c pl j v W E. split; [eapply (parse_wfv (S (jdepth j))); eauto|]. apply parse_shape in E as (ks & fs & ints & ->). exact I.
Qed.
Print Assumptions c35_visits.
Print Assumptions c35_once.
Print Assumptions c35_resolves.
Print Assumptions c35_outside_first.
Print Assumptions c35_depth_first.
Print Assumptions c35_last_first.
Print Assumptions c35_parsed.

(** ** C38 *)
(** An object is equal to itself. *)
Theorem c38_reflexive : forall a, wfv a -> is_obj a -> exists n, compare a a = Ok (true, n).
Proof.
  intros a W O. pose proof (compare_verdict a a W W O O) as V. destruct (compare a a) as [[[] n]|e]; [eauto|..].
  - destruct V as [V _]. destruct V. now apply covers_refl.
  - destruct V as (_ & V & _). destruct V. now apply covers_refl.
Qed.
(** Objects are called the same exactly when they are, up to further elements at the end of
    the second one's lists. *)
Theorem c38_same : forall a b, wfv a -> wfv b -> is_obj a -> is_obj b ->
  (exists n, compare a b = Ok (true, n)) <-> covers a b.
Proof.
  intros a b WA WB OA OB. pose proof (compare_verdict a b WA WB OA OB) as V. destruct (compare a b) as [[[] n]|e]; split; try (intros (m & X); discriminate X).
  - intros _. exact V.
  - eauto.
  - intro C. destruct V as [V _]. contradiction.
  - intro C. destruct V as (_ & V & _). contradiction.
Qed.
(** The place reported does differ. *)
Theorem c38_difference : forall a b n, wfv a -> wfv b -> is_obj a -> is_obj b ->
  compare a b = Ok (false, n) -> exists ts, n = name_of ts /\ differ_at a b ts.
Proof.
  intros a b n WA WB OA OB E. pose proof (compare_verdict a b WA WB OA OB) as V. rewrite E in V. apply V.
Qed.
(** There is no exception but IndexError, and that only when some list of the second object
    is shorter. *)
Theorem c38_exception : forall a b e, wfv a -> wfv b -> is_obj a -> is_obj b ->
  compare a b = Err e -> e = IndexError /\ shorter a b.
Proof.
  intros a b e WA WB OA OB E. pose proof (compare_verdict a b WA WB OA OB) as V. rewrite E in V. destruct V as (-> & _ & V). auto.
Qed.
(** Further elements are not noticed, fewer elements are not reported but raise. *)
Definition with_tags (l : list string) : json := JObj [(lit "schemes", JList (map (fun x => JStr (lit x)) l))].
Theorem c38_longer_refuted : exists a b, parse (Of CSwagger) [] (with_tags ["http"%string]) = Ok a /\
  parse (Of CSwagger) [] (with_tags ["http"; "https"]%string) = Ok b /\
  compare a b = Ok (true, []) /\ compare b a = Err IndexError.
Proof. do 2 eexists. repeat split; vm_compute; reflexivity. Qed.
Print Assumptions c38_reflexive.
Print Assumptions c38_same.
Print Assumptions c38_difference.
Print Assumptions c38_exception.
Print Assumptions c38_longer_refuted.

(** ** Concrete cases *)
Ltac wfj := lazymatch goal with
  | |- wf (JList _) => constructor; wfj
  | |- wf (JObj _) => constructor; [apply P_SpecBase.nodupb_ok; vm_compute; reflexivity|wfj]
  | |- Forall _ [] => constructor
  | |- Forall _ (_ :: _) => constructor; [cbn [snd]; wfj|wfj]
  | |- wf _ => constructor
  end.
Example c35_ex_wf : wf doc.
Proof. unfold doc, pet, s. wfj. Qed.
Example c35_ex_visit : exists v l, parse (Of CSwagger) [] doc = Ok v /\ traverse v [COperation] = Ok l /\ map fst l =
  map lit ["#"; "#/definitions/Pet"; "#/definitions/Pet/additionalProperties"; "#/definitions/Pet/properties/tags"; "#/definitions/Pet/properties/tags/items";
           "#/definitions/Pet/properties/id"; "#/paths/~1pets~1{id}"; "#/paths/~1pets~1{id}/get"; "#/info"]%string.
Proof. do 2 eexists. split; [vm_compute; reflexivity|]. split; vm_compute; reflexivity. Qed.
Example c35_ex_earlier : exists v, parse (Of CSwagger) [] doc = Ok v /\ earlier v [lit "info"] [lit "definitions"; lit "Pet"] /\
  earlier v [lit "definitions"; lit "Pet"; lit "properties"; lit "id"] [lit "definitions"; lit "Pet"; lit "properties"; lit "tags"].
Proof.
  eexists. split; [vm_compute; reflexivity|]. split.
  - apply earlier_here. apply (before_field _ [_] _ _ [_; _; _; _; _; _]).
  - eapply earlier_below; [apply step_field; vm_compute; reflexivity|]. eapply earlier_below; [apply step_key; vm_compute; reflexivity|]. eapply earlier_below; [apply step_field; vm_compute; reflexivity|].
    apply earlier_here. apply (before_key [] _ _ [] _ _ []).
Qed.
Example c38_ex_difference : exists v w, parse (Of CSwagger) [] doc = Ok v /\
  parse (Of CSwagger) [] (JObj [(lit "swagger", s "2.0"); (lit "info", JObj [(lit "title", s "t"); (lit "version", s "2")])]) = Ok w /\
  compare v w = Ok (false, lit "info/version").
Proof. do 2 eexists. split; [vm_compute; reflexivity|]. split; vm_compute; reflexivity. Qed.
