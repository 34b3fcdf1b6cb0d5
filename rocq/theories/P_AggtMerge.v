(** Proofs about composing schemas: merging and following references. *)
From Coq Require Import Lia.
From Verif Require Import PyBase PyFacts PyJson M_SpecVal M_Merge S_Parse S_SpecTree S_Merge P_SpecBase P_Op P_Merge M_Aggt S_Aggt P_Aggt.
Close Scope Q_scope.

Section Good.
(** The schemas before, which are composed, are the first ones. *)
Context (N0 : nat).
(** ** The invariant *)
Record good (h : heap) : Prop := {
  g_closed : closed h;
  g_len : N0 <= length h;
  g_region : forall i n, is_node h i n -> i < N0 -> (forall j, holds n j -> j < N0) /\ (forall j, s_ref n = Some j -> j < N0);
  g_final : forall i n f, is_node h i n -> s_final n = Some f ->
    exists m, N0 <= f /\ is_node h f m /\ s_ref m = None /\ s_final m = None /\ copy_list h (s_allof n) (s_allof m) /\ composed h i f
}.
Definition adds (h h' : heap) : Prop := exists l, h' = h ++ l.
Lemma adds_refl h : adds h h.
Proof. exists []. now rewrite app_nil_r. Qed.
Lemma adds_trans h k l : adds h k -> adds k l -> adds h l.
Proof. intros (a & ->) (b & ->). exists (a ++ b). now rewrite app_assoc. Qed.
Lemma adds_grows h h' : adds h h' -> grows h h'.
Proof. intros (l & ->). apply grows_app. Qed.
Lemma adds_node h h' i n : adds h h' -> is_node h i n -> is_node h' i n.
Proof. intros (l & ->). apply node_app. Qed.
Lemma get_ok h i n : get h i = Ok n <-> is_node h i n.
Proof. unfold get, is_node. destruct (nth_error h i); split; congruence. Qed.
Definition kids (n : node) : list oid :=
  match s_items n with Some j => [j] | None => [] end ++ s_allof n ++ map snd (s_props n) ++ match s_addl n with AObj j => [j] | ABool _ => [] end.
Lemma kids_holds n j : holds n j <-> In j (kids n).
Proof.
  unfold holds, kids. rewrite !in_app_iff. split.
  - intros [E|[E|[(k & E)|E]]]; [rewrite E; left; now left|auto|right; right; left; apply in_map_iff; exists (k, j); auto|rewrite E; right; right; right; now left].
  - intros [E|[E|[E|E]]]; [left; destruct (s_items n); [destruct E as [->|[]]; auto|destruct E]|auto| |].
    + right. right. left. apply in_map_iff in E as ([k j'] & X & Y). cbn in X. subst. eauto.
    + do 3 right. destruct (s_addl n); [destruct E|destruct E as [->|[]]; auto].
Qed.
Lemma bounded h l : (forall j, In j l -> exists d, tree h d j) -> exists d, forall j, In j l -> tree h d j.
Proof.
  induction l as [|x l IH]; intro H; [exists 0; intros ? []|]. destruct IH as (d & D); [intros; apply H; now right|]. destruct (H x (or_introl eq_refl)) as (e & E).
  exists (Nat.max d e). intros j [<-|I]; eapply tree_more; eauto; lia.
Qed.
Definition kids_ok (h : heap) (n : node) : Prop := forall j, holds n j -> exists m, is_node h j m.
Lemma kids_trees h n : closed h -> kids_ok h n -> exists d, forall j, holds n j -> tree h d j.
Proof.
  intros C K. destruct (bounded h (kids n)) as (d & D).
  - intros j I. apply kids_holds in I. destruct (K _ I) as (m & M). eapply c_tree; eauto.
  - exists d. intros j H. apply D, kids_holds, H.
Qed.
Lemma node_kids h i n : closed h -> is_node h i n -> kids_ok h n.
Proof.
  intros C N j H. destruct (c_tree h C _ _ N) as (d & T). inversion T as [? ? n' N' X]; subst. pose proof (node_fun _ _ _ _ N N') as <-. eapply tree_exists. eauto.
Qed.
Lemma node_snoc h m i n : is_node (h ++ [m]) i n -> is_node h i n \/ (i = length h /\ n = m).
Proof.
  unfold is_node. intro E. destruct (Nat.lt_ge_cases i (length h)) as [L|L]; [left; now rewrite nth_error_app1 in E|]. rewrite nth_error_app2 in E; [|exact L].
  destruct (i - length h) as [|k] eqn:K; cbn in E; [right; split; [lia|congruence]|destruct k; discriminate].
Qed.
Lemma node_last h m : is_node (h ++ [m]) (length h) m.
Proof. unfold is_node. rewrite nth_error_app2, Nat.sub_diag; [reflexivity|lia]. Qed.
Record fit (h : heap) (m : node) : Prop := {
  f_kids : kids_ok h m;
  f_ref : forall j, s_ref m = Some j -> exists n, is_node h j n;
  f_keys : NoDup (map fst (s_props m));
  f_plain : map fst (s_plain m) = map fst plain_fields
}.
Lemma node_fit h i n : closed h -> is_node h i n -> fit h n.
Proof. intros C N. constructor; [eapply node_kids; eauto|intros; eapply c_ref; eauto|eapply c_keys; eauto|eapply c_plain; eauto]. Qed.
Lemma fit_grows h h' m : grows h h' -> fit h m -> fit h' m.
Proof.
  intros G [A B C D]. constructor; auto.
  - intros j H. destruct (A _ H) as (n & N). destruct (G _ _ N) as (n' & N' & _). eauto.
  - intros j H. destruct (B _ H) as (n & N). destruct (G _ _ N) as (n' & N' & _). eauto.
Qed.
Lemma closed_snoc h m : closed h -> fit h m -> closed (h ++ [m]).
Proof.
  intros C F. pose proof (grows_app h [m]) as G. constructor.
  - intros i n N. apply node_snoc in N as [N|(-> & ->)].
    + destruct (c_tree h C _ _ N) as (d & T). exists d. eapply tree_grows; eauto.
    + destruct (kids_trees h m C (f_kids h m F)) as (d & D). exists (S d). econstructor; [apply node_last|]. intros j H. eapply tree_grows; eauto.
  - intros i n j N R. apply node_snoc in N as [N|(-> & ->)].
    + destruct (c_ref h C _ _ _ N R) as (x & X). exists x. now apply node_app.
    + destruct (f_ref h m F _ R) as (x & X). exists x. now apply node_app.
  - intros i n N. apply node_snoc in N as [N|(-> & ->)]; [eapply c_keys; eauto|apply (f_keys h m F)].
  - intros i n N. apply node_snoc in N as [N|(-> & ->)]; [eapply c_plain; eauto|apply (f_plain h m F)].
Qed.
Lemma good_snoc h m : good h -> fit h m ->
  (forall f, s_final m = Some f -> exists k, N0 <= f /\ is_node h f k /\ s_ref k = None /\ s_final k = None /\ copy_list (h ++ [m]) (s_allof m) (s_allof k) /\ composed (h ++ [m]) (length h) f) -> good (h ++ [m]).
Proof.
  intros [C L GR GF] F FF. pose proof (grows_app h [m]) as G. constructor; [now apply closed_snoc|rewrite app_length; lia| |].
  - intros i n N LT. apply node_snoc in N as [N|(-> & ->)]; [eauto|lia].
  - intros i n f N E. apply node_snoc in N as [N|(-> & ->)].
    + destruct (GF _ _ _ N E) as (k & LE & K & A1 & A2 & A3 & A4). exists k. split; [exact LE|]. split; [now apply node_app|]. split; [exact A1|]. split; [exact A2|]. split; [now apply (copy_grows _ _ G)|]. eapply composed_same; eauto.
    + destruct (FF _ E) as (k & LE & K & A1 & A2 & A3 & A4). exists k. split; [exact LE|]. split; [now apply node_app|]. auto.
Qed.

(** ** Merging the values *)
Definition none_or_list (df : json) : bool := match df with JNull | JList [] => true | _ => false end.
Lemma plain_defaults n df : In (n, df) plain_fields -> none_or_list df = true.
Proof.
  assert (X : forallb (fun nd => none_or_list (snd nd)) plain_fields = true) by (vm_compute; reflexivity). rewrite forallb_forall in X. intro I. apply (X _ I).
Qed.
Lemma plain_nodup : NoDup (map fst plain_fields).
Proof. apply nodupb_ok. vm_compute. reflexivity. Qed.
Definition lists (v : val) (s : str) : Prop := exists l, v = VList l /\ In (VStr s) l.
Lemma union_covered l m : covered (l ++ m) (union l m) /\ covered (union l m) (l ++ m).
Proof.
  destruct (union_spec l m) as [(_ & ->)|(_ & B & C & _)]; [split; apply covered_refl|]. split; intros x I.
  - destruct (C _ I) as (y & Y & E). eauto.
  - exists x. auto.
Qed.
Lemma plain1_fresh n df ov x : In (n, df) plain_fields -> plain1 [] n df (inject df) ov = Ok x -> same_value ov x.
Proof.
  intros I. apply plain_defaults in I. unfold plain1. cbn [mem existsb]. destruct df as [| | | | |[|]|]; try discriminate I.
  - destruct ov; cbn [is_default inject map as_list as_dict falsy bind]; intro E; injection E as <-; try constructor; apply (union_covered []).
  - destruct ov as [| | | | |[|y l]| |]; cbn [is_default inject map as_list as_dict falsy bind]; intro E; injection E as <-; try constructor; apply (union_covered []).
Qed.
Lemma plain1_kept ex n df sv ov x : plain1 ex n df sv ov = Ok x -> In (n, df) plain_fields -> ~ empty_value sv -> ~ container sv -> x = sv.
Proof.
  unfold plain1. intros E I NE NC. apply plain_defaults in I. destruct (mem n ex); [congruence|]. destruct (is_default ov df); [congruence|].
  assert (F : falsy sv = false) by (destruct (falsy sv) eqn:F; [elim NE; now apply falsy_spec|reflexivity]).
  assert (D : is_default sv df = false).
  { destruct df as [| | | | |[|]|]; try discriminate I; destruct sv as [| | | | |[|]| |]; try reflexivity; elim NE; constructor. }
  destruct ov; try (rewrite D in E; congruence).
  - apply bind_ok in E as (l' & E & _). unfold as_list in E. rewrite F in E. destruct sv; try discriminate E. elim NC. left. eauto.
  - apply bind_ok in E as (l' & E & _). unfold as_dict in E. rewrite F in E. destruct sv; try discriminate E. elim NC. right. eauto.
Qed.
Lemma as_list_lists v l s : as_list v = Ok l -> (lists v s <-> In (VStr s) l).
Proof.
  unfold as_list, lists. intro E. destruct (falsy v) eqn:F.
  - injection E as <-. split; [|intros []]. intros (l & -> & I). destruct l; [exact I|discriminate F].
  - destruct v; try discriminate E. injection E as ->. split; [intros (m & A & B); congruence|eauto].
Qed.
Lemma plain1_lists ex n df sv ov x s : plain1 ex n df sv ov = Ok x -> In (n, df) plain_fields -> mem n ex = false -> (lists x s <-> lists sv s \/ lists ov s).
Proof.
  unfold plain1. intros E I NX. apply plain_defaults in I. rewrite NX in E. destruct (is_default ov df) eqn:D.
  - injection E as <-. split; [auto|]. intros [L|(l & -> & L)]; [exact L|]. destruct df as [| | | | |[|]|]; try discriminate I; try discriminate D. destruct l; [destruct L|discriminate D].
  - assert (DS : is_default sv df = true -> ~ lists sv s).
    { intros DS (l & -> & L). destruct df as [| | | | |[|]|]; try discriminate I; try discriminate DS. destruct l; [destruct L|discriminate DS]. }
    destruct ov; try (injection E as <-; destruct (is_default sv df); split; [intro L; right; exact L|intros [L|L]; [now elim (DS eq_refl)|exact L]|auto|intros [L|(m & X & _)]; [exact L|discriminate X]]; fail).
    + apply bind_ok in E as (m & E & F). injection F as <-. rewrite (as_list_lists _ _ _ E). destruct (union_covered m l) as (U1 & U2). unfold lists. split.
      * intros (r & R & J). injection R as <-. apply (covered_str _ _ _ U2) in J. apply in_app_or in J as [J|J]; eauto.
      * intros [J|(r & R & J)]; (eexists; split; [reflexivity|]); apply (covered_str _ _ _ U1), in_or_app; [auto|]. injection R as <-. auto.
    + apply bind_ok in E as (m & E & F). injection F as <-. unfold as_dict in E. split; [intros (l & X & _); discriminate X|]. intros [(l & -> & L)|(l & X & _)]; [|discriminate X].
      destruct l; [destruct L|discriminate E].
Qed.
Lemma merge_plain_keys ex sf of : forall t r, merge_plain ex t sf of = Ok r -> map fst r = map fst t.
Proof.
  induction t as [|[n df] t IH]; intros r E; [injection E as <-; reflexivity|]. cbn [merge_plain] in E. destruct (sget n sf), (sget n of); try discriminate E.
  apply bind_ok in E as (x & _ & E). apply bind_ok in E as (q & E & F). injection F as <-. cbn. f_equal. auto.
Qed.
Lemma merge_plain_get ex sf of : forall t r, merge_plain ex t sf of = Ok r -> NoDup (map fst t) -> forall n x, sget n r = Some x ->
  exists df sv ov, In (n, df) t /\ sget n sf = Some sv /\ sget n of = Some ov /\ plain1 ex n df sv ov = Ok x.
Proof.
  induction t as [|[n df] t IH]; intros r E N k x G; [injection E as <-; discriminate G|]. cbn [merge_plain] in E. destruct (sget n sf) as [sv|] eqn:SF, (sget n of) as [ov|] eqn:OF; try discriminate E.
  apply bind_ok in E as (y & Y & E). apply bind_ok in E as (q & E & F). injection F as <-. rewrite sget_cons in G. inversion N as [|? ? NI N']; subst. destruct (str_eqb_spec k n) as [->|D].
  - injection G as <-. exists df, sv, ov. split; [now left|auto].
  - destruct (IH _ E N' _ _ G) as (df' & sv' & ov' & A & B). exists df', sv', ov'. split; [now right|exact B].
Qed.
Lemma new_plain n df : In (n, df) plain_fields -> sget n (s_plain new_node) = Some (inject df).
Proof.
  intro I. unfold new_node. cbn [s_plain]. apply In_sget.
  - rewrite map_map. cbn [fst]. exact plain_nodup.
  - apply in_map_iff. exists (n, df). auto.
Qed.
Lemma merge_plain_new of r : map fst of = map fst plain_fields -> merge_plain [] plain_fields (s_plain new_node) of = Ok r -> same_plain of r.
Proof.
  intros K E. split; [rewrite (merge_plain_keys _ _ _ _ _ E); exact K|]. intros n v w V W. destruct (merge_plain_get _ _ _ _ _ E plain_nodup _ _ W) as (df & sv & ov & I & SV & OV & P).
  rewrite V in OV. injection OV as <-. rewrite (new_plain _ _ I) in SV. injection SV as <-. eapply plain1_fresh; eauto.
Qed.
Lemma merge_plain_total {A} (r : sdict A) n t : map fst r = map fst t -> forall df : json, In (n, df) t -> exists x, sget n r = Some x.
Proof. intros K df I. apply sget_Some_key. rewrite K. apply in_map_iff. exists (n, df). auto. Qed.

(** ** Merging schemas *)
Definition copies (cl : heap -> oid -> res (heap * oid)) : Prop :=
  forall h i a, good h -> cl h i = Ok a -> adds h (fst a) /\ good (fst a) /\ copy (fst a) i (snd a).
Lemma adds_copies h h' : adds h h' -> forall i j, copy h i j -> copy h' i j.
Proof. intro A. apply (copy_grows h h'), adds_grows, A. Qed.
Lemma clone_list_ok cl : copies cl -> forall l h a, good h -> clone_list cl h l = Ok a -> adds h (fst a) /\ good (fst a) /\ copy_list (fst a) l (snd a).
Proof.
  intros CL. induction l as [|i l IH]; intros h a G E; [injection E as <-; split; [apply adds_refl|split; [exact G|constructor]]|]. cbn [clone_list] in E.
  apply bind_ok in E as (b & B & E). apply bind_ok in E as (c & C & E). injection E as <-. destruct (CL _ _ _ G B) as (A1 & G1 & K1). destruct (IH _ _ G1 C) as (A2 & G2 & K2). cbn [fst snd].
  split; [eapply adds_trans; eauto|]. split; [exact G2|]. constructor; [eapply adds_copies; eauto|exact K2].
Qed.
Lemma clone_dict_ok cl : copies cl -> forall l h a, good h -> clone_dict cl h l = Ok a -> adds h (fst a) /\ good (fst a) /\ copy_dict (fst a) l (snd a).
Proof.
  intros CL. induction l as [|[k i] l IH]; intros h a G E; [injection E as <-; split; [apply adds_refl|split; [exact G|constructor]]|]. cbn [clone_dict] in E.
  apply bind_ok in E as (b & B & E). apply bind_ok in E as (c & C & E). injection E as <-. destruct (CL _ _ _ G B) as (A1 & G1 & K1). destruct (IH _ _ G1 C) as (A2 & G2 & K2). cbn [fst snd].
  split; [eapply adds_trans; eauto|]. split; [exact G2|]. constructor; [eapply adds_copies; eauto|exact K2].
Qed.
(** What [merge_node] makes of the fields that hold schemas *)
Definition or_copy {A} (e : A -> bool) (cp : A -> A -> Prop) (f o r : A) : Prop := (e o = true \/ e f = false) /\ r = f \/ e o = false /\ e f = true /\ cp o r.
Definition no_item (o : option oid) : bool := match o with None => true | _ => false end.
Definition no_elem {A} (l : list A) : bool := match l with [] => true | _ => false end.
Definition no_addl (a : addl) : bool := match a with ABool true => true | _ => false end.
Record merged (ex : list str) (h h' : heap) (f o r : node) : Prop := {
  m_adds : adds h h';
  m_good : good h';
  m_plain : merge_plain ex plain_fields (s_plain f) (s_plain o) = Ok (s_plain r);
  m_ref : s_ref r = match s_ref f with None => s_ref o | x => x end;
  m_final : s_final r = match s_final f with None => s_final o | x => x end;
  m_items : or_copy no_item (copy_opt h') (s_items f) (s_items o) (s_items r);
  m_allof : if mem (lit "allOf") ex then s_allof r = s_allof f else or_copy no_elem (copy_list h') (s_allof f) (s_allof o) (s_allof r);
  m_props : or_copy no_elem (copy_dict h') (s_props f) (s_props o) (s_props r);
  m_addl : or_copy no_addl (copy_addl h') (s_addl f) (s_addl o) (s_addl r)
}.
Lemma or_copy_impl {A} (e : A -> bool) (cp cp' : A -> A -> Prop) f o r : (forall x y, cp x y -> cp' x y) -> or_copy e cp f o r -> or_copy e cp' f o r.
Proof. intros H [X|(X & Y & Z)]; [now left|right; auto]. Qed.
Lemma merge_node_ok cl ex h f o a : copies cl -> good h -> merge_node cl ex h f o = Ok a -> merged ex h (fst a) f o (snd a).
Proof.
  intros CL G E. unfold merge_node in E. apply bind_ok in E as (p & P & E). apply bind_ok in E as (a1 & E1 & E). apply bind_ok in E as (a2 & E2 & E). apply bind_ok in E as (a3 & E3 & E). apply bind_ok in E as (a4 & E4 & E).
  injection E as <-. cbn [fst snd].
  assert (X1 : adds h (fst a1) /\ good (fst a1) /\ or_copy no_item (copy_opt (fst a1)) (s_items f) (s_items o) (snd a1)).
  { unfold or_copy. destruct (s_items o) as [i|]; [destruct (s_items f) as [j|]|]; [injection E1 as <-; cbn; auto 10 using adds_refl| |injection E1 as <-; cbn; auto 10 using adds_refl].
    apply bind_ok in E1 as (b & B & E1). injection E1 as <-. destruct (CL _ _ _ G B) as (A1 & G1 & K1). cbn. split; [exact A1|]. split; [exact G1|]. right. split; [reflexivity|]. split; [reflexivity|]. now constructor. }
  clear E1. destruct X1 as (A1 & G1 & I1).
  assert (X2 : adds (fst a1) (fst a2) /\ good (fst a2) /\ if mem (lit "allOf") ex then snd a2 = s_allof f else or_copy no_elem (copy_list (fst a2)) (s_allof f) (s_allof o) (snd a2)).
  { unfold or_copy. generalize dependent (mem (lit "allOf") ex). intros b E2. destruct (s_allof o) as [|i l]; [injection E2 as <-; cbn; destruct b; auto 10 using adds_refl|].
    destruct (s_allof f) as [|j m]; [|injection E2 as <-; cbn; destruct b; auto 10 using adds_refl].
    destruct b; [injection E2 as <-; cbn; auto 10 using adds_refl|]. destruct (clone_list_ok cl CL _ _ _ G1 E2) as (A2 & G2 & K2). cbn. auto 10. }
  clear E2. destruct X2 as (A2 & G2 & I2).
  assert (X3 : adds (fst a2) (fst a3) /\ good (fst a3) /\ or_copy no_elem (copy_dict (fst a3)) (s_props f) (s_props o) (snd a3)).
  { unfold or_copy. destruct (s_props o) as [|i l]; [injection E3 as <-; cbn; auto 10 using adds_refl|].
    destruct (s_props f) as [|j m]; [|injection E3 as <-; cbn; auto 10 using adds_refl].
    destruct (clone_dict_ok cl CL _ _ _ G2 E3) as (A3 & G3 & K3). cbn. auto 10. }
  clear E3. destruct X3 as (A3 & G3 & I3).
  assert (X4 : adds (fst a3) (fst a4) /\ good (fst a4) /\ or_copy no_addl (copy_addl (fst a4)) (s_addl f) (s_addl o) (snd a4)).
  { unfold or_copy. destruct (s_addl o) as [[]|i]; [injection E4 as <-; cbn; auto 10 using adds_refl| |].
    - destruct (s_addl f) as [[]|j]; injection E4 as <-; cbn; auto 10 using adds_refl. split; [apply adds_refl|]. split; [exact G3|]. right. repeat split; auto. constructor.
    - destruct (s_addl f) as [[]|j]; [|injection E4 as <-; cbn; auto 10 using adds_refl..]. apply bind_ok in E4 as (b & B & E4). injection E4 as <-. destruct (CL _ _ _ G3 B) as (A4 & G4 & K4). cbn.
      split; [exact A4|]. split; [exact G4|]. right. repeat split; auto. now constructor. }
  clear E4. destruct X4 as (A4 & G4 & I4).
  pose proof (adds_trans _ _ _ A3 A4) as A34. pose proof (adds_trans _ _ _ A2 A34) as A24.
  constructor; cbn [s_plain s_ref s_final s_items s_allof s_props s_addl]; auto.
  - eapply adds_trans; eauto.
  - eapply or_copy_impl; [|exact I1]. apply (copy_grows (fst a1) (fst a4)), adds_grows, A24.
  - destruct (mem (lit "allOf") ex); [exact I2|]. eapply or_copy_impl; [|exact I2]. apply (copy_grows (fst a2) (fst a4)), adds_grows, A34.
  - eapply or_copy_impl; [|exact I3]. apply (copy_grows (fst a3) (fst a4)), adds_grows, A4.
Qed.
Lemma copy_nodes_of h i j : copy h i j -> (exists n, is_node h i n) /\ exists n, is_node h j n.
Proof. intro K. apply copy_inv in K as (n & m & N & M & _). eauto. Qed.
Lemma merged_kids ex h h' f o r : merged ex h h' f o r -> kids_ok h f -> kids_ok h' r.
Proof.
  intros M K.
  assert (O : forall j, (exists m, is_node h j m) -> exists m, is_node h' j m).
  { intros j (m & N). exists m. eapply adds_node; [eapply m_adds; eauto|exact N]. }
  intros j [H|[H|[(k & H)|H]]].
  - destruct (m_items _ _ _ _ _ _ M) as [(_ & E)|(_ & _ & C)]; [apply O, K; left; congruence|]. rewrite H in C. inversion C; subst. eapply copy_nodes_of; eauto.
  - pose proof (m_allof _ _ _ _ _ _ M) as A. destruct (mem (lit "allOf") ex); [apply O, K; right; left; congruence|]. destruct A as [(_ & E)|(_ & _ & C)]; [apply O, K; right; left; congruence|].
    destruct (proj2 (copy_list_In _ _ _ C) _ H) as (i & _ & CI). eapply copy_nodes_of; eauto.
  - destruct (m_props _ _ _ _ _ _ M) as [(_ & E)|(_ & _ & C)]; [apply O, K; right; right; left; exists k; congruence|].
    clear - C H. induction C as [|k' i j' d e C D IH]; [destruct H|]. destruct H as [E|H]; [|auto]. injection E as <- <-. eapply copy_nodes_of; eauto.
  - destruct (m_addl _ _ _ _ _ _ M) as [(_ & E)|(_ & _ & C)]; [apply O, K; do 3 right; congruence|]. rewrite H in C. inversion C; subst. eapply copy_nodes_of; eauto.
Qed.
Lemma merged_fit ex h h' f o r : merged ex h h' f o r -> fit h f -> fit h o -> fit h' r.
Proof.
  intros M F O. constructor.
  - eapply merged_kids; [exact M|apply F].
  - intros j R. rewrite (m_ref _ _ _ _ _ _ M) in R. assert (X : exists n, is_node h j n) by (destruct (s_ref f) eqn:E; [eapply f_ref; [exact F|congruence]|eapply f_ref; [exact O|exact R]]).
    destruct X as (n & N). exists n. eapply adds_node; [eapply m_adds; eauto|exact N].
  - destruct (m_props _ _ _ _ _ _ M) as [(_ & ->)|(_ & _ & C)]; [apply F|]. rewrite <- (copy_dict_keys _ _ _ C). apply O.
  - apply (merge_plain_keys _ _ _ _ _ (m_plain _ _ _ _ _ _ M)).
Qed.
Lemma new_fit h : fit h new_node.
Proof.
  constructor.
  - cbn. intros j [H|[[]|[(k & [])|H]]]; discriminate H.
  - discriminate.
  - constructor.
  - unfold new_node. cbn [s_plain]. rewrite map_map. reflexivity.
Qed.
Lemma merged_new h h' o r : good h -> fit h o -> merged [] h h' new_node o r -> node_copy h' o r /\ s_final r = s_final o.
Proof.
  intros G O M. destruct M as [A G' P R F I L D X]. cbn in R, F, I, L, D, X. split; [|exact F]. split; [eapply merge_plain_new; [apply O|exact P]|]. split; [auto|].
  split; [|split; [|split]].
  - destruct I as [([I|I] & ->)|(_ & _ & C)]; [destruct (s_items o); [discriminate I|constructor]|discriminate I|exact C].
  - destruct L as [([I'|I'] & ->)|(_ & _ & C)]; [destruct (s_allof o); [constructor|discriminate I']|discriminate I'|exact C].
  - destruct D as [([I'|I'] & ->)|(_ & _ & C)]; [destruct (s_props o); [constructor|discriminate I']|discriminate I'|exact C].
  - destruct X as [([I'|I'] & ->)|(_ & _ & C)]; [destruct (s_addl o) as [[]|]; [constructor|discriminate I'..]|discriminate I'|exact C].
Qed.
Lemma node_copy_grows h h' n m : grows h h' -> node_copy h n m -> node_copy h' n m.
Proof. intros G (A & B & C & D & E & F). destruct (copy_grows _ _ G) as (_ & K2 & K3 & K4 & K5). split; [exact A|]. split; [exact B|]. auto. Qed.
Lemma clone_ok fuel : copies (clone fuel).
Proof.
  induction fuel as [|fuel IH]; intros h i a G E; [discriminate E|]. cbn [clone] in E. apply bind_ok in E as (n & N & E). apply bind_ok in E as (b & B & E). injection E as <-. cbn [fst snd alloc].
  apply get_ok in N. pose proof (node_fit _ _ _ (g_closed _ G) N) as O. pose proof (merge_node_ok _ _ _ _ _ _ IH G B) as M. destruct (merged_new _ _ _ _ G O M) as (K & F).
  pose proof (merged_fit _ _ _ _ _ _ M (new_fit h) O) as FT. pose proof (m_good _ _ _ _ _ _ M) as G1. pose proof (m_adds _ _ _ _ _ _ M) as A1.
  assert (A2 : adds (fst b) (fst b ++ [snd b])) by (eexists; reflexivity). pose proof (adds_grows _ _ A2) as GR. pose proof (node_copy_grows _ _ _ _ GR K) as K2.
  assert (CP : copy (fst b ++ [snd b]) i (length (fst b))).
  { eapply copy_nodes; [eapply adds_node; [exact A2|eapply adds_node; eauto]|apply node_last|exact K2]. }
  split; [eapply adds_trans; eauto|]. split; [|exact CP]. apply good_snoc; [exact G1|exact FT|]. intros f FF. rewrite F in FF.
  destruct (g_final _ G1 _ _ _ (adds_node _ _ _ _ A1 N) FF) as (k & LE & KN & X1 & X2 & X3 & X4). exists k. split; [exact LE|]. split; [exact KN|]. split; [exact X1|]. split; [exact X2|].
  destruct (copy_sym (fst b ++ [snd b])) as (_ & _ & CS & _). destruct (copy_trans (fst b ++ [snd b])) as (_ & _ & CT & _). split.
  - eapply CT; [apply CS; apply K2|]. now apply (copy_grows _ _ GR).
  - pose proof (closed_snoc _ _ (g_closed _ G1) FT) as CL. eapply composed_copy; [exact CL|exact CP|]. eapply composed_same; [apply (g_closed _ G1)|exact GR| | |exact X4].
    + exists n. eapply adds_node; eauto.
    + eauto.
Qed.

End Good.

(** ** Following references *)
Section Deref.
  Context (h : heap).
  Inductive endsn : nat -> oid -> oid -> Prop :=
  | en_here i n : is_node h i n -> s_ref n = None -> endsn 0 i i
  | en_there c i n j k : is_node h i n -> s_ref n = Some j -> endsn c j k -> endsn (S c) i k.
  Lemma ends_endsn i j : ends h i j -> exists c, endsn c i j.
  Proof. induction 1 as [i n N R|i n j k N R E (c & IH)]; [exists 0|exists (S c)]; econstructor; eauto. Qed.
  Lemma endsn_ends c i j : endsn c i j -> ends h i j.
  Proof. induction 1; econstructor; eauto. Qed.
  Lemma endsn_fun c i j : endsn c i j -> forall d k, endsn d i k -> c = d /\ j = k.
  Proof.
    induction 1 as [i n N R|c i n j k N R E IH]; intros d k' F; inversion F as [? m M R'|d' ? m j' ? M R' E']; subst; pose proof (node_fun _ _ _ _ N M) as <-; try congruence; auto.
    assert (j' = j) as -> by congruence. destruct (IH _ _ E') as (-> & ->). auto.
  Qed.
  Lemma memb_In i g : existsb (Nat.eqb i) g = true <-> In i g.
  Proof. rewrite existsb_exists. split; [intros (x & I & E); apply Nat.eqb_eq in E; now subst|intro I; exists i; split; [exact I|apply Nat.eqb_refl]]. Qed.
  Lemma deref_loop_some fuel : forall g i g' e, deref_loop fuel h g i = Ok (g', Some e) ->
    ends h i e /\ ~ In e g /\ In e g' /\ (forall z, In z g -> In z g') /\ forall z, In z g' -> In z g \/ ends h z e.
  Proof.
    induction fuel as [|fuel IH]; intros g i g' e E; cbn [deref_loop] in E; (destruct (existsb (Nat.eqb i) g) eqn:M; [discriminate E|]); apply bind_ok in E as (n & N & E); apply get_ok in N;
      assert (NI : ~ In i g) by (intro I; apply memb_In in I; congruence); destruct (s_ref n) as [j|] eqn:R; try discriminate E.
    1,3: injection E as <- <-; assert (EN : ends h i i) by (econstructor; eauto); split; [exact EN|]; split; [exact NI|]; split; [now left|]; split; [intros; now right|]; intros z [<-|I]; auto.
    destruct (IH _ _ _ _ E) as (A & B & C & D & F). assert (EN : ends h i e) by (eapply ends_there; eauto). split; [exact EN|]. split; [intro X; apply B; now right|]. split; [exact C|]. split; [intros z I; apply D; now right|].
    intros z I. destruct (F _ I) as [[<-|J]|J]; auto.
  Qed.
  Lemma deref_loop_none fuel : forall g i g', deref_loop fuel h g i = Ok (g', None) ->
    (forall z, In z g -> In z g') /\
    (forall z, In z g' -> In z g \/ forall c e, endsn c z e -> exists c' y, c' <= c /\ In y g /\ endsn c' y e) /\
    (forall c e, endsn c i e -> exists c' y, c' <= c /\ In y g /\ endsn c' y e).
  Proof.
    induction fuel as [|fuel IH]; intros g i g' E; cbn [deref_loop] in E; (destruct (existsb (Nat.eqb i) g) eqn:M;
      [injection E as <-; apply memb_In in M; split; [auto|]; split; [auto|]; intros c e X; exists c, i; auto|]); apply bind_ok in E as (n & N & E); apply get_ok in N; destruct (s_ref n) as [j|] eqn:R; try discriminate E.
    destruct (IH _ _ _ E) as (A & B & C). clear IH.
    assert (Y : forall c e, endsn c i e -> exists c' y, c' <= c /\ In y g /\ endsn c' y e).
    { intros c e X. inversion X as [? n' N' R'|d ? n' j' ? N' R' X']; subst; pose proof (node_fun _ _ _ _ N N') as <-; [congruence|]. assert (j' = j) as -> by congruence.
      destruct (C _ _ X') as (c' & y & L & [<-|I] & Z); [destruct (endsn_fun _ _ _ X _ _ Z) as (<- & _); lia|]. exists c', y. split; [lia|auto]. }
    split; [intros z I; apply A; now right|]. split; [|exact Y].
    intros z I. destruct (B _ I) as [[<-|J]|J]; [right; exact Y|now left|]. right. intros c e X. destruct (J _ _ X) as (c' & y & L & [<-|K] & Z).
    - destruct (Y _ _ Z) as (c2 & y2 & L2 & I2 & Z2). exists c2, y2. split; [lia|auto].
    - exists c', y. auto.
  Qed.
  (** No more steps than schemas *)
  Lemma deref_loop_fuel fuel : forall g i, NoDup g -> (forall z, In z g -> z < length h) -> length h <= fuel + length g -> deref_loop fuel h g i <> Err OutOfFuel.
  Proof.
    assert (NG : forall g i n, NoDup g -> (forall z, In z g -> z < length h) -> is_node h i n -> ~ In i g -> NoDup (i :: g) /\ (forall z, In z (i :: g) -> z < length h)).
    { intros g i n ND IN N NI. split; [now constructor|]. intros z [<-|I]; [|auto]. apply nth_error_Some. unfold is_node in N. congruence. }
    induction fuel as [|fuel IH]; intros g i ND IN L; cbn [deref_loop]; (destruct (existsb (Nat.eqb i) g) eqn:M; [discriminate|]); unfold get; destruct (nth_error h i) as [n|] eqn:N; try discriminate; cbn [bind];
      (destruct (s_ref n) as [j|]; [|discriminate]);
      assert (NI : ~ In i g) by (intro I; apply memb_In in I; congruence); destruct (NG _ _ _ ND IN N NI) as (ND' & IN').
    - exfalso. cbn in L.
      assert (X : length (i :: g) <= length (seq 0 (length h))) by (apply NoDup_incl_length; [exact ND'|]; intros z I; apply in_seq; specialize (IN' _ I); lia).
      rewrite seq_length in X. cbn in X. lia.
    - apply IH; auto. cbn. lia.
  Qed.
End Deref.
