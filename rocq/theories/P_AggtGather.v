(** Proofs about composing schemas: what a composed schema holds. *)
From Coq Require Import Lia.
From Verif Require Import PyBase PyFacts PyJson M_SpecVal M_Merge S_Parse S_SpecTree S_Merge P_SpecBase P_Op P_Merge M_Aggt S_Aggt P_Aggt P_AggtMerge.
Close Scope Q_scope.

(** ** Adding the properties of a member *)
Lemma add_props_get own more : forall d k, NoDup (map fst more) ->
  sget k (add_props own d more) = if smem k own then sget k d else match sget k more with Some p => Some p | None => sget k d end.
Proof.
  unfold add_props. induction more as [|[k' p] more IH]; intros d k N; cbn [fold_left fst snd]; [destruct (smem k own); reflexivity|]. inversion N as [|? ? NI N']; subst. rewrite IH by exact N'.
  rewrite sget_cons. destruct (str_eqb_spec k k') as [->|D].
  - destruct (smem k' own) eqn:O; [reflexivity|]. assert (X : sget k' more = None) by now apply sget_None. rewrite X. apply sget_sset_same.
  - destruct (smem k' own); [reflexivity|]. rewrite sget_sset_other by congruence. reflexivity.
Qed.
Lemma add_props_nodup own more : forall d, NoDup (map fst d) -> NoDup (map fst (add_props own d more)).
Proof. unfold add_props. induction more as [|[k' p] more IH]; intros d N; cbn [fold_left fst snd]; [exact N|]. apply IH. destruct (smem k' own); [exact N|]. now apply sset_NoDup. Qed.
Lemma In_sset {A} k (v : A) k' p : forall d, In (k', p) (sset k v d) -> In (k', p) d \/ p = v.
Proof.
  induction d as [|[a b] d IH]; cbn [dset]; [intros [E|[]]; injection E as <- <-; auto|]. destruct (str_eqb k a); intros [E|I]; try (injection E as <- <-); auto; [left; right; exact I|now left; left|].
  destruct (IH I); auto. left. now right.
Qed.
Lemma add_props_In own more : forall d k p, In (k, p) (add_props own d more) -> In (k, p) d \/ In p (map snd more).
Proof.
  unfold add_props. induction more as [|[k' q] more IH]; intros d k p I; cbn [fold_left fst snd map] in *; [auto|]. apply IH in I as [I|I]; [|right; now right].
  destruct (smem k' own); [auto|]. apply In_sset in I as [I| ->]; [auto|right; now left].
Qed.

(** ** The loop *)
Definition node_requires (n : node) (x : str) : Prop := exists v, sget (lit "required") (s_plain n) = Some v /\ lists v x.
Lemma requires_node h i n x : is_node h i n -> (requires h i x <-> node_requires n x).
Proof.
  intro N. unfold requires, node_requires, field, lists. split.
  - intros (l & (m & M & S) & I). rewrite (node_fun _ _ _ _ M N) in S. eauto.
  - intros (v & S & (l & -> & I)). eauto.
Qed.
Lemma required_field : In (lit "required", JList []) plain_fields.
Proof. vm_compute. repeat (try (left; reflexivity); right). Qed.
Section Gather.
  Context (N0 : nat).
  Definition settled (h : heap) (dn : list oid) (z : oid) : Prop := forall e, ends h z e -> In e dn.
  Definition due (h : heap) (stk dn : list oid) (m : oid) : Prop := exists x, copy h m x /\ (In x stk \/ settled h dn x).
  Record ginv (h : heap) (i : oid) (n : node) (g : list oid) (f : node) (stk dn : list oid) : Prop := {
    gi_good : good N0 h;
    gi_node : is_node h i n;
    gi_fit : fit h f;
    gi_ref : s_ref f = None;
    gi_final : s_final f = None;
    gi_allof : copy_list h (s_allof n) (s_allof f);
    gi_stk : forall x, In x stk -> exists j nj m, part h i j /\ is_node h j nj /\ In m (s_allof nj) /\ copy h m x;
    gi_own : forall k p, sget k (s_props n) = Some p -> exists q, sget k (s_props f) = Some q /\ copy h p q;
    gi_props : forall k q, sget k (s_props f) = Some q -> exists j p, part h i j /\ property h j k p /\ copy h p q;
    gi_sound : forall x, node_requires f x -> exists j, part h i j /\ requires h j x;
    gi_req : forall x, node_requires n x -> node_requires f x;
    gi_fields : forall k v, sget (lit k) (s_plain n) = Some v -> ~ empty_value v -> ~ container v -> sget (lit k) (s_plain f) = Some v;
    gi_done : forall e, In e dn -> exists ne, is_node h e ne /\ (forall k p, sget k (s_props ne) = Some p -> exists q, sget k (s_props f) = Some q) /\
      (forall x, node_requires ne x -> node_requires f x) /\ (forall m, In m (s_allof ne) -> due h stk dn m);
    gi_top : forall m, In m (s_allof n) -> due h stk dn m;
    gi_guard : forall z, In z g -> settled h dn z
  }.
  Lemma settled_adds h h' dn z : closed h -> adds h h' -> (exists n, is_node h z n) -> settled h dn z -> settled h' dn z.
  Proof. intros C A N S e E. apply S. eapply ends_back; eauto using adds_grows. Qed.
  Lemma part_adds h h' i j : adds h h' -> part h i j -> part h' i j.
  Proof. intros A [->|M]; [now left|right]. eapply member_forth; eauto using adds_grows. Qed.
  Lemma property_adds h h' j k p : adds h h' -> property h j k p -> property h' j k p.
  Proof. intros A (n & N & S). exists n. split; [eapply adds_node; eauto|exact S]. Qed.
  Lemma requires_adds h h' j x : adds h h' -> requires h j x -> requires h' j x.
  Proof. intros A (l & (n & N & S) & I). exists l. split; [|exact I]. exists n. split; [eapply adds_node; eauto|exact S]. Qed.
  Lemma due_adds h h' stk dn m : closed h -> adds h h' -> due h stk dn m -> due h' stk dn m.
  Proof.
    intros C A (x & K & S). exists x. split; [eapply adds_copies; eauto|]. destruct S as [I|S]; [now left|right]. eapply settled_adds; eauto. eapply copy_nodes_of; eauto.
  Qed.
  Lemma ginv_adds h h' i n g f stk dn : adds h h' -> good N0 h' -> (forall z, In z g -> exists m, is_node h z m) -> ginv h i n g f stk dn -> ginv h' i n g f stk dn.
  Proof.
    intros A G' NG [G N F R FI L ST OW PR SO RQ FS DN TP GU]. pose proof (adds_grows _ _ A) as GR. pose proof (g_closed _ _ G) as C. constructor; auto.
    - eapply adds_node; eauto.
    - eapply fit_grows; eauto.
    - now apply (copy_grows _ _ GR).
    - intros x I. destruct (ST _ I) as (j & nj & m & P & NJ & M & K). exists j, nj, m. split; [eapply part_adds; eauto|]. split; [eapply adds_node; eauto|]. split; [exact M|]. eapply adds_copies; eauto.
    - intros k p P. destruct (OW _ _ P) as (q & Q & K). exists q. split; [exact Q|eapply adds_copies; eauto].
    - intros k q Q. destruct (PR _ _ Q) as (j & p & P & PP & K). exists j, p. split; [eapply part_adds; eauto|]. split; [eapply property_adds; eauto|eapply adds_copies; eauto].
    - intros x X. destruct (SO _ X) as (j & P & RR). exists j. split; [eapply part_adds; eauto|eapply requires_adds; eauto].
    - intros e I. destruct (DN _ I) as (ne & NE & X & Y & Z). exists ne. split; [eapply adds_node; eauto|]. split; [exact X|]. split; [exact Y|]. intros m M. eapply due_adds; eauto.
    - intros m M. eapply due_adds; eauto.
    - intros z I. eapply settled_adds; eauto.
  Qed.
  (** A schema, or its composed schema, stands for the schema. *)
  Record stands (h : heap) (e : oid) (ne o : node) : Prop := {
    st_fit : fit h o;
    st_ref : s_ref o = None;
    st_final : s_final o = None;
    st_allof : copy_list h (s_allof ne) (s_allof o);
    st_names : forall k p, sget k (s_props ne) = Some p -> exists q, sget k (s_props o) = Some q;
    st_props : forall k q, sget k (s_props o) = Some q -> exists j p, part h e j /\ property h j k p /\ copy h p q;
    st_req : forall x, node_requires ne x -> node_requires o x;
    st_sound : forall x, node_requires o x -> exists j, part h e j /\ requires h j x
  }.
  Lemma stands_self h e ne : good N0 h -> is_node h e ne -> s_ref ne = None -> s_final ne = None -> stands h e ne ne.
  Proof.
    intros G N R F. pose proof (g_closed _ _ G) as C. pose proof (node_kids _ _ _ C N) as K. constructor; auto.
    - eapply node_fit; eauto.
    - apply copy_list_refl. intros j I. destruct (K j) as (m & M); [right; now left|]. eapply node_copies; eauto.
    - eauto.
    - intros k q Q. exists e, q. split; [now left|]. split; [exists ne; auto|]. destruct (K q) as (m & M); [right; right; left; exists k; now apply sget_In|]. eapply node_copies; eauto.
    - intros x X. exists e. split; [now left|]. eapply requires_node; eauto.
  Qed.
  Lemma stands_final h e ne f o : good N0 h -> is_node h e ne -> s_final ne = Some f -> is_node h f o -> stands h e ne o.
  Proof.
    intros G N F O. pose proof (g_closed _ _ G) as C. destruct (g_final _ _ G _ _ _ N F) as (o' & _ & O' & A1 & A2 & A3 & (C1 & C2 & C3 & C4 & C5)). pose proof (node_fun _ _ _ _ O O') as <-. constructor; auto.
    - eapply node_fit; eauto.
    - intros k p P. destruct (C2 k p) as (q & (o' & O1 & Q) & _); [exists ne; auto|]. rewrite (node_fun _ _ _ _ O1 O) in Q. eauto.
    - intros k q Q. apply C3. exists o. auto.
    - intros x X. apply (requires_node _ _ _ x O), C4. exists e. split; [now left|]. eapply requires_node; eauto.
    - intros x X. apply C4. eapply requires_node; eauto.
  Qed.
  Lemma stands_adds h h' e ne o : adds h h' -> stands h e ne o -> stands h' e ne o.
  Proof.
    intros A [F R FI L NM PR RQ SO]. pose proof (adds_grows _ _ A) as GR. constructor; auto.
    - eapply fit_grows; eauto.
    - now apply (copy_grows _ _ GR).
    - intros k q Q. destruct (PR _ _ Q) as (j & p & P & PP & K). exists j, p. split; [eapply part_adds; eauto|]. split; [eapply property_adds; eauto|eapply adds_copies; eauto].
    - intros x X. destruct (SO _ X) as (j & P & RR). exists j. split; [eapply part_adds; eauto|eapply requires_adds; eauto].
  Qed.
  Lemma merged_requires ex h h' f o r x : mem (lit "required") ex = false -> merged N0 ex h h' f o r -> fit h f -> fit h o -> (node_requires r x <-> node_requires f x \/ node_requires o x).
  Proof.
    intros NX M F O. pose proof (m_plain _ _ _ _ _ _ _ M) as P. pose proof (merge_plain_keys _ _ _ _ _ P) as KR. destruct (merge_plain_total _ _ _ KR _ required_field) as (v & V).
    destruct (merge_plain_get _ _ _ _ _ P plain_nodup _ _ V) as (df & sv & ov & I & SV & OV & E). pose proof (plain1_lists _ _ _ _ _ _ x E I NX) as L. unfold node_requires. split.
    - intros (w & W & LW). rewrite V in W. injection W as <-. apply L in LW as [LW|LW]; eauto.
    - intros [(w & W & LW)|(w & W & LW)]; exists v; (split; [exact V|]); apply L; [rewrite SV in W|rewrite OV in W]; injection W as <-; auto.
  Qed.
  Lemma step_ok h h' i n g g' f x stk dn e ne o r :
    ginv h i n g f (x :: stk) dn -> ends h x e -> is_node h e ne -> stands h e ne o -> (forall z, In z g' -> In z g \/ ends h z e) -> (forall z, In z g -> exists m, is_node h z m) ->
    merged N0 not_merged h h' f o r ->
    ginv h' i n g' (with_props r (add_props (s_props n) (s_props r) (s_props o))) (rev (s_allof o) ++ stk) (e :: dn).
  Proof.
    intros I0 E NE ST GG NG M. pose proof (m_adds _ _ _ _ _ _ _ M) as A. pose proof (m_good _ _ _ _ _ _ _ M) as G'. pose proof (gi_good _ _ _ _ _ _ _ I0) as G.
    pose proof (gi_fit _ _ _ _ _ _ _ I0) as FF. pose proof (st_fit _ _ _ _ ST) as FO. pose proof (merged_fit _ _ _ _ _ _ _ M FF FO) as FR.
    pose proof (fun z => merged_requires not_merged _ _ _ _ _ z eq_refl M FF FO) as RQ.
    pose proof (m_plain _ _ _ _ _ _ _ M) as MP.
    assert (RREF : s_ref r = None) by (rewrite (m_ref _ _ _ _ _ _ _ M), (gi_ref _ _ _ _ _ _ _ I0); apply (st_ref _ _ _ _ ST)).
    assert (RFIN : s_final r = None) by (rewrite (m_final _ _ _ _ _ _ _ M), (gi_final _ _ _ _ _ _ _ I0); apply (st_final _ _ _ _ ST)).
    assert (RALL : s_allof r = s_allof f) by apply (m_allof _ _ _ _ _ _ _ M).
    pose proof (m_props _ _ _ _ _ _ _ M) as RP.
    assert (EE : ends h' x e) by (eapply ends_forth; eauto using adds_grows).
    assert (GG' : forall z, In z g' -> In z g \/ ends h' z e) by (intros z I; destruct (GG z I); [auto|right; eapply ends_forth; eauto using adds_grows]). clear GG.
    apply (stands_adds _ _ _ _ _ A) in ST. apply (ginv_adds _ _ _ _ _ _ _ _ A G' NG) in I0. assert (NE' : is_node h' e ne) by (eapply adds_node; eauto). clear M E NE NG FF FO. clear h A G. rename h' into h, G' into G, NE' into NE.
    pose proof (g_closed _ _ G) as C. destruct (copy_sym h) as (SY & _ & SYL & _). destruct (copy_trans h) as (TR & _ & TRL & _).
    destruct I0 as [_ N F R FI L STK OW PR SO RQ0 FS DN TP GU]. destruct ST as [OF OR OFI OL ON OP ORQ OSO].
    assert (X0 : exists e0 n0, part h i e0 /\ copy h e e0 /\ is_node h e0 n0).
    { destruct (STK x (or_introl eq_refl)) as (j & nj & m & P & NJ & MI & K). destruct (copy_end _ C _ _ _ (SY _ _ K) EE) as (e0 & E0 & K0). destruct (ends_node _ _ _ E0) as (n0 & X). exists e0, n0. split; [|split; [exact K0|exact X]].
      eapply part_trans; [exact P|]. right. eapply member_direct; eauto. }
    destruct X0 as (e0 & n0 & P0 & K0 & NE0).
    assert (LIFT : forall j, part h e j -> exists j', part h i j' /\ copy h j j').
    { intros j P. destruct (copy_part _ C _ _ _ P K0) as (j' & P' & KJ). exists j'. split; [eapply part_trans; eauto|exact KJ]. }
    set (own := s_props n). set (np := add_props own (s_props r) (s_props o)).
    assert (NP : forall k, sget k np = if smem k own then sget k (s_props r) else match sget k (s_props o) with Some p => Some p | None => sget k (s_props r) end).
    { intro k. apply add_props_get, OF. }
    assert (MONO : forall k q, sget k (s_props f) = Some q -> sget k (s_props r) = Some q).
    { intros k q Q. destruct RP as [(_ & ->)|(_ & Z & _)]; [exact Q|]. destruct (s_props f); [discriminate Q|discriminate Z]. }
    assert (MONO2 : forall k q, sget k (s_props f) = Some q -> exists q', sget k np = Some q').
    { intros k q Q. rewrite NP. apply MONO in Q. rewrite Q. destruct (smem k own); [eauto|]. destruct (sget k (s_props o)); eauto. }
    assert (OWN : forall k p, sget k own = Some p -> smem k own = true).
    { intros k p P. apply smem_In. eapply sget_Some_key. eauto. }
    assert (FROM : forall k q, sget k (s_props o) = Some q -> exists j p, part h i j /\ property h j k p /\ copy h p q).
    { intros k q Q. destruct (OP _ _ Q) as (j & p & P & PP & K). destruct (LIFT _ P) as (j' & P' & KJ). destruct (copy_property _ _ _ _ _ KJ PP) as (p' & PP' & KP). exists j', p'. split; [exact P'|]. split; [exact PP'|]. eapply TR; [apply SY; exact KP|exact K]. }
    assert (STL : forall z, settled h dn z -> settled h (e :: dn) z) by (intros z S y Y; right; auto).
    assert (STX : settled h (e :: dn) x) by (intros y Y; left; eapply ends_fun; eauto).
    assert (DUE : forall m, due h (x :: stk) dn m -> due h (rev (s_allof o) ++ stk) (e :: dn) m).
    { intros m (y & K & [[EX|I]|S]); exists y; (split; [exact K|]); [right; subst y; exact STX|left; apply in_or_app; now right|right; auto]. }
    constructor; cbn [with_props s_plain s_ref s_final s_items s_allof s_props s_addl]; auto.
    - constructor; cbn [with_props s_plain s_ref s_final s_items s_allof s_props s_addl].
      + intros j [H|[H|[(k & H)|H]]]; [apply FR; now left|apply FR; right; now left| |apply FR; do 3 right; exact H].
        apply add_props_In in H as [H|H]; [apply FR; right; right; left; eauto|]. apply in_map_iff in H as ([k' j'] & <- & H). apply OF. right. right. left. exists k'. exact H.
      + apply FR.
      + apply add_props_nodup, FR.
      + apply FR.
    - congruence.
    - intros y I. apply in_app_or in I as [I|I]; [|apply STK; now right]. apply in_rev in I.
      destruct (proj2 (copy_list_In _ _ _ OL) _ I) as (m' & I' & K'). apply copy_inv in K0 as (ne' & n0' & X & Y & (_ & _ & _ & KL & _)). rewrite (node_fun _ _ _ _ X NE), (node_fun _ _ _ _ Y NE0) in KL.
      destruct (proj1 (copy_list_In _ _ _ KL) _ I') as (m0 & I0 & K0). exists e0, n0, m0. split; [exact P0|]. split; [exact NE0|]. split; [exact I0|]. eapply TR; [apply SY; exact K0|exact K'].
    - intros k p P. destruct (OW _ _ P) as (q & Q & K). exists q. split; [|exact K]. fold np. rewrite NP, (OWN _ _ P). auto.
    - intros k q Q. fold np in Q. rewrite NP in Q.
      assert (Q' : sget k (s_props r) = Some q \/ sget k (s_props o) = Some q) by (destruct (smem k own); [auto|]; destruct (sget k (s_props o)); auto).
      destruct Q' as [Q'|Q']; [|apply FROM, Q']. destruct RP as [(_ & EP)|(_ & _ & KD)]; [rewrite EP in Q'; auto|]. pose proof (copy_dict_get _ _ _ KD k) as X. rewrite Q' in X.
      destruct (sget k (s_props o)) as [q0|] eqn:Q0; [|destruct X]. destruct (FROM _ _ Q0) as (j & p & P & PP & K). exists j, p. split; [exact P|]. split; [exact PP|]. eapply TR; eauto.
    - intros y Y. apply RQ in Y as [Y|Y]; [auto|]. destruct (OSO _ Y) as (j & P & RJ). destruct (LIFT _ P) as (j' & P' & KJ). exists j'. split; [exact P'|]. eapply copy_requires; eauto.
    - intros y Y. apply RQ. left. auto.
    - intros k v V NEV NC. pose proof (FS _ _ V NEV NC) as FV. pose proof (merge_plain_keys _ _ _ _ _ MP) as KR.
      assert (RV : exists w, sget (lit k) (s_plain r) = Some w). { apply sget_Some_key. rewrite KR, <- (f_plain _ _ F). eapply sget_Some_key. eauto. }
      destruct RV as (w & W). destruct (merge_plain_get _ _ _ _ _ MP plain_nodup _ _ W) as (df & sv & ov & I & SV & OV & P1). rewrite FV in SV. injection SV as <-. rewrite W. f_equal. eapply plain1_kept; eauto.
    - intros y [<-|I].
      + exists ne. split; [exact NE|]. split; [|split].
        * intros k p P. destruct (ON _ _ P) as (q & Q). fold np. destruct (smem k own) eqn:SO'.
          -- apply smem_In, sget_Some_key in SO' as (p' & P'). destruct (OW _ _ P') as (q' & Q' & _). eapply MONO2; eauto.
          -- rewrite NP, SO', Q. eauto.
        * intros y Y. apply RQ. right. auto.
        * intros m I. destruct (proj1 (copy_list_In _ _ _ OL) _ I) as (m' & I' & K'). exists m'. split; [exact K'|]. left. apply in_or_app. left. now rewrite <- in_rev.
      + destruct (DN _ I) as (ny & NY & A1 & A2 & A3). exists ny. split; [exact NY|]. split; [|split].
        * intros k p P. destruct (A1 _ _ P) as (q & Q). fold np. eapply MONO2; eauto.
        * intros z Z. apply RQ. left. auto.
        * auto.
    - intros z I. destruct (GG' _ I) as [J|J]; [auto|]. intros y Y. left. eapply ends_fun; eauto.
  Qed.
  Lemma skip_ok h i n g g' f x stk dn : ginv h i n g f (x :: stk) dn ->
    (forall z, In z g' -> In z g \/ forall c e, endsn h c z e -> exists c' y, c' <= c /\ In y g /\ endsn h c' y e) ->
    (forall c e, endsn h c x e -> exists c' y, c' <= c /\ In y g /\ endsn h c' y e) -> ginv h i n g' f stk dn.
  Proof.
    intros [G N F R FI L ST OW PR SO RQ FS DN TP GU] Z X.
    assert (U : forall z, (forall c e, endsn h c z e -> exists c' y, c' <= c /\ In y g /\ endsn h c' y e) -> settled h dn z).
    { intros z ZZ e E. destruct (ends_endsn _ _ _ E) as (c & EC). destruct (ZZ _ _ EC) as (c' & y & _ & I & EY). eapply GU; [exact I|]. eapply endsn_ends; eauto. }
    assert (DUE : forall m, due h (x :: stk) dn m -> due h stk dn m).
    { intros m (y & K & [[EX|I]|S]); exists y; (split; [exact K|]); [right; subst y; apply U, X|now left|now right]. }
    constructor; auto.
    - intros y I. apply ST. now right.
    - intros e I. destruct (DN _ I) as (ne & NE & A1 & A2 & A3). exists ne. repeat split; auto.
    - intros z I. destruct (Z _ I) as [J|J]; [auto|apply U, J].
  Qed.
  Lemma deref_nodes h fuel : forall g i g' o, closed h -> (exists n, is_node h i n) -> deref_loop fuel h g i = Ok (g', o) -> (forall z, In z g -> exists m, is_node h z m) -> forall z, In z g' -> exists m, is_node h z m.
  Proof.
    induction fuel as [|fuel IH]; intros g i g' o C (n & N) E NG; cbn [deref_loop] in E; (destruct (existsb (Nat.eqb i) g); [injection E as <- <-; exact NG|]); apply bind_ok in E as (n' & N' & E); apply get_ok in N';
      pose proof (node_fun _ _ _ _ N N') as <-; destruct (s_ref n) as [j|] eqn:R; try discriminate E.
    1,3: injection E as <- <-; intros z [<-|I]; eauto.
    eapply IH; [exact C|eapply c_ref; eauto|exact E|]. intros z [<-|I]; eauto.
  Qed.
  Lemma gather_ok fuel : forall h i n g f stk dn a, ginv h i n g f stk dn -> (forall z, In z g -> exists m, is_node h z m) -> gather fuel (s_props n) h g f stk = Ok a ->
    adds h (fst a) /\ exists g' dn', ginv (fst a) i n g' (snd a) [] dn'.
  Proof.
    induction fuel as [|fuel IH]; intros h i n g f stk dn a I NG E; (destruct stk as [|x stk]; cbn [gather] in E; [injection E as <-; cbn [fst snd]; split; [apply adds_refl|eauto]|]); [discriminate E|].
    apply bind_ok in E as (gd & D & E). destruct gd as [g' oe]. cbn [fst snd] in E. unfold deref in D. pose proof (gi_good _ _ _ _ _ _ _ I) as G. pose proof (g_closed _ _ G) as C.
    assert (NX : exists m, is_node h x m).
    { destruct (gi_stk _ _ _ _ _ _ _ I x (or_introl eq_refl)) as (j & nj & m & _ & _ & _ & K). eapply copy_nodes_of; eauto. }
    pose proof (deref_nodes _ _ _ _ _ _ C NX D NG) as NG'.
    destruct oe as [e|].
    - apply deref_loop_some in D as (EX & _ & _ & _ & GG). apply bind_ok in E as (ne & NE & E). apply get_ok in NE. apply bind_ok in E as (o & O & E). apply bind_ok in E as (b & B & E).
      assert (ST : stands h e ne o).
      { destruct (s_final ne) as [f'|] eqn:FN; [apply get_ok in O; eapply stands_final; eauto|]. injection O as <-. eapply stands_self; eauto. clear -EX NE. induction EX as [i n' N R|]; [|auto]. now rewrite (node_fun _ _ _ _ NE N). }
      pose proof (merge_node_ok _ _ _ _ _ _ _ (clone_ok N0 fuel) G B) as M. pose proof (step_ok _ _ _ _ _ _ _ _ _ _ _ _ _ _ I EX NE ST GG NG M) as I'.
      destruct (IH _ _ _ _ _ _ _ a I') as (A & R).
      + intros z Z. destruct (NG' _ Z) as (m & MM). exists m. eapply adds_node; [eapply m_adds; eauto|exact MM].
      + exact E.
      + split; [|exact R]. eapply adds_trans; [eapply m_adds; eauto|exact A].
    - apply deref_loop_none in D as (_ & Z & X). eapply IH; [eapply skip_ok; eauto|exact NG'|exact E].
  Qed.
  (** At the start *)
  Lemma start_ok h h' i n r : good N0 h -> is_node h i n -> s_ref n = None -> s_final n = None -> merged N0 [] h h' new_node n r -> ginv h' i n [] r (rev (s_allof n)) [].
  Proof.
    intros G N R FN M. pose proof (m_adds _ _ _ _ _ _ _ M) as A. pose proof (m_good _ _ _ _ _ _ _ M) as G'. pose proof (node_fit _ _ _ (g_closed _ _ G) N) as O. destruct (merged_new _ _ _ _ _ G O M) as (K & F).
    assert (N' : is_node h' i n) by (eapply adds_node; eauto). pose proof (g_closed _ _ G') as C. pose proof (node_kids _ _ _ C N') as KI. pose proof (merged_fit _ _ _ _ _ _ _ M (new_fit h) O) as FT. destruct K as (KP & KR & KI' & KL & KD & KA).
    assert (SK : forall m, In m (s_allof n) -> copy h' m m) by (intros m I; destruct (KI m) as (x & X); [right; now left|]; eapply node_copies; eauto).
    constructor; auto; try congruence.
    - intros x I. apply in_rev in I. exists i, n, x. split; [now left|]. auto.
    - intros k p P. pose proof (copy_dict_get _ _ _ KD k) as X. rewrite P in X. destruct (sget k (s_props r)) as [q|]; [eauto|destruct X].
    - intros k q Q. pose proof (copy_dict_get _ _ _ KD k) as X. rewrite Q in X. destruct (sget k (s_props n)) as [p|] eqn:P; [|destruct X]. exists i, p. split; [now left|]. split; [exists n; auto|exact X].
    - intros x X. exists i. split; [now left|]. apply (requires_node _ _ _ x N'). destruct X as (v & V & (l & -> & I)). destruct KP as (KP & SV).
      destruct (sget (lit "required") (s_plain n)) as [w|] eqn:W; [|apply sget_None in W; elim W; rewrite KP; eapply sget_Some_key; eauto]. pose proof (SV _ _ _ W V) as S.
      exists w. split; [exact W|]. inversion S as [|l' m' C1 C2]; subst; [exists l; auto|]. exists l'. split; [reflexivity|]. eapply covered_str; eauto.
    - intros x (v & V & (l & -> & I)). destruct KP as (KP & SV).
      destruct (sget (lit "required") (s_plain r)) as [w|] eqn:W; [|apply sget_None in W; elim W; rewrite <- KP; eapply sget_Some_key; eauto]. pose proof (SV _ _ _ V W) as S.
      exists w. split; [exact W|]. inversion S as [|l' m' C1 C2]; subst; [exists l; auto|]. exists m'. split; [reflexivity|]. eapply covered_str; eauto.
    - intros k v V _ NC. destruct KP as (KP & SV).
      destruct (sget (lit k) (s_plain r)) as [w|] eqn:W; [|apply sget_None in W; elim W; rewrite <- KP; eapply sget_Some_key; eauto]. pose proof (SV _ _ _ V W) as S. inversion S; subst; [reflexivity|]. elim NC. left. eauto.
    - intros e [].
    - intros m I. exists m. split; [auto|]. left. now rewrite <- in_rev.
    - intros z [].
  Qed.
  (** At the end *)
  Lemma end_ok h i n g f dn : ginv h i n g f [] dn -> composed (h ++ [f]) i (length h).
  Proof.
    intros [G N F R FI L ST OW PR SO RQ FS DN TP GU]. pose proof (g_closed _ _ G) as C. pose proof (closed_snoc _ _ C F) as C'. pose proof (grows_app h [f]) as GR. pose proof (proj1 (copy_grows _ _ GR)) as CG.
    assert (AD : adds h (h ++ [f])) by (eexists; reflexivity). pose proof (node_last h f) as LN. assert (N' : is_node (h ++ [f]) i n) by now apply node_app.
    destruct (copy_trans h) as (TR & _). destruct (copy_sym h) as (SY & _).
    assert (ALL : forall a b, member h a b -> forall a', (a' = i \/ In a' dn) -> copy h a a' -> exists b', In b' dn /\ copy h b b').
    { induction 1 as [a na m b NA I E|a b c _ IH1 _ IH2]; intros a' DA K.
      - apply copy_inv in K as (x & na' & X & NA' & (_ & _ & _ & KL & _)). pose proof (node_fun _ _ _ _ NA X) as <-. destruct (proj1 (copy_list_In _ _ _ KL) _ I) as (m' & I' & KM).
        assert (DU : due h [] dn m').
        { destruct DA as [->|DA]; [pose proof (node_fun _ _ _ _ NA' N) as ->; auto|]. destruct (DN _ DA) as (y & Y & _ & _ & Z). pose proof (node_fun _ _ _ _ NA' Y) as <-. auto. }
        destruct DU as (y & KY & [[]|S]). destruct (copy_end _ C _ _ _ (TR _ _ KM _ KY) E) as (b' & EB & KB). exists b'. auto.
      - destruct (IH1 _ DA K) as (b' & DB & KB). destruct (IH2 b' (or_intror DB) KB) as (c' & DC & KC). eauto. }
    assert (PT : forall j, part (h ++ [f]) i j <-> part h i j) by (intro j; symmetry; apply part_same; eauto).
    assert (HF : forall k q, property (h ++ [f]) (length h) k q <-> sget k (s_props f) = Some q).
    { intros k q. split; [intros (m & M & S); now rewrite (node_fun _ _ _ _ M LN) in S|exists f; auto]. }
    assert (HP : forall j k p, part h i j -> property (h ++ [f]) j k p -> property h j k p).
    { intros j k p P X. apply (property_same h _ GR) in X; [exact X|]. eapply part_node; [|exact P]. eauto. }
    split; [|split; [|split; [|split]]].
    - intro k. split.
      + intros (q & Q). apply HF in Q. destruct (PR _ _ Q) as (j & p & P & PP & _). exists j, p. split; [now apply PT|eapply property_adds; eauto].
      + intros (j & p & P & PP). apply PT in P. pose proof (HP _ _ _ P PP) as PP'. destruct P as [<-|M].
        * destruct PP' as (n' & N1 & S). rewrite (node_fun _ _ _ _ N1 N) in S. destruct (OW _ _ S) as (q & Q & _). exists q. now apply HF.
        * destruct (ALL _ _ M i (or_introl eq_refl)) as (j' & DJ & KJ); [eapply node_copies; eauto|]. destruct (copy_property _ _ _ _ _ KJ PP') as (p' & (nj & NJ & S) & _).
          destruct (DN _ DJ) as (nj' & NJ' & A1 & _). rewrite (node_fun _ _ _ _ NJ NJ') in S. destruct (A1 _ _ S) as (q & Q). exists q. now apply HF.
    - intros k p (n' & N1 & S). rewrite (node_fun _ _ _ _ N1 N') in S. destruct (OW _ _ S) as (q & Q & K). exists q. split; [now apply HF|auto].
    - intros k q Q. apply HF in Q. destruct (PR _ _ Q) as (j & p & P & PP & K). exists j, p. split; [now apply PT|]. split; [eapply property_adds; eauto|auto].
    - intro x. rewrite (requires_node _ _ _ x LN). split.
      + intro X. destruct (SO _ X) as (j & P & RJ). exists j. split; [now apply PT|eapply requires_adds; eauto].
      + intros (j & P & RJ). apply PT in P. apply (requires_same h _ GR) in RJ; [|eapply part_node; [|exact P]; eauto]. destruct P as [<-|M].
        * apply RQ. apply (requires_node _ _ _ x N). exact RJ.
        * destruct (ALL _ _ M i (or_introl eq_refl)) as (j' & DJ & KJ); [eapply node_copies; eauto|]. pose proof (copy_requires _ _ _ _ KJ RJ) as RJ'. destruct (DN _ DJ) as (nj' & NJ' & _ & A2 & _). apply A2. apply (requires_node _ _ _ x NJ'). exact RJ'.
    - intros k v (n' & N1 & S) NE NC. rewrite (node_fun _ _ _ _ N1 N') in S. exists f. split; [exact LN|]. auto.
  Qed.
End Gather.
