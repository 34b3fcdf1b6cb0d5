(** C62: every field of the 1.2 specification is there, with what the documents say. *)
From Coq Require Import Lia.
From Verif Require Import PyBase PyFacts PyJson P_Op M_SpecVal M_Parse M_OldParse S_Parse S_Validate S_OldParse P_SpecBase P_Parse P_OldParse P_Validate T_OldParse P_Wf S_Swagger12.
Close Scope Q_scope.

(** ** Lemmas *)
Definition meant12 (c : ocls) (n : str) (k : kind12) (a : val) : Prop := exists df, sget n (o_fields c) = Some df /\
  match k with
  | Value12 => sget n (o_child c) = None /\ (str_eqb n (lit "items") && is_data_type c = false) /\ a = inject df
  | Object12 cc => sget n (o_child c) = Some (XOne, cc) /\ str_eqb n (lit "apis") = false /\ inject df = VNone /\ a = VNone
  | Objects12 cc => sget n (o_child c) = Some (XList, cc) /\ str_eqb n (lit "apis") = false /\ inject df = VNone /\ a = VList []
  | Named12 cc => sget n (o_child c) = Some (XDict, cc) /\ str_eqb n (lit "apis") = false /\ inject df = VNone /\ a = VDict []
  | NamedLists12 cc => sget n (o_child c) = Some (XDictList, cc) /\ str_eqb n (lit "apis") = false /\ inject df = VNone /\ a = VDict []
  | Items12 => sget n (o_child c) = None /\ (n = lit "items" /\ is_data_type c = true) /\ inject df = VNone /\ a = VNone
  | Operations12 => sget n (o_child c) = Some (XList, OApi) /\ (n = lit "apis" /\ c = OResource) /\ inject df = VNone /\ a = VDict []
  end.
Lemma tables12 c n k a : In (n, (k, a)) (swagger12 c) -> meant12 c n k a.
Proof.
  assert (F : Forall (fun f : field12 => meant12 c (fst f) (fst (snd f)) (snd (snd f))) (swagger12 c)).
  { destruct c; repeat (constructor; [eexists; split; [vm_compute; reflexivity|]; cbn [fst snd]; split; [vm_compute; reflexivity|]; split; [first [vm_compute; reflexivity|split; reflexivity]|]; first [reflexivity|split; reflexivity]|]); constructor. }
  intro I. rewrite Forall_forall in F. exact (F _ I).
Qed.
Lemma no_more12 c n df : c <> OResourceList -> sget n (o_fields c) = Some df -> In n (map fst (swagger12 c)).
Proof.
  intros NC E. assert (F : forallb (fun x => mem (fst x) (map fst (swagger12 c))) (o_fields c) = true) by (destruct c; try (now destruct NC); vm_compute; reflexivity).
  rewrite forallb_forall in F. apply sget_In in E. now apply F in E; apply mem_In in E.
Qed.
Lemma listed_depth w l x : listed (Some w) l -> In x l -> jdepth x < jdepth w.
Proof. intros L I. inversion L; subst; try (now destruct I). rewrite jdepth_list. pose proof (jldepth_In _ _ I). lia. Qed.
Lemma operations_depth apis l : api_operations apis l -> forall p op, In (p, op) l -> exists d, In (JObj d) apis /\ jdepth op < jdepth (JObj d).
Proof.
  induction 1 as [|d ops apis l L A IH]; intros p op I; [destruct I|]. apply in_app_or in I as [I|I].
  - apply in_map_iff in I as (op' & E & I). injection E as _ ->. exists d. split; [now left|]. rewrite jdepth_obj. inversion L; subst; try (now destruct I). pose proof (jddepth_get d (lit "operations") _ ltac:(eauto)) as J. rewrite jdepth_list in J. pose proof (jldepth_In _ _ I). lia.
  - destruct (IH _ _ I) as (d' & J & D). exists d'. split; [now right|exact D].
Qed.
Lemma Forall2_in {A B} (P Q : A -> B -> Prop) l m : Forall2 P l m -> (forall x y, In x l -> P x y -> Q x y) -> Forall2 Q l m.
Proof. induction 1; intro H1; constructor; [apply H1; [now left|auto]|apply IHForall2; intros; apply H1; [now right|auto]]. Qed.
Lemma field_inv c n df o x : says_field c n df o x ->
  (sget n (o_child c) = None /\ ~ (is_data_type c = true /\ n = lit "items") /\ x = match o with Some j => inject j | None => inject df end) \/
  (n = lit "items" /\ is_data_type c = true /\ (o = None \/ exists j, o = Some j /\ ~ holds_true (inject j)) /\ x = match o with Some j => inject j | None => inject df end) \/
  (n = lit "items" /\ is_data_type c = true /\ exists j, o = Some j /\ holds_true (inject j) /\ says OItems j x) \/
  (exists ct cc, sget n (o_child c) = Some (ct, cc) /\ ~ (c = OResource /\ n = lit "apis") /\ says_in ct cc o x) \/
  (c = OResource /\ n = lit "apis" /\ exists apis l ops, listed o apis /\ api_operations apis l /\
    Forall2 (fun pj no => says OOperation (snd pj) (snd no) /\ entry (snd pj) (lit "nickname") = Some (JStr (fst no)) /\ has_path (snd no) (fst pj)) l ops /\ NoDup (map fst ops) /\ x = VDict ops).
Proof.
  intros [? ? ? ? A B|? ? ? A B|? ? ? ? A H B|? ? ? ct cc ? ? A B C|? ? apis l ops A B C E].
  - auto.
  - right; left. auto.
  - right; right; left. eauto 8.
  - right; right; right; left. eauto 6.
  - right; right; right; right. split; [reflexivity|]. split; [reflexivity|]. exists apis, l, ops. auto.
Qed.
Lemma plain12 c n df o x : sget n (o_child c) = None -> str_eqb n (lit "items") && is_data_type c = false -> says_field c n df o x -> x = match o with Some j => inject j | None => inject df end.
Proof.
  intros T U SF. apply field_inv in SF as [(_ & _ & E)|[(-> & I & _)|[(-> & I & _)|[(ct & cc & T' & _)|(-> & -> & _)]]]]; [exact E| | |congruence|discriminate T].
  - rewrite I in U. discriminate U.
  - rewrite I in U. discriminate U.
Qed.
Lemma child12 c n df o x ct cc : sget n (o_child c) = Some (ct, cc) -> str_eqb n (lit "apis") = false -> says_field c n df o x -> says_in ct cc o x.
Proof.
  intros T U SF. apply field_inv in SF as [(T' & _)|[(-> & I & _)|[(-> & I & _)|[(ct' & cc' & T' & _ & H)|(-> & -> & _)]]]]; [congruence|destruct c; discriminate| destruct c; discriminate| |discriminate U].
  rewrite T in T'. now injection T' as -> ->.
Qed.
Lemma says_reads : forall N c j v, jdepth j < N -> says c j v -> reads12 (Object12 c) j v.
Proof.
  induction N as [|N IH]; intros c j v D H; [lia|].
  assert (IHL : forall w cc l m, listed (Some w) l -> jdepth w < S N -> Forall2 (says cc) l m -> Forall2 (reads12 (Object12 cc)) l m).
  { intros w cc l m L DW F. eapply Forall2_in; [exact F|]. intros x y I S0. apply IH; [|exact S0]. pose proof (listed_depth _ _ _ L I). lia. }
  inversion H as [? h fs ints NR C FS|? d h fs ints C F]; subst.
  - apply o_null; [assumption|]. intros n k a I. destruct (tables12 c n k a I) as (df & G & M). eexists. split; [rewrite (sget_map (fun nd => inject nd)), G; reflexivity|].
    destruct k; destruct M as (_ & _ & M); [left; congruence|right; apply M..].
  - apply o_object; [assumption|]. intros n k a I. destruct (tables12 c n k a I) as (df & G & M). destruct (F n df G) as (x & X & SF). exists x. split; [exact X|]. rewrite jdepth_obj in D.
    assert (DG : forall w, sget n d = Some w -> jdepth w < N). { intros w W. pose proof (jddepth_get _ _ _ W). lia. }
    destruct k as [|cc|cc|cc|cc| |]; destruct M as (T & U & M).
    + rewrite (plain12 _ _ _ _ _ T U SF). subst a. destruct (sget n d) as [w|]; [|auto]. right. destruct w; [left; auto|right; eexists; split; [reflexivity|]; split; [discriminate|constructor]..].
    + destruct M as (_ & ->). apply (child12 _ _ _ _ _ _ _ T U) in SF. destruct (sget n d) as [w|] eqn:W; inversion SF as [? ? [E|E]|? ? ? NW S0| | |]; subst; try discriminate E; [injection E as ->; auto| |auto].
      right; right. exists w. split; [reflexivity|]. split; [exact NW|]. apply IH; [now apply DG|exact S0].
    + destruct M as (_ & ->). apply (child12 _ _ _ _ _ _ _ T U) in SF. inversion SF as [| |? ? l m L F2| |]; subst.
      destruct (sget n d) as [w|] eqn:W; [|inversion L; subst; inversion F2; subst; auto].
      destruct w; try (right; right; eexists; split; [reflexivity|]; split; [discriminate|]; eapply o_objects; [split; [discriminate|exact L]|]; eapply IHL; [exact L|specialize (DG _ eq_refl); lia|exact F2]).
      right; left. inversion L; subst. inversion F2; subst. auto.
    + destruct M as (_ & ->). apply (child12 _ _ _ _ _ _ _ T U) in SF. inversion SF as [| | |? ? e m L F2|]; subst.
      destruct (sget n d) as [w|] eqn:W; inversion L; subst; [inversion F2; subst; auto| |inversion F2; subst; auto]. right; right. eexists. split; [reflexivity|]. split; [discriminate|]. apply o_named. eapply Forall2_in; [exact F2|]. intros [k1 x1] [k2 x2] IN (K & S0). split; [exact K|]. cbn [snd] in *. apply IH; [|exact S0].
      pose proof (jddepth_In _ _ _ IN). specialize (DG _ eq_refl). rewrite jdepth_obj in DG. lia.
    + destruct M as (_ & ->). apply (child12 _ _ _ _ _ _ _ T U) in SF. inversion SF as [| | | |? ? e m L F2]; subst.
      destruct (sget n d) as [w|] eqn:W; inversion L; subst; [inversion F2; subst; auto| |inversion F2; subst; auto]. right; right. eexists. split; [reflexivity|]. split; [discriminate|]. apply o_named_lists. eapply Forall2_in; [exact F2|]. intros [k1 x1] [k2 x2] IN (K & l & xs & L1 & E2 & F3). split; [exact K|]. cbn [snd] in *. exists l, xs. split; [exact L1|]. split; [exact E2|].
      eapply IHL; [exact (proj2 L1)| |exact F3]. pose proof (jddepth_In _ _ _ IN). specialize (DG _ eq_refl). rewrite jdepth_obj in DG. lia.
    + destruct U as (-> & U), M as (ID & ->). apply field_inv in SF as [(_ & NI & _)|[(_ & _ & O & E)|[(_ & _ & w & E & HT & S0)|[(ct & cc & T' & _)|(_ & A & _)]]]]; [destruct NI; auto| | |congruence|discriminate A].
      * destruct O as [O|(w & O & NH)]; rewrite O in *; [subst x; auto|]. right. destruct w; [left; auto|right; eexists; split; [reflexivity|]; split; [discriminate|]; subst x; now apply o_no_items..].
      * rewrite E in *. destruct w; try (right; right; eexists; split; [reflexivity|]; split; [discriminate|]; apply o_items, IH; [now apply DG|exact S0]).
        apply holds_true_iff in HT. discriminate HT.
    + destruct U as (-> & ->), M as (ID & ->). apply field_inv in SF as [(T' & _)|[(A & _)|[(A & _)|[(ct & cc & T' & NA & _)|(_ & _ & apis & l & ops & L & AO & F2 & ND & ->)]]]]; [congruence|discriminate A|discriminate A|destruct NA; auto|].
      destruct (sget (lit "apis") d) as [w|] eqn:W; [|inversion L; subst; inversion AO; subst; inversion F2; subst; auto].
      destruct w; try (right; right; eexists; split; [reflexivity|]; split; [discriminate|]; eapply o_operations; [split; [discriminate|exact L]|exact AO|exact ND|];
        eapply Forall2_in; [exact F2|]; intros [pp op] [k2 x2] IN (S0 & NN & HP); split; [exact NN|]; split; [exact HP|]; cbn [snd] in *; apply IH; [|exact S0];
        destruct (operations_depth _ _ AO _ _ IN) as (dd & ID' & DD); pose proof (listed_depth _ _ _ L ID'); specialize (DG _ eq_refl); lia).
      right; left. inversion L; subst; inversion AO; subst; inversion F2; subst; auto.
Qed.

(** ** C62 *)
(** Whatever document is parsed as an object of the 1.2 specification: every field of the
    specification is there, with what the document says. *)
Theorem c62_old_reads : forall c pl j v, c <> OResourceList -> wf j -> o_parse c pl j = Ok v -> reads12 (Object12 c) j v.
Proof. intros c pl j v N W E. eapply says_reads; eauto. eapply c55_object; eauto. Qed.
Print Assumptions c62_old_reads.
(** So it is for the listing, whose resources come from other documents. *)
Theorem c62_old_listing : forall fetch root_url d v, wf (JObj d) -> (forall u doc, fetch u = Ok doc -> wf doc) -> parse_listing fetch root_url (JObj d) = Ok v ->
  exists h fs ints, v = VObj h fs ints /\ h_cls h = COld OResourceList /\
    (forall n k a, In (n, (k, a)) (swagger12 OResourceList) -> exists x, sget n fs = Some x /\
       ((sget n d = None /\ x = a) \/ (sget n d = Some JNull /\ x = nothing12 k) \/ exists w, sget n d = Some w /\ w <> JNull /\ reads12 k w x)) /\
    exists resources, sget (lit "apis") fs = Some (VDict resources) /\
      forall n r, sget n resources = Some r -> exists url doc, fetch url = Ok doc /\ reads12 (Object12 OResource) doc r.
Proof.
  intros fetch root_url d v W FW E. apply c55_listing in E as (h & fs & ints & rs & apis & base & -> & C & F & G & _ & _ & _ & _ & _ & R); [|exact W|exact FW].
  assert (S0 : says OResourceList (JObj d) (VObj h (map (fun nx => (fst nx, if str_eqb (fst nx) (lit "apis") then match sget (lit "apis") d with Some j => inject j | None => VNone end else snd nx)) fs) ints)).
  { apply says_obj; [exact C|]. intros n df ND. rewrite (sget_mapk (fun n x => if str_eqb n (lit "apis") then match sget (lit "apis") d with Some j => inject j | None => VNone end else x)). destruct (str_eqb n (lit "apis")) eqn:NA.
    - apply str_eqb_eq in NA. subst n. rewrite G. eexists. split; [reflexivity|]. injection ND as <-. apply (field_plain OResourceList (lit "apis") JNull (sget (lit "apis") d)); [reflexivity|]. intros (X & _). discriminate X.
    - destruct (F n df ND) as (x & X & SF); [intros ->; discriminate NA|]. rewrite X. eexists. split; [reflexivity|exact SF]. }
  exists h, fs, ints. split; [reflexivity|]. split; [exact C|]. split.
  - intros n k a I. apply (says_reads (S (jdepth (JObj d)))) in S0; [|lia]. inversion S0 as [|? ? ? ? ? _ A| | | | | | |]; subst. destruct (A n k a I) as (x & X & Y).
    rewrite (sget_mapk (fun n x => if str_eqb n (lit "apis") then match sget (lit "apis") d with Some j => inject j | None => VNone end else x)) in X.
    destruct (str_eqb n (lit "apis")) eqn:NA; [apply str_eqb_eq in NA; subst n; exfalso; destruct I as [I|[I|[I|[I|[]]]]]; discriminate I|].
    destruct (sget n fs) as [y|]; [|discriminate X]. injection X as <-. eauto.
  - exists rs. split; [exact G|]. intros n r GR. destruct (R n r GR) as (url & doc & _ & FD & S1). exists url, doc. split; [exact FD|]. eapply says_reads; eauto.
Qed.
Print Assumptions c62_old_listing.
(** and there are no other fields. *)
Theorem c62_old_no_other : forall c pl j v ts h fs ints cc n x, c <> OResourceList -> wf j -> o_parse c pl j = Ok v ->
  reach [] v ts (VObj h fs ints) -> h_cls h = COld cc -> sget n fs = Some x -> cc = OResourceList \/ In n (map fst (swagger12 cc)).
Proof.
  intros c pl j v ts h fs ints cc n x N W E R C G. destruct (parsef_made 4 c pl j v N W E) as (_ & _ & WV & _). pose proof (reach_wf _ _ _ _ R WV) as WO. inversion WO as [| | | | | | |? ? ? K _]; subst.
  assert (D : cc = OResourceList \/ cc <> OResourceList) by (destruct cc; auto; right; discriminate). destruct D as [D|D]; [auto|right]. rewrite C in K. cbn [t_fields] in K.
  apply sget_In, (in_map fst) in G. cbn [fst] in G. rewrite K in G. apply in_map_iff in G as ([n' df] & <- & I). cbn [fst]. eapply no_more12; [exact D|]. apply In_sget; [|exact I]. clear. destruct cc; apply nodupb_ok; vm_compute; reflexivity.
Qed.
Print Assumptions c62_old_no_other.
Definition pets : json := JObj
  [(lit "basePath", JStr (lit "http://a/b")); (lit "resourcePath", JStr (lit "/pet"));
   (lit "apis", JList [JObj [(lit "path", JStr (lit "/pet/{id}")); (lit "operations", JList [JObj [(lit "method", JStr (lit "GET")); (lit "nickname", JStr (lit "get")); (lit "type", JStr (lit "array"));
     (lit "items", JObj [(lit "$ref", JStr (lit "Pet"))]); (lit "authorizations", JObj [(lit "key", JList [JObj [(lit "scope", JStr (lit "read"))]])]);
     (lit "parameters", JList [JObj [(lit "paramType", JStr (lit "path")); (lit "name", JStr (lit "id"))]])]])]]);
   (lit "models", JObj [(lit "Pet", JObj [(lit "id", JStr (lit "Pet")); (lit "properties", JObj [(lit "name", JObj [(lit "type", JStr (lit "string"))])])])])].
Example c62_old_hypotheses : wf pets /\ exists v, o_parse OResource [] pets = Ok v.
Proof. split; [apply wfb_ok; vm_compute; reflexivity|]. eexists. vm_compute. reflexivity. Qed.
