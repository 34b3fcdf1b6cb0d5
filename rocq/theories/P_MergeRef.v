(** Proofs about following references. *)
From Coq Require Import Lia.
From Verif Require Import PyBase PyFacts PyJson P_Op M_SpecVal M_Parse M_SpecTree M_Merge M_MergeRef S_Parse S_SpecTree S_Merge S_MergeRef P_SpecBase P_Parse P_SpecTree P_Compare P_Merge P_MergeShape.
Close Scope Q_scope.

(** ** Basics *)
Definition no_dicts (v : val) : Prop := match v with VObj _ _ ints => forall n d, sget n ints <> Some (VDict d) | _ => True end.
Lemma containers_dicts v : no_containers v -> no_dicts v.
Proof. destruct v; cbn; auto. intros H n d G. apply (H n _ G). right. eauto. Qed.
Lemma reference_none v : reference v = Ok None <-> empty_value v.
Proof. unfold reference. rewrite <- falsy_spec. destruct (falsy v); [tauto|]. destruct v; split; discriminate. Qed.
Lemma reference_some v s : reference v = Ok (Some s) <-> s <> [] /\ v = VStr s.
Proof.
  unfold reference. destruct (falsy v) eqn:F.
  - split; [discriminate|]. intros [N ->]. destruct s; [congruence|discriminate F].
  - destruct v as [| | | |t| | |]; split; try discriminate; try (intros [_ E]; discriminate E).
    + intro E. injection E as ->. split; [|reflexivity]. intros ->. discriminate F.
    + intros [_ E]. now injection E as ->.
Qed.
Lemma ref_of_none o : ref_of o = Ok None <-> no_reference o.
Proof.
  unfold ref_of, no_reference, field_of. destruct o; try (split; [discriminate|intros (x & E & _); discriminate E]).
  destruct (sget _ fs) as [r|]; [|split; [discriminate|intros (x & E & _); discriminate E]]. rewrite reference_none. split; [eauto|].
  intros (x & E & H). now injection E as ->.
Qed.
Lemma ref_of_some o s : ref_of o = Ok (Some s) <-> refers o s.
Proof.
  unfold ref_of, refers, field_of. destruct o; try (split; [discriminate|intros [_ E]; discriminate E]).
  destruct (sget _ fs) as [r|]; [|split; [discriminate|intros [_ E]; discriminate E]]. rewrite reference_some. split; [intros [A ->]; auto|].
  intros [A E]. split; [exact A|]. now injection E as ->.
Qed.
Lemma place_eqb_eq a b : place_eqb a b = true <-> a = b.
Proof. unfold place_eqb. destruct (list_eq_dec (list_eq_dec ascii_dec) a b); split; congruence. Qed.
Lemma visited_spec g h fs ints : visited g (VObj h fs ints) = true <-> In (h_place h) g.
Proof. cbn [visited]. rewrite existsb_exists. setoid_rewrite place_eqb_eq. split; [intros (x & I & ->); exact I|eauto]. Qed.
Lemma same_class_spec c v : same_class c v = true <-> is_class c v.
Proof.
  unfold is_class. destruct v; cbn [same_class]; split; try discriminate; try (intros (? & ? & ? & E & _); discriminate E).
  - intro E. apply cls_eqb_eq in E. eauto.
  - intros (h' & fs' & ints' & E & <-). injection E as <- <- <-. apply cls_eqb_refl.
Qed.
Lemma shaped_dicts h fs ints n d : shaped (Of (h_cls h)) (VObj h fs ints) -> sget n fs = Some (VDict d) -> NoDup (map fst d).
Proof.
  intros S G. inversion S as [| |? ? ? _ _ P C]; subst. destruct (sget n (t_child (h_cls h))) as [[ct cc]|] eqn:T.
  - specialize (C _ _ _ _ G T). inversion C as [|? ? S'| |]; subst; [|assumption]. exfalso. apply shaped_produced in S'. destruct cc; discriminate S'.
  - destruct (P _ _ G T) as [W _]. now inversion W.
Qed.

(** ** Merging a list of objects *)
Fixpoint merge_all (r : val) (l : list val) : res val :=
  match l with [] => Ok r | o :: l => do r <- merge r o []; merge_all r l end.
Lemma follow_ok look c : forall fuel result guard o r out, ref_of o = Ok r -> follow look fuel c result guard r = Ok out ->
  exists l, chain look c guard o (o :: l) /\ merge_all result l = Ok out /\ Forall (fun x => exists s, look s = Ok x) l.
Proof.
  induction fuel as [|fuel IH]; intros result guard o r out R F; destruct r as [s|]; cbn [follow] in F; try discriminate F.
  - injection F as <-. exists []. split; [apply chain_end; now apply ref_of_none|]. split; [reflexivity|constructor].
  - apply ref_of_some in R. apply bind_ok in F as (ro & L & F). destruct (same_class c ro) eqn:C; [|discriminate F]. cbn [negb] in F.
    apply same_class_spec in C as (h & fs & ints & -> & C). destruct (visited guard (VObj h fs ints)) eqn:V.
    + injection F as <-. apply visited_spec in V. exists []. split; [eapply chain_again; eauto|]. split; [reflexivity|constructor].
    + apply bind_ok in F as (result' & M & F). apply bind_ok in F as (r' & R' & F). destruct (IH _ _ _ _ _ R' F) as (l & CH & MA & FL).
      exists (VObj h fs ints :: l). split; [|split].
      * eapply chain_next; eauto. intro I. apply visited_spec with (fs := fs) (ints := ints) in I. congruence.
      * cbn [merge_all]. rewrite M. exact MA.
      * constructor; eauto.
  - injection F as <-. exists []. split; [apply chain_end; now apply ref_of_none|]. split; [reflexivity|constructor].
Qed.
Lemma merge_refs_ok look fuel pl obj r : merge_refs look fuel pl obj = Ok r ->
  exists h fs ints l, obj = VObj h fs ints /\ chain look (h_cls h) [h_place h] obj (obj :: l) /\
    (do f <- fresh (h_cls h) pl; merge_all f (obj :: l)) = Ok r /\ Forall (fun x => exists s, look s = Ok x) l.
Proof.
  unfold merge_refs. destruct obj as [| | | | | | |h fs ints]; try discriminate. intro E. apply bind_ok in E as (f & F & E). apply bind_ok in E as (g & G & E). apply bind_ok in E as (o & O & E).
  destruct (follow_ok _ _ _ _ _ _ _ _ O E) as (l & CH & M & FL). exists h, fs, ints, l. split; [reflexivity|]. split; [exact CH|]. split; [|exact FL].
  rewrite F. cbn [bind merge_all]. rewrite G. exact M.
Qed.

(** ** What the fields become *)
Lemma reparent1_trans a b c : reparent1 a b -> reparent1 b c -> reparent1 a c.
Proof. intros A B. inversion A; subst; auto. inversion B; subst; cbn [h_cls h_place h_keys]; constructor. Qed.
Lemma Forall2_trans {A} (P : A -> A -> Prop) : (forall a b c, P a b -> P b c -> P a c) -> forall l m n, Forall2 P l m -> Forall2 P m n -> Forall2 P l n.
Proof. intros H l m n F. revert n. induction F; intros n G; inversion G; subst; constructor; eauto. Qed.
Lemma Forall2_self {A} (P : A -> A -> Prop) l : (forall a, P a a) -> Forall2 P l l.
Proof. intro H. induction l; constructor; auto. Qed.
Lemma reparent_list_inv l w : reparent (VList l) w -> exists m, w = VList m /\ Forall2 reparent1 l m.
Proof.
  intro R. inversion R as [? ? R'|? m F|]; subst; [|eauto]. inversion R'; subst. exists l. split; [reflexivity|]. apply Forall2_self. intro. constructor.
Qed.
Lemma reparent_dict_inv d w : reparent (VDict d) w -> exists e, w = VDict e /\ Forall2 (fun kv kw => fst kv = fst kw /\ reparent1 (snd kv) (snd kw)) d e.
Proof.
  intro R. inversion R as [? ? R'| |? m F]; subst; [|eauto]. inversion R'; subst. exists d. split; [reflexivity|]. apply Forall2_self. intro. split; [reflexivity|constructor].
Qed.
Lemma reparent_trans a b c : reparent a b -> reparent b c -> reparent a c.
Proof.
  intros A B. destruct a.
  6: { apply reparent_list_inv in A as (m & -> & F). apply reparent_list_inv in B as (n & -> & G). apply rp_list. eapply Forall2_trans; [apply reparent1_trans|exact F|exact G]. }
  6: { apply reparent_dict_inv in A as (m & -> & F). apply reparent_dict_inv in B as (n & -> & G). apply rp_dict.
       eapply Forall2_trans; [|exact F|exact G]. cbn. intros x y z [E1 R1] [E2 R2]. split; [congruence|]. eapply reparent1_trans; eauto. }
  all: inversion A as [? ? R1| |]; subst; inversion R1; subst; auto; inversion B as [? ? R2| |]; subst; apply rp_one; eapply reparent1_trans; eauto.
Qed.
Lemma reparent_default v w df : simple_default df = true -> reparent v w -> equals_default v df <-> equals_default w df.
Proof.
  intros SD R. rewrite <- !(equals_default_spec _ _ SD).
  assert (X : is_default v df = is_default w df); [|now rewrite X].
  destruct v.
  6: { apply reparent_list_inv in R as (m & -> & F). destruct F; reflexivity. }
  6: { apply reparent_dict_inv in R as (m & -> & F). destruct F; reflexivity. }
  all: inversion R as [? ? R1| |]; subst; inversion R1; subst; try reflexivity; destruct df as [| | | | |[]|[]]; reflexivity.
Qed.
Lemma reparent_plain v w : ~ container v -> (forall h fs ints, v <> VObj h fs ints) -> reparent v w -> w = v.
Proof. intros C N R. inversion R as [? ? R1|l ? ?|d ? ?]; subst; [inversion R1; subst; [exfalso; eapply N; eauto|reflexivity]|exfalso; apply C; left; eauto|exfalso; apply C; right; eauto]. Qed.
Lemma reparent_inject df w : simple_default df = true -> reparent (inject df) w -> w = inject df.
Proof.
  intros SD R. destruct df as [| | | | |[]|[]]; try discriminate SD; cbn [inject map] in *.
  4: { apply reparent_list_inv in R as (m & -> & F). now inversion F. }
  4: { apply reparent_dict_inv in R as (m & -> & F). now inversion F. }
  all: inversion R as [? ? R1| |]; subst; inversion R1; subst; reflexivity.
Qed.

Lemma merge_field c r o r' : shaped (Of c) r -> shaped (Of c) o -> no_dicts r -> merge r o [] = Ok r' ->
  place_of r' = place_of r /\ shaped (Of c) r' /\ (no_dicts o -> no_dicts r') /\
  forall n df pl, sget n (t_fields c) = Some df -> place_of r = Some pl -> exists sv ov rv, field_of r n = Some sv /\ field_of o n = Some ov /\ field_of r' n = Some rv /\
    merged [] c pl n df sv ov rv.
Proof.
  intros SR SO ND E. pose proof (merge_shaped _ _ _ _ _ SR SO E) as SR'.
  pose proof (shaped_obj _ _ SR) as (h & fs & ints & -> & <-). pose proof (shaped_obj _ _ SO) as (k & es & jnts & -> & C).
  apply merge_obj_merged in E as (_ & fs' & ints' & ks & -> & KF & KI & MF & MI & _).
  - split; [reflexivity|]. split; [exact SR'|]. split.
    + cbn [no_dicts] in *. intros NO n d G.
      assert (T : exists df, sget n (t_internal (h_cls h)) = Some df) by (apply sget_Some_key; rewrite <- KI; apply sget_Some_key; eauto). destruct T as (df & T).
      destruct (MI n df T) as (sv & ov & rv & S & O & R & M). rewrite G in R. injection R as <-.
      assert (RP : reparent sv (VDict d) -> False).
      { intro RP. inversion RP as [? ? R1| |e ? F]; subst; [inversion R1; subst; now apply ND in S|now apply ND in S]. }
      inversion M; subst; try (now apply ND in S); try (now apply NO in O); auto.
      pose proof (internal_no_child _ _ _ T). congruence.
    + intros n df pl T P. injection P as <-. destruct (MF n df T) as (sv & ov & rv & S & O & R & M). exists sv, ov, rv. auto.
  - apply clones_well_all.
  - intros n d G. eapply shaped_dicts; eauto.
  - intros n d G. exfalso. eapply ND; eauto.
Qed.

Section Field.
  Context (c : cls) (n : str) (df : json) (T : sget n (t_fields c) = Some df).
  Lemma SD : simple_default df = true. Proof. eapply fields_default; eauto. Qed.
  Lemma default_dec v : equals_default v df \/ ~ equals_default v df.
  Proof. destruct (is_default v df) eqn:E; [left; apply equals_default_spec|right; apply not_default_spec]; auto using SD. Qed.
  Definition every (P : val -> Prop) (l : list val) : Prop := forall o, In o l -> shaped (Of c) o /\ no_dicts o /\ exists x, field_of o n = Some x /\ P x.
  (** A general accumulation *)
  Lemma merge_all_ind (P : val -> Prop) (Q : list val -> val -> Prop) pl :
    (forall done o sv ov rv, Q done sv -> field_of o n = Some ov -> P ov -> merged [] c pl n df sv ov rv -> Q (done ++ [o]) rv) ->
    forall l r out done sv, shaped (Of c) r -> no_dicts r -> place_of r = Some pl -> every P l -> field_of r n = Some sv -> Q done sv ->
    merge_all r l = Ok out -> shaped (Of c) out /\ no_dicts out /\ place_of out = Some pl /\ exists rv, field_of out n = Some rv /\ Q (done ++ l) rv.
  Proof.
    intros STEP. induction l as [|o l IH]; intros r out done sv SR NR PR EV F Q0 E; cbn [merge_all] in E.
    - injection E as <-. rewrite app_nil_r. eauto 8.
    - apply bind_ok in E as (r' & M & E). destruct (EV o (or_introl eq_refl)) as (SO & NO & ov & FO & PO).
      destruct (merge_field c r o r' SR SO NR M) as (PL & SR' & ND & MF). destruct (MF n df pl T PR) as (sv' & ov' & rv & F1 & F2 & F3 & MG).
      rewrite F in F1. rewrite FO in F2. injection F1 as <-. injection F2 as <-.
      replace (done ++ o :: l) with ((done ++ [o]) ++ l) by (rewrite <- app_assoc; reflexivity).
      eapply (IH r' out (done ++ [o]) rv); auto.
      + now rewrite PL.
      + intros x I. apply EV. now right.
      + eapply STEP; eauto.
  Qed.
  Lemma first_set_app l m x : first_set n df l x -> first_set n df (l ++ m) x.
  Proof. intros (l1 & o & l2 & -> & H). exists l1, o, (l2 ++ m). rewrite <- app_assoc. auto. Qed.
  Lemma never_app l o x : never_set n df l -> field_of o n = Some x -> equals_default x df -> never_set n df (l ++ [o]).
  Proof. intros N F E o' I. apply in_app_or in I as [I|[<-|[]]]; eauto. Qed.
  Lemma first_now l o x : never_set n df l -> field_of o n = Some x -> ~ equals_default x df -> first_set n df (l ++ [o]) x.
  Proof. intros N F E. exists l, o, []. auto. Qed.
  Lemma eq_inject_default : equals_default (inject df) df. Proof. now constructor. Qed.
  Lemma scalars pl r l out : sget n (t_child c) = None ->
    shaped (Of c) r -> no_dicts r -> place_of r = Some pl -> field_of r n = Some (inject df) ->
    every (fun x => ~ container x) l -> merge_all r l = Ok out ->
    exists rv, field_of out n = Some rv /\ (first_set n df l rv \/ never_set n df l /\ rv = inject df).
  Proof.
    intros TC SR NR PR F EV E.
    assert (NOB : every (fun x => ~ container x /\ forall h fs ints, x <> VObj h fs ints) l).
    { intros o I. destruct (EV o I) as (S & N & x & FX & C). split; [exact S|]. split; [exact N|]. exists x. split; [exact FX|]. split; [exact C|].
      pose proof (shaped_obj _ _ S) as (h & fs & ints & -> & <-). inversion S as [| |? ? ? _ _ PL _]; subst. destruct (PL n x FX TC) as [_ NO]. intros h' fs' ints' ->. apply no_object_here in NO. now apply NO. }
    destruct (merge_all_ind (fun x => ~ container x /\ forall h fs ints, x <> VObj h fs ints)
      (fun done v => (first_set n df done v /\ ~ equals_default v df /\ ~ container v /\ (forall h fs ints, v <> VObj h fs ints)) \/ never_set n df done /\ v = inject df) pl) with (l := l) (r := r) (out := out) (done := @nil val) (sv := inject df)
      as (_ & _ & _ & rv & FR & Q); auto.
    - intros done o sv ov rv A FO [CO NO] M. destruct A as [(A & D & C & N)|[A ->]].
      + assert (X : rv = sv).
        { inversion M; subst; try contradiction; try congruence; try (now apply reparent_plain); exfalso; apply CO; [left|right]; eauto. }
        subst rv. left. split; [now apply first_set_app|auto].
      + pose proof eq_inject_default as EI. inversion M; subst; try contradiction; try congruence.
        * right. split; [eapply never_app; eauto|]. apply reparent_inject; [apply SD|assumption].
        * left. split; [now apply first_now|auto].
        * exfalso; apply CO; left; eauto.
        * exfalso; apply CO; right; eauto.
    - right. split; [intros ? []|reflexivity].
    - exists rv. split; [exact FR|]. cbn [app] in Q. destruct Q as [(Q & _)|Q]; auto.
  Qed.
  (** Children *)
  Lemma copied_default ct cc pl x w : shaped_in ct cc x -> copied_in ct cc pl x w -> ~ equals_default x df -> ~ equals_default w df.
  Proof.
    intros S C. rewrite <- !(not_default_spec _ _ SD). intro D. inversion C as [|c' pl' v w' C'|c' pl' l m L _|c' pl' v V|c' pl' d e FF]; subst; auto.
    - assert (O : forall c pl v w, copied c pl v w -> (exists b, v = VBool b /\ w = VBool b) \/ exists h fs ints, w = VObj h fs ints).
      { clear. intros c pl v w C. induction C; eauto 10. }
      apply O in C' as [(b & -> & ->)|(h & fs & ints & ->)]; [exact D|]. pose proof SD. destruct df as [| | | | |[]|[]]; reflexivity.
    - destruct l, m; try discriminate L; auto.
    - exfalso. destruct V as [->| ->]; inversion S.
    - destruct FF; auto.
  Qed.
  Lemma children_first ct cc pl r l out : sget n (t_child c) = Some (ct, cc) ->
    shaped (Of c) r -> no_dicts r -> place_of r = Some pl -> field_of r n = Some (inject df) ->
    every (fun _ => True) l -> merge_all r l = Ok out ->
    exists rv, field_of out n = Some rv /\ ((exists x w, first_set n df l x /\ copied_in ct cc (pl ++ [n]) x w /\ reparent w rv) \/ never_set n df l /\ rv = inject df).
  Proof.
    intros TC SR NR PR F EV E.
    destruct (merge_all_ind (fun x => shaped_in ct cc x)
      (fun done v => (exists x w, first_set n df done x /\ copied_in ct cc (pl ++ [n]) x w /\ reparent w v /\ ~ equals_default v df) \/ never_set n df done /\ v = inject df) pl)
      with (l := l) (r := r) (out := out) (done := @nil val) (sv := inject df) as (_ & _ & _ & rv & FR & Q); auto.
    - intros done o sv ov rv A FO SO M. destruct A as [(x & w & A & C & R & D)|[A ->]].
      + assert (X : reparent sv rv) by (inversion M; subst; try contradiction; try congruence; auto).
        left. exists x, w. split; [now apply first_set_app|]. split; [exact C|]. split; [eapply reparent_trans; eauto|]. now rewrite <- (reparent_default sv rv df SD X).
      + pose proof eq_inject_default as EI. inversion M as [| | | | | |? ? ? ? ? ? ? ? ct' cc' D _ TC' ND| ? ? ? ? ? ? ? w ? ct' cc' D _ TC' _ C R]; subst; try contradiction; try congruence.
        * right. split; [eapply never_app; eauto|]. apply reparent_inject; [apply SD|assumption].
        * rewrite TC in TC'. injection TC' as <- <-. left. exists ov, w. split; [now apply first_now|]. split; [exact C|]. split; [exact R|].
          rewrite <- (reparent_default w rv df SD R). eapply copied_default; eauto.
    - intros o I. destruct (EV o I) as (S & N & x & FX & _). split; [exact S|]. split; [exact N|]. exists x. split; [exact FX|].
      pose proof (shaped_obj _ _ S) as (h & fs & ints & -> & <-). exact (shaped_child _ _ _ _ _ _ _ _ S FX TC).
    - right. split; [intros ? []|reflexivity].
    - exists rv. split; [exact FR|]. cbn [app] in Q. destruct Q as [(x & w & Q1 & Q2 & Q3 & _)|Q]; eauto 8.
  Qed.
  (** Dicts *)
  Lemma first_key_more k l o ov y : first_key n k l y -> field_of o n = Some ov -> first_key n k (l ++ [o]) (match y with Some x => Some x | None => key_in k ov end).
  Proof.
    intros [(l1 & o1 & l2 & d & x & -> & F & G & -> & H)|[-> H]] FO.
    - left. exists l1, o1, (l2 ++ [o]), d, x. rewrite <- app_assoc. repeat split; auto.
    - assert (H2 : key_in k ov = None -> forall o' d', In o' (l ++ [o]) -> field_of o' n = Some (VDict d') -> sget k d' = None).
      { intros K o' d' I F. apply in_app_or in I as [I|[<-|[]]]; [eapply H; eauto|]. rewrite FO in F. injection F as ->. exact K. }
      destruct (key_in k ov) as [x|] eqn:K; [|right; split; [reflexivity|apply H2; reflexivity]]. left. destruct ov as [| | | | | |d|]; try discriminate K. exists l, o, [], d, x. repeat split; auto.
  Qed.
  Lemma dicts pl r l out : sget n (t_child c) = None -> empty_value (inject df) ->
    shaped (Of c) r -> no_dicts r -> place_of r = Some pl -> field_of r n = Some (inject df) ->
    every (fun x => x = inject df \/ exists d, x = VDict d) l -> merge_all r l = Ok out ->
    exists rv, field_of out n = Some rv /\ (rv = inject df \/ exists d, rv = VDict d) /\ forall k, first_key n k l (key_in k rv).
  Proof.
    intros TC EM SR NR PR F EV E.
    assert (KD : forall k, key_in k (inject df) = None) by (intro k; destruct df as [| | | | |[]|[]]; try reflexivity; inversion EM).
    destruct (merge_all_ind (fun x => x = inject df \/ exists d, x = VDict d)
      (fun done v => (v = inject df \/ exists d, v = VDict d) /\ forall k, first_key n k done (key_in k v)) pl)
      with (l := l) (r := r) (out := out) (done := @nil val) (sv := inject df) as (_ & _ & _ & rv & FR & Q); auto.
    - intros done o sv ov rv [A1 A2] FO SO M.
      assert (K : (rv = inject df \/ exists d, rv = VDict d) /\ forall k, key_in k rv = match key_in k sv with Some x => Some x | None => key_in k ov end).
      { inversion M as [? ? ? ? ? ? ? ? X|? ? ? ? ? ? ? ? D R RE|? ? ? ? ? ? ? D _ _ C|? ? ? ? ? ? ? D _ _ C S|? ? ? ? ? ? l0 m0 rr D _ _ SD H|? ? ? ? ? ? d e rr D _ _ SD H| |]; subst; try contradiction; try congruence.
        - rewrite (RE TC). split; [exact A1|]. intro k. destruct (key_in k sv); [reflexivity|]. destruct SO as [->|(d & ->)]; [now rewrite KD|].
          apply equals_default_spec in D; [|apply SD]. destruct d; [reflexivity|]. destruct df as [| | | | |[]|[]]; discriminate D.
        - exfalso. destruct SO as [->|(d & ->)]; [apply D, eq_inject_default|apply C; right; eauto].
        - exfalso. destruct SO as [->|(d & ->)]; [apply D, eq_inject_default|apply C; right; eauto].
        - exfalso. destruct SO as [SO|(d & SO)]; [|discriminate SO]. apply D. now constructor.
        - split; [right; eauto|]. intro k. cbn [key_in]. rewrite H. destruct SD as [->|[ES ->]]; [reflexivity|]. destruct ES; reflexivity. }
      destruct K as [K1 K2]. split; [exact K1|]. intro k. rewrite K2. now apply first_key_more.
    - split; [auto|]. intro k. right. split; [apply KD|intros ? ? []].
    - eauto.
  Qed.
  (** Lists *)
  Lemma equal_trans x y z : equal_elems x y -> equal_elems y z -> equal_elems x z.
  Proof.
    rewrite <- !elem_spec. unfold elem_eqb. destruct (number_of x) as [p|] eqn:X, (number_of y) as [q|] eqn:Y, (number_of z) as [r|] eqn:Z; try discriminate.
    - rewrite !Qeq_bool_iff. intros A B. now rewrite A.
    - destruct x, y, z; try discriminate; auto.
      + rewrite !str_eqb_eq. congruence.
      + rewrite !place_eqb_eq. congruence.
  Qed.
  Lemma united_back l m r x : united l m r -> In x r -> In x l \/ In x m.
  Proof. intros [[_ ->]|(_ & H & _)] I; apply in_app_iff; auto. Qed.
  Lemma united_there l m r x : united l m r -> In x l \/ In x m -> exists y, In y r /\ (x = y \/ equal_elems x y).
  Proof. rewrite <- in_app_iff. intros [[_ ->]|(_ & _ & H & _)] I; [eauto|]. destruct (H x I) as (y & Y & E). eauto. Qed.
  Lemma lists pl r l out : sget n (t_child c) = None -> empty_value (inject df) ->
    shaped (Of c) r -> no_dicts r -> place_of r = Some pl -> field_of r n = Some (inject df) ->
    every (fun x => x = inject df \/ exists m, x = VList m) l -> merge_all r l = Ok out ->
    exists rv, field_of out n = Some rv /\ (rv = inject df \/ exists m, rv = VList m) /\
      (forall x, elem_of rv x -> exists o v, In o l /\ field_of o n = Some v /\ elem_of v x) /\
      (forall o v x, In o l -> field_of o n = Some v -> elem_of v x -> exists y, elem_of rv y /\ (x = y \/ equal_elems x y)).
  Proof.
    intros TC EM SR NR PR F EV E.
    assert (KD : forall x, ~ elem_of (inject df) x).
    { intros x (m & M & I). destruct df as [| | | | |[]|[]]; try discriminate M; [injection M as <-; destruct I|inversion EM]. }
    destruct (merge_all_ind (fun x => x = inject df \/ exists d, x = VList d)
      (fun done v => (v = inject df \/ exists d, v = VList d) /\ (forall x, elem_of v x -> exists o u, In o done /\ field_of o n = Some u /\ elem_of u x) /\
        (forall o u x, In o done -> field_of o n = Some u -> elem_of u x -> exists y, elem_of v y /\ (x = y \/ equal_elems x y))) pl)
      with (l := l) (r := r) (out := out) (done := @nil val) (sv := inject df) as (_ & _ & _ & rv & FR & Q); auto.
    - intros done o sv ov rv (A1 & A2 & A3) FO SO M.
      assert (K : (rv = inject df \/ exists d, rv = VList d) /\ (forall x, elem_of rv x -> elem_of sv x \/ elem_of ov x) /\
                  (forall x, elem_of sv x \/ elem_of ov x -> exists y, elem_of rv y /\ (x = y \/ equal_elems x y))).
      { inversion M as [? ? ? ? ? ? ? ? X|? ? ? ? ? ? ? ? D R RE|? ? ? ? ? ? ? D _ _ C|? ? ? ? ? ? ? D _ _ C S|? ? ? ? ? ? l0 m0 rr D _ _ SD H|? ? ? ? ? ? d e rr D _ _ SD H| |]; subst; try contradiction; try congruence.
        - rewrite (RE TC). split; [exact A1|]. assert (NO : forall x, ~ elem_of ov x).
          { destruct SO as [->|(d & ->)]; [exact KD|]. apply equals_default_spec in D; [|apply SD]. intros x (m & X & I). injection X as <-. destruct d; [destruct I|]. destruct df as [| | | | |[]|[]]; discriminate D. }
          split; [auto|]. intros x [I|I]; [eauto|now apply NO in I].
        - exfalso. destruct SO as [->|(d & ->)]; [apply D, eq_inject_default|apply C; left; eauto].
        - exfalso. destruct SO as [->|(d & ->)]; [apply D, eq_inject_default|apply C; left; eauto].
        - split; [right; eauto|]. assert (SV : forall x, elem_of sv x <-> In x l0).
          { intro x. destruct SD as [->|[ES ->]]; [split; [intros (q & Q & I); now injection Q as ->|intro I; exists l0; auto]|].
            split; [|intros []]. intros (q & -> & I). inversion ES; subst. exact I. }
          split.
          + intros x (q & Q & I). injection Q as <-. destruct (united_back _ _ _ _ H I) as [J|J]; [left; now apply SV|right; exists m0; auto].
          + intros x [I|(q & Q & I)].
            * apply SV in I. destruct (united_there _ _ _ x H (or_introl I)) as (y & Y & EQ). exists y. split; [exists rr; auto|exact EQ].
            * injection Q as <-. destruct (united_there _ _ _ x H (or_intror I)) as (y & Y & EQ). exists y. split; [exists rr; auto|exact EQ].
        - exfalso. destruct SO as [SO|(q & SO)]; [|discriminate SO]. apply D. now constructor. }
      destruct K as (K1 & K2 & K3). split; [exact K1|]. split.
      + intros x I. apply K2 in I as [I|I].
        * destruct (A2 x I) as (o' & u & J & G & H). exists o', u. split; [apply in_or_app; auto|auto].
        * exists o, ov. split; [apply in_or_app; right; now left|auto].
      + intros o' u x I G H. apply in_app_or in I as [I|[<-|[]]].
        * destruct (A3 o' u x I G H) as (y & Y & EQ). destruct (K3 y (or_introl Y)) as (z & Z & EZ). exists z. split; [exact Z|].
          destruct EQ as [->|EQ]; [exact EZ|]. destruct EZ as [<-|EZ]; [auto|]. right. eapply equal_trans; eauto.
        * rewrite FO in G. injection G as <-. apply K3. auto.
    - split; [auto|]. split; [intros x I; now apply KD in I|intros ? ? ? []].
    - eauto.
  Qed.
End Field.

(** ** Merging never runs out of fuel *)
Definition nofuel {A} (x : res A) : Prop := x <> Err OutOfFuel.
Lemma nofuel_bind {A B} (x : res A) (f : A -> res B) : nofuel x -> (forall a, x = Ok a -> nofuel (f a)) -> nofuel (bind x f).
Proof. intros X F. destruct x as [a|e]; cbn [bind]; [auto|]. intro E. injection E as ->. now apply X. Qed.
Lemma nofuel_ok {A} (x : A) : nofuel (Ok x). Proof. discriminate. Qed.
Lemma nofuel_map {A B} (f : A -> res B) l : (forall x, In x l -> nofuel (f x)) -> nofuel (map_res f l).
Proof.
  induction l as [|x l IH]; intro H; cbn [map_res]; [discriminate|]. apply nofuel_bind; [apply H; now left|]. intros y _. apply nofuel_bind; [apply IH; intros; apply H; now right|]. intros. apply nofuel_ok.
Qed.
Lemma nofuel_mapi {A B} (f : nat -> A -> res B) l : forall i, (forall i x, In x l -> nofuel (f i x)) -> nofuel (mapi_res f i l).
Proof.
  induction l as [|x l IH]; intros i H; cbn [mapi_res]; [discriminate|]. apply nofuel_bind; [apply H; now left|]. intros y _. apply nofuel_bind; [apply IH; intros; apply H; now right|]. intros. apply nofuel_ok.
Qed.
Lemma nofuel_assign p t : forall fs, nofuel (assign_fields p t fs).
Proof.
  assert (A1 : forall c v, nofuel (assign1 p c v)) by (intros c v; destruct v; cbn [assign1]; try discriminate; destruct (is_produced _ _); discriminate).
  assert (CA : forall ct c v, nofuel (container_apply ct (assign1 p c) v)).
  { intros ct c v. destruct ct, v; cbn [container_apply]; try discriminate; try apply A1.
    - apply nofuel_bind; [apply nofuel_map; auto|intros; apply nofuel_ok].
    - apply nofuel_bind; [apply nofuel_map; auto|intros; apply nofuel_ok].
    - apply nofuel_bind; [apply nofuel_map; auto|intros; apply nofuel_ok].
    - apply nofuel_bind; [apply nofuel_map|intros; apply nofuel_ok]. intros. apply nofuel_bind; [apply A1|intros; apply nofuel_ok]. }
  induction fs as [|[n v] fs IH]; cbn [assign_fields]; [discriminate|]. apply nofuel_bind.
  - destruct (sget n t) as [[ct c]|]; [|discriminate]. unfold assign_field. apply nofuel_bind; [apply CA|intros; apply nofuel_ok].
  - intros. apply nofuel_bind; [exact IH|intros; apply nofuel_ok].
Qed.
Lemma nofuel_fresh c pl : nofuel (fresh c pl). Proof. rewrite fresh_eq. discriminate. Qed.
Lemma nofuel_merge_names f ex c pl sf of : forall t, (forall n df ov ct cc, In (n, df) t -> sget n of = Some ov -> sget n (t_child c) = Some (ct, cc) -> nofuel (clone_child f ct cc (pl ++ [n]) ov)) ->
  nofuel (merge_names f ex c pl t sf of).
Proof.
  induction t as [|[n df] t IH]; intro H; cbn [merge_names]; [discriminate|]. destruct (sget n sf) as [sv|]; [|discriminate]. destruct (sget n of) as [ov|] eqn:O; [|discriminate].
  apply nofuel_bind.
  - unfold merge1. destruct (mem n ex); [discriminate|]. destruct (is_default ov df); [discriminate|]. destruct (sget n (t_child c)) as [[ct cc]|] eqn:T.
    + destruct (is_default sv df); [|discriminate]. apply nofuel_bind; [apply (H n df ov ct cc); [now left|exact O|exact T]|intros; apply nofuel_ok].
    + destruct ov; try discriminate; apply nofuel_bind; try (intros; apply nofuel_ok).
      * unfold as_list. destruct (falsy sv); [discriminate|]. destruct sv; discriminate.
      * unfold as_dict. destruct (falsy sv); [discriminate|]. destruct sv; discriminate.
  - intros x _. apply nofuel_bind; [apply IH; intros n' df' ov' ct cc I' O' T'; apply (H n' df' ov' ct cc); [now right|exact O'|exact T']|intros; apply nofuel_ok].
Qed.
Lemma nofuel_merge_obj f ex s o : (forall c pl w, vdepth w < vdepth o -> nofuel (f c pl w)) -> nofuel (merge_obj f ex s o).
Proof.
  intro H. destruct s as [| | | | | | |h fs ints]; try discriminate. destruct o as [| | | | | | |k es jnts]; try discriminate. cbn [merge_obj]. destruct (cls_eqb (h_cls h) (h_cls k)); [|discriminate].
  apply nofuel_bind.
  - apply nofuel_merge_names. intros n df ov ct cc _ O _. pose proof (vddepth_get _ _ _ O) as D. rewrite vdepth_obj in H.
    unfold clone_child. destruct ct, ov as [| | | | |l|d|]; try discriminate; try (apply H; lia).
    + destruct s; discriminate.
    + apply nofuel_bind; [|intros; apply nofuel_ok]. apply nofuel_mapi. intros i x I. apply H. rewrite vdepth_list in D. pose proof (vldepth_In l x I). lia.
    + destruct d; discriminate.
    + apply nofuel_bind; [|intros; apply nofuel_ok]. apply nofuel_map. intros [k' x] I. apply nofuel_bind; [|intros; apply nofuel_ok]. apply H. rewrite vdepth_dict in D. pose proof (vddepth_In d k' x I). cbn [snd]. lia.
  - intros f0 _. apply nofuel_bind.
    + apply nofuel_merge_names. intros n df ov ct cc I _ T. apply In_sget in I; [|apply internal_nodup]. apply internal_no_child in I. congruence.
    + intros i0 _. apply nofuel_bind; [apply nofuel_assign|intros; apply nofuel_ok].
Qed.
Lemma nofuel_clone : forall N c pl v, vdepth v < N -> nofuel (clone c pl v).
Proof.
  induction N as [|N IH]; intros c pl v L; [lia|]. rewrite clone_eq. unfold clone_step. destruct c, v; try discriminate.
  - apply nofuel_bind; [apply nofuel_fresh|]. intros s _. apply nofuel_merge_obj. intros. apply IH. lia.
  - apply nofuel_bind; [apply nofuel_fresh|]. intros s _. apply nofuel_merge_obj. intros. apply IH. lia.
Qed.
Lemma nofuel_merge s o ex : nofuel (merge s o ex).
Proof. apply nofuel_merge_obj. intros. eapply nofuel_clone. apply Nat.lt_succ_diag_r. Qed.

(** ** Ending *)
Lemma nofuel_follow look c L : (forall s h fs ints, look s = Ok (VObj h fs ints) -> h_cls h = c -> In (h_place h) L) -> (forall s, nofuel (look s)) ->
  forall fuel guard result r, NoDup guard -> incl guard L -> length L < fuel + length guard -> nofuel (follow look fuel c result guard r).
Proof.
  intros HL LF. induction fuel as [|fuel IH]; intros guard result r ND IN LE.
  - exfalso. pose proof (NoDup_incl_length ND IN). lia.
  - destruct r as [s|]; cbn [follow]; [|discriminate]. apply nofuel_bind; [apply LF|]. intros ro LS.
    destruct (same_class c ro) eqn:C; cbn [negb]; [|discriminate]. apply same_class_spec in C as (h & fs & ints & -> & C). destruct (visited guard (VObj h fs ints)) eqn:V; [discriminate|].
    apply nofuel_bind; [apply nofuel_merge|]. intros r' _. apply nofuel_bind.
    + unfold ref_of, reference. destruct (sget _ fs) as [v|]; [|discriminate]. destruct (falsy v); [discriminate|]. destruct v; discriminate.
    + intros s' _. apply IH; cbn [place_in app].
      * constructor; [|exact ND]. intro I. apply (visited_spec guard h fs ints) in I. congruence.
      * intros x [<-|I]; [eapply HL; eauto|auto].
      * cbn [length]. lia.
Qed.
Lemma nofuel_merge_refs look fuel pl h fs ints L : (forall s k es jnts, look s = Ok (VObj k es jnts) -> h_cls k = h_cls h -> In (h_place k) L) -> In (h_place h) L -> (forall s, nofuel (look s)) ->
  length L <= fuel -> nofuel (merge_refs look fuel pl (VObj h fs ints)).
Proof.
  intros HL I LF LE. unfold merge_refs. apply nofuel_bind; [apply nofuel_fresh|]. intros r _. apply nofuel_bind; [apply nofuel_merge|]. intros r' _. apply nofuel_bind.
  - unfold ref_of, reference. destruct (sget _ fs) as [v|]; [|discriminate]. destruct (falsy v); [discriminate|]. destruct v; discriminate.
  - intros s _. apply (nofuel_follow look (h_cls h) L HL LF); [constructor; [intros []|constructor]|intros x [<-|[]]; exact I|cbn [length]; lia].
Qed.

(** ** Succeeding *)
Lemma chain_fun look c : forall seen o l, chain look c seen o l -> forall m, chain look c seen o m -> l = m.
Proof.
  assert (RR : forall o s s', refers o s -> refers o s' -> s = s') by (intros o s s' [_ A] [_ B]; congruence).
  assert (NR : forall o s, refers o s -> no_reference o -> False).
  { intros o s [N A] (x & B & E). rewrite A in B. injection B as <-. inversion E; subst; congruence. }
  intros seen o l H. induction H as [seen o NO|seen o s h fs ints R LK C I|seen o s h fs ints l R LK C NI CH IH]; intros m M; inversion M as [? ? NO'|? ? s' h' fs' ints' R' LK' C' I'|? ? s' h' fs' ints' l' R' LK' C' NI' CH']; subst; auto;
    try (exfalso; eapply NR; eauto; fail); pose proof (RR _ _ _ R R') as ->; rewrite LK in LK'; injection LK' as <- <- <-; try contradiction; auto.
  f_equal. auto.
Qed.
Lemma chain_ref look c seen o l : chain look c seen o l -> exists r, ref_of o = Ok r.
Proof. intro H. destruct H as [? ? H|? ? ? ? ? ? H|? ? ? ? ? ? ? H]; [apply ref_of_none in H|apply ref_of_some in H..]; eauto. Qed.
Lemma broken_ref look c seen o l e : broken look c seen o l e -> exists r, ref_of o = Ok r.
Proof. intro H. destruct H as [? ? ? ? H|? ? ? ? H|? ? ? ? ? ? ? ? H]; apply ref_of_some in H; eauto. Qed.
Lemma class_self h fs ints : same_class (h_cls h) (VObj h fs ints) = true. Proof. cbn. apply cls_eqb_refl. Qed.
Lemma follow_chain look c : forall seen o l, chain look c seen o l -> forall fuel r result x, length l <= fuel -> ref_of o = Ok r -> merge_all result (tl l) = Ok x ->
  follow look fuel c result seen r = Ok x.
Proof.
  intros seen o l H. induction H as [seen o NO|seen o s h fs ints R LK C I|seen o s h fs ints l R LK C NI CH IH]; intros fuel r result x LE RO M; cbn [tl] in M;
    (destruct fuel as [|fuel]; [cbn [length] in LE; lia|]).
  - apply ref_of_none in NO. rewrite NO in RO. injection RO as <-. exact M.
  - apply ref_of_some in R. rewrite R in RO. injection RO as <-. cbn [follow]. rewrite LK. cbn [bind]. rewrite <- C, class_self. cbn [negb].
    apply (visited_spec seen h fs ints) in I. rewrite I. exact M.
  - apply ref_of_some in R. rewrite R in RO. injection RO as <-. cbn [follow]. rewrite LK. cbn [bind]. rewrite <- C, class_self. cbn [negb].
    destruct (visited seen (VObj h fs ints)) eqn:V; [apply visited_spec in V; contradiction|].
    destruct (chain_ref _ _ _ _ _ CH) as (r' & R').
    assert (exists m, l = VObj h fs ints :: m) as (m & ->) by (inversion CH; eauto). cbn [merge_all] in M. apply bind_ok in M as (y & M1 & M2).
    rewrite M1. cbn [bind]. rewrite R'. cbn [bind place_in app]. rewrite C. apply IH; auto. cbn [length] in *. lia.
Qed.
Lemma follow_broken look c : forall seen o l e, broken look c seen o l e -> forall fuel r result x, length l <= fuel -> ref_of o = Ok r -> merge_all result (tl l) = Ok x ->
  follow look fuel c result seen r = Err e.
Proof.
  intros seen o l e H. induction H as [seen o s x R LK C|seen o s e R LK|seen o s h fs ints l e R LK C NI CH IH]; intros fuel r result y LE RO M; cbn [tl] in M;
    (destruct fuel as [|fuel]; [cbn [length] in LE; lia|]); apply ref_of_some in R; rewrite R in RO; injection RO as <-; cbn [follow]; rewrite LK; cbn [bind].
  - destruct (same_class c x) eqn:S; [apply same_class_spec in S; contradiction|reflexivity].
  - reflexivity.
  - rewrite <- C, class_self. cbn [negb].
    destruct (visited seen (VObj h fs ints)) eqn:V; [apply visited_spec in V; contradiction|].
    destruct (broken_ref _ _ _ _ _ _ CH) as (r' & R').
    assert (exists m, l = VObj h fs ints :: m) as (m & ->) by (inversion CH; eauto). cbn [merge_all] in M. apply bind_ok in M as (z & M1 & M2).
    rewrite M1. cbn [bind]. rewrite R'. cbn [bind place_in app]. rewrite C. eapply IH; eauto. cbn [length] in *. lia.
Qed.
(** *** Merging succeeds *)
Lemma default_empty_value v df : empty_value (inject df) -> equals_default v df -> empty_value v.
Proof.
  intros E D. inversion D; subst; auto; match goal with b : bool |- _ => destruct b end; inversion E; subst; now constructor.
Qed.
(** The value so far: the default, or of the kind. *)
Definition sofar (df : json) (k : kind) (v : val) : Prop := v = inject df \/ of_kind df k v.
Lemma merged_kind c pl n df k sv ov rv : sget n (t_child c) = None -> simple_default df = true -> sofar df k sv -> of_kind df k ov -> merged [] c pl n df sv ov rv -> sofar df k rv.
Proof.
  intros TC SD S O M. inversion M as [? ? ? ? ? ? ? ? X|? ? ? ? ? ? ? ? D R RE|? ? ? ? ? ? ? D _ _ C|? ? ? ? ? ? ? D _ _ C S'|? ? ? ? ? ? l0 m0 rr D _ _ SD' H|? ? ? ? ? ? d e rr D _ _ SD' H| |]; subst; try contradiction; try congruence.
  - rewrite (RE TC). exact S.
  - right. exact O.
  - right. destruct k; cbn [of_kind] in *.
    + exfalso. apply O. left. eauto.
    + destruct O as [E _]. split; [exact E|]. right. eauto.
    + exfalso. destruct O as [E [O|(d & O)]]; [contradiction|discriminate].
  - right. destruct k; cbn [of_kind] in *.
    + exfalso. apply O. right. eauto.
    + exfalso. destruct O as [E [O|(l & O)]]; [contradiction|discriminate].
    + destruct O as [E _]. split; [exact E|]. right. eauto.
Qed.
Lemma no_containers_merge c r o r' : shaped (Of c) r -> shaped (Of c) o -> no_containers r -> no_containers o -> merge r o [] = Ok r' -> no_containers r'.
Proof.
  intros SR SO NR NO E. pose proof (shaped_obj _ _ SR) as (h & fs & ints & -> & <-). pose proof (shaped_obj _ _ SO) as (k & es & jnts & -> & C).
  apply merge_obj_merged in E as (_ & fs' & ints' & ks & -> & KF & KI & MF & MI & _).
  - cbn [no_containers] in *. intros n x G.
    assert (T : exists df, sget n (t_internal (h_cls h)) = Some df) by (apply sget_Some_key; rewrite <- KI; apply sget_Some_key; eauto). destruct T as (df & T).
    pose proof (internal_no_child _ _ _ T) as TC.
    destruct (MI n df T) as (sv & ov & rv & S & O & R & M). rewrite G in R. injection R as <-. apply NR in S. apply NO in O.
    inversion M as [? ? ? ? ? ? ? ? X|? ? ? ? ? ? ? ? D R RE| | |? ? ? ? ? ? l0 m0 rr D _ _ SD' H|? ? ? ? ? ? d e rr D _ _ SD' H| |]; subst; auto; try congruence.
    + now rewrite (RE TC).
    + exfalso. apply O. left. eauto.
    + exfalso. apply O. right. eauto.
  - apply clones_well_all.
  - intros n d G. eapply shaped_dicts; eauto.
  - intros n d G. exfalso. apply (NR _ _ G). right. eauto.
Qed.
Lemma merge_all_Ok c : forall l r, proper c r -> (forall o, In o l -> proper c o /\ simple_formats o) ->
  (forall n df, sget n (t_fields c) = Some df -> sget n (t_child c) = None -> exists k, (exists sv, field_of r n = Some sv /\ sofar df k sv) /\ forall o v, In o l -> field_of o n = Some v -> of_kind df k v) ->
  exists out, merge_all r l = Ok out.
Proof.
  induction l as [|o l IH]; intros r [SR NR] HL KD; cbn [merge_all]; [eauto|]. destruct (HL o (or_introl eq_refl)) as [[SO NO] SF].
  assert (M : exists r', merge r o [] = Ok r').
  { pose proof (shaped_obj _ _ SR) as (h & fs & ints & -> & <-). pose proof (shaped_obj _ _ SO) as (k & es & jnts & -> & C).
    apply merge_obj_Ok; auto.
    - intros n ov ct cc O T. apply clone_child_Ok; [exact (shaped_child _ _ _ _ _ _ _ _ SO O T)|eapply formats_field; eauto].
    - intros n df sv ov T S O _ TC D. destruct (KD n df T TC) as (kd & (sv' & S' & SF') & KO). cbn [field_of] in S'. rewrite S in S'. injection S' as <-.
      specialize (KO _ ov (or_introl eq_refl) O). destruct ov as [| | | | |l0|d0|]; try exact I.
      + destruct kd; cbn [of_kind] in KO; [exfalso; apply KO; left; eauto| |exfalso; destruct KO as [_ [KO|(x & X)]]; [contradiction|discriminate]].
        destruct KO as [E _]. destruct SF' as [->|[_ [SF'|SF']]]; [left; exact E|left; eapply default_empty_value; eauto|right; exact SF'].
      + destruct kd; cbn [of_kind] in KO; [exfalso; apply KO; right; eauto|exfalso; destruct KO as [_ [KO|(x & X)]]; [contradiction|discriminate]|].
        destruct KO as [E _]. destruct SF' as [->|[_ [SF'|SF']]]; [left; exact E|left; eapply default_empty_value; eauto|right; exact SF'].
    - intros n df sv ov T S O _ TC D. apply NO in O. destruct ov; try exact I; exfalso; apply O; [left|right]; eauto. }
  destruct M as (r' & M). rewrite M. cbn [bind]. pose proof (merge_shaped _ _ _ _ _ SR SO M) as SR'. apply IH.
  - split; [exact SR'|]. exact (no_containers_merge _ _ _ _ SR SO NR NO M).
  - intros. apply HL. now right.
  - intros n df T TC. destruct (KD n df T TC) as (k & (sv & S & SF') & KO). exists k. split; [|intros; eapply KO; eauto; now right].
    pose proof (shaped_obj _ _ SR) as (h & fs & ints & E & <-).
    destruct (merge_field _ r o r' SR SO (containers_dicts _ NR) M) as (_ & _ & _ & MF). destruct (MF n df (h_place h) T) as (sv' & ov & rv & S' & O & R & MG); [now rewrite E|].
    rewrite S in S'. injection S' as <-. exists rv. split; [exact R|]. eapply merged_kind; eauto; [eapply fields_default; eauto|eapply KO; eauto; now left].
Qed.
