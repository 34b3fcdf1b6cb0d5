(** Proofs about parsing (M_Parse). *)
From Coq Require Import Lia.
From Verif Require Import PyBase PyFacts PyJson P_Op M_SpecVal M_Parse S_Parse P_SpecBase.
Close Scope Q_scope.

(** ** Enough fuel *)
Definition jddepth (d : sdict json) : nat :=
  (fix go d := match d with [] => 0 | (_, x) :: d => Nat.max (jdepth x) (go d) end) d.
Definition jldepth (l : list json) : nat :=
  (fix go l := match l with [] => 0 | x :: l => Nat.max (jdepth x) (go l) end) l.
Lemma jdepth_list l : jdepth (JList l) = S (jldepth l). Proof. reflexivity. Qed.
Lemma jdepth_obj d : jdepth (JObj d) = S (jddepth d). Proof. reflexivity. Qed.
Lemma jddepth_In d k x : In (k, x) d -> jdepth x <= jddepth d.
Proof.
  induction d as [|[k0 y] d IH]; [intros []|]. intros [E|I]; cbn.
  - injection E as -> ->. lia.
  - specialize (IH I). unfold jddepth in IH. lia.
Qed.
Lemma jldepth_In l x : In x l -> jdepth x <= jldepth l.
Proof.
  induction l as [|y l IH]; [intros []|]. intros [E|I]; cbn.
  - subst. lia.
  - specialize (IH I). unfold jldepth in IH. lia.
Qed.
Lemma jddepth_get d k x : sget k d = Some x -> jdepth x <= jddepth d.
Proof. intro E. apply sget_In in E. eapply jddepth_In; eauto. Qed.
Lemma iter_json_depth j l x : iter_json j = Ok l -> In x l -> jdepth x <= jdepth j.
Proof.
  destruct j; cbn [iter_json]; try discriminate; intros E I; injection E as <-.
  - apply in_map_iff in I as (c & <- & _). cbn. lia.
  - rewrite jdepth_list. apply jldepth_In in I. lia.
  - apply in_map_iff in I as (c & <- & _). cbn. lia.
Qed.
Section Ext.
  Context (f g : ctx -> place -> json -> res val) (N : nat)
    (FG : forall c pl j, jdepth j < N -> f c pl j = g c pl j).
  Lemma parse_child_ext ct c pl v : jdepth v < N -> parse_child f ct c pl v = parse_child g ct c pl v.
  Proof.
    intro D. destruct ct; cbn [parse_child].
    - now apply FG.
    - destruct (iter_json v) as [l|] eqn:E; [|reflexivity]. cbn [bind]. rewrite (mapi_res_ext _ (fun i x => g c (pl ++ [str_of_nat i]) x)); [reflexivity|].
      intros j x I. apply FG. pose proof (iter_json_depth _ _ _ E I). lia.
    - destruct v; try reflexivity. rewrite (map_res_ext _ (fun kv => do x <- g c (pl ++ [fst kv]) (snd kv); Ok (fst kv, x))); [reflexivity|].
      intros [k x] I. cbn [fst snd]. rewrite jdepth_obj in D. apply jddepth_In in I. rewrite FG by lia. reflexivity.
  Qed.
  Lemma parse_children_ext pl t d : jddepth d < N -> parse_children f pl t d = parse_children g pl t d.
  Proof.
    intro D. induction t as [|[key [ct c]] t IH]; cbn [parse_children]; [reflexivity|]. rewrite IH.
    destruct (sget key d) as [v|] eqn:E; [|reflexivity]. rewrite (parse_child_ext ct c); [reflexivity|].
    apply jddepth_get in E. lia.
  Qed.
  Lemma parse_cls_ext c pl j : jdepth j <= N -> parse_cls f c pl j = parse_cls g c pl j.
  Proof.
    intro D. destruct j; try reflexivity. rewrite jdepth_obj in D. cbn [parse_cls]. rewrite parse_children_ext by lia. reflexivity.
  Qed.
  Lemma parse_step_ext c pl j : jdepth j <= N -> parse_step f c pl j = parse_step g c pl j.
  Proof. intro D. destruct c; cbn [parse_step]; [|destruct j; try reflexivity]; now apply parse_cls_ext. Qed.
End Ext.
Lemma parsef_fuel : forall N n m c pl j, jdepth j <= N -> N < n -> N < m -> parsef n c pl j = parsef m c pl j.
Proof.
  induction N as [|N IH]; intros [|n] [|m] c pl j D A B; try lia; cbn [parsef].
  - apply (parse_step_ext _ _ 0); [intros; lia|lia].
  - apply (parse_step_ext _ _ (S N)); [|exact D]. intros. apply IH; lia.
Qed.
Lemma parse_eq c pl j : parse c pl j = parse_step parse c pl j.
Proof.
  unfold parse at 1. cbn [parsef]. apply (parse_step_ext _ _ (jdepth j)); [|lia].
  intros. unfold parse. apply (parsef_fuel (jdepth j0)); lia.
Qed.
Lemma parse_cls_eq c pl j : parse (Of c) pl j = parse_cls parse c pl j.
Proof. rewrite parse_eq. reflexivity. Qed.
Lemma parse_addp_obj pl d : parse AddP pl (JObj d) = parse (Of CSchema) pl (JObj d).
Proof. rewrite !parse_eq. reflexivity. Qed.

(** ** What is produced *)
(** Containers of objects owned by an object: their parent is set. *)
Definition own (p : place) (v : val) : val :=
  match v with
  | VList l => VList (map (set_parent p) l)
  | VDict d => VDict (map (fun kv => (fst kv, set_parent p (snd kv))) d)
  | v => set_parent p v
  end.
(** Values of the right kind for a child field, before their parent is set. *)
Definition typed1 (c : ctx) (v : val) : Prop := v = VNone \/ is_produced c v = true.
Definition typed (ct : ctype) (c : ctx) (v : val) : Prop :=
  match ct with
  | One => typed1 c v
  | ListOf => exists l, v = VList l /\ Forall (typed1 c) l
  | DictOf => exists d, v = VDict d /\ Forall (fun kv => typed1 c (snd kv)) d
  end.
Lemma assign1_typed p c v : typed1 c v -> assign1 p c v = Ok (set_parent p v).
Proof. intros [->|E]; [reflexivity|]. destruct v; cbn [assign1]; rewrite ?E; try reflexivity. Qed.
Lemma map_res_const {A B} (f : A -> res B) (g : A -> B) l : Forall (fun x => f x = Ok (g x)) l -> map_res f l = Ok (map g l).
Proof. intro F. apply map_res_ok. apply Forall2_map_r. induction F; constructor; auto. Qed.
Lemma assign_typed p ct c v : typed ct c v -> assign_field p ct c v = Ok (own p v).
Proof.
  unfold assign_field. destruct ct; cbn [typed].
  - intro T. destruct v; cbn [container_apply]; try (rewrite (assign1_typed p c _ T); reflexivity); try reflexivity;
      destruct T as [T|T]; try discriminate T; destruct c; discriminate T.
  - intros (l & -> & F). cbn [container_apply]. rewrite (map_res_const _ (set_parent p)); [reflexivity|].
    eapply Forall_impl; [|exact F]. intros. now apply assign1_typed.
  - intros (d & -> & F). cbn [container_apply]. rewrite (map_res_const _ (fun kv => (fst kv, set_parent p (snd kv)))); [reflexivity|].
    eapply Forall_impl; [|exact F]. intros [k x] T. cbn [fst snd] in *. rewrite (assign1_typed p c _ T). reflexivity.
Qed.

(** The entry a document gives for a field, as gathered by the context. *)
Definition absent (ct : ctype) (df : json) : val :=
  match ct with One => inject df | ListOf => VList [] | DictOf => VDict [] end.
Definition gathered (c : cls) (pl : place) (d : sdict json) (n : str) (df : json) (x : val) : Prop :=
  match sget n (t_child c) with
  | None => x = inject (match sget n d with Some v => v | None => df end)
  | Some (ct, cc) =>
      match sget n d with
      | None => x = absent ct df
      | Some JNull => x = absent ct JNull
      | Some v => parse_child parse ct cc (pl ++ [n]) v = Ok x
      end
  end.
Lemma mask_ok {A} c (r : res A) y : mask c r = Ok y <-> r = Ok y.
Proof. destruct c, r as [|[]]; cbn; split; congruence. Qed.

Definition kid (pl : place) (d : sdict json) (t : list (str * (ctype * ctx))) (n : str) (o : option val) : Prop :=
  match sget n t with
  | None => o = None
  | Some (ct, cc) =>
      match sget n d with
      | None | Some JNull => o = match ct with One => None | ListOf => Some (VList []) | DictOf => Some (VDict []) end
      | Some v => exists y, parse_child parse ct cc (pl ++ [n]) v = Ok y /\ o = Some y
      end
  end.
Lemma children_inv pl d t : forall kids, NoDup (map fst t) -> parse_children parse pl t d = Ok kids ->
  forall n, kid pl d t n (sget n kids).
Proof.
  induction t as [|[key [ct c]] t IH]; intros kids ND E n; cbn [parse_children] in E.
  - injection E as <-. reflexivity.
  - inversion ND as [|? ? NI ND']; subst. apply bind_ok in E as (kv & A & E). apply bind_ok in E as (r & B & E).
    injection E as <-. specialize (IH _ ND' B). unfold kid. rewrite sget_cons. destruct (str_eqb n key) eqn:Q.
    + apply str_eqb_eq in Q. subst. specialize (IH key). unfold kid in IH. rewrite (proj2 (sget_None key t) NI) in IH.
      destruct (sget key d) as [v|].
      * destruct v; try (apply bind_ok in A as (x & A & X); apply mask_ok in A; injection X as <-; exists x; split; [exact A|];
          cbn [app]; rewrite sget_cons, str_eqb_refl; reflexivity).
        injection A as <-. rewrite sget_app, IH. destruct ct; cbn [app dget]; rewrite ?str_eqb_refl; reflexivity.
      * injection A as <-. rewrite sget_app, IH. destruct ct; cbn [app dget]; rewrite ?str_eqb_refl; reflexivity.
    + specialize (IH n). unfold kid in IH.
      assert (X : sget n (kv ++ r) = sget n r).
      { destruct (sget key d) as [[]|]; try (apply bind_ok in A as (x & A & X); injection X as <-; cbn [app]; rewrite sget_cons, Q; reflexivity);
          injection A as <-; destruct ct; cbn [app]; rewrite ?sget_cons, ?Q; reflexivity. }
      now rewrite X.
Qed.
Lemma children_ok pl d t : NoDup (map fst t) ->
  (forall n ct cc v, sget n t = Some (ct, cc) -> sget n d = Some v -> v <> JNull -> exists y, parse_child parse ct cc (pl ++ [n]) v = Ok y) ->
  exists kids, parse_children parse pl t d = Ok kids.
Proof.
  induction t as [|[key [ct c]] t IH]; intros ND H; cbn [parse_children]; [eauto|].
  inversion ND as [|? ? NI ND']; subst.
  destruct IH as (kids & E); [exact ND'| |].
  - intros n ct' cc v S. apply H. rewrite sget_cons. destruct (str_eqb n key) eqn:Q; [|exact S].
    apply str_eqb_eq in Q. subst. rewrite (proj2 (sget_None key t) NI) in S. discriminate S.
  - rewrite E. pose proof (H key ct c) as X. rewrite sget_cons, str_eqb_refl in X.
    destruct (sget key d) as [v|]; [|cbn [bind]; eauto].
    destruct (match v with JNull => true | _ => false end) eqn:Z.
    + destruct v; try discriminate Z. cbn [bind]. eauto.
    + destruct (X v eq_refl eq_refl) as (y & Y); [now destruct v|]. destruct v; try discriminate Z; rewrite Y; destruct c; cbn [mask bind]; eauto.
Qed.
Lemma children_keys pl d t kids n : NoDup (map fst t) -> parse_children parse pl t d = Ok kids ->
  sget n t = None -> sget n kids = None.
Proof. intros ND E S. pose proof (children_inv _ _ _ _ ND E n) as K. unfold kid in K. now rewrite S in K. Qed.

(** What the context has gathered for the object, field by field. *)
Definition all_of (kids : sdict val) (d : sdict json) : sdict val :=
  kids ++ map (fun kv => (fst kv, inject (snd kv))) (filter (fun kv => negb (smem (fst kv) kids)) d).
Lemma sget_all_of kids d n : sget n (all_of kids d) = match sget n kids with Some x => Some x | None => option_map inject (sget n d) end.
Proof.
  unfold all_of. rewrite sget_app. destruct (sget n kids) eqn:E; [reflexivity|].
  rewrite sget_map, (sget_filter (fun k => negb (smem k kids))). unfold dmem. now rewrite E.
Qed.
Lemma gathered_ok c pl d kids n df : parse_children parse pl (t_child c) d = Ok kids ->
  gathered c pl d n df (match sget n (all_of kids d) with Some v => v | None => inject df end).
Proof.
  intro E. pose proof (children_inv _ _ _ _ (child_nodup c) E n) as K. unfold kid in K. unfold gathered.
  rewrite sget_all_of. destruct (sget n (t_child c)) as [[ct cc]|].
  - destruct (sget n d) as [v|].
    + destruct v; try (destruct K as (y & Y & ->); exact Y). rewrite K. destruct ct; reflexivity.
    + rewrite K. destruct ct; reflexivity.
  - rewrite K. destruct (sget n d); reflexivity.
Qed.

(** [assign_fields] entry by entry *)
Lemma assign_fields_ok p t fs : forall fs', assign_fields p t fs = Ok fs' <->
  drel (fun n v v' => match sget n t with Some (ct, c) => assign_field p ct c v | None => Ok v end = Ok v') fs fs'.
Proof.
  induction fs as [|[n v] fs IH]; intro fs'; cbn [assign_fields].
  - split; [intro E; injection E as <-; constructor|intro F; inversion F; reflexivity].
  - rewrite bind_ok. split.
    + intros (v' & A & E). apply bind_ok in E as (r & B & E). injection E as <-. constructor; [auto|now apply IH].
    + intro F. inversion F as [|? [n' v'] ? r [Q A] B]; subst. cbn [fst snd] in *. subst n'. exists v'. split; [exact A|].
      apply bind_ok. exists r. split; [now apply IH|reflexivity].
Qed.

(** ** The kind of what is parsed *)
Lemma produce_shape c pl obj v : produce c pl obj = Ok v ->
  exists fs ints, v = VObj (Head c pl None (map fst obj)) fs ints.
Proof. unfold produce. intro E. apply bind_ok in E as (fs & _ & E). injection E as <-. eauto. Qed.
Lemma parse_shape c pl j v : parse (Of c) pl j = Ok v -> exists ks fs ints, v = VObj (Head c pl None ks) fs ints.
Proof.
  rewrite parse_cls_eq. destruct j; cbn [parse_cls]; try discriminate.
  - intro E. apply produce_shape in E as (fs & ints & ->). eauto.
  - intro E. apply bind_ok in E as (kids & _ & E). apply produce_shape in E as (fs & ints & ->). eauto.
Qed.
Lemma parse_addp_shape pl j v : parse AddP pl j = Ok v ->
  (exists b, v = VBool b) \/ exists ks fs ints, v = VObj (Head CSchema pl None ks) fs ints.
Proof.
  destruct j; try (rewrite parse_eq; discriminate).
  - rewrite parse_eq. intro E. injection E as <-. eauto.
  - rewrite parse_eq. intro E. injection E as <-. eauto.
  - rewrite parse_addp_obj. intro E. right. now apply parse_shape in E.
Qed.
Lemma parse_produced c pl j v : parse c pl j = Ok v -> is_produced c v = true.
Proof.
  destruct c as [c|]; intro E.
  - apply parse_shape in E as (ks & fs & ints & ->). cbn. apply cls_eqb_refl.
  - apply parse_addp_shape in E as [(b & ->)|(ks & fs & ints & ->)]; reflexivity.
Qed.
Lemma parse_child_typed ct c pl v x : parse_child parse ct c pl v = Ok x -> typed ct c x.
Proof.
  destruct ct; cbn [parse_child typed].
  - intro E. right. now apply parse_produced in E.
  - intro E. apply bind_ok in E as (l & _ & E). apply bind_ok in E as (m & E & X). injection X as <-. exists m.
    split; [reflexivity|]. apply mapi_res_ok in E. apply (irel_Forall2 _ (fun _ y => typed1 c y)) in E.
    + clear - E. induction E; constructor; auto.
    + intros j y z _ P. right. now apply parse_produced in P.
  - destruct v; try discriminate. intro E. apply bind_ok in E as (e & E & X). injection X as <-. exists e.
    split; [reflexivity|]. rewrite (map_res_dict (fun k x => parse c (pl ++ [k]) x)) in E.
    clear - E. induction E as [|[k y] [k' z] d e (_ & P) F IH]; constructor; [|exact IH].
    right. now apply parse_produced in P.
Qed.
Lemma simple_inject df : simple_default df = true -> match inject df with VObj _ _ _ => False | _ => True end.
Proof. destruct df; cbn; auto. Qed.
(** Defaults of the child fields: None, except True for [additionalProperties] and empty
    containers. *)
Lemma child_default c n ct cc df : sget n (t_child c) = Some (ct, cc) -> sget n (t_fields c) = Some df -> typed1 cc (inject df) \/ ct <> One.
Proof.
  intros E F. apply sget_In in E.
  assert (B : forallb (fun kv => match snd kv, sget (fst kv) (t_fields c) with
              | (One, AddP), Some (JBool _) => true | (One, _), Some JNull => true | (One, _), _ => false | _, _ => true end) (t_child c) = true)
    by (each_class c; vm_compute; reflexivity).
  rewrite forallb_forall in B. specialize (B _ E). cbn [fst snd] in B. rewrite F in B.
  destruct ct; [left|right; discriminate..]. destruct cc, df; try discriminate B; cbn; unfold typed1; auto.
Qed.
Lemma gathered_typed c pl d n df x ct cc : sget n (t_fields c) = Some df -> sget n (t_child c) = Some (ct, cc) ->
  gathered c pl d n df x -> typed ct cc x.
Proof.
  intros F T G. unfold gathered in G. rewrite T in G.
  assert (AB : forall j, typed1 cc (inject j) \/ ct <> One -> typed ct cc (absent ct j)).
  { intros j H. destruct ct; cbn; [|exists []; auto..]. destruct H; congruence. }
  destruct (sget n d) as [v|].
  - destruct v; try (now apply parse_child_typed in G). subst x. apply AB. left. now left.
  - subst x. apply AB. eapply child_default; eauto.
Qed.
(** What a field of a parsed object holds. *)
Definition field_val (c : cls) (pl : place) (d : sdict json) (n : str) (df : json) (x : val) : Prop :=
  exists y, gathered c pl d n df y /\ x = match sget n (t_child c) with Some _ => own pl y | None => y end.
Lemma In_fields c nd : In nd (t_fields c) -> sget (fst nd) (t_fields c) = Some (snd nd).
Proof. destruct nd. apply In_sget, fields_nodup. Qed.
Lemma produce_fields c pl obj : 
  (forall n df ct cc, sget n (t_fields c) = Some df -> sget n (t_child c) = Some (ct, cc) ->
     typed ct cc (match sget n obj with Some v => v | None => inject df end)) ->
  produce c pl obj = Ok (VObj (Head c pl None (map fst obj))
    (map (fun nd => (fst nd, let y := match sget (fst nd) obj with Some v => v | None => inject (snd nd) end in
                             match sget (fst nd) (t_child c) with Some _ => own pl y | None => y end)) (t_fields c))
    (map (fun nd => (fst nd, VNone)) (t_internal c))).
Proof.
  intro T. unfold produce. erewrite (proj2 (assign_fields_ok _ _ _ _)); [reflexivity|].
  unfold drel. rewrite Forall2_map_l, Forall2_map_r. cbn [fst snd].
  assert (H : forall nd, In nd (t_fields c) -> In nd (t_fields c)) by auto. revert H.
  generalize (t_fields c) at 1 3 4. intro l. induction l as [|nd l IH]; intro H; constructor; [|apply IH; intros; apply H; now right].
  split; [reflexivity|]. specialize (T (fst nd) (snd nd)). destruct (sget (fst nd) (t_child c)) as [[ct cc]|]; [|reflexivity].
  apply assign_typed. apply (T ct cc); [|reflexivity]. apply In_fields. apply H. now left.
Qed.

Lemma parse_null c pl : parse (Of c) pl JNull =
  Ok (VObj (Head c pl None []) (map (fun nd => (fst nd, inject (snd nd))) (t_fields c)) (map (fun nd => (fst nd, VNone)) (t_internal c))).
Proof.
  rewrite parse_cls_eq. cbn [parse_cls]. unfold produce.
  erewrite (proj2 (assign_fields_ok _ _ _ _)); [reflexivity|]. unfold drel. rewrite Forall2_map_l, Forall2_map_r. cbn [fst snd dget].
  assert (H : forall nd, In nd (t_fields c) -> In nd (t_fields c)) by auto. revert H.
  generalize (t_fields c) at 1 3 4. intro l. induction l as [|nd l IH]; intro H; constructor; [|apply IH; intros; apply H; now right].
  split; [reflexivity|]. specialize (H nd (or_introl eq_refl)). clear IH. destruct (sget (fst nd) (t_child c)) as [[ct cc]|] eqn:E; [|reflexivity].
  assert (B : forallb (fun kv => match sget (fst kv) (t_fields c) with Some df => 
     match snd kv, df with
     | (_, _), JNull => true | (One, AddP), JBool _ => true | (ListOf, _), JList [] => true | (DictOf, _), JObj [] => true | _, _ => false end | None => false end) (t_child c) = true)
    by (each_class c; vm_compute; reflexivity).
  rewrite forallb_forall in B. apply sget_In in E. specialize (B _ E). cbn [fst snd] in B.
  rewrite (In_fields _ _ H) in B. destruct nd as [n df]. cbn [fst snd] in *.
  destruct ct, cc, df as [| | | | |[|? ?]|[|? ?]]; try discriminate B; reflexivity.
Qed.
(** A JSON object is parsed iff its children are; its fields are as gathered. *)
Lemma parse_obj c pl d v : parse (Of c) pl (JObj d) = Ok v ->
  exists kids fs, parse_children parse pl (t_child c) d = Ok kids /\
    v = VObj (Head c pl None (map fst (all_of kids d))) fs (map (fun nd => (fst nd, VNone)) (t_internal c)) /\
    drel (fun n df x => field_val c pl d n df x) (t_fields c) fs.
Proof.
  rewrite parse_cls_eq. cbn [parse_cls]. intro E. apply bind_ok in E as (kids & A & E). fold (all_of kids d) in E.
  rewrite produce_fields in E.
  - injection E as <-. do 2 eexists. split; [exact A|]. split; [reflexivity|].
    unfold drel. rewrite Forall2_map_r. generalize (t_fields c) as l. induction l as [|nd l IH]; constructor; [|exact IH].
    split; [reflexivity|]. cbn [fst snd]. unfold field_val. eexists. split; [apply gathered_ok; exact A|].
    cbv zeta. destruct (sget (fst nd) (t_child c)); reflexivity.
  - intros n df ct cc F T. eapply gathered_typed; [exact F|exact T|]. apply gathered_ok. exact A.
Qed.
Lemma parse_obj_ok c pl d :
  (forall n ct cc v, sget n (t_child c) = Some (ct, cc) -> sget n d = Some v -> v <> JNull -> exists y, parse_child parse ct cc (pl ++ [n]) v = Ok y) ->
  exists v, parse (Of c) pl (JObj d) = Ok v.
Proof.
  intro H. rewrite parse_cls_eq. cbn [parse_cls]. destruct (children_ok pl d _ (child_nodup c) H) as (kids & E). rewrite E. cbn [bind].
  fold (all_of kids d). rewrite produce_fields; [eauto|]. intros n df ct cc F T. eapply gathered_typed; [exact F|exact T|]. apply gathered_ok. exact E.
Qed.

(** ** C36: exactly the accepted documents are parsed *)
Lemma parse_child_Ok ct c pl v : (forall c pl w, jdepth w <= jdepth v -> (exists x, parse c pl w = Ok x) <-> accepted c w) ->
  (exists x, parse_child parse ct c pl v = Ok x) <-> accepted_in ct c v.
Proof.
  intro IH. destruct ct; cbn [parse_child].
  - rewrite IH by lia. split; [now constructor|intro A; now inversion A].
  - split.
    + intros (x & E). apply bind_ok in E as (l & E1 & E). apply bind_ok in E as (m & E & _). apply mapi_res_ok in E.
      assert (F : Forall (accepted c) l).
      { apply (irel_Forall2 _ (fun x _ => accepted c x)) in E; [clear - E; induction E; constructor; auto|].
        intros j y z I P. eapply IH; [eapply iter_json_depth; eauto|eauto]. }
      destruct v as [| | | |s|l0|d]; cbn [iter_json] in E1; try discriminate E1; injection E1 as <-.
      * destruct s as [|a s]; [constructor|]. inversion F as [|? ? A _]; subst. cbn in A. inversion A.
      * now constructor.
      * destruct d as [|[k w] d]; [constructor|]. inversion F as [|? ? A _]; subst. cbn in A. inversion A.
    + intro A. inversion A as [|? l F| | |]; subst.
      * cbn [iter_json bind]. 
        assert (X : forall i, exists m, mapi_res (fun i x => parse c (pl ++ [str_of_nat i]) x) i l = Ok m).
        { assert (IH' : forall w, In w l -> forall pl, exists x, parse c pl w = Ok x).
          { intros w I pl0. apply IH; [rewrite jdepth_list; pose proof (jldepth_In _ _ I); lia|]. rewrite Forall_forall in F. auto. }
          clear - IH'. induction l as [|w l IHl]; intro i; cbn [mapi_res]; [eauto|].
          destruct (IH' w (or_introl eq_refl) (pl ++ [str_of_nat i])) as (x & ->). cbn [bind].
          destruct (IHl (fun w I => IH' w (or_intror I)) (S i)) as (m & ->). cbn [bind]. eauto. }
        destruct (X 0) as (m & ->). cbn [bind]. eauto.
      * cbn. eauto.
      * cbn. eauto.
  - split.
    + destruct v; try (intros (x & E); discriminate E). intros (x & E). apply bind_ok in E as (e & E & _).
      rewrite (map_res_dict (fun k x => parse c (pl ++ [k]) x)) in E. constructor. apply Forall_forall. intros [k w] I.
      cbn [snd]. destruct (Forall2_In_l _ _ _ _ E I) as ([k' y] & _ & _ & P). cbn [fst snd] in P. eapply IH; [|eauto].
      rewrite jdepth_obj. pose proof (jddepth_In _ _ _ I). lia.
    + intro A. inversion A as [| | | |? d F]; subst.
      assert (X : exists e, map_res (fun kv => do x <- parse c (pl ++ [fst kv]) (snd kv); Ok (fst kv, x)) d = Ok e).
      { assert (IH' : forall kv, In kv d -> forall pl, exists x, parse c pl (snd kv) = Ok x).
        { intros [k w] I pl0. apply IH; [cbn [snd]; rewrite jdepth_obj; pose proof (jddepth_In _ _ _ I); lia|]. rewrite Forall_forall in F. exact (F _ I). }
        clear - IH'. induction d as [|kv d IHd]; cbn [map_res]; [eauto|].
        destruct (IH' kv (or_introl eq_refl) (pl ++ [fst kv])) as (x & ->). cbn [bind].
        destruct (IHd (fun w I => IH' w (or_intror I))) as (m & ->). cbn [bind]. eauto. }
      destruct X as (e & ->). cbn [bind]. eauto.
Qed.
Lemma parse_accepted : forall N c pl j, jdepth j < N -> (exists v, parse c pl j = Ok v) <-> accepted c j.
Proof.
  induction N as [|N IH]; intros c pl j D; [lia|].
  assert (OBJ : forall c pl d, jdepth (JObj d) <= N -> (exists v, parse (Of c) pl (JObj d) = Ok v) <-> accepted (Of c) (JObj d)).
  { clear c pl j D. intros c pl d D. rewrite jdepth_obj in D. split.
    - intros (v & E). apply parse_obj in E as (kids & fs & E & _ & _). constructor. intros key ct cc v0 I G NN.
      pose proof (children_inv _ _ _ _ (child_nodup c) E key) as K. unfold kid in K.
      rewrite (In_sget _ _ _ (child_nodup c) I), G in K.
      eapply parse_child_Ok; [intros; apply IH; apply jddepth_get in G; lia|].
      destruct v0; try (destruct K as (y & Y & _); exists y; exact Y). congruence.
    - intro A. inversion A as [| | |? ? H]; subst. apply parse_obj_ok. intros n ct cc v T G NN.
      apply parse_child_Ok; [intros; apply IH; apply jddepth_get in G; lia|]. apply (H n); auto. now apply sget_In. }
  destruct c as [c|].
  - destruct j; try (split; [intros (v & E); rewrite parse_cls_eq in E; discriminate E|intro A; inversion A]).
    + split; [constructor|]. rewrite parse_null. eauto.
    + apply OBJ. lia.
  - rewrite parse_eq. destruct j; cbn [parse_step parse_cls]; try (split; [intros (v & E); discriminate E|intro A; inversion A]).
    + split; [constructor|eauto].
    + split; [constructor|eauto].
    + assert (X := OBJ CSchema pl d ltac:(lia)). rewrite parse_cls_eq in X. cbn [parse_cls] in X. rewrite X. split; [now constructor|].
      intro A. now inversion A.
Qed.
(** Exceptions are of three kinds. *)
Definition parse_exn (e : exn) : Prop := e = ValueError \/ e = TypeError \/ e = AttributeError.
Lemma container_apply_exn ct f v e : (forall x, f x = Err e -> parse_exn e) -> container_apply ct f v = Err e -> parse_exn e.
Proof.
  intros F E. unfold parse_exn. destruct ct, v; cbn [container_apply] in E; try discriminate E; try (injection E as <-; auto); try (now apply F in E).
  all: match type of E with bind ?m _ = _ => destruct m eqn:M; cbn [bind] in E; [discriminate E|injection E as ->] end;
    apply map_res_err in M as (x & _ & M); try (now apply F in M).
  destruct (f (snd x)) eqn:Q; cbn [bind] in M; [discriminate M|]. injection M as ->. now apply F in Q.
Qed.
Lemma produce_exn c pl obj e : produce c pl obj = Err e -> parse_exn e.
Proof.
  unfold produce. intro E. match type of E with bind ?m _ = _ => destruct m eqn:M; cbn [bind] in E; [discriminate E|injection E as ->] end.
  revert M. generalize (map (fun nd => (fst nd, match sget (fst nd) obj with Some v => v | None => inject (snd nd) end)) (t_fields c)).
  intro l. induction l as [|[n v] l IH]; cbn [assign_fields]; [discriminate|]. intro M.
  destruct (sget n (t_child c)) as [[ct cc]|].
  - unfold assign_field in M. destruct (container_apply ct (assign1 pl cc) v) eqn:Q; cbn [bind] in M.
    + destruct (assign_fields pl (t_child c) l); cbn [bind] in M; [discriminate M|]. injection M as ->. now apply IH.
    + injection M as ->. eapply container_apply_exn; [|exact Q]. intros x X. left. destruct x; cbn [assign1] in X; try discriminate X; destruct (is_produced cc _); congruence.
  - cbn [bind] in M. destruct (assign_fields pl (t_child c) l); cbn [bind] in M; [discriminate M|]. injection M as ->. now apply IH.
Qed.
Lemma parse_exns : forall N c pl j e, jdepth j < N -> parse c pl j = Err e -> parse_exn e.
Proof.
  induction N as [|N IH]; intros c pl j e D E; [lia|].
  assert (CH : forall ct c pl v, jdepth v < N -> parse_child parse ct c pl v = Err e -> parse_exn e).
  { clear c pl j D E. intros ct c pl v D E. destruct ct; cbn [parse_child] in E.
    - now apply IH in E.
    - destruct (iter_json v) as [l|e0] eqn:I; cbn [bind] in E.
      + destruct (mapi_res (fun i x => parse c (pl ++ [str_of_nat i]) x) 0 l) eqn:M; cbn [bind] in E; [discriminate E|]. injection E as ->.
        apply mapi_res_err in M as (i & x & IN & M). eapply IH; [|exact M]. pose proof (iter_json_depth _ _ _ I IN). lia.
      + injection E as ->. destruct v; try discriminate I; injection I as <-; unfold parse_exn; auto.
    - destruct v; try (injection E as <-; unfold parse_exn; auto; fail).
      match type of E with bind ?m _ = _ => destruct m eqn:M; cbn [bind] in E; [discriminate E|injection E as ->] end.
      apply map_res_err in M as ([k x] & IN & M). cbn [fst snd] in M. destruct (parse c (pl ++ [k]) x) eqn:Q; cbn [bind] in M; [discriminate M|].
      injection M as ->. eapply IH; [|exact Q]. rewrite jdepth_obj in D. apply jddepth_In in IN. lia. }
  assert (OBJ : forall c pl d, jdepth (JObj d) <= N -> parse (Of c) pl (JObj d) = Err e -> parse_exn e).
  { clear c pl j D E. intros c pl d D E. rewrite jdepth_obj in D. rewrite parse_cls_eq in E. cbn [parse_cls] in E.
    destruct (parse_children parse pl (t_child c) d) as [kids|e0] eqn:K; cbn [bind] in E; [now apply produce_exn in E|].
    injection E as ->. revert K. generalize (t_child c). induction l as [|[key [ct cc]] l IHl]; cbn [parse_children]; [discriminate|].
    assert (REST : forall kv, (do r <- parse_children parse pl l d; Ok (kv ++ r)) = Err e -> parse_exn e).
    { intros kv X. destruct (parse_children parse pl l d); cbn [bind] in X; [discriminate X|]. injection X as ->. now apply IHl. }
    assert (MK : forall v, sget key d = Some v ->
       (do kv <- do x <- mask cc (parse_child parse ct cc (pl ++ [key]) v); Ok [(key, x)]; do r <- parse_children parse pl l d; Ok (kv ++ r)) = Err e -> parse_exn e).
    { intros v G X. apply jddepth_get in G. destruct (parse_child parse ct cc (pl ++ [key]) v) as [x|e1] eqn:PC.
      - destruct cc; cbn [mask bind] in X; now apply REST in X.
      - destruct cc; cbn [mask bind] in X.
        + injection X as ->. apply (CH _ _ _ v) in PC; [exact PC|lia].
        + destruct e1; cbn [bind] in X; injection X as <-; try (left; reflexivity). apply (CH _ _ _ v) in PC; [exact PC|lia]. }
    destruct (sget key d) as [v|] eqn:G; [|intro X; cbn [bind] in X; now apply REST in X].
    destruct v; try (apply MK; reflexivity). intro X; cbn [bind] in X; now apply REST in X. }
  destruct c as [c|].
  - destruct j; try (rewrite parse_cls_eq in E; injection E as <-; left; reflexivity).
    + rewrite parse_null in E. discriminate E.
    + apply (OBJ c pl d); [lia|exact E].
  - destruct j; try (rewrite parse_eq in E; cbn [parse_step parse_cls] in E; try discriminate E; injection E as <-; left; reflexivity).
    rewrite parse_addp_obj in E. apply (OBJ CSchema pl d); [lia|exact E].
Qed.

(** ** C36: parents and places *)
Definition good (p : place) (o : val) : Prop :=
  place_of o = Some p /\ forall o', holds o o' -> parent_of o' = place_of o.
Lemma inject_no_obj j : forall ts o, reach [] (inject j) ts o -> ~ is_obj o.
Proof.
  induction j using json_ind'; intros ts o R; cbn [inject] in R.
  1-5: inversion R; subst; exact (fun F => F).
  - inversion R as [| |? i v ts' ? N R'|]; subst; [exact (fun F => F)|]. apply nth_error_In in N. apply in_map_iff in N as (x & <- & I).
    rewrite Forall_forall in H. exact (H x I _ _ R').
  - inversion R as [| | |? k v ts' ? N R']; subst; [exact (fun F => F)|]. rewrite sget_map in N.
    destruct (sget k d) as [x|] eqn:G; [|discriminate N]. injection N as <-. apply sget_In in G. rewrite Forall_forall in H. exact (H _ G _ _ R').
Qed.
Lemma inside_reach leaves v ts o : inside v ts o -> reach leaves v ts o.
Proof. intro I. induction I; econstructor; eauto. Qed.
Lemma reach_set_parent p v ts o : reach [] (set_parent p v) ts o -> (ts = [] /\ o = set_parent p v) \/ reach [] v ts o.
Proof.
  destruct v; cbn [set_parent]; try (now right). intro R. inversion R; subst; [now left|]. right. econstructor; eauto.
Qed.
Lemma good_set_parent p q v : good p v -> good p (set_parent q v).
Proof.
  intros (A & B). destruct v; cbn [set_parent]; try (now split). split; [exact A|].
  intros o' (IO & h' & fs' & ints' & n & x & ts & E & G & I). injection E as <- <- <-. apply B. split; [exact IO|]. eauto 10.
Qed.
Definition all_good (p : place) (v : val) : Prop := forall ts o, reach [] v ts o -> is_obj o -> good (p ++ ts) o.
Lemma all_good_set_parent p q v : all_good p v -> all_good p (set_parent q v).
Proof.
  intros H ts o R IO. apply reach_set_parent in R as [(-> & ->)|R]; [|auto]. apply good_set_parent. apply H; [constructor|].
  now destruct v.
Qed.
Lemma inside_own p ct c y ts o : typed ct c y -> inside (own p y) ts o -> is_obj o -> parent_of o = Some p.
Proof.
  assert (X : forall c v ts o, typed1 c v -> inside (set_parent p v) ts o -> is_obj o -> parent_of o = Some p).
  { clear. intros c v ts o T I IO. destruct T as [->|T]; [inversion I; subst; destruct IO|].
    destruct v; try (destruct c; discriminate T); cbn [set_parent] in I; inversion I; subst; [destruct IO|reflexivity]. }
  intros T I IO. destruct ct; cbn [typed] in T.
  - destruct T as [->|T]; [inversion I; subst; destruct IO|]. destruct y; try (destruct c; discriminate T).
    + inversion I; subst; destruct IO.
    + eapply (X c); [right; exact T|exact I|exact IO].
  - destruct T as (l & -> & F). cbn [own] in I. inversion I as [|? i v ts' ? N I'|]; subst; [destruct IO|].
    apply nth_error_In in N. apply in_map_iff in N as (x & <- & IN). rewrite Forall_forall in F. eapply (X c); eauto.
  - destruct T as (l & -> & F). cbn [own] in I. inversion I as [| |? k v ts' ? N I']; subst; [destruct IO|].
    rewrite sget_map in N. destruct (sget k l) as [x|] eqn:G; [|discriminate N]. injection N as <-. apply sget_In in G.
    rewrite Forall_forall in F. eapply (X c); [exact (F _ G)|exact I'|exact IO].
Qed.
Lemma field_no_child c pl d n df x : sget n (t_child c) = None -> field_val c pl d n df x -> exists j, x = inject j.
Proof. intros T (y & G & ->). rewrite T. unfold gathered in G. rewrite T in G. subst y. eauto. Qed.
Lemma absent_no_obj ct j : exists k, absent ct j = inject k.
Proof. destruct ct; cbn; [eauto|exists (JList []); reflexivity|exists (JObj []); reflexivity]. Qed.
Lemma own_inject p j ts o : reach [] (own p (inject j)) ts o -> ~ is_obj o.
Proof.
  assert (S : forall q k, set_parent q (inject k) = inject k) by (intros q k; destruct k; reflexivity).
  assert (O : own p (inject j) = inject j).
  { destruct j; cbn [own inject]; try reflexivity; f_equal; rewrite map_map; apply map_ext; intros; cbn [fst snd]; now rewrite S. }
  rewrite O. apply inject_no_obj.
Qed.
Lemma parse_good : forall N c pl j v, jdepth j < N -> parse c pl j = Ok v -> all_good pl v.
Proof.
  induction N as [|N IH]; intros c pl j v D E; [lia|].
  assert (CH : forall ct c pl v y q, jdepth v < N -> parse_child parse ct c pl v = Ok y -> all_good pl (own q y)).
  { clear c pl j v D E. intros ct c pl v y q D E. destruct ct; cbn [parse_child] in E.
    - assert (own q y = set_parent q y) as -> by (apply parse_produced in E; destruct y; try reflexivity; destruct c; discriminate E).
      apply all_good_set_parent. now apply (IH c pl v).
    - apply bind_ok in E as (l & E1 & E). apply bind_ok in E as (m & E & X). injection X as <-. apply mapi_res_ok in E.
      intros ts o R IO. cbn [own] in R. inversion R as [| |? i x ts' ? NN R'|]; subst; [destruct IO|].
      rewrite nth_error_map in NN. destruct (nth_error m i) as [z|] eqn:G; [|discriminate NN]. injection NN as <-.
      destruct (irel_nth _ _ _ _ E _ _ G) as (w & W & P). cbn [Nat.add] in P.
      assert (A : all_good (pl ++ [str_of_nat i]) (set_parent q z)).
      { apply all_good_set_parent. eapply IH; [|exact P]. apply nth_error_In in W. pose proof (iter_json_depth _ _ _ E1 W). lia. }
      specialize (A _ _ R' IO). now rewrite <- app_assoc in A.
    - destruct v; try discriminate E. apply bind_ok in E as (e & E & X). injection X as <-.
      rewrite (map_res_dict (fun k x => parse c (pl ++ [k]) x)) in E.
      intros ts o R IO. cbn [own] in R. inversion R as [| | |? k x ts' ? NN R']; subst; [destruct IO|].
      rewrite sget_map in NN. destruct (sget k e) as [z|] eqn:G; [|discriminate NN]. injection NN as <-.
      destruct (drel_get_r _ _ _ _ _ E G) as (w & W & P). cbv beta in P.
      assert (A : all_good (pl ++ [k]) (set_parent q z)).
      { apply all_good_set_parent. eapply IH; [|exact P]. rewrite jdepth_obj in D. apply jddepth_get in W. lia. }
      specialize (A _ _ R' IO). now rewrite <- app_assoc in A. }
  assert (OBJ : forall c pl d v, jdepth (JObj d) <= N -> parse (Of c) pl (JObj d) = Ok v -> all_good pl v).
  { clear c pl j v D E. intros c pl d v D E. rewrite jdepth_obj in D. apply parse_obj in E as (kids & fs & _ & -> & F).
    intros ts o R IO. inversion R as [|? ? ? n x ts' ? _ G R'| |]; subst.
    - rewrite app_nil_r. split; [reflexivity|]. intros o' (IO' & h & fs' & ints & n & x & ts & E & G & I).
      injection E as <- <- <-. destruct (drel_get_r _ _ _ _ _ F G) as (df & FD & FV).
      destruct (sget n (t_child c)) as [[ct cc]|] eqn:T.
      + destruct FV as (y & GA & ->). rewrite T in I. cbn [place_of h_place]. eapply inside_own; [|exact I|exact IO'].
        eapply gathered_typed; eauto.
      + destruct (field_no_child _ _ _ _ _ _ T FV) as (k & ->). exfalso. eapply inject_no_obj; [eapply inside_reach; exact I|exact IO'].
    - destruct (drel_get_r _ _ _ _ _ F G) as (df & FD & FV).
      destruct (sget n (t_child c)) as [[ct cc]|] eqn:T.
      + destruct FV as (y & GA & ->). rewrite T in R'. unfold gathered in GA. rewrite T in GA.
        assert (AB : forall k, y = absent ct k -> good (pl ++ n :: ts') o).
        { intros k ->. destruct (absent_no_obj ct k) as (k' & A). rewrite A in R'. exfalso. eapply own_inject; eauto. }
        destruct (sget n d) as [w|] eqn:W; [|now apply (AB df)].
        assert (GO : parse_child parse ct cc (pl ++ [n]) w = Ok y -> good (pl ++ n :: ts') o).
        { intro P. assert (A : all_good (pl ++ [n]) (own pl y)) by (eapply CH; [apply jddepth_get in W|exact P]; lia).
          specialize (A _ _ R' IO). now rewrite <- app_assoc in A. }
        destruct w; try (now apply GO). now apply (AB JNull).
      + destruct (field_no_child _ _ _ _ _ _ T FV) as (k & ->). exfalso. eapply inject_no_obj; [exact R'|exact IO]. }
  assert (NUL : forall c pl v, parse (Of c) pl JNull = Ok v -> all_good pl v).
  { clear c pl j v D E. intros c pl v E. rewrite parse_null in E. injection E as <-.
    assert (FI : forall n x, sget n (map (fun nd => (fst nd, inject (snd nd))) (t_fields c)) = Some x -> exists j, x = inject j).
    { intros n x G. rewrite sget_map in G. destruct (sget n (t_fields c)); [|discriminate G]. injection G as <-. eauto. }
    intros ts o R IO. inversion R as [|? ? ? n x ts' ? _ G R'| |]; subst.
    - rewrite app_nil_r. split; [reflexivity|]. intros o' (IO' & h & fs' & ints & n & x & ts & E & G & I).
      injection E as <- <- <-. apply FI in G as (k & ->). exfalso. eapply inject_no_obj; [eapply inside_reach; exact I|exact IO'].
    - apply FI in G as (k & ->). exfalso. eapply inject_no_obj; [exact R'|exact IO]. }
  destruct c as [c|].
  - destruct j; try (rewrite parse_cls_eq in E; discriminate E); [now apply NUL in E|]. apply (OBJ c pl d); [lia|exact E].
  - destruct j; try (rewrite parse_eq in E; discriminate E).
    + rewrite parse_eq in E. injection E as <-. intros ts o R IO. inversion R; subst. destruct IO.
    + rewrite parse_eq in E. injection E as <-. intros ts o R IO. inversion R; subst. destruct IO.
    + rewrite parse_addp_obj in E. apply (OBJ CSchema pl d); [lia|exact E].
Qed.

(** ** C36: the keys that are set *)
Lemma all_of_keys kids d k : In k (map fst (all_of kids d)) <-> sget k kids <> None \/ In k (map fst d).
Proof.
  rewrite sget_Some_key. setoid_rewrite sget_all_of. rewrite sget_Some_key. split.
  - intros (v & E). destruct (sget k kids); [left; discriminate|]. destruct (sget k d); [eauto|discriminate E].
  - intros [H|(v & E)]; destruct (sget k kids); eauto; [congruence|]. rewrite E. cbn. eauto.
Qed.
Lemma keys_of c pl d kids k : parse_children parse pl (t_child c) d = Ok kids ->
  In k (map fst (all_of kids d)) <-> In k (map fst d) \/ exists cc, sget k (t_child c) = Some (ListOf, cc) \/ sget k (t_child c) = Some (DictOf, cc).
Proof.
  intro E. rewrite all_of_keys. pose proof (children_inv _ _ _ _ (child_nodup c) E k) as K. unfold kid in K.
  destruct (sget k (t_child c)) as [[ct cc]|] eqn:T.
  - destruct (sget k d) as [v|] eqn:G.
    + assert (In k (map fst d)) by (apply sget_Some_key; eauto). split; intros _; auto.
    + rewrite K. split.
      * intros [H|H]; [|auto]. right. exists cc. destruct ct; auto. congruence.
      * intros [H|(c0 & [H|H])]; [auto|..]; left; injection H as -> ->; discriminate.
  - rewrite K. split; [intros [H|H]; [congruence|auto]|]. intros [H|(cc & [H|H])]; [auto|discriminate H..].
Qed.
