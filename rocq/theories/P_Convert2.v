(** Lemmas on converted documents: the objects made have the shape of their classes. *)
From Coq Require Import Lia.
From Verif Require Import PyBase PyFacts PyInt PyJson M_JsonPtr S_JsonPtr M_Url P_Op M_SpecVal M_Parse M_SpecTree M_Merge M_MergeRef S_Parse S_SpecTree S_Merge S_MergeRef S_Typed S_Validate P_SpecBase P_Parse P_SpecTree P_Compare P_Merge P_MergeShape P_MergeRef P_Patch M_App S_App P_App P_Deep M_OldParse S_OldParse P_OldParse T_OldParse S_OldValidate M_Upgrade S_Upgrade P_UpgradeObj P_Upgrade P_UpgradeDoc P_UpgradeFold.
Close Scope Q_scope.

Definition plain (v : val) : Prop := wfv v /\ no_object v.
Definition fit (c : cls) (n : str) (x : val) : Prop :=
  deep x /\ match sget n (t_child c) with None => plain x | Some (ct, cc) => shaped_in ct cc x end.
Definition fits (c : cls) (kvs : sdict val) : Prop := Forall (fun nx => fit c (fst nx) (snd nx)) kvs.
Lemma plain_deep v : plain v -> deep v.
Proof. intros (W & N). now apply deep_no_object. Qed.
Lemma plain_leaf v : not_container v -> plain v.
Proof. intro N. split; [destruct v; try constructor; destruct N|]. intros ts o I. destruct v; try (destruct N; fail); inversion I; subst; intros []. Qed.
Lemma plain_list l : Forall plain l -> plain (VList l).
Proof.
  intro F. split.
  - constructor. eapply Forall_impl; [|exact F]. now intros ? [].
  - apply no_object_list. intros x I. rewrite Forall_forall in F. now apply F.
Qed.
Lemma plain_dict d : NoDup (map fst d) -> (forall k x, sget k d = Some x -> plain x) -> plain (VDict d).
Proof.
  intros N F. split.
  - constructor; [exact N|]. apply Forall_of_get; [exact N|]. intros k x G. now apply (F k).
  - apply no_object_dict. intros k x G. now apply (F k).
Qed.
Lemma fit_plain c n x : sget n (t_child c) = None -> plain x -> fit c n x.
Proof. intros T P. split; [now apply plain_deep|]. now rewrite T. Qed.
Lemma fit_child c n ct cc x : sget n (t_child c) = Some (ct, cc) -> deep x -> shaped_in ct cc x -> fit c n x.
Proof. intros T D S. split; [exact D|]. now rewrite T. Qed.
Lemma fit_default c n df : sget n (t_fields c) = Some df -> fit c n (inject df).
Proof.
  intro G. pose proof (fresh_shaped c []) as S. pose proof (deep_fresh c []) as D.
  assert (X : sget n (map (fun nd => (fst nd, inject (snd nd))) (t_fields c)) = Some (inject df)) by (rewrite sget_map; now rewrite G).
  split; [eapply deep_field; eauto|]. destruct (shaped_field _ _ _ _ _ (deep_shaped _ _ _ D) X) as [(T & W & N)|(ct & cc & T & SI)]; cbn [h_cls] in T; rewrite T; [now split|exact SI].
Qed.
Lemma holding_fit c kvs v : holding c kvs v -> fits c kvs -> deep v /\ shaped (Of c) v.
Proof.
  intros (h & fs & -> & C & K & F) FT.
  assert (H : forall n x, sget n fs = Some x -> fit c n x).
  { intros n x G. assert (T : exists df, sget n (t_fields c) = Some df) by (apply sget_Some_key; rewrite <- K; apply sget_Some_key; eauto). destruct T as (df & T). rewrite (F _ _ T) in G. injection G as <-.
    destruct (sget n (rev kvs)) as [x|] eqn:R; [|now apply fit_default]. apply sget_In in R. apply in_rev in R. unfold fits in FT. rewrite Forall_forall in FT. exact (FT _ R). }
  assert (S : shaped (Of c) (VObj h fs (map (fun nd => (fst nd, VNone)) (t_internal c)))).
  { rewrite <- C. constructor; rewrite C; auto.
    - rewrite map_map. reflexivity.
    - intros n x G T. destruct (H _ _ G) as (_ & X). rewrite T in X. exact X.
    - intros n x ct cc G T. destruct (H _ _ G) as (_ & X). rewrite T in X. exact X. }
  split; [|exact S]. apply deep_obj. rewrite C. split; [exact S|]. split; [|split].
  - cbn. intros n x G. apply fresh_none in G as ->. intros [[? X]|[? X]]; discriminate X.
  - apply Forall_of_get; [rewrite K; apply fields_nodup|]. intros n x G. now apply (H n x).
  - apply Forall_map, Forall_forall. intros ? _. now apply dp_plain.
Qed.
Lemma fits_app c a b : fits c a -> fits c b -> fits c (a ++ b).
Proof. intros A B. apply Forall_app. now split. Qed.
Lemma fits_one c n x : fit c n x -> fits c [(n, x)].
Proof. intro F. now constructor. Qed.

(** ** Values of 1.2 objects *)
Definition old_ok (v : val) : Prop := wfv v /\ old_value v.
Lemma no_obj_plain v : wfv v -> no_obj v -> plain v.
Proof. intros W N. split; [exact W|]. intros ts o I O. eapply no_obj_inside; eauto. Qed.
Lemma old_ok_obj c v : of_class c v -> old_ok v -> exists h fs ints, v = VObj h fs ints /\ h_cls h = COld c /\ map fst fs = map fst (o_fields c) /\ map fst ints = map fst (t_internal (COld c)) /\
  forall n x, sget n fs = Some x -> old_ok x /\ exists pl, old_field c pl n x.
Proof.
  intros (h & fs & ints & -> & C) (W & O). exists h, fs, ints. split; [reflexivity|]. split; [exact C|]. inversion W as [| | | | | | |? ? ? K FW]; subst. rewrite C in K. cbn [t_fields] in K. split; [exact K|].
  inversion O as [? N| | |c' ? ? ? C' KI FO FF]; subst; [now apply no_obj_VObj in N|]. assert (c' = c) as -> by congruence. split; [exact KI|].
  intros n x G. apply sget_In in G. rewrite Forall_forall in FW, FO, FF. split; [split; [exact (FW _ G)|exact (FO _ G)]|]. exists (h_place h). exact (FF _ G).
Qed.
Lemma old_get c v n x : of_class c v -> old_ok v -> has_field v n x -> existsb (str_eqb (lit n)) (map fst (t_internal (COld c))) = false -> old_ok x /\ exists pl, old_field c pl (lit n) x.
Proof.
  intros C O H I. destruct (old_ok_obj _ _ C O) as (h & fs & ints & -> & _ & _ & KI & F). destruct H as [G|(_ & G)]; [auto|].
  apply sget_In in G. apply (in_map fst) in G. rewrite KI in G. cbn [fst] in G. assert (X : existsb (str_eqb (lit n)) (map fst (t_internal (COld c))) = true) by (apply existsb_exists; exists (lit n); split; [exact G|apply str_eqb_refl]). congruence.
Qed.
Lemma old_plain_field c v n x : of_class c v -> old_ok v -> has_field v n x -> existsb (str_eqb (lit n)) (map fst (t_internal (COld c))) = false -> sget (lit n) (o_holds c) = None -> plain x.
Proof.
  intros C O H I T. destruct (old_get _ _ _ _ C O H I) as ((W & _) & pl & F). unfold old_field in F. rewrite T in F. now apply no_obj_plain.
Qed.
Lemma old_held c v n x ct cc : of_class c v -> old_ok v -> has_field v n x -> existsb (str_eqb (lit n)) (map fst (t_internal (COld c))) = false -> sget (lit n) (o_holds c) = Some (ct, cc) ->
  old_ok x /\ (held ct cc x \/ x = VNone \/ plain x /\ ~ holds_true x).
Proof.
  intros C O H I T. destruct (old_get _ _ _ _ C O H I) as (X & pl & F). split; [exact X|]. unfold old_field in F. rewrite T in F. destruct F as [(F & _)|[F|(_ & N & NH)]]; auto. right. right. split; [|exact NH]. apply no_obj_plain; [apply X|exact N].
Qed.
Lemma old_item x l y : old_ok x -> elements x l -> In y l -> old_ok y.
Proof.
  intros (W & O) E I. inversion E; subst.
  - split; [inversion W; subst; now apply (proj1 (Forall_forall _ _) H0)|]. inversion O as [? N|? F| |]; subst; [constructor; eapply no_obj_item; eauto|]. rewrite Forall_forall in F. auto.
  - apply in_map_iff in I as (c & <- & _). split; [constructor|]. constructor. intros ts o R. inversion R; subst. intros [].
  - apply in_map_iff in I as (c & <- & _). split; [constructor|]. constructor. intros ts o R. inversion R; subst. intros [].
Qed.
(** A name that no class has for children or internal fields *)
Definition safe (n : string) : Prop := forall c, sget (lit n) (o_holds c) = None /\ existsb (str_eqb (lit n)) (map fst (t_internal (COld c))) = false.
Ltac safely := let c := fresh in intro c; destruct c; split; reflexivity.
Lemma old_any v n x : old_ok v -> has_field v n x -> existsb (fun c => existsb (str_eqb (lit n)) (map fst (t_internal (COld c)))) [OOperation; OModel] = false -> old_ok x /\ exists c, of_class c v /\ exists pl, old_field c pl (lit n) x.
Proof.
  intros O H I. destruct v as [| | | | | | |h fs ints]; try destruct H. all: try contradiction.
  all: assert (C : exists c, of_class c (VObj h fs ints)) by (destruct O as (_ & O); inversion O as [? N| | |c' ? ? ? C' _ _ _]; subst; [now apply no_obj_VObj in N|]; exists c'; do 3 eexists; eauto).
  all: destruct C as (c & C); destruct (old_get c _ n x C O) as (A & B); [|destruct c; try reflexivity; cbn [existsb] in I; apply Bool.orb_false_iff in I as (I1 & I2); try exact I1; apply Bool.orb_false_iff in I2 as (I2 & _); exact I2|split; [exact A|]; exists c; auto].
  - now left.
  - now right.
Qed.
Lemma old_safe v n x : old_ok v -> has_field v n x -> safe n -> plain x.
Proof.
  intros O H S. destruct (old_any v n x O H) as ((W & _) & c & C & pl & F); [cbn [existsb]; rewrite (proj2 (S OOperation)), (proj2 (S OModel)); reflexivity|].
  unfold old_field in F. rewrite (proj1 (S c)) in F. now apply no_obj_plain.
Qed.
Lemma old_false v : old_ok v -> ~ holds_true v -> plain v.
Proof.
  intros (W & O) N. apply no_obj_plain; [exact W|]. inversion O as [? P|l F|d F|]; subst; [exact P| | |].
  - destruct l as [|y l]; [|elim N; cbn; discriminate]. intros ts o R. inversion R as [| |? i ? ? ? G|]; subst; [intros []|destruct i; discriminate G].
  - destruct d as [|y d]; [|elim N; cbn; discriminate]. intros ts o R. inversion R as [| | |? ? ? ? ? G]; subst; [intros []|discriminate G].
  - elim N. exact Logic.I.
Qed.
Lemma chain_plain names : forall v n x, old_ok v -> chain v (names ++ [n]) x -> safe n -> forallb (fun m => negb (existsb (fun c => existsb (str_eqb (lit m)) (map fst (t_internal (COld c)))) [OOperation; OModel])) names = true -> plain x.
Proof.
  induction names as [|m names IH]; intros v n x O C S I; cbn [List.app chain] in C.
  - destruct C as [(y & H & [(_ & ->)|(_ & ->)])|(_ & ->)]; [eapply old_safe; eauto|eapply old_safe; eauto|now apply plain_leaf].
  - cbn [forallb] in I. apply andb_true_iff in I as (I1 & I2). apply negb_true_iff in I1. destruct C as [(y & H & C)|(_ & ->)]; [|now apply plain_leaf].
    destruct (old_any v m y O H I1) as (OY & _). destruct C as [(NH & ->)|(_ & C)]; [now apply old_false|eauto].
Qed.

Definition data_fields : list string := ["$ref"; "type"; "format"; "defaultValue"; "minimum"; "maximum"; "uniqueItems"; "enum"]%string.
Definition typed_class (c : ocls) : Prop := c = OParameter \/ c = OOperation \/ c = OProperty.
Lemma data_plain c d n x : typed_class c -> of_class c d -> old_ok d -> has_field d n x -> In n data_fields -> plain x.
Proof.
  intros T C O H I. apply (old_plain_field c d n x C O H); unfold data_fields in I; cbn [In] in I; repeat (destruct I as [<-|I]; [destruct T as [-> |[-> | ->]]; reflexivity|]); destruct I.
Qed.
Ltac inlist := unfold data_fields; cbn [In]; tauto.
Section Parts.
  Context (prim : str -> bool) (float_of : str -> res Q) (sep : str).
  Notation data_type_of := (data_type_of prim sep). Notation limit := (limit float_of).
  Notation schema_kvs := (schema_kvs prim float_of sep). Notation schema_for := (schema_for prim float_of sep).
  Notation parameter_for := (parameter_for prim float_of sep). Notation operation_for := (operation_for prim float_of sep).
  Lemma data_type_fit scope d kvs : data_type_of scope d kvs -> fits CSchema kvs.
  Proof.
    intros (r & t & k1 & k2 & _ & _ & R & T & ->). apply fits_app; [inversion R|inversion T]; subst; try constructor; try (apply fit_plain; [reflexivity|now apply plain_leaf]); constructor.
  Qed.
  Lemma limit_plain d n x : limit d n x -> plain x.
  Proof. intros (v & _ & [(_ & ->)|(_ & q & _ & [(_ & ->)|(_ & ->)])]); now apply plain_leaf. Qed.
  Lemma default_fit c' c d wrap kd : default_part d wrap kd -> typed_class c -> of_class c d -> old_ok d -> (forall x, plain x -> plain (wrap x)) -> sget (lit "default") (t_child c') = None -> fits c' kd.
  Proof.
    intros [(x & _ & H & ->)|(_ & ->)] T C O W N; [|constructor]. apply fits_one, fit_plain; [exact N|]. apply W. eapply data_plain; eauto. inlist.
  Qed.
  Lemma items_class c d i : typed_class c -> of_class c d -> old_ok d -> has_field d "items" i -> holds_true i -> of_class OItems i /\ old_ok i.
  Proof.
    intros T C O H HT. destruct (old_held c d "items" i XOne OItems C O H) as (OI & [F|[->|(_ & N)]]).
    - destruct T as [-> |[-> | ->]]; reflexivity.
    - destruct T as [-> |[-> | ->]]; reflexivity.
    - auto.
    - destruct HT.
    - contradiction.
  Qed.
  Lemma schema_kvs_fit c scope d kvs : typed_class c -> of_class c d -> old_ok d -> schema_kvs scope d kvs -> fits CSchema kvs.
  Proof.
    intros T C O (kt & f & kd & mn & mx & ui & en & i & ki & DT & F & KD & MN & MX & UI & EN & IT & KI & ->).
    apply fits_app; [eapply data_type_fit; eauto|]. apply fits_app; [apply fits_one, fit_plain; [reflexivity|eapply data_plain; eauto; inlist]|].
    apply fits_app; [apply (default_fit CSchema c d (fun x => x)); auto|]. apply fits_app.
    - repeat (constructor; [apply fit_plain; [reflexivity|]; cbn [snd]; first [eapply limit_plain; eassumption | eapply data_plain; eauto; inlist]|]). constructor.
    - destruct KI as [(_ & ->)|(HT & ks & fi & s & DS & FI & MA & ->)]; [constructor|]. destruct (items_class _ _ _ T C O IT HT) as (CI & OI).
      destruct (holding_fit _ _ _ (proj1 MA)) as (D & S). { apply fits_app; [eapply data_type_fit; eauto|]. apply fits_one, fit_plain; [reflexivity|]. exact (old_plain_field _ _ _ _ CI OI FI eq_refl eq_refl). }
      apply fits_one. eapply fit_child; [reflexivity|exact D|]. now constructor.
  Qed.
  Lemma schema_for_ok c scope d s : typed_class c -> of_class c d -> old_ok d -> schema_for scope d s -> deep s /\ shaped (Of CSchema) s.
  Proof. intros T C O (kvs & K & M & _). apply (holding_fit _ _ _ M). eapply schema_kvs_fit; eauto. Qed.
  Lemma items_for_ok d i more : (forall x, has_field d "format" x -> plain x) -> items_for prim d more i -> fits CItems more -> deep i /\ shaped (Of CItems) i.
  Proof.
    intros P (r & t & x & _ & _ & _ & _ & F & M & _) FM. apply (holding_fit _ _ _ M). apply fits_app; [|exact FM]. constructor; [apply fit_plain; [reflexivity|now apply plain_leaf]|]. apply fits_one, fit_plain; [reflexivity|auto].
  Qed.
  Ltac old_field_plain := match goal with H : has_field ?v ?n ?x, C : of_class ?c ?v, O : old_ok ?v |- plain ?x => exact (old_plain_field c v n x C O H eq_refl eq_refl) end.
  Ltac fitted tac := repeat (constructor; [apply fit_plain; [reflexivity|cbn [snd]; tac]|]); try apply Forall_nil.
  Lemma parameter_for_ok scope d p : of_class OParameter d -> old_ok d -> parameter_for scope d p -> deep p /\ shaped (Of CParameter) p.
  Proof.
    intros C O (name & req & de & pt & pl & N & RQ & DE & PT & PL & H). cbn zeta in H.
    assert (T : typed_class OParameter) by now left.
    assert (B : fits CParameter ["name" ~> name; "required" ~> req; "description" ~> de; "in" ~> pl]).
    { fitted ltac:(first [old_field_plain | idtac]). destruct PL as [(_ & ->)|(_ & ->)]; [now apply plain_leaf|old_field_plain]. }
    destruct H as [(_ & s & SF & M & _)|(_ & r & am & items & ui & en & _ & _ & _ & IT & UI & EN & H)].
    - apply (holding_fit _ _ _ M). apply fits_app; [exact B|]. destruct (schema_for_ok _ _ _ _ T C O SF) as (D & S). apply fits_one. eapply fit_child; [reflexivity|exact D|now constructor].
    - destruct H as [(_ & -> & i & kd & IF & KD & M & _)|(_ & t & f & kd & mn & mx & ki & TY & F & KD & MN & MX & KI & M & _)].
      + apply (holding_fit _ _ _ M). apply fits_app; [exact B|]. apply fits_app.
        * destruct (items_for_ok _ _ _ (fun x Hx => old_plain_field _ _ _ _ C O Hx eq_refl eq_refl) IF) as (D & S); [apply fits_one, fit_plain; [reflexivity|old_field_plain]|].
          constructor; [apply fit_plain; [reflexivity|now apply plain_leaf]|]. constructor; [apply fit_plain; [reflexivity|now apply plain_leaf]|]. constructor; [apply fit_plain; [reflexivity|cbn [snd]; old_field_plain]|].
          apply fits_one. eapply fit_child; [reflexivity|exact D|now constructor].
        * eapply default_fit; eauto. intros x P. apply plain_list. now constructor.
      + apply (holding_fit _ _ _ M). apply fits_app; [exact B|]. apply fits_app.
        { constructor; [apply fit_plain; [reflexivity|now apply plain_leaf]|]. apply fits_one, fit_plain; [reflexivity|old_field_plain]. }
        apply fits_app; [eapply (default_fit CParameter OParameter d (fun x => x)); eauto|]. apply fits_app.
        { fitted ltac:(first [eapply limit_plain; eassumption | old_field_plain]). }
        destruct KI as [(_ & ->)|(HT & i & IF & ->)]; [constructor|]. destruct (items_class _ _ _ T C O IT HT) as (CI & OI).
        destruct (items_for_ok _ _ _ (fun x Hx => old_plain_field _ _ _ _ CI OI Hx eq_refl eq_refl) IF) as (D & S); [constructor|].
        constructor; [apply fit_plain; [reflexivity|now apply plain_leaf]|]. constructor; [apply fit_plain; [reflexivity|cbn [snd]; old_field_plain]|]. apply fits_one. eapply fit_child; [reflexivity|exact D|now constructor].
  Qed.
  Lemma own_or_old a b x : old_ok a -> old_ok b -> own_or a b x -> old_ok x.
  Proof. intros A B H. inversion H; subst; auto. split; [constructor; constructor|]. apply old_plain. intros ts o R. inversion R as [| |? i ? ? ? G|]; subst; [intros []|destruct i; discriminate G]. Qed.
  Lemma own_or_plain a b x : plain a -> plain b -> own_or a b x -> plain x.
  Proof. intros A B H. inversion H; subst; auto. apply plain_list. constructor. Qed.
  Lemma security_plain a b x : old_ok a -> old_ok b -> security_for a b x -> plain x.
  Proof.
    intros A B (au & l & OW & -> & H). destruct H as [(_ & ->)|(d & -> & F)]; [apply plain_list; constructor|].
    pose proof (own_or_old _ _ _ A B OW) as (W & O). apply plain_list. inversion W as [| | | | | |? ND FW|]; subst.
    assert (OD : Forall (fun kv : str * val => old_ok (snd kv)) d).
    { apply Forall_forall. intros (k & y) I. split; [rewrite Forall_forall in FW; exact (FW _ I)|]. inversion O as [? N| |? FO|]; subst; [|rewrite Forall_forall in FO; exact (FO _ I)].
      apply old_plain. eapply no_obj_key; eauto. }
    clear OW W O ND FW. induction F as [|(k & y) z d l R F IH]; constructor.
    - destruct R as (vs & ss & E & FS & ->). inversion OD as [|? ? OY _]; subst. cbn [fst snd] in *. apply plain_dict; [repeat constructor; intros []|]. intros k' x G. apply sget_In in G as [G|[]]. injection G as _ <-.
      apply plain_list. assert (OV : Forall old_ok vs) by (apply Forall_forall; intros v I; eapply old_item; eauto). clear E. induction FS as [|v s vs ss H FS IH']; constructor; inversion OV; subst; auto. eapply old_safe; [eassumption|exact H|safely].
    - inversion OD; subst; auto.
  Qed.
  Lemma operation_for_ok scope R d ps o : of_class OResource R -> old_ok R -> of_class OOperation d -> old_ok d -> Forall (fun p => deep p /\ shaped (Of CParameter) p) ps ->
    operation_for scope R d ps o -> deep o /\ shaped (Of COperation) o.
  Proof.
    intros CR OR C O FP (nick & su & no & de & co & pr & c & p & c' & p' & au & ar & sec & resp & ty & N & SU & NO & DE & CO & RC & OC & PR & RP & OP & AU & AR & SEC & TY & RESP & b & _ & M & _).
    apply (holding_fit _ _ _ M). assert (T : typed_class OOperation) by (right; now left).
    assert (RS : deep resp /\ shaped (Of CResponse) resp).
    { destruct RESP as [(_ & MR & _)|(_ & s & SF & MR & _)]; apply (holding_fit _ _ _ MR); [constructor|]. destruct (schema_for_ok _ _ _ _ T C O SF) as (D & S). apply fits_one. eapply fit_child; [reflexivity|exact D|now constructor]. }
    repeat (constructor; [apply fit_plain; [reflexivity|cbn [snd]; first [old_field_plain | now apply plain_leaf | idtac]]|]).
    - apply plain_list. constructor; [now apply plain_leaf|constructor].
    - apply (own_or_plain _ _ _ (old_plain_field _ _ _ _ C O CO eq_refl eq_refl) (old_plain_field _ _ _ _ CR OR RC eq_refl eq_refl) OC).
    - apply (own_or_plain _ _ _ (old_plain_field _ _ _ _ C O PR eq_refl eq_refl) (old_plain_field _ _ _ _ CR OR RP eq_refl eq_refl) OP).
    - constructor.
      + eapply fit_child; [reflexivity| |].
        * apply dp_list. apply Forall_forall. intros x I. rewrite Forall_forall in FP. now apply FP.
        * apply sh_list. eapply Forall_impl; [|exact FP]. now intros ? [].
      + constructor; [apply fit_plain; [reflexivity|]|].
        * destruct (old_get _ _ _ _ C O AU eq_refl) as (X & _). destruct (old_get _ _ _ _ CR OR AR eq_refl) as (Y & _). exact (security_plain _ _ _ X Y SEC).
        * apply fits_one. eapply fit_child; [reflexivity| |].
          -- apply deep_dict. constructor; [apply RS|constructor].
          -- apply sh_dict; [repeat constructor; intros []|]. constructor; [apply RS|constructor].
  Qed.
  Lemma property_for_ok scope d s : of_class OProperty d -> old_ok d -> property_for prim float_of sep scope d s -> deep s /\ shaped (Of CSchema) s.
  Proof.
    intros C O (kvs & de & K & DE & M & _). apply (holding_fit _ _ _ M). apply fits_app; [eapply schema_kvs_fit; eauto; right; now right|]. apply fits_one, fit_plain; [reflexivity|old_field_plain].
  Qed.
  Lemma model_kvs_fit scope m kvs : of_class OModel m -> old_ok m -> model_kvs prim float_of sep scope m kvs -> fits CSchema kvs.
  Proof.
    intros C O (props & ps & rq & di & de & P & F & RQ & DI & DE & ->).
    assert (X : deep (VDict ps) /\ shaped_in DictOf (Of CSchema) (VDict ps)).
    { destruct (old_held _ _ _ _ XDict OProperty C O P eq_refl eq_refl) as ((W & OV) & H).
      assert (FK : map fst ps = map fst props) by (clear - F; induction F as [|? ? ? ? (E & _) F IH]; cbn; congruence).
      inversion W as [| | | | | |? ND FW|]; subst.
      assert (FC : Forall (fun kv : str * val => of_class OProperty (snd kv) /\ old_ok (snd kv)) props).
      { apply Forall_forall. intros (k & y) I. destruct H as [H|[H|(_ & H)]]; [|discriminate H|].
        - unfold held in H. destruct H as (d & E & H). injection E as <-. rewrite Forall_forall in H. split; [exact (H _ I)|]. rewrite Forall_forall in FW. split; [exact (FW _ I)|].
          inversion OV as [? N| |? FO|]; subst; [|rewrite Forall_forall in FO; exact (FO _ I)]. apply old_plain. eapply no_obj_key; eauto.
        - destruct props; [destruct I|]. elim H. cbn. discriminate. }
      assert (FS : Forall (fun kv : str * val => deep (snd kv) /\ shaped (Of CSchema) (snd kv)) ps).
      { clear - F FC. induction F as [|? ? ? ? (_ & PF) F IH]; constructor; inversion FC as [|? ? (CX & OX) ?]; subst; auto. eapply property_for_ok; eauto. }
      split.
      - apply deep_dict. eapply Forall_impl; [|exact FS]. now intros ? [].
      - apply sh_dict; [now rewrite FK|]. eapply Forall_impl; [|exact FS]. now intros ? []. }
    constructor; [eapply fit_child; [reflexivity|apply X|apply X]|]. fitted ltac:(idtac; old_field_plain).
  Qed.
  Lemma scheme_for_ok a s : of_class OAuthorization a -> old_ok a -> scheme_for a s -> deep s /\ shaped (Of CSecurityScheme) s.
  Proof.
    intros C O (t & t' & sc & l & d & more & TY & TE & SC & L & (_ & ND & SD) & MO & M & _). apply (holding_fit _ _ _ M).
    assert (PT : plain t') by (destruct TE as [(_ & ->)|(_ & ->)]; [now apply plain_leaf|old_field_plain]).
    apply fits_app.
    - constructor; [apply fit_plain; [reflexivity|exact PT]|]. apply fits_one, fit_plain; [reflexivity|]. apply plain_dict; [exact ND|]. intros k x G. apply SD in G as (l1 & s0 & l2 & EL & _ & X & _).
      destruct (old_get _ _ _ _ C O SC eq_refl) as (OS & _). assert (OX : old_ok s0). { destruct L as [(_ & ->)|(_ & E)]; [destruct l1; discriminate EL|]. eapply old_item; eauto. rewrite EL. apply in_elt. }
      eapply old_safe; [exact OX|exact X|safely].
    - destruct MO as [(_ & au & tu & fl & CA & CT & FL & ->)|[(_ & kn & pa & KN & PA & ->)|(_ & _ & ->)]].
      + apply fits_app.
        * constructor; [apply fit_plain; [reflexivity|]|apply fits_one, fit_plain; [reflexivity|]].
          -- eapply (chain_plain ["grantTypes"; "implicit"; "loginEndpoint"]%string _ "url"); [exact O|exact CA|safely|reflexivity].
          -- eapply (chain_plain ["grantTypes"; "authorization_code"; "tokenEndpoint"]%string _ "url"); [exact O|exact CT|safely|reflexivity].
        * destruct FL as [(_ & ->)|[(_ & _ & ->)|(_ & _ & ->)]]; [| |constructor]; apply fits_one, fit_plain; try reflexivity; now apply plain_leaf.
      + fitted ltac:(idtac; old_field_plain).
      + constructor.
  Qed.
  Lemma info_for_ok raw i : of_class OResourceList raw -> old_ok raw -> info_for raw i -> deep i /\ shaped (Of CInfo) i.
  Proof.
    intros C O (av & ti & de & tos & oi & c & l & u & kc & kl & AV & TI & DE & TOS & OI & HC & HL & HU & KC & KL & M & _). apply (holding_fit _ _ _ M).
    destruct (old_get _ _ _ _ C O OI eq_refl) as (OO & _).
    assert (PC : plain c) by (eapply old_safe; [exact OO|exact HC|safely]). assert (PL : plain l) by (eapply old_safe; [exact OO|exact HL|safely]). assert (PU : plain u) by (eapply old_safe; [exact OO|exact HU|safely]).
    apply fits_app; [|apply fits_app].
    - constructor; [apply fit_plain; [reflexivity|cbn [snd]; old_field_plain]|].
      constructor; [apply fit_plain; [reflexivity|]; apply (chain_plain ["info"]%string raw "title"); [exact O|exact TI|safely|reflexivity]|].
      constructor; [apply fit_plain; [reflexivity|]; apply (chain_plain ["info"]%string raw "description"); [exact O|exact DE|safely|reflexivity]|].
      constructor; [apply fit_plain; [reflexivity|]; apply (chain_plain ["info"]%string raw "termsOfServiceUrl"); [exact O|exact TOS|safely|reflexivity]|]. constructor.
    - destruct KC as [(_ & ->)|(_ & x & (MX & _) & ->)]; [constructor|]. destruct (holding_fit _ _ _ MX) as (D & S); [apply fits_one, fit_plain; auto|]. apply fits_one. eapply fit_child; [reflexivity|exact D|now constructor].
    - destruct KL as [(_ & _ & ->)|(_ & x & (MX & _) & ->)]; [constructor|]. destruct (holding_fit _ _ _ MX) as (D & S); [repeat (constructor; [apply fit_plain; [reflexivity|assumption]|]); constructor|]. apply fits_one. eapply fit_child; [reflexivity|exact D|now constructor].
  Qed.
End Parts.
