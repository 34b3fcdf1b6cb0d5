(** Lemmas for circular references of prepared applications. *)
From Coq Require Import Lia Relations.
From Verif Require Import PyBase PyFacts PyInt PyJson M_JsonPtr S_JsonPtr M_Url P_Op M_SpecVal M_Parse M_SpecTree M_Merge M_MergeRef S_Parse S_SpecTree S_Merge S_MergeRef P_SpecBase P_Parse P_SpecTree P_Compare P_Merge P_MergeShape P_MergeRef M_Scope M_Patch S_Patch P_Patch M_App S_App P_App P_Deep M_Validate M_OldValidate M_OldParse M_Upgrade M_Prepare P_Grown P_Grown2 S_Prepare P_Prepare5 T_SpecTree T_App S_Cycles.
From Verif Require M_Graph S_Graph P_Graph T_Graph P_OldValidate.
Close Scope Q_scope.

(** ** The shape of what is inside *)
Lemma shaped_inside v ts o : reach [] v ts o -> is_obj o ->
  (forall c, shaped c v -> exists c', shaped (Of c') o) /\ (forall ct cc, shaped_in ct cc v -> exists c', shaped (Of c') o).
Proof.
  assert (IN : forall ts o v, (forall c, shaped c v -> exists c', shaped (Of c') o) -> ~ container v -> is_obj o -> reach [] v ts o -> forall ct cc, shaped_in ct cc v -> exists c', shaped (Of c') o).
  { clear. intros ts o w H NC O R ct cc S. inversion S as [|c' v' S'|c' l F|c' d N F]; subst.
    - inversion R; subst; contradiction.
    - eauto.
    - destruct NC. left. eauto.
    - destruct NC. right. eauto. }
  intro R. induction R as [v|h fs ints n v ts o NI G R IH|l i v ts o G R IH|d k v ts o G R IH]; intro O.
  - assert (A : forall c, shaped c v -> exists c', shaped (Of c') v).
    { intros c S. inversion S as [b|w' S'|h fs ints]; subst; [contradiction|eauto|eauto]. }
    split; [exact A|]. apply (IN []); auto; [|constructor]. intros [[? ->]|[? ->]]; contradiction.
  - assert (RR : reach [] (VObj h fs ints) (n :: ts) o) by (apply reach_field with (v := v); auto).
    assert (B : forall c, shaped (Of c) (VObj h fs ints) -> exists c', shaped (Of c') o).
    { intros c S. pose proof (shaped_parts _ _ _ _ S) as (C & _). rewrite <- C in *. destruct (shaped_field _ _ _ _ _ S G) as [(T & W & NO)|(ct & cc' & T & SC)].
      - exfalso. apply no_object_reach in R; [|exact NO]. exact (NO _ _ R O).
      - eapply (proj2 (IH O)); eauto. }
    assert (A : forall c, shaped c (VObj h fs ints) -> exists c', shaped (Of c') o).
    { intros c S. inversion S as [b|w' S'|h' fs' ints']; subst; eauto. }
    split; [exact A|]. apply (IN (n :: ts)); auto. intros [[? X]|[? X]]; discriminate X.
  - split.
    + intros cc S. inversion S as [|? S'|]; subst. inversion S'.
    + intros ct cc S. inversion S as [|? ? S'|? ? F|]; subst; [inversion S' as [|? S2|]; subst; inversion S2|]. rewrite Forall_forall in F. eapply (proj1 (IH O)); eauto. apply F. eapply nth_error_In; eauto.
  - split.
    + intros cc S. inversion S as [|? S'|]; subst. inversion S'.
    + intros ct cc S. inversion S as [|? ? S'| |? ? N F]; subst; [inversion S' as [|? S2|]; subst; inversion S2|]. rewrite Forall_forall in F. eapply (proj1 (IH O)); eauto. exact (F _ (sget_In _ _ _ G)).
Qed.
Lemma schema_shaped c root ts s : shaped (Of c) root -> schema_at root ts s -> shaped (Of CSchema) s.
Proof.
  intros S (R & h & fs & ints & -> & C). destruct (proj1 (shaped_inside _ _ _ R Logic.I) _ S) as (c' & X). pose proof (shaped_parts _ _ _ _ X) as (D & _). congruence.
Qed.

(** ** What a schema mentions *)
Definition kids (x : val) : list (str * M_Graph.sch) :=
  match x with
  | VList l => map (fun y => ([], sch_of y)) l
  | VDict e => map (fun my => (fst my, sch_of (snd my))) e
  | VObj _ _ _ => [([], sch_of x)]
  | _ => []
  end.
Definition kids_in (fs : sdict val) (n : string) : list (str * M_Graph.sch) := match sget (lit n) fs with Some x => kids x | None => [] end.
Definition first_kid (l : list (str * M_Graph.sch)) : option M_Graph.sch := match l with (_, s) :: _ => Some s | [] => None end.
Lemma sch_of_eq h fs ints : sch_of (VObj h fs ints) = M_Graph.Sch (kids_in fs "properties") (map snd (kids_in fs "allOf")) (first_kid (kids_in fs "additionalProperties"))
  (first_kid (kids_in fs "items")) (match sget (lit "$ref") fs with Some (VStr r) => Some r | _ => None end).
Proof.
  assert (EL : forall l, (fix each l := match l with [] => [] | y :: l => ([], sch_of y) :: each l end) l = map (fun y => (([] : str), sch_of y)) l) by (induction l as [|y l IH]; [reflexivity|cbn [map]; rewrite <- IH; reflexivity]).
  assert (ED : forall e, (fix each e := match e with [] => [] | (m, y) :: e => (m, sch_of y) :: each e end) e = map (fun my : str * val => (fst my, sch_of (snd my))) e) by (induction e as [|[m y] e IH]; [reflexivity|cbn [map fst snd]; rewrite <- IH; reflexivity]).
  assert (F : forall n, (fix go d := match d with [] => [] | (k, x) :: d => if str_eqb k (lit n) then
                                   match x with
                                   | VList l => (fix each l := match l with [] => [] | y :: l => ([], sch_of y) :: each l end) l
                                   | VDict e => (fix each e := match e with [] => [] | (m, y) :: e => (m, sch_of y) :: each e end) e
                                   | VObj _ _ _ => [([], sch_of x)]
                                   | _ => []
                                   end else go d end) fs = kids_in fs n).
  { intro n. unfold kids_in. induction fs as [|[k x] fs IH]; cbn [dget]; [reflexivity|]. rewrite (str_eqb_sym k). destruct (str_eqb (lit n) k); [|exact IH]. destruct x; cbn [kids]; auto. }
  rewrite <- !F. reflexivity.
Qed.
Lemma kids_In k s x : In (k, s) (kids x) -> (exists l y, x = VList l /\ In y l /\ s = sch_of y) \/ (exists e y, x = VDict e /\ In (k, y) e /\ s = sch_of y) \/ (is_obj x /\ s = sch_of x).
Proof.
  destruct x; cbn [kids]; try (intros []).
  - rewrite in_map_iff. intros (y & E & I). injection E as <- <-. left. eauto.
  - rewrite in_map_iff. intros ([m y] & E & I). injection E as <- <-. right; left. eauto.
  - injection H as <- <-. right; right. split; [exact Logic.I|reflexivity].
  - destruct H.
Qed.
Lemma mentions_up s x r : (forall y, part_of x y -> part_of s y) -> mentions x r -> mentions s r.
Proof. intros U (y & P & F). exists y. auto. Qed.
Lemma Sch_inj p a ap i o p' a' ap' i' o' : M_Graph.Sch p a ap i o = M_Graph.Sch p' a' ap' i' o' -> p = p' /\ a = a' /\ ap = ap' /\ i = i' /\ o = o'.
Proof. intro E. injection E. intros. auto. Qed.
Lemma mentions_sound r S : S_Graph.ref_inside r S -> forall v, S = sch_of v -> shaped (Of CSchema) v -> mentions v r.
Proof.
  assert (CH : forall h fs ints n v ct cc, shaped (Of CSchema) (VObj h fs ints) -> sget (lit n) (t_child CSchema) = Some (ct, cc) -> sget (lit n) fs = Some v -> shaped_in ct cc v).
  { intros h fs ints n v ct cc SH T G. pose proof (shaped_parts _ _ _ _ SH) as (C & _). rewrite <- C in SH, T. destruct (shaped_field _ _ _ _ _ SH G) as [(T' & _)|(? & ? & T' & SC)]; congruence. }
  induction 1 as [r p a ap i NE|r n s p a ap i o I R IH|r s p a ap i o I R IH|r s p a i o R IH|r s p a ap o R IH]; intros v E SH;
    destruct (shaped_obj _ _ SH) as (h & fs & ints & -> & C); rewrite sch_of_eq in E; apply Sch_inj in E as (EP & EA & EAP & EI & ER); subst.
  - exists (VObj h fs ints). split; [constructor|]. split; [|exact NE]. cbn [field_of]. destruct (sget (lit "$ref") fs) as [[]|]; congruence.
  - unfold kids_in in I. destruct (sget (lit "properties") fs) as [x|] eqn:G; [|destruct I]. pose proof (CH _ _ _ "properties"%string _ DictOf (Of CSchema) SH eq_refl G) as SX.
    apply kids_In in I as [(l & y & -> & I & ->)|[(e & y & -> & I & ->)|(O & ->)]].
    + inversion SX as [| ? ? S'| |].
    + inversion SX as [| | |? ? N F]; subst. rewrite Forall_forall in F. apply (mentions_up _ y); [intros z Z; eapply part_property; eauto|]. apply IH; [reflexivity|]. exact (F _ I).
    + destruct x; try destruct O. inversion SX.
  - unfold kids_in in I. destruct (sget (lit "allOf") fs) as [x|] eqn:G; [|destruct I]. pose proof (CH _ _ _ "allOf"%string _ ListOf (Of CSchema) SH eq_refl G) as SX. apply in_map_iff in I as ([k s'] & <- & I). cbn [snd] in *.
    apply kids_In in I as [(l & y & -> & I & ->)|[(e & y & -> & I & ->)|(O & ->)]].
    + inversion SX as [| |? ? F|]; subst. rewrite Forall_forall in F. apply (mentions_up _ y); [intros z Z; eapply part_member; eauto|]. apply IH; [reflexivity|]. exact (F _ I).
    + inversion SX.
    + destruct x; try destruct O. inversion SX.
  - unfold kids_in in EAP. destruct (sget (lit "additionalProperties") fs) as [x|] eqn:G; [|discriminate EAP]. pose proof (CH _ _ _ "additionalProperties"%string _ One AddP SH eq_refl G) as SX.
    inversion SX as [? ? Z|? ? S'|? ? F|? ? N F]; subst; [discriminate EAP|]. inversion S' as [b|? S2|]; subst; [discriminate EAP|]. destruct (shaped_obj _ _ S2) as (h' & fs' & ints' & -> & C'). cbn [kids first_kid] in EAP. injection EAP as ->.
    apply (mentions_up _ (VObj h' fs' ints')); [intros z Z; eapply part_additional; eauto; exact Logic.I|]. apply IH; [reflexivity|exact S2].
  - unfold kids_in in EI. destruct (sget (lit "items") fs) as [x|] eqn:G; [|discriminate EI]. pose proof (CH _ _ _ "items"%string _ One (Of CSchema) SH eq_refl G) as SX.
    inversion SX as [? ? Z|? ? S'|? ? F|? ? N F]; subst; [discriminate EI|]. destruct (shaped_obj _ _ S') as (h' & fs' & ints' & -> & C'). cbn [kids first_kid] in EI. injection EI as ->.
    apply (mentions_up _ (VObj h' fs' ints')); [intros z Z; eapply part_items; eauto; exact Logic.I|]. apply IH; [reflexivity|exact S'].
Qed.
Lemma mentions_complete r s : mentions s r -> S_Graph.ref_inside r (sch_of s).
Proof.
  intros (y & P & F & NE). induction P as [s|s d k x y G I P IH|s l x y G I P IH|s x y G O P IH|s x y G O P IH];
    (destruct s as [| | | | | | |h fs ints]; try discriminate; rewrite sch_of_eq; cbn [field_of] in *).
  - rewrite F. now constructor.
  - apply S_Graph.RI_prop with k (sch_of x); auto. unfold kids_in. rewrite G. cbn [kids]. apply in_map_iff. exists (k, x). auto.
  - apply S_Graph.RI_allof with (sch_of x); auto. unfold kids_in. rewrite G. cbn [kids]. rewrite map_map. apply in_map_iff. exists x. auto.
  - unfold kids_in at 3. rewrite G. destruct x; try destruct O. cbn [kids first_kid]. apply S_Graph.RI_addp. auto.
  - unfold kids_in at 4. rewrite G. destruct x; try destruct O. cbn [kids first_kid]. apply S_Graph.RI_items. auto.
Qed.
Lemma mentions_out s r : shaped (Of CSchema) s -> In r (M_Graph.schema_out_obj (sch_of s)) <-> mentions s r.
Proof.
  intro SH. split.
  - intro I. exact (mentions_sound r _ (T_Graph.c08_edges_sound _ _ I) s eq_refl SH).
  - intro M. apply T_Graph.c08_edges_complete. now apply mentions_complete.
Qed.
(** ** Parts are in the document *)
Lemma schema_child s n x : shaped (Of CSchema) s -> field_of s (lit n) = Some x -> In n ["properties"; "allOf"; "additionalProperties"; "items"]%string ->
  forall ts y, inside x ts y -> is_obj y -> schema_at s (lit n :: ts) y.
Proof.
  intros SH F I ts y R O. destruct (shaped_obj _ _ SH) as (h & fs & ints & -> & C). cbn [field_of] in F. split.
  - econstructor; [intros []|exact F|]. clear - R. induction R; econstructor; eauto.
  - pose proof SH as SH'. rewrite <- C in SH'. destruct (shaped_field _ _ _ _ _ SH' F) as [(T & _ & NO)|(ct & cc & T & SC)].
    + exfalso. exact (NO _ _ R O).
    + rewrite C in T.
      assert (X : cc = Of CSchema \/ cc = AddP). { cbn in I. destruct I as [<- | [<- | [<- | [<- | [] ] ] ] ]; vm_compute in T; injection T as <- <-; auto. }
      assert (L : forall z us, shaped cc z -> inside z us y -> of_class CSchema y).
      { intros z us Z RZ. assert (ZZ : shaped (Of CSchema) z \/ exists b, z = VBool b). { destruct X as [-> | ->]; [auto|]. inversion Z; subst; eauto. }
        destruct ZZ as [ZZ|(b & ->)].
        - destruct (shaped_obj _ _ ZZ) as (h' & fs' & ints' & -> & C'). inversion RZ; subst. exists h', fs', ints'. auto.
        - inversion RZ; subst. contradiction. }
      inversion SC as [|? ? S1|? l F1|? d N F1]; subst.
      * inversion R; subst. contradiction.
      * eauto.
      * rewrite Forall_forall in F1. inversion R as [|? i v ? ? G R'|]; subst; [contradiction|]. apply (L v ts0); [|exact R']. apply F1. eapply nth_error_In; eauto.
      * rewrite Forall_forall in F1. inversion R as [| |? k v ? ? G R']; subst; [contradiction|]. apply (L v ts0); [|exact R']. exact (F1 _ (sget_In _ _ _ G)).
Qed.
Lemma part_there s y : part_of s y -> shaped (Of CSchema) s -> exists us, schema_at s us y.
Proof.
  assert (ON : forall s us x y, shaped (Of CSchema) s -> schema_at s us x -> (shaped (Of CSchema) x -> exists vs, schema_at x vs y) -> exists us, schema_at s us y).
  { clear. intros s us x y SH SA IH. destruct (IH (schema_shaped _ _ _ _ SH SA)) as (vs & R & C). exists (us ++ vs). split; [|exact C]. eapply P_OldValidate.reach_app; [exact (proj1 SA)|exact R]. }
  induction 1 as [s|s d k x y G I P IH|s l x y G I P IH|s x y G O P IH|s x y G O P IH]; intro SH.
  - exists []. split; [constructor|]. destruct (shaped_obj _ _ SH) as (h & fs & ints & -> & C). exists h, fs, ints. auto.
  - destruct (shaped_obj _ _ SH) as (h & fs & ints & -> & C). cbn [field_of] in G.
    assert (SX : shaped_in DictOf (Of CSchema) (VDict d)). { pose proof SH as SH'. rewrite <- C in SH'. destruct (shaped_field _ _ _ _ _ SH' G) as [(T' & _)|(? & ? & T' & SC)]; rewrite C in T'; vm_compute in T'; [discriminate T'|injection T' as <- <-; exact SC]. }
    inversion SX as [| | |? ? N F]; subst. rewrite Forall_forall in F. pose proof (F _ I) as S1. cbn [snd] in S1.
    refine (ON _ [lit "properties"; k] x y SH _ IH). apply (schema_child _ "properties" (VDict d) SH G); [cbn; auto| |destruct (shaped_obj _ _ S1) as (? & ? & ? & -> & _); exact Logic.I].
    econstructor; [|constructor]. now apply In_sget.
  - destruct (shaped_obj _ _ SH) as (h & fs & ints & -> & C). cbn [field_of] in G.
    assert (SX : shaped_in ListOf (Of CSchema) (VList l)). { pose proof SH as SH'. rewrite <- C in SH'. destruct (shaped_field _ _ _ _ _ SH' G) as [(T' & _)|(? & ? & T' & SC)]; rewrite C in T'; vm_compute in T'; [discriminate T'|injection T' as <- <-; exact SC]. }
    inversion SX as [| |? ? F|]; subst. rewrite Forall_forall in F. pose proof (F _ I) as S1. destruct (In_nth_error _ _ I) as (i & NT).
    refine (ON _ [lit "allOf"; str_of_nat i] x y SH _ IH). apply (schema_child _ "allOf" (VList l) SH G); [cbn; auto| |destruct (shaped_obj _ _ S1) as (? & ? & ? & -> & _); exact Logic.I].
    econstructor; [exact NT|constructor].
  - refine (ON _ [lit "additionalProperties"] x y SH _ IH). apply (schema_child _ "additionalProperties" x SH G); [cbn; auto|constructor|exact O].
  - refine (ON _ [lit "items"] x y SH _ IH). apply (schema_child _ "items" x SH G); [cbn; auto|constructor|exact O].
Qed.

(** ** The graph *)
Section Graph.
  Context (abs_uri win_uri : str -> str) (fetch : str -> res json) (prim : str -> bool) (float_of : str -> res Q) (sep : str) (fuel : nat).
  Notation solve := (resolvef abs_uri win_uri fetch (parse_listing fetch) (convert_doc prim float_of sep) as_given).
  Notation find_cycles := (find_cycles abs_uri win_uri fetch prim float_of sep).
  Context (a : app) (u : str) (root : val) (objs : list (str * val)) (cycles : list (list str)).
  Hypothesis SH : shaped (Of CSwagger) root.
  Hypothesis SO : sound a.
  Hypothesis RT : a_root a = Some (0, root).
  Hypothesis WH : whole a u (0, root).
  Hypothesis TR : traverse root [] = Ok objs.
  Hypothesis FC : find_cycles fuel a objs = Ok cycles.
  Hypothesis SC : self_contained abs_uri win_uri u root.
  Notation sch_table := (sch_table abs_uri win_uri fetch prim float_of sep fuel a).
  Notation points := (points abs_uri win_uri u root).
  Notation refers := (refers abs_uri win_uri u root).
  Notation linked := (linked abs_uri win_uri u root).

  Lemma table_at l r v n : In r l -> snd (solve fuel a (Some r) (Some CSchema)) = Ok (n, v) -> sget r (sch_table l) = Some (sch_of v).
  Proof.
    intros I E. unfold M_Prepare.sch_table. induction l as [|x l IH]; [destruct I|]. cbn [flat_map]. destruct (str_eqb r x) eqn:RX.
    - apply str_eqb_eq in RX as <-. rewrite E. cbn [List.app dget]. now rewrite (proj2 (str_eqb_eq r r) eq_refl).
    - destruct I as [->|I]; [rewrite (proj2 (str_eqb_eq r r) eq_refl) in RX; discriminate RX|]. specialize (IH I). destruct (snd (solve fuel a (Some x) (Some CSchema))) as [[m w]|e]; cbn [List.app dget]; [now rewrite RX|exact IH].
  Qed.
  Lemma root_wf : wfv root /\ is_obj root.
  Proof. split; [exact (shaped_wfv _ _ _ (Nat.lt_succ_diag_r _) SH)|]. destruct (shaped_obj _ _ SH) as (? & ? & ? & -> & _). exact Logic.I. Qed.
  Lemma visited p o : In (p, o) objs <-> exists ts, p = rfc_pointer (lit "#") ts /\ reach [] root ts o /\ is_obj o.
  Proof. destruct root_wf as (W & O). destruct (traverse_ok root [] W O) as (r & R & I & _). rewrite TR in R. injection R as ->. apply I. Qed.
  Lemma schema_same o : same_class CSchema o = true <-> of_class CSchema o.
  Proof.
    destruct o as [| | | | | | |h fs ints]; cbn [same_class]; split; try discriminate; try (intros (? & ? & ? & E & _); discriminate E).
    - intro E. apply cls_eqb_eq in E. exists h, fs, ints. auto.
    - intros (? & ? & ? & E & C). injection E as -> -> ->. now apply cls_eqb_eq.
  Qed.
  Notation paths := (map fst (filter (fun po => same_class CSchema (snd po)) objs)).
  Lemma paths_In p : In p paths <-> exists ts s, p = rfc_pointer (lit "#") ts /\ schema_at root ts s.
  Proof.
    rewrite in_map_iff. split.
    - intros ([q o] & <- & I). apply filter_In in I as (I & C). cbn [fst snd] in *. apply visited in I as (ts & -> & R & O). exists ts, o. split; [reflexivity|]. split; [exact R|]. now apply schema_same.
    - intros (ts & s & -> & R & C). exists (rfc_pointer (lit "#") ts, s). split; [reflexivity|]. apply filter_In. cbn [snd]. split; [|now apply schema_same]. apply visited. exists ts. destruct C as (? & ? & ? & -> & _). split; [reflexivity|]. split; [exact R|exact Logic.I].
  Qed.
  Lemma refs_In refs ts s r : known_refs a = Ok refs -> schema_at root ts s -> field_of s (lit "$ref") = Some (VStr r) -> r <> [] -> In r refs.
  Proof.
    unfold known_refs. intros E SA F NE. apply bind_ok in E as (l & SL & E). injection E as <-. apply in_flat_map.
    assert (D : In (0, root) (documents a)). { unfold documents. apply in_flat_map. exists (u, Whole (0, root)). split; [exact (sget_In _ _ _ WH)|left; reflexivity]. }
    assert (I : In (0, s) l).
    { revert l SL D. generalize (documents a). induction l as [|[n v] l IH]; intros m SL D; [destruct D|]. cbn [schemas_of] in SL. apply bind_ok in SL as (os & T & SL). apply bind_ok in SL as (r' & SL & Q). injection Q as <-. apply in_or_app.
      destruct D as [E|D]; [|right; auto]. injection E as -> ->. left. assert (T' : traverse root [] = Ok os). { destruct root_wf as (_ & O). clear - T O. destruct root; try destruct O. exact T. } rewrite TR in T'. injection T' as <-.
      apply in_map_iff. exists (rfc_pointer (lit "#") ts, s). split; [reflexivity|]. apply filter_In. split; [|cbn [snd]; apply schema_same; exact (proj2 SA)].
      apply visited. exists ts. split; [reflexivity|]. split; [exact (proj1 SA)|]. destruct (proj2 SA) as (? & ? & ? & -> & _). exact Logic.I. }
    exists (0, s). split; [exact I|]. destruct (proj2 SA) as (h & fs & ints & -> & _). cbn [snd field_of] in F |- *. change ["$"%char; "r"%char; "e"%char; "f"%char] with (lit "$ref"). rewrite F. destruct r; [now elim NE|left; reflexivity].
  Qed.
  Lemma points_fun r ts s ts' s' : points r ts s -> points r ts' s' -> ts = ts' /\ s = s'.
  Proof.
    intros (_ & J & A) (_ & J' & A'). assert (E : rfc_pointer (lit "#") ts = rfc_pointer (lit "#") ts') by congruence. apply pointer_inj in E; [|discriminate]. subst ts'. split; [reflexivity|].
    exact (reach_fun _ _ _ (proj1 A') _ (proj1 A)).
  Qed.
  Lemma mentioned ts s r : schema_at root ts s -> mentions s r -> exists us y, schema_at root us y /\ field_of y (lit "$ref") = Some (VStr r) /\ r <> [].
  Proof.
    intros SA (y & P & F & NE). destruct (part_there _ _ P (schema_shaped _ _ _ _ SH SA)) as (us & R & C). exists (ts ++ us), y. split; [|auto]. split; [|exact C]. eapply P_OldValidate.reach_app; [exact (proj1 SA)|exact R].
  Qed.
  Context (refs : list str).
  Hypothesis KR : known_refs a = Ok refs.
  Context (f : nat).
  Hypothesis FU : fuel = S f.
  Notation out := (M_Graph.schema_out (sch_table (paths ++ refs))).
  (** [v] leads to the schema at [ts]. *)
  Definition vertex (v : str) (ts : list str) (s : val) : Prop := schema_at root ts s /\ forall r, In r (out v) <-> mentions s r.
  Lemma leads v ts s : In v (paths ++ refs) -> schema_at root ts s -> (forall c, solve fuel a (Some v) c = (a, Ok (0, s))) -> vertex v ts s.
  Proof.
    intros I SA E. split; [exact SA|]. intro r. unfold M_Graph.schema_out. rewrite (table_at _ v s 0 I) by now rewrite E. apply mentions_out. exact (schema_shaped _ _ _ _ SH SA).
  Qed.
  Lemma schema_returned ts s : schema_at root ts s -> returned s.
  Proof. intros (_ & ? & ? & ? & -> & _). exact Logic.I. Qed.
  Lemma path_vertex ts s : schema_at root ts s -> vertex (rfc_pointer (lit "#") ts) ts s.
  Proof.
    intro SA. apply leads; [apply in_or_app; left; apply paths_In; eauto|exact SA|]. intro c. rewrite FU.
    apply (c43_local abs_uri win_uri fetch (parse_listing fetch) (convert_doc prim float_of sep) as_given f a c 0 root); [exact SO|exact RT|exact (proj1 SA)|exact (schema_returned _ _ SA)].
  Qed.
  Lemma ref_vertex ts s r : schema_at root ts s -> mentions s r -> exists ts' s', points r ts' s' /\ vertex r ts' s'.
  Proof.
    intros SA M. destruct (mentioned _ _ _ SA M) as (us & y & SY & F & NE). destruct (SC _ _ _ SY F NE) as (ts' & s' & P). exists ts', s'. split; [exact P|].
    pose proof P as (_ & J & A). apply leads; [apply in_or_app; right; exact (refs_In _ _ _ _ KR SY F NE)|exact A|]. intro c. rewrite FU.
    apply (c43_whole abs_uri win_uri fetch (parse_listing fetch) (convert_doc prim float_of sep) as_given f a c r u 0 root ts' s' NE J WH (proj1 A) (schema_returned _ _ A)).
  Qed.
  Lemma step_vertex v ts s r : vertex v ts s -> In r (out v) -> exists ts' s', points r ts' s' /\ vertex r ts' s'.
  Proof. intros (SA & O) I. apply O in I. exact (ref_vertex _ _ _ SA I). Qed.
  Lemma reach_vertex v w : S_Graph.reach out v w -> (exists ts s, vertex v ts s) -> exists ts s, vertex w ts s.
  Proof. induction 1 as [v|v w x I R IH]; [auto|]. intros (ts & s & V). apply IH. destruct (step_vertex _ _ _ _ V I) as (ts' & s' & _ & W). eauto. Qed.
  (** ** Cycles of texts *)
  Lemma edges_tail l : forall x, S_Graph.edges out (x :: l) -> (exists ts s, vertex x ts s) -> forall y, In y l -> exists ts s, points y ts s /\ vertex y ts s.
  Proof.
    induction l as [|z l IH]; intros x E (ts & s & V) y I; [destruct I|]. destruct E as (I1 & E). destruct (step_vertex _ _ _ _ V I1) as (ts' & s' & P & V').
    destruct I as [<-|I]; [eauto|]. eapply (IH z); eauto.
  Qed.
  Lemma edges_linked l : forall x, S_Graph.edges out (x :: l) -> (exists ts s, points x ts s /\ vertex x ts s) -> linked (x :: l).
  Proof.
    induction l as [|z l IH]; intros x E (ts & s & P & V); [exact Logic.I|]. destruct E as (I1 & E). destruct (step_vertex _ _ _ _ V I1) as (ts' & s' & P' & V').
    split; [exists ts, s; split; [exact P|]; now apply V|]. apply IH; eauto.
  Qed.
  Lemma linked_tail l : forall x, linked (x :: l) -> forall y, In y l -> exists z ts s, points z ts s /\ mentions s y.
  Proof.
    induction l as [|z l IH]; intros x L y I; [destruct I|]. destruct L as ((ts & s & P & M) & L). destruct I as [<-|I]; [eauto|eauto].
  Qed.
  Lemma linked_edges l : (forall y, In y l -> exists z ts s, points z ts s /\ mentions s y) -> linked l -> S_Graph.edges out l.
  Proof.
    induction l as [|x l IH]; intros A L; [exact Logic.I|]. destruct l as [|y l]; [exact Logic.I|]. destruct L as ((ts & s & P & M) & L). split; [|apply IH; [intros w W; apply A; now right|exact L]].
    destruct (A x (or_introl eq_refl)) as (z & ts0 & s0 & (_ & _ & P0) & M0). destruct (ref_vertex _ _ _ P0 M0) as (ts' & s' & P' & V'). destruct (points_fun _ _ _ _ _ P P') as (<- & <-). now apply V'.
  Qed.
  Notation le := (fun x y => str_leb x y = true).
  Lemma cycles_text z : In z cycles <-> exists x c, z = x :: c ++ [x] /\ NoDup (x :: c) /\ linked (x :: c ++ [x]) /\ forall y, In y c -> str_leb x y = true.
  Proof.
    pose proof FC as FC'. unfold M_Prepare.find_cycles in FC'. rewrite KR in FC'. cbn [bind] in FC'. destruct (P_Graph.detect_correct (sch_table (paths ++ refs)) paths []) as (r & m & D & S & _).
    assert (r = cycles) as -> by (eapply P_Graph.detect_unique; [apply (D m); lia|exact FC']). rewrite S. split.
    - intros [[]|(p & I & x & c & -> & (N & E) & L & R)]. exists x, c. split; [reflexivity|]. split; [exact N|]. split; [|exact L]. apply paths_In in I as (ts & s & -> & SA).
      assert (V : exists ts s, vertex x ts s) by (apply (reach_vertex _ _ R); exists ts, s; now apply path_vertex).
      apply edges_linked; [exact E|]. apply (edges_tail _ _ E V). apply in_or_app. right. now left.
    - intros (x & c & -> & N & L & MI). right. pose proof (linked_tail _ _ L) as LT. destruct (LT x) as (w & ts & s & (_ & _ & SA) & M); [apply in_or_app; right; now left|].
      exists (rfc_pointer (lit "#") ts). split; [apply paths_In; eauto|]. exists x, c. split; [reflexivity|]. split; [split; [exact N|]|split; [exact MI|]].
      + apply linked_edges; [|exact L]. intros y [<-|I]; [|auto]. apply LT. apply in_or_app. right. now left.
      + apply S_Graph.reach_step with x; [|constructor]. now apply (path_vertex _ _ SA).
  Qed.
  (** ** Cycles of places *)
  Lemma reach_snoc x y z : S_Graph.reach out x y -> In z (out y) -> S_Graph.reach out x z.
  Proof. induction 1 as [v|v w x I R IH]; intro Z; [|eapply S_Graph.reach_step; eauto]. eapply S_Graph.reach_step; [exact Z|constructor]. Qed.
  Lemma places_texts ts ts' : clos_trans _ refers ts ts' -> exists r s' r1, points r ts' s' /\ vertex r ts' s' /\ In r1 (out (rfc_pointer (lit "#") ts)) /\ S_Graph.reach out r1 r.
  Proof.
    intro C. apply clos_trans_tn1_iff in C. induction C as [ts1 (s & r & s' & SA & M & P)|ts1 ts2 (s & r & s' & SA & M & P) _ (r0 & s0 & r1 & P0 & V0 & I & R)].
    - destruct (ref_vertex _ _ _ SA M) as (ts' & s1 & P' & V'). destruct (points_fun _ _ _ _ _ P P') as (<- & <-). exists r, s', r. split; [exact P|]. split; [exact V'|]. split; [|constructor]. now apply (path_vertex _ _ SA).
    - destruct (ref_vertex _ _ _ SA M) as (ts' & s1 & P' & V'). destruct (points_fun _ _ _ _ _ P P') as (<- & <-). exists r, s', r1. split; [exact P|]. split; [exact V'|]. split; [exact I|].
      apply (reach_snoc _ r0); [exact R|]. apply V0. destruct V0 as (A0 & _). now rewrite (reach_fun _ _ _ (proj1 A0) _ (proj1 SA)) in *.
  Qed.
  Lemma linked_places l : forall x y, linked (x :: l ++ [y]) -> forall ts s ts' s', points x ts s -> points y ts' s' -> clos_trans _ refers ts ts'.
  Proof.
    induction l as [|z l IH]; intros x y L ts s ts' s' P P'.
    - destruct L as ((ts0 & s0 & P0 & M) & _). destruct (points_fun _ _ _ _ _ P P0) as (<- & <-). apply t_step. exists s, y, s'. split; [exact (proj2 (proj2 P))|]. auto.
    - destruct L as ((ts0 & s0 & P0 & M) & L). change (linked (z :: l ++ [y])) in L. destruct (points_fun _ _ _ _ _ P P0) as (<- & <-).
      assert (Z : exists tz sz, points z tz sz). { destruct (l ++ [y]) as [|w m] eqn:E; [destruct l; discriminate E|]. destruct L as ((tz & sz & PZ & _) & _). eauto. }
      destruct Z as (tz & sz & PZ). apply t_trans with tz; [|exact (IH z y L _ _ _ _ PZ P')]. apply t_step. exists s, z, sz. split; [exact (proj2 (proj2 P))|]. auto.
  Qed.
  Lemma cycles_places : cycles <> [] <-> exists ts, circular abs_uri win_uri u root ts.
  Proof.
    split.
    - intro NE. destruct cycles as [|z cs] eqn:CE; [now elim NE|]. rewrite <- CE in *. destruct (proj1 (cycles_text z)) as (x & c & -> & _ & L & _); [rewrite CE; now left|].
      assert (PX : exists ts s, points x ts s). { destruct (c ++ [x]) as [|w m] eqn:E; [destruct c; discriminate E|]. destruct L as ((tz & sz & PZ & _) & _). eauto. }
      destruct PX as (ts & s & PX). exists ts. exact (linked_places c x x L _ _ _ _ PX PX).
    - intros (ts & C) CE. destruct (places_texts _ _ C) as (r & s & r1 & P & V & I & R). pose proof FC as FC'. unfold M_Prepare.find_cycles in FC'. rewrite KR in FC'. cbn [bind] in FC'.
      enough (X : M_Graph.prepare_cycle_check true cycles = Err CycleDetectionError) by (rewrite CE in X; discriminate X). apply (P_Graph.prepare_strict_iff _ _ _ _ FC').
      exists (rfc_pointer (lit "#") ts), r, r1. pose proof V as (SA & O). split; [apply paths_In; eauto|]. split; [eapply S_Graph.reach_step; [exact I|exact R]|]. split; [|exact R].
      apply O. now apply (path_vertex _ _ SA) in I.
  Qed.
End Graph.

Section Prepared.
  Context (abs_uri win_uri : str -> str) (fetch : str -> res json) (prim : str -> bool) (float_of : str -> res Q) (sep : str) (fuel : nat) (b : bool).
  Context (nu u : str) (strict : bool) (o : @loaded val) (pr : prepared) (v0 mid root : val) (objs : list (str * val)) (l : list (tr_op str)).
  Hypothesis ST : steps abs_uri win_uri fetch prim float_of sep fuel b nu u strict o pr v0 mid root objs l.
  Hypothesis SC : self_contained abs_uri win_uri u root.
  Lemma no_fuel : fuel = 0 -> pr_cycles pr = [] /\ forall ts s, ~ schema_at root ts s.
  Proof.
    intro F. pose proof (st_cycles _ _ _ _ _ _ _ _ _ _ _ _ _ _ _ _ _ _ ST) as FC. unfold find_cycles in FC. apply bind_ok in FC as (refs & _ & D).
    assert (P : forall p, In p (map fst (filter (fun po => same_class CSchema (snd po)) objs)) <-> exists ts s, p = rfc_pointer (lit "#") ts /\ schema_at root ts s) by (destruct ST; intro p; eapply paths_In; eauto). rewrite F in D.
    destruct (map fst (filter (fun po => same_class CSchema (snd po)) objs)) as [|p ps].
    - cbn in D. injection D as <-. split; [reflexivity|]. intros ts s SA. apply (P (rfc_pointer (lit "#") ts)). eauto.
    - discriminate D.
  Qed.
  Lemma prepared_listed z : In z (pr_cycles pr) <-> exists x c, z = x :: c ++ [x] /\ NoDup (x :: c) /\ linked abs_uri win_uri u root (x :: c ++ [x]) /\ forall y, In y c -> str_leb x y = true.
  Proof.
    pose proof (st_cycles _ _ _ _ _ _ _ _ _ _ _ _ _ _ _ _ _ _ ST) as FC. pose proof FC as FC'. unfold find_cycles in FC'. apply bind_ok in FC' as (refs & KR & _). pose proof ST as ST'. destruct ST'.
    assert (FF : fuel = 0 \/ exists f, fuel = S f) by (destruct fuel; eauto). destruct FF as [F|(f & F)].
    - destruct no_fuel as (-> & NO); [exact F|]. split; [intros []|]. intros (x & c & _ & _ & L & _). destruct (c ++ [x]) as [|w m] eqn:E; [destruct c; discriminate E|]. destruct L as ((tz & sz & (_ & _ & PZ) & _) & _). exact (NO _ _ PZ).
    - eapply cycles_text; eauto.
  Qed.
  Lemma prepared_circular : pr_cycles pr <> [] <-> exists ts, circular abs_uri win_uri u root ts.
  Proof.
    pose proof (st_cycles _ _ _ _ _ _ _ _ _ _ _ _ _ _ _ _ _ _ ST) as FC. pose proof FC as FC'. unfold find_cycles in FC'. apply bind_ok in FC' as (refs & KR & _). pose proof ST as ST'. destruct ST'.
    assert (FF : fuel = 0 \/ exists f, fuel = S f) by (destruct fuel; eauto). destruct FF as [F|(f & F)].
    - destruct no_fuel as (-> & NO); [exact F|]. split; [now intros []|]. intros (ts & C). apply clos_trans_t1n_iff in C. destruct C as [? (s & _ & _ & SA & _)|? ? (s & _ & _ & SA & _) _]; destruct (NO _ _ SA).
    - eapply cycles_places; eauto.
  Qed.
  Lemma prepared_strict : strict = true -> pr_cycles pr = [].
  Proof.
    intros ->. pose proof (st_check _ _ _ _ _ _ _ _ _ _ _ _ _ _ _ _ _ _ ST) as C. unfold M_Graph.prepare_cycle_check in C. destruct (pr_cycles pr); [reflexivity|discriminate C].
  Qed.
End Prepared.

(** ** Whether a document refers only to itself can be computed. *)
Definition self_contained_b (abs_uri win_uri : str -> str) (u : str) (objs : list (str * val)) : bool :=
  forallb (fun po => negb (same_class CSchema (snd po)) ||
    match field_of (snd po) (lit "$ref") with
    | Some (VStr ((_ :: _) as r)) =>
        match jr_split abs_uri win_uri r with
        | Ok (u', p) => str_eqb u' u && existsb (fun qo => str_eqb (fst qo) p && same_class CSchema (snd qo)) objs
        | Err _ => false
        end
    | _ => true
    end) objs.
Lemma self_contained_ok abs_uri win_uri u root objs : wfv root -> is_obj root -> traverse root [] = Ok objs -> self_contained_b abs_uri win_uri u objs = true -> self_contained abs_uri win_uri u root.
Proof.
  intros W O TR B. destruct (traverse_ok root [] W O) as (r' & R & I & _). rewrite TR in R. injection R as <-.
  assert (SS : forall o, same_class CSchema o = true <-> of_class CSchema o).
  { intro o. destruct o as [| | | | | | |h fs ints]; cbn [same_class]; split; try discriminate; try (intros (? & ? & ? & E & _); discriminate E).
    - intro E. apply cls_eqb_eq in E. exists h, fs, ints. auto.
    - intros (? & ? & ? & E & C). injection E as -> -> ->. now apply cls_eqb_eq. }
  intros ts s r (RS & CS) F NE. unfold self_contained_b in B. rewrite forallb_forall in B.
  assert (OS : is_obj s) by (destruct CS as (? & ? & ? & -> & _); exact Logic.I).
  specialize (B (rfc_pointer (lit "#") ts, s) (proj2 (I _ _) (ex_intro _ ts (conj eq_refl (conj RS OS))))). cbn [snd] in B. rewrite (proj2 (SS s) CS), F in B. cbn [negb orb] in B.
  destruct r as [|c r]; [now elim NE|]. destruct (jr_split abs_uri win_uri (c :: r)) as [[u' p]|e] eqn:JS; [|discriminate B]. apply andb_true_iff in B as (B1 & B2). apply str_eqb_eq in B1 as ->.
  apply existsb_exists in B2 as ([q o] & IQ & B2). apply andb_true_iff in B2 as (B2 & B3). cbn [fst snd] in *. apply str_eqb_eq in B2 as ->. apply I in IQ as (ts' & -> & R' & _). exists ts', o. split; [discriminate|]. split; [exact JS|]. split; [exact R'|]. now apply SS.
Qed.
