(** Lemmas for creating applications: naming operations and looking for circular schemas. *)
From Coq Require Import Lia Relations.
From Verif Require Import PyBase PyFacts PyInt PyJson M_JsonPtr S_JsonPtr P_JsonPtr M_Url P_Op M_SpecVal M_Parse M_SpecTree M_Merge M_MergeRef S_Parse S_SpecTree S_Merge S_MergeRef P_SpecBase P_Parse P_SpecTree P_Merge P_MergeShape P_MergeRef M_Scope S_Scope P_Scope M_Patch S_Patch P_Patch P_PatchOp M_App S_App P_App P_Deep M_OldParse M_Upgrade M_Prepare P_Grown S_Prepare P_Prepare3 P_Prepare5 P_Prepare6 P_Prepare7 P_Compose2 T_App S_Cycles P_Cycles P_Compose S_Create P_Create P_Create2 P_Create3 P_Create4 P_Create5.
From Verif Require M_Graph T_Graph T_SpecTree T_Patch.
Close Scope Q_scope.

Lemma visited_in root objs p o : shaped (Of CSwagger) root -> traverse root [] = Ok objs -> In (p, o) objs <-> exists ts, p = rfc_pointer (lit "#") ts /\ reach [] root ts o /\ is_obj o.
Proof.
  intros SH TR. assert (W : wfv root) by exact (shaped_wfv _ _ _ (Nat.lt_succ_diag_r _) SH). assert (O : is_obj root) by (destruct (shaped_obj _ _ SH) as (? & ? & ? & -> & _); exact Logic.I).
  destruct (T_SpecTree.c35_visits root [] W O) as (r & R & I). rewrite TR in R. injection R as ->. apply I.
Qed.
(** ** Circular schemas *)
Section Cycles.
  Context (abs_uri win_uri : str -> str) (fetch : str -> res json) (prim : str -> bool) (float_of : str -> res Q) (sep : str).
  Notation solve := (resolvef abs_uri win_uri fetch (parse_listing fetch) (convert_doc prim float_of sep) as_given).
  Context (a : app) (u : str) (root : val) (objs : list (str * val)).
  Hypothesis SH : shaped (Of CSwagger) root.
  Hypothesis SO : sound a.
  Hypothesis RT : a_root a = Some (0, root).
  Hypothesis WH : whole a u (0, root).
  Hypothesis TR : traverse root [] = Ok objs.
  Hypothesis SC : self_contained abs_uri win_uri u root.
  Hypothesis ONE : documents a = [(0, root)].
  Notation paths := (map fst (filter (fun po => same_class CSchema (snd po)) objs)).
  Notation table f := (sch_table abs_uri win_uri fetch prim float_of sep f a).
  Lemma known_refs_Ok : exists refs, known_refs a = Ok refs /\ forall r, In r refs -> exists ts s, schema_at root ts s /\ field_of s (lit "$ref") = Some (VStr r) /\ r <> [].
  Proof.
    unfold known_refs. rewrite (schemas_l a root objs SH TR ONE). cbn [bind]. eexists. split; [reflexivity|]. intros r IR. apply in_flat_map in IR as ((n & s) & IL & IR). cbn [snd] in IR.
    apply (in_l abs_uri win_uri a u root objs SH RT WH TR SC ONE) in IL as (-> & ts & SA). exists ts, s. split; [exact SA|]. destruct s as [| | | | | | |h fs ints]; try contradiction. cbn [field_of].
    destruct (sget (lit "$ref") fs) as [[| | | |[|c q]| | |]|]; try contradiction. destruct IR as [<-|[]]. split; [reflexivity|discriminate].
  Qed.
  Lemma table_same refs f g : (forall r, In r refs -> exists ts s, schema_at root ts s /\ field_of s (lit "$ref") = Some (VStr r) /\ r <> []) -> table (S f) (paths ++ refs) = table (S g) (paths ++ refs).
  Proof.
    intro RF. unfold sch_table. rewrite !flat_map_concat_map. f_equal. apply map_ext_in. intros r IR.
    assert (X : exists s, forall k, solve (S k) a (@Some str r) (Some CSchema) = (a, Ok (0, s))).
    { apply in_app_iff in IR as [IR|IR].
      - apply in_map_iff in IR as ((p & s) & <- & IS). apply filter_In in IS as (IS & CS). cbn [fst snd] in *. apply (visited_in _ _ _ _ SH TR) in IS as (ts & -> & R & _). apply schema_same in CS. exists s. intro k.
        apply (c43_local abs_uri win_uri fetch (parse_listing fetch) (convert_doc prim float_of sep) as_given k a (Some CSchema) 0 root); [exact SO|exact RT|exact R|]. destruct CS as (? & ? & ? & -> & _). exact I.
      - destruct (RF r IR) as (ts & s & SA & F & NE). destruct (SC _ _ _ SA F NE) as (ts' & s' & _ & J & A). exists s'. intro k.
        apply (c43_whole abs_uri win_uri fetch (parse_listing fetch) (convert_doc prim float_of sep) as_given k a (Some CSchema) r u 0 root ts' s' NE J WH (proj1 A)). destruct A as (_ & ? & ? & ? & -> & _). exact I. }
    destruct X as (s & X). pose proof (X f) as Xf. pose proof (X g) as Xg. rewrite Xf, Xg. reflexivity.
  Qed.
  Lemma find_cycles_Ok : exists N cy, forall fuel, N <= fuel -> find_cycles abs_uri win_uri fetch prim float_of sep fuel a objs = Ok cy.
  Proof.
    destruct known_refs_Ok as (refs & KR & RF). destruct (T_Graph.c08_detect_exact (table 1 (paths ++ refs)) paths) as (r & m & D & _). exists (S m), r. intros [|f] L; [lia|].
    unfold find_cycles. rewrite KR. cbn [bind]. rewrite (table_same refs f 0 RF). apply D. lia.
  Qed.
End Cycles.

(** ** Names of operations *)
Section Names.
  Context (sep : str) (root : val) (objs : list (str * val)).
  Hypothesis SR : shaped (Of CSwagger) root.
  Hypothesis TR : traverse root [] = Ok objs.
  Hypothesis TAGS : forall k m op, operation_in root k m op -> has op "tags" (fun v => empty_value v \/ exists t l, v = VList (VStr t :: l)) /\ has op "operationId" text_or_empty.
  Hypothesis NAMES : forall k m op k' m' op' key, operation_in root k m op -> operation_in root k' m' op' -> known_as sep op key -> known_as sep op' key -> k = k' /\ m = m'.
  Definition named_op (t : tr_op str) : Prop := exists k m op, tr_obj t = rfc_pointer (lit "#") [lit "paths"; k; m] /\ operation_in root k m op /\
    forall key, op_key sep (tr_tags t) (tr_opid t) = Some key -> known_as sep op key.
  Lemma tr_of_Ok p o : In (p, o) objs -> exists y, tr_of (p, o) = Ok y /\ (y = [] \/ exists t, y = [t] /\ tr_obj t = p /\ named_op t).
  Proof.
    intro IO. apply (visited_in _ _ _ _ SR TR) in IO as (ts & -> & R & O). unfold tr_of. cbn [fst snd]. destruct (same_class COperation o) eqn:SC; [|eexists; split; [reflexivity|now left]].
    assert (CO : of_class COperation o). { destruct o as [| | | | | | |h fs ints]; try discriminate SC. exists h, fs, ints. split; [reflexivity|]. unfold same_class in SC. symmetry. now apply cls_eqb_eq. }
    destruct (operations_at _ _ _ SR R CO) as (k & m & pi & -> & PI & OP). assert (OI : operation_in root k m o) by (exists pi; auto). destruct (TAGS _ _ _ OI) as ((tv & TV & TT) & (iv & IV & II)).
    rewrite (fields_get "tags" _ _ TV), (fields_get "operationId" _ _ IV). cbn [bind].
    assert (FT : exists tg, first_tag tv = Ok tg /\ forall id key, iv = VStr id -> id <> [] -> op_key sep tg (Some id) = Some key -> known_as sep o key).
    { unfold first_tag. destruct (falsy tv) eqn:F.
      - exists None. split; [reflexivity|]. intros id key -> NE K. destruct id as [|c id]; [congruence|]. cbn in K. injection K as <-. eapply ka_plain; [exact TV|left; now apply falsy_spec|exact IV|discriminate].
      - destruct TT as [TT|(t & l & ->)]; [apply falsy_spec in TT; congruence|]. exists (Some [t]). split; [reflexivity|]. intros id key -> NE K. destruct id as [|c id]; [congruence|].
        destruct t as [|d t]; cbn [op_key] in K; injection K as <-; [eapply ka_plain; [exact TV|right; right; eauto|exact IV|discriminate]|]. apply (ka_tag sep o (d :: t) l (c :: id)); auto; discriminate. }
    destruct FT as (tg & -> & KA). cbn [bind].
    assert (FI : exists id, op_id iv = Ok id /\ (id = None \/ exists s, id = Some s /\ s <> [] /\ iv = VStr s)).
    { unfold op_id. destruct (falsy iv) eqn:F; [exists None; auto|]. destruct II as [II|(s & ->)]; [apply falsy_spec in II; congruence|]. exists (Some s). split; [reflexivity|]. right. exists s. split; [reflexivity|]. split; [intros ->; discriminate F|reflexivity]. }
    destruct FI as (id & -> & IX). cbn [bind]. eexists. split; [reflexivity|]. right. eexists. split; [reflexivity|]. split; [reflexivity|]. exists k, m, o. split; [reflexivity|]. split; [exact OI|].
    cbn [tr_tags tr_opid]. intros key K. destruct IX as [-> |(s & -> & NE & E)]; [destruct tg as [[|[|]]|]; discriminate K|]. eapply KA; eauto.
  Qed.
  Lemma tr_ops_Ok : exists l, tr_ops objs = Ok l /\ NoDup (map tr_obj l) /\ Forall named_op l.
  Proof.
    assert (ND : NoDup (map fst objs)). { destruct (shaped_swagger _ SR) as (h & fs & ints & E & _). eapply (T_SpecTree.c35_once root []); [exact (shaped_wfv _ _ _ (Nat.lt_succ_diag_r _) SR)|rewrite E; exact I|exact TR]. }
    assert (F : forall p o, In (p, o) objs -> exists y, tr_of (p, o) = Ok y /\ (y = [] \/ exists t, y = [t] /\ tr_obj t = p /\ named_op t)) by exact tr_of_Ok.
    assert (X : exists l, tr_ops objs = Ok l /\ NoDup (map tr_obj l) /\ Forall named_op l /\ incl (map tr_obj l) (map fst objs)).
    { clear TR. induction objs as [|(p, o) r IH]; [exists []; repeat split; try constructor; intros x []|]. inversion ND as [|? ? NI ND']; subst. destruct (F p o (or_introl eq_refl)) as (y & Y & YY).
      destruct (IH ND') as (l & L & NL & FL & IL). { intros q x IX. apply F. now right. }
      exists (y ++ l). cbn [tr_ops]. rewrite Y. cbn [bind]. rewrite L. cbn [bind]. split; [reflexivity|]. destruct YY as [-> |(t & -> & TP & NT)].
      - split; [exact NL|]. split; [exact FL|]. intros x IX. right. now apply IL.
      - cbn [List.app map]. rewrite TP. split; [constructor; [intro IX; apply NI, IL, IX|exact NL]|]. split; [now constructor|]. intros x [<-|IX]; [now left|right; now apply IL]. }
    destruct X as (l & A & B & C & _). eauto.
  Qed.
  Lemma keyed_nodup l : NoDup (map tr_obj l) -> Forall named_op l -> NoDup (map fst (keyed sep l)).
  Proof.
    intros ND FA. induction l as [|t l IH]; [constructor|]. inversion ND as [|? ? NI ND']; subst. inversion FA as [|? ? NT FL]; subst. specialize (IH ND' FL). unfold keyed. cbn [flat_map]. fold (keyed sep l).
    destruct (op_key sep (tr_tags t) (tr_opid t)) as [key|] eqn:K; [|exact IH]. cbn [List.app map fst]. constructor; [|exact IH]. intro IK. apply in_map_iff in IK as ((key', p) & E & IP). cbn [fst] in E. subst key'.
    unfold keyed in IP. apply in_flat_map in IP as (t' & IT & IP). destruct (op_key sep (tr_tags t') (tr_opid t')) as [key'|] eqn:K'; [|contradiction]. destruct IP as [E|[]]. injection E as -> <-.
    rewrite Forall_forall in FL. destruct (FL _ IT) as (k' & m' & op' & P' & OI' & KA'). destruct NT as (k & m & op & P & OI & KA).
    destruct (NAMES _ _ _ _ _ _ _ OI OI' (KA _ K) (KA' _ K')) as (<- & <-). apply NI. rewrite P, <- P'. now apply in_map.
  Qed.
  Lemma reduce_Ok : exists l tbl, tr_ops objs = Ok l /\ type_reduce sep [] l = Ok tbl.
  Proof.
    destruct tr_ops_Ok as (l & L & ND & FA). exists l. pose proof (keyed_nodup l ND FA) as NK. destruct (reduce_spec sep l) as [(_ & E)|(N & _)]; [eauto|contradiction].
  Qed.
End Names.
