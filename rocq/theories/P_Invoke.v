(** Proofs about the parameters of operations of created applications. *)
From Verif Require Import PyBase PyFacts PyInt PyJson M_JsonPtr S_JsonPtr M_Url P_Op M_SpecVal M_Parse M_SpecTree M_Merge M_MergeRef S_Parse S_SpecTree S_Merge S_MergeRef M_Patch S_Patch S_Prepare M_Op M_Client M_Request M_Contrib M_Invoke S_Invoke P_SpecBase P_SpecTree P_Merge P_MergeShape P_Grown.
Close Scope Q_scope.

Lemma first_set_fun n df l x y : first_set n df l x -> first_set n df l y -> x = y.
Proof.
  intros (a & o & b & -> & F & D & A) (a' & o' & b' & E & F' & D' & A'). revert a' E A A'. induction a as [|z a IH]; intros [|z' a'] E A A'; cbn [List.app] in E; injection E as -> E.
  - congruence.
  - destruct (A' z' (or_introl eq_refl)) as (v & V & DV). exfalso. apply D. congruence.
  - destruct (A o' (or_introl eq_refl)) as (v & V & DV). exfalso. apply D'. congruence.
  - apply (IH a' E); intros; [apply A|apply A']; now right.
Qed.
Lemma never_first n df l x : never_set n df l -> ~ first_set n df l x.
Proof. intros N (a & o & b & -> & F & D & _). destruct (N o) as (y & Y & E); [apply in_or_app; right; now left|]. apply D. congruence. Qed.

(** ** Fields of objects that have the fields of their class *)
Lemma shaped_has c v n df : shaped (Of c) v -> sget n (t_fields c) = Some df -> exists x, field_of v n = Some x.
Proof.
  intros S T. pose proof (shaped_obj _ _ S) as (h & fs & ints & -> & <-). inversion S as [| |? ? ? K _ _ _]; subst. cbn [field_of]. apply (sget_fields_all (t_fields (h_cls h))); [|eauto]. exact K.
Qed.
Lemma get_field n v x : field_of v (lit n) = Some x -> get n v = Ok x.
Proof. destruct v; try discriminate. cbn [field_of get]. unfold attr. now intros ->. Qed.
Lemma get_internal n v x : field_of v (lit n) = None -> internal_of v (lit n) = Some x -> get n v = Ok x.
Proof. destruct v; try discriminate. cbn [field_of internal_of get]. unfold attr. now intros -> ->. Qed.
Lemma text_is_maybe v : text_is v (maybe_text v).
Proof. intro s. destruct v; cbn [maybe_text]; split; intro E; try discriminate E; congruence. Qed.
Lemma empty_falsy v : falsy v = false <-> ~ empty_value v.
Proof. rewrite <- falsy_spec. destruct (falsy v); split; congruence. Qed.

Section Way.
  Context (abs_uri win_uri : str -> str) (url : str) (doc : val).
  Notation way := (way abs_uri win_uri url doc).
  Lemma points_fun s x y : points abs_uri win_uri url doc s x -> points abs_uri win_uri url doc s y -> x = y.
  Proof. intros (ts & J & R) (ts' & J' & R'). assert (E : rfc_pointer (lit "#") ts = rfc_pointer (lit "#") ts') by congruence. apply pointer_inj in E as <-; [|discriminate]. exact (reach_fun _ _ _ R' _ R). Qed.
  Lemma refers_fun o s t : refers o s -> refers o t -> s = t. Proof. intros (_ & A) (_ & B). congruence. Qed.
  Lemma refers_not o s : refers o s -> ~ no_reference o.
  Proof. intros (N & F) (x & X & E). assert (x = VStr s) as -> by congruence. inversion E. now apply N. Qed.
  Lemma way_fun c seen o l : way c seen o l -> forall l', way c seen o l' -> l = l'.
  Proof.
    induction 1 as [seen o N|seen o s h fs ints R P C I|seen o s h fs ints l R P C I W IH]; intros l' W'; inversion W' as [? ? N'|? ? s' h' fs' ints' R' P' C' I'|? ? s' h' fs' ints' m R' P' C' I' W'']; subst; auto.
    - elim (refers_not _ _ R' N).
    - pose proof (refers_fun _ _ _ R R') as <-. pose proof (points_fun _ _ _ P P') as E. injection E as <- <- <-. contradiction.
    - elim (refers_not _ _ R N').
    - pose proof (refers_fun _ _ _ R R') as <-. pose proof (points_fun _ _ _ P P') as E. injection E as <- <- <-. contradiction.
    - pose proof (refers_fun _ _ _ R R') as <-. pose proof (points_fun _ _ _ P P') as E. injection E as <- <- <-. f_equal. now apply IH.
  Qed.
  Lemma leads_fun c p l m : leads abs_uri win_uri url doc c p l -> leads abs_uri win_uri url doc c p m -> l = m.
  Proof. intros (h & fs & ints & -> & _ & W) (h' & fs' & ints' & E & _ & W'). injection E as <- <- <-. exact (way_fun _ _ _ _ W _ W'). Qed.
  Lemma text_in_fun n p s t : text_in abs_uri win_uri url doc n p s -> text_in abs_uri win_uri url doc n p t -> s = t.
  Proof. intros (l & L & _ & F) (m & M & _ & G). pose proof (leads_fun _ _ _ _ L M) as <-. pose proof (first_set_fun _ _ _ _ _ F G) as E. now injection E. Qed.

  Notation completed := (completed abs_uri win_uri url doc).
  Notation text_in := (text_in abs_uri win_uri url doc).
  Notation leads := (leads abs_uri win_uri url doc).
  Lemma of_class_full c v : shaped (Of c) v -> ~ empty_value v.
  Proof. intros S E. pose proof (shaped_obj _ _ S) as (h & fs & ints & -> & _). inversion E. Qed.
  (** What [final] gives for the object that the application has for [p] *)
  Lemma completed_final c p p' l : c = CParameter \/ c = CResponse -> completed p p' -> leads c p l -> shaped (Of c) p -> combined c l (final p') /\ meant p' (final p').
  Proof.
    intros CC (h & g & fs & ints & jnts & f & -> & -> & C & _ & F & X) (h' & fs' & ints' & E & CH & W) S. injection E as <- <- <-. rewrite CH in X. specialize (X l W).
    assert (NF : sget (lit "final") fs = None).
    { destruct (sget (lit "final") fs) as [y|] eqn:Y; [|reflexivity]. exfalso. inversion S as [| |? ? ? K _ _ _].
      assert (Z : exists z, sget (lit "final") (t_fields (h_cls h)) = Some z). { apply (sget_fields_all _ _ _ K). eauto. }
      destruct Z as (z & Z). rewrite CH in Z. destruct CC as [CC|CC]; rewrite CC in Z; vm_compute in Z; discriminate Z. }
    assert (A : attr fs jnts (lit "final") = Ok f) by (unfold attr; now rewrite NF, F).
    pose proof (of_class_full _ _ (cb_shape _ _ _ X)) as NE.
    assert (E : final (VObj g fs jnts) = f). { cbn [final]. change (attr fs jnts "final"%string) with (attr fs jnts (lit "final")). rewrite A. apply empty_falsy in NE. now rewrite NE. }
    rewrite E. split; [exact X|]. apply meant_final; [|exact NE]. unfold attr_of. cbn [field_of internal_of]. now rewrite NF.
  Qed.
  Lemma meant_fun p q r : meant p q -> meant p r -> q = r.
  Proof. intros [p0 f A N|p0 H] M; inversion M as [p1 f' A' N'|p1 H']; subst; auto; [congruence|elim N; auto|elim N'; auto]. Qed.

  Section Params.
    Context {V P : Type} (plain : val -> V) (produce : bool -> val -> V -> res P).
    Notation param_of := (param_of plain produce).
    Lemma combined_text n p p' s : (n = "name" \/ n = "in")%string -> completed p p' -> shaped (Of CParameter) p -> text_in n p s -> field_of (final p') (lit n) = Some (VStr s).
    Proof.
      intros NN CP S (l & L & NC & FS). destruct (completed_final _ _ _ _ (or_introl eq_refl) CP L S) as (CB & _).
      destruct (cb_scalar _ _ _ CB (lit n) JNull) as (rv & RV & X); [destruct NN; subst; reflexivity|destruct NN; subst; reflexivity|exact NC|].
      destruct X as [X|(X & _)]; [|elim (never_first _ _ _ _ X FS)]. now rewrite RV, (first_set_fun _ _ _ _ _ X FS).
    Qed.
    Lemma called_text p p' s a : completed p p' -> shaped (Of CParameter) p -> text_in "name" p s -> called p' a -> a = VStr s.
    Proof.
      intros CP S T (q & M & A). pose proof (combined_text _ _ _ _ (or_introl eq_refl) CP S T) as F. destruct T as (l & L & _ & _).
      destruct (completed_final _ _ _ _ (or_introl eq_refl) CP L S) as (_ & M'). pose proof (meant_fun _ _ _ M M') as ->. unfold attr_of in A. rewrite F in A. now injection A.
    Qed.
    Lemma text_called p p' s : completed p p' -> shaped (Of CParameter) p -> text_in "name" p s -> called p' (VStr s).
    Proof.
      intros CP S T. pose proof (combined_text _ _ _ _ (or_introl eq_refl) CP S T) as F. destruct T as (l & L & _ & _).
      destruct (completed_final _ _ _ _ (or_introl eq_refl) CP L S) as (_ & M'). exists (final p'). split; [exact M'|]. unfold attr_of. now rewrite F.
    Qed.
    Notation proper_param := (usable abs_uri win_uri url doc).
    (** Every parameter can be read and says what it declares. *)
    Lemma param_of_ok p p' : completed p p' -> shaped (Of CParameter) p -> proper_param p -> exists q, param_of p' = Ok q /\ stands_for plain produce abs_uri win_uri url doc p q.
    Proof.
      intros CP S ((n & TN) & i & TI & _). pose proof (combined_text _ _ _ _ (or_introl eq_refl) CP S TN) as FN. pose proof (combined_text _ _ _ _ (or_intror eq_refl) CP S TI) as FI.
      destruct TN as (l & L & _ & _). destruct (completed_final _ _ _ _ (or_introl eq_refl) CP L S) as (CB & _). pose proof (cb_shape _ _ _ CB) as SF.
      destruct (shaped_has _ _ (lit "required") _ SF eq_refl) as (r & FR). destruct (shaped_has _ _ (lit "default") _ SF eq_refl) as (d & FD). destruct (shaped_has _ _ (lit "type") _ SF eq_refl) as (t & FT).
      destruct (shaped_has _ _ (lit "items") _ SF eq_refl) as (it & FM). destruct (shaped_has _ _ (lit "schema") _ SF eq_refl) as (s & FS).
      assert (IT : it = VNone \/ exists x, is_there it = true /\ field_of it (lit "type") = Some x).
      { pose proof (shaped_obj _ _ SF) as (h & fs & ints & E & C). rewrite E in SF, FM. cbn [field_of] in FM. rewrite <- C in SF. inversion SF as [| |? ? ? _ _ _ H]; subst. specialize (H _ _ One (Of CItems) FM). rewrite C in H. specialize (H eq_refl).
        inversion H as [|? ? SI| |]; subst; [now left|right]. destruct (shaped_has _ _ (lit "type") _ SI eq_refl) as (x & X). exists x. split; [|exact X]. pose proof (shaped_obj _ _ SI) as (? & ? & ? & -> & _). reflexivity. }
      unfold M_Invoke.param_of. rewrite (get_field _ _ _ FN). cbn [bind text_of]. rewrite (get_field _ _ _ FI). cbn [bind text_of]. rewrite (get_field _ _ _ FR). cbn [bind]. rewrite (get_field _ _ _ FD). cbn [bind]. rewrite (get_field _ _ _ FT). cbn [bind]. rewrite (get_field _ _ _ FM). cbn [bind].
      assert (IR : exists x, (if is_there it then do x <- get "type" it; Ok (Some (maybe_text x)) else Ok None) = Ok x /\ (it = VNone /\ x = None \/ exists t y, field_of it (lit "type") = Some t /\ x = Some y /\ text_is t y)).
      { destruct IT as [->|(x & -> & X)]; [exists None; split; auto|]. rewrite (get_field _ _ _ X). cbn [bind]. eexists. split; [reflexivity|]. right. exists x, (maybe_text x). split; [exact X|]. split; [reflexivity|]. apply text_is_maybe. }
      destruct IR as (x & -> & IR). cbn [bind]. rewrite (get_field _ _ _ FS). cbn [bind]. eexists. split; [reflexivity|]. exists l, (final p'). split; [exact L|]. split; [exact CB|].
      constructor; cbn [q_name q_in q_required q_default q_type q_items q_prim].
      - exact FN.
      - exact FI.
      - exists r. split; [exact FR|]. rewrite <- falsy_spec. destruct (falsy r); split; cbn; congruence.
      - exists d. split; [exact FD|]. unfold was_set, says. destruct (final p') as [| | | | | | |h fs ints]; try discriminate FN. unfold is_set. destruct (mem (lit "default") (h_keys h)) eqn:M.
        + left. split; [|reflexivity]. now apply mem_In.
        + right. split; [|reflexivity]. intro X. apply mem_In in X. congruence.
      - exists t. split; [exact FT|]. apply text_is_maybe.
      - exists it. split; [exact FM|]. exact IR.
      - exists s. split; [exact FS|]. intro v. destruct (str_eqb i (lit "body")) eqn:B; [left|right]; (split; [|reflexivity]); [now apply str_eqb_eq|]. intros ->. rewrite str_eqb_refl in B. discriminate B.
    Qed.

    (** The parameters chosen are those of the document with other names. *)
    Definition done_param (p p' : val) : Prop := completed p p' /\ shaped (Of CParameter) p /\ proper_param p.
    Lemma done_in' os os1 q' : Forall2 done_param os os1 -> In q' os1 -> exists q, In q os /\ done_param q q'. Proof. intros F I. exact (Forall2_In_r _ _ _ _ F I). Qed.
    Lemma done_in os os1 q : Forall2 done_param os os1 -> In q os -> exists q', In q' os1 /\ done_param q q'. Proof. intros F I. exact (Forall2_In_l _ _ _ _ F I). Qed.
    Lemma chosen_names os1 ss1 more1 : chosen os1 ss1 more1 -> forall os ss, Forall2 done_param os os1 -> Forall2 done_param ss ss1 ->
      exists more, other_names abs_uri win_uri url doc os ss more /\ Forall2 done_param more more1.
    Proof.
      induction 1 as [l|l p ps more q I SN CH IH|l p ps more NS CH IH]; intros os ss FO FS.
      - inversion FS; subst. exists []. split; constructor.
      - inversion FS as [|p0 ? ss0 ? DP FS']; subst. destruct (IH _ _ FO FS') as (mo & ON & FM). exists mo. split; [|exact FM].
        destruct (done_in' _ _ _ FO I) as (q0 & I0 & (CQ & SQ & (n & TQ) & TQ')). destruct DP as (CP & SP & (m & TP) & TP'). destruct SN as (a & b & A & B & E).
        pose proof (called_text _ _ _ _ CP SP TP A) as ->. pose proof (called_text _ _ _ _ CQ SQ TQ B) as ->. assert (m = n) as -> by (inversion E as [|? |? ? ? ? N1 N2|]; subst; auto; inversion N1). eapply on_skip; eauto.
      - inversion FS as [|p0 ? ss0 ? DP FS']; subst. destruct (IH (os ++ [p0]) ss0) as (mo & ON & FM); [apply Forall2_app; auto|exact FS'|]. exists (p0 :: mo). split; [|constructor; auto].
        destruct DP as (CP & SP & (m & TP) & TP'). eapply on_take; [exact TP| |exact ON]. intros q0 I0 TQ. destruct (done_in _ _ _ FO I0) as (q' & I' & (CQ & SQ & _)). apply (NS q' I').
        exists (VStr m), (VStr m). split; [exact (text_called _ _ _ CP SP TP)|]. split; [exact (text_called _ _ _ CQ SQ TQ)|constructor].
    Qed.
    Lemma params_all ps ps1 : Forall2 done_param ps ps1 -> exists qs, map_res param_of ps1 = Ok qs /\ Forall2 (stands_for plain produce abs_uri win_uri url doc) ps qs.
    Proof.
      induction 1 as [|p p' ps ps1 (CP & SP & PP) F (qs & M & FS)]; [exists []; split; [reflexivity|constructor]|]. destruct (param_of_ok _ _ CP SP PP) as (q & Q & ST).
      exists (q :: qs). split; [|constructor; auto]. apply map_res_ok. constructor; [exact Q|]. now apply map_res_ok.
    Qed.
  End Params.
End Way.
