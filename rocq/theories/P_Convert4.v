(** Lemmas on converted documents: how they are loaded, and where their parts are. *)
From Coq Require Import Lia.
From Verif Require Import PyBase PyFacts PyInt PyJson M_JsonPtr S_JsonPtr M_Url P_Op M_SpecVal M_Parse M_SpecTree M_Merge M_MergeRef S_Parse S_SpecTree S_Merge S_MergeRef S_Typed S_Validate P_SpecBase P_Parse P_SpecTree P_Compare P_Merge P_MergeShape P_MergeRef P_Patch M_App S_App P_App P_Deep M_OldParse S_OldParse P_OldParse T_OldParse S_OldValidate P_OldValidate M_Upgrade S_Upgrade P_UpgradeObj P_Upgrade P_UpgradeDoc P_UpgradeFold P_UpgradeEnd P_Validate M_Prepare S_Convert P_Convert P_Convert2 P_Convert3.
Close Scope Q_scope.

Section Old.
  Context (fetch : str -> res json) (prim : str -> bool) (float_of : str -> res Q) (sep : str).
  Notation load := (load_obj fetch (parse_listing fetch)).
  Notation normed := (normalised (convert_doc prim float_of sep) as_given).
  Hypothesis JD : forall j x, fetch j = Ok x -> wf x.

  Lemma load_old j p raw ver : load j p = Ok (Old raw, ver) -> ver = lit "1.2" /\ loaded12 raw /\ exists x, fetch j = Ok x /\ parse_listing fetch j x = Ok raw.
  Proof.
    intro L. unfold load_obj in L. apply bind_ok in L as (x & FX & L). apply bind_ok in L as (ve & VE & E). destruct (is_version ve "1.2").
    - apply bind_ok in E as (y & Y & E). injection E as <- <-. split; [reflexivity|]. split; [|eauto]. destruct x as [| | | | | |d]; try discriminate VE. exists fetch, j, d. split; [exact (JD _ _ FX)|]. split; [exact JD|exact Y].
    - destruct (is_version ve "2.0").
      + apply bind_ok in E as (y & Y & E). discriminate E.
      + destruct p; [|discriminate E]. destruct (no_version ve); [|discriminate E]. apply bind_ok in E as (y & Y & E). discriminate E.
  Qed.
  Lemma converted_deep raw sw v u w : loaded12 raw -> upgrade prim float_of sep raw = Ok sw -> assign_parents (relocate [] sw) = Ok v -> norm_refs u v = Ok w ->
    moved None [] sw v /\ normal u v w /\ deep sw /\ shaped (Of CSwagger) sw /\ deep w /\ shaped (Of CSwagger) w.
  Proof.
    intros LD UP AS NR. destruct (events_exist raw LD) as (rest & es & TR & EV). destruct (document_shape prim float_of sep raw LD rest es TR EV sw v u w UP AS NR) as (D & S).
    pose proof (moved_ok _ _ _ _ (Nat.lt_succ_diag_r _) AS) as MV. destruct (moved_deep _ _ _ _ _ (Nat.lt_succ_diag_r _) MV) as (DV & SV). specialize (DV D). specialize (SV _ S).
    pose proof (norm_ok u _ v w (Nat.lt_succ_diag_r _) (shaped_wfv _ _ _ (Nat.lt_succ_diag_r _) SV) NR) as NM. destruct (normal_deep u _ v w (Nat.lt_succ_diag_r _) NM) as (DW & SW). auto 10.
  Qed.
  Lemma old_deep a j p o ver url v : a_old a = true -> load j p = Ok (o, ver) -> normed a o url = Ok v -> deep v.
  Proof.
    intros AO L N. unfold normalised in N. rewrite AO in N. destruct o as [raw|x]; [|discriminate N]. apply bind_ok in N as (w & C & N). unfold convert_doc in C. apply bind_ok in C as (sw & UP & AS).
    destruct (load_old _ _ _ _ L) as (_ & LD & _). now destruct (converted_deep _ _ _ _ _ LD UP AS N) as (_ & _ & _ & _ & D & _).
  Qed.
End Old.

(** ** Where the parts are *)
Lemma Forall2_fst (P : str -> val -> val -> Prop) (d e : sdict val) : Forall2 (fun kx ky => fst kx = fst ky /\ P (fst kx) (snd kx) (snd ky)) d e -> map fst d = map fst e.
Proof. induction 1 as [|[a b] [a' b'] d e (K & H) F IH]; [reflexivity|]. cbn [map fst] in *. now rewrite K, IH. Qed.
Lemma brought_plain u pl x y : not_container x -> brought u pl x y -> y = x.
Proof. intros NC (q & x1 & M & N). inversion M; subst; try contradiction NC. inversion N; subst; try contradiction NC. reflexivity. Qed.
Lemma brought_same u pl x y : wfv x -> no_object x -> brought u pl x y -> y = x.
Proof.
  intros W NO (q & x1 & M & N). apply (moved_same _ _ _ _ _ (Nat.lt_succ_diag_r _)) in M; auto. subst x1. now apply (normal_same u _ _ _ (Nat.lt_succ_diag_r _)) in N.
Qed.
Lemma brought_list u pl l y : brought u pl (VList l) y -> exists m, y = VList m /\ length m = length l /\ forall i x z, nth_error l i = Some x -> nth_error m i = Some z -> brought u (pl ++ [str_of_nat i]) x z.
Proof.
  intros (q & x1 & M & N). inversion M as [? ? ? NC|? ? ? m L F| |]; subst; [contradiction NC|]. inversion N as [? NC|? n G| |]; subst; [contradiction NC|]. exists n. split; [reflexivity|]. split; [rewrite L; symmetry; exact (Forall2_len _ _ _ G)|].
  intros i x z X Z. destruct (Forall2_nth_r _ _ _ _ _ G Z) as (w & W & NW). exists q, w. split; [eapply F; eauto|exact NW].
Qed.
Lemma brought_dict u pl d y : brought u pl (VDict d) y -> exists e, y = VDict e /\ map fst e = map fst d /\ forall k x, sget k d = Some x -> exists z, sget k e = Some z /\ brought u (pl ++ [k]) x z.
Proof.
  intros (q & x1 & M & N). inversion M as [? ? ? NC| |? ? ? d1 F|]; subst; [contradiction NC|]. inversion N as [? NC| |? e G|]; subst; [contradiction NC|]. exists e. split; [reflexivity|]. split.
  - transitivity (map fst d1); symmetry; [exact (Forall2_fst (fun _ => normal u) _ _ G)|exact (Forall2_fst (fun k => moved q (pl ++ [k])) _ _ F)].
  - intros k x X. destruct (Forall2_key (P := fun k => moved q (pl ++ [k])) _ _ _ _ F X) as (x1 & X1 & M1). destruct (Forall2_key (P := fun _ => normal u) _ _ _ _ G X1) as (z & Z & N1). exists z. split; [exact Z|]. exists q, x1. auto.
Qed.
Lemma brought_obj u pl h fs ints y : brought u pl (VObj h fs ints) y -> exists g es, y = VObj g es ints /\ h_cls g = h_cls h /\ h_place g = pl /\ map fst es = map fst fs /\
  forall n x, sget n fs = Some x -> exists z, sget n es = Some z /\
    (ref_class (h_cls h) /\ n = lit "$ref" /\ completed_ref u x z \/ ~ (ref_class (h_cls h) /\ n = lit "$ref") /\ brought u (pl ++ [n]) x z).
Proof.
  intros (q & x1 & M & N). inversion M as [? ? ? NC| | |? ? ? ? es1 ? F]; subst; [contradiction NC|]. inversion N as [? NC| | |? g ? es ? C P _ _ G]; subst; [contradiction NC|]. cbn [h_cls h_place] in *. exists g, es.
  split; [reflexivity|]. split; [exact C|]. split; [exact P|]. split.
  - transitivity (map fst es1); symmetry; [exact (Forall2_fst (normal_field u (h_cls h)) _ _ G)|exact (Forall2_fst (fun k x y => exists q, told (h_cls h) pl k q /\ moved q (pl ++ [k]) x y) _ _ F)].
  - intros n x X. destruct (Forall2_key (P := fun k x y => exists q, told (h_cls h) pl k q /\ moved q (pl ++ [k]) x y) _ _ _ _ F X) as (x1 & X1 & q' & T & M1). destruct (Forall2_key (P := normal_field u (h_cls h)) _ _ _ _ G X1) as (z & Z & N1). exists z. split; [exact Z|].
    inversion N1 as [c a b RC CR|c n' a b NR NN]; subst; [left|right].
    + split; [exact RC|]. split; [reflexivity|]. inversion CR; subst; inversion M1; subst; constructor; auto.
    + split; [exact NR|]. exists q', x1. auto.
Qed.
Lemma brought_reach u v ts o : reach [] v ts o -> is_obj o -> forall pl w, brought u pl v w -> exists o', reach [] w ts o' /\ brought u (pl ++ ts) o o'.
Proof.
  induction 1 as [v|h fs ints n y ts o NI G R IH|l i y ts o G R IH|d k y ts o G R IH]; intros IO pl w B.
  - exists w. rewrite app_nil_r. split; [constructor|exact B].
  - apply brought_obj in B as (g & es & -> & C & P & _ & F). destruct (F _ _ G) as (z & Z & [(_ & _ & CR)|(_ & BZ)]).
    + exfalso. inversion CR; subst; inversion R; subst; exact IO.
    + destruct (IH IO _ _ BZ) as (o' & R' & BO). exists o'. rewrite <- app_assoc in BO. split; [|exact BO]. eapply reach_field; [intros []|exact Z|exact R'].
  - apply brought_list in B as (m & -> & L & F). destruct (nth_error m i) as [z|] eqn:Z; [|apply nth_error_None in Z; assert (i < length l) by (apply nth_error_Some; congruence); lia].
    destruct (IH IO _ _ (F _ _ _ G Z)) as (o' & R' & BO). exists o'. rewrite <- app_assoc in BO. split; [|exact BO]. eapply reach_item; eauto.
  - apply brought_dict in B as (e & -> & _ & F). destruct (F _ _ G) as (z & Z & BZ). destruct (IH IO _ _ BZ) as (o' & R' & BO). exists o'. rewrite <- app_assoc in BO. split; [|exact BO]. eapply reach_key; eauto.
Qed.
Lemma brought_field u pl c v w n : shaped (Of c) v -> brought u pl v w -> sget n (t_child c) = None -> ~ (ref_class c /\ n = lit "$ref") -> field_of w n = field_of v n.
Proof.
  intros S B T NR. destruct (shaped_obj _ _ S) as (h & fs & ints & -> & C). apply brought_obj in B as (g & es & -> & _ & _ & K & F). cbn [field_of]. destruct (sget n fs) as [x|] eqn:X.
  - destruct (F _ _ X) as (z & Z & [(RC & E & _)|(_ & BZ)]); [rewrite C in RC; tauto|]. rewrite Z. f_equal. rewrite <- C in S, T.
    destruct (shaped_field _ _ _ _ _ S X) as [(_ & WX & NO)|(ct & cc & Q & _)]; [|congruence]. eapply brought_same; [exact WX|exact NO|exact BZ].
  - apply sget_None. rewrite K. now apply sget_None.
Qed.
