(** Lemmas for prepared applications: merging references in place. *)
From Coq Require Import Lia.
From Verif Require Import PyBase PyFacts PyInt PyJson M_JsonPtr S_JsonPtr M_Url P_Op M_SpecVal M_Parse M_SpecTree M_Merge M_MergeRef S_Parse S_SpecTree S_Merge S_MergeRef P_SpecBase P_Parse P_SpecTree P_Compare P_Merge P_MergeShape P_MergeRef P_Patch M_App S_App P_App P_Deep M_Scope M_Patch M_Validate M_OldValidate M_OldParse M_Upgrade M_Prepare P_Grown P_Grown2 S_Prepare T_MergeRef T_App.
Close Scope Q_scope.

Lemma as_given_some v : as_given v <> VNone.
Proof. destruct v; discriminate. Qed.
Lemma mark_deep n v : deep v -> deep (mark n v).
Proof.
  destruct v as [| | | | | | |h fs ints]; auto. intro D. apply deep_obj in D as (S & N & F & I). cbn [mark]. apply dp_obj; auto. cbn [h_cls].
  pose proof (shaped_parts _ _ _ _ S) as (_ & A & B & C). change (Of (h_cls h)) with (Of (h_cls (Head (h_cls h) (str_of_nat n :: h_place h) (h_parent h) (h_keys h)))). constructor; auto.
  intros m x ct cc G T. exact (shaped_child _ _ _ _ _ _ _ _ S G T).
Qed.
Lemma grown_set_parent P p v : grown P v (set_parent p v).
Proof. destruct v as [| | | | | | |h fs ints]; try apply grown_same. cbn [set_parent]. apply gr_obj; auto. intros n x y X Y. rewrite X in Y. injection Y as <-. left. apply grown_same. Qed.
Lemma grown_own P p v : grown P v (own p v).
Proof.
  destruct v as [| | | | |l|d|h fs ints]; try apply grown_same; cbn [own].
  - apply gr_list; [now rewrite map_length|]. intros i x y X Y. rewrite nth_error_map, X in Y. injection Y as <-. apply grown_set_parent.
  - apply gr_dict; [rewrite map_map; apply map_ext; now intros []|]. intros k x y X Y. rewrite (sget_map (set_parent p)), X in Y. injection Y as <-. apply grown_set_parent.
  - apply (grown_set_parent P p (VObj h fs ints)).
Qed.
Lemma path_item_default n df : sget n (t_fields CPathItem) = Some df -> df = JNull \/ df = JList [].
Proof.
  intro G. apply sget_In in G. assert (X : forallb (fun nd => match snd nd with JNull | JList [] => true | _ => false end) (t_fields CPathItem) = true) by reflexivity.
  rewrite forallb_forall in X. specialize (X _ G). cbn [snd] in X. destruct df as [| | | | |[]|]; try discriminate X; auto.
Qed.
Lemma val_none_dec v : {v = VNone} + {v <> VNone}.
Proof. destruct v; (left; reflexivity) || (right; discriminate). Qed.
Lemma only_ref n df : sget n (t_fields CPathItem) = Some df -> sget n (t_child CPathItem) = None -> n <> lit "$ref" -> False.
Proof.
  intros T TC NE. assert (X : forallb (fun nd => str_eqb (fst nd) (lit "$ref") || match sget (fst nd) (t_child CPathItem) with Some _ => true | None => false end) (t_fields CPathItem) = true) by reflexivity.
  rewrite forallb_forall in X. specialize (X _ (sget_In _ _ _ T)). cbn [fst] in X. rewrite TC in X. apply Bool.orb_true_iff in X as [X|X]; [|discriminate X]. apply str_eqb_eq in X. contradiction.
Qed.
(** Merging into a path item fills what is not set, if there is a reference. *)
Lemma path_item_grown h fs ints f x : h_cls h = CPathItem -> deep (VObj h fs ints) -> deep f ->
  (sget (lit "$ref") fs = Some VNone -> forall n df sv ov, sget n (t_fields CPathItem) = Some df -> sget n fs = Some sv -> field_of f n = Some ov -> is_default sv df = true -> is_default ov df = true) ->
  merge (VObj h fs ints) f [] = Ok x -> grown (fun us => us = []) (VObj h fs ints) x.
Proof.
  intros C D DF HF E. destruct f as [| | | | | | |k es jnts]; try discriminate E. change (merge_obj clone [] (VObj h fs ints) (VObj k es jnts) = Ok x) in E.
  apply merge_obj_shape in E as (f & i & fs' & CK & MF & MI & AS & ->).
  pose proof (deep_shaped _ _ _ D) as S. pose proof (shaped_parts _ _ _ _ S) as (_ & KF & KI & PL).
  pose proof (deep_shaped _ _ _ DF) as SF. rewrite <- CK in SF.
  apply merge_names_ok in MF as (KF' & GF & _); [|apply fields_nodup]. apply merge_names_ok in MI as (KI' & GI & _); [|apply internal_nodup].
  assert (NI : ints = [] /\ fst i = []).
  { rewrite C in KI, KI'. split; [now destruct ints|now destruct (fst i)]. }
  destruct NI as [-> ->]. apply gr_obj; auto.
  - rewrite <- (drel_keys _ _ _ AS), KF'. exact KF.
  - intros n a z A Z. destruct (drel_get_r _ _ _ _ _ AS Z) as (y & Y & P).
    assert (T : exists df, sget n (t_fields (h_cls h)) = Some df) by (apply sget_Some_key; rewrite <- KF; apply sget_Some_key; eauto). destruct T as (df & T).
    destruct (GF n df T) as (sv & ov & w & SV & OV & M & R & _). rewrite A in SV. injection SV as <-. rewrite Y in R. injection R as ->.
    pose proof T as TD. rewrite C in TD. apply path_item_default in TD.
    destruct (shaped_field _ _ _ _ _ S A) as [(TC & W & NO)|(ct & cc & TC & SC)].
    + destruct (sget (lit "$ref") fs) as [r0|] eqn:R0; [destruct (val_none_dec r0) as [->|NR]|].
      { assert (n = lit "$ref") as ->.
        { rewrite C in T, TC. destruct (str_eq_dec n (lit "$ref")) as [|NE]; [assumption|]. exfalso. apply (only_ref n df T TC NE). }
        rewrite A in R0. injection R0 as ->. rewrite C in T. assert (DV : is_default VNone df = true) by (injection T as <-; reflexivity).
        pose proof (HF eq_refl _ _ _ _ T A OV DV) as DO. unfold merge1 in M. cbn [mem] in M. rewrite DO in M. injection M as <-. cbn [outcome] in P. rewrite TC in P. injection P as <-. left. apply grown_same. }
      all: right; (split; [exact C|]); (split; [congruence|]); right; right; (split; [|exact NO]); rewrite C in T, TC; destruct (str_eq_dec n (lit "$ref")) as [|NE]; [assumption|]; exfalso; exact (only_ref n df T TC NE).
    + rewrite TC in P. unfold merge1 in M. cbn [mem] in M. destruct (is_default ov df) eqn:DO.
      { injection M as <-. cbn [outcome] in P. rewrite (shaped_assign _ _ _ _ SC) in P. injection P as <-. left. apply grown_own. }
      rewrite TC in M. destruct (is_default a df) eqn:DA.
      * destruct (sget (lit "$ref") fs) as [r0|] eqn:R0; [destruct (val_none_dec r0) as [->|NR]|].
        { rewrite C in T. cbn [field_of] in HF. rewrite (HF eq_refl _ _ _ _ T A OV DA) in DO. discriminate DO. }
        all: right; (split; [exact C|]); (split; [congruence|]). all: (apply equals_default_spec in DA; [|eapply fields_default; eauto]). all: destruct TD as [->| ->]; inversion DA; subst; auto.
      * injection M as <-. cbn [outcome] in P. rewrite (shaped_assign _ _ _ _ SC) in P. injection P as <-. left. apply grown_own.
  - intros [X|[X|X]]; rewrite C in X; try discriminate X. repeat (destruct X as [X|X]; [discriminate X|]). destruct X.
Qed.

(** Setting the result of following references *)
Lemma set_final h fs ints f x : h_cls h = CParameter \/ h_cls h = CResponse -> deep (VObj h fs ints) -> update_field (lit "final") f (VObj h fs ints) = Ok x ->
  x = VObj (key_added (lit "final") h) fs (sset (lit "final") f ints) /\ smem (lit "final") ints = true.
Proof.
  intros C D E. pose proof (shaped_parts _ _ _ _ (deep_shaped _ _ _ D)) as (_ & KF & _). apply update_int in E as (M & ->); [auto|].
  rewrite (smem_keys _ _ _ KF). destruct C as [-> | ->]; reflexivity.
Qed.
Lemma final_grown h fs ints f : h_cls h = CParameter \/ h_cls h = CResponse -> smem (lit "final") ints = true ->
  grown (fun us => us = []) (VObj h fs ints) (VObj (key_added (lit "final") h) fs (sset (lit "final") f ints)).
Proof.
  intros C M. apply gr_obj; auto.
  - now rewrite sset_keys.
  - intros n x y X Y. rewrite X in Y. injection Y as <-. left. apply grown_same.
  - intros n N. now apply sget_sset_other.
Qed.
Lemma In_sset {A} k (x : A) d kv : In kv (sset k x d) -> In kv d \/ kv = (k, x).
Proof. induction d as [|[k' y] d IH]; cbn; [intros [<-|[]]; auto|]. destruct (str_eqb k k') eqn:E; cbn; intros [<-|X]; auto; [|apply IH in X as [X|X]; auto]. apply str_eqb_eq in E as ->. auto. Qed.
Lemma final_deep h fs ints f : deep (VObj h fs ints) -> deep f -> is_obj f -> smem (lit "final") ints = true ->
  deep (VObj (key_added (lit "final") h) fs (sset (lit "final") f ints)).
Proof.
  intros D DF O M. apply deep_obj in D as (S & N & F & I). pose proof (shaped_parts _ _ _ _ S) as (_ & A & B & C). apply dp_obj; auto.
  - cbn [h_cls key_added]. change (Of (h_cls h)) with (Of (h_cls (key_added (lit "final") h))). constructor; auto.
    + now rewrite sset_keys.
    + intros m x ct cc G T. exact (shaped_child _ _ _ _ _ _ _ _ S G T).
  - cbn [no_containers] in *. intros n x G. destruct (str_eq_dec n (lit "final")) as [->|NE].
    + rewrite sget_sset_same' in G. injection G as <-. intros [[? ->]|[? ->]]; contradiction.
    + rewrite sget_sset_other in G by exact NE. eauto.
  - rewrite Forall_forall in *. intros kv X. apply In_sset in X as [X| ->]; [exact (I _ X)|exact DF].
Qed.

(** ** The state while merging *)
Section Scan.
  Context (abs_uri win_uri : str -> str) (fetch : str -> res json) (prim : str -> bool) (float_of : str -> res Q) (sep : str) (fuel : nat).
  Notation conv := (convert_doc prim float_of sep).
  Notation load := (load_obj fetch (parse_listing fetch)).
  Notation normed := (normalised conv as_given).
  Notation solve := (resolvef abs_uri win_uri fetch (parse_listing fetch) conv as_given).
  Notation follow_in := (follow_in abs_uri win_uri fetch prim float_of sep fuel).
  Notation merge_refs_in := (merge_refs_in abs_uri win_uri fetch prim float_of sep fuel).
  Notation merge_obj_in := (merge_obj_in abs_uri win_uri fetch prim float_of sep fuel).
  Notation merge_at := (merge_at abs_uri win_uri fetch prim float_of sep fuel).
  Notation merge_each := (merge_each abs_uri win_uri fetch prim float_of sep fuel).
  Context (b : bool).
  Hypothesis converted : forall o v, conv o = Ok v -> is_obj v.
  Hypothesis loaded_deep : forall a j p o ver url v, a_old a = b -> load j p = Ok (o, ver) -> normed a o url = Ok v -> deep v.

  Definition kept (a a' : app) : Prop := extends a a' /\ sound a' /\ all_deep a'.
  Definition fine (a : app) : Prop := sound a /\ a_old a = b /\ all_deep a.
  Lemma kept_refl a : fine a -> kept a a. Proof. intros (A & _ & C). split; [apply extends_refl|auto]. Qed.
  Lemma kept_fine a a' : fine a -> kept a a' -> fine a'. Proof. intros (A & B & C) (X & Y & Z). split; [exact Y|]. split; [rewrite (ex_old _ _ X); exact B|exact Z]. Qed.
  Lemma kept_trans a a1 a2 : kept a a1 -> kept a1 a2 -> kept a a2. Proof. intros (X & _) (Y & S & D). split; [eapply extends_trans; eauto|auto]. Qed.
  Lemma solve_fine f a j p a' r : fine a -> solve f a j p = (a', r) -> kept a a' /\ forall n v, r = Ok (n, v) -> deep v.
  Proof.
    intros (A & B & C) E. destruct (solve_deep abs_uri win_uri fetch (parse_listing fetch) conv as_given as_given_some converted b loaded_deep f a j p a' r A B C E) as (X & Y & Z & W).
    split; [split; auto|exact W].
  Qed.
  Lemma merge_class h fs ints o r : merge (VObj h fs ints) o [] = Ok r -> exists k es jnts, r = VObj k es jnts /\ h_cls k = h_cls h /\ h_place k = h_place h.
  Proof.
    intro E. destruct o as [| | | | | | |k es jnts]; try discriminate E. change (merge_obj clone [] (VObj h fs ints) (VObj k es jnts) = Ok r) in E.
    apply merge_obj_shape in E as (f & i & fs' & _ & _ & _ & _ & ->). do 3 eexists. split; [reflexivity|]. auto.
  Qed.
  Lemma follow_fine steps : forall c a h fs ints guard r a' x, fine a -> deep (VObj h fs ints) -> h_cls h = c ->
    follow_in steps c a (VObj h fs ints) guard r = (a', x) -> kept a a' /\ forall f, x = Ok f -> deep f /\ is_class c f.
  Proof.
    induction steps as [|steps IH]; intros c a h fs ints guard r a' x FA D C E; cbn [M_Prepare.follow_in] in E; (destruct r as [s|]; [|injection E as <- <-; split; [now apply kept_refl|]; intros f X; injection X as <-; split; [exact D|]; exists h, fs, ints; auto]).
    - injection E as <- <-. split; [now apply kept_refl|]. discriminate.
    - destruct (solve fuel a (Some s) (Some c)) as [a1 [[n ro]|e]] eqn:SV; apply solve_fine in SV as (K & DR); auto.
      2: { injection E as <- <-. split; [exact K|]. discriminate. }
      specialize (DR n ro eq_refl). destruct (negb (same_class c (mark n ro))) eqn:SC; [injection E as <- <-; split; [exact K|]; discriminate|]. apply Bool.negb_false_iff in SC.
      destruct (visited guard (mark n ro)); [injection E as <- <-; split; [exact K|]; intros f X; injection X as <-; split; [exact D|]; exists h, fs, ints; auto|].
      destruct (merge (VObj h fs ints) (mark n ro) []) as [r1|e] eqn:M; cbn [bind] in E; [|injection E as <- <-; split; [exact K|]; discriminate].
      destruct (ref_of (mark n ro)) as [r2|e] eqn:RO; cbn [bind] in E; [|injection E as <- <-; split; [exact K|]; discriminate].
      pose proof (merge_deep _ _ _ _ _ D (mark_deep n _ DR) M) as D1. apply merge_class in M as (k & es & jnts & -> & CK & _).
      apply IH in E as (K2 & R2); auto; [|now apply (kept_fine a)|congruence]. split; [eapply kept_trans; eauto|exact R2].
  Qed.
  Lemma merge_refs_fine a pl h fs ints a' x : fine a -> deep (VObj h fs ints) -> merge_refs_in a pl (VObj h fs ints) = (a', x) ->
    kept a a' /\ forall f, x = Ok f -> deep f /\ is_class (h_cls h) f.
  Proof.
    intros FA D E. unfold M_Prepare.merge_refs_in in E. destruct (a_root a) as [[n root]|]; [|injection E as <- <-; split; [now apply kept_refl|]; discriminate].
    rewrite fresh_eq in E. cbn [bind] in E. destruct (merge _ (VObj h fs ints) []) as [r1|e] eqn:M; cbn [bind] in E; [|injection E as <- <-; split; [now apply kept_refl|]; discriminate].
    destruct (ref_of (VObj h fs ints)) as [r2|e] eqn:RO; cbn [bind] in E; [|injection E as <- <-; split; [now apply kept_refl|]; discriminate].
    pose proof (merge_deep _ _ _ _ _ (deep_fresh (h_cls h) pl) D M) as D1. apply merge_class in M as (k & es & jnts & -> & CK & _). cbn [h_cls] in CK.
    eapply follow_fine in E; eauto.
  Qed.
  Lemma no_ref_made a pl h fs ints a' f : h_cls h = CPathItem -> deep (VObj h fs ints) -> sget (lit "$ref") fs = Some VNone -> merge_refs_in a pl (VObj h fs ints) = (a', Ok f) ->
    forall n df sv ov, sget n (t_fields CPathItem) = Some df -> sget n fs = Some sv -> field_of f n = Some ov -> is_default sv df = true -> is_default ov df = true.
  Proof.
    intros C D R E n df sv ov T SV OV DV. unfold M_Prepare.merge_refs_in in E. destruct (a_root a) as [[m w]|]; [|discriminate E].
    destruct (fresh (h_cls h) pl) as [f0|] eqn:F0; [|discriminate E]. cbn [bind] in E. destruct (merge f0 (VObj h fs ints) []) as [r|] eqn:M; [|discriminate E]. cbn [bind] in E.
    unfold ref_of in E. rewrite R in E. cbn [reference falsy bind] in E.
    assert (f = r) as -> by (destruct fuel; cbn [M_Prepare.follow_in] in E; congruence). clear E.
    rewrite fresh_eq in F0. injection F0 as <-. change (merge_obj clone [] (VObj (Head (h_cls h) pl None []) (map (fun nd => (fst nd, inject (snd nd))) (t_fields (h_cls h))) (map (fun nd => (fst nd, VNone)) (t_internal (h_cls h)))) (VObj h fs ints) = Ok r) in M.
    apply merge_obj_shape in M as (f & i & fs' & _ & MF & _ & AS & ->). cbn [h_cls] in MF, AS. rewrite C in MF, AS.
    apply merge_names_ok in MF as (_ & GF & _); [|apply fields_nodup]. destruct (GF n df T) as (v0 & v1 & x & V0 & V1 & MM & RX & _). rewrite SV in V1. injection V1 as <-. unfold merge1 in MM. cbn [mem] in MM. rewrite DV in MM. injection MM as <-.
    cbn [outcome] in RX. rewrite (sget_map inject), T in V0. injection V0 as <-. cbn [field_of] in OV. destruct (drel_get_r _ _ _ _ _ AS OV) as (y & Y & P). rewrite RX in Y. injection Y as <-.
    pose proof T as TD. apply path_item_default in TD.
    assert (DD : forall o, is_default (own o (inject df)) df = true) by (intro o; destruct TD as [-> | ->]; reflexivity).
    destruct (sget n (t_child CPathItem)) as [[ct cc]|] eqn:TC.
    - rewrite (shaped_assign _ ct cc) in P; [injection P as <-; apply DD|]. rewrite <- C in T, TC. exact (shaped_child _ _ _ _ _ _ _ _ (fresh_shaped (h_cls h) pl) ltac:(rewrite (sget_map inject), T; reflexivity) TC).
    - injection P as <-. destruct TD as [-> | ->]; reflexivity.
  Qed.
  Lemma merge_obj_fine a h fs ints a' x : fine a -> deep (VObj h fs ints) -> merge_obj_in a (VObj h fs ints) = (a', x) ->
    kept a a' /\ forall y, x = Ok y -> deep y /\ (exists k es jnts, y = VObj k es jnts /\ h_cls k = h_cls h) /\
      ((merged_class (h_cls h) /\ grown (fun us => us = []) (VObj h fs ints) y) \/ y = VObj h fs ints) /\
      (h_cls h = CParameter \/ h_cls h = CResponse -> exists f, merge_refs_in a (h_place h ++ [lit "final"]) (VObj h fs ints) = (a', Ok f) /\
         y = VObj (key_added (lit "final") h) fs (sset (lit "final") f ints)).
  Proof.
    intros FA D E. unfold M_Prepare.merge_obj_in in E.
    assert (PR : h_cls h = CParameter \/ h_cls h = CResponse ->
      (let (a, f) := merge_refs_in a (h_place h ++ [lit "final"]) (VObj h fs ints) in (a, do f <- f; update_field "final"%string f (VObj h fs ints))) = (a', x) ->
      kept a a' /\ forall y, x = Ok y -> deep y /\ (exists k es jnts, y = VObj k es jnts /\ h_cls k = h_cls h) /\
      ((merged_class (h_cls h) /\ grown (fun us => us = []) (VObj h fs ints) y) \/ y = VObj h fs ints) /\
      (h_cls h = CParameter \/ h_cls h = CResponse -> exists f, merge_refs_in a (h_place h ++ [lit "final"]) (VObj h fs ints) = (a', Ok f) /\
         y = VObj (key_added (lit "final") h) fs (sset (lit "final") f ints))).
    { clear E. intros C E. destruct (merge_refs_in a (h_place h ++ [lit "final"]) (VObj h fs ints)) as [a1 [f|e]] eqn:M; cbn [bind] in E; pose proof (merge_refs_fine _ _ _ _ _ _ _ FA D M) as (K & R).
      2: { injection E as <- <-. split; [exact K|]. discriminate. }
      injection E as <- <-. split; [exact K|]. intros y U. destruct (R f eq_refl) as (DF & fh & ff & fi & -> & CF). destruct (set_final _ _ _ _ _ C D U) as (-> & MI).
      split; [apply final_deep; auto; exact I|]. split; [do 3 eexists; split; [reflexivity|reflexivity]|]. split; [|intros _; eauto].
      left. split; [destruct C; [now left|right; now left]|]. now apply final_grown. }
    assert (OT : h_cls h <> CParameter -> h_cls h <> CResponse -> (a, Ok (VObj h fs ints)) = (a', x) ->
      kept a a' /\ forall y, x = Ok y -> deep y /\ (exists k es jnts, y = VObj k es jnts /\ h_cls k = h_cls h) /\
      ((merged_class (h_cls h) /\ grown (fun us => us = []) (VObj h fs ints) y) \/ y = VObj h fs ints) /\
      (h_cls h = CParameter \/ h_cls h = CResponse -> exists f, merge_refs_in a (h_place h ++ [lit "final"]) (VObj h fs ints) = (a', Ok f) /\
         y = VObj (key_added (lit "final") h) fs (sset (lit "final") f ints))).
    { intros N1 N2 X. injection X as <- <-. split; [now apply kept_refl|]. intros y Y. injection Y as <-. split; [exact D|]. split; [eauto|]. split; [now right|]. intros [X|X]; contradiction. }
    destruct (h_cls h) eqn:C; try (apply OT; [discriminate|discriminate|exact E]); try (apply PR; auto; fail).
    clear OT PR. destruct (merge_refs_in a (h_place h ++ [lit "final"]) (VObj h fs ints)) as [a1 [f|e]] eqn:M; cbn [bind] in E; pose proof (merge_refs_fine _ _ _ _ _ _ _ FA D M) as (K & R).
    2: { injection E as <- <-. split; [exact K|]. discriminate. }
    injection E as <- <-. split; [exact K|]. intros y U. destruct (R f eq_refl) as (DF & _). split; [eapply merge_deep; eauto|].
    pose proof (merge_class _ _ _ _ _ U) as (k & es & jnts & -> & CK & _). split; [do 3 eexists; split; [reflexivity|congruence]|]. split; [|intros [X|X]; discriminate X].
    left. split; [right; now right|]. eapply path_item_grown; eauto. intro R0. eapply no_ref_made; eauto.
  Qed.

  (** The document [v] with number [n] at [u] *)
  Definition holds (u : str) (n : nat) (a : app) (v : val) : Prop := fine a /\ a_root a = Some (n, v) /\ whole a u (n, v).
  Lemma holds_kept u n a v a' : holds u n a v -> kept a a' -> holds u n a' v.
  Proof. intros (F & R & W) K. split; [eapply kept_fine; eauto|]. destruct K as (X & _). split; [rewrite (ex_root _ _ X); exact R|now apply (ex_whole _ _ X)]. Qed.
  Definition renew (n : nat) (v : val) (o : obj) : obj := if fst o =? n then (n, v) else o.
  Definition renew_cached (n : nat) (v : val) (c : cached) : cached :=
    match c with Whole o => Whole (renew n v o) | Parts d => Parts (map (fun ko => (fst ko, renew n v (snd ko))) d) end.
  Lemma set_root_eq v a n w : a_root a = Some (n, w) -> set_root v a = App (map (fun kc => (fst kc, renew_cached n v (snd kc))) (a_objs a)) (Some (n, v)) (a_old a) (a_loads a).
  Proof. intro R. unfold set_root. rewrite R. reflexivity. Qed.
  Lemma set_whole v a n w url o : a_root a = Some (n, w) -> whole (set_root v a) url o -> exists o', whole a url o' /\ o = renew n v o'.
  Proof.
    intros R W. rewrite (set_root_eq _ _ _ _ R) in W. unfold whole in *. cbn [a_objs] in W. rewrite (sget_map (renew_cached n v)) in W. destruct (sget url (a_objs a)) as [[o'|d]|]; try discriminate W.
    cbn in W. injection W as <-. eauto.
  Qed.
  Lemma set_parts v a n w url d : a_root a = Some (n, w) -> sget url (a_objs (set_root v a)) = Some (Parts d) -> exists d', sget url (a_objs a) = Some (Parts d') /\ d = map (fun ko => (fst ko, renew n v (snd ko))) d'.
  Proof.
    intros R W. rewrite (set_root_eq _ _ _ _ R) in W. cbn [a_objs] in W. rewrite (sget_map (renew_cached n v)) in W. destruct (sget url (a_objs a)) as [[o'|d']|]; try discriminate W.
    cbn in W. injection W as <-. eauto.
  Qed.
  Lemma set_part v a n w url k o : a_root a = Some (n, w) -> part_at (set_root v a) url k o -> exists o', part_at a url k o' /\ o = renew n v o'.
  Proof.
    intros R (d & G & K). destruct (set_parts _ _ _ _ _ _ R G) as (d' & G' & ->). rewrite (sget_map (renew n v)) in K. destruct (sget k d') as [o'|] eqn:K'; [|discriminate K]. injection K as <-.
    exists o'. split; [exists d'; auto|reflexivity].
  Qed.
  Lemma holds_set u n a v w : holds u n a v -> deep w -> is_obj w -> holds u n (set_root w a) w.
  Proof.
    intros ((SO & AO & AD) & R & W) D O. assert (NN : w <> VNone) by (intros ->; contradiction).
    assert (RN : forall o m x, o = renew n w (m, x) -> (x <> VNone /\ m < a_loads a) -> deep x -> snd o <> VNone /\ fst o < a_loads a /\ deep (snd o)).
    { intros o m x -> [A B] C. unfold renew. cbn [fst]. destruct (m =? n) eqn:E; cbn [fst snd]; [|auto]. apply Nat.eqb_eq in E as <-. auto. }
    assert (LD : a_loads (set_root w a) = a_loads a) by (rewrite (set_root_eq _ _ _ _ R); reflexivity).
    split; [|split].
    - split; [|split].
      + constructor.
        * rewrite (set_root_eq _ _ _ _ R). cbn [a_objs]. rewrite (sget_map (renew_cached n w)), (so_local _ SO). reflexivity.
        * intros url m x H. destruct (set_whole _ _ _ _ _ _ R H) as ((m' & x') & A & B). rewrite LD. destruct (RN _ _ _ B (so_whole _ SO _ _ _ A) (ad_whole _ AD _ _ _ A)) as (X & Y & _). auto.
        * intros url k m x H. destruct (set_part _ _ _ _ _ _ _ R H) as ((m' & x') & A & B). rewrite LD. destruct (RN _ _ _ B (so_part _ SO _ _ _ _ A) (ad_part _ AD _ _ _ _ A)) as (X & Y & _). auto.
        * intros url d H. destruct (set_parts _ _ _ _ _ _ R H) as (d' & A & ->). rewrite map_map. cbn [fst]. exact (so_keys _ SO _ _ A).
      + rewrite (set_root_eq _ _ _ _ R). exact AO.
      + constructor.
        * intros url m x H. destruct (set_whole _ _ _ _ _ _ R H) as ((m' & x') & A & B). destruct (RN _ _ _ B (so_whole _ SO _ _ _ A) (ad_whole _ AD _ _ _ A)) as (_ & _ & X). exact X.
        * intros url k m x H. destruct (set_part _ _ _ _ _ _ _ R H) as ((m' & x') & A & B). destruct (RN _ _ _ B (so_part _ SO _ _ _ _ A) (ad_part _ AD _ _ _ _ A)) as (_ & _ & X). exact X.
        * intros m x H. rewrite (set_root_eq _ _ _ _ R) in H. injection H as <- <-. exact D.
    - rewrite (set_root_eq _ _ _ _ R). reflexivity.
    - rewrite (set_root_eq _ _ _ _ R). unfold whole in *. cbn [a_objs]. rewrite (sget_map (renew_cached n w)), W. unfold option_map, renew_cached, renew. cbv [fst]. now rewrite Nat.eqb_refl.
  Qed.

  (** *** Ways in the document as it is now *)
  Definition alike_fields (x y : val) : Prop := exists h g fs ints jnts, x = VObj h fs ints /\ y = VObj g fs jnts /\ h_cls h = h_cls g.
  Lemma alike_ref x y s : alike_fields x y -> refers x s -> refers y s.
  Proof. intros (h & g & fs & ints & jnts & -> & -> & _) R. exact R. Qed.
  Lemma alike_noref x y : alike_fields x y -> no_reference x -> no_reference y.
  Proof. intros (h & g & fs & ints & jnts & -> & -> & _) R. exact R. Qed.
  Lemma grown_alike P h fs ints y : inner (h_cls h) -> grown P (VObj h fs ints) y -> alike_fields (VObj h fs ints) y /\ exists g jnts, y = VObj g fs jnts /\ h_cls g = h_cls h /\ h_place g = h_place h.
  Proof. intros IN G. apply grown_obj in G as (g & es & jnts & -> & A & B & _ & _ & _ & X & _). rewrite (X IN). split; [exists h, g, fs, ints, jnts; auto|exists g, jnts; auto]. Qed.
  Lemma way_grown u v0 v P c : inner c -> grown P v0 v -> forall seen o l, way abs_uri win_uri u v0 c seen o l -> forall o', alike_fields o o' ->
    exists m, way abs_uri win_uri u v c seen o' m /\ Forall2 alike_fields l m.
  Proof.
    intros IN G seen o l H. induction H as [seen o NO|seen o s h fs ints R (ts & J & RC) C I|seen o s h fs ints l R (ts & J & RC) C NI W IH]; intros o' A.
    - exists [o']. split; [apply way_end; eapply alike_noref; eauto|repeat constructor; auto].
    - destruct (grown_reach _ _ _ _ _ RC Logic.I G) as (x & RX & GX). rewrite <- C in IN. destruct (grown_alike _ _ _ _ _ IN GX) as (AX & g & jnts & -> & CG & PG).
      exists [o']. split; [|repeat constructor; auto]. eapply way_again; [eapply alike_ref; eauto|exists ts; eauto|congruence|congruence].
    - destruct (grown_reach _ _ _ _ _ RC Logic.I G) as (x & RX & GX). pose proof IN as IN'. rewrite <- C in IN'. destruct (grown_alike _ _ _ _ _ IN' GX) as (AX & g & jnts & -> & CG & PG).
      destruct (IH _ AX) as (m & WM & FM). exists (o' :: m). split; [|constructor; auto]. eapply way_next; [eapply alike_ref; eauto|exists ts; eauto|congruence|congruence|rewrite PG; exact WM].
  Qed.
  (** Following a way of the document changes nothing else. *)
  Lemma follow_way u n a v c : holds u n a v -> forall seen o l, way abs_uri win_uri u v c seen o l -> forall steps result r f a', ref_of o = Ok r ->
    follow_in steps c a result (map (cons (str_of_nat n)) seen) r = (a', Ok f) -> a' = a /\ merge_all result (map (mark n) (tl l)) = Ok f.
  Proof.
    intros (FA & R & W) seen o l H. induction H as [seen o NO|seen o s h fs ints RF (ts & J & RC) C I|seen o s h fs ints l RF (ts & J & RC) C NI WY IH]; intros steps result r f a' RO E.
    - apply ref_of_none in NO. rewrite NO in RO. injection RO as <-. destruct steps; cbn in E; injection E as <- <-; auto.
    - pose proof (proj1 RF) as NS. apply ref_of_some in RF. rewrite RF in RO. injection RO as <-. destruct steps as [|steps]; [discriminate E|]. cbn [M_Prepare.follow_in] in E.
      assert (NF : exists fl, fuel = S fl) by (destruct fuel as [|fl]; [discriminate E|eauto]). destruct NF as (fl & NF).
      assert (SV : solve fuel a (@Some str s) (Some c) = (a, Ok (n, VObj h fs ints))) by (rewrite NF; exact (c43_whole abs_uri win_uri fetch (parse_listing fetch) conv as_given fl a (Some c) s u n v ts (VObj h fs ints) NS J W RC Logic.I)).
      rewrite SV in E. cbn [mark] in E. cbn [same_class h_cls] in E. rewrite <- C, cls_eqb_refl in E. cbn [negb] in E.
      assert (V : visited (map (cons (str_of_nat n)) seen) (VObj (Head (h_cls h) (str_of_nat n :: h_place h) (h_parent h) (h_keys h)) fs ints) = true) by (apply visited_spec; cbn [h_place]; now apply in_map).
      rewrite V in E. injection E as <- <-. auto.
    - pose proof (proj1 RF) as NS. apply ref_of_some in RF. rewrite RF in RO. injection RO as <-. destruct steps as [|steps]; [discriminate E|]. cbn [M_Prepare.follow_in] in E.
      assert (NF : exists fl, fuel = S fl) by (destruct fuel as [|fl]; [discriminate E|eauto]). destruct NF as (fl & NF).
      assert (SV : solve fuel a (@Some str s) (Some c) = (a, Ok (n, VObj h fs ints))) by (rewrite NF; exact (c43_whole abs_uri win_uri fetch (parse_listing fetch) conv as_given fl a (Some c) s u n v ts (VObj h fs ints) NS J W RC Logic.I)).
      rewrite SV in E. cbn [mark] in E. cbn [same_class h_cls] in E. rewrite <- C, cls_eqb_refl in E. cbn [negb] in E.
      destruct (visited _ _) eqn:V.
      { exfalso. apply visited_spec in V. cbn [h_place] in V. apply in_map_iff in V as (p & P1 & P2). injection P1 as ->. contradiction. }
      destruct (merge result _ []) as [r1|e] eqn:M; cbn [bind] in E; [|discriminate E]. destruct (ref_of _) as [r2|e] eqn:R2 in E; cbn [bind] in E; [|discriminate E].
      rewrite C in E. cbn [place_in List.app h_place] in E. apply (IH steps r1 r2 f a') in E as (-> & MA); [|exact R2].
      split; [reflexivity|]. cbn [tl]. assert (exists l', l = VObj h fs ints :: l') as (l' & ->) by (inversion WY; eauto). cbn [tl] in MA. cbn [map merge_all mark]. rewrite M. exact MA.
  Qed.
  (** What is known of the object made of those on the way *)
  Definition made_of (c : cls) (l : list val) (f : val) : Prop :=
    exists m pl f0, Forall2 alike_fields l m /\ fresh c pl = Ok f0 /\ merge_all f0 m = Ok f /\ Forall (proper c) m.
  Lemma way_proper u v c : deep v -> forall seen o l, way abs_uri win_uri u v c seen o l -> deep o -> is_class c o -> Forall (fun x => deep x /\ is_class c x) l.
  Proof.
    intros D seen o l H. induction H as [seen o NO|seen o s h fs ints RF P C I|seen o s h fs ints l RF (ts & J & RC) C NI WY IH]; intros DO CO; try (constructor; auto; fail).
    constructor; [auto|]. apply IH; [eapply deep_reach; eauto|]. exists h, fs, ints. auto.
  Qed.
  Lemma final_made u n a v pl h fs ints l f a' : holds u n a v -> deep (VObj h fs ints) -> way abs_uri win_uri u v (h_cls h) [h_place h] (VObj h fs ints) l ->
    merge_refs_in a pl (VObj h fs ints) = (a', Ok f) -> made_of (h_cls h) l f.
  Proof.
    intros HO D WY E. pose proof HO as ((_ & _ & AD) & R & _). unfold M_Prepare.merge_refs_in in E. rewrite R in E.
    destruct (fresh (h_cls h) pl) as [f0|e] eqn:F; cbn [bind] in E; [|discriminate E]. destruct (merge f0 (VObj h fs ints) []) as [r1|e] eqn:M; cbn [bind] in E; [|discriminate E].
    destruct (ref_of (VObj h fs ints)) as [r2|e] eqn:RO; cbn [bind] in E; [|discriminate E]. cbn [mark place_in h_place] in E.
    destruct (follow_way _ _ _ _ _ HO _ _ _ WY fuel r1 r2 f a' RO E) as (_ & MA).
    pose proof (way_proper _ _ _ (ad_root _ AD _ _ R) _ _ _ WY D (ex_intro _ h (ex_intro _ fs (ex_intro _ ints (conj eq_refl eq_refl))))) as PR.
    assert (exists l', l = VObj h fs ints :: l') as (l' & ->) by (inversion WY; eauto). cbn [tl] in MA.
    exists (VObj h fs ints :: map (mark n) l'), pl, f0. inversion PR as [|? ? _ PL]; subst. split; [|split; [exact F|split; [cbn [merge_all]; rewrite M; exact MA|]]].
    - constructor; [exists h, h, fs, ints, ints; auto|]. clear - PL. induction PL as [|x l (D & h' & fs' & ints' & -> & C) PL IH]; constructor; auto. cbn [mark]. do 5 eexists. split; [reflexivity|]. split; [reflexivity|]. reflexivity.
    - constructor; [now apply deep_proper|]. apply Forall_map. eapply Forall_impl; [|exact PL]. intros x (DX & g & gs & gnts & -> & C). pose proof (mark_deep n _ DX) as DM. cbn [mark] in *. apply deep_proper in DM. cbn [h_cls] in DM. rewrite <- C. exact DM.
  Qed.

  (** *** The scan *)
  Lemma pointer_tokens ts : tl (jp_split (Some (rfc_pointer (lit "#") ts))) = ts. Proof. now rewrite split_hash. Qed.
  Lemma grown_class P h fs ints y : grown P (VObj h fs ints) y -> exists g es jnts, y = VObj g es jnts /\ h_cls g = h_cls h /\ h_place g = h_place h.
  Proof. intro G. apply grown_obj in G as (g & es & jnts & -> & A & B & _). eauto 6. Qed.
  Lemma merge_at_ok u n a v ts h fs ints a' : holds u n a v -> is_obj v -> reach [] v ts (VObj h fs ints) -> merge_at a ts = (a', Ok tt) ->
    exists v', holds u n a' v' /\ is_obj v' /\ grown (fun us => us = ts) v v' /\ (forall cc, shaped cc v -> shaped cc v') /\
      (h_cls h = CParameter \/ h_cls h = CResponse -> exists k jnts f, reach [] v' ts (VObj k fs jnts) /\ sget (lit "final") jnts = Some f /\
         forall l, way abs_uri win_uri u v (h_cls h) [h_place h] (VObj h fs ints) l -> made_of (h_cls h) l f).
  Proof.
    intros HO OV R E. pose proof HO as (FA & RT & WH). unfold M_Prepare.merge_at, root_of in E. rewrite RT in E. cbn [bind] in E. rewrite (resolve_reach _ _ _ _ R) in E. cbn [bind] in E.
    pose proof FA as (_ & _ & AD). pose proof (ad_root _ AD _ _ RT) as DV. pose proof (deep_reach _ _ _ R DV) as DO.
    destruct (merge_obj_in a (VObj h fs ints)) as [a1 [x|e]] eqn:M; [|discriminate E]. injection E as <-.
    destruct (merge_obj_fine _ _ _ _ _ _ FA DO M) as (K & X). destruct (X x eq_refl) as (DX & (k & es & jnts & -> & CK) & GR & FI).
    pose proof (holds_kept _ _ _ _ _ HO K) as H1. assert (WV : wfv v) by (destruct v; try contradiction; now apply deep_wfv).
    destruct (put_deep v ts h fs ints k es jnts R DV WV DX CK) as (D' & S' & _).
    assert (G : grown (fun us => us = ts) v (put_at ts (VObj k es jnts) v)).
    { destruct GR as [(MC & GR)|GR].
      - eapply grown_mono; [|eapply put_grown; [exact R|exact GR|eapply clear_merged; eauto]]. intros us (vs & -> & ->). apply app_nil_r.
      - rewrite GR, (put_back _ _ _ R WV). apply grown_same. }
    assert (OV' : is_obj (put_at ts (VObj k es jnts) v)) by (destruct v; try contradiction; apply grown_class in G as (? & ? & ? & -> & _); exact I).
    exists (put_at ts (VObj k es jnts) v). split; [eapply holds_set; eauto|]. split; [exact OV'|]. split; [exact G|]. split; [exact S'|].
    intro C. destruct (FI C) as (f & MR & EQ). injection EQ as -> -> ->. do 2 eexists. exists f. split; [exact (put_reach _ _ _ _ R)|]. split; [apply sget_sset_same'|].
    intros l WY. exact (final_made u n a v _ h fs ints l f _ HO DO WY MR).
  Qed.
  Lemma grown_final P h fs ints o' : grown P (VObj h fs ints) o' -> ~ P [] -> exists g es jnts, o' = VObj g es jnts /\ jnts = ints.
  Proof. intros G NP. apply grown_obj in G as (g & es & jnts & -> & _ & _ & _ & _ & _ & _ & _ & [[_ X]|X]); [contradiction|]. eauto. Qed.
  Lemma merge_each_ok u n v0 : forall objs a v a', holds u n a v -> is_obj v ->
    (forall p o, In (p, o) objs -> exists ts, p = rfc_pointer (lit "#") ts /\ reach [] v0 ts o /\ is_obj o) -> NoDup (map fst objs) ->
    grown (fun _ => True) v0 v -> merge_each a objs = (a', Ok tt) ->
    exists v', holds u n a' v' /\ is_obj v' /\ grown (fun us => In (rfc_pointer (lit "#") us) (map fst objs)) v v' /\ (forall cc, shaped cc v -> shaped cc v') /\
      forall ts h fs ints, In (rfc_pointer (lit "#") ts, VObj h fs ints) objs -> reach [] v0 ts (VObj h fs ints) -> h_cls h = CParameter \/ h_cls h = CResponse ->
        exists k jnts f, reach [] v' ts (VObj k fs jnts) /\ sget (lit "final") jnts = Some f /\
          forall l, way abs_uri win_uri u v0 (h_cls h) [h_place h] (VObj h fs ints) l -> made_of (h_cls h) l f.
  Proof.
    induction objs as [|[p o] objs IH]; intros a v a' HO OV IN ND G E; cbn [M_Prepare.merge_each] in E.
    { injection E as <-. exists v. split; [exact HO|]. split; [exact OV|]. split; [apply grown_same|]. split; [auto|]. intros ts h fs ints []. }
    destruct (IN p o (or_introl eq_refl)) as (ts & -> & R0 & OO). rewrite pointer_tokens in E. destruct o as [| | | | | | |h fs ints]; try contradiction.
    destruct (grown_reach _ _ _ _ _ R0 OO G) as (o1 & R1 & G1). pose proof (grown_class _ _ _ _ _ G1) as (h1 & fs1 & ints1 & -> & C1 & P1).
    destruct (merge_at a ts) as [a1 [[]|e]] eqn:M; [|discriminate E].
    destruct (merge_at_ok _ _ _ _ _ _ _ _ _ HO OV R1 M) as (v1 & H1 & OV1 & GV1 & S1 & F1).
    cbn [map fst] in ND. inversion ND as [|? ? NI ND']; subst.
    assert (IN' : forall p o, In (p, o) objs -> exists ts, p = rfc_pointer (lit "#") ts /\ reach [] v0 ts o /\ is_obj o) by (intros q w X; apply IN; now right).
    assert (GT : grown (fun _ => True) v0 v1) by (eapply grown_mono; [|eapply grown_trans; [exact G|exact GV1]]; auto).
    destruct (IH a1 v1 a' H1 OV1 IN' ND' GT E) as (v' & H' & OV' & G' & S' & F').
    exists v'. split; [exact H'|]. split; [exact OV'|]. split; [|split; [auto|]].
    { eapply grown_mono; [|eapply grown_trans; [exact GV1|exact G']]. intros us [->|X]; [now left|now right]. }
    intros ts2 h2 fs2 ints2 [X|X] R2 C2; [|eauto]. pose proof (f_equal fst X) as E1. pose proof (f_equal snd X) as E2. cbv beta iota delta [fst snd] in E1, E2. clear X. injection E2 as <- <- <-. apply pointer_inj in E1; [|discriminate]. subst ts2.
    assert (FS : fs1 = fs).
    { assert (IC : inner (h_cls h)) by (destruct C2 as [C2|C2]; [left; exact C2|right; left; exact C2]).
      destruct (grown_alike _ _ _ _ _ IC G1) as (_ & g & jnts & Y & _). congruence. }
    subst fs1. destruct (F1 ltac:(rewrite C1; exact C2)) as (k & jnts & f & RK & FK & WK).
    destruct (grown_reach _ _ _ _ _ RK Logic.I G') as (o' & RO' & GO').
    assert (NP : ~ In (rfc_pointer (lit "#") (ts ++ [])) (map fst objs)) by (rewrite app_nil_r; exact NI).
    assert (CK : h_cls k = h_cls h).
    { destruct (grown_reach _ _ _ _ _ R1 Logic.I GV1) as (o2 & RO2 & GO2). rewrite (reach_fun _ _ _ RK _ RO2) in GO2. apply grown_class in GO2 as (? & ? & ? & Y & Z & _). injection Y as <- _ _. congruence. }
    assert (IK : inner (h_cls k)) by (rewrite CK; destruct C2 as [C2|C2]; [left; exact C2|right; left; exact C2]).
    destruct (grown_alike _ _ _ _ _ IK GO') as (_ & g & gnts & -> & _). destruct (grown_final _ _ _ _ _ GO' NP) as (? & ? & ? & Y & ->). injection Y as _ _ ->.
    exists g, jnts, f. split; [exact RO'|]. split; [exact FK|]. intros l WY.
    assert (IC : inner (h_cls h)) by (rewrite <- CK; exact IK).
    destruct (grown_alike _ _ _ _ _ IC G1) as (AL & _). destruct (way_grown _ _ _ _ _ IC G _ _ _ WY _ AL) as (m & WM & FM). rewrite <- C1, <- P1 in WM.
    destruct (WK _ WM) as (m' & pl & f0 & A & B & C & D). rewrite C1 in *. exists m', pl, f0. split; [|auto]. clear - FM A. revert m' A. induction FM as [|x y l m XY FM IH]; intros m' A; inversion A as [|? z ? m2 YZ A']; subst; constructor; [|auto].
    destruct XY as (x1 & x2 & x3 & x4 & x5 & -> & -> & X6), YZ as (y1 & y2 & y3 & y4 & y5 & Y1 & -> & Y6). injection Y1 as <- <- <-. do 5 eexists. split; [reflexivity|]. split; [reflexivity|]. congruence.
  Qed.
End Scan.
