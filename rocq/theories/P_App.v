(** Proofs about loading documents and resolving references. *)
From Coq Require Import Lia.
From Verif Require Import PyBase PyFacts PyInt PyJson M_JsonPtr S_JsonPtr P_JsonPtr M_Url P_Url P_Op M_SpecVal M_Parse M_SpecTree M_Merge M_MergeRef S_Parse S_SpecTree P_SpecBase P_Parse P_SpecTree P_Compare P_MergeRef T_SpecTree M_App S_App.
Close Scope Q_scope.

(** ** NormalizeRef *)
Definition norm_list url := fix go l := match l with
  | [] => Ok [] | x :: l => do y <- norm_refs url x; do l' <- go l; Ok (y :: l') end.
Definition norm_dict url := fix go (d : sdict val) := match d with
  | [] => Ok [] | (k, x) :: d => do y <- norm_refs url x; do d' <- go d; Ok ((k, y) :: d') end.
Lemma norm_list_eq url l : norm_refs url (VList l) = do l <- norm_list url l; Ok (VList l).
Proof. reflexivity. Qed.
Lemma norm_dict_eq url d : norm_refs url (VDict d) = do l <- norm_dict url d; Ok (VDict l).
Proof. reflexivity. Qed.
Lemma norm_obj_eq url h fs ints : norm_refs url (VObj h fs ints) =
  do fs <- norm_dict url fs;
  if refers_by (h_cls h) then
    match sget (lit "$ref") fs with
    | Some r => do r <- norm_field url r; update_field (lit "$ref") r (VObj h fs ints)
    | None => Err AttributeError
    end
  else Ok (VObj h fs ints).
Proof. reflexivity. Qed.
Lemma refers_by_ok c : refers_by c = true <-> ref_class c.
Proof. unfold ref_class. cbn [In]. destruct c; cbn; intuition (auto; discriminate). Qed.
Lemma norm_list_ok url l : forall m, norm_list url l = Ok m -> Forall2 (fun x y => norm_refs url x = Ok y) l m.
Proof.
  induction l as [|x l IH]; intros m E; cbn in E.
  - injection E as <-. constructor.
  - apply bind_ok in E as (y & Y & E). apply bind_ok in E as (l' & L & E). injection E as <-. constructor; auto.
Qed.
Lemma norm_dict_ok url d : forall e, norm_dict url d = Ok e -> Forall2 (fun kx ky => fst kx = fst ky /\ norm_refs url (snd kx) = Ok (snd ky)) d e.
Proof.
  induction d as [|[k x] d IH]; intros e E; cbn in E.
  - injection E as <-. constructor.
  - apply bind_ok in E as (y & Y & E). apply bind_ok in E as (l' & L & E). injection E as <-. constructor; auto.
Qed.
Lemma Forall2_sset {P : (str * val) -> (str * val) -> Prop} (f : str) (y0 y : val) fs fs' :
  NoDup (map fst fs') -> sget f fs' = Some y0 ->
  Forall2 (fun kx ky => fst kx = fst ky /\ (fst kx <> f -> P kx ky) /\ (fst kx = f -> snd ky = y0 -> P kx (fst ky, y))) fs fs' ->
  Forall2 (fun kx ky => fst kx = fst ky /\ P kx ky) fs (sset f y fs').
Proof.
  intros N G F. induction F as [|[k x] [k' z] fs fs' (K & A & B) F IH]; [discriminate G|]. cbn [fst snd] in *. subst k'.
  inversion N as [|? ? N1 N2]; subst. rewrite sget_cons in G. cbn [dset]. destruct (str_eqb f k) eqn:E.
  - injection G as ->. apply str_eqb_eq in E as <-. constructor; [cbn; auto|].
    clear IH. assert (Q : forall k', In k' (map fst fs') -> k' <> f) by (intros k' I ->; contradiction).
    clear - F Q. induction F as [|a b l m (K & A & B) F IH]; constructor.
    + split; [exact K|]. apply A. rewrite K. apply Q. now left.
    + apply IH. intros k' I. apply Q. now right.
  - apply str_eqb_neq in E. constructor; [cbn; auto|]. now apply IH.
Qed.
Lemma norm_obj_obj url h fs ints y : norm_refs url (VObj h fs ints) = Ok y -> is_obj y.
Proof.
  rewrite norm_obj_eq. intro E. apply bind_ok in E as (gs & _ & E). destruct (refers_by (h_cls h)); [|injection E as <-; exact I].
  destruct (sget (lit "$ref") gs); [|discriminate E]. apply bind_ok in E as (r & _ & E). unfold update_field in E.
  destruct (smem (lit "$ref") gs); [injection E as <-; exact I|]. destruct (smem (lit "$ref") ints); [injection E as <-; exact I|discriminate E].
Qed.
Lemma norm_plain_back url x y : not_container y -> norm_refs url x = Ok y -> x = y.
Proof.
  intros N E. destruct x; try (cbn in E; congruence).
  - rewrite norm_list_eq in E. apply bind_ok in E as (m & _ & E). injection E as <-. destruct N.
  - rewrite norm_dict_eq in E. apply bind_ok in E as (m & _ & E). injection E as <-. destruct N.
  - apply norm_obj_obj in E. destruct y; try destruct E. destruct N.
Qed.
Lemma norm_ok url : forall N v v', vdepth v < N -> wfv v -> norm_refs url v = Ok v' -> normal url v v'.
Proof.
  induction N as [|N IH]; intros v v' D W E; [lia|]. destruct v as [|b|z|q|s|l|d|h fs ints].
  1-5: cbn in E; injection E as <-; constructor; exact I.
  - rewrite norm_list_eq in E. apply bind_ok in E as (m & M & E). injection E as <-. constructor.
    apply norm_list_ok in M. inversion W as [| | | | |? FW| |]; subst. rewrite Forall_forall in FW.
    eapply Forall2_weaken_In; [|exact M]. intros x y I1 I2 X. apply IH; auto. pose proof (vldepth_In l x I1). change (vdepth (VList l)) with (S (vldepth l)) in D. lia.
  - rewrite norm_dict_eq in E. apply bind_ok in E as (m & M & E). injection E as <-. constructor.
    apply norm_dict_ok in M. inversion W as [| | | | | |? _ FW|]; subst. rewrite Forall_forall in FW.
    eapply Forall2_weaken_In; [|exact M]. intros [k x] [k' y] I1 I2 (K & X). cbn [fst snd] in *. split; [exact K|]. apply IH; auto.
    + pose proof (vddepth_In d k x I1). change (vdepth (VDict d)) with (S (vddepth d)) in D. lia.
    + now apply FW in I1.
  - rewrite norm_obj_eq in E. apply bind_ok in E as (gs & M & E). apply norm_dict_ok in M.
    inversion W as [| | | | | | |? ? ? NM FW]; subst. rewrite Forall_forall in FW.
    assert (R : Forall2 (fun kx ky => fst kx = fst ky /\ normal url (snd kx) (snd ky) /\ norm_refs url (snd kx) = Ok (snd ky)) fs gs).
    { eapply Forall2_weaken_In; [|exact M]. intros [k x] [k' y] I1 I2 (K & X). cbn [fst snd] in *. repeat split; [exact K| |exact X]. apply IH; auto.
      - pose proof (vddepth_In fs k x I1). change (vdepth (VObj h fs ints)) with (S (vddepth fs)) in D. lia.
      - now apply FW in I1. }
    destruct (refers_by (h_cls h)) eqn:RB.
    + apply refers_by_ok in RB. destruct (sget (lit "$ref") gs) as [r|] eqn:G; [|discriminate E].
      apply bind_ok in E as (r' & NF & E). cbn [update_field] in E.
      assert (SM : smem (lit "$ref") gs = true) by (rewrite smem_sget, G; reflexivity). rewrite SM in E. injection E as <-.
      assert (NG : NoDup (map fst gs)).
      { assert (map fst gs = map fst fs) as ->; [|rewrite NM; apply fields_nodup].
        clear - R. induction R as [|a b l m (K & _) _ IHR]; cbn; [reflexivity|congruence]. }
      constructor; cbn; auto.
      * intros k K. split; [intros [X|X]; [congruence|exact X]|auto].
      * eapply (Forall2_sset (P := fun kx ky => normal_field url (h_cls h) (fst kx) (snd kx) (snd ky))); eauto.
        eapply Forall2_weaken; [|exact R]. cbn. intros [k x] [k' y] (K & X & Y). cbn [fst snd] in *. repeat split; [exact K|..].
        -- intro NE. apply nf_other; [tauto|exact X].
        -- intros -> ->. apply nf_ref; [exact RB|].
           destruct r; cbn [norm_field] in NF; try discriminate NF.
           ++ injection NF as <-. apply norm_plain_back in Y; [|exact I]. subst x. constructor.
           ++ apply bind_ok in NF as (t & T & NF). injection NF as <-. apply norm_plain_back in Y; [|exact I]. subst x. now constructor.
    + injection E as <-. constructor; auto; [tauto|]. eapply Forall2_weaken; [|exact R]. cbn. intros kx ky (K & X & _). split; [exact K|].
      apply nf_other; [|exact X]. intros (A & _). apply refers_by_ok in A. congruence.
Qed.
Lemma normal_wfv url : forall N v v', vdepth v < N -> wfv v -> normal url v v' -> wfv v'.
Proof.
  induction N as [|N IH]; intros v v' D W E; [lia|]. inversion E as [? NC|l m F|d e F|h h' fs fs' ints C _ _ _ F]; subst; [exact W|..].
  - constructor. inversion W as [| | | | |? FW| |]; subst. rewrite Forall_forall in *. intros y Y. destruct (Forall2_In_r _ _ _ _ F Y) as (x & X & R).
    apply (IH x); auto. pose proof (vldepth_In l x X). change (vdepth (VList l)) with (S (vldepth l)) in D. lia.
  - inversion W as [| | | | | |? ND FW|]; subst. constructor.
    + assert (map fst e = map fst d) as ->; [|exact ND]. clear - F. induction F as [|a b l m (K & _) _ IHR]; cbn; [reflexivity|congruence].
    + rewrite Forall_forall in *. intros y Y. destruct (Forall2_In_r _ _ _ _ F Y) as ([k x] & X & K & R).
      apply (IH x); auto; [|apply (FW (k, x) X)]. pose proof (vddepth_In d k x X). change (vdepth (VDict d)) with (S (vddepth d)) in D. lia.
  - inversion W as [| | | | | | |? ? ? ND FW]; subst. constructor.
    + rewrite C, <- ND. clear - F. induction F as [|a b l m (K & _) _ IHR]; cbn; [reflexivity|congruence].
    + rewrite Forall_forall in *. intros y Y. destruct (Forall2_In_r _ _ _ _ F Y) as ([k x] & X & K & R). cbn [fst snd] in *.
      pose proof (vddepth_In fs k x X). change (vdepth (VObj h fs ints)) with (S (vddepth fs)) in D. pose proof (FW (k, x) X) as WX. cbn [snd] in WX.
      inversion R as [? ? ? _ CR|? ? ? ? _ NX]; subst.
      * inversion CR; subst; constructor.
      * apply (IH x); auto. lia.
Qed.
Lemma norm_wfv url v v' : wfv v -> norm_refs url v = Ok v' -> wfv v'.
Proof. intros W E. eapply (normal_wfv url (S (vdepth v))); eauto. eapply (norm_ok url (S (vdepth v))); eauto. Qed.
Lemma norm_is_obj url v v' : is_obj v -> norm_refs url v = Ok v' -> is_obj v'.
Proof. intros O E. destruct v; try destruct O. now apply norm_obj_obj in E. Qed.

Lemma norm_list_err url l e : norm_list url l = Err e -> exists i x, nth_error l i = Some x /\ norm_refs url x = Err e.
Proof.
  induction l as [|x l IH]; intro E; [discriminate E|].
  change (norm_list url (x :: l)) with (do y <- norm_refs url x; do l' <- norm_list url l; Ok (y :: l')) in E.
  destruct (norm_refs url x) as [y|e'] eqn:X; cbn [bind] in E.
  - destruct (norm_list url l) as [l'|e'] eqn:L; cbn [bind] in E; [discriminate E|].
    injection E as ->. destruct (IH eq_refl) as (i & z & Z1 & Z2). exists (S i), z. auto.
  - injection E as ->. exists 0, x. auto.
Qed.
Lemma norm_dict_err url d e : norm_dict url d = Err e -> exists k x, In (k, x) d /\ norm_refs url x = Err e.
Proof.
  induction d as [|[k x] d IH]; intro E; [discriminate E|].
  change (norm_dict url ((k, x) :: d)) with (do y <- norm_refs url x; do d' <- norm_dict url d; Ok ((k, y) :: d')) in E.
  destruct (norm_refs url x) as [y|e'] eqn:X; cbn [bind] in E.
  - destruct (norm_dict url d) as [l'|e'] eqn:L; cbn [bind] in E; [discriminate E|].
    injection E as ->. destruct (IH eq_refl) as (k' & z & Z1 & Z2). exists k', z. split; [now right|auto].
  - injection E as ->. exists k, x. split; [now left|auto].
Qed.
Lemma ref_field c : ref_class c -> exists df, sget (lit "$ref") (t_fields c) = Some df.
Proof. unfold ref_class. cbn [In]. intros [<-|[<-|[<-|[<-|[]]]]]; eexists; vm_compute; reflexivity. Qed.
Lemma drel_fst (R : val -> val -> Prop) d e : Forall2 (fun kx ky => fst kx = fst ky /\ R (snd kx) (snd ky)) d e -> forall (k : str) y, sget k e = Some y -> exists x, sget k d = Some x /\ R x y.
Proof.
  induction 1 as [|[k x] [k' y] d e (K & X) F IH]; intros k0 y0 G; [discriminate G|]. cbn [fst snd] in *. subst k'.
  rewrite sget_cons in *. destruct (str_eqb k0 k); [injection G as <-; eauto|auto].
Qed.
Lemma drel_fst_l (R : val -> val -> Prop) d e : Forall2 (fun kx ky => fst kx = fst ky /\ R (snd kx) (snd ky)) d e -> forall (k : str) x, sget k d = Some x -> exists y, sget k e = Some y /\ R x y.
Proof.
  induction 1 as [|[k x] [k' y] d e (K & X) F IH]; intros k0 y0 G; [discriminate G|]. cbn [fst snd] in *. subst k'.
  rewrite sget_cons in *. destruct (str_eqb k0 k); [injection G as <-; eauto|auto].
Qed.
Lemma norm_err url e : forall N v, vdepth v < N -> wfv v -> norm_refs url v = Err e ->
  exists ts h fs ints r, reach [] v ts (VObj h fs ints) /\ ref_class (h_cls h) /\ sget (lit "$ref") fs = Some r /\ bad_ref url r e.
Proof.
  induction N as [|N IH]; intros v D W E; [lia|]. destruct v as [|b|z|q|s|l|d|h fs ints]; try (cbn in E; discriminate E).
  - rewrite norm_list_eq in E. destruct (norm_list url l) as [m|e'] eqn:M; cbn in E; [discriminate E|]. injection E as ->.
    apply norm_list_err in M as (i & x & X & Y). inversion W as [| | | | |? FW| |]; subst. rewrite Forall_forall in FW.
    pose proof (nth_error_In _ _ X) as I1. destruct (IH x) as (ts & h & fs & ints & r & R & Q); auto.
    + pose proof (vldepth_In l x I1). change (vdepth (VList l)) with (S (vldepth l)) in D. lia.
    + exists (str_of_nat i :: ts), h, fs, ints, r. split; [econstructor; eauto|exact Q].
  - rewrite norm_dict_eq in E. destruct (norm_dict url d) as [m|e'] eqn:M; cbn in E; [discriminate E|]. injection E as ->.
    apply norm_dict_err in M as (k & x & X & Y). inversion W as [| | | | | |? ND FW|]; subst. rewrite Forall_forall in FW.
    destruct (IH x) as (ts & h & fs & ints & r & R & Q); auto.
    + pose proof (vddepth_In d k x X). change (vdepth (VDict d)) with (S (vddepth d)) in D. lia.
    + apply (FW (k, x) X).
    + exists (k :: ts), h, fs, ints, r. split; [econstructor; [apply In_sget; eauto|exact R]|exact Q].
  - rewrite norm_obj_eq in E. inversion W as [| | | | | | |? ? ? ND FW]; subst. rewrite Forall_forall in FW.
    assert (NF : NoDup (map fst fs)) by (rewrite ND; apply fields_nodup).
    destruct (norm_dict url fs) as [m|e'] eqn:M; cbn [bind] in E.
    + destruct (refers_by (h_cls h)) eqn:RB; [|discriminate E]. apply refers_by_ok in RB. apply norm_dict_ok in M.
      destruct (ref_field _ RB) as (df & DF).
      assert (K : In (lit "$ref") (map fst fs)) by (rewrite ND; apply sget_Some_key; eauto). apply sget_Some_key in K as (r0 & G0).
      destruct (drel_fst_l (fun x y => norm_refs url x = Ok y) _ _ M _ _ G0) as (r & G & R). rewrite G in E.
      exists [], h, fs, ints, r0. split; [constructor|]. split; [exact RB|]. split; [exact G0|].
      destruct (norm_field url r) as [r'|e'] eqn:NR; cbn [bind] in E.
      * unfold update_field in E. rewrite smem_sget, G in E. discriminate E.
      * injection E as ->. destruct r; cbn [norm_field] in NR; try discriminate NR.
        all: try (apply norm_plain_back in R; [|exact I]; subst r0; cbn; congruence).
        -- apply norm_plain_back in R; [|exact I]; subst r0; cbn. destruct (normalize_jr s (Some url)); cbn in NR; congruence.
        -- destruct r0; try (cbn in R; discriminate R); cbn; congruence.
        -- destruct r0; try (cbn in R; discriminate R); cbn; congruence.
        -- destruct r0; try (cbn in R; discriminate R); cbn; congruence.
    + injection E as ->. apply norm_dict_err in M as (k & x & X & Y).
      destruct (IH x) as (ts & h' & fs' & ints' & r & R & Q); auto.
      * pose proof (vddepth_In fs k x X). change (vdepth (VObj h fs ints)) with (S (vddepth fs)) in D. lia.
      * apply (FW (k, x) X).
      * exists (k :: ts), h', fs', ints', r. split; [econstructor; [intros []|apply In_sget; eauto|exact R]|exact Q].
Qed.

(** ** The cache *)
Fixpoint first_match (d : sdict obj) (jp : str) : option (str * obj) :=
  match d with
  | [] => None
  | (k, o) :: d => if prefixb k jp then Some (k, o) else first_match d jp
  end.
Definition rest_tokens (k jp : str) : list str := tl (jp_split (Some (skipn (length k) jp))).
Lemma in_parts_first d jp : in_parts d jp =
  match first_match d jp with None => Ok None | Some (k, (n, v)) => do x <- resolve v (rest_tokens k jp); Ok (Some (n, x)) end.
Proof. induction d as [|[k [n v]] d IH]; [reflexivity|]. cbn [in_parts first_match]. destruct (prefixb k jp); [reflexivity|exact IH]. Qed.
Lemma first_match_In d jp k o : first_match d jp = Some (k, o) -> In (k, o) d /\ is_prefix k jp.
Proof.
  induction d as [|[k' o'] d IH]; cbn [first_match]; [discriminate|]. destruct (prefixb k' jp) eqn:P.
  - intro E. injection E as -> ->. split; [now left|]. now apply prefixb_spec in P.
  - intro E. apply IH in E as (A & B). split; [now right|exact B].
Qed.
Lemma first_match_None d jp : first_match d jp = None <-> forall k o, In (k, o) d -> ~ is_prefix k jp.
Proof.
  induction d as [|[k' o'] d IH]; cbn [first_match]; [split; [intros _ k o []|reflexivity]|]. destruct (prefixb k' jp) eqn:P.
  - split; [discriminate|]. intro H. exfalso. apply (H k' o'); [now left|]. now apply prefixb_spec.
  - rewrite IH. split.
    + intros H k o [E|X]; [|eauto]. injection E as -> ->. intro Q. apply prefixb_spec in Q. congruence.
    + intros H k o X. apply (H k o). now right.
Qed.
Lemma prefix_trans a b c : is_prefix a b -> is_prefix b c -> is_prefix a c.
Proof. intros (x & ->) (y & ->). exists (x ++ y). now rewrite app_assoc. Qed.
Lemma first_match_other d jp o q : prefixb jp q = false -> first_match (sset jp o d) q = first_match d q.
Proof.
  intro P. induction d as [|[k' o'] d IH]; cbn [first_match dset]; [now rewrite P|]. destruct (str_eqb jp k') eqn:EK.
  - apply str_eqb_eq in EK as <-. cbn [first_match]. now rewrite P.
  - cbn [first_match]. now rewrite IH.
Qed.
Lemma prefixb_refl s : prefixb s s = true.
Proof. rewrite <- (app_nil_r s) at 2. apply prefixb_app. Qed.
Lemma first_match_set d jp o : (forall k o', first_match d jp = Some (k, o') -> k <> jp) ->
  forall q k v, first_match d q = Some (k, v) -> first_match (sset jp o d) q = Some (k, v).
Proof.
  induction d as [|[k' o'] d IH]; intros H q k v E; [discriminate E|]. cbn [first_match dset] in *. destruct (str_eqb jp k') eqn:EK.
  - apply str_eqb_eq in EK as <-. exfalso. rewrite prefixb_refl in H. now apply (H jp o').
  - cbn [first_match]. destruct (prefixb k' q) eqn:PQ; [exact E|]. destruct (prefixb k' jp) eqn:PJ.
    + rewrite first_match_other; [exact E|]. destruct (prefixb jp q) eqn:P; [|reflexivity].
      apply prefixb_spec in P. apply prefixb_spec in PJ. assert (X : prefixb k' q = true) by (apply prefixb_spec; exact (prefix_trans _ _ _ PJ P)). congruence.
    + apply IH; auto.
Qed.
Lemma first_match_new d jp o : first_match d jp = None -> first_match (sset jp o d) jp = Some (jp, o).
Proof.
  induction d as [|[k' o'] d IH]; cbn [first_match dset]; [now rewrite prefixb_refl|]. destruct (prefixb k' jp) eqn:P; [discriminate|]. intro E.
  destruct (str_eqb jp k') eqn:EK.
  - apply str_eqb_eq in EK as <-. rewrite prefixb_refl in P. discriminate P.
  - cbn [first_match]. rewrite P. auto.
Qed.

(** What is known stays known, and is found by the same pointers. *)
Record extends (a a' : app) : Prop := {
  ex_whole : forall url o, whole a url o -> whole a' url o;
  ex_parts : forall url d, sget url (a_objs a) = Some (Parts d) -> exists d', sget url (a_objs a') = Some (Parts d') /\
             (forall k, In k (map fst d) -> In k (map fst d')) /\
             forall jp k o, first_match d jp = Some (k, o) -> first_match d' jp = Some (k, o);
  ex_root : a_root a' = a_root a;
  ex_old : a_old a' = a_old a;
  ex_loads : a_loads a <= a_loads a' }.
Lemma extends_refl a : extends a a.
Proof. constructor; auto. intros url d E. exists d. auto. Qed.
Lemma extends_trans a b c : extends a b -> extends b c -> extends a c.
Proof.
  intros X Y. constructor.
  - intros url o W. now apply (ex_whole _ _ Y), (ex_whole _ _ X).
  - intros url d E. apply (ex_parts _ _ X) in E as (d' & E & I1 & F). apply (ex_parts _ _ Y) in E as (d'' & E & I2 & G). exists d''. split; [exact E|]. split; [auto|]. intros jp k o Q. auto.
  - rewrite (ex_root _ _ Y). apply X.
  - rewrite (ex_old _ _ Y). apply X.
  - pose proof (ex_loads _ _ X). pose proof (ex_loads _ _ Y). lia.
Qed.
Lemma lookup_extends a a' url jp r : extends a a' -> lookup a url jp = r -> r <> Ok None -> lookup a' url jp = r.
Proof.
  intros X <-. unfold lookup. destruct (sget url (a_objs a)) as [[[n v]|d]|] eqn:G.
  - apply (ex_whole _ _ X) in G. unfold whole in G. now rewrite G.
  - apply (ex_parts _ _ X) in G as (d' & -> & _ & F). rewrite !in_parts_first. destruct (first_match d jp) as [[k [n v]]|] eqn:E.
    + now rewrite (F _ _ _ E).
    + intro Q. now elim Q.
  - intro Q. now elim Q.
Qed.
Lemma first_sget d jp k o : NoDup (map fst d) -> first_match d jp = Some (k, o) -> sget k d = Some o.
Proof. intros N E. apply first_match_In in E as (E & _). now apply In_sget. Qed.
Lemma skip_self (k : str) : skipn (length k) k = [].
Proof. now rewrite <- (app_nil_r k) at 2; rewrite skipn_app, skipn_all, Nat.sub_diag. Qed.
Lemma rest_self k : rest_tokens k k = [].
Proof. unfold rest_tokens. now rewrite skip_self. Qed.

Lemma store_extends a url jp o a' : sound a -> lookup a url jp = Ok None -> store a url jp o = Ok a' -> extends a a'.
Proof.
  intros SO L S. unfold store in S. unfold lookup in L. destruct (sget url (a_objs a)) as [[w|d]|] eqn:G; [discriminate S| |]; injection S as <-.
  - constructor; auto; cbn [a_objs a_root a_old a_loads]; [..|lia].
    + unfold whole. cbn [a_objs]. intros u o' W. destruct (str_eqb_spec u url) as [->|NE]; [congruence|]. now rewrite sget_sset_other.
    + intros u d' E. destruct (str_eqb_spec u url) as [->|NE].
      * rewrite G in E. injection E as <-. exists (sset jp o d). rewrite sget_sset_same. split; [reflexivity|]. split.
        -- intros k K. apply sget_Some_key. destruct (str_eqb_spec k jp) as [->|NK]; [rewrite sget_sset_same; eauto|]. rewrite sget_sset_other by exact NK. now apply sget_Some_key.
        -- apply first_match_set. intros k [n v] F ->. rewrite in_parts_first, F in L. rewrite rest_self in L. cbn in L.
           pose proof (first_sget _ _ _ _ (so_keys _ SO _ _ G) F) as E. destruct (so_part _ SO url jp n v) as (NV & _); [exists d; auto|]. destruct v; try discriminate L. now elim NV.
      * exists d'. rewrite sget_sset_other by exact NE. auto.
  - constructor; auto; cbn [a_objs a_root a_old a_loads]; [..|lia].
    + unfold whole. cbn [a_objs]. intros u o' W. destruct (str_eqb_spec u url) as [->|NE]; [congruence|]. now rewrite sget_sset_other.
    + intros u d' E. destruct (str_eqb_spec u url) as [->|NE]; [congruence|]. exists d'. rewrite sget_sset_other by exact NE. auto.
Qed.
Lemma store_sound a url jp v a' : sound a -> url <> [] -> v <> VNone -> store a url jp (a_loads a, v) = Ok a' -> sound a'.
Proof.
  intros SO NU NV S. unfold store in S. destruct (sget url (a_objs a)) as [[w|d]|] eqn:G; [discriminate S| |]; injection S as <-.
  - constructor; cbn [a_objs a_loads].
    + rewrite sget_sset_other by congruence. apply SO.
    + unfold whole. cbn [a_objs]. intros u n x W. destruct (str_eqb_spec u url) as [->|NE]; [rewrite sget_sset_same in W; discriminate W|]. rewrite sget_sset_other in W by exact NE.
      destruct (so_whole _ SO u n x W). split; [auto|lia].
    + unfold part_at. cbn [a_objs]. intros u k n x (d' & E & K). destruct (str_eqb_spec u url) as [->|NE].
      * rewrite sget_sset_same in E. injection E as <-. destruct (str_eqb_spec k jp) as [->|NK].
        -- rewrite sget_sset_same in K. injection K as <- <-. split; [exact NV|lia].
        -- rewrite sget_sset_other in K by exact NK. destruct (so_part _ SO url k n x); [exists d; auto|]. split; [auto|lia].
      * rewrite sget_sset_other in E by exact NE. destruct (so_part _ SO u k n x); [exists d'; auto|]. split; [auto|lia].
    + intros u d' E. destruct (str_eqb_spec u url) as [->|NE].
      * rewrite sget_sset_same in E. injection E as <-. apply sset_NoDup. now apply (so_keys _ SO url).
      * rewrite sget_sset_other in E by exact NE. now apply (so_keys _ SO u).
  - constructor; cbn [a_objs a_loads].
    + rewrite sget_sset_other by congruence. apply SO.
    + unfold whole. cbn [a_objs]. intros u n x W. destruct (str_eqb_spec u url) as [->|NE].
      * rewrite sget_sset_same in W. destruct (str_eqb jp _); [|discriminate W]; inversion W; subst n x. split; [exact NV|lia].
      * rewrite sget_sset_other in W by exact NE. destruct (so_whole _ SO u n x W). split; [auto|lia].
    + unfold part_at. cbn [a_objs]. intros u k n x (d' & E & K). destruct (str_eqb_spec u url) as [->|NE].
      * rewrite sget_sset_same in E. destruct (str_eqb jp _); [discriminate E|]. injection E as <-. rewrite sget_cons in K. destruct (str_eqb k jp); [|discriminate K].
        injection K as <- <-. split; [exact NV|lia].
      * rewrite sget_sset_other in E by exact NE. destruct (so_part _ SO u k n x); [exists d'; auto|]. split; [auto|lia].
    + intros u d' E. destruct (str_eqb_spec u url) as [->|NE].
      * rewrite sget_sset_same in E. destruct (str_eqb jp _); [discriminate E|]. injection E as <-. constructor; [intros []|constructor].
      * rewrite sget_sset_other in E by exact NE. now apply (so_keys _ SO u).
Qed.

(** ** Resolving *)
Section Resolving.
  Context (abs_uri win_uri : str -> str) (fetch : str -> res json).
  Context {old : Type} (parse_old : str -> json -> res old) (upgrade : old -> res val) (as_is : old -> val).
  Hypothesis kept_some : forall o, as_is o <> VNone.
  Hypothesis upgraded : forall o v, upgrade o = Ok v -> is_obj v.
  Notation split_ref := (jr_split abs_uri win_uri).
  Notation load := (load_obj fetch parse_old).
  Notation normed := (normalised upgrade as_is).
  Notation prep := (prepare_obj abs_uri win_uri upgrade as_is).
  Notation step := (resolve_step abs_uri win_uri fetch parse_old upgrade as_is).
  Notation solve := (resolvef abs_uri win_uri fetch parse_old upgrade as_is).
  Notation run := (calls abs_uri win_uri fetch parse_old upgrade as_is).

  Lemma load_obj_obj j p v ver : load j p = Ok (New v, ver) -> is_obj v.
  Proof.
    unfold load_obj. intro E. apply bind_ok in E as (x & _ & E). apply bind_ok in E as (w & _ & E).
    destruct (is_version w "1.2"); [apply bind_ok in E as (? & _ & E); discriminate E|].
    destruct (is_version w "2.0").
    - apply bind_ok in E as (y & Y & E). injection E as <- <-. apply parse_shape in Y as (? & ? & ? & ->). exact I.
    - destruct p; [|discriminate E]. destruct (no_version w); [|discriminate E]. apply bind_ok in E as (y & Y & E). injection E as <- <-. apply parse_shape in Y as (? & ? & ? & ->). exact I.
  Qed.
  Lemma normed_some a j p o ver url v : load j p = Ok (o, ver) -> normed a o url = Ok v -> v <> VNone.
  Proof.
    intros L E. unfold normalised in E. destruct (a_old a), o as [o|w]; try discriminate E.
    - apply bind_ok in E as (x & X & E). apply upgraded in X. pose proof (norm_is_obj _ _ _ X E). now intros ->.
    - injection E as <-. apply kept_some.
    - apply load_obj_obj in L. pose proof (norm_is_obj _ _ _ L E). now intros ->.
  Qed.
  Definition keeps (rec : app -> str -> app * res obj) : Prop := forall a r a' x, sound a -> rec a r = (a', x) -> extends a a' /\ sound a'.
  Lemma pre_keeps rec refs : keeps rec -> forall a a' x, sound a -> pre_resolve rec a refs = (a', x) -> extends a a' /\ sound a'.
  Proof.
    intro K. induction refs as [|r refs IH]; intros a a' x SO E; cbn [pre_resolve] in E.
    - injection E as <- _. split; [apply extends_refl|exact SO].
    - destruct (rec a r) as [a1 [[n ro]|e]] eqn:R; apply K in R as (X & S1); auto.
      + destruct (falsy ro); [injection E as <- _; auto|]. destruct (same_class CSchema ro); [|injection E as <- _; auto].
        apply IH in E as (Y & S2); auto. split; [eapply extends_trans; eauto|exact S2].
      + injection E as <- _. auto.
  Qed.
  Lemma prep_keeps rec a o jref url jp a' r : keeps rec -> sound a -> split_ref jref = Ok (url, jp) -> url <> [] ->
    lookup a url jp = Ok None -> (forall v, normed a o url = Ok v -> v <> VNone) -> prep rec a o jref = (a', r) ->
    extends a a' /\ sound a' /\
    (a' <> a -> exists v a1, normed a o url = Ok v /\ store a url jp (a_loads a, v) = Ok a1 /\ extends a1 a') /\
    (forall x, r = Ok x -> exists v a1, x = (a_loads a, v) /\ normed a o url = Ok v /\ store a url jp x = Ok a1 /\ sound a1 /\ extends a1 a').
  Proof.
    intros K SO J NU L NV E. unfold prepare_obj in E. rewrite J in E. cbn [bind fst snd] in E.
    destruct (normed a o url) as [v|e] eqn:N; cbn [bind] in E; [|injection E as <- <-; split; [apply extends_refl|]; split; [exact SO|]; split; [congruence|discriminate]].
    destruct (store a url jp (a_loads a, v)) as [a1|e] eqn:S; cbn [bind] in E; [|injection E as <- <-; split; [apply extends_refl|]; split; [exact SO|]; split; [congruence|discriminate]].
    destruct (to_resolve a o v) as [refs|e] eqn:T; cbn [bind] in E; [|injection E as <- <-; split; [apply extends_refl|]; split; [exact SO|]; split; [congruence|discriminate]].
    pose proof (store_extends _ _ _ _ _ SO L S) as X1. pose proof (store_sound _ _ _ _ _ SO NU (NV v eq_refl) S) as S1.
    destruct (pre_resolve rec a1 refs) as [a2 u] eqn:P. pose proof (pre_keeps _ _ K _ _ _ S1 P) as (X2 & S2).
    assert (EA : a' = a2) by (destruct u; congruence). subst a2.
    split; [eapply extends_trans; eauto|]. split; [exact S2|]. split.
    - intros _. exists v, a1. auto.
    - intros x ->. destruct u as [u|e]; [|discriminate E]. injection E as <-. exists v, a1. auto.
  Qed.
  Lemma step_keeps rec : keeps rec -> forall a j p a' r, sound a -> step rec a j p = (a', r) -> extends a a' /\ sound a'.
  Proof.
    intros K a j p a' r SO E. assert (Triv : a' = a -> extends a a' /\ sound a') by (intros ->; split; [apply extends_refl|exact SO]).
    unfold resolve_step in E. destruct j as [[|c j]|]; [apply Triv; congruence| |apply Triv; congruence].
    destruct (split_ref (c :: j)) as [[url jp]|e] eqn:J; cbn [bind fst snd] in E; [|apply Triv; congruence].
    destruct (lookup a url jp) as [[o|]|e] eqn:L; cbn [bind] in E; [apply Triv; congruence| |apply Triv; congruence].
    destruct (nonempty url) eqn:NU.
    - destruct (load (c :: j) p) as [[o ver]|e] eqn:LO; [|apply Triv; congruence].
      destruct (prep rec a o (c :: j)) as [a1 r1] eqn:P.
      destruct (prep_keeps rec a o (c :: j) url jp a1 r1) as (X & S1 & _); auto.
      + now intros ->.
      + intros v. eapply normed_some; eauto.
      + destruct r1; injection E as <- <-; auto.
    - destruct (negb (startswith jp "#"%string)); [apply Triv; congruence|]. destruct (a_root a) as [[n v]|]; [|apply Triv; congruence].
      destruct (resolve v (tl (jp_split (Some jp)))); apply Triv; congruence.
  Qed.
  Lemma solve_keeps fuel : forall a j p a' r, sound a -> solve fuel a j p = (a', r) -> extends a a' /\ sound a'.
  Proof.
    induction fuel as [|fuel IH]; intros a j p a' r SO E; cbn [resolvef] in E.
    - injection E as <- _. split; [apply extends_refl|exact SO].
    - eapply step_keeps; eauto. intros b s b' x SB F. eapply IH; eauto.
  Qed.
  Lemma run_keeps fuel l : forall a, sound a -> extends a (run fuel a l) /\ sound (run fuel a l).
  Proof.
    induction l as [|[j p] l IH]; intros a SO; cbn [calls]; [split; [apply extends_refl|exact SO]|].
    destruct (solve fuel a j p) as [a1 r] eqn:E. apply solve_keeps in E as (X & S1); auto. cbn [fst].
    destruct (IH a1 S1) as (Y & S2). split; [eapply extends_trans; eauto|exact S2].
  Qed.

  Lemma unknown_first a url jp d : sound a -> unknown a url jp -> sget url (a_objs a) = Some (Parts d) -> first_match d jp = None.
  Proof.
    intros SO (_ & U) G. apply first_match_None. intros k o X. apply (U k o). exists d. split; [exact G|]. apply In_sget; [|exact X]. eapply so_keys; eauto.
  Qed.
  Lemma stored_found a url jp n v a1 : sound a -> unknown a url jp -> store a url jp (n, v) = Ok a1 -> v <> VNone -> lookup a1 url jp = Ok (Some (n, v)).
  Proof.
    intros SO U S NV. unfold store in S. destruct (sget url (a_objs a)) as [[w|d]|] eqn:G; [discriminate S| |]; injection S as <-; unfold lookup; cbn [a_objs]; rewrite sget_sset_same.
    - rewrite in_parts_first, first_match_new by (eapply unknown_first; eauto). rewrite rest_self. cbn. destruct v; try reflexivity. now elim NV.
    - destruct (str_eqb jp _) eqn:Q.
      + apply str_eqb_eq in Q as ->. cbn. destruct v; try reflexivity. now elim NV.
      + rewrite in_parts_first. cbn [first_match]. rewrite prefixb_refl, rest_self. cbn. destruct v; try reflexivity. now elim NV.
  Qed.
  Lemma unknown_lookup a url jp : sound a -> unknown a url jp -> lookup a url jp = Ok None.
  Proof.
    intros SO U. unfold lookup. destruct (sget url (a_objs a)) as [[[n v]|d]|] eqn:G; [|..|reflexivity].
    - destruct U as (U & _). now elim (U (n, v)).
    - rewrite in_parts_first, (unknown_first a url jp d); auto.
  Qed.
  (** A found object is given back by every later call. *)
  Lemma found_again fuel a j url jp o p : j <> [] -> split_ref j = Ok (url, jp) -> lookup a url jp = Ok (Some o) -> solve (S fuel) a (Some j) p = (a, answer o).
  Proof. intros NE J L. cbn [resolvef]. unfold resolve_step. destruct j; [now elim NE|]. rewrite J. cbn [bind fst snd]. rewrite L. reflexivity. Qed.
  Lemma same_again fuel fuel1 fuel2 a j url jp p p' a' o l : sound a -> split_ref j = Ok (url, jp) ->
    solve fuel a (Some j) p = (a', Ok o) -> unknown a url jp \/ a' = a ->
    solve (S fuel2) (run fuel1 a' l) (Some j) p' = (run fuel1 a' l, Ok o).
  Proof.
    intros SO J E U. destruct fuel as [|fuel]; [discriminate E|].
    destruct (solve_keeps _ _ _ _ _ _ SO E) as (X & S1). destruct (run_keeps fuel1 l a' S1) as (X2 & S2). set (a2 := run fuel1 a' l) in *.
    cbn [resolvef] in E. unfold resolve_step in E. destruct j as [|c j]; [discriminate E|]. rewrite J in E. cbn [bind fst snd] in E.
    destruct (lookup a url jp) as [[w|]|e] eqn:L; cbn [bind] in E; [| |discriminate E].
    - injection E as <- A. rewrite <- A. eapply found_again; eauto; [discriminate|]. eapply lookup_extends; eauto. discriminate.
    - destruct (nonempty url) eqn:NU.
      + destruct (load (c :: j) p) as [[x ver]|e] eqn:LO; [|discriminate E].
        destruct (prep _ a x (c :: j)) as [a1 [w|e]] eqn:P; [|discriminate E]. injection E as -> A.
        apply (prep_keeps _ a x (c :: j) url jp) in P; auto.
        2: { intros b s b' y SB F. eapply solve_keeps; eauto. }
        2: { now intros ->. }
        2: { intros v. eapply normed_some; eauto. }
        destruct P as (_ & _ & _ & P). destruct (P w eq_refl) as (v & b & -> & N & ST & SB & XB).
        assert (NV : v <> VNone) by (eapply normed_some; eauto).
        destruct U as [U| ->].
        * rewrite <- A. eapply found_again; eauto; [discriminate|]. eapply lookup_extends; [exact (extends_trans _ _ _ XB X2)|exact (stored_found a url jp _ v b SO U ST NV)|discriminate].
        * exfalso. pose proof (ex_loads _ _ XB) as Q. unfold store in ST. destruct (sget url (a_objs a)) as [[?|?]|]; try discriminate ST; injection ST as <-; cbn in Q; lia.
      + destruct url as [|? ?]; [|discriminate NU]. cbn [resolvef]. unfold resolve_step. rewrite J. cbn [bind fst snd].
        assert (L2 : lookup a2 [] jp = Ok None) by (unfold lookup; rewrite (so_local _ S2); reflexivity). rewrite L2. cbn [bind nonempty].
        destruct (negb (startswith jp "#"%string)); [discriminate E|].
        destruct (a_root a) as [[n v]|] eqn:RT; [|discriminate E].
        assert (RT2 : a_root a2 = Some (n, v)) by (rewrite (ex_root _ _ X2), (ex_root _ _ X); exact RT). rewrite RT2.
        destruct (resolve v (tl (jp_split (Some jp)))); [|discriminate E]. injection E as _ ->. reflexivity.
  Qed.
End Resolving.

(** ** Termination *)
Lemma nofuel_urlparse u : nofuel (urlparse u).
Proof.
  unfold urlparse. destruct (split_scheme u) as [s r]. apply nofuel_bind.
  - unfold split_netloc, nofuel. repeat match goal with |- context[match ?x with _ => _ end] => destruct x end; discriminate.
  - intros [n w] _. destruct (cut_or "#" w). destruct (cut_or "?" _). destruct (parse_params s _). apply nofuel_ok.
Qed.
Lemma nofuel_jr_split ab wi s : nofuel (jr_split ab wi s).
Proof.
  unfold jr_split. apply nofuel_bind; [apply nofuel_urlparse|]. intros p _. apply nofuel_bind; [|intros; apply nofuel_ok].
  unfold normalize_url. destruct (negb _); [discriminate|]. destruct (windows_path _); [discriminate|]. apply nofuel_bind; [apply nofuel_urlparse|].
  intros q _. destruct (negb _); [|discriminate]. destruct (_ && _); discriminate.
Qed.
Lemma nofuel_normalize_jr s u : nofuel (normalize_jr s u).
Proof.
  unfold normalize_jr. destruct (jr_parts s) as [path jp]. apply nofuel_bind.
  - destruct (nonempty path); [|discriminate]. apply nofuel_bind; [apply nofuel_urlparse|]. intros p _. destruct u as [u|]; [|discriminate].
    destruct (_ && _); [|discriminate]. apply nofuel_bind; [apply nofuel_urlparse|]. intros q _. apply nofuel_bind; [|intros; apply nofuel_ok].
    unfold derelativise_url. apply nofuel_bind; [apply nofuel_urlparse|intros; apply nofuel_ok].
  - intros [[|c r]|] _; [destruct jp; discriminate|destruct jp as [[|? ?]|]; discriminate|destruct jp; discriminate].
Qed.
Lemma nofuel_norm url v : wfv v -> nofuel (norm_refs url v).
Proof.
  intros W E. apply (norm_err url _ (S (vdepth v))) in E as (ts & h & fs & ints & r & _ & _ & _ & B); auto.
  destruct r; cbn in B; try discriminate B; [destruct B|]. now apply nofuel_normalize_jr in B.
Qed.
Lemma nofuel_resolve v ts : nofuel (resolve v ts).
Proof.
  revert v. induction ts as [|t ts IH]; intro v; [discriminate|]. destruct v; cbn [resolve]; try apply IH.
  - apply nofuel_bind.
    + unfold py_int, nofuel. intro E. repeat (match type of E with context[match ?x with _ => _ end] => destruct x end; try discriminate E).
    + intros z _. apply nofuel_bind; [|intros; apply IH]. unfold index, nofuel. destruct (_ <? 0)%Z; [discriminate|]. destruct (nth_error _ _); discriminate.
  - destruct (sget t d); [apply IH|discriminate].
  - apply nofuel_bind; [|intros; apply IH]. unfold attr. destruct (sget t fs); [discriminate|]. destruct (sget t ints); discriminate.
Qed.
Lemma nofuel_lookup a url jp : nofuel (lookup a url jp).
Proof.
  unfold lookup. apply nofuel_bind; [|intros; apply nofuel_ok]. destruct (sget url (a_objs a)) as [[[n v]|d]|]; [..|discriminate].
  - apply nofuel_bind; [apply nofuel_resolve|intros; apply nofuel_ok].
  - rewrite in_parts_first. destruct (first_match d jp) as [[k [n v]]|]; [|discriminate]. apply nofuel_bind; [apply nofuel_resolve|intros; apply nofuel_ok].
Qed.
Lemma nofuel_parse c j : nofuel (parse c [] j).
Proof. intro E. apply (parse_exns (S (jdepth j))) in E; [|lia]. destruct E as [E|[E|E]]; discriminate E. Qed.
Lemma nofuel_answer o : nofuel (answer o).
Proof. destruct o as [n v]. unfold answer, nofuel. cbn. destruct v; discriminate. Qed.

Lemma filter_shrink {A} (f g : A -> bool) l : (forall x, g x = true -> f x = true) -> length (filter g l) <= length (filter f l).
Proof.
  intro H. induction l as [|x l IH]; cbn; [lia|]. destruct (g x) eqn:G.
  - rewrite (H _ G). cbn. lia.
  - destruct (f x); cbn; lia.
Qed.
Lemma filter_shrinks {A} (f g : A -> bool) l y : (forall x, g x = true -> f x = true) -> In y l -> f y = true -> g y = false ->
  length (filter g l) < length (filter f l).
Proof.
  intros H I F G. induction l as [|x l IH]; [destruct I|]. pose proof (filter_shrink f g l H). cbn. destruct I as [->|I].
  - rewrite F, G. cbn. lia.
  - specialize (IH I). destruct (g x) eqn:GX; [rewrite (H _ GX); cbn; lia|]. destruct (f x); cbn; lia.
Qed.

Lemma filter_le {A} (f : A -> bool) l : length (filter f l) <= length l.
Proof. induction l as [|x l IH]; cbn; [lia|]. destruct (f x); cbn; lia. Qed.

Section Ending.
  Context (abs_uri win_uri : str -> str) (fetch : str -> res json).
  Context {old : Type} (parse_old : str -> json -> res old) (upgrade : old -> res val) (as_is : old -> val).
  Hypothesis kept_some : forall o, as_is o <> VNone.
  Hypothesis upgraded : forall o v, upgrade o = Ok v -> is_obj v /\ wfv v.
  Hypothesis json_docs : forall j x, fetch j = Ok x -> wf x.
  Hypothesis no_fuel1 : forall j, nofuel (fetch j).
  Hypothesis no_fuel2 : forall j x, nofuel (parse_old j x).
  Hypothesis no_fuel3 : forall o, nofuel (upgrade o).
  Notation split_ref := (jr_split abs_uri win_uri).
  Notation load := (load_obj fetch parse_old).
  Notation normed := (normalised upgrade as_is).
  Notation prep := (prepare_obj abs_uri win_uri upgrade as_is).
  Notation solve := (resolvef abs_uri win_uri fetch parse_old upgrade as_is).
  Context (R : list str).
  Hypothesis R_closed : forall j, In j R -> refers_into abs_uri win_uri fetch parse_old upgrade R j.
  Hypothesis R_apart : apart_refs abs_uri win_uri R.

  Definition covered (a : app) (j : str) : bool :=
    match split_ref j with
    | Ok (url, jp) => match sget url (a_objs a) with Some (Whole _) => true | Some (Parts d) => smem jp d | None => false end
    | Err _ => true
    end.
  Definition left_over (a : app) : nat := length (filter (fun j => negb (covered a j)) R).
  Lemma covered_mono a a' j : extends a a' -> covered a j = true -> covered a' j = true.
  Proof.
    intro X. unfold covered. destruct (split_ref j) as [[url jp]|]; [|auto]. destruct (sget url (a_objs a)) as [[o|d]|] eqn:G; [| |discriminate].
    - apply (ex_whole _ _ X) in G. unfold whole in G. now rewrite G.
    - apply (ex_parts _ _ X) in G as (d' & -> & K & _). rewrite !smem_In. auto.
  Qed.
  Lemma left_mono a a' : extends a a' -> left_over a' <= left_over a.
  Proof.
    intro X. apply filter_shrink. intros j. rewrite !negb_true_iff. intro E. destruct (covered a j) eqn:C; [|reflexivity]. apply (covered_mono _ _ _ X) in C. congruence.
  Qed.
  (** When a reference of [R] is not found, nothing in the cache is there for it. *)
  Lemma not_found a j url jp : sound a -> cached_by abs_uri win_uri R a -> In j R -> split_ref j = Ok (url, jp) -> lookup a url jp = Ok None ->
    (exists o, whole a url o) \/ covered a j = false.
  Proof.
    intros SO CB I J L. unfold covered. rewrite J. unfold lookup in L. destruct (sget url (a_objs a)) as [[o|d]|] eqn:G; [left; eauto| |auto]. right.
    destruct (smem jp d) eqn:M; [|reflexivity]. exfalso. apply smem_In in M. apply sget_Some_key in M as (o & M).
    rewrite in_parts_first in L. destruct (first_match d jp) as [[k [n v]]|] eqn:F.
    - pose proof (first_sget _ _ _ _ (so_keys _ SO _ _ G) F) as SK. apply first_match_In in F as (_ & F).
      destruct (CB url k (n, v)) as (i & Ii & Ji); [exists d; auto|]. pose proof (R_apart i j url k jp Ii I Ji J F) as ->.
      rewrite rest_self in L. cbn in L. destruct (so_part _ SO url jp n v) as (NV & _); [exists d; auto|]. destruct v; try discriminate L. now elim NV.
    - pose proof (proj1 (first_match_None _ _) F jp o) as Q. apply Q; [now apply sget_In|]. exists []. now rewrite app_nil_r.
  Qed.
  Lemma store_covers a j url jp o a1 : split_ref j = Ok (url, jp) -> store a url jp o = Ok a1 -> covered a1 j = true.
  Proof.
    intros J S. unfold covered. rewrite J. unfold store in S. destruct (sget url (a_objs a)) as [[?|d]|]; [discriminate S| |]; injection S as <-; cbn [a_objs]; rewrite sget_sset_same.
    - apply smem_In, sget_Some_key. exists o. apply sget_sset_same.
    - destruct (str_eqb jp _); [reflexivity|]. apply smem_In. now left.
  Qed.
  Lemma store_cached_by a j url jp o a1 : In j R -> split_ref j = Ok (url, jp) -> cached_by abs_uri win_uri R a -> store a url jp o = Ok a1 -> cached_by abs_uri win_uri R a1.
  Proof.
    intros I J CB S u k w (d' & E & K). unfold store in S. destruct (sget url (a_objs a)) as [[?|d]|] eqn:G; [discriminate S| |]; injection S as <-; cbn [a_objs] in E.
    - destruct (str_eqb_spec u url) as [->|NE].
      + rewrite sget_sset_same in E. injection E as <-. destruct (str_eqb_spec k jp) as [->|NK]; [eauto|]. rewrite sget_sset_other in K by exact NK. apply (CB url k w). exists d. auto.
      + rewrite sget_sset_other in E by exact NE. apply (CB u k w). exists d'. auto.
    - destruct (str_eqb_spec u url) as [->|NE].
      + rewrite sget_sset_same in E. destruct (str_eqb jp _); [discriminate E|]. injection E as <-. rewrite sget_cons in K. destruct (str_eqb_spec k jp) as [->|NK]; [eauto|discriminate K].
      + rewrite sget_sset_other in E by exact NE. apply (CB u k w). exists d'. auto.
  Qed.
  Lemma load_facts j p o ver : load j p = Ok (o, ver) -> match o with New v => wfv v /\ is_obj v | Old _ => True end.
  Proof.
    unfold load_obj. intro E. apply bind_ok in E as (x & FX & E). apply json_docs in FX. apply bind_ok in E as (w & _ & E).
    destruct (is_version w "1.2"); [apply bind_ok in E as (? & _ & E); injection E as <- _; exact I|].
    destruct (is_version w "2.0").
    - apply bind_ok in E as (y & Y & E). injection E as <- <-. eapply c35_parsed; eauto.
    - destruct p; [|discriminate E]. destruct (no_version w); [|discriminate E]. apply bind_ok in E as (y & Y & E). injection E as <- <-. eapply c35_parsed; eauto.
  Qed.
  Lemma nofuel_load j p : nofuel (load j p).
  Proof.
    unfold load_obj. apply nofuel_bind; [apply no_fuel1|]. intros x _. apply nofuel_bind; [destruct x; discriminate|]. intros w _.
    destruct (is_version w "1.2"); [apply nofuel_bind; [apply no_fuel2|intros; apply nofuel_ok]|].
    destruct (is_version w "2.0"); [apply nofuel_bind; [apply nofuel_parse|intros; apply nofuel_ok]|].
    destruct p; [|discriminate]. destruct (no_version w); [|discriminate]. apply nofuel_bind; [apply nofuel_parse|intros; apply nofuel_ok].
  Qed.
  Lemma nofuel_normed a j p o ver url : load j p = Ok (o, ver) -> nofuel (normed a o url).
  Proof.
    intro L. apply load_facts in L. unfold normalised. destruct (a_old a), o as [o|w]; try discriminate.
    - apply nofuel_bind; [apply no_fuel3|]. intros v V. apply nofuel_norm. now apply upgraded in V.
    - apply nofuel_norm. tauto.
  Qed.
  (** The references to be resolved are references of [R]. *)
  Lemma refs_in_R a j p o ver url jp v : In j R -> split_ref j = Ok (url, jp) -> load j p = Ok (o, ver) -> normed a o url = Ok v ->
    exists refs, to_resolve a o v = Ok refs /\ incl refs R.
  Proof.
    intros IR J L N. pose proof (load_facts _ _ _ _ L) as LF. unfold to_resolve, normalised in *.
    assert (G : forall w, wfv w -> is_obj w -> norm_refs url w = Ok v ->
      ((exists p ver, load j p = Ok (New w, ver) /\ w = w) \/ (exists p ver x, load j p = Ok (Old x, ver) /\ upgrade x = Ok w)) ->
      exists refs, schema_refs v = Ok refs /\ incl refs R).
    { intros w W O NR SRC. unfold schema_refs. pose proof (norm_wfv _ _ _ W NR) as WV. pose proof (norm_is_obj _ _ _ O NR) as OV.
      destruct (c35_visits v [] WV OV) as (l & T & V). rewrite T. cbn [bind]. eexists. split; [reflexivity|]. intros r I.
      apply in_flat_map in I as ([pt x] & I & X). apply V in I as (ts & _ & RC & OX). cbn [snd] in X. destruct x as [| | | | | | |h fs ints]; try destruct OX.
      destruct (cls_eqb (h_cls h) CSchema) eqn:C; [|destruct X]. apply cls_eqb_eq in C.
      destruct (sget (lit "$ref") fs) as [[| | | |[|c s]| | |]|] eqn:SR; try contradiction. destruct X as [<-|[]].
      refine (R_closed j IR url jp w w v ts h fs ints (c :: s) J _ _ RC C SR _); [|eapply (norm_ok url (S (vdepth w))); eauto|discriminate].
      exact SRC. }
    destruct (a_old a), o as [o|w]; try discriminate N.
    - apply bind_ok in N as (w & U & N). destruct (upgraded _ _ U) as (O & W). eapply G; eauto. right. eauto 6.
    - exists []. split; [reflexivity|intros r []].
    - destruct LF. eapply G; eauto.
  Qed.

  Definition ends (fuel : nat) (rec : app -> str -> app * res obj) : Prop := forall a r a' x, sound a -> cached_by abs_uri win_uri R a -> In r R ->
    rec a r = (a', x) -> cached_by abs_uri win_uri R a' /\ (left_over a < fuel -> nofuel x).
  Lemma pre_ends fuel rec refs : keeps rec -> ends fuel rec -> incl refs R -> forall a a' x, sound a -> cached_by abs_uri win_uri R a ->
    pre_resolve rec a refs = (a', x) -> cached_by abs_uri win_uri R a' /\ (left_over a < fuel -> nofuel x).
  Proof.
    intros K EN. induction refs as [|r refs IH]; intros IN a a' x SO CB E; cbn [pre_resolve] in E.
    - injection E as <- <-. split; [exact CB|intros; discriminate].
    - destruct (rec a r) as [a1 y] eqn:RR. destruct (EN _ _ _ _ SO CB (IN r (or_introl eq_refl)) RR) as (CB1 & NF). apply K in RR as (X & S1); [|exact SO].
      destruct y as [[n ro]|e].
      + destruct (falsy ro); [injection E as <- <-; split; [exact CB1|intros; discriminate]|].
        destruct (same_class CSchema ro); [|injection E as <- <-; split; [exact CB1|intros; discriminate]].
        apply IH in E as (CB2 & N2); auto; [|intros z Z; apply IN; now right]. split; [exact CB2|]. intro LT. apply N2. pose proof (left_mono _ _ X). lia.
      + injection E as <- <-. split; [exact CB1|]. intros LT Q. apply (NF LT). congruence.
  Qed.
  Lemma solve_ends fuel : forall a j p a' x, sound a -> cached_by abs_uri win_uri R a -> In j R -> solve fuel a (Some j) p = (a', x) ->
    cached_by abs_uri win_uri R a' /\ (left_over a < fuel -> nofuel x).
  Proof.
    assert (UP : forall o v, upgrade o = Ok v -> is_obj v) by (intros o v U; now apply upgraded in U).
    induction fuel as [|fuel IH]; intros a j p a' x SO CB IR E; cbn [resolvef] in E; [injection E as <- <-; split; [exact CB|lia]|].
    set (rec := fun a r => solve fuel a (Some r) (Some CSchema)) in *.
    assert (K : keeps rec) by (intros b s b' y SB F; exact (solve_keeps abs_uri win_uri fetch parse_old upgrade as_is kept_some UP fuel _ _ _ _ _ SB F)).
    assert (EN : ends fuel rec) by (intros b s b' y SB CB' IS F; exact (IH _ _ _ _ _ SB CB' IS F)).
    assert (Triv : a' = a -> nofuel x -> cached_by abs_uri win_uri R a' /\ (left_over a < S fuel -> nofuel x)) by (intros -> NF; split; [exact CB|auto]).
    unfold resolve_step in E. destruct j as [|c j]; [apply Triv; [congruence|injection E as <- <-; discriminate]|].
    destruct (split_ref (c :: j)) as [[url jp]|e] eqn:J; cbn [bind fst snd] in E.
    2: { injection E as <- <-. apply Triv; [reflexivity|]. intro Q. injection Q as ->. now apply nofuel_jr_split in J. }
    destruct (lookup a url jp) as [[o|]|e] eqn:L; cbn [bind] in E.
    - injection E as <- <-. apply Triv; [reflexivity|apply nofuel_answer].
    - destruct (nonempty url) eqn:NU.
      + destruct (load (c :: j) p) as [[o ver]|e] eqn:LO.
        2: { injection E as <- <-. apply Triv; [reflexivity|]. intro Q. injection Q as ->. now apply nofuel_load in LO. }
        unfold prepare_obj in E. rewrite J in E. cbn [bind fst snd] in E.
        destruct (normed a o url) as [v|e] eqn:N; cbn [bind] in E.
        2: { injection E as <- <-. apply Triv; [reflexivity|]. intro Q. injection Q as ->. now apply (nofuel_normed _ _ _ _ _ _ LO) in N. }
        destruct (store a url jp (a_loads a, v)) as [a1|e] eqn:S; cbn [bind] in E.
        2: { injection E as <- <-. apply Triv; [reflexivity|]. intro Q. injection Q as ->. unfold store in S. destruct (sget url (a_objs a)) as [[?|?]|]; discriminate S. }
        destruct (refs_in_R _ _ _ _ _ _ _ _ IR J LO N) as (refs & T & IN). rewrite T in E. cbn [bind] in E.
        pose proof (store_extends _ _ _ _ _ SO L S) as X1.
        assert (S1 : sound a1). { apply (store_sound a url jp v a1); auto; [now intros ->|]. eapply normed_some; eauto. }
        pose proof (store_cached_by _ _ _ _ _ _ IR J CB S) as CB1.
        destruct (pre_resolve rec a1 refs) as [a2 u] eqn:P. destruct (pre_ends fuel _ _ K EN IN _ _ _ S1 CB1 P) as (CB2 & NF2).
        assert (LT : left_over a < Datatypes.S fuel -> left_over a1 < fuel).
        { intro Q. cut (left_over a1 < left_over a); [lia|].
          apply (filter_shrinks (fun j => negb (covered a j)) (fun j => negb (covered a1 j)) R (c :: j)); [..|exact IR| |].
          - intros y. rewrite !negb_true_iff. intro Y. destruct (covered a y) eqn:CY; [|reflexivity]. apply (covered_mono _ _ _ X1) in CY. congruence.
          - apply negb_true_iff. destruct (not_found _ _ _ _ SO CB IR J L) as [(w & W)|C]; [|exact C].
            unfold whole in W. unfold store in S. rewrite W in S. discriminate S.
          - apply negb_false_iff. eapply store_covers; eauto. }
        destruct u as [u|e]; injection E as <- <-.
        * split; [exact CB2|]. intros _. apply nofuel_answer.
        * split; [exact CB2|]. intros Q Z. injection Z as ->. now apply (NF2 (LT Q)).
      + destruct (negb (startswith jp "#"%string)); [injection E as <- <-; apply Triv; [reflexivity|discriminate]|].
        destruct (a_root a) as [[n v]|]; [|injection E as <- <-; apply Triv; [reflexivity|discriminate]].
        destruct (resolve v (tl (jp_split (Some jp)))) eqn:RS; injection E as <- <-; apply Triv; try reflexivity; [apply nofuel_answer|].
        intro Q. injection Q as ->. now apply nofuel_resolve in RS.
    - injection E as <- <-. apply Triv; [reflexivity|]. intro Q. injection Q as ->. now apply nofuel_lookup in L.
  Qed.
  Lemma left_le a : left_over a <= length R.
  Proof. apply filter_le. Qed.
End Ending.
