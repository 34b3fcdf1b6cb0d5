(** Basic lemmas about PyBase. *)
From Verif Require Import PyBase.
From Coq Require Import Lia.

Lemma str_eqb_eq a b : str_eqb a b = true <-> a = b.
Proof.
  revert b; induction a as [|x a IH]; intros [|y b]; simpl; try easy.
  rewrite andb_true_iff, Ascii.eqb_eq, IH. split; [intros []; subst|intros H; inversion H]; auto.
Qed.
Lemma str_eqb_refl a : str_eqb a a = true.
Proof. now apply str_eqb_eq. Qed.
Lemma str_eqb_neq a b : str_eqb a b = false <-> a <> b.
Proof.
  split; intros H.
  - intros ->. now rewrite str_eqb_refl in H.
  - destruct (str_eqb a b) eqn:E; auto. apply str_eqb_eq in E. contradiction.
Qed.
Lemma str_eqb_spec a b : reflect (a = b) (str_eqb a b).
Proof. apply iff_reflect. symmetry. apply str_eqb_eq. Qed.
Lemma str_eqb_sym a b : str_eqb a b = str_eqb b a.
Proof.
  destruct (str_eqb_spec a b), (str_eqb_spec b a); congruence.
Qed.
Definition str_eq_dec (a b : str) : {a = b} + {a <> b}.
Proof. destruct (str_eqb_spec a b); auto. Defined.

Lemma mem_In x l : mem x l = true <-> In x l.
Proof.
  unfold mem. rewrite existsb_exists. split.
  - intros (y & H & E). apply str_eqb_eq in E. now subst.
  - intros H. exists x. split; auto. apply str_eqb_refl.
Qed.
Lemma mem_false x l : mem x l = false <-> ~ In x l.
Proof. rewrite <- mem_In. destruct (mem x l); split; congruence. Qed.

Lemma prefixb_spec p s : prefixb p s = true <-> exists t, s = p ++ t.
Proof.
  revert s; induction p as [|x p IH]; intros s; simpl.
  - split; eauto.
  - destruct s as [|y s]; simpl.
    + split; [discriminate|]. intros (t & H); discriminate.
    + rewrite andb_true_iff, Ascii.eqb_eq, IH. split.
      * intros (-> & t & ->). now exists t.
      * intros (t & H). inversion H; subst. eauto.
Qed.
Lemma prefixb_app p t : prefixb p (p ++ t) = true.
Proof. apply prefixb_spec; eauto. Qed.
Lemma prefixb_length p s : prefixb p s = true -> length p <= length s.
Proof. intros H; apply prefixb_spec in H as (t & ->). rewrite app_length. lia. Qed.

Lemma endswith_spec s p : endswith s p = true <-> exists t, s = t ++ p.
Proof.
  unfold endswith. rewrite prefixb_spec. split; intros (t & H).
  - exists (rev t). rewrite <- (rev_involutive s), H, rev_app_distr, rev_involutive. auto.
  - subst. exists (rev t). apply rev_app_distr.
Qed.
Lemma endswith_refl s : endswith s s = true.
Proof. apply endswith_spec. now exists []. Qed.

Lemma app_len_inj {A} (a b x y : list A) :
  length a = length b -> a ++ x = b ++ y -> a = b /\ x = y.
Proof.
  revert b; induction a as [|c a IH]; intros [|d b] L H; simpl in *; try lia; auto.
  inversion H; subst. destruct (IH b) as [-> ->]; auto.
Qed.

Lemma NoDup_app_remove_l {A} (l l' : list A) : NoDup (l ++ l') -> NoDup l'.
Proof. induction l; simpl; auto. inversion 1; auto. Qed.
Lemma NoDup_app_remove_r {A} (l l' : list A) : NoDup (l ++ l') -> NoDup l.
Proof.
  induction l as [|x l IH]; simpl; intros H; [constructor|].
  inversion H; subst. constructor; auto. intros Hi. apply H2, in_or_app. now left.
Qed.

(** ** split / join *)
Lemma split_aux_nonempty sep k cur s : split_aux sep k cur s <> [].
Proof.
  revert k cur; induction s as [|c s IH]; intros k cur; simpl; try easy.
  destruct k; auto. destruct prefixb; easy.
Qed.
Lemma split_nonempty sep s : split sep s <> [].
Proof. apply split_aux_nonempty. Qed.

(** [sep] does not start anywhere inside [p] when [p] is followed by [sep]. *)
Definition clean (sep p : str) : Prop :=
  forall a b, p ++ sep = a ++ sep ++ b -> b = [].

Lemma split_aux_skip sep n cur p s :
  length p = n -> split_aux sep n cur (p ++ s) = split_aux sep 0 cur s.
Proof.
  revert n; induction p as [|c p IH]; intros n H; simpl in *; subst; simpl; auto.
Qed.

Lemma split_aux_clean_step sep p cur s :
  sep <> [] -> clean sep p ->
  split_aux sep 0 cur (p ++ sep ++ s) = (rev cur ++ p) :: split sep s.
Proof.
  intros Hs. revert cur. induction p as [|c p IH]; intros cur Hc.
  - simpl app. destruct sep as [|x sep]; [easy|].
    change (split_aux (x :: sep) 0 cur ((x :: sep) ++ s)) with
      (if prefixb (x :: sep) ((x :: sep) ++ s)
       then rev cur :: split_aux (x :: sep) (length (x :: sep) - 1) [] (sep ++ s)
       else split_aux (x :: sep) 0 (x :: cur) (sep ++ s)).
    rewrite prefixb_app, app_nil_r. f_equal.
    apply split_aux_skip. simpl. lia.
  - change ((c :: p) ++ sep ++ s) with (c :: (p ++ sep ++ s)).
    change (split_aux sep 0 cur (c :: (p ++ sep ++ s))) with
      (if prefixb sep (c :: (p ++ sep ++ s))
       then rev cur :: split_aux sep (length sep - 1) [] (p ++ sep ++ s)
       else split_aux sep 0 (c :: cur) (p ++ sep ++ s)).
    destruct (prefixb sep (c :: (p ++ sep ++ s))) eqn:E.
    + exfalso. apply prefixb_spec in E as (t & E).
      assert (L : exists b, (c :: p) ++ sep = sep ++ b /\ b <> []).
      { exists (skipn (length sep) ((c :: p) ++ sep)).
        split.
        - rewrite <- (firstn_skipn (length sep) ((c :: p) ++ sep)) at 1. f_equal.
          change (c :: p ++ sep ++ s) with ((c :: p) ++ sep ++ s) in E.
          rewrite app_assoc in E.
          apply (f_equal (firstn (length sep))) in E.
          rewrite !firstn_app in E.
          replace (length sep - length ((c :: p) ++ sep)) with 0 in E
            by (rewrite app_length; simpl; lia).
          rewrite Nat.sub_diag in E. simpl firstn in E at 2 4.
          rewrite !app_nil_r, firstn_all in E. rewrite firstn_app. exact E.
        - intros Hn. apply (f_equal (@length ascii)) in Hn.
          rewrite skipn_length, app_length in Hn. change (length (c :: p)) with (S (length p)) in Hn. simpl (length []) in Hn. lia. }
      destruct L as (b & Hb & Hne). apply Hne. apply (Hc [] b). exact Hb.
    + rewrite IH.
      * simpl rev. now rewrite <- app_assoc.
      * intros a b H. apply (Hc (c :: a) b). simpl. now rewrite H.
Qed.

Definition occurs (sep p : str) : Prop := exists a b, p = a ++ sep ++ b.

Lemma clean_not_occurs sep p : sep <> [] -> clean sep p -> ~ occurs sep p.
Proof.
  intros Hs Hc (a & b & ->).
  assert (H : b ++ sep = []).
  { apply (Hc a). now rewrite <- !app_assoc. }
  apply app_eq_nil in H. tauto.
Qed.

Lemma split_aux_no_occ sep p cur :
  sep <> [] -> ~ occurs sep p -> split_aux sep 0 cur p = [rev cur ++ p].
Proof.
  intros Hs. revert cur; induction p as [|c p IH]; intros cur Hn.
  - simpl. now rewrite app_nil_r.
  - change (split_aux sep 0 cur (c :: p)) with
      (if prefixb sep (c :: p) then rev cur :: split_aux sep (length sep - 1) [] p
       else split_aux sep 0 (c :: cur) p).
    destruct (prefixb sep (c :: p)) eqn:E.
    + apply prefixb_spec in E as (t & E). exfalso. apply Hn. exists [], t. auto.
    + rewrite IH. { simpl. now rewrite <- app_assoc. }
      intros (a & b & ->). apply Hn. exists (c :: a), b. auto.
Qed.

Lemma join_cons sep x y l : join sep (x :: y :: l) = x ++ sep ++ join sep (y :: l).
Proof. reflexivity. Qed.

(** All parts clean except that the last one only must not contain [sep]. *)
Lemma split_join sep l last :
  sep <> [] -> Forall (clean sep) l -> ~ occurs sep last ->
  split sep (join sep (l ++ [last])) = l ++ [last].
Proof.
  intros Hs Hl Hn. induction l as [|p l IH].
  - simpl. unfold split. now rewrite split_aux_no_occ.
  - inversion Hl; subst.
    assert (E : exists y t, l ++ [last] = y :: t) by (destruct l; simpl; eauto).
    destruct E as (y & t & E).
    simpl app. rewrite E, join_cons.
    unfold split at 1. rewrite split_aux_clean_step by auto. simpl rev. simpl app.
    f_equal. rewrite <- E. auto.
Qed.

(** Joining the split parts gives the string back: [sep.join(s.split(sep)) == s]. *)
Lemma split_aux_join sep k cur s :
  sep <> [] -> k < length sep -> k <= length s ->
  exists x l, split_aux sep k cur s = x :: l /\
    join sep (x :: l) = rev cur ++ skipn k s.
Proof.
  intros Hs. revert k cur. induction s as [|c s IH]; intros k cur Hk Hk2.
  - simpl in *. exists (rev cur), []. replace k with 0 by lia. simpl.
    now rewrite app_nil_r.
  - destruct k as [|k].
    + change (split_aux sep 0 cur (c :: s)) with
      (if prefixb sep (c :: s) then rev cur :: split_aux sep (length sep - 1) [] s
       else split_aux sep 0 (c :: cur) s).
      destruct (prefixb sep (c :: s)) eqn:E.
      * pose proof (prefixb_length _ _ E) as L. simpl in L.
        apply prefixb_spec in E as (t & E).
        destruct (IH (length sep - 1) []) as (x & l & H1 & H2); try lia.
        exists (rev cur), (x :: l). split; [now f_equal|].
        rewrite join_cons, H2. simpl rev. simpl app at 2. f_equal. simpl skipn.
        rewrite E. f_equal.
        destruct sep as [|y sep]; [easy|]. inversion E; subst.
        simpl. rewrite Nat.sub_0_r, skipn_app, skipn_all, Nat.sub_diag. reflexivity.
      * destruct (IH 0 (c :: cur)) as (x & l & H1 & H2); try lia.
        exists x, l. split; auto. rewrite H2. simpl. now rewrite <- app_assoc.
    + simpl. apply IH; simpl in *; lia.
Qed.
Lemma join_split sep s : sep <> [] -> join sep (split sep s) = s.
Proof.
  intros Hs. destruct (split_aux_join sep 0 [] s) as (x & l & H1 & H2); auto; try lia.
  { destruct sep; simpl; [easy|lia]. }
  unfold split. rewrite H1, H2. reflexivity.
Qed.

(** Single character separators. *)
Lemma clean_char c p : ~ In c p -> clean [c] p.
Proof.
  intros H a b E. simpl in E.
  revert a E. induction p as [|x p IH]; intros a E; simpl in *.
  - destruct a as [|y a]; inversion E; subst; auto. destruct a; discriminate.
  - destruct a as [|y a]; inversion E; subst.
    + exfalso; auto.
    + apply (IH (fun Hi => H (or_intror Hi)) a); auto.
Qed.
Lemma occurs_char c p : occurs [c] p <-> In c p.
Proof.
  split.
  - intros (a & b & ->). apply in_or_app. right. now left.
  - intros H. apply in_split in H as (a & b & ->). exists a, b. reflexivity.
Qed.
Lemma split_char_join c l :
  l <> [] -> Forall (fun p => ~ In c p) l -> split [c] (join [c] l) = l.
Proof.
  intros Hne H. destruct (exists_last Hne) as (l' & x & ->).
  apply Forall_app in H as [H1 H2]. inversion H2; subst.
  apply split_join; try easy.
  - eapply Forall_impl; [|exact H1]. intros a. apply clean_char.
  - now rewrite occurs_char.
Qed.
(** The parts produced by a single-character split do not contain it. *)
Lemma split_aux_char_no c cur s :
  ~ In c cur -> Forall (fun p => ~ In c p) (split_aux [c] 0 cur s).
Proof.
  revert cur; induction s as [|x s IH]; intros cur H; simpl.
  - constructor; auto. now rewrite <- in_rev.
  - rewrite andb_true_r. destruct (Ascii.eqb c x) eqn:E; simpl.
    + constructor; [now rewrite <- in_rev|]. apply IH. easy.
    + apply IH. intros [->|?]; auto. now rewrite Ascii.eqb_refl in E.
Qed.
Lemma split_char_no c s : Forall (fun p => ~ In c p) (split [c] s).
Proof. apply split_aux_char_no. easy. Qed.

Lemma split_aux_cur sep k cur s :
  exists x l, split_aux sep k [] s = x :: l /\ split_aux sep k cur s = (rev cur ++ x) :: l.
Proof.
  revert k cur. induction s as [|c s IH]; intros k cur.
  - simpl. exists [], []. now rewrite app_nil_r.
  - destruct k as [|k]; [|simpl; apply IH].
    destruct (prefixb sep (c :: s)) eqn:E.
    + exists [], (split_aux sep (length sep - 1) [] s).
      cbn [split_aux]. rewrite E. simpl rev. now rewrite app_nil_r.
    + destruct (IH 0 [c]) as (x & l & H1 & H2).
      destruct (IH 0 (c :: cur)) as (x' & l' & H1' & H2').
      rewrite H1 in H1'. inversion H1'; subst.
      cbn [split_aux]. rewrite E. rewrite H2, H2'.
      eexists _, _. split; [reflexivity|]. simpl. now rewrite <- app_assoc.
Qed.

(** Splitting on a character distributes over concatenation through it. *)
Lemma split_char_app c a b : split [c] (a ++ c :: b) = split [c] a ++ split [c] b.
Proof.
  unfold split.
  enough (H : forall cur, split_aux [c] 0 cur (a ++ c :: b) =
                split_aux [c] 0 cur a ++ split_aux [c] 0 [] b) by apply H.
  induction a as [|x a IH]; intros cur.
  - simpl. rewrite Ascii.eqb_refl. reflexivity.
  - simpl app. cbn [split_aux prefixb]. rewrite !andb_true_r.
    destruct (Ascii.eqb c x); simpl; f_equal; apply IH.
Qed.

(** ** dictionaries *)
Section DictFacts.
  Context {K V : Type} (eqb : K -> K -> bool).
  Hypothesis eqb_ok : forall a b, eqb a b = true <-> a = b.
  Notation get := (dget eqb).
  Notation set := (dset eqb).
  Notation del := (ddel eqb).
  Lemma eqb_rf a : eqb a a = true. Proof. now apply eqb_ok. Qed.
  Lemma eqb_nq a b : a <> b -> eqb a b = false.
  Proof. intros H. destruct (eqb a b) eqn:E; auto. apply eqb_ok in E. contradiction. Qed.
  Lemma dget_dset_same k (v : V) d : get k (set k v d) = Some v.
  Proof.
    induction d as [|[k' v'] d IH]; simpl.
    - now rewrite eqb_rf.
    - destruct (eqb k k') eqn:E; simpl; rewrite E; auto.
  Qed.
  Lemma dget_dset_other k k' (v : V) d : k <> k' -> get k (set k' v d) = get k d.
  Proof.
    intros H. induction d as [|[k2 v2] d IH]; simpl.
    - now rewrite eqb_nq.
    - destruct (eqb k' k2) eqn:E; simpl.
      + apply eqb_ok in E. subst. now rewrite eqb_nq.
      + destruct (eqb k k2); auto.
  Qed.
  Lemma dget_In k (v : V) d : get k d = Some v -> In (k, v) d.
  Proof.
    induction d as [|[k' v'] d IH]; simpl; [discriminate|].
    destruct (eqb k k') eqn:E; [|auto].
    apply eqb_ok in E. intros H; inversion H; subst. auto.
  Qed.
  Lemma In_dget k (v : V) d : NoDup (map fst d) -> In (k, v) d -> get k d = Some v.
  Proof.
    induction d as [|[k' v'] d IH]; simpl; intros Hn H; [easy|].
    inversion Hn; subst. destruct H as [H|H].
    - inversion H; subst. now rewrite eqb_rf.
    - rewrite eqb_nq; auto. intros ->. apply H2. apply (in_map fst) in H. exact H.
  Qed.
  Lemma dget_None k (d : dict K V) : get k d = None <-> ~ In k (map fst d).
  Proof.
    induction d as [|[k' v'] d IH]; simpl; [easy|].
    destruct (eqb k k') eqn:E.
    - apply eqb_ok in E. subst. split; [discriminate|]. intros H; exfalso; auto.
    - rewrite IH. split; [|tauto]. intros H [->|?]; auto. now rewrite eqb_rf in E.
  Qed.
  Lemma dget_Some_key k (d : dict K V) : In k (map fst d) <-> exists v, get k d = Some v.
  Proof.
    destruct (get k d) eqn:E.
    - split; eauto. intros _. apply dget_In in E. apply (in_map fst) in E. exact E.
    - apply dget_None in E. split; [contradiction|]. intros (v & H); discriminate.
  Qed.
  Lemma dmem_In k (d : dict K V) : dmem eqb k d = true <-> In k (map fst d).
  Proof.
    unfold dmem. destruct (get k d) eqn:E.
    - split; auto. intros _. apply dget_Some_key. eauto.
    - apply dget_None in E. split; [discriminate|contradiction].
  Qed.
  Lemma dset_keys k (v : V) d :
    map fst (set k v d) = if dmem eqb k d then map fst d else map fst d ++ [k].
  Proof.
    induction d as [|[k' v'] d IH]; unfold dmem in *; simpl; auto.
    destruct (eqb k k') eqn:E; simpl; auto.
    rewrite IH. destruct (get k d); reflexivity.
  Qed.
  Lemma dset_NoDup k (v : V) d : NoDup (map fst d) -> NoDup (map fst (set k v d)).
  Proof.
    intros H. rewrite dset_keys. destruct (dmem eqb k d) eqn:E; auto.
    assert (Hk : ~ In k (map fst d)) by (rewrite <- dmem_In, E; discriminate).
    clear E. induction (map fst d) as [|x l IH]; simpl.
    - constructor; auto.
    - inversion H; subst. constructor.
      + rewrite in_app_iff. simpl. intros [?|[?|[]]]; subst; auto. apply Hk. now left.
      + apply IH; auto. intros ?. apply Hk. now right.
  Qed.
  Lemma ddel_keys_incl k x (d : dict K V) : In x (map fst (del k d)) -> In x (map fst d).
  Proof.
    induction d as [|[k' v'] d IH]; simpl; auto.
    destruct (eqb k k'); simpl; tauto.
  Qed.
  Lemma ddel_NoDup k (d : dict K V) : NoDup (map fst d) -> NoDup (map fst (del k d)).
  Proof.
    induction d as [|[k' v'] d IH]; simpl; intros H; auto.
    inversion H; subst. destruct (eqb k k'); simpl; auto.
    constructor; auto. intros Hi. apply H2. eapply ddel_keys_incl; eauto.
  Qed.
  Lemma dget_ddel_same k (d : dict K V) : NoDup (map fst d) -> get k (del k d) = None.
  Proof.
    induction d as [|[k' v'] d IH]; simpl; intros H; auto.
    inversion H; subst. destruct (eqb k k') eqn:E; simpl.
    - apply eqb_ok in E. subst. now apply dget_None.
    - rewrite E. auto.
  Qed.
  Lemma dget_ddel_other k k' (d : dict K V) : k <> k' -> get k (del k' d) = get k d.
  Proof.
    intros H. induction d as [|[k2 v2] d IH]; simpl; auto.
    destruct (eqb k' k2) eqn:E; simpl.
    - apply eqb_ok in E. subst. now rewrite eqb_nq.
    - destruct (eqb k k2); auto.
  Qed.
End DictFacts.

Lemma sget_sset_same {V} k (v : V) d : sget k (sset k v d) = Some v.
Proof. apply dget_dset_same, str_eqb_eq. Qed.
Lemma sget_sset_other {V} k k' (v : V) d : k <> k' -> sget k (sset k' v d) = sget k d.
Proof. apply dget_dset_other, str_eqb_eq. Qed.
Lemma sget_In {V} k (v : V) d : sget k d = Some v -> In (k, v) d.
Proof. apply dget_In, str_eqb_eq. Qed.
Lemma In_sget {V} k (v : V) d : NoDup (map fst d) -> In (k, v) d -> sget k d = Some v.
Proof. apply In_dget, str_eqb_eq. Qed.
Lemma sget_None {V} k (d : sdict V) : sget k d = None <-> ~ In k (map fst d).
Proof. apply dget_None, str_eqb_eq. Qed.
Lemma sget_Some_key {V} k (d : sdict V) : In k (map fst d) <-> exists v, sget k d = Some v.
Proof. apply dget_Some_key, str_eqb_eq. Qed.
Lemma smem_In {V} k (d : sdict V) : smem k d = true <-> In k (map fst d).
Proof. apply dmem_In, str_eqb_eq. Qed.
Lemma sset_NoDup {V} k (v : V) d : NoDup (map fst d) -> NoDup (map fst (sset k v d)).
Proof. apply dset_NoDup, str_eqb_eq. Qed.
