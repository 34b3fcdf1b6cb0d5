From Verif Require Import PyBase PyFacts M_Graph S_Graph.
From Coq Require Import Lia Permutation.

Lemma last_cons {A} l : forall (x d : A), last (x :: l) d = last l x.
Proof.
  induction l as [|y l IH]; intros x d; auto.
  transitivity (last (y :: l) d); auto. now rewrite !IH.
Qed.

(** * deref *)
Section Deref.
  Variable h : ref_heap.
  Notation nxt := (ref_obj h).

  Lemma existsb_eqb_In (o : nat) g : existsb (Nat.eqb o) g = true <-> In o g.
  Proof.
    rewrite existsb_exists. split.
    - intros (x & H & E). apply Nat.eqb_eq in E. now subst.
    - intros H. exists o. split; auto. apply Nat.eqb_refl.
  Qed.
  Lemma guard_update_ok g o : ~ In o g -> guard_update g o = Ok (g ++ [o]).
  Proof.
    intros H. unfold guard_update. destruct (existsb _ g) eqn:E; auto.
    apply existsb_eqb_In in E. contradiction.
  Qed.
  Lemma guard_update_err g o : In o g -> guard_update g o = Err CycleDetectionError.
  Proof.
    intros H. unfold guard_update. apply existsb_eqb_In in H. now rewrite H.
  Qed.

  (** Chain as a list of objects after [cur], ending in a terminal object. *)
  Fixpoint links (cur : oid) (l : list oid) : Prop :=
    match l with
    | [] => nxt cur = None
    | x :: l' => nxt cur = Some x /\ links x l'
    end.
  Lemma links_det cur l1 l2 : links cur l1 -> links cur l2 -> l1 = l2.
  Proof.
    revert cur l2. induction l1 as [|x l1 IH]; intros cur [|y l2] H1 H2; simpl in *; auto.
    - destruct H2. congruence.
    - destruct H1. congruence.
    - destruct H1, H2. assert (x = y) by congruence. subst. f_equal. eauto.
  Qed.
  Lemma links_chain cur l : links cur l -> chain_to nxt cur (last l cur) /\ nxt (last l cur) = None.
  Proof.
    revert cur. induction l as [|x l IH]; intros cur H.
    - split; auto. constructor.
    - destruct H as [H1 H2]. destruct (IH _ H2) as [A B].
      rewrite last_cons. split; auto. econstructor; eauto.
  Qed.
  Lemma chain_links cur e : chain_to nxt cur e -> nxt e = None -> exists l, links cur l /\ last l cur = e.
  Proof.
    induction 1 as [o|o n e H1 H2 IH]; intros He.
    - exists []. simpl. auto.
    - destruct (IH He) as (l & H & E). exists (n :: l). split; [simpl; auto|].
      now rewrite last_cons.
  Qed.
  (** suffix of links *)
  Lemma links_app cur l1 x l2 : links cur (l1 ++ x :: l2) -> links x l2.
  Proof.
    revert cur. induction l1 as [|y l1 IH]; intros cur H; simpl in H; destruct H; eauto.
  Qed.
  Lemma links_NoDup cur l : links cur l -> NoDup (cur :: l).
  Proof.
    revert cur. induction l as [|x l IH]; intros cur H.
    - constructor; [easy|constructor].
    - constructor; [|apply IH; apply H].
      intros Hin. apply in_split in Hin as (l1 & l2 & E).
      assert (H' := H). rewrite E in H'. apply links_app in H'.
      assert (E2 := links_det _ _ _ H H'). rewrite E in E2.
      apply (f_equal (@length _)) in E2. rewrite app_length in E2. simpl in E2. lia.
  Qed.
  Lemma links_in_heap cur l : links cur l -> incl (removelast (cur :: l)) (map fst h).
  Proof.
    revert cur. induction l as [|x l IH]; intros cur H; [easy|].
    destruct H as [H1 H2]. change (incl (cur :: removelast (x :: l)) (map fst h)).
    intros y [<-|Hy].
    - apply (dget_Some_key Nat.eqb Nat.eqb_eq). eauto.
    - apply (IH _ H2 _ Hy).
  Qed.
  Lemma removelast_length {A} (x : A) l : length (removelast (x :: l)) = length l.
  Proof. revert x. induction l as [|y l IH]; intros x; auto. simpl in *. now rewrite IH. Qed.
  Lemma NoDup_removelast {A} (l : list A) : NoDup l -> NoDup (removelast l).
  Proof.
    intros H. destruct l as [|x l]; auto.
    rewrite (app_removelast_last x (l := x :: l)) in H by easy.
    apply NoDup_remove_1 in H. now rewrite app_nil_r in H.
  Qed.
  Lemma links_length cur l : links cur l -> length l <= length h.
  Proof.
    intros H. rewrite <- (removelast_length cur l), <- (map_length fst h).
    apply NoDup_incl_length; [|now apply links_in_heap].
    apply NoDup_removelast. now apply links_NoDup.
  Qed.

  Lemma deref_loop_links fuel g cur l :
    links cur l -> length l < fuel -> (forall x, In x l -> ~ In x g) ->
    deref_loop fuel h g cur = Ok (last l cur, g ++ l).
  Proof.
    revert fuel g cur. induction l as [|x l IH]; intros fuel g cur H L D.
    - destruct fuel; [lia|]. simpl in *. rewrite H. now rewrite app_nil_r.
    - destruct fuel; [lia|]. destruct H as [H1 H2]. cbn [deref_loop]. rewrite H1.
      rewrite guard_update_ok by (apply D; now left). cbn [bind].
      pose proof (links_NoDup _ _ H2) as N. inversion N; subst.
      rewrite IH; auto; [|simpl in L; lia|].
      + now rewrite last_cons, <- app_assoc.
      + intros y Hy. rewrite in_app_iff. intros [Hg|[<-|[]]]; [|auto].
        apply (D y); [now right|auto].
  Qed.

  (** [Ok] results come from real chains. *)
  Lemma deref_loop_Ok fuel g cur e g' :
    deref_loop fuel h g cur = Ok (e, g') ->
    exists l, links cur l /\ last l cur = e /\ g' = g ++ l /\ (forall x, In x l -> ~ In x g).
  Proof.
    revert g cur. induction fuel as [|fuel IH]; intros g cur H; [discriminate|].
    cbn [deref_loop] in H. destruct (nxt cur) as [x|] eqn:E.
    - unfold guard_update in H. destruct (existsb _ g) eqn:X; [discriminate|].
      cbn [bind] in H. apply IH in H as (l & L & La & Hg & D).
      exists (x :: l). repeat split; auto.
      + now rewrite last_cons.
      + rewrite Hg, <- app_assoc. reflexivity.
      + intros y [<-|Hy].
        * rewrite <- existsb_eqb_In, X. discriminate.
        * intros Hg'. apply (D y Hy). apply in_or_app. now left.
    - inversion H; subst. exists []. rewrite app_nil_r. simpl. auto.
  Qed.

  (** no fuel exhaustion *)
  Lemma deref_loop_total fuel g0 g cur :
    NoDup g -> ~ In cur g -> incl g (map fst h) -> length h < fuel + length g ->
    deref_loop fuel h (g0 ++ g ++ [cur]) cur <> Err OutOfFuel.
  Proof.
    revert g cur. induction fuel as [|fuel IH]; intros g cur Hn Hc Hi L.
    - exfalso. apply NoDup_incl_length in Hi; auto. rewrite map_length in Hi. lia.
    - cbn [deref_loop]. destruct (nxt cur) as [x|] eqn:E; [|discriminate].
      unfold guard_update. destruct (existsb _ _) eqn:X; [discriminate|]. cbn [bind].
      assert (Hx : ~ In x (g0 ++ g ++ [cur])).
      { rewrite <- existsb_eqb_In, X. discriminate. }
      assert (Hcur : In cur (map fst h)).
      { apply (dget_Some_key Nat.eqb Nat.eqb_eq). eauto. }
      rewrite <- app_assoc. apply IH.
      + rewrite <- rev_involutive. apply NoDup_rev. rewrite rev_app_distr. simpl.
        constructor; [now rewrite <- in_rev|]. now apply NoDup_rev.
      + intros H. apply Hx. apply in_or_app. now right.
      + intros y Hy. apply in_app_iff in Hy as [Hy|[<-|[]]]; auto.
      + rewrite app_length. simpl. lia.
  Qed.

  Lemma deref_not_fuel o g : deref h o g <> Err OutOfFuel.
  Proof.
    unfold deref, guard_update. destruct (existsb _ g); [discriminate|]. cbn [bind].
    apply (deref_loop_total (S (length h)) g [] o); try easy.
    - constructor.
    - simpl; lia.
  Qed.
  Lemma deref_loop_errs fuel g o e :
    deref_loop fuel h g o = Err e -> e = CycleDetectionError \/ e = OutOfFuel.
  Proof.
    revert g o. induction fuel as [|fuel IH]; intros g o H; cbn [deref_loop] in H.
    - inversion H; auto.
    - destruct (nxt o) as [x|]; [|discriminate]. unfold guard_update in H.
      destruct (existsb _ g); cbn [bind] in H; [inversion H; auto|eauto].
  Qed.
  Lemma deref_errs o g e : deref h o g = Err e -> e = CycleDetectionError.
  Proof.
    intros H. pose proof (deref_not_fuel o g) as F. unfold deref in *.
    unfold guard_update in *. destruct (existsb _ g); cbn [bind] in *; [congruence|].
    apply deref_loop_errs in H as H'. destruct H'; subst; congruence.
  Qed.

  Lemma deref_Ok_iff o g e :
    (exists g', deref h o g = Ok (e, g')) <->
    (chain_to nxt o e /\ nxt e = None /\ forall x, chain_to nxt o x -> ~ In x g).
  Proof.
    assert (CL : forall o l x, links o l -> chain_to nxt o x -> In x (o :: l)).
    { clear. intros o l x H Hx. revert l H. induction Hx as [|o n e H1 H2 IH]; intros l H.
      - now left.
      - destruct l as [|y l]; simpl in H; [congruence|]. destruct H as [A B].
        assert (y = n) by congruence. subst. right. now apply IH. }
    assert (LC : forall o l x, links o l -> In x (o :: l) -> chain_to nxt o x).
    { clear. intros o l. revert o. induction l as [|y l IH]; intros o x H Hx.
      - destruct Hx as [<-|[]]. constructor.
      - destruct H as [A B]. destruct Hx as [<-|Hx]; [constructor|].
        econstructor; eauto. }
    split.
    - intros (g' & H). unfold deref in H. unfold guard_update in H.
      destruct (existsb _ g) eqn:X; [discriminate|]. cbn [bind] in H.
      apply deref_loop_Ok in H as (l & L & La & _ & D).
      destruct (links_chain _ _ L) as [A B]. rewrite La in *. repeat split; auto.
      intros x Hx Hg. apply (CL _ _ _ L) in Hx as [<-|Hx].
      + apply existsb_eqb_In in Hg. congruence.
      + apply (D x Hx). apply in_or_app. now left.
    - intros (A & B & D). destruct (chain_links _ _ A B) as (l & L & La).
      pose proof (links_length _ _ L) as Hl. pose proof (links_NoDup _ _ L) as N.
      exists ((g ++ [o]) ++ l). unfold deref.
      rewrite guard_update_ok by (apply D; constructor). cbn [bind].
      rewrite deref_loop_links with (l := l); auto; [now rewrite La|lia|].
      intros x Hx. rewrite in_app_iff. intros [Hg|[<-|[]]].
      + apply (D x); auto. apply (LC _ _ _ L). now right.
      + inversion N; auto.
  Qed.
End Deref.

(** * walk *)
Section Walk.
  Context {V : Type} (eqb leb : V -> V -> bool).
  Hypothesis eqb_ok : forall a b, eqb a b = true <-> a = b.
  Hypothesis leb_total : forall a b, leb a b = true \/ leb b a = true.
  Hypothesis leb_trans : forall a b c, leb a b = true -> leb b c = true -> leb a c = true.
  Hypothesis leb_antisym : forall a b, leb a b = true -> leb b a = true -> a = b.
  Variable out : V -> list V.

  Lemma V_dec (a b : V) : {a = b} + {a <> b}.
  Proof.
    destruct (eqb a b) eqn:E; [left; now apply eqb_ok|right].
    intros ->. assert (eqb b b = true) by now apply eqb_ok. congruence.
  Qed.
  Lemma vmem_In x l : vmem eqb x l = true <-> In x l.
  Proof.
    unfold vmem. rewrite existsb_exists. split.
    - intros (y & H & E). apply eqb_ok in E. now subst.
    - intros H. exists x. split; auto. now apply eqb_ok.
  Qed.
  Lemma vmem_false x l : vmem eqb x l = false <-> ~ In x l.
  Proof. rewrite <- vmem_In. destruct (vmem eqb x l); split; congruence. Qed.
  Lemma list_eqb_eq a b : list_eqb eqb a b = true <-> a = b.
  Proof.
    revert b. induction a as [|x a IH]; intros [|y b]; simpl; try easy.
    rewrite andb_true_iff, eqb_ok, IH. split; [intros []; subst|intros H; inversion H]; auto.
  Qed.
  Lemma In_add_cycle z c cyc : In z (add_cycle eqb c cyc) <-> In z cyc \/ z = c.
  Proof.
    unfold add_cycle. destruct (existsb _ cyc) eqn:E.
    - apply existsb_exists in E as (y & H & E). apply list_eqb_eq in E. subst.
      split; auto. intros [? | -> ]; auto.
    - rewrite in_app_iff. simpl. intuition.
  Qed.
  Lemma NoDup_add_cycle c cyc : NoDup cyc -> NoDup (add_cycle eqb c cyc).
  Proof.
    intros H. unfold add_cycle. destruct (existsb _ cyc) eqn:E; auto.
    rewrite <- rev_involutive. apply NoDup_rev. rewrite rev_app_distr. simpl.
    constructor; [|now apply NoDup_rev]. rewrite <- in_rev. intros Hc.
    assert (existsb (list_eqb eqb c) cyc = true).
    { apply existsb_exists. exists c. split; auto. now apply list_eqb_eq. }
    congruence.
  Qed.

  (** ** minimum and rotation *)
  Lemma vmin_spec x l :
    In (vmin leb x l) (x :: l) /\ forall y, In y (x :: l) -> leb (vmin leb x l) y = true.
  Proof.
    assert (R : forall a, leb a a = true) by (intros a; destruct (leb_total a a); auto).
    revert x. induction l as [|y l IH]; intros x.
    - simpl. split; auto. intros ? [<-|[]]. apply R.
    - unfold vmin in *. cbn [fold_left]. destruct (leb x y) eqn:E.
      + destruct (IH x) as [A B]. split.
        * destruct A as [A|A]; [left; exact A|right; right; exact A].
        * intros z [<-|[<-|Hz]].
          -- apply B. now left.
          -- eapply leb_trans; [|exact E]. apply B. now left.
          -- apply B. now right.
      + destruct (IH y) as [A B]. split.
        * right. exact A.
        * intros z [<-|Hz]; [|apply B; exact Hz].
          eapply leb_trans; [apply B; now left|].
          destruct (leb_total x y); [congruence|auto].
  Qed.
  Lemma index_split x a b : ~ In x a -> index eqb x (a ++ x :: b) = length a.
  Proof.
    induction a as [|y a IH]; simpl; intros H.
    - assert (eqb x x = true) as -> by now apply eqb_ok. auto.
    - destruct (eqb x y) eqn:E.
      + apply eqb_ok in E. subst. exfalso; auto.
      + rewrite IH; auto.
  Qed.
  Lemma skipn_exact {A} (a b : list A) : skipn (length a) (a ++ b) = b.
  Proof. rewrite skipn_app, skipn_all, Nat.sub_diag. reflexivity. Qed.
  Lemma firstn_exact {A} (a b : list A) : firstn (length a) (a ++ b) = a.
  Proof. rewrite firstn_app, firstn_all, Nat.sub_diag. simpl. now rewrite app_nil_r. Qed.

  (** normalisation of a list without repetition, split at its minimum *)
  Lemma normalize_at (a b : list V) m :
    NoDup (a ++ m :: b) -> (forall y, In y (a ++ m :: b) -> leb m y = true) ->
    normalize_cycle eqb leb (a ++ m :: b) = m :: b ++ a ++ [m].
  Proof.
    intros Hn Hm. unfold normalize_cycle.
    destruct (a ++ m :: b) as [|x l] eqn:E; [destruct a; discriminate|].
    destruct (vmin_spec x l) as [A B].
    assert (vmin leb x l = m) as ->.
    { apply leb_antisym.
      - apply B. rewrite <- E. apply in_or_app. right. now left.
      - apply Hm. exact A. }
    rewrite <- E in *. rewrite index_split.
    - rewrite skipn_exact, firstn_exact. reflexivity.
    - apply NoDup_remove_2 in Hn. intros H. apply Hn. apply in_or_app. now left.
  Qed.
  Lemma exists_min (l : list V) : l <> [] ->
    exists a m b, l = a ++ m :: b /\ forall y, In y l -> leb m y = true.
  Proof.
    destruct l as [|x l]; [easy|]. intros _. destruct (vmin_spec x l) as [A B].
    apply in_split in A as (a & b & E). exists a, (vmin leb x l), b. rewrite <- E. auto.
  Qed.

  (** ** edges *)
  Lemma edges_app_inv l1 x l2 : edges out (l1 ++ x :: l2) -> edges out (l1 ++ [x]) /\ edges out (x :: l2).
  Proof.
    induction l1 as [|y l1 IH]; simpl; intros H.
    - split; auto.
    - destruct l1 as [|z l1]; simpl in *.
      + destruct H. auto.
      + destruct H as [H1 H2]. destruct (IH H2). auto.
  Qed.
  Lemma edges_app l1 x l2 : edges out (l1 ++ [x]) -> edges out (x :: l2) -> edges out (l1 ++ x :: l2).
  Proof.
    induction l1 as [|y l1 IH]; intros H1 H2; [exact H2|].
    destruct l1 as [|z l1].
    - destruct H1 as [H1 _]. split; [exact H1|exact H2].
    - destruct H1 as [H0 H1]. split; [exact H0|]. apply IH; auto.
  Qed.
  Lemma edges_snoc l x y : edges out (l ++ [x]) -> In y (out x) -> edges out (l ++ [x; y]).
  Proof. intros. apply edges_app; auto. simpl. auto. Qed.

  Lemma reach_trans a b c : reach out a b -> reach out b c -> reach out a c.
  Proof. induction 1; auto. intros H'. econstructor; eauto. Qed.
  Lemma edges_reach x l y : edges out (x :: l) -> In y (x :: l) -> reach out x y.
  Proof.
    revert x. induction l as [|z l IH]; intros x H Hy.
    - destruct Hy as [<-|[]]. constructor.
    - destruct H as [H1 H2]. destruct Hy as [<-|Hy]; [constructor|].
      econstructor; eauto.
  Qed.

  (** ** the found relation *)
  Definition cyc_of (n : V) (stk : list V) : list V :=
    normalize_cycle eqb leb (skipn (index eqb n (rev stk)) (rev stk)).

  Inductive Found : list V -> list V -> list V -> Prop :=
  | F_back stk es n : In n es -> In n stk -> Found stk es (cyc_of n stk)
  | F_deep stk es n z : In n es -> ~ In n stk -> Found (n :: stk) (out n) z -> Found stk es z.

  Lemma Found_incl stk es es' z : incl es es' -> Found stk es z -> Found stk es' z.
  Proof. intros Hi H. destruct H; [apply F_back|eapply F_deep]; eauto. Qed.
  Lemma Found_cons stk n es z :
    Found stk (n :: es) z <->
    (if vmem eqb n stk then z = cyc_of n stk else Found (n :: stk) (out n) z) \/ Found stk es z.
  Proof.
    destruct (vmem eqb n stk) eqn:E; [apply vmem_In in E|apply vmem_false in E].
    - split.
      + inversion 1 as [? ? m Hm Hs|? ? m ? Hm Hs Hf]; subst.
        * destruct Hm as [<-|Hm]; auto. right. now apply F_back.
        * destruct Hm as [<-|Hm]; [contradiction|]. right. eapply F_deep; eauto.
      + intros [ -> |H].
        * apply F_back; auto. now left.
        * eapply Found_incl; [|exact H]. intros x Hx. now right.
    - split.
      + inversion 1 as [? ? m Hm Hs|? ? m ? Hm Hs Hf]; subst.
        * destruct Hm as [<-|Hm]; [contradiction|]. right. now apply F_back.
        * destruct Hm as [<-|Hm]; auto. right. eapply F_deep; eauto.
      + intros [H|H].
        * eapply F_deep; eauto. now left.
        * eapply Found_incl; [|exact H]. intros x Hx. now right.
  Qed.

  (** the stack, read from the bottom, is a simple path from [start] *)
  Definition path_from (start : V) (stk : list V) : Prop :=
    NoDup stk /\ edges out (rev stk) /\ exists r, rev stk = start :: r.

  Lemma path_push start top rest n :
    path_from start (top :: rest) -> In n (out top) -> ~ In n (top :: rest) ->
    path_from start (n :: top :: rest).
  Proof.
    intros (Hn & He & r & Hr) Hi Hni. repeat split.
    - constructor; auto.
    - simpl rev in *. rewrite <- app_assoc. apply edges_snoc; auto.
    - simpl rev in *. rewrite Hr. simpl. eauto.
  Qed.

  Lemma Found_sound start stk es z :
    Found stk es z -> forall top rest, stk = top :: rest -> path_from start stk ->
    incl es (out top) -> listed_cycle out (fun a b => leb a b = true) start z.
  Proof.
    induction 1 as [stk es n Hn Hs|stk es n z Hn Hs Hf IH]; intros top rest E P Hi.
    - destruct P as (Nd & Ed & r & Hr).
      assert (Hin : In n (rev stk)) by now rewrite <- in_rev.
      assert (NdR : NoDup (rev stk)) by now apply NoDup_rev.
      apply in_split in Hin as (a & b & Hab).
      assert (Hna : ~ In n a).
      { rewrite Hab in NdR. apply NoDup_remove_2 in NdR. intros H. apply NdR, in_or_app; auto. }
      unfold cyc_of. rewrite Hab, index_split, skipn_exact by auto.
      (* edges of the closed cycle n :: b ++ [n] *)
      assert (Hlast : exists b', n :: b = b' ++ [top]).
      { rewrite E in Hab. simpl rev in Hab.
        destruct (exists_last (l := n :: b)) as (b' & t & Hb); [easy|].
        exists b'. rewrite Hb. rewrite Hb, app_assoc in Hab.
        apply app_inj_tail in Hab as [_ ->]. auto. }
      destruct Hlast as (b' & Hb').
      assert (Ecl : edges out (n :: b ++ [n])).
      { rewrite Hab in Ed. apply edges_app_inv in Ed as [_ Ed].
        change (n :: b ++ [n]) with ((n :: b) ++ [n]). rewrite Hb' in *.
        rewrite <- app_assoc. apply edges_snoc; auto. }
      assert (Nnb : NoDup (n :: b)).
      { rewrite Hab in NdR. now apply NoDup_app_remove_l in NdR. }
      destruct (exists_min (n :: b)) as (x & m & y & Hxy & Hm); [easy|].
      rewrite Hxy. rewrite normalize_at by (rewrite <- Hxy; auto).
      exists m, (y ++ x). split; [now rewrite <- app_assoc|]. split; [split|split].
      + rewrite Hxy in Nnb.
        assert (NoDup ((m :: y) ++ x)); auto.
        eapply Permutation_NoDup; [|exact Nnb]. apply Permutation_app_comm.
      + (* rotate the edges *)
        change (n :: b ++ [n]) with ((n :: b) ++ [n]) in Ecl. rewrite Hxy in Ecl.
        rewrite <- app_assoc in Ecl. simpl in Ecl.
        apply edges_app_inv in Ecl as [E1 E2].
        rewrite <- app_assoc.
        destruct x as [|x0 x].
        * simpl in *. inversion Hxy; subst. exact E2.
        * simpl in Hxy. inversion Hxy; subst x0.
          change (m :: y ++ (n :: x) ++ [m]) with ((m :: y) ++ n :: x ++ [m]).
          apply edges_app; [exact E2|exact E1].
      + intros v Hv. apply Hm. rewrite Hxy. apply in_app_iff in Hv. apply in_or_app.
        simpl. tauto.
      + rewrite Hr in *. eapply edges_reach; [exact Ed|]. rewrite Hab.
        apply in_or_app. right. rewrite Hxy. apply in_or_app. right. now left.
    - subst. apply (IH n (top :: rest) eq_refl); [|apply incl_refl].
      apply path_push; auto.
  Qed.

  Lemma Found_extend q : forall stk es z top,
    hd_error stk = Some top -> incl (out top) es ->
    NoDup (rev q ++ stk) -> edges out (top :: q) ->
    (exists last, hd_error (rev q ++ stk) = Some last /\ Found (rev q ++ stk) (out last) z) ->
    Found stk es z.
  Proof.
    induction q as [|x q IH]; intros stk es z top Ht Hi Hn He (la & Hl & Hf).
    - simpl in *. assert (la = top) by congruence. subst. eapply Found_incl; eauto.
    - simpl rev in *. rewrite <- app_assoc in *. simpl in *.
      destruct He as [He1 He2].
      apply F_deep with (n := x); auto.
      + intros H. apply NoDup_app_remove_l in Hn. inversion Hn; auto.
      + apply IH with (top := x); auto; [apply incl_refl|]. eauto.
  Qed.

  (** simple path from [start] to the first vertex satisfying [P] *)
  Lemma first_hit (P : V -> Prop) (Pdec : forall v, {P v} + {~ P v}) start x :
    reach out start x -> P x ->
    exists l w, NoDup (l ++ [w]) /\ edges out (l ++ [w]) /\ P w /\
      (forall v, In v l -> ~ P v) /\ hd_error (l ++ [w]) = Some start.
  Proof.
    induction 1 as [v|v w x Hw Hr IH]; intros Px.
    - exists [], v. simpl. repeat split; auto. constructor; auto. constructor.
    - destruct (Pdec v) as [Pv|Pv].
      { exists [], v. simpl. repeat split; auto. constructor; auto. constructor. }
      destruct (IH Px) as (l & u & N & E & Pu & Hl & Hh).
      destruct (in_dec V_dec v l) as [Hv|Hv].
      + apply in_split in Hv as (l1 & l2 & ->).
        exists (v :: l2), u. rewrite <- app_assoc in *. simpl app in *. repeat split; auto.
        * now apply NoDup_app_remove_l in N.
        * now apply edges_app_inv in E.
        * intros z Hz. apply Hl. apply in_or_app. now right.
      + exists (v :: l), u. repeat split; auto.
        * simpl. constructor; auto. rewrite in_app_iff. intros [?|[ -> |[]]]; auto.
        * destruct l as [|z l]; simpl in *; inversion Hh; subst; auto.
        * intros z [<-|Hz]; auto.
  Qed.

  Lemma Found_complete start z :
    listed_cycle out (fun a b => leb a b = true) start z -> Found [start] (out start) z.
  Proof.
    intros (x & c & -> & (Nd & Ed) & Hm & Hr).
    destruct (first_hit (fun v => In v (x :: c)) (fun v => in_dec V_dec v (x :: c)) start x Hr)
      as (l & w & N & E & Hw & Hl & Hh); [now left|].
    (* rotate the cycle to start at w: x :: c = a ++ w :: b *)
    apply in_split in Hw as (a & b & Hab).
    assert (Erot : edges out (w :: b ++ a ++ [w])).
    { change (x :: c ++ [x]) with ((x :: c) ++ [x]) in Ed. rewrite Hab in Ed.
      rewrite <- app_assoc in Ed. simpl in Ed.
      apply edges_app_inv in Ed as [E1 E2].
      destruct a as [|a0 a].
      - simpl in *. inversion Hab; subst. exact E2.
      - simpl in Hab. inversion Hab; subst a0.
        change (w :: b ++ (x :: a) ++ [w]) with ((w :: b) ++ x :: a ++ [w]).
        apply edges_app; [exact E2|exact E1]. }
    assert (Nrot : NoDup (w :: b ++ a)).
    { rewrite Hab in Nd. change (NoDup ((w :: b) ++ a)).
      eapply Permutation_NoDup; [|exact Nd]. apply Permutation_app_comm. }
    (* the full simple path *)
    assert (Hpath : exists q, l ++ w :: b ++ a = start :: q).
    { destruct l; simpl in *; inversion Hh; subst; eauto. }
    destruct Hpath as (q & Hq).
    assert (Nq : NoDup (start :: q)).
    { rewrite <- Hq.
      assert (NoDup l).
      { apply NoDup_app_remove_r in N. auto. }
      clear - H Nrot Hl Hab. induction l as [|y l IH]; auto.
      inversion H; subst. simpl. constructor.
      - rewrite in_app_iff. intros [?|Hy]; auto.
        apply (Hl y); [now left|]. rewrite Hab.
        destruct Hy as [<-|Hy]; [apply in_or_app; right; now left|].
        apply in_app_iff in Hy. apply in_or_app. simpl. tauto.
      - apply IH; auto. intros v Hv. apply Hl. now right. }
    assert (Eq : edges out (start :: q)).
    { rewrite <- Hq. apply edges_app; auto.
      destruct (exists_last (l := w :: b ++ a)) as (t & u & Ht); [easy|].
      change (w :: b ++ a ++ [w]) with (w :: (b ++ (a ++ [w]))) in Erot.
      rewrite app_assoc in Erot. change (w :: (b ++ a) ++ [w]) with ((w :: b ++ a) ++ [w]) in Erot.
      rewrite Ht in *. rewrite <- app_assoc in Erot. simpl in Erot.
      now apply edges_app_inv in Erot. }
    (* last vertex of the path *)
    destruct (exists_last (l := w :: b ++ a)) as (t & u & Ht); [easy|].
    assert (Hu : In w (out u)).
    { change (w :: b ++ a ++ [w]) with (w :: (b ++ (a ++ [w]))) in Erot.
      rewrite app_assoc in Erot. change (w :: (b ++ a) ++ [w]) with ((w :: b ++ a) ++ [w]) in Erot.
      rewrite Ht in Erot. rewrite <- app_assoc in Erot. simpl in Erot.
      apply edges_app_inv in Erot as [_ Erot]. simpl in Erot. tauto. }
    apply Found_extend with (q := q) (top := start); auto.
    - apply incl_refl.
    - change (NoDup (rev q ++ [start])). change (rev q ++ [start]) with (rev (start :: q)).
      now apply NoDup_rev.
    - exists u. change (rev q ++ [start]) with (rev (start :: q)). rewrite <- Hq.
      split.
      + rewrite Ht. rewrite !rev_app_distr. reflexivity.
      + assert (Ez : x :: c ++ [x] = cyc_of w (rev (l ++ w :: b ++ a))).
        { unfold cyc_of. rewrite rev_involutive, index_split, skipn_exact.
          2:{ intros H. apply (Hl w H). rewrite Hab. apply in_or_app. right. now left. }
          destruct a as [|a0 a].
          - simpl in Hab. inversion Hab; subst. rewrite app_nil_r in *.
            pose proof (normalize_at [] b w) as Hna. cbn [app] in Hna.
            rewrite Hna; auto.
            intros y [<-|Hy]; [destruct (leb_total w w); auto|auto].
          - simpl in Hab. inversion Hab; subst a0.
            change (w :: b ++ x :: a) with ((w :: b) ++ x :: a). rewrite normalize_at.
            + simpl. rewrite <- app_assoc. reflexivity.
            + exact Nrot.
            + intros y Hy.
              assert (Hyy : In y (x :: c)).
              { rewrite Hab. apply in_app_iff in Hy. simpl in *.
                rewrite in_app_iff. simpl. tauto. }
              destruct Hyy as [<-|Hyy]; auto. destruct (leb_total x x); auto. }
        rewrite Ez. apply F_back; auto.
        rewrite <- in_rev. apply in_or_app. right. now left.
  Qed.

  (** ** recursive form of the search *)
  Fixpoint visit (k : nat) (stk : list V) (es : list V) (cyc : list (list V)) : list (list V) :=
    match k with
    | O => cyc
    | S k' =>
        fold_left (fun cyc n =>
          if vmem eqb n stk then add_cycle eqb (cyc_of n stk) cyc
          else visit k' (n :: stk) (out n) cyc) es cyc
    end.

  Section Finite.
    Variable u : list V.
    Hypothesis u_closed : forall v w, In v u -> In w (out v) -> In w u.

    Lemma visit_In : forall k stk es cyc z,
      NoDup stk -> incl stk u -> incl es u -> length u < k + length stk ->
      (In z (visit k stk es cyc) <-> In z cyc \/ Found stk es z).
    Proof.
      induction k as [|k IH]; intros stk es cyc z Hn Hs He L.
      - exfalso. apply NoDup_incl_length in Hs; auto. simpl in L. lia.
      - cbn [visit]. revert cyc. induction es as [|n es IHe]; intros cyc.
        + simpl. split; auto. intros [?|H]; auto. inversion H; subst; easy.
        + cbn [fold_left]. rewrite IHe by (intros y Hy; apply He; now right).
          rewrite Found_cons.
          destruct (vmem eqb n stk) eqn:E.
          * rewrite In_add_cycle. tauto.
          * apply vmem_false in E.
            assert (Hu : In n u) by (apply He; now left).
            rewrite IH; [tauto| | | |].
            -- constructor; auto.
            -- intros y [<-|Hy]; auto.
            -- intros y Hy. eapply u_closed; eauto.
            -- simpl. lia.
    Qed.
    Lemma visit_NoDup : forall k stk es cyc, NoDup cyc -> NoDup (visit k stk es cyc).
    Proof.
      induction k as [|k IH]; intros stk es cyc H; auto.
      cbn [visit]. revert cyc H. induction es as [|n es IHe]; intros cyc H; auto.
      cbn [fold_left]. apply IHe. destruct (vmem eqb n stk); auto. now apply NoDup_add_cycle.
    Qed.

    (** ** the loop computes [visit] *)
    (** frames: stack vertices with their pending edges *)
    Definition R (s : wstate) (fr : list (V * list V)) (cyc : list (list V)) : Prop :=
      w_stk s = map fst fr /\ w_cyc s = cyc /\ NoDup (map fst (w_ctx s)) /\
      NoDup (map fst fr) /\
      forall v, dget eqb v (w_ctx s) = dget eqb v fr.
    (** as [R] but the top vertex has not been expanded yet *)
    Definition R0 (s : wstate) (n : V) (fr : list (V * list V)) (cyc : list (list V)) : Prop :=
      w_stk s = n :: map fst fr /\ w_cyc s = cyc /\ NoDup (map fst (w_ctx s)) /\
      NoDup (n :: map fst fr) /\
      forall v, dget eqb v (w_ctx s) = dget eqb v fr.

    Fixpoint steps (n : nat) (s : wstate) : wstate :=
      match n with O => s | S n => steps n (walk_step eqb leb out s) end.
    Lemma steps_add a b s : steps (a + b) s = steps b (steps a s).
    Proof. revert s; induction a; simpl; auto. Qed.

    Lemma dget_fst_cons v (e : list V) fr : dget eqb v ((v, e) :: fr) = Some e.
    Proof. simpl. assert (eqb v v = true) as -> by now apply eqb_ok. auto. Qed.
    Lemma dget_other v w (e : list V) fr : w <> v -> dget eqb w ((v, e) :: fr) = dget eqb w fr.
    Proof.
      intros H. simpl. destruct (eqb w v) eqn:E; auto. apply eqb_ok in E. contradiction.
    Qed.

    (** expanding the top on the fly *)
    Lemma step_R0 s n fr cyc :
      R0 s n fr cyc ->
      exists s', R s' ((n, out n) :: fr) cyc /\ walk_step eqb leb out s = walk_step eqb leb out s'.
    Proof.
      intros (Hs & Hc & Hd & Hn & Hg).
      exists (WState (w_stk s) (dset eqb n (out n) (w_ctx s)) (w_cyc s)).
      assert (Hnone : dget eqb n (w_ctx s) = None).
      { rewrite Hg. apply (dget_None eqb eqb_ok). inversion Hn; auto. }
      split.
      - repeat split; simpl; auto.
        + now apply dset_NoDup.
        + intros v. destruct (eqb v n) eqn:E.
          * apply eqb_ok in E. subst. now apply dget_dset_same.
          * rewrite dget_dset_other; auto. intros ->.
            assert (eqb n n = true) by now apply eqb_ok. congruence.
      - unfold walk_step. simpl. rewrite Hs. unfold dmem. rewrite Hnone.
        rewrite (dget_dset_same eqb eqb_ok). cbv iota.
        rewrite (dget_dset_same eqb eqb_ok). reflexivity.
    Qed.

    Lemma step_R_pop s v p pe fr cyc :
      R s ((v, []) :: (p, v :: pe) :: fr) cyc ->
      R (walk_step eqb leb out s) ((p, pe) :: fr) cyc.
    Proof.
      intros (Hs & Hc & Hd & Hn & Hg). simpl in Hs, Hn.
      inversion Hn as [|? ? Hv Hn']; subst. simpl in Hv.
      assert (Hvp : p <> v) by (intros ->; apply Hv; now left).
      unfold walk_step. rewrite Hs.
      assert (Gv : dget eqb v (w_ctx s) = Some []).
      { rewrite Hg. apply dget_fst_cons. }
      unfold dmem. rewrite Gv. rewrite Gv.
      assert (Gp : dget eqb p (ddel eqb v (w_ctx s)) = Some (v :: pe)).
      { rewrite dget_ddel_other by auto. rewrite Hg, dget_other by auto. apply dget_fst_cons. }
      rewrite Gp. cbn [remove_first]. assert (eqb v v = true) as -> by now apply eqb_ok.
      repeat split; simpl; auto.
      - apply dset_NoDup; auto. now apply ddel_NoDup.
      - intros w. destruct (eqb w p) eqn:E.
        + apply eqb_ok in E. subst. now apply dget_dset_same.
        + assert (w <> p).
          { intros ->. assert (eqb p p = true) by now apply eqb_ok. congruence. }
          rewrite dget_dset_other by auto. destruct (eqb w v) eqn:E2.
          * apply eqb_ok in E2. subst. rewrite dget_ddel_same by auto.
            symmetry. apply (dget_None eqb eqb_ok). intros Hi. apply Hv. now right.
          * assert (w <> v).
            { intros ->. assert (eqb v v = true) by now apply eqb_ok. congruence. }
            rewrite dget_ddel_other by auto. rewrite Hg, !dget_other; auto.
    Qed.
    Lemma step_R_done s v cyc :
      R s [(v, [])] cyc -> w_stk (walk_step eqb leb out s) = [] /\ w_cyc (walk_step eqb leb out s) = cyc.
    Proof.
      intros (Hs & Hc & Hd & Hn & Hg). unfold walk_step. rewrite Hs. simpl.
      assert (Gv : dget eqb v (w_ctx s) = Some []).
      { rewrite Hg. apply dget_fst_cons. }
      unfold dmem. rewrite Gv, Gv. simpl. auto.
    Qed.
    Lemma step_R_back s v n es fr cyc :
      R s ((v, n :: es) :: fr) cyc -> In n (v :: map fst fr) ->
      R (walk_step eqb leb out s) ((v, es) :: fr) (add_cycle eqb (cyc_of n (v :: map fst fr)) cyc).
    Proof.
      intros (Hs & Hc & Hd & Hn & Hg) Hi. unfold walk_step. rewrite Hs. cbn [map fst].
      assert (Gv : dget eqb v (w_ctx s) = Some (n :: es)).
      { rewrite Hg. apply dget_fst_cons. }
      unfold dmem. rewrite Gv, Gv. cbn [map fst] in *.
      assert (vmem eqb n (v :: map fst fr) = true) as -> by now apply vmem_In.
      repeat split; simpl; auto.
      - now rewrite Hc.
      - now apply dset_NoDup.
      - intros w. destruct (eqb w v) eqn:E.
        + apply eqb_ok in E. subst. now apply dget_dset_same.
        + assert (w <> v).
          { intros ->. assert (eqb v v = true) by now apply eqb_ok. congruence. }
          rewrite dget_dset_other by auto. rewrite Hg, dget_other; auto.
    Qed.
    Lemma step_R_push s v n es fr cyc :
      R s ((v, n :: es) :: fr) cyc -> ~ In n (v :: map fst fr) ->
      R0 (walk_step eqb leb out s) n ((v, n :: es) :: fr) cyc.
    Proof.
      intros (Hs & Hc & Hd & Hn & Hg) Hi. unfold walk_step. rewrite Hs. cbn [map fst].
      assert (Gv : dget eqb v (w_ctx s) = Some (n :: es)).
      { rewrite Hg. apply dget_fst_cons. }
      unfold dmem. rewrite Gv, Gv. cbn [map fst] in *.
      assert (vmem eqb n (v :: map fst fr) = false) as -> by now apply vmem_false.
      repeat split; simpl; auto. constructor; auto.
    Qed.

    (** one more step is always available from an R state; a fresh top takes the
        same step as the expanded one *)
    Lemma run_visit : forall k v es fr cyc s,
      R s ((v, es) :: fr) cyc -> incl (v :: map fst fr) u -> incl es u ->
      length u < k + length (v :: map fst fr) ->
      exists m s', steps m s = s' /\ R s' ((v, []) :: fr) (visit k (v :: map fst fr) es cyc).
    Proof.
      induction k as [|k IH]; intros v es fr cyc s HR Hs He L.
      - exfalso. destruct HR as (_ & _ & _ & Hn & _).
        apply NoDup_incl_length in Hs; auto. simpl in *. lia.
      - cbn [visit]. revert cyc s HR. induction es as [|n es IHe]; intros cyc s HR.
        + exists 0, s. simpl. auto.
        + cbn [fold_left]. destruct (vmem eqb n (v :: map fst fr)) eqn:E.
          * apply vmem_In in E. pose proof (step_R_back _ _ _ _ _ _ HR E) as H.
            destruct (IHe (fun y Hy => He y (or_intror Hy)) _ _ H) as (m & s' & Hm & HR').
            exists (S m), s'. auto.
          * apply vmem_false in E. pose proof (step_R_push _ _ _ _ _ _ HR E) as H0.
            destruct (step_R0 _ _ _ _ H0) as (s1 & H1 & E1).
            assert (Hu : In n u) by (apply He; now left).
            destruct (IH n (out n) ((v, n :: es) :: fr) cyc s1) as (m & s2 & Hm & H2); auto.
            { intros y [<-|Hy]; auto. }
            { intros y Hy. eapply u_closed; eauto. }
            { simpl in *. lia. }
            (* at least one step follows: pop *)
            assert (Hpop := step_R_pop _ _ _ _ _ _ H2).
            destruct (IHe (fun y Hy => He y (or_intror Hy)) _ _ Hpop) as (m' & s' & Hm' & HR').
            exists (1 + (m + (1 + m'))), s'. split; [|exact HR'].
            rewrite steps_add. simpl (steps 1 s).
            (* the first step out of the fresh state coincides with that of s1 *)
            assert (Hco : forall j, steps (S j) (walk_step eqb leb out s) = steps (S j) s1).
            { intros j. simpl. now rewrite E1. }
            replace (m + (1 + m')) with (S (m + m')) by lia. rewrite Hco.
            replace (S (m + m')) with (m + (1 + m')) by lia.
            rewrite steps_add, Hm. exact Hm'.
    Qed.

    Lemma walk_loop_steps m s cyc :
      w_stk (steps m s) = [] -> w_cyc (steps m s) = cyc ->
      walk_loop eqb leb m out s = Ok cyc.
    Proof.
      revert s. induction m as [|m IH]; intros s H1 H2; simpl in *.
      - rewrite H1, H2. auto.
      - destruct (w_stk s) eqn:E.
        + f_equal. rewrite <- H2. clear - E.
          assert (Hfix : walk_step eqb leb out s = s) by (unfold walk_step; now rewrite E).
          rewrite Hfix. induction m; simpl; auto. now rewrite Hfix.
        + apply IH; auto.
    Qed.
    Lemma walk_loop_mono m m' s r :
      walk_loop eqb leb m out s = Ok r -> m <= m' -> walk_loop eqb leb m' out s = Ok r.
    Proof.
      revert m' s. induction m as [|m IH]; intros m' s H L.
      - simpl in H. destruct m'; simpl; destruct (w_stk s); auto; discriminate.
      - destruct m' as [|m']; [lia|]. simpl in *. destruct (w_stk s); auto. apply IH; auto. lia.
    Qed.

    Lemma walk_visit start cyc : In start u ->
      exists m, forall m', m <= m' ->
        walk eqb leb m' start out cyc = Ok (visit (length u) [start] (out start) cyc).
    Proof.
      intros Hu.
      assert (H0 : R0 (WState [start] [] cyc) start [] cyc).
      { repeat split; simpl; auto; repeat constructor; auto. }
      destruct (step_R0 _ _ _ _ H0) as (s1 & H1 & E1).
      destruct (run_visit (length u) start (out start) [] cyc s1) as (m & s' & Hm & H2); auto.
      { intros y [<-|[]]; auto. }
      { intros y Hy. eapply u_closed; eauto. }
      { simpl. lia. }
      destruct (step_R_done _ _ _ H2) as [Ha Hb].
      assert (Hst : steps (S m) (WState [start] [] cyc) = walk_step eqb leb out s').
      { replace (S m) with (m + 1) by lia.
        assert (forall j, steps (S j) (WState [start] [] cyc) = steps (S j) s1).
        { intros j. simpl. now rewrite E1. }
        rewrite Nat.add_1_r, H, <- Nat.add_1_r, steps_add, Hm. reflexivity. }
      exists (S m). intros m' L. unfold walk. eapply walk_loop_mono; [|exact L].
      apply walk_loop_steps; rewrite Hst; auto.
    Qed.
  End Finite.

  Lemma walk_correct start cyc :
    finite_graph out start ->
    exists r m, (forall m', m <= m' -> walk eqb leb m' start out cyc = Ok r) /\
      (forall z, In z r <-> In z cyc \/ listed_cycle out (fun a b => leb a b = true) start z) /\
      (NoDup cyc -> NoDup r).
  Proof.
    intros (u & Hu & Hc).
    destruct (walk_visit u Hc start cyc Hu) as (m & Hm).
    eexists _, m. split; [exact Hm|]. split.
    - intros z. rewrite (visit_In u Hc).
      + split; (intros [H|H]; [now left|right]).
        * eapply Found_sound; eauto; [|apply incl_refl].
          repeat split; simpl; eauto. repeat constructor; auto.
        * now apply Found_complete.
      + repeat constructor; auto.
      + intros y [<-|[]]; auto.
      + intros y Hy. eapply Hc; eauto.
      + simpl. lia.
    - intros H. now apply visit_NoDup.
  Qed.
  (** any [Ok] result, whatever the fuel, is that result *)
  Lemma walk_Ok_unique start cyc m1 m2 r1 r2 :
    walk eqb leb m1 start out cyc = Ok r1 -> walk eqb leb m2 start out cyc = Ok r2 -> r1 = r2.
  Proof.
    intros H1 H2. unfold walk in *.
    apply walk_loop_mono with (m' := m1 + m2) in H1; [|lia].
    apply walk_loop_mono with (m' := m1 + m2) in H2; [|lia]. congruence.
  Qed.
End Walk.

(** * str is a totally ordered vertex type *)
Lemma str_leb_refl a : str_leb a a = true.
Proof. induction a; simpl; auto. now rewrite Ascii.eqb_refl. Qed.
Lemma nat_of_ascii_inj a b : nat_of_ascii a = nat_of_ascii b -> a = b.
Proof. intros H. rewrite <- (ascii_nat_embedding a), <- (ascii_nat_embedding b). now f_equal. Qed.
Lemma str_leb_total a b : str_leb a b = true \/ str_leb b a = true.
Proof.
  revert b. induction a as [|x a IH]; intros [|y b]; simpl; auto.
  rewrite (Ascii.eqb_sym y x). destruct (Ascii.eqb_spec x y); auto.
  assert (nat_of_ascii x <> nat_of_ascii y) by (intros H; apply n, nat_of_ascii_inj, H).
  rewrite !Nat.ltb_lt. lia.
Qed.
Lemma str_leb_antisym a b : str_leb a b = true -> str_leb b a = true -> a = b.
Proof.
  revert b. induction a as [|x a IH]; intros [|y b]; simpl; auto; try discriminate.
  rewrite (Ascii.eqb_sym y x). destruct (Ascii.eqb_spec x y) as [ -> |N].
  - intros. f_equal. auto.
  - rewrite !Nat.ltb_lt. lia.
Qed.
Lemma str_leb_trans a b c : str_leb a b = true -> str_leb b c = true -> str_leb a c = true.
Proof.
  revert b c. induction a as [|x a IH]; intros [|y b] [|z c]; simpl; auto; try discriminate.
  destruct (Ascii.eqb_spec x y) as [ -> |N1].
  - destruct (Ascii.eqb_spec y z); eauto.
  - destruct (Ascii.eqb_spec y z) as [ -> |N2].
    + destruct (Ascii.eqb_spec x z); [congruence|]. auto.
    + rewrite !Nat.ltb_lt. intros. destruct (Ascii.eqb_spec x z) as [ -> |N3]; [lia|].
      rewrite Nat.ltb_lt. lia.
Qed.

(** * CycleDetector *)
Section Detect.
  Variable doc : sdict sch.
  Notation out := (schema_out doc).
  Notation le := (fun a b => str_leb a b = true).

  Definition all_refs : list str := flat_map (fun p => schema_out_obj (snd p)) doc.
  Lemma doc_finite start : finite_graph out start.
  Proof.
    exists (start :: all_refs). split; [now left|].
    intros v w _ H. right. unfold schema_out in H.
    destruct (sget v doc) as [s|] eqn:E; [|easy]. apply sget_In in E.
    unfold all_refs. apply in_flat_map. exists (v, s). auto.
  Qed.

  Lemma detect_correct paths : forall cyc,
    exists r m, (forall m', m <= m' -> detect m' doc paths cyc = Ok r) /\
      (forall z, In z r <-> In z cyc \/ exists p, In p paths /\ listed_cycle out le p z) /\
      (NoDup cyc -> NoDup r).
  Proof.
    induction paths as [|p paths IH]; intros cyc.
    - exists cyc, 0. simpl. split; auto. split; auto.
      intros z. split; auto. intros [?|(p & [] & _)]. auto.
    - destruct (walk_correct str_eqb str_leb str_eqb_eq str_leb_total str_leb_trans
                  str_leb_antisym out p cyc (doc_finite p)) as (r1 & m1 & W & S1 & N1).
      destruct (IH r1) as (r & m & D & S2 & N2).
      exists r, (m1 + m). split; [|split; auto].
      + intros m' L. simpl. rewrite W by lia. cbn [bind]. apply D. lia.
      + intros z. rewrite S2, S1. split.
        * intros [[H|H]|(q & Hq & H)]; auto.
          -- right. exists p. split; auto. now left.
          -- right. exists q. split; auto. now right.
        * intros [H|(q & [<-|Hq] & H)]; auto. right. eauto.
  Qed.
  Lemma detect_unique paths : forall cyc m1 m2 r1 r2,
    detect m1 doc paths cyc = Ok r1 -> detect m2 doc paths cyc = Ok r2 -> r1 = r2.
  Proof.
    induction paths as [|p paths IH]; intros cyc m1 m2 r1 r2 H1 H2; simpl in *.
    - congruence.
    - destruct (walk str_eqb str_leb m1 p out cyc) eqn:W1; [|discriminate].
      destruct (walk str_eqb str_leb m2 p out cyc) eqn:W2; [|discriminate].
      cbn [bind] in *.
      assert (a = a0) by (eapply walk_Ok_unique; eauto). subst. eauto.
  Qed.
End Detect.

(** * Consequences in terms of circular references *)
Lemma deref_loop_cycle h fuel : forall g cur,
  (forall x, In x g -> chain_to (ref_obj h) x cur) ->
  deref_loop fuel h g cur = Err CycleDetectionError ->
  exists x n, chain_to (ref_obj h) cur x /\ ref_obj h x = Some n /\ chain_to (ref_obj h) n x.
Proof.
  induction fuel as [|fuel IH]; intros g cur Hg H; [discriminate|].
  cbn [deref_loop] in H. destruct (ref_obj h cur) as [n|] eqn:E; [|discriminate].
  unfold guard_update in H. destruct (existsb (Nat.eqb n) g) eqn:X; cbn [bind] in H.
  - apply existsb_eqb_In in X. exists cur, n. repeat split; auto. constructor.
  - apply IH in H as (x & m & A & B & C).
    + exists x, m. repeat split; auto. econstructor; eauto.
    + assert (T : forall a, chain_to (ref_obj h) a cur -> chain_to (ref_obj h) a n).
      { intros a Ha. induction Ha; [|econstructor; eauto].
        econstructor; eauto. constructor. }
      intros x Hx. apply in_app_iff in Hx as [Hx|[<-|[]]]; [auto|constructor].
Qed.
Lemma deref_cycle_iff h o :
  deref h o [] = Err CycleDetectionError <->
  exists x n, chain_to (ref_obj h) o x /\ ref_obj h x = Some n /\ chain_to (ref_obj h) n x.
Proof.
  split.
  - unfold deref, guard_update. cbn [existsb bind]. intros H.
    eapply deref_loop_cycle; [|exact H].
    intros x [<-|[]]. constructor.
  - intros (x & n & A & B & C).
    destruct (deref h o []) as [[e g']|e] eqn:E.
    + exfalso.
      assert (Hok : exists g', deref h o [] = Ok (e, g')) by eauto.
      apply deref_Ok_iff in Hok as (D & F & _).
      assert (Hdet : forall a b c, chain_to (ref_obj h) a b -> chain_to (ref_obj h) a c ->
                chain_to (ref_obj h) b c \/ chain_to (ref_obj h) c b).
      { intros a b c H1. revert c. induction H1 as [a|a m b H0 H1 IH]; intros c H2; auto.
        destruct H2 as [a|a m' c H3 H4].
        - right. econstructor; eauto.
        - assert (m = m') by congruence. subst. auto. }
      assert (Hterm : forall a b, ref_obj h a = None -> chain_to (ref_obj h) a b -> a = b).
      { intros a b Ha Hb. destruct Hb; auto. congruence. }
      (* the end of the chain is reachable from x, hence x lies on an infinite chain *)
      assert (Hx : chain_to (ref_obj h) x e).
      { destruct (Hdet _ _ _ A D) as [H|H]; auto.
        apply (Hterm _ _ F) in H. subst. congruence. }
      clear - Hx F B C. revert n B C.
      induction Hx as [a|a m b H0 H1 IH]; intros n B C.
      * congruence.
      * assert (m = n) by congruence. subst.
        destruct C as [a|n k a H2 H3].
        { eapply IH; eauto. constructor. }
        { eapply (IH F k); eauto.
          assert (T : forall q, chain_to (ref_obj h) q a -> chain_to (ref_obj h) q n).
          { intros q Hq. induction Hq; econstructor; eauto. constructor. }
          auto. }
    + f_equal. eapply deref_errs; eauto.
Qed.

Section Circular.
  Variable out : str -> list str.
  Notation le := (fun a b => str_leb a b = true).

  Lemma circular_elementary x y :
    In y (out x) -> reach out y x -> exists c, elementary_cycle out x c.
  Proof.
    intros Hy Hr.
    destruct (first_hit str_eqb str_eqb_eq out (fun v => v = x)
                (fun v => str_eq_dec v x) y x Hr eq_refl)
      as (l & w & N & E & -> & _ & Hh).
    exists l. split.
    - apply NoDup_rev in N. rewrite rev_app_distr in N. simpl in N.
      inversion N; subst. constructor; [now rewrite in_rev|].
      rewrite <- rev_involutive. now apply NoDup_rev.
    - destruct l as [|z l]; simpl in Hh; inversion Hh; subst; simpl in *; auto.
  Qed.

  Lemma elementary_listed start x c :
    elementary_cycle out x c -> reach out start x -> exists z, listed_cycle out le start z.
  Proof.
    intros (N & E) Hr.
    destruct (exists_min str_leb str_leb_total str_leb_trans str_leb_antisym (x :: c)) as (a & m & b & Hxy & Hm); [easy|].
    exists (m :: (b ++ a) ++ [m]). exists m, (b ++ a). split; [reflexivity|].
    split; [split|split].
    - rewrite Hxy in N. change (NoDup ((m :: b) ++ a)).
      eapply Permutation_NoDup; [|exact N]. apply Permutation_app_comm.
    - change (x :: c ++ [x]) with ((x :: c) ++ [x]) in E. rewrite Hxy in E.
      rewrite <- app_assoc in E. simpl in E. apply edges_app_inv in E as [E1 E2].
      rewrite <- app_assoc. destruct a as [|a0 a].
      + simpl in *. inversion Hxy; subst. exact E2.
      + simpl in Hxy. inversion Hxy; subst a0.
        change (m :: b ++ (x :: a) ++ [m]) with ((m :: b) ++ x :: a ++ [m]).
        apply edges_app; [exact E2|exact E1].
    - intros v Hv. apply Hm. rewrite Hxy. apply in_app_iff in Hv. apply in_or_app. simpl. tauto.
    - eapply reach_trans; [exact Hr|].
      change (x :: c ++ [x]) with ((x :: c) ++ [x]) in E. rewrite Hxy in E.
      rewrite <- app_assoc in E. apply edges_app_inv in E as [E1 _].
      destruct a as [|a0 a]; simpl in *; inversion Hxy; subst; [constructor|].
      eapply edges_reach with (l := a ++ [m]); [exact E1|].
      right. apply in_or_app. right. now left.
  Qed.

  Lemma listed_circular start z :
    listed_cycle out le start z ->
    exists x y, reach out start x /\ In y (out x) /\ reach out y x.
  Proof.
    intros (x & c & -> & (N & E) & _ & Hr). exists x.
    destruct c as [|y c].
    - simpl in E. exists x. repeat split; auto; [tauto|constructor].
    - exists y. destruct E as [E1 E2]. repeat split; auto.
      eapply edges_reach; [exact E2|]. right. apply in_or_app. right. now left.
  Qed.
  Lemma circular_listed start x y :
    reach out start x -> In y (out x) -> reach out y x -> exists z, listed_cycle out le start z.
  Proof.
    intros H1 H2 H3. destruct (circular_elementary _ _ H2 H3) as (c & Hc).
    eapply elementary_listed; eauto.
  Qed.
End Circular.

Lemma prepare_strict_iff doc paths r m :
  detect m doc paths [] = Ok r ->
  (prepare_cycle_check true r = Err CycleDetectionError <->
   exists p x y, In p paths /\ reach (schema_out doc) p x /\
                 In y (schema_out doc x) /\ reach (schema_out doc) y x).
Proof.
  intros H. destruct (detect_correct doc paths []) as (r' & m' & D & S & _).
  assert (r = r') by (eapply detect_unique; [exact H|apply (D m'); auto]). subst r'.
  unfold prepare_cycle_check. split.
  - destruct r as [|z r]; simpl; [discriminate|]. intros _.
    destruct (S z) as [[[]|(p & Hp & Hz)] _]; [now left|].
    apply listed_circular in Hz as (x & y & A & B & C). eauto 10.
  - intros (p & x & y & Hp & A & B & C).
    destruct (circular_listed _ _ _ _ A B C) as (z & Hz).
    assert (In z r) by (apply S; right; eauto). destruct r; [easy|]. reflexivity.
Qed.
