(** The order in which objects are visited. *)
From Coq Require Import Lia.
From Verif Require Import PyBase PyFacts PyJson S_JsonPtr M_JsonPtr P_JsonPtr M_SpecVal M_Parse M_SpecTree S_Parse S_SpecTree P_SpecBase P_Parse P_SpecTree.
Close Scope Q_scope.

(** [b] occurs after [a]. *)
Definition precede {A} (l : list A) (a b : A) : Prop := exists l1 l2, l = l1 ++ a :: l2 /\ In b l2.
Lemma precede_app_l {A} (l l' : list A) a b : precede l a b -> precede (l ++ l') a b.
Proof. intros (l1 & l2 & -> & I). exists l1, (l2 ++ l'). split; [now rewrite <- app_assoc|]. apply in_or_app. now left. Qed.
Lemma precede_app_r {A} (l l' : list A) a b : precede l a b -> precede (l' ++ l) a b.
Proof. intros (l1 & l2 & -> & I). exists (l' ++ l1), l2. split; [now rewrite app_assoc|exact I]. Qed.
Lemma precede_both {A} (l l' : list A) a b : In a l -> In b l' -> precede (l ++ l') a b.
Proof. intros I J. apply in_split in I as (l1 & l2 & ->). exists l1, (l2 ++ l'). split; [now rewrite <- app_assoc|]. apply in_or_app. now right. Qed.
Lemma precede_map {A B} (f : A -> B) l a b : precede l a b -> precede (map f l) (f a) (f b).
Proof. intros (l1 & l2 & -> & I). exists (map f l1), (map f l2). split; [now rewrite map_app|now apply in_map]. Qed.
Lemma precede_rev {A} (l : list A) a b : precede l a b -> precede (rev l) b a.
Proof.
  intros (l1 & l2 & -> & I). rewrite rev_app_distr. cbn [rev]. apply precede_app_l. apply precede_both; [now apply in_rev in I|now left].
Qed.
Lemma precede_not {A} (l : list A) a b : NoDup l -> precede l a b -> precede l b a -> False.
Proof.
  revert a b. induction l as [|x l IH]; intros a b N (l1 & l2 & E & I) (m1 & m2 & E' & I'); [destruct l1; discriminate E|]. inversion N as [|? ? NI N']; subst. destruct l1 as [|y l1]; destruct m1 as [|z m1].
  - injection E as -> ->. injection E' as -> _. contradiction.
  - injection E as -> ->. injection E' as -> ->. apply NI. apply in_or_app. right. now right.
  - injection E as -> ->. injection E' as -> E'. apply NI. apply in_or_app. right. now right.
  - injection E as -> ->. injection E' as -> E'. apply (IH a b N'); [exists l1, l2; auto|exists m1, m2; auto].
Qed.

Lemma NoDup_app_disjoint {A} (l m : list A) : NoDup (l ++ m) -> forall x, In x l -> ~ In x m.
Proof.
  induction l as [|y l IH]; intros N x I J; [destruct I|]. cbn in N. inversion N as [|? ? NI N']; subst. destruct I as [->|I]; [apply NI, in_or_app; now right|exact (IH N' x I J)].
Qed.

Section Visits.
  Context (leaves : list cls).
  (** The objects visited with a stack, its top first *)
  Inductive visits : list (str * val) -> list (str * val) -> Prop :=
  | visits_nil : visits [] []
  | visits_cons p o st a b : visits (rev (pushed leaves p o)) a -> visits st b -> visits ((p, o) :: st) ((p, o) :: a ++ b).
  Lemma visits_app s : forall t r, visits (s ++ t) r -> exists a b, r = a ++ b /\ visits s a /\ visits t b.
  Proof.
    induction s as [|[p o] s IH]; intros t r V; cbn [app] in V; [exists [], r; split; [reflexivity|]; split; [constructor|exact V]|]. inversion V as [|? ? ? a b A B]; subst.
    destruct (IH _ _ B) as (b1 & b2 & -> & B1 & B2). exists ((p, o) :: a ++ b1), b2. split; [cbn; now rewrite app_assoc|]. split; [now constructor|exact B2].
  Qed.
  Definition good (po : str * val) : Prop := fst po <> [] /\ wfv (snd po) /\ is_obj (snd po).
  Lemma pushed_good p o : good (p, o) -> Forall good (rev (pushed leaves p o)).
  Proof.
    intros (P & W & O). cbn [fst snd] in *. apply Forall_rev. apply Forall_forall. intros [q y] I. apply pushed_In in I as (_ & us & I & ->). destruct (child_list_wf _ _ _ W I) as (WY & OY & _). split; [now apply pointer_nonempty|auto].
  Qed.
  Lemma walk_visits fuel : forall st r, Forall good st -> walk_stack fuel leaves (rev st) = Ok r -> visits st r.
  Proof.
    induction fuel as [|fuel IH]; intros st r G E.
    - destruct st as [|[p o] st]; [cbn in E; injection E as <-; constructor|]. exfalso. cbn [rev] in E. destruct (rev st ++ [(p, o)]) eqn:Q; [now apply app_eq_nil in Q as (_ & Q)|]. cbn in E. discriminate E.
    - destruct st as [|[p o] st]; [cbn in E; injection E as <-; constructor|]. cbn [rev] in E. inversion G as [|? ? (P & W & O) G']; subst. cbn [fst snd] in *. rewrite walk_push in E by assumption.
      destruct (walk_stack fuel leaves (rev st ++ pushed leaves p o)) as [r'|] eqn:R; [|discriminate E]. cbn [bind] in E. injection E as <-.
      rewrite <- (rev_involutive (pushed leaves p o)), <- rev_app_distr in R. apply IH in R; [|apply Forall_app; split; [apply pushed_good; now split|exact G']]. apply visits_app in R as (a & b & -> & A & B). now constructor.
  Qed.
  Lemma visits_In st r : visits st r -> Forall good st -> forall q x, In (q, x) r <-> exists p o ts, In (p, o) st /\ q = rfc_pointer p ts /\ reach leaves o ts x /\ is_obj x.
  Proof.
    induction 1 as [|p o st a b A IHA B IHB]; intros G q x; [split; [intros []|now intros (p & o & ts & [] & _)]|]. inversion G as [|? ? GO G']; subst. cbn [In]. rewrite in_app_iff, (IHA (pushed_good _ _ GO)), (IHB G'). destruct GO as (P & W & O). cbn [fst snd] in *. split.
    - intros [E|[(p' & o' & ts & I & -> & R & OX)|(p' & o' & ts & I & -> & R & OX)]].
      + injection E as <- <-. exists p, o, []. rewrite pointer_nil. split; [now left|]. split; [reflexivity|]. split; [apply reach_here|exact O].
      + apply in_rev, pushed_In in I as (LF & us & I & ->). exists p, o, (us ++ ts). split; [now left|]. split; [now rewrite pointer_app|]. split; [|exact OX]. apply (reach_children leaves o _ _ W O OX). right. split; [exact LF|]. eauto 6.
      + exists p', o', ts. auto.
    - intros (p' & o' & ts & [E|I] & -> & R & OX); [|right; right; eauto 7]. injection E as <- <-. apply (reach_children leaves o _ _ W O OX) in R as [(-> & ->)|(LF & us & y & vs & I & -> & R)]; [left; now rewrite pointer_nil|].
      right. left. exists (rfc_pointer p us), y, vs. split; [apply -> in_rev; apply pushed_In; eauto|]. split; [now rewrite pointer_app|auto].
  Qed.
  Lemma visits_block st r : visits st r -> Forall good st -> forall l1 p o l2, r = l1 ++ (p, o) :: l2 -> exists a b, l2 = a ++ b /\ good (p, o) /\ visits (rev (pushed leaves p o)) a.
  Proof.
    induction 1 as [|p o st a b A IHA B IHB]; intros G l1 q x l2 E; [destruct l1; discriminate E|]. inversion G as [|? ? GO G']; subst. destruct l1 as [|c l1]; cbn [app] in E.
    - injection E as <- <- <-. exists a, b. auto.
    - injection E as _ E. apply app_eq_app in E as (l & [(-> & E)|(-> & E)]).
      + destruct l as [|y l]; cbn [app] in E.
        * destruct (IHB G' [] q x l2) as (a' & b' & H); [now rewrite E|]. eauto.
        * injection E as <- ->. destruct (IHA (pushed_good _ _ GO) l1 q x l eq_refl) as (a' & b' & -> & GX & V). exists a', (b' ++ b). rewrite app_assoc. auto.
      + destruct (IHB G' l q x l2) as (a' & b' & H); [now rewrite E|]. eauto.
  Qed.
  Lemma visits_sub st r : visits st r -> forall p o, In (p, o) st -> exists r1 a r2, r = r1 ++ ((p, o) :: a) ++ r2 /\ visits [(p, o)] ((p, o) :: a).
  Proof.
    intros V p o I. apply in_split in I as (s1 & s2 & ->). apply visits_app in V as (a & b & -> & _ & B). inversion B as [|? ? ? c d C D]; subst. exists a, c, d. split; [cbn; reflexivity|]. rewrite <- (app_nil_r c). constructor; [exact C|constructor].
  Qed.
  Lemma visits_stack st r : visits st r -> Forall good st -> forall p o p' o' ts x us y, precede st (p, o) (p', o') -> reach leaves o ts x -> is_obj x -> reach leaves o' us y -> is_obj y ->
    precede r (rfc_pointer p ts, x) (rfc_pointer p' us, y).
  Proof.
    intros V G p o p' o' ts x us y (s1 & s2 & -> & I) RX OX RY OY. change (s1 ++ (p, o) :: s2) with (s1 ++ [(p, o)] ++ s2) in *. rewrite app_assoc in V, G. apply visits_app in V as (a & b & -> & A & B). apply Forall_app in G as (G1 & G2).
    apply precede_both; [apply (visits_In _ _ A G1)|apply (visits_In _ _ B G2)]; [exists p, o, ts|exists p', o', us]; (split; [|auto]); [apply in_or_app; right; now left|exact I].
  Qed.

  (** The places in order *)
  Lemma step_unique v t x y : wfv v -> step v t x -> step v t y -> x = y.
  Proof.
    intros W A. inversion A; subst; intro B; inversion B; subst; try congruence. match goal with H : str_of_nat _ = str_of_nat _ |- _ => apply str_of_nat_inj in H; subst end. congruence.
  Qed.
  Definition entries (v : val) : sdict val := match v with VObj _ fs _ => fs | VList l => number 0 l | VDict d => d | _ => [] end.
  Lemma entries_nodup v : wfv v -> NoDup (map fst (entries v)).
  Proof.
    intro W. inversion W as [| | | | |? F|? N F|? ? ? K F]; subst; cbn [entries]; try constructor; [apply number_nodup|exact N|rewrite K; apply fields_nodup].
  Qed.
  Lemma number_after {A} (l : list A) : forall k i j x y, i < j -> nth_error l i = Some x -> nth_error l j = Some y -> precede (number k l) (str_of_nat (k + i), x) (str_of_nat (k + j), y).
  Proof.
    induction l as [|z l IH]; intros k i j x y L I J; [now destruct i|]. cbn [number]. destruct j as [|j]; [lia|]. destruct i as [|i]; cbn [nth_error] in I, J.
    - injection I as ->. rewrite Nat.add_0_r. exists [], (number (S k) l). split; [reflexivity|]. apply number_get. split; [lia|]. replace (k + S j - S k) with j by lia. exact J.
    - replace (k + S i) with (S k + i) by lia. replace (k + S j) with (S k + j) by lia. apply (precede_app_r _ [(str_of_nat k, z)]). apply IH; [lia|auto..].
  Qed.
  Lemma before_entries v t t' : step_before v t t' -> exists x y, precede (entries v) (t, x) (t', y).
  Proof.
    destruct 1 as [h f1 n x f2 m y f3 i|l i j L1 L2|d1 n x d2 m y d3]; cbn [entries].
    - exists x, y. exists f1, (f2 ++ (m, y) :: f3). split; [reflexivity|]. apply in_or_app. right. now left.
    - destruct (nth_error l i) as [x|] eqn:I; [|apply nth_error_None in I; lia]. destruct (nth_error l j) as [y|] eqn:J; [|apply nth_error_None in J; lia]. exists x, y. exact (number_after l 0 i j x y L1 I J).
    - exists x, y. exists d1, (d2 ++ (m, y) :: d3). split; [reflexivity|]. apply in_or_app. right. now left.
  Qed.
  Lemma step_entries v t x : wfv v -> step v t x -> In (t, x) (entries v).
  Proof.
    intros W S'. inversion S'; subst; cbn [entries]; [now apply sget_In|apply number_In; eauto|now apply sget_In].
  Qed.
  Lemma precede_keys (d : sdict val) k x k' x' y y' : NoDup (map fst d) -> precede d (k, x) (k', x') -> In (k, y) d -> In (k', y') d -> precede d (k, y) (k', y').
  Proof.
    intros N P I I'. assert (In (k, x) d) by (destruct P as (l1 & l2 & -> & _); apply in_or_app; right; now left). assert (In (k', x') d) by (destruct P as (l1 & l2 & -> & J); apply in_or_app; right; now right).
    apply In_sget in I, I', H, H0; try exact N. assert (x = y) as <- by congruence. assert (x' = y') as <- by congruence. exact P.
  Qed.
  Lemma below_all_order d k y k' y' us z us' z' : precede d (k, y) (k', y') -> In (us, z) (below y) -> In (us', z') (below y') -> precede (below_all d) (k :: us, z) (k' :: us', z').
  Proof.
    intros (d1 & d2 & -> & I) J J'. unfold below_all. change (d1 ++ (k, y) :: d2) with (d1 ++ [(k, y)] ++ d2). rewrite app_assoc, flat_map_app. apply precede_both.
    - apply in_flat_map. exists (k, y). split; [apply in_or_app; right; now left|]. apply in_map_iff. exists (us, z). auto.
    - apply in_flat_map. exists (k', y'). split; [exact I|]. apply in_map_iff. exists (us', z'). auto.
  Qed.
  Lemma below_entries v : ~ is_obj v -> below v = below_all (entries v).
  Proof. destruct v; intro N; try reflexivity; [apply below_list|apply below_dict|elim N; exact I]. Qed.
  (** the parts below the entries [d] *)
  Definition below_spec (v : val) : Prop := wfv v -> forall us z us' z' vs vs', In (us, z) (below v) -> In (us', z') (below v) -> us <> us' -> earlier v (us ++ vs) (us' ++ vs') -> precede (below v) (us, z) (us', z').
  Lemma wfv_entries v k x : wfv v -> In (k, x) (entries v) -> wfv x.
  Proof.
    intros W I. inversion W as [| | | | |? F|? N F|? ? ? K F]; subst; cbn [entries] in I; try destruct I; rewrite Forall_forall in F.
    - apply number_In in I as (j & _ & N). apply F. eapply nth_error_In; eauto.
    - exact (F _ I).
    - exact (F _ I).
  Qed.
  Lemma below_all_spec v : wfv v -> (forall k x, In (k, x) (entries v) -> below_spec x) ->
    forall us z us' z' vs vs', In (us, z) (below_all (entries v)) -> In (us', z') (below_all (entries v)) -> us <> us' -> earlier v (us ++ vs) (us' ++ vs') -> precede (below_all (entries v)) (us, z) (us', z').
  Proof.
    intros W H us z us' z' vs vs' I I' NE E. apply below_all_In in I as (k & u & y & -> & I & J), I' as (k' & u' & y' & -> & I' & J'). cbn [app] in E. inversion E as [? ? ? ? ? B|? ? x ? ? S' E']; subst.
    - apply before_entries in B as (x & x' & P). eapply below_all_order; [|exact J|exact J']. eapply precede_keys; eauto using entries_nodup.
    - apply step_entries in S'; [|exact W]. pose proof (entries_nodup v W) as N. assert (y = x) as <- by (apply In_sget in I, S'; [congruence|exact N..]). assert (y' = y) as -> by (apply In_sget in I, I'; [congruence|exact N..]).
      assert (NE' : u <> u') by congruence. pose proof (H _ _ I (wfv_entries _ _ _ W I) _ _ _ _ _ _ J J' NE' E') as P. apply in_split in I as (d1 & d2 & ->). unfold below_all. rewrite flat_map_app. cbn [flat_map fst snd]. apply precede_app_r, precede_app_l.
      exact (precede_map (fun p => (k' :: fst p, snd p)) _ _ _ P).
  Qed.
  Lemma below_ok v : below_spec v.
  Proof.
    induction v using val_ind'; intros W us w us' w' vs vs' I I' NE E.
    1-5: now destruct I.
    - rewrite below_entries in * by (intros []). eapply below_all_spec; eauto. intros k x J. cbn [entries] in J. apply number_In in J as (j & _ & N). rewrite Forall_forall in H. apply H. eapply nth_error_In; eauto.
    - rewrite below_entries in * by (intros []). eapply below_all_spec; eauto. intros k x J. rewrite Forall_forall in H. exact (H _ J).
    - cbn [below] in I, I'. destruct I as [I|[]]. destruct I' as [I'|[]]. congruence.
  Qed.
  Lemma children_order o us z us' z' vs vs' : wfv o -> In (us, z) (child_list o) -> In (us', z') (child_list o) -> us <> us' -> earlier o (us ++ vs) (us' ++ vs') -> precede (child_list o) (us, z) (us', z').
  Proof.
    intros W I I' NE E. destruct o as [| | | | | | |h fs ints]; try destruct I. apply (below_all_spec (VObj h fs ints)) with (vs := vs) (vs' := vs'); auto. intros k x _. apply below_ok.
  Qed.
  (** Going down a common part *)
  Lemma earlier_inside v us y : inside v us y -> wfv v -> forall vs vs', earlier v (us ++ vs) (us ++ vs') -> is_obj y -> earlier y vs vs'.
  Proof.
    induction 1 as [v|l i v us y N I IH|d k v us y G I IH]; intros W vs vs' E O; cbn [app] in E; [exact E|..].
    - inversion E as [? ? ? ? ? B|? ? x ? ? S' E']; subst.
      + exfalso. inversion B; subst. repeat match goal with H : str_of_nat _ = str_of_nat _ |- _ => apply str_of_nat_inj in H end. lia.
      + rewrite (step_unique _ _ _ v W S') in E' by now constructor. apply IH; auto. inversion W as [| | | | |? F| |]; subst. rewrite Forall_forall in F. apply F. eapply nth_error_In; eauto.
    - inversion E as [? ? ? ? ? B|? ? x ? ? S' E']; subst.
      + exfalso. pose proof (entries_nodup _ W) as ND. apply before_entries in B as (x & x' & (l1 & l2 & E1 & I1)). rewrite E1, map_app in ND. cbn [map fst] in ND. apply NoDup_remove_2 in ND. apply ND. apply in_or_app. right. exact (in_map fst _ _ I1).
      + rewrite (step_unique _ _ _ v W S') in E' by now constructor. apply IH; auto. inversion W as [| | | | | |? ? F|]; subst. rewrite Forall_forall in F. apply sget_In in G. exact (F _ G).
  Qed.
  Lemma earlier_child o us y : wfv o -> In (us, y) (child_list o) -> forall vs vs', earlier o (us ++ vs) (us ++ vs') -> earlier y vs vs'.
  Proof.
    intros W I vs vs' E. destruct o as [| | | | | | |h fs ints]; try destruct I. cbn [child_list] in I. apply below_all_In in I as (n & us' & x & -> & I & J). pose proof (wfv_entries (VObj h fs ints) n x W I) as WX. apply below_inside in J as (J & O); [|exact WX].
    cbn [app] in E. inversion E as [? ? ? ? ? B|? ? x' ? ? S' E']; subst.
    - exfalso. pose proof (entries_nodup _ W) as ND. apply before_entries in B as (y1 & y2 & (l1 & l2 & E1 & I1)). rewrite E1, map_app in ND. cbn [map fst] in ND. apply NoDup_remove_2 in ND. apply ND. apply in_or_app. right. exact (in_map fst _ _ I1).
    - apply In_sget in I; [|exact (entries_nodup _ W)]. rewrite (step_unique _ _ _ x W S') in E' by now constructor. eapply earlier_inside; eauto.
  Qed.
  Lemma earlier_not_nil v us us' : earlier v us us' -> us <> [] /\ us' <> [].
  Proof. destruct 1; split; discriminate. Qed.
  Lemma order n : forall p o r ts x us y, length ts <= n -> good (p, o) -> visits [(p, o)] r -> reach leaves o ts x -> is_obj x -> reach leaves o us y -> is_obj y -> earlier o ts us ->
    precede r (rfc_pointer p us, y) (rfc_pointer p ts, x).
  Proof.
    induction n as [|n IH]; intros p o r ts x us y L G V RX OX RY OY E; destruct (earlier_not_nil _ _ _ E) as (N1 & N2); [destruct ts; [congruence|cbn in L; lia]|].
    pose proof G as (P & W & O). cbn [fst snd] in *. apply (reach_children leaves o _ _ W O OX) in RX as [(-> & _)|(LF & c & z & vs & I & -> & RX)]; [congruence|]. apply (reach_children leaves o _ _ W O OY) in RY as [(-> & _)|(_ & c' & z' & vs' & I' & -> & RY)]; [congruence|].
    inversion V as [|? ? ? a b A B]; subst. inversion B; subst. rewrite app_nil_r. rewrite !pointer_app. apply (precede_app_r _ [(p, o)]). destruct (list_eq_dec (list_eq_dec Ascii.ascii_dec) c c') as [<-|NE].
    - assert (z' = z) as -> by (pose proof (child_list_nodup o W) as ND; clear - I I' ND; induction (child_list o) as [|[k v] l IHl]; [destruct I|]; inversion ND as [|? ? NI ND']; subst; destruct I as [E|I], I' as [E'|I']; [congruence|injection E as -> ->; elim NI; exact (in_map fst _ _ I')|injection E' as -> ->; elim NI; exact (in_map fst _ _ I)|auto]).
      assert (IN : In (rfc_pointer p c, z) (rev (pushed leaves p o))) by (apply -> in_rev; apply pushed_In; eauto). apply (visits_sub _ _ A) in IN as S'. destruct S' as (r1 & a' & r2 & -> & V'). apply precede_app_r, precede_app_l. pose proof (pushed_good _ _ G) as GS. rewrite Forall_forall in GS.
      apply (IH _ z); auto. { destruct (child_list_wf _ _ _ W I) as (_ & _ & NC). destruct c; [congruence|]. cbn [app length] in L. rewrite app_length in L. lia. } eapply earlier_child; eauto.
    - apply (visits_stack _ _ A (pushed_good _ _ G) _ z' _ z); auto. apply precede_rev. unfold pushed. rewrite LF. apply (precede_map (fun c0 => (rfc_pointer p (fst c0), snd c0)) _ (c, z) (c', z')). eapply children_order; eauto.
  Qed.
End Visits.
