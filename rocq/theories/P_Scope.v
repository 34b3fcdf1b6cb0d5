From Verif Require Import PyBase PyFacts M_Scope S_Scope.
From Coq Require Import Lia ListDec.

Lemma scope_compose_some sep a b :
  a <> [] -> b <> [] -> scope_compose sep (Some a) (Some b) = Some (a ++ sep ++ b).
Proof. destruct a, b; easy. Qed.

Lemma fold_compose_join sep x l :
  Forall (fun s => s <> []) (x :: l) ->
  fold_left (scope_compose sep) (map Some l) (Some x) = Some (join sep (x :: l)).
Proof.
  revert x. induction l as [|y l IH]; intros x H; [reflexivity|].
  inversion H as [|? ? Hx Hl]; subst. inversion Hl as [|? ? Hy Hl']; subst.
  cbn [map fold_left]. rewrite scope_compose_some by auto. rewrite IH.
  - f_equal. destruct l as [|z l]; [reflexivity|].
    rewrite !join_cons. now rewrite <- !app_assoc.
  - constructor; auto. destruct x; easy.
Qed.

Lemma scope_assoc sep a b c :
  a <> [] -> b <> [] -> c <> [] ->
  scope_compose sep (scope_compose sep (Some a) (Some b)) (Some c) =
  scope_compose sep (Some a) (scope_compose sep (Some b) (Some c)).
Proof.
  intros. rewrite !scope_compose_some; auto.
  - now rewrite <- !app_assoc.
  - destruct b; easy.
  - destruct a; easy.
Qed.

Lemma scope_roundtrip sep x l :
  sep <> [] -> Forall (fun s => s <> []) (x :: l) ->
  (forall p a b, In p (removelast (x :: l)) -> p ++ sep = a ++ sep ++ b -> b = []) ->
  ~ has_sub sep (last (x :: l) []) ->
  scope_split sep (fold_left (scope_compose sep) (map Some l) (Some x)) =
  Ok (map Some (x :: l)).
Proof.
  intros Hs Hne Hc Hl. rewrite fold_compose_join by auto.
  unfold scope_split.
  assert (Hn : exists c r, join sep (x :: l) = c :: r).
  { inversion Hne; subst. destruct x as [|c x]; [easy|].
    destruct l; [simpl|rewrite join_cons; simpl]; eauto. }
  destruct Hn as (c & r & Hn). rewrite Hn. destruct sep as [|s0 sep]; [easy|].
  simpl nonempty. cbv iota. rewrite <- Hn. do 2 f_equal.
  rewrite (app_removelast_last [] (l := x :: l)) by easy.
  apply split_join; try easy.
  apply Forall_forall. intros p Hp a b. apply Hc. exact Hp.
Qed.

(** A name without any character of the separator is clean. *)
Lemma clean_disjoint (sep p : str) :
  sep <> [] -> (forall c, In c sep -> ~ In c p) -> forall a b, p ++ sep = a ++ sep ++ b -> b = [].
Proof.
  intros Hs Hd a b H.
  destruct (Nat.lt_ge_cases (length a) (length p)) as [L|L].
  - exfalso. destruct sep as [|s0 sep]; [easy|].
    apply (Hd s0); [now left|].
    apply (f_equal (fun l => nth_error l (length a))) in H.
    rewrite nth_error_app1 in H by auto.
    rewrite nth_error_app2 in H by auto. rewrite Nat.sub_diag in H. simpl in H.
    eapply nth_error_In; eauto.
  - apply (f_equal (@length ascii)) in H. rewrite !app_length in H.
    destruct b; auto. simpl in H. lia.
Qed.
Lemma no_sub_disjoint (sep p : str) :
  sep <> [] -> (forall c, In c sep -> ~ In c p) -> ~ has_sub sep p.
Proof.
  intros Hs Hd (a & b & ->). destruct sep as [|s0 sep]; [easy|].
  apply (Hd s0); [now left|]. apply in_or_app. right. now left.
Qed.

(** ** last component *)
Lemma after_last_None sep s : sep <> [] -> (after_last sep s = None <-> ~ has_sub sep s).
Proof.
  intros Hs. induction s as [|c s IH].
  - simpl. split; auto. intros _ (a & b & H). destruct a, sep; easy.
  - cbn [after_last]. destruct (after_last sep s) eqn:E.
    + split; [discriminate|]. intros H. exfalso.
      destruct IH as [_ IH]. assert (Hx : ~ has_sub sep s).
      { intros (a & b & ->). apply H. exists (c :: a), b. auto. }
      specialize (IH Hx). discriminate.
    + destruct (prefixb sep (c :: s)) eqn:P.
      * split; [discriminate|]. intros H. exfalso. apply H.
        apply prefixb_spec in P as (t & ->). exists [], t. auto.
      * split; auto. intros _ (a & b & H). destruct a as [|x a].
        -- simpl in H. rewrite H, prefixb_app in P. discriminate.
        -- inversion H; subst. apply IH; auto. now exists a, b.
Qed.
Lemma after_last_Some sep s t : sep <> [] -> after_last sep s = Some t ->
  (exists p, s = p ++ sep ++ t) /\
  (forall p' c', s = p' ++ sep ++ c' -> length t <= length c').
Proof.
  intros Hs. revert t. induction s as [|c s IH]; intros t; [discriminate|].
  cbn [after_last]. destruct (after_last sep s) eqn:E.
  - intros H; inversion H; subst. destruct (IH t eq_refl) as [(p & Hp) Hm]. split.
    + exists (c :: p). now rewrite Hp.
    + intros p' c' H'. destruct p' as [|x p'].
      * simpl in H'. apply (f_equal (@length ascii)) in H'.
        apply (f_equal (@length ascii)) in Hp.
        simpl in H'. rewrite !app_length in *. destruct sep; [easy|]. simpl in *. lia.
      * inversion H'; subst. eapply Hm; eauto.
  - destruct (prefixb sep (c :: s)) eqn:P; [|discriminate].
    apply prefixb_spec in P as (u & P). rewrite P.
    rewrite skipn_app, skipn_all, Nat.sub_diag. simpl skipn. intros H; inversion H; subst.
    split; [now exists []|].
    intros p' c' H'. destruct p' as [|x p'].
    + simpl in H'. apply app_inv_head in H'. now subst.
    + exfalso. rewrite <- P in H'. inversion H'; subst.
      apply after_last_None in E; auto. apply E. now exists p', c'.
Qed.

Lemma last_component_rsplit sep k c :
  sep <> [] -> (last_component sep k c <-> c = rsplit1_last sep k).
Proof.
  intros Hs. unfold rsplit1_last. destruct (after_last sep k) as [t|] eqn:E.
  - destruct (after_last_Some _ _ _ Hs E) as [(p & Hp) Hm]. split.
    + intros [[H1 _]|(p' & H1 & H2)].
      * exfalso. apply H1. now exists p, t.
      * pose proof (H2 _ _ Hp) as L1. pose proof (Hm _ _ H1) as L2.
        assert (L : length c = length t) by lia.
        assert (Lp : length p = length p').
        { rewrite Hp in H1. apply (f_equal (@length ascii)) in H1.
          rewrite !app_length in H1. lia. }
        rewrite Hp in H1. apply app_len_inj in H1 as [_ H1]; auto.
        apply app_inv_head in H1. auto.
    + intros ->. right. exists p. split; auto.
  - apply after_last_None in E; auto. split.
    + intros [[_ H]|(p & H & _)]; auto. exfalso. apply E. now exists p, c.
    + intros ->. left. auto.
Qed.

Lemma cand_filter {V} (d : sdict V) k ik :
  cand d k ik <-> In ik (filter (fun ik => endswith ik k) (map fst d)).
Proof. unfold cand, ends_with. rewrite filter_In, endswith_spec. tauto. Qed.
Lemma cand_last_filter {V} sep (d : sdict V) k ik :
  sep <> [] ->
  (cand_last sep d k ik <->
   In ik (filter (fun r => str_eqb (rsplit1_last sep r) (rsplit1_last sep k))
            (filter (fun ik => endswith ik k) (map fst d)))).
Proof.
  intros Hs. unfold cand_last.
  rewrite (filter_In (fun r => str_eqb _ _)), cand_filter, str_eqb_eq.
  split; intros [H1 H2]; split; auto.
  - destruct H2 as (c & Ha & Hb). apply last_component_rsplit in Ha, Hb; auto. congruence.
  - exists (rsplit1_last sep k). split; apply last_component_rsplit; auto.
Qed.

Lemma sget_lookup_key {V} (d : sdict V) ik :
  In ik (map fst d) -> exists v, sget ik d = Some v /\ In (ik, v) d.
Proof.
  intros H. apply sget_Some_key in H as (v & H). exists v. split; auto. now apply sget_In.
Qed.

Lemma NoDup_filter {A} (f : A -> bool) l : NoDup l -> NoDup (filter f l).
Proof.
  induction 1 as [|x l Hn Hd IH]; simpl; [constructor|].
  destruct (f x); auto. constructor; auto. rewrite filter_In. tauto.
Qed.

Lemma getitem_sound {V} sep (d : sdict V) k :
  sep <> [] -> NoDup (map fst d) -> lookup sep d k (scope_getitem sep d (KStr k)).
Proof.
  intros Hs Hn. unfold scope_getitem. cbn [fold_key bind].
  destruct (sget k d) as [v|] eqn:E.
  { apply L_exact. now apply sget_In. }
  apply sget_None in E.
  pose proof (cand_filter d k) as C.
  pose proof (fun ik => cand_last_filter sep d k ik Hs) as CL.
  pose proof (NoDup_filter (fun ik => endswith ik k) _ Hn) as ND.
  remember (filter (fun ik => endswith ik k) (map fst d)) as ret eqn:F in *. clear F.
  destruct ret as [|a [|b l]].
  - apply L_missing. intros ik H. now apply C in H.
  - assert (Ha : cand d k a) by (apply C; now left).
    destruct (sget_lookup_key d a) as (v & -> & Hv); [apply Ha|].
    eapply L_suffix; eauto. intros ik' H. apply C in H as [->|[]]; auto.
  - assert (Ha : cand d k a) by (apply C; now left).
    assert (Hb : cand d k b) by (apply C; right; now left).
    assert (Hab : a <> b).
    { inversion ND; subst. intros ->. apply H1. now left. }
    destruct sep as [|s0 sep0] eqn:Hsep; [easy|]. cbn [nonempty]. rewrite <- Hsep in *.
    pose proof (NoDup_filter (fun r => str_eqb (rsplit1_last sep r) (rsplit1_last sep k)) _ ND) as ND2.
    remember (filter (fun r => str_eqb (rsplit1_last sep r) (rsplit1_last sep k)) (a :: b :: l))
      as ret2 eqn:G in *. clear G.
    destruct ret2 as [|m [|m2 l2]].
    + apply L_ambiguous with (a := a) (b := b); auto. intros (ik & H & _). now apply CL in H.
    + assert (Hm : cand_last sep d k m) by (apply CL; now left).
      destruct (sget_lookup_key d m) as (v & -> & Hv); [apply Hm|].
      eapply L_last with (a := a) (b := b); eauto.
      intros ik' H. apply CL in H as [->|[]]; auto.
    + apply L_ambiguous with (a := a) (b := b); auto. intros (ik & _ & H).
      assert (m = ik) by (apply H, CL; now left).
      assert (m2 = ik) by (apply H, CL; right; now left).
      inversion ND2; subst. apply H4. now left.
Qed.

Lemma lookup_det {V} sep (d : sdict V) k r1 r2 :
  NoDup (map fst d) -> lookup sep d k r1 -> lookup sep d k r2 -> r1 = r2.
Proof.
  intros Hn H1 H2.
  assert (U : forall x v v', In (x, v) d -> In (x, v') d -> v = v').
  { intros x v v' A B. apply In_sget in A; auto. apply In_sget in B; auto. congruence. }
  assert (K : forall x v, In (x, v) d -> In x (map fst d)).
  { intros x v H. apply (in_map fst) in H. exact H. }
  destruct H1 as [v A|ik v N A C M|a b ik v N Ca Cb Nab A C M|a b N Ca Cb Nab M|M];
  destruct H2 as [v' A'|ik' v' N' A' C' M'|a' b' ik' v' N' Ca' Cb' Nab' A' C' M'|a' b' N' Ca' Cb' Nab' M'|M'];
  try (exfalso; match goal with
    | H : ~ In k _, H' : In (k, _) d |- _ => apply H; eapply K; eauto
    | H : forall x, cand d k x -> x = ?i, A : cand d k ?a, B : cand d k ?b, D : ?a <> ?b |- _ =>
        apply D; rewrite (H a A), (H b B); reflexivity
    | H : forall x, ~ cand d k x, A : cand d k _ |- _ => eapply H; exact A
    | H : ~ exists _, _, A : cand_last _ _ _ ?i, B : forall x, cand_last _ _ _ x -> x = ?i |- _ =>
        apply H; eauto
    | H : forall x, ~ cand d k x, A : In (k, ?v) d |- _ =>
        apply (H k); split; [eapply K; eauto|exists []; reflexivity]
    end; fail); try reflexivity.
  - f_equal. eauto.
  - assert (ik' = ik) by auto. subst. f_equal; eauto.
  - assert (ik' = ik) by auto. subst. f_equal; eauto.
Qed.

Lemma getitem_tuple {V} sep (d : sdict V) x l :
  Forall (fun s => s <> []) (x :: l) ->
  scope_getitem sep d (KTuple (map Some (x :: l))) =
  scope_getitem sep d (KStr (join sep (x :: l))).
Proof.
  intros H. unfold scope_getitem. cbn [map fold_key bind].
  rewrite fold_compose_join by auto. reflexivity.
Qed.

(** ** TypeReduce *)
Lemma type_reduce_op_key {O} sep (ops : sdict O) o :
  type_reduce_op sep ops o =
  match op_key sep (tr_tags o) (tr_opid o) with
  | None => Ok ops
  | Some k => if smem k ops then Err SchemaError else Ok (sset k (tr_obj o) ops)
  end.
Proof.
  destruct o as [tags opid obj]. unfold type_reduce_op, op_key. simpl.
  destruct opid as [[|c id]|]; simpl; auto.
  destruct tags as [[|[|t0 t] tags]|]; simpl; auto.
Qed.

Lemma sset_new {V} k (v : V) d : ~ In k (map fst d) -> sset k v d = d ++ [(k, v)].
Proof.
  induction d as [|[k' v'] d IH]; simpl; intros H; auto.
  destruct (str_eqb_spec k k') as [->|N]; [exfalso; auto|]. rewrite IH; auto.
Qed.

Lemma type_reduce_ok {O} sep (l : list (tr_op O)) : forall ops,
  NoDup (map fst ops) ->
  (NoDup (map fst (ops ++ keyed sep l)) -> type_reduce sep ops l = Ok (ops ++ keyed sep l)) /\
  (~ NoDup (map fst (ops ++ keyed sep l)) -> type_reduce sep ops l = Err SchemaError).
Proof.
  induction l as [|o l IH]; intros ops Hn.
  - simpl. rewrite app_nil_r. split; auto. contradiction.
  - cbn [type_reduce]. rewrite type_reduce_op_key.
    unfold keyed. cbn [flat_map]. fold (keyed sep l).
    destruct (op_key sep (tr_tags o) (tr_opid o)) as [k|] eqn:E.
    + destruct (smem k ops) eqn:M.
      * apply smem_In in M. cbn [bind]. split; auto. intros H. exfalso.
        rewrite map_app in H. simpl in H. apply NoDup_remove_2 in H. apply H.
        apply in_or_app. now left.
      * assert (Hk : ~ In k (map fst ops)).
        { rewrite <- smem_In, M. discriminate. }
        cbn [bind]. rewrite sset_new by auto.
        specialize (IH (ops ++ [(k, tr_obj o)])).
        rewrite <- app_assoc in IH. simpl in IH. simpl. apply IH.
        rewrite <- sset_new by auto. now apply sset_NoDup.
    + cbn [bind]. simpl. apply IH. auto.
Qed.

Lemma reduce_spec {O} sep (l : list (tr_op O)) :
  (NoDup (map fst (keyed sep l)) /\ type_reduce sep [] l = Ok (keyed sep l)) \/
  (~ NoDup (map fst (keyed sep l)) /\ type_reduce sep [] l = Err SchemaError).
Proof.
  destruct (type_reduce_ok sep l [] (NoDup_nil _)) as [H1 H2]. simpl in *.
  destruct (ListDec.NoDup_dec str_eq_dec (map fst (keyed sep l))); auto.
Qed.

Lemma reduce_complete {O} sep (l : list (tr_op O)) tbl o k :
  type_reduce sep [] l = Ok tbl -> In o l ->
  op_key sep (tr_tags o) (tr_opid o) = Some k ->
  scope_getitem sep tbl (KStr k) = Ok (tr_obj o).
Proof.
  intros H Ho Hk. destruct (reduce_spec sep l) as [[Hn H']|[_ H']]; [|congruence].
  rewrite H in H'. inversion H'; subst tbl.
  assert (E : sget k (keyed sep l) = Some (tr_obj o)).
  { apply In_sget; auto. unfold keyed. apply in_flat_map. exists o. split; auto.
    rewrite Hk. now left. }
  unfold scope_getitem. cbn [fold_key bind]. now rewrite E.
Qed.

Lemma reduce_sound {O} sep (l : list (tr_op O)) tbl k v :
  type_reduce sep [] l = Ok tbl -> In (k, v) tbl ->
  exists o, In o l /\ tr_obj o = v /\ op_key sep (tr_tags o) (tr_opid o) = Some k.
Proof.
  intros H Hi. destruct (reduce_spec sep l) as [[Hn H']|[_ H']]; [|congruence].
  rewrite H in H'. inversion H'; subst tbl.
  unfold keyed in Hi. apply in_flat_map in Hi as (o & Ho & Hi). exists o.
  destruct (op_key _ _ _); [|easy]. destruct Hi as [Hi|[]]. inversion Hi; subst. auto.
Qed.
