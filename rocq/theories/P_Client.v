From Verif Require Import PyBase PyFacts P_Graph M_Base64 S_Base64 P_Base64 M_Client S_Client.
From Coq Require Import Lia Permutation.

(** * CaseInsensitiveDict *)
Definition cid_inv {V} (d : cid V) : Prop :=
  NoDup (map fst d) /\ forall lk k v, In (lk, (k, v)) d -> lk = lower k.

Lemma cid_inv_empty V : cid_inv (@cid_empty V).
Proof. split; [constructor|easy]. Qed.
Lemma In_sset {V} k (v : V) d x y :
  In (x, y) (sset k v d) -> (x = k /\ y = v) \/ In (x, y) d.
Proof.
  induction d as [|[k' v'] d IH]; simpl.
  - intros [H|[]]. inversion H; auto.
  - destruct (str_eqb_spec k k') as [ -> |N]; simpl.
    + intros [H|H]; auto. inversion H; auto.
    + intros [H|H]; auto. destruct (IH H); auto.
Qed.
Lemma In_sdel {V} k (d : sdict V) x : In x (sdel k d) -> In x d.
Proof.
  induction d as [|[k' v'] d IH]; simpl; auto.
  destruct (str_eqb k k'); simpl; tauto.
Qed.
Lemma cid_inv_apply {V} (d : cid V) o : cid_inv d -> cid_inv (cid_apply d o).
Proof.
  intros [N K]. destruct o as [k v|k]; simpl.
  - split; [now apply sset_NoDup|].
    intros lk k0 v0 H. apply In_sset in H as [[-> H]|H]; [inversion H; auto|eauto].
  - unfold cid_del. destruct (smem (lower k) d); [|split; auto].
    split; [apply ddel_NoDup; auto|]. intros lk k0 v0 H. apply In_sdel in H. eauto.
Qed.
Lemma cid_run_snoc {V} (ops : list (cid_op V)) o :
  cid_run (ops ++ [o]) = cid_apply (cid_run ops) o.
Proof. unfold cid_run. now rewrite fold_left_app. Qed.
Lemma cid_run_inv {V} (ops : list (cid_op V)) : cid_inv (cid_run ops).
Proof.
  induction ops as [|o ops IH] using rev_ind; [apply cid_inv_empty|].
  rewrite cid_run_snoc. now apply cid_inv_apply.
Qed.
Lemma cid_run_latest {V} (ops : list (cid_op V)) k :
  sget (lower k) (cid_run ops) = latest (rev ops) k.
Proof.
  induction ops as [|o ops IH] using rev_ind; [reflexivity|].
  rewrite cid_run_snoc, rev_app_distr. simpl.
  destruct (cid_run_inv ops) as [N _].
  destruct o as [k' v|k']; simpl.
  - unfold same_nameb, cid_set. destruct (str_eqb_spec (lower k) (lower k')) as [ -> |D].
    + apply sget_sset_same.
    + rewrite sget_sset_other; auto.
  - unfold same_nameb, cid_del. destruct (smem (lower k') (cid_run ops)) eqn:M.
    + destruct (str_eqb_spec (lower k) (lower k')) as [E|D].
      * rewrite E. apply dget_ddel_same; auto. apply str_eqb_eq.
      * rewrite <- IH. apply dget_ddel_other; auto. apply str_eqb_eq.
    + rewrite IH. destruct (str_eqb_spec (lower k) (lower k')) as [E|D]; auto.
      rewrite <- IH, E. apply sget_None. rewrite <- smem_In, M. discriminate.
Qed.
Lemma cid_get_latest {V} (ops : list (cid_op V)) k :
  cid_get k (cid_run ops) =
  match latest (rev ops) k with Some (_, v) => Ok v | None => Err KeyError end.
Proof. unfold cid_get. now rewrite cid_run_latest. Qed.
Lemma cid_items_latest {V} (ops : list (cid_op V)) n v :
  In (n, v) (cid_items (cid_run ops)) <-> latest (rev ops) n = Some (n, v).
Proof.
  destruct (cid_run_inv ops) as [N K]. rewrite <- cid_run_latest. unfold cid_items. split.
  - intros H. apply in_map_iff in H as ([lk kv] & E & H). simpl in E. subst kv.
    apply In_sget in H as H'; auto. apply K in H. now subst.
  - intros H. apply sget_In in H. apply in_map_iff. eexists. split; [|exact H]. reflexivity.
Qed.
Lemma cid_keys_lower {V} (ops : list (cid_op V)) :
  map lower (cid_keys (cid_run ops)) = map fst (cid_run ops).
Proof.
  destruct (cid_run_inv ops) as [_ K]. unfold cid_keys. rewrite map_map.
  apply map_ext_in. intros [lk [k v]] H. simpl. symmetry. eauto.
Qed.
Lemma cid_keys_unique {V} (ops : list (cid_op V)) : NoDup (map lower (cid_keys (cid_run ops))).
Proof. rewrite cid_keys_lower. apply cid_run_inv. Qed.
Lemma cid_len_names {V} (ops : list (cid_op V)) l :
  NoDup (map lower l) ->
  (forall k, In (lower k) (map lower l) <-> latest (rev ops) k <> None) ->
  cid_len (cid_run ops) = length l.
Proof.
  intros N H. unfold cid_len.
  rewrite <- (map_length fst (cid_run ops)), <- (map_length lower l).
  apply Permutation_length. apply NoDup_Permutation; auto; [apply cid_run_inv|].
  intros x. rewrite <- cid_keys_lower. split; intros Hx.
  - apply in_map_iff in Hx as (k & <- & Hk). apply H. rewrite <- cid_run_latest.
    assert (In (lower k) (map fst (cid_run ops))).
    { rewrite <- cid_keys_lower. now apply in_map. }
    apply sget_Some_key in H0 as (v & ->). discriminate.
  - apply in_map_iff in Hx as (k & <- & Hk). rewrite cid_keys_lower.
    apply sget_Some_key. rewrite cid_run_latest.
    destruct (latest (rev ops) k) eqn:E; eauto. exfalso.
    assert (In (lower k) (map lower l)) by now apply in_map. apply H in H0. congruence.
Qed.
Lemma cid_del_latest {V} (ops : list (cid_op V)) k :
  cid_del k (cid_run ops) = Err KeyError <-> latest (rev ops) k = None.
Proof.
  rewrite <- cid_run_latest. unfold cid_del, dmem.
  destruct (sget (lower k) (cid_run ops)); split; congruence.
Qed.

(** * nv_tuple_list_replace *)
Lemma named_nv {V} (l : list (str * V)) v :
  named (fst v) (nv_replace l v) = repeat v (Nat.max 1 (length (named (fst v) l))).
Proof.
  unfold nv_replace, named.
  assert (E : filter (fun p => str_eqb (fst p) (fst v))
    (map (fun x => if str_eqb (fst x) (fst v) then v else x) l) =
    repeat v (length (filter (fun p => str_eqb (fst p) (fst v)) l))).
  { induction l as [|x l IH]; simpl; auto. destruct (str_eqb (fst x) (fst v)) eqn:E; simpl.
    - rewrite str_eqb_refl. simpl. now rewrite IH.
    - now rewrite E. }
  destruct (existsb _ l) eqn:X.
  - rewrite E. f_equal.
    assert (length (filter (fun p => str_eqb (fst p) (fst v)) l) <> 0); [|lia].
    apply existsb_exists in X as (x & Hx & Hn). intros H. apply length_zero_iff_nil in H.
    assert (In x []) by (rewrite <- H; now apply filter_In). easy.
  - rewrite filter_app, E. simpl. rewrite str_eqb_refl.
    assert (filter (fun p => str_eqb (fst p) (fst v)) l = []) as ->.
    { destruct (filter _ l) as [|y r] eqn:F; auto. exfalso.
      assert (In y (y :: r)) by now left. rewrite <- F in H.
      apply filter_In in H as [H1 H2].
      assert (existsb (fun x => str_eqb (fst x) (fst v)) l = true).
      { apply existsb_exists. eauto. }
      congruence. }
    reflexivity.
Qed.
Lemma others_nv {V} (l : list (str * V)) v : others (fst v) (nv_replace l v) = others (fst v) l.
Proof.
  unfold nv_replace, others.
  assert (E : filter (fun p => negb (str_eqb (fst p) (fst v)))
    (map (fun x => if str_eqb (fst x) (fst v) then v else x) l) =
    filter (fun p => negb (str_eqb (fst p) (fst v))) l).
  { induction l as [|x l IH]; simpl; auto. destruct (str_eqb (fst x) (fst v)) eqn:E; simpl.
    - rewrite str_eqb_refl. simpl. auto.
    - rewrite E. simpl. now rewrite IH. }
  destruct (existsb _ l); [exact E|].
  rewrite filter_app, E. simpl. rewrite str_eqb_refl. simpl. apply app_nil_r.
Qed.
Lemma existsb_named {V} (l : list (str * V)) n :
  existsb (fun x => str_eqb (fst x) n) l = true <-> In n (map fst l).
Proof.
  rewrite existsb_exists, in_map_iff. split.
  - intros (x & H & E). apply str_eqb_eq in E. eauto.
  - intros (x & E & H). exists x. split; auto. now apply str_eqb_eq.
Qed.
Lemma nv_names {V} (l : list (str * V)) v :
  map fst (nv_replace l v) = if mem (fst v) (map fst l) then map fst l else map fst l ++ [fst v].
Proof.
  unfold nv_replace.
  assert (E : map fst (map (fun x => if str_eqb (fst x) (fst v) then v else x) l) = map fst l).
  { induction l as [|x l IH]; simpl; auto. rewrite IH.
    destruct (str_eqb_spec (fst x) (fst v)); congruence. }
  destruct (existsb _ l) eqn:X.
  - apply existsb_named in X. apply mem_In in X. now rewrite X.
  - assert (mem (fst v) (map fst l) = false) as ->.
    { destruct (mem _ _) eqn:M; auto. apply mem_In, existsb_named in M. congruence. }
    rewrite map_app, E. reflexivity.
Qed.

(** value assigned by the last operation on a name *)
Fixpoint lastval {V} (ops : list (str * V)) (n : str) : option V :=
  match ops with
  | [] => None
  | (k, v) :: ops' => match lastval ops' n with
                      | Some w => Some w
                      | None => if str_eqb n k then Some v else None
                      end
  end.
Definition over {V} (ops : list (str * V)) (p : str * V) : str * V :=
  match lastval ops (fst p) with Some v => (fst p, v) | None => p end.
Definition nvs {V} (l : list (str * V)) (ops : list (str * V)) := fold_left nv_replace ops l.

Lemma nvs_present {V} (ops : list (str * V)) : forall l,
  (forall k, In k (map fst ops) -> In k (map fst l)) -> nvs l ops = map (over ops) l.
Proof.
  unfold nvs. induction ops as [|[k v] ops IH]; intros l H.
  - simpl. rewrite <- (map_id l) at 1. apply map_ext. intros []; reflexivity.
  - cbn [fold_left].
    assert (E : nv_replace l (k, v) = map (fun x => if str_eqb (fst x) k then (k, v) else x) l).
    { unfold nv_replace. simpl fst.
      assert (existsb (fun x => str_eqb (fst x) k) l = true) as ->; auto.
      apply existsb_named. apply H. now left. }
    rewrite IH.
    + rewrite E, map_map. apply map_ext. intros [n w]. unfold over. simpl.
      destruct (str_eqb_spec n k) as [ -> |D]; simpl.
      * destruct (lastval ops k); reflexivity.
      * destruct (lastval ops n); reflexivity.
    + intros x Hx. rewrite E, map_map.
      assert (map (fun x => fst (if str_eqb (fst x) k then (k, v) else x)) l = map fst l) as ->.
      { apply map_ext. intros [n w]. simpl. destruct (str_eqb_spec n k); subst; auto. }
      apply H. now right.
Qed.
Lemma nvs_names {V} (ops : list (str * V)) : forall l k,
  In k (map fst (nvs l ops)) <-> In k (map fst l) \/ In k (map fst ops).
Proof.
  unfold nvs. induction ops as [|v ops IH]; intros l k; simpl; [tauto|].
  rewrite IH, nv_names. destruct (mem (fst v) (map fst l)) eqn:M.
  - apply mem_In in M. split; [tauto|]. intros [?|[<-|?]]; auto.
  - rewrite in_app_iff. simpl. tauto.
Qed.
Lemma lastval_In {V} (ops : list (str * V)) k : In k (map fst ops) <-> lastval ops k <> None.
Proof.
  induction ops as [|[a v] ops IH]; simpl; [easy|].
  destruct (lastval ops k) eqn:E.
  - split; [discriminate|]. intros _. right. apply IH. discriminate.
  - destruct (str_eqb_spec k a) as [ -> |D].
    + split; [discriminate|auto].
    + split; [|congruence]. intros [?|H]; [congruence|]. apply IH in H. congruence.
Qed.
(** after the operations every pair carries the last value for its name *)
Lemma nvs_settled {V} (ops : list (str * V)) : forall l p v,
  In p (nvs l ops) -> lastval ops (fst p) = Some v -> snd p = v.
Proof.
  unfold nvs. induction ops as [|[k w] ops IH] using rev_ind; intros l p v Hp Hl; [discriminate|].
  rewrite fold_left_app in Hp. simpl in Hp.
  assert (L : lastval (ops ++ [(k, w)]) (fst p) =
              if str_eqb (fst p) k then Some w else lastval ops (fst p)).
  { clear. induction ops as [|[a b] ops IH]; simpl.
    - destruct (str_eqb (fst p) k); auto.
    - rewrite IH. destruct (str_eqb (fst p) k); auto. }
  rewrite L in Hl. clear L.
  set (l' := fold_left nv_replace ops l) in *.
  assert (Hp' : p = (k, w) \/ (In p l' /\ fst p <> k)).
  { unfold nv_replace in Hp. simpl in Hp.
    assert (G : In p (map (fun x => if str_eqb (fst x) k then (k, w) else x) l') ->
                p = (k, w) \/ (In p l' /\ fst p <> k)).
    { intros H. apply in_map_iff in H as (x & E & Hx).
      destruct (str_eqb_spec (fst x) k); subst; auto. }
    destruct (existsb _ l'); auto.
    apply in_app_iff in Hp as [Hp|[<-|[]]]; auto. }
  destruct Hp' as [ -> |[Hi Hn]].
  - simpl in Hl. rewrite str_eqb_refl in Hl. inversion Hl; auto.
  - destruct (str_eqb_spec (fst p) k); [contradiction|]. eapply IH; eauto.
Qed.
Lemma nvs_idem {V} (ops : list (str * V)) l : nvs (nvs l ops) ops = nvs l ops.
Proof.
  rewrite nvs_present.
  - rewrite <- (map_id (nvs l ops)) at 2. apply map_ext_in. intros p Hp. unfold over.
    destruct (lastval ops (fst p)) eqn:E; auto.
    pose proof (nvs_settled _ _ _ _ Hp E). destruct p; simpl in *; congruence.
  - intros k Hk. apply nvs_names. auto.
Qed.
Lemma nv_idem {V} (l : list (str * V)) v : nv_replace (nv_replace l v) v = nv_replace l v.
Proof. exact (nvs_idem [v] l). Qed.

Lemma sset_nv {V} k (v : V) d : NoDup (map fst d) -> sset k v d = nv_replace d (k, v).
Proof.
  intros N. unfold nv_replace. simpl. induction d as [|[k' v'] d IH]; simpl; auto.
  inversion N; subst. rewrite (str_eqb_sym k' k). destruct (str_eqb_spec k k') as [ -> |D]; simpl.
  - f_equal. rewrite <- (map_id d) at 1. apply map_ext_in. intros [a b] Hi. simpl.
    destruct (str_eqb_spec a k') as [ -> |]; auto. exfalso. apply H1.
    apply (in_map fst) in Hi. exact Hi.
  - rewrite IH by auto. destruct (existsb _ d); reflexivity.
Qed.

(** * Security *)
Definition place_ops (info : sec_info) (place : bool) (names : list str) : list (str * cred) :=
  flat_map (fun k => match sget k info with
                     | Some (p, kc) => if Bool.eqb p place then [kc] else []
                     | None => [] end) names.

Lemma sec_fold_names info names : forall r,
  NoDup (map fst (sr_header r)) ->
  fold_left (sec_apply1 info) names r =
  SecReq (nvs (sr_header r) (place_ops info true names))
         (nvs (sr_query r) (place_ops info false names)) /\
  NoDup (map fst (sr_header (fold_left (sec_apply1 info) names r))).
Proof.
  induction names as [|k names IH]; intros [h q] N; simpl in *; auto.
  unfold sec_apply1 at 2 4. destruct (sget k info) as [[[] [key c]]|]; simpl.
  - destruct (IH (SecReq (sset key c h) q)) as [E N'].
    + simpl. now apply sset_NoDup.
    + split; auto. rewrite E. simpl. unfold nvs. simpl. now rewrite sset_nv.
  - destruct (IH (SecReq h (nv_replace q (key, c)))) as [E N']; auto.
  - apply IH. auto.
Qed.
Lemma fold_concat {A B} (f : B -> A -> B) ls : forall b,
  fold_left (fun b l => fold_left f l b) ls b = fold_left f (concat ls) b.
Proof. induction ls as [|l ls IH]; intros b; simpl; auto. now rewrite fold_left_app. Qed.


Lemma sec_call_eq info sec r :
  NoDup (map fst (sr_header r)) ->
  sec_call info sec r =
  SecReq (nvs (sr_header r) (place_ops info true (req_names sec)))
         (nvs (sr_query r) (place_ops info false (req_names sec))).
Proof.
  intros N. destruct sec as [l|]; simpl.
  - rewrite fold_concat. now apply sec_fold_names.
  - destruct r; reflexivity.
Qed.
Lemma sec_call_NoDup info sec r :
  NoDup (map fst (sr_header r)) -> NoDup (map fst (sr_header (sec_call info sec r))).
Proof.
  intros N. destruct sec as [l|]; simpl; auto. rewrite fold_concat. now apply sec_fold_names.
Qed.
Lemma sec_call_idem info sec r :
  NoDup (map fst (sr_header r)) ->
  sec_call info sec (sec_call info sec r) = sec_call info sec r.
Proof.
  intros N. rewrite (sec_call_eq info sec (sec_call info sec r)) by now apply sec_call_NoDup.
  rewrite (sec_call_eq info sec r) by auto. simpl. now rewrite !nvs_idem.
Qed.

Lemma lastval_app {V} (a b : list (str * V)) n :
  lastval (a ++ b) n = match lastval b n with Some v => Some v | None => lastval a n end.
Proof.
  induction a as [|[k v] a IH]; simpl; [destruct (lastval b n); auto|].
  rewrite IH. destruct (lastval b n); auto.
Qed.
Lemma lastval_configured info place names n c :
  lastval (place_ops info place names) n = Some c <-> last_configured info place names n c.
Proof.
  unfold last_configured. induction names as [|k names IH].
  - simpl. split; [discriminate|]. intros (a & k & b & H & _). destruct a; discriminate.
  - unfold place_ops in *. cbn [flat_map]. rewrite lastval_app.
    destruct (lastval (flat_map _ names) n) as [w|] eqn:E.
    + destruct IH as [IH1 IH2]. split.
      * intros H; inversion H; subst. destruct (IH1 eq_refl) as (a & k' & b & -> & A & B).
        exists (k :: a), k', b. auto.
      * intros (a & k' & b & Hn & A & B). destruct a as [|a0 a].
        -- simpl in Hn. inversion Hn; subst. exfalso.
           (* w comes from names = b *)
           assert (Hw : In n (map fst (flat_map (fun k => match sget k info with
                     | Some (p, kc) => if Bool.eqb p place then [kc] else []
                     | None => [] end) b))).
           { apply lastval_In. congruence. }
           apply in_map_iff in Hw as ([n' c'] & En & Hw). simpl in En. subst n'.
           apply in_flat_map in Hw as (k2 & Hk2 & Hw).
           destruct (sget k2 info) as [[p kc]|] eqn:G; [|easy].
           destruct (Bool.eqb_spec p place); [|easy]. destruct Hw as [ -> |[]]. subst.
           eapply B; eauto.
        -- inversion Hn; subst. apply IH2. exists a, k', b. auto.
    + destruct (sget k info) as [[p [key c0]]|] eqn:G.
      * destruct (Bool.eqb_spec p place) as [ -> |D]; simpl.
        -- destruct (str_eqb_spec n key) as [ -> |Dk].
           ++ split.
              ** intros H; inversion H; subst. exists [], k, names. repeat split; auto.
                 intros k' c' Hk' G'.
                 assert (lastval (flat_map (fun k => match sget k info with
                     | Some (p, kc) => if Bool.eqb p place then [kc] else []
                     | None => [] end) names) key <> None); [|congruence].
                 apply lastval_In. apply in_map_iff. exists (key, c'). split; auto.
                 apply in_flat_map. exists k'. rewrite G', Bool.eqb_reflx. simpl. auto.
              ** intros (a & k' & b & Hn & A & B). destruct a as [|a0 a]; inversion Hn; subst.
                 --- congruence.
                 --- exfalso. destruct IH as [_ IH].
                     assert (None = Some c); [|discriminate]. apply IH. exists a, k', b. auto.
           ++ split; [discriminate|]. intros (a & k' & b & Hn & A & B).
              destruct a as [|a0 a]; inversion Hn; subst; [congruence|].
              destruct IH as [_ IH]. apply IH. exists a, k', b. auto.
        -- split; [discriminate|]. intros (a & k' & b & Hn & A & B).
           destruct a as [|a0 a]; inversion Hn; subst; [congruence|].
           destruct IH as [_ IH]. apply IH. exists a, k', b. auto.
      * simpl. split; [discriminate|]. intros (a & k' & b & Hn & A & B).
        destruct a as [|a0 a]; inversion Hn; subst; [congruence|].
        destruct IH as [_ IH]. apply IH. exists a, k', b. auto.
Qed.
Lemma lastval_not_configured info place names n :
  lastval (place_ops info place names) n = None <-> not_configured info place names n.
Proof.
  split.
  - intros H k c Hk G.
    assert (lastval (place_ops info place names) n <> None); [|congruence].
    apply lastval_In. apply in_map_iff. exists (n, c). split; auto.
    apply in_flat_map. exists k. rewrite G, Bool.eqb_reflx. simpl. auto.
  - intros H. destruct (lastval _ n) as [c|] eqn:E; auto. exfalso.
    apply lastval_configured in E as (a & k & b & -> & G & _).
    eapply H; [|exact G]. apply in_or_app. right. now left.
Qed.

Lemma sget_nvs {V} (ops : list (str * V)) : forall d n,
  sget n (nvs d ops) = match lastval ops n with Some v => Some v | None => sget n d end.
Proof.
  unfold nvs. induction ops as [|[k v] ops IH]; intros d n; simpl; auto.
  rewrite IH. destruct (lastval ops n); auto.
  unfold nv_replace. simpl fst.
  assert (G : forall d, sget n (map (fun x => if str_eqb (fst x) k then (k, v) else x) d) =
    if str_eqb n k then (if existsb (fun x => str_eqb (fst x) k) d then Some v else None) else sget n d).
  { clear. induction d as [|[a b] d IHd]; simpl.
    - destruct (str_eqb n k); auto.
    - destruct (str_eqb_spec a k) as [ -> |D]; simpl.
      + destruct (str_eqb n k) eqn:E; auto.
      + rewrite IHd. destruct (str_eqb_spec n a); subst; auto.
        destruct (str_eqb_spec a k); congruence. }
  destruct (existsb _ d) eqn:X.
  - rewrite G, X. destruct (str_eqb n k); auto.
  - assert (A : forall l r : sdict V, sget n (l ++ r) =
       match sget n l with Some x => Some x | None => sget n r end).
    { clear. induction l as [|[a b] l IHl]; intros r; simpl; auto. destruct (str_eqb n a); auto. }
    rewrite A, G, X. simpl. destruct (str_eqb n k) eqn:E; simpl; auto.
    destruct (sget n d); auto.
Qed.

(** query part: pairs of a name that is not configured are untouched, in order *)
Lemma nvs_others {V} (ops : list (str * V)) : forall l (P : str -> bool),
  (forall k, In k (map fst ops) -> P k = false) ->
  filter (fun p => P (fst p)) (nvs l ops) = filter (fun p => P (fst p)) l.
Proof.
  unfold nvs. induction ops as [|[k v] ops IH]; intros l P H; simpl; auto.
  rewrite IH by (intros x Hx; apply H; now right).
  assert (Hk : P k = false) by (apply H; now left).
  unfold nv_replace. simpl fst.
  assert (E : filter (fun p => P (fst p)) (map (fun x => if str_eqb (fst x) k then (k, v) else x) l) =
              filter (fun p => P (fst p)) l).
  { clear - Hk. induction l as [|[a b] l IHl]; simpl; auto.
    destruct (str_eqb_spec a k) as [ -> |D]; simpl.
    - rewrite Hk. auto.
    - destruct (P a); rewrite IHl; auto. }
  destruct (existsb _ l); auto. rewrite filter_app, E. simpl. rewrite Hk. apply app_nil_r.
Qed.
Lemma nvs_named {V} (ops : list (str * V)) l n v :
  lastval ops n = Some v ->
  named n (nvs l ops) = repeat (n, v) (Nat.max 1 (length (named n l))).
Proof.
  intros H.
  assert (S : forall p, In p (named n (nvs l ops)) -> p = (n, v)).
  { intros p Hp. unfold named in Hp. apply filter_In in Hp as [Hp E].
    apply str_eqb_eq in E. destruct p as [a b]. simpl in E. subst a.
    pose proof (nvs_settled ops l (n, b) v Hp H). simpl in *. congruence. }
  assert (L : length (named n (nvs l ops)) = Nat.max 1 (length (named n l))).
  { clear S. unfold nvs. revert l H. induction ops as [|[k w] ops IH]; intros l H; [discriminate|].
    cbn [fold_left]. simpl in H. destruct (lastval ops n) as [x|] eqn:E.
    - rewrite IH by auto. destruct (str_eqb_spec n k) as [ -> |D].
      + pose proof (named_nv l (k, w)) as N. cbn [fst] in N. rewrite N, repeat_length.
        cbv [named] in *. lia.
      + f_equal. pose proof (nvs_others [(k, w)] l (fun x => str_eqb x n)) as O.
        unfold nvs in O. simpl in O. unfold named. rewrite O; auto.
        intros y [<-|[]]. destruct (str_eqb_spec k n); congruence.
    - destruct (str_eqb_spec n k) as [ -> |D]; [|discriminate].
      assert (O : filter (fun p => str_eqb (fst p) k) (nvs (nv_replace l (k, w)) ops) =
                  filter (fun p => str_eqb (fst p) k) (nv_replace l (k, w))).
      { apply (nvs_others ops (nv_replace l (k, w)) (fun x => str_eqb x k)).
        intros x Hx. apply lastval_In in Hx. destruct (str_eqb_spec x k); subst; congruence. }
      unfold named in *. unfold nvs in O. rewrite O.
      pose proof (named_nv l (k, w)) as N. unfold named in N. cbn [fst] in N.
      rewrite N, repeat_length. lia. }
  rewrite <- L. clear L. induction (named n (nvs l ops)) as [|p r IH]; simpl; auto.
  f_equal; [apply S; now left|]. apply IH. intros q Hq. apply S. now right.
Qed.

(** * Schemes *)
Lemma insert_desc_perm x l : Permutation (insert_desc x l) (x :: l).
Proof.
  induction l as [|y l IH]; simpl; auto. destruct (str_leb y x); auto.
  rewrite IH. apply perm_swap.
Qed.
Lemma sort_desc_perm l : Permutation (sort_desc l) l.
Proof.
  induction l as [|x l IH]; simpl; auto. rewrite insert_desc_perm. now constructor.
Qed.
Fixpoint desc (l : list str) : Prop :=
  match l with
  | [] => True
  | x :: l' => (forall y, In y l' -> str_leb y x = true) /\ desc l'
  end.
Lemma insert_desc_sorted x l : desc l -> desc (insert_desc x l).
Proof.
  induction l as [|y l IH]; simpl; intros H; [split; easy|].
  destruct H as [H1 H2]. destruct (str_leb y x) eqn:E; simpl.
  - split; [|split; auto]. intros z [<-|Hz]; auto. eapply str_leb_trans; eauto.
  - split; auto. intros z Hz.
    apply (Permutation_in _ (insert_desc_perm x l)) in Hz as [<-|Hz]; auto.
    destruct (str_leb_total x y); congruence.
Qed.
Lemma sort_desc_sorted l : desc (sort_desc l).
Proof. induction l; simpl; auto. now apply insert_desc_sorted. Qed.
Lemma to_set_In x l : In x (to_set l) <-> In x l.
Proof.
  induction l as [|y l IH]; simpl; [tauto|].
  destruct (mem y l) eqn:M; simpl; rewrite IH; [|tauto].
  apply mem_In in M. split; auto. intros [<-|?]; auto.
Qed.
Lemma schemes_In client reqs l x :
  prepare_schemes client reqs = Ok l -> (In x l <-> In x client /\ In x reqs).
Proof.
  unfold prepare_schemes. destruct (sort_desc _) as [|y r] eqn:E; [discriminate|].
  intros H; inversion H; subst. rewrite <- E.
  assert (P := sort_desc_perm (filter (fun s => mem s client) (to_set reqs))).
  split; intros Hx.
  - apply (Permutation_in _ P) in Hx. apply filter_In in Hx as [A B].
    apply mem_In in B. apply (proj1 (to_set_In x reqs)) in A. auto.
  - apply (Permutation_in _ (Permutation_sym P)). apply filter_In.
    rewrite to_set_In, mem_In. tauto.
Qed.
Lemma schemes_err client reqs :
  prepare_schemes client reqs = Err ValueError <-> (forall x, ~ (In x client /\ In x reqs)).
Proof.
  destruct (prepare_schemes client reqs) as [l|e] eqn:E.
  - split; [discriminate|]. intros H. exfalso.
    assert (l <> []). { unfold prepare_schemes in E. destruct (sort_desc _); [discriminate|]. congruence. }
    destruct l as [|x l]; [easy|]. apply (H x). apply (schemes_In _ _ _ x E). now left.
  - split.
    + intros _ x [A B]. unfold prepare_schemes in E.
      destruct (sort_desc _) as [|y r] eqn:S; [|discriminate].
      assert (In x (filter (fun s => mem s client) (to_set reqs))).
      { apply filter_In. rewrite to_set_In, mem_In. tauto. }
      apply (Permutation_in _ (Permutation_sym (sort_desc_perm _))) in H. now rewrite S in H.
    + intros _. unfold prepare_schemes in E. destruct (sort_desc _); congruence.
Qed.
Lemma desc_last l x : desc (l ++ [x]) -> forall y, In y (l ++ [x]) -> str_leb x y = true.
Proof.
  induction l as [|z l IH]; simpl; intros H y Hy.
  - destruct Hy as [<-|[]]. apply str_leb_refl.
  - destruct H as [H1 H2]. destruct Hy as [<-|Hy]; auto.
    apply H1. apply in_or_app. right. now left.
Qed.
Lemma scheme_chosen client reqs l s :
  prepare_schemes client reqs = Ok l -> choose_scheme None (SchList l) = Ok s ->
  In s client /\ In s reqs /\ forall y, In y client -> In y reqs -> str_leb s y = true.
Proof.
  intros H C. simpl in C. destruct (rev l) as [|x r] eqn:E; [discriminate|].
  inversion C; subst. assert (l = rev r ++ [s]).
  { rewrite <- (rev_involutive l), E. reflexivity. }
  assert (In s l) by (rewrite H0; apply in_or_app; right; now left).
  apply (schemes_In _ _ _ s H) in H1 as [A B]. repeat split; auto.
  intros y Hy1 Hy2. assert (In y l) by (apply (schemes_In _ _ _ y H); auto).
  assert (D : desc l).
  { unfold prepare_schemes in H. destruct (sort_desc _) eqn:S; [discriminate|].
    inversion H; subst. rewrite <- S. apply sort_desc_sorted. }
  rewrite H0 in *. eapply desc_last; eauto.
Qed.
Lemma scheme_total client reqs l :
  prepare_schemes client reqs = Ok l -> exists s, choose_scheme None (SchList l) = Ok s.
Proof.
  intros H. simpl. destruct (rev l) as [|x r] eqn:E; eauto.
  assert (l = []) by (rewrite <- (rev_involutive l), E; reflexivity). subst.
  unfold prepare_schemes in H. destruct (sort_desc _); discriminate.
Qed.
Lemma scheme_preferred client reqs l p :
  prepare_schemes client reqs = Ok l ->
  (In p client /\ In p reqs -> choose_scheme (Some p) (SchList l) = Ok p) /\
  (~ (In p client /\ In p reqs) -> choose_scheme (Some p) (SchList l) = Err GenericException).
Proof.
  intros H. rewrite <- (schemes_In _ _ _ p H). simpl. destruct (mem p l) eqn:M.
  - apply mem_In in M. tauto.
  - apply mem_false in M. tauto.
Qed.

(** * compose_headers *)
Lemma supdate_get (l : list (str * str)) : forall d n,
  sget n (supdate d l) = match lastval l n with Some v => Some v | None => sget n d end.
Proof.
  unfold dupdate. induction l as [|[k v] l IH]; intros d n; simpl; auto.
  rewrite IH. destruct (lastval l n); auto.
  destruct (str_eqb_spec n k) as [ -> |D].
  - apply sget_sset_same.
  - now apply sget_sset_other.
Qed.
Lemma join_snoc sep l x : l <> [] -> join sep [join sep l; x] = join sep (l ++ [x]).
Proof.
  intros H. induction l as [|a l IH]; [easy|]. destruct l as [|b l].
  - reflexivity.
  - assert (E : join sep ((b :: l) ++ [x]) = join sep (b :: l) ++ sep ++ x).
    { rewrite <- IH by easy. reflexivity. }
    cbn [app]. rewrite (join_cons sep a b (l ++ [x])).
    change (b :: l ++ [x]) with ((b :: l) ++ [x]). rewrite E.
    rewrite (join_cons sep a b l). rewrite (join_cons sep _ x []). cbn [join].
    now rewrite <- !app_assoc.
Qed.
Lemma values_app n a b : values_of n (a ++ b) = values_of n a ++ values_of n b.
Proof. unfold values_of, named. now rewrite filter_app, map_app. Qed.
Lemma join_fold (l : list (str * str)) n :
  sget n (fold_left join_step l []) =
  match values_of n l with [] => None | vs => Some (join ","%string vs) end.
Proof.
  induction l as [|[k v] l IH] using rev_ind; [reflexivity|].
  rewrite fold_left_app. cbn [fold_left]. rewrite values_app.
  unfold join_step at 1. cbn [fst snd].
  set (d := fold_left join_step l []) in *.
  assert (V : values_of n [(k, v)] = if str_eqb n k then [v] else []).
  { unfold values_of, named. simpl. rewrite (str_eqb_sym k n). destruct (str_eqb n k); reflexivity. }
  rewrite V. destruct (str_eqb_spec n k) as [ -> |D].
  - rewrite IH. destruct (values_of k l) as [|w ws] eqn:W.
    + simpl. apply sget_sset_same.
    + rewrite sget_sset_same, (join_snoc _ (w :: ws)) by easy. reflexivity.
  - rewrite app_nil_r. rewrite <- IH.
    destruct (sget k d); now rewrite sget_sset_other.
Qed.
Definition addk (ks : list str) (k : str) := if mem k ks then ks else ks ++ [k].
Lemma join_step_keys d h : map fst (join_step d h) = addk (map fst d) (fst h).
Proof.
  unfold join_step, addk. destruct (sget (fst h) d) as [v|] eqn:E.
  - rewrite (dset_keys str_eqb). unfold dmem. rewrite E.
    assert (mem (fst h) (map fst d) = true) as ->; auto.
    apply mem_In, sget_Some_key. eauto.
  - rewrite (dset_keys str_eqb). unfold dmem. rewrite E.
    assert (mem (fst h) (map fst d) = false) as ->; auto.
    apply mem_false. now apply sget_None.
Qed.
Lemma filter_filter {A} (f g : A -> bool) l :
  filter f (filter g l) = filter (fun x => g x && f x) l.
Proof.
  induction l as [|x l IH]; simpl; auto. destruct (g x); simpl; auto.
  destruct (f x); rewrite IH; auto.
Qed.
Lemma addk_fold l : forall ks,
  fold_left addk l ks = ks ++ filter (fun x => negb (mem x ks)) (firsts l).
Proof.
  induction l as [|k l IH]; intros ks; simpl; [now rewrite app_nil_r|].
  rewrite IH. unfold addk. destruct (mem k ks) eqn:M; simpl.
  - f_equal. rewrite filter_filter. apply filter_ext. intros x.
    destruct (str_eqb_spec x k) as [ -> |]; simpl; auto. now rewrite M.
  - rewrite <- app_assoc. simpl. do 2 f_equal. rewrite filter_filter. apply filter_ext.
    intros x. unfold mem. rewrite existsb_app. simpl. rewrite orb_false_r.
    destruct (existsb (str_eqb x) ks), (str_eqb x k); reflexivity.
Qed.
Lemma join_keys l : map fst (fold_left join_step l []) = firsts (map fst l).
Proof.
  assert (G : forall d, map fst (fold_left join_step l d) = fold_left addk (map fst l) (map fst d)).
  { induction l as [|h l IH]; intros d; simpl; auto. rewrite IH, join_step_keys. reflexivity. }
  rewrite G, addk_fold. simpl.
  generalize (firsts (map fst l)). clear. induction l as [|x l IH]; simpl; f_equal; auto.
Qed.
Lemma firsts_NoDup l : NoDup (firsts l).
Proof.
  induction l as [|x l IH]; simpl; [constructor|]. constructor.
  - rewrite filter_In, str_eqb_refl. simpl. intros [_ H]. discriminate.
  - apply NoDup_filter. exact IH.
Qed.
Lemma sset_fresh {V} k (v : V) d : ~ In k (map fst d) -> sset k v d = d ++ [(k, v)].
Proof.
  induction d as [|[a b] d IH]; simpl; intros H; auto.
  destruct (str_eqb_spec k a); [exfalso; auto|]. rewrite IH; auto.
Qed.
Lemma supdate_fresh {V} (l : list (str * V)) : forall acc,
  NoDup (map fst (acc ++ l)) -> supdate acc l = acc ++ l.
Proof.
  unfold dupdate. induction l as [|[k v] l IH]; intros acc H; simpl.
  - now rewrite app_nil_r.
  - rewrite sset_fresh.
    + rewrite IH; rewrite <- app_assoc; auto.
    + intros Hk. rewrite map_app in H. simpl in H. apply NoDup_remove_2 in H.
      apply H. apply in_or_app. now left.
Qed.
Lemma dict_of_id l : NoDup (map fst l) -> dict_of l = l.
Proof. intros H. apply (supdate_fresh l []). exact H. Qed.

(** * update_with *)
Definition not_basic_token (defs : sdict sec_def) (name : str) (c : cred) : Prop :=
  match c with
  | CPair _ _ => True
  | CTok _ => forall n i, sget name defs <> Some (SecDef (Some (lit "basic")) n i)
  end.
Lemma update_with_places defs info name c info' :
  not_basic_token defs name c ->
  update_with defs info name c = Ok info' ->
  exists h k c', places defs name c h k c' /\ info' = sset name (h, (k, c')) info.
Proof.
  intros NB. unfold update_with. destruct (sget name defs) as [[t n i]|] eqn:E; [|discriminate].
  cbn [sd_type sd_name sd_in]. destruct t as [t|]; [|discriminate].
  destruct (str_eqb_spec t "basic"%string) as [ -> |D1].
  - destruct c as [s|u p]; [exfalso; eapply NB; eauto|].
    cbn [basic_text bind]. intros H; inversion H; subst.
    exists true, (lit "Authorization"), (CTok (lit "Basic " ++ standard_b64encode (u ++ ":"%char :: p))).
    split; auto. eapply pl_basic; eauto.
    + apply b64_roundtrip. reflexivity.
    + apply b64_alphabet. reflexivity.
    + apply b64_length.
  - destruct (str_eqb_spec t "apiKey"%string) as [ -> |D2].
    + intros H. destruct i as [i|].
      * destruct (str_eqb_spec i "header"%string) as [ -> |D3].
        -- injection H as <-. exists true, n, c. split; auto. now apply pl_key_header.
        -- injection H as <-. exists false, n, c. split; auto. eapply pl_key_query; eauto. congruence.
      * injection H as <-. exists false, n, c. split; auto. eapply pl_key_query; eauto. congruence.
    + destruct (str_eqb_spec t "oauth2"%string) as [ -> |D3]; [|discriminate].
      intros H; inversion H; subst. exists true, (lit "access_token"), c.
      split; auto. eapply pl_oauth2; eauto.
Qed.
Lemma update_with_err defs info name c :
  not_basic_token defs name c ->
  (exists e, update_with defs info name c = Err e) <->
  update_with defs info name c = Err ValueError /\
  (sget name defs = None \/ exists s, sget name defs = Some s /\
     forall t, sd_type s = Some t -> ~ In t [lit "basic"; lit "apiKey"; lit "oauth2"]).
Proof.
  intros NB. split; [|intros [H _]; eauto].
  intros [e H]. unfold update_with in *. destruct (sget name defs) as [[t n i]|] eqn:E; auto.
  cbn [sd_type sd_name sd_in] in *. destruct t as [t|].
  - destruct (str_eqb_spec t "basic"%string) as [ -> |D1].
    + destruct c; [exfalso; eapply NB; eauto|]. discriminate.
    + destruct (str_eqb_spec t "apiKey"%string) as [ -> |D2]; [discriminate|].
      destruct (str_eqb_spec t "oauth2"%string) as [ -> |D3]; [discriminate|].
      split; auto. right. eexists. split; eauto. cbn [sd_type]. intros t' [= <-]. cbn [In].
      intros [?|[?|[?|[]]]]; congruence.
  - split; auto. right. eexists. split; eauto. simpl. discriminate.
Qed.
(** the placement is a function of the arguments *)
Lemma update_with_indep defs info1 info2 name c :
  match update_with defs info1 name c, update_with defs info2 name c with
  | Ok i1, Ok i2 => exists x, i1 = sset name x info1 /\ i2 = sset name x info2
  | Err e1, Err e2 => e1 = e2
  | _, _ => False
  end.
Proof.
  unfold update_with. destruct (sget name defs) as [[t n i]|]; auto.
  cbn [sd_type sd_name sd_in]. destruct t as [t|]; auto.
  destruct (str_eqb t _). { destruct (basic_text c); simpl; eauto. }
  destruct (str_eqb t _); eauto. destruct (str_eqb t _); eauto.
Qed.

Lemma upd_run_last defs hist name h k c' :
  (forall n c, In (n, c) hist -> not_basic_token defs n c) ->
  sget name (upd_run defs hist) = Some (h, (k, c')) ->
  exists a c b, hist = a ++ (name, c) :: b /\ places defs name c h k c' /\
    forall c2, ~ In (name, c2) b.
Proof.
  unfold upd_run. induction hist as [|[n c] hist IH] using rev_ind; [discriminate|].
  intros NB. rewrite fold_left_app. cbn [fold_left fst snd].
  set (info := fold_left (fun info nc => match update_with defs info (fst nc) (snd nc) with
                            | Ok info' => info' | Err _ => info end) hist []) in *. intros H.
  assert (NB' : forall n c, In (n, c) hist -> not_basic_token defs n c).
  { intros. apply NB. apply in_or_app; auto. }
  assert (NBc : not_basic_token defs n c) by (apply NB, in_or_app; right; now left).
  destruct (update_with defs info n c) as [info'|e] eqn:U.
  - apply update_with_places in U as (h' & k' & c2 & P & ->); auto.
    destruct (str_eqb_spec name n) as [ -> |D].
    + rewrite sget_sset_same in H. inversion H; subst.
      exists hist, c, []. repeat split; auto.
    + rewrite sget_sset_other in H by auto.
      destruct (IH NB' H) as (a & c0 & b & -> & P0 & B).
      exists a, c0, (b ++ [(n, c)]). rewrite <- app_assoc. repeat split; auto.
      intros c3 Hc. apply in_app_iff in Hc as [Hc|[Hc|[]]]; [eapply B; eauto|]. inversion Hc; subst; auto.
  - destruct (IH NB' H) as (a & c0 & b & -> & P0 & B).
    exists a, c0, (b ++ [(n, c)]). rewrite <- app_assoc. repeat split; auto.
    intros c3 Hc. apply in_app_iff in Hc as [Hc|[Hc|[]]]; [eapply B; eauto|]. inversion Hc; subst.
    (* name is definable: the earlier update succeeded *)
    assert (Ex : exists e, update_with defs info name c3 = Err e) by eauto.
    apply (update_with_err defs info name c3 NBc) in Ex as [_ [F|(s & F & G)]].
    + inversion P0; subst; congruence.
    + inversion P0; subst; rewrite H0 in F; inversion F; subst; eapply G; simpl; eauto; simpl; auto.
Qed.
Lemma upd_run_set defs hist name c :
  (exists info', update_with defs [] name c = Ok info') ->
  forall b, (forall c2, ~ In (name, c2) b) ->
  exists h k c', sget name (upd_run defs (hist ++ (name, c) :: b)) = Some (h, (k, c')).
Proof.
  intros [i Hi] b Hb. unfold upd_run. rewrite fold_left_app. cbn [fold_left fst snd].
  set (info := fold_left (fun info nc => match update_with defs info (fst nc) (snd nc) with
                            | Ok info' => info' | Err _ => info end) hist []).
  pose proof (update_with_indep defs [] info name c) as X. rewrite Hi in X.
  destruct (update_with defs info name c) as [i2|]; [|easy]. destruct X as (x & _ & ->).
  assert (G : forall b info0, (forall c2, ~ In (name, c2) b) ->
     sget name (fold_left (fun info nc => match update_with defs info (fst nc) (snd nc) with
                            | Ok info' => info' | Err _ => info end) b info0) = sget name info0).
  { clear. induction b as [|[n c] b IH]; intros info0 H; simpl; auto.
    rewrite IH by (intros c2 Hc; apply (H c2); now right).
    pose proof (update_with_indep defs info0 info0 n c) as X.
    destruct (update_with defs info0 n c); auto. destruct X as (x & -> & _).
    apply sget_sset_other. intros ->. apply (H c). now left. }
  rewrite G by auto. rewrite sget_sset_same. destruct x as [h [k c']]. eauto.
Qed.

(** * compose_headers *)
Lemma lastval_values l n : lastval l n = last_option (values_of n l).
Proof.
  induction l as [|[k v] l IH] using rev_ind; [reflexivity|].
  rewrite lastval_app, values_app. unfold last_option in *. rewrite rev_app_distr.
  assert (V : values_of n [(k, v)] = if str_eqb n k then [v] else []).
  { unfold values_of, named. simpl. rewrite (str_eqb_sym k n). destruct (str_eqb n k); reflexivity. }
  rewrite V. simpl. destruct (str_eqb n k); simpl; auto.
Qed.
Lemma sget_lastval (l : sdict str) n : NoDup (map fst l) -> sget n l = lastval l n.
Proof.
  induction l as [|[k v] l IH]; simpl; intros N; auto. inversion N; subst.
  rewrite <- IH by auto. destruct (str_eqb_spec n k) as [ -> |D].
  - assert (sget k l = None) as ->; auto. now apply sget_None.
  - destruct (sget n l); auto.
Qed.
Lemma compose_dict h arg l :
  (arg = HList l \/ (arg = HDict l /\ NoDup (map fst l))) ->
  exists d, compose_headers h arg false true = Ok (RDict d) /\
    forall n, match last_option (values_of n (cid_items h)) with
              | Some v => sget n d = Some v
              | None => sget n d = last_option (values_of n l)
              end.
Proof.
  intros [ -> |[ -> N]]; eexists; (split; [reflexivity|]); intros n;
    rewrite <- !lastval_values, supdate_get; destruct (lastval (cid_items h) n); auto.
  - unfold dict_of. rewrite supdate_get. destruct (lastval l n); auto.
  - now apply sget_lastval.
Qed.
Lemma sdict_ext (d : sdict str) : NoDup (map fst d) ->
  forall f, (forall n, In n (map fst d) -> sget n d = Some (f n)) ->
  d = map (fun n => (n, f n)) (map fst d).
Proof.
  intros N f H. rewrite map_map. rewrite <- (map_id d) at 1. apply map_ext_in.
  intros [k v] Hi. simpl. f_equal. apply In_sget in Hi as G; auto.
  assert (In k (map fst d)) by (apply (in_map fst) in Hi; exact Hi).
  apply H in H0. congruence.
Qed.
Lemma join_fold_eq (agg : list (str * str)) :
  fold_left join_step agg [] =
  map (fun n => (n, join ","%string (values_of n agg))) (firsts (map fst agg)).
Proof.
  rewrite <- join_keys. apply sdict_ext.
  - rewrite join_keys. apply firsts_NoDup.
  - intros n Hn. apply sget_Some_key in Hn as [v Hv]. rewrite join_fold in *.
    destruct (values_of n agg); [discriminate|reflexivity].
Qed.
Lemma compose_join h arg l :
  (arg = HList l \/ arg = HDict l) ->
  let agg := cid_items h ++ l in
  let joined := map (fun n => (n, join ","%string (values_of n agg))) (firsts (map fst agg)) in
  compose_headers h arg true false = Ok (RList joined) /\
  compose_headers h arg true true = Ok (RDict joined).
Proof.
  intros H agg joined.
  assert (D : dict_of joined = joined).
  { apply dict_of_id. unfold joined. rewrite map_map. cbn [fst]. rewrite map_id. apply firsts_NoDup. }
  destruct H as [ -> | -> ]; unfold compose_headers; cbn [andb negb bind];
    fold agg; rewrite join_fold_eq; fold joined; rewrite D; auto.
Qed.
