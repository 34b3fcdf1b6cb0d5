(** Parsed objects hold what their class says. *)
From Coq Require Import Lia.
From Verif Require Import PyBase PyFacts PyJson P_Op M_SpecVal M_Parse S_Parse P_SpecBase P_Parse S_Typed.
Close Scope Q_scope.

Lemma wtv_step v ts o : reach [] v ts o -> wtv v -> wtv o.
Proof.
  induction 1 as [v|h fs i n v ts o _ G R IH|l i v ts o N R IH|d k v ts o G R IH]; intro W; [exact W|..]; apply IH; inversion W as [| | | | |? F|? F|? ? ? F _]; subst; rewrite Forall_forall in F.
  - apply sget_In in G. exact (F _ G).
  - apply F. eapply nth_error_In; eauto.
  - apply sget_In in G. exact (F _ G).
Qed.
Lemma wtv_inject j : wtv (inject j).
Proof.
  induction j using json_ind'; cbn [inject]; try constructor.
  - apply Forall_forall. intros v I. apply in_map_iff in I as (x & <- & I). rewrite Forall_forall in *. auto.
  - apply Forall_forall. intros v I. apply in_map_iff in I as (x & <- & I). cbn [snd]. rewrite Forall_forall in *. auto.
Qed.
Lemma inject_none_obj j : no_obj (inject j).
Proof. intros ts o. apply inject_no_obj. Qed.
Lemma wtv_set_parent p v : wtv v -> wtv (set_parent p v).
Proof. destruct v; auto. intro W. inversion W; subst. now constructor. Qed.
Lemma wtv_own p v : wtv v -> wtv (own p v).
Proof.
  destruct v; intro W; cbn [own]; try (now apply wtv_set_parent).
  - inversion W; subst. constructor. apply Forall_forall. intros v I. apply in_map_iff in I as (x & <- & I). apply wtv_set_parent. rewrite Forall_forall in *. auto.
  - inversion W as [| | | | | |? F|]; subst. constructor.
    apply Forall_forall. intros v I. apply in_map_iff in I as (x & <- & I). cbn [snd]. apply wtv_set_parent. rewrite Forall_forall in *. auto.
Qed.
Lemma child1_produced p c v : is_produced c v = true -> child1 c (set_parent p v).
Proof. intros E. destruct c, v; cbn in *; try discriminate E; try exact I; try reflexivity; symmetry; now apply cls_eqb_eq. Qed.
(** Children as they are parsed *)
Definition made (ct : ctype) (c : ctx) (v : val) : Prop :=
  match ct with
  | One => v = VNone \/ is_produced c v = true
  | ListOf => exists l, v = VList l /\ Forall (fun x => is_produced c x = true) l
  | DictOf => exists d, v = VDict d /\ Forall (fun kv => is_produced c (snd kv) = true) d
  end.
Lemma parse_child_made ct c pl v x : parse_child parse ct c pl v = Ok x -> made ct c x.
Proof.
  destruct ct; cbn [parse_child made].
  - intro E. right. now apply parse_produced in E.
  - intro E. apply bind_ok in E as (l & _ & E). apply bind_ok in E as (m & E & X). injection X as <-. exists m.
    split; [reflexivity|]. apply mapi_res_ok in E. apply (irel_Forall2 _ (fun _ y => is_produced c y = true)) in E.
    + clear - E. induction E; constructor; auto.
    + intros j y z _ P. now apply parse_produced in P.
  - destruct v; try discriminate. intro E. apply bind_ok in E as (e & E & X). injection X as <-. exists e.
    split; [reflexivity|]. rewrite (map_res_dict (fun k x => parse c (pl ++ [k]) x)) in E.
    clear - E. induction E as [|[k y] [k' z] d e (_ & P) F IH]; constructor; [|exact IH].
    now apply parse_produced in P.
Qed.
Lemma gathered_made c pl d n df x ct cc : sget n (t_fields c) = Some df -> sget n (t_child c) = Some (ct, cc) ->
  gathered c pl d n df x -> made ct cc x.
Proof.
  intros F T G. unfold gathered in G. rewrite T in G.
  assert (AB : forall j, typed1 cc (inject j) \/ ct <> One -> made ct cc (absent ct j)).
  { intros j H. destruct ct; cbn; [|exists []; auto..]. destruct H as [H|H]; [exact H|congruence]. }
  destruct (sget n d) as [v|].
  - destruct v; try (now apply parse_child_made in G). subst x. apply AB. left. now left.
  - subst x. apply AB. eapply child_default; eauto.
Qed.
Lemma child_typed p ct c v : made ct c v -> child_ok ct c (own p v).
Proof.
  destruct ct; cbn [made].
  - intros [->|E]; [exact I|]. pose proof (child1_produced p c v E) as C. destruct c, v; cbn in *; try discriminate E; auto.
  - intros (l & -> & F). cbn. split; [reflexivity|]. apply Forall_forall. intros v I. apply in_map_iff in I as (x & <- & I). rewrite Forall_forall in F. apply child1_produced; auto.
  - intros (d & -> & F). cbn. split; [reflexivity|]. apply Forall_forall. intros v I. apply in_map_iff in I as (x & <- & I). rewrite Forall_forall in F. cbn [snd]. apply child1_produced. exact (F _ I).
Qed.
Lemma default_ok c n ct cc df : In (n, (ct, cc)) (t_child c) -> sget n (t_fields c) = Some df -> child_ok ct cc (inject df).
Proof.
  intros T F. destruct c; cbn [t_child In] in T;
    repeat (destruct T as [T|T]; [injection T as <- <- <-; vm_compute in F; injection F as <-; cbn; auto|]); destruct T.
Qed.
Lemma parse_wtv : forall N c pl j v, jdepth j < N -> wf j -> parse c pl j = Ok v -> wtv v.
Proof.
  induction N as [|N IH]; intros c pl j v D W E; [lia|].
  assert (X : forall c pl d v, jdepth (JObj d) <= N -> wf (JObj d) -> parse (Of c) pl (JObj d) = Ok v -> wtv v).
  { clear c pl j v D W E. intros c pl d v D W E. apply parse_obj in E as (kids & fs & _ & -> & R).
    inversion W as [| | | | | |? ND F]; subst. rewrite Forall_forall in F. rewrite jdepth_obj in D.
    assert (ND' : NoDup (map fst fs)) by (rewrite <- (drel_keys _ _ _ R); apply fields_nodup).
    constructor; cbn [h_cls]; apply Forall_forall; intros [n x] I; cbn [snd fst]; destruct (drel_get_r _ _ _ _ _ R (In_sget _ _ _ ND' I)) as (df & DF & FV).
    - destruct FV as (y & G & ->).
      assert (WY : wtv y).
      { unfold gathered in G. destruct (sget n (t_child c)) as [[ct cc]|] eqn:T.
        - assert (A : forall k, wtv (absent ct k)) by (intros k; destruct ct; cbn [absent]; [apply wtv_inject|repeat constructor..]).
          destruct (sget n d) as [w|] eqn:S; [|now subst].
          assert (WW : wf w) by (apply sget_In in S; exact (F _ S)). assert (DW : jdepth w <= jddepth d) by eauto using jddepth_get.
          assert (P : parse_child parse ct cc (pl ++ [n]) w = Ok y -> wtv y).
          { clear - IH WW DW D. destruct ct; cbn [parse_child]; intro P.
            - eapply IH; [|exact WW|exact P]. lia.
            - apply bind_ok in P as (l & J & P). apply bind_ok in P as (m & P & Q). injection Q as <-. constructor. apply Forall_forall. intros z Z.
              apply mapi_res_ok in P. assert (exists i x, nth_error m i = Some z /\ In x l /\ parse cc ((pl ++ [n]) ++ [str_of_nat i]) x = Ok z) as (i & x & _ & I & PZ).
              { apply In_nth_error in Z as (i & Z). destruct (irel_nth _ _ _ _ P _ _ Z) as (x & NX & PX). exists i, x. split; [exact Z|]. split; [eapply nth_error_In; eauto|exact PX]. }
              destruct w; cbn [iter_json] in J; try discriminate J; injection J as <-.
              + apply in_map_iff in I as (a & <- & _). refine (IH _ _ _ _ _ _ PZ); [|constructor]. cbn [jdepth]. cbn in DW. lia.
              + inversion WW as [| | | | |? FW|]; subst. rewrite Forall_forall in FW. eapply IH; [|exact (FW _ I)|exact PZ]. apply jldepth_In in I. rewrite jdepth_list in DW. lia.
              + apply in_map_iff in I as (a & <- & _). refine (IH _ _ _ _ _ _ PZ); [|constructor]. rewrite jdepth_obj in DW. cbn [jdepth]. lia.
            - destruct w as [| | | | | |e]; try discriminate P. apply bind_ok in P as (m & P & Q). injection Q as <-.
              rewrite (map_res_dict (fun k x => parse cc ((pl ++ [n]) ++ [k]) x)) in P. inversion WW as [| | | | | |? NE FE]; subst. rewrite Forall_forall in FE.
              assert (NM : NoDup (map fst m)) by (rewrite <- (drel_keys _ _ _ P); exact NE).
              constructor. apply Forall_forall. intros [k z] Z. cbn [snd].
              destruct (drel_get_r _ _ _ _ _ P (In_sget _ _ _ NM Z)) as (x & GX & PX). apply sget_In in GX.
              eapply IH; [|exact (FE _ GX)|exact PX]. apply jddepth_In in GX. rewrite jdepth_obj in DW. cbn [snd]. lia. }
          destruct w; try (exact (P G)). cbv iota in G. subst y. destruct ct; repeat constructor.
        - subst y. apply wtv_inject. }
      destruct (sget n (t_child c)); [now apply wtv_own|exact WY].
    - unfold field_ok. destruct (sget n (t_child c)) as [[ct cc]|] eqn:T.
      + destruct FV as (y & G & ->). rewrite T. assert (TY : made ct cc y) by (eapply gathered_made; eauto). split; [now apply child_typed|].
        intros N1 N2. exfalso. destruct ct; [now elim N2|..]; destruct TY as (l & -> & _); discriminate N1.
      + destruct (field_no_child _ _ _ _ _ _ T FV) as (k & ->). apply inject_none_obj. }
  assert (NUL : forall c, parse (Of c) pl JNull = Ok v -> wtv v).
  { clear. intros c E. rewrite parse_null in E. injection E as <-. constructor; cbn [h_cls];
      apply Forall_forall; intros kv I; apply in_map_iff in I as (nd & <- & I); cbn [snd fst]; [apply wtv_inject|].
    unfold field_ok. destruct (sget (fst nd) (t_child c)) as [[ct cc]|] eqn:T; [|apply inject_none_obj].
    apply In_fields in I. apply sget_In in T. split; [eapply default_ok; eauto|]. intros N _. rewrite I. f_equal. now destruct (snd nd). }
  destruct c as [c|].
  - destruct j; try (rewrite parse_eq in E; discriminate E).
    + eapply NUL; eauto.
    + eapply X; [|exact W|exact E]. lia.
  - destruct j; try (rewrite parse_eq in E; discriminate E).
    + rewrite parse_eq in E. injection E as <-. constructor.
    + rewrite parse_eq in E. injection E as <-. constructor.
    + rewrite parse_addp_obj in E. eapply X; [|exact W|exact E]. lia.
Qed.
Lemma parsed_wtv c pl j v : wf j -> parse c pl j = Ok v -> wtv v.
Proof. apply (parse_wtv (S (jdepth j))). lia. Qed.
