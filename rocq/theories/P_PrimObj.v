(** Proofs about arrays and objects made by the factory (C28, C30, C31). *)
From Coq Require Import QArith Lia.
From Verif Require Import PyBase PyFacts M_Graph S_Graph P_Graph M_Quote M_Time M_Prim S_Prim P_Op P_Prim P_PrimLeaf.
Close Scope Q_scope.
Open Scope nat_scope.

(** ** Duplicates *)
Lemma v_in_false e l : v_in e l = false <-> forall y, In y l -> v_eqb e y = false.
Proof.
  unfold v_in. split.
  - intros H y I. destruct (v_eqb e y) eqn:E; [|reflexivity].
    assert (X : existsb (v_eqb e) l = true) by (apply existsb_exists; eauto). congruence.
  - intro H. destruct (existsb (v_eqb e) l) eqn:E; [|reflexivity]. apply existsb_exists in E as (y & I & E).
    rewrite H in E; [discriminate|exact I].
Qed.
Lemma v_in_true e l : v_in e l = true <-> exists y, In y l /\ v_eqb e y = true.
Proof. unfold v_in. apply existsb_exists. Qed.
Lemma uniq_firsts l : forall seen, exists l', uniq seen l = seen ++ l' /\ firsts seen l l'.
Proof.
  induction l as [|e l IH]; intro seen; cbn [uniq].
  - exists []. split; [now rewrite app_nil_r|constructor].
  - destruct (v_in e seen) eqn:E.
    + destruct (IH seen) as (l' & A & B). exists l'. split; [exact A|]. apply firsts_drop; [now apply v_in_true|exact B].
    + destruct (IH (seen ++ [e])) as (l' & A & B). exists (e :: l'). split.
      * rewrite A, <- app_assoc. reflexivity.
      * apply firsts_keep; [now apply v_in_false|exact B].
Qed.
Lemma firsts_det seen l l1 : firsts seen l l1 -> forall l2, firsts seen l l2 -> l1 = l2.
Proof.
  induction 1 as [seen|seen e l l' A F IH|seen e l l' [y [I Y]] F IH]; intros l2 G;
    inversion G as [|? ? ? ? A2|? ? ? ? A2]; subst; auto.
  - f_equal. auto.
  - destruct A2 as (y & I & Y). rewrite A in Y; [discriminate|exact I].
  - rewrite A2 in Y; [discriminate|exact I].
Qed.
Lemma uniq_iff l l' : uniq [] l = l' <-> firsts [] l l'.
Proof.
  destruct (uniq_firsts l []) as (l1 & A & B). cbn [app] in A. rewrite A. split.
  - now intros ->.
  - apply firsts_det. exact B.
Qed.
Lemma Forall2_impl {A B} (R S : A -> B -> Prop) : (forall a b, R a b -> S a b) -> forall l m, Forall2 R l m -> Forall2 S l m.
Proof. induction 2; constructor; auto. Qed.
Lemma map_res_Forall2 {A B} (f : A -> res B) l : forall rs, map_res f l = Ok rs <-> Forall2 (fun x y => f x = Ok y) l rs.
Proof.
  induction l as [|x l IH]; intro rs; cbn [map_res].
  - split; [intro E; injection E as <-; constructor|intro F; inversion F; reflexivity].
  - rewrite bind_ok. split.
    + intros (y & E & R). apply bind_ok in R as (ys & R & X). injection X as <-. constructor; [exact E|now apply IH].
    + intro F. inversion F as [|? y ? ys E R]; subst. exists y. split; [exact E|]. apply bind_ok. exists ys.
      split; [now apply IH|reflexivity].
Qed.

Section Obj.
  Context (int_of : str -> res Z) (float_of : str -> res Q) (str_of : value -> str)
    (date_at : Q -> res (Z * Z * Z)) (datetime_at : Q -> res datetime)
    (uuid_of : str -> option Z) (email_ok : str -> bool) (h : list schema).
  Notation produce := (produce int_of float_of str_of date_at datetime_at uuid_of email_ok h).
  Notation start := (start int_of float_of str_of date_at datetime_at uuid_of email_ok h).
  Notation finish := (finish date_at datetime_at uuid_of email_ok h).
  Notation all_of := (all_of date_at datetime_at uuid_of email_ok h).
  Notation apply_rest := (apply_rest date_at datetime_at uuid_of email_ok h).
  Notation apply_more := (apply_more date_at datetime_at uuid_of email_ok h).
  Notation apply_obj := (apply_obj date_at datetime_at uuid_of h).
  Notation model_apply := (model_apply h).
  Notation model_given := (model_given h).
  Notation model_defaults := (model_defaults h).
  Notation cleanup := (cleanup h).

  (** The conversion of a nested value, with the fuel left. *)
  Definition conv (n : nat) (p : nat) (v : value) (x : prim) : Prop :=
    exists c, produce n p v (new_ctx true) = Ok (x, c).
  Lemma rec0_conv n p v x : rec0 (produce n) p v = Ok x <-> conv n p v x.
  Proof.
    unfold rec0, conv. rewrite bind_ok. split.
    - intros ([r c] & E & F). injection F as <-. eauto.
    - intros (c & E). exists (x, c). auto.
  Qed.
  Lemma conv_det n p v x y : conv n p v x -> conv n p v y -> x = y.
  Proof. intros [c A] [c' B]. congruence. Qed.

  (** ** Arrays *)
  (** What the elements are, before duplicates are dropped. *)
  Definition array_fmt (s : schema) : str := match s_cf s with Some f => f | None => lit "csv" end.
  Lemma array_apply_list n s l0 l r v' : array_apply (produce n) s l0 (VList l) = Ok (r, v') <->
    exists l', (if s_unique s then firsts [] l l' else l' = l) /\
      match s_items s with
      | Some it => exists rs, Forall2 (conv n it) l' rs /\ count_ok s (length (l0 ++ rs)) /\
                     r = PArray (array_fmt s) (l0 ++ rs) /\ v' = VList []
      | None => count_ok s (length l0) /\ r = PArray (array_fmt s) l0 /\ v' = VList l'
      end.
  Proof.
    unfold array_apply. cbn [split_text bind]. fold (array_fmt s).
    assert (U : forall l', unique s (VList l) = Ok (VList l') <-> (if s_unique s then firsts [] l l' else l' = l)).
    { intro l'. unfold unique. cbn [elements]. destruct (s_unique s).
      - rewrite <- uniq_iff. split; [intro E; now injection E|now intros ->].
      - split; [intro E; now injection E|now intros ->]. }
    assert (UL : exists l', unique s (VList l) = Ok (VList l')).
    { unfold unique. cbn [elements]. destruct (s_unique s); eauto. }
    assert (CK : forall k, count_ok s k <->
       (match given (s_minitems s) with Some m => if (Z.of_nat k <? m)%Z then Err ValidationError else Ok tt | None => Ok tt end = Ok tt /\
        match given (s_maxitems s) with Some m => if (m <? Z.of_nat k)%Z then Err ValidationError else Ok tt | None => Ok tt end = Ok tt)).
    { intro k. pose proof (proj1 (max_check (s_maxitems s) (Z.of_nat k))) as A.
      pose proof (proj1 (min_check (s_minitems s) (Z.of_nat k))) as B. cbn zeta in A, B. rewrite A, B. reflexivity. }
    assert (TAIL : forall (lv : list prim * value),
      (do _ <- match given (s_minitems s) with Some k => if (len_z (fst lv) <? k)%Z then Err ValidationError else Ok tt | None => Ok tt end;
       do _ <- match given (s_maxitems s) with Some k => if (k <? len_z (fst lv))%Z then Err ValidationError else Ok tt | None => Ok tt end;
       Ok (PArray (array_fmt s) (fst lv), snd lv)) = Ok (r, v') <->
      count_ok s (length (fst lv)) /\ r = PArray (array_fmt s) (fst lv) /\ v' = snd lv).
    { intro lv. rewrite CK. unfold len_z. rewrite bind_ok. split.
      - intros ([] & A & B). apply bind_ok in B as ([] & B & C). injection C as <- <-. auto.
      - intros ((A & B) & -> & ->). exists tt. split; [exact A|]. apply bind_ok. exists tt. auto. }
    rewrite bind_ok. split.
    - intros (v2 & A & B). destruct UL as (l' & UL). assert (v2 = VList l') as -> by congruence. exists l'.
      split; [now apply U|]. apply bind_ok in B as (lv & C & D). apply TAIL in D as (D1 & -> & ->).
      destruct (s_items s) as [it|].
      + cbn [elements] in C. destruct l' as [|e l'].
        * injection C as <-. exists []. cbn [fst snd] in *. rewrite app_nil_r. split; [constructor|]. auto.
        * apply bind_ok in C as (rs & C & D). injection D as <-. apply map_res_Forall2 in C. exists rs.
          split; [|auto]. eapply Forall2_impl; [|exact C]. intros. now apply rec0_conv.
      + injection C as <-. auto.
    - intros (l' & A & B). exists (VList l'). split; [now apply U|]. apply bind_ok.
      destruct (s_items s) as [it|].
      + destruct B as (rs & F & D & -> & ->). exists (l0 ++ rs, VList []). split; [|now apply TAIL].
        cbn [elements]. destruct l' as [|e l'].
        * inversion F; subst. now rewrite app_nil_r.
        * apply bind_ok. exists rs. split; [|reflexivity]. apply map_res_Forall2.
          eapply Forall2_impl; [|exact F]. intros. now apply rec0_conv.
      + destruct B as (D & -> & ->). exists (l0, VList l'). split; [reflexivity|]. now apply TAIL.
  Qed.
  (** A text is split first. *)
  Lemma array_apply_text n s l0 t sp r v' : separator (array_fmt s) = Some sp ->
    array_apply (produce n) s l0 (VStr t) = Ok (r, v') <->
    array_apply (produce n) s l0 (VList (map VStr (split [sp] t))) = Ok (r, v').
  Proof. intro S. unfold array_apply. fold (array_fmt s). cbn [split_text]. rewrite S. reflexivity. Qed.

  Lemma start_array rec t v c : typed (sch h t) "array" ->
    start rec t v c = do x <- array_apply rec (sch h t) [] v; Ok (fst x, snd x, set_2nd (Some S2Obj) c).
  Proof.
    intro T. assert (G : get (s_type (sch h t)) (s_format (sch h t)) = (Some (CrObj CArray), Some S2Obj)).
    { rewrite T. reflexivity. }
    destruct (typed_some _ _ T) as (a & x & E); [discriminate|].
    unfold M_Prim.start. rewrite G. rewrite E.
    cbn [M_Prim.create bind M_Prim.run_2nd M_Prim.apply_obj].
    destruct (array_apply rec (sch h t) [] v) as [[r v']|]; reflexivity.
  Qed.
  Lemma finish_array rec s f l v c : members s = [] -> finish rec s (PArray f l) v c = Ok (PArray f l, c).
  Proof.
    intro M. unfold M_Prim.finish, members in *. cbn [final_kind].
    destruct (s_full s); [|reflexivity]. rewrite M. cbn [M_Prim.all_of bind]. destruct (falsy _); reflexivity.
  Qed.
  Lemma array_apply_shape rec s l0 v r v' : array_apply rec s l0 v = Ok (r, v') -> exists l, r = PArray (array_fmt s) l.
  Proof.
    unfold array_apply. intro E. apply bind_ok in E as (v1 & A & E).
    apply bind_ok in E as (v2 & B & E). apply bind_ok in E as (lv & C & E).
    apply bind_ok in E as (? & _ & E). apply bind_ok in E as (? & _ & E). injection E as <- <-. eauto.
  Qed.
  Lemma array_iff n o t v c r : target h o t -> ~ In t (c_guard c) -> typed (sch h t) "array" ->
    members (sch h t) = [] -> is_null (effective h o v) = false ->
    (exists c', produce (S n) o v c = Ok (r, c')) <->
    exists v', array_apply (produce n) (sch h t) [] (effective h o v) = Ok (r, v').
  Proof.
    intros T G K M N. rewrite (produce_some _ _ _ _ _ _ _ _ n o t v c T N G). rewrite start_array; [|exact K]. split.
    - intros (c' & E). apply bind_ok in E as ([[r0 v0] c0] & A & E). apply bind_ok in A as ([r1 v1] & A & B).
      injection B as <- <- <-. cbn [fst snd] in *. destruct (array_apply_shape _ _ _ _ _ _ A) as (l & ->).
      rewrite finish_array in E; [|exact M]. injection E as <- <-. eauto.
    - intros (v' & A). destruct (array_apply_shape _ _ _ _ _ _ A) as (l & ->). eexists. apply bind_ok.
      exists (PArray (array_fmt (sch h t)) l, v', set_2nd (Some S2Obj) (ctx1 h t c)). split.
      + apply bind_ok. eexists. split; [exact A|]. reflexivity.
      + now apply finish_array.
  Qed.
  Lemma array_err n o t v c e : target h o t -> ~ In t (c_guard c) -> typed (sch h t) "array" ->
    is_null (effective h o v) = false ->
    array_apply (produce n) (sch h t) [] (effective h o v) = Err e -> produce (S n) o v c = Err e.
  Proof.
    intros T G K N E. rewrite (produce_some _ _ _ _ _ _ _ _ n o t v c T N G). rewrite start_array; [|exact K].
    now rewrite E.
  Qed.
  (** When everything converts, only the count can be wrong. *)
  Lemma array_count_err n s l l' rs it : (if s_unique s then firsts [] l l' else l' = l) -> s_items s = Some it ->
    Forall2 (conv n it) l' rs -> ~ count_ok s (length rs) ->
    array_apply (produce n) s [] (VList l) = Err ValidationError.
  Proof.
    intros U I F C.
    assert (X : forall r v', array_apply (produce n) s [] (VList l) <> Ok (r, v')).
    { intros r v' E. apply array_apply_list in E as (l2 & A & B). rewrite I in B. destruct B as (rs2 & F2 & C2 & _).
      assert (l2 = l') as ->. { destruct (s_unique s); [eapply firsts_det; eauto|congruence]. }
      assert (rs2 = rs) as ->.
      { clear - F F2. revert rs2 F2. induction F; intros rs2 F2; inversion F2; subst; [reflexivity|].
        f_equal; [eapply conv_det; eauto|auto]. }
      contradiction. }
    revert X. unfold array_apply. cbn [split_text bind].
    assert (unique s (VList l) = Ok (VList l')) as ->.
    { unfold unique. cbn [elements]. destruct (s_unique s); [|now subst]. apply uniq_iff in U. now rewrite U. }
    cbn [bind]. rewrite I. cbn [elements].
    assert (E : exists vv, (match l' with [] => Ok ([], VList l') | _ => do rs <- map_res (rec0 (produce n) it) l'; Ok ([] ++ rs, VList []) end) = Ok (rs, vv)).
    { destruct l' as [|e l']; [inversion F; eauto|]. 
      assert (Y : map_res (rec0 (produce n) it) (e :: l') = Ok rs).
      { apply map_res_Forall2. eapply Forall2_impl; [|exact F]. intros. now apply rec0_conv. }
      rewrite Y. cbn [bind app]. eauto. }
    destruct E as (vv & E). rewrite E. cbn [bind fst snd].
    destruct (min_check (s_minitems s) (len_z rs)) as [A1 A2]. destruct (max_check (s_maxitems s) (len_z rs)) as [B1 B2].
    cbn zeta in A1, A2, B1, B2. destruct A2 as [A2|A2]; rewrite A2; cbn [bind]; [|reflexivity].
    destruct B2 as [B2|B2]; rewrite B2; cbn [bind]; [|reflexivity].
    intro X. exfalso. eapply X. reflexivity.
  Qed.

  (** ** Objects *)
  Definition undeclared (s : schema) (k : str) : bool := negb (smem k (s_props s)).
  Definition has_extra (s : schema) (d : sdict value) : bool := existsb (fun kv => undeclared s (fst kv)) d.
  Definition is_true_addp (a : addp) : bool := match a with ABool true => true | _ => false end.
  Definition is_schema_addp (a : addp) : bool := match a with ASchema _ => true | _ => false end.
  Definition ctx_given (o : nat) (d : sdict value) (c : ctx) : ctx :=
    Ctx (c_name c) (c_guard c)
      (c_addp c || (has_extra (sch h o) d && is_true_addp (s_addp (sch h o))))
      (if has_extra (sch h o) d && is_schema_addp (s_addp (sch h o)) then Some o else c_addps c)
      (c_2nd c) (c_read c).
  Lemma smem_sget {A} k (d : sdict A) : smem k d = match sget k d with Some _ => true | None => false end.
  Proof. reflexivity. Qed.
  Lemma sget_cons {A} k k' (x : A) d : sget k ((k', x) :: d) = if str_eqb k k' then Some x else sget k d.
  Proof. reflexivity. Qed.
  Lemma sget_notin {A} k (d : sdict A) : ~ In k (map fst d) -> sget k d = None.
  Proof. intro N. destruct (sget k d) eqn:E; [|reflexivity]. exfalso. apply N. apply smem_In. now rewrite smem_sget, E. Qed.

  Lemma model_given_spec n o : forall d m c m' c', NoDup (map fst d) ->
    model_given (produce n) o d m c = Ok (m', c') <->
    c' = ctx_given o d c /\
    (forall k p, sget k (s_props (sch h o)) = Some p -> smem k d = true -> s_readonly (sch h p) = true -> c_read c = true) /\
    exists xs : sdict prim, map fst xs = map fst (filter (fun kv => negb (undeclared (sch h o) (fst kv))) d) /\
      (forall k x, In (k, x) xs -> exists p v, sget k (s_props (sch h o)) = Some p /\ sget k d = Some v /\ conv n p v x) /\
      m' = fold_left (fun m kv => sset (fst kv) (snd kv) m) xs m.
  Proof.
    induction d as [|[k v] d IH]; intros m c m' c' ND; cbn [M_Prim.model_given].
    - split.
      + intro E. injection E as <- <-. split.
        * unfold ctx_given, has_extra. cbn. rewrite Bool.orb_false_r. now destruct c.
        * split; [discriminate|]. exists []. split; [reflexivity|]. split; [intros ? ? []|reflexivity].
      + intros (-> & _ & xs & A & _ & ->). destruct xs; [|discriminate A]. cbn.
        unfold ctx_given, has_extra. cbn. rewrite Bool.orb_false_r. now destruct c.
    - inversion ND as [|? ? NI ND']; subst. cbn [map fst] in *.
      destruct (sget k (s_props (sch h o))) as [p|] eqn:EP.
      + assert (UD : undeclared (sch h o) k = false) by (unfold undeclared; now rewrite smem_sget, EP).
        assert (CG : forall c, ctx_given o ((k, v) :: d) c = ctx_given o d c).
        { intro. unfold ctx_given, has_extra. cbn [existsb fst]. now rewrite UD. }
        rewrite CG. cbn [filter fst]. rewrite UD. cbn [negb map fst].
        split.
        * intro E. destruct (s_readonly (sch h p) && negb (c_read c)) eqn:RO; [discriminate|].
          apply bind_ok in E as (r & R & E). apply rec0_conv in R.
          apply IH in E as (-> & RD & xs & A & B & ->); [|exact ND']. split; [reflexivity|]. split.
          -- intros k2 p2 G M2 R2. rewrite smem_sget, sget_cons in M2. destruct (str_eqb k2 k) eqn:EK.
             ++ apply str_eqb_eq in EK. subst. rewrite EP in G. injection G as <-. rewrite R2 in RO.
                now apply Bool.negb_false_iff in RO.
             ++ eapply RD; [exact G|now rewrite smem_sget|exact R2].
          -- exists ((k, r) :: xs). split; [cbn; now rewrite A|]. split; [|reflexivity].
             intros k2 x [X|X].
             ++ injection X as <- <-. exists p, v. rewrite sget_cons, str_eqb_refl. auto.
             ++ destruct (B k2 x X) as (p2 & v2 & P2 & V2 & C2). exists p2, v2. split; [exact P2|]. split; [|exact C2].
                rewrite sget_cons. destruct (str_eqb k2 k) eqn:EK; [|exact V2]. apply str_eqb_eq in EK. subst.
                rewrite sget_notin in V2; [discriminate|exact NI].
        * intros (-> & RD & xs & A & B & ->). destruct xs as [|[k1 r] xs]; [discriminate A|]. injection A as -> A.
          assert (RO : s_readonly (sch h p) && negb (c_read c) = false).
          { destruct (s_readonly (sch h p)) eqn:R2; [|reflexivity]. cbn [andb]. apply Bool.negb_false_iff.
            eapply RD; [exact EP| |exact R2]. now rewrite smem_sget, sget_cons, str_eqb_refl. }
          rewrite RO. apply bind_ok. exists r. split.
          -- apply rec0_conv. destruct (B k r (or_introl eq_refl)) as (p2 & v2 & P2 & V2 & C2).
             rewrite sget_cons, str_eqb_refl in V2. congruence.
          -- apply IH; [exact ND'|]. split; [reflexivity|]. split.
             ++ intros k2 p2 G M2. eapply RD; [exact G|]. rewrite smem_sget, sget_cons.
                destruct (str_eqb k2 k); [reflexivity|exact M2].
             ++ exists xs. split; [exact A|]. split; [|reflexivity]. intros k2 x X.
                destruct (B k2 x (or_intror X)) as (p2 & v2 & P2 & V2 & C2). exists p2, v2.
                split; [exact P2|]. split; [|exact C2]. rewrite sget_cons in V2.
                destruct (str_eqb k2 k) eqn:EK; [|exact V2]. apply str_eqb_eq in EK. subst. exfalso. apply NI.
                assert (Y : In k (map fst xs)) by (apply in_map_iff; exists (k, x); auto).
                rewrite A in Y. apply in_map_iff in Y as ([k3 v3] & Y1 & Y2). cbn in Y1. subst.
                apply filter_In in Y2 as [Y2 _]. apply in_map_iff. exists (k, v3). auto.
      + assert (UD : undeclared (sch h o) k = true) by (unfold undeclared; now rewrite smem_sget, EP).
        cbn [filter fst]. rewrite UD. cbn [negb].
        assert (STEP : forall c1, ctx_given o ((k, v) :: d) c = ctx_given o d c1 -> c_read c1 = c_read c ->
           model_given (produce n) o d m c1 = Ok (m', c') <->
           c' = ctx_given o ((k, v) :: d) c /\
           (forall k0 p, sget k0 (s_props (sch h o)) = Some p -> smem k0 ((k, v) :: d) = true -> s_readonly (sch h p) = true -> c_read c = true) /\
           exists xs : sdict prim, map fst xs = map fst (filter (fun kv => negb (undeclared (sch h o) (fst kv))) d) /\
             (forall k0 x, In (k0, x) xs -> exists p v0, sget k0 (s_props (sch h o)) = Some p /\ sget k0 ((k, v) :: d) = Some v0 /\ conv n p v0 x) /\
             m' = fold_left (fun m kv => sset (fst kv) (snd kv) m) xs m).
        { intros c1 CG CR. rewrite CG. rewrite IH; [|exact ND']. rewrite CR.
          assert (NK : forall k0 p, sget k0 (s_props (sch h o)) = Some p -> sget k0 ((k, v) :: d) = sget k0 d).
          { intros k0 p G. rewrite sget_cons. destruct (str_eqb k0 k) eqn:EK; [|reflexivity].
            apply str_eqb_eq in EK. subst. congruence. }
          split; intros (-> & RD & xs & A & B & C); (split; [reflexivity|]); split.
          - intros k0 p G M2. apply (RD k0 p G). rewrite smem_sget, (NK k0 p G) in M2. exact M2.
          - exists xs. split; [exact A|]. split; [|exact C]. intros k0 x X.
            destruct (B k0 x X) as (p2 & v2 & P2 & V2 & C2). exists p2, v2. rewrite (NK k0 p2 P2). auto.
          - intros k0 p G M2. apply (RD k0 p G). rewrite smem_sget, (NK k0 p G). exact M2.
          - exists xs. split; [exact A|]. split; [|exact C]. intros k0 x X.
            destruct (B k0 x X) as (p2 & v2 & P2 & V2 & C2). exists p2, v2. rewrite (NK k0 p2 P2) in V2. auto. }
        destruct (s_addp (sch h o)) as [|[]|a] eqn:EA; apply STEP; try reflexivity;
          unfold ctx_given, has_extra; cbn [existsb fst]; rewrite UD, EA; cbn;
          rewrite ?Bool.andb_false_r, ?Bool.andb_true_r, ?Bool.orb_true_r, ?Bool.orb_false_r;
          repeat (f_equal; try reflexivity).
        now destruct (existsb _ d).
  Qed.

  Lemma sget_sets (xs : sdict prim) : forall m k, NoDup (map fst xs) ->
    sget k (fold_left (fun m kv => sset (fst kv) (snd kv) m) xs m) =
    match sget k xs with Some x => Some x | None => sget k m end.
  Proof.
    induction xs as [|[k1 x] xs IH]; intros m k ND; [reflexivity|].
    inversion ND as [|? ? NI ND']; subst. cbn [fold_left fst snd]. rewrite IH; [|exact ND'].
    rewrite sget_cons. destruct (str_eqb k k1) eqn:E.
    - apply str_eqb_eq in E. subst. rewrite sget_notin; [|exact NI]. apply sget_sset_same.
    - destruct (sget k xs); [reflexivity|]. apply sget_sset_other. intros ->. now rewrite str_eqb_refl in E.
  Qed.
  Lemma sget_filter {A} (f : str -> bool) k (d : sdict A) :
    sget k (filter (fun kv => f (fst kv)) d) = if f k then sget k d else None.
  Proof.
    induction d as [|[k1 x] d IH]; cbn [filter fst]; [now destruct (f k)|].
    rewrite sget_cons. destruct (f k1) eqn:F1.
    - rewrite sget_cons, IH. destruct (str_eqb k k1) eqn:E; [|reflexivity]. apply str_eqb_eq in E. subst. now rewrite F1.
    - rewrite IH. destruct (str_eqb k k1) eqn:E; [|reflexivity]. apply str_eqb_eq in E. subst. now rewrite F1.
  Qed.
  Lemma NoDup_filter_keys {A} (f : str * A -> bool) d : NoDup (map fst d) -> NoDup (map fst (filter f d)).
  Proof.
    induction d as [|[k x] d IH]; cbn [filter map fst]; intro ND; [constructor|].
    inversion ND as [|? ? NI ND']; subst. destruct (f (k, x)); [|auto]. cbn [map fst]. constructor; [|auto].
    intro I. apply NI. apply in_map_iff in I as ([k2 x2] & E & I). apply filter_In in I as [I _].
    apply in_map_iff. eauto.
  Qed.
  Lemma model_given_get n o d m c m' c' : NoDup (map fst d) ->
    model_given (produce n) o d m c = Ok (m', c') ->
    c' = ctx_given o d c /\
    (forall k p, sget k (s_props (sch h o)) = Some p -> smem k d = true -> s_readonly (sch h p) = true -> c_read c = true) /\
    (forall k, match sget k (s_props (sch h o)), sget k d with
               | Some p, Some v => exists x, conv n p v x /\ sget k m' = Some x
               | _, _ => sget k m' = sget k m
               end).
  Proof.
    intros ND E. apply model_given_spec in E as (-> & RD & xs & A & B & ->); [|exact ND].
    split; [reflexivity|]. split; [exact RD|]. intro k.
    assert (NX : NoDup (map fst xs)) by (rewrite A; now apply NoDup_filter_keys).
    assert (KX : sget k xs = None <-> match sget k (s_props (sch h o)), sget k d with Some _, Some _ => False | _, _ => True end).
    { assert (X : smem k xs = smem k (filter (fun kv => negb (undeclared (sch h o) (fst kv))) d)).
      { apply Bool.eq_iff_eq_true. rewrite !smem_In. now rewrite A. }
      rewrite !smem_sget in X. rewrite (sget_filter (fun k => negb (undeclared (sch h o) k))) in X.
      unfold undeclared in X. rewrite Bool.negb_involutive, smem_sget in X.
      destruct (sget k (s_props (sch h o))), (sget k d), (sget k xs); try discriminate X; split; easy. }
    rewrite sget_sets; [|exact NX].
    destruct (sget k xs) as [x|] eqn:EX.
    - destruct (B k x) as (p & v & P & V & C); [apply dget_In with (eqb := str_eqb); [apply str_eqb_eq|exact EX]|].
      rewrite P, V. eauto.
    - destruct (sget k (s_props (sch h o))), (sget k d); try reflexivity. now destruct (proj1 KX eq_refl).
  Qed.
  Lemma model_given_total n o : forall d m c,  NoDup (map fst d) ->
    (forall k p, sget k (s_props (sch h o)) = Some p -> smem k d = true -> s_readonly (sch h p) = true -> c_read c = true) ->
    (forall k p v, sget k (s_props (sch h o)) = Some p -> sget k d = Some v -> exists x, conv n p v x) ->
    exists m' c', model_given (produce n) o d m c = Ok (m', c').
  Proof.
    induction d as [|[k v] d IH]; intros m c ND RD CV; cbn [M_Prim.model_given]; [eauto|].
    inversion ND as [|? ? NI ND']; subst. cbn [map fst] in *.
    assert (RD' : forall k p, sget k (s_props (sch h o)) = Some p -> smem k d = true -> s_readonly (sch h p) = true -> c_read c = true).
    { intros k2 p G M. apply (RD k2 p G). rewrite smem_sget, sget_cons. now destruct (str_eqb k2 k). }
    assert (CV' : forall k p v, sget k (s_props (sch h o)) = Some p -> sget k d = Some v -> exists x, conv n p v x).
    { intros k2 p v2 G M. apply (CV k2 p v2 G). rewrite sget_cons. destruct (str_eqb k2 k) eqn:E; [|exact M].
      apply str_eqb_eq in E. subst. rewrite sget_notin in M; [discriminate|exact NI]. }
    destruct (sget k (s_props (sch h o))) as [p|] eqn:EP.
    - assert (RO : s_readonly (sch h p) && negb (c_read c) = false).
      { destruct (s_readonly (sch h p)) eqn:R2; [|reflexivity]. cbn [andb]. apply Bool.negb_false_iff.
        eapply RD; [exact EP| |exact R2]. now rewrite smem_sget, sget_cons, str_eqb_refl. }
      rewrite RO. destruct (CV k p v EP) as (x & C); [now rewrite sget_cons, str_eqb_refl|].
      apply rec0_conv in C. rewrite C. cbn [bind]. apply IH; auto.
    - destruct (s_addp (sch h o)) as [|[]|]; apply IH; auto.
  Qed.
  Lemma model_defaults_get n : forall ps m m', NoDup (map fst ps) -> model_defaults (produce n) ps m = Ok m' ->
    forall k, match sget k ps with
              | Some p => if negb (smem k m) && s_default_set (sch h p)
                          then exists x, conv n p (s_default (sch h p)) x /\ sget k m' = Some x
                          else sget k m' = sget k m
              | None => sget k m' = sget k m
              end.
  Proof.
    induction ps as [|[k1 p1] ps IH]; intros m m' ND E k; cbn [M_Prim.model_defaults] in E.
    - now injection E as <-.
    - inversion ND as [|? ? NI ND']; subst. cbn [fst] in NI. rewrite sget_cons. destruct (str_eqb k k1) eqn:EK.
      + apply str_eqb_eq in EK. subst k1. pose proof (sget_notin k ps NI) as NK.
        destruct (negb (smem k m) && s_default_set (sch h p1)).
        * apply bind_ok in E as (x & C & E). apply rec0_conv in C. specialize (IH _ _ ND' E k). rewrite NK in IH.
          rewrite sget_sset_same in IH. eauto.
        * specialize (IH _ _ ND' E k). now rewrite NK in IH.
      + assert (NE : k <> k1) by (intros ->; now rewrite str_eqb_refl in EK).
        destruct (negb (smem k1 m) && s_default_set (sch h p1)).
        * apply bind_ok in E as (x & C & E). specialize (IH _ _ ND' E k).
          rewrite smem_sget in IH |- *. rewrite sget_sset_other in IH; [|exact NE]. exact IH.
        * exact (IH _ _ ND' E k).
  Qed.
  Lemma model_defaults_total n : forall ps m, NoDup (map fst ps) ->
    (forall k p, sget k ps = Some p -> smem k m = false -> s_default_set (sch h p) = true ->
       exists x, conv n p (s_default (sch h p)) x) ->
    exists m', model_defaults (produce n) ps m = Ok m'.
  Proof.
    induction ps as [|[k1 p1] ps IH]; intros m ND CV; cbn [M_Prim.model_defaults]; [eauto|].
    inversion ND as [|? ? NI ND']; subst. cbn [fst] in NI.
    assert (CV' : forall k p, sget k ps = Some p -> smem k m = false -> s_default_set (sch h p) = true ->
       exists x, conv n p (s_default (sch h p)) x).
    { intros k p G. apply CV. rewrite sget_cons. destruct (str_eqb k k1) eqn:E; [|exact G].
      apply str_eqb_eq in E. subst. rewrite sget_notin in G; [discriminate|exact NI]. }
    destruct (negb (smem k1 m) && s_default_set (sch h p1)) eqn:E; [|apply IH; auto].
    apply andb_prop in E as [E1 E2]. apply Bool.negb_true_iff in E1.
    destruct (CV k1 p1) as (x & C); auto.
    { now rewrite sget_cons, str_eqb_refl. }
    apply rec0_conv in C. rewrite C. cbn [bind]. apply IH; [exact ND'|].
    intros k p G M. apply (CV' k p G). rewrite smem_sget in M |- *. destruct (str_eqb k k1) eqn:EK.
    - apply str_eqb_eq in EK. subst. rewrite sget_sset_same in M. discriminate.
    - rewrite sget_sset_other in M; [exact M|]. intros ->. now rewrite str_eqb_refl in EK.
  Qed.
  Lemma put_conv_get n a : forall d m m', NoDup (map fst d) -> put_conv (produce n) a d m = Ok m' ->
    forall k, match sget k d with
              | Some v => exists x, conv n a v x /\ sget k m' = Some x
              | None => sget k m' = sget k m
              end.
  Proof.
    induction d as [|[k1 v] d IH]; intros m m' ND E k; cbn [put_conv] in E; [now injection E as <-|].
    inversion ND as [|? ? NI ND']; subst. cbn [fst] in NI. apply bind_ok in E as (x & C & E).
    apply rec0_conv in C. specialize (IH _ _ ND' E k). rewrite sget_cons. destruct (str_eqb k k1) eqn:EK.
    - apply str_eqb_eq in EK. subst. rewrite sget_notin in IH; [|exact NI]. rewrite sget_sset_same in IH. eauto.
    - destruct (sget k d); [exact IH|]. rewrite sget_sset_other in IH; [exact IH|].
      intros ->. now rewrite str_eqb_refl in EK.
  Qed.
  Lemma put_conv_total n a : forall d m, NoDup (map fst d) -> (forall k v, sget k d = Some v -> exists x, conv n a v x) ->
    exists m', put_conv (produce n) a d m = Ok m'.
  Proof.
    induction d as [|[k1 v] d IH]; intros m ND CV; cbn [put_conv]; [eauto|].
    inversion ND as [|? ? NI ND']; subst. cbn [fst] in NI.
    destruct (CV k1 v) as (x & C); [now rewrite sget_cons, str_eqb_refl|].
    apply rec0_conv in C. rewrite C. cbn [bind]. apply IH; [exact ND'|].
    intros k v2 G. apply (CV k). rewrite sget_cons. destruct (str_eqb k k1) eqn:E; [|exact G].
    apply str_eqb_eq in E. subst. rewrite sget_notin in G; [discriminate|exact NI].
  Qed.
  Lemma put_raw_get d : forall m k, NoDup (map fst d) ->
    sget k (put_raw d m) = match sget k d with Some v => Some (PRaw v) | None => sget k m end.
  Proof.
    induction d as [|[k1 v] d IH]; intros m k ND; [reflexivity|].
    inversion ND as [|? ? NI ND']; subst. unfold put_raw in *. cbn [fold_left fst snd]. rewrite IH; [|exact ND'].
    rewrite sget_cons. destruct (str_eqb k k1) eqn:E.
    - apply str_eqb_eq in E. subst. rewrite sget_notin; [|exact NI]. apply sget_sset_same.
    - destruct (sget k d); [reflexivity|]. apply sget_sset_other. intros ->. now rewrite str_eqb_refl in E.
  Qed.

  (** ** The whole of an object without allOf *)
  Definition disc_of (s : schema) : option str := match s_disc s with Some (c :: x) => Some (c :: x) | _ => None end.
  Definition name_prim (s : schema) : prim := match s_name s with Some (Some x) => PStr x | _ => PNone end.
  Definition rest_of (s : schema) (d : sdict value) : sdict value := filter (fun kv => negb (smem (fst kv) (s_props s))) d.
  Lemma model_apply_dict rec o m d c x : s_full (sch h o) = true ->
    model_apply rec o m (VDict d) c = Ok x <->
    exists m1 c1 m2, model_given rec o d m c = Ok (m1, c1) /\ model_defaults rec (s_props (sch h o)) m1 = Ok m2 /\
      (forall k, In k (s_required (sch h o)) -> smem k m2 = true) /\
      x = (PModel (match disc_of (sch h o) with
                   | Some k => sset k (match c_name c1 with Some (Some x) => PStr x | _ => PNone end) m2
                   | None => m2 end), VDict (rest_of (sch h o) d), c1) /\
      (disc_of (sch h o) <> None -> c_name c1 <> None).
  Proof.
    intro F. unfold M_Prim.model_apply. rewrite F. cbn [negb]. rewrite bind_ok. split.
    - intros ([m1 c1] & A & E). cbn [fst snd] in *. apply bind_ok in E as (m2 & B & E).
      destruct (forallb (fun k => smem k m2) (s_required (sch h o))) eqn:R; [|discriminate E]. cbn [negb] in E.
      rewrite forallb_forall in R. exists m1, c1, m2. split; [exact A|]. split; [exact B|]. split; [exact R|].
      unfold disc_of. destruct (s_disc (sch h o)) as [[|a k]|].
      + injection E as <-. now split.
      + destruct (c_name c1) as [[x0|]|]; [..|discriminate E]; injection E as <-; (split; [reflexivity|intros _; discriminate]).
      + injection E as <-. now split.
    - intros (m1 & c1 & m2 & A & B & R & -> & D). exists (m1, c1). split; [exact A|]. cbn [fst snd]. apply bind_ok.
      exists m2. split; [exact B|]. rewrite (proj2 (forallb_forall _ _) R). cbn [negb].
      unfold disc_of in *. destruct (s_disc (sch h o)) as [[|a k]|]; try reflexivity.
      destruct (c_name c1) as [[x0|]|]; try reflexivity. now destruct D.
  Qed.
  Lemma start_object rec t v c : object_kind (sch h t) ->
    exists f, start rec t v c = do x <- model_apply rec t [] v c; Ok (fst (fst x), snd (fst x), f (snd x)) /\
      forall c, c_addp (f c) = c_addp c /\ c_addps (f c) = c_addps c.
  Proof.
    intros (F & [T|[T K]]).
    - assert (G : get (s_type (sch h t)) (s_format (sch h t)) = (Some (CrObj CModel), Some S2Obj)).
      { rewrite T. reflexivity. }
      destruct (typed_some _ _ T) as (a & x & E); [discriminate|].
      exists (set_2nd (Some S2Obj)). split; [|intro c0; now destruct c0].
      unfold M_Prim.start. rewrite G. rewrite E.
      cbn [M_Prim.create bind M_Prim.run_2nd M_Prim.apply_obj].
      destruct (model_apply rec t [] v c) as [[[r v'] c']|]; reflexivity.
    - exists (fun c => c). split; [|easy]. unfold M_Prim.start.
      assert (nonempty (s_props (sch h t)) || match s_addp (sch h t) with ANone | ABool false => false | _ => true end = true) as X.
      { apply Bool.orb_true_iff. destruct K as [K|K]; [left|right].
        - destruct (s_props (sch h t)); [congruence|reflexivity].
        - exact K. }
      rewrite X, F. cbn [negb].
      destruct T as [->| ->]; destruct (model_apply rec t [] v c) as [[[r v'] c']|]; reflexivity.
  Qed.
  Lemma finish_object rec s m v c : members s = [] -> finish rec s (PModel m) v c = cleanup rec m v c.
  Proof.
    intro M. unfold M_Prim.finish, members in *. cbn [final_kind].
    destruct (s_full s); [|reflexivity]. rewrite M. cbn [M_Prim.all_of bind]. destruct (falsy _); reflexivity.
  Qed.
  Lemma has_extra_rest s d : has_extra s d = nonempty (rest_of s d).
  Proof.
    induction d as [|[k v] d IH]; [reflexivity|]. cbn [has_extra existsb rest_of filter fst]. unfold undeclared.
    destruct (smem k (s_props s)); cbn [negb orb]; [exact IH|reflexivity].
  Qed.
  Lemma rest_get s d k : sget k (rest_of s d) = if smem k (s_props s) then None else sget k d.
  Proof. unfold rest_of. rewrite (sget_filter (fun k => negb (smem k (s_props s)))). now destruct (smem k (s_props s)). Qed.
  Lemma rest_nodup s d : NoDup (map fst d) -> NoDup (map fst (rest_of s d)).
  Proof. apply NoDup_filter_keys. Qed.

  (** What [cleanup] puts, from a context in which nothing was left to do. *)
  Lemma cleanup_get n t d m c f r c' : NoDup (map fst d) -> c_addp c = false -> c_addps c = None ->
    (forall c, c_addp (f c) = c_addp c /\ c_addps (f c) = c_addps c) ->
    cleanup (produce n) m (VDict (rest_of (sch h t) d)) (f (ctx_given t d c)) = Ok (r, c') ->
    exists m', r = PModel m' /\
      forall k, match sget k (s_props (sch h t)), sget k d with
                | None, Some v => match s_addp (sch h t) with
                                  | ABool true => sget k m' = Some (PRaw v)
                                  | ASchema a => exists x, conv n a v x /\ sget k m' = Some x
                                  | _ => sget k m' = sget k m
                                  end
                | _, _ => sget k m' = sget k m
                end.
  Proof.
    intros ND A B F. unfold M_Prim.cleanup. destruct (F (ctx_given t d c)) as [-> ->].
    unfold ctx_given. cbn [c_addp c_addps]. rewrite A, B, has_extra_rest. cbn [orb].
    pose proof (rest_get (sch h t) d) as RG. pose proof (rest_nodup (sch h t) d ND) as RN.
    set (R := rest_of (sch h t) d) in *.
    assert (RG' : forall k, sget k R = match sget k (s_props (sch h t)), sget k d with None, Some v => Some v | _, _ => None end).
    { intro k. rewrite RG, smem_sget. destruct (sget k (s_props (sch h t))), (sget k d); reflexivity. }
    destruct (s_addp (sch h t)) as [|[]|a] eqn:EA; cbn [is_true_addp is_schema_addp]; rewrite ?Bool.andb_false_r, ?Bool.andb_true_r.
    - intro E. injection E as <- <-. exists m. split; [reflexivity|]. intro k.
      destruct (sget k (s_props (sch h t))), (sget k d); reflexivity.
    - destruct R as [|kv R'] eqn:ER; cbn [nonempty].
      + intro E. injection E as <- <-. exists m. split; [reflexivity|]. intro k. specialize (RG' k).
        destruct (sget k (s_props (sch h t))), (sget k d); reflexivity || discriminate RG'.
      + rewrite <- ER in *. intro E. injection E as <- <-. eexists. split; [reflexivity|]. intro k.
        rewrite put_raw_get; [|exact RN]. rewrite RG'.
        destruct (sget k (s_props (sch h t))), (sget k d); reflexivity.
    - intro E. injection E as <- <-. exists m. split; [reflexivity|]. intro k.
      destruct (sget k (s_props (sch h t))), (sget k d); reflexivity.
    - destruct R as [|kv R'] eqn:ER; cbn [nonempty].
      + intro E. injection E as <- <-. exists m. split; [reflexivity|]. intro k. specialize (RG' k).
        destruct (sget k (s_props (sch h t))), (sget k d); reflexivity || discriminate RG'.
      + rewrite <- ER in *. intro E. rewrite EA in E.
        apply bind_ok in E as (m' & P & E). injection E as <- <-. exists m'. split; [reflexivity|]. intro k.
        pose proof (put_conv_get n a R m m' RN P k) as G. rewrite RG' in G.
        destruct (sget k (s_props (sch h t))), (sget k d); exact G.
  Qed.
  Lemma cleanup_total n t d m c f : NoDup (map fst d) -> c_addp c = false -> c_addps c = None ->
    (forall c, c_addp (f c) = c_addp c /\ c_addps (f c) = c_addps c) ->
    (forall k v a, sget k (s_props (sch h t)) = None -> sget k d = Some v -> s_addp (sch h t) = ASchema a ->
       exists x, conv n a v x) ->
    exists m' c', cleanup (produce n) m (VDict (rest_of (sch h t) d)) (f (ctx_given t d c)) = Ok (PModel m', c').
  Proof.
    intros ND A B F CV. unfold M_Prim.cleanup. destruct (F (ctx_given t d c)) as [-> ->].
    unfold ctx_given. cbn [c_addp c_addps]. rewrite A, B. cbn [orb].
    destruct (has_extra (sch h t) d && is_true_addp (s_addp (sch h t))); [eauto|].
    destruct (has_extra (sch h t) d && is_schema_addp (s_addp (sch h t))) eqn:E; [|eauto].
    apply andb_prop in E as [_ E]. destruct (s_addp (sch h t)) as [| |a] eqn:EA; try discriminate E.
    destruct (put_conv_total n a (rest_of (sch h t) d) m) as (m' & P).
    - now apply rest_nodup.
    - intros k v G. rewrite rest_get, smem_sget in G.
      destruct (sget k (s_props (sch h t))) eqn:EP; [discriminate G|]. eapply CV; eauto.
    - rewrite P. cbn [bind]. eauto.
  Qed.
  Lemma ctx_given_name t d c : c_name (ctx_given t d c) = c_name c. Proof. reflexivity. Qed.

  Section Object.
    Context (n : nat) (o t : nat) (v : value) (d : sdict value) (c : ctx).
    Context (T : target h o t) (G : ~ In t (c_guard c)) (K : object_kind (sch h t)) (M : members (sch h t) = [])
      (EV : effective h o v = VDict d) (ND : NoDup (map fst d)) (NP : NoDup (map fst (s_props (sch h t))))
      (CA : c_addp c = false) (CS : c_addps c = None) (CN : c_name c = None \/ disc_of (sch h t) = None).
    Lemma object_result r c' : produce (S n) o v c = Ok (r, c') ->
      exists m, r = PModel m /\
        (forall k, holds (conv n) h (sch h t) d k (sget k m)) /\
        (forall k, In k (s_required (sch h t)) -> supplied h (sch h t) d k) /\
        (forall k p, sget k (s_props (sch h t)) = Some p -> smem k d = true -> s_readonly (sch h p) = true -> c_read c = true).
    Proof.
      intro E. rewrite (produce_some _ _ _ _ _ _ _ _ n o t v c T) in E; [|now rewrite EV|exact G].
      rewrite EV in E. destruct (start_object (produce n) t (VDict d) (ctx1 h t c) K) as (f & S0 & F).
      unfold ctx1 in S0. rewrite S0 in E. apply bind_ok in E as ([[r0 v0] c0] & S1 & E).
      apply bind_ok in S1 as (x & S1 & E1). apply model_apply_dict in S1; [|apply K].
      destruct S1 as (m1 & c1 & m2 & MG & MD & RQ & -> & DN). cbn [fst snd] in E1. injection E1 as <- <- <-.
      rewrite finish_object in E; [|exact M].
      apply model_given_get in MG as (-> & RD & GV); [|exact ND].
      pose proof (model_defaults_get n _ _ _ NP MD) as DF.
      assert (CL := E). apply cleanup_get in CL as (m' & -> & CL); auto.
      exists m'. split; [reflexivity|].
      assert (M2 : forall k, match sget k (s_props (sch h t)) with
                             | Some p => property (conv n) h (sch h t) d k (sget k m2)
                             | None => sget k m2 = None end).
      { intro k. specialize (GV k). specialize (DF k). unfold property.
        destruct (sget k (s_props (sch h t))) as [p|].
        - destruct (sget k d) as [w|] eqn:ED.
          + destruct GV as (x & C & GX). rewrite smem_sget, GX in DF. cbn [negb andb] in DF. rewrite DF. eauto.
          + rewrite smem_sget, GV in DF. cbn [negb andb] in DF. destruct (s_default_set (sch h p)); exact DF.
        - now rewrite DF, GV. }
      split; [|split].
      - intro k. specialize (CL k). specialize (M2 k). unfold holds.
        assert (DK : match s_disc (sch h t) with Some (c0 :: x) => str_eqb k (c0 :: x) | _ => false end =
                     match disc_of (sch h t) with Some x => str_eqb k x | None => false end).
        { unfold disc_of. destruct (s_disc (sch h t)) as [[|? ?]|]; reflexivity. }
        rewrite DK. destruct (disc_of (sch h t)) as [dk|].
        + destruct (str_eqb k dk) eqn:EK.
          * apply str_eqb_eq in EK. subst dk. rewrite sget_sset_same in CL.
            rewrite ctx_given_name in CL. cbn [c_name set_guard set_name] in CL.
            destruct CN as [CN'|CN']; [|discriminate CN']. rewrite CN' in CL.
            unfold property in *. destruct (sget k (s_props (sch h t))) as [p|] eqn:EP; [exact CL|].
            destruct (sget k d) as [w|] eqn:ED; [|exact CL].
            unfold allows_extra. destruct (s_addp (sch h t)) as [|[]|a]; exact CL.
          * rewrite sget_sset_other in CL; [|intros ->; now rewrite str_eqb_refl in EK].
            unfold property in *. destruct (sget k (s_props (sch h t))) as [p|] eqn:EP; [now rewrite CL|].
            rewrite M2 in CL. destruct (sget k d); [|exact CL].
            destruct (s_addp (sch h t)) as [|[]|a]; exact CL.
        + unfold property in *. destruct (sget k (s_props (sch h t))) as [p|] eqn:EP; [now rewrite CL|].
          rewrite M2 in CL. destruct (sget k d); [|exact CL].
          destruct (s_addp (sch h t)) as [|[]|a]; exact CL.
      - intros k I. specialize (RQ k I). specialize (M2 k). rewrite smem_sget in RQ. unfold supplied, property in *.
        destruct (sget k (s_props (sch h t))) as [p|]; [|now rewrite M2 in RQ]. exists p. split; [reflexivity|].
        rewrite smem_sget. destruct (sget k d); [now left|]. right.
        destruct (s_default_set (sch h p)); [reflexivity|]. now rewrite M2 in RQ.
      - exact RD.
    Qed.
    (** Nothing is left to be done in the context. *)
    Lemma object_flags r c' : produce (S n) o v c = Ok (r, c') -> c_addp c' = false /\ c_addps c' = None.
    Proof.
      intro E. rewrite (produce_some _ _ _ _ _ _ _ _ n o t v c T) in E; [|now rewrite EV|exact G].
      rewrite EV in E. destruct (start_object (produce n) t (VDict d) (ctx1 h t c) K) as (f & S0 & F).
      unfold ctx1 in S0. rewrite S0 in E. apply bind_ok in E as ([[r0 v0] c0] & S1 & E).
      apply bind_ok in S1 as (x & S1 & E1). apply model_apply_dict in S1; [|apply K].
      destruct S1 as (m1 & c1 & m2 & MG & MD & RQ & -> & DN). cbn [fst snd] in E1. injection E1 as <- <- <-.
      rewrite finish_object in E; [|exact M].
      apply model_given_get in MG as (-> & RD & GV); [|exact ND].
      change (set_guard (c_guard c ++ [t]) (set_name (s_name (sch h t)) c)) with (ctx1 h t c) in *.
      set (c2 := ctx_given t d (ctx1 h t c)) in *. destruct (F c2) as [F1 F2].
      assert (A1 : c_addp c2 = has_extra (sch h t) d && is_true_addp (s_addp (sch h t))).
      { unfold c2, ctx_given, ctx1. cbn [c_addp set_guard set_name]. now rewrite CA. }
      assert (A2 : c_addps c2 = if has_extra (sch h t) d && is_schema_addp (s_addp (sch h t)) then Some t else None).
      { unfold c2, ctx_given, ctx1. cbn [c_addps set_guard set_name]. now rewrite CS. }
      clearbody c2. revert E. unfold M_Prim.cleanup. rewrite F1, F2, A1, A2.
      destruct (s_addp (sch h t)) as [|[]|x] eqn:EA; cbn [is_true_addp is_schema_addp] in *; rewrite ?Bool.andb_false_r, ?Bool.andb_true_r in *.
      - intro E. injection E as <- <-. now rewrite F1, F2.
      - destruct (has_extra (sch h t) d); intro E; injection E as <- <-; cbn [c_addp c_addps set_addp]; now rewrite ?F1, ?F2.
      - intro E. injection E as <- <-. now rewrite F1, F2.
      - destruct (has_extra (sch h t) d); intro E.
        + rewrite EA in E. apply bind_ok in E as (m' & _ & E). injection E as <- <-. cbn [c_addp c_addps set_addps]. now rewrite F1.
        + injection E as <- <-. now rewrite F1, F2.
    Qed.
    Lemma object_accepts :
      (forall k, In k (s_required (sch h t)) -> supplied h (sch h t) d k) ->
      (forall k p, sget k (s_props (sch h t)) = Some p -> smem k d = true -> s_readonly (sch h p) = true -> c_read c = true) ->
      (forall k, disc_of (sch h t) = Some k -> s_name (sch h t) <> None) ->
      (forall k p w, sget k (s_props (sch h t)) = Some p -> sget k d = Some w -> exists x, conv n p w x) ->
      (forall k p, sget k (s_props (sch h t)) = Some p -> smem k d = false -> s_default_set (sch h p) = true ->
         exists x, conv n p (s_default (sch h p)) x) ->
      (forall k w a, sget k (s_props (sch h t)) = None -> sget k d = Some w -> s_addp (sch h t) = ASchema a ->
         exists x, conv n a w x) ->
      exists m c', produce (S n) o v c = Ok (PModel m, c').
    Proof.
      intros RQ RD NM C1 C2 C3. rewrite (produce_some _ _ _ _ _ _ _ _ n o t v c T); [|now rewrite EV|exact G].
      rewrite EV. destruct (start_object (produce n) t (VDict d) (ctx1 h t c) K) as (f & S0 & F).
      fold (ctx1 h t c). rewrite S0.
      destruct (model_given_total n t d [] (ctx1 h t c) ND RD C1) as (m1 & c1 & MG).
      pose proof (model_given_get n t d [] (ctx1 h t c) m1 c1 ND MG) as (-> & _ & GV).
      destruct (model_defaults_total n (s_props (sch h t)) m1 NP) as (m2 & MD).
      { intros k p EP MM DS. apply (C2 k p EP); [|exact DS]. specialize (GV k). rewrite EP in GV. rewrite smem_sget in MM. rewrite smem_sget.
        destruct (sget k d); [|reflexivity]. destruct GV as (x & _ & GX). now rewrite GX in MM. }
      pose proof (model_defaults_get n _ _ _ NP MD) as DF.
      set (X := (PModel (match disc_of (sch h t) with
                   | Some k => sset k (match c_name (ctx_given t d (ctx1 h t c)) with Some (Some x) => PStr x | _ => PNone end) m2
                   | None => m2 end), VDict (rest_of (sch h t) d), ctx_given t d (ctx1 h t c))).
      assert (MA : model_apply (produce n) t [] (VDict d) (ctx1 h t c) = Ok X).
      { apply model_apply_dict; [apply K|]. exists m1, (ctx_given t d (ctx1 h t c)), m2.
        split; [exact MG|]. split; [exact MD|]. split; [|split; [reflexivity|]].
        - intros k I. destruct (RQ k I) as (p & EP & S1). specialize (GV k). specialize (DF k). rewrite EP in GV, DF.
          rewrite (smem_sget k m2). rewrite smem_sget in DF. rewrite smem_sget in S1. destruct (sget k d).
          + destruct GV as (x & _ & GX). rewrite GX in DF. cbn [negb andb] in DF. now rewrite DF.
          + destruct S1 as [S1|S1]; [discriminate S1|]. rewrite GV, S1 in DF. cbn [sget dget negb andb] in DF.
            destruct DF as (x & _ & ->). reflexivity.
        - unfold ctx1. rewrite ctx_given_name. cbn [c_name set_guard set_name]. intro DD. destruct CN as [CN'|CN']; [|congruence].
          rewrite CN'. destruct (disc_of (sch h t)) eqn:ED; [|congruence]. eapply NM; eauto. }
      rewrite MA. cbn [bind fst snd X]. rewrite finish_object; [|exact M]. apply cleanup_total; auto.
    Qed.

    (** ** Refusals, when everything else is in order *)
    Lemma given_readonly : forall (dd : sdict value) m cc, NoDup (map fst dd) -> c_read cc = false ->
      (exists k p, sget k (s_props (sch h t)) = Some p /\ smem k dd = true /\ s_readonly (sch h p) = true) ->
      (forall k p w, sget k (s_props (sch h t)) = Some p -> sget k dd = Some w -> exists x, conv n p w x) ->
      model_given (produce n) t dd m cc = Err GenericException.
    Proof.
      induction dd as [|[k0 v0] d0 IH]; intros m c0 ND0 CR (k & p & EP & MD & RO) CV; [discriminate MD|].
      inversion ND0 as [|? ? NI ND']; subst. cbn [fst map] in *. cbn [M_Prim.model_given].
      assert (CV' : forall k p w, sget k (s_props (sch h t)) = Some p -> sget k d0 = Some w -> exists x, conv n p w x).
      { intros k2 p2 w2 G2 M2. apply (CV k2 p2 w2 G2). rewrite sget_cons. destruct (str_eqb k2 k0) eqn:E; [|exact M2].
        apply str_eqb_eq in E. subst. rewrite sget_notin in M2; [discriminate|exact NI]. }
      rewrite smem_sget, sget_cons in MD. destruct (str_eqb k k0) eqn:EK.
      - apply str_eqb_eq in EK. subst k0. rewrite EP, RO, CR. reflexivity.
      - destruct (sget k0 (s_props (sch h t))) as [p0|] eqn:EP0.
        + destruct (s_readonly (sch h p0) && negb (c_read c0)); [reflexivity|].
          destruct (CV k0 p0 v0 EP0) as (x & C); [now rewrite sget_cons, str_eqb_refl|].
          apply rec0_conv in C. rewrite C. cbn [bind]. apply IH; eauto.
        + destruct (s_addp (sch h t)) as [|[]|]; apply IH; eauto.
    Qed.
    Lemma object_readonly : c_read c = false ->
      (exists k p, sget k (s_props (sch h t)) = Some p /\ smem k d = true /\ s_readonly (sch h p) = true) ->
      (forall k p w, sget k (s_props (sch h t)) = Some p -> sget k d = Some w -> exists x, conv n p w x) ->
      produce (S n) o v c = Err GenericException.
    Proof.
      intros CR EX CV. rewrite (produce_some _ _ _ _ _ _ _ _ n o t v c T); [|now rewrite EV|exact G].
      rewrite EV. destruct (start_object (produce n) t (VDict d) (ctx1 h t c) K) as (f & S0 & F).
      fold (ctx1 h t c). rewrite S0. unfold M_Prim.model_apply. rewrite (proj1 K). cbn [negb].
      rewrite given_readonly; auto.
    Qed.
    Lemma object_required : 
      (exists k, In k (s_required (sch h t)) /\ ~ supplied h (sch h t) d k) ->
      (forall k p, sget k (s_props (sch h t)) = Some p -> smem k d = true -> s_readonly (sch h p) = true -> c_read c = true) ->
      (forall k p w, sget k (s_props (sch h t)) = Some p -> sget k d = Some w -> exists x, conv n p w x) ->
      (forall k p, sget k (s_props (sch h t)) = Some p -> smem k d = false -> s_default_set (sch h p) = true ->
         exists x, conv n p (s_default (sch h p)) x) ->
      produce (S n) o v c = Err ValueError.
    Proof.
      intros (k & I & NS) RD C1 C2. rewrite (produce_some _ _ _ _ _ _ _ _ n o t v c T); [|now rewrite EV|exact G].
      rewrite EV. destruct (start_object (produce n) t (VDict d) (ctx1 h t c) K) as (f & S0 & F).
      fold (ctx1 h t c). rewrite S0.
      destruct (model_given_total n t d [] (ctx1 h t c) ND RD C1) as (m1 & c1 & MG).
      pose proof (model_given_get n t d [] (ctx1 h t c) m1 c1 ND MG) as (-> & _ & GV).
      destruct (model_defaults_total n (s_props (sch h t)) m1 NP) as (m2 & MD).
      { intros k2 p EP MM DS. apply (C2 k2 p EP); [|exact DS]. specialize (GV k2). rewrite EP in GV. rewrite smem_sget in MM. rewrite smem_sget.
        destruct (sget k2 d); [|reflexivity]. destruct GV as (x & _ & GX). now rewrite GX in MM. }
      pose proof (model_defaults_get n _ _ _ NP MD) as DF.
      unfold M_Prim.model_apply. rewrite (proj1 K). cbn [negb]. rewrite MG. cbn [bind fst snd]. rewrite MD. cbn [bind].
      destruct (forallb (fun k => smem k m2) (s_required (sch h t))) eqn:FB; [|reflexivity].
      rewrite forallb_forall in FB. specialize (FB k I). exfalso. apply NS. unfold supplied.
      specialize (GV k). specialize (DF k). destruct (sget k (s_props (sch h t))) as [p|].
      - exists p. split; [reflexivity|]. rewrite smem_sget. destruct (sget k d); [now left|]. right.
        destruct (s_default_set (sch h p)); [reflexivity|]. rewrite Bool.andb_false_r in DF.
        rewrite smem_sget, DF, GV in FB. discriminate FB.
      - rewrite smem_sget, DF, GV in FB. discriminate FB.
    Qed.
  End Object.
  Lemma object_not_dict n o t v c : target h o t -> ~ In t (c_guard c) -> object_kind (sch h t) ->
    is_null (effective h o v) = false -> (forall d, effective h o v <> VDict d) ->
    produce (S n) o v c = Err AttributeError.
  Proof.
    intros T G K N ND. rewrite (produce_some _ _ _ _ _ _ _ _ n o t v c T N G).
    destruct (start_object (produce n) t (effective h o v) (ctx1 h t c) K) as (f & S0 & F).
    fold (ctx1 h t c). rewrite S0. destruct (effective h o v); try reflexivity. exfalso. eapply ND. reflexivity.
  Qed.
End Obj.
