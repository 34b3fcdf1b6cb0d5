(** What conforms is accepted by the primitive factory. *)
From Coq Require Import QArith Lia.
From Verif Require Import PyBase PyFacts M_Graph S_Graph P_Graph M_Quote M_Time M_Prim S_Prim P_Op P_Prim P_PrimLeaf P_PrimObj P_PrimMono
  M_Render S_Render P_Render P_RenderGen.
Close Scope Q_scope.
Open Scope nat_scope.

Section Acc.
  Context (int_of : str -> res Z) (float_of : str -> res Q) (str_of : value -> str)
    (date_at : Q -> res (Z * Z * Z)) (datetime_at : Q -> res datetime)
    (uuid_of : str -> option Z) (email_ok : str -> bool) (h : list schema) (xs : nat -> more).
  Notation produce := (produce int_of float_of str_of date_at datetime_at uuid_of email_ok h).
  Notation start := (start int_of float_of str_of date_at datetime_at uuid_of email_ok h).
  Notation finish := (finish date_at datetime_at uuid_of email_ok h).
  Notation conv := (conv int_of float_of str_of date_at datetime_at uuid_of email_ok h).
  Notation conforms := (conforms email_ok h xs).
  Definition accepts (o : nat) (v : value) : Prop := exists n x, conv n o v x.
  Notation takes := (takes h xs accepts).
  Notation all_take := (all_take h xs accepts).

  Lemma conv_mono n m o v x : n <= m -> conv n o v x -> conv m o v x.
  Proof. intros L (c & E). exists c. exact (produce_mono _ _ _ _ _ _ _ _ n m o v _ L _ E). Qed.

  Lemma finish_plain rec s r v c : members s = [] -> (forall m, r <> PModel m) -> finish rec s r v c = Ok (r, c).
  Proof.
    intros M N. unfold M_Prim.finish, members in *. destruct (final_kind r); [reflexivity|].
    replace (if s_full s then
       do z <- all_of date_at datetime_at uuid_of email_ok h rec (s_allof s) r v c [];
       (let '(r0, v0, c0, na) := z in if falsy r0 then Ok (r0, v0, c0) else apply_rest date_at datetime_at uuid_of email_ok h rec na r0 v0 c0)
       else Ok (r, v, c)) with (Ok (r, v, c)).
    - cbn [bind]. destruct r; try reflexivity. exfalso. eapply N. reflexivity.
    - destruct (s_full s); [|reflexivity]. rewrite M. cbn [all_of bind]. destruct (falsy r); reflexivity.
  Qed.
  (** A value class made by one of the object creators. *)
  Lemma object_class n o t v cl r rest : target h o t -> is_null v = false -> members (sch h t) = [] ->
    s_type (sch h t) <> Some [] -> s_type (sch h t) <> None ->
    get (s_type (sch h t)) (s_format (sch h t)) = (Some (CrObj cl), Some S2Obj) ->
    (forall r0 c, create int_of float_of str_of (CrObj cl) (sch h t) v = Ok r0 ->
       apply_obj date_at datetime_at uuid_of h (produce n) r0 t v c = Ok (r, rest, c)) ->
    (forall m, r <> PModel m) -> conv (S n) o v r.
  Proof.
    intros T N M T1 T2 G A NM. unfold P_PrimObj.conv.
    assert (EF : effective h o v = v) by (destruct v; easy).
    rewrite (produce_some _ _ _ _ _ _ _ _ n o t v (new_ctx true) T); [|now rewrite EF|intros []].
    rewrite EF. unfold M_Prim.start. destruct (s_type (sch h t)) as [[|ch ty]|]; try contradiction.
    rewrite G. assert (C : exists r0, create int_of float_of str_of (CrObj cl) (sch h t) v = Ok r0) by (destruct cl; eexists; reflexivity).
    destruct C as (r0 & C). rewrite C. cbn [bind run_2nd]. rewrite (A r0 _ C). cbn [bind].
    eexists. apply finish_plain; auto.
  Qed.
  Lemma bool_accepted n o t b : target h o t -> members (sch h t) = [] -> typed (sch h t) "boolean" -> conv (S n) o (VBool b) (PBool b).
  Proof.
    intros T M K. unfold P_PrimObj.conv.
    rewrite (produce_some _ _ _ _ _ _ _ _ n o t (VBool b) (new_ctx true) T); [|reflexivity|intros []].
    cbn [effective]. unfold M_Prim.start. rewrite K. cbn [lit]. cbn iota.
    replace (get (Some (lit "boolean")) (s_format (sch h t))) with (Some CrBool, @None second) by reflexivity.
    cbn [create bind truthy]. eexists. apply finish_plain; [exact M|discriminate].
  Qed.
  Lemma special s f cl : text_format s f -> get (Some (lit "string")) (Some (lit f)) = (Some (CrObj cl), Some S2Obj) ->
    s_type s <> Some [] /\ s_type s <> None /\ get (s_type s) (s_format s) = (Some (CrObj cl), Some S2Obj).
  Proof. intros [T (g & [<-|[]] & F)] G. rewrite T, F. split; [discriminate|]. split; [discriminate|exact G]. Qed.
  Lemma plain_text_kind s : plain_text s -> text_kind s.
  Proof.
    intros [T F]. split; [exact T|]. intros (g & I & E). destruct F as [F|(f & I' & F)]; [congruence|].
    rewrite F in E. injection E as E. cbn in I, I'.
    repeat (destruct I as [<-|I]; [destruct I' as [<-|[<-|[]]]; discriminate E|]). exact I.
  Qed.

  (** One amount of fuel for finitely many conversions. *)
  Lemma uniform_list {A} (P : nat -> A -> Prop) (l : list A) : (forall n m a, n <= m -> P n a -> P m a) ->
    (forall a, In a l -> exists n, P n a) -> exists n, forall a, In a l -> P n a.
  Proof.
    intros MO. induction l as [|a l IH]; intro H; [exists 0; intros a []|].
    destruct IH as (n & N); [intros; apply H; now right|]. destruct (H a (or_introl eq_refl)) as (m & M).
    exists (n + m). intros x [<-|I]; [apply (MO m); [lia|exact M]|]. apply (MO n); [lia|auto].
  Qed.
  Lemma meant_plain o t : meant h xs o t -> (forall u, target h o u -> x_final (xs u) = None) -> target h o t.
  Proof. intros (u & T & ->) F. now rewrite (F u T). Qed.

  Lemma all_take_prop o t k p : all_take o -> meant h xs o t -> sget k (s_props (sch h t)) = Some p -> all_take p.
  Proof. intros A M E q u V. apply A. eapply visit_prop; eauto. Qed.
  Lemma all_take_items o t p : all_take o -> meant h xs o t -> s_items (sch h t) = Some p -> all_take p.
  Proof. intros A M E q u V. apply A. eapply visit_items; eauto. Qed.
  Lemma all_take_extra o t p : all_take o -> meant h xs o t -> s_addp (sch h t) = ASchema p -> all_take p.
  Proof. intros A M E q u V. apply A. eapply visit_extra; eauto. Qed.

  Theorem conforms_accepted : forall o v, conforms o v -> all_take o -> accepts o v.
  Proof.
    fix IH 3. intros o v C AT.
    assert (TG : forall t, meant h xs o t -> target h o t).
    { intros t M. apply meant_plain; [exact M|]. intros u U. exact (proj1 (AT o u (visit_here _ _ _) U)). }
    assert (TK : forall t, meant h xs o t -> takes t).
    { intros t M. apply (AT o); [constructor|auto]. }
    destruct C as [o t z M K L W MU|o t v q M K NV L W MU|o t s M K TO|o t b M K L|o t z M K|o t s M K|o t s M K L
                  |o t y m d M K|o t d M K|o t s M K TO EO NE|o t v M K F|o t it l M K I F CO U|o t M K CO|o t d M K FU ND RQ PR EX];
      pose proof (TG _ M) as T; destruct (TK _ M) as (_ & MB & NP & RP & NM & DF).
    - exists 1, (PInt z). eexists. apply (integer_iff _ _ _ _ _ _ _ _ 0 o t (VInt z) (new_ctx true) (PInt z)); auto; try (now left).
      split; [reflexivity|]. exists z. split; [reflexivity|]. split; [reflexivity|]. split; [exact W|].
      unfold each_member. rewrite MB. intros a [].
    - exists 1, (PFloat q). assert (VN : is_null (effective h o v) = false /\ to_float_v float_of (effective h o v) = Ok q).
      { destruct NV as [->|(z & -> & ->)]; split; reflexivity. }
      eexists. apply (number_iff _ _ _ _ _ _ _ _ 0 o t v (new_ctx true) (PFloat q)); auto; try tauto.
      split; [reflexivity|]. exists q. split; [tauto|]. split; [reflexivity|]. split; [exact W|]. split; [exact MU|].
      unfold each_member. rewrite MB. intros a [].
    - exists 1, (PStr s). eexists. apply (text_iff _ _ _ _ _ _ _ _ 0 o t (VStr s) (new_ctx true) (PStr s)); auto; try (now left).
      + now apply plain_text_kind.
      + split; [reflexivity|]. split; [reflexivity|]. split; [exact TO|]. unfold each_member. rewrite MB. intros a [].
    - exists 1, (PBool b). eapply bool_accepted; eauto.
    - destruct (special _ _ CUuid K eq_refl) as (T1 & T2 & G).
      exists 1, (PUuid z). eapply (object_class 0 o t _ CUuid _ VNull); eauto; try discriminate.
      intros r0 c E. injection E as <-. reflexivity.
    - destruct (special _ _ CByte K eq_refl) as (T1 & T2 & G).
      exists 1, (PByte s). eapply (object_class 0 o t _ CByte _ VNull); eauto; try discriminate.
      intros r0 c E. injection E as <-. reflexivity.
    - destruct (special _ _ CByte K eq_refl) as (T1 & T2 & G).
      exists 1, (PByte (utf8 s)). eapply (object_class 0 o t _ CByte _ VNull); eauto; try discriminate.
      intros r0 c E. injection E as <-. reflexivity.
    - destruct (special _ _ CDate K eq_refl) as (T1 & T2 & G).
      exists 1, (PDate y m d). eapply (object_class 0 o t _ CDate _ VNull); eauto; try discriminate.
      intros r0 c E. injection E as <-. reflexivity.
    - destruct (special _ _ CDatetime K eq_refl) as (T1 & T2 & G).
      exists 1, (PDatetime d). eapply (object_class 0 o t _ CDatetime _ VNull); eauto; try discriminate.
      intros r0 c E. injection E as <-. reflexivity.
    - exists 1, (PStr s). eexists. apply (email_iff _ _ _ _ _ _ _ _ 0 o t (VStr s) (new_ctx true) (PStr s)); auto; try apply K.
      split; [reflexivity|]. split; [reflexivity|]. split; [exact TO|]. split; [exact EO|]. unfold each_member. rewrite MB. intros a [].
    - destruct F as (d & -> & F).
      set (at_ := fun k dflt => match sget k d with Some x => x | None => dflt end).
      exists 1, (PFile (at_ (lit "header") (VDict [])) (at_ (lit "data") VNull) (at_ (lit "filename") (VStr []))).
      eapply (object_class 0 o t _ CFile _ VNull); eauto; try (rewrite K; discriminate); try discriminate.
      + rewrite K. reflexivity.
      + intros r0 c E. injection E as <-. cbn [apply_obj file_of]. cbv zeta.
        match goal with |- context [if ?b then _ else _] => assert (X : b = false) end.
        { destruct F as [(x & G & NX)|(x & G & NX)]; rewrite G.
          - destruct x; try reflexivity. contradiction.
          - rewrite NX. apply Bool.andb_false_r. }
        rewrite X. reflexivity.
    - assert (AI : all_take it) by (eapply all_take_items; eauto).
      assert (EL : exists n rs, Forall2 (conv n it) l rs).
      { clear CO U. induction F as [|e l CE F IHF]; [exists 0, []; constructor|].
        destruct IHF as (n & rs & F2). destruct (IH it e CE AI) as (m & x & X). exists (n + m), (x :: rs). constructor.
        - eapply conv_mono; [|exact X]. lia.
        - eapply Forall2_impl; [|exact F2]. intros a b Y. eapply conv_mono; [|exact Y]. lia. }
      destruct EL as (n & rs & EL). exists (S n), (PArray (array_fmt (sch h t)) rs).
      apply (array_iff _ _ _ _ _ _ _ _ n o t (VList l) (new_ctx true)); auto.
      exists (VList []). cbn [effective]. apply array_apply_list. exists l. split.
      + destruct (s_unique (sch h t)); auto.
      + rewrite I. exists rs. split; [exact EL|]. cbn [app]. split; [|auto].
        assert (length l = length rs) as <- by (clear - EL; induction EL; cbn; congruence). exact CO.
    - exists 1, (PArray (array_fmt (sch h t)) []). apply (array_iff _ _ _ _ _ _ _ _ 0 o t (VList []) (new_ctx true)); auto.
      exists (VList []). cbn [effective]. apply array_apply_list. exists []. split; [destruct (s_unique _); [constructor|reflexivity]|].
      destruct (s_items (sch h t)); [|auto]. exists []. split; [constructor|auto].
    - assert (E1 : exists n, forall k p w, sget k (s_props (sch h t)) = Some p -> sget k d = Some w -> exists x, conv n p w x).
      { assert (X : exists n, forall kv, In kv d -> (fun n kv => forall p, sget (fst kv) (s_props (sch h t)) = Some p -> exists x, conv n p (snd kv) x) n kv).
        { apply uniform_list.
          - intros n m a L Y p EP. destruct (Y p EP) as (x & X). exists x. eapply conv_mono; eauto.
          - intros [k w] IK. cbn [fst snd]. destruct (sget k (s_props (sch h t))) as [p|] eqn:EP; [|exists 0; discriminate].
            assert (SG : sget k d = Some w) by (apply In_sget; auto).
            destruct (IH p w (PR k p w EP SG) (all_take_prop _ _ _ _ AT M EP)) as (n & x & X).
            exists n. intros p' EP'. injection EP' as <-. eauto. }
        destruct X as (n & X). exists n. intros k p w EP EW. apply (X (k, w)); [|exact EP]. now apply sget_In. }
      assert (E2 : exists n, forall k w a, sget k (s_props (sch h t)) = None -> sget k d = Some w -> s_addp (sch h t) = ASchema a -> exists x, conv n a w x).
      { assert (X : exists n, forall kv, In kv d -> (fun n kv => forall a, sget (fst kv) (s_props (sch h t)) = None -> s_addp (sch h t) = ASchema a -> exists x, conv n a (snd kv) x) n kv).
        { apply uniform_list.
          - intros n m a L Y p EN EP. destruct (Y p EN EP) as (x & X). exists x. eapply conv_mono; eauto.
          - intros [k w] IK. cbn [fst snd]. destruct (sget k (s_props (sch h t))) as [p|] eqn:EP; [exists 0; discriminate|].
            assert (SG : sget k d = Some w) by (apply In_sget; auto).
            destruct (EX k w EP SG) as (a & EA & CA).
            destruct (IH a w CA (all_take_extra _ _ _ AT M EA)) as (n & x & X).
            exists n. intros a' _ EA'. rewrite EA in EA'. injection EA' as <-. eauto. }
        destruct X as (n & X). exists n. intros k w a EN EW EA. apply (X (k, w)); [|exact EN|exact EA]. now apply sget_In. }
      assert (E3 : exists n, forall k p, sget k (s_props (sch h t)) = Some p -> s_default_set (sch h p) = true -> exists x, conv n p (s_default (sch h p)) x).
      { assert (X : exists n, forall kp, In kp (s_props (sch h t)) -> (fun n kp => s_default_set (sch h (snd kp)) = true -> exists x, conv n (snd kp) (s_default (sch h (snd kp))) x) n kp).
        { apply uniform_list.
          - intros n m a L Y DS. destruct (Y DS) as (x & X). exists x. eapply conv_mono; eauto.
          - intros [k p] IK. cbn [snd]. destruct (s_default_set (sch h p)) eqn:DS; [|exists 0; discriminate].
            destruct (DF k p) as (n & x & X); [now apply In_sget|exact DS|]. exists n. eauto. }
        destruct X as (n & X). exists n. intros k p EP DS. apply (X (k, p)); [|exact DS]. now apply sget_In. }
      destruct E1 as (n1 & E1), E2 as (n2 & E2), E3 as (n3 & E3).
      destruct (object_accepts int_of float_of str_of date_at datetime_at uuid_of email_ok h (n1 + n2 + n3) o t (VDict d) d (new_ctx true))
        as (r & c' & X); auto.
      + now split; [|left].
      + intros k IR. specialize (RQ k IR). specialize (RP k IR). rewrite smem_sget in RP.
        destruct (sget k (s_props (sch h t))) as [p|] eqn:EP; [|discriminate RP]. exists p. auto.
      + intros k p w EP EW. destruct (E1 k p w EP EW) as (x & X). exists x. eapply conv_mono; [|exact X]. lia.
      + intros k p EP _ DS. destruct (E3 k p EP DS) as (x & X). exists x. eapply conv_mono; [|exact X]. lia.
      + intros k w a EN EW EA. destruct (E2 k w a EN EW EA) as (x & X). exists x. eapply conv_mono; [|exact X]. lia.
      + exists (S (n1 + n2 + n3)), (PModel r). exists c'. exact X.
  Qed.
End Acc.
