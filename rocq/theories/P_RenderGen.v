(** Proofs about rendering: whole schemas. *)
From Coq Require Import QArith Lia.
From Verif Require Import PyBase PyFacts M_Graph S_Graph P_Graph M_Time M_Prim S_Prim P_Op P_Prim P_SpecBase M_Render S_Render P_Render.
Close Scope Q_scope.
Open Scope nat_scope.

Section Gen.
  Context (rnd : nat -> N) (date_at : Q -> res (Z * Z * Z)) (datetime_at : Q -> res datetime)
    (uuid_of : str -> option Z) (dr dtr : Q * Q) (h : list schema) (xs : nat -> more) (opt : options).
  Notation generate := (M_Render.generate rnd date_at datetime_at uuid_of dr dtr h xs opt).
  Notation settle := (settle h xs).
  Notation gen_props := (gen_props rnd opt).
  Notation gen_more := (gen_more rnd opt).

  Lemma settle_ok o t : settle o = Ok t <-> meant h xs o t.
  Proof.
    unfold M_Render.settle, meant. rewrite bind_ok. split.
    - intros (u & D & E). injection E as <-. exists u. split; [now apply deref_target|reflexivity].
    - intros (u & D & ->). exists u. split; [now apply deref_target|reflexivity].
  Qed.
  Lemma meant_det o t t' : meant h xs o t -> meant h xs o t' -> t = t'.
  Proof. rewrite <- !settle_ok. congruence. Qed.

  (** ** Declared properties *)
  Lemma skip_ok (b m : bool) i (r : bool) j : (if b then let! c := randint rnd 0 1 in gret ((c =? 0)%Z || m) else gret false) i = Ok (r, j) ->
    (r = true -> b = true) /\ (r = false -> b = false \/ m = false).
  Proof.
    destruct b; intro E.
    - apply gbind_ok in E as (c & k & _ & E). apply gret_ok in E as [-> ->]. split; [reflexivity|].
      intro X. apply Bool.orb_false_iff in X. tauto.
    - apply gret_ok in E as [-> ->]. split; [discriminate|tauto].
  Qed.
  Definition prop_result (rec : nat -> gen value) (req : list str) (old : option value) (k : str) (p : nat) (r : option value) : Prop :=
    match sget k (object_template opt) with
    | Some v => r = Some v
    | None =>
        (exists v i j, rec p i = Ok (v, j) /\ r = Some v /\
           (max_property opt = true \/ mem k req = true \/ minimal_property opt = false)) \/
        (r = old /\ max_property opt = false /\ mem k req = false)
    end.
  Lemma gen_props_ok rec req : forall ps out count i out' c' j, NoDup (map fst ps) ->
    gen_props rec req ps out count i = Ok ((out', c'), j) ->
    (NoDup (map fst out) -> NoDup (map fst out')) /\
    (forall k, match sget k ps with
               | Some p => prop_result rec req (sget k out) k p (sget k out')
               | None => sget k out' = sget k out
               end).
  Proof.
    induction ps as [|[k0 p0] ps IH]; intros out count i out' c' j ND E; cbn [M_Render.gen_props] in E.
    - apply gret_ok in E as [E ->]. injection E as -> ->. split; [auto|]. reflexivity.
    - inversion ND as [|? ? NI ND']; subst. cbn [fst map] in *.
      assert (STEP : forall out1 count1 i1, gen_props rec req ps out1 count1 i1 = Ok ((out', c'), j) ->
        (NoDup (map fst out) -> NoDup (map fst out1)) ->
        (forall k, k <> k0 -> sget k out1 = sget k out) ->
        prop_result rec req (sget k0 out) k0 p0 (sget k0 out1) ->
        (NoDup (map fst out) -> NoDup (map fst out')) /\
        (forall k, match sget k ((k0, p0) :: ps) with
               | Some p => prop_result rec req (sget k out) k p (sget k out')
               | None => sget k out' = sget k out
               end)).
      { intros out1 count1 i1 E1 N1 S1 P1. destruct (IH _ _ _ _ _ _ ND' E1) as [A B]. split; [auto|].
        intro k. rewrite sget_cons. specialize (B k). destruct (str_eqb k k0) eqn:EK.
        - apply str_eqb_eq in EK. subst k. rewrite (proj2 (sget_None k0 ps) NI) in B. rewrite B. exact P1.
        - rewrite S1 in B; [exact B|]. intros ->. now rewrite str_eqb_refl in EK. }
      destruct (sget k0 (object_template opt)) as [v|] eqn:ET.
      + eapply STEP; [exact E| | |].
        * intro. now apply sset_NoDup.
        * intros k NK. apply sget_sset_other. congruence.
        * unfold prop_result. rewrite ET. apply sget_sset_same.
      + apply gbind_ok in E as (skip & i1 & SK & E). apply skip_ok in SK as [SK1 SK2]. destruct skip.
        * specialize (SK1 eq_refl). apply andb_prop in SK1 as [S1 S2].
          eapply STEP; [exact E|auto|auto|]. unfold prop_result. rewrite ET. right.
          split; [reflexivity|]. split; [now apply Bool.negb_true_iff|now apply Bool.negb_true_iff].
        * apply gbind_ok in E as (v & i2 & R & E). eapply STEP; [exact E| | |].
          -- intro. now apply sset_NoDup.
          -- intros k NK. apply sget_sset_other. congruence.
          -- unfold prop_result. rewrite ET. left. exists v, i1, i2. split; [exact R|].
             split; [apply sget_sset_same|]. specialize (SK2 eq_refl).
             destruct (max_property opt); [auto|]. destruct (mem k0 req); [auto|]. cbn in SK2. destruct SK2; auto.
  Qed.
  Lemma sset_length {A} k (x : A) d : length (sset k x d) = if smem k d then length d else S (length d).
  Proof.
    induction d as [|[k' y] d IH]; [reflexivity|]. unfold dset, dmem in *. cbn [dget] in *. fold (@dset str A str_eqb) in *.
    cbn. destruct (str_eqb k k') eqn:E; [reflexivity|]. cbn [length]. rewrite IH. destruct (dget str_eqb k d); reflexivity.
  Qed.
  (** Every property counted is there. *)
  Lemma gen_props_count rec req : forall ps out count i out' c' j, NoDup (map fst ps) ->
    (forall k, In k (map fst ps) -> smem k out = false) ->
    gen_props rec req ps out count i = Ok ((out', c'), j) ->
    (c' - count <= Z.of_nat (length out') - Z.of_nat (length out))%Z /\ (count <= c')%Z.
  Proof.
    induction ps as [|[k0 p0] ps IH]; intros out count i out' c' j ND FR E; cbn [M_Render.gen_props] in E.
    - apply gret_ok in E as [E ->]. injection E as -> ->. lia.
    - inversion ND as [|? ? NI ND']; subst. cbn [fst map] in *.
      assert (F0 : smem k0 out = false) by (apply FR; now left).
      assert (FS : forall v, forall k, In k (map fst ps) -> smem k (sset k0 v out) = false).
      { intros v k I. rewrite smem_sget, sget_sset_other; [|intros ->; contradiction]. rewrite <- smem_sget. apply FR. now right. }
      destruct (sget k0 (object_template opt)) as [v|].
      + apply IH in E; [|exact ND'|apply FS]. rewrite sset_length, F0 in E. lia.
      + apply gbind_ok in E as (skip & i1 & _ & E). destruct skip.
        * apply IH in E; [exact E|exact ND'|]. intros k I. apply FR. now right.
        * apply gbind_ok in E as (v & i2 & _ & E). apply IH in E; [|exact ND'|apply FS]. rewrite sset_length, F0 in E. lia.
  Qed.

  (** ** Additional properties *)
  Lemma new_name_ok out : forall tries i s j, new_name rnd opt tries out i = Ok (s, j) -> Forall letter s /\ smem s out = false.
  Proof.
    induction tries as [|tries IH]; intros i s j E; [discriminate E|]. cbn [new_name] in E.
    apply gbind_ok in E as (n & ? & _ & E). apply gbind_ok in E as (s' & ? & T & E).
    destruct (smem s' out) eqn:M; [exact (IH _ _ _ E)|]. apply gret_ok in E as [-> ->]. split; [|exact M].
    now apply text_of_ok in T.
  Qed.
  Lemma gen_more_ok fuel rec a : forall n out i out' j, gen_more fuel rec a n out i = Ok (out', j) ->
    (NoDup (map fst out) -> NoDup (map fst out')) /\ length out' = n + length out /\
    (forall k, sget k out' = sget k out \/
       (sget k out = None /\ Forall letter k /\ exists v i j, rec a i = Ok (v, j) /\ sget k out' = Some v)).
  Proof.
    induction n as [|n IH]; intros out i out' j E; cbn [M_Render.gen_more] in E.
    - apply gret_ok in E as [-> ->]. auto.
    - apply gbind_ok in E as (k0 & i1 & N & E). apply gbind_ok in E as (v & i2 & R & E).
      apply new_name_ok in N as [LT FR]. destruct (IH _ _ _ _ E) as (A & B & C). split; [|split].
      + intro ND. apply A. now apply sset_NoDup.
      + rewrite B, sset_length, FR. lia.
      + intro k. rewrite smem_sget in FR. specialize (C k). destruct (str_eqb k k0) eqn:EK.
        * apply str_eqb_eq in EK. subst k. rewrite sget_sset_same in C.
          destruct C as [C|(C & _)]; [|discriminate C]. right. destruct (sget k0 out); [discriminate FR|].
          split; [reflexivity|]. split; [exact LT|]. exists v, i1, i2. auto.
        * rewrite sget_sset_other in C; [exact C|]. intros ->. now rewrite str_eqb_refl in EK.
  Qed.

  (** ** Which generator *)
  Lemma fmt_case (f : option str) (g : string) : str_eqb (match f with Some f => f | None => [] end) (lit g) = true ->
    g = ""%string /\ f = None \/ f = Some (lit g).
  Proof.
    intro E. apply str_eqb_eq in E. destruct f as [f|]; [right; congruence|]. left. split; [|reflexivity].
    destruct g; [reflexivity|discriminate E].
  Qed.
  Lemma locate_ok s g : locate (s_type s) (s_format s) = Some g ->
    match g with
    | GInt => typed s "integer"
    | GFloat => number_kind s
    | GStr => plain_text s
    | GByte => text_format s "byte" | GDate => text_format s "date" | GDatetime => text_format s "date-time"
    | GUuid => text_format s "uuid" | GEmail => text_format s "email"
    | GBool => typed s "boolean" | GFile => typed s "file"
    end.
  Proof.
    unfold locate, typed, number_kind, plain_text, text_format, typed, format_in.
    destruct (s_type s) as [t|]; [|discriminate]. cbv zeta. cbn [existsb].
    destruct (str_eqb t (lit "integer")) eqn:T1.
    { apply str_eqb_eq in T1 as ->. destruct (_ || _); [|discriminate]. intro E. now injection E as <-. }
    destruct (str_eqb t (lit "number")) eqn:T2.
    { apply str_eqb_eq in T2 as ->. destruct (_ || _) eqn:F; [|discriminate]. intro E. injection E as <-.
      split; [reflexivity|]. intros (f & [<-|[<-|[]]] & E); rewrite E in F; discriminate F. }
    destruct (str_eqb t (lit "string")) eqn:T3.
    { apply str_eqb_eq in T3 as ->.
      destruct (_ || _) eqn:F0 in |- *.
      { intro E. injection E as <-. split; [reflexivity|]. rewrite Bool.orb_false_r in F0.
        apply Bool.orb_prop in F0 as [F0|F0]; apply fmt_case in F0 as [(_ & F0)|F0]; auto; right; eexists; split; try exact F0; cbn; auto. }
      destruct (_ || _) eqn:F1 in |- *.
      { intro E. injection E as <-. split; [reflexivity|]. rewrite Bool.orb_false_r in F1.
        apply fmt_case in F1 as [(F1 & _)|F1]; [discriminate|]. eexists. split; [now left|exact F1]. }
      destruct (_ || _) eqn:F2 in |- *.
      { intro E. injection E as <-. split; [reflexivity|]. rewrite Bool.orb_false_r in F2.
        apply fmt_case in F2 as [(F2 & _)|F2]; [discriminate|]. eexists. split; [now left|exact F2]. }
      destruct (_ || _) eqn:F3 in |- *.
      { intro E. injection E as <-. split; [reflexivity|]. rewrite Bool.orb_false_r in F3.
        apply fmt_case in F3 as [(F3 & _)|F3]; [discriminate|]. eexists. split; [now left|exact F3]. }
      destruct (_ || _) eqn:F4 in |- *.
      { intro E. injection E as <-. split; [reflexivity|]. rewrite Bool.orb_false_r in F4.
        apply fmt_case in F4 as [(F4 & _)|F4]; [discriminate|]. eexists. split; [now left|exact F4]. }
      destruct (_ || _) eqn:F5 in |- *; [|discriminate].
      intro E. injection E as <-. split; [reflexivity|]. rewrite Bool.orb_false_r in F5.
      apply fmt_case in F5 as [(F5 & _)|F5]; [discriminate|]. eexists. split; [now left|exact F5]. }
    destruct (str_eqb t (lit "boolean")) eqn:T4.
    { apply str_eqb_eq in T4 as ->. destruct (_ || _); [|discriminate]. intro E. now injection E as <-. }
    destruct (str_eqb t (lit "file")) eqn:T5; [|discriminate].
    apply str_eqb_eq in T5 as ->. destruct (_ || _); [|discriminate]. intro E. now injection E as <-.
  Qed.

  (** ** Everything rendered conforms *)
  Context (email_ok : str -> bool) (MAIL : forall s, mailbox s -> email_ok s = true).
  Notation conforms := (conforms email_ok h xs).
  Notation sound := (sound email_ok h xs opt).
  Notation all_sound := (all_sound email_ok h xs opt).

  Lemma scalar_ok fuel o t i v j : meant h xs o t -> sound t ->
    gen_scalar rnd date_at datetime_at uuid_of dr dtr opt fuel (sch h t) i = Ok (v, j) -> conforms o v.
  Proof.
    intros M (EN & SI & SN & SS & SF & _) E. unfold gen_scalar in E.
    apply gbind_ok in E as (e & k & EE & E).
    destruct (locate (s_type (sch h t)) (s_format (sch h t))) as [g|] eqn:L; [|discriminate E].
    apply locate_ok in L.
    assert (CASE : (s_enum (sch h t) = [] /\ truthy e = false) \/
                   (In e (s_enum (sch h t)) /\ truthy e = true)).
    { destruct (s_enum (sch h t)) as [|x l] eqn:EQ.
      - apply gret_ok in EE as [-> ->]. now left.
      - right. apply choice_ok in EE. split; [exact EE|]. apply (EN e). now rewrite EQ. }
    clear EE. destruct g; cbn [run_generator] in E.
    - destruct CASE as [[C T]|[C T]].
      + destruct (gen_int_ok _ _ _ _ _ _ E T (SI L C)) as (z & -> & W & MU). eapply conf_integer; eauto. now left.
      + destruct (EN e C) as (_ & EI & _). destruct (EI L) as (z & -> & W & MU).
        unfold gen_int in E. rewrite T in E. apply gret_ok in E as [-> ->]. eapply conf_integer; eauto. now right.
    - destruct CASE as [[C T]|[C T]].
      + destruct (gen_float_ok _ _ _ _ _ _ _ E T (SN L C)) as (q & -> & W & MU). eapply conf_number; eauto; now left.
      + destruct (EN e C) as (_ & _ & EI & _). destruct (EI L) as (q & Q0 & W & MU).
        unfold gen_float in E. rewrite T in E. apply gret_ok in E as [-> ->]. eapply conf_number; eauto. now right.
    - destruct (SS (proj1 L)) as [NN _]. destruct CASE as [[C T]|[C T]].
      + destruct (gen_str_ok _ _ _ _ _ _ _ E T C NN) as (x & -> & TO). eapply conf_text; eauto.
      + destruct (EN e C) as (_ & _ & _ & ES & _). destruct (ES (proj1 L)) as (x & -> & TO & _).
        unfold gen_str in E. rewrite T in E. apply gret_ok in E as [-> ->]. eapply conf_text; eauto.
    - unfold gen_byte in E. destruct CASE as [[C T]|[C T]]; rewrite T in E.
      + apply gbind_ok in E as (n & ? & _ & E). apply gbind_ok in E as (b & ? & _ & E). apply gret_ok in E as [-> ->].
        eapply conf_byte; eauto.
      + apply gret_ok in E as [-> ->]. destruct (EN e C) as (_ & _ & _ & ES & _). destruct (ES (proj1 L)) as (x & -> & _).
        eapply conf_byte_text; eauto. now right.
    - unfold gen_date in E. destruct (truthy e).
      + destruct e; try discriminate E. apply gbind_ok in E as ([[y m] d] & ? & _ & E). apply gret_ok in E as [-> ->].
        eapply conf_date; eauto.
      + apply gbind_ok in E as (u & ? & _ & E). apply gbind_ok in E as ([[y m] d] & ? & _ & E). apply gret_ok in E as [-> ->].
        eapply conf_date; eauto.
    - unfold gen_datetime in E. destruct (truthy e).
      + destruct e; try discriminate E. apply gbind_ok in E as (d & ? & _ & E). apply gret_ok in E as [-> ->].
        eapply conf_datetime; eauto.
      + apply gbind_ok in E as (u & ? & _ & E). apply gbind_ok in E as (d & ? & _ & E). apply gret_ok in E as [-> ->].
        eapply conf_datetime; eauto.
    - unfold gen_uuid in E. destruct (truthy e).
      + destruct e; try discriminate E. destruct (uuid_of s); [|discriminate E]. apply gret_ok in E as [-> ->].
        eapply conf_uuid; eauto.
      + apply gbind_ok in E as (u & ? & _ & E). apply gret_ok in E as [-> ->]. eapply conf_uuid; eauto.
    - destruct (SS (proj1 L)) as [NN EMN]. destruct CASE as [[C T]|[C T]].
      + destruct (gen_email_ok _ _ _ _ _ E T) as (x & -> & MB). destruct (EMN L C) as [LX LN].
        eapply conf_email; eauto.
        * split; [now left|]. split; intros n EQ; congruence.
        * destruct MB as (? & ? & ? & -> & _). intro X. apply app_eq_nil in X as [_ X]. discriminate X.
      + destruct (EN e C) as (_ & _ & _ & ES & _). destruct (ES (proj1 L)) as (x & -> & _ & EM). destruct (EM L) as [TO EO].
        unfold gen_email in E. rewrite T in E. apply gret_ok in E as [-> ->]. eapply conf_email; eauto.
        intros ->. discriminate T.
    - unfold gen_bool in E. destruct CASE as [[C T]|[C T]]; rewrite T in E.
      + apply gbind_ok in E as (c & ? & _ & E). apply gret_ok in E as [-> ->]. eapply conf_bool; eauto. now left.
      + apply gret_ok in E as [-> ->]. eapply conf_bool; eauto. right.
        destruct (EN e C) as (_ & _ & _ & _ & EB). now rewrite <- (EB L).
    - apply gen_file_ok in E; [|exact (SF L)]. eapply conf_file; eauto.
  Qed.

  Lemma all_sound_here o t : meant h xs o t -> all_sound o -> sound t.
  Proof. intros M A. apply (A o); [constructor|exact M]. Qed.
  Lemma str_eqb_lit t s : str_eqb t (lit s) = true -> t = lit s.
  Proof. apply str_eqb_eq. Qed.
  Lemma mem_iff k l : mem k l = true <-> In k l.
  Proof.
    unfold mem. rewrite existsb_exists. split.
    - intros (x & I & E). apply str_eqb_eq in E. now subst.
    - intro I. exists k. split; [exact I|apply str_eqb_refl].
  Qed.

  (** What an object comes out as. *)
  Lemma object_ok fuel rec t i v j : NoDup (map fst (s_props (sch h t))) ->
    gen_object rnd h xs opt fuel rec t i = Ok (v, j) ->
    exists out0 out, v = VDict out /\ s_full (sch h t) = true /\ NoDup (map fst out) /\
      (forall k, match sget k (s_props (sch h t)) with
                 | Some p => prop_result rec (s_required (sch h t)) None k p (sget k out0)
                 | None => sget k out0 = None
                 end) /\
      (forall k, sget k out = sget k out0 \/
         (sget k out0 = None /\ Forall letter k /\ exists a v i j, s_addp (sch h t) = ASchema a /\ rec a i = Ok (v, j) /\ sget k out = Some v)) /\
      (forall a, s_addp (sch h t) = ASchema a -> exists lo, x_minprops (xs t) = Some lo /\ lo <> 0%Z /\
         (lo <= Z.of_nat (length out))%Z).
  Proof.
    intros ND E. unfold gen_object in E. destruct (s_full (sch h t)); [|discriminate E]. cbn [negb] in E. cbv zeta in E.
    apply gbind_ok in E as ([out0 c0] & k & GP & E).
    assert (GC := GP). apply gen_props_count in GC; [|exact ND|reflexivity].
    apply gen_props_ok in GP as [N0 P0]; [|exact ND]. cbn [fst snd length map] in *. specialize (N0 (NoDup_nil _)).
    destruct (s_addp (sch h t)) as [|b|a] eqn:EA.
    - apply gret_ok in E as [-> ->]. exists out0, out0. repeat split; auto. discriminate.
    - apply gret_ok in E as [-> ->]. exists out0, out0. repeat split; auto. discriminate.
    - destruct (given (x_minprops (xs t))) as [lo|] eqn:GL; [|discriminate E].
      apply gbind_ok in E as (r & k1 & RI & E). apply gbind_ok in E as (out & k2 & GM & E). apply gret_ok in E as [-> ->].
      apply gen_more_ok in GM as (N1 & LN & P1). apply given_some in GL as [GL NZ]. apply randint_ok in RI.
      exists out0, out. split; [reflexivity|]. split; [reflexivity|]. split; [auto|]. split; [exact P0|]. split.
      + intro k'. destruct (P1 k') as [P|(A & B & w & i' & j' & C & D)]; [now left|]. right.
        split; [exact A|]. split; [exact B|]. exists a, w, i', j'. auto.
      + intros a' _. exists lo. split; [exact GL|]. split; [exact NZ|]. lia.
  Qed.

  Theorem generate_conforms : forall fuel o i v j, all_sound o -> generate fuel o i = Ok (v, j) -> conforms o v.
  Proof.
    induction fuel as [|fuel IH]; intros o i v j AS E; [discriminate E|].
    cbn [M_Render.generate] in E. unfold generate_step in E.
    apply gbind_ok in E as (t & k & ST & E). apply glift_ok in ST as [ST ->]. apply settle_ok in ST.
    pose proof (all_sound_here _ _ ST AS) as SD. cbv zeta in E.
    destruct (s_type (sch h t)) as [ty|] eqn:ET; [|discriminate E].
    destruct (str_eqb ty (lit "object")) eqn:TO.
    - apply str_eqb_lit in TO. subst ty. destruct SD as (_ & _ & _ & _ & _ & _ & SO).
      destruct (SO ET) as (ND & RQ & TP & NN). destruct (object_ok _ _ _ _ _ _ ND E) as (out0 & out & -> & FU & NO & P0 & P1 & _).
      eapply conf_object; [exact ST|exact ET|exact FU|exact NO| | |].
      + intros r IR. specialize (RQ r IR). specialize (P0 r). specialize (P1 r). rewrite smem_sget in RQ. rewrite smem_sget.
        destruct (sget r (s_props (sch h t))) as [p|]; [|discriminate RQ]. unfold prop_result in P0.
        assert (X : exists w, sget r out0 = Some w).
        { destruct (sget r (object_template opt)) as [w|]; [eauto|]. destruct P0 as [(w & _ & _ & _ & W & _)|(_ & _ & F)]; [eauto|].
          apply mem_iff in IR. congruence. }
        destruct X as (w & X). destruct P1 as [P1|(F & _)]; [|congruence]. now rewrite P1, X.
      + intros r p w EP EW. specialize (P0 r). specialize (P1 r). rewrite EP in P0. unfold prop_result in P0.
        assert (AP : all_sound p). { intros q u RU. apply AS. eapply visit_prop; eauto. }
        destruct P1 as [P1|(F & LT & a & w' & i' & j' & EA & RA & EW')].
        * rewrite P1 in EW. destruct (sget r (object_template opt)) as [w0|] eqn:ER.
          -- assert (w0 = w) as -> by congruence. eapply TP; eauto.
          -- destruct P0 as [(w0 & i0 & j0 & R & W & _)|(F & _)]; [|congruence].
             assert (w0 = w) as -> by congruence. eapply IH; eauto.
        * assert (w' = w) as -> by congruence.
          destruct (NN r p a EA EP) as [X|[X|[X|[->|(c & IC & NC)]]]].
          -- destruct (sget r (object_template opt)) as [w0|]; [congruence|].
             destruct P0 as [(w0 & i0 & j0 & R & W & _)|(_ & _ & F')]; [congruence|]. apply mem_iff in X. congruence.
          -- rewrite smem_sget in X. destruct (sget r (object_template opt)) as [w0|]; [congruence|discriminate X].
          -- destruct (sget r (object_template opt)) as [w0|]; [congruence|].
             destruct P0 as [(w0 & i0 & j0 & R & W & _)|(_ & F' & _)]; [congruence|]. congruence.
          -- eapply IH; eauto.
          -- rewrite Forall_forall in LT. exfalso. auto.
      + intros r w EP EW. specialize (P0 r). specialize (P1 r). rewrite EP in P0.
        destruct P1 as [P1|(F & LT & a & w' & i' & j' & EA & RA & EW')]; [congruence|].
        assert (w' = w) as -> by congruence. exists a. split; [exact EA|]. eapply IH; [|exact RA].
        intros q u RU. apply AS. eapply visit_extra; eauto.
    - destruct (str_eqb ty (lit "array")) eqn:TA.
      + apply str_eqb_lit in TA. subst ty. destruct SD as (_ & _ & _ & _ & _ & SA & _). destruct (SA ET) as [NN UQ].
        unfold gen_array in E. cbv zeta in E. apply gbind_ok in E as (n & ? & R & E). apply gbind_ok in E as (l & ? & T & E).
        apply gret_ok in E as [-> ->]. apply randint_ok in R. apply times_ok in T as [LN T].
        assert (CO : count_ok (sch h t) (length l)).
        { split; intros m EM NZ; rewrite EM, given_z_some in R by exact NZ; [|specialize (NN m EM)]; lia. }
        assert (UU : s_unique (sch h t) = true -> firsts [] l l) by (rewrite UQ; discriminate).
        destruct (s_items (sch h t)) as [it|] eqn:EI.
        * eapply conf_array; eauto. apply Forall_forall. intros e IE. destruct (T e IE) as (i' & j' & G). eapply IH; [|exact G].
          intros q u RU. apply AS. eapply visit_items; eauto.
        * assert (l = []) as ->. { destruct l as [|e l]; [reflexivity|]. destruct (T e (or_introl eq_refl)) as (? & ? & X). discriminate X. }
          eapply conf_empty; eauto.
      + eapply scalar_ok; eauto.
  Qed.
End Gen.
