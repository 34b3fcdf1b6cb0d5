(** Proofs about rendering: operations, and schemas that can always be rendered. *)
From Coq Require Import QArith Qround Lia.
From Verif Require Import PyBase PyFacts M_Graph S_Graph P_Graph M_Time M_Prim S_Prim P_Op P_Prim P_SpecBase M_Render S_Render P_Render P_RenderGen.
Close Scope Q_scope.
Open Scope nat_scope.

Section All.
  Context (rnd : nat -> N) (date_at : Q -> res (Z * Z * Z)) (datetime_at : Q -> res datetime)
    (uuid_of : str -> option Z) (dr dtr : Q * Q) (h : list schema) (xs : nat -> more) (opt : options).
  Notation generate := (M_Render.generate rnd date_at datetime_at uuid_of dr dtr h xs opt).
  Notation render_param := (M_Render.render_param rnd date_at datetime_at uuid_of dr dtr h xs opt).
  Notation render_params := (M_Render.render_params rnd date_at datetime_at uuid_of dr dtr h xs opt).
  Notation ready := (ready date_at datetime_at h xs opt).
  Notation ready_param := (ready_param date_at datetime_at h xs opt).

  (** ** Operations *)
  Lemma params_ok fuel exclude : forall ps out i out' j, render_params fuel exclude ps out i = Ok (out', j) ->
    (forall k, smem k out = true -> smem k out' = true) /\
    (forall k, mem k exclude = true -> sget k out' = sget k out) /\
    (forall p, In p ps -> mem (rp_name p) exclude = false ->
       (rp_required p = true \/ max_parameter opt = true \/ smem (rp_name p) (parameter_template opt) = true) ->
       smem (rp_name p) out' = true) /\
    (forall k v, sget k out' = Some v -> sget k out = Some v \/
       exists p, In p ps /\ rp_name p = k /\ mem k exclude = false /\
         match sget k (parameter_template opt) with
         | Some w => v = w
         | None => (rp_required p = true \/ max_parameter opt = true \/ minimal_parameter opt = false) /\
                   exists i j, render_param fuel p i = Ok (v, j)
         end).
  Proof.
    induction ps as [|p ps IH]; intros out i out' j E; cbn [M_Render.render_params] in E.
    - apply gret_ok in E as [-> ->]. split; [auto|]. split; [auto|]. split; [intros p []|auto].
    - destruct (mem (rp_name p) exclude) eqn:ME.
      { destruct (IH _ _ _ _ E) as (A & B & C & D). split; [exact A|]. split; [exact B|]. split.
        - intros q [<-|I] X; [congruence|auto].
        - intros k v G. destruct (D k v G) as [X|(q & I & X)]; [auto|]. right. exists q. split; [now right|exact X]. }
      assert (STEP : forall w i1, render_params fuel exclude ps (sset (rp_name p) w out) i1 = Ok (out', j) ->
        match sget (rp_name p) (parameter_template opt) with
        | Some w' => w = w'
        | None => (rp_required p = true \/ max_parameter opt = true \/ minimal_parameter opt = false) /\
                   exists i j, render_param fuel p i = Ok (w, j)
        end ->
        (forall k, smem k out = true -> smem k out' = true) /\
        (forall k, mem k exclude = true -> sget k out' = sget k out) /\
        (forall q, In q (p :: ps) -> mem (rp_name q) exclude = false ->
           (rp_required q = true \/ max_parameter opt = true \/ smem (rp_name q) (parameter_template opt) = true) ->
           smem (rp_name q) out' = true) /\
        (forall k v, sget k out' = Some v -> sget k out = Some v \/
           exists q, In q (p :: ps) /\ rp_name q = k /\ mem k exclude = false /\
             match sget k (parameter_template opt) with
             | Some w => v = w
             | None => (rp_required q = true \/ max_parameter opt = true \/ minimal_parameter opt = false) /\
                       exists i j, render_param fuel q i = Ok (v, j)
             end)).
      { intros w i1 E1 SRC. destruct (IH _ _ _ _ E1) as (A & B & C & D).
        assert (HERE : smem (rp_name p) out' = true).
        { apply A. now rewrite smem_sget, sget_sset_same. }
        split; [|split; [|split]].
        - intros k X. apply A. rewrite smem_sget. destruct (str_eqb k (rp_name p)) eqn:EK.
          + apply str_eqb_eq in EK as ->. now rewrite sget_sset_same.
          + rewrite sget_sset_other; [now rewrite <- smem_sget|]. intro X'. subst. now rewrite str_eqb_refl in EK.
        - intros k X. rewrite B; [|exact X]. apply sget_sset_other. intro X'. subst k. congruence.
        - intros q [<-|I] X Y; [exact HERE|auto].
        - intros k v G. destruct (D k v G) as [X|(q & I & X)].
          + destruct (str_eqb k (rp_name p)) eqn:EK.
            * apply str_eqb_eq in EK as ->. rewrite sget_sset_same in X. injection X as ->. right. exists p.
              split; [now left|]. split; [reflexivity|]. split; [exact ME|exact SRC].
            * rewrite sget_sset_other in X; [now left|]. intro X'. subst. now rewrite str_eqb_refl in EK.
          + right. exists q. split; [now right|exact X]. }
      destruct (sget (rp_name p) (parameter_template opt)) as [w|] eqn:ET.
      { eapply STEP; [exact E|reflexivity]. }
      apply gbind_ok in E as (skip & i1 & SK & E). apply (skip_ok rnd date_at datetime_at dr dtr xs) in SK as [SK1 SK2]. destruct skip.
      + specialize (SK1 eq_refl). apply andb_prop in SK1 as [S1 S2]. apply Bool.negb_true_iff in S1, S2.
        destruct (IH _ _ _ _ E) as (A & B & C & D). split; [exact A|]. split; [exact B|]. split.
        * intros q [<-|I] X Y; [|auto]. rewrite smem_sget, ET in Y. destruct Y as [Y|[Y|Y]]; congruence.
        * intros k v G. destruct (D k v G) as [X|(q & I & X)]; [auto|]. right. exists q. split; [now right|exact X].
      + apply gbind_ok in E as (v & i2 & R & E). eapply STEP; [exact E|]. split; [|eauto].
        specialize (SK2 eq_refl). destruct (max_parameter opt); [auto|]. destruct (rp_required p); [auto|].
        cbn in SK2. destruct SK2; [discriminate|auto].
  Qed.
End All.

(** ** Schemas that can always be rendered *)
Section Total.
  Context (date_at : Q -> res (Z * Z * Z)) (datetime_at : Q -> res datetime)
    (uuid_of : str -> option Z) (dr dtr : Q * Q) (h : list schema) (xs : nat -> more) (opt : options).
  Notation generate rnd := (M_Render.generate rnd date_at datetime_at uuid_of dr dtr h xs opt).
  Notation ready := (ready date_at datetime_at h xs opt).
  Notation ready_param := (ready_param date_at datetime_at h xs opt).
  (** the computation returns a value, whatever the position *)
  Definition returns {A} (g : gen A) : Prop := forall i, exists a j, g i = Ok (a, j).
  Lemma ret_ret {A} (a : A) : returns (gret a). Proof. intro i. do 2 eexists. reflexivity. Qed.
  Lemma ret_bind {A B} (m : gen A) (f : A -> gen B) : returns m -> (forall a, returns (f a)) -> returns (gbind m f).
  Proof. intros M F i. destruct (M i) as (a & j & E). destruct (F a j) as (b & k & E2). exists b, k. apply gbind_ok. eauto. Qed.
  Lemma ret_bind_in {A B} (m : gen A) (f : A -> gen B) : returns m -> (forall a i j, m i = Ok (a, j) -> returns (f a)) -> returns (gbind m f).
  Proof. intros M F i. destruct (M i) as (a & j & E). destruct (F a i j E j) as (b & k & E2). exists b, k. apply gbind_ok. eauto. Qed.
  Lemma ret_lift {A} (r : res A) a : r = Ok a -> returns (glift r).
  Proof. intros -> i. do 2 eexists. reflexivity. Qed.
  Section R.
  Context (rnd : nat -> N).
  Lemma ret_randint lo hi : (lo <= hi)%Z -> returns (randint rnd lo hi).
  Proof. intros L i. destruct (randint_total rnd lo hi i L) as (z & E). eauto. Qed.
  Lemma ret_choice {A} (l : list A) : l <> [] -> returns (choice rnd l).
  Proof. intros N i. destruct (choice_total rnd l i N) as (a & E). eauto. Qed.
  Lemma ret_text cs n : cs <> [] -> returns (text_of rnd cs n).
  Proof. intros N i. apply text_of_total. exact N. Qed.
  Lemma ret_draw : returns (draw rnd). Proof. intro i. do 2 eexists. reflexivity. Qed.
  Lemma ret_random : returns (random01 rnd). Proof. apply ret_bind; [apply ret_draw|intro; apply ret_ret]. Qed.
  Lemma ret_times {A} (g : gen A) n : returns g -> returns (times n g).
  Proof. intros R i. apply times_total. exact R. Qed.
  Lemma ret_uniform r : returns (uniform rnd r). Proof. apply ret_bind; [apply ret_random|intro; apply ret_ret]. Qed.
  Lemma letters_ne : ascii_letters <> []. Proof. discriminate. Qed.
  Lemma names_ne : name_chars <> []. Proof. discriminate. Qed.
  Lemma ret_enum s : returns (match s_enum s with [] => gret VNull | l => choice rnd l end).
  Proof. destruct (s_enum s); [apply ret_ret|apply ret_choice; discriminate]. Qed.

  Lemma given_q_limit x d : (forall q, x = Some q -> ~ (q == 0)%Q) -> given_q x d = limit x d.
  Proof. intro N. destruct x as [q|]; [apply given_q_some; auto|reflexivity]. Qed.
  Lemma given_z_limit x d : (forall q, x = Some q -> q <> 0%Z) -> given_z x d = limit x d.
  Proof. intro N. destruct x as [q|]; [apply given_z_some; auto|reflexivity]. Qed.
  Lemma ret_int s e : int_ready s -> returns (gen_int rnd s e).
  Proof.
    intros ([NX NM] & WL & WH & LE). unfold gen_int. destruct (truthy e); [apply ret_ret|]. cbv zeta.
    change max_int32 with (2 ^ 30)%Z. change min_int32 with (- 2 ^ 30)%Z. change max_int64 with (2 ^ 62)%Z. change min_int64 with (- 2 ^ 62)%Z.
    rewrite (given_q_limit (s_min s)), (given_q_limit (s_max s)) by assumption.
    set (lo := limit (s_min s) _) in *. set (hi := limit (s_max s) _) in *. clearbody lo hi.
    destruct WL as (l & L), WH as (u & U). rewrite (q_int_inject _ _ L), (q_int_inject _ _ U).
    apply ret_bind; [|intro out; destruct (s_multiple s) as [m|]; [destruct (q_int m)|]; apply ret_ret].
    apply ret_randint. rewrite Zle_Qle.
    assert (X : (inject_Z (if s_exmin s then (l + 1)%Z else l) == (if s_exmin s then lo + 1 else lo))%Q).
    { destruct (s_exmin s); [rewrite inject_Z_plus|]; rewrite L; reflexivity. }
    assert (Y : (inject_Z (if s_exmax s then (u - 1)%Z else u) == (if s_exmax s then hi - 1 else hi))%Q).
    { destruct (s_exmax s); [unfold Z.sub; rewrite inject_Z_plus|]; rewrite U; reflexivity. }
    rewrite X, Y. exact LE.
  Qed.
  Lemma ret_email_name : returns (email_name rnd).
  Proof.
    unfold email_name. apply ret_bind; [apply ret_choice, letters_ne|intro]. apply ret_bind; [apply ret_randint; lia|intro].
    apply ret_bind; [apply ret_text, names_ne|intro]. apply ret_bind; [apply ret_choice, letters_ne|intro]. apply ret_ret.
  Qed.
  Lemma ret_email e : returns (gen_email rnd e).
  Proof.
    unfold gen_email. destruct (truthy e); [apply ret_ret|]. apply ret_bind; [apply ret_randint; lia|intro].
    apply ret_bind; [apply ret_randint; lia|intro]. apply ret_bind; [apply ret_randint; lia|intro].
    apply ret_bind; [apply ret_times, ret_email_name|intro]. apply ret_bind; [apply ret_choice, letters_ne|intro].
    apply ret_bind; [apply ret_text, names_ne|intro]. apply ret_bind; [apply ret_choice, letters_ne|intro].
    apply ret_bind; [apply ret_text, names_ne|intro]. apply ret_ret.
  Qed.
  Lemma ret_props rec req : forall ps out c, (forall k p, In (k, p) ps -> returns (rec p)) -> returns (gen_props rnd opt rec req ps out c).
  Proof.
    induction ps as [|[k p] ps IH]; intros out c R; cbn [gen_props]; [apply ret_ret|].
    assert (R' : forall k p, In (k, p) ps -> returns (rec p)) by (intros; eapply R; right; eauto).
    destruct (sget k (object_template opt)); [now apply IH|]. apply ret_bind.
    - destruct (_ && _); [|apply ret_ret]. apply ret_bind; [apply ret_randint; lia|intro; apply ret_ret].
    - intro skip. destruct skip; [now apply IH|]. apply ret_bind; [eapply R; now left|intro; now apply IH].
  Qed.
  End R.
  Lemma generate_unfold rnd fuel o t ty : meant h xs o t -> s_type (sch h t) = Some ty ->
    returns (if str_eqb ty (lit "object") then gen_object rnd h xs opt fuel (generate rnd fuel) t
             else if str_eqb ty (lit "array") then gen_array rnd opt (generate rnd fuel) (sch h t)
             else gen_scalar rnd date_at datetime_at uuid_of dr dtr opt fuel (sch h t)) ->
    returns (generate rnd (S fuel) o).
  Proof.
    intros M T R. cbn [M_Render.generate]. unfold generate_step. apply settle_ok in M.
    intro i. destruct (R i) as (a & j & E). exists a, j. apply gbind_ok. exists t, i. split; [now apply glift_ok|].
    cbv zeta. rewrite T. exact E.
  Qed.
  Lemma scalar_returns rnd fuel s g : locate (s_type s) (s_format s) = Some g ->
    (forall e, s_enum s = [] /\ e = VNull \/ In e (s_enum s) -> returns (run_generator rnd date_at datetime_at uuid_of dr dtr opt fuel g s e)) ->
    returns (gen_scalar rnd date_at datetime_at uuid_of dr dtr opt fuel s).
  Proof.
    intros L R. unfold gen_scalar. apply ret_bind_in; [apply ret_enum|]. intros e i j E. rewrite L. apply R.
    destruct (s_enum s) as [|x l]; [apply gret_ok in E as [-> _]; auto|]. right. eapply choice_ok; eauto.
  Qed.
  Lemma ready_returns o : ready o -> exists N, forall rnd fuel, N <= fuel -> returns (generate rnd fuel o).
  Proof.
    intro RD. induction RD as [o t M K F IR|o t M K F X|o t M K N1 N2 L|o t M K F|o t M K L|o t M K EN|o t M K|o t M K EN D|o t M K EN D|o t M K F L
       |o t it M K I RI IH N1 N2 L|o t M K FU RP IH NA].
    1: assert (G : locate (s_type (sch h t)) (s_format (sch h t)) = Some GInt)
         by (rewrite K; destruct F as [->|(f & [<-|[<-|[<-|[]]]] & ->)]; reflexivity).
    2: assert (G : locate (s_type (sch h t)) (s_format (sch h t)) = Some GFloat)
         by (rewrite K; destruct F as [->|(f & [<-|[<-|[<-|[]]]] & ->)]; reflexivity).
    3: assert (G : locate (s_type (sch h t)) (s_format (sch h t)) = Some GStr)
         by (destruct K as [K F]; rewrite K; destruct F as [->|(f & [<-|[<-|[]]] & ->)]; reflexivity).
    4: assert (G : locate (s_type (sch h t)) (s_format (sch h t)) = Some GBool)
         by (rewrite K; destruct F as [->|(f & [<-|[]] & ->)]; reflexivity).
    5: assert (G : locate (s_type (sch h t)) (s_format (sch h t)) = Some GByte)
         by (destruct K as [K (f & [<-|[]] & F)]; rewrite K, F; reflexivity).
    6: assert (G : locate (s_type (sch h t)) (s_format (sch h t)) = Some GUuid)
         by (destruct K as [K (f & [<-|[]] & F)]; rewrite K, F; reflexivity).
    7: assert (G : locate (s_type (sch h t)) (s_format (sch h t)) = Some GEmail)
         by (destruct K as [K (f & [<-|[]] & F)]; rewrite K, F; reflexivity).
    8: assert (G : locate (s_type (sch h t)) (s_format (sch h t)) = Some GDate)
         by (destruct K as [K (f & [<-|[]] & F)]; rewrite K, F; reflexivity).
    9: assert (G : locate (s_type (sch h t)) (s_format (sch h t)) = Some GDatetime)
         by (destruct K as [K (f & [<-|[]] & F)]; rewrite K, F; reflexivity).
    10: assert (G : locate (s_type (sch h t)) (s_format (sch h t)) = Some GFile)
         by (rewrite K; destruct F as [->|(f & [<-|[]] & ->)]; reflexivity).
    1-10: assert (TY : exists ty, s_type (sch h t) = Some ty /\ str_eqb ty (lit "object") = false /\ str_eqb ty (lit "array") = false)
         by (first [exists (lit "integer"); now split|exists (lit "number"); now split|exists (lit "boolean"); now split|exists (lit "file"); now split|
             exists (lit "string"); split; [exact (proj1 K)|now split]]);
       destruct TY as (ty & TY & T1 & T2).
    1-10: exists 2; intros rnd [|[|fuel]] LE; try lia; apply (generate_unfold _ _ _ _ _ M TY); rewrite T1, T2;
       apply (scalar_returns _ _ _ _ G); intros e CE; cbn [run_generator].
    - now apply ret_int.
    - unfold gen_float. destruct (truthy e); [apply ret_ret|]. cbv zeta. apply ret_bind; [|intro; apply ret_ret].
      cbn [float_loop]. apply ret_bind; [apply ret_random|intro u]. rewrite X, Bool.andb_false_r. apply ret_ret.
    - unfold gen_str. destruct (truthy e); [apply ret_ret|]. cbv zeta. apply ret_bind.
      + apply ret_randint. now rewrite !given_z_limit.
      + intro n. apply ret_bind; [apply ret_text, letters_ne|intro; apply ret_ret].
    - unfold gen_bool. destruct (truthy e); [apply ret_ret|]. apply ret_bind; [apply ret_randint; lia|intro; apply ret_ret].
    - unfold gen_byte. destruct (truthy e); [apply ret_ret|]. apply ret_bind; [now apply ret_randint|intro].
      apply ret_bind; [apply ret_text, letters_ne|intro; apply ret_ret].
    - destruct CE as [[_ ->]|CE]; [|rewrite EN in CE; contradiction]. unfold gen_uuid. cbn [truthy].
      apply ret_bind; [apply ret_draw|intro; apply ret_ret].
    - apply ret_email.
    - destruct CE as [[_ ->]|CE]; [|rewrite EN in CE; contradiction]. unfold gen_date. cbn [truthy].
      apply ret_bind; [apply ret_uniform|intro q]. destruct (D q) as ([[y m] d] & E). apply ret_bind; [eapply ret_lift; eauto|].
      intros [[y' m'] d']. apply ret_ret.
    - destruct CE as [[_ ->]|CE]; [|rewrite EN in CE; contradiction]. unfold gen_datetime. cbn [truthy].
      apply ret_bind; [apply ret_uniform|intro q]. destruct (D q) as (d & E). apply ret_bind; [eapply ret_lift; eauto|].
      intros d'. apply ret_ret.
    - unfold gen_file. destruct (files opt); [|apply ret_choice; discriminate]. apply ret_bind; [now apply ret_randint|intro].
      apply ret_bind; [apply ret_text, letters_ne|intro; apply ret_ret].
    - destruct IH as (N & IH). exists (S N). intros rnd [|fuel] LE; [lia|]. apply (generate_unfold _ _ _ _ _ M K).
      change (returns (gen_array rnd opt (generate rnd fuel) (sch h t))). unfold gen_array. cbv zeta. apply ret_bind.
      + apply ret_randint. now rewrite !given_z_limit.
      + intro n. apply ret_bind; [|intro; apply ret_ret]. apply ret_times. rewrite I. apply IH. lia.
    - assert (X : exists N, forall kp, In kp (s_props (sch h t)) -> forall rnd fuel, N <= fuel -> returns (generate rnd fuel (snd kp))).
      { clear - IH. induction (s_props (sch h t)) as [|[k p] ps IHp]; [exists 0; intros ? []|].
        destruct IHp as (N & A); [intros; eapply IH; right; eauto|]. destruct (IH k p (or_introl eq_refl)) as (N' & B).
        exists (N + N'). intros kp [<-|I] rnd fuel LE; [apply B; cbn; lia|apply A; [exact I|lia]]. }
      destruct X as (N & X). exists (S N). intros rnd [|fuel] LE; [lia|]. apply (generate_unfold _ _ _ _ _ M K).
      change (returns (gen_object rnd h xs opt fuel (generate rnd fuel) t)). unfold gen_object. rewrite FU. cbn [negb]. cbv zeta.
      apply ret_bind.
      + apply ret_props. intros k p I. apply (X (k, p) I). lia.
      + intro oc. destruct (s_addp (sch h t)) as [|b|a]; try apply ret_ret. exfalso. eapply NA. reflexivity.
  Qed.
  Lemma params_return rnd fuel exclude : forall ps out,
    (forall p, In p ps -> mem (rp_name p) exclude = false -> smem (rp_name p) (parameter_template opt) = false ->
       returns (render_param rnd date_at datetime_at uuid_of dr dtr h xs opt fuel p)) ->
    returns (render_params rnd date_at datetime_at uuid_of dr dtr h xs opt fuel exclude ps out).
  Proof.
    induction ps as [|p ps IH]; intros out R; cbn [render_params]; [apply ret_ret|].
    assert (IH' : forall out, returns (render_params rnd date_at datetime_at uuid_of dr dtr h xs opt fuel exclude ps out))
      by (intro; apply IH; intros; apply R; auto; now right).
    destruct (mem (rp_name p) exclude) eqn:ME; [apply IH'|].
    destruct (sget (rp_name p) (parameter_template opt)) eqn:ET; [apply IH'|].
    apply ret_bind.
    - destruct (_ && _); [|apply ret_ret]. apply ret_bind; [apply ret_randint; lia|intro; apply ret_ret].
    - intro skip. destruct skip; [apply IH'|]. apply ret_bind; [|intro; apply IH']. apply R; [now left|exact ME|].
      now rewrite smem_sget, ET.
  Qed.
  Lemma ready_params ps : Forall ready_param ps -> exists N, forall rnd fuel, N <= fuel ->
    forall p, In p ps -> returns (render_param rnd date_at datetime_at uuid_of dr dtr h xs opt fuel p).
  Proof.
    induction 1 as [|p ps R F IH]; [exists 0; intros ? ? ? ? []|]. destruct IH as (N & IH).
    assert (X : exists M, forall rnd fuel, M <= fuel -> returns (render_param rnd date_at datetime_at uuid_of dr dtr h xs opt fuel p)).
    { unfold ready_param in R. unfold render_param. destruct (rp_body p).
      - destruct R as (s & -> & R). apply ready_returns in R. exact R.
      - apply ready_returns in R. exact R. }
    destruct X as (M & X). exists (N + M). intros rnd fuel LE q [<-|I]; [apply X; lia|apply IH; [lia|exact I]].
  Qed.
End Total.
