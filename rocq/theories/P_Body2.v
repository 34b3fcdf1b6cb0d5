(** Proofs about what becomes of values by schemas (C67): what is made is right. *)
From Coq Require Import QArith Lia.
From Verif Require Import PyBase PyFacts PyJson P_Op M_Graph S_Graph M_Quote M_Time M_Prim S_Prim S_PrimKinds P_Prim P_PrimLeaf P_PrimObj P_PrimMono T_PrimLeaf T_PrimObj T_PrimText T_PrimKinds.
From Verif Require M_SpecVal S_Parse S_SpecTree S_Merge S_MergeRef S_Patch S_Cycles S_Compose S_Prepare P_Cycles.
From Verif Require Import S_Declared M_Declared P_Declared P_Declared2 P_Declared3 S_Body P_Body.
Close Scope Q_scope.
Open Scope nat_scope.

Lemma lit_inj a b : lit a = lit b -> a = b.
Proof. intro E. rewrite <- (string_of_list_ascii_of_string a), <- (string_of_list_ascii_of_string b). now f_equal. Qed.
Lemma parts_is x l : pieces (lit "csv") x l <-> parts x l.
Proof.
  split; intro E.
  - destruct E as [l|d|s|f sp ps F SP NE CL]; try constructor. apply lit_inj in F. subst f. injection SP as <-. constructor; [exact NE|]. eapply Forall_impl; [|exact CL]. intros p HC. apply HC. now left.
  - destruct E as [l|d|s|ps NE CL]; try constructor. apply (pi_str _ "csv" ","); [reflexivity|reflexivity|exact NE|]. eapply Forall_impl; [|exact CL]. intros p HC c [<-|[]]. exact HC.
Qed.
Lemma proper_parts x l : parts x l -> proper x -> Forall proper l.
Proof.
  intros P X. destruct P as [l|d|s|ps NE CL].
  - inversion X as [v N _| |]; subst; [now destruct (N l)|assumption].
  - apply Forall_forall. intros y I. apply in_map_iff in I as (kv & <- & _). constructor; discriminate.
  - apply Forall_forall. intros y I. apply in_map_iff in I as (kv & <- & _). constructor; discriminate.
  - apply Forall_forall. intros y I. apply in_map_iff in I as (kv & <- & _). constructor; discriminate.
Qed.
Lemma firsts_in seen l l' : firsts seen l l' -> forall y, In y l' -> In y l.
Proof. induction 1 as [|seen e l l' N F IH|seen e l l' N F IH]; intros y I; [destruct I| |right; auto]. destruct I as [<-|I]; [now left|right; auto]. Qed.
Lemma parts_null x l : parts x l -> x <> VNull.
Proof. intros P ->. inversion P. Qed.
Lemma proper_get d k w : proper (VDict d) -> sget k d = Some w -> proper w.
Proof. intros P G. inversion P as [v _ N| |d' _ F]; subst; [now destruct (N d)|]. rewrite Forall_forall in F. apply sget_In in G. exact (F _ G). Qed.
Lemma proper_nodup d : proper (VDict d) -> NoDup (map fst d).
Proof. intro P. inversion P as [v _ N| |d' ND _]; subst; [now destruct (N d)|exact ND]. Qed.

Section Convert.
  Context (int_of : str -> res Z) (float_of : str -> res Q) (str_of : value -> str)
    (date_at : Q -> res (Z * Z * Z)) (datetime_at : Q -> res datetime) (uuid_of : str -> option Z) (email_ok : str -> bool).
  Context (h : list schema).
  Notation produce := (produce int_of float_of str_of date_at datetime_at uuid_of email_ok h).
  Notation conv := (conv int_of float_of str_of date_at datetime_at uuid_of email_ok h).
  (** All given values and defaults are converted, that of the discriminator too. *)
  Lemma object_converts n o t v d rd r c : target h o t -> object_kind (sch h t) -> members (sch h t) = [] ->
    effective h o v = VDict d -> NoDup (map fst d) -> NoDup (map fst (s_props (sch h t))) ->
    produce (S n) o v (new_ctx rd) = Ok (r, c) ->
    (forall k p w, sget k (s_props (sch h t)) = Some p -> sget k d = Some w -> exists x, conv n p w x) /\
    (forall k p, sget k (s_props (sch h t)) = Some p -> sget k d = None -> s_default_set (sch h p) = true -> exists x, conv n p (s_default (sch h p)) x).
  Proof.
    intros T K M EV ND NP E. rewrite (produce_some _ _ _ _ _ _ _ _ n o t v (new_ctx rd) T) in E; [|now rewrite EV|intros []].
    rewrite EV in E. destruct (start_object int_of float_of str_of date_at datetime_at uuid_of email_ok h (produce n) t (VDict d) (ctx1 h t (new_ctx rd)) K) as (f & S0 & F).
    unfold ctx1 in S0. rewrite S0 in E. apply bind_ok in E as ([[r0 v0] c0] & S1 & E).
    apply bind_ok in S1 as (x & S1 & E1). apply model_apply_dict in S1; [|apply K].
    destruct S1 as (m1 & c1 & m2 & MG & MD & _). apply model_given_get in MG as (-> & RD & GV); [|exact ND].
    pose proof (model_defaults_get _ _ _ _ _ _ _ _ n _ _ _ NP MD) as DF. split.
    - intros k p w P G. specialize (GV k). rewrite P, G in GV. destruct GV as (y & Y & _). eauto.
    - intros k p P G DS. specialize (GV k). specialize (DF k). rewrite P, G in GV. rewrite P, smem_sget, GV, DS in DF. cbn [sget dget negb andb] in DF. destruct DF as (y & Y & _). eauto.
  Qed.
End Convert.

Section Takes.
  Context (abs_uri win_uri : str -> str) (u : str) (root : val).
  Notation stands := (S_Compose.stands abs_uri win_uri u root).
  Notation points := (S_Cycles.points abs_uri win_uri u root).
  Context (int_of : str -> res Z) (float_of : str -> res Q) (str_of : value -> str)
    (date_at : Q -> res (Z * Z * Z)) (datetime_at : Q -> res datetime) (uuid_of : str -> option Z) (email_ok : str -> bool).
  Notation becomes := (becomes int_of float_of str_of date_at datetime_at uuid_of email_ok).
  Notation takes := (takes abs_uri win_uri u root int_of float_of str_of date_at datetime_at uuid_of email_ok).
  Notation simple := (simple abs_uri win_uri u root).
  Notation involves := (involves abs_uri win_uri u root).
  Context (h : list schema).
  Notation produce := (produce int_of float_of str_of date_at datetime_at uuid_of email_ok h).
  Notation conv := (conv int_of float_of str_of date_at datetime_at uuid_of email_ok h).
  Context (is_at : nat -> val -> Prop).
  Notation full := (full abs_uri win_uri u root is_at).
  Hypothesis AT : forall j x, is_at j x -> full x (sch h j).

  Lemma produce_null n j c : s_default (sch h j) <> VNull -> produce (S n) j VNull c = produce (S n) j (s_default (sch h j)) c.
  Proof.
    intro N. assert (E : is_null (s_default (sch h j)) = false) by (destruct (s_default (sch h j)); easy). cbn [M_Prim.produce]. unfold M_Prim.produce_step. cbn [is_null]. rewrite E. cbv zeta iota. rewrite E. reflexivity.
  Qed.
  Lemma made_target n j x rd r c : x <> VNull -> produce (S n) j x (new_ctx rd) = Ok (r, c) -> exists t, target h j t.
  Proof.
    intros N E. assert (X : is_null x = false) by (destruct x; easy). cbn [M_Prim.produce] in E. unfold M_Prim.produce_step in E. rewrite X, X in E. apply bind_ok in E as (t & T & _). exists t. now apply deref_target.
  Qed.
  (** Schemas that say nothing *)
  Lemma silent_made n j t x rd : x <> VNull -> target h j t -> members (sch h t) = [] -> s_full (sch h t) = true -> (s_type (sch h t) = None \/ s_type (sch h t) = Some []) -> ~ object_kind (sch h t) ->
    exists c, produce (S n) j x (new_ctx rd) = Ok (PNone, c).
  Proof.
    intros N T M F U K. assert (EF : effective h j x = x) by (destruct x; easy).
    rewrite (produce_some _ _ _ _ _ _ _ _ n j t x (new_ctx rd) T); [|rewrite EF; destruct x; easy|intros []]. rewrite EF.
    assert (B : nonempty (s_props (sch h t)) || match s_addp (sch h t) with ANone | ABool false => false | _ => true end = false).
    { destruct (nonempty (s_props (sch h t)) || match s_addp (sch h t) with ANone | ABool false => false | _ => true end) eqn:B; [|reflexivity]. elim K. split; [exact F|]. right. split; [exact U|]. apply Bool.orb_true_iff in B as [B|B]; [left; now destruct (s_props (sch h t))|right; exact B]. }
    assert (S0 : start int_of float_of str_of date_at datetime_at uuid_of email_ok h (produce n) t x (set_guard (c_guard (new_ctx rd) ++ [t]) (set_name (s_name (sch h t)) (new_ctx rd))) = Ok (PNone, x, set_guard (c_guard (new_ctx rd) ++ [t]) (set_name (s_name (sch h t)) (new_ctx rd)))).
    { unfold start. rewrite F, B. cbn [negb]. destruct U as [-> | ->]; reflexivity. }
    rewrite S0. cbn [bind]. unfold finish. cbn [final_kind]. rewrite F. unfold members in M. rewrite F in M. rewrite M. cbn [all_of bind falsy]. eauto.
  Qed.

  Section Sound.
    Context (n : nat).
    Hypothesis IH : forall j s rd x r c, is_at j s -> simple s -> proper x -> produce n j x (new_ctx rd) = Ok (r, c) -> takes rd s x r.
    Lemma conv_sound j s x r : is_at j s -> simple s -> proper x -> conv n j x r -> takes true s x r.
    Proof. intros A S P (c & E). eapply IH; eauto. Qed.
    Lemma sound_array j s rd x r t e : is_at t e -> stands s e -> simple s -> target h j t -> proper x -> x <> VNull -> of_type e "array" ->
      (exists c, produce (S n) j x (new_ctx rd) = Ok (r, c)) -> takes rd s x r.
    Proof.
      intros A SE S T P N K E. pose proof (reads_at _ _ _ _ _ _ AT s e j t S SE T A) as R. pose proof (AT _ _ A) as F.
      destruct (S e (in_itself _ _ _ _ _ _ SE)) as (_ & IT). destruct (IT K) as (i & FI & OI). destruct (fu_items _ _ _ _ _ _ _ F i FI OI) as (it & SI & AI).
      apply (made_array _ _ _ _ _ _ _ h e j t n rd x r R N it (lit "csv")) in E; [|unfold format_of; now rewrite (fu_cf _ _ _ _ _ _ _ F)|exact K|exact SI].
      destruct E as (l & l' & rs & PI & U & CV & SZ & ->). apply parts_is in PI. apply (tk_array _ _ _ _ _ _ _ _ _ _ _ rd s e x i l l' rs); auto.
      pose proof (proper_parts _ _ PI P) as PL. rewrite Forall_forall in PL. assert (PL' : forall y, In y l' -> proper y) by (intros y I; apply PL; destruct U as [(_ & U)|(_ & ->)]; [eapply firsts_in; eauto|exact I]).
      assert (SI' : simple i) by (eapply simple_next; eauto; left; auto). clear - CV PL' AI SI' IH. induction CV as [|y p l rs Y CV IHC]; constructor; [|apply IHC; intros z I; apply PL'; now right]. eapply conv_sound; eauto. apply PL'. now left.
    Qed.
    Lemma sound_object j s rd x r t e : is_at t e -> stands s e -> simple s -> target h j t -> proper x -> x <> VNull -> object_decl e ->
      (exists c, produce (S n) j x (new_ctx rd) = Ok (r, c)) -> takes rd s x r.
    Proof.
      intros A SE S T P N K (c & E). pose proof (AT _ _ A) as F. pose proof (proj2 (object_is _ _ _ _ _ _ _ F) K) as OK. pose proof (simple_members _ _ _ _ _ _ AT _ _ _ S SE A) as M.
      assert (EF : effective h j x = x) by (destruct x; easy).
      assert (D : exists d, x = VDict d).
      { destruct x as [| | | | | | | | | | |d]; try (now destruct N); try (rewrite (c30_not_dict_refused int_of float_of str_of date_at datetime_at uuid_of email_ok h n j t _ rd T OK) in E; [discriminate E|rewrite EF; discriminate|rewrite EF; discriminate]). eauto. }
      destruct D as (d & ->). pose proof (proper_nodup _ P) as ND. pose proof (props_nodup _ _ _ _ _ _ _ F) as NP.
      destruct (c30_contents int_of float_of str_of date_at datetime_at uuid_of email_ok h n j t _ d rd r c T OK M EF ND NP E) as (m & -> & HO & RQ & RO).
      destruct (object_converts int_of float_of str_of date_at datetime_at uuid_of email_ok h n j t _ d rd _ c T OK M EF ND NP E) as (CG & CD).
      assert (HD : forall k, discriminates e k \/ ~ discriminates e k).
      { intro k. destruct (disc_of (sch h t)) as [k'|] eqn:DK; [destruct (str_eqb_spec k k') as [->|NE]; [left; now apply (disc_is _ _ _ _ _ _ _ _ F)|right; intro X; apply (disc_is _ _ _ _ _ _ _ _ F) in X; congruence]|right; intro X; apply (disc_is _ _ _ _ _ _ _ _ F) in X; congruence]. }
      assert (HN : forall k, ~ discriminates e k -> property (conv n) h (sch h t) d k (sget k m)).
      { intros k X. specialize (HO k). unfold holds in HO. assert (Y : match s_disc (sch h t) with Some (c0 :: y) => str_eqb k (c0 :: y) | _ => false end = false); [|now rewrite Y in HO].
        destruct (s_disc (sch h t)) as [[|c0 y]|] eqn:DK; try reflexivity. destruct (str_eqb_spec k (c0 :: y)) as [->|]; [|reflexivity]. destruct X. apply (disc_is _ _ _ _ _ _ _ _ F). unfold disc_of. now rewrite DK. }
      assert (HS : forall k, discriminates e k -> match sget k (s_props (sch h t)), sget k d with
          | None, Some v => if allows_extra (s_addp (sch h t)) then property (conv n) h (sch h t) d k (sget k m) else sget k m = Some (match s_name (sch h t) with Some (Some y) => PStr y | _ => PNone end)
          | _, _ => sget k m = Some (match s_name (sch h t) with Some (Some y) => PStr y | _ => PNone end) end).
      { intros k X. specialize (HO k). unfold holds in HO. apply (disc_is _ _ _ _ _ _ _ _ F) in X. unfold disc_of in X. destruct (s_disc (sch h t)) as [[|c0 y]|]; try discriminate X. injection X as <-. now rewrite str_eqb_refl in HO. }
      assert (ANY : forall k w, sget k (s_props (sch h t)) = None -> sget k d = Some w -> allows_extra (s_addp (sch h t)) = true -> property (conv n) h (sch h t) d k (sget k m)).
      { intros k w NPk G AE. destruct (HD k) as [X|X]; [|exact (HN k X)]. specialize (HS k X). now rewrite NPk, G, AE in HS. }
      pose proof (fu_addp _ _ _ _ _ _ _ F) as AD.
      apply (tk_object _ _ _ _ _ _ _ _ _ _ _ rd s e d m SE K).
      - intros k p w HP G. destruct (prop_at _ _ _ _ _ _ _ _ _ F HP) as (i & GI & AI). split.
        + intros -> RY. assert (X : false = true); [|discriminate X]. apply (RO k i GI); [now rewrite smem_sget, G|]. now apply (fu_readonly _ _ _ _ _ _ _ (AT _ _ AI)).
        + assert (SP : simple p) by (eapply simple_next; eauto; right; left; eauto). pose proof (proper_get _ _ _ P G) as PW. destruct (HD k) as [X|X].
          * destruct (CG _ _ _ GI G) as (y & Y). exists y. split; [eapply conv_sound; eauto|now right].
          * specialize (HN k X). unfold property in HN. rewrite GI, G in HN. destruct HN as (y & Y & MY). exists y. split; [eapply conv_sound; eauto|now left].
      - intros k p w y HP G SY FW SV. destruct (prop_at _ _ _ _ _ _ _ _ _ F HP) as (i & GI & AI). pose proof (AT _ _ AI) as FP. assert (SP : simple p) by (eapply simple_next; eauto; right; left; eauto).
        apply (fu_set _ _ _ _ _ _ _ FP) in SY. destruct (default_at _ _ _ _ _ _ _ FP) as (w' & y' & FW' & SV' & PY & DY). rewrite FW in FW'. injection FW' as <-. pose proof (same_value_of _ _ SV) as E1. pose proof (same_value_of _ _ SV') as E2. assert (y' = y) as -> by congruence. destruct (HD k) as [X|X].
        + destruct (CD _ _ GI G SY) as (z & Z). rewrite DY in Z. exists z. split; [eapply conv_sound; eauto|now right].
        + specialize (HN k X). unfold property in HN. rewrite GI, G, SY in HN. destruct HN as (z & Z & MZ). rewrite DY in Z. exists z. split; [eapply conv_sound; eauto|now left].
      - intros k p HP G NS. destruct (prop_at _ _ _ _ _ _ _ _ _ F HP) as (i & GI & AI). pose proof (AT _ _ AI) as FP. destruct (HD k) as [X|X]; [now right|]. left. specialize (HN k X). unfold property in HN. rewrite GI, G in HN.
        destruct (s_default_set (sch h i)) eqn:DS; [|exact HN]. destruct NS. now apply (fu_set _ _ _ _ _ _ _ FP).
      - intros k w HP G AN. apply (no_prop _ _ _ _ _ _ _ _ F) in HP. destruct (s_addp (sch h t)) as [|[|]|a] eqn:EA; try (destruct AD as (AD & _); now destruct AD).
        + assert (X := ANY k w HP G eq_refl). unfold property in X. now rewrite HP, G, EA in X.
        + destruct AD as (b & (B1 & B2) & _). unfold anything in AN. rewrite AN in B1. injection B1 as <-. destruct B2.
      - intros k w a HP G MA. apply (no_prop _ _ _ _ _ _ _ _ F) in HP. destruct (s_addp (sch h t)) as [|[|]|i] eqn:EA; try (destruct AD as (_ & AD); now destruct (AD a)).
        + destruct MA as (B1 & B2). unfold anything in AD. rewrite AD in B1. injection B1 as <-. destruct B2.
        + assert (X := ANY k w HP G eq_refl). unfold property in X. rewrite HP, G, EA in X. destruct X as (y & Y & MY). destruct AD as (b & MB & AB). assert (b = a) as -> by (destruct MA, MB; congruence).
          exists y. split; [|exact MY]. eapply conv_sound; eauto; [|eapply proper_get; eauto]. eapply simple_next; eauto. right. now right.
      - intros k w HP G NO. apply (no_prop _ _ _ _ _ _ _ _ F) in HP. destruct (HD k) as [X|X]; [now right|]. left. specialize (HN k X). unfold property in HN. rewrite HP, G in HN.
        destruct (s_addp (sch h t)) as [|[|]|i] eqn:EA; try exact HN; [now destruct NO|]. destruct AD as (b & MB & _). destruct NO as (_ & NO). now destruct (NO b).
      - intros k HP G. apply (no_prop _ _ _ _ _ _ _ _ F) in HP. destruct (HD k) as [X|X]; [now right|]. left. specialize (HN k X). unfold property in HN. now rewrite HP, G in HN.
      - intros k y X CASE NY. specialize (HS k X). destruct (fu_name _ _ _ _ _ _ _ F) as (nm & SN & NM). apply NM in NY. subst y. rewrite SN in HS.
        destruct (sget k (s_props (sch h t))) as [i|] eqn:GI; [exact HS|]. destruct (sget k d) as [w|] eqn:G; [|exact HS].
        destruct CASE as [(p & HP)|[G'|NO]]; [pose proof (proj1 (no_prop _ _ _ _ _ _ _ _ F) GI p HP) as []|discriminate G'|].
        destruct (s_addp (sch h t)) as [|[|]|i] eqn:EA; try exact HS; [now destruct NO|]. destruct AD as (b & MB & _). destruct NO as (_ & NO). now destruct (NO b).
      - intros k RK. apply (fu_required _ _ _ _ _ _ _ F) in RK. destruct (RQ k RK) as (i & GI & X). destruct (at_prop _ _ _ _ _ _ _ _ _ F GI) as (p & HP & AI). exists p. split; [exact HP|]. rewrite smem_sget in X. destruct X as [X|X]; [left; now destruct (sget k d)|right; now apply (fu_set _ _ _ _ _ _ _ (AT _ _ AI))].
    Qed.
    Lemma sound_some j s rd x r : is_at j s -> simple s -> proper x -> x <> VNull -> (exists c, produce (S n) j x (new_ctx rd) = Ok (r, c)) -> takes rd s x r.
    Proof.
      intros A S P N E. assert (T : exists t, target h j t) by (destruct E as (c & E); eapply made_target; eauto). destruct T as (t & T).
      destruct (target_stands _ _ _ _ _ _ AT _ _ T _ A) as (e & SE & AE). pose proof (AT _ _ AE) as F. pose proof (reads_at _ _ _ _ _ _ AT s e j t S SE T AE) as R.
      assert (EF : effective h j x = x) by (destruct x; try reflexivity; now destruct N). pose proof (mi_type _ _ (fu_plain _ _ _ _ _ _ _ F)) as TY.
      assert (U : s_type (sch h t) = None \/ s_type (sch h t) = Some [] \/ exists a y, s_type (sch h t) = Some (a :: y)) by (destruct (s_type (sch h t)) as [[|a y]|]; eauto).
      assert (UT : s_type (sch h t) = None \/ s_type (sch h t) = Some [] -> takes rd s x r).
      { intro UU. destruct (nonempty (s_props (sch h t)) || allows_extra (s_addp (sch h t))) eqn:B.
        - apply (sound_object j s rd x r t e); auto. apply (object_is _ _ _ _ _ _ _ F). split; [exact (fu_full _ _ _ _ _ _ _ F)|]. right. split; [exact UU|]. apply Bool.orb_true_iff in B as [B|B]; [left; now destruct (s_props (sch h t))|right; exact B].
        - assert (NK : ~ object_kind (sch h t)).
          { intros (_ & [K|(_ & K)]); [unfold typed in K; destruct UU as [X|X]; rewrite X in K; discriminate K|]. apply Bool.orb_false_iff in B as (B1 & B2). destruct K as [K|K]; [now destruct (s_props (sch h t))|congruence]. }
          destruct (silent_made n j t x rd N T (rd_members _ _ _ _ R) (fu_full _ _ _ _ _ _ _ F) UU NK) as (c' & E'). destruct E as (c & E). rewrite E' in E. injection E as <- _.
          apply (tk_silent _ _ _ _ _ _ _ _ _ _ _ rd s e x N SE). assert (NO : ~ object_decl e) by (intro X; apply NK; now apply (object_is _ _ _ _ _ _ _ F)).
          assert (UE : untyped e) by (apply (untyped_is _ _ (fu_plain _ _ _ _ _ _ _ F) (fu_type _ _ _ _ _ _ _ F)); exact UU). split; [exact UE|]. split; [intros k p HP; apply NO; right; split; [exact UE|left; eauto]|].
          pose proof (fu_addp _ _ _ _ _ _ _ F) as AD. apply Bool.orb_false_iff in B as (_ & B). destruct (s_addp (sch h t)) as [|[|]|i]; try discriminate B; exact AD. }
      destruct U as [U|[U|(a & y & U)]]; [apply UT; auto|apply UT; auto|].
      destruct (mem (a :: y) (map lit types)) eqn:ME.
      - apply mem_In, in_map_iff in ME as (t' & T1 & T2). rewrite <- T1 in U. assert (TE : of_type e t') by (now apply TY).
        assert (D : t' = "array"%string \/ t' = "object"%string \/ In t' ["integer"; "number"; "string"; "boolean"; "file"]%string) by (cbn in T2 |- *; intuition auto).
        destruct D as [->|[->|D]].
        + eapply sound_array; eauto.
        + eapply sound_object; eauto. now left.
        + apply (tk_plain _ _ _ _ _ _ _ _ _ _ _ rd s e x r N SE); [|eapply leaf_made; eauto]. intro AR. apply TY in AR. rewrite U in AR. injection AR as AR. change (lit t' = lit "array") in AR. apply lit_inj in AR. subst t'. cbn in D. intuition discriminate.
      - exfalso. destruct E as (c & E). rewrite (c60_unknown int_of float_of str_of date_at datetime_at uuid_of email_ok h n j t (a :: y) x rd T U ltac:(discriminate)) in E; [discriminate E| |now rewrite EF]. intro I. apply mem_In in I. congruence.
    Qed.
  End Sound.
  Theorem produce_takes : forall n j s rd x r c, is_at j s -> simple s -> proper x -> produce n j x (new_ctx rd) = Ok (r, c) -> takes rd s x r.
  Proof.
    induction n as [|n IH]; intros j s rd x r c A S P E; [discriminate E|]. destruct (is_null x) eqn:NX.
    - destruct x; try discriminate NX. pose proof (AT _ _ A) as F. destruct (default_at _ _ _ _ _ _ _ F) as (d & y & D & SV & PY & DY). destruct (is_null y) eqn:NY.
      + destruct y; try discriminate NY. assert (d = M_SpecVal.VNone) as -> by now inversion SV. assert (R : r = PNone). { rewrite c60_none in E by exact DY. now injection E. } subst r. now apply tk_none.
      + assert (YN : y <> VNull) by (intros ->; discriminate NY). rewrite produce_null, DY in E; [|now rewrite DY]. apply (tk_default _ _ _ _ _ _ _ _ _ _ _ rd s d y r D SV YN). eapply sound_some; eauto.
    - assert (XN : x <> VNull) by (intros ->; discriminate NX). eapply sound_some; eauto.
  Qed.
End Takes.
