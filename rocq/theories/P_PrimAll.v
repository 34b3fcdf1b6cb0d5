(** allOf on objects. *)
From Coq Require Import QArith.
From Verif Require Import PyBase PyFacts P_Op M_Graph S_Graph P_Graph M_Time M_Prim S_Prim P_Prim P_PrimLeaf P_PrimObj.
Close Scope Q_scope.
Open Scope nat_scope.

Section All.
  Context (int_of : str -> res Z) (float_of : str -> res Q) (str_of : value -> str)
    (date_at : Q -> res (Z * Z * Z)) (datetime_at : Q -> res datetime)
    (uuid_of : str -> option Z) (email_ok : str -> bool) (h : list schema).
  Notation produce := (produce int_of float_of str_of date_at datetime_at uuid_of email_ok h).
  Notation start := (start int_of float_of str_of date_at datetime_at uuid_of email_ok h).
  Notation finish := (finish date_at datetime_at uuid_of email_ok h).
  Notation all_of := (all_of date_at datetime_at uuid_of email_ok h).
  Notation apply_rest := (apply_rest date_at datetime_at uuid_of email_ok h).
  Notation apply_more := (apply_more date_at datetime_at uuid_of email_ok h).
  Notation apply_obj := (apply_obj date_at datetime_at uuid_of h).
  Notation model_apply := (model_apply h).
  Notation model_given := (model_given h).
  Notation model_defaults := (model_defaults h).
  Notation cleanup := (cleanup h).
  Notation conv := (conv int_of float_of str_of date_at datetime_at uuid_of email_ok h).

  Definition grows (m m' : sdict prim) : Prop := forall k, smem k m = true -> smem k m' = true.
  Definition has_all (l : list str) (m : sdict prim) : Prop := forall k, In k l -> smem k m = true.
  Lemma grows_refl m : grows m m. Proof. intros k H; exact H. Qed.
  Lemma grows_trans a b c : grows a b -> grows b c -> grows a c. Proof. intros A B k H. auto. Qed.
  Lemma has_all_grows l m m' : has_all l m -> grows m m' -> has_all l m'. Proof. intros A B k H. auto. Qed.
  Lemma grows_sset k x m : grows m (sset k x m).
  Proof.
    intros k' M. rewrite smem_sget in *. destruct (str_eqb k' k) eqn:E.
    - apply str_eqb_eq in E. subst. now rewrite sget_sset_same.
    - rewrite sget_sset_other; [exact M|]. intros ->. now rewrite str_eqb_refl in E.
  Qed.
  Lemma given_grows rec o : forall d m c m' c', model_given rec o d m c = Ok (m', c') -> grows m m'.
  Proof.
    induction d as [|[k v] d IH]; intros m c m' c' E; cbn [M_Prim.model_given] in E.
    - injection E as <- <-. apply grows_refl.
    - destruct (sget k _).
      + destruct (_ && _); [discriminate|]. apply bind_ok in E as (r & _ & E).
        eapply grows_trans; [apply grows_sset|eauto].
      + destruct (s_addp _) as [|[]|]; eapply IH; eauto.
  Qed.
  Lemma defaults_grows rec : forall ps m m', model_defaults rec ps m = Ok m' -> grows m m'.
  Proof.
    induction ps as [|[k p] ps IH]; intros m m' E; cbn [M_Prim.model_defaults] in E.
    - injection E as <-. apply grows_refl.
    - destruct (_ && _); [|eauto]. apply bind_ok in E as (r & _ & E).
      eapply grows_trans; [apply grows_sset|eauto].
  Qed.
  Lemma apply_grows rec o m v c r v' c' : model_apply rec o m v c = Ok (r, v', c') ->
    exists m', r = PModel m' /\ grows m m' /\ has_all (s_required (sch h o)) m' /\ is_null v' = false.
  Proof.
    intro E. assert (F : s_full (sch h o) = true).
    { unfold M_Prim.model_apply in E. destruct v; try discriminate. destruct (s_full _); [reflexivity|discriminate]. }
    destruct v as [| | | | | | | | | | |d]; try discriminate E.
    apply model_apply_dict in E; [|exact F]. destruct E as (m1 & c1 & m2 & A & B & R & X & _).
    injection X as -> -> ->. eexists. split; [reflexivity|].
    assert (GR : grows m m2) by (eapply grows_trans; [eapply given_grows|eapply defaults_grows]; eauto).
    destruct (disc_of (sch h o)); [|auto]. split; [|split; [|reflexivity]].
    - eapply grows_trans; [exact GR|apply grows_sset].
    - eapply has_all_grows; [exact R|apply grows_sset].
  Qed.
  Lemma put_conv_grows rec a : forall d m m', put_conv rec a d m = Ok m' -> grows m m'.
  Proof.
    induction d as [|[k v] d IH]; intros m m' E; cbn [put_conv] in E.
    - injection E as <-. apply grows_refl.
    - apply bind_ok in E as (r & _ & E). eapply grows_trans; [apply grows_sset|eauto].
  Qed.
  Lemma put_raw_grows : forall d m, grows m (put_raw d m).
  Proof.
    induction d as [|[k v] d IH]; intros m; [apply grows_refl|].
    eapply grows_trans; [apply grows_sset|apply IH].
  Qed.
  Lemma cleanup_grows rec m v c r c' : cleanup rec m v c = Ok (r, c') -> exists m', r = PModel m' /\ grows m m'.
  Proof.
    unfold M_Prim.cleanup. destruct (c_addp c).
    - destruct v; try discriminate. intro E. injection E as <- <-. eexists. split; [reflexivity|apply put_raw_grows].
    - destruct (c_addps c); [|intro E; injection E as <- <-; eexists; split; [reflexivity|apply grows_refl]].
      destruct v; try discriminate. destruct (s_addp _); try discriminate. intro E.
      apply bind_ok in E as (m' & P & E). injection E as <- <-. eexists. split; [reflexivity|]. eapply put_conv_grows; eauto.
  Qed.
  Lemma target_det o a b : target h o a -> target h o b -> a = b.
  Proof. intros A B. apply deref_target in A, B. congruence. Qed.
  Lemma target_end o a : target h o a -> target h a a.
  Proof. intros [_ A]. now apply target_refl. Qed.
  Lemma grows_truthy m m' : falsy (PModel m) = false -> grows m m' -> falsy (PModel m') = false.
  Proof.
    intros F G. destruct m as [|[k x] m]; [discriminate|]. specialize (G k).
    destruct m'; [|reflexivity]. rewrite smem_sget, sget_cons, str_eqb_refl in G. discriminate (G eq_refl).
  Qed.
  Lemma apply_more_model rec o m v c : apply_more rec o (PModel m) v c = model_apply rec o m v c.
  Proof. reflexivity. Qed.
  (** Nothing else becomes a model. *)
  Lemma apply_more_to_model rec o r v c m v' c' : apply_more rec o r v c = Ok (PModel m, v', c') ->
    exists m0, r = PModel m0.
  Proof.
    unfold M_Prim.apply_more. destruct (has_apply r) eqn:HA.
    - unfold M_Prim.apply_obj. destruct r; try discriminate; intro E; [..|eauto].
      all: try (apply bind_ok in E as (x & _ & E); discriminate E).
      + apply bind_ok in E as (x & D & E). apply date_of_made in D as [(? & ? & ? & ->)|(? & ->)]; discriminate E.
      + apply bind_ok in E as (f & G & E). injection E as -> _ _. unfold file_of in G. destruct v; try discriminate.
        destruct (_ && _); discriminate.
      + apply bind_ok in E as (x & A & E). destruct x as [r0 v0]. apply array_apply_shape in A as (l0 & ->). discriminate E.
    - destruct (match c_2nd c with Some f => Some f | None => _ end); intro E.
      + apply bind_ok in E as (? & _ & E). injection E as -> _ _. eauto.
      + injection E as -> _ _. eauto.
  Qed.

  (** Once there is a non-empty model, every further member is applied to it. *)
  Lemma all_of_model rec : forall l m v c na r' v' c' na', all_of rec l (PModel m) v c na = Ok (r', v', c', na') ->
    falsy (PModel m) = false ->
    exists m', r' = PModel m' /\ grows m m' /\ na' = na /\
      forall a, In a l -> exists a', target h a a' /\ has_all (s_required (sch h a')) m'.
  Proof.
    induction l as [|a l IH]; intros m v c na r' v' c' na' E F; cbn [M_Prim.all_of] in E.
    - injection E as <- <- <- <-. exists m. split; [reflexivity|]. split; [apply grows_refl|]. split; [reflexivity|].
      intros a [].
    - apply bind_ok in E as (a' & D & E). apply deref_target in D. apply bind_ok in E as ([[r1 v1] c1] & A & E).
      rewrite F in A. rewrite apply_more_model in A. apply apply_grows in A as (m1 & -> & G & R & _).
      assert (F1 : falsy (PModel m1) = false) by (eapply grows_truthy; eauto).
      rewrite F1 in E. apply IH in E as (m' & -> & G2 & -> & R2); [|exact F1].
      exists m'. split; [reflexivity|]. split; [eapply grows_trans; eauto|]. split; [reflexivity|].
      intros b [->|I]; [|auto]. exists a'. split; [exact D|]. eapply has_all_grows; eauto.
  Qed.
  Lemma all_of_to_model rec : forall l r v c na m' v' c' na', all_of rec l r v c na = Ok (PModel m', v', c', na') ->
    falsy r = false -> exists m, r = PModel m.
  Proof.
    induction l as [|a l IH]; intros r v c na m' v' c' na' E F; cbn [M_Prim.all_of] in E.
    - injection E as -> <- <- <-. eauto.
    - apply bind_ok in E as (a' & D & E). apply bind_ok in E as ([[r1 v1] c1] & A & E). rewrite F in A.
      apply IH in E as (m1 & ->); [|eapply apply_more_truthy; eauto]. eapply apply_more_to_model; eauto.
  Qed.
  Lemma apply_rest_model rec : forall l m v c r' v' c', apply_rest rec l (PModel m) v c = Ok (r', v', c') ->
    exists m', r' = PModel m' /\ grows m m' /\ forall a, In a l -> has_all (s_required (sch h a)) m'.
  Proof.
    induction l as [|a l IH]; intros m v c r' v' c' E; cbn [M_Prim.apply_rest] in E.
    - injection E as <- <- <-. exists m. split; [reflexivity|]. split; [apply grows_refl|]. intros a [].
    - apply bind_ok in E as ([[r1 v1] c1] & A & E). rewrite apply_more_model in A.
      apply apply_grows in A as (m1 & -> & G & R & _). apply IH in E as (m' & -> & G2 & R2).
      exists m'. split; [reflexivity|]. split; [eapply grows_trans; eauto|].
      intros b [->|I]; [|auto]. eapply has_all_grows; eauto.
  Qed.
  Lemma apply_rest_to_model rec : forall l r v c m' v' c', apply_rest rec l r v c = Ok (PModel m', v', c') ->
    exists m, r = PModel m.
  Proof.
    induction l as [|a l IH]; intros r v c m' v' c' E; cbn [M_Prim.apply_rest] in E.
    - injection E as -> <- <-. eauto.
    - apply bind_ok in E as ([[r1 v1] c1] & A & E). apply IH in E as (m1 & ->). eapply apply_more_to_model; eauto.
  Qed.
  Lemma start_object_inv rec t v c r0 v0 c0 : object_kind (sch h t) -> start rec t v c = Ok (r0, v0, c0) ->
    exists m, r0 = PModel m /\ has_all (s_required (sch h t)) m /\ is_null v0 = false.
  Proof.
    intros K E. destruct (start_object int_of float_of str_of date_at datetime_at uuid_of email_ok h rec t v c K) as (f & S0 & _).
    rewrite S0 in E. apply bind_ok in E as ([[r1 v1] c1] & A & E). cbn [fst snd] in E. injection E as <- <- <-.
    apply apply_grows in A as (m & -> & _ & R & N). eauto.
  Qed.
  Lemma produce_required n o t v c r c' : produce n o v c = Ok (r, c') -> target h o t -> object_kind (sch h t) ->
    is_null (effective h o v) = false ->
    forall k, In k (s_required (sch h t)) -> exists m, r = PModel m /\ smem k m = true.
  Proof.
    intros E T K N k I. destruct n as [|n]; [discriminate E|].
    apply produce_inv in E as [(X & _)|(_ & t' & r0 & v0 & c0 & T' & G & A & B)]; [congruence|].
    assert (t' = t) as ->. { eapply target_det; eauto. }
    apply start_object_inv in A as (m & -> & R & _); [|exact K].
    unfold M_Prim.finish in B. cbn [final_kind] in B.
    assert (F : falsy (PModel m) = false).
    { specialize (R k I). destruct m; [discriminate R|reflexivity]. }
    apply bind_ok in B as ([[r1 v1] c1] & B & C).
    assert (X : exists m1, r1 = PModel m1 /\ grows m m1).
    { destruct (s_full (sch h t)).
      - apply bind_ok in B as ([[[r2 v2] c2] na] & B & D). apply all_of_model in B as (m2 & -> & G2 & -> & _); [|exact F].
        rewrite (grows_truthy m m2 F G2) in D. cbn [M_Prim.apply_rest] in D. injection D as <- <- <-. eauto.
      - injection B as <- <- <-. exists m. split; [reflexivity|apply grows_refl]. }
    destruct X as (m1 & -> & G1). apply cleanup_grows in C as (m2 & -> & G2). exists m2. split; [reflexivity|]. auto.
  Qed.
  Lemma all_of_members n : forall l r v c na m' v' c' na',
    all_of (produce n) l r v c na = Ok (PModel m', v', c', na') -> falsy r = true -> is_null v = false ->
    incl na na' /\
    forall a a', In a l -> target h a a' -> object_kind (sch h a') ->
      has_all (s_required (sch h a')) m' \/ (In a' na' /\ falsy (PModel m') = false).
  Proof.
    induction l as [|a l IH]; intros r v c na m' v' c' na' E F N; cbn [M_Prim.all_of] in E.
    - injection E as -> <- <- <-. split; [apply incl_refl|]. intros a a' [].
    - apply bind_ok in E as (a' & D & E). apply deref_target in D. apply bind_ok in E as ([[r1 v1] c1] & A & E).
      rewrite F in A. apply bind_ok in A as ([r2 c2] & A & X). cbn [fst snd] in X. injection X as <- <- <-.
      assert (TA : target h a' a') by (eapply target_end; eauto).
      assert (EF : effective h a' v = v) by (destruct v; [discriminate N|reflexivity..]).
      destruct (falsy r2) eqn:F1.
      + apply IH in E as (I1 & R1); auto. split.
        * intros x I. apply I1. apply in_app_iff. now left.
        * intros b b' [->|I] TB KB; [|eauto]. assert (b' = a') as -> by (eapply target_det; eauto).
          destruct (falsy (PModel m')) eqn:FM.
          -- left. intros k I. eapply produce_required in A; [..|exact I]; eauto; [|now rewrite EF].
             destruct A as (m & -> & S1). destruct m; [discriminate S1|discriminate F1].
          -- right. split; [|reflexivity]. apply I1. apply in_app_iff. right. now left.
      + destruct (all_of_to_model _ _ _ _ _ _ _ _ _ _ E F1) as (m1 & ->).
        pose proof (all_of_model _ _ _ _ _ _ _ _ _ _ E F1) as (m2 & X & G2 & -> & R2). injection X as <-.
        split; [apply incl_refl|]. intros b b' [->|I] TB KB; left.
        * assert (b' = a') as -> by (eapply target_det; eauto). intros k I.
          eapply produce_required in A; [..|exact I]; eauto; [|now rewrite EF]. destruct A as (m & X & S1).
          injection X as <-. now apply G2.
        * destruct (R2 b I) as (b2 & TB2 & R3). assert (b' = b2) as -> by (eapply target_det; eauto). exact R3.
  Qed.
  Lemma allof_required n o t v c m c' : target h o t -> is_null (effective h o v) = false ->
    produce n o v c = Ok (PModel m, c') ->
    (object_kind (sch h t) -> has_all (s_required (sch h t)) m) /\
    forall a a', In a (members (sch h t)) -> target h a a' -> object_kind (sch h a') ->
      has_all (s_required (sch h a')) m.
  Proof.
    intros T N E. split.
    - intros K k I. eapply produce_required in E as (m2 & X & S1); eauto. now injection X as <-.
    - intros a a' I TA KA. destruct n as [|n]; [discriminate E|].
      apply produce_inv in E as [(X & _)|(_ & t' & r0 & v0 & c0 & T' & G & A & B)]; [congruence|].
      assert (t' = t) as -> by (eapply target_det; eauto).
      unfold M_Prim.finish in B. destruct (final_kind r0) eqn:FK; [injection B as -> <-; discriminate FK|].
      apply bind_ok in B as ([[r1 v1] c1] & B & C). unfold members in I.
      destruct (s_full (sch h t)); [|contradiction].
      apply bind_ok in B as ([[[r2 v2] c2] na] & B & D).
      assert (X : exists m1, r1 = PModel m1 /\ grows m1 m).
      { destruct r1; try discriminate C. apply cleanup_grows in C as (m2 & Y & G2). injection Y as <-. eauto. }
      destruct X as (m1 & -> & G1).
      assert (Y : exists m2, r2 = PModel m2).
      { destruct (falsy r2); [injection D as -> <- <-; eauto|]. eapply apply_rest_to_model; eauto. }
      destruct Y as (m2 & ->).
      assert (G2 : grows m2 m1 /\ (falsy (PModel m2) = false -> forall a, In a na -> has_all (s_required (sch h a)) m1)).
      { destruct (falsy (PModel m2)) eqn:FM.
        - injection D as -> <- <-. split; [apply grows_refl|discriminate].
        - apply apply_rest_model in D as (m3 & Y & G3 & R3). injection Y as <-. auto. }
      destruct G2 as [G2 R2].
      apply start_keeps in A as (A1 & A2 & A3); [|exact N].
      destruct (falsy r0) eqn:F0.
      + apply all_of_members in B as (_ & R); auto. destruct (R a a' I TA KA) as [R1|[R1 F1]].
        * eapply has_all_grows; [exact R1|]. eapply grows_trans; eauto.
        * eapply has_all_grows; [apply R2; eauto|exact G1].
      + destruct (all_of_to_model _ _ _ _ _ _ _ _ _ _ B F0) as (m0 & ->).
        apply all_of_model in B as (m3 & Y & G3 & -> & R3); [|exact F0]. injection Y as <-.
        destruct (R3 a I) as (b & TB & R4). assert (a' = b) as -> by (eapply target_det; eauto).
        eapply has_all_grows; [exact R4|]. eapply grows_trans; eauto.
  Qed.

  (** ** The values of a composed object *)
  Lemma apply_dict_get n o m d c r v' c' : NoDup (map fst d) -> NoDup (map fst (s_props (sch h o))) ->
    disc_of (sch h o) = None -> model_apply (produce n) o m (VDict d) c = Ok (r, v', c') ->
    exists m', r = PModel m' /\ v' = VDict (rest_of (sch h o) d) /\ c' = ctx_given h o d c /\
      forall k, match sget k (s_props (sch h o)), sget k d with
                | Some p, Some v => exists x, conv n p v x /\ sget k m' = Some x
                | Some p, None => if negb (smem k m) && s_default_set (sch h p)
                                  then exists x, conv n p (s_default (sch h p)) x /\ sget k m' = Some x
                                  else sget k m' = sget k m
                | None, _ => sget k m' = sget k m
                end.
  Proof.
    intros ND NP DC E. assert (F : s_full (sch h o) = true).
    { unfold M_Prim.model_apply in E. destruct (s_full _); [reflexivity|discriminate]. }
    apply model_apply_dict in E; [|exact F]. destruct E as (m1 & c1 & m2 & A & B & R & X & _).
    rewrite DC in X. injection X as -> -> ->. apply model_given_get in A as (-> & _ & GV); [|exact ND].
    pose proof (model_defaults_get _ _ _ _ _ _ _ _ n _ _ _ NP B) as DF. exists m2. split; [reflexivity|].
    split; [reflexivity|]. split; [reflexivity|]. intro k. specialize (GV k). specialize (DF k).
    destruct (sget k (s_props (sch h o))) as [p|].
    - destruct (sget k d) as [w|].
      + destruct GV as (x & C & GX). rewrite smem_sget, GX in DF. cbn [negb andb] in DF. rewrite DF. eauto.
      + rewrite smem_sget, GV in DF. rewrite smem_sget. destruct (sget k m); exact DF.
    - now rewrite DF, GV.
  Qed.
  Definition ex_of (c : ctx) : option nat :=
    match c_addps c with Some o => match s_addp (sch h o) with ASchema a => Some a | _ => None end | None => None end.
  Definition step_ex (acc : option nat) (s : schema) : option nat := match s_addp s with ASchema a => Some a | _ => acc end.
  Lemma ctx_given_extra o d c k : sget k d <> None -> sget k (s_props (sch h o)) = None ->
    c_addp (ctx_given h o d c) = c_addp c || is_true_addp (s_addp (sch h o)) /\
    ex_of (ctx_given h o d c) = step_ex (ex_of c) (sch h o).
  Proof.
    intros D P. assert (X : has_extra (sch h o) d = true).
    { rewrite has_extra_rest. pose proof (rest_get (sch h o) d k) as G. rewrite smem_sget, P in G.
      destruct (rest_of (sch h o) d); [|reflexivity]. now rewrite <- G in D. }
    unfold ctx_given, ex_of, step_ex. cbn [c_addp c_addps]. rewrite X. cbn [andb]. split; [reflexivity|].
    destruct (s_addp (sch h o)) eqn:EA; cbn [is_schema_addp]; [reflexivity|reflexivity|]. now rewrite EA.
  Qed.
  Definition plain (a : nat) : Prop := NoDup (map fst (s_props (sch h a))) /\ disc_of (sch h a) = None.

  Lemma all_of_values n : forall l l', Forall2 (target h) l l' -> Forall plain l' ->
    forall m d c na m' v' c' na',
    all_of (produce n) l (PModel m) (VDict d) c na = Ok (PModel m', v', c', na') ->
    falsy (PModel m) = false -> NoDup (map fst d) ->
    let ss := map (sch h) l' in
    exists d', v' = VDict d' /\ NoDup (map fst d') /\
      (forall k, sget k d' = match first_decl ss k with Some _ => None | None => sget k d end) /\
      (forall k, match sget k d, first_decl ss k with
                 | Some v, Some p => exists x, conv n p v x /\ sget k m' = Some x
                 | Some v, None => sget k m' = sget k m
                 | None, _ => match first_default h ss k with
                              | Some p => if smem k m then sget k m' = sget k m
                                          else exists x, conv n p (s_default (sch h p)) x /\ sget k m' = Some x
                              | None => sget k m' = sget k m
                              end
                 end) /\
      (forall k, sget k d <> None -> first_decl ss k = None ->
         c_addp c' = c_addp c || existsb (fun s => is_true_addp (s_addp s)) ss /\
         ex_of c' = fold_left step_ex ss (ex_of c)).
  Proof.
    intros l l' F2. induction F2 as [|a a' l l' TA F2 IH]; intros PL m d c na m' v' c' na' E F ND ss.
    - cbn [M_Prim.all_of] in E. injection E as <- <- <- <-. exists d. split; [reflexivity|]. split; [exact ND|].
      split; [reflexivity|]. split.
      + intro k. cbn [map first_decl first_default ss]. destruct (sget k d); reflexivity.
      + intros k _ _. cbn. now rewrite Bool.orb_false_r.
    - inversion PL as [|? ? [NP DC] PL']; subst. cbn [M_Prim.all_of] in E.
      apply bind_ok in E as (a2 & D & E). apply deref_target in D.
      assert (a2 = a') as -> by (eapply target_det; eauto). apply bind_ok in E as ([[r1 v1] c1] & A & E).
      rewrite F, apply_more_model in A. pose proof (apply_grows _ _ _ _ _ _ _ _ A) as (m0 & X & G & _ & _).
      apply apply_dict_get in A as (m1 & -> & -> & -> & GV); [|exact ND|exact NP|exact DC]. injection X as <-.
      assert (F1 : falsy (PModel m1) = false) by (eapply grows_truthy; eauto). rewrite F1 in E.
      apply (IH PL') in E as (d' & -> & ND' & RD & VV & CX); [|exact F1|now apply rest_nodup].
      exists d'. split; [reflexivity|]. split; [exact ND'|].
      assert (RG : forall k, sget k (rest_of (sch h a') d) = match sget k (s_props (sch h a')) with Some _ => None | None => sget k d end).
      { intro k. rewrite rest_get, smem_sget. now destruct (sget k (s_props (sch h a'))). }
      subst ss. cbn [map first_decl first_default]. split; [|split].
      + intro k. rewrite RD, RG. destruct (sget k (s_props (sch h a'))); [|reflexivity].
        now destruct (first_decl (map (sch h) l') k).
      + intro k. specialize (VV k). specialize (GV k). rewrite RG in VV.
        destruct (sget k (s_props (sch h a'))) as [p|].
        * destruct (sget k d) as [w|].
          -- destruct GV as (x & C & GX). rewrite smem_sget, GX in VV.
             destruct (first_default h (map (sch h) l') k); rewrite VV; eauto.
          -- destruct (smem k m) eqn:SM; cbn [negb andb] in GV.
             ++ rewrite smem_sget, GV in VV. rewrite smem_sget in SM. destruct (sget k m) eqn:EM; [|discriminate SM].
                destruct (s_default_set (sch h p)); destruct (first_default h (map (sch h) l') k); auto.
             ++ destruct (s_default_set (sch h p)).
                ** destruct GV as (x & C & GX). rewrite smem_sget, GX in VV.
                   destruct (first_default h (map (sch h) l') k); rewrite VV; eauto.
                ** rewrite smem_sget, GV in VV. rewrite smem_sget in SM. destruct (sget k m); [discriminate SM|].
                   exact VV.
        * destruct (sget k d) as [w|].
          -- destruct (first_decl (map (sch h) l') k); [exact VV|congruence].
          -- rewrite smem_sget, GV in VV. rewrite smem_sget. exact VV.
      + intros k DK FD. destruct (sget k (s_props (sch h a'))) eqn:EP; [discriminate FD|].
        destruct (ctx_given_extra a' d c k DK EP) as [X1 X2].
        destruct (CX k) as [Y1 Y2]; [rewrite RG, EP; exact DK|exact FD|].
        rewrite Y1, Y2, X1, X2. cbn [existsb fold_left]. now rewrite Bool.orb_assoc.
  Qed.

  Lemma cleanup_values n m d c r c' : NoDup (map fst d) -> cleanup (produce n) m (VDict d) c = Ok (r, c') ->
    exists m', r = PModel m' /\
      forall k, match sget k d with
                | None => sget k m' = sget k m
                | Some v => if c_addp c then sget k m' = Some (PRaw v)
                            else match ex_of c with
                                 | Some a => exists x, conv n a v x /\ sget k m' = Some x
                                 | None => sget k m' = sget k m
                                 end
                end.
  Proof.
    intros ND. unfold M_Prim.cleanup, ex_of. destruct (c_addp c).
    - intro E. injection E as <- <-. eexists. split; [reflexivity|]. intro k. rewrite put_raw_get; [|exact ND].
      now destruct (sget k d).
    - destruct (c_addps c) as [o|].
      + destruct (s_addp (sch h o)); try discriminate. intro E. apply bind_ok in E as (m' & P & E). injection E as <- <-.
        exists m'. split; [reflexivity|]. intro k.
        pose proof (put_conv_get _ _ _ _ _ _ _ _ n _ _ _ _ ND P k) as G. destruct (sget k d); exact G.
      + intro E. injection E as <- <-. exists m. split; [reflexivity|]. intro k. now destruct (sget k d).
  Qed.
  Lemma composed_values n o t v d l' rd r c' : target h o t -> object_kind (sch h t) ->
    Forall2 (target h) (members (sch h t)) l' -> Forall plain (t :: l') -> effective h o v = VDict d ->
    NoDup (map fst d) ->
    (exists k p, sget k (s_props (sch h t)) = Some p /\ (smem k d = true \/ s_default_set (sch h p) = true)) ->
    produce (S n) o v (new_ctx rd) = Ok (r, c') ->
    exists m, r = PModel m /\ forall k, composed (conv n) h (map (sch h) (t :: l')) d k (sget k m).
  Proof.
    intros T K F2 PL EV ND (k0 & p0 & P0 & D0) E.
    inversion PL as [|? ? [NP DC] PL']; subst.
    rewrite (produce_some _ _ _ _ _ _ _ _ n o t v (new_ctx rd) T) in E; [|now rewrite EV|intros []].
    rewrite EV in E.
    destruct (start_object int_of float_of str_of date_at datetime_at uuid_of email_ok h (produce n) t (VDict d) (ctx1 h t (new_ctx rd)) K) as (f & S0 & FC).
    unfold ctx1 in S0. rewrite S0 in E. clear S0. apply bind_ok in E as ([[r0 v0] c0] & S1 & E).
    apply bind_ok in S1 as ([[r1 v1] c1] & S1 & E1). cbn [fst snd] in E1. injection E1 as <- <- <-.
    apply apply_dict_get in S1 as (m1 & -> & -> & -> & GV); [|exact ND|exact NP|exact DC].
    set (c1 := ctx_given _ _ _ _) in E.
    assert (F1 : falsy (PModel m1) = false).
    { specialize (GV k0). rewrite P0 in GV. rewrite smem_sget in D0. destruct (sget k0 d).
      - destruct GV as (x & _ & GX). destruct m1; [discriminate GX|reflexivity].
      - destruct D0 as [D0|D0]; [discriminate D0|]. rewrite D0 in GV. cbn [smem dmem dget negb andb] in GV.
        destruct GV as (x & _ & GX). destruct m1; [discriminate GX|reflexivity]. }
    unfold M_Prim.finish in E. cbn [final_kind] in E. unfold members in F2. rewrite (proj1 K) in F2, E.
    apply bind_ok in E as ([[r2 v2] c2] & B & C). apply bind_ok in B as ([[[r3 v3] c3] na] & B & D).
    pose proof (all_of_model _ _ _ _ _ _ _ _ _ _ B F1) as (m3 & -> & G3 & -> & _).
    rewrite (grows_truthy _ _ F1 G3) in D. cbn [M_Prim.apply_rest] in D. injection D as <- <- <-.
    apply (all_of_values n _ _ F2 PL') in B as (d' & -> & ND' & RD & VV & CX); [|exact F1|now apply rest_nodup].
    apply cleanup_values in C as (m & -> & CV); [|exact ND']. exists m. split; [reflexivity|]. intro k.
    assert (RG : forall k, sget k (rest_of (sch h t) d) = match sget k (s_props (sch h t)) with Some _ => None | None => sget k d end).
    { intro k'. rewrite rest_get, smem_sget. now destruct (sget k' (s_props (sch h t))). }
    specialize (GV k). specialize (VV k). specialize (CV k). specialize (CX k). rewrite RD in CV. rewrite RG in *.
    set (ss := map (sch h) l') in *. unfold composed. cbn [map first_decl first_default]. fold ss.
    destruct (sget k (s_props (sch h t))) as [p|] eqn:EP.
    - assert (CV' : sget k m = sget k m3) by (destruct (first_decl ss k); exact CV). rewrite CV'.
      destruct (sget k d) as [w|].
      + destruct GV as (x & CX1 & GX). rewrite smem_sget, GX in VV.
        destruct (first_default h ss k); rewrite VV; eauto.
      + cbn [smem dmem dget negb andb] in GV. destruct (s_default_set (sch h p)).
        * destruct GV as (x & CX1 & GX). rewrite smem_sget, GX in VV. destruct (first_default h ss k); rewrite VV; eauto.
        * rewrite smem_sget, GV in VV. exact VV.
    - rewrite smem_sget, GV in VV. destruct (sget k d) as [w|] eqn:ED.
      + destruct (first_decl ss k) eqn:FD; [now rewrite CV|].
        destruct (CX ltac:(discriminate) eq_refl) as [X1 X2].
        destruct (FC c1) as [Z1 Z2].
        destruct (ctx_given_extra t d (ctx1 h t (new_ctx rd)) k) as [Y1 Y2]; [now rewrite ED|exact EP|].
        assert (EX : ex_of (f c1) = ex_of c1) by (unfold ex_of; now rewrite Z2).
        rewrite X1, X2, Z1, EX in CV. change c1 with (ctx_given h t d (ctx1 h t (new_ctx rd))) in CV. rewrite Y1, Y2 in CV.
        change (c_addp (ctx1 h t (new_ctx rd))) with false in CV. change (ex_of (ctx1 h t (new_ctx rd))) with (@None nat) in CV.
        cbn [orb] in CV.
        assert (AE : is_true_addp (s_addp (sch h t)) || existsb (fun s => is_true_addp (s_addp s)) ss = true <-> any_extra (sch h t :: ss)).
        { change (is_true_addp (s_addp (sch h t)) || existsb (fun s => is_true_addp (s_addp s)) ss) with
            (existsb (fun s => is_true_addp (s_addp s)) (sch h t :: ss)). rewrite existsb_exists. unfold any_extra.
          split; intros (s0 & I & J); exists s0; (split; [exact I|]).
          - destruct (s_addp s0) as [|[]|]; try discriminate J. reflexivity.
          - now rewrite J. }
        destruct (is_true_addp (s_addp (sch h t)) || existsb (fun s => is_true_addp (s_addp s)) ss).
        * split; [intros _; exact CV|]. intro X. now destruct X; apply AE.
        * split; [intro X; apply AE in X; discriminate X|]. intros _. unfold extra_schema. cbn [fold_left].
          change (fun acc s => match s_addp s with ASchema a => Some a | _ => acc end) with step_ex.
          change (match s_addp (sch h t) with ASchema a => Some a | _ => None end) with (step_ex None (sch h t)).
          destruct (fold_left step_ex ss (step_ex None (sch h t))); [exact CV|]. now rewrite CV, VV.
      + destruct (first_decl ss k); rewrite CV; cbn [smem dmem dget] in VV; exact VV.
  Qed.
End All.
