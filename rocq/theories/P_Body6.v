(** Proofs about what becomes of values by schemas (C67): schemas composed by allOf. *)
From Coq Require Import QArith Lia.
From Verif Require Import PyBase PyFacts PyJson P_Op M_Graph S_Graph M_Quote M_Time M_Prim S_Prim S_PrimKinds P_Prim P_PrimLeaf P_PrimObj P_PrimMono T_PrimLeaf T_PrimObj T_PrimText T_PrimKinds.
From Verif Require M_SpecVal S_Parse S_SpecTree S_Merge S_MergeRef S_Patch S_Cycles S_Compose S_Prepare P_Cycles.
From Verif Require Import S_Declared M_Declared P_Declared P_Declared2 P_Declared3 S_Body P_Body P_Body2.
Close Scope Q_scope.
Open Scope nat_scope.

Lemma Forall2_split {A B C} (P : A -> C -> Prop) (Q : B -> C -> Prop) (R : A -> B -> Prop) l m :
  Forall2 R l m -> (forall a b, R a b -> exists c, P a c /\ Q b c) -> exists n, Forall2 P l n /\ Forall2 Q m n.
Proof. induction 1 as [|a b l m X F IH]; intro H; [exists []; split; constructor|]. destruct (IH H) as (n & N1 & N2). destruct (H _ _ X) as (c & C1 & C2). exists (c :: n). split; constructor; auto. Qed.
Lemma Forall2_in {A B} (Q : A -> B -> Prop) l l' x : Forall2 Q l l' -> In x l -> exists y, In y l' /\ Q x y.
Proof. induction 1 as [|a b l m X F IH]; intro I; [destruct I|]. destruct I as [<-|I]; [exists b; split; [now left|exact X]|]. destruct (IH I) as (y & Y & Z). exists y. split; [now right|exact Z]. Qed.

Section Composed.
  Context (abs_uri win_uri : str -> str) (u : str) (root : val).
  Notation stands := (S_Compose.stands abs_uri win_uri u root).
  Context (int_of : str -> res Z) (float_of : str -> res Q) (str_of : value -> str)
    (date_at : Q -> res (Z * Z * Z)) (datetime_at : Q -> res datetime) (uuid_of : str -> option Z) (email_ok : str -> bool).
  Notation takes := (takes abs_uri win_uri u root int_of float_of str_of date_at datetime_at uuid_of email_ok).
  Notation joined := (joined abs_uri win_uri u root int_of float_of str_of date_at datetime_at uuid_of email_ok).
  Notation simple := (simple abs_uri win_uri u root).
  Context (h : list schema).
  Notation produce := (produce int_of float_of str_of date_at datetime_at uuid_of email_ok h).
  Notation conv := (conv int_of float_of str_of date_at datetime_at uuid_of email_ok h).
  Context (is_at : nat -> val -> Prop).
  Notation full := (full abs_uri win_uri u root is_at).
  Hypothesis AT : forall j x, is_at j x -> full x (sch h j).
  Notation members_at := (Forall2 (fun s j => is_at j s)).

  Lemma members_are e t l : is_at t e -> field_of e (lit "allOf") = Some (M_SpecVal.VList l) -> members_at l (members (sch h t)).
  Proof. intros A F. unfold members. rewrite (fu_full _ _ _ _ _ _ _ (AT _ _ A)). exact (fu_parts _ _ _ _ _ _ _ (AT _ _ A) l F). Qed.
  Lemma made_not_null n j x c m c' : produce n j x c = Ok (PModel m, c') -> effective h j x <> VNull.
  Proof. intros E N. destruct n as [|n]; [discriminate E|]. cbn [M_Prim.produce] in E. unfold produce_step in E. destruct x; try discriminate N. cbn [is_null effective] in *. rewrite N in E. cbn [is_null] in E. discriminate E. Qed.
  (** What the schema and its parts require is there. *)
  Lemma composed_required n i v x c m c' e : is_at i v -> produce n i x c = Ok (PModel m, c') -> stands v e ->
    (object_decl e -> forall k, S_Compose.requires e k -> sget k m <> None) /\
    (forall l a a', field_of e (lit "allOf") = Some (M_SpecVal.VList l) -> In a l -> stands a a' -> object_decl a' -> forall k, S_Compose.requires a' k -> sget k m <> None).
  Proof.
    intros A E SE. destruct (stands_target _ _ _ _ h is_at AT v e SE i A) as (t & T & AE).
    destruct (c31_required int_of float_of str_of date_at datetime_at uuid_of email_ok h n i t x c m c' T (made_not_null _ _ _ _ _ _ E) E) as (R1 & R2).
    assert (SM : forall k, smem k m = true -> sget k m <> None) by (intros k; rewrite smem_sget; destruct (sget k m); [discriminate|discriminate 1]).
    split.
    - intros O k R. apply SM, R1; [now apply (object_is _ _ _ _ is_at e _ (AT _ _ AE))|]. now apply (fu_required _ _ _ _ _ _ _ (AT _ _ AE)).
    - intros l a a' F I SA O k R. destruct (Forall2_in _ _ _ _ (members_are e t l AE F) I) as (j & J & AJ). destruct (stands_target _ _ _ _ h is_at AT a a' SA j AJ) as (t' & T' & AA).
      apply SM, (R2 j t' J T'); [now apply (object_is _ _ _ _ is_at a' _ (AT _ _ AA))|]. now apply (fu_required _ _ _ _ _ _ _ (AT _ _ AA)).
  Qed.

  (** ** The lookups of S_Prim.v and S_Body.v *)
  Lemma declared_is k ss ts : Forall2 (fun s t => is_at t s) ss ts ->
    (forall p, declared_by k ss p -> exists j, first_decl (map (sch h) ts) k = Some j /\ is_at j p) /\
    ((forall p, ~ declared_by k ss p) -> first_decl (map (sch h) ts) k = None).
  Proof.
    induction 1 as [|s t ss ts A F (I1 & I2)]; [split; [intros p H; inversion H|reflexivity]|]. pose proof (AT _ _ A) as FU. cbn [map first_decl]. split.
    - intros p H. inversion H as [? ? ? HP|? ? ? NP D]; subst.
      + destruct (prop_at _ _ _ _ _ _ _ _ _ FU HP) as (j & -> & AJ). eauto.
      + rewrite (proj2 (no_prop _ _ _ _ _ _ _ k FU) NP). exact (I1 p D).
    - intro N. assert (NP : forall q, ~ S_Compose.has_property s k q) by (intros q Q; apply (N q); now constructor). rewrite (proj2 (no_prop _ _ _ _ _ _ _ k FU) NP). apply I2. intros p D. apply (N p). now apply db_later.
  Qed.
  Lemma default_is k ss ts : Forall2 (fun s t => is_at t s) ss ts ->
    (forall p, default_by k ss p -> exists j, first_default h (map (sch h) ts) k = Some j /\ is_at j p) /\
    ((forall p, ~ default_by k ss p) -> first_default h (map (sch h) ts) k = None).
  Proof.
    induction 1 as [|s t ss ts A F (I1 & I2)]; [split; [intros p H; inversion H|reflexivity]|]. pose proof (AT _ _ A) as FU. cbn [map first_default]. split.
    - intros p H. inversion H as [? ? ? HP SY|? ? ? NP D]; subst.
      + destruct (prop_at _ _ _ _ _ _ _ _ _ FU HP) as (j & -> & AJ). rewrite (proj2 (fu_set _ _ _ _ _ _ _ (AT _ _ AJ)) SY). eauto.
      + destruct (sget k (s_props (sch h t))) as [j|] eqn:G; [|exact (I1 p D)]. destruct (at_prop _ _ _ _ _ _ _ _ _ FU G) as (q & HQ & AJ). destruct (s_default_set (sch h j)) eqn:DS; [|exact (I1 p D)]. destruct (NP q HQ). now apply (fu_set _ _ _ _ _ _ _ (AT _ _ AJ)).
    - intro N. destruct (sget k (s_props (sch h t))) as [j|] eqn:G.
      + destruct (at_prop _ _ _ _ _ _ _ _ _ FU G) as (q & HQ & AJ). destruct (s_default_set (sch h j)) eqn:DS; [destruct (N q); apply df_here; [exact HQ|now apply (fu_set _ _ _ _ _ _ _ (AT _ _ AJ))]|]. apply I2. intros p D. apply (N p). apply df_later; [|exact D].
        intros q' HQ' SY. assert (q' = q) as -> by (destruct HQ as (d & D1 & D2), HQ' as (d' & D1' & D2'); congruence). apply (fu_set _ _ _ _ _ _ _ (AT _ _ AJ)) in SY. congruence.
      + apply I2. intros p D. apply (N p). apply df_later; [|exact D]. intros q HQ. destruct (proj1 (no_prop _ _ _ _ _ _ _ k FU) G q HQ).
  Qed.
  Lemma addp_any x s : full x s -> s_addp s = ABool true <-> anything x.
  Proof.
    intro F. pose proof (fu_addp _ _ _ _ _ _ _ F) as X. split; [intro E; now rewrite E in X|]. intro A. destruct (s_addp s) as [|[]|j]; [destruct X as (N & _); now destruct N|reflexivity|destruct X as (N & _); now destruct N|].
    destruct X as (a & (M & O) & _). unfold anything in A. rewrite A in M. injection M as <-. destruct O.
  Qed.
  Lemma addp_more x s a : full x s -> more x a -> exists j, s_addp s = ASchema j /\ is_at j a.
  Proof.
    intros F M. pose proof (fu_addp _ _ _ _ _ _ _ F) as X. destruct (s_addp s) as [|[]|j]; [destruct X as (_ & N); destruct (N a M)| |destruct X as (_ & N); destruct (N a M)|].
    - destruct M as (M & O). unfold anything in X. rewrite X in M. injection M as <-. destruct O.
    - destruct X as (b & (B & _) & AJ). destruct M as (M & _). assert (b = a) as -> by congruence. eauto.
  Qed.
  Lemma extra_none (l : list schema) acc : (forall s, In s l -> forall j, s_addp s <> ASchema j) -> fold_left (fun acc s => match s_addp s with ASchema a => Some a | _ => acc end) l acc = acc.
  Proof. revert acc. induction l as [|s l IH]; intros acc N; [reflexivity|]. cbn [fold_left]. destruct (s_addp s) as [| |j] eqn:E; [apply IH; intros t I; apply N; now right|apply IH; intros t I; apply N; now right|]. destruct (N s (or_introl eq_refl) j E). Qed.
  Lemma extra_is ss ts a : Forall2 (fun s t => is_at t s) ss ts -> more_by ss a -> forall acc, exists j, fold_left (fun acc s => match s_addp s with ASchema a => Some a | _ => acc end) (map (sch h) ts) acc = Some j /\ is_at j a.
  Proof.
    intros F M. revert ts F. induction M as [s ss a M N|s ss a M IH]; intros ts F acc; inversion F as [|? t ? ts' A F']; subst; cbn [map fold_left]; pose proof (AT _ _ A) as FU.
    - destruct (addp_more _ _ _ FU M) as (j & -> & AJ). rewrite extra_none; [eauto|]. intros s' I k E. apply in_map_iff in I as (t' & <- & I). clear - F' I E N AT.
      assert (X : exists y, In y ss /\ is_at t' y). { revert I. induction F' as [|y t'' ss ts' A F' IH]; intro I; [destruct I|]. destruct I as [<-|I]; [exists y; split; [now left|exact A]|]. destruct IH as (z & Z & Y); [intros t b I'; apply N; now right|exact I|]. exists z. split; [now right|exact Y]. }
      destruct X as (y & IY & AY). pose proof (fu_addp _ _ _ _ _ _ _ (AT _ _ AY)) as X. rewrite E in X. destruct X as (b & B & _). exact (N y b IY B).
    - apply IH. exact F'.
  Qed.
  Lemma part_is ss ts t : Forall2 (fun s t => is_at t s) ss ts -> In t ts -> exists s, In s ss /\ is_at t s.
  Proof. induction 1 as [|s t' ss ts A F IH]; intro I; [destruct I|]. destruct I as [<-|I]; [exists s; split; [now left|exact A]|]. destruct (IH I) as (y & Y & B). exists y. split; [now right|exact B]. Qed.

  (** ** The whole object *)
  Lemma declared_next k ss p : declared_by k ss p -> exists s, In s ss /\ S_Body.next s p.
  Proof. induction 1 as [s ss p HP|s ss p _ _ (t & I & N)]; [exists s; split; [now left|right; left; eauto]|exists t; split; [now right|exact N]]. Qed.
  Lemma default_next k ss p : default_by k ss p -> exists s, In s ss /\ S_Body.next s p.
  Proof. induction 1 as [s ss p HP _|s ss p _ _ (t & I & N)]; [exists s; split; [now left|right; left; eauto]|exists t; split; [now right|exact N]]. Qed.
  Lemma more_next ss p : more_by ss p -> exists s, In s ss /\ S_Body.next s p.
  Proof. induction 1 as [s ss p M _|s ss p _ (t & I & N)]; [exists s; split; [now left|right; right; exact M]|exists t; split; [now right|exact N]]. Qed.
  Lemma composed_joined n i v e l ms d rd r c : is_at i v -> stands v e -> object_decl e -> field_of e (lit "allOf") = Some (M_SpecVal.VList l) -> Forall2 stands l ms ->
    (forall s k, In s (e :: ms) -> ~ text_at s "discriminator" k) -> (forall s p, In s (e :: ms) -> S_Body.next s p -> simple p) ->
    (exists k p, S_Compose.has_property e k p /\ (sget k d <> None \/ S_Prepare.says p (lit "default"))) -> proper (VDict d) ->
    produce n i (VDict d) (new_ctx rd) = Ok (r, c) -> exists m, r = PModel m /\ joined (e :: ms) d m.
  Proof.
    intros A SE O AL FM ND SI (k0 & p0 & HP0 & G0) P E. destruct n as [|n]; [discriminate E|]. destruct (stands_target _ _ _ _ h is_at AT v e SE i A) as (t & T & AE). pose proof (AT _ _ AE) as FE.
    assert (MS : exists ts, Forall2 (target h) (members (sch h t)) ts /\ Forall2 (fun s t => is_at t s) ms ts).
    { pose proof (members_are e t l AE AL) as MA. assert (JM : Forall2 (fun j m => exists t', target h j t' /\ is_at t' m) (members (sch h t)) ms).
      { revert MA FM. generalize (members (sch h t)). clear - AT. intros js MA. revert ms. induction MA as [|a j l js AJ MA IH]; intros ms FM; inversion FM; subst; constructor; [|now apply IH]. eapply stands_target; eauto. }
      destruct (Forall2_split (target h) (fun m t' => is_at t' m) _ _ _ JM) as (ts & T1 & T2); [auto|]. eauto. }
    destruct MS as (ts & TS & AS). assert (ALL : Forall2 (fun s t => is_at t s) (e :: ms) (t :: ts)) by (constructor; assumption).
    assert (PL : Forall (fun a => NoDup (map fst (s_props (sch h a))) /\ s_disc (sch h a) = None) (t :: ts)).
    { apply Forall_forall. intros a I. destruct (part_is _ _ _ ALL I) as (s & IS & AA). pose proof (AT _ _ AA) as FU. split; [exact (props_nodup _ _ _ _ _ _ _ FU)|]. destruct (s_disc (sch h a)) as [k|] eqn:D; [|reflexivity]. destruct (ND s k IS). now apply (fu_disc _ _ _ _ _ _ _ FU). }
    assert (EX : exists k p, sget k (s_props (sch h t)) = Some p /\ (smem k d = true \/ s_default_set (sch h p) = true)).
    { destruct (prop_at _ _ _ _ _ _ _ _ _ FE HP0) as (j & J & AJ). exists k0, j. split; [exact J|]. destruct G0 as [G|G]; [left; rewrite smem_sget; now destruct (sget k0 d)|right; now apply (fu_set _ _ _ _ _ _ _ (AT _ _ AJ))]. }
    destruct (c31_values int_of float_of str_of date_at datetime_at uuid_of email_ok h n i t (VDict d) d ts rd r c T (proj2 (object_is _ _ _ _ is_at e _ FE) O) TS PL eq_refl (proper_nodup _ P) EX E) as (m & -> & C).
    exists m. split; [reflexivity|].
    assert (CS : forall j s x y, is_at j s -> simple s -> proper x -> conv n j x y -> takes true s x y).
    { intros j s x y AJ SS PX (c0 & E0). exact (produce_takes abs_uri win_uri u root int_of float_of str_of date_at datetime_at uuid_of email_ok h is_at AT n j s true x y c0 AJ SS PX E0). }
    constructor; intros k; specialize (C k); unfold composed in C.
    - intros w p G D. rewrite G in C. destruct (proj1 (declared_is k _ _ ALL) p D) as (j & J & AJ). rewrite J in C. destruct C as (y & Y & M). exists y. split; [|exact M]. destruct (declared_next _ _ _ D) as (s & IS & NX). exact (CS j p w y AJ (SI s p IS NX) (proper_get _ _ _ P G) Y).
    - intros p G D. rewrite G in C. destruct (proj1 (default_is k _ _ ALL) p D) as (j & J & AJ). rewrite J in C. destruct C as (y & Y & M). destruct (default_at _ _ _ _ _ _ _ (AT _ _ AJ)) as (x & w & FX & SV & PW & DW). rewrite DW in Y. exists x, w, y. split; [exact FX|]. split; [exact SV|]. split; [|exact M].
      destruct (default_next _ _ _ D) as (s & IS & NX). exact (CS j p w y AJ (SI s p IS NX) PW Y).
    - intros G D. rewrite G, (proj2 (default_is k _ _ ALL) D) in C. exact C.
    - intros w G D (s & IS & AN). rewrite G, (proj2 (declared_is k _ _ ALL) D) in C. apply (proj1 C). destruct (Forall2_in _ _ _ _ ALL IS) as (j & J & AJ). exists (sch h j). split; [now apply in_map|]. now apply (addp_any s _ (AT _ _ AJ)).
    - intros w a G D N MB. rewrite G, (proj2 (declared_is k _ _ ALL) D) in C. destruct (extra_is _ _ _ ALL MB None) as (j & J & AJ). pose proof (proj2 C) as X. unfold extra_schema in X. rewrite J in X. destruct X as (y & Y & M).
      + intros (s & IS & AN). apply in_map_iff in IS as (j' & <- & IJ). destruct (part_is _ _ _ ALL IJ) as (s & IS & AS'). destruct (N s IS). now apply (addp_any s _ (AT _ _ AS')).
      + exists y. split; [|exact M]. destruct (more_next _ _ MB) as (s & IS & NX). exact (CS j a w y AJ (SI s a IS NX) (proper_get _ _ _ P G) Y).
    - intros w G D N. rewrite G, (proj2 (declared_is k _ _ ALL) D) in C. pose proof (proj2 C) as X. unfold extra_schema in X. rewrite extra_none in X.
      + apply X. intros (s & IS & AN). apply in_map_iff in IS as (j' & <- & IJ). destruct (part_is _ _ _ ALL IJ) as (s & IS & AS'). destruct (N s IS) as (NA & _). destruct NA. now apply (addp_any s _ (AT _ _ AS')).
      + intros s IS j EJ. apply in_map_iff in IS as (j' & <- & IJ). destruct (part_is _ _ _ ALL IJ) as (s & IS & AS'). destruct (N s IS) as (_ & NM). pose proof (fu_addp _ _ _ _ _ _ _ (AT _ _ AS')) as Z. rewrite EJ in Z. destruct Z as (a & MA & _). exact (NM a MA).
  Qed.
End Composed.
