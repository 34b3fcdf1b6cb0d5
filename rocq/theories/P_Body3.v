(** Proofs about what becomes of values by schemas (C67): what is right is made. *)
From Coq Require Import QArith Lia.
From Verif Require Import PyBase PyFacts PyJson P_Op M_Graph S_Graph M_Quote M_Time M_Prim S_Prim S_PrimKinds P_Prim P_PrimLeaf P_PrimObj P_PrimMono T_PrimLeaf T_PrimObj T_PrimText T_PrimKinds.
From Verif Require M_SpecVal S_Parse S_SpecTree S_Merge S_MergeRef S_Patch S_Cycles S_Compose S_Prepare P_Cycles.
From Verif Require Import S_Declared M_Declared P_Declared P_Declared2 P_Declared3 S_Body P_Body P_Body2.
Close Scope Q_scope.
Open Scope nat_scope.

Lemma bounded {A} (Q : nat -> A -> Prop) (l : list A) : (forall n m a, n <= m -> Q n a -> Q m a) -> (forall a, In a l -> exists n, Q n a) -> exists N, forall a, In a l -> Q N a.
Proof.
  intros M. induction l as [|a l IH]; intro E; [exists 0; intros a []|]. destruct (E a (or_introl eq_refl)) as (n & X). destruct IH as (m & Y); [intros b I; apply E; now right|].
  exists (max n m). intros b [<-|I]; [apply (M n); [lia|exact X]|apply (M m); [lia|auto]].
Qed.
Lemma Forall2_choice {A B} (Q : A -> B -> Prop) l : (forall a, In a l -> exists b, Q a b) -> exists m, Forall2 Q l m.
Proof. induction l as [|a l IH]; intro E; [eexists; constructor|]. destruct (E a (or_introl eq_refl)) as (b & X). destruct IH as (m & Y); [intros c I; apply E; now right|]. exists (b :: m). now constructor. Qed.
Lemma Forall2_long {A B} (Q : A -> B -> Prop) l m : Forall2 Q l m -> length m = length l.
Proof. induction 1; cbn; congruence. Qed.

Section Takes.
  Context (abs_uri win_uri : str -> str) (u : str) (root : val).
  Notation stands := (S_Compose.stands abs_uri win_uri u root).
  Notation points := (S_Cycles.points abs_uri win_uri u root).
  Context (int_of : str -> res Z) (float_of : str -> res Q) (str_of : value -> str)
    (date_at : Q -> res (Z * Z * Z)) (datetime_at : Q -> res datetime) (uuid_of : str -> option Z) (email_ok : str -> bool).
  Notation becomes := (becomes int_of float_of str_of date_at datetime_at uuid_of email_ok).
  Notation takes := (takes abs_uri win_uri u root int_of float_of str_of date_at datetime_at uuid_of email_ok).
  Notation simple := (simple abs_uri win_uri u root).
  Context (h : list schema).
  Notation produce := (produce int_of float_of str_of date_at datetime_at uuid_of email_ok h).
  Notation conv := (conv int_of float_of str_of date_at datetime_at uuid_of email_ok h).
  Context (is_at : nat -> val -> Prop).
  Notation full := (full abs_uri win_uri u root is_at).
  Hypothesis AT : forall j x, is_at j x -> full x (sch h j).

  Definition makes (rd : bool) (j : nat) (x : value) : Prop := exists n r c, produce n j x (new_ctx rd) = Ok (r, c).
  Definition converts (s : val) (x : value) : Prop := forall j, is_at j s -> simple s -> proper x -> makes true j x.
  Lemma conv_mono n m p v x : n <= m -> conv n p v x -> conv m p v x.
  Proof. intros L (c & E). exists c. exact (produce_mono _ _ _ _ _ _ _ _ n m p v _ L _ E). Qed.
  Lemma converts_conv s x j : converts s x -> is_at j s -> simple s -> proper x -> exists n y, conv n j x y.
  Proof. intros C A S P. destruct (C j A S P) as (n & r & c & E). exists n, r, c. exact E. Qed.

  Lemma complete_array rd s e x i l l' (rs : list prim) : stands s e -> of_type e "array" -> field_of e (lit "items") = Some i -> parts x l ->
    (switched_on e "uniqueItems" /\ firsts [] l l' \/ ~ switched_on e "uniqueItems" /\ l' = l) ->
    length rs = length l' -> (forall y, In y l' -> converts i y) -> sized e "minItems" "maxItems" (length rs) -> forall j, is_at j s -> simple s -> proper x -> makes rd j x.
  Proof.
    intros SE K FI PI U LR CV SZ j A S P. destruct (stands_target _ _ _ _ _ _ AT _ _ SE _ A) as (t & T & AE). pose proof (AT _ _ AE) as F. pose proof (reads_at _ _ _ _ _ _ AT s e j t S SE T AE) as R. pose proof (parts_null _ _ PI) as N.
    destruct (S e (in_itself _ _ _ _ _ _ SE)) as (_ & IT). destruct (IT K) as (i' & FI' & OI). rewrite FI in FI'. injection FI' as <-. destruct (fu_items _ _ _ _ _ _ _ F i FI OI) as (it & SI & AI). assert (SI' : simple i) by (eapply simple_next; eauto; left; auto).
    pose proof (proper_parts _ _ PI P) as PL. rewrite Forall_forall in PL. assert (PL' : forall y, In y l' -> proper y) by (intros y I; apply PL; destruct U as [(_ & U)|(_ & ->)]; [eapply firsts_in; eauto|exact I]).
    destruct (bounded (fun n y => exists r, conv n it y r) l') as (m & M).
    - intros n m a L (r & C). exists r. eapply conv_mono; eauto.
    - intros y I. apply (converts_conv i); auto.
    - destruct (Forall2_choice _ _ M) as (qs & QS). pose proof (Forall2_long _ _ _ QS) as LQ.
      destruct (proj2 (made_array int_of float_of str_of date_at datetime_at uuid_of email_ok h e j t m rd x (PArray (lit "csv") qs) R N it (lit "csv") ltac:(unfold format_of; now rewrite (fu_cf _ _ _ _ _ _ _ F)) K SI)) as (c & E).
      + exists l, l', qs. split; [now apply parts_is|]. split; [exact U|]. split; [exact QS|]. split; [|reflexivity]. now rewrite LQ, <- LR.
      + exists (Datatypes.S m), (PArray (lit "csv") qs), c. exact E.
  Qed.
  Lemma complete_object rd s e d : stands s e -> object_decl e ->
    (forall k p w, S_Compose.has_property e k p -> sget k d = Some w -> (rd = false -> ~ switched_on p "readOnly") /\ converts p w) ->
    (forall k p w x, S_Compose.has_property e k p -> sget k d = None -> S_Prepare.says p (lit "default") -> field_of p (lit "default") = Some w -> same_value w x -> converts p x) ->
    (forall k w a, (forall p, ~ S_Compose.has_property e k p) -> sget k d = Some w -> more e a -> converts a w) ->
    (forall k, S_Compose.requires e k -> exists p, S_Compose.has_property e k p /\ (sget k d <> None \/ S_Prepare.says p (lit "default"))) ->
    forall j, is_at j s -> simple s -> proper (VDict d) -> makes rd j (VDict d).
  Proof.
    intros SE K GV DF MO RQ j A S P. destruct (stands_target _ _ _ _ _ _ AT _ _ SE _ A) as (t & T & AE). pose proof (AT _ _ AE) as F. pose proof (proj2 (object_is _ _ _ _ _ _ _ F) K) as OK. pose proof (simple_members _ _ _ _ _ _ AT _ _ _ S SE AE) as M.
    pose proof (proper_nodup _ P) as ND. pose proof (props_nodup _ _ _ _ _ _ _ F) as NP.
    assert (PS : forall k p, S_Compose.has_property e k p -> simple p) by (intros k p HP; eapply simple_next; eauto; right; left; eauto).
    destruct (bounded (fun n kw => forall i, sget (fst kw) (s_props (sch h t)) = Some i -> exists x, conv n i (snd kw) x) d) as (n1 & N1).
    { intros n m a L X i G. destruct (X i G) as (x & C). exists x. eapply conv_mono; eauto. }
    { intros [k w] I. cbn [fst snd]. destruct (sget k (s_props (sch h t))) as [i|] eqn:G; [|exists 0; discriminate]. destruct (at_prop _ _ _ _ _ _ _ _ _ F G) as (p & HP & AI). assert (GD : sget k d = Some w) by (apply In_sget; auto).
      destruct (GV k p w HP GD) as (_ & C). destruct (converts_conv p w i C AI (PS _ _ HP) (proper_get _ _ _ P GD)) as (n & y & Y). exists n. intros i' E. injection E as <-. eauto. }
    destruct (bounded (fun n ki => sget (fst ki) d = None -> s_default_set (sch h (snd ki)) = true -> exists x, conv n (snd ki) (s_default (sch h (snd ki))) x) (s_props (sch h t))) as (n2 & N2).
    { intros n m a L X G D. destruct (X G D) as (x & C). exists x. eapply conv_mono; eauto. }
    { intros [k i] I. cbn [fst snd]. assert (G : sget k (s_props (sch h t)) = Some i) by (apply In_sget; auto). destruct (at_prop _ _ _ _ _ _ _ _ _ F G) as (p & HP & AI). destruct (sget k d) as [w|] eqn:GD; [exists 0; discriminate|].
      destruct (s_default_set (sch h i)) eqn:DS; [|exists 0; discriminate]. pose proof (AT _ _ AI) as FP. destruct (default_at _ _ _ _ _ _ _ FP) as (w & y & FW & SV & PY & DY). apply (fu_set _ _ _ _ _ _ _ FP) in DS.
      destruct (converts_conv p y i (DF k p w y HP GD DS FW SV) AI (PS _ _ HP) PY) as (n & z & Z). exists n. intros _ _. rewrite DY. eauto. }
    destruct (bounded (fun n kw => forall a, sget (fst kw) (s_props (sch h t)) = None -> s_addp (sch h t) = ASchema a -> exists x, conv n a (snd kw) x) d) as (n3 & N3).
    { intros n m a L X b G E. destruct (X b G E) as (x & C). exists x. eapply conv_mono; eauto. }
    { intros [k w] I. cbn [fst snd]. destruct (sget k (s_props (sch h t))) as [i|] eqn:G; [exists 0; discriminate|]. pose proof (fu_addp _ _ _ _ _ _ _ F) as AD. destruct (s_addp (sch h t)) as [|b|a]; [exists 0; discriminate|exists 0; discriminate|]. destruct AD as (b & MB & AB).
      assert (GD : sget k d = Some w) by (apply In_sget; auto). assert (SB : simple b) by (eapply simple_next; eauto; right; right; exact MB).
      destruct (converts_conv b w a (MO k w b (proj1 (no_prop _ _ _ _ _ _ _ _ F) G) GD MB) AB SB (proper_get _ _ _ P GD)) as (n & y & Y). exists n. intros a' _ E. injection E as <-. eauto. }
    set (N := max n1 (max n2 n3)).
    destruct (c30_accepted int_of float_of str_of date_at datetime_at uuid_of email_ok h N j t (VDict d) d rd T OK M eq_refl ND NP) as (m & c & E).
    - intros k I. apply (fu_required _ _ _ _ _ _ _ F) in I. destruct (RQ k I) as (p & HP & X). destruct (prop_at _ _ _ _ _ _ _ _ _ F HP) as (i & G & AI). exists i. split; [exact G|]. rewrite smem_sget. destruct X as [X|X]; [left; now destruct (sget k d)|right; now apply (fu_set _ _ _ _ _ _ _ (AT _ _ AI))].
    - intros k i G X RO. destruct (at_prop _ _ _ _ _ _ _ _ _ F G) as (p & HP & AI). rewrite smem_sget in X. destruct (sget k d) as [w|] eqn:GD; [|discriminate X]. destruct (GV k p w HP GD) as (Y & _). destruct rd; [reflexivity|]. destruct (Y eq_refl). now apply (fu_readonly _ _ _ _ _ _ _ (AT _ _ AI)).
    - intros _. destruct (fu_name _ _ _ _ _ _ _ F) as (nm & -> & _). discriminate.
    - intros k i w G GD. destruct (N1 (k, w) (sget_In _ _ _ GD) i G) as (x & X). exists x. eapply conv_mono; [|exact X]. unfold N. lia.
    - intros k i G X DS. rewrite smem_sget in X. destruct (N2 (k, i) (sget_In _ _ _ G)) as (x & Y); [cbn [fst]; now destruct (sget k d)|exact DS|]. exists x. eapply conv_mono; [|exact Y]. unfold N. lia.
    - intros k w a G GD EA. destruct (N3 (k, w) (sget_In _ _ _ GD) a G EA) as (x & X). exists x. eapply conv_mono; [|exact X]. unfold N. lia.
    - exists (Datatypes.S N), (PModel m), c. exact E.
  Qed.

  Theorem takes_produce : forall rd s x r, takes rd s x r -> forall j, is_at j s -> simple s -> proper x -> makes rd j x.
  Proof.
    fix IH 5. intros rd s x r [rd0 s0 D|rd0 s0 d x0 r0 D SV NX T|rd0 s0 e x0 r0 NX SE NA B|rd0 s0 e x0 i l l' rs SE K FI PI U G SZ|rd0 s0 e x0 NX SE (UE & NP & NO)|rd0 s0 e d m SE K GV DF _ _ MO _ _ _ RQ].
    - intros j A S P. destruct (default_at _ _ _ _ _ _ _ (AT _ _ A)) as (d & y & D' & SV & PY & DY). rewrite D in D'. injection D' as <-. assert (y = VNull) as -> by now inversion SV. exists 1, PNone, (new_ctx rd0). now apply c60_none.
    - intros j A S P. destruct (default_at _ _ _ _ _ _ _ (AT _ _ A)) as (d' & y & D' & SV' & PY & DY). rewrite D in D'. injection D' as <-. assert (y = x0) as -> by (rewrite (same_value_of _ _ SV); apply (same_value_of _ _ SV')).
      destruct (IH _ _ _ _ T j A S PY) as ([|n] & r1 & c & E); [discriminate E|]. exists (Datatypes.S n), r1, c. rewrite produce_null; [|now rewrite DY]. now rewrite DY.
    - intros j A S P. destruct (stands_target _ _ _ _ _ _ AT _ _ SE _ A) as (t & T & AE). destruct (leaf_back int_of float_of str_of date_at datetime_at uuid_of email_ok h e j t 0 rd0 x0 r0 (reads_at _ _ _ _ _ _ AT s0 e j t S SE T AE) NX NA B) as (c & E). exists 1, r0, c. exact E.
    - apply (complete_array rd0 s0 e x0 i l l' rs SE K FI PI U); [exact (Forall2_long _ _ _ G)| |exact SZ].
      clear - G IH. induction G as [|y p l rs Y G IHG]; intros z [].
      + subst z. exact (IH _ _ _ _ Y).
      + now apply IHG.
    - intros j A S P. destruct (stands_target _ _ _ _ _ _ AT _ _ SE _ A) as (t & T & AE). pose proof (AT _ _ AE) as F.
      destruct (silent_made int_of float_of str_of date_at datetime_at uuid_of email_ok h 0 j t x0 rd0 NX T (simple_members _ _ _ _ _ _ AT _ _ _ S SE AE) (fu_full _ _ _ _ _ _ _ F)) as (c & E); [|  |exists 1, PNone, c; exact E].
      + now apply (untyped_is _ _ (fu_plain _ _ _ _ _ _ _ F) (fu_type _ _ _ _ _ _ _ F)).
      + intro OK. apply (object_is _ _ _ _ _ _ _ F) in OK. destruct OK as [OK|(_ & [(k & p & HP)|X])].
        * apply (mi_type _ _ (fu_plain _ _ _ _ _ _ _ F)) in OK. apply (untyped_is _ _ (fu_plain _ _ _ _ _ _ _ F) (fu_type _ _ _ _ _ _ _ F)) in UE. destruct UE as [UE|UE]; rewrite UE in OK; discriminate OK.
        * exact (NP k p HP).
        * exact (X NO).
    - apply (complete_object rd0 s0 e d SE K).
      + intros k p w HP G. destruct (GV k p w HP G) as (RO & y & Y & _). split; [exact RO|exact (IH _ _ _ _ Y)].
      + intros k p w x0 HP G SY FW SV. destruct (DF k p w x0 HP G SY FW SV) as (y & Y & _). exact (IH _ _ _ _ Y).
      + intros k w a HP G MA. destruct (MO k w a HP G MA) as (y & Y & _). exact (IH _ _ _ _ Y).
      + exact RQ.
  Qed.
End Takes.
