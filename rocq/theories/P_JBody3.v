(** What schemas make of a value is determined. *)
From Coq Require Import QArith Lia.
From Verif Require Import PyBase PyFacts PyJson M_SpecVal S_JsonPtr S_SpecTree S_Merge S_MergeRef S_Cycles P_Cycles S_Prepare S_Compose M_Time S_Declared P_Declared2 S_Body P_Body2 S_JBody P_JBody P_JBody2.
From Verif Require M_Prim S_Prim S_PrimKinds P_PrimObj P_SpecTree P_Grown.
Close Scope Q_scope.
Import M_Prim.

Lemma parts_fun x l : parts x l -> forall l', parts x l' -> l = l'.
Proof.
  intros P l' P'. destruct P as [l|d|s|ps NE CL]; inversion P' as [| | |ps' NE' CL' E]; subst; try reflexivity. f_equal.
  assert (K : forall qs, qs <> [] -> Forall (fun p => ~ In ","%char p) qs -> PyBase.split (lit ",") (join (lit ",") qs) = qs).
  { intros qs N C. destruct (exists_last N) as (a & b & ->). apply Forall_app in C as (C1 & C2). inversion C2 as [|? ? C3 _]; subst. apply split_join; [discriminate| |].
    - eapply Forall_impl; [|exact C1]. intros p H. now apply clean_char.
    - apply clean_not_occurs; [discriminate|]. now apply clean_char. }
  pose proof (K ps NE CL) as A. pose proof (K ps' NE' CL') as B. change (lit ",") with [","%char] in A, B. congruence.
Qed.
Lemma types e a b : of_type e a -> of_type e b -> a = b.
Proof. intros X Y. apply lit_inj. unfold of_type, text_at in *. congruence. Qed.
Lemma typed e a : of_type e a -> a <> ""%string -> ~ untyped e.
Proof. intros X N [Y|Y]; unfold of_type, text_at in *; [congruence|]. apply N. apply lit_inj. change (lit "") with (@nil Ascii.ascii). congruence. Qed.
Lemma formats e a b : of_format e a -> of_format e b -> exists t, In t a /\ In t b.
Proof. intros (x & I & X) (y & K & Y). assert (x = y) as -> by (apply lit_inj; unfold text_at in *; congruence). eauto. Qed.
Lemma formats_in e a b : of_format e a -> incl a b -> of_format e b.
Proof. intros (x & I & X) C. exists x. auto. Qed.

Section Unique.
  Context (abs_uri win_uri : str -> str) (u : str) (root : val).
  Notation stands := (stands abs_uri win_uri u root).
  Context (int_of : str -> res Z) (float_of : str -> res Q) (str_of : value -> str)
    (date_at : Q -> res (Z * Z * Z)) (datetime_at : Q -> res datetime) (uuid_of : str -> option Z) (email_ok : str -> bool).
  Notation becomes := (becomes int_of float_of str_of date_at datetime_at uuid_of email_ok).
  Notation takes := (takes abs_uri win_uri u root int_of float_of str_of date_at datetime_at uuid_of email_ok).

  Lemma stands_fun s e : stands s e -> forall e', stands s e' -> e = e'.
  Proof.
    induction 1 as [s (x & F & E)|s r ts x e (N & F) P S IH]; intros e' S'; inversion S' as [? (x' & F' & E')|? r' ts' x' ? (N' & F') P' S'']; subst; try reflexivity.
    - assert (x = M_SpecVal.VStr r') as -> by congruence. inversion E; subst. now destruct N'.
    - assert (x' = M_SpecVal.VStr r) as -> by congruence. inversion E'; subst. now destruct N.
    - assert (r' = r) as -> by congruence. apply IH. destruct P as (_ & J & A), P' as (_ & J' & A'). assert (E : rfc_pointer (lit "#") ts = rfc_pointer (lit "#") ts') by congruence. apply P_SpecTree.pointer_inj in E; [|discriminate]. subst ts'.
      rewrite <- (P_Grown.reach_fun _ _ _ (proj1 A) _ (proj1 A')). exact S''.
  Qed.

  Inductive kind := KInt | KNum | KText | KMail | KBool | KBytes | KDate | KMoment | KUuid | KFile.
  Definition decl (e : val) (k : kind) : Prop :=
    match k with
    | KInt => integer_decl e | KNum => number_decl e | KText => text_decl e | KMail => of_type e "string" /\ of_format e ["email"]%string
    | KBool => of_type e "boolean" | KBytes => of_type e "string" /\ of_format e ["byte"; "binary"]%string | KDate => of_type e "string" /\ of_format e ["date"]%string
    | KMoment => of_type e "string" /\ of_format e ["date-time"]%string | KUuid => of_type e "string" /\ of_format e ["uuid"]%string | KFile => of_type e "file"
    end.
  Ltac clash :=
    match goal with
    | A : of_type ?e _, B : of_type ?e _ |- _ => let X := fresh in pose proof (types e _ _ A B) as X; discriminate X
    | A : of_format ?e _, B : of_format ?e _ |- _ => exfalso; let t := fresh in let P := fresh in let Q := fresh in destruct (formats e _ _ A B) as (t & P & Q); cbn in P, Q; repeat destruct P as [P|P]; repeat destruct Q as [Q|Q]; try contradiction; subst; discriminate
    | A : of_format ?e _, B : ~ of_format ?e _ |- _ => exfalso; apply B; eapply formats_in; [exact A|]; let t := fresh in let P := fresh in intros t P; cbn in P |- *; intuition
    end.
  Lemma decl_fun e k k' : decl e k -> decl e k' -> k = k'.
  Proof.
    unfold decl, integer_decl, number_decl, text_decl. destruct k, k'; intros A B; try reflexivity;
      repeat match goal with H : _ \/ _ |- _ => destruct H | H : _ /\ _ |- _ => destruct H end; clash.
  Qed.
  Lemma decl_type e k : decl e k -> exists t, of_type e t /\ In t ["integer"; "number"; "string"; "boolean"; "file"]%string.
  Proof. destruct k; cbn; unfold integer_decl, number_decl, text_decl; intro A; repeat match goal with H : _ \/ _ |- _ => destruct H | H : _ /\ _ |- _ => destruct H end; eexists; (split; [eassumption|cbn; auto 10]). Qed.
  Definition makes (k : kind) (x : value) (r : prim) : Prop :=
    match k with
    | KInt => exists z, whole int_of x z /\ r = PInt z | KNum => exists q, fraction float_of x q /\ r = PFloat q
    | KText | KMail => exists s, S_Declared.text str_of x s /\ r = PStr s | KBool => exists b, (b = false <-> S_PrimKinds.empty_value x) /\ r = PBool b
    | KBytes => exists s, bytes x s /\ r = PByte s | KDate => date date_at x r | KMoment => exists d, moment datetime_at x d /\ r = PDatetime d | KUuid => exists z, uuid uuid_of x z /\ r = PUuid z
    | KFile => exists d, x = VDict d /\ r = PFile (S_PrimKinds.entry "header" d (VDict [])) (S_PrimKinds.entry "data" d VNull) (S_PrimKinds.entry "filename" d (VStr []))
    end.
  Lemma becomes_kind e x r : becomes e x r -> x <> VNull -> ~ of_type e "array" -> exists k, decl e k /\ makes k x r.
  Proof.
    intros B N NA. destruct B; try (now destruct N); try contradiction; [exists KInt|exists KNum|exists KText|exists KMail|exists KBool|exists KBytes|exists KDate|exists KMoment|exists KUuid|exists KFile]; cbn; eauto 6.
  Qed.
  Lemma makes_fun k x r r' : makes k x r -> makes k x r' -> r = r'.
  Proof.
    destruct k; cbn.
    - intros (z & W & ->) (z' & W' & ->). apply whole_iff in W, W'. congruence.
    - intros (z & W & ->) (z' & W' & ->). apply fraction_iff in W, W'. congruence.
    - intros (z & W & ->) (z' & W' & ->). apply text_iff' in W, W'. congruence.
    - intros (z & W & ->) (z' & W' & ->). apply text_iff' in W, W'. congruence.
    - intros (b & W & ->) (b' & W' & ->). f_equal. destruct b, b'; try reflexivity; [apply W; now apply W'|symmetry; apply W'; now apply W].
    - intros (z & W & ->) (z' & W' & ->). destruct W; inversion W'; subst; congruence.
    - intros W W'. destruct W; inversion W'; subst; congruence.
    - intros (z & W & ->) (z' & W' & ->). destruct W; inversion W'; subst; congruence.
    - intros (z & W & ->) (z' & W' & ->). destruct W; inversion W'; subst; congruence.
    - intros (d & -> & ->) (d' & E & ->). injection E as <-. reflexivity.
  Qed.

  Context (ok : val -> Prop).
  Hypothesis OKS : forall s e, ok s -> stands s e -> ok e.
  Hypothesis OKI : forall e i x c, ok e -> field_of e (lit "items") = Some i -> takes true i x c -> ok i.
  Hypothesis OKP : forall e k p, ok e -> has_property e k p -> ok p.
  Hypothesis OKM : forall e a, ok e -> more e a -> ok a.
  Hypothesis OKD : forall s, ok s -> exists w x, field_of s (lit "default") = Some w /\ same_value w x.
  Hypothesis OKN : forall s, ok s -> exists y, named s y.

  Lemma additional e : anything e \/ (exists a, more e a) \/ nothing e.
  Proof.
    unfold nothing, anything, more. destruct (field_of e (lit "additionalProperties")) as [v|]; [|right; right; split; [discriminate|intros a (E & _); discriminate E]].
    destruct v as [|b| | | | | |h fs ints]; try (right; right; split; [discriminate|intros a (E & O); injection E as <-; exact O]).
    - destruct b; [now left|right; right]. split; [discriminate|]. intros a (E & O); injection E as <-; exact O.
    - right. left. eexists. split; [reflexivity|]. exact Logic.I.
  Qed.
  Definition alone (r : prim) : Prop := forall rd rd' s x r', ok s -> takes rd s x r -> takes rd' s x r' -> same_prim r r'.
  Lemma step r : match r with PArray _ l => Forall alone l | PModel m => Forall (fun kv => alone (snd kv)) m | _ => True end -> alone r.
  Proof.
    intro IH.
    assert (G : forall rd rd' s x r', x <> VNull -> ok s -> takes rd s x r -> takes rd' s x r' -> same_prim r r').
    { intros rd rd' s x r' N OS T T'.
      destruct T as [|? s ? x ? ? ? ? ?|rd s e x r Y S NA B|rd s e x i l l' rs S A I P U F Z|rd s e x Y S SI|rd s e d m S O G1 G2 G3 G4 G5 G6 G7 G8 G9]; [now destruct N|now destruct N| | | |].
      - destruct (becomes_kind e x r B Y NA) as (k & D & M). destruct (decl_type e k D) as (t & TY & TI).
        inversion T' as [| |? ? e' ? ? Y' S' NA' B'|? ? e' ? i' ? ? ? S' A'|? ? e' ? Y' S' SI'|? ? e' d' m' S' O']; subst; try (now destruct N); assert (e' = e) as -> by (symmetry; eapply stands_fun; eassumption).
        + destruct (becomes_kind e x r' B' Y' NA') as (k' & D' & M'). rewrite <- (decl_fun e k k' D D') in M'. rewrite (makes_fun k x r r' M M'). constructor.
        + contradiction.
        + destruct SI' as (UT & _). apply (typed e t TY) in UT; [destruct UT|]. cbn in TI. intros ->. intuition discriminate.
        + exfalso. destruct O' as [TO|(UT & _)].
          * rewrite (types e _ _ TY TO) in TI. cbn in TI. intuition discriminate.
          * apply (typed e t TY) in UT; [destruct UT|]. cbn in TI. intros ->. intuition discriminate.
      - inversion T' as [| |? ? e' ? ? Y' S' NA' B'|? ? e' ? i' l1 l1' rs' S' A' I' P' U' F' Z'|? ? e' ? Y' S' SI'|? ? e' d' m' S' O']; subst; try (now destruct N); assert (e' = e) as -> by (symmetry; eapply stands_fun; eassumption).
        + contradiction.
        + assert (i' = i) as -> by congruence. rewrite <- (parts_fun x l P l1 P') in U'. assert (l1' = l') as ->.
          { destruct U as [(U & V)|(U & V)], U' as [(U' & V')|(U' & V')]; try contradiction; [exact (P_PrimObj.firsts_det _ _ _ V' _ V)|congruence]. }
          apply sp_array. pose proof (OKS s e OS S) as OE. clear - IH F F' I OE OKI. revert rs rs' IH F F'. induction l' as [|y l' IHl]; intros rs rs' IH F F'; inversion F as [|? a ? b T1 T2]; subst; inversion F' as [|? a' ? b' T1' T2']; subst; constructor.
          * inversion IH; subst. match goal with H : alone a |- _ => apply (H true true i y a'); try assumption end. eapply OKI; eassumption.
          * inversion IH; subst. now apply IHl.
        + destruct SI' as (UT & _). apply (typed e "array" A) in UT; [destruct UT|discriminate].
        + exfalso. destruct O' as [TO|(UT & _)]; [pose proof (types e _ _ A TO) as X; discriminate X|]. apply (typed e "array" A) in UT; [exact UT|discriminate].
      - inversion T' as [| |? ? e' ? ? Y' S' NA' B'|? ? e' ? i' l1 l1' rs' S' A' I' P' U' F' Z'|? ? e' ? Y' S' SI'|? ? e' d' m' S' O']; subst; try (now destruct N); assert (e' = e) as -> by (symmetry; eapply stands_fun; eassumption).
        + exfalso. destruct (becomes_kind e x r' B' Y' NA') as (k & D & M). destruct (decl_type e k D) as (t & TY & TI). destruct SI as (UT & _). apply (typed e t TY) in UT; [exact UT|]. cbn in TI. intros ->. intuition discriminate.
        + exfalso. destruct SI as (UT & _). apply (typed e "array" A') in UT; [exact UT|discriminate].
        + constructor.
        + exfalso. destruct SI as (UT & NP & NO). destruct O' as [TO|(_ & [(k & p & HP)|X])]; [apply (typed e "object" TO) in UT; [exact UT|discriminate]|exact (NP k p HP)|exact (X NO)].
      - inversion T' as [| |? ? e' ? ? Y' S' NA' B'|? ? e' ? i' l1 l1' rs' S' A' I' P' U' F' Z'|? ? e' ? Y' S' SI'|? ? e' d' m' S' O' G1' G2' G3' G4' G5' G6' G7' G8' G9']; subst; try (now destruct N); assert (e' = e) as -> by (symmetry; eapply stands_fun; eassumption).
        + exfalso. destruct (becomes_kind e _ r' B' Y' NA') as (k & D & M). destruct (decl_type e k D) as (t & TY & TI). destruct O as [TO|(UT & _)].
          * rewrite (types e _ _ TY TO) in TI. cbn in TI. intuition discriminate.
          * apply (typed e t TY) in UT; [destruct UT|]. cbn in TI. intros ->. intuition discriminate.
        + exfalso. destruct O as [TO|(UT & _)]; [pose proof (types e _ _ A' TO) as X; discriminate X|]. apply (typed e "array" A') in UT; [exact UT|discriminate].
        + exfalso. destruct SI' as (UT & NP & NO). destruct O as [TO|(_ & [(k & p & HP)|X])]; [apply (typed e "object" TO) in UT; [exact UT|discriminate]|exact (NP k p HP)|exact (X NO)].
        + pose proof (OKS s e OS S) as OE.
          assert (IH' : forall k y, sget k m = Some y -> alone y) by (intros k y G; rewrite Forall_forall in IH; apply sget_In in G; exact (IH _ G)).
          assert (K : forall k, sget k m = None /\ sget k m' = None \/ exists y y', sget k m = Some y /\ sget k m' = Some y' /\ same_prim y y').
          { intro k.
            assert (DI : discriminates e k -> (exists p, has_property e k p) \/ sget k d = None \/ nothing e -> exists y y', sget k m = Some y /\ sget k m' = Some y' /\ same_prim y y').
            { intros D C. destruct (OKN e OE) as (y & NM). exists y, y. split; [exact (G8 k y D C NM)|]. split; [exact (G8' k y D C NM)|constructor]. }
            destruct (property_dec e k) as [(p & HP)|NP].
            - destruct (disc_dec e k) as [D|ND]; [right; apply (DI D); left; eauto|]. pose proof (OKP e k p OE HP) as OP. destruct (sget k d) as [w|] eqn:GD.
              + right. destruct (G1 k p w HP GD) as (_ & y & T1 & [E|E]); [|contradiction]. destruct (G1' k p w HP GD) as (_ & y' & T1' & [E'|E']); [|contradiction]. exists y, y'. split; [exact E|]. split; [exact E'|]. exact (IH' k y E true true p w y' OP T1 T1').
              + destruct (says_dec p (lit "default")) as [SD|SD].
                * right. destruct (OKD p OP) as (w & x0 & FD & SV). destruct (G2 k p w x0 HP GD SD FD SV) as (y & T1 & [E|E]); [|contradiction]. destruct (G2' k p w x0 HP GD SD FD SV) as (y' & T1' & [E'|E']); [|contradiction].
                  exists y, y'. split; [exact E|]. split; [exact E'|]. exact (IH' k y E true true p x0 y' OP T1 T1').
                * left. destruct (G3 k p HP GD SD) as [E|E]; [|contradiction]. destruct (G3' k p HP GD SD) as [E'|E']; [|contradiction]. auto.
            - destruct (sget k d) as [w|] eqn:GD.
              + destruct (additional e) as [AN|[(a & MO)|NO]].
                * right. exists (PRaw w), (PRaw w). split; [exact (G4 k w NP GD AN)|]. split; [exact (G4' k w NP GD AN)|constructor].
                * right. destruct (G5 k w a NP GD MO) as (y & T1 & E), (G5' k w a NP GD MO) as (y' & T1' & E'). exists y, y'. split; [exact E|]. split; [exact E'|]. exact (IH' k y E true true a w y' (OKM e a OE MO) T1 T1').
                * destruct (disc_dec e k) as [D|ND]; [right; apply (DI D); auto|left]. destruct (G6 k w NP GD NO) as [E|E]; [|contradiction]. destruct (G6' k w NP GD NO) as [E'|E']; [|contradiction]. auto.
              + destruct (disc_dec e k) as [D|ND]; [right; apply (DI D); auto|left]. destruct (G7 k NP GD) as [E|E]; [|contradiction]. destruct (G7' k NP GD) as [E'|E']; [|contradiction]. auto. }
          apply sp_model.
          * intro k. destruct (K k) as [(E & E')|(y & y' & E & E' & _)]; [tauto|split; congruence].
          * intros k y y' E E'. destruct (K k) as [(F & F')|(z & z' & F & F' & SP)]; [congruence|]. assert (z = y) as -> by congruence. assert (z' = y') as -> by congruence. exact SP. }
    intros rd rd' s x r' OS T T'.
    assert (DN : x = VNull \/ x <> VNull) by (destruct x; (now left) || (right; discriminate)). destruct DN as [->|NX]; [|exact (G rd rd' s x r' NX OS T T')].
    inversion T as [? ? D|? ? d x ? D SV NN T1|? ? ? ? ? NN|? ? ? ? ? ? ? ? ? ? ? PA|? ? ? ? NN|]; subst; try (now destruct NN); try (now inversion PA);
    inversion T' as [? ? D'|? ? d' x' ? D' SV' NN' T1'|? ? ? ? ? NN'|? ? ? ? ? ? ? ? ? ? ? PA'|? ? ? ? NN'|]; subst; try (now destruct NN'); try (now inversion PA').
    - constructor.
    - exfalso. assert (d' = M_SpecVal.VNone) as -> by congruence. inversion SV'; subst. now destruct NN'.
    - exfalso. assert (d = M_SpecVal.VNone) as -> by congruence. inversion SV; subst. now destruct NN.
    - assert (d' = d) as -> by congruence. apply same_value_of in SV, SV'. assert (x' = x) as -> by congruence. exact (G rd rd' s x r' NN OS T1 T1').
  Qed.
  Theorem takes_fun r : alone r.
  Proof. induction r using prim_ind'; apply step; auto. Qed.
End Unique.
