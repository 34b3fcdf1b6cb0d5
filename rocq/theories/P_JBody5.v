(** Documents of what is made of values are well-formed. *)
From Coq Require Import QArith Lia.
From Verif Require Import PyBase PyFacts PyJson M_SpecVal P_Op S_SpecTree S_Merge S_MergeRef S_Cycles P_Cycles S_Prepare S_Compose M_Time S_Declared P_Declared2 S_Body P_Body2 M_JBody S_JBody P_JBody P_JBody2 P_JBody3 P_JBody4.
From Verif Require M_Prim S_Prim S_PrimKinds P_PrimObj.
Close Scope Q_scope.
Import M_Prim.

Lemma proper_load j : proper (load j) -> wf j.
Proof.
  induction j as [| | | | |l IH|d IH] using json_ind'; try (intros _; constructor; fail); cbn [load]; intro P.
  - inversion P as [? N _|? F|]; subst; [now destruct (N (map load l))|]. constructor. rewrite Forall_forall in IH, F |- *. intros a I. apply (IH a I), F, in_map, I.
  - inversion P as [? _ N| |? ND F]; subst; [now destruct (N (map (fun kv => (fst kv, load (snd kv))) d))|]. constructor.
    + rewrite map_map in ND. exact ND.
    + rewrite Forall_forall in IH, F |- *. intros kv I. apply (IH kv I). apply (F (fst kv, load (snd kv))). apply (in_map (fun kv => (fst kv, load (snd kv)))), I.
Qed.
Lemma proper_plain v : (forall l, v <> VList l) -> (forall d, v <> VDict d) -> proper v.
Proof. now constructor. Qed.

Section Tidy.
  Context (abs_uri win_uri : str -> str) (u : str) (root : val).
  Notation stands := (stands abs_uri win_uri u root).
  Context (int_of : str -> res Z) (float_of : str -> res Q) (str_of : value -> str)
    (date_at : Q -> res (Z * Z * Z)) (datetime_at : Q -> res datetime) (uuid_of : str -> option Z) (email_ok : str -> bool) (show_other : prim -> str).
  Notation becomes := (becomes int_of float_of str_of date_at datetime_at uuid_of email_ok).
  Notation takes := (takes abs_uri win_uri u root int_of float_of str_of date_at datetime_at uuid_of email_ok).
  Notation arrives := (arrives show_other).
  Context (ok : val -> Prop).
  Hypothesis OKS : forall s e, ok s -> stands s e -> ok e.
  Hypothesis OKI : forall e i x c, ok e -> field_of e (lit "items") = Some i -> takes true i x c -> ok i.
  Hypothesis OKP : forall e k p, ok e -> has_property e k p -> ok p.
  Hypothesis OKM : forall e a, ok e -> more e a -> ok a.
  Hypothesis OKD : forall s, ok s -> exists w x, field_of s (lit "default") = Some w /\ same_value w x /\ proper x.
  Hypothesis OKN : forall s, ok s -> exists y, named s y.
  Lemma given_proper rd s x c : ok s -> proper x -> takes rd s x c -> c <> PNone -> exists y, y <> VNull /\ proper y /\ takes rd s y c.
  Proof.
    intros OS PX T N. destruct T as [rd s D|rd s d x r D SV Y T|rd s e x r Y S A B|rd s e x i l l' rs S A I P U F Z|rd s e x Y S SI|rd s e d m S O G1 G2 G3 G4 G5 G6 G7 G8 G9].
    - now destruct N.
    - exists x. split; [exact Y|]. split; [|exact T]. destruct (OKD s OS) as (w & x' & D' & SV' & P'). assert (w = d) as -> by congruence. apply same_value_of in SV, SV'. congruence.
    - exists x. split; [exact Y|]. split; [exact PX|]. eapply tk_plain; eassumption.
    - exists x. split; [intros ->; inversion P|]. split; [exact PX|]. eapply tk_array; eassumption.
    - now destruct N.
    - exists (VDict d). split; [discriminate|]. split; [exact PX|]. eapply tk_object; eassumption.
  Qed.
  Theorem tidy c : forall rd s x v, keyed c -> ok s -> proper x -> takes rd s x c -> arrives c v -> proper v.
  Proof.
    induction c as [|b|z|q|t|t|yy mm dd|t|z|h dt n|fmt l IH|m IH|w] using prim_ind'; intros rd s x v K OS PX T A;
      try (destruct A as (j & E & ->); cbn [dump] in E; injection E as <-; apply proper_plain; discriminate).
    - destruct A as (j & E & ->); discriminate E.
    - apply keyed_array in K. apply arrives_array in A as (vs & -> & FA). apply given_proper in T as (y & Y & PY & T); [|exact OS|exact PX|discriminate].
      inversion T as [| |? ? e ? ? YN S NA B|? ? e ? i l1 l2 ? S OA IT P U F Z| |]; subst; [now destruct Y| |].
      + inversion B as [| | | | | | | |? ? ? ? ? DA| | | |]; subst; [now destruct YN|inversion DA|contradiction].
      + apply pr_list. pose proof (OKS s e OS S) as OE. pose proof (proper_parts _ _ P PY) as PL.
        assert (PL2 : Forall proper l2). { apply Forall_forall. intros a I. rewrite Forall_forall in PL. apply PL. destruct U as [(_ & U)|(_ & ->)]; [exact (firsts_in _ _ _ U a I)|exact I]. }
        clear - OKI OE IT IH F FA K PL2. revert vs FA l2 F PL2. induction l as [|c l IHl]; intros vs FA l2 F PL2; inversion FA as [|? w ? ws A1 A2]; subst; [constructor|]. inversion F as [|a ? l3 ? T1 T2]; subst. inversion IH as [|? ? H1 H2]; subst. inversion K as [|? ? K1 K2]; subst. inversion PL2 as [|? ? P1 P2]; subst.
        constructor; [|eapply IHl; eassumption]. refine (H1 true i a w K1 _ P1 T1 A1). exact (OKI e i a c OE IT T1).
    - apply keyed_model in K as (ND & KE). apply arrives_model in A as (d' & -> & FA). apply given_proper in T as (y & Y & PY & T); [|exact OS|exact PX|discriminate].
      inversion T as [| |? ? e ? ? YN S NA B| | |? ? e d ? S O G1 G2 G3 G4 G5 G6 G7 G8 G9]; subst; [now destruct Y| |].
      { inversion B as [| | | | | | | |? ? ? ? ? DA| | | |]; subst; [now destruct YN|inversion DA]. }
      pose proof (OKS s e OS S) as OE.
      apply pr_dict.
      + assert (E : map fst d' = map fst m); [|rewrite E; exact ND]. clear - FA. induction FA as [|a b m d (E & _) F IH]; [reflexivity|]. cbn [map]. now rewrite IH, E.
      + assert (AL : forall k c w, sget k m = Some c -> arrives c w -> proper w).
        { intros k c w G AR. assert (IHc : forall rd s x v, ok s -> proper x -> takes rd s x c -> arrives c v -> proper v).
          { apply sget_In in G. rewrite Forall_forall in IH, KE. intros rd0 s0 x0 v0. exact (IH _ G rd0 s0 x0 v0 (KE _ G)). }
          assert (DI : discriminates e k -> (exists p, has_property e k p) \/ sget k d = None \/ nothing e -> proper w).
          { intros D C. destruct (OKN e OE) as (y & NM). pose proof (G8 k y D C NM) as E. assert (y = c) as -> by congruence. destruct AR as (j & DJ & ->). inversion NM; subst; cbn [dump] in DJ; injection DJ as <-; apply proper_plain; discriminate. }
          destruct (property_dec e k) as [(p & HP)|NP].
          - destruct (disc_dec e k) as [D|NDI]; [apply (DI D); left; eauto|]. pose proof (OKP e k p OE HP) as OP. destruct (sget k d) as [w0|] eqn:GD.
            + destruct (G1 k p w0 HP GD) as (_ & y1 & T1 & [E|E]); [|contradiction]. assert (y1 = c) as -> by congruence. exact (IHc true p w0 w OP (proper_get _ _ _ PY GD) T1 AR).
            + destruct (says_dec p (lit "default")) as [SD|SD].
              * destruct (OKD p OP) as (w0 & x0 & FD & SV & PX0). destruct (G2 k p w0 x0 HP GD SD FD SV) as (y1 & T1 & [E|E]); [|contradiction]. assert (y1 = c) as -> by congruence. exact (IHc true p x0 w OP PX0 T1 AR).
              * destruct (G3 k p HP GD SD) as [E|E]; [congruence|contradiction].
          - destruct (sget k d) as [w0|] eqn:GD.
            + destruct (additional e) as [AN|[(a & MO)|NO]].
              * pose proof (G4 k w0 NP GD AN) as E. assert (c = PRaw w0) as -> by congruence. destruct AR as (j & DJ & ->). cbn [dump] in DJ. apply raw_back in DJ. rewrite DJ. exact (proper_get _ _ _ PY GD).
              * destruct (G5 k w0 a NP GD MO) as (y1 & T1 & E). assert (y1 = c) as -> by congruence. exact (IHc true a w0 w (OKM e a OE MO) (proper_get _ _ _ PY GD) T1 AR).
              * destruct (disc_dec e k) as [D|NDI]; [apply (DI D); auto|]. destruct (G6 k w0 NP GD NO) as [E|E]; [congruence|contradiction].
            + destruct (disc_dec e k) as [D|NDI]; [apply (DI D); auto|]. destruct (G7 k NP GD) as [E|E]; [congruence|contradiction]. }
        assert (GM : forall kc, In kc m -> sget (fst kc) m = Some (snd kc)) by (intros (k, c) I; now apply In_sget). clear - FA AL GM. apply Forall_forall. intros b I.
        assert (X : exists a, In a m /\ fst a = fst b /\ arrives (snd a) (snd b)). { clear - FA I. induction FA as [|a b' m d E F IH]; [destruct I|]. destruct I as [<-|I]; [exists a; split; [now left|exact E]|]. destruct (IH I) as (a' & I' & E'). exists a'. split; [now right|exact E']. }
        destruct X as (a & IA & _ & AR). exact (AL _ _ _ (GM a IA) AR).
    - apply given_proper in T as (y & Y & PY & T); [|exact OS|exact PX|discriminate]. inversion T as [| |? ? e ? ? YN S NA B| | |]; subst; [now destruct Y|]. inversion B as [| | | | | | | |? ? ? ? ? DA| | | |]; subst; [now destruct YN|inversion DA].
  Qed.
End Tidy.
