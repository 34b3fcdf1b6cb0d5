(** Proofs about JSON bodies that are read again. *)
From Coq Require Import QArith Lia.
From Verif Require Import PyBase PyFacts PyJson M_SpecVal S_SpecTree S_Merge S_MergeRef S_Prepare S_Compose M_Base64 M_Time S_Time T_Time S_Declared S_Body M_JBody S_JBody P_JBody.
From Verif Require M_Prim S_Prim S_PrimKinds M_PrimText.
Close Scope Q_scope.
Import M_Prim.

Section Back.
  Context (abs_uri win_uri : str -> str) (u : str) (root : val).
  Notation stands := (stands abs_uri win_uri u root).
  Context (int_of : str -> res Z) (float_of : str -> res Q) (str_of : value -> str)
    (date_at : Q -> res (Z * Z * Z)) (datetime_at : Q -> res datetime) (uuid_of : str -> option Z) (email_ok : str -> bool) (show_other : prim -> str).
  Notation becomes := (becomes int_of float_of str_of date_at datetime_at uuid_of email_ok).
  Notation takes := (takes abs_uri win_uri u root int_of float_of str_of date_at datetime_at uuid_of email_ok).
  Notation returns := (returns abs_uri win_uri u root int_of float_of str_of date_at datetime_at uuid_of email_ok show_other).
  Notation arrives := (arrives show_other).

  Lemma takes_given rd s x c : takes rd s x c -> c <> PNone -> exists y, y <> VNull /\ takes rd s y c.
  Proof.
    intros T N. destruct T as [rd s D|rd s d x r D S Y T|rd s e x r Y S A B|rd s e x i l l' rs S A I P U F Z|rd s e x Y S SI|rd s e d m S O G1 G2 G3 G4 G5 G6 G7 G8 G9].
    - now destruct N.
    - eauto.
    - exists x. split; [exact Y|]. eapply tk_plain; eassumption.
    - exists x. split; [|eapply tk_array; eassumption]. intros ->. inversion P.
    - now destruct N.
    - exists (VDict d). split; [discriminate|]. eapply tk_object; eassumption.
  Qed.
  Lemma disc_dec e k : discriminates e k \/ ~ discriminates e k.
  Proof.
    unfold discriminates, text_at. destruct (field_of e (lit "discriminator")) as [v|]; [|right; intros (E & _); discriminate E]. destruct v as [| | | |t| | |]; try (right; intros (E & _); discriminate E).
    destruct (str_eqb_spec t k) as [->|NE]; [|right; intros (E & _); congruence]. destruct k; [right; intros (_ & E); now destruct E|left]. split; [reflexivity|discriminate].
  Qed.
  Lemma property_fun e k p p' : has_property e k p -> has_property e k p' -> p = p'.
  Proof. intros (d & F & G) (d' & F' & G'). congruence. Qed.
  Lemma property_dec e k : (exists p, has_property e k p) \/ forall p, ~ has_property e k p.
  Proof.
    unfold has_property. destruct (field_of e (lit "properties")) as [v|]; [|right; intros p (d & E & _); discriminate E]. destruct v as [| | | | | |d|]; try (right; intros p (d & E & _); discriminate E).
    destruct (sget k d) as [p|] eqn:G; [left; eauto|right]. intros p (d' & E & G'). congruence.
  Qed.
  Lemma ordered vs : ForallOrdPairs (fun a b => v_eqb b a = false) vs -> forall seen, (forall a b, In a seen -> In b vs -> v_eqb b a = false) -> S_Prim.firsts seen vs vs.
  Proof.
    induction 1 as [|a vs F O IH]; intros seen D; [constructor|]. constructor; [intros y I; apply D; [exact I|now left]|]. apply IH. intros x y I J. apply in_app_iff in I as [I|[<-|[]]]; [apply D; [exact I|now right]|]. rewrite Forall_forall in F. now apply F.
  Qed.
  Lemma format_one f a b : of_format f [a] -> of_format f [b] -> lit a = lit b.
  Proof. intros (x & [<-|[]] & X) (y & [<-|[]] & Y). unfold text_at in *. congruence. Qed.
  (** Schemas whose properties have defaults that are values *)
  Context (ok : val -> Prop).
  Hypothesis OKS : forall s e, ok s -> stands s e -> ok e.
  Hypothesis OKI : forall e i x c, ok e -> field_of e (lit "items") = Some i -> takes true i x c -> ok i.
  Hypothesis OKP : forall e k p, ok e -> has_property e k p -> ok p.
  Hypothesis OKM : forall e a, ok e -> more e a -> ok a.
  Hypothesis OKD : forall s, ok s -> exists w x, field_of s (lit "default") = Some w /\ same_value w x.
  Lemma says_dec (p : val) n : says p n \/ ~ says p n.
  Proof. destruct p as [| | | | | | |h fs ints]; try (right; intros []). cbn [says]. destruct (in_dec (list_eq_dec Ascii.ascii_dec) n (h_keys h)); auto. Qed.
  Ltac plain T := apply takes_given in T as (y & Y & T); [|discriminate]; inversion T as [| |? ? e ? ? YN S NA B| | |]; subst; [now destruct Y|].

  Theorem returned : forall c rd s x v, ok s -> takes rd s x c -> returns s c -> arrives c v -> takes true s v c.
  Proof.
    induction c as [|b|z|q|t|t|yy mm dd|t|z|h dt n|fmt l IH|m IH|w] using prim_ind'; intros rd s x v OS T R A.
    - destruct A as (j & E & ->). injection E as <-. inversion R; subst. now constructor.
    - destruct A as (j & E & ->). injection E as <-. plain T. apply (tk_plain _ _ _ _ _ _ _ _ _ _ _ _ s e); [discriminate|exact S|exact NA|].
      inversion B as [| | | | | |? ? ? K N W| |? ? ? ? ? DA| | | |]; subst; [now destruct YN| |inversion DA]. apply be_boolean; [exact K|discriminate|]. cbn. reflexivity.
    - destruct A as (j & E & ->). injection E as <-. plain T. apply (tk_plain _ _ _ _ _ _ _ _ _ _ _ _ s e); [discriminate|exact S|exact NA|].
      inversion B as [| |? ? ? K W RG| | | | | |? ? ? ? ? DA| | | |]; subst; [now destruct YN| |inversion DA]. apply be_integer; [exact K|constructor|exact RG].
    - destruct A as (j & E & ->). injection E as <-. plain T. apply (tk_plain _ _ _ _ _ _ _ _ _ _ _ _ s e); [discriminate|exact S|exact NA|].
      inversion B as [| | |? ? ? K W RG MU| | | | |? ? ? ? ? DA| | | |]; subst; [now destruct YN| |inversion DA]. apply be_number; [exact K|constructor|exact RG|exact MU].
    - destruct A as (j & E & ->). injection E as <-. plain T. apply (tk_plain _ _ _ _ _ _ _ _ _ _ _ _ s e); [discriminate|exact S|exact NA|].
      inversion B as [| | | |? ? ? K N W RT|? ? ? K F N W RT EM| | |? ? ? ? ? DA| | | |]; subst; [now destruct YN| | |inversion DA]; [apply be_text|apply be_email]; try assumption; try discriminate; now left.
    - inversion R.
    - destruct A as (j & E & ->). injection E as <-. plain T. apply (tk_plain _ _ _ _ _ _ _ _ _ _ _ _ s e); [discriminate|exact S|exact NA|]. inversion R as [| | | | |? ? ? ? V| | | |]; subst.
      inversion B as [| | | | | | | |? ? ? K F DA| | | |]; subst; [now destruct YN|]. apply be_date; [exact K|exact F|].
      pose proof (c10_date yy mm dd V) as D. unfold date_of_text in D. cbn [load]. destruct (from_iso8601 (iso_date yy mm dd)) as [w|er] eqn:W; [|discriminate D]. cbn [bind] in D. injection D as <- <- <-. now constructor.
    - destruct A as (j & E & ->). injection E as <-. plain T. apply (tk_plain _ _ _ _ _ _ _ _ _ _ _ _ s e); [discriminate|exact S|exact NA|]. inversion R as [| | | | | |? ? FM V TZ| | |]; subst.
      inversion B as [| | | | | | | |? ? ? K F DA|? ? ? K F W| | |]; subst; [now destruct YN|pose proof (format_one _ _ _ (FM e S) F) as X; discriminate X|]. apply be_moment; [exact K|exact F|]. constructor. exact (c10_datetime t V TZ).
    - destruct A as (j & E & ->). injection E as <-. plain T. apply (tk_plain _ _ _ _ _ _ _ _ _ _ _ _ s e); [discriminate|exact S|exact NA|]. inversion R as [| | | | | | |? ? UU| |]; subst.
      inversion B as [| | | | | | | |? ? ? ? ? DA| |? ? ? K F W| |]; subst; [now destruct YN|inversion DA|]. apply be_uuid; [exact K|exact F|now constructor].
    - inversion R.
    - apply arrives_array in A as (vs & -> & FA). inversion R as [| | | | | | | |? ? ? RE DI|]; subst.
      apply takes_given in T as (y & Y & T); [|discriminate]. inversion T as [| |? ? e ? ? YN S NA B|? ? e ? i l1 l2 ? S OA IT P U F Z| |]; subst; [now destruct Y| |].
      + inversion B as [| | | | | | | |? ? ? ? ? DA| | | |]; subst; [now destruct YN|inversion DA|contradiction].
      + apply (tk_array _ _ _ _ _ _ _ _ _ _ _ true s e (VList vs) i vs vs l S OA IT (pa_list vs)); [|..|exact Z].
        * destruct U as [(U & _)|(U & _)]; [left|right]; (split; [exact U|]); [|reflexivity]. apply ordered; [exact (DI e vs S U FA)|intros a b []].
        * pose proof (OKS s e OS S) as OE. specialize (RE e i S IT). clear - OKI OE IT IH RE F FA. revert vs FA l2 F. induction l as [|c l IHl]; intros vs FA l2 F; inversion FA as [|? w ? ws A1 A2]; subst; [constructor|]. inversion F as [|a ? l3 ? T1 T2]; subst. inversion IH; subst. inversion RE; subst.
          constructor; [|eapply IHl; eassumption]. match goal with H : forall rd s x v, ok s -> _ |- _ => eapply H; try eassumption end. eapply OKI; eassumption.
    - apply arrives_model in A as (d' & -> & FA). pose proof (entries show_other m d' FA) as EN. inversion R as [| | | | | | | | |? ? RP RA RD]; subst.
      apply takes_given in T as (y & Y & T); [|discriminate]. inversion T as [| |? ? e ? ? YN S NA B| | |? ? e d ? S O G1 G2 G3 G4 G5 G6 G7 G8 G9]; subst; [now destruct Y| |].
      { inversion B as [| | | | | | | |? ? ? ? ? DA| | | |]; subst; [now destruct YN|inversion DA]. }
      pose proof (OKS s e OS S) as OE.
      assert (IH' : forall k c rd s x v, sget k m = Some c -> ok s -> takes rd s x c -> returns s c -> arrives c v -> takes true s v c).
      { intros k c rd0 s0 x0 v0 G. rewrite Forall_forall in IH. apply sget_In in G. exact (IH _ G rd0 s0 x0 v0). }
      assert (DP : forall k, discriminates e k -> exists p y v z, has_property e k p /\ sget k m = Some y /\ arrives y v /\ takes true p v z).
      { intros k D. destruct (RD e k S D) as (p & y0 & v & z & HP & NM & AR & TZ). exists p, y0, v, z. split; [exact HP|]. split; [|auto]. apply (G8 k y0 D); [left; eauto|exact NM]. }
      (* an entry for a declared property comes from it *)
      assert (FP : forall k p y0, has_property e k p -> sget k m = Some y0 -> ~ discriminates e k -> exists x0, takes true p x0 y0).
      { intros k p y0 HP GM ND. destruct (sget k d) as [w|] eqn:GD.
        - destruct (G1 k p w HP GD) as (_ & y1 & T1 & [E|E]); [|contradiction]. assert (y1 = y0) as -> by congruence. eauto.
        - destruct (OKD p (OKP e k p OE HP)) as (w & x0 & FD & SV). destruct (says_dec p (lit "default")) as [SD|SD].
          + destruct (G2 k p w x0 HP GD SD FD SV) as (y1 & T1 & [E|E]); [|contradiction]. assert (y1 = y0) as -> by congruence. eauto.
          + destruct (G3 k p HP GD SD) as [E|E]; [congruence|contradiction]. }
      (* a declared property that is given or has a default has an entry *)
      assert (HE : forall k p, has_property e k p -> sget k d <> None \/ says p (lit "default") -> sget k m <> None).
      { intros k p HP GS. destruct (disc_dec e k) as [D|ND]; [destruct (DP k D) as (? & ? & ? & ? & _ & G & _); congruence|]. destruct (sget k d) as [w|] eqn:GD.
        - destruct (G1 k p w HP GD) as (_ & y1 & _ & [E|E]); [congruence|contradiction].
        - destruct GS as [N|SD]; [now destruct N|]. destruct (OKD p (OKP e k p OE HP)) as (w & x0 & FD & SV). destruct (G2 k p w x0 HP GD SD FD SV) as (y1 & _ & [E|E]); [congruence|contradiction]. }
      assert (ND : forall k, (forall p, ~ has_property e k p) -> ~ discriminates e k) by (intros k NP D; destruct (DP k D) as (p & _ & _ & _ & HP & _); exact (NP p HP)).
      (* an entry that is not declared comes from a value *)
      assert (FD : forall k y0, (forall p, ~ has_property e k p) -> sget k m = Some y0 -> exists w, sget k d = Some w).
      { intros k y0 NP G. destruct (sget k d) as [w|] eqn:GD; [eauto|]. destruct (G7 k NP GD) as [E|E]; [congruence|now apply ND in E]. }
      apply (tk_object _ _ _ _ _ _ _ _ _ _ _ true s e d' m S O).
      + intros k p w HP GW. split; [discriminate|]. specialize (EN k). rewrite GW in EN. destruct (sget k m) as [y0|] eqn:GM; [|contradiction]. destruct (disc_dec e k) as [D|NDI].
        * destruct (DP k D) as (p' & y1 & v & z & HP' & GM' & AR & TZ). assert (p' = p) as -> by (eapply property_fun; eassumption). assert (y1 = y0) as -> by congruence. assert (v = w) as -> by (eapply arrives_fun; eassumption). exists z. auto.
        * destruct (FP k p y0 HP GM NDI) as (x0 & T0). exists y0. split; [|now left]. apply (IH' k y0 true p x0 w GM (OKP e k p OE HP) T0); [exact (RP e k p y0 S HP GM NDI)|exact EN].
      + intros k p w x0 HP GW SD _ _. exfalso. specialize (EN k). rewrite GW in EN. destruct (sget k m) as [y0|] eqn:GM; [contradiction|]. exact (HE k p HP (or_intror SD) GM).
      + intros k p HP GW _. left. specialize (EN k). rewrite GW in EN. destruct (sget k m); [contradiction|reflexivity].
      + intros k w NP GW AN. specialize (EN k). rewrite GW in EN. destruct (sget k m) as [y0|] eqn:GM; [|contradiction]. destruct (FD k y0 NP GM) as (w0 & GD). pose proof (G4 k w0 NP GD AN) as E. assert (y0 = PRaw w0) as -> by congruence.
        destruct EN as (j & DJ & ->). cbn [dump] in DJ. apply raw_back in DJ. rewrite DJ. reflexivity.
      + intros k w a NP GW MO. specialize (EN k). rewrite GW in EN. destruct (sget k m) as [y0|] eqn:GM; [|contradiction]. destruct (FD k y0 NP GM) as (w0 & GD). destruct (G5 k w0 a NP GD MO) as (y1 & T1 & E). assert (y1 = y0) as -> by congruence.
        exists y0. split; [|reflexivity]. apply (IH' k y0 true a w0 w GM (OKM e a OE MO) T1); [exact (RA e a k y0 S MO NP GM)|exact EN].
      + intros k w NP GW NO. specialize (EN k). rewrite GW in EN. destruct (sget k m) as [y0|] eqn:GM; [|contradiction]. destruct (FD k y0 NP GM) as (w0 & GD). destruct (G6 k w0 NP GD NO) as [E|E]; [congruence|now apply ND in E].
      + intros k NP GW. left. specialize (EN k). rewrite GW in EN. destruct (sget k m); [contradiction|reflexivity].
      + intros k y0 D _ NM. apply (G8 k y0 D); [|exact NM]. left. destruct (DP k D) as (p & _ & _ & _ & HP & _). eauto.
      + intros k RQ. destruct (G9 k RQ) as (p & HP & GS). exists p. split; [exact HP|]. left. intro GW. specialize (EN k). rewrite GW in EN. pose proof (HE k p HP GS) as NE. destruct (sget k m); [contradiction|now destruct NE].
    - inversion R.
  Qed.
End Back.
