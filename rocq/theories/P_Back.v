(** Proofs about texts that are read again. *)
From Coq Require Import QArith Lia.
From Verif Require Import PyBase PyFacts M_SpecVal S_Merge M_Quote M_Time S_Time T_Time S_Declared P_Declared3 T_PrimText S_Back.
From Verif Require M_Prim S_Prim P_Prim M_PrimText.
Close Scope Q_scope.

Section Back.
  Context (int_of : str -> res Z) (float_of : str -> res Q) (str_of : M_Prim.value -> str)
    (date_at : Q -> res (Z * Z * Z)) (datetime_at : Q -> res M_Time.datetime) (uuid_of : str -> option Z) (email_ok : str -> bool)
    (decode : str -> res str) (show_other : M_Prim.prim -> str).
  Notation becomes := (becomes int_of float_of str_of date_at datetime_at uuid_of email_ok).
  Notation shown := (M_PrimText.show decode show_other).
  Notation carries := (carries int_of float_of uuid_of decode show_other).
  Import M_Prim.
  Lemma becomes_given f x p : becomes f x p -> p <> PNone -> exists y, y <> VNull /\ becomes f y p.
  Proof.
    intros B N. destruct (is_null x) eqn:E; [|exists x; split; [intros ->; discriminate E|exact B]]. destruct x; try discriminate E.
    apply becomes_null in B as [(_ & ->)|(d & y & _ & _ & Y & B)]; [now destruct N|eauto].
  Qed.
  Lemma texts_differ (ts : list str) : forall seen, (forall t, In t ts -> ~ In (VStr t) seen) -> NoDup ts -> S_Prim.firsts seen (map VStr ts) (map VStr ts).
  Proof.
    induction ts as [|t ts IH]; intros seen D ND; [constructor|]. inversion ND; subst. cbn [map]. constructor.
    - intros y I. destruct (v_eqb (VStr t) y) eqn:E; [|reflexivity]. apply P_Prim.v_eqb_str in E as ->. now apply D in I; [|left].
    - apply IH; [|assumption]. intros u I X. apply in_app_iff in X as [X|[X|[]]]; [apply D in X; [exact X|now right]|]. injection X as ->. contradiction.
  Qed.
  Lemma list_back f x i fmt rs ts : becomes f x (PArray fmt rs) -> field_of f (lit "items") = Some i -> Forall2 (fun p t => shown p = Ok t) rs ts ->
    (switched_on f "uniqueItems" -> NoDup ts) -> (forall p s y, In p rs -> becomes i y p -> shown p = Ok s -> becomes i (VStr s) p) ->
    forall v, S_Declared.elements f v (map VStr ts) -> becomes f v (PArray fmt rs).
  Proof.
    intros B IT SH ND IH v EL. apply becomes_given in B as (y & Y & B); [|discriminate].
    inversion B as [| | | | | | | |? ? ? ? ? DA| | | |f' x' i' l l' rs' fmt' K IT' E U G SZ T]; subst; [now destruct Y|inversion DA|].
    assert (i' = i) as -> by congruence. apply (be_array _ _ _ _ _ _ _ f v i (map VStr ts) (map VStr ts) rs fmt K IT EL); [|..|exact SZ|exact T].
    - destruct U as [(U & _)|(U & _)]; [left|right]; (split; [exact U|]); [|reflexivity]. apply texts_differ; [intros ? ? []|]. auto.
    - clear - IH G SH. revert ts SH IH. induction G as [|y p l' rs B G IHG]; intros ts SH IH; inversion SH as [|? t ? ts' S1 S2]; subst; [constructor|]. cbn [map]. constructor.
      + apply (IH p t y); [now left|exact B|exact S1].
      + apply IHG; [exact S2|]. intros q s z I. apply IH. now right.
  Qed.
  Lemma format_one f a b : of_format f [a] -> of_format f [b] -> lit a = lit b.
  Proof. intros (x & [<-|[]] & X) (y & [<-|[]] & Y). unfold text_at in *. congruence. Qed.
  Theorem carried : forall f p, carries f p -> forall x s, becomes f x p -> shown p = Ok s -> becomes f (VStr s) p.
  Proof.
    fix SELF 3. intros f p C x s B SH.
    destruct C as [f z s' S1 R|f q s' S1 R|f s'|f b s' S1 R|f z s' S1 R|f y m d V|f d F V TZ|f i fmt sp rs t ts T SP IT FS NE SE ND CS].
    - assert (s' = s) as -> by congruence. apply becomes_given in B as (y & Y & B); [|discriminate]. inversion B as [| |? ? ? K W R'| | | | | |? ? ? ? ? DA| | | |]; subst; [now destruct Y| |inversion DA]. apply be_integer; [exact K|now constructor|exact R'].
    - assert (s' = s) as -> by congruence. apply becomes_given in B as (y & Y & B); [|discriminate]. inversion B as [| | |? ? ? K W R' M| | | | |? ? ? ? ? DA| | | |]; subst; [now destruct Y| |inversion DA]. apply be_number; [exact K|now constructor|exact R'|exact M].
    - cbn [M_PrimText.show] in SH. injection SH as ->. apply becomes_given in B as (y & Y & B); [|discriminate].
      inversion B as [| | | |? ? ? K N W R|? ? ? K F N W R E| | |? ? ? ? ? DA| | | |]; subst; [now destruct Y| | |inversion DA]; [apply be_text|apply be_email]; try assumption; try discriminate; now left.
    - assert (s' = s) as -> by congruence. apply becomes_given in B as (y & Y & B); [|discriminate]. inversion B as [| | | | | | |? ? ? K F W|? ? ? ? ? DA| | | |]; subst; [now destruct Y| |inversion DA]. apply be_bytes; [exact K|exact F|constructor].
    - assert (s' = s) as -> by congruence. apply becomes_given in B as (y & Y & B); [|discriminate]. inversion B as [| | | | | | | |? ? ? ? ? DA| |? ? ? K F W| |]; subst; [now destruct Y|inversion DA|]. apply be_uuid; [exact K|exact F|now constructor].
    - cbn [M_PrimText.show] in SH. injection SH as <-. apply becomes_given in B as (x' & Y & B); [|discriminate]. inversion B as [| | | | | | | |? ? ? K F DA| | | |]; subst; [now destruct Y|]. apply be_date; [exact K|exact F|].
      pose proof (c10_date y m d V) as D. unfold date_of_text in D. destruct (from_iso8601 (iso_date y m d)) as [w|e] eqn:W; [|discriminate D]. cbn [bind] in D. injection D as <- <- <-. now constructor.
    - cbn [M_PrimText.show] in SH. injection SH as <-. apply becomes_given in B as (x' & Y & B); [|discriminate]. inversion B as [| | | | | | | |? ? ? K F' DA|? ? ? K F' W| | |]; subst; [now destruct Y|pose proof (format_one _ _ _ F F') as X; discriminate X|].
      apply be_moment; [exact K|exact F|]. constructor. exact (c10_datetime d V TZ).
    - assert (E : s = join (lit sp) (t :: ts)).
      { pose proof (c29_elements decode show_other fmt sp rs (t :: ts) SP FS) as X. rewrite SH in X. injection X as ->. destruct t; [now destruct NE|reflexivity]. }
      subst s. apply (list_back f x i (lit fmt) rs (t :: ts) B IT FS ND); [|apply (el_str f fmt sp (t :: ts) T SP); [discriminate|exact SE]].
      clear - SELF CS. induction CS as [|p rs C CS IH]; [intros p s y []|]. intros q s y [<-|I] BQ SQ; [exact (SELF _ _ C y s BQ SQ)|exact (IH q s y I BQ SQ)].
  Qed.
End Back.
