(** Proofs about copies of schemas. *)
From Coq Require Import QArith.
From Verif Require Import PyBase PyFacts M_Graph S_Graph M_Prim S_Prim M_Render S_Render S_Copies P_JBody.
Close Scope Q_scope.

Section Copies.
  Context (email_ok : str -> bool) (h : list schema) (xs ys : nat -> more) (R : nat -> nat -> Prop).
  Hypothesis CO : copies R h xs.
  Hypothesis NF : forall i, x_final (ys i) = None.
  Lemma plain_meant o t : target h o t -> meant h ys o t.
  Proof. intro T. exists t. rewrite NF. auto. Qed.
  Lemma copy_listed a b v : copy R a b -> listed a v -> listed b v.
  Proof. intros C [E|E]; [left|right; now apply (cp_enum _ _ _ C)]. destruct (s_enum b) as [|x l] eqn:EB; [reflexivity|]. pose proof (proj2 (cp_enum _ _ _ C x)) as X. rewrite EB, E in X. destruct (X (or_introl eq_refl)). Qed.
  Lemma copy_within a b q : copy R a b -> within a q -> within b q.
  Proof. intros C. destruct (cp_numbers _ _ _ C) as (A & B & D & E & _). unfold within. rewrite A, B, D, E. auto. Qed.
  Lemma copy_multiple a b q : copy R a b -> multiple a q -> multiple b q.
  Proof. intros C. destruct (cp_numbers _ _ _ C) as (_ & _ & _ & _ & E). unfold multiple. rewrite E. auto. Qed.
  Lemma copy_typed a b t : copy R a b -> typed a t -> typed b t.
  Proof. intros C. destruct (cp_kind _ _ _ C) as (_ & E & _). unfold typed. now rewrite E. Qed.
  Lemma copy_format a b l : copy R a b -> format_in a l <-> format_in b l.
  Proof. intros C. destruct (cp_kind _ _ _ C) as (_ & _ & E). unfold format_in. now rewrite E. Qed.
  Lemma copy_number a b : copy R a b -> number_kind a -> number_kind b.
  Proof. intros C (T & F). split; [exact (copy_typed _ _ _ C T)|]. now rewrite <- (copy_format _ _ _ C). Qed.
  Lemma copy_plain a b : copy R a b -> plain_text a -> plain_text b.
  Proof. intros C (T & F). split; [exact (copy_typed _ _ _ C T)|]. rewrite <- (copy_format _ _ _ C). destruct (cp_kind _ _ _ C) as (_ & _ & E). now rewrite <- E. Qed.
  Lemma copy_text_format a b f : copy R a b -> text_format a f -> text_format b f.
  Proof. intros C (T & F). split; [exact (copy_typed _ _ _ C T)|]. now rewrite <- (copy_format _ _ _ C). Qed.
  Lemma copy_text a b s : copy R a b -> text_ok a s -> text_ok b s.
  Proof. intros C (E & X). destruct (cp_sizes _ _ _ C) as (A & B & _). split; [exact (copy_listed a b _ C E)|]. now rewrite <- A, <- B. Qed.
  Lemma copy_count a b n : copy R a b -> count_ok a n -> count_ok b n.
  Proof. intros C. destruct (cp_sizes _ _ _ C) as (_ & _ & A & B & _). unfold count_ok. now rewrite A, B. Qed.
  Lemma copy_unique a b : copy R a b -> s_unique b = s_unique a.
  Proof. intros C. destruct (cp_sizes _ _ _ C) as (_ & _ & _ & _ & E). now symmetry. Qed.

  Lemma conforms_copied v : forall o o', R o o' -> conforms email_ok h xs o v -> conforms email_ok h ys o' v.
  Proof.
    induction v as [l IH|d IH|v NL ND] using value_ind'; intros o o' RO C.
    - inversion C as [|? ? ? ? M K NV| | | | | | | | |? ? ? M K FV|? t it ? M K IT FA CN UQ|? t M K CN|]; subst.
      + destruct NV as [NV|(z & NV & _)]; discriminate NV.
      + destruct FV as (d & E & _). discriminate E.
      + destruct (CO o o' RO t M) as (t' & T & CP). pose proof (cp_items _ _ _ CP) as CI. rewrite IT in CI. destruct (s_items (sch h t')) as [it'|] eqn:IT'; [|contradiction].
        eapply conf_array; [exact (plain_meant _ _ T)|exact (copy_typed _ _ _ CP K)|exact IT'| |exact (copy_count _ _ _ CP CN)|rewrite (copy_unique _ _ CP); exact UQ].
        rewrite Forall_forall in *. intros x I. exact (IH x I it it' CI (FA x I)).
      + destruct (CO o o' RO t M) as (t' & T & CP). eapply conf_empty; [exact (plain_meant _ _ T)|exact (copy_typed _ _ _ CP K)|exact (copy_count _ _ _ CP CN)].
    - inversion C as [|? ? ? ? M K NV| | | | | | | | |? t ? M K FV| | |? t ? M K FU ND RQ PR AD]; subst.
      + destruct NV as [NV|(z & NV & _)]; discriminate NV.
      + destruct (CO o o' RO t M) as (t' & T & CP). eapply conf_file; [exact (plain_meant _ _ T)|exact (copy_typed _ _ _ CP K)|exact FV].
      + destruct (CO o o' RO t M) as (t' & T & CP). destruct (cp_kind _ _ _ CP) as (KF & _ & _). rewrite Forall_forall in IH.
        eapply conf_object; [exact (plain_meant _ _ T)|exact (copy_typed _ _ _ CP K)|congruence|exact ND|intros k I; apply RQ; now apply (cp_required _ _ _ CP)| |].
        * intros k p x GP GX. pose proof (cp_props _ _ _ CP k) as X. rewrite GP in X. destruct (sget k (s_props (sch h t))) as [p0|] eqn:G0; [|contradiction]. exact (IH (k, x) (sget_In _ _ _ GX) p0 p X (PR k p0 x G0 GX)).
        * intros k x GP GX. pose proof (cp_props _ _ _ CP k) as X. rewrite GP in X. destruct (sget k (s_props (sch h t))) as [p0|] eqn:G0; [contradiction|]. destruct (AD k x G0 GX) as (a & EA & CA). pose proof (cp_more _ _ _ CP) as Y. rewrite EA in Y. destruct (s_addp (sch h t')) as [| |a'] eqn:EA'; try contradiction. exists a'. split; [reflexivity|]. exact (IH (k, x) (sget_In _ _ _ GX) a a' Y CA).
    - inversion C; subst; try (match goal with H : meant h xs o ?t |- _ => destruct (CO o o' RO t H) as (t' & T & CP) end);
        first [eapply conf_integer; eauto using plain_meant, copy_typed, copy_listed, copy_within, copy_multiple; fail
              |eapply conf_number; eauto using plain_meant, copy_number, copy_listed, copy_within, copy_multiple; fail
              |eapply conf_text; eauto using plain_meant, copy_plain, copy_text; fail
              |eapply conf_bool; eauto using plain_meant, copy_typed, copy_listed; fail
              |eapply conf_uuid; eauto using plain_meant, copy_text_format; fail
              |eapply conf_byte; eauto using plain_meant, copy_text_format; fail
              |eapply conf_byte_text; eauto using plain_meant, copy_text_format, copy_listed; fail
              |eapply conf_date; eauto using plain_meant, copy_text_format; fail
              |eapply conf_datetime; eauto using plain_meant, copy_text_format; fail
              |eapply conf_email; eauto using plain_meant, copy_text_format, copy_text; fail
              |eapply conf_file; eauto using plain_meant, copy_typed; fail
              |exfalso; eapply NL; reflexivity|exfalso; eapply ND; reflexivity].
  Qed.
End Copies.
