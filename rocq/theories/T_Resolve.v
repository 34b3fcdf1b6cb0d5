(** C64: what the tokens of a pointer lead to, and how they fail. *)
From Verif Require Import PyBase PyFacts PyInt PyJson M_JsonPtr S_JsonPtr P_JsonPtr M_Url S_Url P_Url P_Op M_SpecVal M_Parse M_SpecTree S_Parse S_SpecTree P_SpecTree M_App S_App P_App S_Resolve P_Resolve.
From Verif Require T_SpecTree P_Wf.
Close Scope Q_scope.

(** Resolving leads where the tokens lead, and nowhere else; *)
Theorem c64_leads : forall v ts x, resolve v ts = Ok x <-> leads v ts x.
Proof. intros. apply resolve_iff. Qed.
(** it fails at the first token that leads nowhere, with the exception of that. *)
Theorem c64_fails : forall v ts e, resolve v ts = Err e <-> exists us t rest y, ts = us ++ t :: rest /\ leads v us y /\ stuck y t e.
Proof. intros. apply resolve_error. Qed.
(** Integers written by decimal digits have their own value, negative ones too. *)
Theorem c64_decimal : forall z, integer_text (str_of_Z z) z.
Proof. intro z. apply py_int_iff, P_Int.py_int_str. Qed.
(** A text is no more than one integer. *)
Theorem c64_one_integer : forall t z z', integer_text t z -> integer_text t z' -> z = z'.
Proof. intros t z z' H H'. apply py_int_iff in H, H'. congruence. Qed.
(** So any element of a list is found by its number from the front and from the back. *)
Theorem c64_front : forall l i x, nth_error l i = Some x -> resolve (VList l) [str_of_Z (Z.of_nat i)] = Ok x.
Proof. intros l i x G. apply c64_leads. econstructor; [|constructor]. eapply st_front; [apply c64_decimal|exact G]. Qed.
Theorem c64_back : forall l i x, nth_error (rev l) i = Some x -> resolve (VList l) [str_of_Z (- Z.of_nat (S i))] = Ok x.
Proof. intros l i x G. apply c64_leads. econstructor; [|constructor]. eapply st_back; [apply c64_decimal|exact G]. Qed.
(** Tokens can be resolved one after the other. *)
Theorem c64_in_turn : forall v ts us x, resolve v (ts ++ us) = Ok x <-> exists y, resolve v ts = Ok y /\ resolve y us = Ok x.
Proof.
  intros v ts us x. split.
  - revert v. induction ts as [|t ts IH]; intros v E; [exists v; auto|]. apply c64_leads in E. inversion E as [|? ? w ? ? S L]; subst. apply c64_leads in L. destruct (IH _ L) as (y & Y & X). exists y. split; [|exact X]. apply c64_leads. econstructor; [exact S|]. now apply c64_leads.
  - intros (y & Y & X). apply c64_leads in Y. induction Y as [v|v t w ts y S L IH]; [exact X|]. cbn [List.app]. apply c64_leads. econstructor; [exact S|]. apply c64_leads. exact (IH X).
Qed.

(** ** References into the application's own document *)
Section Local.
  Context (abs_uri win_uri : str -> str) (fetch : str -> res json).
  Context {old : Type} (parse_old : str -> json -> res old) (upgrade : old -> res val) (as_is : old -> val).
  Notation solve := (resolvef abs_uri win_uri fetch parse_old upgrade as_is).
  Context (fuel : nat) (a : app) (p : option cls) (n : nat) (root : val).
  Hypothesis SO : sound a.
  Hypothesis RT : a_root a = Some (n, root).
  Lemma solve_local ts : solve (S fuel) a (Some (rfc_pointer (lit "#") ts)) p = (a, do x <- resolve root ts; answer (n, x)).
  Proof.
    cbn [resolvef]. unfold resolve_step. destruct (rfc_pointer (lit "#") ts) as [|c s] eqn:E; [discriminate E|]. rewrite <- E.
    assert (J : jr_split abs_uri win_uri (rfc_pointer (lit "#") ts) = Ok ([], rfc_pointer (lit "#") ts)) by apply (jr_split_local abs_uri win_uri). rewrite J. cbn [bind fst snd].
    assert (L : lookup a [] (rfc_pointer (lit "#") ts) = Ok None) by (unfold lookup; rewrite (so_local _ SO); reflexivity). rewrite L. cbn [bind nonempty].
    assert (H : startswith (rfc_pointer (lit "#") ts) "#"%string = true) by reflexivity. rewrite H. cbn [negb]. rewrite RT, split_hash. cbn [tl]. destruct (resolve root ts); reflexivity.
  Qed.
  (** What the tokens of a pointer lead to is returned, and the application stays as it is. *)
  Theorem c64_local : forall ts o, (exists a', solve (S fuel) a (Some (rfc_pointer (lit "#") ts)) p = (a', Ok o)) <-> exists x, o = (n, x) /\ leads root ts x /\ returned x.
  Proof.
    intros ts o. rewrite solve_local. split.
    - intros (a' & E). injection E as _ E. apply bind_ok in E as (x & X & E). exists x. unfold answer in E. cbn [snd] in E. apply c64_leads in X. destruct x; try discriminate E; injection E as <-; split; auto; split; auto; exact Logic.I.
    - intros (x & -> & L & R). apply c64_leads in L. rewrite L. exists a. unfold answer. cbn [bind snd]. destruct x; try reflexivity; destruct R.
  Qed.
  Theorem c64_unchanged : forall ts, fst (solve (S fuel) a (Some (rfc_pointer (lit "#") ts)) p) = a.
  Proof. intro ts. now rewrite solve_local. Qed.
  (** Failures: the first token that leads nowhere; nothing at all is there; or a float. *)
  Theorem c64_local_fails : forall ts e, (exists a', solve (S fuel) a (Some (rfc_pointer (lit "#") ts)) p = (a', Err e)) <->
    (exists us t rest y, ts = us ++ t :: rest /\ leads root us y /\ stuck y t e) \/ (leads root ts VNone /\ e = ValueError) \/ exists q, leads root ts (VFloat q) /\ e = TypeError.
  Proof.
    intros ts e. rewrite solve_local. split.
    - intros (a' & E). injection E as _ E. destruct (resolve root ts) as [x|e'] eqn:R; cbn [bind] in E.
      + right. apply c64_leads in R. unfold answer in E. cbn [snd] in E. destruct x; try discriminate E; injection E as <-; [left; auto|right; eauto].
      + injection E as ->. left. now apply c64_fails.
    - intros [F|[(L & ->)|(q & L & ->)]].
      + apply c64_fails in F. rewrite F. eauto.
      + apply c64_leads in L. rewrite L. eauto.
      + apply c64_leads in L. rewrite L. eauto.
  Qed.
End Local.
Print Assumptions c64_leads.
Print Assumptions c64_fails.
Print Assumptions c64_decimal.
Print Assumptions c64_one_integer.
Print Assumptions c64_front.
Print Assumptions c64_back.
Print Assumptions c64_in_turn.
Print Assumptions c64_local.
Print Assumptions c64_unchanged.
Print Assumptions c64_local_fails.

(** A document, and texts that are integers or not *)
Local Definition doc : json := JObj [(lit "swagger", JStr (lit "2.0")); (lit "paths", JObj []); (lit "tags", JList [JObj [(lit "name", JStr (lit "a"))]; JObj [(lit "name", JStr (lit "b"))]; JObj [(lit "name", JStr (lit "c"))]])].
Local Definition at_ (ts : list string) : res val := do v <- parse (Of CSwagger) [] doc; resolve v (map lit ts).
Example c64_ex : at_ ["tags"; "0"; "name"]%string = Ok (VStr (lit "a")) /\ at_ ["tags"; "-1"; "name"]%string = Ok (VStr (lit "c")) /\ at_ ["tags"; " +0_2 "; "name"; "x"]%string = Ok (VStr (lit "c")) /\
  at_ ["tags"; "3"]%string = Err IndexError /\ at_ ["tags"; "-4"]%string = Err IndexError /\ at_ ["tags"; "1.0"]%string = Err ValueError /\ at_ ["nothing"]%string = Err AttributeError /\ at_ ["paths"; "/a"]%string = Err KeyError.
Proof. vm_compute. repeat split. Qed.
(** An application with that document *)
Example c64_hypotheses : exists root, parse (Of CSwagger) [] doc = Ok root /\ let a := App [(lit "http://h/d", Whole (0, root))] (Some (0, root)) false 1 in sound a /\ a_root a = Some (0, root).
Proof.
  destruct (parse (Of CSwagger) [] doc) as [root|e] eqn:E; [|vm_compute in E; discriminate E]. exists root. split; [reflexivity|]. cbv zeta. split; [|reflexivity].
  assert (N : root <> VNone) by (destruct (T_SpecTree.c35_parsed CSwagger [] doc root) as (_ & O); [apply P_Wf.wfb_ok; vm_compute; reflexivity|exact E|intros ->; destruct O]).
  constructor; cbn [a_objs a_loads].
  - reflexivity.
  - intros url m v W. unfold whole in W. cbn [a_objs sget] in W. destruct (str_eqb url (lit "http://h/d")); [|discriminate W]. injection W as <- <-. split; [exact N|auto].
  - intros url k m v (d & W & _). cbn [a_objs sget] in W. destruct (str_eqb url (lit "http://h/d")); discriminate W.
  - intros url d W. cbn [sget] in W. destruct (str_eqb url (lit "http://h/d")); discriminate W.
Qed.
