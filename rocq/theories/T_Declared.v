(** C66: arguments of operations of created applications, and headers of responses, are checked and
    converted as the declarations of the document say. *)
From Coq Require Import QArith Lia.
From Verif Require Import PyBase PyFacts PyJson M_JsonPtr S_JsonPtr M_Url P_Op M_SpecVal M_Parse M_SpecTree M_Merge M_MergeRef S_Parse S_SpecTree S_Merge S_MergeRef M_Scope M_Patch S_Patch M_App M_OldValidate M_OldParse M_Prepare S_Prepare M_Quote S_Quote M_Client S_Client M_Request S_Request M_Op S_Op M_Contrib S_Contrib M_Invoke S_Invoke T_Contrib T_Prepare T_Invoke.
From Verif Require Import M_Declared S_Declared P_Declared P_Declared2 P_Declared3 P_Declared4 T_Swagger20.
From Verif Require Import P_Wf.
From Verif Require M_Prim M_PrimText M_Time P_SpecBase.
Close Scope Q_scope.
Open Scope nat_scope.

Section Oracles.
  (** As in M_Prim *)
  Context (int_of : str -> res Z) (float_of : str -> res Q) (str_of : M_Prim.value -> str)
    (date_at : Q -> res (Z * Z * Z)) (datetime_at : Q -> res M_Time.datetime) (uuid_of : str -> option Z) (email_ok : str -> bool).
  Notation becomes := (becomes int_of float_of str_of date_at datetime_at uuid_of email_ok).
  Notation produce_declared := (produce_declared int_of float_of str_of date_at datetime_at uuid_of email_ok).

  (** A primitive is made for a value exactly if the value is one that the declaration takes, and
      then it is the right one. *)
  Theorem c66_made : forall f, in_order f -> forall read x r, produce_declared read f x = Ok r <-> becomes f x r.
  Proof. intros f O read x r. now apply declared_becomes. Qed.
  (** All other values are refused, and nothing becomes two things. *)
  Theorem c66_refused : forall f, in_order f -> forall read x, (forall r, ~ becomes f x r) -> exists e, produce_declared read f x = Err e.
  Proof. intros f O read x N. destruct (produce_declared read f x) as [r|e] eqn:E; [|eauto]. apply c66_made in E; [|exact O]. now apply N in E. Qed.
  Theorem c66_one : forall f, in_order f -> forall x r r', becomes f x r -> becomes f x r' -> r = r'.
  Proof. intros f O x r r' A B. apply (c66_made f O true) in A, B. congruence. Qed.
  (** Declarations are in order if they are written in documents with the right types, *)
  Theorem c66_written : forall c, c = CParameter \/ c = CItems \/ c = CHeader -> forall pl j v, wf j -> written j -> parse (Of c) pl j = Ok v -> in_order v.
  Proof.
    intros c C pl j v W WR P. apply (written_in_order j WR c v C). apply (c62_reads c pl j v); [|exact W|exact P]. destruct C as [-> | [-> | ->]]; exact Logic.I.
  Qed.
  (** and so is what the references of parameters lead to.  A parameter that refers to nothing says
      the same in the application. *)
  Theorem c66_combined : forall l f, combined CParameter l f -> (forall o, In o l -> in_order o /\ plainly o /\ is_class CParameter o) ->
    in_order f /\ forall o, l = [o] -> forall x r, becomes f x r <-> becomes o x r.
  Proof.
    intros l f CB OK. split; [now apply (combined_order l)|]. intros o E x r. destruct (combined_alike l f CB OK o E) as (A & B). split; now apply alike_becomes.
  Qed.

  (** ** Calling *)
  Section Called.
    Context (model : bool -> val -> M_Prim.value -> res M_Prim.prim).
    Notation produce := (produce_any int_of float_of str_of date_at datetime_at uuid_of email_ok model).
    (** The application, its document and an operation of it, as in C59 *)
    Context (abs_uri win_uri : str -> str) (fetch : str -> res json) (prim : str -> bool) (num : str -> res Q) (sep : str) (fuel : nat).
    Hypothesis JD : forall j x, fetch j = Ok x -> wf x.
    Hypothesis NEW : forall j x v, fetch j = Ok x -> version_of x = Ok v -> is_version v "1.2" = false.
    Context (url nu u : str) (strict : bool) (pr : prepared).
    Hypothesis N : normalize_url abs_uri win_uri url = Ok nu.
    Hypothesis J : jr_split abs_uri win_uri nu = Ok (u, lit "#").
    Hypothesis U : u <> [].
    Hypothesis CR : create_app abs_uri win_uri fetch prim num sep fuel url strict = Ok pr.
    Context (doc root : val).
    Hypothesis FT : found_there fetch nu u pr doc root.
    Context (k m : str) (pi op pi' op' : val).
    Hypothesis PI : path_item doc k pi.
    Hypothesis OP : operation pi m op.
    Hypothesis PI' : path_item root k pi'.
    Hypothesis OP' : operation pi' m op'.
    Context {R : Type} (urls : M_Prim.prim -> option (list str)) (show : M_Prim.prim -> str) (files : M_Prim.prim -> list file) (ptext : M_Prim.prim -> option str)
      (encode : val -> str -> M_Prim.prim -> res str) (decode : val -> str -> R -> res M_Prim.value) (disk : str -> res str).
    (** Only arrays are sent as lists. *)
    Hypothesis AR : forall c, urls c <> None -> exists fmt l, c = M_Prim.PArray fmt l.
    Hypothesis NR : field_of pi (lit "$ref") = Some VNone.
    Context (ss : list val) (rs : sdict val).
    Hypothesis SL : field_of pi (lit "parameters") = Some (VList ss).
    Hypothesis US : Forall (usable abs_uri win_uri u doc) ss.
    Hypothesis UO : forall os, field_of op (lit "parameters") = Some (VList os) -> Forall (usable abs_uri win_uri u doc) os.
    Hypothesis RS : field_of op (lit "responses") = Some (VDict rs).
    Hypothesis LR : forall n r, In (n, r) rs -> exists l, leads abs_uri win_uri u doc CResponse r l.
    Notation declares := (declares value_of produce).
    Notation call := (call urls show files value_of produce).
    (** [f] is what the parameter [p] of the document and its references say. *)
    Definition says_of (p f : val) : Prop := exists l, leads abs_uri win_uri u doc CParameter p l /\ combined CParameter l f.
    (** The value [x] is given for the parameter [f], by the caller or by the default. *)
    Definition gets (args : sdict M_Prim.value) (f : val) (x : M_Prim.value) : Prop := exists n, text_at f "name" n /\
      (sget n args = Some x \/ sget n args = None /\ says f (lit "default") /\ exists d, field_of f (lit "default") = Some d /\ x = value_of d).
    Definition outside_body (f : val) : Prop := exists i, text_at f "in" i /\ i <> lit "body".

    Lemma declares_prim f q : declares f q -> outside_body f -> in_order f -> forall x c, q_prim q x = Ok c <-> becomes f x c.
    Proof.
      intros D (i & I & NB) O x c. assert (QI : q_in q = i) by (pose proof (de_in _ _ _ _ D) as X; unfold text_at in I; congruence).
      destruct (de_prim _ _ _ _ D) as (s & _ & X). destruct (X x) as [(B & _)|(_ & ->)]; [congruence|]. unfold produce_any.
      assert (SC : same_class CSchema f = false). { inversion O as [y C]; subst y. destruct f as [| | | | | | |h fs ints]; try reflexivity. cbn [same_class]. destruct C as [-> | [-> | ->]]; reflexivity. }
      rewrite SC. now apply c66_made.
    Qed.
    Lemma gets_supplied args f q x : declares f q -> gets args f x <-> supplied args q = Some x.
    Proof.
      intro D. pose proof (de_name _ _ _ _ D) as NM. destruct (de_default _ _ _ _ D) as (d & FD & DF). unfold gets, supplied, text_at. split.
      - intros (n & NF & [G|(G & SY & d' & FD' & ->)]); assert (n = q_name q) as -> by congruence; rewrite G; [reflexivity|]. destruct DF as [(_ & DQ)|(NS & _)]; [|now destruct NS]. congruence.
      - intro S. exists (q_name q). split; [exact NM|]. destruct (sget (q_name q) args) as [v|]; [left; congruence|right]. split; [reflexivity|]. destruct DF as [(SY & DQ)|(NS & DQ)]; [|congruence]. split; [exact SY|]. exists d. split; [exact FD|congruence].
    Qed.
    Lemma converted_in args (qs : list (param (V:=M_Prim.value) (P:=M_Prim.prim))) : forall cs, converted args qs cs -> forall q c, In (q, c) cs -> In q qs /\ exists x, supplied args q = Some x /\ q_prim q x = Ok c.
    Proof.
      induction qs as [|q0 qs IH]; intros cs C q c I; cbn [converted] in C; [subst cs; destruct I|]. destruct (supplied args q0) as [v|] eqn:SU.
      - destruct C as (c0 & cs' & -> & P & C). destruct I as [E|I]; [injection E as <- <-; split; [now left|eauto]|]. destruct (IH _ C _ _ I) as (A & B). split; [now right|exact B].
      - destruct C as (_ & C). destruct (IH _ C _ _ I) as (A & B). split; [now right|exact B].
    Qed.
    Lemma in_converted args (qs : list (param (V:=M_Prim.value) (P:=M_Prim.prim))) : forall cs, converted args qs cs -> forall q x, In q qs -> supplied args q = Some x -> exists c, In (q, c) cs /\ q_prim q x = Ok c.
    Proof.
      induction qs as [|q0 qs IH]; intros cs C q x I SU; [destruct I|]. cbn [converted] in C. destruct I as [->|I].
      - rewrite SU in C. destruct C as (c0 & cs' & -> & P & C). exists c0. split; [now left|exact P].
      - destruct (supplied args q0) as [v|].
        + destruct C as (c0 & cs' & -> & P & C). destruct (IH _ C _ _ I SU) as (c & A & B). exists c. split; [now right|exact B].
        + destruct C as (_ & C). now apply (IH _ C).
    Qed.
    Lemma all_converted args (qs : list (param (V:=M_Prim.value) (P:=M_Prim.prim))) : (forall q, In q qs -> match supplied args q with Some x => exists c, q_prim q x = Ok c | None => q_required q = false end) -> exists cs, converted args qs cs.
    Proof.
      induction qs as [|q qs IH]; intro A; [exists []; reflexivity|]. destruct IH as (cs & C); [intros x I; apply A; now right|]. specialize (A q (or_introl eq_refl)). cbn [converted]. destruct (supplied args q) as [x|].
      - destruct A as (c & P). exists ((q, c) :: cs). eauto.
      - exists cs. auto.
    Qed.
    Lemma Forall2_left {A B} (Q : A -> B -> Prop) l l' x : Forall2 Q l l' -> In x l -> exists y, In y l' /\ Q x y.
    Proof. induction 1 as [|a b l l' H F IH]; [intros []|]. intros [->|I]; [exists b; split; [now left|exact H]|]. destruct (IH I) as (y & Y & Z). exists y. split; [now right|exact Z]. Qed.
    Lemma Forall2_right {A B} (Q : A -> B -> Prop) l l' y : Forall2 Q l l' -> In y l' -> exists x, In x l /\ Q x y.
    Proof. induction 1 as [|a b l l' H F IH]; [intros []|]. intros [->|I]; [exists a; split; [now left|exact H]|]. destruct (IH I) as (x & X & Z). exists x. split; [now right|exact Z]. Qed.
    Lemma array_items f x fmt l : in_order f -> becomes f x (M_Prim.PArray fmt l) -> field_of f (lit "items") <> Some VNone.
    Proof.
      intros O. assert (K : forall x, x <> M_Prim.VNull -> becomes f x (M_Prim.PArray fmt l) -> field_of f (lit "items") <> Some VNone).
      { intros y NY B. assert (T : of_type f "array").
        { inversion B; subst; try (now destruct NY); try assumption; match goal with H : date _ _ (M_Prim.PArray _ _) |- _ => inversion H | _ => idtac end. }
        inversion O as [z _ _ _ _ _ _ _ _ _ IT]; subst z. destruct IT as [(_ & NA)|(i & F & IO)]; [now destruct NA|]. rewrite F. intro E. injection E as ->. inversion IO as [z Cz]; subst. destruct Cz. }
      intro B. destruct (M_Prim.is_null x) eqn:NX; [destruct x; try discriminate NX; apply becomes_null in B as [(_ & E)|(d & y & _ & _ & NY & B)]; [discriminate E|eauto]|]. apply (K x); [intros ->; discriminate NX|exact B].
    Qed.
    (** The parameters of an operation are [fs].  If a call succeeds, all values that the caller or
        the document gives have become what they are declared to become.  If a value that is given
        for a parameter is not one that it takes, the call fails; if all are and nothing is missing
        it succeeds. *)
    Theorem c66_call : exists ps fs qs, accepted abs_uri win_uri u doc op pi ps /\ Forall2 says_of ps fs /\ Forall2 declares fs qs /\ forall args,
      (forall r, call op' args = Ok r -> exists cs, converted args qs cs /\ arranged urls show files cs (r_p r) /\
         (forall f, In f fs -> outside_body f -> in_order f -> forall x, gets args f x -> exists q c, In (q, c) cs /\ declares f q /\ becomes f x c) /\
         (forall q c, In (q, c) cs -> exists f, In f fs /\ declares f q /\ exists x, gets args f x /\ (outside_body f -> in_order f -> becomes f x c))) /\
      (forall f x, In f fs -> outside_body f -> in_order f -> gets args f x -> (forall c, ~ becomes f x c) -> exists e, call op' args = Err e) /\
      (forall co pd, taken "consumes" op doc co -> taken "produces" op doc pd ->
         (forall n, In n (map fst args) -> exists f, In f fs /\ text_at f "name" n) ->
         (forall f, In f fs -> match field_of f (lit "required") with Some v => empty_value v | None => False end \/ exists x, gets args f x) ->
         (forall f x, In f fs -> gets args f x -> (outside_body f -> in_order f /\ exists c, becomes f x c) /\ (text_at f "in" (lit "body") -> exists s c, field_of f (lit "schema") = Some s /\ produce false s x = Ok c)) ->
         exists r, call op' args = Ok r).
    Proof.
      destruct (c59_call abs_uri win_uri fetch prim num sep fuel JD NEW url nu u strict pr N J U CR doc root FT k m pi op pi' op' PI OP PI' OP' urls show files value_of produce NR ss SL US UO) as (ps & qs & AC & ST & CA).
      assert (X : exists fs, Forall2 says_of ps fs /\ Forall2 declares fs qs).
      { clear - ST. induction ST as [|p q ps qs (l & f & L & C & D) F (fs & A & B)]; [exists []; split; constructor|]. exists (f :: fs). split; constructor; auto. exists l. auto. }
      destruct X as (fs & SF & DF). exists ps, fs, qs. split; [exact AC|]. split; [exact SF|]. split; [exact DF|]. intro args. destruct (CA args) as (C1 & C2).
      assert (OKAY : forall r, call op' args = Ok r -> exists cs, converted args qs cs /\ arranged urls show files cs (r_p r) /\
         (forall f, In f fs -> outside_body f -> in_order f -> forall x, gets args f x -> exists q c, In (q, c) cs /\ declares f q /\ becomes f x c) /\
         (forall q c, In (q, c) cs -> exists f, In f fs /\ declares f q /\ exists x, gets args f x /\ (outside_body f -> in_order f -> becomes f x c))).
      { intros r E. destruct (C1 r E) as (_ & cs & s & host & base & os & co & pd & CV & AG & _). exists cs. split; [exact CV|]. split; [exact AG|]. split.
        - intros f I OB O x G. destruct (Forall2_left _ _ _ _ DF I) as (q & Q & D). apply (gets_supplied args f q x D) in G. destruct (in_converted args qs cs CV q x Q G) as (c & IC & P). exists q, c. split; [exact IC|]. split; [exact D|]. now apply (declares_prim f q D OB O).
        - intros q c I. destruct (converted_in args qs cs CV q c I) as (Q & x & SU & P). destruct (Forall2_right _ _ _ _ DF Q) as (f & F & D). exists f. split; [exact F|]. split; [exact D|]. exists x. split; [now apply (gets_supplied args f q x D)|]. intros OB O. now apply (declares_prim f q D OB O). }
      split; [exact OKAY|]. split.
      - intros f x I OB O G NO. destruct (call op' args) as [r|e] eqn:E; [|eauto]. destruct (OKAY r eq_refl) as (cs & _ & _ & A & _). destruct (A f I OB O x G) as (q & c & _ & _ & B). now apply NO in B.
      - intros co pd TC TP KN RQ VA.
        assert (ALL : forall q, In q qs -> match supplied args q with Some x => exists c, q_prim q x = Ok c | None => q_required q = false end).
        { intros q Q. destruct (Forall2_right _ _ _ _ DF Q) as (f & F & D). destruct (supplied args q) as [x|] eqn:SU.
          - apply (gets_supplied args f q x D) in SU. destruct (VA f x F SU) as (V1 & V2). destruct (str_eqb_spec (q_in q) (lit "body")) as [B|B].
            + destruct V2 as (s & c & FS & P); [unfold text_at; rewrite <- B; exact (de_in _ _ _ _ D)|]. exists c. destruct (de_prim _ _ _ _ D) as (s' & FS' & X). destruct (X x) as [(_ & ->)|(NB & _)]; [|now destruct NB]. assert (s' = s) as -> by congruence. exact P.
            + assert (OB : outside_body f) by (exists (q_in q); split; [exact (de_in _ _ _ _ D)|exact B]). destruct (V1 OB) as (O & c & BC). exists c. now apply (declares_prim f q D OB O).
          - destruct (RQ f F) as [E|(x & G)]; [|apply (gets_supplied args f q x D) in G; congruence]. destruct (de_required _ _ _ _ D) as (r & FR & X). rewrite FR in E. now apply X. }
        destruct (all_converted args qs ALL) as (cs & CV). refine (proj1 (C2 cs co pd CV _ TC TP) _).
        + intros [q c] I. destruct (converted_in args qs cs CV q c I) as (Q & x & SU & P). destruct (Forall2_right _ _ _ _ DF Q) as (f & F & D). intros NF LI UN. cbn [fst snd] in *.
          destruct (AR c UN) as (fmt & l & ->). apply (gets_supplied args f q x D) in SU. destruct (VA f x F SU) as (V1 & _).
          assert (OB : outside_body f). { exists (q_in q). split; [exact (de_in _ _ _ _ D)|]. destruct LI as [-> | ->]; discriminate. }
          destruct (V1 OB) as (O & _). apply (declares_prim f q D OB O) in P. pose proof (array_items f x fmt l O P) as NI. destruct (de_items _ _ _ _ D) as (i & FI & [(-> & _)|(t & y & _ & QI & _)]); [now destruct NI|]. rewrite QI. discriminate.
        + intros n I. destruct (KN n I) as (f & F & NM). destruct (Forall2_left _ _ _ _ DF F) as (q & Q & D). pose proof (de_name _ _ _ _ D) as NQ. unfold text_at in NM. assert (n = q_name q) as -> by congruence. now apply in_map.
    Qed.
    (** Headers of responses become what the response of the document for their status declares
        them to become; if that is impossible the response is not read. *)
    Theorem c66_header : forall send c sec args b opt hs sent w,
      use_op urls show files ptext value_of M_Prim.VStr produce encode decode disk send c sec op' args b opt hs sent = Ok (w, Ok tt) ->
      exists msg y, w_sent w = sent ++ [msg] /\ send sent msg = Ok y /\
      forall r, match sget (str_of_Z (y_status y)) rs with Some r' => r = r' | None => sget (lit "default") rs = Some r end ->
      exists l f hd all, leads abs_uri win_uri u doc CResponse r l /\ combined CResponse l f /\ field_of f (lit "headers") = Some hd /\
        (forall n, values n (w_resp w) = map snd (filter (fun e => str_eqb (lower (fst (fst e))) (lower n)) (combine (y_headers y) all))) /\
        Forall2 (fun kv v => forall h x, key_in (fst kv) hd = Some h -> snd kv = inl x -> in_order h -> exists p, v = inr p /\ becomes h (M_Prim.VStr x) p) (y_headers y) all.
    Proof.
      intros send c sec args b opt hs sent w E.
      destruct (c59_response abs_uri win_uri fetch prim num sep fuel JD NEW url nu u strict pr N J U CR doc root FT k m pi op pi' op' PI OP PI' OP' urls show files ptext value_of M_Prim.VStr produce encode decode disk rs RS LR send c sec args b opt hs sent w E) as (msg & y & A & B & _ & _ & X).
      exists msg, y. split; [exact A|]. split; [exact B|]. intros r RR.
      assert (Y : exists l f, leads abs_uri win_uri u doc CResponse r l /\ combined CResponse l f /\ exists hd all, field_of f (lit "headers") = Some hd /\
           Forall2 (fun kv v => match key_in (fst kv) hd, snd kv with
                                | Some h, inl x => exists p, produce true h (M_Prim.VStr x) = Ok p /\ v = inr p
                                | Some _, inr p => True
                                | None, x => v = x
                                end) (y_headers y) all /\
           forall n, values n (w_resp w) = map snd (filter (fun e => str_eqb (lower (fst (fst e))) (lower n)) (combine (y_headers y) all))).
      { destruct (sget (str_of_Z (y_status y)) rs) as [r'|]; [subst r'|rewrite RR in X]; destruct X as (l & f & L & C & H & _); exists l, f; auto. }
      destruct Y as (l & f & L & C & hd & all & F & H & VA). exists l, f, hd, all. split; [exact L|]. split; [exact C|]. split; [exact F|]. split; [exact VA|].
      clear - H. induction H as [|kv v yh all H F IH]; constructor; [|exact IH]. intros h x K S O. rewrite K, S in H. destruct H as (p & P & ->). exists p. split; [reflexivity|]. unfold produce_any in P.
      assert (SC : same_class CSchema h = false). { inversion O as [y0 C]; subst y0. destruct h as [| | | | | | |hh fs ints]; try reflexivity. cbn [same_class]. destruct C as [-> | [-> | ->]]; reflexivity. }
      rewrite SC in P. now apply c66_made in P.
    Qed.
  End Called.
End Oracles.
Print Assumptions c66_made.
Print Assumptions c66_refused.
Print Assumptions c66_one.
Print Assumptions c66_written.
Print Assumptions c66_combined.
Print Assumptions c66_call.
Print Assumptions c66_header.

(** ** What the specification wants and is not done *)
Local Definition js (x : string) : json := JStr (lit x).
Definition ex_int (s : str) : res Z := match s with [c] => if (48 <=? nat_of_ascii c) && (nat_of_ascii c <=? 57) then Ok (Z.of_nat (nat_of_ascii c - 48)) else Err ValueError | _ => Err ValueError end.
Definition ex_made (v : val) (x : M_Prim.value) : res M_Prim.prim :=
  produce_declared ex_int (fun _ => Err ValueError) (fun _ => lit "?") (fun _ => Err ValueError) (fun _ => Err ValueError) (fun _ => None) (fun _ => true) false v x.
(** Checking that a written declaration is in order *)
Definition givenb (d : sdict json) (ok : json -> bool) (n : string) : bool := match sget (lit n) d with None | Some JNull => true | Some w => ok w end.
Fixpoint writtenb (n : nat) (j : json) : bool :=
  match n, j with
  | S n, JObj d =>
      forallb (givenb d (fun w => match w with JStr _ => true | _ => false end)) ["name"; "type"; "format"]%string &&
      forallb (givenb d (fun w => match w with JInt _ | JFloat _ => true | _ => false end)) ["maximum"; "minimum"; "multipleOf"]%string &&
      forallb (givenb d (fun w => match w with JInt _ => true | _ => false end)) ["maxLength"; "minLength"; "maxItems"; "minItems"]%string &&
      givenb d (fun w => match w with JList _ => true | _ => false end) "enum" &&
      match sget (lit "collectionFormat") d with None | Some (JStr _) => true | _ => false end &&
      match sget (lit "items") d with
      | None | Some JNull => match sget (lit "type") d with Some (JStr s) => negb (str_eqb s (lit "array")) | _ => true end
      | Some i => writtenb n i
      end
  | _, _ => false
  end.
Lemma givenb_ok d b (ok : json -> Prop) n : (forall w, b w = true -> ok w) -> givenb d b n = true -> given d n ok.
Proof. intros H E. unfold givenb in E. destruct (sget (lit n) d) as [w|] eqn:G; [|now apply gi_absent]. destruct w; [now apply gi_null| | | | | |]; (apply (gi_there _ _ _ _ G); apply H; exact E). Qed.
Lemma writtenb_ok n : forall j, writtenb n j = true -> written j.
Proof.
  induction n as [|n IH]; intros j E; [discriminate E|]. destruct j as [| | | | | |d]; try discriminate E. cbn [writtenb] in E.
  apply andb_prop in E as (E & It). apply andb_prop in E as (E & Cf). apply andb_prop in E as (E & En). apply andb_prop in E as (E & Si). apply andb_prop in E as (Tx & Nu). rewrite forallb_forall in Tx, Nu, Si.
  constructor.
  - apply Forall_forall. intros x I. refine (givenb_ok _ _ _ _ _ (Tx x I)). intros w H. destruct w; try discriminate H; eexists; reflexivity.
  - apply Forall_forall. intros x I. refine (givenb_ok _ _ _ _ _ (Nu x I)). intros w H. destruct w; try discriminate H; [left|right]; eexists; reflexivity.
  - apply Forall_forall. intros x I. refine (givenb_ok _ _ _ _ _ (Si x I)). intros w H. destruct w; try discriminate H; eexists; reflexivity.
  - refine (givenb_ok _ _ _ _ _ En). intros w H. destruct w; try discriminate H; eexists; reflexivity.
  - destruct (sget (lit "collectionFormat") d) as [w|]; [|now left]. destruct w; try discriminate Cf. right. eauto.
  - assert (NA : match sget (lit "type") d with Some (JStr s) => negb (str_eqb s (lit "array")) | _ => true end = true -> sget (lit "type") d <> Some (JStr (lit "array"))) by (intros H X; rewrite X in H; discriminate H).
    destruct (sget (lit "items") d) as [w|]; [|left; auto]. destruct w; try (left; split; [now right|now apply NA]); right; eexists; (split; [reflexivity|now apply IH]).
Qed.
Definition written_here (j : json) : Prop := wf j /\ written j.
Lemma written_check j : wfb j = true -> writtenb 9 j = true -> written_here j.
Proof. intros A B. split; [now apply wfb_ok|now apply (writtenb_ok 9)]. Qed.
(** Lengths are not limited by 0, *)
Theorem c66_zero_refuted : exists j v x, written_here j /\ parse (Of CParameter) [] j = Ok v /\ size_at v "maxLength" 0 /\ ex_made v (M_Prim.VStr x) = Ok (M_Prim.PStr x) /\ length x = 3.
Proof.
  exists (JObj [(lit "name", js "a"); (lit "in", js "query"); (lit "type", js "string"); (lit "maxLength", JInt 0)]). eexists. exists (lit "abc"). split; [apply written_check; vm_compute; reflexivity|]. split; [vm_compute; reflexivity|]. split; [vm_compute; reflexivity|]. split; vm_compute; reflexivity.
Qed.
(** numbers are not checked to be one of those that are listed, *)
Theorem c66_enum_refuted : exists j v, written_here j /\ parse (Of CParameter) [] j = Ok v /\ field_of v (lit "enum") = Some (VList [VInt 1; VInt 2]) /\ ex_made v (M_Prim.VInt 3) = Ok (M_Prim.PInt 3).
Proof.
  exists (JObj [(lit "name", js "a"); (lit "in", js "query"); (lit "type", js "integer"); (lit "enum", JList [JInt 1; JInt 2])]). eexists. split; [apply written_check; vm_compute; reflexivity|]. split; [vm_compute; reflexivity|]. split; vm_compute; reflexivity.
Qed.
(** and texts are not checked to match a pattern (here, "b" does not match "^a$"). *)
Theorem c66_pattern_refuted : exists j v, written_here j /\ parse (Of CParameter) [] j = Ok v /\ text_at v "pattern" (lit "^a$") /\ ex_made v (M_Prim.VStr (lit "b")) = Ok (M_Prim.PStr (lit "b")).
Proof.
  exists (JObj [(lit "name", js "a"); (lit "in", js "query"); (lit "type", js "string"); (lit "pattern", js "^a$")]). eexists. split; [apply written_check; vm_compute; reflexivity|]. split; [vm_compute; reflexivity|]. split; vm_compute; reflexivity.
Qed.
Print Assumptions c66_zero_refuted.
Print Assumptions c66_enum_refuted.
Print Assumptions c66_pattern_refuted.

(** ** An application *)
Definition shop : json := JObj
  [(lit "swagger", js "2.0"); (lit "paths", JObj [(lit "/list", JObj
     [(lit "get", JObj [(lit "operationId", js "list");
        (lit "parameters", JList [JObj [(lit "name", js "count"); (lit "in", js "query"); (lit "type", js "integer"); (lit "maximum", JInt 5); (lit "default", JInt 2)];
                                  JObj [(lit "$ref", js "#/parameters/kinds")]]);
        (lit "responses", JObj [(lit "200", JObj [(lit "description", js "all"); (lit "headers", JObj [(lit "X-Left", JObj [(lit "type", js "integer")])])])])])])]);
   (lit "parameters", JObj [(lit "kinds", JObj [(lit "name", js "kinds"); (lit "in", js "query"); (lit "type", js "array"); (lit "collectionFormat", js "pipes"); (lit "minItems", JInt 2);
      (lit "items", JObj [(lit "type", js "string"); (lit "enum", JList [js "new"; js "old"])])])])].
Definition shop_app : prepared := match T_Prepare.made shop true with Ok pr => pr | Err _ => Prepared (App [] None false 0) [] VNone [] [] [] [] end.
Definition shop_doc : val := match parse (Of CSwagger) [] shop with Ok raw => match norm_refs there raw with Ok d => d | Err _ => VNone end | Err _ => VNone end.
Definition shop_root : val := match a_root (pr_app shop_app) with Some (_, v) => v | None => VNone end.
Lemma shop_made : create_app (fun s => s) (fun s => s) (web shop) (fun _ => false) (fun _ => Err ValueError) SCOPE_SEPARATOR 10 there true = Ok shop_app. Proof. vm_compute. reflexivity. Qed.
Example c66_hypotheses : (forall j x, web shop j = Ok x -> wf x) /\ (forall j x v, web shop j = Ok x -> version_of x = Ok v -> is_version v "1.2" = false) /\ found_there (web shop) there there shop_app shop_doc shop_root.
Proof.
  assert (W : forall j x, web shop j = Ok x -> wf x) by (apply web_wf, wfb_ok; vm_compute; reflexivity).
  assert (NV : forall j x v, web shop j = Ok x -> version_of x = Ok v -> is_version v "1.2" = false) by (intros j x v E V; unfold web in E; destruct (str_eqb j there); [|discriminate E]; injection E as <-; vm_compute in V; injection V as <-; reflexivity).
  split; [exact W|]. split; [exact NV|]. destruct c57_hypotheses as (_ & _ & H3 & H4 & H5).
  destruct (c57_document (fun s => s) (fun s => s) (web shop) (fun _ => false) (fun _ => Err ValueError) SCOPE_SEPARATOR 10 W NV there there there true shop_app H3 H4 H5 shop_made) as (d & rt & (j & raw & F & PJ & NO & RT & WW) & _).
  assert (E : j = shop) by (unfold web in F; rewrite str_eqb_refl in F; congruence). subst j. assert (D : shop_doc = d) by (unfold shop_doc; rewrite PJ, NO; reflexivity). assert (R : shop_root = rt) by (unfold shop_root; rewrite RT; reflexivity). subst. exists shop, raw. auto.
Qed.
Definition shop_op (v : val) : val := at_ v ["paths"; "/list"; "get"]%string.
Definition shop_parameters : list val := list_in (at_ shop_doc ["paths"; "/list"; "get"; "parameters"]%string).
Lemma shop_usable l : forallb (usableb there shop_doc) l = true -> Forall (usable (fun s => s) (fun s => s) there shop_doc) l.
Proof. intros E. rewrite forallb_forall in E. apply Forall_forall. intros p I. apply usableb_ok, E, I. Qed.
Example c66_ex_parameters : length shop_parameters = 2 /\ field_of (shop_op shop_doc) (lit "parameters") = Some (VList shop_parameters) /\ Forall (usable (fun s => s) (fun s => s) there shop_doc) shop_parameters /\
  field_of (at_ shop_doc ["paths"; "/list"]%string) (lit "$ref") = Some VNone.
Proof.
  split; [vm_compute; reflexivity|]. split; [vm_compute; reflexivity|]. split; [|vm_compute; reflexivity]. apply shop_usable. vm_compute. reflexivity.
Qed.
(** The declarations are in order and plain. *)
Definition field_okb (f : val) (b : val -> bool) (n : string) : bool := match field_of f (lit n) with Some v => b v | None => false end.
Definition no_containerb (v : val) : bool := match v with VList _ | VDict _ => false | _ => true end.
Fixpoint in_orderb (n : nat) (f : val) : bool :=
  match n with
  | O => false
  | S n =>
      match f with VObj h _ _ => match h_cls h with CParameter => field_okb f (fun v => match v with VNone | VStr _ => true | _ => false end) "name" | CItems | CHeader => true | _ => false end | _ => false end &&
      forallb (field_okb f (fun v => match v with VNone | VStr _ => true | _ => false end)) ["type"; "format"]%string &&
      forallb (field_okb f (fun v => match v with VNone | VInt _ | VFloat _ => true | _ => false end)) ["maximum"; "minimum"; "multipleOf"]%string &&
      forallb (field_okb f (fun v => match v with VNone | VInt _ => true | _ => false end)) ["maxLength"; "minLength"; "maxItems"; "minItems"]%string &&
      forallb (field_okb f no_containerb) ["exclusiveMaximum"; "exclusiveMinimum"; "uniqueItems"]%string &&
      field_okb f (fun v => match v with VNone | VList _ => true | _ => false end) "enum" &&
      field_okb f (fun v => match v with VNone | VBool _ | VInt _ | VFloat _ | VStr _ => true | _ => false end) "default" &&
      field_okb f (fun v => match v with VStr _ => true | _ => false end) "collectionFormat" &&
      match field_of f (lit "items") with
      | Some VNone => match field_of f (lit "type") with Some (VStr s) => negb (str_eqb s (lit "array")) | _ => true end
      | Some i => in_orderb n i
      | None => false
      end
  end.
Lemma field_okb_ok f b (ok : val -> Prop) n : (forall v, b v = true -> ok v) -> field_okb f b n = true -> field_ok f ok n.
Proof. intros H E. unfold field_okb in E. destruct (field_of f (lit n)) as [v|] eqn:F; [|discriminate E]. exists v. auto. Qed.
Lemma in_orderb_ok n : forall f, in_orderb n f = true -> in_order f /\ plainly f.
Proof.
  induction n as [|n IH]; intros f E; [discriminate E|]. cbn [in_orderb] in E.
  apply andb_prop in E as (E & It). apply andb_prop in E as (E & Cf). apply andb_prop in E as (E & Df). apply andb_prop in E as (E & En). apply andb_prop in E as (E & Fl). apply andb_prop in E as (E & Si). apply andb_prop in E as (E & Nu). apply andb_prop in E as (Cl & Tx). rewrite forallb_forall in Tx, Nu, Si, Fl.
  assert (T : forall m, field_okb f (fun v => match v with VNone | VStr _ => true | _ => false end) m = true -> field_ok f text_or_none m) by (intros m; apply field_okb_ok; intros v H; destruct v; try discriminate H; [now left|right; eexists; reflexivity]).
  split.
  - constructor.
    + destruct f as [| | | | | | |h fs ints]; try discriminate Cl. destruct (h_cls h); try discriminate Cl; auto.
    + intros (h & fs & ints & -> & C). rewrite C in Cl. now apply T.
    + apply Forall_forall. intros x I. apply T; auto.
    + apply Forall_forall. intros x I. refine (field_okb_ok _ _ _ _ _ (Nu x I)). intros v H; destruct v; try discriminate H; [now left|right; left; eexists; reflexivity|right; right; eexists; reflexivity].
    + apply Forall_forall. intros x I. refine (field_okb_ok _ _ _ _ _ (Si x I)). intros v H; destruct v; try discriminate H; [now left|right; eexists; reflexivity].
    + apply Forall_forall. intros x I. refine (field_okb_ok _ _ _ _ _ (Fl x I)). intros v _. exact Logic.I.
    + refine (field_okb_ok _ _ _ _ _ En). intros v H; destruct v; try discriminate H; [now left|right; eexists; reflexivity].
    + refine (field_okb_ok _ _ _ _ _ Df). intros v H; destruct v; try discriminate H; eexists; constructor.
    + refine (field_okb_ok _ _ _ _ _ Cf). intros v H; destruct v; try discriminate H; eexists; reflexivity.
    + destruct (field_of f (lit "items")) as [v|]; [|discriminate It]. destruct v; try (right; eexists; split; [reflexivity|]; now apply IH). left. split; [reflexivity|]. intro A. unfold of_type, text_at in A. rewrite A in It. discriminate It.
  - constructor.
    + assert (NC : forall m v, field_okb f no_containerb m = true -> field_of f (lit m) = Some v -> ~ container v) by (intros m v H F; unfold field_okb in H; rewrite F in H; intros [(x & ->)|(x & ->)]; discriminate H).
      intros m v I F. destruct I as [<-|I].
      * unfold field_okb in Df. rewrite F in Df. intros [(x & ->)|(x & ->)]; discriminate Df.
      * apply (NC m v); [now apply Fl|exact F].
    + intros i F NN. rewrite F in It. destruct i; try (now apply IH).
Qed.
Lemma orderly l : forallb (fun p => in_orderb 9 p && obj_of CParameter p) l = true -> forall p, In p l -> in_order p /\ plainly p /\ is_class CParameter p.
Proof. intros A p I. rewrite forallb_forall in A. specialize (A p I). apply andb_prop in A as (A & B). destruct (in_orderb_ok 9 _ A) as (O & P). split; [exact O|]. split; [exact P|]. exact (obj_of_ok _ _ B). Qed.
Example c66_ex_order : (forall p, In p (shop_parameters ++ [at_ shop_doc ["parameters"; "kinds"]%string]) -> in_order p /\ plainly p /\ is_class CParameter p) /\
  in_order (at_ shop_doc ["paths"; "/list"; "get"; "responses"; "200"; "headers"; "X-Left"]%string).
Proof. split; [apply orderly; vm_compute; reflexivity|apply (in_orderb_ok 9); vm_compute; reflexivity]. Qed.
(** Calls: what the arguments become, or nothing. *)
Definition shop_call (args : sdict M_Prim.value) : res (request (B:=M_Prim.prim)) :=
  call (fun c => match c with M_Prim.PArray _ _ => Some [match M_PrimText.show (fun s => Ok s) (fun _ => lit "?") c with Ok s => s | Err _ => [] end] | _ => None end)
    (fun c => match M_PrimText.show (fun s => Ok s) (fun _ => lit "?") c with Ok s => s | Err _ => [] end) (fun _ => []) value_of
    (produce_any ex_int (fun _ => Err ValueError) (fun _ => lit "?") (fun _ => Err ValueError) (fun _ => Err ValueError) (fun _ => None) (fun _ => true) (fun _ _ _ => Err ValueError)) (shop_op shop_root) args.
Definition query_of (r : res (request (B:=M_Prim.prim))) : option (list (str * cred)) := match r with Ok r => Some (p_query (r_p r)) | Err _ => None end.
Example c66_ex_default : query_of (shop_call []) = Some [(lit "count", CTok (lit "2"))].
Proof. vm_compute. reflexivity. Qed.
Example c66_ex_both : query_of (shop_call [(lit "count", M_Prim.VStr (lit "5")); (lit "kinds", M_Prim.VList [M_Prim.VStr (lit "new"); M_Prim.VStr (lit "old")])]) = Some [(lit "count", CTok (lit "5")); (lit "kinds", CTok (lit "new|old"))].
Proof. vm_compute. reflexivity. Qed.
Example c66_ex_refused : query_of (shop_call [(lit "count", M_Prim.VInt 6)]) = None /\ query_of (shop_call [(lit "kinds", M_Prim.VStr (lit "new"))]) = None /\ query_of (shop_call [(lit "kinds", M_Prim.VStr (lit "new|red"))]) = None /\
  query_of (shop_call [(lit "kinds", M_Prim.VStr (lit "new|old"))]) <> None.
Proof. vm_compute. repeat split; discriminate. Qed.
