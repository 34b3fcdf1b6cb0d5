(** C68: the texts that arguments and headers are sent as are read again as the same values. *)
From Coq Require Import QArith Lia.
From Verif Require Import PyBase PyFacts PyJson M_JsonPtr S_JsonPtr M_Url P_Op M_SpecVal M_Parse M_SpecTree M_Merge M_MergeRef S_Parse S_SpecTree S_Merge S_MergeRef M_Scope M_Patch S_Patch M_App M_OldValidate M_OldParse M_Prepare S_Prepare M_Quote S_Quote M_Client S_Client M_Request S_Request M_Op S_Op M_Contrib S_Contrib M_Invoke S_Invoke T_Contrib T_Prepare T_Invoke P_Invoke2.
From Verif Require Import M_Time S_Time M_Declared S_Declared P_Declared3 T_Declared S_Back P_Back P_Back2.
From Verif Require M_Prim M_PrimText S_Prim.
Close Scope Q_scope.
Open Scope nat_scope.

Section Oracles.
  (** As in M_Prim and M_PrimText *)
  Context (int_of : str -> res Z) (float_of : str -> res Q) (str_of : M_Prim.value -> str)
    (date_at : Q -> res (Z * Z * Z)) (datetime_at : Q -> res M_Time.datetime) (uuid_of : str -> option Z) (email_ok : str -> bool)
    (bytes_text : str -> res str) (show_other : M_Prim.prim -> str).
  Notation becomes := (becomes int_of float_of str_of date_at datetime_at uuid_of email_ok).
  Notation produce_declared := (produce_declared int_of float_of str_of date_at datetime_at uuid_of email_ok).
  Notation shown := (M_PrimText.show bytes_text show_other).
  Notation carries := (carries int_of float_of uuid_of bytes_text show_other).

  (** If a value is converted for a declaration and the text of what it has become says which
      primitive it is, that text is converted to the same. *)
  Theorem c68_text : forall f, in_order f -> forall read read' x p s, produce_declared read f x = Ok p -> carries f p -> shown p = Ok s ->
    produce_declared read' f (M_Prim.VStr s) = Ok p.
  Proof.
    intros f O read read' x p s E C SH. apply (c66_made _ _ _ _ _ _ _ f O) in E. apply (c66_made _ _ _ _ _ _ _ f O). exact (carried _ _ _ _ _ _ _ _ _ f p C x s E SH).
  Qed.
  (** So do the texts of the elements of an array that are sent one by one. *)
  Theorem c68_list : forall f i, in_order f -> field_of f (lit "items") = Some i -> forall read read' x rs ts, produce_declared read f x = Ok (M_Prim.PArray (lit "multi") rs) ->
    M_PrimText.to_url bytes_text show_other (lit "multi") rs = Ok ts -> Forall (carries i) rs -> (switched_on f "uniqueItems" -> NoDup ts) ->
    produce_declared read' f (M_Prim.VList (map M_Prim.VStr ts)) = Ok (M_Prim.PArray (lit "multi") rs).
  Proof.
    intros f i O IT read read' x rs ts E TU C ND. apply (c66_made _ _ _ _ _ _ _ f O) in E. apply (c66_made _ _ _ _ _ _ _ f O). apply T_PrimText.c29_multi in TU.
    apply (list_back _ _ _ _ _ _ _ _ _ f x i (lit "multi") rs ts E IT TU ND); [|constructor]. intros p s y I B SH. rewrite Forall_forall in C. exact (carried _ _ _ _ _ _ _ _ _ i p (C p I) y s B SH).
  Qed.
  (** Different primitives are never sent as the same text. *)
  Theorem c68_injective : forall f, in_order f -> forall x p x' p' s, becomes f x p -> becomes f x' p' -> carries f p -> carries f p' -> shown p = Ok s -> shown p' = Ok s -> p = p'.
  Proof.
    intros f O x p x' p' s B B' C C' S S'. apply (c66_one int_of float_of str_of date_at datetime_at uuid_of email_ok f O (M_Prim.VStr s)); [exact (carried _ _ _ _ _ _ _ _ _ f p C x s B S)|exact (carried _ _ _ _ _ _ _ _ _ f p' C' x' s B' S')].
  Qed.

  (** ** Calling *)
  Section Called.
    Context (model : bool -> val -> M_Prim.value -> res M_Prim.prim).
    Notation produce := (produce_any int_of float_of str_of date_at datetime_at uuid_of email_ok model).
    (** The application, its document and an operation of it, as in C59 *)
    Context (abs_uri win_uri : str -> str) (fetch : str -> res json) (prim : str -> bool) (num : str -> res Q) (sep : str) (fuel : nat).
    Hypothesis JD : forall j x, fetch j = Ok x -> wf x.
    Hypothesis NEW : forall j x v, fetch j = Ok x -> version_of x = Ok v -> is_version v "1.2" = false.
    Context (url nu u : str) (strict : bool) (pr : prepared).
    Hypothesis N : normalize_url abs_uri win_uri url = Ok nu.
    Hypothesis J : jr_split abs_uri win_uri nu = Ok (u, lit "#").
    Hypothesis U : u <> [].
    Hypothesis CR : create_app abs_uri win_uri fetch prim num sep fuel url strict = Ok pr.
    Context (doc root : val).
    Hypothesis FT : found_there fetch nu u pr doc root.
    Context (k m : str) (pi op pi' op' : val).
    Hypothesis PI : path_item doc k pi.
    Hypothesis OP : operation pi m op.
    Hypothesis PI' : path_item root k pi'.
    Hypothesis OP' : operation pi' m op'.
    Context {R : Type} (urls : M_Prim.prim -> option (list str)) (show : M_Prim.prim -> str) (files : M_Prim.prim -> list file) (ptext : M_Prim.prim -> option str)
      (encode : val -> str -> M_Prim.prim -> res str) (decode : val -> str -> R -> res M_Prim.value) (disk : str -> res str).
    Hypothesis NR : field_of pi (lit "$ref") = Some VNone.
    Context (ss : list val) (rs : sdict val).
    Hypothesis SL : field_of pi (lit "parameters") = Some (VList ss).
    Hypothesis US : Forall (usable abs_uri win_uri u doc) ss.
    Hypothesis UO : forall os, field_of op (lit "parameters") = Some (VList os) -> Forall (usable abs_uri win_uri u doc) os.
    Hypothesis RS : field_of op (lit "responses") = Some (VDict rs).
    Hypothesis LR : forall n r, In (n, r) rs -> exists l, leads abs_uri win_uri u doc CResponse r l.
    Notation declares := (declares value_of produce).
    Notation call := (call urls show files value_of produce).
    Notation says_of := (says_of abs_uri win_uri u doc).

    Lemma params_ok : exists ps fs qs, accepted abs_uri win_uri u doc op pi ps /\ Forall2 says_of ps fs /\ Forall2 declares fs qs /\ params_of value_of produce op' = Ok qs /\
      forall args r, call op' args = Ok r -> exists cs, converted args qs cs /\ arranged urls show files cs (r_p r).
    Proof.
      destruct (here abs_uri win_uri fetch prim num sep fuel JD NEW url nu u strict pr N J U CR doc root FT) as (raw & mid & objs & l & SD & ST).
      destruct (invoked_params _ _ _ _ _ _ _ _ _ _ _ _ _ _ _ _ _ _ ST SD k m pi op pi' op' PI OP PI' OP' value_of produce NR ss SL US UO) as (ps & ps1 & qs & AC & DP & FP & MQ & SQ).
      assert (PO : params_of value_of produce op' = Ok qs) by (unfold params_of; rewrite (P_Invoke.get_field _ _ _ FP); exact MQ).
      assert (X : exists fs, Forall2 says_of ps fs /\ Forall2 declares fs qs).
      { clear - SQ. induction SQ as [|p q ps qs (w & f & L & C & D) F (fs & A & B)]; [exists []; split; constructor|]. exists (f :: fs). split; constructor; auto. exists w. auto. }
      destruct X as (fs & SF & DF). exists ps, fs, qs. split; [exact AC|]. split; [exact SF|]. split; [exact DF|]. split; [exact PO|]. intros args r E.
      unfold M_Invoke.call in E. rewrite PO in E. cbn [bind] in E. apply bind_ok in E as (s & OC & E). apply bind_ok in E as (x & OX & E). apply bind_ok in E as (p & PW & E). injection E as <-.
      assert (WP : forall q, In q qs -> well_placed q) by (eapply stands_placed; eassumption). destruct (op_call_ok urls show qs args s WP OC) as (KN & cs & CV & _ & PL). exists cs. split; [exact CV|]. exists s. split; [exact PL|].
      unfold params_with in PW. assert (FS : exists f, file_sets files (s_file s) = Ok f /\ Forall2 (fun a b => fst a = fst b /\ exists c, snd a = inl c /\ snd b = files c) (s_file s) f) by (eapply file_sets_ok; eassumption). destruct FS as (fl & F1 & F2). rewrite F1 in PW. cbn [bind] in PW. injection PW as <-. cbn [new_request r_p p_header p_query p_path p_body p_form p_file]. auto 10.
    Qed.
    (** [x'] is the value [x] for the name [n], or the text that is sent for it by all parameters of
        that name. *)
    Definition as_text (fs : list val) (n : str) (x x' : M_Prim.value) : Prop := x' = x \/
      exists s, x' = M_Prim.VStr s /\ forall f, In f fs -> text_at f "name" n -> outside_body f /\ in_order f /\ exists p, becomes f x p /\ carries f p /\ shown p = Ok s.
    (** Calling an operation with the texts that are sent is the same as calling it with the values. *)
    Theorem c68_call : exists ps fs qs, accepted abs_uri win_uri u doc op pi ps /\ Forall2 says_of ps fs /\ Forall2 declares fs qs /\ forall args args',
      Forall2 (fun a b => fst b = fst a /\ as_text fs (fst a) (snd a) (snd b)) args args' -> call op' args' = call op' args.
    Proof.
      destruct params_ok as (ps & fs & qs & AC & SF & DF & PO & _). exists ps, fs, qs. split; [exact AC|]. split; [exact SF|]. split; [exact DF|]. intros args args' AR.
      assert (KE : map fst args' = map fst args) by (clear - AR; induction AR as [|a b args args' (E & _) F IH]; [reflexivity|]; cbn [map]; congruence).
      assert (GE : forall n, match sget n args, sget n args' with Some x, Some y => as_text fs n x y | None, None => True | _, _ => False end).
      { clear - AR. intro n. unfold sget. induction AR as [|[a x] [b y] args args' (E & T) F IH]; [exact Logic.I|]. cbn [fst snd] in *. subst b. cbn [dget fst]. destruct (str_eqb_spec n a) as [->|]; [exact T|exact IH]. }
      apply (call_same urls show args' args files value_of produce op' qs PO); [|exact KE]. intros q Q. destruct (Forall2_right _ _ _ _ DF Q) as (f & F & D). specialize (GE (q_name q)). unfold alike, supplied.
      destruct (sget (q_name q) args) as [x|], (sget (q_name q) args') as [y|]; try contradiction; [|destruct (q_default q); [reflexivity|exact Logic.I]].
      destruct GE as [->|(s & -> & AL)]; [reflexivity|]. destruct (AL f F (de_name _ _ _ _ D)) as (OB & O & p & B & C & SH).
      pose proof (proj2 (declares_prim _ _ _ _ _ _ _ model f q D OB O x p) B) as E1. rewrite E1. apply (declares_prim _ _ _ _ _ _ _ model f q D OB O). exact (carried _ _ _ _ _ _ _ _ _ f p C x s B SH).
    Qed.

    (** No other one of the parameters has the same name and location. *)
    Definition alone (f : val) (others : list val) : Prop := forall g n i, In g others -> text_at f "name" n -> text_at g "name" n -> text_at f "in" i -> ~ text_at g "in" i.
    Lemma converted_app args (a : list (param (V:=M_Prim.value) (P:=M_Prim.prim))) : forall b cs, converted args (a ++ b) cs -> exists ca cb, cs = ca ++ cb /\ converted args a ca /\ converted args b cb.
    Proof.
      induction a as [|q a IH]; intros b cs C; [exists [], cs; split; [reflexivity|]; split; [reflexivity|exact C]|]. change ((q :: a) ++ b) with (q :: (a ++ b)) in C. cbn [converted] in C |- *. destruct (supplied args q) as [x|].
      - destruct C as (c & cs' & -> & P & C). apply IH in C as (ca & cb & -> & A & B). exists ((q, c) :: ca), cb. split; [reflexivity|]. split; [|exact B]. eauto.
      - destruct C as (RQ & C). apply IH in C as (ca & cb & -> & A & B). exists ca, cb. auto.
    Qed.
    Lemma Forall2_app_left {A B} (Q : A -> B -> Prop) a x b l : Forall2 Q (a ++ x :: b) l -> exists a' y b', l = a' ++ y :: b' /\ Forall2 Q a a' /\ Q x y /\ Forall2 Q b b'.
    Proof. intro F. apply Forall2_app_inv_l in F as (a' & r & A1 & F & ->). inversion F; subst. eauto 10. Qed.
    Lemma made_file f x c : of_type f "file" -> becomes f x c -> ~ carries f c.
    Proof.
      intros OF B C. assert (NN : c <> M_Prim.PNone) by (intros ->; inversion C). apply becomes_given in B as (y & Y & B); [|exact NN].
      inversion B; subst; try (now destruct Y);
        repeat match goal with H : integer_decl f |- _ => destruct H as [H|(H & _)] | H : number_decl f |- _ => destruct H as (H & _) | H : text_decl f |- _ => destruct H as (H & _) end;
        try (match goal with H : of_type f ?t |- _ => lazymatch t with "file"%string => fail | _ => unfold of_type, text_at in H, OF; rewrite H in OF; discriminate OF end end).
    Qed.
    (** Only arrays are sent as lists. *)
    Hypothesis AR : forall c, urls c <> None -> exists fmt l, c = M_Prim.PArray fmt l.
    Lemma no_file f q x c : declares f q -> becomes f x c -> carries f c -> ~ is_file urls q c.
    Proof.
      intros D B C [T|(_ & UN & QI)].
      - destruct (de_type _ _ _ _ D) as (t & FT' & TI). apply TI in T. subst t. exact (made_file f x c FT' B C).
      - destruct (de_items _ _ _ _ D) as (i & FI & [(_ & QN)|(t & y & FT' & QY & TI)]); [congruence|]. assert (y = Some (lit "file")) as -> by congruence. assert (TF : of_type i "file") by (unfold of_type, text_at; rewrite FT'; f_equal; now apply TI).
        destruct (AR c UN) as (fmt & l & ->). inversion C as [| | | | | | |f' i' fmt' sp rs0 t0 ts TC SP IT FS NE SE ND CS]; subst. assert (i' = i) as -> by congruence.
        apply becomes_given in B as (z & Z & B); [|discriminate]. inversion B as [| | | | | | | |? ? ? ? ? DA| | | |? ? i2 l1 l2 ? ? K IT' E UQ G SZ TT]; subst; [now destruct Z|inversion DA|]. assert (i2 = i) as -> by congruence.
        inversion FS; subst. inversion G; subst. inversion CS; subst. eapply made_file; eassumption.
    Qed.
    (** The request has that text, in the location of the parameter, under its name and no other,
        if there is only one parameter for them. *)
    Theorem c68_sent : exists ps fs qs, accepted abs_uri win_uri u doc op pi ps /\ Forall2 says_of ps fs /\ Forall2 declares fs qs /\ forall args r, call op' args = Ok r ->
      forall a f b, fs = a ++ f :: b -> alone f (a ++ b) -> outside_body f -> in_order f -> forall x, gets args f x ->
      exists c, becomes f x c /\ forall s n, carries f c -> shown c = Ok s -> text_at f "name" n -> show c = s -> urls c = None \/ urls c = Some [s] ->
        becomes f (M_Prim.VStr s) c /\
        (text_at f "in" (lit "query") -> filter (fun e => str_eqb (fst e) n) (p_query (r_p r)) = [(n, CTok s)]) /\
        (text_at f "in" (lit "formData") -> filter (fun e => str_eqb (fst e) n) (p_form (r_p r)) = [(n, s)]) /\
        (text_at f "in" (lit "header") -> sget n (p_header (r_p r)) = Some (CTok s)) /\
        (text_at f "in" (lit "path") -> sget n (p_path (r_p r)) = Some s).
    Proof.
      destruct params_ok as (ps & fs & qs & AC & SF & DF & PO & CA). exists ps, fs, qs. split; [exact AC|]. split; [exact SF|]. split; [exact DF|]. intros args r E a f b -> AL OB O x G.
      destruct (CA args r E) as (cs & CV & (st & PL & PH & PQ & PP & _ & PF & _)). apply Forall2_app_left in DF as (qa & q & qb & -> & DA & D & DB).
      apply converted_app in CV as (ca & cb & -> & CA1 & CB1). apply (gets_supplied _ _ _ _ _ _ _ _ args f q x D) in G. cbn [converted] in CB1. rewrite G in CB1. destruct CB1 as (c & cs' & -> & PX & CB1).
      pose proof (proj1 (declares_prim _ _ _ _ _ _ _ model f q D OB O x c) PX) as B. exists c. split; [exact B|]. intros s n C SH NM SW UR.
      assert (QN : q_name q = n) by (pose proof (de_name _ _ _ _ D) as X; unfold text_at in NM; congruence). pose proof (no_file f q x c D B C) as NF.
      assert (TX : texts urls show c = [s]) by (unfold texts; destruct UR as [-> | ->]; congruence). assert (PR : pairs urls show (q, c) = [(n, s)]) by (unfold pairs; cbn [fst snd]; rewrite TX; cbn [map]; congruence).
      assert (OT : forall i, text_at f "in" i -> q_in q = i /\ forall y, In y (ca ++ cs') -> q_name (fst y) = q_name q -> q_in (fst y) <> i).
      { intros i I. split; [pose proof (de_in _ _ _ _ D) as X; unfold text_at in I; congruence|]. intros [q' c'] Y YN YI. cbn [fst] in *.
        assert (Z : exists g, In g (a ++ b) /\ declares g q').
        { apply in_app_iff in Y as [Y|Y]; [destruct (converted_in args _ _ CA1 q' c' Y) as (Q & _); destruct (Forall2_right _ _ _ _ DA Q) as (g & Gi & Dg)|destruct (converted_in args _ _ CB1 q' c' Y) as (Q & _); destruct (Forall2_right _ _ _ _ DB Q) as (g & Gi & Dg)];
            exists g; (split; [apply in_app_iff; auto|exact Dg]). }
        destruct Z as (g & Gi & Dg). apply (AL g n i Gi NM); [|exact I|]; unfold text_at; [rewrite <- QN, <- YN; exact (de_name _ _ _ _ Dg)|rewrite <- YI; exact (de_in _ _ _ _ Dg)]. }
      assert (LA : forall i, text_at f "in" i -> lands urls i (q, c)) by (intros i I; split; [exact (proj1 (OT i I))|exact NF]).
      destruct PL as ((lq & P1 & P1') & (lf & P2 & P2') & (lh & P3 & P3') & (lp & P4 & P4') & _).
      split; [exact (carried _ _ _ _ _ _ _ _ _ f c C x s B SH)|]. split; [|split; [|split]]; intro I; destruct (OT _ I) as (QI & OTH); pose proof (LA _ I) as LN.
      - rewrite PQ, P1'. pose proof (listed_alone urls show _ ca q c cs' lq P1 LN OTH) as X. rewrite PR, QN in X. revert X. generalize (flat_map (pairs urls show) lq). clear. intros l X.
        assert (Y : forall l : list (str * str), filter (fun e => str_eqb (fst e) n) (map (fun kv => (fst kv, CTok (snd kv))) l) = map (fun kv => (fst kv, CTok (snd kv))) (filter (fun e => str_eqb (fst e) n) l)) by (induction l0 as [|e l0 IH]; [reflexivity|]; cbn [map filter fst]; destruct (str_eqb (fst e) n); cbn [map]; now rewrite IH).
        rewrite Y, X. reflexivity.
      - rewrite PF, P2'. pose proof (listed_alone urls show _ ca q c cs' lf P2 LN OTH) as X. now rewrite PR, QN in X.
      - rewrite PH. pose proof (filled_alone urls show _ ca q c cs' lh _ P3 LN OTH P3') as X. rewrite QN, SW in X. revert X. clear. unfold sget. generalize (s_header st). induction s0 as [|[y z] d IH]; [discriminate|]. cbn [map dget fst snd]. destruct (str_eqb n y); [intro X; now injection X as ->|exact IH].
      - rewrite PP. pose proof (filled_alone urls show _ ca q c cs' lp _ P4 LN OTH P4') as X. now rewrite QN, SW in X.
    Qed.
    (** Headers whose texts servers make so are read as the same values. *)
    Theorem c68_header : forall send c sec args b opt hs sent w,
      use_op urls show files ptext value_of M_Prim.VStr produce encode decode disk send c sec op' args b opt hs sent = Ok (w, Ok tt) ->
      exists msg y, w_sent w = sent ++ [msg] /\ send sent msg = Ok y /\
      forall r, match sget (str_of_Z (y_status y)) rs with Some r' => r = r' | None => sget (lit "default") rs = Some r end ->
      exists l f hd all, leads abs_uri win_uri u doc CResponse r l /\ combined CResponse l f /\ field_of f (lit "headers") = Some hd /\
        (forall n, values n (w_resp w) = map snd (filter (fun e => str_eqb (lower (fst (fst e))) (lower n)) (combine (y_headers y) all))) /\
        Forall2 (fun kv v => forall h x p s, key_in (fst kv) hd = Some h -> in_order h -> becomes h x p -> carries h p -> shown p = Ok s -> snd kv = inl s -> v = inr p) (y_headers y) all.
    Proof.
      intros send c sec args b opt hs sent w E.
      destruct (c66_header int_of float_of str_of date_at datetime_at uuid_of email_ok model abs_uri win_uri fetch prim num sep fuel JD NEW url nu u strict pr N J U CR doc root FT k m pi op pi' op' PI OP PI' OP' urls show files ptext encode decode disk rs RS LR send c sec args b opt hs sent w E) as (msg & y & A & B & X).
      exists msg, y. split; [exact A|]. split; [exact B|]. intros r RR. destruct (X r RR) as (l & f & hd & all & L & C & F & VA & H). exists l, f, hd, all. split; [exact L|]. split; [exact C|]. split; [exact F|]. split; [exact VA|].
      clear - H. induction H as [|kv v yh all H F IH]; constructor; [|exact IH]. intros h x p s K O BE CA SH E. destruct (H h s K E O) as (p' & -> & BP). f_equal.
      apply (c66_one int_of float_of str_of date_at datetime_at uuid_of email_ok h O (M_Prim.VStr s)); [exact BP|exact (carried _ _ _ _ _ _ _ _ _ h p CA x s BE SH)].
    Qed.
  End Called.
End Oracles.
Print Assumptions c68_text.
Print Assumptions c68_list.
Print Assumptions c68_injective.
Print Assumptions c68_call.
Print Assumptions c68_sent.
Print Assumptions c68_header.

(** ** What texts do not say *)
Local Definition js (x : string) : json := JStr (lit x).
Notation ex_shown := (M_PrimText.show (fun s => Ok s) (fun _ => lit "?")).
(** [x], a value for the parameter that is written as [j], becomes [p], its text becomes [p']. *)
Definition comes_back (j : json) (x : M_Prim.value) (p p' : M_Prim.prim) : Prop := exists v s, written_here j /\ parse (Of CParameter) [] j = Ok v /\ ex_made v x = Ok p /\ ex_shown p = Ok s /\ ex_made v (M_Prim.VStr s) = Ok p'.
Ltac back := eexists; eexists; split; [apply written_check; vm_compute; reflexivity|]; split; [vm_compute; reflexivity|]; split; [vm_compute; reflexivity|]; split; [vm_compute; reflexivity|vm_compute; reflexivity].
(** False is read again as true, *)
Theorem c68_boolean_refuted : exists j, comes_back j (M_Prim.VBool false) (M_Prim.PBool false) (M_Prim.PBool true).
Proof. exists (JObj [(lit "name", js "a"); (lit "in", js "query"); (lit "type", js "boolean")]). back. Qed.
(** a text with a separator in an array becomes two, *)
Theorem c68_separator_refuted : exists j, comes_back j (M_Prim.VList [M_Prim.VStr (lit "a,b")]) (M_Prim.PArray (lit "csv") [M_Prim.PStr (lit "a,b")]) (M_Prim.PArray (lit "csv") [M_Prim.PStr (lit "a"); M_Prim.PStr (lit "b")]).
Proof. exists (JObj [(lit "name", js "a"); (lit "in", js "query"); (lit "type", js "array"); (lit "items", JObj [(lit "type", js "string")])]). back. Qed.
(** elements that are unique as values may be the same when converted, and one of them gets lost, *)
Theorem c68_unique_refuted : exists j, comes_back j (M_Prim.VList [M_Prim.VInt 1; M_Prim.VStr (lit "1")]) (M_Prim.PArray (lit "csv") [M_Prim.PInt 1; M_Prim.PInt 1]) (M_Prim.PArray (lit "csv") [M_Prim.PInt 1]).
Proof. exists (JObj [(lit "name", js "a"); (lit "in", js "query"); (lit "type", js "array"); (lit "uniqueItems", JBool true); (lit "items", JObj [(lit "type", js "integer")])]). back. Qed.
(** and an array of nothing becomes one with an empty text. *)
Theorem c68_empty_refuted : exists j, comes_back j (M_Prim.VList []) (M_Prim.PArray (lit "csv") []) (M_Prim.PArray (lit "csv") [M_Prim.PStr []]).
Proof. exists (JObj [(lit "name", js "a"); (lit "in", js "query"); (lit "type", js "array"); (lit "items", JObj [(lit "type", js "string")])]). back. Qed.
Print Assumptions c68_boolean_refuted.
Print Assumptions c68_separator_refuted.
Print Assumptions c68_unique_refuted.
Print Assumptions c68_empty_refuted.

(** ** Examples: the application of C66 *)
Notation ex_carries := (carries ex_int (fun _ => Err ValueError) (fun _ => None) (fun s => Ok s) (fun _ => lit "?")).
Notation ex_becomes := (becomes ex_int (fun _ => Err ValueError) (fun _ => lit "?") (fun _ => Err ValueError) (fun _ => Err ValueError) (fun _ => None) (fun _ => true)).
Definition count_decl : val := nth 0 shop_parameters VNone.
Definition kinds_decl : val := at_ shop_doc ["parameters"; "kinds"]%string.
Lemma ex_order f : In f [count_decl; kinds_decl] -> in_order f.
Proof. intros [<-|[<-|[]]]; apply (in_orderb_ok 9); vm_compute; reflexivity. Qed.
Example c68_ex_count : ex_carries count_decl (M_Prim.PInt 3) /\ ex_becomes count_decl (M_Prim.VInt 3) (M_Prim.PInt 3) /\ ex_shown (M_Prim.PInt 3) = Ok (lit "3").
Proof.
  split; [apply ca_integer with (s := lit "3"); reflexivity|]. split; [|reflexivity]. apply (c66_made _ _ _ _ _ _ _ _ (ex_order _ (or_introl eq_refl)) false). vm_compute. reflexivity.
Qed.
Definition two_kinds : M_Prim.value := M_Prim.VList [M_Prim.VStr (lit "new"); M_Prim.VStr (lit "old")].
Definition two_made : M_Prim.prim := M_Prim.PArray (lit "pipes") [M_Prim.PStr (lit "new"); M_Prim.PStr (lit "old")].
Example c68_ex_kinds : ex_carries kinds_decl two_made /\ ex_becomes kinds_decl two_kinds two_made /\ ex_shown two_made = Ok (lit "new|old").
Proof.
  split.
  - apply (ca_array _ _ _ _ _ kinds_decl (at_ kinds_decl ["items"]%string) "pipes"%string "|"%string _ (lit "new") [lit "old"]); try (vm_compute; reflexivity).
    + repeat constructor.
    + discriminate.
    + repeat constructor; intros c [<-|[]] I; cbn in I; repeat destruct I as [I|I]; try discriminate I; exact I.
    + intros _. repeat constructor; cbn; intros X; repeat destruct X as [X|X]; try discriminate X; exact X.
    + repeat constructor.
  - split; [|reflexivity]. apply (c66_made _ _ _ _ _ _ _ _ (ex_order _ (or_intror (or_introl eq_refl))) false). vm_compute. reflexivity.
Qed.
Example c68_ex_as_text : as_text ex_int (fun _ => Err ValueError) (fun _ => lit "?") (fun _ => Err ValueError) (fun _ => Err ValueError) (fun _ => None) (fun _ => true) (fun s => Ok s) (fun _ => lit "?") [count_decl; kinds_decl] (lit "kinds") two_kinds (M_Prim.VStr (lit "new|old")).
Proof.
  right. exists (lit "new|old"). split; [reflexivity|]. destruct c68_ex_kinds as (A & B & C). intros f [<-|[<-|[]]] NM; [vm_compute in NM; discriminate NM|].
  split; [exists (lit "query"); split; [vm_compute; reflexivity|discriminate]|]. split; [apply ex_order; right; now left|]. exists two_made. auto.
Qed.
Example c68_ex_alone : alone count_decl [kinds_decl] /\ alone kinds_decl [count_decl].
Proof. split; intros g n i [<-|[]] A B; unfold text_at in A, B; vm_compute in A, B; congruence. Qed.
Example c68_ex_call : shop_call [(lit "count", M_Prim.VStr (lit "3")); (lit "kinds", M_Prim.VStr (lit "new|old"))] = shop_call [(lit "count", M_Prim.VInt 3); (lit "kinds", two_kinds)] /\
  query_of (shop_call [(lit "count", M_Prim.VInt 3); (lit "kinds", two_kinds)]) = Some [(lit "count", CTok (lit "3")); (lit "kinds", CTok (lit "new|old"))].
Proof. split; vm_compute; reflexivity. Qed.
