(** C69, continued: the bodies of calls of operations. *)
From Coq Require Import QArith Lia.
From Verif Require Import PyBase PyFacts PyInt PyJson M_JsonPtr S_JsonPtr M_Url P_Op M_SpecVal M_Parse M_SpecTree M_Merge M_MergeRef S_Parse S_SpecTree S_Merge S_MergeRef P_SpecBase P_MergeShape P_Patch M_Scope M_Patch S_Patch M_App S_App P_App P_Deep M_OldValidate M_OldParse M_Prepare S_Prepare P_Prepare5 M_Quote S_Quote M_Client S_Client M_Request S_Request M_Op S_Op M_Contrib S_Contrib M_Invoke S_Invoke T_Contrib T_Prepare T_Invoke.
From Verif Require Import S_Cycles P_Cycles S_Compose T_SpecTree T_Cycles T_Compose.
From Verif Require Import M_Declared S_Declared P_Declared P_Declared2 P_Declared3 P_Declared4 T_Declared P_Back2 T_Back.
From Verif Require Import M_Body S_Body P_Body P_Body2 P_Body3 P_Body4 P_Body5 P_Body6 P_Wf T_Body.
From Verif Require Import M_JBody S_JBody P_JBody P_JBody2 P_JBody3 P_JBody4 P_JBody5 T_JBody T_Invoke P_Invoke P_Invoke2.
From Verif Require M_Prim M_Time P_SpecBase.
Close Scope Q_scope.
Open Scope nat_scope.

Section Created.
  (** As in C67 *)
  Context (abs_uri win_uri : str -> str) (fetch : str -> res json) (prim : str -> bool) (num : str -> res Q) (sep : str) (f : nat).
  Hypothesis JD : forall j x, fetch j = Ok x -> wf x.
  Hypothesis NEW : forall j x v, fetch j = Ok x -> version_of x = Ok v -> is_version v "1.2" = false.
  Context (url nu u : str) (strict : bool) (pr : prepared).
  Hypothesis N : normalize_url abs_uri win_uri url = Ok nu.
  Hypothesis J : jr_split abs_uri win_uri nu = Ok (u, lit "#").
  Hypothesis U : u <> [].
  Hypothesis CR : create_app abs_uri win_uri fetch prim num sep (S f) url strict = Ok pr.
  Context (doc root : val).
  Hypothesis FT : found_there fetch nu u pr doc root.
  Hypothesis SC : self_contained abs_uri win_uri u root.
  Hypothesis ONE : a_objs (pr_app pr) = [(u, Whole (0, root))].
  Hypothesis NR : forall k pi, path_item doc k pi -> field_of pi (lit "$ref") = Some VNone.
  Hypothesis RO : forall ts s, schema_at root ts s -> schema_order s.
  Context (int_of : str -> res Z) (float_of : str -> res Q) (str_of : M_Prim.value -> str)
    (date_at : Q -> res (Z * Z * Z)) (datetime_at : Q -> res M_Time.datetime) (uuid_of : str -> option Z) (email_ok : str -> bool).
  (** As in M_JBody: Python reads again the documents that it writes. *)
  Context (show_other : M_Prim.prim -> str) (write : json -> str) (parse : str -> res json).
  Hypothesis PW : forall j, wf j -> parse (write j) = Ok j.
  Notation takes := (takes abs_uri win_uri u root int_of float_of str_of date_at datetime_at uuid_of email_ok).
  Notation belongs := (belongs abs_uri win_uri u root).
  Notation returns := (returns abs_uri win_uri u root int_of float_of str_of date_at datetime_at uuid_of email_ok show_other).
  Notation produced := (produced abs_uri win_uri fetch prim num sep f pr int_of float_of str_of date_at datetime_at uuid_of email_ok).
  (** An operation of the document, as in C59 and C67 *)
  Context (limit : nat).
  Notation produce := (produce_any int_of float_of str_of date_at datetime_at uuid_of email_ok (produced limit)).
  Context (k m : str) (pi op pi' op' : val).
  Hypothesis PI : path_item doc k pi.
  Hypothesis OP : operation pi m op.
  Hypothesis PI' : path_item root k pi'.
  Hypothesis OP' : operation pi' m op'.
  Context {R : Type} (urls : M_Prim.prim -> option (list str)) (show : M_Prim.prim -> str) (files : M_Prim.prim -> list file) (ptext : M_Prim.prim -> option str)
    (encode : val -> str -> M_Prim.prim -> res str) (decode : val -> str -> R -> res M_Prim.value) (disk : str -> res str).
  Context (ss : list val) (rs : sdict val).
  Hypothesis SL : field_of pi (lit "parameters") = Some (VList ss).
  Hypothesis US : Forall (usable abs_uri win_uri u doc) ss.
  Hypothesis UO : forall os, field_of op (lit "parameters") = Some (VList os) -> Forall (usable abs_uri win_uri u doc) os.
  Hypothesis RS : field_of op (lit "responses") = Some (VDict rs).
  Hypothesis LR : forall n r, In (n, r) rs -> exists l, S_Invoke.leads abs_uri win_uri u doc CResponse r l.
  Notation declares := (declares value_of produce).
  Notation stands_for := (stands_for value_of produce abs_uri win_uri u doc).
  Notation use := (use_op urls show files ptext value_of M_Prim.VStr produce encode decode disk).
  Notation text_in := (text_in abs_uri win_uri u doc).

  Lemma stands_name p q i : stands_for p q -> text_in "name" p i -> q_name q = i.
  Proof.
    intros (l & g & L & CB & DE) (l' & L' & NC & FS). pose proof (leads_fun _ _ _ _ _ _ _ _ L L') as <-. pose proof (de_name _ _ _ _ DE) as F.
    destruct (cb_scalar _ _ _ CB (lit "name") JNull eq_refl eq_refl NC) as (rv & RV & [X|(X & _)]); [|elim (never_first _ _ _ _ X FS)]. rewrite RV, (first_set_fun _ _ _ _ _ X FS) in F. now injection F.
  Qed.
  (** Parameters that are not sent as form or file *)
  Definition no_upload (g : val) : Prop := ~ text_at g "in" (lit "formData") /\ ~ of_type g "file" /\ forall i, field_of g (lit "items") = Some i -> ~ of_type i "file".
  (** If using an operation that consumes JSON sends a message, its payload is the document of what
      the schema of the body makes of the value for the body.  Who receives it and reads it by the
      same schema gets the same, if it is of the kinds that are read again, see [returns]. *)
  Theorem c69_sent : exists ps fs qs s, accepted abs_uri win_uri u doc op pi ps /\ Forall2 (says_of abs_uri win_uri u doc) ps fs /\ Forall2 declares fs qs /\ body_declared abs_uri win_uri u doc ps s /\
    forall a g b, fs = a ++ g :: b -> text_at g "in" (lit "body") -> field_of g (lit "schema") = Some s -> belongs s ->
    (forall h, In h (a ++ b) -> ~ text_at h "in" (lit "body")) -> (forall h, In h fs -> no_upload h) ->
    forall co, taken "consumes" op doc co -> (forall ct more, co = ct :: more -> ct = lit "application/json") ->
    (forall c, encode s (lit "application/json") c = json_marshal show_other write c) ->
    forall send c sec args base opt hs sent w e, use send c sec op' args base opt hs sent = Ok (w, e) ->
    forall x, gets args g x -> proper x ->
    forall msg, w_sent w = sent ++ [msg] ->
    exists y text, takes false s x y /\ m_payload msg = PData (DText text) /\ json_marshal show_other write y = Ok text /\
      (returns s y -> exists v, json_unmarshal parse text = Ok v /\ proper v /\ takes true s v y /\ exists limit0, forall limit', limit0 <= limit' -> exists y', produced limit' true s v = Ok y' /\ same_prim y y').
  Proof.
    destruct (c59_sends abs_uri win_uri fetch prim num sep (S f) JD NEW url nu u strict pr N J U CR doc root FT k m pi op pi' op' PI OP PI' OP' urls show files ptext value_of M_Prim.VStr produce encode decode disk (NR _ _ PI) ss rs SL US UO RS LR) as (ps & qs & s & su & AC & ST & BD & _ & SE).
    assert (X : exists fs, Forall2 (says_of abs_uri win_uri u doc) ps fs /\ Forall2 declares fs qs /\ Forall2 (fun p q => stands_for p q) ps qs).
    { clear - ST. induction ST as [|p q ps qs (l & g & L & C & D) F (fs & A & B & E)]; [exists []; repeat split; constructor|]. exists (g :: fs). split; [constructor; [exists l; auto|exact A]|]. split; constructor; auto. exists l, g. auto. }
    destruct X as (fs & SF & DF & SQ). exists ps, fs, qs, s. split; [exact AC|]. split; [exact SF|]. split; [exact DF|]. split; [exact BD|].
    intros a g b -> IB FS BE OB NU co TC CJ EN send c sec args base opt hs sent w e UE x G PX msg WM.
    destruct (SE send c sec args base opt hs sent w e UE) as (r & schemes & sc & RQ & _ & _ & [(WS & _)|(msg' & WS & FA)]).
    { exfalso. rewrite WS in WM. apply (f_equal (@length _)) in WM. rewrite app_length in WM. cbn in WM. lia. }
    rewrite WS in WM. apply app_inj_tail in WM as (_ & ->).
    pose proof RQ as (_ & cs & su' & host & bs & os & co' & pd & CV & _ & _ & _ & _ & _ & _ & LS & _).
    pose proof DF as DF0. apply Forall2_app_left in DF as (qa & q & qb & -> & DA & D & DB). pose proof CV as CV0. apply converted_app in CV as (ca & cb & -> & CA1 & CB1).
    apply (gets_supplied int_of float_of str_of date_at datetime_at uuid_of email_ok (produced limit) args g q x D) in G. cbn [converted] in CB1. rewrite G in CB1. destruct CB1 as (y & cs' & -> & PY & CB1).
    assert (QB : q_in q = lit "body") by (pose proof (de_in _ _ _ _ D) as X; unfold text_at in IB; congruence).
    assert (PR : produced limit false s x = Ok y).
    { destruct (de_prim _ _ _ _ D) as (s' & FS' & X). assert (s' = s) as -> by congruence. destruct (X x) as [(_ & Y)|(NB & _)]; [|now destruct NB]. rewrite Y in PY.
      unfold produce_any in PY. assert (same_class CSchema s = true) as SCL; [|now rewrite SCL in PY]. destruct (shaped_obj _ _ (kn_shape _ _ _ _ _ (fi_known _ _ _ _ _ BE))) as (h & hf & ints & -> & C). apply schema_same. exists h, hf, ints. auto. }
    assert (OT : forall q' c', In (q', c') (ca ++ cs') -> q_in q' <> lit "body").
    { intros q' c' I E. assert (Z : exists h, In h (a ++ b) /\ declares h q').
      { apply in_app_iff in I as [I|I]; [destruct (converted_in args _ _ CA1 q' c' I) as (Q & _); destruct (Forall2_right _ _ _ _ DA Q) as (h & Hi & Dh)|destruct (converted_in args _ _ CB1 q' c' I) as (Q & _); destruct (Forall2_right _ _ _ _ DB Q) as (h & Hi & Dh)]; exists h; (split; [apply in_app_iff; auto|exact Dh]). }
      destruct Z as (h & Hi & Dh). apply (OB h Hi). unfold text_at. rewrite <- E. exact (de_in _ _ _ _ Dh). }
    assert (UP : forall z, In z (ca ++ (q, y) :: cs') -> q_in (fst z) <> lit "formData" /\ ~ is_file urls (fst z) (snd z)).
    { intros (q', c') I. cbn [fst snd]. destruct (converted_in args _ _ CV0 q' c' I) as (Q & _). destruct (Forall2_right _ _ _ _ DF0 Q) as (h & Hi & Dh). destruct (NU h Hi) as (NU1 & NU2 & NU3). split.
      - intro E. apply NU1. unfold text_at. rewrite <- E. exact (de_in _ _ _ _ Dh).
      - intros [E|(_ & _ & E)].
        + destruct (de_type _ _ _ _ Dh) as (t & FT' & TI). apply NU2. unfold of_type, text_at. rewrite FT'. f_equal. now apply TI.
        + destruct (de_items _ _ _ _ Dh) as (i & FI & [(_ & X)|(t & z & FT' & X & TI)]); [congruence|]. apply (NU3 i FI). unfold of_type, text_at. rewrite FT'. f_equal. apply TI. congruence. }
    assert (QN : text_at g "name" (q_name q)) by exact (de_name _ _ _ _ D).
    assert (ALL : forall p, In p ps -> text_in "in" p (lit "body") -> text_in "name" p (q_name q)).
    { intros p Ip TI. destruct (P_SpecBase.Forall2_In_l _ _ _ _ SQ Ip) as (q' & Iq & SP). destruct (P_SpecBase.Forall2_In_l _ _ _ _ LS Ip) as (o & _ & LN & _). pose proof (stands_in _ _ _ _ _ _ _ _ _ SP TI) as QI. pose proof (stands_name p q' _ SP LN) as QN'.
      assert (q' = q) as ->; [|rewrite QN'; exact LN]. apply in_app_iff in Iq as [Iq|[Iq|Iq]]; [exfalso|now symmetry|exfalso].
      - destruct (Forall2_right _ _ _ _ DA Iq) as (h & Hi & Dh). apply (OB h); [apply in_app_iff; auto|]. unfold text_at. rewrite <- QI. exact (de_in _ _ _ _ Dh).
      - destruct (Forall2_right _ _ _ _ DB Iq) as (h & Hi & Dh). apply (OB h); [apply in_app_iff; auto|]. unfold text_at. rewrite <- QI. exact (de_in _ _ _ _ Dh). }
    assert (PB : exists p, In p ps /\ text_in "in" p (lit "body")).
    { destruct (P_SpecBase.Forall2_In_r _ _ _ _ SQ (in_or_app qa (q :: qb) q (or_intror (or_introl eq_refl)))) as (p & Ip & SP). destruct (P_SpecBase.Forall2_In_l _ _ _ _ LS Ip) as (o & _ & _ & LI). exists p. split; [exact Ip|]. rewrite <- QB, (stands_in _ _ _ _ _ _ _ _ _ SP LI). exact LI. }
    destruct PB as (p & Ip & TP).
    destruct (c59_body abs_uri win_uri nu u doc k op urls show files (encode s) disk ps (qa ++ q :: qb) args r RQ c sec m sc schemes base opt hs msg FA (ca ++ (q, y) :: cs') CV0 (q_name q) y co p) as (text & EM & PL); try assumption.
    - intros z I. exact (proj2 (UP z I)).
    - intros z I (LI & _). exact (proj1 (UP z I) LI).
    - exists ca, q, cs'. split; [reflexivity|]. split; [reflexivity|]. split; [split; [exact QB|exact (proj2 (UP (q, y) (in_or_app ca ((q, y) :: cs') (q, y) (or_intror (or_introl eq_refl)))))]|]. intros (q', c') I (LI & _). exfalso. exact (OT q' c' (in_or_app _ _ _ (or_intror I)) LI).
    - assert (EM' : json_marshal show_other write y = Ok text). { rewrite <- (EN y). destruct co as [|ct more]; [exact EM|]. rewrite (CJ ct more eq_refl) in EM. exact EM. }
      pose proof (c67_made abs_uri win_uri fetch prim num sep f JD NEW url nu u strict pr N J U CR doc root FT SC ONE NR RO int_of float_of str_of date_at datetime_at uuid_of email_ok s BE limit false x y PX PR) as TK.
      exists y, text. split; [exact TK|]. split; [exact PL|]. split; [exact EM'|]. intro RT.
      exact (c69_same abs_uri win_uri fetch prim num sep f JD NEW url nu u strict pr N J U CR doc root FT SC ONE NR RO int_of float_of str_of date_at datetime_at uuid_of email_ok show_other write parse PW s BE limit false x y PX PR RT text EM').
  Qed.
  (** If an answer is the JSON document of what a schema has made of a value, the data of the
      response is the same; [text_of] is the text of the body of an answer. *)
  Theorem c69_received : forall (text_of : R -> str) send c sec args base opt hs sent w, use send c sec op' args base opt hs sent = Ok (w, Ok tt) ->
    exists msg y, w_sent w = sent ++ [msg] /\ send sent msg = Ok y /\
    forall r, match sget (str_of_Z (y_status y)) rs with Some r' => r = r' | None => sget (lit "default") rs = Some r end ->
    exists l g s, S_Invoke.leads abs_uri win_uri u doc CResponse r l /\ combined CResponse l g /\ field_of g (lit "schema") = Some s /\
      (belongs s -> (forall ct b, decode s ct b = json_unmarshal parse (text_of b)) ->
       forall limit' rd x p, proper x -> produced limit' rd s x = Ok p -> returns s p -> json_marshal show_other write p = Ok (text_of (y_body y)) ->
       exists p', p_data (w_resp w) = Some p' /\ same_prim p p').
  Proof.
    intros text_of send c sec args base opt hs sent w UE.
    destruct (c67_data abs_uri win_uri fetch prim num sep f JD NEW url nu u strict pr N J U CR doc root FT SC ONE NR RO int_of float_of str_of date_at datetime_at uuid_of email_ok limit k m pi op pi' op' PI OP PI' OP' urls show files ptext encode decode disk rs RS LR send c sec args base opt hs sent w UE) as (msg & y & A & B & X).
    exists msg, y. split; [exact A|]. split; [exact B|]. intros r RR. destruct (X r RR) as (l & g & s & L & C & FS & _ & D). exists l, g, s. split; [exact L|]. split; [exact C|]. split; [exact FS|].
    intros BE DE limit' rd x p PX PR RT MT. destruct (D BE) as (ct & v & p' & DV & PD & TK). rewrite DE in DV.
    destruct (c69_same abs_uri win_uri fetch prim num sep f JD NEW url nu u strict pr N J U CR doc root FT SC ONE NR RO int_of float_of str_of date_at datetime_at uuid_of email_ok show_other write parse PW s BE limit' rd x p PX PR RT _ MT) as (v' & JU & PV & TP & _).
    assert (v' = v) as -> by congruence. exists p'. split; [exact PD|].
    exact (c69_one abs_uri win_uri fetch prim num sep f JD NEW url nu u strict pr N J U CR doc root FT SC RO int_of float_of str_of date_at datetime_at uuid_of email_ok s (fi_known _ _ _ _ _ BE) true true v p p' TP (TK PV)).
  Qed.
End Created.
Print Assumptions c69_sent.
Print Assumptions c69_received.

(** ** Concrete case
    The operation for the orders of C67 has one parameter, with a schema that the application
    knows, and consumes JSON; using it sends the document of the order. *)
Definition orders_doc : val := match parse (Of CSwagger) [] orders with Ok raw => match norm_refs T_Prepare.there raw with Ok d => d | Err _ => VNone end | Err _ => VNone end.
Definition path_of (v : val) : val := T_Invoke.at_ v ["paths"; "/orders"]%string.
Definition op_of (v : val) : val := T_Invoke.at_ v ["paths"; "/orders"; "post"]%string.
Definition the_parameter : val := match list_in (T_Invoke.at_ orders_doc ["paths"; "/orders"; "post"; "parameters"]%string) with p :: _ => p | [] => VNone end.
Definition the_schema : val := match field_of the_parameter (lit "schema") with Some s => s | None => VNone end.
Lemma the_schema_at x : find (fun po => str_eqb (fst po) (lit "#/paths/~1orders/post/parameters/0/schema")) (objs_of orders_root) = Some x -> same_class CSchema (snd x) = true -> snd x = the_schema -> exists ts, schema_at orders_root ts the_schema.
Proof.
  intros F C <-. destruct c67_hypotheses as (_ & _ & _ & (doc & FT & _) & _).
  refine (found_at orders_root (objs_of orders_root) _ x (there_wf orders orders_app doc orders_root 39 orders_wf orders_new orders_made FT) _ _ F C); [vm_compute; exact Logic.I|vm_compute; reflexivity].
Qed.
Lemma orders_belongs ts v : schema_at orders_root ts v -> belongs (fun s => s) (fun s => s) T_Prepare.there orders_root v.
Proof.
  intro A. destruct c67_hypotheses as (W & NW & _ & (doc & FT & NR) & SC & ONE & RO & UN). pose proof orders_made as CR. revert W NW FT NR SC ONE RO UN CR A. generalize orders_root orders_app orders. intros root pr j W NW FT NR SC ONE RO UN CR A.
  exact (there_belongs j pr doc root 39 W NW CR FT SC RO UN ts v A).
Qed.
Notation sent_for wr args :=
  (use_op (fun _ => None) (fun _ => []) (fun _ => []) (fun _ => None) value_of M_Prim.VStr
    (produce_any ex_int (fun _ => Err ValueError) (fun _ => lit "?") (fun _ => Err ValueError) (fun _ => Err ValueError) (fun _ => None) (fun _ => true) (fun rd v x => ex_produced rd v x))
    (fun _ _ p => json_marshal (fun _ => lit "?") wr p) (fun _ _ (raw : str) => Ok (M_Prim.VStr raw)) (fun _ => Err OSError)
    (fun _ _ => Ok (M_Contrib.Reply (H:=str + M_Prim.prim) 404%Z [] (lit "none"))) Requests None (op_of orders_root) args [] (Opts None None false) HNone []).
Example c69_sent_ex : path_item orders_doc (lit "/orders") (path_of orders_doc) /\ operation (path_of orders_doc) (lit "post") (op_of orders_doc) /\
  field_of (path_of orders_doc) (lit "parameters") = Some (VList []) /\ field_of (op_of orders_doc) (lit "parameters") = Some (VList [the_parameter]) /\
  text_at the_parameter "name" (lit "order") /\ text_at the_parameter "in" (lit "body") /\ field_of the_parameter (lit "schema") = Some the_schema /\ belongs (fun s => s) (fun s => s) T_Prepare.there orders_root the_schema /\
  no_upload the_parameter /\ taken "consumes" (op_of orders_doc) orders_doc [] /\
  forall wr : json -> str, exists w e msg j, sent_for wr [(lit "order", an_order)] = Ok (w, e) /\ w_sent w = [msg] /\ dump (fun _ => lit "?") the_order = Ok j /\ m_payload msg = PData (DText (wr j)).
Proof.
  split; [|split].
  - exists (dict_in (T_Invoke.at_ orders_doc ["paths"]%string)). vm_compute. split; [reflexivity|]. split; [reflexivity|]. do 3 eexists. split; reflexivity.
  - vm_compute. split; [reflexivity|]. do 3 eexists. split; reflexivity.
  - split; [vm_compute; reflexivity|]. split; [vm_compute; reflexivity|]. split; [vm_compute; reflexivity|]. split; [vm_compute; reflexivity|]. split; [vm_compute; reflexivity|].
    split; [assert (X : exists ts, schema_at orders_root ts the_schema) by (eapply the_schema_at; vm_compute; reflexivity); destruct X as (ts & X); exact (orders_belongs ts _ X)|].
    split; [|split].
    + split; [|split]; [vm_compute; discriminate|vm_compute; discriminate|]. intros i F. vm_compute in F. injection F as <-. vm_compute. discriminate.
    + do 3 eexists. split; [vm_compute; reflexivity|]. split; [vm_compute; reflexivity|]. split; [|reflexivity]. vm_compute. auto.
    + intro wr. do 4 eexists. split; [vm_compute; reflexivity|]. split; [vm_compute; reflexivity|]. split; vm_compute; reflexivity.
Qed.
(** If it is answered by an order, the response has that order. *)
Notation received_for j args :=
  (use_op (fun _ => None) (fun _ => []) (fun _ => []) (fun _ => None) value_of M_Prim.VStr
    (produce_any ex_int (fun _ => Err ValueError) (fun _ => lit "?") (fun _ => Err ValueError) (fun _ => Err ValueError) (fun _ => None) (fun _ => true) (fun rd v x => ex_produced rd v x))
    (fun _ _ p => Ok (lit "?")) (fun _ _ (raw : json) => Ok (load raw)) (fun _ => Err OSError)
    (fun _ _ => Ok (M_Contrib.Reply (H:=str + M_Prim.prim) 200%Z [] j)) Requests None (op_of orders_root) args [] (Opts None None false) HNone []).
Example c69_received_ex : exists j w, dump (fun _ => lit "?") the_order = Ok j /\ wf j /\ received_for j [(lit "order", an_order)] = Ok (w, Ok tt) /\ p_data (w_resp w) = Some the_order /\ ex_returns (definition "Order") the_order.
Proof. do 2 eexists. split; [vm_compute; reflexivity|]. split; [apply wfb_ok; vm_compute; reflexivity|]. split; [vm_compute; reflexivity|]. split; [vm_compute; reflexivity|exact (proj1 (proj2 (proj2 c69_ex)))]. Qed.
