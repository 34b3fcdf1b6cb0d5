(** Proofs about what is sent for a requested operation. *)
From Verif Require Import PyBase PyFacts PyJson M_Url M_Quote S_Quote P_Op M_SpecVal S_Merge M_Patch S_Patch M_Client S_Client M_Request S_Request P_Request M_Op S_Op M_Contrib S_Contrib P_Contrib T_Contrib S_Invoke.
Close Scope Q_scope.
From Verif Require P_SpecBase P_Invoke.

Lemma picks_none {A} (p : A -> Prop) cs l : picks p cs l -> (forall x, In x cs -> ~ p x) -> l = [].
Proof. induction 1 as [|x cs l H _ IH|x cs l H _ IH]; intro N; [reflexivity|elim (N x (or_introl eq_refl) H)|apply IH; intros y Y; apply N; now right]. Qed.
Lemma picks_app {A} (p : A -> Prop) a : forall b l, picks p (a ++ b) l -> exists l1 l2, l = l1 ++ l2 /\ picks p a l1 /\ picks p b l2.
Proof.
  induction a as [|x a IH]; intros b l H; [exists [], l; split; [reflexivity|split; [constructor|exact H]]|]. cbn [app] in H. inversion H as [|? ? l' Y H'|? ? l' Y H']; subst; destruct (IH _ _ H') as (l1 & l2 & -> & A1 & A2).
  - exists (x :: l1), l2. split; [reflexivity|]. split; [now constructor|exact A2].
  - exists l1, l2. split; [reflexivity|]. split; [now constructor|exact A2].
Qed.
Lemma picks_sub {A} (p : A -> Prop) cs l : picks p cs l -> forall x, In x l -> In x cs /\ p x.
Proof. induction 1 as [|x cs l H _ IH|x cs l H _ IH]; intros y Y; [destruct Y|destruct Y as [<-|Y]; [split; [now left|exact H]|destruct (IH y Y); split; [now right|assumption]]|destruct (IH y Y); split; [now right|assumption]]. Qed.
Lemma find_app {A} (f : A -> bool) a b : find f (a ++ b) = match find f a with Some x => Some x | None => find f b end.
Proof. induction a as [|x a IH]; [reflexivity|]. cbn [find app]. destruct (f x); auto. Qed.
Lemma no_braces_double s : no_braces s -> double_braces s = s.
Proof.
  intros (A & B). unfold double_braces. induction s as [|c s IH]; [reflexivity|]. cbn [flat_map]. rewrite IH by (intro X; first [apply A; now right|apply B; now right]).
  destruct (Ascii.eqb_spec c "{"%char) as [->|_]; [elim A; now left|]. destruct (Ascii.eqb_spec c "}"%char) as [->|_]; [elim B; now left|]. reflexivity.
Qed.
Lemma filled_nil_inv {A} (d : sdict A) : filled [] d -> d = [].
Proof.
  intros (_ & F). destruct d as [|[k v] d]; [reflexivity|]. specialize (F k). cbn in F. unfold sget in F. cbn [dget] in F. rewrite str_eqb_refl in F. discriminate F.
Qed.

Section Sent.
  Context {V P : Type} (urls : P -> option (list str)) (show : P -> str) (files : P -> list file).
  Notation param := (param (V:=V) (P:=P)).
  Lemma carried {A} (f : param * P -> str * A) loc (cs : list (param * P)) l d n c : (forall x, fst (f x) = q_name (fst x)) -> picks (lands urls (lit loc)) cs l -> filled (map f l) d -> carries urls loc cs n c ->
    exists q, q_name q = n /\ sget n d = Some (snd (f (q, c))).
  Proof.
    intros FN PK (_ & F) (a & q & b & -> & NQ & LQ & NB). exists q. split; [exact NQ|]. apply picks_app in PK as (l1 & l2 & -> & _ & P2). inversion P2 as [|? ? l3 _ P3|? ? ? X _]; subst; [|contradiction].
    rewrite F. rewrite map_app. cbn [map]. rewrite rev_app_distr. cbn [rev]. rewrite find_app. rewrite find_app.
    destruct (find _ (rev (map f l3))) as [[n' x]|] eqn:E.
    - exfalso. apply find_some in E as (E & X). apply in_rev in E. apply in_map_iff in E as (y & Y & I). apply str_eqb_eq in X. destruct (picks_sub _ _ _ P3 _ I) as (I1 & I2). apply (NB _ I1 I2). rewrite <- FN, Y. exact X.
    - cbn [find]. rewrite FN. cbn [fst]. rewrite str_eqb_refl. reflexivity.
  Qed.
  Lemma map_tok d n v : sget n (map (fun kv : str * str => (fst kv, CTok (snd kv))) d) = Some v <-> exists s, sget n d = Some s /\ v = CTok s.
  Proof.
    induction d as [|[a c] d IH]; [split; [discriminate|intros (s & X & _); discriminate X]|]. cbn [map fst snd]. unfold sget in *. cbn [dget]. destruct (str_eqb n a); [|exact IH]. split; [intro E; injection E as <-; eauto|intros (s & E & ->); congruence].
  Qed.
  Context (abs_uri win_uri : str -> str) (nu u : str) (doc : val) (k : str) (op : val) (ps : list val) (qs : list param) (args : sdict V) (r : request (B:=P)).
  Hypothesis RQ : requested urls show files abs_uri win_uri nu u doc k op ps qs args r.
  Context (cs : list (param * P)).
  Hypothesis CV : converted args qs cs.
  Lemma converted_fun (a : sdict V) (l : list param) : forall cs1 cs2, converted a l cs1 -> converted a l cs2 -> cs1 = cs2.
  Proof.
    induction l as [|q l IH]; intros cs1 cs2; cbn [converted]; [congruence|]. destruct (supplied a q) as [v|].
    - intros (c1 & d1 & -> & E1 & H1) (c2 & d2 & -> & E2 & H2). rewrite (IH _ _ H1 H2). congruence.
    - intros (_ & H1) (_ & H2). auto.
  Qed.
  Lemma host_fun n h h' : host_is doc n h -> host_is doc n h' -> h = h'.
  Proof.
    intros A B. inversion A as [a X NE|a X E NE|a X E NE]; inversion B as [a' X' NE'|a' X' E' NE'|a' X' E' NE']; subst; try congruence; match goal with A : field_of doc ?n = Some (VStr ?h), B : field_of doc ?n = Some ?v, E : empty_value ?v |- _ => assert (v = VStr h) as -> by congruence; inversion E; subst; now elim NE + now elim NE' end.
  Qed.
  Lemma base_fun h h' : base_is doc h -> base_is doc h' -> h = h'.
  Proof.
    intros A B. inversion A as [a X|a X E]; inversion B as [a' X'|a' X' E']; subst; try congruence; match goal with A : field_of doc ?n = Some (VStr ?h), B : field_of doc ?n = Some ?v, E : empty_value ?v |- _ => assert (v = VStr h) as -> by congruence; now inversion E end.
  Qed.
  Context {H R J D : Type} (marshal : str -> P -> res str) (disk : str -> res str).
  Context (c : client) (sec : option sec_info) (sc : option (list (list str))) (schemes : list str) (b meth : str) (opt : opts) (hs : headers_arg) (msg : message).
  Hypothesis FA : faithful marshal disk c sec meth sc schemes b r opt hs msg.
  Lemma sent_url s host base lp arg : urlparse nu = Ok s -> host_is doc (u_netloc s) host -> base_is doc base -> no_braces host -> no_braces base -> o_netloc opt = None -> o_scheme opt = None ->
    k = template lp -> Forall piece_ok lp -> (exists x, base ++ k = "/"%char :: x) -> (forall n, In n (holes lp) -> carries urls "path" cs n (arg n)) ->
    exists sch, scheme_used None schemes sch /\ m_url msg = sch ++ lit "://" ++ host ++ base ++ fill (fun n => quote_plus (show (arg n))) lp.
  Proof.
    intros UP HI BI NH NB ON OS KT PO (x & SL) CA. destruct RQ as (_ & cs' & s' & host' & base' & os & co & pd & CV' & AR & UP' & HI' & BI' & TC & TP & LS & ER).
    assert (cs' = cs) as -> by exact (converted_fun _ _ _ _ CV' CV). assert (s' = s) as -> by congruence. assert (host' = host) as -> by exact (host_fun _ _ _ HI' HI). assert (base' = base) as -> by exact (base_fun _ _ BI' BI).
    assert (WS : with_slash (base ++ k) = base ++ k) by (rewrite SL; reflexivity). rewrite WS in ER.
    assert (T : forall t, no_braces t -> template (Text t :: lp) = t ++ k) by (intros t NT; cbn [template flat_map]; rewrite (no_braces_double _ NT); fold (template lp); now rewrite <- KT).
    assert (NT : no_braces (lit "//" ++ host ++ base)). { split; intro X; rewrite !in_app_iff in X; destruct X as [X|[X|X]]; [cbn in X; intuition discriminate|now apply (proj1 NH)|now apply (proj1 NB)|cbn in X; intuition discriminate|now apply (proj2 NH)|now apply (proj2 NB)]. }
    destruct (c56_url marshal disk _ _ _ _ _ _ _ _ _ _ (Text (lit "//" ++ host ++ base) :: lp) lp (fun n => show (arg n)) FA ON OS) as (sch & SU & MU).
    - rewrite ER. cbn [new_request r_op o_url]. rewrite (T _ NT). now rewrite <- !app_assoc.
    - rewrite ER. cbn [new_request r_op o_path]. exact KT.
    - constructor; [exact Logic.I|exact PO].
    - exact PO.
    - cbn [holes flat_map app]. fold (holes lp). intros n IN. assert (IN' : In n (holes lp)) by (apply in_app_iff in IN; tauto). destruct AR as (t & PL & _ & _ & PA & _). rewrite PA. destruct PL as (_ & _ & _ & (l & PK & FL) & _).
      destruct (carried (named_text show) _ _ _ _ _ _ (fun _ => eq_refl) PK FL (CA n IN')) as (q & _ & G). exact G.
    - exists sch. split; [rewrite ER in SU; exact SU|]. rewrite MU. cbn [fill flat_map]. change (lit "://") with (":"%char :: lit "//"). cbn [app]. fold (fill (fun n => quote_plus (show (arg n))) lp). now rewrite <- !app_assoc.
  Qed.
  Lemma arranged_headers : NoDup (map fst (p_header (r_p r))) /\ forall n t, sget n (p_header (r_p r)) = Some t -> exists q v, In (q, v) cs /\ q_name q = n /\ lands urls (lit "header") (q, v) /\ t = CTok (show v).
  Proof.
    destruct RQ as (_ & cs' & s' & host' & base' & os & co & pd & CV' & AR & _). assert (cs' = cs) as -> by exact (converted_fun _ _ _ _ CV' CV). destruct AR as (t & PL & EH & _). destruct PL as (_ & _ & (l & PK & FL) & _). rewrite EH. destruct FL as (ND & FL). split; [rewrite map_map; exact ND|].
    intros n x X. apply map_tok in X as (y & X & ->). rewrite FL in X. destruct (find _ _) as [e|] eqn:E; [|discriminate X]. cbn in X. injection X as <-. apply find_some in E as (E & N). apply in_rev in E. apply in_map_iff in E as ([q v] & <- & I). apply str_eqb_eq in N. destruct (picks_sub _ _ _ PK _ I). exists q, v. auto.
  Qed.
  Definition tok (kv : str * str) : str * cred := (fst kv, CTok (snd kv)).
  Lemma sent_query : exists l, picks (lands urls (lit "query")) cs l /\
    match sec with
    | None => m_query msg = map tok (flat_map (pairs urls show) l)
    | Some info => forall n,
        (forall cr, last_configured info false (req_names sc) n cr -> S_Client.named n (m_query msg) = repeat (n, cr) (Nat.max 1 (length (S_Client.named n (map tok (flat_map (pairs urls show) l)))))) /\
        (not_configured info false (req_names sc) n -> S_Client.named n (m_query msg) = S_Client.named n (map tok (flat_map (pairs urls show) l)))
    end.
  Proof.
    pose proof (c56_query marshal disk _ _ _ _ _ _ _ _ _ _ FA (proj1 arranged_headers)) as Q. destruct RQ as (_ & cs' & s' & host' & base' & os & co & pd & CV' & AR & _). assert (cs' = cs) as -> by exact (converted_fun _ _ _ _ CV' CV).
    destruct AR as (t & ((l & PK & EL) & _) & _ & EQ & _). exists l. split; [exact PK|]. rewrite EQ, EL in Q. exact Q.
  Qed.
  Lemma sent_header n v : carries urls "header" cs n v -> let info := match sec with Some i => i | None => [] end in not_configured info true (req_names sc) n ->
    (forall n', same_name n n' -> n' <> n -> not_configured info true (req_names sc) n' /\ forall q x, In (q, x) cs -> lands urls (lit "header") (q, x) -> q_name q <> n') ->
    ~ same_name n (lit "Content-Type") -> ~ same_name n (lit "Accept") -> (forall d, hs = HDict d -> NoDup (map fst d)) ->
    let custom := match hs with HList l | HDict l => values_of n l | _ => [] end in
    sent_values n (m_headers msg) =
      match hs with
      | HNone => [show v]
      | _ => if o_join opt then [join ","%string (show v :: custom)]
             else match c with Requests => [show v] | _ => show v :: custom end
      end.
  Proof.
    intros CA info NC OS N1 N2 ND. apply (c56_header marshal disk _ _ _ _ _ _ _ _ _ _ n (show v) FA (proj1 arranged_headers)); auto.
    - right. split; [exact NC|]. destruct RQ as (_ & cs' & s' & host' & base' & os & co & pd & CV' & AR & _). assert (cs' = cs) as -> by exact (converted_fun _ _ _ _ CV' CV). destruct AR as (t & PL & EH & _). destruct PL as (_ & _ & (l & PK & FL) & _). rewrite EH. apply map_tok.
      destruct (carried (named_text show) _ _ _ _ _ _ (fun _ => eq_refl) PK FL CA) as (q & _ & G). exists (show v). split; [exact G|reflexivity].
    - intros n' S D'. destruct (OS n' S D') as (A & B). split; [|exact A]. destruct (sget n' (p_header (r_p r))) as [t|] eqn:E; [|reflexivity]. exfalso. apply arranged_headers in E as (q & x & I & NQ & L & _). exact (B q x I L NQ).
  Qed.
  (** The bodies *)
  Lemma ready_data r' : made_ready marshal disk c sec sc schemes b opt r r' -> p_form (r_p r') = p_form (r_p r) /\ p_body (r_p r') = p_body (r_p r) /\ map fst (p_file (r_p r')) = map fst (p_file (r_p r)) /\
    exists q r1 ct, prepare_data marshal disk b (own_files c) q = (r1, Ok ct) /\ r_data r' = r_data r1 /\ r_op q = r_op r /\ r_consume q = r_consume r /\ p_form (r_p q) = p_form (r_p r) /\ p_body (r_p q) = p_body (r_p r) /\ p_file (r_p q) = p_file (r_p r).
  Proof.
    intros (l & r1 & r2 & -> & M2 & M3 & M4). rewrite secured_eq, secure_eq in M3.
    pose proof (frame_prepare marshal disk files_like files_like_refl files_like_trans b (SchList l) (own_files c)
                  (fun _ p => multipart_like disk b p) (set_p (psec (the_info sec) sc (r_p (reset r))) (reset r))) as K.
    rewrite M3 in K. cbn [fst] in K.
    assert (E : r_p r' = r_p r2 /\ r_data r' = r_data r2).
    { unfold M_Request.patch, rbind, gets, id, lift, modify, ret in M4. destruct (_ || _).
      - destruct (M_Url.urlparse _); [|discriminate]. injection M4 as <-. auto.
      - injection M4 as <-. auto. }
    destruct E as [-> ->]. apply prepare_ok in M3 as (sch & path & url & ct & r3 & _ & _ & _ & P0 & _ & _ & ED & _).
    destruct K as (K1 & K2 & K3 & K4 & K5 & K6 & K7 & K8 & K9 & K10).
    cbn [set_p reset r_op r_consume r_p psec p_header p_query p_path p_body p_form p_file] in *.
    split; [exact K9|]. split; [exact K8|]. split; [clear - K10; induction K10 as [|x y d d' (E & _) _ IH]; [reflexivity|]; cbn [map]; congruence|].
    eexists _, r3, ct. split; [exact P0|]. split; [exact ED|]. cbn [set_header set_url set_path set_p reset r_op r_consume r_p psec p_body p_form p_file]. auto 10.
  Qed.
  Lemma nonform l0 : picks (lands urls (lit "formData")) cs l0 -> p_form (r_p r) = flat_map (pairs urls show) l0.
  Proof.
    destruct RQ as (_ & cs' & s' & host' & base' & os & co & pd & CV' & AR & _). assert (cs' = cs) as -> by exact (converted_fun _ _ _ _ CV' CV). destruct AR as (t & PL & _ & _ & _ & _ & EF & _). destruct PL as (_ & (l & PK & FL) & _). rewrite EF, FL.
    intro PK'. f_equal. revert l0 PK'. clear - PK. induction PK as [|x cs l Y PK IH|x cs l Y PK IH]; intros l0 PK'; inversion PK'; subst; try reflexivity; try contradiction; [f_equal|]; auto.
  Qed.
  Lemma nofile : no_file urls cs -> p_file (r_p r) = [].
  Proof.
    destruct RQ as (_ & cs' & s' & host' & base' & os & co & pd & CV' & AR & _). assert (cs' = cs) as -> by exact (converted_fun _ _ _ _ CV' CV). destruct AR as (t & PL & _ & _ & _ & _ & _ & EF). destruct PL as (_ & _ & _ & _ & _ & (l & PK & FL)).
    intro NF. rewrite (picks_none _ _ _ PK NF) in FL. cbn [map] in FL. rewrite (filled_nil_inv _ FL) in EF. now inversion EF.
  Qed.
  Lemma isbody n v : carries urls "body" cs n v -> sget n (p_body (r_p r)) = Some v.
  Proof.
    destruct RQ as (_ & cs' & s' & host' & base' & os & co & pd & CV' & AR & _). assert (cs' = cs) as -> by exact (converted_fun _ _ _ _ CV' CV). destruct AR as (t & PL & _ & _ & _ & EB & _). destruct PL as (_ & _ & _ & _ & (l & PK & FL) & _). rewrite EB.
    intro CA. destruct (carried named _ _ _ _ _ _ (fun _ => eq_refl) PK FL CA) as (q & _ & G). exact G.
  Qed.
  Lemma nobody : none_lands urls "body" cs -> p_body (r_p r) = [].
  Proof.
    destruct RQ as (_ & cs' & s' & host' & base' & os & co & pd & CV' & AR & _). assert (cs' = cs) as -> by exact (converted_fun _ _ _ _ CV' CV). destruct AR as (t & PL & _ & _ & _ & EB & _). destruct PL as (_ & _ & _ & _ & (l & PK & FL) & _). rewrite EB.
    intro NB. rewrite (picks_none _ _ _ PK NB) in FL. exact (filled_nil_inv _ FL).
  Qed.
  Lemma taken_fun n op0 l1 l2 : taken n op0 doc l1 -> taken n op0 doc l2 -> l1 = l2.
  Proof.
    intros (o1 & d1 & x1 & A1 & A2 & A3 & ->) (o2 & d2 & x2 & B1 & B2 & B3 & ->). assert (o2 = o1) as -> by congruence. assert (d2 = d1) as -> by congruence. assert (E : VList (map VStr l1) = VList (map VStr l2)) by (destruct A3 as [(?&->)|(?&->)], B3 as [(?&E)|(?&E)]; tauto || (symmetry; exact E)).
    injection E as E. clear - E. revert l2 E. induction l1 as [|a l1 IH]; intros [|b l2] E; try discriminate E; [reflexivity|]. cbn [map] in E. injection E as -> E. f_equal. auto.
  Qed.
  Lemma sent_body n v co p : no_file urls cs -> none_lands urls "formData" cs -> carries urls "body" cs n v -> taken "consumes" op doc co ->
    In p ps -> text_in abs_uri win_uri u doc "in" p (lit "body") -> (forall p, In p ps -> text_in abs_uri win_uri u doc "in" p (lit "body") -> text_in abs_uri win_uri u doc "name" p n) ->
    exists d, marshal (match co with ct :: _ => ct | [] => lit "application/json" end) v = Ok d /\ m_payload msg = PData (DText d).
  Proof.
    intros NF NL CA TC IP TP ON. pose proof (nofile NF) as EF. pose proof (isbody _ _ CA) as EB.
    assert (EO : p_form (r_p r) = []). { destruct RQ as (_ & cs' & s' & host' & base' & os & co' & pd & CV' & AR & _). assert (cs' = cs) as -> by exact (converted_fun _ _ _ _ CV' CV). destruct AR as (t & PL & _ & _ & _ & _ & EO & _). destruct PL as (_ & (l & PK & FL) & _). now rewrite EO, FL, (picks_none _ _ _ PK NL). }
    assert (NB : p_body (r_p r) <> []) by (intro X; rewrite X in EB; discriminate EB).
    assert (OS : exists os, o_params (r_op r) = os /\ Forall2 (listed abs_uri win_uri u doc) ps os /\ o_consumes (r_op r) = co /\ r_consume r = None).
    { destruct RQ as (_ & cs' & s' & host' & base' & os & co' & pd & _ & _ & _ & _ & _ & TC' & _ & LS & ER). exists os. rewrite ER. cbn [new_request r_op o_params o_consumes r_consume]. split; [reflexivity|]. split; [exact LS|]. split; [exact (taken_fun _ _ _ _ TC' TC)|reflexivity]. }
    destruct OS as (os & EP & LS & EC & EN). destruct FA as (r' & h & MR & _ & _ & _ & _ & _ & BS). destruct (ready_data _ MR) as (PF & PB & PI & q & r1 & ct & PD & DA & Q1 & Q2 & Q3 & Q4 & Q5).
    assert (FE : p_file (r_p r') = []) by (rewrite EF in PI; destruct (p_file (r_p r')); [reflexivity|discriminate PI]).
    assert (X : prepared_data r' msg). { destruct c; cbn [body_sent] in BS; [tauto|tauto|]. destruct BS as (_ & BS). rewrite FE, PB in BS. destruct (p_body (r_p r)); [now elim NB|exact BS]. }
    destruct X as (d & RD & PL). rewrite DA in RD. apply prepare_data_ok in PD. rewrite Q1, Q3, Q4, Q5, EF, EO in PD. destruct PD as [(X & _)|[(X & _)|[(_ & X & _)|[PD|(_ & _ & X & _)]]]]; try now elim X.
    - destruct PD as (_ & _ & _ & _ & [(_ & _ & X)|(x & v' & d' & IX & XB & G & M & _ & RD')]).
      + exfalso. destruct (P_SpecBase.Forall2_In_l _ _ _ _ LS IP) as (x & IX & _ & LX). rewrite EP in X. apply (X x IX). exact (P_Invoke.text_in_fun _ _ _ _ _ _ _ _ LX TP).
      + rewrite EP in IX. destruct (P_SpecBase.Forall2_In_r _ _ _ _ LS IX) as (p' & IP' & LN & LI). rewrite XB in LI. pose proof (P_Invoke.text_in_fun _ _ _ _ _ _ _ _ LN (ON _ IP' LI)) as E. rewrite E in G. assert (v' = v) as -> by congruence.
        exists d'. split; [|congruence]. unfold body_type in M. rewrite Q2, EN, Q1, EC in M. exact M.
  Qed.
  Lemma sent_form l : no_file urls cs -> picks (lands urls (lit "formData")) cs l -> flat_map (pairs urls show) l <> [] ->
    (c <> Flask -> m_payload msg = PData (DText (urlencode (flat_map (pairs urls show) l)))) /\
    (c = Flask -> none_lands urls "body" cs -> m_payload msg = PData (DForm (flat_map (pairs urls show) l))).
  Proof.
    intros NF PK NE. pose proof (nofile NF) as EF. pose proof (nonform _ PK) as EO. destruct FA as (r' & h & MR & _ & _ & _ & _ & _ & BS). destruct (ready_data _ MR) as (PF & PB & PI & q & r1 & ct & PD & DA & Q1 & Q2 & Q3 & Q4 & Q5). split.
    - intro NC. assert (X : prepared_data r' msg) by (destruct c; cbn [body_sent] in BS; [tauto|tauto|now elim NC]). destruct X as (d & RD & PL). rewrite DA in RD. apply prepare_data_ok in PD. rewrite Q3, Q4, Q5, EF, EO in PD.
      destruct PD as [(X & _)|[(X & _)|[(_ & _ & _ & _ & X)|[(_ & X & _)|(_ & X & _)]]]]; try contradiction; try (now elim X). congruence.
    - intros -> NB. cbn [body_sent] in BS. destruct BS as (_ & BS). assert (FE : p_file (r_p r') = []) by (rewrite EF in PI; destruct (p_file (r_p r')); [reflexivity|discriminate PI]). rewrite FE, PB, (nobody NB), PF, EO in BS. exact BS.
  Qed.
  Lemma sent_nothing : no_file urls cs -> none_lands urls "formData" cs -> none_lands urls "body" cs -> m_payload msg = PData match c with Flask => DForm [] | _ => DNone end.
  Proof.
    intros NF NL NB. pose proof (nofile NF) as EF. pose proof (nobody NB) as EB.
    assert (EO : p_form (r_p r) = []). { destruct RQ as (_ & cs' & s' & host' & base' & os & co' & pd & CV' & AR & _). assert (cs' = cs) as -> by exact (converted_fun _ _ _ _ CV' CV). destruct AR as (t & PL & _ & _ & _ & _ & EO & _). destruct PL as (_ & (l & PK & FL) & _). now rewrite EO, FL, (picks_none _ _ _ PK NL). }
    destruct FA as (r' & h & MR & _ & _ & _ & _ & _ & BS). destruct (ready_data _ MR) as (PF & PB & PI & q & r1 & ct & PD & DA & Q1 & Q2 & Q3 & Q4 & Q5).
    assert (FE : p_file (r_p r') = []) by (rewrite EF in PI; destruct (p_file (r_p r')); [reflexivity|discriminate PI]). apply prepare_data_ok in PD. rewrite Q3, Q4, Q5, EF, EO, EB in PD.
    assert (RD : r_data r' = Some DNone) by (rewrite DA; destruct PD as [(X & _)|[(X & _)|[(_ & X & _)|[(_ & _ & X & _)|(_ & _ & _ & _ & X)]]]]; try (now elim X); exact X).
    destruct c; cbn [body_sent] in BS; [destruct BS as ((d & A & B) & _); congruence|destruct BS as ((d & A & B) & _); congruence|]. destruct BS as (_ & BS). rewrite FE, PB, EB, PF, EO in BS. exact BS.
  Qed.
  (** Files, for the client that leaves them to its library *)
  Lemma kept_files r' : own_files c = false -> made_ready marshal disk c sec sc schemes b opt r r' -> p_file (r_p r') = p_file (r_p r).
  Proof.
    intros NO (l & r1 & r2 & -> & M2 & M3 & M4). rewrite secured_eq, secure_eq in M3.
    pose proof (frame_prepare marshal disk eq (@eq_refl _) (@eq_trans _) b (SchList l) (own_files c) ltac:(rewrite NO; discriminate) (set_p (psec (the_info sec) sc (r_p (reset r))) (reset r))) as K.
    rewrite M3 in K. cbn [fst] in K. destruct K as (_ & _ & _ & _ & K). destruct K as (_ & _ & _ & _ & _ & K).
    assert (E : r_p r' = r_p r2).
    { unfold M_Request.patch, rbind, gets, id, lift, modify, ret in M4. destruct (_ || _).
      - destruct (M_Url.urlparse _); [|discriminate]. injection M4 as <-. auto.
      - injection M4 as <-. auto. }
    rewrite E, <- K. reflexivity.
  Qed.
  Lemma sent_files : c = Requests -> exists l d, picks (fun x => is_file urls (fst x) (snd x)) cs l /\ filled (map named l) d /\ Forall2 (uploaded disk) (all_files (map (fun kv => (fst kv, files (snd kv))) d)) (m_files msg).
  Proof.
    intros CR. destruct FA as (r' & h & MR & _ & _ & _ & _ & _ & BS). pose proof (kept_files r' ltac:(rewrite CR; reflexivity) MR) as KF. rewrite CR in BS. cbn [body_sent] in BS. destruct BS as (_ & UP). rewrite KF in UP.
    destruct RQ as (_ & cs' & s' & host' & base' & os & co & pd & CV' & AR & _). assert (cs' = cs) as -> by exact (converted_fun _ _ _ _ CV' CV). destruct AR as (t & PL & _ & _ & _ & _ & _ & EF). destruct PL as (_ & _ & _ & _ & _ & (l & PK & ND & FL)).
    assert (X : exists d : sdict P, s_file t = map (fun kv => (fst kv, inl (snd kv))) d /\ p_file (r_p r) = map (fun kv => (fst kv, files (snd kv))) d).
    { clear - EF. induction EF as [|[a1 a2] [b1 b2] x y (E & v & E1 & E2) _ (d & D1 & D2)]; [exists []; auto|]. cbn [fst snd] in *. subst. exists ((b1, v) :: d). cbn [map fst snd]. split; congruence. }
    destruct X as (d & D1 & D2). exists l, d. split; [exact PK|]. split; [|now rewrite D2 in UP]. rewrite D1 in ND, FL. split; [rewrite map_map in ND; exact ND|]. intro n. specialize (FL n).
    assert (G : sget n (map (fun kv : str * P => (fst kv, (inl (snd kv) : P + str))) d) = option_map inl (sget n d)).
    { clear. induction d as [|[a e] d IH]; [reflexivity|]. cbn [map fst snd]. rewrite !P_SpecBase.sget_cons. destruct (str_eqb n a); auto. }
    assert (Fd : forall z : list (param * P), option_map snd (find (fun e => str_eqb (fst e) n) (map (fun qc => (q_name (fst qc), (inl (snd qc) : P + str))) z)) = option_map inl (option_map snd (find (fun e => str_eqb (fst e) n) (map named z)))).
    { clear. induction z as [|[a e] z IH]; [reflexivity|]. cbn [map find fst snd named]. destruct (str_eqb (q_name a) n); auto. }
    rewrite G in FL. rewrite <- map_rev in FL |- *. rewrite Fd in FL. destruct (sget n d), (option_map snd (find _ (map named (rev l)))); cbn in FL; congruence.
  Qed.
End Sent.
