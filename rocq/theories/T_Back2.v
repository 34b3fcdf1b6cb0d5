(** C68, continued: the texts in the messages of calls. *)
From Coq Require Import QArith Lia.
From Verif Require Import PyBase PyFacts PyJson M_JsonPtr S_JsonPtr M_Url P_Op M_SpecVal M_Parse M_SpecTree M_Merge M_MergeRef S_Parse S_SpecTree S_Merge S_MergeRef M_Scope M_Patch S_Patch M_App M_OldValidate M_OldParse M_Prepare S_Prepare M_Quote S_Quote M_Client S_Client M_Request S_Request M_Op S_Op M_Contrib S_Contrib M_Invoke S_Invoke T_Contrib T_Prepare T_Invoke P_Invoke2.
From Verif Require Import P_Invoke T_Request M_Time S_Time M_Declared S_Declared P_Declared3 T_Declared S_Back P_Back P_Back2 T_Back.
From Verif Require M_Prim M_PrimText S_Prim.
Close Scope Q_scope.
Open Scope nat_scope.

(** Parameters that are not sent as files *)
Definition no_file_declared (g : val) : Prop := ~ of_type g "file" /\ forall i, field_of g (lit "items") = Some i -> ~ of_type i "file".
(** There are no credentials of that name. *)
Definition unconfigured (sec : option sec_info) (n : str) : Prop := forall info key place n' cr, sec = Some info -> same_name n n' -> sget key info <> Some (place, (n', cr)).
Section Oracles.
  (** As in C68 *)
  Context (int_of : str -> res Z) (float_of : str -> res Q) (str_of : M_Prim.value -> str)
    (date_at : Q -> res (Z * Z * Z)) (datetime_at : Q -> res M_Time.datetime) (uuid_of : str -> option Z) (email_ok : str -> bool)
    (bytes_text : str -> res str) (show_other : M_Prim.prim -> str).
  Notation becomes := (becomes int_of float_of str_of date_at datetime_at uuid_of email_ok).
  Notation shown := (M_PrimText.show bytes_text show_other).
  Notation carries := (S_Back.carries int_of float_of uuid_of bytes_text show_other).
  Context (model : bool -> val -> M_Prim.value -> res M_Prim.prim).
  Notation produce := (produce_any int_of float_of str_of date_at datetime_at uuid_of email_ok model).
  Context (abs_uri win_uri : str -> str) (fetch : str -> res json) (prim : str -> bool) (num : str -> res Q) (sep : str) (fuel : nat).
  Hypothesis JD : forall j x, fetch j = Ok x -> wf x.
  Hypothesis NEW : forall j x v, fetch j = Ok x -> version_of x = Ok v -> is_version v "1.2" = false.
  Context (url nu u : str) (strict : bool) (pr : prepared).
  Hypothesis N : normalize_url abs_uri win_uri url = Ok nu.
  Hypothesis J : jr_split abs_uri win_uri nu = Ok (u, lit "#").
  Hypothesis U : u <> [].
  Hypothesis CR : create_app abs_uri win_uri fetch prim num sep fuel url strict = Ok pr.
  Context (doc root : val).
  Hypothesis FT : found_there fetch nu u pr doc root.
  Context (k m : str) (pi op pi' op' : val).
  Hypothesis PI : path_item doc k pi.
  Hypothesis OP : operation pi m op.
  Hypothesis PI' : path_item root k pi'.
  Hypothesis OP' : operation pi' m op'.
  Context {R : Type} (urls : M_Prim.prim -> option (list str)) (show : M_Prim.prim -> str) (files : M_Prim.prim -> list file) (ptext : M_Prim.prim -> option str)
    (encode : val -> str -> M_Prim.prim -> res str) (decode : val -> str -> R -> res M_Prim.value) (disk : str -> res str).
  Hypothesis NR : field_of pi (lit "$ref") = Some VNone.
  Context (ss : list val) (rs : sdict val).
  Hypothesis SL : field_of pi (lit "parameters") = Some (VList ss).
  Hypothesis US : Forall (usable abs_uri win_uri u doc) ss.
  Hypothesis UO : forall os, field_of op (lit "parameters") = Some (VList os) -> Forall (usable abs_uri win_uri u doc) os.
  Hypothesis RS : field_of op (lit "responses") = Some (VDict rs).
  Hypothesis LR : forall n r, In (n, r) rs -> exists l, leads abs_uri win_uri u doc CResponse r l.
  (** Only arrays are sent as lists. *)
  Hypothesis AR : forall c, urls c <> None -> exists fmt l, c = M_Prim.PArray fmt l.
  Notation declares := (declares value_of produce).
  Notation says_of := (says_of abs_uri win_uri u doc).
  Notation use := (use_op urls show files ptext value_of M_Prim.VStr produce encode decode disk).

  (** If using an operation sends a message, who receives it finds the text of an argument in the
      query, in the form or in the headers, under the name of the parameter and only once, and
      converts it to the same. *)
  Theorem c68_message : exists ps fs qs, accepted abs_uri win_uri u doc op pi ps /\ Forall2 says_of ps fs /\ Forall2 declares fs qs /\
    forall send c sec args base opt hs sent w e, use send c sec op' args base opt hs sent = Ok (w, e) -> forall msg, w_sent w = sent ++ [msg] ->
    forall a g b, fs = a ++ g :: b -> alone g (a ++ b) -> outside_body g -> in_order g -> forall x, gets args g x ->
    exists p, becomes g x p /\ forall s n, carries g p -> shown p = Ok s -> text_at g "name" n -> show p = s -> urls p = None \/ urls p = Some [s] -> unconfigured sec n ->
      becomes g (M_Prim.VStr s) p /\
      (text_at g "in" (lit "query") -> filter (fun e => str_eqb (fst e) n) (m_query msg) = [(n, CTok s)]) /\
      (text_at g "in" (lit "formData") -> c <> Flask -> (forall h, In h (a ++ b) -> no_file_declared h) ->
         exists text, m_payload msg = PData (DText text) /\ filter (fun e => str_eqb (fst e) n) (read_form text) = [(n, s)]) /\
      (text_at g "in" (lit "header") -> hs = HNone -> (forall h n', In h (a ++ b) -> text_at h "in" (lit "header") -> text_at h "name" n' -> ~ same_name n n') ->
         ~ same_name n (lit "Content-Type") -> ~ same_name n (lit "Accept") -> sent_values n (m_headers msg) = [s]).
  Proof.
    destruct (c59_sends abs_uri win_uri fetch prim num sep fuel JD NEW url nu u strict pr N J U CR doc root FT k m pi op pi' op' PI OP PI' OP' urls show files ptext value_of M_Prim.VStr produce encode decode disk NR ss rs SL US UO RS LR) as (ps & qs & s0 & su & AC & ST & _ & _ & SE).
    assert (X : exists fs, Forall2 says_of ps fs /\ Forall2 declares fs qs).
    { clear - ST. induction ST as [|p q ps qs (l & g & L & C & D) F (fs & A & B)]; [exists []; split; constructor|]. exists (g :: fs). split; constructor; auto. exists l. auto. }
    destruct X as (fs & SF & DF). exists ps, fs, qs. split; [exact AC|]. split; [exact SF|]. split; [exact DF|].
    intros send c sec args base opt hs sent w e UE msg WM a g b -> AL OB O x G.
    destruct (SE send c sec args base opt hs sent w e UE) as (r & schemes & sc & RQ & _ & _ & [(WS & _)|(msg' & WS & FA)]).
    { exfalso. rewrite WS in WM. apply (f_equal (@length _)) in WM. rewrite app_length in WM. cbn in WM. lia. }
    rewrite WS in WM. apply app_inj_tail in WM as (_ & ->).
    pose proof RQ as (_ & cs & su' & host & bs & os & co' & pd & CV & (st & (_ & (lf & PK & _) & _) & _) & _).
    apply Forall2_app_left in DF as (qa & q & qb & -> & DA & D & DB). pose proof CV as CV0. apply converted_app in CV as (ca & cb & -> & CA1 & CB1).
    apply (gets_supplied int_of float_of str_of date_at datetime_at uuid_of email_ok model args g q x D) in G. cbn [converted] in CB1. rewrite G in CB1. destruct CB1 as (y & cs' & -> & PX & CB1).
    pose proof (proj1 (declares_prim _ _ _ _ _ _ _ model g q D OB O x y) PX) as B. exists y. split; [exact B|]. intros s n C SH NM SW UR UC.
    assert (QN : q_name q = n) by (pose proof (de_name _ _ _ _ D) as X; unfold text_at in NM; congruence).
    assert (NF : ~ is_file urls q y) by (eapply no_file; eassumption).
    assert (TX : texts urls show y = [s]) by (unfold texts; destruct UR as [-> | ->]; congruence). assert (PR : pairs urls show (q, y) = [(n, s)]) by (unfold pairs; cbn [fst snd]; rewrite TX; cbn [map]; congruence).
    assert (HE : forall q' c', In (q', c') (ca ++ cs') -> exists h, In h (a ++ b) /\ declares h q').
    { intros q' c' Y. apply in_app_iff in Y as [Y|Y]; [destruct (converted_in args _ _ CA1 q' c' Y) as (Q & _); destruct (Forall2_right _ _ _ _ DA Q) as (h & Hi & Dh)|destruct (converted_in args _ _ CB1 q' c' Y) as (Q & _); destruct (Forall2_right _ _ _ _ DB Q) as (h & Hi & Dh)];
        exists h; (split; [apply in_app_iff; auto|exact Dh]). }
    assert (OT : forall i, text_at g "in" i -> q_in q = i /\ forall z, In z (ca ++ cs') -> q_name (fst z) = q_name q -> q_in (fst z) <> i).
    { intros i I. split; [pose proof (de_in _ _ _ _ D) as X; unfold text_at in I; congruence|]. intros [q' c'] Y YN YI. cbn [fst] in *. destruct (HE q' c' Y) as (h & Hi & Dh).
      apply (AL h n i Hi NM); [|exact I|]; unfold text_at; [rewrite <- QN, <- YN; exact (de_name _ _ _ _ Dh)|rewrite <- YI; exact (de_in _ _ _ _ Dh)]. }
    assert (LA : forall i, text_at g "in" i -> lands urls i (q, y)) by (intros i I; split; [exact (proj1 (OT i I))|exact NF]).
    assert (UNC : forall info place names n', sec = Some info -> same_name n n' -> not_configured info place names n') by (intros info place names n' E SN key cr _; exact (UC info key place n' cr E SN)).
    split; [exact (carried _ _ _ _ _ _ _ _ _ g y C x s B SH)|]. split; [|split].
    - intro I. destruct (OT _ I) as (_ & OTH). destruct (c59_query abs_uri win_uri nu u doc k op urls show files (encode s0) disk ps _ args r RQ c sec m sc schemes base opt hs msg FA _ CV0) as (l & PQ & Q).
      pose proof (listed_alone urls show _ ca q y cs' l PQ (LA _ I) OTH) as X. rewrite PR, QN in X.
      assert (Y : forall l : list (str * str), filter (fun e => str_eqb (fst e) n) (map (fun kv => (fst kv, CTok (snd kv))) l) = map (fun kv => (fst kv, CTok (snd kv))) (filter (fun e => str_eqb (fst e) n) l)) by (clear; induction l as [|e l IH]; [reflexivity|]; cbn [map filter fst]; destruct (str_eqb (fst e) n); cbn [map]; now rewrite IH).
      destruct sec as [info|]; [destruct (Q n) as (_ & Q'); specialize (Q' (UNC info false _ n eq_refl eq_refl)); unfold S_Client.named in Q'|rewrite Q]; [|now rewrite Y, X].
      etransitivity; [exact Q'|]. now rewrite Y, X.
    - intros I NFL NFD. destruct (OT _ I) as (_ & OTH).
      assert (NA : S_Invoke.no_file urls (ca ++ (q, y) :: cs')).
      { intros (q', c') Z. cbn [fst snd]. assert (Z' : (q', c') = (q, y) \/ In (q', c') (ca ++ cs')) by (apply in_app_iff in Z as [Z|[Z|Z]]; [right; apply in_app_iff; auto|left; congruence|right; apply in_app_iff; auto]). destruct Z' as [Z'|Z']; [injection Z' as -> ->; exact NF|].
        destruct (HE q' c' Z') as (h & Hi & Dh). destruct (NFD h Hi) as (N1 & N2). intros [E|(_ & _ & E)].
        - destruct (de_type _ _ _ _ Dh) as (t & FT' & TI). apply N1. unfold of_type, text_at. rewrite FT'. f_equal. now apply TI.
        - destruct (de_items _ _ _ _ Dh) as (i & FI & [(_ & X)|(t & z & FT' & X & TI)]); [congruence|]. apply (N2 i FI). unfold of_type, text_at. rewrite FT'. f_equal. apply TI. congruence. }
      pose proof (listed_alone urls show _ ca q y cs' lf PK (LA _ I) OTH) as X. rewrite PR, QN in X.
      destruct (c59_form abs_uri win_uri nu u doc k op urls show files (encode s0) disk ps _ args r RQ c sec m sc schemes base opt hs msg FA _ CV0 lf NA PK) as (P1 & _).
      + intro E. rewrite E in X. discriminate X.
      + exists (urlencode (flat_map (pairs urls show) lf)). split; [exact (P1 NFL)|]. now rewrite c20_round_trip.
    - intros I -> OH NT NACC. destruct (OT _ I) as (QI & OTH).
      assert (CC : S_Invoke.carries urls "header" (ca ++ (q, y) :: cs') n y).
      { exists ca, q, cs'. split; [reflexivity|]. split; [exact QN|]. split; [exact (LA _ I)|]. intros z Z (LZ & _) E. apply (OTH z); [apply in_app_iff; auto|congruence|exact LZ]. }
      pose proof (c59_header abs_uri win_uri nu u doc k op urls show files (encode s0) disk ps _ args r RQ c sec m sc schemes base opt HNone msg FA _ CV0 n y CC) as X. cbv zeta in X. rewrite <- SW. apply X; try assumption.
      + destruct sec as [info|]; [exact (UNC info true _ n eq_refl eq_refl)|intros key cr _; discriminate].
      + intros n' SN NE. split; [destruct sec as [info|]; [exact (UNC info true _ n' eq_refl SN)|intros key cr _; discriminate]|]. intros q' c' Z (LZ & _) E. subst n'.
        assert (Z' : (q', c') = (q, y) \/ In (q', c') (ca ++ cs')) by (apply in_app_iff in Z as [Z|[Z|Z]]; [right; apply in_app_iff; auto|left; congruence|right; apply in_app_iff; auto]). destruct Z' as [Z'|Z']; [injection Z' as -> ->; exact (NE QN)|].
        destruct (HE q' c' Z') as (h & Hi & Dh). refine (OH h (q_name q') Hi _ (de_name _ _ _ _ Dh) SN). unfold text_at. cbn [fst] in LZ. rewrite <- LZ. exact (de_in _ _ _ _ Dh).
      + intros d E. discriminate E.
  Qed.
End Oracles.
Print Assumptions c68_message.

(** ** Concrete case: an operation with a parameter in each of these places *)
Local Definition js (x : string) : json := JStr (lit x).
Definition notes : json := JObj
  [(lit "swagger", js "2.0");
   (lit "paths", JObj [(lit "/notes", JObj [(lit "post", JObj
      [(lit "parameters", JList
         [JObj [(lit "name", js "count"); (lit "in", js "query"); (lit "type", js "integer")];
          JObj [(lit "name", js "kinds"); (lit "in", js "formData"); (lit "type", js "array"); (lit "collectionFormat", js "pipes"); (lit "items", JObj [(lit "type", js "string")])];
          JObj [(lit "name", js "X-Day"); (lit "in", js "header"); (lit "type", js "string"); (lit "format", js "date")]]);
       (lit "responses", JObj [(lit "200", JObj [(lit "description", js "ok")])])])])])].
Definition notes_created : res prepared := create_app (fun s => s) (fun s => s) (T_Prepare.web notes) (fun _ => false) (fun _ => Err ValueError) SCOPE_SEPARATOR 20 T_Prepare.there true.
Definition notes_root : val := match notes_created with Ok pr => match a_root (pr_app pr) with Some (_, v) => v | None => VNone end | Err _ => VNone end.
Definition notes_doc : val := match parse (Of CSwagger) [] notes with Ok raw => match norm_refs T_Prepare.there raw with Ok d => d | Err _ => VNone end | Err _ => VNone end.
Definition notes_parameters : list val := list_in (at_ notes_doc ["paths"; "/notes"; "post"; "parameters"]%string).
Definition ex_show (p : M_Prim.prim) : str := match ex_shown p with Ok s => s | Err _ => [] end.
Definition ex_urls (p : M_Prim.prim) : option (list str) :=
  match p with M_Prim.PArray fmt l => match M_PrimText.to_url (fun s => Ok s) (fun _ => lit "?") fmt l with Ok ts => Some ts | Err _ => None end | _ => None end.
Notation notes_used args :=
  (use_op ex_urls ex_show (fun _ => []) (fun _ => None) value_of M_Prim.VStr
    (produce_any ex_int (fun _ => Err ValueError) (fun _ => lit "?") (fun _ => Err ValueError) (fun _ => Err ValueError) (fun _ => None) (fun _ => true) (fun _ _ _ => Err TypeError))
    (fun _ _ _ => Err TypeError) (fun _ _ (raw : str) => Ok (M_Prim.VStr raw)) (fun _ => Err OSError)
    (fun _ _ => Ok (Reply (H:=str + M_Prim.prim) 200%Z [] (lit ""))) Requests None (at_ notes_root ["paths"; "/notes"; "post"]%string) args [] (Opts None None false) HNone []).
Lemma ex_urls_array c : ex_urls c <> None -> exists fmt l, c = M_Prim.PArray fmt l.
Proof. destruct c; try (intro H; destruct (H eq_refl)); eauto. Qed.
Example c68_message_ex : exists pr, notes_created = Ok pr /\ forallb (usableb T_Prepare.there notes_doc) notes_parameters = true /\ length notes_parameters = 3 /\ Forall in_order notes_parameters /\
  unconfigured None (lit "X-Day") /\ ex_carries (nth 1 notes_parameters VNone) two_made /\ ex_urls two_made = Some [lit "new|old"] /\
  exists w msg text, notes_used [(lit "count", M_Prim.VInt 3); (lit "kinds", two_kinds); (lit "X-Day", M_Prim.VStr (lit "2020-02-29"))] = Ok (w, Ok tt) /\ w_sent w = [msg] /\
    m_query msg = [(lit "count", CTok (lit "3"))] /\ sent_values (lit "X-Day") (m_headers msg) = [lit "2020-02-29"] /\
    m_payload msg = PData (DText text) /\ text = lit "kinds=new%7Cold" /\ read_form text = [(lit "kinds", lit "new|old")].
Proof.
  eexists. split; [vm_compute; reflexivity|]. split; [vm_compute; reflexivity|]. split; [vm_compute; reflexivity|]. split.
  { apply Forall_forall. intros f I. apply (in_orderb_ok 9). revert f I. apply forallb_forall. vm_compute. reflexivity. }
  split; [intros info key place n' cr X; discriminate X|]. split.
  { apply (ca_array _ _ _ _ _ _ (at_ (nth 1 notes_parameters VNone) ["items"]%string) "pipes"%string "|"%string _ (lit "new") [lit "old"]); try (vm_compute; reflexivity).
    + repeat constructor.
    + discriminate.
    + repeat constructor; intros c [<-|[]] I; cbn in I; repeat destruct I as [I|I]; try discriminate I; exact I.
    + intros _. repeat constructor; cbn; intros X; repeat destruct X as [X|X]; try discriminate X; exact X.
    + repeat constructor. }
  split; [vm_compute; reflexivity|]. do 3 eexists. split; [vm_compute; reflexivity|]. repeat (split; [vm_compute; reflexivity|]). vm_compute. reflexivity.
Qed.
