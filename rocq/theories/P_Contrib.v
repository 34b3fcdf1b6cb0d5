(** Proofs about the clients (C56). *)
From Verif Require Import PyBase PyFacts M_Client S_Client P_Client M_Request S_Request P_Request
  M_Op S_Op P_Op M_Contrib S_Contrib.

Lemma upper_char_ok c : lower_char (upper_char c) = lower_char c /\
  ~ (97 <= nat_of_ascii (upper_char c) <= 122).
Proof.
  destruct c as [[] [] [] [] [] [] [] []]; vm_compute; (split; [reflexivity|]); intros [X Y];
  repeat (apply le_S_n in X || apply le_S_n in Y); try (inversion X; fail); try (inversion Y; fail).
Qed.
Lemma upper_capitals s : in_capitals s (upper s).
Proof.
  split.
  - unfold lower, upper. rewrite map_map. apply map_ext. intros c. apply upper_char_ok.
  - intros c H. unfold upper in H. apply in_map_iff in H as (x & <- & _). apply upper_char_ok.
Qed.

Section Clients.
Context {B : Type} (marshal : str -> B -> res str) (disk : str -> res str).
Context {H R J D : Type} (text : H -> option str) (unmarshal : str -> R -> res J).
Notation request := (request (B:=B)).
Notation resp := (resp (H:=H) (R:=R) (D:=D)).
Notation target := (target (H:=H) (J:=J) (D:=D)).
Notation world := (world (B:=B) (H:=H) (R:=R) (D:=D)).
Notation reply := (reply (H:=H) (R:=R)).
Context (send : list message -> message -> res reply).
Notation client_request := (client_request marshal disk text unmarshal send).
Notation ready := (ready (D:=D) marshal disk).

(** the caller's objects after the headers have been composed *)
Definition opt_after (w : world) : opts :=
  Opts None None (match w_headers w with HNone => o_join (w_opt w) | _ => false end).

Lemma compose_spec a (w w' : world) hs : compose a w = (w', hs) ->
  w_req w' = w_req w /\ w_resp w' = w_resp w /\ w_sent w' = w_sent w /\
  hs = (do h <- header_texts (r_header (w_req w)); compose_headers h (w_headers w) (o_join (w_opt w)) a).
Proof.
  unfold compose. destruct (header_texts _) as [h|e]; cbn [bind].
  2:{ intros [= <- <-]. auto. }
  destruct (w_headers w) as [|l|d|] eqn:E.
  - intros [= <- <-]. auto.
  - intros [= <- <-]. auto.
  - destruct (compose_headers h (HDict d) (o_join (w_opt w)) a) as [[l|l|l]|e]; try (intros [= <- <-]; auto; fail).
    destruct (_ && _); intros [= <- <-]; auto.
  - intros [= <- <-]. auto.
Qed.

Lemma schemes_none l : prepare_schemes [lit "http"; lit "https"] l <> Ok [].
Proof. unfold prepare_schemes. destruct (sort_desc _); discriminate. Qed.

Lemma ready_spec sec b (c : client) (t : target) (w w' : world) hs :
  ready sec [lit "http"; lit "https"] b (own_files c) (header_table c) t w = (w', hs) ->
  w_resp w' = resp_reset (w_resp w) /\ w_sent w' = w_sent w /\
  match hs with
  | Ok h => exists r' h', made_ready marshal disk c sec (t_security t) (t_schemes t) b (w_opt w) (w_req w) r' /\
      w_req w' = r' /\ header_texts (r_header r') = Ok h' /\
      compose_headers h' (w_headers w) (o_join (w_opt w)) (header_table c) = Ok h
  | Err _ => forall r' h' h, made_ready marshal disk c sec (t_security t) (t_schemes t) b (w_opt w) (w_req w) r' ->
      header_texts (r_header r') = Ok h' ->
      compose_headers h' (w_headers w) (o_join (w_opt w)) (header_table c) <> Ok h
  end.
Proof.
  unfold M_Contrib.ready. set (r1 := match sec with Some _ => _ | None => _ end).
  destruct (prepare_schemes _ _) as [l|e] eqn:E1.
  2:{ intros [= <- <-]. repeat split. intros r' h' h (l & r1' & r2 & -> & X & _). congruence. }
  destruct (prepare marshal disk b (SchList l) (own_files c) r1) as [r2 [[]|e]] eqn:E2.
  2:{ intros [= <- <-]. repeat split. intros r' h' h (l' & r1' & r2' & Y & X & Z & _).
      subst r1'. fold r1 in Z. rewrite E1 in X. injection X as <-. congruence. }
  cbn [set_wresp w_opt].
  destruct (patch _ _ r2) as [r3 [[]|e]] eqn:E3.
  2:{ intros [= <- <-]. repeat split. intros r' h' h (l' & r1' & r2' & Y & X & Z & V).
      subst r1'. fold r1 in Z. rewrite E1 in X. injection X as <-. rewrite E2 in Z. injection Z as <-. congruence. }
  intros C. apply compose_spec in C as (C1 & C2 & C3 & C4).
  cbn [set_wreq set_wopt set_wresp w_req w_resp w_sent w_headers w_opt o_join] in C1, C2, C3, C4.
  split; [exact C2|]. split; [exact C3|].
  assert (M : forall r', made_ready marshal disk c sec (t_security t) (t_schemes t) b (w_opt w) (w_req w) r' <-> r' = r3).
  { intros r'. split.
    - intros (l' & r1' & r2' & Y & X & Z & V). subst r1'. fold r1 in Z. rewrite E1 in X. injection X as <-.
      rewrite E2 in Z. injection Z as <-. congruence.
    - intros ->. exists l, r1, r2. auto. }
  destruct hs as [h|e].
  - destruct (header_texts (r_header r3)) as [h'|] eqn:E4; [|discriminate]. cbn [bind] in C4.
    exists r3, h'. split; [now apply M|]. auto.
  - intros r' h' h Mr. apply M in Mr. subst r'. intros E4. rewrite E4 in C4. cbn [bind] in C4. congruence.
Qed.

Lemma made_ready_data c sec s ss b o (r r' : request) :
  made_ready marshal disk c sec s ss b o r r' -> exists d, r_data r' = Some d.
Proof.
  intros (l & r1 & r2 & _ & _ & P & Q).
  assert (E : r_data r' = r_data r2).
  { unfold patch, rbind, gets, id, lift, modify, ret in Q. destruct (_ || _).
    - destruct (M_Url.urlparse _); [|discriminate]. injection Q as <-. reflexivity.
    - injection Q as <-. reflexivity. }
  rewrite E. apply prepare_ok in P as (sch & path & url & ct & r3 & _ & _ & _ & P & _ & _ & -> & _).
  apply prepare_data_ok in P.
  destruct P as [P|[P|[P|[P|P]]]].
  - destruct P as (_ & _ & _ & ->). eauto.
  - destruct P as (_ & _ & _ & _ & fs & x & _ & ->). eauto.
  - destruct P as (_ & _ & _ & _ & ->). eauto.
  - destruct P as (_ & _ & _ & _ & [(_ & -> & _)|(p & v & d & _ & _ & _ & _ & _ & ->)]); eauto.
  - destruct P as (_ & _ & _ & _ & ->). eauto.
Qed.

Lemma open_all_ok l : forall us, open_all disk l = Ok us -> Forall2 (uploaded disk) l us.
Proof.
  induction l as [|[k f] l IH]; cbn [open_all]; intros us E.
  - injection E as <-. constructor.
  - destruct (open_file disk k f) as [u|] eqn:O; [|discriminate].
    destruct (open_all disk l) as [us'|]; [|discriminate]. injection E as <-. constructor; auto.
    unfold open_file in O. unfold uploaded. destruct (f_data f) as [|rest tx] eqn:F; cbn [bind fst snd] in *.
    + destruct (disk (f_name f)) as [c|]; [|discriminate]. cbn [bind] in O. injection O as <-.
      cbn. rewrite F. repeat split. eauto.
    + injection O as <-. cbn. rewrite F. auto.
Qed.
Lemma open_all_total l us : Forall2 (uploaded disk) l us -> exists us', open_all disk l = Ok us'.
Proof.
  induction 1 as [|[k f] u l us U F [us' IH]]; [now exists []|].
  cbn [open_all]. rewrite IH. unfold uploaded in U. cbn [fst snd] in U. destruct U as (_ & _ & _ & U).
  unfold open_file. destruct (f_data f).
  - destruct U as (c & -> & _). cbn [bind]. eauto.
  - cbn [bind]. eauto.
Qed.

(** flask's table *)
Lemma sset_last {V} (l : list (str * V)) : forall d n,
  sget n (fold_left (fun d kv => sset (fst kv) (snd kv) d) l d) =
  match last_option (map snd (filter (fun g => str_eqb (fst g) n) l)) with Some v => Some v | None => sget n d end.
Proof.
  induction l as [|[k v] l IH]; intros d n; cbn [fold_left fst snd].
  - reflexivity.
  - rewrite IH. cbn [filter fst snd map]. destruct (str_eqb_spec k n) as [->|N].
    + cbn [map]. unfold last_option. cbn [rev]. destruct (rev (map snd _)) as [|x y]; cbn [app snd].
      * now rewrite sget_sset_same.
      * reflexivity.
    + destruct (last_option _); auto. apply sget_sset_other. congruence.
Qed.
Lemma fold_sset_map {A V} (f : A -> str * V) l : forall d,
  fold_left (fun d x => sset (fst (f x)) (snd (f x)) d) l d = fold_left (fun d kv => sset (fst kv) (snd kv) d) (map f l) d.
Proof. induction l; intros d; cbn [fold_left map]; auto. Qed.
Lemma fold_sset_NoDup {V} (l : list (str * V)) : forall d, NoDup (map fst d) ->
  NoDup (map fst (fold_left (fun d kv => sset (fst kv) (snd kv) d) l d)).
Proof. induction l; intros d N; cbn [fold_left]; auto. apply IHl. now apply sset_NoDup. Qed.
Lemma last_option_map {A V} (f : A -> V) l : last_option (map f l) = option_map f (last_option l).
Proof. unfold last_option. rewrite <- map_rev. destruct (rev l); reflexivity. Qed.
Lemma stored_all k fs : Forall2 (stored k) fs (map (storage k) fs).
Proof.
  induction fs as [|f fs IH]; cbn [map]; constructor; auto.
  unfold stored, storage. cbn. destruct (f_data f); auto.
Qed.
Lemma flask_table_ok (p : params (B:=B)) : field_table p (flask_table p).
Proof.
  unfold field_table, flask_table.
  set (d0 := fold_left (fun d (kv : str * str) => sset (fst kv) (inl (snd kv)) d) (p_form p) ([] : sdict (str + list upload))).
  assert (D0 : d0 = fold_left (fun d kv => sset (fst kv) (snd kv) d)
    (map (fun kv : str * str => (fst kv, inl (snd kv)) : str * (str + list upload)) (p_form p)) []).
  { exact (fold_sset_map (fun kv : str * str => (fst kv, inl (snd kv)) : str * (str + list upload)) (p_form p) []). }
  set (d1 := fold_left _ (p_file p) d0).
  assert (D1 : d1 = fold_left (fun d kv => sset (fst kv) (snd kv) d)
    (map (fun g : str * list file => (fst g, inr (map (storage (fst g)) (snd g))) : str * (str + list upload)) (p_file p)) d0).
  { exact (fold_sset_map (fun g : str * list file => (fst g, inr (map (storage (fst g)) (snd g))) : str * (str + list upload)) (p_file p) d0). }
  rewrite D1, D0. clear D1 d1 D0 d0.
  split.
  - apply fold_sset_NoDup. apply fold_sset_NoDup. constructor.
  - intros n. rewrite sset_last.
    assert (E1 : map snd (filter (fun g : str * (str + list upload) => str_eqb (fst g) n)
                   (map (fun g : str * list file => (fst g, inr (map (storage (fst g)) (snd g)))) (p_file p))) =
                 map (fun fs => inr (map (storage n) fs)) (map snd (filter (fun g => str_eqb (fst g) n) (p_file p)))).
    { clear. induction (p_file p) as [|[k fs] l IH]; [reflexivity|]. cbn [map filter fst snd].
      destruct (str_eqb_spec k n) as [->|N]; cbn [map snd]; [f_equal|]; exact IH. }
    rewrite E1, (last_option_map (fun fs => inr (map (storage n) fs))). clear E1.
    destruct (last_option (map snd (filter (fun g : str * list file => str_eqb (fst g) n) (p_file p)))) as [fs|] eqn:E; cbn [option_map]; cbv beta iota.
    + eexists. split; [reflexivity|]. apply stored_all.
    + rewrite sset_last.
      assert (E1 : map snd (filter (fun g : str * (str + list upload) => str_eqb (fst g) n)
                   (map (fun kv : str * str => (fst kv, inl (snd kv))) (p_form p))) =
                   map inl (values_of n (p_form p))).
      { clear. unfold values_of, S_Client.named. induction (p_form p) as [|[k v] l IH]; [reflexivity|]. cbn [map filter fst snd].
        destruct (str_eqb k n); cbn [map snd]; [f_equal|]; exact IH. }
      rewrite E1, (last_option_map inl). destruct (last_option (values_of n (p_form p))); reflexivity.
Qed.

(** what a call leaves when nothing is sent, and when something is *)
Definition receives (c : client) (t : target) (y : reply) (s : resp) : resp * res unit :=
  match c with
  | Tornado =>
      match apply_with text unmarshal (t_responses t) (Some (y_status y)) (Some (y_body y)) None s with
      | (s, Ok _) => apply_headers text unmarshal t (y_headers y) s
      | (s, Err e) => (s, Err e)
      end
  | _ => apply_all text unmarshal t y s
  end.
Lemma client_spec c sec t b (w w' : world) e : client_request c sec t b w = (w', e) ->
  let ok := faithful marshal disk c sec (t_method t) (t_security t) (t_schemes t) b (w_req w) (w_opt w) (w_headers w) in
  (w_sent w' = w_sent w /\ w_resp w' = resp_reset (w_resp w) /\ (forall m, ~ ok m) /\ exists x, e = Err x) \/
  (exists m, w_sent w' = w_sent w ++ [m] /\ ok m /\
    match send (w_sent w) m with
    | Ok y => (w_resp w', e) = receives c t y (resp_reset (w_resp w))
    | Err x => w_resp w' = resp_reset (w_resp w) /\ e = Err x
    end).
Proof.
  intros E ok.
  assert (Del : forall m (w1 : world) use, deliver send m use w1 = (w', e) -> w_sent w1 = w_sent w ->
     w_resp w1 = resp_reset (w_resp w) -> ok m ->
     (forall y, use y = receives c t y) -> exists m, w_sent w' = w_sent w ++ [m] /\ ok m /\
    match send (w_sent w) m with
    | Ok y => (w_resp w', e) = receives c t y (resp_reset (w_resp w))
    | Err x => w_resp w' = resp_reset (w_resp w) /\ e = Err x
    end).
  { intros m w1 use X E1 E2 K U. exists m. unfold deliver in X. rewrite E1, E2 in X.
    destruct (send (w_sent w) m) as [y|x].
    - rewrite U in X. destruct (receives c t y _) as [s e'] eqn:Rc. injection X as <- <-. cbn. auto.
    - injection X as <- <-. cbn. auto. }
  assert (Rd : exists w1 hs, ready sec [lit "http"; lit "https"] b (own_files c) (header_table c) t w = (w1, hs)).
  { destruct (ready sec _ b _ _ t w); eauto. }
  destruct Rd as (w1 & hs & Rd). pose proof (ready_spec _ _ _ _ _ _ _ Rd) as (S1 & S2 & S3).
  destruct hs as [hs|x].
  2:{ left.
      assert (E' : w' = w1 /\ e = Err x).
      { destruct c; cbn [M_Contrib.client_request] in E;
          unfold requests_request, tornado_request, flask_request in E; cbn [own_files header_table] in Rd;
          rewrite Rd in E; injection E as <- <-; auto. }
      destruct E' as [-> ->]. split; [exact S2|]. split; [exact S1|]. split; [|eauto].
      intros m (r' & h & M1 & M2 & _ & _ & _ & M3 & _). eapply S3; eauto. }
  destruct S3 as (r' & h & M1 & M2 & M3 & M4).
  destruct (made_ready_data _ _ _ _ _ _ _ _ M1) as [dt Dt].
  destruct c; cbn [M_Contrib.client_request] in E;
    unfold requests_request, tornado_request, flask_request in E; cbn [own_files header_table] in Rd;
    rewrite Rd in E; rewrite M2 in E.
  - destruct (open_all disk (file_list (p_file (r_p r')))) as [us|x] eqn:O.
    + right. eapply Del; try exact E; auto.
      exists r', h. unfold data_of. rewrite Dt. cbn [m_method m_url m_query m_headers].
      split; [auto|]. split; [auto|]. split; [apply upper_capitals|]. split; [auto|]. split; [auto|]. split; [auto|].
      cbn [body_sent m_files]. split; [exists dt; auto|]. apply open_all_ok. exact O.
    + left. injection E as <- <-. split; [exact S2|]. split; [exact S1|]. split; [|eauto].
      intros m (r2 & h2 & N1 & N2 & _ & _ & _ & N3 & N4 & N5).
      assert (r2 = r').
      { destruct M1 as (l & r1 & r3 & A1 & A2 & A3 & A4), N1 as (l' & r1' & r3' & B1 & B2 & B3 & B4).
        rewrite A2 in B2. injection B2 as <-. subst r1 r1'. rewrite A3 in B3. injection B3 as <-. congruence. }
      subst r2. apply open_all_total in N5 as [us' N5]. unfold all_files in N5. unfold file_list in O. congruence.
  - right. eapply Del; try exact E; auto.
    exists r', h. unfold data_of. rewrite Dt. cbn [m_method m_url m_query m_headers].
    split; [auto|]. split; [auto|]. split; [apply upper_capitals|]. split; [auto|]. split; [auto|]. split; [auto|].
    cbn [body_sent m_files]. split; [exists dt; auto|]. reflexivity.
  - right. eapply Del; try exact E; auto.
    exists r', h. unfold data_of. cbn [m_method m_url m_query m_headers].
    split; [auto|]. split; [auto|]. split; [apply upper_capitals|]. split; [auto|]. split; [auto|]. split; [auto|].
    cbn [body_sent m_files m_payload]. split; [reflexivity|]. unfold flask_data, data_of. rewrite Dt.
    destruct (p_file (r_p r')) eqn:F; cbn [nonempty].
    + destruct (p_body (r_p r')) eqn:Bd; cbn [nonempty]; [reflexivity|]. exists dt. auto.
    + eexists. split; [reflexivity|]. apply flask_table_ok.
Qed.
End Clients.

(** * What a call leaves of the request *)
Section Again.
Context {B : Type} (marshal : str -> B -> res str) (disk : str -> res str).
Context {H R J D : Type} (text : H -> option str) (unmarshal : str -> R -> res J).
Notation request := (request (B:=B)).
Notation target := (target (H:=H) (J:=J) (D:=D)).
Notation world := (world (B:=B) (H:=H) (R:=R) (D:=D)).
Notation reply := (reply (H:=H) (R:=R)).

Definition the_info (sec : option sec_info) : sec_info := match sec with Some i => i | None => [] end.
Lemma sec_call_nil s r : sec_call [] s r = r.
Proof.
  unfold sec_call. destruct s as [l|]; auto. induction l as [|ns l IH]; auto. cbn [fold_left].
  replace (fold_left (sec_apply1 []) ns r) with r; auto.
  clear. induction ns as [|n ns IH]; auto.
Qed.
Lemma psec_nil s (p : params (B:=B)) : psec [] s p = p.
Proof. unfold psec. rewrite sec_call_nil. destruct p; reflexivity. Qed.
Lemma secured_eq sec s (r : request) :
  match sec with Some info => fst (secure info s r) | None => r end = fst (secure (the_info sec) s r).
Proof. destruct sec; auto. cbn [the_info]. rewrite secure_eq, psec_nil. destruct r; reflexivity. Qed.

Lemma compose_req a (w : world) : w_req (fst (compose a w)) = w_req w.
Proof. destruct (compose a w) eqn:E. apply compose_spec in E. tauto. Qed.
Lemma ready_input sec ss b h a (t : target) (r : request) (w : world) :
  NoDup (map fst (p_header (r_p r))) -> no_streams (p_file (r_p r)) ->
  input_of (the_info sec) (t_security t) r (w_req w) ->
  input_of (the_info sec) (t_security t) r (w_req (fst (ready marshal disk sec ss b h a t w))).
Proof.
  intros N NS I. unfold ready. rewrite secured_eq.
  assert (I1 : input_of (the_info sec) (t_security t) r (fst (secure (the_info sec) (t_security t) (reset (w_req w))))).
  { apply (step_input marshal disk (the_info sec) (t_security t) CSecure); auto. }
  set (r1 := fst (secure _ _ _)) in *.
  destruct (prepare_schemes _ _) as [l|e]; [|exact I1].
  pose proof (step_input marshal disk (the_info sec) (t_security t) (CPrepare b (SchList l) h) r r1 N (or_introl NS) I1) as I2.
  cbn [step] in I2.
  destruct (prepare marshal disk b (SchList l) h r1) as [r2 [u|e]]; [|exact I2]. cbn [fst] in I2.
  cbn [set_wresp w_opt].
  pose proof (step_input marshal disk (the_info sec) (t_security t) (CPatch (o_netloc (w_opt w)) (o_scheme (w_opt w))) r r2 N (or_introl NS) I2) as I3.
  cbn [step] in I3.
  destruct (patch _ _ r2) as [r3 [u'|e]]; [|exact I3]. cbn [fst] in I3.
  rewrite compose_req. exact I3.
Qed.
Lemma exhaust_same (r : request) : no_streams (p_file (r_p r)) -> exhaust r = r.
Proof.
  intros N. unfold exhaust. destruct r as [o [h q p bd f fl]]. cbn [r_p p_file] in *.
  unfold set_p, set_file. cbn. f_equal. f_equal.
  induction fl as [|[k l] fl IH]; [reflexivity|]. cbn [map fst snd]. f_equal.
  - f_equal. assert (Nl : forall f, In f l -> f_data f = OnDisk).
    { intros x Hx. apply (N k x). unfold all_files. cbn [flat_map fst snd]. apply in_app_iff. left.
      apply in_map_iff. eauto. }
    clear - Nl. induction l as [|x l IH]; [reflexivity|]. cbn [map]. f_equal.
    + unfold exhaust_file. now rewrite (Nl x (or_introl eq_refl)).
    + apply IH. intros y Hy. apply Nl. now right.
  - apply IH. intros k2 x Hx. apply (N k2). unfold all_files. cbn [flat_map]. apply in_app_iff. now right.
Qed.
Lemma input_files info s (r r' : request) : input_of info s r r' -> p_file (r_p r') = p_file (r_p r).
Proof. intros (_ & _ & _ & _ & [ -> | -> ]); reflexivity. Qed.
Lemma deliver_req (send : list message -> message -> res reply) m use (w : world) :
  w_req (fst (deliver send m use w)) = w_req w.
Proof. unfold deliver. destruct (send _ m); [destruct (use _ _)|]; reflexivity. Qed.
Lemma client_input (send : list message -> message -> res reply) c sec b (t : target) (r : request) (w : world) :
  NoDup (map fst (p_header (r_p r))) -> no_streams (p_file (r_p r)) ->
  input_of (the_info sec) (t_security t) r (w_req w) ->
  input_of (the_info sec) (t_security t) r (w_req (fst (client_request marshal disk text unmarshal send c sec t b w))).
Proof.
  intros N NS I.
  assert (X : forall r', input_of (the_info sec) (t_security t) r r' -> exhaust r' = r').
  { intros r' K. apply exhaust_same. now rewrite (input_files _ _ _ _ K). }
  destruct c; cbn [client_request]; unfold requests_request, tornado_request, flask_request.
  - pose proof (ready_input sec [lit "http"; lit "https"] b false true t r w N NS I) as K.
    destruct (ready _ _ _ _ _ _ _ _ _) as [w1 [hs|e]]; auto. cbn [fst] in K.
    destruct (open_all _ _); auto. rewrite deliver_req. cbn [set_wreq w_req]. now rewrite (X _ K).
  - pose proof (ready_input sec [lit "http"; lit "https"] b true false t r w N NS I) as K.
    destruct (ready _ _ _ _ _ _ _ _ _) as [w1 [hs|e]]; auto. now rewrite deliver_req.
  - pose proof (ready_input sec [lit "http"; lit "https"] b false false t r w N NS I) as K.
    destruct (ready _ _ _ _ _ _ _ _ _) as [w1 [hs|e]]; auto. cbn [fst] in K.
    rewrite deliver_req. cbn [set_wreq w_req]. now rewrite (X _ K).
Qed.
Lemma input_secured info s (r r' : request) : NoDup (map fst (p_header (r_p r))) ->
  input_of info s r r' -> fst (secure info s (reset r')) = fst (secure info s (reset r)).
Proof.
  intros N (H1 & H2 & H3 & H4 & H5). rewrite !secure_eq. unfold reset, set_p. cbn.
  rewrite H1, H2, H3, H4. f_equal. destruct H5 as [ -> | -> ]; auto. now apply psec_idem.
Qed.
Lemma made_ready_input c sec s ss b o (r r' x : request) : NoDup (map fst (p_header (r_p r))) ->
  input_of (the_info sec) s r r' ->
  made_ready marshal disk c sec s ss b o r' x <-> made_ready marshal disk c sec s ss b o r x.
Proof.
  intros N I. unfold made_ready. rewrite !secured_eq. rewrite (input_secured _ _ _ _ N I). reflexivity.
Qed.
Lemma input_refl info s (r : request) : input_of info s r r.
Proof. repeat split; auto. Qed.
End Again.

(** * Headers *)
Section Headers.
Context {B : Type} (marshal : str -> B -> res str) (disk : str -> res str).
Notation request := (request (B:=B)).

Lemma latest_sets {V} (l : list (str * V)) n v : sget n l = Some v -> NoDup (map fst l) ->
  (forall n', In n' (map fst l) -> same_name n n' -> n' = n) ->
  latest (rev (map (fun kv => CSet (fst kv) (snd kv)) l)) n = Some (n, v).
Proof.
  intros G N U. assert (Hin : In (n, v) l) by now apply sget_In.
  apply in_split in Hin as (a & c & ->). rewrite map_app, rev_app_distr. cbn [map rev fst snd].
  assert (Hn : forall k, In k (map fst c) -> ~ same_name n k).
  { intros k Hk Sn. assert (k = n).
    { apply U; auto. rewrite map_app. apply in_app_iff. right. right. exact Hk. }
    subst k. rewrite map_app in N. apply NoDup_remove_2 in N. apply N, in_app_iff. now right. }
  rewrite <- app_assoc. clear - Hn. induction c as [|[k x] c IH] using rev_ind.
  - cbn [map rev app latest]. unfold same_nameb. destruct (str_eqb_spec (lower n) (lower n)); [reflexivity|congruence].
  - rewrite map_app, rev_app_distr. cbn [map rev app latest fst snd]. unfold same_nameb.
    destruct (str_eqb_spec (lower n) (lower k)) as [E|E].
    + elim (Hn k); auto. rewrite map_app. apply in_app_iff. right. now left.
    + apply IH. intros k' Hk'. apply Hn. rewrite map_app. apply in_app_iff. now left.
Qed.
Lemma cid_update_run {V} (l : list (str * V)) : cid_update cid_empty l = cid_run (map (fun kv => CSet (fst kv) (snd kv)) l).
Proof.
  unfold cid_update, cid_run. generalize (@cid_empty V). induction l as [|[k v] l IH]; intros d; auto.
  cbn [fold_left map cid_apply fst snd]. apply IH.
Qed.
Lemma cid_set_run {V} k (v : V) ops : cid_set k v (cid_run ops) = cid_run (ops ++ [CSet k v]).
Proof. now rewrite cid_run_snoc. Qed.
Definition special (n : str) : Prop := same_name n (lit "Content-Type") \/ same_name n (lit "Accept").
Lemma header_items a ct (l : sdict cred) n v : sget n l = Some v -> NoDup (map fst l) ->
  (forall n', In n' (map fst l) -> same_name n n' -> n' = n) -> ~ special n ->
  exists ops, accept_header a (ct_header ct (cid_update cid_empty l)) = cid_run ops /\
    In (n, v) (cid_items (cid_run ops)).
Proof.
  intros G N U Sp. rewrite cid_update_run. set (ops := map _ l).
  assert (L0 : latest (rev ops) n = Some (n, v)) by now apply latest_sets.
  assert (Step : forall k x ops', ~ same_name n k -> latest (rev ops') n = Some (n, v) ->
     latest (rev (ops' ++ [CSet k x])) n = Some (n, v)).
  { intros k x ops' Nk L. rewrite rev_app_distr. cbn [rev app latest]. unfold same_nameb.
    destruct (str_eqb_spec (lower n) (lower k)); [elim Nk; auto|exact L]. }
  assert (E1 : exists ops1, ct_header ct (cid_run ops) = cid_run ops1 /\ latest (rev ops1) n = Some (n, v)).
  { unfold ct_header. destruct ct as [[|c s]|]; eauto. rewrite cid_set_run. eexists. split; [reflexivity|].
    apply Step; auto. intros X. apply Sp. now left. }
  destruct E1 as (ops1 & -> & L1).
  assert (E2 : exists ops2, accept_header a (cid_run ops1) = cid_run ops2 /\ latest (rev ops2) n = Some (n, v)).
  { unfold accept_header. destruct a as [[|c s]|]; eauto. rewrite cid_set_run. eexists. split; [reflexivity|].
    apply Step; auto. intros X. apply Sp. now right. }
  destruct E2 as (ops2 & -> & L2). exists ops2. split; auto. now apply cid_items_latest.
Qed.
Lemma header_texts_items h : forall h', header_texts h = Ok h' ->
  cid_items h = map (fun kv => (fst kv, CTok (snd kv))) (cid_items h').
Proof.
  induction h as [|[l [k [s|u p]]] h IH]; cbn [header_texts]; intros h' E.
  - injection E as <-. reflexivity.
  - destruct (header_texts h) as [h2|]; [|discriminate]. injection E as <-. unfold cid_items in *. cbn [map snd fst].
    f_equal. now apply IH.
  - discriminate.
Qed.
Lemma NoDup_map_inv' {A C} (f : A -> C) l : NoDup (map f l) -> NoDup l.
Proof. apply NoDup_map_inv. Qed.
Lemma values_one n v (l : list (str * str)) : NoDup (map fst l) -> In (n, v) l -> values_of n l = [v].
Proof.
  intros N Hin. apply in_split in Hin as (a & c & ->). unfold values_of, S_Client.named.
  rewrite map_app in N. cbn [map fst] in N. apply NoDup_remove_2 in N.
  assert (X : forall x, (forall k, In k (map fst x) -> k <> n) -> filter (fun p : str * str => str_eqb (fst p) n) x = []).
  { induction x as [|[k y] x IH]; intros Hx; auto. cbn [filter fst].
    destruct (str_eqb_spec k n); [elim (Hx k); [now left|auto]|]. apply IH. intros k' Hk'. apply Hx. now right. }
  rewrite filter_app. cbn [filter fst]. destruct (str_eqb_spec n n) as [_|]; [|congruence].
  rewrite !X; [reflexivity| |]; intros k Hk ->; apply N, in_app_iff; auto.
Qed.
Lemma prepared_values a ct (l : sdict cred) n v h : sget n l = Some (CTok v) -> NoDup (map fst l) ->
  (forall n', In n' (map fst l) -> same_name n n' -> n' = n) -> ~ special n ->
  header_texts (accept_header a (ct_header ct (cid_update cid_empty l))) = Ok h ->
  values_of n (cid_items h) = [v] /\ NoDup (map fst (cid_items h)).
Proof.
  intros G N U Sp E. destruct (header_items a ct l n (CTok v) G N U Sp) as (ops & E1 & I).
  rewrite E1 in E. apply header_texts_items in E.
  assert (K : NoDup (map fst (cid_items h))).
  { pose proof (cid_keys_unique ops) as K. apply NoDup_map_inv in K.
    replace (cid_keys (cid_run ops)) with (map fst (cid_items (cid_run ops))) in K
      by (unfold cid_keys, cid_items; now rewrite map_map).
    rewrite E, map_map in K. exact K. }
  split; auto. apply values_one; auto. rewrite E in I. apply in_map_iff in I as ([k x] & I1 & I2).
  cbn [fst snd] in I1. injection I1 as <- <-. exact I2.
Qed.
Lemma made_ready_keeps c sec s ss b o (r r' : request) : made_ready marshal disk c sec s ss b o r r' ->
  p_query (r_p r') = p_query (psec (the_info sec) s (r_p r)) /\
  exists a ct, r_header r' = accept_header a (ct_header ct (cid_update cid_empty (p_header (psec (the_info sec) s (r_p r))))).
Proof.
  intros (l & r1 & r2 & -> & M2 & M3 & M4). rewrite secured_eq, secure_eq in M3.
  pose proof (frame_prepare marshal disk files_like files_like_refl files_like_trans b (SchList l) (own_files c)
                (fun _ p => multipart_like disk b p) (set_p (psec (the_info sec) s (r_p (reset r))) (reset r))) as K.
  rewrite M3 in K. cbn [fst] in K. destruct K as (_ & _ & _ & _ & _ & K & _).
  assert (E : p_query (r_p r') = p_query (r_p r2) /\ r_header r' = r_header r2).
  { unfold patch, rbind, gets, id, lift, modify, ret in M4. destruct (_ || _).
    - destruct (M_Url.urlparse _); [|discriminate]. injection M4 as <-. auto.
    - injection M4 as <-. auto. }
  destruct E as [-> ->]. split; [rewrite K; reflexivity|].
  apply prepare_ok in M3 as (sch & path & url & ct & r3 & _ & _ & _ & _ & _ & _ & _ & X & _).
  eexists. exists ct. exact X.
Qed.
End Headers.

Lemma firsts_In l n : In n (firsts l) <-> In n l.
Proof.
  induction l as [|x l IH]; [reflexivity|]. cbn [firsts In]. rewrite filter_In, IH.
  destruct (str_eqb_spec n x) as [->|N]; cbn [negb]; split; intros; intuition (try congruence; auto).
Qed.
Lemma values_In n (l : list (str * str)) : values_of n l <> [] -> In n (map fst l).
Proof.
  unfold values_of, S_Client.named. induction l as [|[k v] l IH]; [intros X; now elim X|].
  cbn [filter fst map]. destruct (str_eqb_spec k n); [now left|]. right. auto.
Qed.
Lemma supdate_NoDup {V} (l : list (str * V)) : forall d, NoDup (map fst d) -> NoDup (map fst (supdate d l)).
Proof.
  unfold supdate. induction l as [|[k v] l IH]; intros d N; auto. cbn. apply IH. now apply sset_NoDup.
Qed.
Lemma compose_dict_NoDup h hs d : compose_headers h hs false true = Ok (RDict d) ->
  (forall d0, hs = HDict d0 -> NoDup (map fst d0)) -> NoDup (map fst d).
Proof.
  intros E N. destruct hs as [|l|l|]; cbn in E; try discriminate; injection E as <-.
  - apply supdate_NoDup. unfold dict_of. apply supdate_NoDup. constructor.
  - apply supdate_NoDup. auto.
Qed.

(** * The caller's objects *)
Section Caller.
Context {B : Type} (marshal : str -> B -> res str) (disk : str -> res str).
Context {H R J D : Type} (text : H -> option str) (unmarshal : str -> R -> res J).
Notation target := (target (H:=H) (J:=J) (D:=D)).
Notation world := (world (B:=B) (H:=H) (R:=R) (D:=D)).
Notation reply := (reply (H:=H) (R:=R)).
Lemma compose_caller a (w w' : world) hs : compose a w = (w', hs) ->
  (forall h, hs = Ok h -> w_opt w' = Opts (o_netloc (w_opt w)) (o_scheme (w_opt w))
     (match w_headers w with HNone => o_join (w_opt w) | _ => false end)) /\
  (a = false \/ o_join (w_opt w) = true \/ (forall d, w_headers w <> HDict d) -> w_headers w' = w_headers w) /\
  (forall d h, a = true -> o_join (w_opt w) = false -> w_headers w = HDict d -> hs = Ok h ->
     exists d', h = RDict d' /\ w_headers w' = HDict d').
Proof.
  unfold compose. destruct (header_texts _) as [h|e].
  2:{ intros [= <- <-]. repeat split; auto; discriminate. }
  destruct (w_headers w) as [|l|d|] eqn:E.
  - intros [= <- <-]. repeat split; auto; try discriminate. intros h0 _. destruct (w_opt w); reflexivity.
  - intros [= <- <-]. cbn [set_wopt w_opt w_headers]. repeat split; auto; discriminate.
  - destruct (o_join (w_opt w)) eqn:Jo.
    + destruct (compose_headers h (HDict d) true a) as [[l|l|l]|e]; rewrite ?andb_false_r;
        intros [= <- <-]; cbn [set_wopt w_opt w_headers]; repeat split; auto; discriminate.
    + destruct a; cbn [compose_headers andb negb bind].
      * intros [= <- <-]. cbn [set_wopt set_wheaders w_opt w_headers]. repeat split; auto.
        -- intros [X|[X|X]]; try discriminate. now elim (X d).
        -- intros d0 h0 _ _ _ [= <-]. eauto.
      * intros [= <- <-]. cbn [set_wopt w_opt w_headers]. repeat split; auto; discriminate.
  - intros [= <- <-]. cbn [set_wopt w_opt w_headers]. repeat split; auto; discriminate.
Qed.
Lemma ready_caller sec ss b h a (t : target) (w w' : world) hs : ready marshal disk sec ss b h a t w = (w', hs) ->
  (forall h, hs = Ok h -> w_opt w' = Opts None None (match w_headers w with HNone => o_join (w_opt w) | _ => false end)) /\
  (a = false \/ o_join (w_opt w) = true \/ (forall d, w_headers w <> HDict d) -> w_headers w' = w_headers w) /\
  (forall d h, a = true -> o_join (w_opt w) = false -> w_headers w = HDict d -> hs = Ok h ->
     exists d', h = RDict d' /\ w_headers w' = HDict d').
Proof.
  unfold ready. rewrite secured_eq. set (r1 := fst (secure _ _ _)).
  destruct (prepare_schemes _ _) as [l|e].
  2:{ intros [= <- <-]. repeat split; auto; discriminate. }
  destruct (prepare marshal disk b (SchList l) h r1) as [r2 [u|e]].
  2:{ intros [= <- <-]. repeat split; auto; discriminate. }
  cbn [set_wresp w_opt].
  destruct (patch _ _ r2) as [r3 [u'|e]].
  2:{ intros [= <- <-]. repeat split; auto; discriminate. }
  intros C. apply compose_caller in C. exact C.
Qed.
Lemma deliver_caller (send : list message -> message -> res reply) m use (w w' : world) e :
  deliver send m use w = (w', e) -> w_opt w' = w_opt w /\ w_headers w' = w_headers w /\ w_sent w' = w_sent w ++ [m].
Proof. unfold deliver. destruct (send _ m); [destruct (use _ _)|]; intros [= <- <-]; auto. Qed.
Lemma client_caller (send : list message -> message -> res reply) c sec (t : target) b (w w' : world) e :
  client_request marshal disk text unmarshal send c sec t b w = (w', e) ->
  (w_sent w' = w_sent w \/ w_opt w' = Opts None None (match w_headers w with HNone => o_join (w_opt w) | _ => false end)) /\
  (c <> Requests \/ o_join (w_opt w) = true \/ (forall d, w_headers w <> HDict d) -> w_headers w' = w_headers w) /\
  (forall d m, c = Requests -> o_join (w_opt w) = false -> w_headers w = HDict d -> w_sent w' = w_sent w ++ [m] ->
     exists d', m_headers m = RDict d' /\ w_headers w' = HDict d').
Proof.
  intros E.
  assert (None' : forall m : message, w_sent w = w_sent w ++ [m] -> False).
  { intros m S. rewrite <- (app_nil_r (w_sent w)) in S at 1. apply app_inv_head in S. discriminate. }
  assert (Rd : exists w1 hs, ready marshal disk sec [lit "http"; lit "https"] b (own_files c) (header_table c) t w = (w1, hs)).
  { destruct (ready marshal disk sec _ b _ _ t w); eauto. }
  destruct Rd as (w1 & hs & Rd). pose proof (ready_caller _ _ _ _ _ _ _ _ _ Rd) as (C1 & C2 & C3).
  pose proof (ready_spec marshal disk _ _ _ _ _ _ _ Rd) as (_ & S2 & _).
  destruct c; cbn [client_request] in E; unfold requests_request, tornado_request, flask_request in E;
    cbn [own_files header_table] in *; rewrite Rd in E.
  - destruct hs as [hs|x].
    2:{ injection E as <- <-. split; [now left|]. split; [intros [X|X]; [now elim X|auto]|].
        intros d m _ _ _ S. elim (None' m). congruence. }
    destruct (open_all _ _) as [us|x].
    2:{ injection E as <- <-. split; [now left|]. split; [intros [X|X]; [now elim X|auto]|].
        intros d m _ _ _ S. elim (None' m). congruence. }
    apply deliver_caller in E as (E1 & E2 & E3). cbn [set_wreq w_opt w_headers w_sent] in E1, E2, E3.
    split; [right; rewrite E1; eauto|]. split; [intros [X|X]; [now elim X|rewrite E2; auto]|].
    intros d m _ Jo Hd S. destruct (C3 d hs eq_refl Jo Hd eq_refl) as (d' & -> & D2).
    exists d'. rewrite E2, D2. split; auto. rewrite E3, S2 in S. apply app_inv_head in S. injection S as <-. reflexivity.
  - destruct hs as [hs|x].
    2:{ injection E as <- <-. split; [now left|]. split; [auto|]. discriminate. }
    apply deliver_caller in E as (E1 & E2 & E3).
    split; [right; rewrite E1; eauto|]. split; [rewrite E2; auto|]. discriminate.
  - destruct hs as [hs|x].
    2:{ injection E as <- <-. split; [now left|]. split; [auto|]. discriminate. }
    apply deliver_caller in E as (E1 & E2 & E3). cbn [set_wreq w_opt w_headers w_sent] in E1, E2, E3.
    split; [right; rewrite E1; eauto|]. split; [rewrite E2; auto|]. discriminate.
Qed.
End Caller.
