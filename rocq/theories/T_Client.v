(** C15 (header tables), C16 (query replacement), C17 (Security), C18 (schemes),
    C49 (compose_headers). *)
From Verif Require Import PyBase PyFacts M_Base64 S_Base64 P_Base64 M_Client S_Client P_Client.

(** * C15 *)
(** A lookup, in any spelling, gives the value of the newest event on that name. *)
Theorem c15_get : forall V (ops : list (cid_op V)) k,
  cid_get k (cid_run ops) =
  match latest (rev ops) k with Some (_, v) => Ok v | None => Err KeyError end.
Proof. exact @cid_get_latest. Qed.
Print Assumptions c15_get.
Theorem c15_contains : forall V (ops : list (cid_op V)) k,
  cid_mem k (cid_run ops) = true <-> latest (rev ops) k <> None.
Proof.
  intros V ops k. rewrite <- cid_run_latest. unfold cid_mem, dmem.
  destruct (sget (lower k) (cid_run ops)); split; congruence.
Qed.
Print Assumptions c15_contains.
(** Spellings of one name cannot be told apart by lookups. *)
Theorem c15_spelling : forall V (ops : list (cid_op V)) k k',
  same_name k k' -> cid_get k (cid_run ops) = cid_get k' (cid_run ops).
Proof. intros V ops k k' H. unfold cid_get. now rewrite H. Qed.
Print Assumptions c15_spelling.
(** Iteration yields each live name once, in the spelling last used, with its value. *)
Theorem c15_items : forall V (ops : list (cid_op V)) n v,
  In (n, v) (cid_items (cid_run ops)) <-> latest (rev ops) n = Some (n, v).
Proof. exact @cid_items_latest. Qed.
Print Assumptions c15_items.
Theorem c15_unique : forall V (ops : list (cid_op V)),
  NoDup (map lower (cid_keys (cid_run ops))).
Proof. exact @cid_keys_unique. Qed.
Print Assumptions c15_unique.
(** [len] counts names that differ case-insensitively. *)
Theorem c15_len : forall V (ops : list (cid_op V)) l,
  NoDup (map lower l) ->
  (forall k, In (lower k) (map lower l) <-> latest (rev ops) k <> None) ->
  cid_len (cid_run ops) = length l.
Proof. exact @cid_len_names. Qed.
Print Assumptions c15_len.
(** [del] raises KeyError exactly on absent names. *)
Theorem c15_del_error : forall V (ops : list (cid_op V)) k,
  cid_del k (cid_run ops) = Err KeyError <-> latest (rev ops) k = None.
Proof. exact @cid_del_latest. Qed.
Print Assumptions c15_del_error.
(** [update] is a sequence of sets. *)
Theorem c15_update : forall V (ops : list (cid_op V)) l,
  cid_update (cid_run ops) l = cid_run (ops ++ map (fun kv => CSet (fst kv) (snd kv)) l).
Proof.
  intros V ops l. unfold cid_run. rewrite fold_left_app. unfold cid_update.
  generalize (fold_left cid_apply ops cid_empty). induction l as [|x l IH]; intros d; simpl; auto.
Qed.
Print Assumptions c15_update.

(** The unit test of CaseInsensitiveDict (tests/test_utils.py) and a deletion. *)
Definition ops_ex : list (cid_op nat) :=
  [CSet (lit "Content-Type") 1; CSet (lit "Accept") 2; CSet (lit "content-TYPE") 3; CDel (lit "ACCEPT")].
Example c15_ex1 : cid_get (lit "CONTENT-type") (cid_run ops_ex) = Ok 3. Proof. reflexivity. Qed.
Example c15_ex2 : cid_keys (cid_run ops_ex) = [lit "content-TYPE"]. Proof. reflexivity. Qed.
Example c15_ex3 : latest (rev ops_ex) (lit "accept") = None. Proof. reflexivity. Qed.
Example c15_ex4 : cid_len (cid_run ops_ex) = length [lit "Content-Type"].
Proof.
  apply c15_len.
  - repeat constructor; easy.
  - intros k. cbn [map In rev ops_ex app latest]. unfold same_nameb.
    destruct (str_eqb_spec (lower k) (lower (lit "ACCEPT"))) as [E|D].
    + rewrite E. split; [intros [H|[]]; discriminate|easy].
    + destruct (str_eqb_spec (lower k) (lower (lit "content-TYPE"))) as [E|D2].
      * rewrite E. split; [easy|]. left. reflexivity.
      * destruct (str_eqb_spec (lower k) (lower (lit "Accept"))) as [E|D3].
        -- exfalso. apply D. rewrite E. reflexivity.
        -- destruct (str_eqb_spec (lower k) (lower (lit "Content-Type"))) as [E|D4].
           ++ exfalso. apply D2. rewrite E. reflexivity.
           ++ split; [|easy]. intros [H|[]]. exfalso. auto.
Qed.

(** * C16 *)
(** All pairs of the name now carry the value; one pair is added only if there was none. *)
Theorem c16_named : forall V (l : list (str * V)) v,
  named (fst v) (nv_replace l v) = repeat v (Nat.max 1 (length (named (fst v) l))).
Proof. exact @named_nv. Qed.
Print Assumptions c16_named.
Theorem c16_others : forall V (l : list (str * V)) v,
  others (fst v) (nv_replace l v) = others (fst v) l.
Proof. exact @others_nv. Qed.
Print Assumptions c16_others.
(** Positions are kept: the names stay in place, a new one goes to the end. *)
Theorem c16_names : forall V (l : list (str * V)) v,
  map fst (nv_replace l v) = if mem (fst v) (map fst l) then map fst l else map fst l ++ [fst v].
Proof. exact @nv_names. Qed.
Print Assumptions c16_names.
Theorem c16_idempotent : forall V (l : list (str * V)) v,
  nv_replace (nv_replace l v) v = nv_replace l v.
Proof. exact @nv_idem. Qed.
Print Assumptions c16_idempotent.
Example c16_ex : nv_replace [(lit "a", 1); (lit "b", 2); (lit "a", 3)] (lit "a", 9) =
  [(lit "a", 9); (lit "b", 2); (lit "a", 9)].
Proof. reflexivity. Qed.
Example c16_ex_new : nv_replace [(lit "b", 2)] (lit "a", 9) = [(lit "b", 2); (lit "a", 9)].
Proof. reflexivity. Qed.

(** * C17 *)
(** What update_with records.  The hypothesis excludes the misuse of passing a string
    where a (user, password) pair is documented. *)
Theorem c17_update_with : forall defs info name c info',
  not_basic_token defs name c ->
  update_with defs info name c = Ok info' ->
  exists h k c', places defs name c h k c' /\ info' = sset name (h, (k, c')) info.
Proof. exact update_with_places. Qed.
Print Assumptions c17_update_with.
(** Unknown names and unsupported types, and only these, raise, and raise ValueError. *)
Theorem c17_update_with_error : forall defs info name c,
  not_basic_token defs name c ->
  (exists e, update_with defs info name c = Err e) <->
  update_with defs info name c = Err ValueError /\
  (sget name defs = None \/ exists s, sget name defs = Some s /\
     forall t, sd_type s = Some t -> ~ In t [lit "basic"; lit "apiKey"; lit "oauth2"]).
Proof. exact update_with_err. Qed.
Print Assumptions c17_update_with_error.
Theorem c17_unknown_name : forall defs info name c,
  sget name defs = None -> update_with defs info name c = Err ValueError.
Proof. intros defs info name c H. unfold update_with. now rewrite H. Qed.
Print Assumptions c17_unknown_name.
(** After any history the credential of a name is the one of the last call for it. *)
Theorem c17_history : forall defs hist name h k c',
  (forall n c, In (n, c) hist -> not_basic_token defs n c) ->
  sget name (upd_run defs hist) = Some (h, (k, c')) ->
  exists a c b, hist = a ++ (name, c) :: b /\ places defs name c h k c' /\
    forall c2, ~ In (name, c2) b.
Proof. exact upd_run_last. Qed.
Print Assumptions c17_history.
Theorem c17_history_set : forall defs hist name c,
  (exists info', update_with defs [] name c = Ok info') ->
  forall b, (forall c2, ~ In (name, c2) b) ->
  exists h k c', sget name (upd_run defs (hist ++ (name, c) :: b)) = Some (h, (k, c')).
Proof. exact upd_run_set. Qed.
Print Assumptions c17_history_set.

(** Headers after the call. *)
Theorem c17_header : forall info sec r n,
  NoDup (map fst (sr_header r)) ->
  (forall c, last_configured info true (req_names sec) n c ->
     sget n (sr_header (sec_call info sec r)) = Some c) /\
  (not_configured info true (req_names sec) n ->
     sget n (sr_header (sec_call info sec r)) = sget n (sr_header r)).
Proof.
  intros info sec r n N. rewrite sec_call_eq by auto. cbn [sr_header]. rewrite sget_nvs. split.
  - intros c H. apply lastval_configured in H. now rewrite H.
  - intros H. apply lastval_not_configured in H. now rewrite H.
Qed.
Print Assumptions c17_header.
(** Query pairs after the call: all pairs of a configured name carry the credential,
    pairs of the other names are kept in their order. *)
Theorem c17_query : forall info sec r n,
  NoDup (map fst (sr_header r)) ->
  (forall c, last_configured info false (req_names sec) n c ->
     named n (sr_query (sec_call info sec r)) =
     repeat (n, c) (Nat.max 1 (length (named n (sr_query r))))) /\
  (not_configured info false (req_names sec) n ->
     named n (sr_query (sec_call info sec r)) = named n (sr_query r)).
Proof.
  intros info sec r n N. rewrite sec_call_eq by auto. cbn [sr_query]. split.
  - intros c H. apply nvs_named. now apply lastval_configured.
  - intros H. apply lastval_not_configured in H.
    apply (nvs_others _ _ (fun x => str_eqb x n)). intros k Hk.
    apply lastval_In in Hk. destruct (str_eqb_spec k n); subst; congruence.
Qed.
Print Assumptions c17_query.
Theorem c17_query_untouched : forall info sec r (P : str -> bool),
  NoDup (map fst (sr_header r)) ->
  (forall n, P n = true -> not_configured info false (req_names sec) n) ->
  filter (fun p => P (fst p)) (sr_query (sec_call info sec r)) =
  filter (fun p => P (fst p)) (sr_query r).
Proof.
  intros info sec r P N H. rewrite sec_call_eq by auto. cbn [sr_query].
  apply nvs_others. intros k Hk. destruct (P k) eqn:E; auto.
  apply H, lastval_not_configured in E. apply lastval_In in Hk. congruence.
Qed.
Print Assumptions c17_query_untouched.
Theorem c17_idempotent : forall info sec r,
  NoDup (map fst (sr_header r)) ->
  sec_call info sec (sec_call info sec r) = sec_call info sec r.
Proof. exact sec_call_idem. Qed.
Print Assumptions c17_idempotent.
(** The header table stays a dictionary, so the theorems above apply again. *)
Theorem c17_header_dict : forall info sec r,
  NoDup (map fst (sr_header r)) -> NoDup (map fst (sr_header (sec_call info sec r))).
Proof. exact sec_call_NoDup. Qed.
Print Assumptions c17_header_dict.

Definition defs_ex : sdict sec_def :=
  [(lit "b", SecDef (Some (lit "basic")) [] None);
   (lit "q", SecDef (Some (lit "apiKey")) (lit "key") (Some (lit "query")));
   (lit "h", SecDef (Some (lit "apiKey")) (lit "X-K") (Some (lit "header")));
   (lit "o", SecDef (Some (lit "oauth2")) [] None)].
Definition info_ex := upd_run defs_ex
  [(lit "b", CPair (lit "Aladdin") (lit "open sesame")); (lit "q", CTok (lit "1"));
   (lit "q", CTok (lit "2")); (lit "x", CTok (lit "3")); (lit "o", CTok (lit "t"))].
Example c17_ex : sec_call info_ex (Some [[lit "b"]; [lit "q"; lit "h"]])
    (SecReq [(lit "A", CTok (lit "a"))] [(lit "key", CTok (lit "old")); (lit "z", CTok (lit "z"))]) =
  SecReq [(lit "A", CTok (lit "a"));
          (lit "Authorization", CTok (lit "Basic QWxhZGRpbjpvcGVuIHNlc2FtZQ=="))]
         [(lit "key", CTok (lit "2")); (lit "z", CTok (lit "z"))].
Proof. vm_compute. reflexivity. Qed.
Example c17_ex_configured : last_configured info_ex false [lit "b"; lit "q"; lit "h"] (lit "key") (CTok (lit "2")).
Proof. apply lastval_configured. vm_compute. reflexivity. Qed.
Example c17_ex_hyp : not_basic_token defs_ex (lit "q") (CTok (lit "1")).
Proof. intros n i H. vm_compute in H. discriminate. Qed.

(** * C18 *)
Theorem c18_candidates : forall client reqs l x,
  prepare_schemes client reqs = Ok l -> (In x l <-> In x client /\ In x reqs).
Proof. exact schemes_In. Qed.
Print Assumptions c18_candidates.
Theorem c18_none : forall client reqs,
  prepare_schemes client reqs = Err ValueError <-> (forall x, ~ (In x client /\ In x reqs)).
Proof. exact schemes_err. Qed.
Print Assumptions c18_none.
(** Without a preference the choice succeeds and is the smallest common scheme. *)
Theorem c18_default : forall client reqs l,
  prepare_schemes client reqs = Ok l ->
  exists s, choose_scheme None (SchList l) = Ok s /\ In s client /\ In s reqs /\
    forall y, In y client -> In y reqs -> str_leb s y = true.
Proof.
  intros client reqs l H. destruct (scheme_total _ _ _ H) as [s Hs]. exists s. split; auto.
  eapply scheme_chosen; eauto.
Qed.
Print Assumptions c18_default.
Theorem c18_preferred : forall client reqs l p,
  prepare_schemes client reqs = Ok l ->
  (In p client /\ In p reqs -> choose_scheme (Some p) (SchList l) = Ok p) /\
  (~ (In p client /\ In p reqs) -> choose_scheme (Some p) (SchList l) = Err GenericException).
Proof. exact scheme_preferred. Qed.
Print Assumptions c18_preferred.
Theorem c18_bad_type : forall p, choose_scheme p SchOther = Err ValueError.
Proof. reflexivity. Qed.
Print Assumptions c18_bad_type.
Example c18_ex : prepare_schemes [lit "http"; lit "https"; lit "ws"] [lit "https"; lit "http"; lit "https"]
  = Ok [lit "https"; lit "http"].
Proof. reflexivity. Qed.
(** A string is used as it is, even when a preferred scheme was set on the request:
    Request.scheme is honoured only together with a list. *)
Theorem c18_string_argument_ignores_preference : exists p s,
  p <> s /\ choose_scheme (Some p) (SchStr s) = Ok s.
Proof. exists (lit "https"), (lit "http"). split; [discriminate|reflexivity]. Qed.
Print Assumptions c18_string_argument_ignores_preference.

(** * C49 *)
Theorem c49_none : forall h j,
  compose_headers h HNone j false = Ok (RList (cid_items h)) /\
  compose_headers h HNone j true = Ok (RCid h).
Proof. split; reflexivity. Qed.
Print Assumptions c49_none.
Theorem c49_list : forall h l,
  compose_headers h (HList l) false false = Ok (RList (cid_items h ++ l)) /\
  compose_headers h (HDict l) false false = Ok (RList (cid_items h ++ l)).
Proof. split; reflexivity. Qed.
Print Assumptions c49_list.
(** Dictionary form: the request's header wins, then the last custom one. *)
Theorem c49_dict : forall h arg l,
  (arg = HList l \/ (arg = HDict l /\ NoDup (map fst l))) ->
  exists d, compose_headers h arg false true = Ok (RDict d) /\
    forall n, match last_option (values_of n (cid_items h)) with
              | Some v => sget n d = Some v
              | None => sget n d = last_option (values_of n l)
              end.
Proof. exact compose_dict. Qed.
Print Assumptions c49_dict.
(** Joining: names in order of first appearance, each with all its values in order. *)
Theorem c49_join : forall h arg l,
  (arg = HList l \/ arg = HDict l) ->
  let agg := cid_items h ++ l in
  let joined := map (fun n => (n, join ","%string (values_of n agg))) (firsts (map fst agg)) in
  compose_headers h arg true false = Ok (RList joined) /\
  compose_headers h arg true true = Ok (RDict joined).
Proof. exact compose_join. Qed.
Print Assumptions c49_join.
Theorem c49_other_types : forall h j a,
  compose_headers h HOther j a = Err (if a && negb j then AttributeError else GenericException).
Proof. intros h [] []; reflexivity. Qed.
Print Assumptions c49_other_types.
(** The custom table is compared exactly, not case-insensitively: with a different
    spelling both the request's header and the custom one are sent. *)
Theorem c49_case_insensitive_refuted : exists h l d a b,
  compose_headers h (HList l) false true = Ok (RDict d) /\
  same_name a b /\ a <> b /\ sget a d <> None /\ sget b d <> None.
Proof.
  exists (cid_set (lit "Accept") (lit "x") cid_empty), [(lit "accept", lit "y")].
  eexists. exists (lit "Accept"), (lit "accept").
  split; [reflexivity|]. vm_compute. repeat split; discriminate.
Qed.
Print Assumptions c49_case_insensitive_refuted.
Example c49_ex_join : compose_headers (cid_set (lit "A") (lit "1") cid_empty)
   (HList [(lit "B", lit "2"); (lit "A", lit "3"); (lit "B", lit "4")]) true false =
   Ok (RList [(lit "A", lit "1,3"); (lit "B", lit "2,4")]).
Proof. vm_compute. reflexivity. Qed.
Example c49_ex_dict : compose_headers (cid_set (lit "A") (lit "1") cid_empty)
   (HList [(lit "B", lit "2"); (lit "A", lit "3"); (lit "B", lit "4")]) false true =
   Ok (RDict [(lit "B", lit "4"); (lit "A", lit "1")]).
Proof. vm_compute. reflexivity. Qed.
