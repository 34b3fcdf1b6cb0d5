(** Proofs about validating 1.2 documents. *)
From Coq Require Import Lia.
From Verif Require Import PyBase PyFacts PyJson P_Op M_JsonPtr S_JsonPtr M_SpecVal M_Parse M_SpecTree M_Merge M_Patch M_Scan M_Validate S_Parse S_SpecTree S_Typed S_Validate P_SpecBase P_Parse P_SpecTree T_SpecTree P_Validate P_Patch M_OldParse S_OldParse P_OldParse T_OldParse M_OldValidate S_OldValidate.
Close Scope Q_scope.

(** ** Conditions *)
Lemma is_text_iff v s : is_text v s = true <-> v = text s.
Proof.
  destruct v; cbn [is_text]; try (split; [discriminate|intro E; discriminate E]). rewrite str_eqb_eq. unfold text. split; [intros ->; reflexivity|intro E; now injection E].
Qed.
Lemma is_text_no v s : is_text v s = false <-> v <> text s.
Proof. rewrite <- not_true_iff_false, is_text_iff. tauto. Qed.
Lemma is_none_iff v : is_none v = true <-> v = VNone.
Proof. destruct v; split; (reflexivity || discriminate). Qed.
Lemma is_none_no v : is_none v = false <-> v <> VNone.
Proof. rewrite <- not_true_iff_false, is_none_iff. tauto. Qed.
Lemma falsy_iff v : falsy v = true <-> ~ holds_true v.
Proof. rewrite holds_true_iff. destruct (falsy v); intuition congruence. Qed.
Lemma in_when b m x : In m (when b x) <-> b = true /\ m = x.
Proof. destruct b; cbn; intuition congruence. Qed.
Lemma find_sub_iff pat s : (exists i, find_sub pat s = Some i) <-> exists a b, s = a ++ pat ++ b.
Proof.
  split.
  - intros (i & E). revert i E. induction s as [|c s IH]; intros i E; cbn [find_sub] in E.
    + destruct (prefixb pat []) eqn:P; [|discriminate E]. apply prefixb_spec in P as (b & E'). rewrite E'. now exists [], b.
    + destruct (prefixb pat (c :: s)) eqn:P; [apply prefixb_spec in P as (b & E'); rewrite E'; now exists [], b|]. destruct (find_sub pat s) as [j|]; [|discriminate E]. destruct (IH j eq_refl) as (a & b & ->). now exists (c :: a), b.
  - intros (a & b & ->). induction a as [|c a (i & IH)]; cbn [app].
    + assert (P : prefixb pat (pat ++ b) = true) by apply prefixb_app. exists 0. destruct (pat ++ b); cbn [find_sub]; now rewrite P.
    + cbn [find_sub]. destruct (prefixb pat (c :: a ++ pat ++ b)); [now exists 0|]. rewrite IH. now exists (S i).
Qed.
Lemma contains_iff pat s : contains pat s = true <-> exists a b, s = a ++ pat ++ b.
Proof. rewrite <- find_sub_iff. unfold contains. destruct (find_sub pat s) as [i|]; split; (eauto || discriminate || intros (? & E); (discriminate E || reflexivity)). Qed.
Lemma text_in_ok s v b : text_in s v = Ok b -> searchable v /\ (b = true <-> mentions s v).
Proof.
  destruct v as [| | | |t|l|d|]; cbn [text_in searchable]; intro E; try discriminate E; injection E as <-; split; try exact I.
  - rewrite contains_iff. split; [intros (a & c & ->); constructor|]. intro M. inversion M; eauto.
  - rewrite existsb_exists. split.
    + intros ([| | | |t| | |] & IN & Q); try discriminate Q. apply str_eqb_eq in Q. subst t. now constructor.
    + intro M. inversion M; subst. exists (VStr s). split; [assumption|apply str_eqb_refl].
  - rewrite smem_sget. split; [destruct (sget s d) eqn:G; [intros _; econstructor; exact G|discriminate]|]. intro M. inversion M as [| |? x G]; subst. now rewrite G.
Qed.
Lemma text_in_err s v e : text_in s v = Err e -> e = TypeError /\ ~ searchable v.
Proof. destruct v; cbn [text_in searchable]; intro E; try discriminate E; injection E as <-; auto. Qed.

(** ** The scan *)
Definition to_res {S} (x : S * res unit) : res S := match x with (s, Ok _) => Ok s | (_, Err e) => Err e end.
Fixpoint run (raw : val) (p : str) (o : val) (rs : list rule) (errs : list report) : res (list report) :=
  match rs with
  | [] => Ok errs
  | r :: rs => do x <- old_check raw r p o; run raw p o rs (collect errs x)
  end.
Definition routes12 : dict pycls (list rule) := match registered pycls_eqb pymro BaseObj [] old_rules with Ok r => r | Err _ => [] end.
Lemma routes12_ok : registered pycls_eqb pymro BaseObj [] old_rules = Ok routes12.
Proof. vm_compute. reflexivity. Qed.
Fixpoint rules_upto (cs : list pycls) : list rule :=
  match cs with
  | [] => []
  | c :: cs => if pycls_eqb c BaseObj then [] else (match dget pycls_eqb c routes12 with Some f => f | None => [] end) ++ rules_upto cs
  end.
Definition rules_at (o : val) : list rule := rules_upto (removelast (pymro (class_of o))).
Fixpoint over12 (raw : val) (l : list (str * val)) (errs : list report) : res (list report) :=
  match l with
  | [] => Ok errs
  | (p, o) :: l => do e <- run raw p o (rules_at o) errs; over12 raw l e
  end.
Lemma run_app raw p o a b : forall errs, run raw p o (a ++ b) errs = (do e <- run raw p o a errs; run raw p o b e).
Proof. induction a as [|r a IH]; intro errs; [reflexivity|]. cbn [app run]. destruct (old_check raw r p o) as [x|]; [|reflexivity]. cbn [bind]. apply IH. Qed.
Section Reduce.
  Context (raw : val).
  Let call := fun (errs : list report) (_ : unit) (r : rule) (path : str) (o : val) => (errs, old_check raw r path o).
  Let result := fun (errs : list report) (_ : unit) (ret : str * string * list message) => (collect errs ret, Ok tt).
  Lemma each_run p o rs : forall errs, to_res (each (call_one call result (Entry tt routes12 true) p o) errs rs) = run raw p o rs errs.
  Proof.
    induction rs as [|r rs IH]; intro errs; [reflexivity|]. cbn [each run]. unfold call_one at 1. cbn [e_self e_result]. unfold call at 1. destruct (old_check raw r p o) as [x|e]; [|reflexivity]. cbn [bind]. unfold result at 1. apply IH.
  Qed.
  Lemma handle_run p o cs : forall errs, to_res (handle_all pycls_eqb BaseObj call result (Entry tt routes12 true) p o errs cs) = run raw p o (rules_upto cs) errs.
  Proof.
    induction cs as [|c cs IH]; intro errs; [reflexivity|]. cbn [handle_all rules_upto]. destruct (pycls_eqb c BaseObj); [reflexivity|]. rewrite run_app.
    unfold handle_cls. cbn [e_route]. destruct (dget pycls_eqb c routes12) as [f|]; [|cbn [run bind]; apply IH].
    rewrite <- each_run. destruct (each (call_one call result (Entry tt routes12 true) p o) errs f) as [s [u|e]]; cbn [to_res bind]; [apply IH|reflexivity].
  Qed.
  Lemma scan_over objs : forall errs, to_res (scan pycls_eqb pymro BaseObj class_of call result errs [Entry tt routes12 true] objs) = over12 raw objs errs.
  Proof.
    unfold scan. induction objs as [|[p o] objs IH]; intro errs; [reflexivity|]. cbn [each over12 fst snd]. unfold rules_at. rewrite <- handle_run.
    destruct (handle_all pycls_eqb BaseObj call result (Entry tt routes12 true) p o errs (removelast (pymro (class_of o)))) as [s [u|e]]; cbn [to_res bind]; [apply IH|reflexivity].
  Qed.
End Reduce.
Lemma validate12_over raw : validate12 raw = (do objs <- traverse raw []; over12 raw objs []).
Proof.
  unfold validate12. rewrite routes12_ok. cbn [bind]. destruct (traverse raw []) as [objs|]; [|reflexivity]. cbn [bind]. rewrite <- scan_over. unfold to_res. reflexivity.
Qed.
Definition rules_for (c : ocls) : list rule :=
  match c with
  | OParameter => [RParam; RReqs ["paramType"; "name"]%string; RData]
  | OOperation => [RAuths; RReqs ["method"; "nickname"; "parameters"]%string; RData]
  | OProperty => [RProp; RData]
  | OItems => [RItems]
  | OAuthorization => [RAuth; RReqs ["type"]%string]
  | OGrantType => [RGrant]
  | c => [RReqs (required_fields c)]
  end.
Lemma rules_class h fs ints c : h_cls h = COld c -> rules_at (VObj h fs ints) = rules_for c.
Proof. intro C. unfold rules_at, class_of. rewrite C. destruct c; vm_compute; reflexivity. Qed.
(** what the handlers have returned for an object *)
Definition tagged (p : str) (o : val) (l : list message) : list report := map (fun m => (p, name_of_obj o, m)) l.
Definition checked (raw : val) (p : str) (o : val) (rs : list rule) (ls : list (list message)) : Prop :=
  Forall2 (fun r l => old_check raw r p o = Ok (p, name_of_obj o, l)) rs ls.
Lemma old_check_form raw r p o x : old_check raw r p o = Ok x -> exists l, x = (p, name_of_obj o, l).
Proof. unfold old_check. intro E. apply bind_ok in E as (l & _ & E). injection E as <-. eauto. Qed.
Lemma collect_tagged errs p o l : collect errs (p, name_of_obj o, l) = errs ++ tagged p o l.
Proof. unfold collect. destruct l; [cbn; now rewrite app_nil_r|reflexivity]. Qed.
Lemma run_ok raw p o rs : forall errs r, run raw p o rs errs = Ok r -> exists ls, checked raw p o rs ls /\ r = errs ++ tagged p o (concat ls).
Proof.
  induction rs as [|rl rs IH]; intros errs r E; cbn [run] in E.
  - injection E as <-. exists []. split; [constructor|]. cbn. now rewrite app_nil_r.
  - apply bind_ok in E as (x & X & E). destruct (old_check_form _ _ _ _ _ X) as (l & ->). rewrite collect_tagged in E. apply IH in E as (ls & F & ->).
    exists (l :: ls). split; [now constructor|]. cbn [concat]. unfold tagged. rewrite map_app. now rewrite app_assoc.
Qed.
Lemma over12_ok raw objs : forall errs r, over12 raw objs errs = Ok r ->
  exists xs, Forall2 (fun po x => exists ls, checked raw (fst po) (snd po) (rules_at (snd po)) ls /\ x = tagged (fst po) (snd po) (concat ls)) objs xs /\ r = errs ++ concat xs.
Proof.
  induction objs as [|[p o] objs IH]; intros errs r E; cbn [over12] in E.
  - injection E as <-. exists []. split; [constructor|]. cbn. now rewrite app_nil_r.
  - apply bind_ok in E as (e & R & E). apply run_ok in R as (ls & C & ->). apply IH in E as (xs & F & ->). exists (tagged p o (concat ls) :: xs). split.
    + constructor; [|exact F]. exists ls. auto.
    + cbn [concat]. now rewrite app_assoc.
Qed.
Lemma over12_err raw objs : forall errs e, over12 raw objs errs = Err e -> exists p o r, In (p, o) objs /\ In r (rules_at o) /\ old_check raw r p o = Err e.
Proof.
  induction objs as [|[p o] objs IH]; intros errs e E; cbn [over12] in E; [discriminate E|].
  destruct (run raw p o (rules_at o) errs) as [x|y] eqn:R; cbn [bind] in E.
  - apply IH in E as (p' & o' & r & I & H). exists p', o', r. split; [now right|exact H].
  - injection E as ->. exists p, o. clear - R. revert errs R. induction (rules_at o) as [|r rs IH]; intros errs R; cbn [run] in R; [discriminate R|].
    destruct (old_check raw r p o) as [x|y] eqn:C; cbn [bind] in R.
    + destruct (IH _ R) as (r' & A & B & D). exists r'. split; [exact A|]. split; [now right|exact D].
    + injection R as ->. exists r. split; [now left|]. split; [now left|exact C].
Qed.

(** ** The rules, one by one *)
Lemma reach_old v ts o : reach [] v ts o -> wfv v -> old_value v -> old_value o.
Proof.
  induction 1 as [v|h fs i n v ts o _ G R IH|l i v ts o N R IH|d k v ts o G R IH]; intros W V; [exact V|..]; apply IH; inversion W as [| | | | |? FW|? ND FW|? ? ? K FW]; subst.
  - rewrite Forall_forall in FW. exact (FW _ (sget_In _ _ _ G)).
  - inversion V as [? NO| | |c ? ? ? C IK FV FF]; subst; [elim (no_obj_VObj _ _ _ NO)|]. rewrite Forall_forall in FV. exact (FV _ (sget_In _ _ _ G)).
  - rewrite Forall_forall in FW. exact (FW _ (nth_error_In _ _ N)).
  - apply old_list_inv in V. rewrite Forall_forall in V. exact (V _ (nth_error_In _ _ N)).
  - rewrite Forall_forall in FW. exact (FW _ (sget_In _ _ _ G)).
  - apply old_dict_inv in V; [|exact ND]. rewrite Forall_forall in V. exact (V _ (sget_In _ _ _ G)).
Qed.
Lemma reach_app lv a ts b us c : reach lv a ts b -> reach lv b us c -> reach lv a (ts ++ us) c.
Proof. induction 1; intro R; cbn [app]; [exact R|econstructor; eauto..]. Qed.
Lemma in_app_two {A} (a b : list A) x y z w : a ++ [x; y] = b ++ [z; w] -> a = b /\ x = z /\ y = w.
Proof.
  intro E. change (a ++ [x] ++ [y] = b ++ [z] ++ [w]) in E. rewrite !app_assoc in E. apply app_inj_tail in E as (E & ->). apply app_inj_tail in E as (-> & ->). auto.
Qed.
Lemma NoDup_app_intro {A} (l m : list A) : NoDup l -> NoDup m -> (forall x, In x l -> ~ In x m) -> NoDup (l ++ m).
Proof.
  intros N M D. induction N as [|x l NI N IH]; [exact M|]. cbn [app]. constructor.
  - rewrite in_app_iff. intros [I|I]; [auto|]. exact (D x (or_introl eq_refl) I).
  - apply IH. intros y I. apply D. now right.
Qed.
Lemma NoDup_app_disj {A} (l m : list A) : NoDup (l ++ m) -> forall x, In x l -> ~ In x m.
Proof.
  induction l as [|y l IH]; intros N x I; [destruct I|]. cbn [app] in N. inversion N as [|? ? NI N']; subst. destruct I as [->|I]; [|now apply IH]. intro J. apply NI, in_or_app. now right.
Qed.
Section Rules.
  Context (raw : val) (LOADED : loaded12 raw).
  Lemma raw_shape : wfv raw /\ old_value raw /\ exists h fr ints defs, raw = VObj h fr ints /\ h_cls h = COld OResourceList /\ has fr "authorizations" (VDict defs).
  Proof.
    destruct LOADED as (fetch & u & d & W & F & E). destruct (c55_shape fetch u d raw W F E) as (WV & _ & OV). split; [exact WV|]. split; [exact OV|].
    destruct (c55_listing fetch u d raw W F E) as (h & fs & ints & rs & apis & base & -> & C & FM & _). destruct (FM (lit "authorizations") JNull eq_refl ltac:(discriminate)) as (x & X & SF).
    apply child_field_in with (k := (XDict, OAuthorization)) in SF; [|reflexivity|not_items]. cbn [fst snd] in SF. inversion SF; subst. exists h, fs, ints. eexists. split; [reflexivity|]. split; [exact C|exact X].
  Qed.
  Context (ts : list str) (h : head) (fs ints : sdict val) (c : ocls).
  Context (R : reach [] raw ts (VObj h fs ints)) (C : h_cls h = COld c).
  Let o := VObj h fs ints.
  Lemma o_wf : wfv o. Proof. eapply reach_wf; [exact R|apply raw_shape]. Qed.
  Lemma o_old : old_value o. Proof. eapply reach_old; [exact R|apply raw_shape..]. Qed.
  Lemma fieldx n : smem (lit n) (o_fields c) = true -> exists x, has fs n x /\ get n o = Ok x.
  Proof.
    intro M. pose proof o_wf as W. inversion W as [| | | | | | |? ? ? K _]; subst. rewrite C in K. cbn [t_fields] in K. destruct (sget (lit n) fs) as [x|] eqn:G.
    - exists x. split; [exact G|]. now apply get_field.
    - apply sget_None in G. elim G. rewrite K. apply smem_In. exact M.
  Qed.
  Lemma has_get n x : has fs n x -> get n o = Ok x. Proof. intro G. now apply get_field. Qed.
  Lemma has_same n x y : has fs n x -> has fs n y -> x = y. Proof. unfold has. congruence. Qed.
  Lemma one_at ts' c' fo fo' : object_at raw ts' c' fo -> object_at raw ts' c' fo' -> fo = fo'.
  Proof. intros (h1 & i1 & R1 & _) (h2 & i2 & R2 & _). apply resolve_reach in R1, R2. congruence. Qed.
  (** DataTypeObj *)
  Lemma data_rule : data_class c -> exists l, check_data o = Ok l /\ forall m, In m l <->
    (m = ("type or $ref should be existed."%string, VNone) /\ has fs "type" VNone /\ has fs "$ref" VNone) \/
    (m = ("array should be existed along with items"%string, VNone) /\ exists t i, has fs "type" t /\ has fs "items" i /\ ~ (t = text "array" <-> i <> VNone)) \/
    (m = ("uniqueItems is only used for array type."%string, VNone) /\ exists t u, has fs "type" t /\ has fs "uniqueItems" u /\ u <> VNone /\ t <> text "array").
  Proof.
    intro D. assert (F : forall n, In n ["type"; "$ref"; "items"; "uniqueItems"]%string -> smem (lit n) (o_fields c) = true).
    { intros n I. cbn [In] in I. destruct D as [->|[->| ->]]; repeat destruct I as [<-|I]; try contradiction; reflexivity. }
    destruct (fieldx "type" (F "type"%string ltac:(cbn; tauto))) as (t & T & GT). destruct (fieldx "$ref" (F "$ref"%string ltac:(cbn; tauto))) as (rf & RF & GR).
    destruct (fieldx "items" (F "items"%string ltac:(cbn; tauto))) as (i & IT & GI). destruct (fieldx "uniqueItems" (F "uniqueItems"%string ltac:(cbn; tauto))) as (u & U & GU).
    unfold check_data. rewrite GT, GR, GI, GU. cbn [bind]. eexists. split; [reflexivity|]. intro m. rewrite !in_app_iff, !in_when.
    rewrite !andb_true_iff, !negb_true_iff, !is_none_iff, is_none_no, is_text_no. split.
    - intros [((-> & ->) & ->)|[(B & ->)|((N & A) & ->)]]; [left; auto| |right; right; split; [reflexivity|]; exists t, u; auto].
      right. left. split; [reflexivity|]. exists t, i. split; [exact T|]. split; [exact IT|]. intro Q. apply eqb_false_iff in B. apply B. rewrite <- is_text_iff, <- is_none_no in Q. destruct (is_text t "array"), (is_none i); cbn in *; intuition congruence.
    - intros [(-> & A & B)|[(-> & t' & i' & A & B & N)|(-> & t' & u' & A & B & N & N')]].
      + left. rewrite (has_same _ _ _ T A), (has_same _ _ _ RF B). auto.
      + right. left. rewrite (has_same _ _ _ T A), (has_same _ _ _ IT B) in *. split; [|reflexivity]. apply eqb_false_iff. intro Q. apply N. rewrite <- is_text_iff, <- is_none_no. rewrite Q. destruct (is_none i'); cbn; intuition congruence.
      + right. right. rewrite (has_same _ _ _ T A), (has_same _ _ _ U B) in *. auto.
  Qed.
  Lemma void_rule : no_void_class c -> exists l, no_void o = Ok l /\ forall m, In m l <->
    m = ("void is only allowed in Operation object."%string, VNone) /\ has fs "type" (text "void").
  Proof.
    intro D. assert (F : smem (lit "type") (o_fields c) = true) by (destruct D as [->|[->| ->]]; reflexivity). destruct (fieldx "type" F) as (t & T & GT).
    unfold no_void. rewrite GT. cbn [bind]. eexists. split; [reflexivity|]. intro m. rewrite in_when, is_text_iff. split.
    - intros (-> & ->). auto.
    - intros (-> & A). rewrite (has_same _ _ _ T A). auto.
  Qed.
  (** Authorization *)
  Lemma auth_rule : c = OAuthorization -> exists l, check_auth o = Ok l /\ forall m, In m l <->
    (m = ("need ""passAs"" for apiKey"%string, VNone) /\ has fs "type" (text "apiKey") /\ exists x, has fs "passAs" x /\ ~ holds_true x) \/
    (m = ("need ""keyname"" for apiKey"%string, VNone) /\ has fs "type" (text "apiKey") /\ exists x, has fs "keyname" x /\ ~ holds_true x) \/
    (m = ("need ""grantTypes"" for oauth2"%string, VNone) /\ has fs "type" (text "oauth2") /\ exists x, has fs "grantTypes" x /\ ~ holds_true x).
  Proof.
    intro D. assert (F : forall n, In n ["type"; "passAs"; "keyname"; "grantTypes"]%string -> smem (lit n) (o_fields c) = true).
    { intros n I. cbn [In] in I. subst c. repeat destruct I as [<-|I]; try contradiction; reflexivity. }
    destruct (fieldx "type" (F "type"%string ltac:(cbn; tauto))) as (t & T & GT). destruct (fieldx "passAs" (F "passAs"%string ltac:(cbn; tauto))) as (pa & PA & GP).
    destruct (fieldx "keyname" (F "keyname"%string ltac:(cbn; tauto))) as (kn & KN & GK). destruct (fieldx "grantTypes" (F "grantTypes"%string ltac:(cbn; tauto))) as (gt & GT' & GG).
    unfold check_auth. rewrite GT, GP, GK, GG. cbn [bind]. eexists. split; [reflexivity|]. intro m. destruct (is_text t "apiKey") eqn:A.
    - apply is_text_iff in A. subst t. rewrite in_app_iff, !in_when, !falsy_iff. split.
      + intros [(B & ->)|(B & ->)]; [left|right; left]; eauto 6.
      + intros [(-> & _ & x & X & N)|[(-> & _ & x & X & N)|(-> & X & _)]].
        * left. now rewrite (has_same _ _ _ PA X).
        * right. now rewrite (has_same _ _ _ KN X).
        * discriminate (has_same _ _ _ T X).
    - apply is_text_no in A. rewrite in_when, andb_true_iff, is_text_iff, falsy_iff. split.
      + intros ((-> & B) & ->). right. right. eauto 6.
      + intros [(-> & X & _)|[(-> & X & _)|(-> & X & x & Y & N)]]; [elim A; exact (has_same _ _ _ T X)..|]. rewrite (has_same _ _ _ T X), (has_same _ _ _ GT' Y). auto.
  Qed.
  Lemma grant_rule : c = OGrantType -> exists l, check_grant o = Ok l /\ forall m, In m l <->
    m = ("Either implicit or authorization_code should be defined."%string, VNone) /\ exists x y, has fs "implicit" x /\ has fs "authorization_code" y /\ ~ holds_true x /\ ~ holds_true y.
  Proof.
    intro D. destruct (fieldx "implicit") as (x & X & GX); [subst c; reflexivity|]. destruct (fieldx "authorization_code") as (y & Y & GY); [subst c; reflexivity|].
    unfold check_grant. rewrite GX, GY. cbn [bind]. eexists. split; [reflexivity|]. intro m. rewrite in_when, andb_true_iff, !falsy_iff. split.
    - intros ((A & B) & ->). eauto 8.
    - intros (-> & x' & y' & A & B & N & N'). rewrite (has_same _ _ _ X A), (has_same _ _ _ Y B). auto.
  Qed.
  (** Required fields *)
  Lemma reqs_rule rs : Forall (fun r => smem (lit r) (o_fields c) = true) rs -> exists l, check_reqs rs o = Ok l /\ forall m, In m l <->
    exists r, In r rs /\ m = ("requirement {0} not meet."%string, VStr (lit r)) /\ has fs r VNone.
  Proof.
    induction 1 as [|r rs M F (l & E & IH)].
    - exists []. split; [reflexivity|]. intro m. split; [intros []|intros (? & [] & _)].
    - cbn [check_reqs]. rewrite E. cbn [bind]. eexists. split; [reflexivity|]. destruct (fieldx r M) as (x & X & G). rewrite G. intro m. rewrite in_app_iff, in_when, is_none_iff, IH. split.
      + intros [(-> & ->)|(r' & I & Q)]; [exists r; cbn; auto|exists r'; cbn; tauto].
      + intros (r' & [<-|I] & -> & H); [left|right; eauto]. now rewrite (has_same _ _ _ X H).
  Qed.
  (** Parameter *)
  Lemma param_place : c = OParameter -> exists ts0 i ho fo io, ts = ts0 ++ [lit "parameters"; i] /\ reach [] raw ts0 (VObj ho fo io) /\ h_cls ho = COld OOperation.
  Proof.
    intros ->. destruct raw_shape as (W & V & hr & fr & ir & defs & ER & CR & _). destruct (holder _ _ _ R W V I) as [IN|(ts0 & p & n & ts1 & -> & h' & fs' & ints' & cp & ct & cc & x & -> & C' & R' & G & IN & H & (h2 & f2 & i2 & E2 & C2) & L & _)].
    - rewrite ER in IN. apply inside_obj in IN. injection IN as -> -> ->. rewrite CR in C. discriminate C.
    - injection E2 as <- <- <-. rewrite C in C2. injection C2 as <-.
      assert (Q : cp = OOperation /\ n = lit "parameters" /\ ct = XList) by (apply sget_In in H; destruct cp; cbn in H; repeat destruct H as [H|H]; try contradiction; try discriminate H; injection H as <- <-; auto).
      destruct Q as (-> & -> & ->). destruct ts1 as [|i [|]]; try discriminate L. exists ts0, i, h', fs', ints'. auto.
  Qed.
  Lemma param_rule : c = OParameter ->
    (forall l, check_param raw (rfc_pointer (lit "#") ts) o = Ok l -> forall m, In m l <->
      (exists am pt, m = ("allowMultiple should be applied on path, header, or query parameters"%string, VNone) /\ has fs "allowMultiple" am /\ holds_true am /\ has fs "paramType" pt /\ pt <> text "path" /\ pt <> text "query" /\ pt <> text "header") \/
      (exists am, m = ("array Type with allowMultiple is not supported."%string, VNone) /\ has fs "allowMultiple" am /\ holds_true am /\ has fs "type" (text "array")) \/
      (exists n, m = ("body parameter with invalid name: {0}"%string, n) /\ has fs "paramType" (text "body") /\ has fs "name" n /\ n <> text "" /\ n <> text "body") \/
      (exists n pt, m = ("File parameter should be form type: {0}"%string, n) /\ has fs "type" (text "File") /\ has fs "name" n /\ has fs "paramType" pt /\ pt <> text "form") \/
      (exists n ts0 i fo co, m = ("File parameter should consume multipart/form-data: {0}"%string, n) /\ has fs "type" (text "File") /\ has fs "name" n /\
         ts = ts0 ++ [lit "parameters"; i] /\ object_at raw ts0 OOperation fo /\ has fo "consumes" co /\ ~ mentions (lit "multipart/form-data") co) \/
      (m = ("void is only allowed in Operation object."%string, VNone) /\ has fs "type" (text "void"))) /\
    (forall e, check_param raw (rfc_pointer (lit "#") ts) o = Err e -> e = TypeError /\ unsearchable_consumes raw) /\
    (forall ts0 i fo co, ts = ts0 ++ [lit "parameters"; i] -> has fs "type" (text "File") -> object_at raw ts0 OOperation fo -> has fo "consumes" co -> ~ searchable co ->
       forall l, check_param raw (rfc_pointer (lit "#") ts) o <> Ok l).
  Proof.
    intro D. destruct (fieldx "allowMultiple") as (am & AM & GA); [subst c; reflexivity|]. destruct (fieldx "paramType") as (pt & PT & GP); [subst c; reflexivity|].
    destruct (fieldx "type") as (t & T & GT); [subst c; reflexivity|]. destruct (fieldx "name") as (n & N & GN); [subst c; reflexivity|].
    destruct (void_rule (or_introl D)) as (l3 & E3 & I3). destruct (param_place D) as (ts0 & i & ho & fo & io & ET & RO & CO).
    assert (OA : object_at raw ts0 OOperation fo) by (exists ho, io; auto).
    assert (CS : exists co, has fo "consumes" co).
    { assert (W : wfv (VObj ho fo io)) by (eapply reach_wf; [exact RO|apply raw_shape]). inversion W as [| | | | | | |? ? ? K _]; subst. rewrite CO in K. unfold has. destruct (sget (lit "consumes") fo) eqn:Q; [eauto|]. apply sget_None in Q. elim Q. rewrite K. cbn. tauto. }
    destruct CS as (co & HC).
    assert (UP : two_up raw (rfc_pointer (lit "#") ts) = Ok (VObj ho fo io)).
    { unfold two_up. rewrite split_hash. cbn [tl]. rewrite ET. change [lit "parameters"; i] with ([lit "parameters"] ++ [i]). rewrite app_assoc, removelast_last, removelast_last. now apply (resolve_reach []). }
    assert (GC : get "consumes" (VObj ho fo io) = Ok co) by now apply get_field.
    unfold check_param. rewrite GA, GP, GT, GN. cbn [bind].
    match goal with |- context [bind ?e _] => set (e2 := e) end.
    assert (E2 : (exists l2, e2 = Ok l2 /\ (t = text "File" -> searchable co) /\ forall m, In m l2 <->
        (exists n pt, m = ("File parameter should be form type: {0}"%string, n) /\ has fs "type" (text "File") /\ has fs "name" n /\ has fs "paramType" pt /\ pt <> text "form") \/
        (exists n ts0 i fo co, m = ("File parameter should consume multipart/form-data: {0}"%string, n) /\ has fs "type" (text "File") /\ has fs "name" n /\
           ts = ts0 ++ [lit "parameters"; i] /\ object_at raw ts0 OOperation fo /\ has fo "consumes" co /\ ~ mentions (lit "multipart/form-data") co)) \/
        (e2 = Err TypeError /\ t = text "File" /\ ~ searchable co)).
    { subst e2. destruct (is_text t "File") eqn:TF.
      - apply is_text_iff in TF. rewrite UP. cbn [bind]. rewrite GC. cbn [bind]. destruct (text_in (lit "multipart/form-data") co) as [b|e] eqn:TI.
        + left. cbn [bind]. eexists. split; [reflexivity|]. apply text_in_ok in TI as (SE & TI). split; [intros _; exact SE|]. intro m. rewrite in_app_iff, !in_when, !negb_true_iff, is_text_no. split.
          * intros [(A & ->)|(B & ->)].
            -- left. exists n, pt. subst t. auto.
            -- right. exists n, ts0, i, fo, co. subst t. repeat (split; [solve [auto]|]). intro M. apply TI in M. congruence.
          * intros [(n' & pt' & -> & _ & A & B & Q)|(n' & ts0' & i' & fo' & co' & -> & _ & A & ET' & OA' & HC' & NM)].
            -- left. rewrite (has_same _ _ _ PT B), (has_same _ _ _ N A). auto.
            -- right. rewrite (has_same _ _ _ N A). split; [|reflexivity]. rewrite ET in ET'. apply in_app_two in ET' as (<- & _). rewrite <- (one_at _ _ _ _ OA OA') in HC'. assert (co' = co) as -> by (unfold has in *; congruence).
               destruct b; [|reflexivity]. elim NM. now apply TI.
        + right. apply text_in_err in TI as (-> & NS). auto.
      - left. eexists. split; [reflexivity|]. apply is_text_no in TF. split; [intro Q; elim (TF Q)|]. intro m. split; [intros []|]. intros [(n' & pt' & _ & A & _)|(n' & ts0' & i' & fo' & co' & _ & A & _)]; elim TF; exact (has_same _ _ _ T A). }
    clearbody e2. rewrite E3. split; [|split].
    - intros l E m. destruct E2 as [(l2 & -> & SE & I2)|(-> & _)]; [|discriminate E]. cbn [bind] in E. injection E as <-. rewrite !in_app_iff, !in_when, I2, I3. rewrite !andb_true_iff, !negb_true_iff, !orb_false_iff, !is_text_iff, !is_text_no.
      rewrite <- (not_true_iff_false (falsy am)), falsy_iff.
      assert (HT : ~ ~ holds_true am <-> holds_true am) by (rewrite holds_true_iff; destruct (falsy am); intuition congruence). rewrite HT. split.
      + intros [[((A & (B1 & B2) & B3) & ->)|[((A & ->) & ->)|((-> & B1 & B2) & ->)]]|[[X|X]|X]]; [left; exists am, pt; auto 10|right; left; exists am; auto|right; right; left; exists n; auto|auto 10..].
      + intros [(am' & pt' & -> & A1 & A2 & A3 & A4 & A5 & A6)|[(am' & -> & A1 & A2 & A3)|[(n' & -> & A1 & A2 & A3 & A4)|[X|[X|X]]]]].
        * left. left. rewrite (has_same _ _ _ AM A1), (has_same _ _ _ PT A3). auto 10.
        * left. right. left. rewrite (has_same _ _ _ AM A1), (has_same _ _ _ T A3). auto.
        * left. right. right. rewrite (has_same _ _ _ PT A1), (has_same _ _ _ N A2). auto.
        * right. left. left. exact X.
        * right. left. right. exact X.
        * right. right. exact X.
    - intros e E. destruct E2 as [(l2 & -> & SE & I2)|(-> & -> & NS)]; [discriminate E|]. injection E as <-. split; [reflexivity|]. exists ts0, i, fs, fo, co. rewrite <- ET. split; [exists h, ints; subst c; auto|auto].
    - intros ts0' i' fo' co' ET' HF OA' HC' NS l E. rewrite ET in ET'. apply in_app_two in ET' as (<- & _). rewrite <- (one_at _ _ _ _ OA OA') in HC'. assert (co' = co) as -> by (unfold has in *; congruence).
      destruct E2 as [(l2 & -> & SE & I2)|(-> & _)]; [|discriminate E]. apply NS, SE. exact (has_same _ _ _ T HF).
  Qed.
  (** Operation *)
  Lemma auths_shape : c = OOperation -> has fs "authorizations" VNone \/ exists l, has fs "authorizations" (VDict l) /\ NoDup (map fst l).
  Proof.
    intro D. destruct (fieldx "authorizations") as (x & X & _); [subst c; reflexivity|]. pose proof o_wf as W. pose proof o_old as V. inversion V as [? NO| | |c' ? ? ? C' IK FV FF]; subst; [elim (no_obj_VObj _ _ _ NO)|]. rewrite C in C'. injection C' as <-.
    rewrite Forall_forall in FF. specialize (FF _ (sget_In _ _ _ X)). cbn in FF. inversion W as [| | | | | | |? ? ? K FW]; subst. rewrite Forall_forall in FW. specialize (FW _ (sget_In _ _ _ X)). cbn [snd] in FW.
    destruct FF as [((l & -> & _) & _)|[->|(E & _)]]; [|now left|discriminate E]. right. exists l. inversion FW; subst. split; [exact X|assumption].
  Qed.
  Lemma def_type defs hr fr ir k a : raw = VObj hr fr ir -> h_cls hr = COld OResourceList -> has fr "authorizations" (VDict defs) -> sget k defs = Some a ->
    exists ha fa ia t, a = VObj ha fa ia /\ has fa "type" t /\ get "type" a = Ok t.
  Proof.
    intros E CR A K. destruct raw_shape as (W & V & _). rewrite E in W, V. inversion V as [? NO| | |c' ? ? ? C' IK FV FF]; subst; [elim (no_obj_VObj _ _ _ NO)|]. rewrite CR in C'. injection C' as <-.
    rewrite Forall_forall in FF. specialize (FF _ (sget_In _ _ _ A)). cbn in FF. destruct FF as [((d & E & F) & _)|[E|(E & _)]]; [|discriminate E..]. injection E as <-.
    rewrite Forall_forall in F. destruct (F _ (sget_In _ _ _ K)) as (ha & fa & ia & EA & CA). cbn [snd] in EA. subst a.
    inversion W as [| | | | | | |? ? ? KK FW]; subst. rewrite Forall_forall in FW. specialize (FW _ (sget_In _ _ _ A)). cbn [snd] in FW. inversion FW as [| | | | | |? ND FD|]; subst. rewrite Forall_forall in FD. specialize (FD _ (sget_In _ _ _ K)). cbn [snd] in FD.
    inversion FD as [| | | | | | |? ? ? KA _]; subst. rewrite CA in KA. destruct (sget (lit "type") fa) as [t|] eqn:T.
    - exists ha, fa, ia, t. split; [reflexivity|]. split; [exact T|]. now apply get_field.
    - apply sget_None in T. elim T. rewrite KA. cbn. tauto.
  Qed.
  Lemma auth_list_rule defs hr fr ir : raw = VObj hr fr ir -> h_cls hr = COld OResourceList -> has fr "authorizations" (VDict defs) -> forall l,
    (exists r, check_auth_list (VDict defs) l = Ok r /\ (forall k, In k (map fst l) -> sget k defs <> None) /\ forall m, In m r <->
       exists k v ha fa ia t, In (k, v) l /\ m = ("auth {0} should be an empty list"%string, VStr k) /\ v <> VList [] /\ sget k defs = Some (VObj ha fa ia) /\ has fa "type" t /\ (t = text "basicAuth" \/ t = text "apiKey")) \/
    (check_auth_list (VDict defs) l = Err KeyError /\ exists k, In k (map fst l) /\ sget k defs = None).
  Proof.
    intros E CR A l. induction l as [|[k v] l IH]; cbn [check_auth_list].
    - left. exists []. split; [reflexivity|]. split; [intros k []|]. intro m. split; [intros []|]. intros (k & v & ha & fa & ia & t & [] & _).
    - destruct (sget k defs) as [a|] eqn:K; [|right; split; [reflexivity|]; exists k; cbn; auto]. destruct (def_type _ _ _ _ _ _ E CR A K) as (ha & fa & ia & t & -> & T & ->). cbn [bind].
      destruct IH as [(r & -> & FD & IH)|(-> & k' & IN & N)]; cbn [bind]; [left|right; split; [reflexivity|]; exists k'; cbn; auto].
      eexists. split; [reflexivity|]. split; [cbn [map fst In]; intros k' [<-|I]; [congruence|auto]|]. intro m. rewrite in_app_iff, in_when, IH, andb_true_iff, orb_true_iff, !is_text_iff, negb_true_iff. split.
      + intros [((B & Q) & ->)|(k' & v' & ha' & fa' & ia' & t' & I & M)]; [exists k, v, ha, fa, ia, t|exists k', v', ha', fa', ia', t'; cbn; tauto]. split; [now left|]. split; [reflexivity|]. split; [intros ->; discriminate Q|auto].
      + intros (k' & v' & ha' & fa' & ia' & t' & [Q|I] & -> & NE & G & T' & B); [left|right; exists k', v', ha', fa', ia', t'; auto 10].
        injection Q as <- <-. rewrite K in G. injection G as <- <- <-. assert (t' = t) as -> by (unfold has in *; congruence). split; [|reflexivity]. split; [exact B|]. destruct v as [| | | | |[|]| |]; (reflexivity || now elim NE).
  Qed.
  Lemma auths_rule : c = OOperation ->
    (forall l, check_auths raw o = Ok l ->
       (forall m, In m l <-> exists auths k v fr defs h fa ints t, m = ("auth {0} should be an empty list"%string, VStr k) /\ has fs "authorizations" (VDict auths) /\ sget k auths = Some v /\ v <> VList [] /\
          object_at raw [] OResourceList fr /\ has fr "authorizations" (VDict defs) /\ sget k defs = Some (VObj h fa ints) /\ has fa "type" t /\ (t = text "basicAuth" \/ t = text "apiKey")) /\
       (forall auths k fr defs, has fs "authorizations" (VDict auths) -> sget k auths <> None -> object_at raw [] OResourceList fr -> has fr "authorizations" (VDict defs) -> sget k defs <> None)) /\
    (forall e, check_auths raw o = Err e -> e = KeyError /\ undefined_auth raw).
  Proof.
    intro D. destruct raw_shape as (_ & _ & hr & fr & ir & defs & ER & CR & DA). assert (OR : object_at raw [] OResourceList fr) by (exists hr, ir; split; [rewrite ER; constructor|exact CR]).
    unfold check_auths. destruct (auths_shape D) as [N|(au & A & ND)].
    - rewrite (has_get _ _ N). cbn [bind falsy]. split; [|discriminate]. intros l E. injection E as <-. split.
      + intro m. split; [intros []|]. intros (auths & k & v & fr' & defs' & h' & fa & ints' & t & _ & A & _). discriminate (has_same _ _ _ N A).
      + intros auths k fr' defs' A. discriminate (has_same _ _ _ N A).
    - rewrite (has_get _ _ A). cbn [bind].
      assert (EQ : (if falsy (VDict au) then Ok [] else do defs0 <- get "authorizations" raw; check_auth_list defs0 au) = check_auth_list (VDict defs) au).
      { destruct au; [reflexivity|]. cbn [falsy]. rewrite ER. assert (G : get "authorizations" (VObj hr fr ir) = Ok (VDict defs)) by now apply get_field. now rewrite G. }
      rewrite EQ. clear EQ. destruct (auth_list_rule defs hr fr ir ER CR DA au) as [(r & -> & FD & IR)|(-> & k & IK & K)].
      + split; [|discriminate]. intros l E. injection E as <-. split.
        * intro m. rewrite IR. split.
          -- intros (k & v & ha & fa & ia & t & I & -> & NE & G & T & B). exists au, k, v, fr, defs, ha, fa, ia, t. rewrite (In_sget _ _ _ ND I). auto 10.
          -- intros (auths & k & v & fr' & defs' & h' & fa & ints' & t & -> & A' & K & NE & OR' & DA' & G & T & B). rewrite <- (one_at _ _ _ _ OR OR') in DA'. pose proof (has_same _ _ _ A A') as Q. injection Q as <-.
             assert (defs' = defs) as -> by (unfold has in *; congruence). exists k, v, h', fa, ints', t. split; [now apply sget_In|auto 10].
        * intros auths k fr' defs' A' K OR' DA'. rewrite <- (one_at _ _ _ _ OR OR') in DA'. pose proof (has_same _ _ _ A A') as Q. injection Q as <-. assert (defs' = defs) as -> by (unfold has in *; congruence).
          apply FD. destruct (sget k au) eqn:G; [|now elim K]. apply sget_Some_key. eauto.
      + split; [discriminate|]. intros e E. injection E as <-. split; [reflexivity|]. exists ts, fs, au, k, fr, defs. split; [exists h, ints; subst c; auto|]. split; [exact A|]. split; [|auto]. intro N. apply sget_None in N. contradiction.
  Qed.
  (** ** All rules of an object *)
  Let p := rfc_pointer (lit "#") ts.
  Lemma old_check_ok r l : old_check raw r p o = Ok (p, name_of_obj o, l) ->
    match r with RData => check_data o | RParam => check_param raw p o | RProp | RItems => no_void o | RAuth => check_auth o | RGrant => check_grant o | RAuths => check_auths raw o | RReqs q => check_reqs q o end = Ok l.
  Proof. unfold old_check. intro E. apply bind_ok in E as (l' & E & Q). injection Q as <-. exact E. Qed.
  Lemma old_check_err r e : old_check raw r p o = Err e ->
    match r with RData => check_data o | RParam => check_param raw p o | RProp | RItems => no_void o | RAuth => check_auth o | RGrant => check_grant o | RAuths => check_auths raw o | RReqs q => check_reqs q o end = Err e.
  Proof. unfold old_check. destruct r; intro E; match type of E with bind ?x _ = _ => destruct x; [discriminate E|cbn [bind] in E; now injection E as ->] end. Qed.
  Definition strings_of (r : rule) : list string :=
    match r with
    | RData => ["type or $ref should be existed."; "array should be existed along with items"; "uniqueItems is only used for array type."]
    | RParam => ["allowMultiple should be applied on path, header, or query parameters"; "array Type with allowMultiple is not supported."; "body parameter with invalid name: {0}";
                 "File parameter should be form type: {0}"; "File parameter should consume multipart/form-data: {0}"; "void is only allowed in Operation object."]
    | RProp | RItems => ["void is only allowed in Operation object."]
    | RAuth => ["need ""passAs"" for apiKey"; "need ""keyname"" for apiKey"; "need ""grantTypes"" for oauth2"]
    | RGrant => ["Either implicit or authorization_code should be defined."]
    | RAuths => ["auth {0} should be an empty list"]
    | RReqs _ => ["requirement {0} not meet."]
    end%string.
  (** the messages of a rule are those of [breaks] with its texts *)
  Lemma reqs_fields q : In (RReqs q) (rules_for c) -> q = required_fields c /\ Forall (fun r => smem (lit r) (o_fields c) = true) q.
  Proof. destruct c; cbn; intro I; repeat destruct I as [I|I]; try contradiction; try discriminate I; injection I as <-; (split; [reflexivity|]); apply Forall_forall, forallb_forall; reflexivity. Qed.
  Ltac ours := intros (B & SS); destruct B; cbn [fst strings_of In] in SS; try (exfalso; clear - SS; repeat destruct SS as [SS|SS]; (contradiction || discriminate SS)).
  Ltac here := cbn [fst strings_of In]; tauto.
  Ltac by_class I := destruct c; cbn in I; repeat destruct I as [I|I]; try contradiction; try discriminate I.
  Lemma rule_iff r l : In r (rules_for c) -> old_check raw r p o = Ok (p, name_of_obj o, l) -> forall m, In m l <-> breaks raw ts c fs m /\ In (fst m) (strings_of r).
  Proof.
    intros I E m. apply old_check_ok in E. destruct r as [| | | | | | |q].
    - assert (D : data_class c) by (by_class I; unfold data_class; auto).
      destruct (data_rule D) as (l' & E' & IFF). rewrite E in E'. injection E' as <-. rewrite IFF. split.
      + intros [(-> & A & B)|[(-> & t & i & A & B & N)|(-> & t & u & A & B & N & N')]]; (split; [|here]); [now apply b_type|now apply b_items with t i|now apply b_unique with t u].
      + ours; [left; auto|right; left; eauto 8|right; right; eauto 9].
    - assert (D : c = OParameter) by (by_class I; auto). destruct (param_rule D) as (IFF & _). rewrite (IFF _ E). clear IFF. split.
      + intros [(am & pt & -> & H)|[(am & -> & H)|[(n & -> & H)|[(n & pt & -> & H)|[(n & ts0 & i & fo & co & -> & H)|(-> & H)]]]]]; (split; [|here]).
        * apply b_multiple with am pt; tauto.
        * apply b_multiple_array with am; tauto.
        * apply b_body; tauto.
        * apply b_file_form with pt; tauto.
        * apply b_file_consumes with ts0 i fo co; tauto.
        * apply b_void; [now left|exact H].
      + ours; [do 5 right; auto|left; exists am, pt; auto 10|right; left; exists am; auto|do 2 right; left; exists n; auto|do 3 right; left; exists n, pt; auto|do 4 right; left; exists n, ts0, i, fo, co; auto 10].
    - assert (D : no_void_class c) by (by_class I; unfold no_void_class; auto). destruct (void_rule D) as (l' & E' & IFF). rewrite E in E'. injection E' as <-. rewrite IFF. split.
      + intros (-> & H). split; [now apply b_void|here].
      + ours. auto.
    - assert (D : no_void_class c) by (by_class I; unfold no_void_class; auto). destruct (void_rule D) as (l' & E' & IFF). rewrite E in E'. injection E' as <-. rewrite IFF. split.
      + intros (-> & H). split; [now apply b_void|here].
      + ours. auto.
    - assert (D : c = OAuthorization) by (by_class I; auto). destruct (auth_rule D) as (l' & E' & IFF). rewrite E in E'. injection E' as <-. rewrite IFF. split.
      + intros [(-> & A & x & X & N)|[(-> & A & x & X & N)|(-> & A & x & X & N)]]; (split; [|here]); [now apply b_pass_as with x|now apply b_keyname with x|now apply b_grant_types with x].
      + ours; [left|right; left|right; right]; eauto 6.
    - assert (D : c = OGrantType) by (by_class I; auto). destruct (grant_rule D) as (l' & E' & IFF). rewrite E in E'. injection E' as <-. rewrite IFF. split.
      + intros (-> & x & y & A & B & N & N'). split; [now apply b_grant with x y|here].
      + ours. eauto 9.
    - assert (D : c = OOperation) by (by_class I; auto). destruct (auths_rule D) as (IFF & _). rewrite (proj1 (IFF _ E)). clear IFF. split.
      + intros (auths & k & v & fr & defs & h' & fa & ints' & t & -> & H). split; [|here]. apply b_scopes with auths v fr defs h' fa ints' t; tauto.
      + ours. match goal with A : has fs "authorizations" (VDict auths) |- _ => exists auths, k, v, fr, defs, h0, fa, ints0, t; auto 15 end.
    - destruct (reqs_fields q I) as (-> & F). destruct (reqs_rule _ F) as (l' & E' & IFF). rewrite E in E'. injection E' as <-. rewrite IFF. split.
      + intros (r & IR & -> & H). split; [now apply b_required|here].
      + ours. eauto.
  Qed.
  Lemma by_search (m : message) : existsb (fun r => existsb (String.eqb (fst m)) (strings_of r)) (rules_for c) = true -> exists r, In r (rules_for c) /\ In (fst m) (strings_of r).
  Proof. intro E. apply existsb_exists in E as (r & I & E). apply existsb_exists in E as (s & J & E). apply String.eqb_eq in E. subst s. eauto. Qed.
  Lemma breaks_rule m : breaks raw ts c fs m -> exists r, In r (rules_for c) /\ In (fst m) (strings_of r).
  Proof.
    intro B. apply by_search. clear R C. destruct B as [D|t i D|t u D|D|am pt D|am D|n D|n pt D|n ts0 i fo co D|x D|x D|x D|x y D|auths k v fr defs h' fa ints' t D|r IR]; cbn [fst];
      try (destruct D as [D|[D|D]]); try (rewrite D; reflexivity). revert IR. clear. destruct c; intro IR; try destruct IR; reflexivity.
  Qed.
  Lemma rules_iff ls : checked raw p o (rules_for c) ls -> forall m, In m (concat ls) <-> breaks raw ts c fs m.
  Proof.
    intros K m. rewrite in_concat. split.
    - intros (l & IL & IM). destruct (Forall2_In_r _ _ _ _ K IL) as (r & IR & E). now apply (rule_iff r l IR E).
    - intro B. destruct (breaks_rule m B) as (r & IR & SS). destruct (Forall2_In_l _ _ _ _ K IR) as (l & IL & E). exists l. split; [exact IL|]. apply (rule_iff r l IR E). auto.
  Qed.
  (** no message twice *)
  Lemma nodup_fst {A B} (l : list (A * B)) : NoDup (map fst l) -> NoDup l.
  Proof. apply NoDup_map_inv. Qed.
  Lemma reqs_nodup q : NoDup (map lit q) -> forall l, check_reqs q o = Ok l -> NoDup l /\ forall m, In m l -> exists r, In r q /\ m = ("requirement {0} not meet."%string, VStr (lit r)).
  Proof.
    induction q as [|r q IH]; intros ND l E; cbn [check_reqs] in E; [injection E as <-; split; [constructor|intros m []]|].
    apply bind_ok in E as (rest & E & Q). injection Q as <-. inversion ND as [|? ? NI ND']; subst. destruct (IH ND' _ E) as (N & IN). match goal with |- context [when ?b] => destruct b end; cbn [when app].
    - split.
      + constructor; [|exact N]. intro I. apply IN in I as (r' & I & Q). injection Q as Q. apply NI. apply in_map_iff. exists r'. auto.
      + intros m [<-|I]; [exists r; cbn; auto|]. apply IN in I as (r' & I & Q). exists r'. cbn. auto.
    - split; [exact N|]. intros m I. apply IN in I as (r' & I & Q). exists r'. cbn. auto.
  Qed.
  Lemma auth_list_nodup defs l : NoDup (map fst l) -> forall r, check_auth_list defs l = Ok r -> NoDup r /\ forall m, In m r -> exists k, In k (map fst l) /\ m = ("auth {0} should be an empty list"%string, VStr k).
  Proof.
    induction l as [|[k v] l IH]; intros ND r E; cbn [check_auth_list] in E; [injection E as <-; split; [constructor|intros m []]|].
    destruct defs as [| | | | | |d|]; try discriminate E. destruct (sget k d) as [a|]; [|discriminate E]. apply bind_ok in E as (t & _ & E). apply bind_ok in E as (r' & E & Q). injection Q as <-.
    inversion ND as [|? ? NI ND']; subst. destruct (IH ND' _ E) as (N & IN). match goal with |- context [when ?b] => destruct b end; cbn [when app].
    - split.
      + constructor; [|exact N]. intro I. apply IN in I as (k' & I & Q). injection Q as Q. subst k'. auto.
      + intros m [<-|I]; [exists k; cbn; auto|]. apply IN in I as (k' & I & Q). exists k'. cbn. auto.
    - split; [exact N|]. intros m I. apply IN in I as (k' & I & Q). exists k'. cbn. auto.
  Qed.
  Ltac concrete := apply nodup_fst; cbn [map fst]; repeat (constructor; [cbn [In]; intros HIN; repeat destruct HIN as [HIN|HIN]; (contradiction || discriminate HIN)|]); constructor.
  Ltac whens := repeat match goal with |- context [when ?b _] => destruct b; cbn [when app] end; concrete.
  Lemma rule_nodup r l : In r (rules_for c) -> old_check raw r p o = Ok (p, name_of_obj o, l) -> NoDup l.
  Proof.
    intros I E. apply old_check_ok in E. destruct r as [| | | | | | |q].
    - unfold check_data in E. repeat (apply bind_ok in E as (? & _ & E)). injection E as <-. whens.
    - unfold check_param in E. apply bind_ok in E as (? & _ & E). apply bind_ok in E as (pt & _ & E). apply bind_ok in E as (t & _ & E). apply bind_ok in E as (n & _ & E). apply bind_ok in E as (e2 & E2 & E). apply bind_ok in E as (e3 & E3 & E). injection E as <-.
      unfold no_void in E3. apply bind_ok in E3 as (? & _ & E3). injection E3 as <-. destruct (is_text t "File"); [|injection E2 as <-; whens].
      apply bind_ok in E2 as (? & _ & E2). apply bind_ok in E2 as (? & _ & E2). apply bind_ok in E2 as (? & _ & E2). injection E2 as <-. whens.
    - unfold no_void in E. apply bind_ok in E as (? & _ & E). injection E as <-. whens.
    - unfold no_void in E. apply bind_ok in E as (? & _ & E). injection E as <-. whens.
    - unfold check_auth in E. repeat (apply bind_ok in E as (? & _ & E)). injection E as <-. match goal with |- context [if ?b then _ else _] => destruct b end; whens.
    - unfold check_grant in E. repeat (apply bind_ok in E as (? & _ & E)). injection E as <-. whens.
    - assert (D : c = OOperation) by (by_class I; auto). unfold check_auths in E. destruct (auths_shape D) as [N|(au & A & ND)].
      + rewrite (has_get _ _ N) in E. cbn [bind falsy] in E. injection E as <-. constructor.
      + rewrite (has_get _ _ A) in E. cbn [bind] in E. destruct (falsy (VDict au)); [injection E as <-; constructor|]. apply bind_ok in E as (defs & _ & E). exact (proj1 (auth_list_nodup _ _ ND _ E)).
    - destruct (reqs_fields q I) as (-> & _). apply reqs_nodup in E; [apply E|]. clear. destruct c; cbn; repeat (constructor; [cbn [In]; intro IN; repeat destruct IN as [IN|IN]; (contradiction || discriminate IN)|]); constructor.
  Qed.
  Lemma rules_nodup ls : checked raw p o (rules_for c) ls -> NoDup (concat ls).
  Proof.
    intro K. assert (N : Forall (fun l => NoDup l) ls). { apply Forall_forall. intros l IL. destruct (Forall2_In_r _ _ _ _ K IL) as (r & IR & E). exact (rule_nodup r l IR E). }
    assert (T : Forall2 (fun r l => forall m, In m l -> In (fst m) (strings_of r)) (rules_for c) ls).
    { assert (G : forall rs, (forall r, In r rs -> In r (rules_for c)) -> forall ls, checked raw p o rs ls -> Forall2 (fun r l => forall m, In m l -> In (fst m) (strings_of r)) rs ls).
      { induction rs as [|r rs IH]; intros S' ls' K'; inversion K'; subst; constructor; [|apply IH; [|assumption]; intros; apply S'; now right]. intros m IM. eapply rule_iff; [| |exact IM]; [apply S'; now left|eassumption]. }
      now apply G. }
    assert (D : NoDup (concat (map strings_of (rules_for c)))). { clear. destruct c; cbn; repeat (constructor; [cbn [In]; intro IN; repeat destruct IN as [IN|IN]; (contradiction || discriminate IN)|]); constructor. }
    clear K. revert N D. induction T as [|r l rs ls' T F IH]; intros N D; [constructor|]. inversion N; subst. cbn [map concat] in *. apply NoDup_app_remove_l in D as D'. 
    apply NoDup_app_intro; [assumption|now apply IH|]. intros m I1 I2. apply T in I1. apply in_concat in I2 as (l2 & IL & I2). destruct (Forall2_In_r _ _ _ _ F IL) as (r2 & IR2 & T2). apply T2 in I2.
    apply (NoDup_app_disj _ _ D _ I1). apply in_concat. exists (strings_of r2). split; [now apply in_map|exact I2].
  Qed.
  (** failures *)
  Lemma rule_fails r e : In r (rules_for c) -> old_check raw r p o = Err e -> (e = KeyError /\ undefined_auth raw) \/ (e = TypeError /\ unsearchable_consumes raw).
  Proof.
    intros I E. apply old_check_err in E. destruct r as [| | | | | | |q].
    - assert (D : data_class c) by (by_class I; unfold data_class; auto). destruct (data_rule D) as (l & E' & _). rewrite E in E'. discriminate E'.
    - assert (D : c = OParameter) by (by_class I; auto). right. now apply (param_rule D).
    - assert (D : no_void_class c) by (by_class I; unfold no_void_class; auto). destruct (void_rule D) as (l & E' & _). rewrite E in E'. discriminate E'.
    - assert (D : no_void_class c) by (by_class I; unfold no_void_class; auto). destruct (void_rule D) as (l & E' & _). rewrite E in E'. discriminate E'.
    - assert (D : c = OAuthorization) by (by_class I; auto). destruct (auth_rule D) as (l & E' & _). rewrite E in E'. discriminate E'.
    - assert (D : c = OGrantType) by (by_class I; auto). destruct (grant_rule D) as (l & E' & _). rewrite E in E'. discriminate E'.
    - assert (D : c = OOperation) by (by_class I; auto). left. now apply (auths_rule D).
    - destruct (reqs_fields q I) as (-> & F). destruct (reqs_rule _ F) as (l & E' & _). rewrite E in E'. discriminate E'.
  Qed.
End Rules.

(** ** The document *)
Section Document.
  Context (raw : val) (LOADED : loaded12 raw).
  Lemma raw_wf : wfv raw /\ is_obj raw.
  Proof. destruct (raw_shape raw LOADED) as (W & _ & h & fr & ints & defs & -> & _). split; [exact W|exact Logic.I]. Qed.
  Lemma visited_class objs q o : traverse raw [] = Ok objs -> In (q, o) objs ->
    exists ts h fs ints c, q = rfc_pointer (lit "#") ts /\ o = VObj h fs ints /\ reach [] raw ts o /\ h_cls h = COld c.
  Proof.
    intros T I. destruct raw_wf as (W & O). destruct (c35_visits raw [] W O) as (l & E & IFF). rewrite T in E. injection E as <-. apply IFF in I as (ts & -> & R & OB).
    destruct o as [| | | | | | |h fs ints]; try contradiction. pose proof (reach_old _ _ _ R W (proj1 (proj2 (raw_shape raw LOADED)))) as V. inversion V as [? NO| | |c ? ? ? C IK FV FF]; subst; [elim (no_obj_VObj _ _ _ NO)|]. exists ts, h, fs, ints, c. auto.
  Qed.
  Lemma visit_it objs ts h fs ints : traverse raw [] = Ok objs -> reach [] raw ts (VObj h fs ints) -> In (rfc_pointer (lit "#") ts, VObj h fs ints) objs.
  Proof.
    intros T R. destruct raw_wf as (W & O). destruct (c35_visits raw [] W O) as (l & E & IFF). rewrite T in E. injection E as <-. apply IFF. exists ts. split; [reflexivity|]. split; [exact R|exact Logic.I].
  Qed.
  Lemma reports_iff errs : validate12 raw = Ok errs -> forall r, In r errs <-> exists ts c m, broken raw ts c m /\ r = report_of ts c m.
  Proof.
    rewrite validate12_over. intros E r. apply bind_ok in E as (objs & T & E). apply over12_ok in E as (xs & F & ->). cbn [app]. rewrite in_concat. split.
    - intros (x & IX & IR). destruct (Forall2_In_r _ _ _ _ F IX) as ((q & o) & IO & ls & K & ->). cbn [fst snd] in *. destruct (visited_class _ _ _ T IO) as (ts & h & fs & ints & c & -> & -> & R & C).
      unfold tagged in IR. apply in_map_iff in IR as (m & <- & IM). rewrite (rules_class _ _ _ _ C) in K. apply (rules_iff raw LOADED ts h fs ints c R C ls K) in IM.
      exists ts, c, m. split; [exists fs; split; [exists h, ints; auto|exact IM]|]. unfold report_of, name_of_obj. destruct h as [hc pl pa ks]. cbn [h_cls] in C. subst hc. reflexivity.
    - intros (ts & c & m & (fs & (h & ints & R & C) & B) & ->). pose proof (visit_it _ _ _ _ _ T R) as IO. destruct (Forall2_In_l _ _ _ _ F IO) as (x & IX & ls & K & ->). cbn [fst snd] in *. exists (tagged (rfc_pointer (lit "#") ts) (VObj h fs ints) (concat ls)). split; [exact IX|].
      rewrite (rules_class _ _ _ _ C) in K. apply (rules_iff raw LOADED ts h fs ints c R C ls K) in B. unfold tagged. apply in_map_iff. exists m. split; [|exact B].
      unfold report_of, name_of_obj. destruct h as [hc pl pa ks]. cbn [h_cls] in C. subst hc. reflexivity.
  Qed.
  Lemma reports_once errs : validate12 raw = Ok errs -> NoDup errs.
  Proof.
    rewrite validate12_over. intro E. apply bind_ok in E as (objs & T & E). apply over12_ok in E as (xs & F & ->). cbn [app]. destruct raw_wf as (W & O). pose proof (c35_once raw [] objs W O T) as ND.
    assert (V : forall q o, In (q, o) objs -> exists ts h fs ints c, q = rfc_pointer (lit "#") ts /\ o = VObj h fs ints /\ reach [] raw ts o /\ h_cls h = COld c) by (intros q o; apply (visited_class _ _ _ T)).
    clear T. revert ND V. induction F as [|[q o] x objs xs (ls & K & ->) F IH]; intros ND V; [constructor|]. cbn [map fst snd concat] in *. inversion ND as [|? ? NI ND']; subst.
    apply NoDup_app_intro.
    - destruct (V q o (or_introl eq_refl)) as (ts & h & fs & ints & c & -> & -> & R & C). rewrite (rules_class _ _ _ _ C) in K. pose proof (rules_nodup raw LOADED ts h fs ints c R C ls K) as N. unfold tagged. apply FinFun.Injective_map_NoDup; [|exact N]. intros a b Q. now injection Q.
    - apply IH; [exact ND'|]. intros q' o' I. apply V. now right.
    - intros r I J. unfold tagged in I. apply in_map_iff in I as (m & <- & _). apply in_concat in J as (x & IX & J). destruct (Forall2_In_r _ _ _ _ F IX) as ((q' & o') & IO & ls' & _ & ->). cbn [fst snd] in J. unfold tagged in J. apply in_map_iff in J as (m' & Q & _). injection Q as -> _ _.
      apply NI. apply in_map_iff. exists (q, o'). auto.
  Qed.
  Lemma fails_only e : validate12 raw = Err e -> (e = KeyError /\ undefined_auth raw) \/ (e = TypeError /\ unsearchable_consumes raw).
  Proof.
    rewrite validate12_over. intro E. destruct raw_wf as (W & O). destruct (c35_visits raw [] W O) as (objs & T & _). rewrite T in E. cbn [bind] in E. apply over12_err in E as (q & o & r & IO & IR & E).
    destruct (visited_class _ _ _ T IO) as (ts & h & fs & ints & c & -> & -> & R & C). rewrite (rules_class _ _ _ _ C) in IR. exact (rule_fails raw LOADED ts h fs ints c R C r e IR E).
  Qed.
  Lemma each_checked errs ts h fs ints c r : validate12 raw = Ok errs -> reach [] raw ts (VObj h fs ints) -> h_cls h = COld c -> In r (rules_for c) ->
    exists l, old_check raw r (rfc_pointer (lit "#") ts) (VObj h fs ints) = Ok (rfc_pointer (lit "#") ts, name_of_obj (VObj h fs ints), l).
  Proof.
    rewrite validate12_over. intros E R C IR. apply bind_ok in E as (objs & T & E). apply over12_ok in E as (xs & F & ->). pose proof (visit_it _ _ _ _ _ T R) as IO. destruct (Forall2_In_l _ _ _ _ F IO) as (x & IX & ls & K & ->). cbn [fst snd] in *.
    rewrite (rules_class _ _ _ _ C) in K. destruct (Forall2_In_l _ _ _ _ K IR) as (l & _ & Q). eauto.
  Qed.
  Lemma fails_when errs : undefined_auth raw \/ unsearchable_consumes raw -> validate12 raw <> Ok errs.
  Proof.
    intros [(ts & fs & auths & k & fr & defs & (h & ints & R & C) & A & K & OR & DA & N)|(ts & i & fs & fo & co & (h & ints & R & C) & HF & OA & HC & NS)] E.
    - destruct (each_checked errs ts h fs ints OOperation RAuths E R C ltac:(cbn; tauto)) as (l & Q). apply old_check_ok in Q. apply (auths_rule raw LOADED ts h fs ints OOperation R C eq_refl) in Q as (_ & Q). exact (Q _ _ _ _ A K OR DA N).
    - destruct (each_checked errs _ h fs ints OParameter RParam E R C ltac:(cbn; tauto)) as (l & Q). apply old_check_ok in Q. destruct (param_rule raw LOADED _ h fs ints OParameter R C eq_refl) as (_ & _ & P). exact (P _ _ _ _ eq_refl HF OA HC NS l Q).
  Qed.
End Document.
