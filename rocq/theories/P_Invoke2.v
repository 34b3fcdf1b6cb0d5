(** Proofs about requests for operations of created applications, and the answers to them. *)
From Verif Require Import PyBase PyFacts PyInt PyJson M_JsonPtr S_JsonPtr M_Url P_Op M_SpecVal M_Parse M_SpecTree M_Merge M_MergeRef S_Parse S_SpecTree S_Merge S_MergeRef M_Patch S_Patch M_Prepare S_Prepare M_Op S_Op M_Client M_Request M_Contrib M_Invoke S_Invoke P_SpecBase P_SpecTree P_Merge P_MergeShape P_Grown P_Prepare5 P_Prepare7 P_Invoke.
From Verif Require T_Op.
Close Scope Q_scope.

Lemma texts_list l : texts_of (VList (map VStr l)) = Ok l.
Proof. cbn [texts_of]. apply map_res_ok. induction l; constructor; auto. Qed.
Lemma texts_of_ok v l : texts_of v = Ok l -> v = VList (map VStr l).
Proof.
  destruct v; try discriminate. cbn [texts_of]. intro E. apply map_res_ok in E. f_equal. induction E as [|x y l0 m H F IH]; [reflexivity|]. cbn [map]. f_equal; [|exact IH].
  destruct x; try discriminate H. cbn in H. now injection H as ->.
Qed.
Lemma inherited_fun a c y z : inherited a c y -> inherited a c z -> y = z.
Proof. intros [(?&->)|(?&->)] [(?&->)|(?&->)]; tauto. Qed.
Lemma doc_schemes_fun s d x y : doc_schemes s d x -> doc_schemes s d y -> x = y.
Proof. intros [? ? ?|? ? ? ?|? ? ? ?] B; inversion B; subst; try reflexivity; try congruence. Qed.
Lemma no_field h fs ints c n : shaped (Of c) (VObj h fs ints) -> h_cls h = c -> sget n (t_fields c) = None -> sget n fs = None.
Proof.
  intros S C T. destruct (sget n fs) as [y|] eqn:Y; [|reflexivity]. exfalso. subst c. inversion S as [| |? ? ? K _ _ _]; subst.
  assert (Z : exists z, sget n (t_fields (h_cls h)) = Some z) by (apply (sget_fields_all _ _ _ K); eauto). destruct Z as (z & Z). congruence.
Qed.
Lemma get_op_internal n v x : shaped (Of COperation) v -> sget (lit n) (t_fields COperation) = None -> internal_of v (lit n) = Some x -> get n v = Ok x.
Proof.
  intros S T I. apply get_internal; [|exact I]. pose proof (shaped_obj _ _ S) as (h & fs & ints & -> & C). cbn [field_of]. exact (no_field _ _ _ _ _ S C T).
Qed.
Lemma shaped_elements c fld cc v l : shaped (Of c) v -> sget fld (t_child c) = Some (ListOf, cc) -> field_of v fld = Some (VList l) -> Forall (shaped cc) l.
Proof.
  intros S T F. pose proof (shaped_obj _ _ S) as (h & fs & ints & -> & C). subst c. inversion S as [| |? ? ? _ _ _ H]; subst. specialize (H _ _ _ _ F T). now inversion H.
Qed.
Lemma shaped_list_field c fld cc v x : shaped (Of c) v -> sget fld (t_child c) = Some (ListOf, cc) -> field_of v fld = Some x -> x = VNone \/ exists l, x = VList l.
Proof. intros S T F. pose proof (shaped_obj _ _ S) as (h & fs & ints & -> & C). subst c. inversion S as [| |? ? ? _ _ _ H]; subst. specialize (H _ _ _ _ F T). inversion H; eauto. Qed.
Lemma shaped_entries c fld cc v d : shaped (Of c) v -> sget fld (t_child c) = Some (DictOf, cc) -> field_of v fld = Some (VDict d) -> NoDup (map fst d) /\ Forall (fun kv => shaped cc (snd kv)) d.
Proof. intros S T F. pose proof (shaped_obj _ _ S) as (h & fs & ints & -> & C). subst c. inversion S as [| |? ? ? _ _ _ H]; subst. specialize (H _ _ _ _ F T). now inversion H. Qed.

Section Invoked.
  Context (abs_uri win_uri : str -> str) (fetch : str -> res json) (prim : str -> bool) (float_of : str -> res Q) (sep : str) (fuel : nat) (b : bool).
  Context (nu u : str) (strict : bool) (o : @M_App.loaded val) (pr : prepared) (doc mid root : val) (objs : list (str * val)) (tl : list (M_Scope.tr_op str)).
  Hypothesis ST : steps abs_uri win_uri fetch prim float_of sep fuel b nu u strict o pr doc mid root objs tl.
  Hypothesis SD : shaped (Of CSwagger) doc.
  Context (k m : str) (pi op pi' op' : val).
  Hypothesis PI : path_item doc k pi.
  Hypothesis OP : operation pi m op.
  Hypothesis PI' : path_item root k pi'.
  Hypothesis OP' : operation pi' m op'.
  Let SR := st_shaped _ _ _ _ _ _ _ _ _ _ _ _ _ _ _ _ _ _ ST.
  Lemma new_op_shaped : shaped (Of COperation) op'.
  Proof. destruct (op_shaped root SR k m pi' op' PI' OP') as (? & ? & ? & _ & _ & S). exact S. Qed.
  Lemma old_op_shaped : shaped (Of COperation) op.
  Proof. destruct (op_shaped doc SD k m pi op PI OP) as (? & ? & ? & _ & _ & S). exact S. Qed.
  Lemma old_pi_shaped : shaped (Of CPathItem) pi.
  Proof. destruct (pi_shaped doc SD k m pi op PI OP) as (? & ? & ? & _ & _ & S). exact S. Qed.

  Context {V P R : Type} (urls : P -> option (list str)) (show : P -> str) (files : P -> list file) (ptext : P -> option str).
  Context (plain : val -> V) (of_text : str -> V) (produce : bool -> val -> V -> res P) (encode : val -> str -> P -> res str) (decode : val -> str -> R -> res V).
  Notation stands_for := (stands_for plain produce abs_uri win_uri u doc).
  Notation usable := (usable abs_uri win_uri u doc).
  Notation call := (call urls show files plain produce).

  Section Parameters.
    (** The path item does not refer to another one, and all parameters can be used. *)
    Hypothesis NR : field_of pi (lit "$ref") = Some VNone.
    Context (ss : list val).
    Hypothesis SL : field_of pi (lit "parameters") = Some (VList ss).
    Hypothesis US : Forall usable ss.
    Hypothesis UO : forall os, field_of op (lit "parameters") = Some (VList os) -> Forall usable os.
    Lemma done_params_of l l1 : Forall usable l -> Forall (shaped (Of CParameter)) l -> Forall2 (completed abs_uri win_uri u doc) l l1 -> Forall2 (done_param abs_uri win_uri u doc) l l1.
    Proof. intros U S F. revert U S. induction F as [|p p' l l1 C F IH]; intros U S; inversion U; inversion S; subst; constructor; auto. split; auto. Qed.
    Lemma invoked_params : exists ps ps1 qs, accepted abs_uri win_uri u doc op pi ps /\ Forall2 (done_param abs_uri win_uri u doc) ps ps1 /\ field_of op' (lit "parameters") = Some (VList ps1) /\
      map_res (param_of plain produce) ps1 = Ok qs /\ Forall2 stands_for ps qs.
    Proof.
      destruct (done_parameters _ _ _ _ _ _ _ _ _ _ _ _ _ _ _ _ _ _ ST SD k m pi op PI OP pi' op' PI' OP') as (own & shared & own1 & shared1 & x & FO & FS & FX & CO & CS & WS).
      assert (shared = VList ss) as -> by congruence. destruct CS as [CS|(_ & X)]; [|congruence]. inversion CS as [|? ss1 FSS|]; subst. clear CS.
      pose proof (shaped_elements CPathItem (lit "parameters") (Of CParameter) _ _ old_pi_shaped eq_refl SL) as SSH. pose proof (done_params_of _ _ US SSH FSS) as DS.
      assert (A : exists os os1, elements own os /\ Forall2 (done_param abs_uri win_uri u doc) os os1 /\ (os1 = [] /\ x = VList ss1 \/ exists more, os1 <> [] /\ chosen os1 ss1 more /\ x = VList (os1 ++ more))).
      { inversion CO as [|os os1 FOS|]; subst.
        - exists [], []. split; [left; split; [constructor|reflexivity]|]. split; [constructor|]. left. inversion WS as [_ E|l ps more E]; [auto|discriminate E].
        - exists os, os1. split; [now right|]. split; [apply done_params_of; auto; exact (shaped_elements COperation (lit "parameters") (Of CParameter) _ _ old_op_shaped eq_refl FO)|].
          inversion WS as [E1 E|l ps more E NE E2 CH EX]; [left; split; [|exact E]; inversion E1; reflexivity|]. injection E as ->. injection E2 as <-. right. exists more. auto.
        - pose proof (shaped_list_field COperation (lit "parameters") (Of CParameter) _ _ old_op_shaped eq_refl FO) as [Z|(z & Z)]; discriminate Z. }
      destruct A as (os & os1 & EL & DO & X). destruct X as [(-> & ->)|(more1 & NE & CH & ->)].
      - inversion DO; subst. destruct (params_all _ _ _ _ plain produce _ _ DS) as (qs & Q1 & Q2). exists ss, ss1, qs. split; [|auto]. exists own, (VList ss), [], ss. split; [exact FO|]. split; [exact FS|]. split; [exact EL|]. split; [now right|]. left. auto.
      - destruct (chosen_names _ _ _ _ _ _ _ CH _ _ DO DS) as (more & ON & DM). assert (DA : Forall2 (done_param abs_uri win_uri u doc) (os ++ more) (os1 ++ more1)) by now apply Forall2_app.
        destruct (params_all _ _ _ _ plain produce _ _ DA) as (qs & Q1 & Q2). exists (os ++ more), (os1 ++ more1), qs. split; [|auto]. exists own, (VList ss), os, ss. split; [exact FO|]. split; [exact FS|]. split; [exact EL|]. split; [now right|]. right.
        split; [|eauto]. intros ->. inversion DO; subst. now apply NE.
    Qed.
    Lemma stands_in p q i : stands_for p q -> text_in abs_uri win_uri u doc "in" p i -> q_in q = i.
    Proof.
      intros (l & f & L & CB & DE) (l' & L' & NC & FS). pose proof (leads_fun _ _ _ _ _ _ _ _ L L') as <-. pose proof (de_in _ _ _ _ DE) as F.
      destruct (cb_scalar _ _ _ CB (lit "in") JNull eq_refl eq_refl NC) as (rv & RV & [X|(X & _)]); [|elim (never_first _ _ _ _ X FS)]. rewrite RV, (first_set_fun _ _ _ _ _ X FS) in F. now injection F.
    Qed.
    Lemma stands_placed ps ps1 qs : Forall2 (done_param abs_uri win_uri u doc) ps ps1 -> Forall2 stands_for ps qs -> forall q, In q qs -> well_placed q.
    Proof.
      intros F G q Q. destruct (Forall2_In_r _ _ _ _ G Q) as (p & Pp & SP). destruct (Forall2_In_l _ _ _ _ F Pp) as (p' & _ & _ & _ & _ & i & TI & IN5). unfold well_placed. now rewrite (stands_in _ _ _ SP TI).
    Qed.
    (** ** The operation as requests read it *)
    Lemma oparams_ok ps ps1 : Forall2 (done_param abs_uri win_uri u doc) ps ps1 -> exists l, map_res oparam_of ps1 = Ok l /\ Forall2 (listed abs_uri win_uri u doc) ps l.
    Proof.
      intro F. induction F as [|p p' ps ps1 (C & S & (n & TN) & i & TI & _) F (l & IH & FL)]; [exists []; split; [reflexivity|constructor]|].
      pose proof (combined_text _ _ _ _ _ _ _ _ (or_introl eq_refl) C S TN) as FN. pose proof (combined_text _ _ _ _ _ _ _ _ (or_intror eq_refl) C S TI) as FI. pose proof TN as TN'.
      destruct TN' as (w & L & _ & _). destruct (completed_final _ _ _ _ _ _ _ _ (or_introl eq_refl) C L S) as (CB & _).
      destruct (shaped_has _ _ (lit "schema") _ (cb_shape _ _ _ CB) eq_refl) as (s & FS). exists (OParam i n (is_there s) :: l). split; [|constructor; [split; assumption|exact FL]]. apply map_res_ok. constructor; [|now apply map_res_ok].
      unfold oparam_of. rewrite (get_field _ _ _ FI). cbn [bind text_of]. rewrite (get_field _ _ _ FN). cbn [bind text_of]. now rewrite (get_field _ _ _ FS).
    Qed.
    Lemma body_schema_ok ps ps1 : Forall2 (done_param abs_uri win_uri u doc) ps ps1 -> field_of op' (lit "parameters") = Some (VList ps1) -> body_declared abs_uri win_uri u doc ps (body_schema op').
    Proof.
      intros F FP. unfold body_schema. rewrite (get_field _ _ _ FP). clear FP. induction F as [|p p' ps ps1 (C & S & (n & TN) & i & TI & _) F IH]; [left; split; [intros p []|reflexivity]|].
      pose proof (combined_text _ _ _ _ _ _ _ _ (or_intror eq_refl) C S TI) as FI. cbn [find]. rewrite (get_field _ _ _ FI). pose proof TI as TI'. destruct TI' as (w & L & _ & _).
      destruct (completed_final _ _ _ _ _ _ _ _ (or_introl eq_refl) C L S) as (CB & _). destruct (shaped_has _ _ (lit "schema") _ (cb_shape _ _ _ CB) eq_refl) as (s & FS).
      destruct (str_eqb_spec i (lit "body")) as [->|NB].
      - right. exists [], p, ps, w, (final p'). split; [reflexivity|]. split; [intros q []|]. split; [exact TI|]. split; [exact L|]. split; [exact CB|]. now rewrite (get_field _ _ _ FS).
      - assert (NT : ~ text_in abs_uri win_uri u doc "in" p (lit "body")) by (intro X; apply NB; exact (text_in_fun _ _ _ _ _ _ _ _ TI X)).
        destruct IH as [(A & B)|(a & q & b' & w' & f & -> & A & B)]; [left|right].
        + split; [|exact B]. intros q [<-|Q]; auto.
        + exists (p :: a), q, b', w', f. split; [reflexivity|]. split; [|exact B]. intros x [<-|Q]; auto.
    Qed.
    Lemma op_of_ok ps ps1 cs prs : Forall2 (done_param abs_uri win_uri u doc) ps ps1 -> field_of op' (lit "parameters") = Some (VList ps1) ->
      taken "consumes" op doc cs -> taken "produces" op doc prs -> exists s host base l, urlparse nu = Ok s /\ host_is doc (u_netloc s) host /\ base_is doc base /\ Forall2 (listed abs_uri win_uri u doc) ps l /\
      op_of op' = Ok (Op (lit "//" ++ host ++ with_slash (base ++ k)) k cs prs l).
    Proof.
      intros DP FP (ow & d & x & A1 & A2 & A3 & ->) (ow' & d' & x' & B1 & B2 & B3 & ->). pose proof new_op_shaped as SO.
      destruct (done_url _ _ _ _ _ _ _ _ _ _ _ _ _ _ _ _ _ _ ST SD k m pi op PI OP pi' op' PI' OP') as (s & host & base & bp & UP & H & BA & _ & IU & IP & _ & _).
      destruct (done_inherited _ _ _ _ _ _ _ _ _ _ _ _ _ _ _ _ _ _ ST SD k m pi op PI OP pi' op' PI' OP' (lit "consumes") (or_introl eq_refl)) as (o1 & d1 & x1 & C1 & C2 & C3 & C4).
      destruct (done_inherited _ _ _ _ _ _ _ _ _ _ _ _ _ _ _ _ _ _ ST SD k m pi op PI OP pi' op' PI' OP' (lit "produces") (or_intror eq_refl)) as (o2 & d2 & x2 & D1 & D2 & D3 & D4).
      assert (o1 = ow) as -> by congruence. assert (d1 = d) as -> by congruence. pose proof (inherited_fun _ _ _ _ C4 A3) as ->. assert (o2 = ow') as -> by congruence. assert (d2 = d') as -> by congruence. pose proof (inherited_fun _ _ _ _ D4 B3) as ->.
      destruct (oparams_ok _ _ DP) as (l & OL & FL). exists s, host, base, l. split; [exact UP|]. split; [exact H|]. split; [exact BA|]. split; [exact FL|].
      unfold op_of. rewrite (get_op_internal "url" _ _ SO eq_refl IU). cbn [bind text_of]. rewrite (get_op_internal "path" _ _ SO eq_refl IP). cbn [bind text_of]. rewrite (get_field _ _ _ C3). cbn [bind]. rewrite texts_list. cbn [bind].
      rewrite (get_field _ _ _ D3). cbn [bind]. rewrite texts_list. cbn [bind]. rewrite (get_field _ _ _ FP). cbn [bind]. rewrite OL. reflexivity.
    Qed.
    Lemma op_of_taken x : op_of op' = Ok x -> taken "consumes" op doc (o_consumes x) /\ taken "produces" op doc (o_produces x).
    Proof.
      destruct (done_inherited _ _ _ _ _ _ _ _ _ _ _ _ _ _ _ _ _ _ ST SD k m pi op PI OP pi' op' PI' OP' (lit "consumes") (or_introl eq_refl)) as (o1 & d1 & x1 & C1 & C2 & C3 & C4).
      destruct (done_inherited _ _ _ _ _ _ _ _ _ _ _ _ _ _ _ _ _ _ ST SD k m pi op PI OP pi' op' PI' OP' (lit "produces") (or_intror eq_refl)) as (o2 & d2 & x2 & D1 & D2 & D3 & D4).
      unfold op_of. intro E. apply bind_ok in E as (? & _ & E). apply bind_ok in E as (? & _ & E). apply bind_ok in E as (? & _ & E). apply bind_ok in E as (? & _ & E). rewrite (get_field _ _ _ C3) in E. cbn [bind] in E. apply bind_ok in E as (cs & T1 & E).
      rewrite (get_field _ _ _ D3) in E. cbn [bind] in E. apply bind_ok in E as (prs & T2 & E). apply bind_ok in E as (? & _ & E). apply bind_ok in E as (l & _ & E). injection E as <-. apply texts_of_ok in T1, T2. cbn [o_consumes o_produces]. subst.
      split; [exists o1, d1|exists o2, d2]; eexists; repeat (split; [eassumption|]); reflexivity.
    Qed.
    Lemma file_sets_ok (cs : list (param (V:=V) (P:=P) * P)) s : S_Op.placed urls show cs s -> exists f, file_sets files (s_file s) = Ok f /\ Forall2 (fun a b => fst a = fst b /\ exists c, snd a = inl c /\ snd b = files c) (s_file s) f.
    Proof.
      intros (_ & _ & _ & _ & _ & l & _ & FD & FL). assert (A : forall n v, In (n, v) (s_file s) -> exists c, v = inl c).
      { intros n v I. apply (In_sget _ _ _ FD) in I. rewrite FL in I. destruct (find _ _) as [[a c]|] eqn:F; [|discriminate I]. cbn in I. injection I as <-. apply find_some in F as (F & _). apply in_rev in F. apply in_map_iff in F as (y & Y & _). injection Y as _ <-. eauto. }
      clear FD FL. induction (s_file s) as [|[n v] d IH]; [exists []; split; [reflexivity|constructor]|]. destruct IH as (f & F1 & F2); [intros n' v' I; apply (A n'); now right|]. destruct (A n v (or_introl eq_refl)) as (c & ->).
      cbn [file_sets]. rewrite F1. cbn [bind]. eexists. split; [reflexivity|]. constructor; [|exact F2]. cbn [fst snd]. eauto.
    Qed.
    (** ** Calls *)
    Theorem invoked_call : exists ps qs, accepted abs_uri win_uri u doc op pi ps /\ Forall2 stands_for ps qs /\ body_declared abs_uri win_uri u doc ps (body_schema op') /\ forall args,
      (forall r, call op' args = Ok r -> requested urls show files abs_uri win_uri nu u doc k op ps qs args r) /\
      (forall cs co pd, converted args qs cs -> (forall x, In x cs -> has_items urls x) -> taken "consumes" op doc co -> taken "produces" op doc pd ->
         ((forall n, In n (map fst args) -> In n (map q_name qs)) -> exists r, call op' args = Ok r) /\
         ((exists n, In n (map fst args) /\ ~ In n (map q_name qs)) -> call op' args = Err ValueError)).
    Proof.
      destruct invoked_params as (ps & ps1 & qs & AC & DP & FP & MQ & SQ). exists ps, qs. split; [exact AC|]. split; [exact SQ|]. split; [exact (body_schema_ok _ _ DP FP)|]. pose proof (stands_placed _ _ _ DP SQ) as WP.
      assert (PO : params_of plain produce op' = Ok qs) by (unfold params_of; rewrite (get_field _ _ _ FP); exact MQ). intro args. split.
      - intros r E. unfold M_Invoke.call in E. rewrite PO in E. cbn [bind] in E. apply bind_ok in E as (s & OC & E). apply bind_ok in E as (x & OX & E). apply bind_ok in E as (p & PW & E). injection E as <-.
        destruct (op_call_ok urls show qs args s WP OC) as (KN & cs & CV & _ & PL). split; [exact KN|]. destruct (op_of_taken _ OX) as (TC & TP). destruct (op_of_ok _ _ _ _ DP FP TC TP) as (s' & host & base & l & UP & H & BA & FL & OO).
        exists cs, s', host, base, l, (o_consumes x), (o_produces x). cbn [new_request r_p]. split; [exact CV|]. split.
        + exists s. split; [exact PL|]. unfold params_with in PW. destruct (file_sets_ok _ _ PL) as (f & F1 & F2). rewrite F1 in PW. cbn [bind] in PW. injection PW as <-. cbn [p_header p_query p_path p_body p_form p_file]. auto 10.
        + assert (x = Op (lit "//" ++ host ++ with_slash (base ++ k)) k (o_consumes x) (o_produces x) l) by congruence.
          repeat (split; [assumption|]). congruence.
      - intros cs co pd CV HI TC TP. split.
        + intro KN. destruct (T_Op.c23_succeeds urls show qs args cs WP CV HI KN) as (s & OC). destruct (op_call_ok urls show qs args s WP OC) as (_ & cs' & _ & _ & PL).
          destruct (file_sets_ok _ _ PL) as (f & F1 & F2). destruct (op_of_ok _ _ _ _ DP FP TC TP) as (s' & host & base & l & _ & _ & _ & _ & OO).
          unfold M_Invoke.call. rewrite PO. cbn [bind]. rewrite OC. cbn [bind]. rewrite OO. cbn [bind]. unfold params_with. rewrite F1. cbn [bind]. eauto.
        + intro KN. unfold M_Invoke.call. rewrite PO. cbn [bind]. now rewrite (T_Op.c23_unknown urls show qs args cs WP CV HI KN).
    Qed.
  End Parameters.

  (** ** Targets *)
  Notation target_of := (target_of (R:=R) of_text produce decode).
  Notation answers := (answers produce of_text decode abs_uri win_uri u doc).
  Lemma names_of_ok ds : map_res names_of (map VDict ds) = Ok (map (map fst) ds).
  Proof. apply map_res_ok. induction ds; constructor; auto. Qed.
  Lemma security_spec x l : (security_of x = Ok l <-> empty_value x /\ l = None \/ exists ds, ds <> [] /\ x = VList (map VDict ds) /\ l = Some (map (map fst) ds)).
  Proof.
    unfold security_of. destruct (falsy x) eqn:F.
    - apply falsy_spec in F. split; [intro E; injection E as <-; auto|]. intros [(_ & ->)|(ds & ND & -> & _)]; [reflexivity|]. exfalso. destruct ds; [auto|]. apply falsy_spec in F. discriminate F.
    - apply empty_falsy in F. split.
      + destruct x as [| | | | |vs| |]; try discriminate. intro E. apply bind_ok in E as (y & M & E). injection E as <-. right. apply map_res_ok in M.
        assert (X : exists ds, vs = map VDict ds /\ y = map (map fst) ds).
        { clear F. induction M as [|a c vs y A M (ds & -> & ->)]; [exists []; auto|]. destruct a as [| | | | | |d|]; try discriminate A. cbn in A. injection A as <-. exists (d :: ds). auto. }
        destruct X as (ds & -> & ->). exists ds. split; [|auto]. intros ->. apply F. constructor.
      + intros [(X & _)|(ds & ND & -> & ->)]; [contradiction|]. now rewrite names_of_ok.
  Qed.
  Lemma rdecl_ok p p' : completed abs_uri win_uri u doc p p' -> shaped (Of CResponse) p -> (exists l, leads abs_uri win_uri u doc CResponse p l) -> exists d, rdecl_of of_text produce decode p' = Ok d /\ answers p d.
  Proof.
    intros C S (l & L). destruct (completed_final _ _ _ _ _ _ _ _ (or_intror eq_refl) C L S) as (CB & _). pose proof (cb_shape _ _ _ CB) as SF.
    destruct (shaped_has _ _ (lit "schema") _ SF eq_refl) as (s & FS). destruct (shaped_has _ _ (lit "headers") _ SF eq_refl) as (hs & FH). unfold rdecl_of. rewrite (get_field _ _ _ FH). cbn [bind]. rewrite (get_field _ _ _ FS). cbn [bind].
    eexists. split; [reflexivity|]. exists l, (final p'). split; [exact L|]. split; [exact CB|].
    pose proof (shaped_obj _ _ SF) as (h & fs & ints & EF & HC). rewrite EF in SF, FS, FH |- *. cbn [field_of] in FS, FH. assert (CH : forall fld v ct cc, sget fld fs = Some v -> sget fld (t_child CResponse) = Some (ct, cc) -> shaped_in ct cc v) by (rewrite <- HC in SF |- *; now inversion SF). split.
    - exists hs. split; [exact FH|]. intro n. pose proof (CH _ _ DictOf (Of CHeader) FH eq_refl) as X. cbn [rd_headers]. inversion X as [| | |? ? ? ND FD]; subst; cbn [key_in]; [reflexivity|].
      clear. induction d as [|[a c] d IH]; [reflexivity|]. cbn [map fst snd]. unfold sget in *. cbn [dget fst] in *. destruct (str_eqb n a); [|exact IH]. eexists. split; [reflexivity|]. reflexivity.
    - exists s. split; [exact FS|]. pose proof (CH _ _ One (Of CSchema) FS eq_refl) as X. cbn [rd_schema]. inversion X as [|? ? O| |]; subst; [left; auto|]. right. inversion O; subst. split; [discriminate|]. eexists. split; [reflexivity|]. reflexivity.
  Qed.
  Section Responses.
    Context (rs : sdict val).
    Hypothesis RS : field_of op (lit "responses") = Some (VDict rs).
    Hypothesis LR : forall n r, In (n, r) rs -> exists l, leads abs_uri win_uri u doc CResponse r l.
    Lemma responses_ok : exists rs1 ds, field_of op' (lit "responses") = Some (VDict rs1) /\ map_res (fun kr => do r <- rdecl_of of_text produce decode (snd kr); Ok (fst kr, r)) rs1 = Ok ds /\
      Forall2 (fun a b => fst a = fst b /\ answers (snd a) (snd b)) rs ds.
    Proof.
      destruct (done_responses _ _ _ _ _ _ _ _ _ _ _ _ _ _ _ _ _ _ ST SD k m pi op PI OP pi' op' PI' OP') as (own & x & FO & FX & C). assert (own = VDict rs) as -> by congruence. inversion C as [| |? rs1 F]; subst. exists rs1.
      pose proof (shaped_entries COperation (lit "responses") (Of CResponse) _ _ old_op_shaped eq_refl RS) as (_ & SE).
      cut (exists ds, map_res (fun kr => do r <- rdecl_of of_text produce decode (snd kr); Ok (fst kr, r)) rs1 = Ok ds /\ Forall2 (fun a b => fst a = fst b /\ answers (snd a) (snd b)) rs ds).
      { intros (ds & A & B). exists ds. auto. }
      clear C FO FX RS. induction F as [|[n r] [n' r'] rs rs1 (E & CR) F IH]; [exists []; split; [reflexivity|constructor]|]. cbn [fst snd] in E, CR. subst n'. inversion SE as [|? ? S1 S2]; subst.
      destruct IH as (ds & A & B); [intros n' r0 I; apply (LR n'); now right|exact S2|]. destruct (rdecl_ok _ _ CR S1 (LR n r (or_introl eq_refl))) as (d & D1 & D2).
      exists ((n, d) :: ds). split; [|constructor; [split; [reflexivity|exact D2]|exact B]]. cbn [map_res]. cbn [snd fst]. rewrite D1. cbn [bind]. now rewrite A.
    Qed.
    Theorem invoked_target : exists s, urlparse nu = Ok s /\
      (forall t, target_of op' = Ok t -> t_method t = m /\ taken_schemes (u_scheme s) op doc (t_schemes t) /\ taken_security op doc (t_security t) /\
         Forall2 (fun a b => fst a = fst b /\ answers (snd a) (snd b)) rs (t_responses t)) /\
      ((exists ss, taken_schemes (u_scheme s) op doc ss) -> (exists sec, taken_security op doc sec) -> exists t, target_of op' = Ok t).
    Proof.
      destruct (done_url _ _ _ _ _ _ _ _ _ _ _ _ _ _ _ _ _ _ ST SD k m pi op PI OP pi' op' PI' OP') as (s & _ & _ & _ & UP & _ & _ & _ & _ & _ & _ & IM). exists s. split; [exact UP|].
      destruct (done_schemes _ _ _ _ _ _ _ _ _ _ _ _ _ _ _ _ _ _ ST SD k m pi op PI OP pi' op' PI' OP') as (so & s' & sd & sx & SO & _ & UP' & DS & IS & IH). assert (s' = s) as -> by congruence. clear UP'.
      destruct (done_security _ _ _ _ _ _ _ _ _ _ _ _ _ _ _ _ _ _ ST SD k m pi op PI OP pi' op' PI' OP') as (co & cd & cx & CO & CD & CX & CI). destruct responses_ok as (rs1 & ds & FR & MR & AN). pose proof new_op_shaped as SH.
      unfold M_Invoke.target_of. rewrite (get_op_internal "method" _ _ SH eq_refl IM). cbn [bind text_of]. rewrite (get_op_internal "cached_schemes" _ _ SH eq_refl IS). cbn [bind]. rewrite (get_field _ _ _ CX), (get_field _ _ _ FR). cbn [bind].
      split.
      - intros t E. apply bind_ok in E as (ss & SS & E). apply bind_ok in E as (sec & SC & E). rewrite MR in E. cbn [bind] in E. injection E as <-. cbn [t_method t_schemes t_security t_responses]. split; [reflexivity|].
        apply texts_of_ok in SS. split; [exists so, sd, sx; auto|]. split; [|exact AN]. exists co, cd, cx. split; [exact CO|]. split; [exact CD|]. split; [exact CI|]. now apply security_spec.
      - intros (ss & so' & sd' & sx' & A1 & A2 & A3 & ->) (sec & co' & cd' & cx' & B1 & B2 & B3 & B4). assert (so' = so) as -> by congruence. assert (sd' = sd) as -> by exact (doc_schemes_fun _ _ _ _ A2 DS). pose proof (inherited_fun _ _ _ _ IH A3) as ->.
        assert (co' = co) as -> by congruence. assert (cd' = cd) as -> by congruence. assert (cx' = cx) as -> by (destruct CI as [(?&?)|(?&?)], B3 as [(?&?)|(?&?)]; congruence).
        rewrite texts_list. cbn [bind]. apply security_spec in B4. rewrite B4. cbn [bind]. rewrite MR. cbn [bind]. eauto.
    Qed.
  End Responses.
End Invoked.
