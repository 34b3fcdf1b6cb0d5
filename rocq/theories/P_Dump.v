(** Proofs about dumping parsed documents (M_Parse). *)
From Coq Require Import Lia.
From Verif Require Import PyBase PyFacts PyJson P_Op M_SpecVal M_Parse S_Parse P_SpecBase P_Parse.
Close Scope Q_scope.

(** ** The dump of containers and objects *)
Lemma dump_list l : dump_val (VList l) = do m <- map_res dump_val l; Ok (match m with [] => JNull | _ => JList m end).
Proof. cbn [dump_val]. f_equal. induction l as [|x l IH]; cbn [map_res]; [reflexivity|]. rewrite IH. reflexivity. Qed.
Lemma dump_dict d : dump_val (VDict d) =
  do e <- map_res (fun kv => do x <- dump_val (snd kv); Ok (fst kv, x)) d; Ok (match e with [] => JNull | _ => JObj e end).
Proof.
  cbn [dump_val]. f_equal.
  induction d as [|[k x] d IH]; cbn [map_res fst snd]; [reflexivity|]. rewrite IH. now destruct (dump_val x).
Qed.
Definition dfield (c : cls) (n : str) (x : val) : res (sdict json) :=
  match sget n (t_fields c) with
  | None => Ok []
  | Some df => if is_default x df then Ok [] else do y <- dump_val x; Ok (match y with JNull => [] | y => [(n, y)] end)
  end.
Fixpoint dump_fields (c : cls) (fs : sdict val) : res (sdict json) :=
  match fs with
  | [] => Ok []
  | (n, x) :: fs => do kv <- dfield c n x; do r <- dump_fields c fs; Ok (kv ++ r)
  end.
Lemma dump_obj h fs ints : dump_val (VObj h fs ints) =
  do r <- dump_fields (h_cls h) fs; Ok (match r with [] => JNull | r => JObj r end).
Proof.
  cbn [dump_val]. f_equal. induction fs as [|[n x] fs IH]; cbn [dump_fields]; [reflexivity|]. rewrite IH. reflexivity.
Qed.
Lemma dump_set_parent p v : dump_val (set_parent p v) = dump_val v.
Proof. now destruct v. Qed.
Lemma dump_own p v : dump_val (own p v) = dump_val v.
Proof.
  destruct v; cbn [own]; try apply dump_set_parent.
  - rewrite !dump_list. f_equal. induction l as [|x l IH]; cbn [map map_res]; [reflexivity|]. now rewrite dump_set_parent, IH.
  - rewrite !dump_dict. f_equal. induction d as [|x l IH]; cbn [map map_res fst snd]; [reflexivity|]. now rewrite dump_set_parent, IH.
Qed.

(** One field of the dump. *)
Lemma dfield_get c n x kv k : dfield c n x = Ok kv -> k <> n -> sget k kv = None.
Proof.
  unfold dfield. intros E N. assert (Q : str_eqb k n = false) by now apply str_eqb_neq.
  destruct (sget n (t_fields c)) as [df|]; [|injection E as <-; reflexivity].
  destruct (is_default x df); [injection E as <-; reflexivity|]. apply bind_ok in E as (y & _ & E). injection E as <-.
  destruct y; cbn [dget]; rewrite ?Q; reflexivity.
Qed.
Lemma dump_fields_inv c fs : forall e, NoDup (map fst fs) -> dump_fields c fs = Ok e ->
  (forall k, sget k fs = None -> sget k e = None) /\
  (forall k x, sget k fs = Some x -> exists kv, dfield c k x = Ok kv /\ sget k e = sget k kv).
Proof.
  induction fs as [|[n x] fs IH]; intros e ND E; cbn [dump_fields] in E.
  - injection E as <-. split; [reflexivity|discriminate].
  - inversion ND as [|? ? NI ND']; subst. apply bind_ok in E as (kv & A & E). apply bind_ok in E as (r & B & E). injection E as <-.
    destruct (IH _ ND' B) as (H1 & H2). split.
    + intros k S. rewrite sget_cons in S. destruct (str_eqb k n) eqn:Q; [discriminate S|]. rewrite sget_app.
      apply str_eqb_neq in Q. rewrite (dfield_get _ _ _ _ _ A Q). now apply H1.
    + intros k z S. rewrite sget_cons in S. destruct (str_eqb k n) eqn:Q.
      * apply str_eqb_eq in Q. injection S as <-. subst k. exists kv. split; [exact A|]. rewrite sget_app.
        destruct (sget n kv); [reflexivity|]. apply H1. now apply sget_None.
      * apply str_eqb_neq in Q. destruct (H2 _ _ S) as (kv' & D & G). exists kv'. split; [exact D|]. rewrite sget_app.
        now rewrite (dfield_get _ _ _ _ _ A Q).
Qed.
Lemma dump_fields_total c fs : (forall n x, In (n, x) fs -> exists kv, dfield c n x = Ok kv) -> exists e, dump_fields c fs = Ok e.
Proof.
  induction fs as [|[n x] fs IH]; intro H; cbn [dump_fields]; [eauto|].
  destruct (H n x (or_introl eq_refl)) as (kv & ->). cbn [bind]. destruct IH as (e & ->); [intros; apply H; now right|]. cbn [bind]. eauto.
Qed.

(** ** Plain values *)
Lemma dump_inject j : forall r, dump_val (inject j) = Ok r <-> emptied j r.
Proof.
  induction j using json_ind'; intro r; cbn [inject].
  - split; [discriminate|intro E; inversion E].
  - cbn. split; [intro E; injection E as <-; constructor|intro E; inversion E; reflexivity].
  - cbn. split; [intro E; injection E as <-; constructor|intro E; inversion E; reflexivity].
  - cbn. split; [intro E; injection E as <-; constructor|intro E; inversion E; reflexivity].
  - cbn. split; [intro E; injection E as <-; constructor|intro E; inversion E; reflexivity].
  - rewrite dump_list, bind_ok. split.
    + intros (m & M & E). injection E as <-. apply map_res_ok in M. rewrite Forall2_map_l in M.
      assert (F : Forall2 emptied l m).
      { eapply Forall2_weaken_In; [|exact M]. intros x y I _ P. rewrite Forall_forall in H. now apply H. }
      destruct F; constructor; [discriminate|]. constructor; auto.
    + intro E. inversion E as [| | | | | |? m NE F|]; subst.
      * exists []. split; reflexivity.
      * exists m. split.
        -- apply map_res_ok. rewrite Forall2_map_l. eapply Forall2_weaken_In; [|exact F]. intros x y I _ P. rewrite Forall_forall in H. now apply H.
        -- destruct F; [congruence|reflexivity].
  - rewrite dump_dict, bind_ok. split.
    + intros (m & M & E). injection E as <-. rewrite (map_res_dict (fun _ x => dump_val x)) in M. unfold drel in M. rewrite Forall2_map_l in M.
      assert (F : Forall2 (fun kv kw => fst kv = fst kw /\ emptied (snd kv) (snd kw)) d m).
      { eapply Forall2_weaken_In; [|exact M]. intros x y I _ (P & Q). split; [exact P|]. rewrite Forall_forall in H. now apply H. }
      destruct F; constructor; [discriminate|]. constructor; auto.
    + intro E. inversion E as [| | | | | | |? m NE F]; subst.
      * exists []. split; reflexivity.
      * exists m. split.
        -- rewrite (map_res_dict (fun _ x => dump_val x)). unfold drel. rewrite Forall2_map_l. eapply Forall2_weaken_In; [|exact F]. intros x y I _ (P & Q).
           split; [exact P|]. rewrite Forall_forall in H. now apply H.
        -- destruct F; [congruence|reflexivity].
Qed.
Lemma py_eqb_default df : simple_default df = true -> py_eqb df df = true.
Proof.
  destruct df as [|[]| | | |[|? ?]|[|? ?]]; try discriminate; try reflexivity. intros _. cbn. apply str_eqb_refl.
Qed.
Lemma not_null_eqb w : w <> JNull -> py_eqb w JNull = false.
Proof. destruct w; try reflexivity. congruence. Qed.

(** Equality with the default, for a child. *)
Lemma child_table c n ct cc df : sget n (t_child c) = Some (ct, cc) -> sget n (t_fields c) = Some df ->
  df = JNull \/ (ct = One /\ cc = AddP /\ df = JBool true) \/ (ct = ListOf /\ df = JList []) \/ (ct = DictOf /\ df = JObj []).
Proof.
  intros E F. apply sget_In in E.
  assert (B : forallb (fun kv => match sget (fst kv) (t_fields c) with Some df => 
     match snd kv, df with
     | (_, _), JNull => true | (One, AddP), JBool true => true | (ListOf, _), JList [] => true | (DictOf, _), JObj [] => true | _, _ => false end | None => false end) (t_child c) = true)
    by (each_class c; vm_compute; reflexivity).
  rewrite forallb_forall in B. specialize (B _ E). cbn [fst snd] in B. rewrite F in B.
  destruct ct, cc, df as [|[]| | | |[|? ?]|[|? ?]]; try discriminate B; auto 6.
Qed.
Lemma child_value_default c n ct cc df pl q w y :
  sget n (t_child c) = Some (ct, cc) -> sget n (t_fields c) = Some df -> w <> JNull ->
  parse_child parse ct cc pl w = Ok y -> is_default (own q y) df = false -> py_eqb w df = false.
Proof.
  intros T F NN P D. destruct (child_table _ _ _ _ _ T F) as [->|[(-> & -> & ->)|[(-> & ->)|(-> & ->)]]].
  - now apply not_null_eqb.
  - cbn [parse_child] in P. rewrite parse_eq in P. destruct w; try reflexivity; try discriminate P.
    injection P as <-. cbn [own set_parent is_default] in D. destruct b; [discriminate D|reflexivity].
  - cbn [parse_child] in P. destruct w; try reflexivity; try discriminate P. destruct l; [|reflexivity].
    injection P as <-. discriminate D.
  - cbn [parse_child] in P. destruct w; try reflexivity; try discriminate P. destruct d; [|reflexivity].
    injection P as <-. discriminate D.
Qed.
Lemma parse_child_list_text c pl s y : s <> [] -> parse_child parse ListOf c pl (JStr s) = Ok y -> False.
Proof. destruct s as [|a s]; [congruence|]. intros _ E. cbn [parse_child iter_json map bind mapi_res] in E. destruct c; rewrite parse_eq in E; discriminate E. Qed.
Lemma parse_child_list_obj c pl d y : d <> [] -> parse_child parse ListOf c pl (JObj d) = Ok y -> False.
Proof. destruct d as [|[k x] d]; [congruence|]. intros _ E. cbn [parse_child iter_json map fst bind mapi_res] in E. destruct c; rewrite parse_eq in E; discriminate E. Qed.
Lemma child_value_not_default c n ct cc df pl q w y :
  sget n (t_child c) = Some (ct, cc) -> sget n (t_fields c) = Some df -> w <> JNull ->
  parse_child parse ct cc pl w = Ok y -> py_eqb w df = false -> is_default (own q y) df = false \/ kept_field c n w JNull.
Proof.
  intros T F NN P D. destruct (child_table _ _ _ _ _ T F) as [->|[(-> & -> & ->)|[(-> & ->)|(-> & ->)]]].
  - left. apply parse_child_typed in P as P'. destruct ct; cbn [typed] in P'.
    + destruct P' as [->|P']; [|destruct y; try reflexivity; destruct cc; discriminate P']. cbn [parse_child] in P. apply parse_produced in P. destruct cc; discriminate P.
    + destruct P' as (l & -> & _). reflexivity.
    + destruct P' as (l & -> & _). reflexivity.
  - left. cbn [parse_child] in P. rewrite parse_eq in P. destruct w; try discriminate P.
    + congruence.
    + injection P as <-. cbn [own set_parent is_default]. now destruct b.
    + cbn [parse_step] in P. rewrite <- parse_cls_eq in P. apply parse_shape in P as (ks & fs & ints & ->). reflexivity.
  - cbn [parse_child] in P. destruct w; try discriminate P.
    + destruct s; [|exfalso; eapply (parse_child_list_text cc pl (a :: s)); [discriminate|exact P]]. right. eapply kept_no_list; eauto.
    + destruct l; [cbn in D; discriminate D|]. left. apply bind_ok in P as (l' & I & P). injection I as <-. apply bind_ok in P as (m & M & P). injection P as <-.
      apply mapi_res_ok in M. destruct m; [destruct M|reflexivity].
    + destruct d; [|exfalso; eapply (parse_child_list_obj cc pl (p :: d)); [discriminate|exact P]]. right. eapply kept_no_list; eauto.
  - left. cbn [parse_child] in P. destruct w; try discriminate P. destruct d; [cbn in D; discriminate D|].
    apply bind_ok in P as (e & M & P). injection P as <-. apply map_res_ok in M. inversion M; subst. reflexivity.
Qed.
(** ** C34: what is kept *)
Lemma own_inject_eq p j : own p (inject j) = inject j.
Proof.
  assert (S : forall q k, set_parent q (inject k) = inject k) by (intros q k; destruct k; reflexivity).
  destruct j; cbn [own inject]; try reflexivity; f_equal; rewrite map_map; apply map_ext; intros; cbn [fst snd]; now rewrite S.
Qed.
Lemma default_is_default df : simple_default df = true -> is_default (inject df) df = true.
Proof. intro S. rewrite is_default_py by exact S. now apply py_eqb_default. Qed.
Lemma dump_defaults c : dump_fields c (map (fun nd => (fst nd, inject (snd nd))) (t_fields c)) = Ok [].
Proof.
  assert (H : forall nd, In nd (t_fields c) -> sget (fst nd) (t_fields c) = Some (snd nd)) by apply In_fields. revert H.
  generalize (t_fields c) at 1 3. intro l. induction l as [|[n df] l IH]; intro H; cbn [map dump_fields fst snd]; [reflexivity|].
  unfold dfield. pose proof (H _ (or_introl eq_refl)) as X. cbn [fst snd] in X. rewrite X.
  rewrite default_is_default by (eapply fields_default; eauto). cbn [bind]. rewrite IH; [reflexivity|]. intros. apply H. now right.
Qed.
Lemma dump_kept : forall N c pl j v r, jdepth j < N -> parse c pl j = Ok v -> dump_val v = Ok r -> kept c j r.
Proof.
  induction N as [|N IH]; intros c pl j v r D P E; [lia|].
  assert (CH : forall c n ct cc pl w y r, jdepth w < N -> sget n (t_child c) = Some (ct, cc) ->
            parse_child parse ct cc pl w = Ok y -> dump_val y = Ok r -> kept_field c n w r).
  { clear c pl j v r D P E. intros c n ct cc pl w y r D T P E. destruct ct.
    - cbn [parse_child] in P. eapply kept_one; [exact T|]. eapply IH; eauto.
    - destruct w as [| | | |s|l|d]; try discriminate P.
      + destruct s; [|exfalso; eapply parse_child_list_text; [|exact P]; discriminate].
        injection P as <-. injection E as <-. eapply kept_no_list; eauto.
      + cbn [parse_child iter_json bind] in P. apply bind_ok in P as (m & M & P). injection P as <-.
        rewrite dump_list in E. apply bind_ok in E as (rs & R & E). apply mapi_res_ok in M. apply map_res_ok in R.
        assert (F : Forall2 (kept cc) l rs).
        { rewrite jdepth_list in D. apply (irel_Forall2 _ (fun x y => In x l /\ exists pl, parse cc pl x = Ok y)) in M.
          - pose proof (Forall2_comp _ _ _ _ _ M R) as F. eapply Forall2_weaken; [|exact F]. intros x z (y & (I & pl' & P) & Q).
            eapply IH; [|exact P|exact Q]. apply jldepth_In in I. lia.
          - intros i x y I P. eauto. }
        destruct F; injection E as <-.
        * eapply kept_no_list; eauto.
        * eapply kept_list; [exact T|discriminate|]. constructor; auto.
      + destruct d; [|exfalso; eapply parse_child_list_obj; [|exact P]; discriminate].
        injection P as <-. injection E as <-. eapply kept_no_list; eauto.
    - cbn [parse_child] in P. destruct w; try discriminate P. apply bind_ok in P as (e & M & P). injection P as <-.
      rewrite (map_res_dict (fun k x => parse cc (pl ++ [k]) x)) in M.
      rewrite dump_dict in E. apply bind_ok in E as (rs & R & E). rewrite (map_res_dict (fun _ x => dump_val x)) in R.
      assert (F : Forall2 (fun kv kw => fst kv = fst kw /\ kept cc (snd kv) (snd kw)) d rs).
      { rewrite jdepth_obj in D.
        pose proof (Forall2_comp _ _ _ _ _ M R) as F. eapply Forall2_weaken_In; [|exact F]. intros [k x] z I _ (y & (A & B) & (C & Q)).
        cbn [fst snd] in *. split; [congruence|]. eapply IH; [|exact B|exact Q]. apply jddepth_In in I. lia. }
      destruct F; injection E as <-.
      + eapply kept_no_dict; eauto.
      + eapply kept_dict; [exact T|discriminate|]. constructor; auto. }
  assert (OBJ : forall c pl d v r, jdepth (JObj d) <= N -> parse (Of c) pl (JObj d) = Ok v -> dump_val v = Ok r -> kept (Of c) (JObj d) r).
  { clear c pl j v r D P E. intros c pl d v r D P E. rewrite jdepth_obj in D. apply parse_obj in P as (kids & fs & _ & -> & F).
    rewrite dump_obj in E. cbn [h_cls] in E. apply bind_ok in E as (e & E & X). injection X as <-.
    assert (ND : NoDup (map fst fs)) by (rewrite <- (drel_keys _ _ _ F); apply fields_nodup).
    destruct (dump_fields_inv _ _ _ ND E) as (E0 & E1). apply (kept_obj c d e); [| |destruct e; reflexivity].
    - intros k y G. destruct (sget k fs) as [x|] eqn:S; [|rewrite (E0 _ S) in G; discriminate G].
      destruct (drel_get_r _ _ _ _ _ F S) as (df & FD & (y0 & GA & FX)). destruct (E1 _ _ S) as (kv & DF & Q). rewrite Q in G.
      unfold dfield in DF. rewrite FD in DF. destruct (is_default x df) eqn:ID; [injection DF as <-; discriminate G|].
      apply bind_ok in DF as (y' & DV & DF). assert (NN : y <> JNull /\ y' = y).
      { destruct y'; injection DF as <-; cbn [dget] in G; rewrite ?str_eqb_refl in G; try discriminate G; injection G as <-; split; congruence. }
      destruct NN as (NN & ->). clear DF Q G. split; [exact NN|]. exists df.
      unfold gathered in GA. destruct (sget k (t_child c)) as [[ct cc]|] eqn:T.
      + subst x. rewrite dump_own in DV. destruct (sget k d) as [w|] eqn:W.
        * assert (GO : w <> JNull -> parse_child parse ct cc (pl ++ [k]) w = Ok y0 ->
             exists x, sget k (t_fields c) = Some df /\ Some w = Some x /\ x <> JNull /\ py_eqb x df = false /\ kept_field c k x y).
          { intros WN P. exists w. split; [exact FD|]. split; [reflexivity|]. split; [exact WN|]. split.
            - eapply child_value_default; eauto.
            - eapply CH; [apply jddepth_get in W|exact T|exact P|exact DV]; lia. }
          destruct w; try (apply GO; [discriminate|exact GA]). exfalso. subst y0. destruct ct; cbn in DV; [discriminate DV|injection DV as <-; congruence..].
        * exfalso. subst y0. destruct ct; cbn [absent] in *.
          -- rewrite own_inject_eq, default_is_default in ID by (eapply fields_default; eauto). discriminate ID.
          -- cbn in DV. injection DV as <-. congruence.
          -- cbn in DV. injection DV as <-. congruence.
      + subst x y0. destruct (sget k d) as [w|] eqn:W.
        * rewrite is_default_py in ID by (eapply fields_default; eauto). exists w. apply dump_inject in DV.
          repeat split; auto; [intros ->; inversion DV|]. now apply kept_plain.
        * exfalso. rewrite is_default_py in ID by (eapply fields_default; eauto). rewrite py_eqb_default in ID by (eapply fields_default; eauto). discriminate ID.
    - intros k df x FD W XN PD. destruct (drel_get_l _ _ _ _ _ F FD) as (x' & S & (y0 & GA & FX)). destruct (E1 _ _ S) as (kv & DF & Q). rewrite Q.
      unfold dfield in DF. rewrite FD in DF. unfold gathered in GA. rewrite W in GA.
      destruct (sget k (t_child c)) as [[ct cc]|] eqn:T.
      + assert (P : parse_child parse ct cc (pl ++ [k]) x = Ok y0) by (destruct x; try exact GA; congruence). clear GA.
        destruct (is_default x' df) eqn:ID.
        * injection DF as <-. right. split; [reflexivity|]. subst x'. destruct (child_value_not_default _ _ _ _ _ _ pl _ _ T FD XN P PD) as [X|X]; [congruence|exact X].
        * apply bind_ok in DF as (y & DV & DF). subst x'. rewrite dump_own in DV.
          assert (K : kept_field c k x y) by (eapply CH; [apply jddepth_get in W|exact T|exact P|exact DV]; lia).
          destruct y; injection DF as <-; cbn [dget]; rewrite ?str_eqb_refl; eauto.
      + subst y0 x'. rewrite is_default_py in DF by (eapply fields_default; eauto). rewrite PD in DF. apply bind_ok in DF as (y & DV & DF).
        apply dump_inject in DV. assert (K : kept_field c k x y) by now apply kept_plain.
        destruct y; injection DF as <-; cbn [dget]; rewrite ?str_eqb_refl; eauto. }
  destruct c as [c|].
  - destruct j; try (rewrite parse_cls_eq in P; discriminate P).
    + rewrite parse_null in P. injection P as <-. rewrite dump_obj in E. cbn [h_cls] in E.
      rewrite dump_defaults in E. injection E as <-. constructor.
    + apply (OBJ c pl d v r); [lia|exact P|exact E].
  - destruct j; try (rewrite parse_eq in P; discriminate P).
    + rewrite parse_eq in P. injection P as <-. injection E as <-. constructor.
    + rewrite parse_eq in P. injection P as <-. injection E as <-. constructor.
    + rewrite parse_addp_obj in P. constructor. apply (OBJ CSchema pl d v r); [lia|exact P|exact E].
Qed.

(** ** C34: documents that say nothing superfluous *)
Lemma jsame_refl j : jsame j j.
Proof.
  induction j using json_ind'; constructor.
  - induction H; constructor; auto.
  - intros k x E. exists x. split; [exact E|]. apply sget_In in E. rewrite Forall_forall in H. exact (H _ E).
  - intros k x E. exists x. split; [exact E|]. apply sget_In in E. rewrite Forall_forall in H. exact (H _ E).
Qed.
Lemma emptied_solid j : forall r, solid j -> emptied j r -> r = j.
Proof.
  induction j using json_ind'; intros r S E; inversion E; subst; try reflexivity; inversion S; subst; try congruence.
  - f_equal. match goal with F : Forall2 _ l m |- _ => revert F end. match goal with F : Forall solid l |- _ => revert F end.
    clear S E H1 H3. revert m. induction H; intros m S F; inversion F; subst; [reflexivity|]. inversion S; subst. f_equal; auto.
  - f_equal. match goal with F : Forall2 _ d e |- _ => revert F end. match goal with F : Forall _ d |- _ => idtac end.
    assert (SD : Forall (fun kv => solid (snd kv)) d) by assumption. revert SD. clear S E.
    clear - H. revert e. induction H as [|[k x] d X H IH]; intros e S F; inversion F as [|? [k' y] ? e' (A & B)]; subst; [reflexivity|]. inversion S; subst.
    cbn [fst snd] in *. subst k'. f_equal; [f_equal|]; auto.
Qed.
Lemma kept_tidy : forall N c j r, jdepth j < N -> tidy c j -> kept c j r -> jsame r j /\ r <> JNull.
Proof.
  induction N as [|N IH]; intros c j r D T K; [lia|].
  assert (FLD : forall c k ct cc x y, jdepth x < N -> sget k (t_child c) = Some (ct, cc) -> tidy_in ct cc x -> kept_field c k x y -> jsame y x /\ y <> JNull).
  { clear c j r D T K. intros c k ct cc x y D T TI K. inversion K as [? ? ? ? Z|? ? ? ? ? Z K'|? ? ? ? Z O|? ? ? l m Z NE F|? ? ? Z|? ? ? d e Z NE F]; subst; rewrite T in Z; try discriminate Z; injection Z as -> ->.
    - inversion TI; subst. eapply IH; eauto.
    - inversion TI; subst. destruct O as [O|[O|O]]; try discriminate O. injection O as ->. congruence.
    - inversion TI as [|? ? _ TF|]; subst. split; [|discriminate]. constructor. rewrite jdepth_list in D.
      assert (B : forall x, In x l -> jdepth x < N) by (intros x I; apply jldepth_In in I; lia).
      clear - F TF B IH. induction F; constructor; inversion TF; subst.
      + eapply IH; eauto. apply B. now left.
      + apply IHF; auto. intros. apply B. now right.
    - inversion TI; subst. congruence.
    - inversion TI as [| |? ? _ ND TF]; subst. split; [|discriminate]. rewrite jdepth_obj in D.
      assert (DR : drel (fun _ x y => jsame y x) d e).
      { eapply Forall2_weaken_In; [|exact F]. intros [k1 x1] [k2 x2] I _ (A & B). cbn [fst snd] in *. split; [exact A|].
        eapply IH; [apply jddepth_In in I; lia| |exact B]. rewrite Forall_forall in TF. exact (TF _ I). }
      constructor.
      + intros k0 y0 G. apply (drel_get_r _ _ _ _ _ DR G).
      + intros k0 x0 G. destruct (drel_get_l _ _ _ _ _ DR G) as (y0 & A & B). eauto. }
  assert (OBJ : forall c d r, jdepth (JObj d) <= N -> tidy (Of c) (JObj d) -> kept (Of c) (JObj d) r -> jsame r (JObj d) /\ r <> JNull).
  { clear c j r D T K. intros c d r D T K. inversion T as [| |? d' NE ND KN SO TI]; subst. inversion K as [| | | |? ? e ? K1 K2]; subst.
    rewrite jdepth_obj in D.
    assert (NN : forall k v, sget k d = Some v -> v <> JNull).
    { intros k v G ->. destruct (sget k (t_child c)) as [[ct cc]|] eqn:TC.
      - specialize (TI _ _ _ _ G TC). inversion TI as [? ? TT| |]; subst. inversion TT.
      - specialize (SO _ _ G TC). inversion SO. }
    assert (FL : forall k x y, sget k d = Some x -> kept_field c k x y -> jsame y x /\ y <> JNull).
    { intros k x y G KF. destruct (sget k (t_child c)) as [[ct cc]|] eqn:TC.
      - eapply FLD; [apply jddepth_get in G; lia|exact TC|eapply TI; eauto|exact KF].
      - specialize (SO _ _ G TC). inversion KF as [? ? ? ? _ EM| | | | |]; subst; try congruence.
        rewrite (emptied_solid _ _ SO EM). split; [apply jsame_refl|]. intros ->. inversion SO. }
    assert (K3 : forall k x, sget k d = Some x -> exists y, sget k e = Some y /\ jsame y x).
    { intros k x G. destruct (KN _ _ G) as (df & FD & PD). destruct (K2 _ _ _ FD G (NN _ _ G) PD) as [(y & Y & KF)|(_ & KF)].
      - exists y. split; [exact Y|]. eapply FL; eauto.
      - apply (FL _ _ _ G) in KF as (_ & F). congruence. }
    destruct e as [|kv e].
    + exfalso. destruct d as [|[k x] d]; [congruence|]. destruct (K3 k x) as (y & Y & _); [rewrite sget_cons, str_eqb_refl; reflexivity|discriminate Y].
    + split; [|discriminate]. constructor; [|exact K3]. intros k y G. destruct (K1 _ _ G) as (_ & df & x & _ & X & _ & _ & KF).
      exists x. split; [exact X|]. eapply FL; eauto. }
  inversion T; subst; inversion K; subst.
  - split; [constructor|discriminate].
  - eapply OBJ; eauto; lia.
  - eapply OBJ; eauto; lia.
Qed.
Lemma solid_emptied j : solid j -> emptied j j.
Proof.
  induction j using json_ind'; intro S; inversion S; subst; constructor; auto.
  - match goal with F : Forall solid l |- _ => revert F end. clear - H. intro S. induction H; constructor; inversion S; subst; auto.
  - match goal with F : Forall _ d |- _ => idtac end. assert (SD : Forall (fun kv => solid (snd kv)) d) by assumption. clear - H SD.
    induction H; constructor; inversion SD; subst; auto.
Qed.
Lemma tidy_not_null ct c v : tidy_in ct c v -> v <> JNull.
Proof. intros T ->. inversion T as [? ? X| |]; subst. inversion X. Qed.
Lemma tidy_dumps : forall N c pl j, jdepth j < N -> tidy c j -> exists v r, parse c pl j = Ok v /\ dump_val v = Ok r.
Proof.
  induction N as [|N IH]; intros c pl j D T; [lia|].
  assert (CH : forall ct c pl v, jdepth v < N -> tidy_in ct c v -> exists y r, parse_child parse ct c pl v = Ok y /\ dump_val y = Ok r).
  { clear c pl j D T. intros ct c pl v D T. inversion T as [? ? T1|? l NE F|? d NE ND F]; subst; cbn [parse_child].
    - now apply IH.
    - cbn [iter_json bind]. rewrite jdepth_list in D.
      assert (X : forall i, exists m rs, mapi_res (fun i x => parse c (pl ++ [str_of_nat i]) x) i l = Ok m /\ map_res dump_val m = Ok rs).
      { assert (IH' : forall w, In w l -> forall pl, exists x r, parse c pl w = Ok x /\ dump_val x = Ok r).
        { intros w I pl0. apply IH; [pose proof (jldepth_In _ _ I); lia|]. rewrite Forall_forall in F. auto. }
        clear - IH'. induction l as [|w l IHl]; intro i; cbn [mapi_res]; [exists [], []; split; reflexivity|].
        destruct (IH' w (or_introl eq_refl) (pl ++ [str_of_nat i])) as (x & r & -> & R). cbn [bind].
        destruct (IHl (fun w I => IH' w (or_intror I)) (S i)) as (m & rs & -> & RS). cbn [bind]. exists (x :: m), (r :: rs). split; [reflexivity|].
        cbn [map_res]. rewrite R, RS. reflexivity. }
      destruct (X 0) as (m & rs & -> & RS). cbn [bind]. exists (VList m). eexists. split; [reflexivity|]. rewrite dump_list, RS. reflexivity.
    - rewrite jdepth_obj in D.
      assert (X : exists e rs, map_res (fun kv => do x <- parse c (pl ++ [fst kv]) (snd kv); Ok (fst kv, x)) d = Ok e /\
                map_res (fun kv => do x <- dump_val (snd kv); Ok (fst kv, x)) e = Ok rs).
      { assert (IH' : forall kv, In kv d -> forall pl, exists x r, parse c pl (snd kv) = Ok x /\ dump_val x = Ok r).
        { intros [k w] I pl0. apply IH; [cbn [snd]; pose proof (jddepth_In _ _ _ I); lia|]. rewrite Forall_forall in F. exact (F _ I). }
        clear - IH'. induction d as [|kv d IHd]; cbn [map_res]; [exists [], []; split; reflexivity|].
        destruct (IH' kv (or_introl eq_refl) (pl ++ [fst kv])) as (x & r & -> & R). cbn [bind].
        destruct (IHd (fun w I => IH' w (or_intror I))) as (m & rs & -> & RS). cbn [bind]. exists ((fst kv, x) :: m), ((fst kv, r) :: rs).
        split; [reflexivity|]. cbn [map_res fst snd]. rewrite R, RS. reflexivity. }
      destruct X as (e & rs & -> & RS). cbn [bind]. exists (VDict e). eexists. split; [reflexivity|]. rewrite dump_dict, RS. reflexivity. }
  assert (OBJ : forall c pl d, jdepth (JObj d) <= N -> tidy (Of c) (JObj d) -> exists v r, parse (Of c) pl (JObj d) = Ok v /\ dump_val v = Ok r).
  { clear c pl j D T. intros c pl d D T. rewrite jdepth_obj in D. inversion T as [| |? ? NE ND KN SO TI]; subst.
    destruct (parse_obj_ok c pl d) as (v & V).
    { intros n ct cc w TC G NN. destruct (CH ct cc (pl ++ [n]) w) as (y & r & Y & _); [apply jddepth_get in G; lia|eapply TI; eauto|eauto]. }
    exists v. rewrite V. apply parse_obj in V as (kids & fs & _ & -> & F).
    assert (NDF : NoDup (map fst fs)) by (rewrite <- (drel_keys _ _ _ F); apply fields_nodup).
    destruct (dump_fields_total c fs) as (e & E).
    { intros n x I. apply (In_sget _ _ _ NDF) in I. destruct (drel_get_r _ _ _ _ _ F I) as (df & FD & (y & GA & FX)).
      unfold dfield. rewrite FD. destruct (is_default x df) eqn:ID; [eauto|].
      assert (X : exists r, dump_val x = Ok r); [|destruct X as (r & ->); cbn [bind]; eauto].
      unfold gathered in GA. destruct (sget n (t_child c)) as [[ct cc]|] eqn:TC.
      - subst x. rewrite dump_own. destruct (sget n d) as [w|] eqn:G.
        + assert (WN : w <> JNull) by (eapply tidy_not_null; eapply TI; eauto).
          destruct (CH ct cc (pl ++ [n]) w) as (y' & r & Y & R); [apply jddepth_get in G; lia|eapply TI; eauto|].
          assert (GA' : parse_child parse ct cc (pl ++ [n]) w = Ok y) by (destruct w; try exact GA; congruence).
          rewrite Y in GA'. injection GA' as <-. eauto.
        + subst y. destruct ct; cbn [absent] in *; [|cbn; eauto..].
          rewrite own_inject_eq, default_is_default in ID by (eapply fields_default; eauto). discriminate ID.
      - subst x y. destruct (sget n d) as [w|] eqn:G.
        + exists w. apply dump_inject. apply solid_emptied. eapply SO; eauto.
        + rewrite default_is_default in ID by (eapply fields_default; eauto). discriminate ID. }
    rewrite dump_obj. cbn [h_cls]. rewrite E. cbn [bind]. eauto. }
  inversion T; subst.
  - exists (VBool b), (JBool b). rewrite parse_eq. split; reflexivity.
  - rewrite parse_addp_obj. apply OBJ; [lia|assumption].
  - apply OBJ; [lia|assumption].
Qed.
