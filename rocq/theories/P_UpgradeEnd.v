(** Proofs about converting 1.2 documents to 2.0: the document made in the end. *)
From Coq Require Import Lia.
From Verif Require Import PyBase PyFacts PyJson S_JsonPtr M_JsonPtr P_JsonPtr M_Scope M_Url S_Url P_Url M_SpecVal M_Parse P_SpecBase P_Op P_Parse P_Typed M_SpecTree S_SpecTree P_SpecTree P_Order T_SpecTree M_Merge P_Merge M_MergeRef M_Patch P_Patch
  M_Scan M_Validate S_Parse S_Validate P_Validate M_OldParse S_OldParse P_OldParse T_OldParse M_OldValidate S_OldValidate P_OldValidate M_Upgrade S_Upgrade P_UpgradeObj P_Upgrade P_UpgradeDoc P_UpgradeFold.
Close Scope Q_scope.

(** ** Places *)
Lemma two_keys {A} (d : sdict A) n x m y : sget n d = Some x -> sget m d = Some y -> n <> m ->
  (exists d1 d2 d3, d = d1 ++ (n, x) :: d2 ++ (m, y) :: d3) \/ (exists d1 d2 d3, d = d1 ++ (m, y) :: d2 ++ (n, x) :: d3).
Proof.
  intros A1 B1 NE. apply sget_In in A1, B1. apply in_split in A1 as (a & b & ->). apply in_app_or in B1 as [I|[E|I]].
  - right. apply in_split in I as (a1 & a2 & ->). exists a1, a2, b. now rewrite <- app_assoc.
  - injection E as <- <-. now elim NE.
  - left. apply in_split in I as (b1 & b2 & ->). now exists a, b1, b2.
Qed.
Lemma same_depth ts : forall v us x y, reach [] v ts x -> reach [] v us y -> length ts = length us -> ts = us \/ earlier v ts us \/ earlier v us ts.
Proof.
  induction ts as [|t ts IH]; intros v us x y A B L; destruct us as [|u us]; try discriminate L; [now left|]. injection L as L.
  assert (X : exists w z, step v t w /\ reach [] w ts x /\ step v u z /\ reach [] z us y).
  { inversion A; subst; inversion B; subst; eexists; eexists; (split; [constructor; eassumption|]); (split; [eassumption|]); (split; [constructor; eassumption|eassumption]). }
  destruct X as (w & z & SW & RW & SZ & RZ). destruct (str_eqb t u) eqn:E.
  - apply str_eqb_eq in E as ->. assert (w = z) as ->.
    { inversion SW; subst; inversion SZ; subst; try congruence. match goal with H : str_of_nat _ = str_of_nat _ |- _ => apply str_of_nat_inj in H as -> end. congruence. }
    destruct (IH _ _ _ _ RW RZ L) as [->|[H|H]]; [now left|right; left; eapply earlier_below; eauto|right; right; eapply earlier_below; eauto].
  - assert (NE : t <> u) by (intros ->; rewrite str_eqb_refl in E; discriminate E). right.
    assert (SB : step_before v t u \/ step_before v u t).
    { inversion SW; subst; inversion SZ; subst.
      - destruct (two_keys fs t w u z) as [(d1 & d2 & d3 & ->)|(d1 & d2 & d3 & ->)]; auto; [left|right]; constructor.
      - match goal with |- step_before _ (str_of_nat ?a) (str_of_nat ?b) \/ _ => destruct (Nat.lt_trichotomy a b) as [HH|[HH|HH]]; [left|subst; now elim NE|right]; constructor; auto; apply nth_error_Some; congruence end.
      - destruct (two_keys d t w u z) as [(d1 & d2 & d3 & ->)|(d1 & d2 & d3 & ->)]; auto; [left|right]; constructor. }
    destruct SB; [left|right]; now constructor.
Qed.

(** ** The common prefix *)
Lemma common2_app a x y : common2 (a ++ x) (a ++ y) = a ++ common2 x y.
Proof. induction a as [|c a IH]; [reflexivity|]. cbn [app common2]. now rewrite Ascii.eqb_refl, IH. Qed.
Lemma common2_prefix x : forall y, exists a b, x = common2 x y ++ a /\ y = common2 x y ++ b.
Proof.
  induction x as [|c x IH]; intro y; [now exists [], y|]. destruct y as [|d y]; [now exists (c :: x), []|]. cbn [common2]. destruct (Ascii.eqb c d) eqn:E; [|now exists (c :: x), (d :: y)].
  apply Ascii.eqb_eq in E as ->. destruct (IH y) as (a & b & E1 & E2). exists a, b. cbn [app]. split; congruence.
Qed.
Lemma fold_common a l : forall s, Forall (fun k => exists p, k = a ++ p) l -> (exists p, s = a ++ p) -> exists p, fold_left common2 l s = a ++ p /\ exists q, s = (a ++ p) ++ q.
Proof.
  induction l as [|k l IH]; intros s F (p & ->); cbn [fold_left]; [exists p; split; [reflexivity|exists []; now rewrite app_nil_r]|]. inversion F as [|? ? (p' & ->) F']; subst. rewrite common2_app.
  destruct (IH (a ++ common2 p p') F' (ex_intro _ _ eq_refl)) as (q & -> & q' & E). exists q. split; [reflexivity|]. destruct (common2_prefix p p') as (c & d & E1 & _). exists (q' ++ c). rewrite app_assoc, <- E, <- app_assoc. now rewrite <- E1.
Qed.
Lemma common_start a l : l <> [] -> Forall (fun k => exists p, k = a ++ p) l -> exists p, common_prefix l = a ++ p /\ forall k, hd_error l = Some k -> exists q, k = (a ++ p) ++ q.
Proof.
  destruct l as [|s l]; [now intros []|]. intros _ F. inversion F as [|? ? P F']; subst. destruct (fold_common a l s F' P) as (p & E & q & Q). exists p. split; [exact E|]. intros k K. injection K as <-. eauto.
Qed.
Lemma strip_slash base p : exists c, (if Ascii.eqb (last (base ++ "/"%char :: p) "x"%char) "/" then removelast (base ++ "/"%char :: p) else base ++ "/"%char :: p) = base ++ c /\ (c = [] \/ exists c' c'', c = "/"%char :: c' /\ p = c' ++ c'').
Proof.
  destruct (exists_last (l := "/"%char :: p) ltac:(discriminate)) as (c & x & E). destruct (Ascii.eqb (last _ _) _) eqn:Q.
  - exists c. rewrite E, app_assoc, removelast_last. split; [reflexivity|]. destruct c as [|y c]; [now left|]. right. injection E as <- ->. now exists c, [x].
  - exists ("/"%char :: p). split; [reflexivity|]. right. exists p, []. now rewrite app_nil_r.
Qed.

(** ** The address *)
Lemma parse_netloc c host : without (lit "/?#[]") host -> (c = [] \/ exists c', c = "/"%char :: c') -> split_netloc (lit "//" ++ host ++ c) = Ok (host, c).
Proof.
  intros W C. change (lit "//" ++ host ++ c) with ("/"%char :: "/"%char :: host ++ c). unfold split_netloc. rewrite span_app.
  - rewrite !has_false; [reflexivity|apply (W "]"%char); cbn; tauto|apply (W "["%char); cbn; tauto].
  - apply forallb_forall. intros x I. unfold netloc_char. destruct (Ascii.eqb x "/") eqn:E1; [apply Ascii.eqb_eq in E1 as ->; elim (W "/"%char); [cbn; tauto|exact I]|]. destruct (Ascii.eqb x "?") eqn:E2; [apply Ascii.eqb_eq in E2 as ->; elim (W "?"%char); [cbn; tauto|exact I]|]. destruct (Ascii.eqb x "#") eqn:E3; [apply Ascii.eqb_eq in E3 as ->; elim (W "#"%char); [cbn; tauto|exact I]|]. reflexivity.
  - intros d b' ->. destruct C as [C|(c' & C)]; [discriminate C|]. injection C as -> ->. reflexivity.
Qed.
Lemma parse_host sc host c : scheme_ok sc -> without (lit "/?#[]") host -> (c = [] \/ exists c', c = "/"%char :: c') ->
  exists p, urlparse (sc ++ lit "://" ++ host ++ c) = Ok p /\ u_netloc p = host /\ u_scheme p = sc.
Proof.
  intros S' W C. unfold urlparse. change (lit "://" ++ host ++ c) with (":"%char :: (lit "//" ++ host ++ c)). rewrite (split_scheme_ok _ _ S'), (parse_netloc c host W C). cbn [bind].
  destruct (cut_or "#" c) as (u1 & f). destruct (cut_or "?" u1) as (u2 & q). destruct (parse_params sc u2) as (pa & ps). eexists. split; [reflexivity|]. split; reflexivity.
Qed.
Lemma parse_local c : (forall q, c <> "/"%char :: q) -> exists p, urlparse ("/"%char :: c) = Ok p /\ u_netloc p = [] /\ u_scheme p = [].
Proof.
  intros N. unfold urlparse. assert (E : split_scheme ("/"%char :: c) = ([], "/"%char :: c)) by (unfold split_scheme; now destruct (cut ":" ("/"%char :: c)) as [[a b]|]). rewrite E.
  assert (E2 : split_netloc ("/"%char :: c) = Ok ([], "/"%char :: c)).
  { unfold split_netloc. destruct c as [|x c]; [reflexivity|]. destruct (Ascii.eqb x "/") eqn:Q; [apply Ascii.eqb_eq in Q as ->; now elim (N c)|]. destruct x as [[] [] [] [] [] [] [] []]; try reflexivity; discriminate Q. }
  rewrite E2. cbn [bind]. destruct (cut_or "#" ("/"%char :: c)) as (u1 & f). destruct (cut_or "?" u1) as (u2 & q). destruct (parse_params [] u2) as (pa & ps). eexists. split; [reflexivity|]. split; reflexivity.
Qed.
Lemma unparse_base sc host : sc <> [] -> host <> [] -> urlunparse (Url6 sc host [] [] [] []) = sc ++ lit "://" ++ host.
Proof. intros S' H. unfold urlunparse, urlunsplit. cbn [u_params u_path u_scheme u_netloc u_query u_frag nonempty]. destruct sc as [|a sc]; [now elim S'|]. destruct host as [|b host]; [now elim H|]. cbn [nonempty orb andb]. now rewrite app_nil_r. Qed.

(** ** The paths, renamed *)
Lemma skipn_base base (p : str) : skipn (length base) (base ++ p) = p.
Proof. induction base; [reflexivity|assumption]. Qed.
Lemma renamed base (paths : sdict val) : NoDup (map fst paths) -> Forall (fun k => exists p, k = base ++ p) (map fst paths) ->
  let paths' := supdate [] (map (fun kv => (skipn (length base) (fst kv), snd kv)) paths) in
  NoDup (map fst paths') /\ (forall p, sget p paths' = sget (base ++ p) paths).
Proof.
  intros N F. set (f := fun kv : str * val => (skipn (length base) (fst kv), snd kv)). assert (ND : NoDup (map fst (map f paths))).
  { rewrite map_map. clear - N F. induction paths as [|[k x] paths IH]; [constructor|]. cbn [map fst] in *. inversion N as [|? ? NI N']; subst. inversion F as [|? ? (p & ->) F']; subst. constructor; [|auto]. unfold f in *. cbn [fst]. rewrite skipn_base. intro I. apply NI. apply in_map_iff in I as ((k' & y) & E & I). cbn [fst] in E. rewrite Forall_forall in F'. destruct (F' k' (in_map fst _ _ I)) as (p' & ->). rewrite skipn_base in E. subst p'. exact (in_map fst _ _ I). }
  assert (SU : supdate [] (map f paths) = map f paths) by (rewrite (supdate_fresh (map f paths) [] ND); reflexivity). cbv zeta. change (NoDup (map fst (supdate [] (map f paths))) /\ forall p, sget p (supdate [] (map f paths)) = sget (base ++ p) paths). rewrite SU. cbn [app]. split; [exact ND|]. intro p. clear ND N SU. induction paths as [|[k x] paths IH]; [reflexivity|]. cbn [map fst snd] in *. inversion F as [|? ? (q & ->) F']; subst. unfold f at 1. cbn [fst snd]. rewrite !sget_cons, skipn_base, IH by exact F'.
  destruct (str_eqb p q) eqn:E.
  - apply str_eqb_eq in E as ->. now rewrite str_eqb_refl.
  - destruct (str_eqb (base ++ p) (base ++ q)) eqn:E'; [|reflexivity]. apply str_eqb_eq, app_inv_head in E' as ->. rewrite str_eqb_refl in E. discriminate E.
Qed.
Lemma renamed_id (paths : sdict val) : NoDup (map fst paths) -> supdate [] (map (fun kv => (skipn 0 (fst kv), snd kv)) paths) = paths.
Proof. intro N. rewrite (map_ext _ (fun kv => kv)) by now intros []. rewrite map_id. now apply (supdate_fresh paths []). Qed.
Lemma keys_iff {A} (d : sdict A) k : In k (map fst d) <-> exists x, sget k d = Some x.
Proof.
  split.
  - intro I. destruct (sget k d) as [x|] eqn:G; [eauto|]. apply sget_None in G. contradiction.
  - intros (x & G). apply sget_In in G. exact (in_map fst _ _ G).
Qed.

(** ** Putting it together *)
Definition doc_kvs (info : val) (host : str) (tags : list val) (paths defs secs : sdict val) : sdict val :=
  ["info" ~> info; "swagger" ~> text "2.0"; "schemes" ~> VList [text "http"; text "https"]; "host" ~> VStr host; "basePath" ~> text "";
   "tags" ~> VList tags; "definitions" ~> VDict defs; "parameters" ~> VDict []; "responses" ~> VDict []; "paths" ~> VDict paths;
   "security" ~> VList []; "securityDefinitions" ~> VDict secs; "consumes" ~> VList []; "produces" ~> VList []].
Lemma put_made c kvs v n x : made c kvs v -> smem n (t_fields c) = true -> In n (map fst kvs) -> made c (kvs ++ [(n, x)]) (put n x v).
Proof.
  intros (H & G) M I. split; [now apply holding_put|]. rewrite map_app. eapply giving_ext; [|apply (giving_put _ _ n x G)]. intro m. rewrite in_app_iff. cbn. split; [tauto|]. intros [J|[<-|[]]]; assumption.
Qed.
Lemma made_ext c a b v : (forall n, sget n (rev a) = sget n (rev b)) -> (forall n, In n (map fst a) <-> In n (map fst b)) -> made c a v -> made c b v.
Proof. intros X Y (H & G). split; [eapply holding_ext; eauto|eapply giving_ext; eauto]. Qed.
Lemma doc_ext info tags paths defs secs host paths' o : made CSwagger (((base_kvs info ++ ["securityDefinitions" ~> VDict secs; "definitions" ~> VDict defs; "paths" ~> VDict paths; "tags" ~> VList tags]) ++ ["host" ~> VStr host]) ++ ["paths" ~> VDict paths']) o ->
  made CSwagger (doc_kvs info host tags paths' defs secs) o.
Proof.
  apply made_ext.
  - intro n. cbn [doc_kvs base_kvs app rev]. rewrite !sget_cons.
    repeat match goal with |- context [str_eqb n (lit ?s)] => let E := fresh in destruct (str_eqb n (lit s)) eqn:E; [apply str_eqb_eq in E as ->; reflexivity|] end. reflexivity.
  - intro n. vm_compute. intuition.
Qed.
Lemma finished_ok u info host base : made CSwagger (base_kvs info) (u_swagger u) -> u_paths u <> [] -> NoDup (map fst (u_paths u)) ->
  ((host = [] /\ base = []) \/ (exists sc, scheme_ok sc /\ host <> [] /\ without (lit "/?#[]") host /\ base = sc ++ lit "://" ++ host)) ->
  Forall (fun k => exists p, k = base ++ "/"%char :: p /\ (base = [] -> forall q, p <> "/"%char :: q)) (map fst (u_paths u)) ->
  exists sw paths, finished u = Ok sw /\ NoDup (map fst paths) /\ (forall p, sget p paths = sget (base ++ p) (u_paths u)) /\ made CSwagger (doc_kvs info host (u_tags u) paths (u_defs u) (u_secs u)) sw.
Proof.
  intros MA NE N HB F. set (sw0 := put (lit "tags") (VList (u_tags u)) (put (lit "paths") (VDict (u_paths u)) (put (lit "definitions") (VDict (u_defs u)) (put (lit "securityDefinitions") (VDict (u_secs u)) (u_swagger u))))).
  assert (M0 : made CSwagger (base_kvs info ++ ["securityDefinitions" ~> VDict (u_secs u); "definitions" ~> VDict (u_defs u); "paths" ~> VDict (u_paths u); "tags" ~> VList (u_tags u)]) sw0).
  { apply (put_made _ _ _ (lit "securityDefinitions") (VDict (u_secs u))) in MA; [|fieldsok|vm_compute; tauto]. apply (put_made _ _ _ (lit "definitions") (VDict (u_defs u))) in MA; [|fieldsok|vm_compute; tauto]. apply (put_made _ _ _ (lit "paths") (VDict (u_paths u))) in MA; [|fieldsok|vm_compute; tauto]. apply (put_made _ _ _ (lit "tags") (VList (u_tags u))) in MA; [|fieldsok|vm_compute; tauto]. exact MA. }
  assert (F' : Forall (fun k => exists p, k = (base ++ lit "/") ++ p) (map fst (u_paths u))) by (eapply Forall_impl; [|exact F]; intros k (p & -> & _); exists p; now rewrite <- app_assoc).
  assert (NE' : map fst (u_paths u) <> []) by (intro X; apply map_eq_nil in X; contradiction).
  assert (FB : Forall (fun k => exists p, k = base ++ p) (map fst (u_paths u))) by (eapply Forall_impl; [|exact F]; intros k (p & -> & _); eauto).
  destruct (common_start _ _ NE' F') as (p & CP & HD). rewrite <- app_assoc in CP. change (lit "/" ++ p) with ("/"%char :: p) in CP. destruct (strip_slash base p) as (c & ST & C). 
  unfold finished. fold sw0. rewrite CP. destruct (base ++ "/"%char :: p) as [|y ys] eqn:EB; [now destruct base|]. cbv zeta. rewrite ST. clear y ys EB ST CP.
  destruct HB as [(-> & ->)|(sc & S' & HH & HW & ->)].
  - cbn [app] in *. destruct c as [|y c].
    + exists sw0, (u_paths u). split; [reflexivity|]. split; [exact N|]. split; [reflexivity|].
      destruct (set_ok CSwagger _ _ (lit "host") (VStr []) M0 ltac:(fieldsok)) as (v & _ & _). eapply made_ext; [| |exact M0].
      * intro n. cbn [doc_kvs base_kvs app rev]. rewrite !sget_cons.
        repeat match goal with |- context [str_eqb n (lit ?s)] => let E := fresh in destruct (str_eqb n (lit s)) eqn:E; [apply str_eqb_eq in E as ->; reflexivity|] end. reflexivity.
      * intro n. vm_compute. intuition.
    + destruct C as [C|(c' & c'' & C & PC)]; [discriminate C|]. injection C as -> ->.
      assert (NS : forall q, c' <> "/"%char :: q).
      { intros q ->. destruct (map fst (u_paths u)) as [|k ks] eqn:EK; [now elim NE'|]. destruct (HD k eq_refl) as (q' & ->). inversion F as [|? ? (p' & E & NS) _]; subst. apply (NS eq_refl (q ++ c'' ++ q')). cbn in E. injection E as E. rewrite <- E. cbn. now rewrite <- app_assoc. }
      destruct (parse_local c' NS) as (u6 & -> & UN & US). cbn [bind]. rewrite UN, US.
      destruct (set_ok CSwagger _ _ (lit "host") (VStr []) M0 ltac:(fieldsok)) as (v & -> & MV). cbn [bind]. change (length (urlunparse (Url6 [] [] [] [] [] []))) with 0. rewrite (renamed_id _ N).
      destruct (set_ok CSwagger _ _ (lit "paths") (VDict (u_paths u)) MV ltac:(fieldsok)) as (w & -> & MW). exists w, (u_paths u). split; [reflexivity|]. split; [exact N|]. split; [reflexivity|]. now apply doc_ext in MW.
  - rewrite <- !app_assoc. assert (C' : c = [] \/ exists c', c = "/"%char :: c') by (destruct C as [C|(c' & c'' & C & _)]; eauto). destruct (parse_host sc host c S' HW C') as (u6 & E6 & UN & US).
    destruct (sc ++ lit "://" ++ host ++ c) as [|y ys] eqn:EB; [destruct S' as (a & b & -> & _); discriminate EB|]. rewrite <- EB in *. clear y ys EB. rewrite E6. cbn [bind]. rewrite UN, US.
    destruct (set_ok CSwagger _ _ (lit "host") (VStr host) M0 ltac:(fieldsok)) as (v & -> & MV). cbn [bind]. rewrite unparse_base; [|destruct S' as (a & b & -> & _); discriminate|exact HH].
    destruct (renamed _ _ N FB) as (N' & G'). cbv zeta in N', G'.
    match goal with |- context [update_field _ (VDict ?d) v] => destruct (set_ok CSwagger _ _ (lit "paths") (VDict d) MV ltac:(fieldsok)) as (w & -> & MW) end. eexists w, _. split; [reflexivity|]. split; [exact N'|]. split; [exact G'|]. now apply doc_ext in MW.
Qed.

Section End_.
  Context (prim : str -> bool) (float_of : str -> res Q) (sep : str) (raw : val) (LOADED : loaded12 raw).
  Context (rest : list (str * val)) (es : list event) (TR : traverse raw [] = Ok ((lit "#", raw) :: rest)) (EV : Forall2 (event_of raw) rest es).
  Lemma op_reach r n R P : operation_in raw r n R P -> reach [] raw [lit "apis"; r; lit "apis"; n] P.
  Proof. intros (A & B). exact (reach_app _ _ _ _ _ _ A B). Qed.
  Lemma op_is_obj r n R P : operation_in raw r n R P -> is_obj P.
  Proof. intro H. destruct (op_object raw LOADED _ _ _ _ H) as (h & fs & ints & -> & _). exact I. Qed.
  Lemma tags_end tags : tags_inv es tags -> tags_for raw tags.
  Proof.
    intros (ns & N & A & F). exists ns. split; [exact N|]. split; [|exact F]. intro n. rewrite A. split.
    - intros (r & H & ->). apply (es_res raw LOADED rest es TR EV) in H as (R & H). eauto.
    - intros (r & R & H & ->). exists r. split; [|reflexivity]. apply (es_res raw LOADED rest es TR EV). eauto.
  Qed.
  Lemma secs_end secs : secs_inv es secs -> securities_for raw secs.
  Proof.
    intros (N & A & B). split; [exact N|]. split.
    - intro n. rewrite keys_iff. split.
      + intros (x & G). destruct (A _ _ G) as (k & O' & H & -> & _). apply (es_auth raw LOADED rest es TR EV) in H. eauto.
      + intros (k & O' & H & ->). apply (es_auth raw LOADED rest es TR EV) in H. eauto.
    - intros n x G. destruct (A _ _ G) as (k & O' & H & -> & S'). apply (es_auth raw LOADED rest es TR EV) in H. eauto.
  Qed.
  Lemma models_all : all_models raw (models_of es).
  Proof.
    split.
    - assert (X : forall l es', Forall2 (event_of raw) l es' -> NoDup (map fst l) -> NoDup (map fst (models_of es')) /\ forall r k, In (r, k) (map fst (models_of es')) -> In (at_model r k) (map fst l)).
      { clear. intros l es'. induction 1 as [|[p o] e l es' E F IH]; intro N; [split; [constructor|intros r k []]|]. inversion N as [|? ? NI N']; subst. destruct (IH N') as (A & B). apply event_inv in E. destruct e; cbn [models_of flat_map app]; (split; [try exact A|intros r' k' I; try (right; apply B; exact I)]).
        - destruct E as (-> & _). cbn [map fst]. constructor; [|exact A]. intro I. apply NI, B, I.
        - destruct E as (-> & _). cbn [map fst] in *. destruct I as [I|I]; [left; now injection I as <- <-|right; now apply B]. }
      exact (proj1 (X _ _ EV (rest_nodup raw LOADED rest TR))).
    - intros r k M. rewrite models_In. apply (es_model raw LOADED rest es TR EV).
  Qed.
  Lemma parents_any scope s p l ps : parents sep scope s p l ps -> ps <> [] -> exists t, In t l /\ names sep scope t s.
  Proof. induction 1 as [|t l ps H P IH|t s' l ps H NE P IH]; intro N; [now elim N|exists t; split; [now left|exact H]|]. destruct (IH N) as (t' & I & H'). exists t'. split; [now right|exact H']. Qed.
  Lemma parents_none scope s p l ps : parents sep scope s p l ps -> ps = [] -> forall t, In t l -> ~ names sep scope t s.
  Proof. induction 1 as [|t l ps H P IH|t s' l ps H NE P IH]; intros N t' I; [destruct I|discriminate N|]. destruct I as [<-|I]; [|now apply IH]. intro H'. apply NE. eapply names_unique; eauto. Qed.
  Lemma subtypes_unique M l l' : subtypes M l -> subtypes M l' -> l = l'.
  Proof. rewrite !subtypes_iff. intros (st & G & E) (st' & G' & E'). rewrite G in G'. injection G' as <-. rewrite E in E'. now injection E'. Qed.
  Lemma defs_end defs : defs_inv prim float_of sep es defs -> definitions_for prim float_of sep raw defs.
  Proof.
    intros (kvs & ps & ST & N & A & B & C). split; [exact N|].
    assert (MI : forall r k M, In (EModel r k M) es <-> model_in raw r k M) by (intros; apply (es_model raw LOADED rest es TR EV)). split.
    - intro s. rewrite keys_iff. specialize (ST s). split.
      + intros (x & G). rewrite G in ST. destruct ST as (refs & RF & NP & _). destruct (kvs s) as [kv|] eqn:K.
        * left. destruct (A _ _ K) as (r & k & M & I & MN & _). apply MI in I. eauto.
        * right. specialize (NP eq_refl). destruct (C s) as (pss & PS & F). rewrite PS in NP. clear - NP F MI.
          assert (X : exists r k M, In (r, k, M) (models_of es) /\ exists p st l, model_named sep r M p /\ subtypes M st /\ parents sep (rfc_escape r) s p st l /\ l <> []).
          { induction F as [|[[r k] M] l ms pss (p & st & MN & SU & PA) F IH]; [now elim NP|]. cbn [concat] in NP. destruct l as [|z l]; [destruct (IH NP) as (r' & k' & M' & I & H); exists r', k', M'; split; [now right|exact H]|]. exists r, k, M. split; [now left|]. exists p, st, (z :: l). cbn [fst snd] in *. split; [exact MN|]. split; [exact SU|]. split; [exact PA|discriminate]. }
          destruct X as (r & k & M & I & p & st & l & MN & SU & PA & NL). apply models_In, MI in I. destruct (parents_any _ _ _ _ _ PA NL) as (t & IT & NT). exists r, k, M, st, t. auto.
      + intro H. destruct (sget s defs) as [x|] eqn:G; [eauto|]. exfalso. destruct ST as (K & P). destruct H as [(r & k & M & I & MN)|(r & k & M & l & t & I & SU & IT & NT)].
        * apply MI in I. exact (B _ K _ _ _ I MN).
        * destruct (C s) as (pss & PS & F). rewrite P in PS. apply MI, models_In in I. destruct (Forall2_In_l _ _ _ _ F I) as (l' & IL & p & st & MN & SU' & PA). cbn [fst snd] in *. rewrite (subtypes_unique _ _ _ SU SU') in IT.
          apply (parents_none _ _ _ _ _ PA) in IT; [contradiction|]. clear - PS IL. induction pss as [|a pss IH]; [destruct IL|]. cbn [concat] in PS. symmetry in PS. apply app_eq_nil in PS as (PA & PB). destruct IL as [<-|IL]; auto.
    - intros s x G. specialize (ST s). rewrite G in ST. destruct ST as (refs & RF & _ & H & GV). exists (match kvs s with Some kv => kv | None => [] end). split.
      + exists (ps s), refs. split; [|auto]. destruct (C s) as (pss & PS & F). exists (models_of es), pss. split; [apply models_all|auto].
      + destruct (kvs s) as [kv|] eqn:K; [left; destruct (A _ _ K) as (r & k & M & I & MN & MK); apply MI in I; eauto 6|]. right. split; [|reflexivity]. intros r k M I. apply MI in I. eauto.
  Qed.
  Lemma slot_end k m x : slot_ok prim float_of sep es k m x -> In m (map fst (t_fields CPathItem)) /\ exists r n R P ps, first_at raw r n R P k m /\ parameters_for prim float_of sep r P ps /\ operation_for prim float_of sep (rfc_escape r) R P ps x.
  Proof.
    intros (SM & L1 & r & n & R & P & L2 & ps & EQ & LO & F & OF & PF). split; [now apply smem_In|]. exists r, n, R, P, ps.
    assert (OI : operation_in raw r n R P) by (apply (es_op raw LOADED rest es TR EV); rewrite EQ; apply in_or_app; right; now left). split; [|split; [|exact OF]].
    - split; [exact OI|]. split; [exact LO|]. intros r' n' R' P' OI' LO'. destruct (same_depth _ _ _ _ _ (op_reach _ _ _ _ OI) (op_reach _ _ _ _ OI') eq_refl) as [E|[E|E]]; [left; now injection E as -> ->|now right|exfalso].
      destruct (raw_ok raw LOADED) as (W & O'). destruct (c35_last_first _ _ _ _ _ _ _ W O' TR (op_reach _ _ _ _ OI') (op_is_obj _ _ _ _ OI') (op_reach _ _ _ _ OI) (op_is_obj _ _ _ _ OI) E) as (l1 & l2 & EL & IL).
      destruct (op_split raw LOADED rest es TR EV _ _ _ _ _ _ EQ) as (m1 & a & b & ER & F1 & F2 & _). pose proof (c35_once _ _ _ W O' TR) as ND.
      assert (X : l1 = (lit "#", raw) :: m1 /\ l2 = a ++ b).
      { change (rfc_pointer (lit "#") [lit "apis"; r; lit "apis"; n]) with (at_op r n) in EL. apply (nodup_split _ _ _ _ (at_op r n, P)); [rewrite <- EL; now apply NoDup_map_inv in ND|]. rewrite <- EL, ER. reflexivity. }
      destruct X as (-> & ->). change (rfc_pointer (lit "#") [lit "apis"; r'; lit "apis"; n']) with (at_op r' n') in IL. destruct (Forall2_In_l _ _ _ _ F2 IL) as (e & IE & EE). apply (is_oper raw LOADED r' n' R' P') in EE as ->; [|exact OI']. rewrite Forall_forall in F. exact (F _ IE LO').
    - destruct (op_object raw LOADED _ _ _ _ OI) as (h & fs & ints & -> & _ & v & qs & G & Q). assert (HF : has_field (VObj h fs ints) "parameters" v) by now left. exists v, qs. split; [exact HF|]. split; [exact Q|].
      rewrite <- (params_rev raw LOADED rest es TR EV _ _ _ _ _ _ _ _ EQ HF Q). exact PF.
  Qed.
  Lemma paths_end host base paths paths' : based raw host base -> paths_inv prim float_of sep es paths -> NoDup (map fst paths') -> (forall p, sget p paths' = sget (base ++ p) paths) -> paths_for prim float_of sep raw base paths'.
  Proof.
    intros BA (N & A & B) N' G'. assert (OI : forall r n R P, In (EOp r n R P) es <-> operation_in raw r n R P) by (intros; apply (es_op raw LOADED rest es TR EV)).
    assert (IT : forall k item, sget k paths = Some item -> item_for prim float_of sep raw k item /\ exists r n R P m, operation_in raw r n R P /\ located R P k m).
    { intros k item G. destruct (A _ _ G) as (ops & NO & NE & MA & SL & CO). split.
      - exists ops. split; [exact NO|]. split; [exact MA|]. split; [|intros m x GM; now apply slot_end, SL]. intro m. rewrite keys_iff. split.
        + intros (x & GM). destruct (slot_end _ _ _ (SL _ _ GM)) as (_ & r & n & R & P & ps & (H1 & H2 & _) & _). eauto 6.
        + intros (r & n & R & P & H & LO). apply OI in H. eauto.
      - destruct ops as [|[m x] ops]; [now elim NE|]. destruct (slot_end k m x (SL _ _ ltac:(rewrite sget_cons, str_eqb_refl; reflexivity))) as (_ & r & n & R & P & ps & (H1 & H2 & _) & _). eauto 7. }
    split; [exact N'|]. split.
    - intro p. rewrite keys_iff. split.
      + intros (item & G). rewrite G' in G. now apply IT in G as (_ & G).
      + intros (r & n & R & P & m & H & LO). apply OI in H. destruct (B _ _ _ _ _ _ H LO) as (item & G). exists item. now rewrite G'.
    - intros p item G. rewrite G' in G. now apply IT in G as (G & _).
  Qed.
  Lemma keys_based host base paths : based raw host base -> paths_inv prim float_of sep es paths -> Forall (fun k => exists p, k = base ++ "/"%char :: p /\ (base = [] -> forall q, p <> "/"%char :: q)) (map fst paths).
  Proof.
    intros (_ & BA) (N & A & B). apply Forall_forall. intros k I. apply keys_iff in I as (item & G). destruct (A _ _ G) as (ops & NO & NE & MA & SL & CO). destruct ops as [|[m x] ops]; [now elim NE|].
    destruct (slot_end k m x (SL _ _ ltac:(rewrite sget_cons, str_eqb_refl; reflexivity))) as (_ & r & n & R & P & ps & (H1 & H2 & _) & _). eauto.
  Qed.
  Lemma upgrade_ok host base sw : based raw host base -> upgrade prim float_of sep raw = Ok sw -> upgraded prim float_of sep raw host base sw.
  Proof.
    intros BA E. unfold upgrade in E. rewrite (converted_events prim float_of sep raw LOADED rest es TR EV) in E. destruct (on_list raw) as [u0|] eqn:OL; [|discriminate E]. cbn [bind] in E. destruct (fold_ev prim float_of sep raw es u0) as [u|] eqn:FE; [|discriminate E]. cbn [bind] in E.
    destruct (list_ok prim float_of sep raw u0 (info_shape raw LOADED) OL) as (info & o & IF & MO & ->). destruct (inv_fold prim float_of sep raw LOADED rest es TR EV o es [] _ _ eq_refl (inv_start prim float_of sep o) FE) as (SW & T & P & D & S').
    assert (NE : u_paths u <> []) by (intro X; unfold finished in E; rewrite X in E; discriminate E). rewrite <- SW in MO. destruct (finished_ok u info host base MO NE (proj1 P) (proj1 BA) (keys_based _ _ _ BA P)) as (sw' & paths & E' & N' & G' & M'). rewrite E in E'. injection E' as <-.
    exists (u_tags u), paths, (u_defs u), (u_secs u). split; [exists info; auto|]. split; [now apply tags_end|]. split; [eapply paths_end; eauto|]. split; [now apply defs_end|now apply secs_end].
  Qed.
  Lemma upgrade_works host base : based raw host base -> convertible prim float_of sep raw -> exists sw, upgrade prim float_of sep raw = Ok sw.
  Proof.
    intros BA ((info & IF) & (r0 & n0 & R0 & P0 & OI0) & CO & CM & CA). unfold upgrade. rewrite (converted_events prim float_of sep raw LOADED rest es TR EV). destruct (list_works prim float_of sep raw info IF) as (u0 & OL). rewrite OL. cbn [bind].
    destruct (list_ok prim float_of sep raw u0 (info_shape raw LOADED) OL) as (info' & o & IF' & MO & ->).
    destruct (fold_works prim float_of sep raw LOADED rest es TR EV o es) with (L := @nil event) (u := Up o [] [] [] []) as (u & FE); [|reflexivity|apply inv_start|].
    { intros L e l' u EQ (SW & T & P & D & S'). assert (IE : In e es) by (rewrite EQ; apply in_or_app; right; now left). destruct e; cbn [do_event].
      - destruct (tags_step prim float_of sep L r u T) as (tags & E & _). eauto.
      - apply (es_op raw LOADED rest es TR EV) in IE. destruct (CO _ _ _ _ IE) as ((k & m & LO & FM) & ps & x & OF & _). eapply op_works; eauto. now apply smem_In.
      - pose proof (after_op raw LOADED rest es TR EV _ _ _ _ _ _ _ _ EQ) as AO. apply (es_param raw LOADED rest es TR EV) in IE as (IE & RE). destruct (CO _ _ _ _ IE) as ((k & m & LO & _) & ps & x & _ & v & qs & HF & Q & PF).
        destruct (op_object raw LOADED _ _ _ _ IE) as (h & fs & ints & -> & _ & v' & qs' & G & Q'). assert (HF' : has_field (VObj h fs ints) "parameters" v') by now left. rewrite (has_unique _ _ _ _ HF HF') in Q. assert (qs = qs') as -> by (destruct Q as [->|(-> & ->)]; destruct Q' as [Q'|(Q' & ->)]; congruence).
        apply (param_nth h fs ints v' qs' i q G Q') in RE. apply nth_error_In, in_rev in RE. destruct (Forall2_In_l _ _ _ _ PF RE) as (p & _ & PQ). eapply param_works; eauto.
      - apply (es_model raw LOADED rest es TR EV) in IE. destruct (CM _ _ _ IE) as (s & kvs & l & MN & MK & SU & NA). eapply model_step_works; eauto.
      - apply (es_auth raw LOADED rest es TR EV) in IE. destruct (CA _ _ IE) as (s & SF). exact (authorization_works prim float_of sep _ _ _ _ _ (nth_split_pointer _ _ _) SF).
      - eauto. }
    rewrite FE. cbn [bind]. destruct (inv_fold prim float_of sep raw LOADED rest es TR EV o es [] _ _ eq_refl (inv_start prim float_of sep o) FE) as (SW & T & P & D & S').
    assert (NE : u_paths u <> []). { destruct (CO _ _ _ _ OI0) as ((k & m & LO & _) & _). apply (es_op raw LOADED rest es TR EV) in OI0. destruct (proj2 (proj2 P) _ _ _ _ _ _ OI0 LO) as (item & G). intro X. rewrite X in G. discriminate G. }
    rewrite <- SW in MO. destruct (finished_ok u info' host base MO NE (proj1 P) (proj1 BA) (keys_based _ _ _ BA P)) as (sw' & paths & E' & _). eauto.
  Qed.
  (** ** What has been converted can be converted *)
  Lemma fold_all sw l : forall L u u', es = L ++ l -> inv prim float_of sep sw L u -> fold_ev prim float_of sep raw l u = Ok u' ->
    forall e, In e l -> exists L1 l1 u1 u2, es = L1 ++ e :: l1 /\ inv prim float_of sep sw L1 u1 /\ do_event prim float_of sep raw e u1 = Ok u2.
  Proof.
    induction l as [|e l IH]; intros L u u' EQ IV E e' I; [destruct I|]. cbn [fold_ev] in E. apply bind_ok in E as (u1 & E1 & E). destruct I as [<-|I]; [exists L, l, u, u1; auto|].
    apply (IH (L ++ [e]) u1 u'); [now rewrite <- app_assoc|eapply inv_step; eauto|exact E|exact I].
  Qed.
  Lemma extend_names scope s l : forall defs defs', extend sep scope s l defs = Ok defs' -> Forall (fun t => exists x, names sep scope t x) l.
  Proof.
    induction l as [|t l IH]; intros defs defs' E; cbn [extend] in E; [constructor|]. apply bind_ok in E as (a & A & E). apply bind_ok in E as (b & _ & E). apply bind_ok in E as (c & _ & E). apply bind_ok in E as (d & _ & E). apply bind_ok in E as (f & _ & E).
    constructor; [exists a; now apply compose_iff|]. destruct f; try discriminate E. eauto.
  Qed.
  Lemma model_facts r k M u u' : on_model prim float_of sep (at_model r k) M u = Ok u' ->
    exists s kvs l, model_named sep r M s /\ model_kvs prim float_of sep (rfc_escape r) M kvs /\ subtypes M l /\ Forall (fun t => exists x, names sep (rfc_escape r) t x) l.
  Proof.
    intro E. unfold on_model, at_model in E. rewrite nth_split_pointer in E. cbn [bind] in E. set (scope := rfc_escape r) in *.
    apply bind_ok in E as (id & ID & E). apply bind_ok in E as (s & SN & E). apply bind_ok in E as (o & O' & E). apply bind_ok in E as (pv & PV & E). apply bind_ok in E as (props & PR & E). apply bind_ok in E as (rq & RQ & E). apply bind_ok in E as (di & DI & E). apply bind_ok in E as (de & DE & E).
    apply bind_ok in E as (o' & _ & E). apply bind_ok in E as (st & SU & E). apply bind_ok in E as (l & SL & E). apply bind_ok in E as (defs & EX & E). exists s, (lits (model_sets props rq di de)), l.
    destruct pv as [| | | | | |d|]; try discriminate PR. apply properties_ok in PR. assert (SUB : subtypes M l) by (apply subtypes_iff; eauto). apply get_has in ID, PV, RQ, DI, DE. apply compose_iff in SN. split; [exists id; auto|]. split; [exists d, props, rq, di, de; auto 9|]. split; [exact SUB|]. eapply extend_names; eauto.
  Qed.
  Lemma upgrade_convertible host base sw : based raw host base -> upgrade prim float_of sep raw = Ok sw -> convertible prim float_of sep raw.
  Proof.
    intros BA E. unfold upgrade in E. rewrite (converted_events prim float_of sep raw LOADED rest es TR EV) in E. destruct (on_list raw) as [u0|] eqn:OL; [|discriminate E]. cbn [bind] in E. destruct (fold_ev prim float_of sep raw es u0) as [u|] eqn:FE; [|discriminate E]. cbn [bind] in E.
    destruct (list_ok prim float_of sep raw u0 (info_shape raw LOADED) OL) as (info & o & IF & MO & ->). pose proof (inv_start prim float_of sep o) as I0. pose proof (inv_fold prim float_of sep raw LOADED rest es TR EV o es [] _ _ eq_refl I0 FE) as (SW & T & P & D & S').
    pose proof (fold_all o es [] _ _ eq_refl I0 FE) as ALL. split; [eauto|]. split; [|split; [|split]].
    - destruct (u_paths u) as [|[k item] ps] eqn:EP; [unfold finished in E; rewrite EP in E; discriminate E|]. destruct P as (N & A & B). destruct (A k item) as (ops & NO & NE & MA & SL & CO); [rewrite sget_cons, str_eqb_refl; reflexivity|]. destruct ops as [|[m x] ops]; [now elim NE|].
      destruct (slot_end k m x (SL _ _ ltac:(rewrite sget_cons, str_eqb_refl; reflexivity))) as (_ & r & n & R & P & qs & (H1 & H2 & _) & _). eauto.
    - intros r n R O' OI. pose proof (proj2 (es_op raw LOADED rest es TR EV _ _ _ _) OI) as IE. destruct (ALL _ IE) as (L & l & u1 & u2 & EQ & (_ & _ & P1 & _) & E1). cbn [do_event] in E1.
      destruct (operation_step _ _ _ _ _ _ _ _ _ _ OI E1) as (k & m & x & item' & LO & OF & UF & _). destruct (item_at_ok prim float_of sep L k u1 P1) as (ops & NO & MA & _). destruct (made_sset prim float_of sep _ _ _ _ _ NO MA UF) as (FM & _). split; [exists k, m; split; [exact LO|now apply smem_In]|].
      destruct (op_object raw LOADED _ _ _ _ OI) as (h & fs & ints & -> & _ & v & qs & G & Q).
      assert (X : exists ps, Forall2 (parameter_for prim float_of sep (rfc_escape r)) (rev qs) ps).
      { assert (Y : Forall (fun q => exists p, parameter_for prim float_of sep (rfc_escape r) q p) (rev qs)).
        { apply Forall_forall. intros q IQ. apply in_rev, In_nth_error in IQ as (i & IQ). apply (param_nth h fs ints v qs i q G Q) in IQ. destruct (ALL (EParam r n i R (VObj h fs ints) q)) as (L' & l' & u3 & u4 & _ & _ & E3); [apply (es_param raw LOADED rest es TR EV); auto|]. cbn [do_event] in E3.
          destruct (parameter_step _ _ _ _ _ _ _ _ _ _ _ _ OI E3) as (k' & m' & p & item & x' & l0 & _ & PF & _). eauto. }
        clear - Y. induction Y as [|q l (p & H) _ (ps & F)]; [exists []; constructor|exists (p :: ps); now constructor]. }
      destruct X as (ps & PF). destruct (operation_put _ _ _ _ _ _ _ _ ps OF) as (_ & OF'). exists ps. eexists. split; [exact OF'|]. exists v, qs. split; [now left|]. auto.
    - intros r k M MI. pose proof (proj2 (es_model raw LOADED rest es TR EV _ _ _) MI) as IE. destruct (ALL _ IE) as (L & l & u1 & u2 & _ & _ & E1). cbn [do_event] in E1. eapply model_facts; eauto.
    - intros k A AI. pose proof (proj2 (es_auth raw LOADED rest es TR EV _ _) AI) as IE. destruct (ALL _ IE) as (L & l & u1 & u2 & _ & _ & E1). cbn [do_event] in E1. destruct (authorization_ok prim float_of sep _ _ _ _ E1) as (nm & s & _ & SF & _). eauto.
  Qed.
End End_.
