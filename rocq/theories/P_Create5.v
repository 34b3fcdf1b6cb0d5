(** Lemmas for creating applications: composing the schemas succeeds. *)
From Coq Require Import Lia.
From Verif Require Import PyBase PyFacts PyInt PyJson M_JsonPtr S_JsonPtr M_Url P_Op M_SpecVal M_Parse M_SpecTree M_Merge M_MergeRef S_Parse S_SpecTree S_Merge S_MergeRef P_SpecBase P_Parse P_SpecTree P_Merge P_MergeShape P_MergeRef M_Scope M_Patch S_Patch P_Patch M_App S_App P_App P_Deep M_OldParse M_Upgrade M_Prepare T_App S_Cycles P_Cycles P_Compose.
From Verif Require M_Aggt S_Aggt T_Aggt.
Close Scope Q_scope.

Lemma map_res_all {A B} (f : A -> res B) l : (forall x, In x l -> exists y, f x = Ok y) -> exists r, map_res f l = Ok r.
Proof.
  intro F. assert (X : exists r, Forall2 (fun x y => f x = Ok y) l r).
  { induction l as [|x l IH]; [eexists; constructor|]. destruct (F x (or_introl eq_refl)) as (y & Y). destruct IH as (r & R); [intros z I; apply F; now right|]. exists (y :: r). now constructor. }
  destruct X as (r & R). exists r. now apply map_res_ok.
Qed.
Lemma map_res_same {A B} (f : nat -> A -> res B) l : (forall x, In x l -> exists y, forall n, f n x = Ok y) -> exists r, forall n, map_res (f n) l = Ok r.
Proof.
  intro F. assert (X : exists r, forall n, Forall2 (fun x y => f n x = Ok y) l r).
  { induction l as [|x l IH]; [eexists; constructor|]. destruct (F x (or_introl eq_refl)) as (y & Y). destruct IH as (r & R); [intros z I; apply F; now right|]. exists (y :: r). intro n. constructor; auto. }
  destruct X as (r & R). exists r. intro n. now apply map_res_ok.
Qed.

Section Heap.
  Context (abs_uri win_uri : str -> str) (fetch : str -> res json) (prim : str -> bool) (float_of : str -> res Q) (sep : str).
  Notation solve := (resolvef abs_uri win_uri fetch (parse_listing fetch) (convert_doc prim float_of sep) as_given).
  Context (a : app) (u : str) (root : val) (objs : list (str * val)).
  Hypothesis SH : shaped (Of CSwagger) root.
  Hypothesis RT : a_root a = Some (0, root).
  Hypothesis WH : whole a u (0, root).
  Hypothesis TR : traverse root [] = Ok objs.
  Hypothesis SC : self_contained abs_uri win_uri u root.
  Hypothesis ONE : documents a = [(0, root)].
  Hypothesis UNIQ : forall s s', sch root s -> sch root s' -> place_of s = place_of s' -> s = s'.
  (** What is known about the schemas *)
  Hypothesis REF : forall s x, sch root s -> field_of s (lit "$ref") = Some x -> empty_value x \/ exists r, x = VStr r.
  Hypothesis PRO : forall s, sch root s -> exists d, field_of s (lit "properties") = Some (VDict d).
  Hypothesis REQ : forall s x, sch root s -> field_of s (lit "required") = Some x -> S_Aggt.list_or_none x.
  Hypothesis VAL : forall n, (forall s x, sch root s -> field_of s n = Some x -> S_Aggt.list_or_none x) \/ (forall s x, sch root s -> field_of s n = Some x -> S_Aggt.dict_or_none x) \/
    (forall s x, sch root s -> field_of s n = Some x -> ~ container x).
  Hypothesis NAM : forall s x, sch root s -> internal_of s (lit "name") = Some x -> ~ container x.

  Notation node_of f := (node_of abs_uri win_uri fetch prim float_of sep (S f) a).
  Notation sl := (filter (fun po : str * val => same_class CSchema (snd po)) objs).
  Notation l := (map (fun po : str * val => (0, snd po)) sl).
  Lemma number_ok s : sch root s -> exists i, number_of l 0 s = Ok i.
  Proof. intro S. destruct (num_ex abs_uri win_uri a u root objs SH RT WH TR SC ONE s S) as (i & _ & N). eauto. Qed.
  Lemma int_name s : sch root s -> exists x, internal_of s (lit "name") = Some x.
  Proof.
    intro S. pose proof (sch_shaped root SH s S) as SS. destruct (sch_obj root s S) as (h & fs & ints & -> & C). rewrite <- C in SS. destruct (class_complete _ _ _ SS) as (_ & KI). cbn [internal_of].
    apply sget_Some_key. rewrite KI, C. apply mem_In. reflexivity.
  Qed.
  Lemma node_ok s : sch root s -> exists n, forall f, node_of f l (0, s) = Ok n.
  Proof.
    intro S. destruct (sch_obj root s S) as (h & fs & ints & Q & C).
    assert (AT : forall n df, sget n (t_fields CSchema) = Some df -> exists x, field_of s n = Some x /\ attr fs ints n = Ok x).
    { intros n df G. destruct (field_present root SH s n df S G) as (x & X). exists x. split; [exact X|]. rewrite Q in X. cbn [field_of] in X. unfold attr. now rewrite X. }
    assert (PL : exists plain, map_res (fun nd : str * json => do x <- attr fs ints (fst nd); Ok (fst nd, x)) M_Aggt.plain_fields = Ok plain).
    { apply map_res_all. intros (n, df) I. unfold M_Aggt.plain_fields in I. apply in_app_iff in I as [I|[E|[]]].
      - apply filter_In in I as (I & _). apply In_sget in I; [|apply fields_nodup]. destruct (AT n df I) as (x & _ & X). cbn [fst]. rewrite X. cbn [bind]. eauto.
      - apply (f_equal fst) in E. cbn [fst] in E |- *. rewrite <- E. destruct (int_name s S) as (x & X). rewrite Q in X. cbn [internal_of] in X. unfold attr. destruct (sget (lit "name") fs); [cbn [bind]; eauto|]. rewrite X. cbn [bind]. eauto. }
    destruct PL as (plain & PL). destruct (AT (lit "$ref") _ eq_refl) as (rv & RV & AR).
    assert (RF : exists ref, forall f, (do r <- reference rv; match r with None => Ok None | Some q => do o <- snd (solve (Datatypes.S f) a (Some q) (Some CSchema)); do i <- number_of l (fst o) (snd o); Ok (Some i) end) = Ok ref).
    { unfold reference. destruct (falsy rv) eqn:FA; [exists None; reflexivity|]. destruct (REF s rv S RV) as [EV|(r & ->)]; [apply falsy_spec in EV; congruence|]. cbn [bind].
      assert (NE : r <> []) by (intros ->; discriminate FA). destruct S as (ts0 & SA). destruct (SC _ _ _ SA RV NE) as (ts & x & _ & J & A). destruct (number_ok x (ex_intro _ ts A)) as (i & NI). exists (Some i). intro f.
      assert (RX : returned x) by (destruct (proj2 A) as (? & ? & ? & -> & _); exact I).
      pose proof (c43_whole abs_uri win_uri fetch (parse_listing fetch) (convert_doc prim float_of sep) as_given f a (Some CSchema) r u 0 root ts x NE J WH (proj1 A) RX) as X.
      assert (Y : snd (solve (Datatypes.S f) a (@Some str r) (Some CSchema)) = Ok (0, x)) by exact (f_equal snd X). rewrite Y. cbn [bind fst snd]. rewrite NI. reflexivity. }
    destruct RF as (ref & RF). destruct (AT (lit "items") _ eq_refl) as (iv & IV & AI).
    assert (IT : exists items, match iv with VObj _ _ _ => do k <- number_of l 0 iv; Ok (Some k) | _ => Ok None end = Ok items).
    { destruct iv; eauto. destruct (number_ok _ (one_sch root SH s "items" _ S ltac:(cbn; auto) IV I)) as (i & ->). cbn [bind]. eauto. }
    destruct IT as (items & IT). destruct (AT (lit "allOf") _ eq_refl) as (av & AV & AA).
    assert (AL : exists allof, match av with VList m => map_res (number_of l 0) m | _ => Ok [] end = Ok allof).
    { destruct av; eauto. apply map_res_all. intros x IX. apply number_ok. exact (allof_sch root SH s _ x S AV IX). }
    destruct AL as (allof & AL). destruct (AT (lit "properties") _ eq_refl) as (pv & PV & AP). destruct (PRO s S) as (d & PD). assert (pv = VDict d) as -> by congruence.
    assert (PR : exists props, map_res (fun kx : str * val => do k <- number_of l 0 (snd kx); Ok (fst kx, k)) d = Ok props).
    { apply map_res_all. intros (k, x) IX. cbn [fst snd]. assert (ND : NoDup (map fst d)) by exact (props_nodup root SH s d S PD). destruct (number_ok x (prop_sch root SH s d k x S PD (In_sget _ _ _ ND IX))) as (i & ->). cbn [bind]. eauto. }
    destruct PR as (props & PR). destruct (AT (lit "additionalProperties") _ eq_refl) as (dv & DV & AD).
    assert (ADD : exists addl, match dv with VBool b => Ok (M_Aggt.ABool b) | VObj _ _ _ => do k <- number_of l 0 dv; Ok (M_Aggt.AObj k) | _ => Ok (M_Aggt.ABool true) end = Ok addl).
    { destruct dv; eauto. destruct (number_ok _ (one_sch root SH s "additionalProperties" _ S ltac:(cbn; auto) DV I)) as (i & ->). cbn [bind]. eauto. }
    destruct ADD as (addl & ADD). exists (M_Aggt.Node plain ref None items allof props addl). intro f. unfold M_Prepare.node_of. rewrite Q at 1. rewrite PL. cbn [bind]. rewrite AR. cbn [bind]. specialize (RF f).
    apply bind_ok in RF as (r & RR & RF). rewrite RR. cbn [bind]. rewrite RF. cbn [bind]. rewrite AI. cbn [bind]. rewrite IT. cbn [bind]. rewrite AA. cbn [bind]. rewrite AL. cbn [bind]. rewrite AP. cbn [bind]. rewrite PR. cbn [bind]. rewrite AD. cbn [bind]. rewrite ADD. reflexivity.
  Qed.
  Lemma in_l n s : In (n, s) l -> n = 0 /\ sch root s.
  Proof.
    intro IL. apply in_map_iff in IL as ((p & x) & E & IX). injection E as <- <-. split; [reflexivity|]. apply (in_sl abs_uri win_uri a u root objs SH RT WH TR SC ONE). eauto.
  Qed.
  Lemma heap_regular f hp : map_res (node_of f l) l = Ok hp -> S_Aggt.regular hp.
  Proof.
    intro HP.
    assert (BACK : forall i k v, S_Aggt.field hp i k v -> exists s, sch root s /\ attr_of s (lit k) = Some v /\ In (lit k) (map fst M_Aggt.plain_fields)).
    { intros i k v (n & NN & G). destruct (hp_back abs_uri win_uri fetch prim float_of sep f a u root objs SH RT WH TR SC ONE hp HP i n NN) as (s & A & DS). exists s.
      assert (IK : In (lit k) (map fst M_Aggt.plain_fields)). { rewrite <- (d_plain _ _ _ _ _ _ _ DS). apply in_map_iff. exists (lit k, v). split; [reflexivity|exact (sget_In _ _ _ G)]. }
      split; [|split; [|exact IK]]. { apply nth_error_In, in_l in A as (_ & S). exact S. } now apply (d_value _ _ _ _ _ _ _ DS). }
    assert (FLD : forall s k v, sch root s -> attr_of s (lit k) = Some v -> In (lit k) (map fst M_Aggt.plain_fields) -> lit k <> lit "name" -> field_of s (lit k) = Some v).
    { intros s k v S A IK NN. unfold M_Aggt.plain_fields in IK. rewrite map_app in IK. apply in_app_iff in IK as [IK|[E|[]]]; [|now elim NN].
      apply in_map_iff in IK as ((n & df) & E & IK). cbn [fst] in E. subst n. apply filter_In in IK as (IK & _). apply In_sget in IK; [|apply fields_nodup]. destruct (field_present root SH s _ df S IK) as (x & X). unfold attr_of in A. rewrite X in A |- *. exact A. }
    split.
    - intros i v F. destruct (BACK _ _ _ F) as (s & S & A & IK). apply (REQ s); [exact S|]. apply FLD; auto. discriminate.
    - intro k. destruct (str_eqb_spec (lit k) (lit "name")) as [E|NE].
      + right. right. intros i v F. destruct (BACK _ _ _ F) as (s & S & A & IK). apply (NAM s); [exact S|]. rewrite E in A. unfold attr_of in A. destruct (field_of s (lit "name")) as [y|] eqn:FY; [|exact A].
        exfalso. pose proof (sch_shaped root SH s S) as SS. destruct (sch_obj root s S) as (h & fs & ints & -> & C). rewrite <- C in SS. destruct (class_complete _ _ _ SS) as (KF & _). cbn [field_of] in FY. apply sget_In, (in_map fst) in FY. rewrite KF, C in FY. apply mem_In in FY. vm_compute in FY. discriminate FY.
      + destruct (VAL (lit k)) as [V|[V|V]]; [left|right; left|right; right]; intros i v F; destruct (BACK _ _ _ F) as (s & S & A & IK); exact (V s v S (FLD s k v S A IK NE)).
  Qed.
  Lemma aggregate_scan_Ok : exists N hp, forall fuel, N <= fuel -> aggregate_scan abs_uri win_uri fetch prim float_of sep fuel a objs = Ok hp.
  Proof.
    destruct (map_res_same (fun f => node_of f l) l) as (h & H). { intros (n & s) IL. apply in_l in IL as (-> & S). now apply node_ok. }
    destruct (map_res_all (fun po : str * val => number_of l 0 (snd po)) sl) as (ids & IDS). { intros (p & s) IL. cbn [snd]. apply number_ok. apply (in_sl abs_uri win_uri a u root objs SH RT WH TR SC ONE). eauto. }
    destruct (T_Aggt.c41_possible h ids) as (N & hp & A).
    - exact (hp_fresh abs_uri win_uri fetch prim float_of sep 0 a u root objs SH RT WH TR SC ONE UNIQ h (H 0)).
    - exact (heap_regular 0 h (H 0)).
    - exact (ids_nodes abs_uri win_uri fetch prim float_of sep 0 a u root objs SH RT WH TR SC ONE UNIQ h (H 0) ids IDS).
    - exists (S N), hp. intros [|fuel] L; [lia|]. unfold aggregate_scan, heap_of. rewrite (schemas_l a root objs SH TR ONE). cbn [bind]. rewrite H. cbn [bind fst snd]. rewrite RT. cbn [bind]. rewrite IDS. cbn [bind]. apply A. lia.
  Qed.
End Heap.
