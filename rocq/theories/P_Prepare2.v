(** Lemmas for prepared applications: the state made by [create] and the scan of [Merge]. *)
From Coq Require Import Lia.
From Verif Require Import PyBase PyFacts PyInt PyJson M_JsonPtr S_JsonPtr M_Url P_Op M_SpecVal M_Parse M_SpecTree M_Merge M_MergeRef S_Parse S_SpecTree S_Merge S_MergeRef P_SpecBase P_Parse P_SpecTree P_Compare P_Merge P_MergeShape P_MergeRef P_Patch M_App S_App P_App P_Deep M_Scope M_Patch M_Validate M_OldValidate M_OldParse M_Upgrade P_Upgrade M_Prepare P_Grown P_Grown2 S_Prepare P_Prepare T_SpecTree T_MergeRef T_App.
Close Scope Q_scope.

(** ** Conversion makes objects *)
Lemma update_obj f x v w : update_field f x v = Ok w -> is_obj w.
Proof.
  unfold update_field. destruct v as [| | | | | | |h fs ints]; try discriminate. intro E.
  repeat match type of E with (if ?b then _ else _) = _ => destruct b end; try discriminate E; injection E as <-; exact I.
Qed.
Lemma sets_obj l : forall v w, is_obj v -> sets l v = Ok w -> is_obj w.
Proof.
  induction l as [|[n x] l IH]; intros v w O E; cbn [sets] in E; [injection E as <-; exact O|]. apply bind_ok in E as (v1 & V & E). eapply IH; [|exact E]. eapply update_obj; eauto.
Qed.
Lemma put_obj n x v : is_obj v -> is_obj (put n x v).
Proof. destruct v; auto. Qed.
Lemma fresh_obj c pl v : fresh c pl = Ok v -> is_obj v.
Proof. rewrite fresh_eq. intro E. injection E as <-. exact I. Qed.

Section Converted.
  Context (prim : str -> bool) (float_of : str -> res Q) (sep : str).
  Lemma on_list_obj o u : on_list o = Ok u -> is_obj (u_swagger u).
  Proof.
    intro E. unfold on_list in E. apply bind_ok in E as (s & F & E). apply fresh_obj in F.
    repeat match type of E with bind _ _ = _ => apply bind_ok in E as (? & ? & E) end. injection E as <-. cbn [u_swagger].
    match goal with H : sets (_ :: _) s = Ok _ |- _ => eapply sets_obj; [|exact H]; exact F end.
  Qed.
  Lemma convert_swagger root k p o st u : convert prim float_of sep root k p o st = Ok u ->
    match st with Some u0 => u_swagger u = u_swagger u0 \/ is_obj (u_swagger u) | None => is_obj (u_swagger u) end.
  Proof.
    intro E. destruct k; cbn [convert] in E.
    { apply on_list_obj in E. destruct st; auto. }
    all: destruct st as [u0|]; [left|discriminate E].
    - unfold on_resource in E. apply bind_ok in E as (n & _ & E). apply bind_ok in E as (b & _ & E). destruct b; [injection E as <-; reflexivity|].
      apply bind_ok in E as (t & _ & E). apply bind_ok in E as (t' & _ & E). injection E as <-. reflexivity.
    - unfold on_operation in E. repeat match type of E with bind _ _ = _ => apply bind_ok in E as (? & ? & E) end. injection E as <-. reflexivity.
    - unfold on_authorization in E. repeat (cbv zeta in E; match type of E with bind _ _ = _ => apply bind_ok in E as (? & ? & E) end). injection E as <-. reflexivity.
    - unfold on_parameter in E. repeat match type of E with bind _ _ = _ => apply bind_ok in E as (? & ? & E) end.
      destruct (sget _ (u_paths u0)); [|discriminate E]. repeat match type of E with bind _ _ = _ => apply bind_ok in E as (? & ? & E) end.
      match type of E with match ?ps with _ => _ end = _ => destruct ps; try discriminate E end. injection E as <-. reflexivity.
    - unfold on_model in E. repeat match type of E with bind _ _ = _ => apply bind_ok in E as (? & ? & E) end. injection E as <-. reflexivity.
  Qed.
  Definition good_up (st : option up) : Prop := match st with Some u => is_obj (u_swagger u) | None => True end.
  Lemma runs_good root p o ks : forall st st', good_up st -> runs prim float_of sep root ks p o st = Ok st' -> good_up st'.
  Proof.
    induction ks as [|k ks IH]; intros st st' G E; cbn [runs] in E; [injection E as <-; exact G|]. apply bind_ok in E as (u & U & E). eapply IH; [|exact E].
    apply convert_swagger in U. cbn [good_up]. destruct st as [u0|]; [|exact U]. destruct U as [U|U]; [|exact U]. rewrite U. exact G.
  Qed.
  Lemma steps_good root objs : forall st st', good_up st -> steps prim float_of sep root objs st = Ok st' -> good_up st'.
  Proof.
    induction objs as [|[p o] objs IH]; intros st st' G E; cbn [steps] in E; [injection E as <-; exact G|]. apply bind_ok in E as (s & R & E). eapply IH; [|exact E]. eapply runs_good; eauto.
  Qed.
  Lemma finished_obj u v : is_obj (u_swagger u) -> finished u = Ok v -> is_obj v.
  Proof.
    intros O E. unfold finished in E. destruct (common_prefix _) as [|c s]; [discriminate E|]. set (cm := if Ascii.eqb _ _ then _ else _) in E. destruct cm.
    - injection E as <-. now repeat apply put_obj.
    - apply bind_ok in E as (p & _ & E). apply bind_ok in E as (w & _ & E). eapply update_obj; eauto.
  Qed.
  Lemma upgrade_obj raw v : upgrade prim float_of sep raw = Ok v -> is_obj v.
  Proof.
    intro E. unfold upgrade in E. rewrite converted_steps in E. apply bind_ok in E as (st & S & E). apply bind_ok in S as (objs & _ & S).
    apply steps_good in S; [|exact I]. destruct st as [u|]; [|discriminate E]. eapply finished_obj; eauto.
  Qed.
  Lemma convert_obj raw v : convert_doc prim float_of sep raw = Ok v -> is_obj v.
  Proof.
    intro E. unfold convert_doc in E. apply bind_ok in E as (w & W & E). apply upgrade_obj in W. destruct w as [| | | | | | |h fs ints]; try contradiction.
    cbn [relocate assign_parents] in E. apply bind_ok in E as (d & _ & E). apply bind_ok in E as (e & _ & E). injection E as <-. exact I.
  Qed.
End Converted.

(** ** The state at the beginning *)
Section Start.
  Context (abs_uri win_uri : str -> str) (fetch : str -> res json) (prim : str -> bool) (float_of : str -> res Q) (sep : str) (fuel : nat).
  Notation conv := (convert_doc prim float_of sep).
  Notation load := (load_obj fetch (parse_listing fetch)).
  Notation normed := (normalised conv as_given).
  Notation merge_scan := (merge_scan abs_uri win_uri fetch prim float_of sep fuel).
  Context (b : bool).
  Hypothesis loaded_deep : forall a j p o ver url v, a_old a = b -> load j p = Ok (o, ver) -> normed a o url = Ok v -> deep v.
  Lemma started url nu u a o ver : normalize_url abs_uri win_uri url = Ok nu -> jr_split abs_uri win_uri nu = Ok (u, lit "#") -> u <> [] ->
    load nu None = Ok (o, ver) -> str_eqb ver (lit "1.2") = b ->
    create abs_uri win_uri fetch (parse_listing fetch) conv as_given fuel url = Ok a ->
    exists v0, normed (App [] None b 0) o u = Ok v0 /\ holds b u 0 a v0.
  Proof.
    intros N J NU L B E. unfold create in E. rewrite N in E. cbn [bind] in E. rewrite L in E. cbn [bind fst snd] in E. rewrite B in E. set (a0 := App [] None b 0) in *.
    assert (KS := as_given_some). assert (UP := fun o v => convert_obj prim float_of sep o v).
    destruct (prepare_obj abs_uri win_uri conv as_given _ a0 o nu) as [a1 [w|e]] eqn:P; [|discriminate E]. injection E as <-.
    assert (S0 : sound a0) by (constructor; [reflexivity|unfold whole; cbn; discriminate|intros ? ? ? ? (d & D & _); discriminate D|cbn; discriminate]).
    assert (D0 : all_deep a0) by (constructor; [unfold whole; cbn; discriminate|intros ? ? ? ? (d & D & _); discriminate D|cbn; discriminate]).
    pose proof P as P'. apply (prep_keeps abs_uri win_uri conv as_given _ a0 o nu u (lit "#")) in P; auto.
    2: { intros a' s b' y SB F. exact (solve_keeps abs_uri win_uri fetch (parse_listing fetch) conv as_given KS UP fuel _ _ _ _ _ SB F). }
    2: { intros v. exact (normed_some fetch (parse_listing fetch) conv as_given KS UP a0 _ _ _ _ u v L). }
    apply (prep_deep abs_uri win_uri conv as_given b _ a0 o nu u (lit "#")) in P'; auto.
    2: { intros a' s b' y SB OB DB F. exact (solve_deep abs_uri win_uri fetch (parse_listing fetch) conv as_given KS UP b loaded_deep fuel _ _ _ _ _ SB OB DB F). }
    2: { intros v NV. split; [exact (normed_some fetch (parse_listing fetch) conv as_given KS UP a0 _ _ _ _ u v L NV)|]. exact (loaded_deep a0 _ _ _ _ _ _ eq_refl L NV). }
    destruct P as (EX & S1 & _ & P). destruct P' as (_ & _ & D1 & DR). destruct (P w eq_refl) as (v & a2 & -> & NV & ST & _ & X).
    exists v. split; [exact NV|]. split; [|split; [reflexivity|]].
    - split; [|split].
      + destruct S1 as [A B' C D]. constructor; cbn; [exact A|exact B'|exact C|exact D].
      + cbn. now rewrite (ex_old _ _ EX).
      + destruct D1 as [A B' C]. constructor; [exact A|exact B'|]. cbn [a_root]. intros n w Q. injection Q as <- <-. exact (DR _ _ eq_refl).
    - unfold whole. cbn [a_objs]. apply (ex_whole _ _ X). unfold store in ST. cbn [a0 a_objs dget] in ST. injection ST as <-. unfold whole. cbn [a_objs]. rewrite sget_cons, str_eqb_refl. reflexivity.
  Qed.
  Lemma merge_scan_ok u n a v0 a' : holds b u n a v0 -> is_obj v0 -> merge_scan a = (a', Ok tt) ->
    exists v1, holds b u n a' v1 /\ is_obj v1 /\ grown (fun _ => True) v0 v1 /\ (forall cc, shaped cc v0 -> shaped cc v1) /\
      forall ts h fs ints, reach [] v0 ts (VObj h fs ints) -> h_cls h = CParameter \/ h_cls h = CResponse ->
        exists k jnts f, reach [] v1 ts (VObj k fs jnts) /\ sget (lit "final") jnts = Some f /\
          forall l, way abs_uri win_uri u v0 (h_cls h) [h_place h] (VObj h fs ints) l -> made_of (h_cls h) l f.
  Proof.
    intros HO OV E. pose proof HO as (FI & RT & WH). unfold M_Prepare.merge_scan, root_of in E. rewrite RT in E. cbn [bind] in E.
    assert (W : wfv v0). { destruct v0; try contradiction. apply deep_wfv. destruct FI as (_ & _ & AD). eapply ad_root; eauto. }
    destruct (c35_visits v0 [] W OV) as (objs & T & IN). rewrite T in E. pose proof (c35_once _ _ _ W OV T) as ND.
    destruct (merge_each_ok abs_uri win_uri fetch prim float_of sep fuel b (convert_obj prim float_of sep) loaded_deep u n v0 objs a v0 a' HO OV) as (v1 & H1 & O1 & G1 & S1 & F1); auto.
    { intros p o I. now apply IN. }
    { apply grown_same. }
    exists v1. split; [exact H1|]. split; [exact O1|]. split; [eapply grown_mono; [|exact G1]; auto|]. split; [exact S1|].
    intros ts h fs ints R C. apply F1 with (ints := ints); auto. apply IN. exists ts. split; [reflexivity|]. split; [exact R|exact Logic.I].
  Qed.
End Start.

(** ** Documents of version 2.0 *)
Section New.
  Context (abs_uri win_uri : str -> str) (fetch : str -> res json) (prim : str -> bool) (float_of : str -> res Q) (sep : str) (fuel : nat).
  Notation conv := (convert_doc prim float_of sep).
  Notation load := (load_obj fetch (parse_listing fetch)).
  Notation normed := (normalised conv as_given).
  Notation holds := (holds false).
  Hypothesis JD : forall j x, fetch j = Ok x -> wf x.
  Hypothesis NEW : forall j x v, fetch j = Ok x -> version_of x = Ok v -> is_version v "1.2" = false.

  Lemma load_new j p o ver : load j p = Ok (o, ver) -> exists x c v, fetch j = Ok x /\ o = New v /\ parse (Of c) [] x = Ok v /\ ver = lit "2.0" /\ (p = None -> c = CSwagger).
  Proof.
    intro L. unfold load_obj in L. apply bind_ok in L as (x & FX & L). apply bind_ok in L as (ve & VE & E). rewrite (NEW _ _ _ FX VE) in E.
    destruct (is_version ve "2.0").
    - apply bind_ok in E as (y & Y & E). injection E as <- <-. exists x, CSwagger, y. auto.
    - destruct p; [|discriminate E]. destruct (no_version ve); [|discriminate E]. apply bind_ok in E as (y & Y & E). injection E as <- <-. exists x, c, y. split; [auto|]. split; [auto|]. split; [auto|]. split; [auto|discriminate].
  Qed.
  Lemma new_deep a j p o ver url v : a_old a = false -> load j p = Ok (o, ver) -> normed a o url = Ok v -> deep v.
  Proof.
    intros AO L N. apply load_new in L as (x & c & w & FX & -> & P & _). apply JD in FX. unfold normalised in N. rewrite AO in N.
    destruct (c35_parsed _ _ _ _ FX P) as (W & _). eapply norm_deep; [exact W| |exact N]. eapply parse_deep; [apply Nat.lt_succ_diag_r|exact FX|exact P].
  Qed.
End New.
