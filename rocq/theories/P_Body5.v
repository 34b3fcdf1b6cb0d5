(** Proofs about what becomes of values by schemas (C67): all schemas of an application. *)
From Coq Require Import QArith Lia.
From Verif Require Import PyBase PyFacts PyInt PyJson M_JsonPtr S_JsonPtr M_Url P_Op M_SpecVal M_Parse M_SpecTree M_Merge M_MergeRef S_Parse S_SpecTree S_Merge S_MergeRef P_SpecBase P_Parse P_SpecTree P_Merge P_MergeShape P_MergeRef M_Scope M_Patch S_Patch P_Patch M_App S_App P_App P_Deep M_OldParse M_Upgrade M_Prepare P_Grown T_SpecTree T_App S_Cycles P_Cycles S_Compose P_Compare P_Convert P_Convert3.
From Verif Require M_Prim P_OldValidate.
From Verif Require Import S_Declared M_Declared P_Declared P_Declared2 S_Body M_Body P_Body P_Body4.
Close Scope Q_scope.
Open Scope nat_scope.

(** Values of the document itself (number 0) are where they are, those of the given schema get places. *)
Definition mv (n : nat) (ts : place) (y : val) : val := match n with 0 => y | S _ => relocate ts y end.
Lemma mv_get n ts k x y : field_of x (lit k) = Some y -> get k (mv n ts x) = Ok (mv n (ts ++ [lit k]) y).
Proof. intro F. destruct n; cbn [mv]; [now apply get_field|]. now rewrite relocate_get_field, F. Qed.
Lemma mv_obj n ts x : is_obj x -> exists h fs ints, mv n ts x = VObj h fs ints.
Proof. destruct x as [| | | | | | |h fs ints]; intros []. destruct n; cbn [mv]; rewrite ?relocate_obj; eauto. Qed.
Lemma mv_list n ts m : exists m', mv n ts (VList m) = VList m' /\ Forall2 (fun y y' => exists zs, inside (VList m) zs y /\ y' = mv n (ts ++ zs) y) m m'.
Proof.
  destruct n as [|n]; cbn [mv].
  - exists m. split; [reflexivity|]. assert (X : forall y, In y m -> exists zs, inside (VList m) zs y) by (intros y I; destruct (In_nth_error _ _ I) as (i & N); eexists; econstructor; [exact N|constructor]).
    revert X. generalize (VList m) as w. induction m as [|y m IH]; intros w X; constructor; [destruct (X y (or_introl eq_refl)) as (zs & Z); eauto|apply IH; intros z I; apply X; now right].
  - exists (relocate_list ts 0 m). rewrite relocate_vlist. split; [reflexivity|].
    assert (X : forall i y, nth_error m i = Some y -> inside (VList m) [str_of_nat (0 + i)] y) by (intros i y N; econstructor; [exact N|constructor]).
    revert X. generalize (VList m) as w, 0 as k. induction m as [|y m IH]; intros w k X; cbn [relocate_list]; constructor.
    + exists [str_of_nat k]. split; [|reflexivity]. specialize (X 0 y eq_refl). now rewrite Nat.add_0_r in X.
    + apply IH. intros i z N. specialize (X (S i) z N). rewrite <- Nat.add_succ_comm in X. exact X.
Qed.
Lemma mv_dict n ts d : NoDup (map fst d) -> exists d', mv n ts (VDict d) = VDict d' /\ Forall2 (fun kx kx' => fst kx' = fst kx /\ inside (VDict d) [fst kx] (snd kx) /\ snd kx' = mv n (ts ++ [fst kx]) (snd kx)) d d'.
Proof.
  intro ND. assert (X : forall k x, In (k, x) d -> inside (VDict d) [k] x) by (intros k x I; econstructor; [apply In_sget; eauto|constructor]). clear ND.
  destruct n as [|n]; cbn [mv]; [exists d|exists (relocate_dict ts d)]; (split; [reflexivity|]); revert X; generalize (VDict d) as w; induction d as [|[k x] d IH]; intros w X; cbn [relocate_dict]; constructor; cbn [fst snd];
    try (apply IH; intros k' y I; apply X; now right); (split; [reflexivity|]; split; [apply X; now left|reflexivity]).
Qed.

Section Heap.
  Context (abs_uri win_uri : str -> str) (fetch : str -> res json) (prim : str -> bool) (float_of : str -> res Q) (sep : str) (f : nat).
  Notation solve := (resolvef abs_uri win_uri fetch (parse_listing fetch) (convert_doc prim float_of sep) as_given).
  Context (a : app) (u : str) (root v : val).
  Hypothesis SH : shaped (Of CSwagger) root.
  Hypothesis SV : shaped (Of CSchema) v.
  Hypothesis WH : S_App.whole a u (0, root).
  Notation points := (points abs_uri win_uri u root).
  Hypothesis SC : self_contained abs_uri win_uri u root.
  Hypothesis VC : forall ts s r, schema_at v ts s -> field_of s (lit "$ref") = Some (VStr r) -> r <> [] -> exists ts' s', points r ts' s'.
  Hypothesis ONE : documents a = [(0, root)].
  Hypothesis UNIQ : settled root.
  Hypothesis RO : forall ts s, schema_at root ts s -> schema_order s.
  Hypothesis VO : forall ts s, schema_at v ts s -> schema_order s.
  Notation own := (S (a_loads a)).
  Notation schema_in := (schema_in abs_uri win_uri fetch prim float_of sep (S f) a).

  Definition doc (n : nat) : val := match n with 0 => root | S _ => v end.
  Lemma doc_shaped n ts x : schema_at (doc n) ts x -> shaped (Of CSchema) x.
  Proof. destruct n; intro A; [exact (schema_shaped _ _ _ _ SH A)|exact (schema_shaped _ _ _ _ SV A)]. Qed.
  Lemma doc_order n ts x : schema_at (doc n) ts x -> schema_order x. Proof. destruct n; eauto. Qed.
  Lemma doc_contained n ts s r : schema_at (doc n) ts s -> field_of s (lit "$ref") = Some (VStr r) -> r <> [] -> exists ts' s', points r ts' s'. Proof. destruct n; eauto. Qed.
  Definition entry (nx : nat * val) (x : val) : Prop := (fst nx = 0 \/ fst nx = own) /\ exists ts, schema_at (doc (fst nx)) ts x /\ snd nx = mv (fst nx) ts x.

  (** ** All schemas *)
  Lemma all_schemas : exists l, schemas_of (documents a ++ [(own, relocate [] v)]) = Ok l /\ (forall nx, In nx l <-> exists x, entry nx x).
  Proof.
    destruct (shaped_obj _ _ SH) as (h & fs & ints & E & _). destruct (shaped_obj _ _ SV) as (h' & fs' & ints' & E' & _).
    assert (W : wfv root) by exact (shaped_wfv _ _ _ (Nat.lt_succ_diag_r _) SH). assert (W' : wfv (relocate [] v)) by (apply (relocate_wfv _ v [] (Nat.lt_succ_diag_r _)); exact (shaped_wfv _ _ _ (Nat.lt_succ_diag_r _) SV)).
    destruct (traverse_ok root [] W ltac:(rewrite E; exact Logic.I)) as (r & R & IR & _). destruct (traverse_ok (relocate [] v) [] W' ltac:(rewrite E'; exact Logic.I)) as (q & Q & IQ & _).
    assert (CS : forall w l, is_obj w -> traverse w [] = Ok l -> match w with VObj _ _ _ => traverse w [] | _ => Ok [] end = Ok l) by (intros w l O T; destruct w; try destruct O; exact T).
    exists (map (fun po => (0, snd po)) (filter (fun po => same_class CSchema (snd po)) r) ++ map (fun po => (own, snd po)) (filter (fun po => same_class CSchema (snd po)) q)).
    split.
    - rewrite ONE. cbn [List.app schemas_of]. rewrite (CS root r), (CS (relocate [] v) q); try assumption; [|rewrite E'; exact Logic.I|rewrite E; exact Logic.I]. cbn [bind]. now rewrite app_nil_r.
    - intros [n x]. unfold entry. cbn [fst snd]. rewrite in_app_iff, !in_map_iff. split.
      + intros [([p y] & X & I)|([p y] & X & I)]; injection X as <- <-; apply filter_In in I as (I & C); cbn [snd] in *; apply schema_same in C.
        * apply IR in I as (ts & _ & RE & _). exists y. split; [now left|]. exists ts. split; [split; [exact RE|exact C]|reflexivity].
        * apply IQ in I as (ts & _ & RE & _). destruct (reach_relocate _ _ _ RE [] v eq_refl) as (o & RO' & ->). exists o. split; [now right|]. exists ts. cbn [doc mv List.app] in *. split; [split; [exact RO'|]|reflexivity].
          destruct C as (h0 & fs0 & ints0 & EO & C0). destruct o as [| | | | | | |h1 fs1 ints1]; try discriminate EO. rewrite relocate_obj in EO. injection EO as <- <- <-. exists h1, fs1, ints1. split; [reflexivity|exact C0].
      + intros (y & [->| ->] & ts & (RE & C) & X); cbn [doc mv] in *; subst x; [left|right].
        * exists (rfc_pointer (lit "#") ts, y). split; [reflexivity|]. apply filter_In. cbn [snd]. split; [|now apply schema_same]. apply IR. exists ts. split; [reflexivity|]. split; [exact RE|]. destruct C as (? & ? & ? & -> & _). exact Logic.I.
        * exists (rfc_pointer (lit "#") ts, relocate ts y). split; [reflexivity|]. destruct C as (h1 & fs1 & ints1 & -> & C1). apply filter_In. cbn [snd]. split; [|apply schema_same; rewrite relocate_obj; eexists _, _, _; split; [reflexivity|exact C1]]. apply IQ. exists ts. split; [reflexivity|]. split; [exact (relocate_reach _ _ _ RE [])|rewrite relocate_obj; exact Logic.I].
  Qed.
  Context (l : list (nat * val)).
  Hypothesis LI : forall nx, In nx l <-> exists x, entry nx x.
  Definition at_num (j : nat) (x : val) : Prop := exists nx, nth_error l j = Some nx /\ entry nx x.
  Lemma entry_obj n x' x : entry (n, x') x -> is_obj x /\ is_obj x'.
  Proof. intros (_ & ts & (_ & h & fs & ints & -> & _) & E). cbn [fst snd] in E. subst x'. destruct (mv_obj n ts (VObj h fs ints) Logic.I) as (? & ? & ? & ->). split; exact Logic.I. Qed.
  Lemma number_at n s i m : number_of m n s = Ok i -> exists s', nth_error m i = Some (n, s') /\ place_of s' = place_of s /\ is_obj s'.
  Proof.
    revert i. induction m as [|[k w] m IH]; intros i E; [discriminate E|]. cbn [number_of] in E. destruct s as [| | | | | | |h fs ints]; try discriminate E.
    destruct (is_at n (h_place h) (k, w)) eqn:A.
    - injection E as <-. unfold is_at in A. cbn [fst snd] in A. apply andb_true_iff in A as (A & B). apply Nat.eqb_eq in A. destruct w as [| | | | | | |k' es jnts]; try discriminate B. apply place_eqb_eq in B.
      exists (VObj k' es jnts). split; [cbn; congruence|]. split; [cbn; congruence|exact Logic.I].
    - apply bind_ok in E as (j & E & Q). injection Q as <-. now apply IH.
  Qed.
  Lemma number_in n s m : is_obj s -> In (n, s) m -> exists i, number_of m n s = Ok i.
  Proof.
    intros O. induction m as [|[k w] m IH]; intro I; [destruct I|]. destruct s as [| | | | | | |h fs ints]; try destruct O. cbn [number_of].
    destruct (is_at n (h_place h) (k, w)) eqn:A; [eauto|]. destruct I as [E|I].
    - injection E as -> ->. unfold is_at in A. cbn [fst snd] in A. rewrite Nat.eqb_refl, (proj2 (place_eqb_eq _ _) eq_refl) in A. discriminate A.
    - destruct (IH I) as (i & ->). cbn [bind]. eauto.
  Qed.
  Lemma entry_number n x' x : entry (n, x') x -> exists j, number_of l n x' = Ok j /\ at_num j x.
  Proof.
    intro EN. destruct (number_in n x' l (proj2 (entry_obj _ _ _ EN)) (proj2 (LI _) (ex_intro _ x EN))) as (j & J). exists j. split; [exact J|].
    destruct (number_at _ _ _ _ J) as (s' & N & P & _). exists (n, s'). split; [exact N|]. destruct (proj1 (LI _) (nth_error_In _ _ N)) as (y & EY). enough (y = x) as -> by exact EY.
    destruct EN as (O & ts & A & E), EY as (_ & ts' & A' & E'). cbn [fst snd] in *. subst x' s'. destruct n as [|n]; cbn [mv doc] in *; [exact (UNIQ _ _ _ _ A' A P)|].
    destruct A as (R & h & fs & ints & -> & _), A' as (R' & h' & fs' & ints' & -> & _). rewrite !relocate_obj in P. cbn [place_of h_place] in P. injection P as ->. exact (reach_fun _ _ _ R _ R').
  Qed.
  Lemma entry_kid n ts x k y zs z : n = 0 \/ n = own -> schema_at (doc n) ts x -> field_of x (lit k) = Some y -> In k ["properties"; "allOf"; "additionalProperties"; "items"]%string -> inside y zs z -> is_obj z -> entry (n, mv n ((ts ++ [lit k]) ++ zs) z) z.
  Proof.
    intros O A F I IN OZ. split; [exact O|]. cbn [fst snd]. exists ((ts ++ [lit k]) ++ zs). split; [|reflexivity]. destruct (schema_child x k y (doc_shaped _ _ _ A) F I zs z IN OZ) as (R & C). split; [|exact C]. rewrite <- app_assoc. eapply P_OldValidate.reach_app; [exact (proj1 A)|exact R].
  Qed.
  Lemma child_shape n ts x k ct cc y : schema_at (doc n) ts x -> sget (lit k) (t_child CSchema) = Some (ct, cc) -> field_of x (lit k) = Some y -> shaped_in ct cc y.
  Proof.
    intros A T F. pose proof (doc_shaped _ _ _ A) as H. destruct A as (_ & h & fs & ints & -> & C). rewrite <- C in H, T. destruct (shaped_field _ _ _ _ _ H F) as [(T' & _)|(? & ? & T' & X)]; congruence.
  Qed.
  Lemma shaped_is c x : shaped (Of c) x -> is_obj x. Proof. intro H. destruct (shaped_obj _ _ H) as (? & ? & ? & -> & _). exact Logic.I. Qed.

  (** ** One schema *)
  Lemma schema_full n ts x : n = 0 \/ n = own -> schema_at (doc n) ts x -> exists s, schema_in l (n, mv n ts x) = Ok s /\ full abs_uri win_uri u root at_num x s.
  Proof.
    intros O A. pose proof (doc_order _ _ _ A) as OR. pose proof (so_texts _ OR) as TX. rewrite Forall_forall in TX. unfold M_Body.schema_in.
    destruct (so_ref _ OR) as (rv & RF & RT). rewrite (mv_get n ts _ _ _ RF). cbn [bind].
    assert (R1 : mv n (ts ++ [lit "$ref"]) rv = rv) by (destruct RT as [->|(s & ->)], n; reflexivity). rewrite R1. clear R1.
    assert (R2 : exists ref, (do r <- reference rv; match r with None => Ok None | Some s => do o <- snd (solve (S f) a (Some s) (Some CSchema)); do i <- number_of l (fst o) (snd o); Ok (Some i) end) = Ok ref /\
      match ref with None => no_reference x | Some j => exists r ts' y, S_MergeRef.refers x r /\ points r ts' y /\ at_num j y end).
    { unfold reference. destruct (falsy rv) eqn:FA.
      - exists None. split; [reflexivity|]. exists rv. split; [exact RF|now apply falsy_spec].
      - destruct RT as [->|(rs & ->)]; [discriminate FA|]. cbn [bind]. assert (NE : rs <> []) by (intros ->; discriminate FA). destruct (doc_contained _ _ _ _ A RF NE) as (ts' & y & P).
        pose proof P as (_ & J & PA). assert (RX : returned y) by (destruct (proj2 PA) as (? & ? & ? & -> & _); exact Logic.I).
        pose proof (c43_whole abs_uri win_uri fetch (parse_listing fetch) (convert_doc prim float_of sep) as_given f a (Some CSchema) rs u 0 root ts' y NE J WH (proj1 PA) RX) as X. assert (X' : snd (solve (S f) a (Some rs) (Some CSchema)) = Ok (0, y)) by exact (f_equal snd X). rewrite X'. cbn [snd fst bind].
        destruct (entry_number 0 y y) as (j & NJ & AJ); [split; [now left|]; exists ts'; split; [exact PA|reflexivity]|]. rewrite NJ. cbn [bind]. exists (Some j). split; [reflexivity|]. exists rs, ts', y. split; [split; auto|auto]. }
    destruct R2 as (ref & R2 & REF). destruct (reference rv) as [r0|] eqn:RV; [cbn [bind] in R2 |- *; rewrite R2; cbn [bind]; clear R2 RV|discriminate R2].
    destruct (so_items _ OR) as (iv & IF & IT). rewrite (mv_get n ts _ _ _ IF). cbn [bind].
    assert (I2 : exists items, match mv n (ts ++ [lit "items"]) iv with VObj _ _ _ => do k <- number_of l n (mv n (ts ++ [lit "items"]) iv); Ok (Some k) | VNone => Ok None | _ => Err TypeError end = Ok items /\
      (is_obj iv -> exists j, items = Some j /\ at_num j iv)).
    { destruct IT as [->|OI]; [exists None; split; [destruct n; reflexivity|intros []]|].
      pose proof (entry_kid n ts x "items" iv [] iv O A IF ltac:(cbn; auto) (inside_here _) OI) as EN. rewrite app_nil_r in EN. destruct (entry_number _ _ _ EN) as (j & NJ & AJ). destruct (mv_obj n (ts ++ [lit "items"]) iv OI) as (h & fs & ints & E). rewrite E in NJ |- *. rewrite NJ. cbn [bind]. eauto. }
    destruct I2 as (items & I2 & ITEMS). rewrite I2. cbn [bind]. clear I2.
    destruct (so_allof _ OR) as (av & AF & AL). rewrite (mv_get n ts _ _ _ AF). cbn [bind].
    assert (A2 : exists allof, match mv n (ts ++ [lit "allOf"]) av with VList m => map_res (number_of l n) m | VNone => Ok [] | _ => Err TypeError end = Ok allof /\ (av = VNone \/ av = VList [] -> allof = []) /\ forall m, av = VList m -> Forall2 (fun y j => at_num j y) m allof).
    { destruct AL as [->|(m & ->)]; [exists []; split; [destruct n; reflexivity|split; [auto|discriminate]]|]. destruct (mv_list n (ts ++ [lit "allOf"]) m) as (m' & E & FM). rewrite E.
      assert (OM : forall y, In y m -> is_obj y). { pose proof (child_shape n ts x "allOf" ListOf (Of CSchema) _ A eq_refl AF) as X. inversion X as [| |? ? FA|]; subst. rewrite Forall_forall in FA. intros y I. exact (shaped_is _ _ (FA _ I)). }
      assert (NM : exists allof, Forall2 (fun y j => number_of l n y = Ok j) m' allof /\ Forall2 (fun y j => at_num j y) m allof).
      { assert (EK : forall y zs, inside (VList m) zs y -> is_obj y -> exists j, number_of l n (mv n ((ts ++ [lit "allOf"]) ++ zs) y) = Ok j /\ at_num j y).
        { intros y zs IN OY. exact (entry_number _ _ _ (entry_kid n ts x "allOf" _ zs y O A AF ltac:(cbn; auto) IN OY)). }
        clear - FM OM EK. revert FM EK. generalize (VList m) as w. intros w FM EK. induction FM as [|y y' m m' (zs & IN & ->) FM IH]; [exists []; split; constructor|]. destruct (EK y zs IN (OM y (or_introl eq_refl))) as (j & J & AJ). destruct IH as (al & AL & BL); [intros z I; apply OM; now right|]. exists (j :: al). split; constructor; auto. }
      destruct NM as (al & NM & AM). exists al. split; [now apply map_res_ok|]. split; [|intros m0 X; injection X as <-; exact AM]. intros [X|X]; [discriminate X|]. injection X as ->. now inversion AM. }
    destruct A2 as (allof & A2 & ALLOF & PARTS). rewrite A2. cbn [bind]. clear A2.
    destruct (so_properties _ OR) as (pv & PF & (d & ->)). rewrite (mv_get n ts _ _ _ PF). cbn [bind].
    pose proof (child_shape n ts x "properties" DictOf (Of CSchema) _ A eq_refl PF) as PS. inversion PS as [| | |? ? ND FD]; subst.
    destruct (mv_dict n (ts ++ [lit "properties"]) d ND) as (d' & E & FM). rewrite E. clear E.
    assert (P2 : exists props, map_res (fun kx => do k <- number_of l n (snd kx); Ok (fst kx, k)) d' = Ok props /\ Forall2 (fun kx kj => fst kx = fst kj /\ at_num (snd kj) (snd kx)) d props).
    { assert (EK : forall k y, inside (VDict d) [k] y -> is_obj y -> exists j, number_of l n (mv n ((ts ++ [lit "properties"]) ++ [k]) y) = Ok j /\ at_num j y).
      { intros k y IN OY. exact (entry_number _ _ _ (entry_kid n ts x "properties" _ [k] y O A PF ltac:(cbn; auto) IN OY)). }
      clear - FM FD EK. revert FM EK. generalize (VDict d) as w. intros w FM EK. enough (X : exists props, Forall2 (fun kx kj => (do k <- number_of l n (snd kx); Ok (fst kx, k)) = Ok kj) d' props /\ Forall2 (fun kx kj => fst kx = fst kj /\ at_num (snd kj) (snd kx)) d props) by (destruct X as (p & X & Y); exists p; split; [now apply map_res_ok|exact Y]).
      induction FM as [|[k y] [k' y'] d d' (K & IN & Y) FM IH]; [exists []; split; constructor|]. cbn [fst snd] in *. subst k' y'. inversion FD as [|? ? F1 F2]; subst. destruct (EK k y IN (shaped_is _ _ F1)) as (j & J & AJ). destruct (IH F2) as (ps & P1 & P2). exists ((k, j) :: ps). split; constructor; cbn [fst snd]; auto. now rewrite J. }
    destruct P2 as (props & P2 & PROPS). rewrite P2. cbn [bind]. clear P2 FM d'.
    destruct (so_additional _ OR) as (dv & DF & DT). rewrite (mv_get n ts _ _ _ DF). cbn [bind].
    assert (D2 : exists addl, match mv n (ts ++ [lit "additionalProperties"]) dv with VNone => Ok M_Prim.ANone | VBool b => Ok (M_Prim.ABool b) | VObj _ _ _ => do k <- number_of l n (mv n (ts ++ [lit "additionalProperties"]) dv); Ok (M_Prim.ASchema k) | _ => Err TypeError end = Ok addl /\
      match addl with M_Prim.ABool true => anything x | M_Prim.ASchema j => exists b, more x b /\ at_num j b | _ => nothing x end).
    { destruct DT as [->|[(b & ->)|OD]].
      - exists M_Prim.ANone. split; [destruct n; reflexivity|]. split; [unfold anything; congruence|]. intros b (B & OB). rewrite DF in B. injection B as <-. destruct OB.
      - exists (M_Prim.ABool b). split; [destruct n; reflexivity|]. destruct b; [exact DF|]. split; [unfold anything; congruence|]. intros b (B & OB). rewrite DF in B. injection B as <-. destruct OB.
      - pose proof (entry_kid n ts x "additionalProperties" dv [] dv O A DF ltac:(cbn; auto) (inside_here _) OD) as EN. rewrite app_nil_r in EN. destruct (entry_number _ _ _ EN) as (j & NJ & AJ). destruct (mv_obj n (ts ++ [lit "additionalProperties"]) dv OD) as (h & fs & ints & E). rewrite E in NJ |- *. rewrite NJ. cbn [bind]. exists (M_Prim.ASchema j). split; [reflexivity|]. exists dv. split; [split; assumption|exact AJ]. }
    destruct D2 as (addl & D2 & ADDL). rewrite D2. cbn [bind]. clear D2.
    destruct (view_full ref items allof props addl x OR) as (s & V & PL & S1 & S2 & S3 & S4 & S5 & S6 & S7 & RQ & DC & RDO & NM & DS). exists s. split; [destruct n; cbn [mv]; [exact V|rewrite (view_relocate _ _ _ _ _ _ _ OR); exact V]|].
    constructor; auto.
    - apply TX. cbn. auto.
    - now rewrite S3.
    - intros i FI OI. rewrite S4. assert (i = iv) as -> by congruence. exact (ITEMS OI).
    - intro AN. rewrite S5. apply ALLOF. destruct AL as [->|(m & ->)]; [now left|]. right. f_equal. now apply AN.
    - intros m FA. rewrite S5. apply PARTS. congruence.
    - exists d. split; [exact PF|]. split; [exact ND|]. now rewrite S6.
    - now rewrite S7.
    - destruct (so_default _ OR) as (dd & FD' & y & Y & PY). eauto.
  Qed.

End Heap.

Section Values.
  Context (abs_uri win_uri : str -> str) (fetch : str -> res json) (prim : str -> bool) (float_of : str -> res Q) (sep : str) (f : nat).
  Context (a : app) (u : str) (root v : val).
  Hypothesis SH : shaped (Of CSwagger) root.
  Hypothesis SV : shaped (Of CSchema) v.
  Hypothesis WH : S_App.whole a u (0, root).
  Notation points := (points abs_uri win_uri u root).
  Hypothesis SC : self_contained abs_uri win_uri u root.
  Hypothesis VC : forall ts s r, schema_at v ts s -> field_of s (lit "$ref") = Some (VStr r) -> r <> [] -> exists ts' s', points r ts' s'.
  Hypothesis ONE : documents a = [(0, root)].
  Hypothesis UNIQ : settled root.
  Hypothesis RO : forall ts s, schema_at root ts s -> schema_order s.
  Hypothesis VO : forall ts s, schema_at v ts s -> schema_order s.
  Lemma heap_of_body : exists l h i, body_heap abs_uri win_uri fetch prim float_of sep (S f) a v = Ok (h, i) /\
    (forall j x, at_num a root v l j x -> full abs_uri win_uri u root (at_num a root v l) x (M_Prim.sch h j)) /\ at_num a root v l i v.
  Proof.
    destruct (all_schemas a root v SH SV ONE) as (l & L & LI).
    assert (HP : exists h, map_res (schema_in abs_uri win_uri fetch prim float_of sep (S f) a l) l = Ok h).
    { assert (X : forall nx, In nx l -> exists s, schema_in abs_uri win_uri fetch prim float_of sep (S f) a l nx = Ok s).
      { intros [n x'] I. destruct (proj1 (LI _) I) as (x & O & ts & A & E). cbn [fst snd] in *. subst x'. destruct (schema_full abs_uri win_uri fetch prim float_of sep f a u root v SH SV WH SC VC UNIQ RO VO l LI n ts x O A) as (s & S & _). eauto. }
      clear L LI. generalize (schema_in abs_uri win_uri fetch prim float_of sep (S f) a l) as g, X. clear X. intros g. induction l as [|nx l IH]; intro X; [exists []; reflexivity|]. destruct (X nx (or_introl eq_refl)) as (s & S). destruct IH as (h & H); [intros y I; apply X; now right|]. exists (s :: h). cbn [map_res]. rewrite S, H. reflexivity. }
    destruct HP as (h & HP). assert (VS : schema_at v [] v). { split; [constructor|]. destruct (shaped_obj _ _ SV) as (h0 & fs & ints & -> & C). exists h0, fs, ints. auto. }
    destruct (entry_number a root v UNIQ l LI (S (a_loads a)) (relocate [] v) v) as (i & NI & AI); [split; [now right|]; exists []; split; [exact VS|reflexivity]|].
    exists l, h, i. split; [unfold body_heap; rewrite L; cbn [bind]; rewrite HP; cbn [bind]; rewrite NI; reflexivity|]. split; [|exact AI].
    intros j x ((n & x') & NJ & O & ts & A & E). cbn [fst snd] in *. subst x'. destruct (schema_full abs_uri win_uri fetch prim float_of sep f a u root v SH SV WH SC VC UNIQ RO VO l LI n ts x O A) as (s & S & F).
    apply map_res_ok in HP. destruct (Forall2_nth_l _ _ _ _ _ HP NJ) as (s' & NS & S'). rewrite S in S'. injection S' as <-. unfold M_Prim.sch. rewrite (nth_error_nth _ _ _ NS). exact F.
  Qed.
End Values.
