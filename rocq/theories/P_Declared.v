(** Proofs about what the factory reads of declarations (C66). *)
From Coq Require Import QArith Lia.
From Verif Require Import PyBase PyFacts PyJson P_Op M_SpecVal M_Parse M_SpecTree M_Merge M_MergeRef M_Patch S_Parse S_SpecTree S_Merge S_MergeRef P_SpecBase P_Merge M_Declared S_Declared.
From Verif Require M_Prim S_Prim.
Close Scope Q_scope.
Open Scope nat_scope.

(** The schema [s] of M_Prim says what the object [f] says. *)
(** The plain fields *)
Record mirror_plain (f : val) (s : M_Prim.schema) : Prop := {
  mi_type : forall t, M_Prim.s_type s = Some t <-> text_at f "type" t;
  mi_format : forall t, M_Prim.s_format s = Some t <-> text_at f "format" t;
  mi_default : exists d, field_of f (lit "default") = Some d /\ M_Prim.s_default s = value_of d /\ exists x, same_value d x;
  mi_max : forall q, M_Prim.s_max s = Some q <-> number_at f "maximum" q;
  mi_min : forall q, M_Prim.s_min s = Some q <-> number_at f "minimum" q;
  mi_multiple : forall q, M_Prim.s_multiple s = Some q <-> number_at f "multipleOf" q;
  mi_exmax : M_Prim.s_exmax s = true <-> switched_on f "exclusiveMaximum";
  mi_exmin : M_Prim.s_exmin s = true <-> switched_on f "exclusiveMinimum";
  mi_unique : M_Prim.s_unique s = true <-> switched_on f "uniqueItems";
  mi_maxlen : forall z, M_Prim.s_maxlen s = Some z <-> size_at f "maxLength" z;
  mi_minlen : forall z, M_Prim.s_minlen s = Some z <-> size_at f "minLength" z;
  mi_maxitems : forall z, M_Prim.s_maxitems s = Some z <-> size_at f "maxItems" z;
  mi_minitems : forall z, M_Prim.s_minitems s = Some z <-> size_at f "minItems" z;
  mi_enum : field_of f (lit "enum") = Some VNone /\ M_Prim.s_enum s = [] \/ exists l, field_of f (lit "enum") = Some (VList l) /\ M_Prim.s_enum s = map value_of l }.
Record mirror (f : val) (s : M_Prim.schema) : Prop := {
  mi_plain :> mirror_plain f s;
  mi_full : M_Prim.s_full s = false;
  mi_ref : M_Prim.s_ref s = None;
  mi_cf : exists c, M_Prim.s_cf s = Some c /\ text_at f "collectionFormat" c }.

Lemma get_field n f v : field_of f (lit n) = Some v -> get n f = Ok v.
Proof. destruct f; try discriminate. cbn [field_of get]. unfold attr. now intros ->. Qed.
Lemma opt_text_ok f n : field_ok f text_or_none n -> exists o, (do x <- get n f; opt_text x) = Ok o /\ forall t, o = Some t <-> text_at f n t.
Proof.
  intros (v & F & [->|(s & ->)]); rewrite (get_field _ _ _ F); cbn [bind opt_text]; eexists; (split; [reflexivity|]); unfold text_at; rewrite F; intro t; split; intro E; try discriminate E; congruence.
Qed.
Lemma opt_number_ok f n : field_ok f number_or_none n -> exists o, (do x <- get n f; opt_number x) = Ok o /\ forall t, o = Some t <-> number_at f n t.
Proof.
  intros (v & F & [->|[(s & ->)|(s & ->)]]); rewrite (get_field _ _ _ F); cbn [bind opt_number]; eexists; (split; [reflexivity|]); intro t; (split; intro E; [try discriminate E; injection E as <-|inversion E; congruence]).
  - now apply na_int.
  - now apply na_float.
Qed.
Lemma opt_size_ok f n : field_ok f size_or_none n -> exists o, (do x <- get n f; opt_size x) = Ok o /\ forall t, o = Some t <-> size_at f n t.
Proof.
  intros (v & F & [->|(s & ->)]); rewrite (get_field _ _ _ F); cbn [bind opt_size]; eexists; (split; [reflexivity|]); unfold size_at; rewrite F; intro t; split; intro E; try discriminate E; congruence.
Qed.
Lemma flag_ok f n : field_ok f (fun _ => True) n -> exists b, (do x <- get n f; Ok (negb (falsy x))) = Ok b /\ (b = true <-> switched_on f n).
Proof.
  intros (v & F & _). rewrite (get_field _ _ _ F). cbn [bind]. eexists. split; [reflexivity|]. unfold switched_on. rewrite Bool.negb_true_iff. split.
  - intro E. exists v. split; [exact F|]. intro X. apply falsy_spec in X. congruence.
  - intros (w & G & NE). assert (w = v) as -> by congruence. destruct (falsy v) eqn:E; [|reflexivity]. now apply falsy_spec in E.
Qed.

(** ** One object *)
Lemma view_mirror it f : in_order f -> exists s, view it f = Ok s /\ M_Prim.s_items s = it /\ mirror f s.
Proof.
  intro I. inversion I as [f' C NM TF NF SF FF EN DF CF _ X]; subst f'. rewrite Forall_forall in TF, NF, SF, FF. unfold view.
  assert (NE : exists o, (if same_class CParameter f then do n <- (do x <- get "name" f; opt_text x); Ok (Some n) else Ok None) = Ok o).
  { destruct (same_class CParameter f) eqn:SC; [|eauto].
    assert (IC : is_class CParameter f). { destruct f as [| | | | | | |h fs ints]; try destruct C. all: exists h, fs, ints; split; [reflexivity|]; cbn [same_class] in SC; now apply cls_eqb_eq in SC. }
    destruct (opt_text_ok f "name" (NM IC)) as (o & E & _). rewrite E. cbn [bind]. eauto. }
  destruct NE as (nm & ->). cbn [bind].
  destruct (opt_text_ok f "type" (TF "type"%string ltac:(cbn; auto))) as (ty & -> & TY). cbn [bind].
  destruct (opt_text_ok f "format" (TF "format"%string ltac:(cbn; auto))) as (fm & -> & FM). cbn [bind].
  destruct DF as (d & DF & NO). rewrite (get_field _ _ _ DF). cbn [bind].
  destruct (opt_number_ok f "maximum" (NF "maximum"%string ltac:(cbn; auto))) as (mx & -> & MX). cbn [bind].
  destruct (flag_ok f "exclusiveMaximum" (FF "exclusiveMaximum"%string ltac:(cbn; auto))) as (xx & -> & XX). cbn [bind].
  destruct (opt_number_ok f "minimum" (NF "minimum"%string ltac:(cbn; auto))) as (mn & -> & MN). cbn [bind].
  destruct (flag_ok f "exclusiveMinimum" (FF "exclusiveMinimum"%string ltac:(cbn; auto))) as (xn & -> & XN). cbn [bind].
  destruct (opt_size_ok f "maxLength" (SF "maxLength"%string ltac:(cbn; auto))) as (mxl & -> & MXL). cbn [bind].
  destruct (opt_size_ok f "minLength" (SF "minLength"%string ltac:(cbn; auto))) as (mnl & -> & MNL). cbn [bind].
  destruct (opt_size_ok f "maxItems" (SF "maxItems"%string ltac:(cbn; auto))) as (mxi & -> & MXI). cbn [bind].
  destruct (opt_size_ok f "minItems" (SF "minItems"%string ltac:(cbn; auto))) as (mni & -> & MNI). cbn [bind].
  destruct (opt_number_ok f "multipleOf" (NF "multipleOf"%string ltac:(cbn; auto))) as (mu & -> & MU). cbn [bind].
  destruct EN as (e & EF & EN). rewrite (get_field _ _ _ EF). cbn [bind].
  assert (EL : exists l, opt_list e = Ok l /\ (e = VNone /\ l = [] \/ exists m, e = VList m /\ l = map value_of m)) by (destruct EN as [->|(l & ->)]; cbn; eexists; split; eauto).
  destruct EL as (el & -> & EL). cbn [bind].
  destruct (flag_ok f "uniqueItems" (FF "uniqueItems"%string ltac:(cbn; auto))) as (un & -> & UN). cbn [bind].
  destruct CF as (c & CF & (cs & ->)). rewrite (get_field _ _ _ CF). cbn [bind].
  eexists. split; [reflexivity|]. split; [reflexivity|]. constructor; [constructor|..]; cbn; auto.
  - eauto.
  - destruct EL as [(-> & ->)|(m & -> & ->)]; [left; auto|right; eauto].
  - eauto.
Qed.

(** ** Nested items *)
Lemma declared_eq i h fs ints : declared i (VObj h fs ints) =
  do below <- match sget (lit "items") fs with
              | Some x => match x with VObj _ _ _ => declared (S i) x | VNone => Ok [] | _ => Err TypeError end
              | None => Err AttributeError
              end;
  do s <- view (match below with [] => None | _ => Some (S i) end) (VObj h fs ints);
  Ok (s :: below).
Proof.
  cbn [declared]. f_equal. generalize (lit "items"). intro n. induction fs as [|[k x] fs IH]; [reflexivity|]. cbn [sget]. destruct (str_eqb n k); [reflexivity|exact IH].
Qed.
(** From the position [o] on, [h] has [f] and the items in it, [n] objects. *)
Inductive shown (h : list M_Prim.schema) : nat -> nat -> val -> Prop :=
| sh_last o f : mirror f (M_Prim.sch h o) -> M_Prim.s_items (M_Prim.sch h o) = None -> ~ of_type f "array" -> shown h 1 o f
| sh_more n o f i : mirror f (M_Prim.sch h o) -> M_Prim.s_items (M_Prim.sch h o) = Some (S o) -> field_of f (lit "items") = Some i -> shown h n (S o) i -> shown h (S n) o f.
Lemma in_order_ind' (P : val -> Prop) :
  (forall f, in_order f -> (field_of f (lit "items") = Some VNone /\ ~ of_type f "array" \/ exists i, field_of f (lit "items") = Some i /\ in_order i /\ P i) -> P f) -> forall f, in_order f -> P f.
Proof.
  intros H. fix IH 2. intros f X. apply H; [exact X|]. destruct X as [f _ _ _ _ _ _ _ _ _ [A|(i & A & B)]]; [left; exact A|right; exists i; split; [exact A|split; [exact B|exact (IH i B)]]].
Qed.
Lemma declared_shown f : in_order f -> forall i, exists l, declared i f = Ok l /\ l <> [] /\ forall pre more, length pre = i -> shown (pre ++ l ++ more) (length l) i f.
Proof.
  intro X. induction X as [f X H] using in_order_ind'. intro i. destruct f as [| | | | | | |h fs ints]; try (inversion X as [f' C]; destruct C; fail). rewrite declared_eq. cbn [field_of] in H.
  assert (NTH : forall pre s l more, length pre = i -> M_Prim.sch (pre ++ (s :: l) ++ more) i = s).
  { intros pre s l more L. unfold M_Prim.sch. rewrite app_nth2 by lia. replace (i - length pre) with 0 by lia. reflexivity. }
  destruct H as [(E & NA)|(it & E & IO & IH)]; rewrite E; cbn [bind].
  - destruct (view_mirror None _ X) as (s & V & IT & M). rewrite V. cbn [bind]. eexists. split; [reflexivity|]. split; [discriminate|]. intros pre more L. apply sh_last; rewrite ?(NTH _ _ _ _ L); auto.
  - assert (OB : match it with VObj _ _ _ => declared (S i) it | VNone => Ok [] | _ => Err TypeError end = declared (S i) it) by (destruct it; try reflexivity; inversion IO as [f' C]; destruct C).
    rewrite OB. destruct (IH (S i)) as (l & D & NE & SH). rewrite D. cbn [bind]. destruct l as [|s0 l]; [now destruct NE|].
    destruct (view_mirror (Some (S i)) _ X) as (s & V & IT & M). rewrite V. cbn [bind]. eexists. split; [reflexivity|]. split; [discriminate|]. intros pre more L.
    change (length (s :: s0 :: l)) with (S (length (s0 :: l))). eapply sh_more; [rewrite (NTH _ _ _ _ L); exact M|rewrite (NTH _ _ _ _ L); exact IT|exact E|].
    specialize (SH (pre ++ [s]) more ltac:(rewrite app_length; cbn; lia)). rewrite <- app_assoc in SH. exact SH.
Qed.
