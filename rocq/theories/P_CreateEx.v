(** Whether a document is acceptable can be computed (used for concrete cases). *)
From Verif Require Import PyBase PyFacts PyJson M_JsonPtr S_JsonPtr M_Url M_SpecVal M_Parse M_SpecTree M_Merge M_MergeRef S_Parse S_SpecTree S_Merge S_MergeRef P_Merge P_SpecTree P_MergeShape S_Patch S_Prepare P_Patch M_App S_App M_Upgrade M_Prepare P_Prepare5 P_SpecBase S_Cycles P_Cycles P_Create6 S_Create.
From Verif Require S_Aggt.
Close Scope Q_scope.

Lemma class_iff c o : same_class c o = true <-> of_class c o.
Proof.
  destruct o as [| | | | | | |h fs ints]; cbn [same_class]; split; try discriminate; try (intros (? & ? & ? & E & _); discriminate E).
  - intro E. apply cls_eqb_eq in E. exists h, fs, ints. auto.
  - intros (? & ? & ? & E & C). injection E as -> -> ->. now apply cls_eqb_eq.
Qed.
Section Check.
  Context (abs_uri win_uri : str -> str) (sep u : str) (doc : val) (objs : list (str * val)).
  Notation of c := (map snd (filter (fun po : str * val => same_class c (snd po)) objs)).
  Definition hasb (v : val) (n : string) (f : val -> bool) : bool := match field_of v (lit n) with Some x => f x | None => false end.
  Definition listb (v : val) : bool := match v with VList _ => true | _ => false end.
  Definition dictb (v : val) : bool := match v with VDict _ => true | _ => false end.
  Definition noneb (v : val) : bool := match v with VNone => true | _ => false end.
  Definition plainb (v : val) : bool := negb (listb v || dictb v).
  Definition textb (v : val) : bool := match v with VStr _ => true | _ => false end.
  Definition sizedb (v : val) : bool := listb v || dictb v || textb v.
  Definition refb (c : cls) (o : val) : bool :=
    match field_of o (lit "$ref") with
    | None => false
    | Some x => falsy x ||
        match x with
        | VStr r => match jr_split abs_uri win_uri r with
                    | Ok (u', p) => str_eqb u' u && existsb (fun qo => str_eqb (fst qo) p && same_class c (snd qo)) objs
                    | Err _ => false
                    end
        | _ => false
        end
    end.
  Definition allb (c : cls) (n : str) (f : val -> bool) : bool := forallb (fun o => match field_of o n with Some v => f v | None => true end) (of c).
  Definition kindb (c : cls) (n : str) (df : json) : bool :=
    allb c n plainb || falsy (inject df) && (allb c n (fun v => listb v || noneb v && noneb (inject df)) || allb c n (fun v => dictb v || noneb v && noneb (inject df))).
  Definition items : sdict val := match field_of doc (lit "paths") with Some (VDict d) => d | _ => [] end.
  Definition ops_of (kp : str * val) : list (str * str * val) :=
    match snd kp with
    | VObj _ fs _ => map (fun me => (fst kp, fst me, snd me)) (filter (fun me => same_class COperation (snd me)) fs)
    | _ => []
    end.
  Definition ops : list (str * str * val) := flat_map ops_of items.
  (** the name of an operation *)
  Definition keyb (op : val) : option str :=
    match field_of op (lit "tags"), field_of op (lit "operationId") with
    | Some tags, Some (VStr id) =>
        if nonempty id then
          if falsy tags then Some id
          else match tags with
               | VList (VStr t :: _) => if nonempty t then Some (t ++ sep ++ id) else Some id
               | _ => None
               end
        else None
    | _, _ => None
    end.
  Fixpoint distinct (l : list (str * str * val)) : bool :=
    match l with
    | [] => true
    | e :: l => match keyb (snd e) with
                | None => true
                | Some k => forallb (fun f => match keyb (snd f) with Some k' => negb (str_eqb k k') | None => true end) l
                end && distinct l
    end.
  Definition acceptableb : bool :=
    forallb (fun c => forallb (refb c) (of c)) [CSchema; CParameter; CResponse] &&
    forallb (fun kp => hasb (snd kp) "$ref" noneb && hasb (snd kp) "parameters" listb) items &&
    hasb doc "host" (fun v => falsy v || textb v) && hasb doc "basePath" (fun v => falsy v || textb v) && hasb doc "schemes" (fun v => falsy v || sizedb v) &&
    forallb (fun e => let op := snd e in hasb op "parameters" listb && hasb op "consumes" sizedb && hasb op "produces" sizedb && hasb op "schemes" sizedb &&
      hasb op "tags" (fun v => falsy v || match v with VList (VStr _ :: _) => true | _ => false end) && hasb op "operationId" (fun v => falsy v || textb v)) ops &&
    forallb (fun s => hasb s "properties" dictb && hasb s "required" (fun v => match v with VList l => forallb textb l | _ => false end)) (of CSchema) &&
    forallb (fun nd => allb CSchema (fst nd) (fun v => listb v || noneb v) || allb CSchema (fst nd) (fun v => dictb v || noneb v) || allb CSchema (fst nd) plainb) (t_fields CSchema) &&
    forallb (fun c => forallb (fun nd => smem (fst nd) (t_child c) || kindb c (fst nd) (snd nd)) (t_fields c)) [CParameter; CResponse] &&
    forallb (fun po => match field_of (snd po) (lit "collectionFormat") with Some v => plainb v | None => true end) objs &&
    distinct ops.
  Hypothesis SH : shaped (Of CSwagger) doc.
  Hypothesis TR : traverse doc [] = Ok objs.
  Hypothesis OK : acceptableb = true.
  Lemma in_objs c o : In o (of c) <-> object_in doc c o.
  Proof.
    rewrite in_map_iff. split.
    - intros ([p x] & <- & I). apply filter_In in I as (I & C). cbn [snd] in *. apply (visited_in _ _ _ _ SH TR) in I as (ts & _ & R & _). exists ts. split; [exact R|]. now apply class_iff.
    - intros (ts & R & C). exists (rfc_pointer (lit "#") ts, o). split; [reflexivity|]. apply filter_In. split; [|cbn [snd]; now apply class_iff]. apply (visited_in _ _ _ _ SH TR). exists ts. split; [reflexivity|]. split; [exact R|].
      destruct C as (? & ? & ? & -> & _). exact Logic.I.
  Qed.
  Lemma in_ops k m op : operation_in doc k m op -> In (k, m, op) ops.
  Proof.
    intros (pi & (ps & F & G & (h & fs & ints & -> & _)) & (FM & CO)). apply in_flat_map. exists (k, VObj h fs ints). unfold items. rewrite F. split; [exact (sget_In _ _ _ G)|]. cbn [ops_of snd fst].
    apply in_map_iff. exists (m, op). split; [reflexivity|]. apply filter_In. split; [exact (sget_In _ _ _ FM)|]. now apply class_iff.
  Qed.
  Lemma has_iff v n f (P : val -> Prop) : (forall x, f x = true -> P x) -> hasb v n f = true -> has v n P.
  Proof. intros H B. unfold hasb in B. destruct (field_of v (lit n)) as [x|] eqn:F; [|discriminate B]. exists x. auto. Qed.
  Lemma all_iff c n f (P : val -> Prop) : (forall x, f x = true -> P x) -> allb c n f = true -> forall o v, object_in doc c o -> field_of o n = Some v -> P v.
  Proof. intros H B o v O F. unfold allb in B. rewrite forallb_forall in B. specialize (B o (proj2 (in_objs _ _) O)). rewrite F in B. auto. Qed.
  Lemma plain_iff v : plainb v = true -> ~ container v. Proof. intros B [(l & ->)|(d & ->)]; discriminate B. Qed.
  Lemma list_iff v : listb v = true -> exists l, v = VList l. Proof. destruct v; try discriminate. eauto. Qed.
  Lemma dict_iff v : dictb v = true -> exists l, v = VDict l. Proof. destruct v; try discriminate. eauto. Qed.
  Lemma none_iff v : noneb v = true -> v = VNone. Proof. destruct v; try discriminate. reflexivity. Qed.
  Lemma text_iff v : textb v = true -> exists l, v = VStr l. Proof. destruct v; try discriminate. eauto. Qed.
  Lemma sized_iff v : sizedb v = true -> sized v.
  Proof. intro B. apply orb_prop in B as [B|B]; [apply orb_prop in B as [B|B]|]; [left; now apply list_iff|right; left; now apply dict_iff|right; right; now apply text_iff]. Qed.
  Lemma falsy_or v f (P : val -> Prop) : (forall x, f x = true -> P x) -> falsy v || f v = true -> empty_value v \/ P v.
  Proof. intros H B. apply orb_prop in B as [B|B]; [left; now apply falsy_spec|right; auto]. Qed.
  Lemma known_key op key : hasb op "tags" (fun v => falsy v || match v with VList (VStr _ :: _) => true | _ => false end) = true -> known_as sep op key -> keyb op = Some key.
  Proof.
    intros B K. unfold hasb in B. unfold keyb. destruct K as [t ts id F NT FI NI|c s id F FI NI|v id F H FI NI]; rewrite F in *; rewrite FI.
    - destruct id; [now elim NI|]. destruct t; [now elim NT|]. reflexivity.
    - discriminate B.
    - destruct id as [|c id]; [now elim NI|]. cbn [nonempty]. destruct H as [E|[(ts & ->)|(ts & ->)]]; [apply falsy_spec in E; rewrite E; reflexivity|discriminate B|reflexivity].
  Qed.
  Lemma distinct_ok l : distinct l = true -> forall e f k, In e l -> In f l -> keyb (snd e) = Some k -> keyb (snd f) = Some k -> e = f.
  Proof.
    induction l as [|x l IH]; intros D e f k IE IF KE KF; [destruct IE|]. cbn [distinct] in D. apply andb_true_iff in D as (D & DL).
    assert (X : forall y, In y l -> keyb (snd x) = Some k -> keyb (snd y) = Some k -> False).
    { intros y IY KX KY. rewrite KX in D. rewrite forallb_forall in D. specialize (D y IY). rewrite KY, str_eqb_refl in D. discriminate D. }
    destruct IE as [<-|IE], IF as [<-|IF]; [reflexivity|elim (X f IF KE KF)|elim (X e IE KF KE)|exact (IH DL e f k IE IF KE KF)].
  Qed.
  Lemma acceptable_ok : acceptable abs_uri win_uri sep u doc.
  Proof.
    unfold acceptableb in OK. repeat match goal with H : _ && _ = true |- _ => apply andb_true_iff in H as (H & ?) end. rename OK into REF.
    repeat match goal with H : forallb _ _ = true |- _ => rewrite forallb_forall in H end.
    match goal with H : forall e, In e ops -> _ |- _ => rename H into OPS end. match goal with H : forall e, In e items -> _ |- _ => rename H into ITE end.
    match goal with H : distinct ops = true |- _ => rename H into DIS end. match goal with H : forall c, In c [CParameter; CResponse] -> _ |- _ => rename H into KND end.
    assert (OP : forall k m op, operation_in doc k m op -> hasb op "parameters" listb = true /\ hasb op "consumes" sizedb = true /\ hasb op "produces" sizedb = true /\ hasb op "schemes" sizedb = true /\
      hasb op "tags" (fun v => falsy v || match v with VList (VStr _ :: _) => true | _ => false end) = true /\ hasb op "operationId" (fun v => falsy v || textb v) = true).
    { intros k m op O. specialize (OPS _ (in_ops _ _ _ O)). cbn [snd] in OPS. cbv zeta in OPS. repeat match goal with H : _ && _ = true |- _ => apply andb_true_iff in H as (H & ?) end. auto 10. }
    assert (IT : forall k pi, path_item doc k pi -> hasb pi "$ref" noneb = true /\ hasb pi "parameters" listb = true).
    { intros k pi (ps & F & G & _). specialize (ITE (k, pi)). unfold items in ITE. rewrite F in ITE. specialize (ITE (sget_In _ _ _ G)). cbn [snd] in ITE. now apply andb_true_iff in ITE. }
    constructor.
    - intros c o IC O. specialize (REF c IC). rewrite forallb_forall in REF. specialize (REF o (proj2 (in_objs _ _) O)). unfold refb in REF. destruct (field_of o (lit "$ref")) as [x|] eqn:F; [|discriminate REF].
      apply orb_prop in REF as [E|E]; [left; exists x; split; [exact F|now apply falsy_spec]|]. destruct x as [| | | |r| | |]; try discriminate E. destruct (jr_split abs_uri win_uri r) as [[u' p]|] eqn:JS; [|discriminate E].
      destruct r as [|c0 r]; [left; exists (VStr []); split; [exact F|constructor]|].
      apply andb_true_iff in E as (E & EX). apply str_eqb_eq in E as ->. apply existsb_exists in EX as ([q x] & IQ & B2). apply andb_true_iff in B2 as (B2 & B3). cbn [fst snd] in *. apply str_eqb_eq in B2 as ->.
      apply (visited_in _ _ _ _ SH TR) in IQ as (ts & -> & R & _). right. exists (c0 :: r), x. split; [split; [discriminate|exact F]|]. split; [|now apply class_iff]. exists ts. split; [exact JS|exact R].
    - intros k pi P. destruct (IT k pi P) as (B & _). unfold hasb in B. destruct (field_of pi (lit "$ref")) as [x|]; [|discriminate B]. apply none_iff in B as ->. reflexivity.
    - eapply has_iff; [|eassumption]. intros x B. exact (falsy_or x textb _ text_iff B).
    - eapply has_iff; [|eassumption]. intros x B. exact (falsy_or x textb _ text_iff B).
    - eapply has_iff; [|eassumption]. intros x B. exact (falsy_or x sizedb _ sized_iff B).
    - intros k pi P. destruct (IT k pi P) as (_ & B). eapply has_iff; [|eassumption]. exact list_iff.
    - intros k m op O. destruct (OP k m op O) as (B1 & B2 & B3 & B4 & _). split; [eapply has_iff; [|eassumption]; exact list_iff|]. split; [|split]; (eapply has_iff; [|eassumption]; exact sized_iff).
    - intros s O. match goal with H : forall x, In x (of CSchema) -> hasb x _ _ && _ = true |- _ => specialize (H s (proj2 (in_objs _ _) O)); apply andb_true_iff in H as (B1 & B2) end.
      split; [eapply has_iff; [|eassumption]; exact dict_iff|]. eapply has_iff; [|eassumption]. intros x B. destruct x as [| | | | |l| |]; try discriminate B. clear - B. revert B. induction l as [|x l IH]; intro B; [exists []; reflexivity|].
      cbn [forallb] in B. apply andb_true_iff in B as (B & BL). destruct (IH BL) as (m & E). injection E as ->. apply text_iff in B as (t & ->). exists (t :: m). reflexivity.
    - intro n. destruct (sget n (t_fields CSchema)) as [df|] eqn:T.
      + match goal with H : forall x, In x (t_fields CSchema) -> _ |- _ => specialize (H _ (sget_In _ _ _ T)); cbn [fst] in H; apply orb_prop in H as [B|B]; [apply orb_prop in B as [B|B]|] end.
        * exists S_Aggt.list_or_none. split; [now left|]. eapply all_iff; [|exact B]. intros x E. apply orb_prop in E as [E|E]; [left; now apply list_iff|right; now apply none_iff].
        * exists S_Aggt.dict_or_none. split; [right; now left|]. eapply all_iff; [|exact B]. intros x E. apply orb_prop in E as [E|E]; [left; now apply dict_iff|right; now apply none_iff].
        * exists (fun v => ~ container v). split; [right; right; now left|]. eapply all_iff; [|exact B]. exact plain_iff.
      + exists S_Aggt.list_or_none. split; [now left|]. intros o v (ts & R & C) F. exfalso. destruct C as (h & fs & ints & -> & C). cbn [field_of] in F.
        assert (S0 : shaped (Of (h_cls h)) (VObj h fs ints)). { rewrite C. apply (schema_shaped _ _ ts _ SH). split; [exact R|exists h, fs, ints; auto]. }
        destruct (class_complete _ _ _ S0) as (KF & _). rewrite C in KF. apply sget_In, (in_map fst) in F. cbn [fst] in F. rewrite KF in F. apply in_map_iff in F as ([n' df] & E & I). cbn [fst] in E. subst n'.
        apply sget_None in T. apply T. apply (in_map fst) in I. exact I.
    - intros c n df HC T NC. assert (IC : In c [CParameter; CResponse]) by (destruct HC as [-> | ->]; cbn; auto).
      pose proof (KND c IC) as B. rewrite forallb_forall in B. specialize (B _ (sget_In _ _ _ T)). cbn [fst snd] in B.
      apply orb_prop in B as [B|B]. { exfalso. apply smem_In in B. apply sget_None in NC. contradiction. }
      unfold kindb in B. apply orb_prop in B as [B|B].
      + exists (of_kind df Scalars). split; [now left|]. eapply all_iff; [|exact B]. exact plain_iff.
      + apply andb_true_iff in B as (E & B). apply falsy_spec in E. apply orb_prop in B as [B|B].
        * exists (of_kind df Lists). split; [right; now left|]. eapply all_iff; [|exact B]. intros x EX. split; [exact E|]. apply orb_prop in EX as [EX|EX]; [right; now apply list_iff|left]. apply andb_true_iff in EX as (E1 & E2). constructor. apply none_iff in E1, E2. congruence.
        * exists (of_kind df Dicts). split; [right; right; now left|]. eapply all_iff; [|exact B]. intros x EX. split; [exact E|]. apply orb_prop in EX as [EX|EX]; [right; now apply dict_iff|left]. apply andb_true_iff in EX as (E1 & E2). constructor. apply none_iff in E1, E2. congruence.
    - intros ts h fs ints x R F. match goal with H : forall x, In x objs -> _ |- _ => specialize (H (rfc_pointer (lit "#") ts, VObj h fs ints)); rename H into B end. cbn [snd field_of] in B. rewrite F in B. apply plain_iff, B.
      apply (visited_in _ _ _ _ SH TR). exists ts. split; [reflexivity|]. split; [exact R|exact Logic.I].
    - intros k m op O. destruct (OP k m op O) as (_ & _ & _ & _ & B1 & B2). split; (eapply has_iff; [|eassumption]); intros x B.
      + refine (falsy_or x (fun v => match v with VList (VStr _ :: _) => true | _ => false end) (fun v => exists t l, v = VList (VStr t :: l)) _ B). intros [| | | | |[|[| | | |t0| | |] l0]| |]; try discriminate. eauto.
      + exact (falsy_or x textb _ text_iff B).
    - intros k m op k' m' op' key O O' K K'. destruct (OP k m op O) as (_ & _ & _ & _ & B & _). destruct (OP k' m' op' O') as (_ & _ & _ & _ & B' & _).
      pose proof (distinct_ok _ DIS _ _ key (in_ops _ _ _ O) (in_ops _ _ _ O') (known_key _ _ B K) (known_key _ _ B' K')) as E. injection E as -> -> _. auto.
  Qed.
End Check.
