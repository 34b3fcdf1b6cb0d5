(** Proofs about the primitive factory. *)
From Coq Require Import QArith Qround Lia.
From Verif Require Import PyBase PyFacts M_Graph S_Graph P_Graph M_Quote M_Time M_Prim S_Prim P_Op.
Close Scope Q_scope.
Open Scope nat_scope.

(** ** References *)
Lemma dget_refs h : forall i x, dget Nat.eqb x (refs_from i h) =
  if Nat.ltb x i then None else s_ref (nth (x - i) h empty_schema).
Proof.
  induction h as [|s h IH]; intros i x.
  - cbn [refs_from dget]. destruct (Nat.ltb x i); [reflexivity|]. destruct (x - i); reflexivity.
  - cbn [refs_from]. destruct (Nat.ltb x i) eqn:L.
    + apply Nat.ltb_lt in L. destruct (s_ref s).
      * cbn [dget]. destruct (Nat.eqb x i) eqn:E; [apply Nat.eqb_eq in E; lia|].
        rewrite IH. replace (Nat.ltb x (S i)) with true; [reflexivity|symmetry; apply Nat.ltb_lt; lia].
      * rewrite IH. replace (Nat.ltb x (S i)) with true; [reflexivity|symmetry; apply Nat.ltb_lt; lia].
    + apply Nat.ltb_ge in L. destruct (Nat.eq_dec x i) as [->|N].
      * rewrite Nat.sub_diag. cbn [nth]. destruct (s_ref s) as [r|].
        -- cbn [dget]. now rewrite Nat.eqb_refl.
        -- rewrite IH. replace (Nat.ltb i (S i)) with true; [reflexivity|symmetry; apply Nat.ltb_lt; lia].
      * assert (G : dget Nat.eqb x (refs_from (S i) h) = s_ref (nth (x - i) (s :: h) empty_schema)).
        { rewrite IH. replace (Nat.ltb x (S i)) with false; [|symmetry; apply Nat.ltb_ge; lia].
          replace (x - i) with (S (x - S i)) by lia. reflexivity. }
        destruct (s_ref s).
        -- cbn [dget]. destruct (Nat.eqb x i) eqn:E; [apply Nat.eqb_eq in E; lia|]. exact G.
        -- exact G.
Qed.
Lemma ref_obj_refs h x : ref_obj (refs_from 0 h) x = s_ref (sch h x).
Proof. unfold ref_obj. rewrite dget_refs. cbn [Nat.ltb Nat.leb]. now rewrite Nat.sub_0_r. Qed.
Lemma chain_ext {O} (f g : O -> option O) : (forall x, f x = g x) -> forall a b, chain_to f a b -> chain_to g a b.
Proof. intros E a b. induction 1; [constructor|]. econstructor; [rewrite <- E; eauto|auto]. Qed.
Lemma deref_target h o t : deref_s h o = Ok t <-> target h o t.
Proof.
  unfold deref_s, target. rewrite bind_ok. split.
  - intros [[e g] [D E]]. injection E as <-. cbn [fst].
    pose proof (proj1 (deref_Ok_iff _ _ _ _) (ex_intro _ g D)) as [A [B _]].
    rewrite ref_obj_refs in B. split; [|exact B]. eapply chain_ext; [|exact A]. apply ref_obj_refs.
  - intros [A B].
    destruct (proj2 (deref_Ok_iff (refs_from 0 h) o [] t)) as [g D].
    + split; [eapply chain_ext; [|exact A]; intro; symmetry; apply ref_obj_refs|].
      split; [now rewrite ref_obj_refs|]. intros; apply in_nil.
    + exists (t, g). split; [exact D|reflexivity].
Qed.
Lemma target_refl h t : s_ref (sch h t) = None -> target h t t.
Proof. intro. split; [constructor|auto]. Qed.
Lemma target_self h o t t' : target h o t -> target h t t' -> t' = t.
Proof. intros [_ N] [C _]. inversion C; subst; congruence. Qed.

(** ** Numbers and texts *)
Lemma qlt_bool a b : negb (Qle_bool b a) = true <-> (a < b)%Q.
Proof.
  rewrite Bool.negb_true_iff. split.
  - intro H. apply Qnot_le_lt. intro L. apply Qle_bool_iff in L. congruence.
  - intro H. destruct (Qle_bool b a) eqn:E; [|reflexivity]. apply Qle_bool_iff in E.
    exfalso. apply (Qlt_not_le _ _ H E).
Qed.
Lemma qle_bool_false a b : Qle_bool a b = false <-> (b < a)%Q.
Proof. rewrite <- qlt_bool. rewrite Bool.negb_true_iff. reflexivity. Qed.
Lemma qle_negb a b : negb (Qle_bool a b) = false <-> (a <= b)%Q.
Proof. rewrite Bool.negb_false_iff. apply Qle_bool_iff. Qed.
Lemma min_max_max s q : (min_max s q true = Ok tt <-> forall m, s_max s = Some m -> if s_exmax s then (q < m)%Q else (q <= m)%Q)
  /\ (min_max s q true = Ok tt \/ min_max s q true = Err ValidationError).
Proof.
  unfold min_max. destruct (s_max s) as [m|]; [|split; [split; intros; congruence|auto]].
  destruct (s_exmax s).
  - destruct (Qle_bool m q) eqn:E; (split; [|auto]); split; intros H; try congruence; intros.
    + apply Qle_bool_iff in E. exfalso. eapply Qlt_not_le; [apply (H m eq_refl)|exact E].
    + injection H0 as <-. now apply qle_bool_false.
  - destruct (negb (Qle_bool q m)) eqn:E; (split; [|auto]); split; intros H; try congruence; intros.
    + apply qlt_bool in E. exfalso. eapply Qlt_not_le; [exact E|apply (H m eq_refl)].
    + injection H0 as <-. now apply qle_negb.
Qed.
Lemma min_max_min s q : (min_max s q false = Ok tt <-> forall m, s_min s = Some m -> if s_exmin s then (m < q)%Q else (m <= q)%Q)
  /\ (min_max s q false = Ok tt \/ min_max s q false = Err ValidationError).
Proof.
  unfold min_max. destruct (s_min s) as [m|]; [|split; [split; intros; congruence|auto]].
  destruct (s_exmin s).
  - destruct (Qle_bool q m) eqn:E; (split; [|auto]); split; intros H; try congruence; intros.
    + apply Qle_bool_iff in E. exfalso. eapply Qlt_not_le; [apply (H m eq_refl)|exact E].
    + injection H0 as <-. now apply qle_bool_false.
  - destruct (negb (Qle_bool m q)) eqn:E; (split; [|auto]); split; intros H; try congruence; intros.
    + apply qlt_bool in E. exfalso. eapply Qlt_not_le; [exact E|apply (H m eq_refl)].
    + injection H0 as <-. now apply qle_negb.
Qed.
Lemma validate_int_spec s r q : num_of r = Some q ->
  (validate_int s r = Ok tt <-> within s q) /\
  (validate_int s r = Ok tt \/ validate_int s r = Err ValidationError).
Proof.
  intro N. unfold validate_int. rewrite N. unfold within.
  destruct (min_max_min s q) as [A1 A2]. destruct (min_max_max s q) as [B1 B2].
  destruct A2 as [A2|A2]; rewrite A2; cbn [bind].
  - split; [|exact B2]. rewrite B1. pose proof (proj1 A1 A2). tauto.
  - split; [|auto]. split; [congruence|]. intros [_ X]. apply A1 in X. congruence.
Qed.
Lemma not_multiple_spec q m : ~ (m == 0)%Q ->
  not_multiple q m = false <-> exists k : Z, (q == inject_Z k * m)%Q.
Proof.
  intro M. unfold not_multiple. rewrite Bool.negb_false_iff, Qeq_bool_iff. split.
  - intro H. exists (Qfloor (q / m)). symmetry. exact H.
  - intros [k H]. assert (E : (q / m == inject_Z k)%Q) by (rewrite H; field; exact M).
    rewrite (Qfloor_comp _ _ E), Qfloor_Z. symmetry. exact H.
Qed.
Lemma validate_float_spec s r q : num_of r = Some q ->
  (validate_float s r = Ok tt <-> within s q /\ multiple s q) /\
  (validate_float s r = Ok tt \/ validate_float s r = Err ValidationError).
Proof.
  intro N. unfold validate_float. destruct (validate_int_spec s r q N) as [A1 A2].
  destruct A2 as [A2|A2]; rewrite A2; cbn [bind].
  - apply A1 in A2. unfold multiple. destruct (s_multiple s) as [m|].
    + destruct (Qeq_bool m 0) eqn:E.
      * split; [|auto]. apply Qeq_bool_iff in E. split; [|reflexivity]. intros _. split; [exact A2|].
        intros ? X. injection X as <-. tauto.
      * assert (M : ~ (m == 0)%Q) by (intro X; apply Qeq_bool_iff in X; congruence).
        rewrite N. destruct (not_multiple q m) eqn:F.
        -- split; [|auto]. split; [discriminate|]. intros [_ X].
           apply (not_multiple_spec q m M) in X; [congruence|reflexivity|exact M].
        -- split; [|auto]. split; [|reflexivity]. intros _. split; [exact A2|].
           intros ? X _. injection X as <-. now apply not_multiple_spec.
    + split; [|auto]. split; [|reflexivity]. intros _. split; [exact A2|]. discriminate.
  - split; [|auto]. split; [discriminate|]. intros [X _]. apply A1 in X. congruence.
Qed.
Lemma v_eqb_str t e : v_eqb (VStr t) e = true <-> e = VStr t.
Proof.
  split.
  - destruct e; cbn; try discriminate. intro H. apply str_eqb_eq in H. now subst.
  - intros ->. cbn. apply str_eqb_refl.
Qed.
Lemma v_in_str t l : v_in (VStr t) l = true <-> In (VStr t) l.
Proof.
  unfold v_in. rewrite existsb_exists. split.
  - intros [e [I E]]. apply v_eqb_str in E. now subst.
  - intro I. exists (VStr t). split; [exact I|]. now apply v_eqb_str.
Qed.
Lemma given_some n z : given n = Some z <-> n = Some z /\ z <> 0%Z.
Proof.
  unfold given. destruct n as [k|]; [|split; [discriminate|intros []; discriminate]].
  destruct (Z.eqb_spec k 0); split; try discriminate; intros H.
  - destruct H as [H N]. injection H as <-. contradiction.
  - injection H as <-. auto.
  - now destruct H.
Qed.
Lemma given_none n : given n = None <-> forall z, n = Some z -> z = 0%Z.
Proof.
  unfold given. destruct n as [k|]; [|split; [discriminate|reflexivity]].
  destruct (Z.eqb_spec k 0); split; try discriminate; intros H; auto.
  - intros z X. now injection X as <-.
  - exfalso. apply n. now apply H.
Qed.
Lemma max_check (n : option Z) (k : Z) :
  let r := match given n with Some m => if (m <? k)%Z then Err ValidationError else Ok tt | None => Ok tt end in
  (r = Ok tt <-> forall m, n = Some m -> m <> 0%Z -> (k <= m)%Z) /\ (r = Ok tt \/ r = Err ValidationError).
Proof.
  cbn zeta. destruct (given n) as [m|] eqn:G.
  - apply given_some in G as [-> N]. destruct (Z.ltb_spec m k); (split; [|auto]); (split; [|reflexivity || idtac]); intros H'; try discriminate.
    + specialize (H' m eq_refl N). lia.
    + intros ? X _. now injection X as <-.
  - split; [|auto]. split; [|reflexivity]. intros _ m X N. apply (proj1 (given_none n) G) in X. contradiction.
Qed.
Lemma min_check (n : option Z) (k : Z) :
  let r := match given n with Some m => if (k <? m)%Z then Err ValidationError else Ok tt | None => Ok tt end in
  (r = Ok tt <-> forall m, n = Some m -> m <> 0%Z -> (m <= k)%Z) /\ (r = Ok tt \/ r = Err ValidationError).
Proof.
  cbn zeta. destruct (given n) as [m|] eqn:G.
  - apply given_some in G as [-> N]. destruct (Z.ltb_spec k m); (split; [|auto]); (split; [|reflexivity || idtac]); intros H'; try discriminate.
    + specialize (H' m eq_refl N). lia.
    + intros ? X _. now injection X as <-.
  - split; [|auto]. split; [|reflexivity]. intros _ m X N. apply (proj1 (given_none n) G) in X. contradiction.
Qed.
Lemma validate_str_spec s t :
  (validate_str s (PStr t) = Ok tt <-> text_ok s t) /\
  (validate_str s (PStr t) = Ok tt \/ validate_str s (PStr t) = Err ValidationError).
Proof.
  unfold validate_str, text_ok, len_z. cbn [plain].
  destruct (nonempty (s_enum s) && negb (v_in (VStr t) (s_enum s))) eqn:E.
  - split; [|auto]. split; [discriminate|]. intros [[X|X] _].
    + rewrite X in E. discriminate.
    + apply v_in_str in X. rewrite X in E. now rewrite Bool.andb_false_r in E.
  - assert (X : s_enum s = [] \/ In (VStr t) (s_enum s)).
    { destruct (s_enum s) as [|e l]; [now left|right]. cbn [nonempty andb] in E.
      apply Bool.negb_false_iff in E. now apply v_in_str. }
    destruct (max_check (s_maxlen s) (Z.of_nat (length t))) as [A1 A2].
    destruct (min_check (s_minlen s) (Z.of_nat (length t))) as [B1 B2].
    cbn zeta in *. destruct A2 as [A2|A2]; rewrite A2; cbn [bind].
    + split; [|exact B2]. rewrite B1. pose proof (proj1 A1 A2). tauto.
    + split; [|auto]. split; [discriminate|]. intros [_ [Y _]]. pose proof (proj2 A1 Y). congruence.
Qed.

(** ** Which handler a schema gets *)
Lemma get_integer s : integer_kind s -> get (s_type s) (s_format s) = (Some CrInt, Some S2Int).
Proof.
  unfold integer_kind, typed, format_in. intros [T|[T [f [I F]]]]; rewrite T; [reflexivity|].
  rewrite F. cbn in I. destruct I as [<-|[<-|[]]]; reflexivity.
Qed.
Lemma str_eqb_lit_false (f : str) (g : string) : f <> lit g -> str_eqb f (lit g) = false.
Proof. intro N. destruct (str_eqb f (lit g)) eqn:E; [|reflexivity]. apply str_eqb_eq in E. contradiction. Qed.
Lemma get_number s : number_kind s -> get (s_type s) (s_format s) = (Some CrFloat, Some S2Float).
Proof.
  unfold number_kind, typed, format_in. intros [T N]. rewrite T. unfold get.
  replace (str_eqb (lit "number") "integer"%string) with false by reflexivity.
  replace (str_eqb (lit "number") "number"%string) with true by reflexivity.
  destruct (s_format s) as [f|]; [|reflexivity].
  rewrite (str_eqb_lit_false f "int32"), (str_eqb_lit_false f "int64"); [reflexivity| |];
  intros ->; apply N; eexists; (split; [|reflexivity]); cbn; auto.
Qed.
Lemma get_text s : text_kind s -> get (s_type s) (s_format s) = (Some CrStr, Some S2Str).
Proof.
  unfold text_kind, typed, format_in. intros [T N]. rewrite T. unfold get.
  replace (str_eqb (lit "string") "integer"%string) with false by reflexivity.
  replace (str_eqb (lit "string") "number"%string) with false by reflexivity.
  replace (str_eqb (lit "string") "string"%string) with true by reflexivity.
  destruct (s_format s) as [f|]; [|reflexivity].
  rewrite (str_eqb_lit_false f "email"), (str_eqb_lit_false f "uuid"), (str_eqb_lit_false f "byte"),
    (str_eqb_lit_false f "binary"), (str_eqb_lit_false f "date"), (str_eqb_lit_false f "date-time"); [reflexivity|..];
  intros ->; apply N; eexists; (split; [|reflexivity]); cbn; tauto.
Qed.
