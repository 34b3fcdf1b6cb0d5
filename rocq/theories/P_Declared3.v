(** Proofs about what becomes of values by declarations (C66), continued. *)
From Coq Require Import QArith Lia.
From Verif Require Import PyBase PyFacts PyJson P_Op M_Graph S_Graph M_Quote M_Time M_Prim S_Prim S_PrimKinds P_Prim P_PrimLeaf P_PrimObj T_PrimLeaf T_PrimObj T_PrimText T_PrimKinds.
From Verif Require M_SpecVal S_Merge.
From Verif Require Import S_Declared M_Declared P_Declared P_Declared2.
Close Scope Q_scope.
Open Scope nat_scope.

Lemma Forall2_same {A B} (P Q : A -> B -> Prop) l m : (forall a b, P a b <-> Q a b) -> Forall2 P l m <-> Forall2 Q l m.
Proof. intro E. split; intro F; induction F; constructor; auto; now apply E. Qed.
Lemma sep_spec f sp : sep_of f = Some sp -> exists c, lit sp = [c] /\ separator (lit f) = Some c.
Proof.
  intro SP. unfold sep_of in SP.
  repeat (match goal with H : context [match ?x with _ => _ end] |- _ => destruct x end; try discriminate SP); injection SP as <-; eexists; split; reflexivity.
Qed.
Lemma separator_spec fmt c : separator fmt = Some c -> exists f sp, fmt = lit f /\ sep_of f = Some sp /\ lit sp = [c].
Proof.
  unfold separator. destruct (str_eqb fmt "csv"%string) eqn:E1; [apply str_eqb_eq in E1; intro E; injection E as <-; exists "csv"%string; eexists; split; [exact E1|split; reflexivity]|].
  destruct (str_eqb fmt "ssv"%string) eqn:E2; [apply str_eqb_eq in E2; intro E; injection E as <-; exists "ssv"%string; eexists; split; [exact E2|split; reflexivity]|].
  destruct (str_eqb fmt "tsv"%string) eqn:E3; [apply str_eqb_eq in E3; intro E; injection E as <-; exists "tsv"%string; eexists; split; [exact E3|split; reflexivity]|].
  destruct (str_eqb fmt "pipes"%string) eqn:E4; [apply str_eqb_eq in E4; intro E; injection E as <-; exists "pipes"%string; eexists; split; [exact E4|split; reflexivity]|discriminate].
Qed.

Lemma of_format_dec f s : mirror_plain f s -> forall l, of_format f l \/ ~ of_format f l.
Proof.
  intros M l. rewrite <- (format_decl _ _ M l). unfold format_in. destruct (s_format s) as [g|]; [|right; intros (e & _ & E); discriminate E].
  destruct (mem g (map lit l)) eqn:E; [left; apply mem_In, in_map_iff in E as (e & E & I); exists e; split; [exact I|now rewrite E]|].
  right. intros (e & I & X). injection X as ->. assert (J : In (lit e) (map lit l)) by now apply in_map. apply mem_In in J. congruence.
Qed.

Section Becomes.
  Context (int_of : str -> res Z) (float_of : str -> res Q) (str_of : value -> str)
    (date_at : Q -> res (Z * Z * Z)) (datetime_at : Q -> res datetime) (uuid_of : str -> option Z) (email_ok : str -> bool).
  Notation becomes := (becomes int_of float_of str_of date_at datetime_at uuid_of email_ok).
  Context (h : list schema).
  Notation produce := (produce int_of float_of str_of date_at datetime_at uuid_of email_ok h).

  (** The object [o] stands for [t], which is as [f] says and is not composed. *)
  Record read_as (f : M_SpecVal.val) (o t : nat) : Prop := { rd_target : target h o t; rd_mirror : mirror_plain f (sch h t); rd_members : members (sch h t) = [] }.
  Lemma reads_itself f o : mirror f (sch h o) -> read_as f o o.
  Proof. intro M. constructor; [apply target_refl, (mi_ref _ _ M)|exact M|exact (no_members _ _ M)]. Qed.
  (** The elements of a value for an array *)
  Inductive pieces (cf : str) : value -> list value -> Prop :=
  | pi_list l : pieces cf (VList l) l
  | pi_dict d : pieces cf (VDict d) (map (fun kv => VStr (fst kv)) d)
  | pi_bytes s : pieces cf (VBytes s) (map (fun c => VInt (Z.of_N (N_of_ascii c))) s)
  | pi_str fmt sp ps : cf = lit fmt -> sep_of fmt = Some sp -> ps <> [] ->
      Forall (fun p => forall c, In c (lit sp) -> ~ In c p) ps -> pieces cf (VStr (join (lit sp) ps)) (map VStr ps).
  Lemma pieces_is f cf x l : text_at f "collectionFormat" cf -> pieces cf x l <-> elements f x l.
  Proof.
    intro T. split; intro E; inversion E; subst; try (now constructor); econstructor; eauto.
    match goal with X : text_at f _ _ |- _ => unfold text_at in X, T end. congruence.
  Qed.

  Section One.
    Context (f : M_SpecVal.val) (o t m : nat) (rd : bool) (x : value) (r : prim).
    Hypothesis R : read_as f o t.
    Hypothesis NN : x <> VNull.
    Notation made := (exists c, produce (S m) o x (new_ctx rd) = Ok (r, c)).
    Definition made_list (l : list value) : Prop := exists c, produce (S m) o (VList l) (new_ctx rd) = Ok (r, c).
    Let itself := rd_target _ _ _ R.
    Let M := rd_mirror _ _ _ R.
    Let NM := rd_members _ _ _ R.
    Lemma eff : effective h o x = x.
    Proof. destruct x; try reflexivity. now destruct NN. Qed.
    Lemma eff_null : effective h o x <> VNull.
    Proof. now rewrite eff. Qed.

    Lemma made_integer : integer_decl f -> made <-> exists z, whole int_of x z /\ in_range f (inject_Z z) /\ r = PInt z.
    Proof.
      intro K. rewrite (c26_integer _ _ _ _ _ _ _ h m o t x rd r itself (proj2 (integer_is _ _ M) K) eff_null (or_introl NM)). rewrite eff. split.
      - intros (z & A & B & C & _). exists z. split; [now apply whole_iff|]. split; [now apply (range_is _ _ M)|exact B].
      - intros (z & A & B & C). exists z. split; [now apply whole_iff|]. split; [exact C|]. split; [now apply (range_is _ _ M)|]. intros a I. rewrite NM in I. destruct I.
    Qed.
    Lemma made_number : number_decl f -> made <-> exists q, fraction float_of x q /\ in_range f q /\ multiple_of f q /\ r = PFloat q.
    Proof.
      intro K. rewrite (c26_number _ _ _ _ _ _ _ h m o t x rd r itself (proj2 (number_is _ _ M) K) eff_null (or_introl NM)). rewrite eff. split.
      - intros (z & A & B & C & D & _). exists z. split; [now apply fraction_iff|]. split; [now apply (range_is _ _ M)|]. split; [now apply (multiple_is _ _ M)|exact B].
      - intros (z & A & B & D & C). exists z. split; [now apply fraction_iff|]. split; [exact C|]. split; [now apply (range_is _ _ M)|]. split; [now apply (multiple_is _ _ M)|]. intros a I. rewrite NM in I. destruct I.
    Qed.
    Lemma made_text : text_decl f -> made <-> exists s, text str_of x s /\ right_text f s /\ r = PStr s.
    Proof.
      intro K. rewrite (c27_text _ _ _ _ _ _ _ h m o t x rd r itself (proj2 (text_is _ _ M) K) eff_null (or_introl NM)). rewrite eff. split.
      - intros (-> & C & _). eexists. split; [apply text_iff'; reflexivity|]. split; [now apply (right_is _ _ M)|reflexivity].
      - intros (s & A & B & ->). apply text_iff' in A. subst s. split; [reflexivity|]. split; [now apply (right_is _ _ M)|]. intros a I. rewrite NM in I. destruct I.
    Qed.
    Lemma made_email : of_type f "string" -> of_format f ["email"]%string -> made <-> exists s, text str_of x s /\ right_text f s /\ email_ok s = true /\ r = PStr s.
    Proof.
      intros K F. apply (typed_decl _ _ M) in K. apply (format_decl _ _ M) in F as (e & [<-|[]] & EF).
      assert (N' : is_null (effective h o x) = false) by (rewrite eff; destruct x; try reflexivity; now destruct NN).
      assert (G : get (s_type (sch h t)) (s_format (sch h t)) = (Some CrStr, Some S2Email)) by (rewrite K, EF; reflexivity).
      rewrite (produce_some _ _ _ _ _ _ _ _ m o t x (new_ctx rd) itself N'); [|intros []]. rewrite eff.
      assert (CS : forall p, create int_of float_of str_of CrStr (sch h t) x = Ok p <-> p = PStr (to_str_v str_of x) /\ text_ok (sch h t) (to_str_v str_of x)).
      { intro p. cbn [create]. rewrite bind_ok. destruct (validate_str_spec (sch h t) (to_str_v str_of x)) as (VS & _). split.
        - intros ([] & A & B). injection B as <-. split; [reflexivity|now apply VS].
        - intros (-> & A). exists tt. split; [now apply VS|reflexivity]. }
      split.
      - intros (c & E). apply bind_ok in E as ([[r0 v0] c0] & A & E).
        apply (start_leaf _ _ _ _ _ _ _ _ _ t CrStr S2Email) in A as (p & A & B & C); [|exact G|exact I|rewrite K; discriminate|rewrite K; discriminate].
        injection C as -> -> ->. apply CS in A as (-> & A). rewrite finish_no_member in E; [|reflexivity|exact NM]. injection E as <- _.
        eexists. split; [apply text_iff'; reflexivity|]. split; [now apply (right_is _ _ M)|]. split; [|reflexivity].
        cbn [V validate_email] in B. now destruct (email_ok _).
      - intros (s & A & B & C & ->). apply text_iff' in A. subst s. eexists. apply bind_ok. eexists. split.
        + apply (start_leaf _ _ _ _ _ _ _ _ _ t CrStr S2Email); [exact G|exact I|rewrite K; discriminate|rewrite K; discriminate|].
          eexists. split; [apply CS; split; [reflexivity|now apply (right_is _ _ M)]|]. split; [|reflexivity]. cbn [V validate_email]. now rewrite C.
        + cbn iota beta. rewrite finish_no_member; [reflexivity|reflexivity|exact NM].
    Qed.
    Lemma made_boolean : of_type f "boolean" -> made <-> exists b, (b = false <-> empty_value x) /\ r = PBool b.
    Proof.
      intro K. destruct (c60_boolean int_of float_of str_of date_at datetime_at uuid_of email_ok h m o t x rd itself (proj2 (typed_decl _ _ M _) K) NM eff_null) as (b & c & E & B). rewrite eff in B. split.
      - intros (c' & E'). rewrite E in E'. injection E' as <- _. eauto.
      - intros (b' & B' & ->). exists c. rewrite E. destruct b, b'; try reflexivity; exfalso; [assert (X : true = false) by tauto|assert (X : true = false) by tauto]; discriminate X.
    Qed.
    Lemma made_bytes : of_type f "string" -> of_format f ["byte"; "binary"]%string -> made <-> exists s, bytes x s /\ r = PByte s.
    Proof.
      intros K F. pose proof (c32_made int_of float_of str_of date_at datetime_at uuid_of email_ok h m o t x rd itself (proj2 (typed_decl _ _ M _) K) (proj2 (format_decl _ _ M _) F) eff_null) as E. rewrite eff in E.
      split.
      - intros (c & X). destruct x; try (rewrite E in X; discriminate X); destruct E as (c' & E); rewrite E in X; injection X as <- _; eexists; (split; [constructor|reflexivity]).
      - intros (s & B & ->). inversion B; subst; exact E.
    Qed.
    Lemma made_date : of_type f "string" -> of_format f ["date"]%string -> made <-> date date_at x r.
    Proof.
      intros K F. pose proof (c60_date int_of float_of str_of date_at datetime_at uuid_of email_ok h m o t x rd itself (proj2 (typed_decl _ _ M _) K) (proj2 (format_decl _ _ M _) F) eff_null) as E. rewrite eff in E.
      assert (G : get (s_type (sch h t)) (s_format (sch h t)) = (Some (CrObj CDate), Some S2Obj)).
      { apply (typed_decl _ _ M) in K. apply (format_decl _ _ M) in F as (e & [<-|[]] & EF). rewrite K, EF. reflexivity. }
      assert (TY : s_type (sch h t) = Some (lit "string")) by now apply (typed_decl _ _ M).
      pose proof eff_null as EN. pose proof eff as EE. split.
      - intros (c & X). destruct x; try (rewrite E in X; discriminate X).
        + rewrite (filled int_of float_of str_of date_at datetime_at uuid_of email_ok h m o t _ rd CDate (PDate 0 0 0) itself EN G) in X; try (rewrite TY; discriminate); [|reflexivity].
          rewrite EE in X. cbn [apply_obj date_of] in X. destruct (date_at q) as [[[y mo] d]|e] eqn:D; [|discriminate X]. cbn in X. injection X as <- _. now constructor.
        + destruct E as (E & E'). destruct (from_iso8601 s) as [ti|e] eqn:I; [|rewrite (E' _ eq_refl) in X; discriminate X]. destruct (E _ eq_refl) as (c' & E2). rewrite E2 in X. injection X as <- _. now constructor.
        + destruct E as (c' & E). rewrite E in X. injection X as <- _. constructor.
        + destruct E as (c' & E). rewrite E in X. injection X as <- _. constructor.
      - intro B. inversion B; subst; try exact E; [now apply E|]. destruct E as (E & _). now apply E.
    Qed.
    Lemma made_moment : of_type f "string" -> of_format f ["date-time"]%string -> made <-> exists d, moment datetime_at x d /\ r = PDatetime d.
    Proof.
      intros K F. pose proof (c60_datetime int_of float_of str_of date_at datetime_at uuid_of email_ok h m o t x rd itself (proj2 (typed_decl _ _ M _) K) (proj2 (format_decl _ _ M _) F) eff_null) as E. rewrite eff in E.
      assert (G : get (s_type (sch h t)) (s_format (sch h t)) = (Some (CrObj CDatetime), Some S2Obj)).
      { apply (typed_decl _ _ M) in K. apply (format_decl _ _ M) in F as (e & [<-|[]] & EF). rewrite K, EF. reflexivity. }
      assert (TY : s_type (sch h t) = Some (lit "string")) by now apply (typed_decl _ _ M).
      pose proof eff_null as EN. pose proof eff as EE. split.
      - intros (c & X). destruct x; try (rewrite E in X; discriminate X).
        + rewrite (filled int_of float_of str_of date_at datetime_at uuid_of email_ok h m o t _ rd CDatetime (PDatetime (DT 0 0 0 0 0 0 0 None)) itself EN G) in X; try (rewrite TY; discriminate); [|reflexivity].
          rewrite EE in X. cbn [apply_obj datetime_of] in X. destruct (datetime_at q) as [d|e] eqn:D; [|discriminate X]. cbn in X. injection X as <- _. exists d. split; [now constructor|reflexivity].
        + destruct E as (E & E'). destruct (from_iso8601 s) as [ti|e] eqn:I; [|rewrite (E' _ eq_refl) in X; discriminate X]. destruct (E _ eq_refl) as (c' & E2). rewrite E2 in X. injection X as <- _. exists ti. split; [now constructor|reflexivity].
        + destruct E as (c' & E). rewrite E in X. injection X as <- _. eexists. split; [constructor|reflexivity].
      - intros (d & B & ->). inversion B; subst; try exact E; [now apply E|]. destruct E as (E & _). now apply E.
    Qed.
    Lemma made_uuid : of_type f "string" -> of_format f ["uuid"]%string -> made <-> exists z, uuid uuid_of x z /\ r = PUuid z.
    Proof.
      intros K F. pose proof (c60_uuid int_of float_of str_of date_at datetime_at uuid_of email_ok h m o t x rd itself (proj2 (typed_decl _ _ M _) K) (proj2 (format_decl _ _ M _) F) NM eff_null) as E. rewrite eff in E. split.
      - intros (c & X). destruct x; try (rewrite E in X; discriminate X).
        + destruct (uuid_of s) as [z|] eqn:U; [|rewrite E in X; discriminate X]. destruct E as (c' & E). rewrite E in X. injection X as <- _. exists z. split; [now constructor|reflexivity].
        + destruct (Nat.eqb (length s) 16) eqn:L; [|rewrite E in X; discriminate X]. destruct E as (c' & E). rewrite E in X. injection X as <- _. eexists. split; [constructor; now apply Nat.eqb_eq|reflexivity].
        + destruct E as (c' & E). rewrite E in X. injection X as <- _. eexists. split; [constructor|reflexivity].
      - intros (z & B & ->). inversion B as [|s z' U|s L]; subst; [exact E|rewrite U in E; exact E|apply Nat.eqb_eq in L; rewrite L in E; exact E].
    Qed.
    Lemma made_file : of_type f "file" -> made <-> exists d, x = VDict d /\ ~ (entry "data" d VNull = VNull /\ entry "filename" d (VStr []) = VStr []) /\
      r = PFile (entry "header" d (VDict [])) (entry "data" d VNull) (entry "filename" d (VStr [])).
    Proof.
      intro K. apply (typed_decl _ _ M) in K. pose proof eff_null as EN. pose proof eff as EE. split.
      - intros (c & X). assert (D : exists d, x = VDict d).
        { destruct x; try (rewrite (c60_file_refused int_of float_of str_of date_at datetime_at uuid_of email_ok h m o t _ rd itself K EN ltac:(rewrite EE; discriminate)) in X; discriminate X). eauto. }
        destruct D as (d & ->). destruct (c60_file int_of float_of str_of date_at datetime_at uuid_of email_ok h m o t (VDict d) d rd itself K eq_refl) as (A & B). exists d. split; [reflexivity|].
        assert (NE : ~ (entry "data" d VNull = VNull /\ entry "filename" d (VStr []) = VStr [])). { intro Y. rewrite (A Y) in X. discriminate X. }
        split; [exact NE|]. destruct (B NE) as (c' & E). rewrite E in X. now injection X.
      - intros (d & -> & NE & ->). destruct (c60_file int_of float_of str_of date_at datetime_at uuid_of email_ok h m o t (VDict d) d rd itself K eq_refl) as (A & B). exact (B NE).
    Qed.
    (** Arrays *)
    Lemma made_array it cf : format_of (sch h t) = cf -> of_type f "array" -> s_items (sch h t) = Some it -> made <-> exists l l' rs, pieces cf x l /\
      (switched_on f "uniqueItems" /\ firsts [] l l' \/ ~ switched_on f "uniqueItems" /\ l' = l) /\ Forall2 (conv int_of float_of str_of date_at datetime_at uuid_of email_ok h m it) l' rs /\
      sized f "minItems" "maxItems" (length rs) /\ r = PArray cf rs.
    Proof.
      intros FM K IT. apply (typed_decl _ _ M) in K.
      assert (N' : is_null (effective h o x) = false) by (rewrite eff; destruct x; try reflexivity; now destruct NN).
      assert (LIST : forall l, made_list l <-> exists l' rs, (switched_on f "uniqueItems" /\ firsts [] l l' \/ ~ switched_on f "uniqueItems" /\ l' = l) /\
        Forall2 (conv int_of float_of str_of date_at datetime_at uuid_of email_ok h m it) l' rs /\ sized f "minItems" "maxItems" (length rs) /\ r = PArray cf rs).
      { intro l. unfold made_list. rewrite (c28_list int_of float_of str_of date_at datetime_at uuid_of email_ok h m o t (VList l) l it rd r itself K NM IT eq_refl). split.
        - intros (l' & rs & A & B & C & D). exists l', rs. split; [now apply (unique_is _ _ M)|]. split; [exact B|]. split; [now apply (count_is _ _ M)|now rewrite <- FM].
        - intros (l' & rs & A & B & C & D). exists l', rs. split; [now apply (unique_is _ _ M)|]. split; [exact B|]. split; [now apply (count_is _ _ M)|now rewrite FM]. }
      assert (SAME : forall l, M_Prim.elements x = Some l -> made <-> made_list l).
      { intros l E. unfold made_list. rewrite (array_iff _ _ _ _ _ _ _ h m o t x (new_ctx rd) r itself); [|intros []|exact K|exact NM|exact N'].
        rewrite (array_iff _ _ _ _ _ _ _ h m o t (VList l) (new_ctx rd) r itself); [|intros []|exact K|exact NM|reflexivity].
        rewrite eff. cbn [effective]. unfold array_apply. assert (SP : forall g, split_text g x = Ok x) by (intro g; destruct x; try reflexivity; discriminate E).
        rewrite SP. cbn [split_text bind]. unfold unique. cbn [M_Prim.elements]. rewrite E. rewrite IT. destruct (s_unique (sch h t)); cbn [bind]; [reflexivity|]. cbn [M_Prim.elements]. rewrite E.
        destruct l as [|e l]; [|reflexivity]. cbn [bind fst snd]. split; intros (v' & Y).
        - apply bind_ok in Y as ([] & A & Y). apply bind_ok in Y as ([] & B & Y). rewrite A, B. cbn [bind]. injection Y as <- _. eauto.
        - apply bind_ok in Y as ([] & A & Y). apply bind_ok in Y as ([] & B & Y). rewrite A, B. cbn [bind]. injection Y as <- _. eauto. }
      assert (ALL : forall l, made_list l -> pieces cf x l -> exists l l' rs, pieces cf x l /\
        (switched_on f "uniqueItems" /\ firsts [] l l' \/ ~ switched_on f "uniqueItems" /\ l' = l) /\ Forall2 (conv int_of float_of str_of date_at datetime_at uuid_of email_ok h m it) l' rs /\
        sized f "minItems" "maxItems" (length rs) /\ r = PArray cf rs).
      { intros l A B. apply LIST in A as (l' & rs & A). exists l, l', rs. tauto. }
      assert (NONE : (forall t, x <> VStr t) -> M_Prim.elements x = None -> ~ made).
      { intros NS E A. apply (array_iff _ _ _ _ _ _ _ h m o t x (new_ctx rd) r itself) in A; [|intros []|exact K|exact NM|exact N']. destruct A as (v' & A). rewrite eff in A. unfold array_apply in A.
        assert (SP : forall g, split_text g x = Ok x) by (intro g; destruct x; try reflexivity; now destruct (NS s)).
        rewrite SP in A. cbn [bind] in A. unfold unique in A. rewrite E, IT in A. destruct (s_unique (sch h t)); [discriminate A|]. cbn [bind] in A. rewrite E in A. discriminate A. }
      split.
      - intro A. destruct x as [| | | |s|s| | | | |l|d].
        all: try (exfalso; refine (NONE _ eq_refl A); discriminate).
        + (* text *) destruct (separator cf) as [c|] eqn:SE.
          * destruct (separator_spec _ _ SE) as (fm & sp & -> & SP & LS).
            assert (EQ : s = join (lit sp) (PyBase.split [c] s)) by (rewrite LS; symmetry; apply join_split; discriminate).
            assert (CL : Forall (fun p => forall ch, In ch (lit sp) -> ~ In ch p) (PyBase.split [c] s)).
            { eapply Forall_impl; [|apply split_char_no]. intros p HC ch I. rewrite LS in I. destruct I as [<-|[]]. exact HC. }
            apply (ALL (map VStr (PyBase.split [c] s))).
            -- apply (c28_text int_of float_of str_of date_at datetime_at uuid_of email_ok h m o t s (PyBase.split [c] s) fm sp rd r itself K NM FM SP EQ (split_nonempty _ _) CL) in A. exact A.
            -- rewrite EQ at 1. apply (pi_str _ fm sp); [reflexivity|exact SP|apply split_nonempty|exact CL].
          * exfalso. destruct A as (c & A). rewrite (c28_unknown_format int_of float_of str_of date_at datetime_at uuid_of email_ok h m o t s rd itself K) in A; [discriminate A|]. rewrite FM. intro I. apply in_map_iff in I as (g & <- & I).
            destruct I as [<-|[<-|[<-|[<-|[]]]]]; discriminate SE.
        + apply (ALL _ (proj1 (SAME _ eq_refl) A)). constructor.
        + apply (ALL _ (proj1 (SAME _ eq_refl) A)). constructor.
        + apply (ALL _ (proj1 (SAME _ eq_refl) A)). constructor.
      - intros (l & l' & rs & E & A). assert (L : made_list l) by (apply LIST; exists l', rs; exact A). destruct E as [l|d|s|fm sp ps TX SP NE CL].
        + now apply (SAME _ eq_refl).
        + now apply (SAME _ eq_refl).
        + now apply (SAME _ eq_refl).
        + apply (c28_text int_of float_of str_of date_at datetime_at uuid_of email_ok h m o t _ ps fm sp rd r itself K NM); [now rewrite FM|exact SP|reflexivity|exact NE|exact CL|exact L].
    Qed.
  End One.

    (** Nothing is made for other types. *)
  Lemma made_type f o m rd x r : mirror f (sch h o) -> x <> VNull -> (exists c, produce (S m) o x (new_ctx rd) = Ok (r, c)) -> exists t, In t ["integer"; "number"; "string"; "boolean"; "file"; "array"]%string /\ of_type f t.
    Proof.
      intros M NN (c & E). pose proof (target_refl h o (mi_ref _ _ M)) as itself. assert (eff : effective h o x = x) by (destruct x; try reflexivity; now destruct NN). assert (eff_null : effective h o x <> VNull) by now rewrite eff.
      assert (N' : is_null (effective h o x) = false) by (rewrite eff; destruct x; try reflexivity; now destruct NN).
      assert (TY : exists t, In t types /\ s_type (sch h o) = Some (lit t)).
      { destruct (s_type (sch h o)) as [[|a t]|] eqn:TY.
        - rewrite (produce_some _ _ _ _ _ _ _ _ m o o x (new_ctx rd) itself N') in E; [|intros []]. unfold start in E. rewrite TY, (mi_full _ _ M) in E. discriminate E.
        - destruct (mem (a :: t) (map lit types)) eqn:ME.
          + apply mem_In, in_map_iff in ME as (t' & T1 & T2). exists t'. split; [exact T2|]. now rewrite T1.
          + rewrite (c60_unknown int_of float_of str_of date_at datetime_at uuid_of email_ok h m o o (a :: t) x rd itself TY ltac:(discriminate)) in E; [discriminate E| |exact eff_null]. intro I. apply mem_In in I. congruence.
        - rewrite (produce_some _ _ _ _ _ _ _ _ m o o x (new_ctx rd) itself N') in E; [|intros []]. unfold start in E. rewrite TY, (mi_full _ _ M) in E. discriminate E. }
      destruct TY as (t & I & TY). exists t. split; [|now apply (mi_type _ _ M)].
      destruct (string_dec t "object") as [->|ND]; [|cbn in I |- *; intuition congruence].
      rewrite (produce_some _ _ _ _ _ _ _ _ m o o x (new_ctx rd) itself N') in E; [|intros []]. rewrite eff in E. unfold start in E. rewrite TY in E.
      assert (GO : get (Some (lit "object")) (s_format (sch h o)) = (Some (CrObj CModel), Some S2Obj)) by reflexivity.
      cbn [lit] in *. rewrite GO in E. exfalso. revert E. cbn [create bind run_2nd apply_obj]. unfold model_apply. rewrite (mi_full _ _ M). destruct x; discriminate.
    Qed.
  (** The kinds without elements *)
  Lemma leaf_made f o t m rd x r ty : read_as f o t -> x <> VNull -> In ty ["integer"; "number"; "string"; "boolean"; "file"]%string -> of_type f ty ->
    (exists c, produce (S m) o x (new_ctx rd) = Ok (r, c)) -> becomes f x r.
  Proof.
    intros M NN I TY A. destruct I as [<-|[<-|[<-|[<-|[<-|[]]]]]].
    - apply (made_integer f o t m rd x r M NN) in A; [|now left]. destruct A as (z & B & C & ->). apply be_integer; auto. now left.
    - destruct (of_format_dec _ _ (rd_mirror _ _ _ M) ["int32"; "int64"]%string) as [F|F].
      + apply (made_integer f o t m rd x r M NN) in A; [|now right]. destruct A as (z & B & C & ->). apply be_integer; auto. now right.
      + apply (made_number f o t m rd x r M NN) in A; [|now split]. destruct A as (q & B & C & D & ->). apply be_number; auto. now split.
    - destruct (of_format_dec _ _ (rd_mirror _ _ _ M) ["email"]%string) as [F|F1]; [apply (made_email f o t m rd x r M NN TY F) in A; destruct A as (s & B & C & D & ->); now apply be_email|].
        destruct (of_format_dec _ _ (rd_mirror _ _ _ M) ["uuid"]%string) as [F|F2]; [apply (made_uuid f o t m rd x r M NN TY F) in A; destruct A as (s & B & ->); now apply be_uuid|].
        destruct (of_format_dec _ _ (rd_mirror _ _ _ M) ["byte"; "binary"]%string) as [F|F3]; [apply (made_bytes f o t m rd x r M NN TY F) in A; destruct A as (s & B & ->); now apply be_bytes|].
        destruct (of_format_dec _ _ (rd_mirror _ _ _ M) ["date"]%string) as [F|F4]; [apply (made_date f o t m rd x r M NN TY F) in A; now apply be_date|].
        destruct (of_format_dec _ _ (rd_mirror _ _ _ M) ["date-time"]%string) as [F|F5]; [apply (made_moment f o t m rd x r M NN TY F) in A; destruct A as (s & B & ->); now apply be_moment|].
        assert (TD : text_decl f).
        { split; [exact TY|]. intros (e & I & X). assert (N : forall l, ~ of_format f l -> In e l -> False) by (intros l NF J; apply NF; exists e; now split).
          destruct I as [<-|[<-|[<-|[<-|[<-|[<-|[]]]]]]]; [refine (N _ F1 _)|refine (N _ F2 _)|refine (N _ F3 _)|refine (N _ F3 _)|refine (N _ F4 _)|refine (N _ F5 _)]; cbn; auto. }
        apply (made_text f o t m rd x r M NN TD) in A. destruct A as (s & B & C & ->). now apply be_text.
    - apply (made_boolean f o t m rd x r M NN TY) in A. destruct A as (b & B & ->). now apply be_boolean.
    - apply (made_file f o t m rd x r M NN TY) in A. destruct A as (d & -> & B & ->). now apply be_file.
  Qed.
  Lemma leaf_back f o t m rd x r : read_as f o t -> x <> VNull -> ~ of_type f "array" -> becomes f x r -> exists c, produce (S m) o x (new_ctx rd) = Ok (r, c).
  Proof.
    intros M NN NA B. revert M NA. destruct B as [f D|f d y r D SV Y B|f x z K W R|f x q K W R MU|f x s K _ W R|f x s K F _ W R EM|f x b K _ W|f x s K F W|f x r K F W|f x d K F W|f x z K F W|f d K data name W|f x i l l' rs fmt K IT E U G SZ T]; intros M NA.
    - now destruct NN.
    - now destruct NN.
    - apply (made_integer f o t m rd x _ M NN K); eauto.
    - apply (made_number f o t m rd x _ M NN K); eauto 6.
    - apply (made_text f o t m rd x _ M NN K); eauto 6.
    - apply (made_email f o t m rd x _ M NN K F); eauto 7.
    - apply (made_boolean f o t m rd x _ M NN K); eauto 6.
    - apply (made_bytes f o t m rd x _ M NN K F); eauto 6.
    - apply (made_date f o t m rd x _ M NN K F); eauto 6.
    - apply (made_moment f o t m rd x _ M NN K F); eauto 6.
    - apply (made_uuid f o t m rd x _ M NN K F); eauto 6.
    - apply (made_file f o t m rd _ _ M NN K); eauto 6.
    - now destruct NA.
  Qed.
  Lemma made_by f o m rd x r it : mirror f (sch h o) -> x <> VNull -> (of_type f "array" -> s_items (sch h o) = Some (S o) /\ S_Merge.field_of f (lit "items") = Some it /\
      forall y p, conv int_of float_of str_of date_at datetime_at uuid_of email_ok h m (S o) y p <-> becomes it y p) ->
    (exists c, produce (S m) o x (new_ctx rd) = Ok (r, c)) <-> becomes f x r.
  Proof.
    intros M NN ARR. pose proof (reads_itself _ _ M) as R. destruct (mi_cf _ _ M) as (cf & CF & TF). assert (FM : format_of (sch h o) = cf) by (unfold format_of; now rewrite CF).
    assert (AB : becomes f x r -> of_type f "array" -> exists i l l' rs, S_Merge.field_of f (lit "items") = Some i /\ elements f x l /\
      (switched_on f "uniqueItems" /\ S_Prim.firsts [] l l' \/ ~ switched_on f "uniqueItems" /\ l' = l) /\ Forall2 (becomes i) l' rs /\ sized f "minItems" "maxItems" (length rs) /\ r = PArray cf rs).
    { clear ARR R. intros B K'. revert TF K'. destruct B as [f D|f d y r D SV Y B|f x z K W R|f x q K W R MU|f x s K _ W R|f x s K F _ W R EM|f x b K _ W|f x s K F W|f x r K F W|f x d K F W|f x z K F W|f d K data name W|f x i l l' rs fmt K IT E U G SZ T]; intros TF K'.
      1-2: now destruct NN.
      all: try (exfalso; repeat match goal with X : integer_decl _ |- _ => destruct X as [X|(X & _)] | X : number_decl _ |- _ => destruct X as (X & _) | X : text_decl _ |- _ => destruct X as (X & _) end; unfold of_type, text_at in *; rewrite K in K'; discriminate K').
      exists i, l, l', rs. repeat (split; [assumption|]). f_equal. unfold text_at in *. congruence. }
    assert (DA : of_type f "array" \/ ~ of_type f "array") by (unfold of_type, text_at; destruct (S_Merge.field_of f (lit "type")) as [[| | | |s| | |]|]; try (right; discriminate); destruct (str_eqb s (lit "array")) eqn:E; [left; apply str_eqb_eq in E; now subst|right; intro X; injection X as ->; now rewrite str_eqb_refl in E]).
    split.
    - intro A. destruct (made_type f o m rd x r M NN A) as (t & I & TY). destruct DA as [K|NA].
      + destruct (ARR K) as (IT & FI & C). apply (made_array f o o m rd x r R NN _ cf FM K IT) in A. destruct A as (l & l' & rs & E & U & G & SZ & ->).
        apply (be_array _ _ _ _ _ _ _ f x it l l' rs cf); auto; [now apply (pieces_is _ _ _ _ TF)|now apply (Forall2_same _ _ _ _ C)].
      + apply (leaf_made f o o m rd x r t R NN); auto. cbn in I |- *. destruct I as [<-|[<-|[<-|[<-|[<-|[<-|[]]]]]]]; tauto.
    - intro B. destruct DA as [K|NA]; [|now apply (leaf_back f o o m rd x r R NN)].
      destruct (ARR K) as (IT' & FI & C). destruct (AB B K) as (i & l & l' & rs & IT & E & U & G & SZ & ->). rewrite IT in FI. injection FI as <-.
      apply (made_array f o o m rd x _ R NN _ cf FM K IT'). exists l, l', rs. split; [now apply (pieces_is _ _ _ _ TF)|]. split; [exact U|]. split; [now apply (Forall2_same _ _ _ _ C)|]. split; [exact SZ|reflexivity].
  Qed.
  Lemma becomes_null f r : becomes f VNull r -> S_Merge.field_of f (lit "default") = Some M_SpecVal.VNone /\ r = PNone \/
    exists d x, S_Merge.field_of f (lit "default") = Some d /\ same_value d x /\ x <> VNull /\ becomes f x r.
  Proof.
    intro B. remember VNull as y eqn:Y. destruct B as [f D|f d y r D SV N B|f x z K W R|f x q K W R MU|f x s K N W R|f x s K F N W R EM|f x b K N W|f x s K F W|f x r K F W|f x d K F W|f x z K F W|f d K data name W|f x i l l' rs fmt K IT E U G SZ T].
    - left. now split.
    - right. exists d, y. auto.
    - subst x. inversion W.
    - subst x. inversion W.
    - now destruct N.
    - now destruct N.
    - now destruct N.
    - subst x. inversion W.
    - subst x. inversion W.
    - subst x. inversion W.
    - subst x. inversion W.
    - discriminate Y.
    - subst x. inversion E.
  Qed.
  (** Where nothing is given the default is used. *)
  Lemma made_null f o m rd r : mirror f (sch h o) -> (forall x, x <> VNull -> (exists c, produce (S m) o x (new_ctx rd) = Ok (r, c)) <-> becomes f x r) ->
    (exists c, produce (S m) o VNull (new_ctx rd) = Ok (r, c)) <-> becomes f VNull r.
  Proof.
    intros M ALL. destruct (mi_default _ _ M) as (d & D & SD & (x & SV)). pose proof (same_value_of _ _ SV) as VX. rewrite <- VX in SD.
    pose proof (target_refl h o (mi_ref _ _ M)) as T.
    destruct (is_null x) eqn:NX.
    - destruct x; try discriminate NX. assert (DN : d = M_SpecVal.VNone) by now inversion SV. subst d.
      assert (P : produce (S m) o VNull (new_ctx rd) = Ok (PNone, new_ctx rd)) by (apply c60_none; exact SD).
      rewrite P. split.
      + intros (c & E). injection E as <- _. now apply be_none.
      + intro B. apply becomes_null in B as [(_ & ->)|(d & y & D' & S' & Y & _)]; [eauto|]. rewrite D in D'. injection D' as <-. inversion S'; subst. now destruct Y.
    - assert (XN : x <> VNull) by (intros ->; discriminate NX).
      assert (P : produce (S m) o VNull (new_ctx rd) = produce (S m) o x (new_ctx rd)).
      { rewrite (produce_some _ _ _ _ _ _ _ _ m o o VNull (new_ctx rd) T); [|cbn [effective]; now rewrite SD|intros []]. rewrite (produce_some _ _ _ _ _ _ _ _ m o o x (new_ctx rd) T); [|destruct x; try reflexivity; discriminate NX|intros []].
        replace (effective h o x) with x by (destruct x; try reflexivity; discriminate NX). cbn [effective]. now rewrite SD. }
      rewrite P, (ALL x XN). split.
      + intro B. now apply (be_default _ _ _ _ _ _ _ f d x r).
      + intro B. apply becomes_null in B as [(D' & _)|(d' & y & D' & S' & Y & B)]; rewrite D in D'; [injection D' as ->; inversion SV; subst; now destruct XN|injection D' as <-]. apply same_value_of in S'. now rewrite VX, <- S'.
  Qed.
  Theorem made n o f : shown h n o f -> forall m rd x r, n <= m -> (exists c, produce m o x (new_ctx rd) = Ok (r, c)) <-> becomes f x r.
  Proof.
    induction 1 as [o f M IT NA|n o f i M IT FI SH IH]; intros m rd x r L; (destruct m as [|m]; [exfalso; lia|]).
    - assert (A : forall x, x <> VNull -> (exists c, produce (S m) o x (new_ctx rd) = Ok (r, c)) <-> becomes f x r) by (intros y NY; apply (made_by f o m rd y r M_SpecVal.VNone M NY); intro K; now destruct NA).
      destruct (is_null x) eqn:NX; [destruct x; try discriminate NX; now apply made_null|apply A; intros ->; discriminate NX].
    - assert (A : forall x, x <> VNull -> (exists c, produce (S m) o x (new_ctx rd) = Ok (r, c)) <-> becomes f x r).
      { intros y NY; apply (made_by f o m rd y r i M NY). intro K. split; [exact IT|]. split; [exact FI|]. intros z p. apply IH. lia. }
      destruct (is_null x) eqn:NX; [destruct x; try discriminate NX; now apply made_null|apply A; intros ->; discriminate NX].
  Qed.
End Becomes.

Section Declared.
  Context (int_of : str -> res Z) (float_of : str -> res Q) (str_of : value -> str)
    (date_at : Q -> res (Z * Z * Z)) (datetime_at : Q -> res datetime) (uuid_of : str -> option Z) (email_ok : str -> bool).
  Notation becomes := (becomes int_of float_of str_of date_at datetime_at uuid_of email_ok).
  Notation produce_declared := (produce_declared int_of float_of str_of date_at datetime_at uuid_of email_ok).
  Theorem declared_becomes rd f x r : in_order f -> produce_declared rd f x = Ok r <-> becomes f x r.
  Proof.
    intro IO. destruct (declared_shown f IO 0) as (l & D & _ & SH). specialize (SH [] [] eq_refl). cbn [List.app] in SH. rewrite app_nil_r in SH.
    unfold M_Declared.produce_declared. rewrite D. cbn [bind]. rewrite <- (made _ _ _ _ _ _ _ l _ _ _ SH (S (length l)) rd x r); [|lia]. rewrite bind_ok. split.
    - intros ([p c] & A & B). injection B as <-. eauto.
    - intros (c & A). exists (r, c). now split.
  Qed.
End Declared.
