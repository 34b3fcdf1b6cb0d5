(** Proofs about composing schemas: regular documents, and a check for examples. *)
From Coq Require Import Lia.
From Verif Require Import PyBase PyFacts PyJson M_SpecVal M_Merge S_Parse S_SpecTree S_Merge P_SpecBase P_Op P_Merge M_Aggt S_Aggt P_Aggt P_AggtMerge P_AggtGather P_AggtAll P_AggtEnds.
Close Scope Q_scope.

Lemma plain1_err ex n df sv ov e : plain1 ex n df sv ov = Err e -> e = TypeError \/ e = ValueError.
Proof.
  unfold plain1. destruct (mem n ex); [discriminate|]. destruct (is_default ov df); [discriminate|]. destruct ov; try discriminate; unfold as_list, as_dict; destruct (falsy sv); try discriminate; destruct sv; cbn; intro E; try discriminate E; injection E as <-; auto.
Qed.
Section Regular.
  Context (h0 : heap) (R : regular h0).
  Definition okv (k : str) (v : val) : Prop := exists s, k = lit s /\
    (always h0 s list_or_none -> list_or_none v) /\ (s <> "required"%string -> always h0 s dict_or_none -> dict_or_none v) /\ (s <> "required"%string -> always h0 s (fun v => ~ container v) -> ~ container v).
  Lemma plain_names n df : In (n, df) plain_fields -> n = lit "required" \/ df = JNull.
  Proof.
    assert (X : forallb (fun nd => str_eqb (fst nd) (lit "required") || match snd nd with JNull => true | _ => false end) plain_fields = true) by (vm_compute; reflexivity).
    rewrite forallb_forall in X. intro I. specialize (X _ I). cbn [fst snd] in X. apply Bool.orb_true_iff in X as [X|X]; [left; now apply str_eqb_eq|]. right. now destruct df.
  Qed.
  Lemma lit_inj s t : lit s = lit t -> s = t.
  Proof.
    unfold lit. revert t. induction s as [|a s IH]; intros [|b t] E; try discriminate E; [reflexivity|]. cbn in E. injection E as -> E. f_equal. auto.
  Qed.
  Lemma lit_all k : exists s, k = lit s.
  Proof. exists (string_of_list_ascii k). symmetry. apply list_ascii_of_string_of_list_ascii. Qed.
  Lemma ok_cases k : exists s, k = lit s /\ (always h0 s list_or_none \/ s <> "required"%string /\ always h0 s dict_or_none \/ s <> "required"%string /\ always h0 s (fun v => ~ container v)).
  Proof.
    destruct (lit_all k) as (s & ->). exists s. split; [reflexivity|]. destruct R as (R1 & R2). destruct (string_dec s "required") as [->|D]; [auto|]. destruct (R2 s) as [?|[?|?]]; auto.
  Qed.
  Lemma okv_at s v : okv (lit s) v -> (always h0 s list_or_none -> list_or_none v) /\ (s <> "required"%string -> always h0 s dict_or_none -> dict_or_none v) /\ (s <> "required"%string -> always h0 s (fun v => ~ container v) -> ~ container v).
  Proof. intros (t & E & X). apply lit_inj in E as <-. exact X. Qed.
  Lemma regular_err ex n df sv ov e : In (n, df) plain_fields -> okv n sv -> okv n ov -> plain1 ex n df sv ov = Err e -> False.
  Proof.
    intros I SV OV E. destruct (ok_cases n) as (s & -> & K). apply okv_at in SV as (S1 & S2 & S3), OV as (O1 & O2 & O3). unfold plain1 in E. destruct (mem (lit s) ex); [discriminate E|]. destruct (is_default ov df); [discriminate E|].
    destruct K as [K|[(D & K)|(D & K)]].
    - destruct (O1 K) as [(l & ->)| ->]; [|discriminate E]. destruct (S1 K) as [([|] & ->)| ->]; discriminate E.
    - destruct (O2 D K) as [(l & ->)| ->]; [|discriminate E]. destruct (S2 D K) as [([|] & ->)| ->]; discriminate E.
    - specialize (O3 D K). destruct ov; try discriminate E; elim O3; [left|right]; eauto.
  Qed.
  Lemma regular_val ex n df sv ov x : In (n, df) plain_fields -> okv n sv -> okv n ov -> plain1 ex n df sv ov = Ok x -> okv n x.
  Proof.
    intros I SV OV E. destruct (lit_all n) as (s & ->). pose proof SV as SV'. apply okv_at in SV as (S1 & S2 & S3). pose proof OV as OV'. apply okv_at in OV as (O1 & O2 & O3). unfold plain1 in E.
    destruct (mem (lit s) ex); [injection E as <-; exact SV'|]. destruct (is_default ov df); [injection E as <-; exact SV'|].
    assert (X : (exists l, ov = VList l /\ exists m, x = VList m) \/ (exists d, ov = VDict d /\ exists m, x = VDict m) \/ x = ov \/ x = sv).
    { destruct ov; try (injection E as <-; destruct (is_default sv df); auto; fail); apply bind_ok in E as (m & _ & E); injection E as <-; eauto 6. }
    destruct X as [(l & -> & m & ->)|[(d & -> & m & ->)|[->| ->]]]; [| |exact OV'|exact SV']; exists s; (split; [reflexivity|]); (split; [|split]).
    - left. eauto.
    - intros D K. destruct (O2 D K) as [(d & X)|X]; discriminate X.
    - intros D K. elim (O3 D K). left. eauto.
    - intro K. destruct (O1 K) as [(d' & X)|X]; discriminate X.
    - left. eauto.
    - intros D K. elim (O3 D K). right. eauto.
  Qed.
  Lemma regular_new n df : In (n, df) plain_fields -> okv n (inject df).
  Proof.
    intro I. destruct (lit_all n) as (s & ->). exists s. split; [reflexivity|]. pose proof (plain_defaults _ _ I) as D. destruct (plain_names _ _ I) as [E| ->].
    - apply lit_inj in E as ->. destruct df as [| | | | |[|]|]; try discriminate D; cbn; (split; [|split; intro X; now elim X]); [now right|left; eauto].
    - cbn. split; [now right|]. split; [now right|]. intros _ _ [(l & X)|(d & X)]; discriminate X.
  Qed.
  Lemma regular_vals : vals okv h0.
  Proof.
    intros i n N k v S. destruct (lit_all k) as (s & ->). assert (F : field h0 i s v) by (exists n; auto). exists s. split; [reflexivity|]. split; [intro K; eapply K; eauto|]. split; [intros D K; eapply K; eauto|intros D K; eapply K; eauto].
  Qed.
  Lemma regular_aggregate ids : fresh_heap h0 -> (forall i, In i ids -> exists n, is_node h0 i n) -> exists N h', forall fuel, N <= fuel -> aggregate fuel h0 ids = Ok h'.
  Proof.
    intros F LI. destruct (aggregate_ends (fun _ => False) okv) with (N0 := length h0) (ids := ids) (h := h0) as (N & r & P & E).
    - exact regular_err.
    - apply regular_val.
    - apply regular_new.
    - now apply fresh_good.
    - apply regular_vals.
    - intros i I. destruct (LI _ I) as (n & X). apply nth_error_Some. unfold is_node in X. congruence.
    - destruct r as [h'|e]; [exists N, h'; exact E|]. elim (P e eq_refl).
  Qed.
End Regular.
Lemma any_aggregate h ids : fresh_heap h -> (forall i, In i ids -> exists n, is_node h i n) ->
  exists N r, (forall e, r = Err e -> e = TypeError \/ e = ValueError) /\ forall fuel, N <= fuel -> aggregate fuel h ids = r.
Proof.
  intros F LI. apply (aggregate_ends (fun e => e = TypeError \/ e = ValueError) (fun _ _ => True)) with (N0 := length h).
  - intros. eapply plain1_err; eauto.
  - auto.
  - auto.
  - now apply fresh_good.
  - intros i n N k v S. exact Logic.I.
  - intros i I. destruct (LI _ I) as (n & X). apply nth_error_Some. unfold is_node in X. congruence.
Qed.

(** ** A check *)
Fixpoint treeb (fuel : nat) (h : heap) (i : oid) : bool :=
  match fuel with
  | O => false
  | S fuel => match nth_error h i with Some n => forallb (treeb fuel h) (kids n) | None => false end
  end.
Lemma treeb_ok h : forall d i, treeb d h i = true -> tree h d i.
Proof.
  induction d as [|d IH]; intros i T; [discriminate T|]. cbn [treeb] in T. destruct (nth_error h i) as [n|] eqn:N; [|discriminate T]. econstructor; [exact N|]. rewrite forallb_forall in T. intros j H. apply IH, T, kids_holds, H.
Qed.
Definition fresh_nodeb (h : heap) (n : node) : bool :=
  forallb (treeb (length h) h) (kids n) && match s_ref n with Some j => Nat.ltb j (length h) | None => true end && match s_final n with None => true | _ => false end &&
  nodupb (map fst (s_props n)) && (if list_eq_dec (list_eq_dec Ascii.ascii_dec) (map fst (s_plain n)) (map fst plain_fields) then true else false).
Lemma fresh_ok h : forallb (fresh_nodeb h) h = true -> fresh_heap h.
Proof.
  intros F i n N. rewrite forallb_forall in F. pose proof (F _ (nth_error_In _ _ N)) as X. unfold fresh_nodeb in X. rewrite !Bool.andb_true_iff in X. destruct X as ((((T & R) & FN) & K) & P). split; [|split; [|split; [|split]]].
  - exists (S (length h)). econstructor; [exact N|]. rewrite forallb_forall in T. intros j H. apply treeb_ok, T, kids_holds, H.
  - intros j E. rewrite E in R. apply Nat.ltb_lt in R. destruct (nth_error h j) as [m|] eqn:M; [exists m; exact M|]. apply nth_error_None in M. lia.
  - now destruct (s_final n).
  - now apply nodupb_ok.
  - destruct (list_eq_dec _ _ _) as [E|]; [exact E|discriminate P].
Qed.
