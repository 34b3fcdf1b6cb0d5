(** Proofs about declarations in documents, and declarations that references lead to (C66). *)
From Coq Require Import QArith Lia.
From Verif Require Import PyBase PyFacts PyJson P_Op M_SpecVal M_Parse M_SpecTree S_Parse S_SpecTree S_Merge S_MergeRef S_Patch S_Prepare S_Swagger20 P_SpecBase T_Swagger20 M_Declared S_Declared P_Declared P_Declared2 P_Declared3.
From Verif Require M_Prim M_Time.
Close Scope Q_scope.
Open Scope nat_scope.

(** ** Parsed declarations *)
Definition decl_class (c : cls) : Prop := c = CParameter \/ c = CItems \/ c = CHeader.
Lemma value_fields c n : decl_class c -> In n ["type"; "format"; "maximum"; "minimum"; "multipleOf"; "maxLength"; "minLength"; "maxItems"; "minItems"; "exclusiveMaximum"; "exclusiveMinimum"; "uniqueItems"; "enum"; "default"]%string ->
  In (lit n, (Value, VNone)) (swagger20 c).
Proof.
  intros D I. assert (X : In (lit n, (Value, VNone)) validation).
  { unfold validation. apply in_map_iff. exists n. split; [reflexivity|]. cbn [In] in I |- *. tauto. }
  destruct D as [-> | [-> | ->]]; cbn [swagger20]; apply in_or_app; now right.
Qed.
Lemma name_field : In (lit "name", (Value, VNone)) (swagger20 CParameter).
Proof. cbn. auto. Qed.
Lemma cf_field c : decl_class c -> In (lit "collectionFormat", (Value, VStr (lit "csv"))) (swagger20 c).
Proof. intros [-> | [-> | ->]]; cbn; auto 10. Qed.
Lemma items_field c : decl_class c -> In (lit "items", (Object CItems, VNone)) (swagger20 c).
Proof. intros [-> | [-> | ->]]; cbn; auto 10. Qed.
Lemma no_json_object j : exists x, same_value (inject j) x.
Proof.
  induction j as [| | | | |l IH|d IH] using json_ind'; try (eexists; constructor; fail).
  - assert (X : exists m, Forall2 same_value (map inject l) m). { induction IH as [|a l (x & A) F (m & M)]; [exists []; constructor|]. exists (x :: m). constructor; auto. }
    destruct X as (m & X). exists (M_Prim.VList m). now constructor.
  - assert (X : exists e, Forall2 (fun a b => fst a = fst b /\ same_value (snd a) (snd b)) (map (fun kv => (fst kv, inject (snd kv))) d) e).
    { induction IH as [|[k a] d (x & A) F (m & M)]; [exists []; constructor|]. exists ((k, x) :: m). constructor; auto. }
    destruct X as (e & X). exists (M_Prim.VDict e). now constructor.
Qed.
Lemma is_value n w x : reads Value w x -> n = x -> x = inject w.
Proof. intros R _. now inversion R. Qed.
Section Read.
  Context (c : cls) (d : sdict json) (h : head) (fs ints : sdict val).
  Hypothesis D : decl_class c.
  Hypothesis FS : forall n k a, In (n, (k, a)) (swagger20 c) -> exists x, sget n fs = Some x /\
       ((sget n d = None /\ x = a) \/ (sget n d = Some JNull /\ x = nothing k) \/ exists w, sget n d = Some w /\ w <> JNull /\ reads k w x).
  Lemma read_field n ok (ok' : val -> Prop) : In (lit n, (Value, VNone)) (swagger20 c) -> given d n ok -> ok' VNone -> (forall w, ok w -> ok' (inject w)) -> field_ok (VObj h fs ints) ok' n.
  Proof.
    intros I G N O. destruct (FS _ _ _ I) as (x & S & X). exists x. split; [exact S|]. destruct X as [(A & ->)|[(A & ->)|(w & A & B & R)]]; [exact N|exact N|]. inversion R; subst. destruct G as [G|G|w' G K]; try congruence. assert (w' = w) by congruence. subst. auto.
  Qed.
  Lemma read_value n : In (lit n, (Value, VNone)) (swagger20 c) -> exists w, sget (lit n) fs = Some (inject w) /\ (forall s, w = JStr s -> sget (lit n) d = Some (JStr s)).
  Proof.
    intros I. destruct (FS _ _ _ I) as (x & S & X). destruct X as [(A & ->)|[(A & ->)|(w & A & B & R)]]; [exists JNull; split; [exact S|discriminate]|exists JNull; split; [exact S|discriminate]|]. inversion R; subst. exists w. split; [exact S|]. now intros s ->.
  Qed.
End Read.
Lemma written_in_order : forall j, written j -> forall c v, decl_class c -> reads (Object c) j v -> in_order v.
Proof.
  fix IH 2. intros j [d T Nu Si En Cf It] c v D R. inversion R as [|c' d' h fs ints HC FS _| | | | | |]; subst.
  assert (V : forall n, In n ["type"; "format"; "maximum"; "minimum"; "multipleOf"; "maxLength"; "minLength"; "maxItems"; "minItems"; "exclusiveMaximum"; "exclusiveMinimum"; "uniqueItems"; "enum"; "default"]%string -> In (lit n, (Value, VNone)) (swagger20 (h_cls h))) by (intros n I; now apply value_fields).
  rewrite Forall_forall in T, Nu, Si.
  assert (TX : forall n, In (lit n, (Value, VNone)) (swagger20 (h_cls h)) -> given d n is_text -> field_ok (VObj h fs ints) text_or_none n).
  { intros n I G. refine (read_field (h_cls h) d h fs ints FS n is_text text_or_none I G _ _); [now left|]. intros w (s & ->). right. now exists s. }
  constructor.
  - destruct D as [-> | [-> | ->]]; auto.
  - intros (h' & fs' & ints' & E & C). injection E as <- <- <-. apply TX; [rewrite C; exact name_field|apply T; cbn; auto].
  - apply Forall_forall. intros n I. apply TX; [apply V; cbn in I |- *; tauto|apply T; cbn in I |- *; tauto].
  - apply Forall_forall. intros n I. refine (read_field (h_cls h) d h fs ints FS n a_number number_or_none _ (Nu n I) _ _); [apply V; cbn in I |- *; tauto|now left|]. intros w [(z & ->)|(q & ->)]; right; [left|right]; eexists; reflexivity.
  - apply Forall_forall. intros n I. refine (read_field (h_cls h) d h fs ints FS n is_size size_or_none _ (Si n I) _ _); [apply V; cbn in I |- *; tauto|now left|]. intros w (z & ->). right. eexists; reflexivity.
  - apply Forall_forall. intros n I. destruct (FS (lit n) Value VNone) as (x & X & _); [apply V; cbn in I |- *; tauto|]. exists x. split; [exact X|exact Logic.I].
  - refine (read_field (h_cls h) d h fs ints FS "enum" is_list list_or_none _ En _ _); [apply V; cbn; tauto|now left|]. intros w (l & ->). right. cbn [inject]. eauto.
  - destruct (read_value (h_cls h) d fs FS "default") as (w & S & _); [apply V; cbn; tauto|]. exists (inject w). split; [exact S|apply no_json_object].
  - destruct (FS _ _ _ (cf_field _ D)) as (x & S & X). exists x. split; [exact S|]. destruct X as [(A & ->)|[(A & ->)|(w & A & B & RR)]]; [eauto|destruct Cf as [C|(s & C)]; congruence|]. inversion RR; subst. destruct Cf as [C|(s & C)]; [congruence|]. exists s. rewrite A in C. injection C as ->. reflexivity.
  - destruct (FS _ _ _ (items_field _ D)) as (x & S & X). destruct It as [(A & B)|(i & A & W)].
    + left. split; [|intro TY; apply B; destruct (read_value (h_cls h) d fs FS "type") as (w & S' & W); [apply V; cbn; tauto|]; unfold of_type, text_at in TY; cbn [field_of] in TY; rewrite S' in TY; destruct w; try discriminate TY; injection TY as ->; now apply W].
      cbn [field_of]. rewrite S. destruct X as [(_ & ->)|[(_ & ->)|(w & A' & B' & _)]]; [reflexivity|reflexivity|]. destruct A as [A|A]; congruence.
    + right. exists x. split; [exact S|]. destruct X as [(A' & _)|[(A' & _)|(w & A' & B' & RR)]]; [congruence|rewrite A' in A; injection A as <-; inversion W|]. rewrite A' in A. injection A as ->. exact (IH i W CItems x (or_intror (or_introl eq_refl)) RR).
Qed.

(** ** Declarations that say the same *)
Definition plain_fields : list string := ["type"; "format"; "maximum"; "minimum"; "multipleOf"; "maxLength"; "minLength"; "maxItems"; "minItems"; "exclusiveMaximum"; "exclusiveMinimum"; "uniqueItems"; "default"; "collectionFormat"]%string.
Inductive alike : val -> val -> Prop :=
| al f g : (forall n, In n plain_fields -> field_of f (lit n) = field_of g (lit n)) -> (forall s, in_enum f s <-> in_enum g s) ->
    (forall i, field_of f (lit "items") = Some i -> exists j, field_of g (lit "items") = Some j /\ (i = VNone \/ alike i j)) -> alike f g.
Section Alike.
  Context (int_of : str -> res Z) (float_of : str -> res Q) (str_of : M_Prim.value -> str)
    (date_at : Q -> res (Z * Z * Z)) (datetime_at : Q -> res M_Time.datetime) (uuid_of : str -> option Z) (email_ok : str -> bool).
  Notation becomes := (becomes int_of float_of str_of date_at datetime_at uuid_of email_ok).
  Section Two.
    Context (f g : val).
    Hypothesis FG : forall n, In n plain_fields -> field_of f (lit n) = field_of g (lit n).
    Hypothesis EN : forall s, in_enum f s <-> in_enum g s.
    Lemma alike_text n s : In n plain_fields -> text_at f n s <-> text_at g n s.
    Proof. intro I. unfold text_at. now rewrite (FG n I). Qed.
    Lemma alike_type t : of_type f t <-> of_type g t.
    Proof. apply alike_text. cbn. tauto. Qed.
    Lemma alike_format l : of_format f l <-> of_format g l.
    Proof. unfold of_format. split; intros (s & I & X); exists s; (split; [exact I|]); (apply alike_text; [cbn; tauto|exact X]) || (apply (alike_text "format" s) in X; [exact X|cbn; tauto]). Qed.
    Lemma alike_number n q : In n plain_fields -> number_at f n q <-> number_at g n q.
    Proof. intro I. split; intros [z X|z X]; [apply na_int|apply na_float|apply na_int|apply na_float]; rewrite (FG n I) in *; exact X. Qed.
    Lemma alike_size n z : In n plain_fields -> size_at f n z <-> size_at g n z.
    Proof. intro I. unfold size_at. now rewrite (FG n I). Qed.
    Lemma alike_on n : In n plain_fields -> switched_on f n <-> switched_on g n.
    Proof. intro I. unfold switched_on. now rewrite (FG n I). Qed.
    Lemma alike_range q : in_range f q <-> in_range g q.
    Proof.
      unfold in_range. assert (A : forall m, number_at f "maximum" m <-> number_at g "maximum" m) by (intro; apply alike_number; cbn; tauto). assert (B : forall m, number_at f "minimum" m <-> number_at g "minimum" m) by (intro; apply alike_number; cbn; tauto).
      assert (C : switched_on f "exclusiveMaximum" <-> switched_on g "exclusiveMaximum") by (apply alike_on; cbn; tauto). assert (E : switched_on f "exclusiveMinimum" <-> switched_on g "exclusiveMinimum") by (apply alike_on; cbn; tauto).
      split; intros (X & Y); split; intros m M; [apply A in M|apply B in M|apply A in M|apply B in M]; [specialize (X m M)|specialize (Y m M)|specialize (X m M)|specialize (Y m M)]; tauto.
    Qed.
    Lemma alike_multiple q : multiple_of f q <-> multiple_of g q.
    Proof. unfold multiple_of. assert (A : forall m, number_at f "multipleOf" m <-> number_at g "multipleOf" m) by (intro; apply alike_number; cbn; tauto). split; intros X m M; apply A in M; auto. Qed.
    Lemma alike_sized lo hi n : In lo plain_fields -> In hi plain_fields -> sized f lo hi n <-> sized g lo hi n.
    Proof. intros L H. unfold sized. split; intros (X & Y); (split; intros z Z); [apply (alike_size hi z H) in Z|apply (alike_size lo z L) in Z|apply (alike_size hi z H) in Z|apply (alike_size lo z L) in Z]; auto. Qed.
    Lemma alike_right s : right_text f s <-> right_text g s.
    Proof. unfold right_text. rewrite EN. rewrite (alike_sized "minLength" "maxLength"); [reflexivity|cbn; tauto|cbn; tauto]. Qed.
    Lemma alike_elements x l : elements f x l -> elements g x l.
    Proof. intros [l'|d|s|fmt sp ps T S N C]; [constructor|constructor|constructor|]. apply (el_str g fmt); auto. apply alike_text; [cbn; tauto|exact T]. Qed.
  End Two.
  Lemma alike_sym_fields f g : (forall n, In n plain_fields -> field_of f (lit n) = field_of g (lit n)) -> forall n, In n plain_fields -> field_of g (lit n) = field_of f (lit n).
  Proof. intros A n I. symmetry. auto. Qed.
  Lemma alike_some f g : (forall n, In n plain_fields -> field_of f (lit n) = field_of g (lit n)) -> (forall s, in_enum f s <-> in_enum g s) ->
    (forall i, field_of f (lit "items") = Some i -> exists j, field_of g (lit "items") = Some j /\ forall x r, becomes i x r -> becomes j x r) ->
    forall x r, x <> M_Prim.VNull -> becomes f x r -> becomes g x r.
  Proof.
    intros FG EN IT x r NN B. revert FG EN IT.
    destruct B as [f D|f d y r D SV N B|f x z K W R|f x q K W R MU|f x s K N W R|f x s K F N W R EM|f x b K N W|f x s K F W|f x r K F W|f x d K F W|f x z K F W|f d K data name W|f x i l l' rs fmt K I E U G SZ T]; intros FG EN IT;
      pose proof (alike_type f g FG) as TY; pose proof (alike_format f g FG) as FO; pose proof (alike_range f g FG) as RA.
    - now destruct NN.
    - now destruct NN.
    - apply be_integer; [|exact W|now apply RA]. unfold integer_decl in *. now rewrite <- !TY, <- FO.
    - apply be_number; [|exact W|now apply RA|now apply (alike_multiple f g FG)]. unfold number_decl in *. now rewrite <- TY, <- FO.
    - apply be_text; [|exact N|exact W|now apply (alike_right f g FG EN)]. unfold text_decl in *. now rewrite <- TY, <- FO.
    - apply be_email; auto; [now apply TY|now apply FO|now apply (alike_right f g FG EN)].
    - apply be_boolean; auto. now apply TY.
    - apply be_bytes; auto; [now apply TY|now apply FO].
    - apply be_date; auto; [now apply TY|now apply FO].
    - apply be_moment; auto; [now apply TY|now apply FO].
    - apply be_uuid; auto; [now apply TY|now apply FO].
    - apply be_file; auto. now apply TY.
    - destruct (IT i I) as (j & J & BJ). apply (be_array _ _ _ _ _ _ _ g x j l l' rs fmt); auto; [now apply TY|now apply (alike_elements f g FG)| | | |].
      + rewrite <- (alike_on f g FG "uniqueItems"); [exact U|cbn; tauto].
      + clear - G BJ. induction G; constructor; auto.
      + apply (alike_sized f g FG); [cbn; tauto|cbn; tauto|exact SZ].
      + apply (alike_text f g FG); [cbn; tauto|exact T].
  Qed.
  Lemma becomes_field f x r : becomes f x r -> exists n v, field_of f (lit n) = Some v.
  Proof.
    assert (T : forall t, of_type f t -> exists n v, field_of f (lit n) = Some v) by (intros t K; eexists; eexists; exact K).
    intro B. revert T. destruct B as [f D|f d y r D SV N B|f x z K W R|f x q K W R MU|f x s K N W R|f x s K F N W R EM|f x b K N W|f x s K F W|f x r K F W|f x d K F W|f x z K F W|f d K data name W|f x i l l' rs fmt K I E U G SZ T']; intro T; eauto.
    - destruct K as [K|(K & _)]; eauto.
    - destruct K as (K & _). eauto.
    - destruct K as (K & _). eauto.
  Qed.
  Lemma becomes_none x r : ~ becomes VNone x r.
  Proof. intro B. apply becomes_field in B as (n & v & E). discriminate E. Qed.
  Lemma alike_becomes : forall f g, alike f g -> forall x r, becomes f x r -> becomes g x r.
  Proof.
    fix IH 3. intros f g [f' g' FG EN IT].
    assert (IT' : forall i, field_of f' (lit "items") = Some i -> exists j, field_of g' (lit "items") = Some j /\ forall x r, becomes i x r -> becomes j x r).
    { intros i I. destruct (IT i I) as (j & J & [->|A]); exists j; (split; [exact J|]); [intros x r B; now apply becomes_none in B|exact (IH i j A)]. }
    clear IT IH. intros x r B. destruct (M_Prim.is_null x) eqn:NX.
    - destruct x; try discriminate NX. apply becomes_null in B as [(D & ->)|(d & y & D & SV & N & B)].
      + apply be_none. rewrite <- (FG "default"%string); [exact D|cbn; tauto].
      + apply (be_default _ _ _ _ _ _ _ g' d y r); [rewrite <- (FG "default"%string); [exact D|cbn; tauto]|exact SV|exact N|]. now apply (alike_some f' g').
    - apply (alike_some f' g'); auto. intros ->. discriminate NX.
  Qed.
End Alike.

(** ** Copies *)
Lemma eqd_null v : equals_default v JNull -> v = VNone.
Proof. intro E. now inversion E. Qed.
Lemma eqd_text v s : equals_default v (JStr s) -> v = VStr s.
Proof. intro E. now inversion E. Qed.
Lemma merged_plain c pl n df ov rv : (df = JNull \/ exists s, df = JStr s) -> sget n (t_child c) = None -> ~ container ov -> merged [] c pl n df (inject df) ov rv -> rv = ov.
Proof.
  intros DF CH NC M. assert (EQ : equals_default ov df -> ov = inject df) by (destruct DF as [->|(s & ->)]; intro E; [now apply eqd_null in E|now apply eqd_text in E]).
  assert (SD : equals_default (inject df) df) by now constructor.
  inversion M; subst; try (now exfalso); try congruence; try (match goal with H : In _ [] |- _ => destruct H end).
  - rewrite (EQ ltac:(assumption)). auto.
  - exfalso. apply NC. left. eauto.
  - exfalso. apply NC. right. eauto.
Qed.
Lemma united_texts m r s : united [] m r -> In (VStr s) m <-> In (VStr s) r.
Proof.
  intros [(_ & ->)|(_ & A & B & _)]; [reflexivity|]. cbn [List.app] in *. split; [|apply A]. intro I. destruct (B _ I) as (y & Y & E). inversion E; subst; [exact Y|]. match goal with H : is_number (VStr _) _ |- _ => inversion H end.
Qed.
Lemma united_nil m r : united [] m r -> m = [] <-> r = [].
Proof.
  intros [(_ & ->)|(_ & A & B & _)]; [reflexivity|]. cbn [List.app] in *. split; intros ->.
  - destruct r as [|y r]; [reflexivity|]. destruct (A y); now left.
  - destruct m as [|y m]; [reflexivity|]. destruct (B y) as (z & [] & _). now left.
Qed.
Lemma merged_enum c pl n ov rv : sget n (t_child c) = None -> list_or_none ov -> merged [] c pl n JNull VNone ov rv -> ov = VNone /\ rv = VNone \/ exists m r, ov = VList m /\ rv = VList r /\ united [] m r.
Proof.
  intros CH [->|(m & ->)] M; inversion M; subst; try (now exfalso); try congruence; try (match goal with H : In _ [] |- _ => destruct H end).
  - left. split; [reflexivity|]. auto.
  - match goal with H : ~ equals_default VNone JNull |- _ => destruct H; now constructor end.
  - match goal with H : equals_default (VList _) JNull |- _ => inversion H; discriminate end.
  - match goal with H : ~ equals_default VNone JNull |- _ => destruct H; now constructor end.
  - exfalso. match goal with H : ~ container (VList _) |- _ => apply H end. left. eauto.
  - right. exists m, r. split; [reflexivity|]. split; [reflexivity|]. match goal with H : VNone = VList _ \/ _ |- _ => destruct H as [H|(_ & ->)]; [discriminate H|] end. assumption.
Qed.
Lemma reparent_fields w rv : is_obj w -> reparent w rv -> exists h g fs ints, w = VObj h fs ints /\ rv = VObj g fs ints /\ h_cls g = h_cls h.
Proof.
  intros O R. destruct w as [| | | | | | |h fs ints]; try (now destruct O). inversion R as [v w R1| |]; subst. inversion R1; subst; do 4 eexists; (split; [reflexivity|]); (split; [reflexivity|reflexivity]).
Qed.
Lemma null_fields c n : c = CParameter \/ c = CItems -> In n ["type"; "format"; "maximum"; "minimum"; "multipleOf"; "maxLength"; "minLength"; "maxItems"; "minItems"; "exclusiveMaximum"; "exclusiveMinimum"; "uniqueItems"; "default"; "enum"; "items"]%string ->
  sget (lit n) (t_fields c) = Some JNull.
Proof. intros [-> | ->] I; cbn [In] in I; repeat (destruct I as [<-|I]; [vm_compute; reflexivity|]); destruct I. Qed.
Lemma plain_default c n : c = CParameter \/ c = CItems -> In n plain_fields -> exists df, sget (lit n) (t_fields c) = Some df /\ (df = JNull \/ exists s, df = JStr s) /\ sget (lit n) (t_child c) = None.
Proof. intros [-> | ->] I; cbn [In plain_fields] in I; repeat (destruct I as [<-|I]; [eexists; (split; [vm_compute; reflexivity|]); (split; [eauto|vm_compute; reflexivity])|]); destruct I. Qed.
Lemma there_is {A} n (fs : sdict val) (t : list (str * A)) x : map fst fs = map fst t -> sget n t = Some x -> exists v, sget n fs = Some v.
Proof. intros E S. apply sget_In in S. apply (in_map fst) in S. rewrite <- E in S. destruct (sget n fs) as [v|] eqn:F; [eauto|]. now apply sget_None in F. Qed.
(** What in_order says field by field *)
Lemma order_plain f n : in_order f -> plainly f -> In n plain_fields -> exists v, field_of f (lit n) = Some v /\ ~ container v.
Proof.
  intros O P I. destruct P as [f P _]. destruct O as [f C NM TX NU SI FL EN DF CF IT]. rewrite Forall_forall in TX, NU, SI, FL.
  assert (T : forall m, field_ok f text_or_none m -> exists v, field_of f (lit m) = Some v /\ ~ container v) by (intros m (v & F & [->|(s & ->)]); eexists; (split; [exact F|]); intros [(x & X)|(x & X)]; discriminate X).
  assert (NB : forall m, field_ok f number_or_none m -> exists v, field_of f (lit m) = Some v /\ ~ container v) by (intros m (v & F & [->|[(s & ->)|(s & ->)]]); eexists; (split; [exact F|]); intros [(x & X)|(x & X)]; discriminate X).
  assert (Z : forall m, field_ok f size_or_none m -> exists v, field_of f (lit m) = Some v /\ ~ container v) by (intros m (v & F & [->|(s & ->)]); eexists; (split; [exact F|]); intros [(x & X)|(x & X)]; discriminate X).
  cbn [In plain_fields] in I. repeat (destruct I as [<-|I]).
  all: try (apply T, TX; cbn; tauto); try (apply NB, NU; cbn; tauto); try (apply Z, SI; cbn; tauto).
  - destruct (FL "exclusiveMaximum"%string ltac:(cbn; tauto)) as (v & F & _). exists v. split; [exact F|]. apply (P "exclusiveMaximum"%string); [cbn; tauto|exact F].
  - destruct (FL "exclusiveMinimum"%string ltac:(cbn; tauto)) as (v & F & _). exists v. split; [exact F|]. apply (P "exclusiveMinimum"%string); [cbn; tauto|exact F].
  - destruct (FL "uniqueItems"%string ltac:(cbn; tauto)) as (v & F & _). exists v. split; [exact F|]. apply (P "uniqueItems"%string); [cbn; tauto|exact F].
  - destruct DF as (v & F & _). exists v. split; [exact F|]. apply (P "default"%string); [cbn; tauto|exact F].
  - destruct CF as (v & F & (s & ->)). eexists. split; [exact F|]. intros [(x & X)|(x & X)]; discriminate X.
Qed.
Definition decl_obj (g : val) : Prop := match g with VObj h _ _ => h_cls h = CParameter \/ h_cls h = CItems \/ h_cls h = CHeader | _ => False end.
Lemma transfer f g : in_order f -> decl_obj g -> (is_class CParameter g -> field_ok g text_or_none "name") -> (forall n, In n plain_fields -> field_of f (lit n) = field_of g (lit n)) ->
  field_ok g list_or_none "enum" -> (field_of f (lit "items") = Some VNone /\ field_of g (lit "items") = Some VNone \/ exists j, field_of g (lit "items") = Some j /\ in_order j) -> in_order g.
Proof.
  intros O C N FG EN IT. destruct O as [f C0 NM TX NU SI FL EN0 DF CF IT0].
  assert (OK : forall ok n, In n plain_fields -> field_ok f ok n -> field_ok g ok n) by (intros ok n I (v & F & X); exists v; rewrite <- (FG n I); auto).
  constructor; auto.
  - rewrite Forall_forall in *. intros n I. apply OK; [cbn in I |- *; tauto|auto].
  - rewrite Forall_forall in *. intros n I. apply OK; [cbn in I |- *; tauto|auto].
  - rewrite Forall_forall in *. intros n I. apply OK; [cbn in I |- *; tauto|auto].
  - rewrite Forall_forall in *. intros n I. apply OK; [cbn in I |- *; tauto|auto].
  - apply OK; [cbn; tauto|auto].
  - apply OK; [cbn; tauto|auto].
  - destruct IT as [(A & B)|J]; [|now right]. left. split; [exact B|]. destruct IT0 as [(_ & NA)|(i & I & IO)].
    + intro T. apply NA. unfold of_type, text_at in *. rewrite (FG "type"%string); [exact T|cbn; tauto].
    + rewrite A in I. injection I as <-. inversion IO as [x Cx]; subst. destruct Cx.
Qed.
Lemma alike_same f g : field_of f = field_of g -> forall x, alike x f -> alike x g.
Proof.
  intros E x H. inversion H as [a b A B C]; subst. constructor; rewrite <- ?E; auto. intro s. rewrite B. unfold in_enum. now rewrite E.
Qed.
Lemma enum_lists f g m r : field_of f (lit "enum") = Some (VList m) -> field_of g (lit "enum") = Some (VList r) -> (forall s, In (VStr s) m <-> In (VStr s) r) -> (m = [] <-> r = []) -> forall s, in_enum f s <-> in_enum g s.
Proof.
  intros F G T N s. unfold in_enum. rewrite F, G. split; intros X l E NE; injection E as <-; apply T, (X _ eq_refl); intro Y; apply NE; now apply N.
Qed.
Lemma in_order_obj f : in_order f -> exists h fs ints, f = VObj h fs ints.
Proof. intro O. destruct O as [f C]. destruct f; try (now destruct C). eauto. Qed.
Lemma copied_order v : in_order v -> plainly v -> forall pl w, copied (Of CItems) pl v w -> in_order w /\ alike v w /\ alike w v /\ is_class CItems w.
Proof.
  intro O. induction O as [v O IH] using in_order_ind'. intros P pl w CP. inversion CP as [| |pl' h es jnts ks fs ints K1 K2 FM IM HC]; subst.
  assert (FI : forall n df, sget n (t_fields CItems) = Some df -> exists rv, sget n fs = Some rv) by (intros n df F; apply (there_is n fs (t_fields (h_cls h)) df); [exact K1|now rewrite HC]).
  assert (PF : forall n, In n plain_fields -> field_of (VObj h es jnts) (lit n) = field_of (VObj (Head (h_cls h) pl None ks) fs ints) (lit n)).
  { intros n I. destruct (order_plain _ n O P I) as (ov & F & NC). destruct (plain_default CItems n (or_intror eq_refl) I) as (df & TF & DF & TC). destruct (FI _ _ TF) as (rv & R). rewrite F. cbn [field_of] in *. rewrite R. f_equal. symmetry.
    apply (merged_plain CItems pl (lit n) df ov rv DF TC NC). rewrite <- HC. apply FM; auto. now rewrite HC. }
  assert (EN : list_or_none (match sget (lit "enum") fs with Some v => v | None => VStr [] end) /\ forall s, in_enum (VObj h es jnts) s <-> in_enum (VObj (Head (h_cls h) pl None ks) fs ints) s).
  { assert (TF : sget (lit "enum") (t_fields CItems) = Some JNull) by reflexivity. destruct (FI _ _ TF) as (rv & R). inversion O as [f _ _ _ _ _ _ (ov & F & LN)]; subst. rewrite R.
    destruct (merged_enum CItems pl (lit "enum") ov rv) as [(-> & ->)|(m & r & -> & -> & U)]; [reflexivity|exact LN|rewrite <- HC; apply FM; auto; now rewrite HC| |].
    - split; [now left|]. intro s. unfold in_enum. rewrite F. cbn [field_of]. rewrite R. split; intros _ l E; discriminate E.
    - split; [right; eauto|]. intro s. apply (enum_lists _ _ m r); [exact F|exact R|intro t; now apply united_texts|now apply united_nil]. }
  destruct EN as (EN & EE). assert (TF : sget (lit "items") (t_fields CItems) = Some JNull) by reflexivity. destruct (FI _ _ TF) as (rv & R).
  assert (EF : exists e, sget (lit "enum") fs = Some e) by (apply (FI _ JNull); reflexivity). destruct EF as (e & EF). rewrite EF in EN.
  assert (ITEMS : field_of (VObj h es jnts) (lit "items") = Some VNone /\ rv = VNone \/ exists i, field_of (VObj h es jnts) (lit "items") = Some i /\ in_order rv /\ alike i rv /\ alike rv i).
  { destruct IH as [(A & NA)|(i & A & IO & IH)]; cbn [field_of] in A.
    - left. split; [exact A|]. specialize (FM (lit "items") JNull VNone rv ltac:(now rewrite HC) A R). rewrite HC in FM. inversion FM; subst; try (match goal with H : In _ [] |- _ => destruct H end); try (match goal with H : ~ equals_default VNone JNull |- _ => destruct H; now constructor end).
      cbn [inject] in *. match goal with H : reparent _ rv |- _ => inversion H as [x y RP| |]; subst; inversion RP; subst; reflexivity end.
    - right. exists i. split; [exact A|]. specialize (FM (lit "items") JNull i rv ltac:(now rewrite HC) A R). rewrite HC in FM. destruct (in_order_obj _ IO) as (hi & fi & ni & ->). inversion P as [x _ PI]; subst. specialize (PI _ A ltac:(discriminate)).
      inversion FM; subst; try (match goal with H : In _ [] |- _ => destruct H end); try (match goal with H : equals_default (VObj _ _ _) JNull |- _ => inversion H; discriminate end); try (match goal with H : sget _ (t_child CItems) = None |- _ => discriminate H end).
      + match goal with H : ~ equals_default (inject JNull) JNull |- _ => destruct H; now constructor end.
      + match goal with H : sget _ (t_child CItems) = Some _ |- _ => vm_compute in H; injection H as <- <- end.
        match goal with H : copied_in One _ _ _ _ |- _ => inversion H; subst end. match goal with H : copied _ _ (VObj hi fi ni) _ |- _ => pose proof (IH PI _ _ H) as IHC end. destruct IHC as (IW & AL & AR & CW).
        destruct (in_order_obj _ IW) as (hw & fw & nw & ->). match goal with H : reparent (VObj _ _ _) rv |- _ => destruct (reparent_fields (VObj hw fw nw) rv Logic.I H) as (h1 & g1 & f1 & i1 & E1 & -> & HG) end. injection E1 as <- <- <-.
        assert (IO2 : in_order (VObj g1 fw nw)).
        { refine (transfer (VObj hw fw nw) (VObj g1 fw nw) IW _ _ (fun _ _ => eq_refl) _ _).
          - cbn. rewrite HG. inversion IW as [x Cx]; exact Cx.
          - intros (a & b & c & E & CL). injection E as <- <- <-. destruct CW as (a & b' & c' & E & CL'). injection E as <- <- <-. congruence.
          - inversion IW; assumption.
          - inversion IW as [x _ _ _ _ _ _ _ _ _ IT2]; subst. destruct IT2 as [(Q1 & _)|Q1]; [left; split; exact Q1|right; exact Q1]. }
        split; [exact IO2|]. split; [apply (alike_same (VObj hw fw nw)); [reflexivity|exact AL]|]. inversion AR as [x y AR1 AR2 AR3]; subst. constructor; [exact AR1|exact AR2|exact AR3]. }
  assert (CI : is_class CItems (VObj (Head (h_cls h) pl None ks) fs ints)) by (do 3 eexists; split; [reflexivity|exact HC]).
  assert (AL : alike (VObj h es jnts) (VObj (Head (h_cls h) pl None ks) fs ints)).
  { constructor; [exact PF|exact EE|]. intros i I. exists rv. split; [exact R|]. destruct ITEMS as [(A & _)|(i' & A & _ & B & _)]; rewrite A in I; injection I as <-; auto. }
  assert (AR : alike (VObj (Head (h_cls h) pl None ks) fs ints) (VObj h es jnts)).
  { constructor; [intros n I; symmetry; now apply PF|intro s; symmetry; apply EE|]. intros i I. cbn [field_of] in I. rewrite R in I. injection I as <-. destruct ITEMS as [(A & ->)|(i' & A & _ & _ & B)]; eexists; (split; [exact A|]); auto. }
  split; [|split; [exact AL|split; [exact AR|do 3 eexists; split; reflexivity]]]. refine (transfer _ _ O _ _ PF _ _).
  - cbn. rewrite HC. auto.
  - intros (a & b & c & E & CL). injection E as <- <- <-. cbn in CL. congruence.
  - exists e. split; [exact EF|exact EN].
  - destruct ITEMS as [(A & ->)|(i' & A & B & _)]; [left; split; [exact A|exact R]|right; exists rv; split; [exact R|exact B]].
Qed.

(** ** Parameters that references lead to *)
Section Combined.
  Context (l : list val) (f : val).
  Hypothesis CB : combined CParameter l f.
  Hypothesis OK : forall o, In o l -> in_order o /\ plainly o /\ is_class CParameter o.
  Lemma combined_plain n : In n plain_fields \/ n = "name"%string -> exists rv df, field_of f (lit n) = Some rv /\ sget (lit n) (t_fields CParameter) = Some df /\ (df = JNull \/ df = JStr (lit "csv")) /\
    ((exists o, In o l /\ field_of o (lit n) = Some rv /\ rv <> inject df) \/ rv = inject df) /\ forall o v, l = [o] -> field_of o (lit n) = Some v -> rv = v.
  Proof.
    intro I. assert (D : exists df, sget (lit n) (t_fields CParameter) = Some df /\ (df = JNull \/ df = JStr (lit "csv")) /\ sget (lit n) (t_child CParameter) = None).
    { destruct I as [I| ->]; [|eexists; split; [vm_compute; reflexivity|]; split; [auto|reflexivity]]. cbn [In plain_fields] in I; repeat (destruct I as [<-|I]; [eexists; (split; [vm_compute; reflexivity|]); (split; [auto|vm_compute; reflexivity])|]); destruct I. }
    destruct D as (df & TF & DF & TC).
    assert (NC : forall o v, In o l -> field_of o (lit n) = Some v -> ~ container v).
    { intros o v Io F. destruct (OK o Io) as (O & P & C). destruct I as [I| ->].
      - destruct (order_plain o n O P I) as (v' & F' & X). rewrite F in F'. now injection F' as <-.
      - inversion O as [x _ NM]; subst. destruct (NM C) as (v' & F' & X). rewrite F in F'. injection F' as <-. destruct X as [->|(s & ->)]; intros [(y & Y)|(y & Y)]; discriminate Y. }
    assert (EQ : forall v, equals_default v df -> v = inject df) by (intros v E; destruct DF as [->| ->]; [now apply eqd_null in E|now apply eqd_text in E]).
    destruct (cb_scalar _ _ _ CB (lit n) df TF TC NC) as (rv & F & X). exists rv, df. split; [exact F|]. split; [exact TF|]. split; [exact DF|]. split.
    - destruct X as [(l1 & o & l2 & -> & Fo & NE & _)|(_ & ->)]; [left|now right]. exists o. split; [apply in_or_app; right; now left|]. split; [exact Fo|]. intros ->. apply NE. now constructor.
    - intros o v -> Fo. destruct X as [(l1 & o' & l2 & E & Fo' & NE & _)|(NS & ->)].
      + destruct l1 as [|a l1]; [|destruct l1; discriminate E]. cbn [List.app] in E. injection E as <- _. congruence.
      + destruct (NS o (or_introl eq_refl)) as (y & Y & E). rewrite Fo in Y. injection Y as <-. symmetry. now apply EQ.
  Qed.
  Lemma combined_field n (ok : val -> Prop) : In n plain_fields \/ n = "name"%string -> ok VNone -> n <> "collectionFormat"%string -> (forall o, In o l -> field_ok o ok n) -> field_ok f ok n.
  Proof.
    intros I N NC A. destruct (combined_plain n I) as (rv & df & F & TF & DF & X & _). exists rv. split; [exact F|]. destruct X as [(o & Io & Fo & _)| ->].
    - destruct (A o Io) as (v & Fv & K). rewrite Fo in Fv. now injection Fv as <-.
    - assert (df = JNull) as ->; [|exact N]. assert (Y : sget (lit n) (t_fields CParameter) = Some JNull); [|congruence].
      destruct I as [I| ->]; [|reflexivity]. cbn [In plain_fields] in I; repeat (destruct I as [<-|I]; [try (vm_compute; reflexivity); now destruct NC|]); destruct I.
  Qed.
  Lemma combined_class : is_class CParameter f.
  Proof. pose proof (cb_shape _ _ _ CB) as S. inversion S; subst; try (match goal with H : _ = CParameter |- _ => idtac end); do 3 eexists; split; [reflexivity|congruence]. Qed.
  Lemma combined_enum : field_ok f list_or_none "enum" /\ forall o, l = [o] -> forall s, in_enum o s <-> in_enum f s.
  Proof.
    destruct (cb_list _ _ _ CB (lit "enum") JNull) as (rv & F & LN & A & B); [reflexivity|reflexivity|constructor| |].
    { intros o v Io Fo. destruct (OK o Io) as (O & _). inversion O as [x _ _ _ _ _ _ EN]; subst. destruct EN as (v' & F' & [->|(m & ->)]); rewrite Fo in F'; injection F' as ->; [now left|right; eauto]. }
    split; [exists rv; split; [exact F|]; destruct LN as [->|(m & ->)]; [now left|right; eauto]|].
    intros o -> s. destruct (OK o (or_introl eq_refl)) as (O & _). inversion O as [x _ _ _ _ _ _ EN]; subst. destruct EN as (ov & Fo & X).
    assert (NOEL : forall v, ov = v -> v = VNone \/ v = VList [] -> forall r, rv = VList r -> r = []).
    { intros v -> E r ->. destruct r as [|y r]; [reflexivity|]. destruct (A y) as (o' & v' & [<-|[]] & F' & m & -> & I); [exists (y :: r); split; [reflexivity|now left]|]. rewrite Fo in F'. injection F' as ->. destruct E as [E|E]; [discriminate E|injection E as ->; destruct I]. }
    destruct X as [->|(m & ->)].
    - destruct LN as [->|(r & ->)].
      + unfold in_enum. rewrite F, Fo. split; intros _ q E; discriminate E.
      + rewrite (NOEL _ eq_refl (or_introl eq_refl) r eq_refl) in F. unfold in_enum. rewrite F, Fo. split; intros _ q E; [intro NE; injection E as <-; now destruct NE|discriminate E].
    - destruct LN as [E|(r & ->)].
      + cbn in E. subst rv. destruct m as [|y m].
        * unfold in_enum. rewrite F, Fo. split; intros _ q E; [discriminate E|intro NE; injection E as <-; now destruct NE].
        * destruct (B o (VList (y :: m)) y (or_introl eq_refl) Fo) as (z & (q & Z & _) & _); [exists (y :: m); split; [reflexivity|now left]|discriminate Z].
      + apply (enum_lists o f m r Fo F).
        * intro t. split.
          -- intro I. destruct (B o (VList m) (VStr t) (or_introl eq_refl) Fo) as (z & (q & Z & Iz) & E); [exists m; auto|]. injection Z as <-. destruct E as [<-|E]; [exact Iz|]. inversion E; subst; [exact Iz|]. match goal with H : is_number (VStr _) _ |- _ => inversion H end.
          -- intro I. destruct (A (VStr t)) as (o' & v' & [<-|[]] & F' & q & -> & Iq); [exists r; auto|]. rewrite Fo in F'. injection F' as <-. exact Iq.
        * split; intros ->.
          -- apply (NOEL _ eq_refl (or_intror eq_refl) r eq_refl).
          -- destruct m as [|y m]; [reflexivity|]. destruct (B o (VList (y :: m)) y (or_introl eq_refl) Fo) as (z & (q & Z & Iz) & _); [exists (y :: m); split; [reflexivity|now left]|]. injection Z as <-. destruct Iz.
  Qed.
  Lemma combined_items : (field_of f (lit "items") = Some VNone /\ (forall o, In o l -> field_of o (lit "items") = Some VNone)) \/
    exists i, field_of f (lit "items") = Some i /\ in_order i /\ forall o, l = [o] -> exists i0, field_of o (lit "items") = Some i0 /\ alike i0 i /\ alike i i0.
  Proof.
    destruct (cb_child _ _ _ CB (lit "items") JNull One (Of CItems)) as (rv & F & [(x & w & pl & FS & CI & RP)|(NS & ->)]); [reflexivity|reflexivity| |].
    - right. exists rv. split; [exact F|]. destruct FS as (l1 & o & l2 & E & Fo & NE & _). assert (Io : In o l) by (rewrite E; apply in_or_app; right; now left). destruct (OK o Io) as (O & P & _).
      inversion O as [y _ _ _ _ _ _ _ _ _ IT]; subst y. destruct IT as [(IN & _)|(i & FI & IO)]; [rewrite Fo in IN; injection IN as ->; exfalso; apply NE; now constructor|]. rewrite Fo in FI. injection FI as ->.
      inversion P as [y _ PI]; subst y. destruct (in_order_obj _ IO) as (hi & fi & ni & ->). specialize (PI _ Fo ltac:(discriminate)). inversion CI; subst. match goal with H : copied _ _ (VObj hi fi ni) _ |- _ => destruct (copied_order _ IO PI _ _ H) as (IW & AL & AR & CW) end.
      destruct (in_order_obj _ IW) as (hw & fw & nw & ->). destruct (reparent_fields (VObj hw fw nw) rv Logic.I RP) as (h1 & g1 & f1 & i1 & E1 & -> & HG). injection E1 as <- <- <-. split.
      + refine (transfer (VObj hw fw nw) (VObj g1 fw nw) IW _ _ (fun _ _ => eq_refl) _ _).
        * cbn. rewrite HG. inversion IW as [x Cx]; exact Cx.
        * intros (a & b & c & E & CL). injection E as <- <- <-. destruct CW as (a & b' & c' & E & CL'). injection E as <- <- <-. congruence.
        * inversion IW; assumption.
        * inversion IW as [x _ _ _ _ _ _ _ _ _ IT2]; subst. destruct IT2 as [(Q1 & _)|Q1]; [left; split; exact Q1|right; exact Q1].
      + intros o' E'. assert (o' = o) as -> by (rewrite E' in Io; destruct Io as [<-|[]]; reflexivity). exists (VObj hi fi ni). split; [exact Fo|]. split; [apply (alike_same (VObj hw fw nw)); [reflexivity|exact AL]|]. inversion AR as [x y AR1 AR2 AR3]; subst. constructor; [exact AR1|exact AR2|exact AR3].
    - left. split; [exact F|]. intros o Io. destruct (NS o Io) as (y & Y & E). apply eqd_null in E. now subst.
  Qed.
  Lemma combined_order : in_order f.
  Proof.
    assert (AT : forall (Q : val -> Prop), (forall o, in_order o -> Q o) -> forall o, In o l -> Q o) by (intros Q H o Io; now apply H, OK).
    destruct combined_class as (h & fs & ints & EF & HC). constructor.
    - rewrite EF. auto.
    - intros _. apply combined_field; [now right|now left|discriminate|]. intros o Io. destruct (OK o Io) as (O & _ & C). inversion O; auto.
    - apply Forall_forall. intros n I. apply combined_field; [left; cbn in I |- *; tauto|now left|cbn in I; intros ->; intuition discriminate|]. apply AT. intros o O. inversion O as [x _ _ X]; subst. rewrite Forall_forall in X. auto.
    - apply Forall_forall. intros n I. apply combined_field; [left; cbn in I |- *; tauto|now left|cbn in I; intros ->; intuition discriminate|]. apply AT. intros o O. inversion O as [x _ _ _ X]; subst. rewrite Forall_forall in X. auto.
    - apply Forall_forall. intros n I. apply combined_field; [left; cbn in I |- *; tauto|now left|cbn in I; intros ->; intuition discriminate|]. apply AT. intros o O. inversion O as [x _ _ _ _ X]; subst. rewrite Forall_forall in X. auto.
    - apply Forall_forall. intros n I. apply combined_field; [left; cbn in I |- *; tauto|exact Logic.I|cbn in I; intros ->; intuition discriminate|]. apply AT. intros o O. inversion O as [x _ _ _ _ _ X]; subst. rewrite Forall_forall in X. auto.
    - apply combined_enum.
    - apply combined_field; [left; cbn; tauto|exists M_Prim.VNull; constructor|discriminate|]. apply AT. intros o O. now inversion O.
    - destruct (combined_plain "collectionFormat") as (rv & df & F & TF & DF & X & _); [left; cbn; tauto|]. exists rv. split; [exact F|]. destruct X as [(o & Io & Fo & _)| ->].
      + destruct (OK o Io) as (O & _). inversion O as [x _ _ _ _ _ _ _ _ CF]; subst. destruct CF as (v & Fv & K). rewrite Fo in Fv. now injection Fv as <-.
      + vm_compute in TF. injection TF as <-. eexists. reflexivity.
    - destruct combined_items as [(A & B)|(i & A & B & _)]; [left; split; [exact A|]|right; eauto]. intro T. destruct (combined_plain "type") as (rv & df & F & TF & DF & X & _); [left; cbn; tauto|].
      unfold of_type, text_at in T. rewrite T in F. injection F as <-. vm_compute in TF. injection TF as <-. destruct X as [(o & Io & Fo & _)|X]; [|discriminate X]. destruct (OK o Io) as (O & _). inversion O as [x _ _ _ _ _ _ _ _ _ IT]; subst. destruct IT as [(_ & NA)|(i & FI & IO)]; [now apply NA|].
      rewrite (B o Io) in FI. injection FI as <-. inversion IO as [x Cx]; subst. destruct Cx.
  Qed.
  Lemma combined_alike o : l = [o] -> alike o f /\ alike f o.
  Proof.
    intro E. assert (Io : In o l) by (rewrite E; now left). destruct (OK o Io) as (O & P & _).
    assert (FG : forall n, In n plain_fields -> field_of o (lit n) = field_of f (lit n)).
    { intros n I. destruct (combined_plain n (or_introl I)) as (rv & df & F & _ & _ & _ & X). destruct (order_plain o n O P I) as (v & Fv & _). rewrite F, Fv. f_equal. symmetry. now apply (X o). }
    destruct combined_enum as (_ & EN). specialize (EN o E). split; constructor; auto.
    - intros i I. destruct combined_items as [(A & B)|(j & A & _ & C)]; [exists VNone; split; [exact A|]; left; rewrite (B o Io) in I; congruence|]. destruct (C o E) as (i0 & I0 & AL & _). exists j. split; [exact A|]. right. rewrite I in I0. now injection I0 as ->.
    - intros n I. symmetry. auto.
    - intro s. symmetry. auto.
    - intros i I. destruct combined_items as [(A & B)|(j & A & _ & C)]; [exists VNone; split; [now apply B|]; left; congruence|]. destruct (C o E) as (i0 & I0 & _ & AR). exists i0. split; [exact I0|]. right. rewrite I in A. now injection A as ->.
  Qed.
End Combined.
