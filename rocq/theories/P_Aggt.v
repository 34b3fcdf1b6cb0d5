(** Proofs about composing schemas: copies. *)
From Coq Require Import Lia.
From Verif Require Import PyBase PyFacts PyJson M_SpecVal M_Merge S_Parse S_SpecTree S_Merge P_SpecBase P_Op P_Merge M_Aggt S_Aggt.
Close Scope Q_scope.

(** ** Equal elements *)
Lemma number_of_spec x p : is_number x p <-> number_of x = Some p.
Proof.
  split; [now intros []|]. destruct x; cbn; try discriminate; intro E; injection E as <-; [destruct b|..]; constructor.
Qed.
Lemma equal_sym x y : equal_elems x y -> equal_elems y x.
Proof. intros []; econstructor; eauto; symmetry; eauto. Qed.
Lemma equal_trans x y z : equal_elems x y -> equal_elems y z -> equal_elems x z.
Proof.
  intros A B. destruct A as [|s|x y p q P Q E|h g fs es i j E]; inversion B as [|s'|y' z' p' q' P' Q' E'|g' h' es' fs' i' j' E']; subst; try constructor; auto;
    try (match goal with H : is_number _ _ |- _ => now inversion H end).
  - apply number_of_spec in Q, P'. rewrite Q in P'. injection P' as <-. econstructor; eauto. now rewrite E.
  - congruence.
Qed.
Lemma covered_refl l : covered l l.
Proof. intros x I. exists x. auto. Qed.
Lemma covered_trans l m k : covered l m -> covered m k -> covered l k.
Proof.
  intros A B x I. destruct (A _ I) as (y & Y & E). destruct (B _ Y) as (z & Z & F). exists z. split; [exact Z|]. destruct E as [->|E], F as [->|F]; auto. right. eapply equal_trans; eauto.
Qed.
Lemma covered_str l m x : covered l m -> In (VStr x) l -> In (VStr x) m.
Proof. intros C I. destruct (C _ I) as (y & Y & [->|E]); [exact Y|]. inversion E; subst; [exact Y|]. match goal with H : is_number _ _ |- _ => now inversion H end. Qed.
Lemma value_sym v w : same_value v w -> same_value w v.
Proof. intros []; constructor; auto. Qed.
Lemma value_trans u v w : same_value u v -> same_value v w -> same_value u w.
Proof. intros A B. destruct A as [|l m A1 A2]; [exact B|]. inversion B; subst; constructor; eauto using covered_trans. Qed.
Lemma plain_refl f : same_plain f f.
Proof. split; [reflexivity|]. intros n v w A B. rewrite A in B. injection B as <-. constructor. Qed.
Lemma plain_sym f g : same_plain f g -> same_plain g f.
Proof. intros (K & A). split; [now symmetry|]. intros n v w F G. apply value_sym. eauto. Qed.
Lemma plain_trans f g k : same_plain f g -> same_plain g k -> same_plain f k.
Proof.
  intros (K & A) (K' & B). split; [congruence|]. intros n u w F G. destruct (sget n g) as [v|] eqn:E; [eapply value_trans; eauto|]. apply sget_None in E. elim E. rewrite <- K. apply sget_Some_key. eauto.
Qed.

(** ** Copies *)
Scheme copy_ind' := Induction for copy Sort Prop
with copy_opt_ind' := Induction for copy_opt Sort Prop
with copy_list_ind' := Induction for copy_list Sort Prop
with copy_dict_ind' := Induction for copy_dict Sort Prop
with copy_addl_ind' := Induction for copy_addl Sort Prop.
Combined Scheme copy_mut from copy_ind', copy_opt_ind', copy_list_ind', copy_dict_ind', copy_addl_ind'.

Definition node_copy (h : heap) (n m : node) : Prop :=
  same_plain (s_plain n) (s_plain m) /\ s_ref n = s_ref m /\ copy_opt h (s_items n) (s_items m) /\ copy_list h (s_allof n) (s_allof m) /\
  copy_dict h (s_props n) (s_props m) /\ copy_addl h (s_addl n) (s_addl m).
Lemma copy_nodes h i j n m : is_node h i n -> is_node h j m -> node_copy h n m -> copy h i j.
Proof. intros A B (C & D & E & F & G & H). econstructor; eauto. Qed.
Lemma copy_inv h i j : copy h i j -> exists n m, is_node h i n /\ is_node h j m /\ node_copy h n m.
Proof. intros []. exists n, m. repeat split; try assumption; apply H1. Qed.
(** The same schemas, some of them composed in the meantime, and possibly more *)
Definition node_ext (n n' : node) : Prop :=
  s_plain n' = s_plain n /\ s_ref n' = s_ref n /\ s_items n' = s_items n /\ s_allof n' = s_allof n /\ s_props n' = s_props n /\ s_addl n' = s_addl n /\
  (forall f, s_final n = Some f -> s_final n' = Some f).
Definition grows (h h' : heap) : Prop := forall i n, is_node h i n -> exists n', is_node h' i n' /\ node_ext n n'.
Lemma node_ext_refl n : node_ext n n.
Proof. repeat split; auto. Qed.
Lemma node_ext_trans n m k : node_ext n m -> node_ext m k -> node_ext n k.
Proof. intros (A1 & A2 & A3 & A4 & A5 & A6 & A7) (B1 & B2 & B3 & B4 & B5 & B6 & B7). repeat split; try congruence. auto. Qed.
Lemma grows_refl h : grows h h.
Proof. intros i n N. exists n. split; [exact N|apply node_ext_refl]. Qed.
Lemma grows_trans h k l : grows h k -> grows k l -> grows h l.
Proof. intros A B i n N. destruct (A _ _ N) as (m & M & E). destruct (B _ _ M) as (o & O & F). exists o. split; [exact O|eapply node_ext_trans; eauto]. Qed.
Lemma grows_app h l : grows h (h ++ l).
Proof. intros i n N. exists n. split; [|apply node_ext_refl]. unfold is_node in *. rewrite nth_error_app1; [exact N|]. apply nth_error_Some. congruence. Qed.
Lemma node_app h l i n : is_node h i n -> is_node (h ++ l) i n.
Proof. intro N. unfold is_node in *. rewrite nth_error_app1; [exact N|]. apply nth_error_Some. congruence. Qed.
Lemma node_fun h i n m : is_node h i n -> is_node h i m -> n = m.
Proof. unfold is_node. congruence. Qed.
Lemma copy_grows h h' : grows h h' -> (forall i j, copy h i j -> copy h' i j) /\ (forall a b, copy_opt h a b -> copy_opt h' a b) /\ (forall a b, copy_list h a b -> copy_list h' a b) /\
  (forall a b, copy_dict h a b -> copy_dict h' a b) /\ (forall a b, copy_addl h a b -> copy_addl h' a b).
Proof.
  intro G. apply (copy_mut h (fun i j _ => copy h' i j) (fun a b _ => copy_opt h' a b) (fun a b _ => copy_list h' a b) (fun a b _ => copy_dict h' a b) (fun a b _ => copy_addl h' a b)); try (constructor; auto; fail).
  intros i j n m N M P R I IH1 A IH2 D IH3 L IH4. destruct (G _ _ N) as (n' & N' & E). destruct (G _ _ M) as (m' & M' & F).
  destruct E as (A1 & A2 & A3 & A4 & A5 & A6 & A7), F as (B1 & B2 & B3 & B4 & B5 & B6 & B7). apply (copy_node h' i j n' m'); auto; congruence.
Qed.
Lemma copy_sym h : (forall i j, copy h i j -> copy h j i) /\ (forall a b, copy_opt h a b -> copy_opt h b a) /\ (forall a b, copy_list h a b -> copy_list h b a) /\
  (forall a b, copy_dict h a b -> copy_dict h b a) /\ (forall a b, copy_addl h a b -> copy_addl h b a).
Proof.
  apply (copy_mut h (fun i j _ => copy h j i) (fun a b _ => copy_opt h b a) (fun a b _ => copy_list h b a) (fun a b _ => copy_dict h b a) (fun a b _ => copy_addl h b a)); try (constructor; auto; fail).
  intros. eapply copy_node; eauto using plain_sym.
Qed.
Lemma copy_trans h : (forall i j, copy h i j -> forall k, copy h j k -> copy h i k) /\ (forall a b, copy_opt h a b -> forall c, copy_opt h b c -> copy_opt h a c) /\
  (forall a b, copy_list h a b -> forall c, copy_list h b c -> copy_list h a c) /\
  (forall a b, copy_dict h a b -> forall c, copy_dict h b c -> copy_dict h a c) /\ (forall a b, copy_addl h a b -> forall c, copy_addl h b c -> copy_addl h a c).
Proof.
  apply (copy_mut h (fun i j _ => forall k, copy h j k -> copy h i k) (fun a b _ => forall c, copy_opt h b c -> copy_opt h a c) (fun a b _ => forall c, copy_list h b c -> copy_list h a c)
    (fun a b _ => forall c, copy_dict h b c -> copy_dict h a c) (fun a b _ => forall c, copy_addl h b c -> copy_addl h a c)).
  - intros i j n m N M P R I IH1 A IH2 D IH3 L IH4 k C. destruct C as [j k m' o M' O P' R' I' A' D' L']. pose proof (node_fun _ _ _ _ M M') as <-.
    apply (copy_node h i k n o); eauto using plain_trans. congruence.
  - auto.
  - intros i j C IH c E. inversion E; subst. constructor. auto.
  - auto.
  - intros i j l m C IH L IH2 c E. inversion E; subst. constructor; auto.
  - auto.
  - intros k i j d e C IH D IH2 c E. inversion E; subst. constructor; auto.
  - auto.
  - intros i j C IH c E. inversion E; subst. constructor. auto.
Qed.
Lemma copy_list_refl h l : (forall j, In j l -> copy h j j) -> copy_list h l l.
Proof. induction l; intro H; constructor; [apply H; now left|apply IHl; intros; apply H; now right]. Qed.
Lemma copy_dict_refl h d : (forall k j, In (k, j) d -> copy h j j) -> copy_dict h d d.
Proof. induction d as [|[k j] d IH]; intro H; constructor; [eapply H; now left|apply IH; intros; eapply H; right; eauto]. Qed.
Lemma copy_refl h d : forall i, tree h d i -> copy h i i.
Proof.
  induction d as [|d IH]; intros i T; inversion T as [? ? n N H]; subst. apply (copy_node h i i n n); auto using plain_refl.
  - destruct (s_items n) eqn:E; constructor. apply IH, H. now left.
  - apply copy_list_refl. intros j I. apply IH, H. right. now left.
  - apply copy_dict_refl. intros k j I. apply IH, H. right. right. left. eauto.
  - destruct (s_addl n) eqn:E; constructor. apply IH, H. do 3 right. exact E.
Qed.
Lemma copy_list_In h l m : copy_list h l m -> (forall i, In i l -> exists j, In j m /\ copy h i j) /\ (forall j, In j m -> exists i, In i l /\ copy h i j).
Proof.
  induction 1 as [|i j l m C L (A & B)]; [split; intros ? []|]. split.
  - intros x [<-|I]; [exists j; split; [now left|exact C]|]. destruct (A _ I) as (y & Y & E). exists y. split; [now right|exact E].
  - intros x [<-|I]; [exists i; split; [now left|exact C]|]. destruct (B _ I) as (y & Y & E). exists y. split; [now right|exact E].
Qed.
Lemma copy_dict_get h d e : copy_dict h d e -> forall k, match sget k d, sget k e with Some i, Some j => copy h i j | None, None => True | _, _ => False end.
Proof. induction 1 as [|k i j d e C D IH]; intro x; cbn; [exact Logic.I|]. destruct (str_eqb x k); [exact C|apply IH]. Qed.
Lemma copy_dict_keys h d e : copy_dict h d e -> map fst d = map fst e.
Proof. induction 1; cbn; congruence. Qed.

(** ** References and members *)
Lemma tree_grows h h' : grows h h' -> forall d i, tree h d i -> tree h' d i.
Proof.
  intro G. induction d as [|d IH]; intros i T; inversion T as [? ? n N H]; subst. destruct (G _ _ N) as (n' & N' & (A1 & A2 & A3 & A4 & A5 & A6 & A7)).
  econstructor; [exact N'|]. intros j HJ. apply IH, H. unfold holds in *. rewrite A3, A4, A5, A6 in HJ. exact HJ.
Qed.
Lemma tree_more h d : forall i, tree h d i -> forall e, d <= e -> tree h e i.
Proof.
  induction d as [|d IH]; intros i T e L; inversion T as [? ? n N H]; subst. destruct e as [|e]; [lia|]. econstructor; [exact N|]. intros j HJ. apply IH; [auto|lia].
Qed.
Lemma tree_exists h d i : tree h d i -> exists n, is_node h i n.
Proof. intros []. eauto. Qed.
(** What does not depend on the composed schemas *)
Record closed (h : heap) : Prop := {
  c_tree : forall i n, is_node h i n -> exists d, tree h d i;
  c_ref : forall i n j, is_node h i n -> s_ref n = Some j -> exists m, is_node h j m;
  c_keys : forall i n, is_node h i n -> NoDup (map fst (s_props n));
  c_plain : forall i n, is_node h i n -> map fst (s_plain n) = map fst plain_fields
}.
Section Same.
  Context (h h' : heap) (C : closed h) (G : grows h h').
  Lemma back i n' m : is_node h' i n' -> is_node h i m -> node_ext m n'.
  Proof. intros N M. destruct (G _ _ M) as (n & N1 & E). now rewrite (node_fun _ _ _ _ N N1). Qed.
  Lemma ends_forth i j : ends h i j -> ends h' i j.
  Proof.
    induction 1 as [i n N R|i n j k N R E IH]; destruct (G _ _ N) as (n' & N' & (A1 & A2 & _)); [apply (ends_here h' i n'); [exact N'|congruence]|].
    apply (ends_there h' i n' j k); [exact N'|congruence|exact IH].
  Qed.
  Lemma ends_back i j : ends h' i j -> (exists n, is_node h i n) -> ends h i j.
  Proof.
    induction 1 as [i n N R|i n j k N R E IH]; intros (m & M); pose proof (back _ _ _ N M) as (A1 & A2 & _); [apply (ends_here h i m); [exact M|congruence]|].
    apply (ends_there h i m j k); [exact M|congruence|]. apply IH. eapply (c_ref h C); [exact M|congruence].
  Qed.
  Lemma ends_node i j : ends h i j -> exists n, is_node h j n.
  Proof. induction 1; eauto. Qed.
  Lemma child_node i n m : is_node h i n -> In m (s_allof n) -> exists k, is_node h m k.
  Proof. intros N I. destruct (c_tree h C _ _ N) as (d & T). inversion T as [? ? n' N' H]; subst. pose proof (node_fun _ _ _ _ N N') as <-. eapply tree_exists. apply H. right. left. exact I. Qed.
  Lemma member_forth i j : member h i j -> member h' i j.
  Proof.
    induction 1 as [i n m j N I E|i j k _ IH1 _ IH2]; [|eapply member_next; eauto]. destruct (G _ _ N) as (n' & N' & (A1 & A2 & A3 & A4 & _)).
    eapply member_direct; [exact N'|rewrite A4; exact I|now apply ends_forth].
  Qed.
  Lemma member_node i j : member h i j -> exists n, is_node h j n.
  Proof. induction 1; [eapply ends_node; eauto|auto]. Qed.
  Lemma member_back i j : member h' i j -> (exists n, is_node h i n) -> member h i j.
  Proof.
    induction 1 as [i n m j N I E|i j k _ IH1 _ IH2]; intros (x & X).
    - pose proof (back _ _ _ N X) as (A1 & A2 & A3 & A4 & _). rewrite A4 in I. eapply member_direct; [exact X|exact I|]. apply ends_back; [exact E|]. eapply child_node; eauto.
    - eapply member_next; [apply IH1; eauto|]. apply IH2. eapply member_node. apply IH1. eauto.
  Qed.
  Lemma part_same i j : (exists n, is_node h i n) -> part h i j <-> part h' i j.
  Proof. intro N. unfold part. split; (intros [E|M]; [now left|right]); [now apply member_forth|now apply member_back]. Qed.
  Lemma part_node i j : (exists n, is_node h i n) -> part h i j -> exists n, is_node h j n.
  Proof. intros N [<-|M]; [exact N|eapply member_node; eauto]. Qed.
  Lemma property_same i k p : (exists n, is_node h i n) -> property h i k p <-> property h' i k p.
  Proof.
    intros (n & N). destruct (G _ _ N) as (n' & N' & (A1 & A2 & A3 & A4 & A5 & _)). split; intros (m & M & S).
    - exists n'. split; [exact N'|]. rewrite A5. now rewrite (node_fun _ _ _ _ N M).
    - exists n. split; [exact N|]. rewrite <- A5. now rewrite (node_fun _ _ _ _ N' M).
  Qed.
  Lemma field_same i k v : (exists n, is_node h i n) -> field h i k v <-> field h' i k v.
  Proof.
    intros (n & N). destruct (G _ _ N) as (n' & N' & (A1 & A2 & A3 & A4 & A5 & _)). split; intros (m & M & S).
    - exists n'. split; [exact N'|]. rewrite A1. now rewrite (node_fun _ _ _ _ N M).
    - exists n. split; [exact N|]. rewrite <- A1. now rewrite (node_fun _ _ _ _ N' M).
  Qed.
  Lemma requires_same i x : (exists n, is_node h i n) -> requires h i x <-> requires h' i x.
  Proof. intro N. split; intros (l & F & I); exists l; (split; [|exact I]); apply field_same in F; auto. Qed.
  Lemma composed_same i f : (exists n, is_node h i n) -> (exists n, is_node h f n) -> composed h i f -> composed h' i f.
  Proof.
    intros NI NF (C1 & C2 & C3 & C4 & C5). destruct (copy_grows h h' G) as (CG & _). split; [|split; [|split; [|split]]].
    - intro k. split.
      + intros (q & Q). apply property_same in Q; [|exact NF]. destruct (proj1 (C1 k) (ex_intro _ q Q)) as (j & p & P & R). exists j, p. split; [now apply part_same|]. apply property_same; [exact (part_node _ _ NI P)|exact R].
      + intros (j & p & P & R). apply part_same in P; [|exact NI]. apply property_same in R; [|exact (part_node _ _ NI P)]. destruct (proj2 (C1 k)) as (q & Q); [eauto|]. exists q. now apply property_same.
    - intros k p P. apply property_same in P; [|exact NI]. destruct (C2 _ _ P) as (q & Q & CQ). exists q. split; [now apply property_same|auto].
    - intros k q Q. apply property_same in Q; [|exact NF]. destruct (C3 _ _ Q) as (j & p & P & R & CQ). exists j, p. split; [now apply part_same|]. split; [apply property_same; [exact (part_node _ _ NI P)|exact R]|auto].
    - intro x. split.
      + intro Q. apply requires_same in Q; [|exact NF]. destruct (proj1 (C4 x) Q) as (j & P & R). exists j. split; [now apply part_same|]. apply requires_same; [exact (part_node _ _ NI P)|exact R].
      + intros (j & P & R). apply part_same in P; [|exact NI]. apply requires_same in R; [|exact (part_node _ _ NI P)]. apply requires_same; [exact NF|]. apply C4. eauto.
    - intros k v F E K. apply field_same in F; [|exact NI]. apply field_same; [exact NF|]. auto.
  Qed.
End Same.

(** ** Copies have the same members *)
Section Copies.
  Context (h : heap).
  Lemma ends_fun i j k : ends h i j -> ends h i k -> j = k.
  Proof. intro E. revert k. induction E as [i n N R|i n j k' N R E IH]; intros k F; inversion F as [? m M R'|? m j' ? M R' E']; subst; pose proof (node_fun _ _ _ _ N M) as <-; congruence || (apply IH; congruence). Qed.
  Lemma copy_ends i j e : copy h i j -> ends h i e -> exists e', ends h j e' /\ (e' = e \/ i = e /\ e' = j).
  Proof.
    intros C E. apply copy_inv in C as (n & m & N & M & (P & R & _)). inversion E as [? n' N' R'|? n' k ? N' R' E']; subst; pose proof (node_fun _ _ _ _ N N') as <-.
    - exists j. split; [|auto]. apply (ends_here h j m); congruence.
    - exists e. split; [|auto]. apply (ends_there h j m k); congruence.
  Qed.
  Lemma copy_tree_refl_ends i e : (forall n, is_node h e n -> exists d, tree h d e) -> ends h i e -> copy h e e.
  Proof. intros T E. destruct (ends_node _ _ _ E) as (n & N). destruct (T _ N) as (d & D). eapply copy_refl; eauto. Qed.
  Context (C : closed h).
  Lemma node_copies i n : is_node h i n -> copy h i i.
  Proof. intro N. destruct (c_tree h C _ _ N) as (d & T). eapply copy_refl; eauto. Qed.
  Lemma copy_end i j e : copy h i j -> ends h i e -> exists e', ends h j e' /\ copy h e e'.
  Proof.
    intros K E. destruct (copy_ends _ _ _ K E) as (e' & E' & [->|(-> & ->)]); [|eauto]. exists e. split; [exact E'|]. destruct (ends_node _ _ _ E) as (n & N). eapply node_copies; eauto.
  Qed.
  Lemma copy_member i k : member h i k -> forall j, copy h i j -> exists k', member h j k' /\ copy h k k'.
  Proof.
    induction 1 as [i n m e N I E|i a b _ IH1 _ IH2]; intros j K.
    - apply copy_inv in K as (n' & o & N' & O & (_ & _ & _ & L & _)). pose proof (node_fun _ _ _ _ N N') as <-. destruct (proj1 (copy_list_In _ _ _ L) _ I) as (m' & I' & K).
      destruct (copy_end _ _ _ K E) as (e' & E' & K'). exists e'. split; [eapply member_direct; eauto|exact K'].
    - destruct (IH1 _ K) as (a' & M1 & K1). destruct (IH2 _ K1) as (b' & M2 & K2). exists b'. split; [eapply member_next; eauto|exact K2].
  Qed.
  Lemma copy_part i k j : part h i k -> copy h i j -> exists k', part h j k' /\ copy h k k'.
  Proof. intros [->|M] K; [exists j; split; [now left|exact K]|]. destruct (copy_member _ _ M _ K) as (k' & M' & K'). exists k'. split; [now right|exact K']. Qed.
  Lemma part_trans i j k : part h i j -> part h j k -> part h i k.
  Proof. intros [->|A] [->|B]; [now left|now right|now right|right; eapply member_next; eauto]. Qed.
  Lemma copy_property i j k p : copy h i j -> property h i k p -> exists q, property h j k q /\ copy h p q.
  Proof.
    intros K (n & N & S). apply copy_inv in K as (n' & m & N' & M & (_ & _ & _ & _ & D & _)). pose proof (node_fun _ _ _ _ N N') as <-. pose proof (copy_dict_get _ _ _ D k) as X. rewrite S in X.
    destruct (sget k (s_props m)) as [q|] eqn:Q; [|destruct X]. exists q. split; [exists m; auto|exact X].
  Qed.
  Lemma copy_requires i j x : copy h i j -> requires h i x -> requires h j x.
  Proof.
    intros K (l & (n & N & S) & I). apply copy_inv in K as (n' & m & N' & M & ((KP & P) & _)). pose proof (node_fun _ _ _ _ N N') as <-.
    destruct (sget (lit "required") (s_plain m)) as [v|] eqn:V.
    2: { apply sget_None in V. elim V. rewrite <- KP. apply sget_Some_key. eauto. }
    pose proof (P _ _ _ S V) as SV. inversion SV as [|? l' A B]; subst; [exists l; split; [exists m; auto|exact I]|]. exists l'. split; [exists m; auto|]. eapply covered_str; eauto.
  Qed.
  Lemma copy_field i j k v : copy h i j -> field h i k v -> ~ container v -> field h j k v.
  Proof.
    intros K (n & N & S) NC. apply copy_inv in K as (n' & m & N' & M & ((KP & P) & _)). pose proof (node_fun _ _ _ _ N N') as <-.
    destruct (sget (lit k) (s_plain m)) as [w|] eqn:V.
    2: { apply sget_None in V. elim V. rewrite <- KP. apply sget_Some_key. eauto. }
    pose proof (P _ _ _ S V) as SV. inversion SV as [|? l' A B]; subst; [exists m; auto|]. elim NC. left. eauto.
  Qed.
  Lemma composed_copy i j f : copy h i j -> composed h i f -> composed h j f.
  Proof.
    intros K (C1 & C2 & C3 & C4 & C5). pose proof (proj1 (copy_sym h) _ _ K) as K'. pose proof (proj1 (copy_trans h)) as TR. pose proof (proj1 (copy_sym h)) as SY. split; [|split; [|split; [|split]]].
    - intro k. rewrite (C1 k). split; intros (a & p & P & R).
      + destruct (copy_part _ _ _ P K) as (a' & P' & KA). destruct (copy_property _ _ _ _ KA R) as (p' & R' & _). eauto.
      + destruct (copy_part _ _ _ P K') as (a' & P' & KA). destruct (copy_property _ _ _ _ KA R) as (p' & R' & _). eauto.
    - intros k p P. destruct (copy_property _ _ _ _ K' P) as (p' & P' & KP). destruct (C2 _ _ P') as (q & Q & KQ). exists q. split; [exact Q|]. eapply TR; eauto.
    - intros k q Q. destruct (C3 _ _ Q) as (a & p & P & R & KQ). destruct (copy_part _ _ _ P K) as (a' & P' & KA). destruct (copy_property _ _ _ _ KA R) as (p' & R' & KP). exists a', p'. split; [exact P'|]. split; [exact R'|]. eapply TR; [apply SY; exact KP|exact KQ].
    - intro x. rewrite (C4 x). split; intros (a & P & R).
      + destruct (copy_part _ _ _ P K) as (a' & P' & KA). exists a'. split; [exact P'|]. eapply copy_requires; eauto.
      + destruct (copy_part _ _ _ P K') as (a' & P' & KA). exists a'. split; [exact P'|]. eapply copy_requires; eauto.
    - intros k v F E NC. apply C5; auto. eapply copy_field; eauto.
  Qed.
End Copies.
