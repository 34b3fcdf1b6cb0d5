(** C46, continued: rendering the schemas of a prepared document. *)
From Coq Require Import QArith Lia.
From Verif Require Import PyBase PyFacts M_Graph S_Graph P_Op M_Time M_SpecVal S_Merge M_Declared M_Body M_Prim S_Prim M_Render S_Render P_Render P_RenderGen P_RenderAcc P_RenderAll T_Render S_Copies T_Copies S_Aggregated.
From Verif Require M_Merge M_Aggt S_Aggt P_Aggt P_AggtMerge P_AggtAll P_AggtRegular P_AggtAlone T_Aggt T_AggtAlone.
Import M_Aggt S_Aggt M_SpecVal.
Close Scope Q_scope.
Open Scope nat_scope.

(** ** Fields of copies *)
Lemma same_read {A} (f : val -> res A) n m k x y : (forall v w a b, same_value v w -> f v = Ok a -> f w = Ok b -> a = b) ->
  same_plain (M_Aggt.s_plain n) (M_Aggt.s_plain m) -> field_is n k f x -> field_is m k f y -> x = y.
Proof. intros H (_ & S) (v & V & X) (w & W & Y). eapply H; [eapply S; eauto|exact X|exact Y]. Qed.
Lemma scalar_read {A} (f : val -> res A) : (forall l, exists e, f (VList l) = Err e) -> forall v w a b, same_value v w -> f v = Ok a -> f w = Ok b -> a = b.
Proof. intros H v w a b S X Y. inversion S as [|l m]; subst; [congruence|]. destruct (H l) as (e & E). congruence. Qed.
Lemma text_scalar l : exists e, opt_text (VList l) = Err e. Proof. now eexists. Qed.
Lemma number_scalar l : exists e, opt_number (VList l) = Err e. Proof. now eexists. Qed.
Lemma size_scalar l : exists e, opt_size (VList l) = Err e. Proof. now eexists. Qed.
Lemma flag_read v w a b : same_value v w -> flag v = Ok a -> flag w = Ok b -> a = b.
Proof.
  intros S X Y. inversion S as [|l m C D]; subst; [congruence|]. unfold flag in *. destruct l as [|x l], m as [|y m]; cbn in *; try congruence.
  - destruct (D y (or_introl eq_refl)) as (z & [] & _).
  - destruct (C x (or_introl eq_refl)) as (z & [] & _).
Qed.
Lemma same_sym v w : same_value v w -> same_value w v.
Proof. intros [u|l m C D]; [constructor|now constructor]. Qed.
Lemma equal_text s y : equal_elems (VStr s) y -> y = VStr s.
Proof. intro E. inversion E as [| |? ? ? ? N|]; subst; [reflexivity|inversion N]. Qed.
Lemma texts_In l r : texts (VList l) = Ok r -> forall k, In k r <-> In (VStr k) l.
Proof.
  cbn [texts]. revert r. induction l as [|x l IH]; intros r E k; cbn [M_SpecVal.map_res] in E; [injection E as <-; reflexivity|].
  apply bind_ok in E as (s & X & E). apply bind_ok in E as (r' & R & E). injection E as <-. destruct x; try discriminate X. injection X as ->. cbn. rewrite (IH _ R k). split; (intros [Y|Y]; [left; congruence|now right]).
Qed.
Lemma covered_text l m k : covered l m -> In (VStr k) l -> In (VStr k) m.
Proof. intros C I. destruct (C _ I) as (y & J & [<-|E]); [exact J|]. apply equal_text in E. now subst. Qed.
Lemma texts_read v w a b : same_value v w -> texts v = Ok a -> texts w = Ok b -> forall k, In k a <-> In k b.
Proof.
  intros S X Y k. inversion S as [|l m C D]; subst; [assert (a = b) as -> by congruence; reflexivity|].
  rewrite (texts_In _ _ X), (texts_In _ _ Y). split; now apply covered_text.
Qed.
Lemma enum_read v w a b : same_value v w -> (forall l, v = VList l -> forall x, In x l -> exists s, x = VStr s) -> opt_list v = Ok a -> opt_list w = Ok b -> forall k, In k a <-> In k b.
Proof.
  intros S T X Y k. inversion S as [|l m C D]; subst; [assert (a = b) as -> by congruence; reflexivity|]. cbn in X, Y. injection X as <-. injection Y as <-.
  specialize (T l eq_refl). rewrite !in_map_iff. split; intros (x & <- & I).
  - destruct (T _ I) as (s & ->). exists (VStr s). split; [reflexivity|]. now apply (covered_text _ _ _ C).
  - destruct (D _ I) as (y & J & [<-|E]); [exists x; auto|]. destruct (T _ J) as (s & ->). exists (VStr s). split; [|exact J].
    inversion E as [| |? ? ? ? ? N|]; subst; [reflexivity|inversion N].
Qed.

Section Done.
  Context (fuel : nat) (h h' : M_Aggt.heap) (ids : list nat).
  Hypothesis F : fresh_heap h.
  Hypothesis LI : forall i, In i ids -> exists n, is_node h i n.
  Hypothesis E : aggregate fuel h ids = Ok h'.
  Hypothesis SI : forall i n, is_node h i n -> simple n.
  Context (l : list schema) (xs : nat -> more).
  Hypothesis SE : seen h' l xs.
  Definition of_document (o o' : nat) : Prop := o' < length h /\ S_Aggt.copy h' o' o.
  Lemma seen_at i n : is_node h' i n -> views n (sch l i).
  Proof.
    intro N. destruct SE as (V & _). clear - V N. unfold is_node in N. revert i N. induction V as [|x y a b X V IH]; intros i N; destruct i; try discriminate N.
    - injection N as <-. exact X.
    - apply (IH i N).
  Qed.
  Lemma good_done : P_AggtMerge.good (length h) h'. Proof. exact (proj1 (T_Aggt.done _ _ _ _ F LI E)). Qed.
  Lemma target_ends o u : (exists n, is_node h' o n) -> target l o u -> ends h' o u.
  Proof.
    intros NO [C R]. induction C as [o|o n e X C IH].
    - destruct NO as (m & M). eapply ends_here; [exact M|]. now rewrite <- (w_ref _ _ (seen_at _ _ M)).
    - destruct NO as (m & M). rewrite (w_ref _ _ (seen_at _ _ M)) in X. eapply ends_there; [exact M|exact X|]. apply IH; [|exact R]. eapply P_Aggt.c_ref; [apply (P_AggtMerge.g_closed _ _ good_done)|exact M|exact X].
  Qed.
  Lemma ends_target o u : ends h' o u -> target l o u.
  Proof.
    induction 1 as [i n N R|i n j k N R EE [C X]].
    - split; [constructor|]. now rewrite (w_ref _ _ (seen_at _ _ N)).
    - split; [|exact X]. econstructor; [|exact C]. now rewrite (w_ref _ _ (seen_at _ _ N)).
  Qed.
  Lemma document_simple i n : i < length h -> is_node h' i n -> simple n.
  Proof.
    intros L N. destruct (nth_error h i) as [m|] eqn:M; [|apply nth_error_None in M; lia]. destruct (T_Aggt.done _ _ _ _ F LI E) as (_ & GR & _).
    destruct (GR _ _ M) as (n' & N' & (X1 & _ & _ & X2 & _)). pose proof (P_Aggt.node_fun _ _ _ _ N N') as <-. destruct (SI _ _ M) as (A & B). split; [congruence|]. now rewrite X1.
  Qed.
  Lemma copies_done : copies of_document l xs.
  Proof.
    intros o o' (LO & K) t (u & T & ET). pose proof (P_AggtMerge.copy_nodes_of _ _ _ K) as (_ & NO). pose proof (target_ends _ _ NO T) as EU.
    destruct (P_Aggt.copy_end _ (P_AggtMerge.g_closed _ _ good_done) _ _ _ (proj1 (P_Aggt.copy_sym h') _ _ K) EU) as (u' & EU' & KU).
    pose proof (P_AggtAll.region_ends _ _ _ _ good_done LO EU') as LU. destruct (P_Aggt.ends_node _ _ _ EU') as (n' & N'). destruct (document_simple _ _ LU N') as (AL & EN).
    exists u'. split; [now apply ends_target|]. destruct (T_AggtAlone.c41_read _ _ _ _ F LI E _ _ _ _ K EU' N' AL) as (t0 & _ & KT & UN).
    assert (t = t0) as ->.
    { apply UN. destruct (P_Aggt.ends_node _ _ _ EU) as (n & N). exists u, n. split; [exact EU|]. split; [exact N|]. rewrite ET, (proj2 SE _ _ N). reflexivity. }
    apply P_Aggt.copy_inv in KT as (n1 & m & N1 & M & (KP & KR & KI & KL & KD & KA)). pose proof (P_Aggt.node_fun _ _ _ _ N1 N') as ->.
    destruct (P_AggtMerge.g_region _ _ good_done _ _ N' LU) as (RG & _).
    pose proof (seen_at _ _ N') as V. pose proof (seen_at _ _ M) as W.
    assert (SY : same_plain (M_Aggt.s_plain m) (M_Aggt.s_plain n')).
    { destruct KP as (A & B). split; [now symmetry|]. intros k v w X Y. apply same_sym. eauto. }
    constructor.
    - split; [now rewrite (w_full _ _ V), (w_full _ _ W)|]. split; (eapply same_read; [apply (scalar_read opt_text text_scalar)|exact SY| |]); [apply W|apply V|apply W|apply V].
    - repeat apply conj; (eapply same_read; [first [apply (scalar_read opt_number number_scalar)|exact flag_read]|exact SY| |]); first [apply W|apply V].
    - repeat apply conj; (eapply same_read; [first [apply (scalar_read opt_size size_scalar)|exact flag_read]|exact SY| |]); first [apply W|apply V].
    - destruct (w_enum _ _ V) as (v & X & Y), (w_enum _ _ W) as (w & X' & Y'). intro k. symmetry. eapply enum_read; [eapply (proj2 KP); eauto| |exact Y|exact Y']. intros r -> x I. eauto.
    - destruct (w_required _ _ V) as (v & X & Y), (w_required _ _ W) as (w & X' & Y'). intro k. symmetry. eapply texts_read; [eapply (proj2 KP); eauto|exact Y|exact Y'].
    - rewrite (w_items _ _ V), (w_items _ _ W). assert (Q : forall j, M_Aggt.s_items n' = Some j -> j < length h) by (intros j X; apply RG; now left).
      destruct KI as [|i j C]; [exact I|]. split; [now apply Q|exact C].
    - intro k. rewrite (w_props _ _ V), (w_props _ _ W). pose proof (P_Aggt.copy_dict_get _ _ _ KD k) as C.
      destruct (sget k (M_Aggt.s_props n')) as [i|] eqn:P, (sget k (M_Aggt.s_props m)) as [j|]; try exact C. split; [|exact C]. apply RG. right. right. left. exists k. now apply sget_In.
    - rewrite (w_addl _ _ V), (w_addl _ _ W). assert (Q : forall j, M_Aggt.s_addl n' = M_Aggt.AObj j -> j < length h) by (intros j X; apply RG; do 3 right; exact X).
      destruct KA as [b|i j C]; [exact I|]. split; [now apply Q|exact C].
  Qed.
  Lemma document_itself o : o < length h -> of_document o o.
  Proof.
    intro L. split; [exact L|]. destruct (P_AggtAll.region_node _ _ _ good_done L) as (n & N). eapply P_Aggt.node_copies; [apply (P_AggtMerge.g_closed _ _ good_done)|exact N].
  Qed.
  (** As in C46 *)
  Context (int_of : str -> res Z) (float_of : str -> res Q) (str_of : value -> str)
    (date_at : Q -> res (Z * Z * Z)) (datetime_at : Q -> res datetime)
    (uuid_of : str -> option Z) (email_ok : str -> bool)
    (MAIL : forall s, mailbox s -> email_ok s = true)
    (rnd : nat -> N) (dr dtr : Q * Q) (opt : options).
  (** What is rendered for a schema of the document, from the composed schemas, is taken by the schema. *)
  Theorem c46_aggregated : forall o, o < length h -> all_sound email_ok l xs opt o ->
    all_take l (uncomposed_only xs) (accepts int_of float_of str_of date_at datetime_at uuid_of email_ok l) o ->
    forall fuel i v j, M_Render.generate rnd date_at datetime_at uuid_of dr dtr l xs opt fuel o i = Ok (v, j) ->
    conforms email_ok l (uncomposed_only xs) o v /\
    exists n r, forall m, n <= m -> exists c, produce int_of float_of str_of date_at datetime_at uuid_of email_ok l m o v (new_ctx true) = Ok (r, c).
  Proof.
    intros o L AS AT f i v j G. split.
    - exact (c46_copied date_at datetime_at uuid_of email_ok MAIL rnd dr dtr l xs opt of_document o o copies_done (document_itself o L) AS f i v j G).
    - exact (c46_prepared int_of float_of str_of date_at datetime_at uuid_of email_ok MAIL rnd dr dtr l xs opt of_document o o copies_done (document_itself o L) AS AT f i v j G).
  Qed.
End Done.
Print Assumptions c46_aggregated.

(** ** Example: the pet of T_Copies.v, prepared *)
Definition field_ok {A} (n : M_Aggt.node) (k : string) (f : val -> res A) : bool := match sget (lit k) (M_Aggt.s_plain n) with Some v => match f v with Ok _ => true | Err _ => false end | None => false end.
Definition field_or {A} (d : A) (n : M_Aggt.node) (k : string) (f : val -> res A) : A := match sget (lit k) (M_Aggt.s_plain n) with Some v => match f v with Ok x => x | Err _ => d end | None => d end.
Lemma field_or_is {A} (d : A) n k f : field_ok n k f = true -> field_is n k f (field_or d n k f).
Proof. unfold field_ok, field_or, field_is. destruct (sget (lit k) (M_Aggt.s_plain n)) as [v|]; [|discriminate]. destruct (f v) eqn:E; [eauto|discriminate]. Qed.
Definition view_of (n : M_Aggt.node) : schema :=
  Schema true (Some (field_or None n "name" opt_text)) (field_or None n "type" opt_text) (field_or None n "format" opt_text) (M_Aggt.s_items n) M_Prim.VNull false
    (field_or None n "maximum" opt_number) (field_or false n "exclusiveMaximum" flag) (field_or None n "minimum" opt_number) (field_or false n "exclusiveMinimum" flag)
    (field_or None n "maxLength" opt_size) (field_or None n "minLength" opt_size) (field_or None n "maxItems" opt_size) (field_or None n "minItems" opt_size)
    (field_or None n "multipleOf" opt_number) (field_or [] n "enum" opt_list) (field_or false n "uniqueItems" flag) None (M_Aggt.s_ref n) (field_or [] n "required" texts)
    (M_Aggt.s_allof n) (M_Aggt.s_props n) (match M_Aggt.s_addl n with M_Aggt.ABool b => M_Prim.ABool b | M_Aggt.AObj j => M_Prim.ASchema j end) None false.
Definition view_ok (n : M_Aggt.node) : bool :=
  forallb (fun k => field_ok n k opt_text) ["type"; "format"]%string && forallb (fun k => field_ok n k opt_number) ["maximum"; "minimum"; "multipleOf"]%string &&
  forallb (fun k => field_ok n k flag) ["exclusiveMaximum"; "exclusiveMinimum"; "uniqueItems"]%string && forallb (fun k => field_ok n k opt_size) ["maxLength"; "minLength"; "maxItems"; "minItems"]%string &&
  field_ok n "enum" opt_list && field_ok n "required" texts.
Lemma view_views n : view_ok n = true -> views n (view_of n).
Proof.
  unfold view_ok. intro H. rewrite !Bool.andb_true_iff, !forallb_forall in H. destruct H as (((((H1 & H2) & H3) & H4) & H5) & H6).
  constructor; try reflexivity; apply field_or_is;
    first [apply H1; cbn; solve [auto 9]|apply H2; cbn; solve [auto 9]|apply H3; cbn; solve [auto 9]|apply H4; cbn; solve [auto 9]|exact H5|exact H6].
Qed.
Definition doc : M_Aggt.heap :=
  [ T_Aggt.schema [("type"%string, VStr (lit "object")); T_Aggt.req ["id"%string]] None [] [("id"%string, 1); ("tags"%string, 2)];
    T_Aggt.schema [("type"%string, VStr (lit "integer")); ("minimum"%string, VInt 1); ("maximum"%string, VInt 10)] None [] [];
    Node (supdate (M_Aggt.s_plain new_node) [(lit "type", VStr (lit "array")); (lit "minItems", VInt 1); (lit "maxItems", VInt 2)]) None None (Some 3) [] [] (M_Aggt.ABool true);
    T_Aggt.schema [("type"%string, VStr (lit "string")); ("maxLength"%string, VInt 3)] None [] [] ].
Definition doc' : M_Aggt.heap := match aggregate 30 doc [0; 1; 2; 3] with Ok x => x | Err _ => [] end.
Definition docs : list schema := Eval vm_compute in map view_of doc'.
Definition doc_finals : list (option nat) := Eval vm_compute in map M_Aggt.s_final doc'.
Definition doc_xs (i : nat) : more := More None None (nth i doc_finals None).
Example doc_fresh : fresh_heap doc.
Proof. apply P_AggtRegular.fresh_ok. vm_compute. reflexivity. Qed.
Example doc_done : aggregate 30 doc [0; 1; 2; 3] = Ok doc' /\ (forall i, In i [0; 1; 2; 3] -> exists n, is_node doc i n) /\ forall i n, is_node doc i n -> simple n.
Proof.
  split; [vm_compute; reflexivity|]. split.
  - intros i I. repeat (destruct I as [<-|I]; [eexists; reflexivity|]). destruct I.
  - intros i n N. do 4 (destruct i as [|i]; [injection N as <-; split; [reflexivity|vm_compute; discriminate]|]). destruct i; discriminate N.
Qed.
Example doc_seen : seen doc' docs doc_xs.
Proof.
  split.
  - replace docs with (map view_of doc') by (vm_compute; reflexivity). assert (V : forallb view_ok doc' = true) by (vm_compute; reflexivity). rewrite forallb_forall in V.
    revert V. generalize doc'. intros x V. induction x as [|n x IH]; [constructor|]. constructor; [apply view_views, V; now left|]. apply IH. intros y Y. apply V. now right.
  - intros i n N. cbn [x_final doc_xs]. replace doc_finals with (map M_Aggt.s_final doc') by (vm_compute; reflexivity). apply (map_nth_error M_Aggt.s_final) in N. now apply nth_error_nth.
Qed.
Lemma docs_target o t : target docs o t -> t = o.
Proof.
  assert (R : forall i, M_Prim.s_ref (sch docs i) = None) by (intro i; do 12 (destruct i as [|i]; [reflexivity|]); unfold sch; cbn; destruct i; reflexivity).
  intros [C _]. inversion C as [|? b ? N]; subst; [reflexivity|]. rewrite R in N. discriminate N.
Qed.
Lemma docs_visits xs o u : (forall i, i < 12 -> match x_final (xs i) with Some f => f < 12 | None => True end) -> visits docs xs o u -> o < 12 -> u < 12.
Proof.
  intro F. induction 1 as [o|o t k p u M E V IH|o t it u M E V IH|o t a u M E V IH]; intro L; [exact L| | |]; apply IH;
    (assert (t < 12) as LT by (destruct M as (w & T & ->); apply docs_target in T; subst w; specialize (F o L); destruct (x_final (xs o)); assumption)); clear M F IH V L.
  - do 12 (destruct t as [|t]; [try discriminate E; apply sget_In in E; cbn in E; repeat (destruct E as [E|E]; [injection E as _ <-; lia|]); destruct E|]). lia.
  - do 12 (destruct t as [|t]; [try discriminate E; injection E as <-; lia|]). lia.
  - do 12 (destruct t as [|t]; [discriminate E|]). lia.
Qed.
Example doc_sound email_ok : all_sound email_ok docs doc_xs default_options 0.
Proof.
  intros p t V M. apply docs_visits in V; [| |lia].
  2:{ intros i L. do 12 (destruct i as [|i]; [cbn; lia|]). lia. }
  assert (t < 12) as LT.
  { destruct M as (w & T & ->). apply docs_target in T. subst w. do 12 (destruct p as [|p]; [cbn; lia|]). lia. }
  clear M V. do 12 (destruct t as [|t]; [refine (conj _ (conj _ (conj _ (conj _ (conj _ (conj _ _))))));
    try solve [intros e []|intro T; discriminate T|intros [T _]; discriminate T];
    first [ intros _; split; [apply P_SpecBase.nodupb_ok; reflexivity|]; split; [intros k [<-|[]]; reflexivity|]; split; [discriminate|discriminate]
          | intros _ _; split; [split; intros q E; injection E as <-; discriminate|]; discriminate
          | intros _; split; [intros n E; injection E as <-; lia|reflexivity]
          | intros _; split; [intros n E; injection E as <-; lia|]; intros [_ (f & _ & E)]; discriminate E ]|]). lia.
Qed.
Example doc_takes (acc : nat -> value -> Prop) : all_take docs (uncomposed_only doc_xs) acc 0.
Proof.
  intros p t V T. apply docs_visits in V; [| |lia]; [|intros i L; exact I]. apply docs_target in T. subst t.
  do 12 (destruct p as [|p]; [clear V; refine (conj eq_refl (conj eq_refl (conj _ (conj _ (conj _ _)))));
    try solve [apply P_SpecBase.nodupb_ok; reflexivity|intros k [<-|[]]; reflexivity|intros k []|discriminate];
    intros k q E; apply sget_In in E; cbn in E; repeat (destruct E as [E|E]; [injection E as _ <-; discriminate|]); destruct E|]). lia.
Qed.
Example doc_made : make count_up docs doc_xs default_options 5 0 = Ok (M_Prim.VDict [(lit "id", M_Prim.VInt 1); (lit "tags", M_Prim.VList [M_Prim.VStr (lit "efg")])]).
Proof. vm_compute. reflexivity. Qed.
