(** Proofs about numbers and texts made by the factory (C26, C27). *)
From Coq Require Import QArith Lia.
From Verif Require Import PyBase PyFacts M_Graph S_Graph P_Graph M_Quote M_Time M_Prim S_Prim P_Op P_Prim.
Close Scope Q_scope.
Open Scope nat_scope.

Section Leaf.
  Context (int_of : str -> res Z) (float_of : str -> res Q) (str_of : value -> str)
    (date_at : Q -> res (Z * Z * Z)) (datetime_at : Q -> res datetime)
    (uuid_of : str -> option Z) (email_ok : str -> bool) (h : list schema).
  Notation produce := (produce int_of float_of str_of date_at datetime_at uuid_of email_ok h).
  Notation produce_step := (produce_step int_of float_of str_of date_at datetime_at uuid_of email_ok h).
  Notation start := (start int_of float_of str_of date_at datetime_at uuid_of email_ok h).
  Notation finish := (finish date_at datetime_at uuid_of email_ok h).
  Notation all_of := (all_of date_at datetime_at uuid_of email_ok h).
  Notation apply_rest := (apply_rest date_at datetime_at uuid_of email_ok h).
  Notation apply_more := (apply_more date_at datetime_at uuid_of email_ok h).
  Notation run_2nd := (run_2nd date_at datetime_at uuid_of email_ok h).
  Notation apply_obj := (apply_obj date_at datetime_at uuid_of h).
  Notation create := (create int_of float_of str_of).
  Notation to_int_v := (to_int_v int_of).
  Notation to_float_v := (to_float_v float_of).
  Notation to_str_v := (to_str_v str_of).
  Notation deref_s := (deref_s h).

  Lemma effective_null o v : is_null (effective h o v) = false ->
    (if is_null v then s_default (sch h o) else v) = effective h o v.
  Proof. destruct v; reflexivity. Qed.

  (** ** The two shapes of a call *)
  Lemma produce_some n o t v c : target h o t -> is_null (effective h o v) = false -> ~ In t (c_guard c) ->
    produce (S n) o v c =
    do x <- start (produce n) t (effective h o v) (set_guard (c_guard c ++ [t]) (set_name (s_name (sch h t)) c));
    let '(r, v, c) := x in finish (produce n) (sch h t) r v c.
  Proof.
    intros T N G. cbn [M_Prim.produce]. unfold M_Prim.produce_step.
    rewrite (effective_null o v N), N. rewrite (proj2 (deref_target h o t) T). cbn [bind].
    rewrite guard_update_ok; [|exact G]. reflexivity.
  Qed.
  Lemma produce_inv n o v c r c' : produce (S n) o v c = Ok (r, c') ->
    (is_null (effective h o v) = true /\ r = PNone /\ c' = c) \/
    (is_null (effective h o v) = false /\
     exists t r0 v0 c0, target h o t /\ ~ In t (c_guard c) /\
       start (produce n) t (effective h o v) (set_guard (c_guard c ++ [t]) (set_name (s_name (sch h t)) c)) = Ok (r0, v0, c0) /\
       finish (produce n) (sch h t) r0 v0 c0 = Ok (r, c')).
  Proof.
    cbn [M_Prim.produce]. unfold M_Prim.produce_step. intro E.
    assert (X : (if is_null v then s_default (sch h o) else v) = effective h o v) by (destruct v; reflexivity).
    rewrite X in E. destruct (is_null (effective h o v)).
    - left. now injection E as <- <-.
    - right. split; [reflexivity|].
      apply bind_ok in E as (t & D & E). apply deref_target in D. exists t.
      apply bind_ok in E as (g & G & E).
      assert (NI : ~ In t (c_guard c)).
      { intro I. change (c_guard (set_name (s_name (sch h t)) c)) with (c_guard c) in G.
        rewrite guard_update_err in G; [discriminate|exact I]. }
      change (c_guard (set_name (s_name (sch h t)) c)) with (c_guard c) in G.
      rewrite guard_update_ok in G; [|exact NI]. injection G as <-.
      apply bind_ok in E as ([[r0 v0] c0] & S0 & E). exists r0, v0, c0. auto.
  Qed.

  (** ** A second pass accepts a number or text *)
  Definition V (f : second) (s : schema) (r : prim) : Prop :=
    match f with
    | S2Int => validate_int s r = Ok tt
    | S2Float => validate_float s r = Ok tt
    | S2Str => validate_str s r = Ok tt
    | S2Email => validate_email email_ok r = Ok tt
    | S2Obj => False
    end.
  Definition leaf (r : prim) : Prop := has_apply r = false.
  Lemma run_2nd_leaf rec f o r v c r' v' c' : leaf r -> run_2nd rec f o r v c = Ok (r', v', c') <->
    (r' = r /\ v' = v /\ c' = c /\ V f (sch h o) r).
  Proof.
    intro L. unfold M_Prim.run_2nd. destruct f; cbn [V].
    1-4: rewrite bind_ok; split;
      [intros ([] & A & B); injection B as <- <- <-; auto
      |intros (-> & -> & -> & A); exists tt; auto].
    split; [|tauto]. unfold M_Prim.apply_obj. destruct r; cbn in L; try discriminate L; discriminate.
  Qed.
  Lemma set_2nd_same c f : c_2nd c = Some f -> set_2nd (Some f) c = c.
  Proof. destruct c; cbn. now intros ->. Qed.
  Lemma apply_more_leaf rec f o r v c x : leaf r -> c_2nd c = Some f ->
    apply_more rec o r v c = Ok x <-> x = (r, v, c) /\ V f (sch h o) r.
  Proof.
    intros L C. unfold M_Prim.apply_more. unfold leaf in L. rewrite L, C. rewrite bind_ok. split.
    - intros ([[r1 v1] c1] & A & B). apply run_2nd_leaf in A as (-> & -> & -> & A); [|exact L].
      injection B as <-. cbn [snd]. rewrite set_2nd_same; auto.
    - intros [-> A]. exists (r, v, c). split; [apply run_2nd_leaf; auto|].
      cbn [snd]. rewrite set_2nd_same; auto.
  Qed.
  Lemma all_of_leaf rec f r v c : leaf r -> falsy r = false -> c_2nd c = Some f -> forall l na x,
    all_of rec l r v c na = Ok x <->
    x = (r, v, c, na) /\ forall a, In a l -> exists a', target h a a' /\ V f (sch h a') r.
  Proof.
    intros L F C. induction l as [|a l IH]; intros na x; cbn [M_Prim.all_of].
    - split; [intro E; injection E as <-; split; [reflexivity|intros ? []]|intros [-> _]; reflexivity].
    - rewrite bind_ok. rewrite F. split.
      + intros (a' & D & E). apply deref_target in D.
        apply bind_ok in E as (y & A & E). apply (apply_more_leaf rec f) in A as [-> A]; auto.
        cbn iota beta in E. rewrite F in E. apply IH in E as [-> E]. split; [reflexivity|].
        intros b [<-|I]; [eauto|auto].
      + intros [-> A]. destruct (A a (or_introl eq_refl)) as (a' & D & X). exists a'.
        split; [now apply deref_target|]. apply bind_ok. exists (r, v, c).
        split; [apply (apply_more_leaf rec f); auto|]. rewrite F. apply IH. split; [reflexivity|].
        intros; apply A; now right.
  Qed.
  Lemma finish_leaf rec f s r v c x : leaf r -> falsy r = false -> c_2nd c = Some f ->
    finish rec s r v c = Ok x <-> x = (r, c) /\ each_member h s (fun a => V f a r).
  Proof.
    intros L F C. unfold M_Prim.finish, each_member, members.
    assert (K : final_kind r = false) by (destruct r; cbn in L |- *; try discriminate L; reflexivity).
    rewrite K. rewrite bind_ok. destruct (s_full s).
    - split.
      + intros (y & A & E). apply bind_ok in A as (z & A & B).
        apply (all_of_leaf rec f) in A as [-> A]; auto. rewrite F in B. cbn in B. injection B as <-.
        split; [|exact A]. destruct r; cbn in L; try discriminate L; now injection E.
      + intros [-> A]. exists (r, v, c). split.
        * apply bind_ok. exists (r, v, c, []). split; [apply (all_of_leaf rec f); auto|]. now rewrite F.
        * destruct r; cbn in L; try discriminate L; reflexivity.
    - split.
      + intros (y & A & E). injection A as <-. split; [|intros ? []].
        destruct r; cbn in L; try discriminate L; now injection E.
      + intros [-> A]. exists (r, v, c). split; [reflexivity|].
        destruct r; cbn in L; try discriminate L; reflexivity.
  Qed.
  Lemma finish_no_member rec s r v c : leaf r -> members s = [] -> finish rec s r v c = Ok (r, c).
  Proof.
    intros L M. unfold M_Prim.finish, members in *.
    assert (K : final_kind r = false) by (destruct r; cbn in L |- *; try discriminate L; reflexivity).
    rewrite K. replace (if s_full s then
       do z <- all_of rec (s_allof s) r v c []; (let '(r0, v0, c0, na) := z in if falsy r0 then Ok (r0, v0, c0) else apply_rest rec na r0 v0 c0)
       else Ok (r, v, c)) with (Ok (r, v, c)).
    - cbn [bind]. destruct r; cbn in L; try discriminate L; reflexivity.
    - destruct (s_full s); [|reflexivity]. rewrite M. cbn. destruct (falsy r); reflexivity.
  Qed.

  (** ** Making a number or text from a typed schema *)
  Lemma typed_some s t : typed s t -> t <> ""%string -> exists c x, s_type s = Some (c :: x).
  Proof. unfold typed. intros -> N. destruct t; [contradiction|]. cbn. eauto. Qed.
  Lemma start_leaf rec o cr f v c x : get (s_type (sch h o)) (s_format (sch h o)) = (Some cr, Some f) ->
    (match cr with CrObj _ => False | _ => True end) ->
    s_type (sch h o) <> Some [] -> s_type (sch h o) <> None ->
    start rec o v c = Ok x <->
    exists r, create cr (sch h o) v = Ok r /\ V f (sch h o) r /\ x = (r, v, set_2nd (Some f) c).
  Proof.
    intros G K T T'. unfold M_Prim.start. destruct (s_type (sch h o)) as [[|a ty]|] eqn:ET; try contradiction.
    cbn iota. rewrite G. rewrite bind_ok.
    assert (LL : forall r, create cr (sch h o) v = Ok r -> leaf r).
    { intros r. destruct cr; try contradiction; cbn [M_Prim.create]; rewrite ?bind_ok.
      - intros (z & _ & E). apply bind_ok in E as (? & _ & E). now injection E as <-.
      - intros (z & _ & E). apply bind_ok in E as (? & _ & E). now injection E as <-.
      - intros (z & _ & E). now injection E as <-.
      - intro E. now injection E as <-. }
    split.
    - intros (r & A & B). exists r. apply bind_ok in B as ([[r1 v1] c1] & B & E).
      apply run_2nd_leaf in B as (-> & -> & -> & B); [|eauto]. injection E as <-. auto.
    - intros (r & A & B & ->). exists r. split; [exact A|]. apply bind_ok. exists (r, v, c).
      split; [apply run_2nd_leaf; eauto|reflexivity].
  Qed.
  Lemma create_int s v r : create CrInt s v = Ok r <->
    exists z, to_int_v v = Ok z /\ r = PInt z /\ within s (inject_Z z).
  Proof.
    cbn [M_Prim.create]. rewrite bind_ok. split.
    - intros (z & A & B). apply bind_ok in B as ([] & B & E). injection E as <-. exists z.
      split; [exact A|]. split; [reflexivity|]. now apply (validate_int_spec s (PInt z)).
    - intros (z & A & -> & W). exists z. split; [exact A|]. apply bind_ok. exists tt.
      split; [|reflexivity]. now apply (validate_int_spec s (PInt z) (inject_Z z) eq_refl).
  Qed.
  Lemma create_float s v r : create CrFloat s v = Ok r <->
    exists q, to_float_v v = Ok q /\ r = PFloat q /\ within s q /\ multiple s q.
  Proof.
    cbn [M_Prim.create]. rewrite bind_ok. split.
    - intros (q & A & B). apply bind_ok in B as ([] & B & E). injection E as <-. exists q.
      split; [exact A|]. split; [reflexivity|]. now apply (validate_float_spec s (PFloat q)).
    - intros (q & A & -> & W). exists q. split; [exact A|]. apply bind_ok. exists tt.
      split; [|reflexivity]. now apply (validate_float_spec s (PFloat q) q eq_refl).
  Qed.
  Lemma create_str s v r : create CrStr s v = Ok r <-> r = PStr (to_str_v v) /\ text_ok s (to_str_v v).
  Proof.
    cbn [M_Prim.create]. rewrite bind_ok. split.
    - intros ([] & B & E). injection E as <-. split; [reflexivity|]. now apply validate_str_spec.
    - intros [-> W]. exists tt. split; [|reflexivity]. now apply validate_str_spec.
  Qed.

  (** ** Exactly which numbers and texts are accepted *)
  Definition ctx1 (t : nat) (c : ctx) : ctx := set_guard (c_guard c ++ [t]) (set_name (s_name (sch h t)) c).
  Lemma typed_ok s ty : typed s ty -> ty <> ""%string -> s_type s <> Some [] /\ s_type s <> None.
  Proof. intros T N. destruct (typed_some s ty T N) as (c & x & E). rewrite E. split; congruence. Qed.

  Lemma integer_iff n o t v c r c' : target h o t -> ~ In t (c_guard c) -> integer_kind (sch h t) ->
    is_null (effective h o v) = false ->
    members (sch h t) = [] \/ to_int_v (effective h o v) <> Ok 0%Z ->
    produce (S n) o v c = Ok (r, c') <->
    c' = set_2nd (Some S2Int) (ctx1 t c) /\
    exists z, to_int_v (effective h o v) = Ok z /\ r = PInt z /\ within (sch h t) (inject_Z z) /\
      each_member h (sch h t) (fun a => within a (inject_Z z)).
  Proof.
    intros T G K N Z0. rewrite (produce_some n o t v c T N G). rewrite bind_ok. fold (ctx1 t c).
    pose proof (get_integer _ K) as GI.
    assert (TY : s_type (sch h t) <> Some [] /\ s_type (sch h t) <> None).
    { destruct K as [K|[K _]]; eapply typed_ok; eauto; discriminate. }
    assert (VW : forall s z, V S2Int s (PInt z) <-> within s (inject_Z z)).
    { intros. apply (validate_int_spec s (PInt z) (inject_Z z) eq_refl). }
    split.
    - intros ([[r0 v0] c0] & A & B).
      apply (start_leaf _ t CrInt S2Int) in A as (r1 & A & A2 & E); auto; try (tauto || exact I).
      injection E as -> -> ->. apply create_int in A as (z & TI & -> & W).
      destruct Z0 as [M|Z0].
      + rewrite finish_no_member in B; [|reflexivity|exact M]. injection B as <- <-.
        split; [reflexivity|]. exists z. split; [exact TI|]. split; [reflexivity|]. split; [exact W|].
        intros a. rewrite M. intros [].
      + assert (F : falsy (PInt z) = false).
        { cbn. apply Z.eqb_neq. intros ->. contradiction. }
        apply (finish_leaf _ S2Int) in B as [E B]; auto; try reflexivity. injection E as -> ->.
        split; [reflexivity|]. exists z. split; [exact TI|]. split; [reflexivity|]. split; [exact W|].
        intros a I. destruct (B a I) as (a' & X & Y). exists a'. split; [exact X|]. now apply VW.
    - intros (-> & z & TI & -> & W & E).
      exists (PInt z, effective h o v, set_2nd (Some S2Int) (ctx1 t c)). split.
      + apply (start_leaf _ t CrInt S2Int); auto; try (tauto || exact I). exists (PInt z).
        split; [apply create_int; eauto|]. split; [now apply VW|reflexivity].
      + destruct Z0 as [M|Z0].
        * now rewrite finish_no_member.
        * assert (F : falsy (PInt z) = false).
          { cbn. apply Z.eqb_neq. intros ->. contradiction. }
          apply (finish_leaf _ S2Int); auto; try reflexivity. split; [reflexivity|].
          intros a I. destruct (E a I) as (a' & X & Y). exists a'. split; [exact X|]. now apply VW.
  Qed.
  Lemma number_iff n o t v c r c' : target h o t -> ~ In t (c_guard c) -> number_kind (sch h t) ->
    is_null (effective h o v) = false ->
    members (sch h t) = [] \/ (forall q, to_float_v (effective h o v) = Ok q -> ~ (q == 0)%Q) ->
    produce (S n) o v c = Ok (r, c') <->
    c' = set_2nd (Some S2Float) (ctx1 t c) /\
    exists q, to_float_v (effective h o v) = Ok q /\ r = PFloat q /\ within (sch h t) q /\ multiple (sch h t) q /\
      each_member h (sch h t) (fun a => within a q /\ multiple a q).
  Proof.
    intros T G K N Z0. rewrite (produce_some n o t v c T N G). rewrite bind_ok. fold (ctx1 t c).
    pose proof (get_number _ K) as GI.
    assert (TY : s_type (sch h t) <> Some [] /\ s_type (sch h t) <> None).
    { destruct K as [K _]. eapply typed_ok; eauto; discriminate. }
    assert (VW : forall s q, V S2Float s (PFloat q) <-> within s q /\ multiple s q).
    { intros. apply (validate_float_spec s (PFloat q) q eq_refl). }
    split.
    - intros ([[r0 v0] c0] & A & B).
      apply (start_leaf _ t CrFloat S2Float) in A as (r1 & A & A2 & E); auto; try (tauto || exact I).
      injection E as -> -> ->. apply create_float in A as (q & TI & -> & W & W').
      destruct Z0 as [M|Z0].
      + rewrite finish_no_member in B; [|reflexivity|exact M]. injection B as <- <-.
        split; [reflexivity|]. exists q. split; [exact TI|]. split; [reflexivity|]. split; [exact W|].
        split; [exact W'|]. intros a. rewrite M. intros [].
      + assert (F : falsy (PFloat q) = false).
        { cbn. destruct (Qeq_bool q 0) eqn:E; [|reflexivity]. apply Qeq_bool_iff in E. exfalso. eapply Z0; eauto. }
        apply (finish_leaf _ S2Float) in B as [E B]; auto; try reflexivity. injection E as -> ->.
        split; [reflexivity|]. exists q. split; [exact TI|]. split; [reflexivity|]. split; [exact W|].
        split; [exact W'|].
        intros a I. destruct (B a I) as (a' & X & Y). exists a'. split; [exact X|]. now apply VW.
    - intros (-> & q & TI & -> & W & W' & E).
      exists (PFloat q, effective h o v, set_2nd (Some S2Float) (ctx1 t c)). split.
      + apply (start_leaf _ t CrFloat S2Float); auto; try (tauto || exact I). exists (PFloat q).
        split; [apply create_float; eauto|]. split; [now apply VW|reflexivity].
      + destruct Z0 as [M|Z0].
        * now rewrite finish_no_member.
        * assert (F : falsy (PFloat q) = false).
          { cbn. destruct (Qeq_bool q 0) eqn:E'; [|reflexivity]. apply Qeq_bool_iff in E'. exfalso. eapply Z0; eauto. }
          apply (finish_leaf _ S2Float); auto; try reflexivity. split; [reflexivity|].
          intros a I. destruct (E a I) as (a' & X & Y). exists a'. split; [exact X|]. now apply VW.
  Qed.
  Lemma text_iff n o t v c r c' : target h o t -> ~ In t (c_guard c) -> text_kind (sch h t) ->
    is_null (effective h o v) = false ->
    members (sch h t) = [] \/ to_str_v (effective h o v) <> [] ->
    produce (S n) o v c = Ok (r, c') <->
    c' = set_2nd (Some S2Str) (ctx1 t c) /\
    r = PStr (to_str_v (effective h o v)) /\ text_ok (sch h t) (to_str_v (effective h o v)) /\
    each_member h (sch h t) (fun a => text_ok a (to_str_v (effective h o v))).
  Proof.
    intros T G K N Z0. rewrite (produce_some n o t v c T N G). rewrite bind_ok. fold (ctx1 t c).
    pose proof (get_text _ K) as GI. set (w := to_str_v (effective h o v)) in *.
    assert (TY : s_type (sch h t) <> Some [] /\ s_type (sch h t) <> None).
    { destruct K as [K _]. eapply typed_ok; eauto; discriminate. }
    assert (VW : forall s q, V S2Str s (PStr q) <-> text_ok s q).
    { intros. apply validate_str_spec. }
    split.
    - intros ([[r0 v0] c0] & A & B).
      apply (start_leaf _ t CrStr S2Str) in A as (r1 & A & A2 & E); auto; try (tauto || exact I).
      injection E as -> -> ->. apply create_str in A as (-> & W). fold w in W, B.
      destruct Z0 as [M|Z0].
      + rewrite finish_no_member in B; [|reflexivity|exact M]. injection B as <- <-.
        split; [reflexivity|]. split; [reflexivity|]. split; [exact W|].
        intros a. rewrite M. intros [].
      + assert (F : falsy (PStr w) = false).
        { cbn. destruct w; [contradiction|reflexivity]. }
        apply (finish_leaf _ S2Str) in B as [E B]; auto; try reflexivity. injection E as -> ->.
        split; [reflexivity|]. split; [reflexivity|]. split; [exact W|].
        intros a I. destruct (B a I) as (a' & X & Y). exists a'. split; [exact X|]. now apply VW.
    - intros (-> & -> & W & E).
      exists (PStr w, effective h o v, set_2nd (Some S2Str) (ctx1 t c)). split.
      + apply (start_leaf _ t CrStr S2Str); auto; try (tauto || exact I). exists (PStr w).
        split; [apply create_str; auto|]. split; [now apply VW|reflexivity].
      + destruct Z0 as [M|Z0].
        * now rewrite finish_no_member.
        * assert (F : falsy (PStr w) = false).
          { cbn. destruct w; [contradiction|reflexivity]. }
          apply (finish_leaf _ S2Str); auto; try reflexivity. split; [reflexivity|].
          intros a I. destruct (E a I) as (a' & X & Y). exists a'. split; [exact X|]. now apply VW.
  Qed.

  (** ** What is out of bounds is refused *)
  Lemma start_err rec o cr f v c e : get (s_type (sch h o)) (s_format (sch h o)) = (Some cr, Some f) ->
    s_type (sch h o) <> Some [] -> s_type (sch h o) <> None ->
    create cr (sch h o) v = Err e -> start rec o v c = Err e.
  Proof.
    intros G T T' C. unfold M_Prim.start. destruct (s_type (sch h o)) as [[|a ty]|] eqn:ET; try contradiction.
    cbn iota. rewrite G, C. reflexivity.
  Qed.
  Lemma integer_refused n o t v c z : target h o t -> ~ In t (c_guard c) -> integer_kind (sch h t) ->
    is_null (effective h o v) = false -> to_int_v (effective h o v) = Ok z -> ~ within (sch h t) (inject_Z z) ->
    produce (S n) o v c = Err ValidationError.
  Proof.
    intros T G K N TI W. rewrite (produce_some n o t v c T N G).
    rewrite (start_err _ t CrInt S2Int _ _ ValidationError); [reflexivity|..].
    - now apply get_integer.
    - destruct K as [K|[K _]]; eapply typed_ok; eauto; discriminate.
    - destruct K as [K|[K _]]; eapply typed_ok; eauto; discriminate.
    - cbn [M_Prim.create]. rewrite TI. cbn [bind].
      destruct (validate_int_spec (sch h t) (PInt z) (inject_Z z) eq_refl) as [A [B|B]].
      + apply A in B. contradiction.
      + now rewrite B.
  Qed.
  Lemma number_refused n o t v c q : target h o t -> ~ In t (c_guard c) -> number_kind (sch h t) ->
    is_null (effective h o v) = false -> to_float_v (effective h o v) = Ok q ->
    ~ (within (sch h t) q /\ multiple (sch h t) q) ->
    produce (S n) o v c = Err ValidationError.
  Proof.
    intros T G K N TI W. rewrite (produce_some n o t v c T N G).
    rewrite (start_err _ t CrFloat S2Float _ _ ValidationError); [reflexivity|..].
    - now apply get_number.
    - destruct K as [K _]; eapply typed_ok; eauto; discriminate.
    - destruct K as [K _]; eapply typed_ok; eauto; discriminate.
    - cbn [M_Prim.create]. rewrite TI. cbn [bind].
      destruct (validate_float_spec (sch h t) (PFloat q) q eq_refl) as [A [B|B]].
      + apply A in B. contradiction.
      + now rewrite B.
  Qed.
  Lemma text_refused n o t v c : target h o t -> ~ In t (c_guard c) -> text_kind (sch h t) ->
    is_null (effective h o v) = false -> ~ text_ok (sch h t) (to_str_v (effective h o v)) ->
    produce (S n) o v c = Err ValidationError.
  Proof.
    intros T G K N W. rewrite (produce_some n o t v c T N G).
    rewrite (start_err _ t CrStr S2Str _ _ ValidationError); [reflexivity|..].
    - now apply get_text.
    - destruct K as [K _]; eapply typed_ok; eauto; discriminate.
    - destruct K as [K _]; eapply typed_ok; eauto; discriminate.
    - cbn [M_Prim.create].
      destruct (validate_str_spec (sch h t) (to_str_v (effective h o v))) as [A [B|B]].
      + apply A in B. contradiction.
      + now rewrite B.
  Qed.

  (** ** A number always is the conversion of the value given *)
  Definition keeps (v v0 : value) : Prop :=
    (forall z, to_int_v v0 = Ok z -> to_int_v v = Ok z) /\ (forall q, to_float_v v0 = Ok q -> to_float_v v = Ok q).
  Definition from (v : value) (r : prim) : Prop :=
    match r with PInt z => to_int_v v = Ok z | PFloat q => to_float_v v = Ok q | _ => True end.
  Lemma keeps_refl v : keeps v v. Proof. split; auto. Qed.
  Lemma keeps_trans a b c : keeps a b -> keeps b c -> keeps a c.
  Proof. intros [A B] [C D]. split; auto. Qed.
  Lemma keeps_list v l : keeps v (VList l). Proof. split; intros ? E; discriminate E. Qed.
  Lemma keeps_dict v l : keeps v (VDict l). Proof. split; intros ? E; discriminate E. Qed.
  Lemma keeps_null v : keeps v VNull. Proof. split; intros ? E; discriminate E. Qed.
  Lemma array_keeps rec s l v r v' : array_apply rec s l v = Ok (r, v') ->
    keeps v v' /\ has_apply r = true /\ (is_null v = false -> is_null v' = false).
  Proof.
    unfold array_apply. intro E. apply bind_ok in E as (v1 & A & E).
    apply bind_ok in E as (v2 & B & E). apply bind_ok in E as (lv & C & E).
    apply bind_ok in E as (? & _ & E). apply bind_ok in E as (? & _ & E). injection E as <- <-.
    assert (KA : keeps v v1 /\ (is_null v = false -> is_null v1 = false)).
    { unfold split_text in A. destruct v; try (injection A as <-; split; [apply keeps_refl|auto]).
      destruct (separator _); [|discriminate]. injection A as <-. split; [apply keeps_list|reflexivity]. }
    assert (KB : keeps v1 v2 /\ (is_null v1 = false -> is_null v2 = false)).
    { unfold unique in B. destruct (s_unique s).
      - destruct (elements v1); [|discriminate]. injection B as <-. split; [apply keeps_list|reflexivity].
      - injection B as <-. split; [apply keeps_refl|auto]. }
    assert (KC : keeps v2 (snd lv) /\ (is_null v2 = false -> is_null (snd lv) = false)).
    { destruct (s_items s) as [it|].
      - destruct (elements v2) as [[|e es]|] eqn:EE; [|..|discriminate].
        + injection C as <-. split; [apply keeps_refl|auto].
        + apply bind_ok in C as (rs & _ & C). injection C as <-. split; [apply keeps_list|reflexivity].
      - injection C as <-. split; [apply keeps_refl|auto]. }
    split; [|split; [reflexivity|tauto]]. eapply keeps_trans; [apply KA|]. eapply keeps_trans; [apply KB|apply KC].
  Qed.
  Lemma model_keeps rec o m v c r v' c' : model_apply h rec o m v c = Ok (r, v', c') ->
    keeps v v' /\ (exists m', r = PModel m') /\ is_null v' = false.
  Proof.
    unfold model_apply. destruct v; try discriminate. destruct (s_full _); [|discriminate].
    intro E. cbn [negb] in E. apply bind_ok in E as (mc & _ & E). apply bind_ok in E as (m2 & _ & E).
    destruct (negb _); [discriminate|].
    destruct (s_disc _) as [[|k ks]|].
    - injection E as <- <- <-. split; [apply keeps_dict|]. eauto.
    - destruct (c_name _); [|discriminate]. injection E as <- <- <-. split; [apply keeps_dict|]. eauto.
    - injection E as <- <- <-. split; [apply keeps_dict|]. eauto.
  Qed.
  Lemma date_of_made v x : date_of date_at v = Ok x -> (exists y m d, x = PDate y m d) \/ exists d, x = PDatetime d.
  Proof.
    destruct v; cbn [date_of]; try discriminate; intro E.
    - apply bind_ok in E as ([[y m] d] & _ & E). injection E as <-. eauto.
    - apply bind_ok in E as ([[y m] d] & _ & E). injection E as <-. eauto.
    - injection E as <-. eauto.
    - injection E as <-. eauto.
  Qed.
  Lemma apply_obj_keeps rec r o v c r' v' c' : apply_obj rec r o v c = Ok (r', v', c') ->
    keeps v v' /\ has_apply r' = true /\ (falsy r' = true -> is_null v = false -> is_null v' = false).
  Proof.
    unfold M_Prim.apply_obj. destruct r; try discriminate; intro E.
    - apply bind_ok in E as (? & _ & E). injection E as <- <- <-. split; [apply keeps_null|]. split; [reflexivity|discriminate].
    - apply bind_ok in E as (x & D & E). injection E as <- <- <-. split; [apply keeps_null|].
      apply date_of_made in D as [(? & ? & ? & ->)|(? & ->)]; (split; [reflexivity|discriminate]).
    - apply bind_ok in E as (? & _ & E). injection E as <- <- <-. split; [apply keeps_null|]. split; [reflexivity|discriminate].
    - apply bind_ok in E as (? & _ & E). injection E as <- <- <-. split; [apply keeps_null|]. split; [reflexivity|discriminate].
    - apply bind_ok in E as (f & F & E). injection E as <- <- <-. split; [apply keeps_null|].
      unfold file_of in F. destruct v; try discriminate. destruct (_ && _); [discriminate|]. injection F as <-.
      split; [reflexivity|discriminate].
    - apply bind_ok in E as ([r1 v1] & A & E). injection E as <- <- <-. cbn [fst snd].
      apply array_keeps in A. tauto.
    - apply model_keeps in E as (A & [m' ->] & B). auto.
  Qed.
  Lemma run_2nd_keeps rec f o r v c r' v' c' w : run_2nd rec f o r v c = Ok (r', v', c') ->
    keeps v v' /\ (from w r -> from w r') /\ (falsy r' = true -> is_null v = false -> is_null v' = false).
  Proof.
    unfold M_Prim.run_2nd. destruct f; intro E.
    1-4: apply bind_ok in E as (? & _ & E); injection E as <- <- <-; split; [apply keeps_refl|auto].
    apply apply_obj_keeps in E as (A & B & C). split; [exact A|]. split; [|exact C].
    destruct r'; cbn in B |- *; try discriminate B; auto.
  Qed.
  Lemma apply_more_keeps rec o r v c r' v' c' w : apply_more rec o r v c = Ok (r', v', c') ->
    keeps v v' /\ (from w r -> from w r') /\ (falsy r' = true -> is_null v = false -> is_null v' = false).
  Proof.
    unfold M_Prim.apply_more. destruct (has_apply r).
    - intro E. apply apply_obj_keeps in E as (A & B & C). split; [exact A|]. split; [|exact C].
      destruct r'; cbn in B |- *; try discriminate B; auto.
    - destruct (match c_2nd c with Some f => Some f | None => _ end).
      + intro E. apply bind_ok in E as (? & _ & E). injection E as <- <- <-. split; [apply keeps_refl|auto].
      + intro E. injection E as <- <- <-. split; [apply keeps_refl|auto].
  Qed.
  Lemma create_from cr s v r : create cr s v = Ok r -> from v r.
  Proof.
    destruct cr as [| | | |[]]; intro E; try (now injection E as <-).
    - apply create_int in E as (z & A & -> & _). exact A.
    - apply create_float in E as (z & A & -> & _). exact A.
    - apply create_str in E as (-> & _). exact I.
  Qed.
  Lemma start_keeps rec o v c r v' c' : start rec o v c = Ok (r, v', c') -> is_null v = false ->
    keeps v v' /\ from v r /\ (falsy r = true -> is_null v' = false).
  Proof.
    unfold M_Prim.start. intros E N. destruct (s_type (sch h o)) as [[|a ty]|].
    2: { destruct (get _ _) as [[cr|] f]; [|discriminate].
         apply bind_ok in E as (r0 & A & E). apply create_from in A.
         destruct f as [f|]; [|injection E as <- <- <-; split; [apply keeps_refl|auto]].
         apply bind_ok in E as ([[r1 v1] c1] & B & E). apply (run_2nd_keeps _ _ _ _ _ _ _ _ _ v) in B.
         injection E as <- <- <-. tauto. }
    all: destruct (s_full _); [|discriminate]; cbn [negb] in E; destruct (_ || _) in E.
    1,3: apply model_keeps in E as (A & [m' ->] & B); cbn; tauto.
    all: injection E as <- <- <-; split; [apply keeps_refl|]; cbn; auto.
  Qed.

  (** ** A true primitive stays true, and keeps its class *)
  Lemma sset_nonempty {A} k (x : A) m : nonempty (sset k x m) = true.
  Proof. destruct m as [|[k' y] m]; cbn; [reflexivity|]. destruct (str_eqb _ _); reflexivity. Qed.
  Lemma model_given_nonempty rec o : forall d m c m' c', model_given h rec o d m c = Ok (m', c') ->
    nonempty m = true -> nonempty m' = true.
  Proof.
    induction d as [|[k v] d IH]; intros m c m' c' E N; cbn [model_given] in E.
    - now injection E as <- <-.
    - destruct (sget k _).
      + destruct (_ && _); [discriminate|]. apply bind_ok in E as (r & _ & E).
        eapply IH; [exact E|apply sset_nonempty].
      + destruct (s_addp _) as [|[]|]; eapply IH; eauto.
  Qed.
  Lemma model_defaults_nonempty rec : forall ps m m', model_defaults h rec ps m = Ok m' ->
    nonempty m = true -> nonempty m' = true.
  Proof.
    induction ps as [|[k p] ps IH]; intros m m' E N; cbn [model_defaults] in E.
    - now injection E as <-.
    - destruct (_ && _); [|eauto]. apply bind_ok in E as (r & _ & E).
      eapply IH; [exact E|apply sset_nonempty].
  Qed.
  Lemma model_apply_truthy rec o m v c r v' c' : model_apply h rec o m v c = Ok (r, v', c') ->
    nonempty m = true -> falsy r = false.
  Proof.
    unfold model_apply. destruct v; try discriminate. destruct (s_full _); [|discriminate].
    intros E N. cbn [negb] in E. apply bind_ok in E as ([m1 c1] & A & E). apply bind_ok in E as (m2 & B & E).
    apply model_given_nonempty in A; [|exact N]. apply model_defaults_nonempty in B; [|exact A].
    destruct (negb (forallb _ _)); [discriminate|].
    destruct (s_disc _) as [[|k ks]|].
    - injection E as <- <- <-. cbn. now rewrite B.
    - destruct (c_name _); [|discriminate]. injection E as <- <- <-. cbn [falsy]. now rewrite sset_nonempty.
    - injection E as <- <- <-. cbn. now rewrite B.
  Qed.
  Lemma apply_obj_truthy rec r o v c r' v' c' : apply_obj rec r o v c = Ok (r', v', c') ->
    falsy r = false -> falsy r' = false.
  Proof.
    unfold M_Prim.apply_obj. destruct r; try discriminate; intros E F.
    - apply bind_ok in E as (? & _ & E). now injection E as <- <- <-.
    - apply bind_ok in E as (x & D & E). injection E as <- <- <-.
      now apply date_of_made in D as [(? & ? & ? & ->)|(? & ->)].
    - apply bind_ok in E as (? & _ & E). now injection E as <- <- <-.
    - apply bind_ok in E as (? & _ & E). now injection E as <- <- <-.
    - apply bind_ok in E as (f & G & E). injection E as <- <- <-.
      unfold file_of in G. destruct v; try discriminate. destruct (_ && _); [discriminate|]. now injection G as <-.
    - apply bind_ok in E as ([r1 v1] & A & E). injection E as <- <- <-. cbn [fst].
      unfold array_apply in A. apply bind_ok in A as (v2 & _ & A).
      apply bind_ok in A as (v3 & _ & A). apply bind_ok in A as (lv & C & A).
      apply bind_ok in A as (? & _ & A). apply bind_ok in A as (? & _ & A). injection A as <- <-.
      cbn [falsy] in *. destruct l as [|p l]; [discriminate F|].
      destruct (s_items _).
      + destruct (elements v3) as [[|e es]|]; [|..|discriminate].
        * now injection C as <-.
        * apply bind_ok in C as (rs & _ & C). now injection C as <-.
      + now injection C as <-.
    - eapply model_apply_truthy; [exact E|]. cbn in F. now apply Bool.negb_false_iff in F.
  Qed.
  Lemma apply_more_truthy rec o r v c r' v' c' : apply_more rec o r v c = Ok (r', v', c') ->
    falsy r = false -> falsy r' = false.
  Proof.
    unfold M_Prim.apply_more. destruct (has_apply r).
    - apply apply_obj_truthy.
    - destruct (match c_2nd c with Some f => Some f | None => _ end); intros E F.
      + apply bind_ok in E as (? & _ & E). now injection E as <- <- <-.
      + now injection E as <- <- <-.
  Qed.

  Lemma all_of_keeps rec w :
    (forall o v c r c', rec o v c = Ok (r, c') -> is_null v = false -> from v r) ->
    forall l r v c na r' v' c' na', all_of rec l r v c na = Ok (r', v', c', na') ->
    keeps w v -> from w r -> (falsy r = true -> is_null v = false) ->
    keeps w v' /\ from w r' /\ (falsy r' = true -> is_null v' = false).
  Proof.
    intros R. induction l as [|a l IH]; intros r v c na r' v' c' na' E K F N; cbn [M_Prim.all_of] in E.
    - injection E as <- <- <- <-. auto.
    - apply bind_ok in E as (a' & _ & E). apply bind_ok in E as ([[r1 v1] c1] & A & E).
      destruct (falsy r) eqn:FR.
      + apply bind_ok in A as ([r2 c2] & A & B). injection B as <- <- <-. cbn [fst snd] in *.
        apply R in A; [|auto]. eapply IH; [exact E|exact K| |auto].
        destruct r2; cbn in A |- *; auto; now apply K.
      + pose proof (apply_more_truthy _ _ _ _ _ _ _ _ A FR) as T1.
        apply (apply_more_keeps _ _ _ _ _ _ _ _ w) in A as (A1 & A2 & A3).
        eapply IH; [exact E|eapply keeps_trans; eauto|auto|congruence].
  Qed.
  Lemma cleanup_model rec m v c r c' : cleanup h rec m v c = Ok (r, c') -> exists m', r = PModel m'.
  Proof.
    unfold cleanup. destruct (c_addp _).
    - destruct v; try discriminate. intro E. injection E as <- <-. eauto.
    - destruct (c_addps _) as [o|]; [|intro E; injection E as <- <-; eauto].
      destruct v; try discriminate. destruct (s_addp (sch h o)); try discriminate.
      intro E. apply bind_ok in E as (? & _ & E). injection E as <- <-. eauto.
  Qed.
  Lemma apply_rest_from rec w : forall l r v c r' v' c', apply_rest rec l r v c = Ok (r', v', c') ->
    from w r -> from w r'.
  Proof.
    induction l as [|a l IH]; intros r v c r' v' c' E F; cbn [M_Prim.apply_rest] in E.
    - now injection E as <- <- <-.
    - apply bind_ok in E as ([[r1 v1] c1] & A & E).
      apply (apply_more_keeps _ _ _ _ _ _ _ _ w) in A as (_ & A2 & _). eauto.
  Qed.
  Lemma produce_from : forall n o v c r c', produce n o v c = Ok (r, c') -> is_null (effective h o v) = false ->
    from (effective h o v) r.
  Proof.
    induction n as [|n IH]; intros o v c r c' E N; [discriminate E|].
    apply produce_inv in E as [(X & _)|(_ & t & r0 & v0 & c0 & T & G & A & B)]; [congruence|].
    apply start_keeps in A as (A1 & A2 & A3); [|exact N].
    unfold M_Prim.finish in B. destruct (final_kind r0); [now injection B as <- <-|].
    apply bind_ok in B as ([[r1 v1] c1] & B & C).
    assert (F : from (effective h o v) r1).
    { destruct (s_full _); [|now injection B as <- <- <-].
      apply bind_ok in B as ([[[r2 v2] c2] na] & B & D).
      apply (all_of_keeps _ (effective h o v)) in B as (_ & B & _); auto.
      - destruct (falsy r2); [now injection D as <- <- <-|]. eapply apply_rest_from; eauto.
      - intros o' v' c'' r' c3 R NV. replace v' with (effective h o' v') by (destruct v'; now try discriminate NV).
        eapply IH; eauto. destruct v'; now try discriminate NV. }
    destruct r1; try now injection C as <- <-.
    apply cleanup_model in C as [m' ->]. exact I.
  Qed.

  (** So the schema's own bounds hold of the result, whatever allOf did. *)
  Lemma integer_own n o t v c z c' : target h o t -> integer_kind (sch h t) ->
    produce n o v c = Ok (PInt z, c') -> within (sch h t) (inject_Z z).
  Proof.
    intros T K E. destruct n as [|n]; [discriminate E|]. pose proof E as E0.
    apply produce_inv in E as [(X & X' & _)|(N & t' & r0 & v0 & c0 & T' & G & A & B)]; [discriminate X'|].
    assert (t' = t) as ->.
    { apply deref_target in T, T'. congruence. }
    apply produce_from in E0; [|exact N]. cbn [from] in E0.
    apply (start_leaf _ t CrInt S2Int) in A as (r1 & A & _ & X); try exact I.
    - apply create_int in A as (z' & A & _ & W). congruence.
    - now apply get_integer.
    - destruct K as [K|[K _]]; eapply typed_ok; eauto; discriminate.
    - destruct K as [K|[K _]]; eapply typed_ok; eauto; discriminate.
  Qed.
  Lemma number_own n o t v c q c' : target h o t -> number_kind (sch h t) ->
    produce n o v c = Ok (PFloat q, c') -> within (sch h t) q /\ multiple (sch h t) q.
  Proof.
    intros T K E. destruct n as [|n]; [discriminate E|]. pose proof E as E0.
    apply produce_inv in E as [(X & X' & _)|(N & t' & r0 & v0 & c0 & T' & G & A & B)]; [discriminate X'|].
    assert (t' = t) as ->.
    { apply deref_target in T, T'. congruence. }
    apply produce_from in E0; [|exact N]. cbn [from] in E0.
    apply (start_leaf _ t CrFloat S2Float) in A as (r1 & A & _ & X); try exact I.
    - apply create_float in A as (z' & A & _ & W). rewrite E0 in A. injection A as ->. exact W.
    - now apply get_number.
    - destruct K as [K _]; eapply typed_ok; eauto; discriminate.
    - destruct K as [K _]; eapply typed_ok; eauto; discriminate.
  Qed.

  (** ** A schema without type takes its kind from a member without allOf of its own *)
  Definition kind_2nd (r : prim) (f : second) : Prop :=
    match r, f with PInt _, S2Int | PFloat _, S2Float | PStr _, S2Str | PStr _, S2Email => True | _, _ => False end.
  Definition numtext (r : prim) : Prop := match r with PInt _ | PFloat _ | PStr _ => True | _ => False end.
  Lemma get_second ty fmt cr f : get ty fmt = (Some cr, f) ->
    match cr with
    | CrInt => f = Some S2Int | CrFloat => f = Some S2Float
    | CrStr => f = Some S2Str \/ f = Some S2Email /\ fmt = Some (lit "email")
    | CrBool => f = None | CrObj _ => f = Some S2Obj end.
  Proof.
    unfold get. destruct ty as [ty|]; [|discriminate].
    repeat match goal with
           | |- (if ?b then _ else _) = _ -> _ => let E := fresh "E" in destruct b eqn:E
           end; intro X; try discriminate X; injection X as <- <-; auto.
    right. split; [reflexivity|].
    match goal with H : str_eqb _ (lit "email") = true |- _ => apply str_eqb_eq in H; destruct fmt; [now subst|discriminate H] end.
  Qed.
  (** what a first object that is a number or text has passed *)
  Lemma start_numtext rec o v c r v' c' : start rec o v c = Ok (r, v', c') -> numtext r ->
    exists f, c_2nd c' = Some f /\ kind_2nd r f /\ V f (sch h o) r /\
      (f = S2Email -> s_format (sch h o) = Some (lit "email")).
  Proof.
    unfold M_Prim.start. intros E N. destruct (s_type (sch h o)) as [[|a ty]|] eqn:TY.
    2: { destruct (get _ _) as [[cr|] f] eqn:GE; [|discriminate].
         apply bind_ok in E as (r0 & A & E). apply get_second in GE.
         destruct f as [f|].
         - apply bind_ok in E as ([[r1 v1] c1] & B & E). injection E as -> -> <-.
           destruct cr.
           + injection GE as ->. apply create_int in A as (z & A & -> & W).
             apply run_2nd_leaf in B as (-> & -> & -> & B); [|reflexivity].
             exists S2Int. cbn. repeat split; auto. discriminate.
           + injection GE as ->. apply create_float in A as (z & A & -> & W).
             apply run_2nd_leaf in B as (-> & -> & -> & B); [|reflexivity].
             exists S2Float. cbn. repeat split; auto. discriminate.
           + apply create_str in A as (-> & W).
             apply run_2nd_leaf in B as (-> & -> & -> & B); [|reflexivity]. exists f.
             split; [reflexivity|]. destruct GE as [GE|[GE GE']]; injection GE as ->; cbn; repeat split; auto.
             discriminate.
           + discriminate GE.
           + injection GE as ->. exfalso. unfold M_Prim.run_2nd in B.
             apply apply_obj_keeps in B as (_ & B & _). destruct r; try contradiction; discriminate B.
         - injection E as -> -> ->. destruct cr; try discriminate GE.
           + exfalso. destruct GE as [GE|[GE _]]; discriminate GE.
           + injection A as <-. contradiction. }
    all: destruct (s_full _); [|discriminate]; cbn [negb] in E; destruct (_ || _) in E.
    1,3: apply model_keeps in E as (_ & [m' ->] & _); contradiction.
    all: injection E as <- <- <-; contradiction.
  Qed.
  Definition flat (o : nat) : Prop := members (sch h o) = [].
  Lemma finish_flat rec s r v c r' c' : members s = [] -> finish rec s r v c = Ok (r', c') -> numtext r' ->
    r' = r /\ c' = c.
  Proof.
    unfold M_Prim.finish, members. intros M E N.
    destruct (final_kind r); [now injection E as <- <-|]. apply bind_ok in E as ([[r1 v1] c1] & A & E).
    assert (X : r1 = r /\ c1 = c).
    { destruct (s_full s); [|now injection A as <- <- <-]. rewrite M in A. cbn in A.
      destruct (falsy r); now injection A as <- <- <-. }
    destruct X as [-> ->].
    destruct r; try now injection E as <- <-.
    apply cleanup_model in E as [m' ->]. contradiction.
  Qed.

  Lemma numtext_leaf r : numtext r -> leaf r.
  Proof. destruct r; now try contradiction. Qed.
  Lemma apply_more_class rec o r v c r' v' c' : apply_more rec o r v c = Ok (r', v', c') -> numtext r' -> r' = r.
  Proof.
    intros E N. unfold M_Prim.apply_more in E. destruct (has_apply r) eqn:H.
    - exfalso. apply apply_obj_keeps in E as (_ & E & _). destruct r'; try contradiction; discriminate E.
    - destruct (match c_2nd c with Some f => Some f | None => _ end).
      + apply bind_ok in E as (? & _ & E). now injection E as <- _ _.
      + now injection E as <- _ _.
  Qed.
  Lemma all_of_class rec : forall l r v c na r' v' c' na', all_of rec l r v c na = Ok (r', v', c', na') ->
    falsy r = false -> numtext r' -> r' = r.
  Proof.
    induction l as [|a l IH]; intros r v c na r' v' c' na' E F N; cbn [M_Prim.all_of] in E.
    - now injection E as <- _ _ _.
    - apply bind_ok in E as (a' & _ & E). apply bind_ok in E as ([[r1 v1] c1] & A & E).
      rewrite F in A. pose proof (apply_more_truthy _ _ _ _ _ _ _ _ A F) as F1.
      pose proof (IH _ _ _ _ _ _ _ _ E F1 N) as ->. now apply apply_more_class in A.
  Qed.
  Lemma produce_flat n a v c r c' : s_ref (sch h a) = None -> flat a ->
    produce n a v c = Ok (r, c') -> numtext r ->
    exists f, c_2nd c' = Some f /\ kind_2nd r f /\ V f (sch h a) r /\
      (f = S2Email -> s_format (sch h a) = Some (lit "email")).
  Proof.
    intros R FL E N. destruct n as [|n]; [discriminate|].
    apply produce_inv in E as [(_ & -> & _)|(_ & t & r0 & v0 & c0 & T & _ & A & B)]; [contradiction|].
    assert (t = a) as ->. { destruct T as [T _]. inversion T; subst; [reflexivity|congruence]. }
    apply finish_flat in B as [-> ->]; auto. now apply start_numtext in A.
  Qed.
  Lemma all_of_numtext n : forall l,
    (forall a a', In a l -> target h a a' -> flat a') ->
    forall r v c na r' v' c' na', all_of (produce n) l r v c na = Ok (r', v', c', na') ->
    numtext r' -> falsy r' = false -> falsy r = true ->
    exists f, c_2nd c' = Some f /\ kind_2nd r' f /\ incl na na' /\
      (f = S2Email -> exists a a', In a l /\ target h a a' /\ s_format (sch h a') = Some (lit "email")) /\
      (forall a, In a l -> exists a', target h a a' /\ (V f (sch h a') r' \/ In a' na')).
  Proof.
    induction l as [|a l IH]; intros FL r v c na r' v' c' na' E N F' F; cbn [M_Prim.all_of] in E.
    - injection E as <- <- <- <-. congruence.
    - apply bind_ok in E as (a' & D & E). apply deref_target in D.
      apply bind_ok in E as ([[r1 v1] c1] & A & E).
      rewrite F in A. apply bind_ok in A as ([r2 c2] & A & B). injection B as <- <- <-. cbn [fst snd] in *.
      destruct (falsy r2) eqn:F2.
      + apply IH in E as (f & E1 & E2 & E3 & E4 & E5); auto.
        * exists f. split; [exact E1|]. split; [exact E2|]. split; [intros x I; apply E3, in_or_app; now left|].
          split.
          -- intro X. destruct (E4 X) as (b & b' & I & Y). exists b, b'. split; [now right|exact Y].
          -- intros b [<-|I]; [|auto]. exists a'. split; [exact D|]. right. apply E3, in_or_app. right. now left.
        * intros b b' I. apply FL. now right.
      + pose proof (all_of_class _ _ _ _ _ _ _ _ _ _ E F2 N) as ->.
        apply produce_flat in A as (f & A1 & A2 & A3 & A4); auto.
        * apply (all_of_leaf _ f) in E as [E V1]; auto using numtext_leaf. injection E as <- <- <-.
          exists f. split; [exact A1|]. split; [exact A2|]. split; [intros x I; exact I|]. split.
          -- intro X. exists a, a'. split; [now left|]. split; [exact D|auto].
          -- intros b [<-|I]; [eauto|]. destruct (V1 b I) as (b' & X & Y). eauto.
        * apply D.
        * eapply FL; [now left|exact D].
  Qed.
  Lemma apply_rest_leaf rec f r v c : leaf r -> c_2nd c = Some f -> forall l x,
    apply_rest rec l r v c = Ok x -> x = (r, v, c) /\ forall a, In a l -> V f (sch h a) r.
  Proof.
    intros L C. induction l as [|a l IH]; intros x E; cbn [M_Prim.apply_rest] in E.
    - injection E as <-. split; [reflexivity|intros ? []].
    - apply bind_ok in E as (y & A & E). apply (apply_more_leaf rec f) in A as [-> A]; auto.
      apply IH in E as [-> E]. split; [reflexivity|]. intros b [<-|I]; auto.
  Qed.
  Lemma apply_rest_class rec : forall l r v c r' v' c', apply_rest rec l r v c = Ok (r', v', c') ->
    numtext r' -> r' = r.
  Proof.
    induction l as [|a l IH]; intros r v c r' v' c' E N; cbn [M_Prim.apply_rest] in E.
    - now injection E as <- _ _.
    - apply bind_ok in E as ([[r1 v1] c1] & A & E). apply IH in E; [|exact N]. subst. now apply apply_more_class in A.
  Qed.
  Lemma untyped_members n o t v c r c' : target h o t ->
    (s_type (sch h t) = None \/ s_type (sch h t) = Some []) ->
    each_member h (sch h t) (fun a => members a = []) ->
    produce n o v c = Ok (r, c') -> numtext r -> falsy r = false ->
    exists f, kind_2nd r f /\
      (f = S2Email -> exists a a', In a (members (sch h t)) /\ target h a a' /\ s_format (sch h a') = Some (lit "email")) /\
      each_member h (sch h t) (fun a => V f a r).
  Proof.
    intros T TY FL E N F. destruct n as [|n]; [discriminate|].
    apply produce_inv in E as [(_ & -> & _)|(_ & t' & r0 & v0 & c0 & T' & _ & A & B)]; [contradiction|].
    assert (t' = t) as ->. { apply deref_target in T, T'. congruence. }
    assert (F0 : (r0 = PNone \/ exists m, r0 = PModel m)).
    { unfold M_Prim.start in A. destruct TY as [TY|TY]; rewrite TY in A;
      (destruct (s_full _); [|discriminate]; cbn [negb] in A; destruct (_ || _) in A;
       [right; apply model_keeps in A as (_ & A & _); exact A|left; now injection A as <- _ _]). }
    unfold M_Prim.finish in B. destruct (final_kind r0) eqn:FK.
    { injection B as -> ->. destruct F0 as [->|[m ->]]; discriminate FK. }
    apply bind_ok in B as ([[r1 v1] c1] & B & C).
    assert (r1 = r /\ c1 = c') as [-> ->].
    { destruct r1; try (injection C as <- <-; auto). apply cleanup_model in C as [m' ->]. contradiction. }
    unfold each_member, members in *. destruct (s_full (sch h t)).
    - apply bind_ok in B as ([[[r2 v2] c2] na] & B & D).
      destruct (falsy r2) eqn:F2.
      { injection D as <- _ _. congruence. }
      pose proof (apply_rest_class _ _ _ _ _ _ _ _ D N) as ->.
      assert (FR : falsy r0 = true).
      { destruct (falsy r0) eqn:FR; [reflexivity|]. pose proof (all_of_class _ _ _ _ _ _ _ _ _ _ B FR N) as ->.
        destruct F0 as [->|[m ->]]; contradiction. }
      apply all_of_numtext in B as (f & B1 & B2 & B3 & B4 & B5); auto.
      + apply (apply_rest_leaf _ f) in D as [_ D]; auto using numtext_leaf.
        exists f. split; [exact B2|]. split; [exact B4|].
        intros a I. destruct (B5 a I) as (a' & X & [Y|Y]); exists a'; auto.
      + intros a a' I X. destruct (FL a I) as (a2 & Y & Z). apply deref_target in X, Y.
        assert (a2 = a') as -> by congruence. exact Z.
    - injection B as <- <- <-. exfalso. destruct F0 as [->|[m ->]]; contradiction.
  Qed.

  Lemma email_iff n o t v c r c' : target h o t -> ~ In t (c_guard c) -> typed (sch h t) "string" ->
    format_in (sch h t) ["email"%string] ->
    is_null (effective h o v) = false -> to_str_v (effective h o v) <> [] ->
    produce (S n) o v c = Ok (r, c') <->
    c' = set_2nd (Some S2Email) (ctx1 t c) /\
    r = PStr (to_str_v (effective h o v)) /\ text_ok (sch h t) (to_str_v (effective h o v)) /\
    email_ok (to_str_v (effective h o v)) = true /\
    each_member h (sch h t) (fun _ => True).
  Proof.
    intros T G K KF N Z0. rewrite (produce_some n o t v c T N G). rewrite bind_ok. fold (ctx1 t c).
    set (w := to_str_v (effective h o v)) in *.
    assert (GI : get (s_type (sch h t)) (s_format (sch h t)) = (Some CrStr, Some S2Email)).
    { rewrite K. destruct KF as (f & [<-|[]] & ->). reflexivity. }
    assert (TY : s_type (sch h t) <> Some [] /\ s_type (sch h t) <> None).
    { eapply typed_ok; eauto; discriminate. }
    assert (F : falsy (PStr w) = false). { cbn. destruct w; [contradiction|reflexivity]. }
    assert (VW : forall s, V S2Email s (PStr w) <-> email_ok w = true).
    { intros. cbn. destruct (email_ok w); split; congruence. }
    split.
    - intros ([[r0 v0] c0] & A & B).
      apply (start_leaf _ t CrStr S2Email) in A as (r1 & A & A2 & E); auto; try (tauto || exact I).
      injection E as -> -> ->. apply create_str in A as (-> & W). fold w in W, B, A2.
      apply (finish_leaf _ S2Email) in B as [E B]; auto; try reflexivity. injection E as -> ->.
      split; [reflexivity|]. split; [reflexivity|]. split; [exact W|]. split; [now apply VW in A2|].
      intros a I. destruct (B a I) as (a' & X & Y). eauto.
    - intros (-> & -> & W & EO & E).
      exists (PStr w, effective h o v, set_2nd (Some S2Email) (ctx1 t c)). split.
      + apply (start_leaf _ t CrStr S2Email); auto; try (tauto || exact I). exists (PStr w).
        split; [apply create_str; auto|]. split; [now apply VW|reflexivity].
      + apply (finish_leaf _ S2Email); auto; try reflexivity. split; [reflexivity|].
        intros a I. destruct (E a I) as (a' & X & Y). exists a'. split; [exact X|]. now apply VW.
  Qed.
End Leaf.
