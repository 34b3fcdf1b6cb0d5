(** C34 and C36: parsing and dumping Swagger 2.0 documents. *)
From Coq Require Import Lia.
From Verif Require Import PyBase PyFacts PyJson P_Op M_SpecVal M_Parse S_Parse P_SpecBase P_Parse P_Dump.
Close Scope Q_scope.

(** ** C36 *)
(** Exactly the documents of the right shape are parsed; the others raise. *)
Theorem c36_accepted : forall c pl j, (exists v, parse c pl j = Ok v) <-> accepted c j.
Proof. intros. apply (parse_accepted (S (jdepth j))). lia. Qed.
Theorem c36_refused : forall c pl j, ~ accepted c j ->
  parse c pl j = Err ValueError \/ parse c pl j = Err TypeError \/ parse c pl j = Err AttributeError.
Proof.
  intros c pl j N. destruct (parse c pl j) as [v|e] eqn:E.
  - exfalso. apply N. apply (c36_accepted c pl). eauto.
  - apply (parse_exns (S (jdepth j))) in E; [|lia]. destruct E as [->|[->| ->]]; auto.
Qed.
(** A field that holds no object has the document's value, or its default. *)
Theorem c36_plain_field : forall c pl d h fs ints n df,
  parse (Of c) pl (JObj d) = Ok (VObj h fs ints) -> sget n (t_fields c) = Some df -> sget n (t_child c) = None ->
  sget n fs = Some (inject (match sget n d with Some v => v | None => df end)).
Proof.
  intros c pl d h fs ints n df E F T. apply parse_obj in E as (kids & fs' & _ & X & R). injection X as -> -> ->.
  destruct (drel_get_l _ _ _ _ _ R F) as (x & G & (y & GA & ->)). rewrite G. unfold gathered in GA. rewrite T in GA |- *. now rewrite GA.
Qed.
(** A field for one object holds the object parsed from the document's value. *)
Theorem c36_one_child : forall c pl d h fs ints n cc,
  parse (Of c) pl (JObj d) = Ok (VObj h fs ints) -> sget n (t_child c) = Some (One, cc) ->
  match sget n d with
  | None => exists df, sget n (t_fields c) = Some df /\ sget n fs = Some (inject df)
  | Some JNull => sget n fs = Some VNone
  | Some v => exists x, parse cc (pl ++ [n]) v = Ok x /\ sget n fs = Some (set_parent pl x)
  end.
Proof.
  intros c pl d h fs ints n cc E T. apply parse_obj in E as (kids & fs' & _ & X & R). injection X as -> -> ->.
  destruct (child_field _ _ _ T) as (df & F). destruct (drel_get_l _ _ _ _ _ R F) as (x & G & (y & GA & ->)).
  rewrite T in G. unfold gathered in GA. rewrite T in GA. destruct (sget n d) as [v|].
  - assert (Y : parse cc (pl ++ [n]) v = Ok y -> own pl y = set_parent pl y).
    { intro P. apply parse_produced in P. destruct y; try reflexivity; destruct cc; discriminate P. }
    destruct v; try (exists y; cbn [parse_child] in GA; split; [exact GA|]; now rewrite <- Y). subst y. exact G.
  - exists df. split; [exact F|]. subst y. rewrite own_inject_eq in G. exact G.
Qed.
(** A field for a list of objects holds the objects parsed from the elements, in order;
    nothing given, or null, is an empty list. *)
Theorem c36_list_child : forall c pl d h fs ints n cc,
  parse (Of c) pl (JObj d) = Ok (VObj h fs ints) -> sget n (t_child c) = Some (ListOf, cc) ->
  exists l, sget n fs = Some (VList l) /\
    match sget n d with
    | Some (JList m) => length l = length m /\
        forall i x, nth_error l i = Some x -> exists y v, nth_error m i = Some v /\
          parse cc (pl ++ [n; str_of_nat i]) v = Ok y /\ x = set_parent pl y
    | _ => l = []
    end.
Proof.
  intros c pl d h fs ints n cc E T. apply parse_obj in E as (kids & fs' & _ & X & R). injection X as -> -> ->.
  destruct (child_field _ _ _ T) as (df & F). destruct (drel_get_l _ _ _ _ _ R F) as (x & G & (y & GA & ->)).
  rewrite T in G. unfold gathered in GA. rewrite T in GA.
  destruct (sget n d) as [v|]; [|subst y; cbn in G; eauto]. destruct v as [| | | |s|m|e]; try discriminate GA.
  - subst y. cbn in G. eauto.
  - destruct s; [|exfalso; eapply parse_child_list_text; [|exact GA]; discriminate]. injection GA as <-. cbn in G. eauto.
  - cbn [parse_child iter_json bind] in GA. apply bind_ok in GA as (l & M & GA). injection GA as <-. apply mapi_res_ok in M.
    eexists. split; [exact G|]. split.
    + rewrite map_length. clear - M. revert M. generalize 0. revert l. induction m as [|w m IH]; intros [|z l] i M; try (destruct M; fail); [reflexivity|].
      destruct M as (_ & M). cbn. f_equal. eauto.
    + intros i x N. rewrite nth_error_map in N. destruct (nth_error l i) as [z|] eqn:Z; [|discriminate N]. injection N as <-.
      destruct (irel_nth _ _ _ _ M _ _ Z) as (w & W & P). cbn [Nat.add] in P. rewrite <- app_assoc in P. cbn [app] in P. eauto.
  - destruct e; [|exfalso; eapply parse_child_list_obj; [|exact GA]; discriminate]. injection GA as <-. cbn in G. eauto.
Qed.
(** A field for a dictionary of objects holds the objects parsed from the values, under
    the same keys; nothing given, or null, is an empty dictionary. *)
Theorem c36_dict_child : forall c pl d h fs ints n cc,
  parse (Of c) pl (JObj d) = Ok (VObj h fs ints) -> sget n (t_child c) = Some (DictOf, cc) ->
  exists l, sget n fs = Some (VDict l) /\
    match sget n d with
    | Some (JObj m) => map fst l = map fst m /\
        forall k x, sget k l = Some x -> exists y v, sget k m = Some v /\ parse cc (pl ++ [n; k]) v = Ok y /\ x = set_parent pl y
    | _ => l = []
    end.
Proof.
  intros c pl d h fs ints n cc E T. apply parse_obj in E as (kids & fs' & _ & X & R). injection X as -> -> ->.
  destruct (child_field _ _ _ T) as (df & F). destruct (drel_get_l _ _ _ _ _ R F) as (x & G & (y & GA & ->)).
  rewrite T in G. unfold gathered in GA. rewrite T in GA.
  destruct (sget n d) as [v|]; [|subst y; cbn in G; eauto]. destruct v as [| | | |s|m|e]; try discriminate GA.
  - subst y. cbn in G. eauto.
  - cbn [parse_child] in GA. apply bind_ok in GA as (l & M & GA). injection GA as <-.
    rewrite (map_res_dict (fun k x => parse cc ((pl ++ [n]) ++ [k]) x)) in M.
    eexists. split; [exact G|]. split.
    + rewrite (map_fst_map (fun _ => set_parent pl)). symmetry. apply (drel_keys _ _ _ M).
    + intros k x N. rewrite sget_map in N. destruct (sget k l) as [z|] eqn:Z; [|discriminate N]. injection N as <-.
      destruct (drel_get_r _ _ _ _ _ M Z) as (w & W & P). cbv beta in P. rewrite <- app_assoc in P. cbn [app] in P. eauto.
Qed.
(** [is_set]: the keys of the document, and the fields for lists and dictionaries of objects. *)
Theorem c36_is_set : forall c pl d h fs ints k,
  parse (Of c) pl (JObj d) = Ok (VObj h fs ints) ->
  is_set h k = true <-> In k (map fst d) \/ exists cc, sget k (t_child c) = Some (ListOf, cc) \/ sget k (t_child c) = Some (DictOf, cc).
Proof.
  intros c pl d h fs ints k E. apply parse_obj in E as (kids & fs' & K & X & R). injection X as -> -> ->.
  unfold is_set. cbn [h_keys]. rewrite mem_In. eapply keys_of; eauto.
Qed.
(** Every object inside a parsed document sits at its own place, and its parent is the
    object that holds it. *)
Theorem c36_parents : forall c pl j v ts o, parse c pl j = Ok v -> reach [] v ts o -> is_obj o ->
  place_of o = Some (pl ++ ts) /\ forall o', holds o o' -> parent_of o' = place_of o.
Proof. intros c pl j v ts o E R IO. exact (parse_good (S (jdepth j)) c pl j v ltac:(lia) E ts o R IO). Qed.
(** The outermost object has no parent. *)
Theorem c36_no_parent : forall c pl j v, parse c pl j = Ok v -> parent_of v = None.
Proof.
  intros [c|] pl j v E.
  - apply parse_shape in E as (ks & fs & ints & ->). reflexivity.
  - apply parse_addp_shape in E as [(b & ->)|(ks & fs & ints & ->)]; reflexivity.
Qed.
Print Assumptions c36_accepted.
Print Assumptions c36_refused.
Print Assumptions c36_plain_field.
Print Assumptions c36_one_child.
Print Assumptions c36_list_child.
Print Assumptions c36_dict_child.
Print Assumptions c36_is_set.
Print Assumptions c36_parents.
Print Assumptions c36_no_parent.

(** ** C34 *)
(** The dump holds exactly what is kept of the document. *)
Theorem c34_kept : forall c pl j v r, parse c pl j = Ok v -> dump_val v = Ok r -> kept c j r.
Proof. intros c pl j v r. apply (dump_kept (S (jdepth j))). lia. Qed.
(** A document that says nothing superfluous comes back as it was. *)
Theorem c34_exact : forall c pl j, tidy c j ->
  exists v r, parse c pl j = Ok v /\ dump_val v = Ok r /\ jsame r j.
Proof.
  intros c pl j T. destruct (tidy_dumps (S (jdepth j)) c pl j ltac:(lia) T) as (v & r & P & D).
  exists v, r. split; [exact P|]. split; [exact D|].
  apply (kept_tidy (S (jdepth j)) c j r); [lia|exact T|]. eapply c34_kept; eauto.
Qed.
Print Assumptions c34_kept.
Print Assumptions c34_exact.

(** ** Concrete cases *)
Definition s (x : string) : json := JStr (lit x).
Definition pet : json := JObj
  [(lit "type", s "object"); (lit "required", JList [s "id"]);
   (lit "properties", JObj [(lit "id", JObj [(lit "type", s "integer")]);
                            (lit "tags", JObj [(lit "items", JObj [(lit "type", s "string")]); (lit "type", s "array")])]);
   (lit "additionalProperties", JObj [(lit "type", s "string"); (lit "maxLength", JInt 3)])].
Definition doc : json := JObj
  [(lit "swagger", s "2.0");
   (lit "info", JObj [(lit "title", s "t"); (lit "version", s "1")]);
   (lit "paths", JObj [(lit "/pets/{id}", JObj
      [(lit "get", JObj [(lit "operationId", s "getPet");
         (lit "parameters", JList [JObj [(lit "in", s "path"); (lit "name", s "id"); (lit "required", JBool true); (lit "type", s "integer")]]);
         (lit "responses", JObj [(lit "200", JObj [(lit "schema", JObj [(lit "$ref", s "#/definitions/Pet")])])])])])]);
   (lit "definitions", JObj [(lit "Pet", pet)])].
Ltac nd := repeat (constructor; [cbn; intuition discriminate|]); constructor.
Ltac ne := discriminate.
Ltac byget := let k := fresh "k" in let v := fresh "v" in let G := fresh "G" in let Q := fresh "Q" in
  intros k v;
  repeat (rewrite sget_cons; destruct (str_eqb k _) eqn:Q; [apply str_eqb_eq in Q; subst k; intro G; injection G as <-|clear Q]);
  try (intro G; discriminate G).
Ltac tid := lazymatch goal with
  | |- tidy (Of _) (JObj _) => apply tidy_obj; [ne|nd|byget; eexists; split; vm_compute; reflexivity
        |byget; vm_compute; (let T := fresh in intro T; try discriminate T; clear T); tid
        |(let k := fresh in let v := fresh in intros k v ? ?; revert k v); byget; vm_compute; (let T := fresh in intro T; try discriminate T; injection T as <- <-); tid]
  | |- tidy AddP (JObj _) => apply tidy_addp; tid
  | |- tidy AddP (JBool _) => apply tidy_bool
  | |- tidy_in One _ _ => apply tidy_one; tid
  | |- tidy_in ListOf _ _ => apply tidy_list; [ne|tid]
  | |- tidy_in DictOf _ _ => apply tidy_dict; [ne|nd|tid]
  | |- Forall _ [] => constructor
  | |- Forall _ (_ :: _) => constructor; [cbn [snd]; tid|tid]
  | |- solid (JList _) => apply solid_list; [ne|tid]
  | |- solid (JObj _) => apply solid_obj; [ne|nd|tid]
  | |- solid _ => constructor
  end.
Example c34_ex_tidy : tidy (Of CSwagger) doc.
Proof. unfold doc, pet, s. tid. Qed.
Example c36_ex_parse : exists v, parse (Of CSwagger) [] doc = Ok v /\
  exists o, reach [] v [lit "paths"; lit "/pets/{id}"; lit "get"; lit "parameters"; lit "0"] o /\
    place_of o = Some [lit "paths"; lit "/pets/{id}"; lit "get"; lit "parameters"; lit "0"] /\
    parent_of o = Some [lit "paths"; lit "/pets/{id}"; lit "get"].
Proof.
  eexists. split; [vm_compute; reflexivity|]. eexists. split.
  - eapply reach_field; [auto|vm_compute; reflexivity|]. eapply reach_key; [vm_compute; reflexivity|].
    eapply reach_field; [auto|vm_compute; reflexivity|]. eapply reach_field; [auto|vm_compute; reflexivity|].
    eapply (reach_item [] _ 0); [reflexivity|]. apply reach_here.
  - split; reflexivity.
Qed.
Example c36_ex_refused : parse (Of CSwagger) [] (JObj [(lit "paths", JObj [(lit "/a", JInt 1)])]) = Err ValueError /\
  parse (Of CSwagger) [] (JObj [(lit "paths", JList [])]) = Err AttributeError /\
  parse (Of CSwagger) [] (JObj [(lit "tags", JInt 1)]) = Err TypeError.
Proof. repeat split; vm_compute; reflexivity. Qed.
(** A security requirement without scopes comes back with null in place of the empty list. *)
Theorem c34_altered_refuted : exists j v r, parse (Of CSwagger) [] j = Ok v /\ dump_val v = Ok r /\
  j = JObj [(lit "security", JList [JObj [(lit "api_key", JList [])]])] /\
  r = JObj [(lit "security", JList [JObj [(lit "api_key", JNull)]])].
Proof. do 3 eexists. split; [|split; [|split; reflexivity]]; vm_compute; reflexivity. Qed.
(** A document with null inside a free-form value can be loaded, but not dumped. *)
Theorem c34_null_refuted : exists j v, parse (Of CSchema) [] j = Ok v /\ dump_val v = Err ValueError /\
  j = JObj [(lit "enum", JList [JNull; JInt 1])].
Proof. do 2 eexists. split; [|split; [|reflexivity]]; vm_compute; reflexivity. Qed.
Print Assumptions c34_altered_refuted.
Print Assumptions c34_null_refuted.
