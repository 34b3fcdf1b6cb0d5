(** C28 (arrays), C30 (objects) and C31 (allOf on objects). *)
From Coq Require Import QArith.
From Verif Require Import PyBase PyFacts P_Op M_Graph S_Graph P_Graph M_Time M_Prim S_Prim P_Prim P_PrimLeaf P_PrimObj P_PrimAll
  T_PrimLeaf.
Close Scope Q_scope.
Open Scope nat_scope.

Section Any.
(** For any behaviour of the parts of Python that are not modelled (see M_Prim.v). *)
Context (int_of : str -> res Z) (float_of : str -> res Q) (str_of : value -> str)
  (date_at : Q -> res (Z * Z * Z)) (datetime_at : Q -> res datetime)
  (uuid_of : str -> option Z) (email_ok : str -> bool) (h : list schema).
Notation produce := (produce int_of float_of str_of date_at datetime_at uuid_of email_ok h).
(** Converting a nested value: [produce(schema, value)] gives [x]. *)
Notation conv n := (fun p v x => exists c, produce n p v (new_ctx true) = Ok (x, c)).

(** * C28 *)
Definition format_of (s : schema) : str := match s_cf s with Some f => f | None => lit "csv" end.
(** An array schema with items accepts exactly the lists whose elements (first
    occurrences only under uniqueItems) all convert and are of an allowed number. *)
Theorem c28_list : forall n o t v l it rd r, target h o t -> typed (sch h t) "array" -> members (sch h t) = [] ->
  s_items (sch h t) = Some it -> effective h o v = VList l ->
  (exists c, produce (S n) o v (new_ctx rd) = Ok (r, c)) <->
  exists l' rs, (if s_unique (sch h t) then firsts [] l l' else l' = l) /\
    Forall2 (conv n it) l' rs /\ count_ok (sch h t) (length rs) /\ r = PArray (format_of (sch h t)) rs.
Proof.
  intros n o t v l it rd r T K M I EV.
  rewrite (array_iff _ _ _ _ _ _ _ _ n o t v (new_ctx rd) r T); [|intros []|exact K|exact M|now rewrite EV].
  rewrite EV. split.
  - intros (v' & E). apply array_apply_list in E as (l' & A & B). rewrite I in B. destruct B as (rs & F & C & -> & _).
    exists l', rs. auto.
  - intros (l' & rs & A & F & C & ->). exists (VList []). apply array_apply_list. exists l'. split; [exact A|].
    rewrite I. exists rs. auto.
Qed.

(** A text is cut at the separator of the collection format. *)
Theorem c28_text : forall n o t txt ps f sp rd r, target h o t -> typed (sch h t) "array" -> members (sch h t) = [] ->
  format_of (sch h t) = lit f -> sep_of f = Some sp ->
  txt = join (lit sp) ps -> ps <> [] -> Forall (fun p => forall c, In c (lit sp) -> ~ In c p) ps ->
  (exists c, produce (S n) o (VStr txt) (new_ctx rd) = Ok (r, c)) <->
  (exists c, produce (S n) o (VList (map VStr ps)) (new_ctx rd) = Ok (r, c)).
Proof.
  intros n o t txt ps f sp rd r T K M F SP -> NE CL.
  assert (X : exists ch, lit sp = [ch] /\ separator (lit f) = Some ch).
  { unfold sep_of in SP.
    repeat (match goal with H : context [match ?x with _ => _ end] |- _ => destruct x end; try discriminate SP);
    injection SP as <-; eexists; split; reflexivity. }
  destruct X as (ch & LS & SE).
  rewrite (array_iff _ _ _ _ _ _ _ _ n o t (VStr _) (new_ctx rd) r T); [|intros []|exact K|exact M|reflexivity].
  rewrite (array_iff _ _ _ _ _ _ _ _ n o t (VList _) (new_ctx rd) r T); [|intros []|exact K|exact M|reflexivity].
  cbn [effective].
  assert (EQ : split [ch] (join (lit sp) ps) = ps).
  { rewrite LS in *. apply split_char_join; [exact NE|]. eapply Forall_impl; [|exact CL]. intros p HC. apply HC. now left. }
  split; intros (v' & E); exists v'.
  - apply (array_apply_text _ _ _ _ _ _ _ _ n (sch h t) [] _ ch) in E; [|unfold array_fmt; fold (format_of (sch h t)); now rewrite F].
    now rewrite EQ in E.
  - apply (array_apply_text _ _ _ _ _ _ _ _ n (sch h t) [] _ ch); [unfold array_fmt; fold (format_of (sch h t)); now rewrite F|].
    now rewrite EQ.
Qed.

(** With an unknown format a text is refused with SchemaError. *)
Theorem c28_unknown_format : forall n o t txt rd, target h o t -> typed (sch h t) "array" ->
  ~ In (format_of (sch h t)) (map lit ["csv"; "ssv"; "tsv"; "pipes"]%string) ->
  produce (S n) o (VStr txt) (new_ctx rd) = Err SchemaError.
Proof.
  intros n o t txt rd T K NF.
  apply (array_err _ _ _ _ _ _ _ _ n o t (VStr txt) (new_ctx rd) SchemaError T); [intros []|exact K|reflexivity|].
  cbn [effective]. unfold array_apply. fold (format_of (sch h t)). cbn [split_text].
  assert (separator (format_of (sch h t)) = None) as ->; [|reflexivity].
  unfold separator.
  destruct (str_eqb (format_of (sch h t)) "csv"%string) eqn:E1; [apply str_eqb_eq in E1; exfalso; apply NF; rewrite E1; cbn; auto|].
  destruct (str_eqb (format_of (sch h t)) "ssv"%string) eqn:E2; [apply str_eqb_eq in E2; exfalso; apply NF; rewrite E2; cbn; auto|].
  destruct (str_eqb (format_of (sch h t)) "tsv"%string) eqn:E3; [apply str_eqb_eq in E3; exfalso; apply NF; rewrite E3; cbn; auto|].
  destruct (str_eqb (format_of (sch h t)) "pipes"%string) eqn:E4; [apply str_eqb_eq in E4; exfalso; apply NF; rewrite E4; cbn; auto 6|].
  reflexivity.
Qed.

(** A wrong number of items, when they all convert, is refused with ValidationError. *)
Theorem c28_count_refused : forall n o t v l l' rs it rd, target h o t -> typed (sch h t) "array" ->
  s_items (sch h t) = Some it -> effective h o v = VList l ->
  (if s_unique (sch h t) then firsts [] l l' else l' = l) -> Forall2 (conv n it) l' rs ->
  ~ count_ok (sch h t) (length rs) ->
  produce (S n) o v (new_ctx rd) = Err ValidationError.
Proof.
  intros n o t v l l' rs it rd T K I EV U F C.
  apply (array_err _ _ _ _ _ _ _ _ n o t v (new_ctx rd) ValidationError T); [intros []|exact K|now rewrite EV|].
  rewrite EV. eapply array_count_err; eauto.
Qed.

(** * C30 *)
(** What an accepted object holds.  [holds] tells, for every key, where its value comes
    from; [supplied] that a key is given or has a default. *)
Theorem c30_contents : forall n o t v d rd r c, target h o t -> object_kind (sch h t) -> members (sch h t) = [] ->
  effective h o v = VDict d -> NoDup (map fst d) -> NoDup (map fst (s_props (sch h t))) ->
  produce (S n) o v (new_ctx rd) = Ok (r, c) ->
  exists m, r = PModel m /\ (forall k, holds (conv n) h (sch h t) d k (sget k m)) /\
    (forall k, In k (s_required (sch h t)) -> supplied h (sch h t) d k) /\
    (forall k p, sget k (s_props (sch h t)) = Some p -> smem k d = true -> s_readonly (sch h p) = true -> rd = true).
Proof.
  intros n o t v d rd r c T K M EV ND NP E.
  eapply object_result in E; eauto; intros [].
Qed.
(** So every required key is in it. *)
Theorem c30_required : forall n o t v d rd m c, target h o t -> object_kind (sch h t) -> members (sch h t) = [] ->
  effective h o v = VDict d -> NoDup (map fst d) -> NoDup (map fst (s_props (sch h t))) ->
  produce (S n) o v (new_ctx rd) = Ok (PModel m, c) ->
  forall k, In k (s_required (sch h t)) -> smem k m = true.
Proof.
  intros n o t v d rd m c T K M EV ND NP E k I.
  eapply (allof_required int_of float_of str_of date_at datetime_at uuid_of email_ok h) in E as [R _]; eauto.
  - now apply R.
  - now rewrite EV.
Qed.
(** An object is accepted when nothing stands in the way. *)
Theorem c30_accepted : forall n o t v d rd, target h o t -> object_kind (sch h t) -> members (sch h t) = [] ->
  effective h o v = VDict d -> NoDup (map fst d) -> NoDup (map fst (s_props (sch h t))) ->
  (forall k, In k (s_required (sch h t)) -> supplied h (sch h t) d k) ->
  (forall k p, sget k (s_props (sch h t)) = Some p -> smem k d = true -> s_readonly (sch h p) = true -> rd = true) ->
  (s_disc (sch h t) <> None -> s_name (sch h t) <> None) ->
  (forall k p w, sget k (s_props (sch h t)) = Some p -> sget k d = Some w -> exists x, conv n p w x) ->
  (forall k p, sget k (s_props (sch h t)) = Some p -> smem k d = false -> s_default_set (sch h p) = true ->
     exists x, conv n p (s_default (sch h p)) x) ->
  (forall k w a, sget k (s_props (sch h t)) = None -> sget k d = Some w -> s_addp (sch h t) = ASchema a ->
     exists x, conv n a w x) ->
  exists m c, produce (S n) o v (new_ctx rd) = Ok (PModel m, c).
Proof.
  intros n o t v d rd T K M EV ND NP RQ RD NM C1 C2 C3.
  eapply object_accepts; eauto; try (intros []; fail).
  - intros k DK. apply NM. unfold disc_of in DK. destruct (s_disc (sch h t)); easy.
Qed.
(** Refusals, when the property values all convert. *)
Theorem c30_readonly_refused : forall n o t v d, target h o t -> object_kind (sch h t) ->
  effective h o v = VDict d -> NoDup (map fst d) ->
  (exists k p, sget k (s_props (sch h t)) = Some p /\ smem k d = true /\ s_readonly (sch h p) = true) ->
  (forall k p w, sget k (s_props (sch h t)) = Some p -> sget k d = Some w -> exists x, conv n p w x) ->
  produce (S n) o v (new_ctx false) = Err GenericException.
Proof.
  intros n o t v d T K EV ND EX CV. eapply object_readonly; eauto; intros [].
Qed.
Theorem c30_missing_refused : forall n o t v d rd, target h o t -> object_kind (sch h t) ->
  effective h o v = VDict d -> NoDup (map fst d) -> NoDup (map fst (s_props (sch h t))) ->
  (exists k, In k (s_required (sch h t)) /\ ~ supplied h (sch h t) d k) ->
  (forall k p, sget k (s_props (sch h t)) = Some p -> smem k d = true -> s_readonly (sch h p) = true -> rd = true) ->
  (forall k p w, sget k (s_props (sch h t)) = Some p -> sget k d = Some w -> exists x, conv n p w x) ->
  (forall k p, sget k (s_props (sch h t)) = Some p -> smem k d = false -> s_default_set (sch h p) = true ->
     exists x, conv n p (s_default (sch h p)) x) ->
  produce (S n) o v (new_ctx rd) = Err ValueError.
Proof.
  intros n o t v d rd T K EV ND NP EX RD C1 C2. eapply object_required; eauto; intros [].
Qed.
(** Anything but a dict is refused. *)
Theorem c30_not_dict_refused : forall n o t v rd, target h o t -> object_kind (sch h t) ->
  effective h o v <> VNull -> (forall d, effective h o v <> VDict d) ->
  produce (S n) o v (new_ctx rd) = Err AttributeError.
Proof.
  intros n o t v rd T K N ND. eapply object_not_dict; eauto; try (intros []; fail). destruct (effective h o v); easy.
Qed.

(** * C31 *)
(** Whatever the shape of the schema, an object made for it holds the required keys of
    the schema and of each member that is an object schema. *)
Theorem c31_required : forall n o t v c m c', target h o t -> effective h o v <> VNull ->
  produce n o v c = Ok (PModel m, c') ->
  (object_kind (sch h t) -> forall k, In k (s_required (sch h t)) -> smem k m = true) /\
  (forall a a', In a (members (sch h t)) -> target h a a' -> object_kind (sch h a') ->
     forall k, In k (s_required (sch h a')) -> smem k m = true).
Proof.
  intros n o t v c m c' T N E.
  assert (N' : is_null (effective h o v) = false) by (destruct (effective h o v); easy).
  destruct (allof_required _ _ _ _ _ _ _ _ n o t v c m c' T N' E) as [A B]. split; [exact A|].
  intros a a' I TA KA. exact (B a a' I TA KA).
Qed.
(** If the schema itself already gives a property, the whole object is as [composed]
    says: the first schema that declares a key converts it. *)
Theorem c31_values : forall n o t v d ms rd r c, target h o t -> object_kind (sch h t) ->
  Forall2 (target h) (members (sch h t)) ms ->
  Forall (fun a => NoDup (map fst (s_props (sch h a))) /\ s_disc (sch h a) = None) (t :: ms) ->
  effective h o v = VDict d -> NoDup (map fst d) ->
  (exists k p, sget k (s_props (sch h t)) = Some p /\ (smem k d = true \/ s_default_set (sch h p) = true)) ->
  produce (S n) o v (new_ctx rd) = Ok (r, c) ->
  exists m, r = PModel m /\ forall k, composed (conv n) h (map (sch h) (t :: ms)) d k (sget k m).
Proof.
  intros n o t v d ms rd r c T K F2 PL EV ND EX E.
  eapply composed_values in E; eauto. eapply Forall_impl; [|exact PL]. intros a [A B]. split; [exact A|].
  unfold disc_of. now rewrite B.
Qed.
(** A schema that consists of one allOf member only, with neither a type, properties nor
    additional properties of its own, gives what the member gives. *)
Theorem c31_only_member : forall n o t a a' v d rd r c, target h o t ->
  s_type (sch h t) = None \/ s_type (sch h t) = Some [] -> s_props (sch h t) = [] -> allows_extra (s_addp (sch h t)) = false ->
  members (sch h t) = [a] -> target h a a' -> a' <> t -> object_kind (sch h a') -> members (sch h a') = [] ->
  s_disc (sch h a') = None -> NoDup (map fst (s_props (sch h a'))) ->
  effective h o v = VDict d -> NoDup (map fst d) ->
  produce (S (S n)) o v (new_ctx rd) = Ok (r, c) ->
  exists m, r = PModel m /\ (forall k, holds (conv n) h (sch h a') d k (sget k m)) /\
    forall k, In k (s_required (sch h a')) -> supplied h (sch h a') d k.
Proof.
  intros n o t a a' v d rd r c T TY NP AE M TA NE K M' ND' NP' EV ND E.
  assert (FL : s_full (sch h t) = true /\ s_allof (sch h t) = [a]).
  { unfold members in M. destruct (s_full (sch h t)); [auto|discriminate M]. }
  destruct FL as [FL AL].
  rewrite (produce_some _ _ _ _ _ _ _ _ (S n) o t v (new_ctx rd) T) in E; [|now rewrite EV|intros []].
  rewrite EV in E.
  assert (ST : start int_of float_of str_of date_at datetime_at uuid_of email_ok h (produce (S n)) t (VDict d)
     (set_guard (c_guard (new_ctx rd) ++ [t]) (set_name (s_name (sch h t)) (new_ctx rd))) =
     Ok (PNone, VDict d, set_guard [t] (set_name (s_name (sch h t)) (new_ctx rd)))).
  { unfold start. assert (X : match s_addp (sch h t) with ANone | ABool false => false | _ => true end = false) by exact AE.
    destruct TY as [TY|TY]; rewrite TY, FL, NP, X; reflexivity. }
  rewrite ST in E. clear ST. cbn [bind] in E. unfold finish in E. cbn [final_kind] in E. rewrite FL, AL in E.
  cbn [all_of] in E. rewrite (proj2 (deref_target h a a') TA) in E. cbn [bind falsy] in E.
  set (c1 := set_guard [t] (set_name (s_name (sch h t)) (new_ctx rd))) in *.
  destruct (produce (S n) a' (VDict d) c1) as [[r1 c2]|e] eqn:EP; [|discriminate E].
  assert (TA' : target h a' a') by (apply target_refl; apply TA).
  assert (GD : ~ In a' (c_guard c1)) by (cbn; intros [<-|[]]; now apply NE).
  assert (DN : disc_of (sch h a') = None) by (unfold disc_of; now rewrite ND').
  destruct (object_flags int_of float_of str_of date_at datetime_at uuid_of email_ok h n a' a' (VDict d) d c1 TA' GD K M'
    eq_refl ND eq_refl eq_refl r1 c2 EP) as [F1 F2].
  apply (object_result int_of float_of str_of date_at datetime_at uuid_of email_ok h n a' a' (VDict d) d c1 TA' GD K M'
    eq_refl ND NP' eq_refl eq_refl (or_intror DN)) in EP as (m & -> & HO & SU & _).
  exists m. cbn [bind fst snd] in E. cbn [falsy] in E. split; [|split; assumption].
  destruct m as [|kv m]; cbn [nonempty negb bind falsy apply_rest app] in E; unfold cleanup in E; rewrite F1, F2 in E; now injection E as <- _.
Qed.
End Any.
Print Assumptions c31_only_member.
Print Assumptions c28_list.
Print Assumptions c28_text.
Print Assumptions c28_unknown_format.
Print Assumptions c28_count_refused.
Print Assumptions c30_contents.
Print Assumptions c30_required.
Print Assumptions c30_accepted.
Print Assumptions c30_readonly_refused.
Print Assumptions c30_missing_refused.
Print Assumptions c30_not_dict_refused.
Print Assumptions c31_required.
Print Assumptions c31_values.

(** ** Concrete schemas *)
Definition array_schema (it : option nat) (mn mx : option Z) (un : bool) (cf : option str) : schema :=
  Schema true (Some None) (Some (lit "array")) None it VNull false None false None false None None mx mn None [] un cf
    None [] [] [] (ABool true) None false.
Definition obj_schema (ty : option str) (name : str) (req : list str) (al : list nat) (ps : sdict nat) (ad : addp)
    (disc : option str) : schema :=
  Schema true (Some (Some name)) ty None None VNull false None false None false None None None None None [] false None
    None req al ps ad disc false.
Definition ro_schema (d : value) (dset ro : bool) (fmt : option str) : schema :=
  Schema true (Some None) (Some (lit "string")) fmt None d dset None false None false None None None None None []
    false None None [] [] [] (ABool true) None ro.

(** Arrays: items are strings of at most 3 characters, at least 2 and at most 3 of them. *)
Definition ha : list schema :=
  [array_schema (Some 1) (Some 2%Z) (Some 3%Z) true None; text_schema None (Some 3%Z) [] [];
   array_schema None None None false (Some (lit "multi"))].
Example c28_ex_list : out (run ha 5 0 (VList [VStr (lit "a"); VStr (lit "b"); VStr (lit "a")]) (new_ctx true))
  = Ok (PArray (lit "csv") [PStr (lit "a"); PStr (lit "b")]).
Proof. vm_compute. reflexivity. Qed.
Example c28_ex_text : out (run ha 5 0 (VStr (lit "a,b,c")) (new_ctx true))
  = Ok (PArray (lit "csv") [PStr (lit "a"); PStr (lit "b"); PStr (lit "c")]).
Proof. vm_compute. reflexivity. Qed.
Example c28_ex_few : run ha 5 0 (VStr (lit "a,a")) (new_ctx true) = Err ValidationError.
Proof. vm_compute. reflexivity. Qed.
Example c28_ex_item : run ha 5 0 (VStr (lit "a,abcd")) (new_ctx true) = Err ValidationError.
Proof. vm_compute. reflexivity. Qed.
Example c28_ex_format : run ha 5 2 (VStr (lit "a,b")) (new_ctx true) = Err SchemaError.
Proof. vm_compute. reflexivity. Qed.
(** Without items the elements are silently dropped. *)
Theorem c28_no_items_refuted : exists h o l, typed (sch h o) "array" /\ l <> [] /\
  out (run h 5 o (VList l) (new_ctx true)) = Ok (PArray (lit "multi") []).
Proof. exists ha, 2, [VInt 1]. split; [reflexivity|]. split; [discriminate|vm_compute; reflexivity]. Qed.
Print Assumptions c28_no_items_refuted.

(** Objects: 0 has properties id (required, read-only), day (a date), tag (default "x"), and a
    discriminator; extra keys are texts. *)
Definition ho : list schema :=
  [obj_schema (Some (lit "object")) (lit "Pet") [lit "id"] [] [(lit "id", 1); (lit "day", 2); (lit "tag", 3)] (ASchema 1)
     (Some (lit "kind"));
   ro_schema VNull false true None;
   ro_schema VNull false false (Some (lit "date"));
   ro_schema (VStr (lit "x")) true false None].
Example c30_ex_ok : out (run ho 5 0 (VDict [(lit "id", VStr (lit "7")); (lit "day", VStr (lit "2020-01-02")); (lit "more", VStr (lit "m"))])
    (new_ctx true))
  = Ok (PModel [(lit "id", PStr (lit "7")); (lit "day", PDate 2020 1 2); (lit "tag", PStr (lit "x")); (lit "kind", PStr (lit "Pet"));
                (lit "more", PStr (lit "m"))]).
Proof. vm_compute. reflexivity. Qed.
Example c30_ex_kind : target ho 0 0 /\ object_kind (sch ho 0) /\ members (sch ho 0) = [].
Proof. split; [now apply target_refl|]. split; [split; [reflexivity|now left]|reflexivity]. Qed.
Example c30_ex_readonly : run ho 5 0 (VDict [(lit "id", VStr (lit "7"))]) (new_ctx false) = Err GenericException.
Proof. vm_compute. reflexivity. Qed.
Example c30_ex_missing : run ho 5 0 (VDict [(lit "tag", VStr (lit "7"))]) (new_ctx true) = Err ValueError.
Proof. vm_compute. reflexivity. Qed.
(** Read-only properties of nested objects are accepted in a write context. *)
Definition hn : list schema :=
  [obj_schema (Some (lit "object")) (lit "A") [] [] [(lit "b", 1)] (ABool true) None;
   obj_schema (Some (lit "object")) (lit "B") [] [] [(lit "id", 2)] (ABool true) None;
   ro_schema VNull false true None].
Theorem c30_nested_readonly_refuted : exists h o b p,
  sget (lit "b") (s_props (sch h o)) = Some b /\ sget (lit "id") (s_props (sch h b)) = Some p /\
  s_readonly (sch h p) = true /\
  out (run h 5 o (VDict [(lit "b", VDict [(lit "id", VStr (lit "7"))])]) (new_ctx false))
    = Ok (PModel [(lit "b", PModel [(lit "id", PStr (lit "7"))])]).
Proof. exists hn, 0, 1, 2. repeat split. Qed.
Print Assumptions c30_nested_readonly_refuted.

(** allOf: 0 has id and the members 1 (requires x) and 4 -> 2 (requires y, a date). *)
Definition hc : list schema :=
  [obj_schema (Some (lit "object")) (lit "A") [lit "id"] [1; 4] [(lit "id", 3)] (ABool true) None;
   obj_schema None (lit "B") [lit "x"] [] [(lit "x", 3)] (ABool true) None;
   obj_schema None (lit "C") [lit "y"] [5] [(lit "y", 6)] (ABool true) None;
   ro_schema VNull false false None;
   ref_schema 2;
   obj_schema (Some (lit "object")) (lit "D") [lit "z"] [] [(lit "z", 3)] (ABool true) None;
   ro_schema VNull false false (Some (lit "date"));
   (* only allOf: *)
   obj_schema None (lit "E") [] [2; 1] [] (ABool true) None;
   (* additionalProperties false, only required: *)
   obj_schema None (lit "F") [lit "w"] [1] [] (ABool false) None].
Example c31_ex_ok : out (run hc 5 0 (VDict [(lit "id", VStr (lit "1")); (lit "x", VStr (lit "2")); (lit "y", VStr (lit "2020-01-02"))]) (new_ctx true))
  = Ok (PModel [(lit "id", PStr (lit "1")); (lit "x", PStr (lit "2")); (lit "y", PDate 2020 1 2)]).
Proof. vm_compute. reflexivity. Qed.
Example c31_ex_members : Forall2 (target hc) (members (sch hc 0)) [1; 2].
Proof.
  constructor; [now apply target_refl|]. constructor; [|constructor].
  split; [|reflexivity]. econstructor; [reflexivity|constructor].
Qed.
Example c31_ex_missing_x : run hc 5 0 (VDict [(lit "id", VStr (lit "1")); (lit "y", VStr (lit "2020-01-02"))]) (new_ctx true) = Err ValueError.
Proof. vm_compute. reflexivity. Qed.
Example c31_ex_missing_y : run hc 5 0 (VDict [(lit "id", VStr (lit "1")); (lit "x", VStr (lit "2020-01-02"))]) (new_ctx true) = Err ValueError.
Proof. vm_compute. reflexivity. Qed.
Example c31_ex_only : out (run [obj_schema None (lit "G") [] [1] [] (ABool false) None;
    obj_schema None (lit "H") [lit "y"] [] [(lit "y", 2)] (ABool true) None; ro_schema VNull false false (Some (lit "date"))] 5 0
    (VDict [(lit "y", VStr (lit "2020-01-02")); (lit "w", VInt 1)]) (new_ctx true)) = Ok (PModel [(lit "y", PDate 2020 1 2); (lit "w", PRaw (VInt 1))]).
Proof. vm_compute. reflexivity. Qed.
(** The members of a member are not looked at: z, required by a member of the second
    member, may be missing. *)
Theorem c31_nested_refuted : exists h o a a' b v m,
  In a (members (sch h o)) /\ target h a a' /\ In b (members (sch h a')) /\ target h b b /\ object_kind (sch h b) /\
  In (lit "z") (s_required (sch h b)) /\
  out (run h 5 o v (new_ctx true)) = Ok (PModel m) /\ smem (lit "z") m = false.
Proof.
  exists hc, 0, 4, 2, 5,
    (VDict [(lit "id", VStr (lit "1")); (lit "x", VStr (lit "2")); (lit "y", VStr (lit "2020-01-02"))]),
    [(lit "id", PStr (lit "1")); (lit "x", PStr (lit "2")); (lit "y", PDate 2020 1 2)].
  split; [cbn; auto|]. split; [split; [econstructor; [reflexivity|constructor]|reflexivity]|].
  split; [cbn; auto|]. split; [now apply target_refl|]. split; [split; [reflexivity|now left]|].
  split; [cbn; auto|]. split; vm_compute; reflexivity.
Qed.
Print Assumptions c31_nested_refuted.
(** In a schema that consists of allOf only, the values of the first member are
    overwritten by the raw ones: the date stays a text. *)
Theorem c31_first_member_refuted : exists h o a p v m,
  members (sch h o) <> [] /\ nth_error (members (sch h o)) 0 = Some a /\ sget (lit "y") (s_props (sch h a)) = Some p /\
  s_format (sch h p) = Some (lit "date") /\
  out (run h 5 o v (new_ctx true)) = Ok (PModel m) /\
  sget (lit "y") m = Some (PRaw (VStr (lit "2020-01-02"))).
Proof.
  exists hc, 7, 2, 6, (VDict [(lit "x", VStr (lit "2")); (lit "y", VStr (lit "2020-01-02")); (lit "z", VStr (lit "3"))]). eexists.
  split; [discriminate|]. split; [reflexivity|]. split; [reflexivity|]. split; [reflexivity|].
  split; vm_compute; reflexivity.
Qed.
Print Assumptions c31_first_member_refuted.
(** The required keys of an untyped schema with neither properties nor additional
    properties are not enforced. *)
Theorem c31_own_required_refuted : exists h o v m, In (lit "w") (s_required (sch h o)) /\
  out (run h 5 o v (new_ctx true)) = Ok (PModel m) /\ smem (lit "w") m = false.
Proof.
  exists hc, 8, (VDict [(lit "x", VStr (lit "2"))]). eexists. split; [cbn; auto|]. split; vm_compute; reflexivity.
Qed.
Print Assumptions c31_own_required_refuted.
