(** C46: everything the renderer makes satisfies its schema and is taken by the primitive
    factory; an operation gets every required parameter and no excluded one. *)
From Coq Require Import QArith Lia.
From Verif Require Import PyBase PyFacts M_Graph S_Graph P_Graph M_Time M_Prim S_Prim P_Prim P_PrimMono P_SpecBase
  M_Render S_Render P_Render P_RenderGen P_RenderAcc P_RenderAll T_PrimLeaf T_PrimObj.
Close Scope Q_scope.
Open Scope nat_scope.

Section Any.
(** For any random choices, and any behaviour of the parts of Python that are not modelled
    (M_Prim.v, M_Render.v).  The e-mail check is only assumed to take addresses of the
    generator's shape (two or more names of letters, digits, "_" and "-" joined by dots
    after the "@"). *)
Context (int_of : str -> res Z) (float_of : str -> res Q) (str_of : value -> str)
  (date_at : Q -> res (Z * Z * Z)) (datetime_at : Q -> res datetime)
  (uuid_of : str -> option Z) (email_ok : str -> bool)
  (MAIL : forall s, mailbox s -> email_ok s = true)
  (rnd : nat -> N) (dr dtr : Q * Q) (h : list schema) (xs : nat -> more) (opt : options).
Notation generate := (M_Render.generate rnd date_at datetime_at uuid_of dr dtr h xs opt).
Notation render_all := (M_Render.render_all rnd date_at datetime_at uuid_of dr dtr h xs opt).
Notation produce := (produce int_of float_of str_of date_at datetime_at uuid_of email_ok h).
Notation conforms := (conforms email_ok h xs).
Notation all_sound := (all_sound email_ok h xs opt).
Notation accepts := (accepts int_of float_of str_of date_at datetime_at uuid_of email_ok h).
Notation all_take := (all_take h xs accepts).

(** What is rendered satisfies every keyword of its schema. *)
Theorem c46_conforms : forall fuel o i v j, all_sound o -> generate fuel o i = Ok (v, j) -> conforms o v.
Proof. apply generate_conforms. exact MAIL. Qed.
(** What satisfies a schema is taken by the factory, given enough recursion depth. *)
Theorem c46_conforming_accepted : forall o v, conforms o v -> all_take o ->
  exists n r, forall m, n <= m -> exists c, produce m o v (new_ctx true) = Ok (r, c).
Proof.
  intros o v C T. destruct (conforms_accepted _ _ _ _ _ _ _ _ _ _ _ C T) as (n & r & c & E).
  exists n, r. intros m L. exists c. exact (produce_mono _ _ _ _ _ _ _ _ n m o v _ L _ E).
Qed.
Theorem c46_accepted : forall fuel o i v j, all_sound o -> all_take o -> generate fuel o i = Ok (v, j) ->
  exists n r, forall m, n <= m -> exists c, produce m o v (new_ctx true) = Ok (r, c).
Proof. intros fuel o i v j AS AT E. apply c46_conforming_accepted; [eapply c46_conforms; eauto|exact AT]. Qed.

(** Object schemas: required properties are there; a template value is used as it is; with
    minimal_property nothing that is not required is generated, with max_property every
    declared property is. *)
Theorem c46_object : forall fuel o t i v j, meant h xs o t -> typed (sch h t) "object" ->
  NoDup (map fst (s_props (sch h t))) -> generate fuel o i = Ok (v, j) ->
  exists d, v = VDict d /\ NoDup (map fst d) /\
    (forall k p, sget k (s_props (sch h t)) = Some p ->
       match sget k (object_template opt) with
       | Some w => sget k d = Some w
       | None =>
           (In k (s_required (sch h t)) \/ max_property opt = true -> smem k d = true) /\
           (~ In k (s_required (sch h t)) -> max_property opt = false -> minimal_property opt = true ->
              (forall a, s_addp (sch h t) <> ASchema a) -> sget k d = None)
       end) /\
    (forall k, sget k (s_props (sch h t)) = None -> (forall a, s_addp (sch h t) <> ASchema a) -> sget k d = None) /\
    (forall a, s_addp (sch h t) = ASchema a -> exists n, x_minprops (xs t) = Some n /\ (n <= Z.of_nat (length d))%Z).
Proof.
  intros [|fuel] o t i v j M K ND E; [discriminate E|]. cbn [M_Render.generate] in E. unfold generate_step in E.
  apply gbind_ok in E as (t' & k' & ST & E). apply glift_ok in ST as [ST ->]. apply settle_ok in ST.
  assert (t' = t) as -> by (eapply meant_det; eauto). cbv zeta in E. rewrite K in E. cbn [str_eqb lit] in E.
  change (gen_object rnd h xs opt fuel (generate fuel) t i = Ok (v, j)) in E.
  destruct (object_ok _ date_at datetime_at dr dtr _ _ _ _ _ _ _ _ _ ND E) as (out0 & out & -> & FU & NO & P0 & P1 & P2).
  exists out. split; [reflexivity|]. split; [exact NO|]. split; [|split].
  - intros k p EP. specialize (P0 k). specialize (P1 k). rewrite EP in P0. unfold prop_result in P0.
    destruct (sget k (object_template opt)) as [w|] eqn:ET.
    + destruct P1 as [P1|(F & _)]; congruence.
    + split.
      * intro R. assert (X : exists w, sget k out0 = Some w).
        { destruct P0 as [(w & _ & _ & _ & W & _)|(_ & F1 & F2)]; [eauto|]. destruct R as [R|R]; [|congruence].
          apply mem_iff in R. congruence. }
        destruct X as (w & X). rewrite smem_sget. destruct P1 as [P1|(F & _)]; [|congruence]. now rewrite P1, X.
      * intros NR MX MN NA. destruct P1 as [P1|(F & LT & a & w' & i' & j' & EA & RA & EW')].
        -- rewrite P1. destruct P0 as [(w & _ & _ & _ & W & [F|[F|F]])|(F & _)]; [congruence| |congruence|exact F].
           apply mem_iff in F. contradiction.
        -- exfalso. eapply NA. exact EA.
  - intros k EP NA. specialize (P0 k). specialize (P1 k). rewrite EP in P0.
    destruct P1 as [P1|(F & LT & a & w' & i' & j' & EA & RA & EW')]; [congruence|]. exfalso. eapply NA. exact EA.
  - intros a EA. destruct (P2 a EA) as (n & X & _ & Y). eauto.
Qed.

(** ** render_all *)
Theorem c46_required : forall fuel ps exclude i out j p, render_all fuel ps exclude i = Ok (out, j) ->
  In p ps -> rp_required p = true -> ~ In (rp_name p) exclude -> smem (rp_name p) out = true.
Proof.
  intros fuel ps exclude i out j p E I R X. apply params_ok in E as (_ & _ & C & _). apply C; auto.
  destruct (mem (rp_name p) exclude) eqn:ME; [|reflexivity]. apply mem_iff in ME. contradiction.
Qed.
Theorem c46_excluded : forall fuel ps exclude i out j k, render_all fuel ps exclude i = Ok (out, j) ->
  In k exclude -> sget k out = None.
Proof.
  intros fuel ps exclude i out j k E I. apply params_ok in E as (_ & B & _ & _). rewrite B; [reflexivity|now apply mem_iff].
Qed.
(** Every value is that of a parameter of the operation: the template's, if it has one,
    and else one that satisfies the parameter's schema. *)
Theorem c46_values : forall fuel ps exclude i out j k v, render_all fuel ps exclude i = Ok (out, j) ->
  (forall p o, In p ps -> smem (rp_name p) (parameter_template opt) = false -> param_schema p o -> all_sound o) ->
  sget k out = Some v ->
  exists p, In p ps /\ rp_name p = k /\ ~ In k exclude /\
    match sget k (parameter_template opt) with
    | Some w => v = w
    | None => exists o, param_schema p o /\ conforms o v
    end.
Proof.
  intros fuel ps exclude i out j k v E AS G. apply params_ok in E as (_ & _ & _ & D).
  destruct (D k v G) as [X|(p & I & N & X & Y)]; [discriminate X|]. exists p. split; [exact I|]. split; [exact N|].
  split; [intro F; apply mem_iff in F; congruence|]. destruct (sget k (parameter_template opt)) eqn:ET; [exact Y|].
  destruct Y as (_ & i' & j' & R). unfold render_param in R.
  assert (TS : smem (rp_name p) (parameter_template opt) = false) by (now rewrite smem_sget, N, ET).
  specialize (AS p). unfold param_schema in *. destruct (rp_body p).
  - destruct (rp_schema p) as [s|]; [|discriminate R]. exists s. split; [reflexivity|]. eapply c46_conforms; eauto.
  - exists (rp_self p). split; [reflexivity|]. eapply c46_conforms; eauto.
Qed.
(** max_parameter: every parameter that is not excluded; minimal_parameter: only those
    that are required or in the template. *)
Theorem c46_max_parameter : forall fuel ps exclude i out j p, render_all fuel ps exclude i = Ok (out, j) ->
  max_parameter opt = true -> In p ps -> ~ In (rp_name p) exclude -> smem (rp_name p) out = true.
Proof.
  intros fuel ps exclude i out j p E R I X. apply params_ok in E as (_ & _ & C & _). apply C; auto.
  destruct (mem (rp_name p) exclude) eqn:ME; [|reflexivity]. apply mem_iff in ME. contradiction.
Qed.
Theorem c46_minimal_parameter : forall fuel ps exclude i out j k v, render_all fuel ps exclude i = Ok (out, j) ->
  max_parameter opt = false -> minimal_parameter opt = true -> sget k out = Some v ->
  smem k (parameter_template opt) = true \/ exists p, In p ps /\ rp_name p = k /\ rp_required p = true.
Proof.
  intros fuel ps exclude i out j k v E MX MN G. apply params_ok in E as (_ & _ & _ & D).
  destruct (D k v G) as [X|(p & I & N & _ & Y)]; [discriminate X|]. rewrite smem_sget.
  destruct (sget k (parameter_template opt)); [now left|]. right. exists p. split; [exact I|]. split; [exact N|].
  destruct Y as ([R|[R|R]] & _); congruence.
Qed.
Theorem c46_template : forall fuel ps exclude i out j p v, render_all fuel ps exclude i = Ok (out, j) ->
  In p ps -> ~ In (rp_name p) exclude -> sget (rp_name p) (parameter_template opt) = Some v ->
  sget (rp_name p) out = Some v.
Proof.
  intros fuel ps exclude i out j p v E I X T. apply params_ok in E as (_ & _ & C & D).
  assert (G : smem (rp_name p) out = true).
  { apply C; [exact I| |right; right; now rewrite smem_sget, T].
    destruct (mem (rp_name p) exclude) eqn:ME; [|reflexivity]. apply mem_iff in ME. contradiction. }
  rewrite smem_sget in G. destruct (sget (rp_name p) out) as [w|] eqn:EG; [|discriminate G].
  destruct (D _ _ EG) as [Y|(q & _ & _ & _ & Y)]; [discriminate Y|]. rewrite T in Y. now subst.
Qed.
End Any.
Print Assumptions c46_conforms.
Print Assumptions c46_conforming_accepted.
Print Assumptions c46_accepted.
Print Assumptions c46_object.
Print Assumptions c46_required.
Print Assumptions c46_excluded.
Print Assumptions c46_values.
Print Assumptions c46_max_parameter.
Print Assumptions c46_minimal_parameter.
Print Assumptions c46_template.

(** ** Rendering does return a value for every schema in which no range is empty, whatever
    the random choices, given enough recursion depth. *)
Theorem c46_returns : forall date_at datetime_at uuid_of dr dtr h xs opt o, ready date_at datetime_at h xs opt o ->
  exists n, forall rnd fuel i, n <= fuel ->
    exists v j, generate rnd date_at datetime_at uuid_of dr dtr h xs opt fuel o i = Ok (v, j).
Proof.
  intros date_at datetime_at uuid_of dr dtr h xs opt o R.
  destruct (ready_returns date_at datetime_at uuid_of dr dtr h xs opt o R) as (n & N). exists n. intros rnd fuel i L. now apply N.
Qed.
Print Assumptions c46_returns.
Theorem c46_all_returns : forall date_at datetime_at uuid_of dr dtr h xs opt ps,
  Forall (ready_param date_at datetime_at h xs opt) ps ->
  exists n, forall rnd fuel exclude i, n <= fuel ->
    exists out j, render_all rnd date_at datetime_at uuid_of dr dtr h xs opt fuel ps exclude i = Ok (out, j).
Proof.
  intros date_at datetime_at uuid_of dr dtr h xs opt ps R.
  destruct (ready_params date_at datetime_at uuid_of dr dtr h xs opt ps R) as (n & N). exists n. intros rnd fuel exclude i L.
  apply params_return. intros p I _ _. now apply N.
Qed.
Print Assumptions c46_all_returns.

(** ** Examples *)
Definition plain_xs : nat -> more := fun _ => More None None None.
Definition bounded_schema (ty : string) (mn mx mult : option Q) (exmin : bool) (en : list value) : schema :=
  Schema true (Some None) (Some (lit ty)) None None VNull false mx false mn exmin None None None None mult en false None
    None [] [] [] (ABool true) None false.
(** A pet: an id (a whole number from 1 to 10), tags (1 or 2 texts of at most 3 letters),
    an address. *)
Definition hr : list schema :=
  [obj_schema (Some (lit "object")) (lit "Pet") [lit "id"] [] [(lit "id", 1); (lit "tags", 2); (lit "mail", 4)] (ABool true) None;
   bounded_schema "integer" (Some 1%Q) (Some 10%Q) None false [];
   array_schema (Some 3) (Some 1%Z) (Some 2%Z) false None;
   text_schema None (Some 3%Z) [] [];
   text_schema (Some (lit "email")) None [] []].
Definition no_date : Q -> res (Z * Z * Z) := fun _ => Err ValueError.
Definition no_datetime : Q -> res datetime := fun _ => Err ValueError.
Definition no_uuid : str -> option Z := fun _ => None.
Definition make (rnd : nat -> N) (h : list schema) (xs : nat -> more) (opt : options) (fuel o : nat) : res value :=
  out (generate rnd no_date no_datetime no_uuid (0, 1)%Q (0, 1)%Q h xs opt fuel o 0).
(** the choices 0, 1, 2, ... *)
Definition count_up : nat -> N := N.of_nat.
Definition with_maximum : options := Options 64 32 100 100 100 200 false false [] [] [] true true.
Example c46_ex_make : exists m, make count_up hr plain_xs default_options 5 0
  = Ok (VDict [(lit "id", VInt 1); (lit "tags", VList [VStr (lit "efg")]); (lit "mail", VStr m)]).
Proof. eexists. vm_compute. reflexivity. Qed.
Lemma hr_meant o t : o < 5 -> meant hr plain_xs o t -> t = o.
Proof.
  intros L (u & [C R] & ->). cbn [x_final plain_xs].
  inversion C as [|? b ? N]; subst; [reflexivity|]. exfalso.
  destruct o as [|[|[|[|[|o]]]]]; try discriminate N. lia.
Qed.
Lemma hr_target o : o < 5 -> target hr o o.
Proof. intro L. split; [constructor|]. destruct o as [|[|[|[|[|o]]]]]; try reflexivity. lia. Qed.
Lemma hr_visits o u : visits hr plain_xs o u -> o < 5 -> u < 5.
Proof.
  induction 1 as [o|o t k p u M E V IH|o t it u M E V IH|o t a u M E V IH]; intro L; [exact L| | |];
    apply IH; apply hr_meant in M; try exact L; subst t.
  - destruct o as [|[|[|[|[|o]]]]]; try discriminate E; [|lia]. apply sget_In in E. cbn in E.
    repeat (destruct E as [E|E]; [injection E as _ <-; repeat constructor|]). destruct E.
  - destruct o as [|[|[|[|[|o]]]]]; try discriminate E; [|lia]. injection E as <-. repeat constructor.
  - destruct o as [|[|[|[|[|o]]]]]; try discriminate E. lia.
Qed.
Example c46_ex_sound email_ok opt : object_template opt = [] -> all_sound email_ok hr plain_xs opt 0.
Proof.
  intros TP p t V M. apply hr_visits in V; [|repeat constructor]. apply hr_meant in M; [|exact V]. subst t.
  destruct p as [|[|[|[|[|p]]]]]; [ | | | | |lia]; clear V;
    refine (conj _ (conj _ (conj _ (conj _ (conj _ (conj _ _))))));
    try solve [intros e []|intro T; discriminate T|intros [T _]; discriminate T].
  - intros _. split; [apply nodupb_ok; reflexivity|]. split; [intros k [<-|[]]; reflexivity|]. rewrite TP. split; [discriminate|].
    discriminate.
  - intros _ _. split; [split; intros q E; injection E as <-; discriminate|]. discriminate.
  - intros _. split; [intros n E; injection E as <-; lia|reflexivity].
  - intros _. split; [intros n E; injection E as <-; lia|]. intros [_ (f & _ & E)]. discriminate E.
  - intros _. split; [discriminate|]. intros _ _. now split.
Qed.
Example c46_ex_takes (acc : nat -> value -> Prop) : all_take hr plain_xs acc 0.
Proof.
  intros p t V M. apply hr_visits in V; [|repeat constructor].
  assert (t = p) as ->.
  { apply hr_meant; [exact V|]. exists t. split; [exact M|reflexivity]. }
  destruct p as [|[|[|[|[|p]]]]]; [ | | | | |lia]; clear V;
    refine (conj eq_refl (conj eq_refl (conj _ (conj _ (conj _ _)))));
    try solve [apply nodupb_ok; reflexivity|intros k [<-|[]]; reflexivity|intros k []|discriminate].
  intros k p E. apply sget_In in E. cbn in E. repeat (destruct E as [E|E]; [injection E as _ <-; discriminate|]). destruct E.
Qed.
Example c46_ex_ready date_at datetime_at : ready date_at datetime_at hr plain_xs default_options 0.
Proof.
  assert (M : forall o, o < 5 -> meant hr plain_xs o o) by (intros o L; exists o; split; [now apply hr_target|reflexivity]).
  eapply ready_object with (t := 0); [apply M; lia|reflexivity|reflexivity| |discriminate].
  intros k p E. cbn in E. repeat (destruct E as [E|E]; [injection E as _ <-|]); [| | |destruct E].
  - eapply ready_integer with (t := 1); [apply M; lia|reflexivity|now left|]. split; [split; intros q E; injection E as <-; discriminate|].
    split; [now exists 1%Z|]. split; [now exists 10%Z|]. discriminate.
  - eapply ready_array with (t := 2) (it := 3); [apply M; lia|reflexivity|reflexivity| | | |].
    + eapply ready_text with (t := 3); [apply M; lia|split; [reflexivity|now left]|discriminate|intros n E; injection E as <-; lia|].
      cbn. lia.
    + intros n E; injection E as <-; lia.
    + intros n E; injection E as <-; lia.
    + cbn. lia.
  - eapply ready_email with (t := 4); [apply M; lia|]. split; [reflexivity|]. eexists. split; [now left|reflexivity].
Qed.
Definition rps : list rparam :=
  [RParam (lit "id") true false None 1; RParam (lit "body") true true (Some 0) 0; RParam (lit "tags") false false None 2].
Example c46_ex_all : (do d <- out (render_all count_up no_date no_datetime no_uuid (0, 1)%Q (0, 1)%Q hr plain_xs default_options 9 rps [lit "id"] 0);
  Ok (map fst d)) = Ok [lit "body"].
Proof. vm_compute. reflexivity. Qed.
Example c46_ex_all_ready date_at datetime_at : Forall (ready_param date_at datetime_at hr plain_xs default_options)
  [RParam (lit "body") true true (Some 0) 0].
Proof. constructor; [|constructor]. exists 0. split; [reflexivity|apply c46_ex_ready]. Qed.

(** ** What does not hold *)
Definition run0 (h : list schema) := produce (fun _ => Err ValueError) (fun _ => Err ValueError) (fun _ => []) no_date no_datetime no_uuid (fun _ => true) h.
Definition one (s : schema) : list schema := [s].
(** A listed value that counts as false is not used: something else is made up. *)
Theorem c46_falsy_enum_refuted : exists s rnd v, s_enum s <> [] /\
  make rnd (one s) plain_xs default_options 5 0 = Ok v /\ ~ In v (s_enum s).
Proof.
  exists (bounded_schema "integer" None None None false [VInt 0]), (fun _ => 5%N). eexists. split; [discriminate|].
  split; [vm_compute; reflexivity|]. intros [E|[]]. discriminate E.
Qed.
Print Assumptions c46_falsy_enum_refuted.
(** The same with a text: the factory refuses what was made. *)
Theorem c46_falsy_enum_accepted_refuted : exists s rnd v, 
  make rnd (one s) plain_xs default_options 5 0 = Ok v /\ forall n, run0 (one s) (S n) 0 v (new_ctx true) = Err ValidationError.
Proof.
  exists (text_schema None None [VStr []] []), (fun i => if Nat.eqb i 1 then 1%N else 0%N). eexists.
  split; [vm_compute; reflexivity|]. intro n. vm_compute. reflexivity.
Qed.
Print Assumptions c46_falsy_enum_accepted_refuted.
(** A bound of 0 is taken for no bound. *)
Theorem c46_zero_bound_refuted : exists s rnd v, s_max s = Some 0%Q /\ s_exmax s = false /\
  make rnd (one s) plain_xs default_options 5 0 = Ok v /\ forall n, run0 (one s) (S n) 0 v (new_ctx true) = Err ValidationError.
Proof.
  exists (bounded_schema "integer" None (Some 0%Q) None false []), (fun _ => (2 ^ 30 + 1)%N). eexists.
  split; [reflexivity|]. split; [reflexivity|]. split; [vm_compute; reflexivity|]. intro n. vm_compute. reflexivity.
Qed.
Print Assumptions c46_zero_bound_refuted.
(** Rounding down to a multiple can go below the minimum, although a multiple lies within
    the bounds. *)
Theorem c46_multiple_refuted : exists s rnd v, conforms (fun _ => true) (one s) plain_xs 0 (VInt 6) /\
  make rnd (one s) plain_xs default_options 5 0 = Ok v /\ forall n, run0 (one s) (S n) 0 v (new_ctx true) = Err ValidationError.
Proof.
  exists (bounded_schema "integer" (Some 4%Q) (Some 6%Q) (Some 3%Q) false []), (fun _ => 0%N). eexists.
  split; [|split; [vm_compute; reflexivity|intro n; vm_compute; reflexivity]].
  eapply conf_integer with (t := 0); [exists 0; split; [split; [constructor|reflexivity]|reflexivity]|reflexivity|now left| |].
  - split; intros m E; injection E as <-; discriminate.
  - intros m E _. injection E as <-. now exists 2%Z.
Qed.
Print Assumptions c46_multiple_refuted.
(** An object with a schema for further properties and no minProperties cannot be rendered. *)
Theorem c46_additional_refuted : exists h, conforms (fun _ => true) h plain_xs 0 (VDict []) /\
  forall rnd opt fuel, make rnd h plain_xs opt (S fuel) 0 = Err TypeError.
Proof.
  exists [obj_schema (Some (lit "object")) (lit "A") [] [] [] (ASchema 1) None; text_schema None None [] []].
  split; [|intros; reflexivity].
  eapply conf_object with (t := 0); [exists 0; split; [split; [constructor|reflexivity]|reflexivity]|reflexivity|reflexivity|constructor|intros k []| |]; discriminate.
Qed.
Print Assumptions c46_additional_refuted.
(** A made-up property name can be that of a declared property that was left out. *)
Theorem c46_collision_refuted : exists h xs rnd v,
  make rnd h xs default_options 5 0 = Ok v /\ forall n, run0 h (S (S n)) 0 v (new_ctx true) = Err ValueError.
Proof.
  exists [obj_schema (Some (lit "object")) (lit "A") [] [] [(lit "a", 1)] (ASchema 2) None;
          bounded_schema "integer" None None None false []; text_schema None None [] []],
    (fun i => More (Some 1%Z) None None),
    (fun i => match i with 2 => 1%N | 4 => 1%N | _ => 0%N end).
  eexists. split; [vm_compute; reflexivity|]. intro n. vm_compute. reflexivity.
Qed.
Print Assumptions c46_collision_refuted.
(** maxProperties is not kept when more properties are required. *)
Theorem c46_max_properties_refuted : exists h xs d, x_maxprops (xs 0) = Some 1%Z /\ length d = 2 /\
  forall rnd, make rnd h xs (Options 64 32 100 100 100 200 true true [] [(lit "a", VInt 1); (lit "b", VInt 2)] [] false false) 5 0 = Ok (VDict d).
Proof.
  exists [obj_schema (Some (lit "object")) (lit "A") [] [] [(lit "a", 1); (lit "b", 1)] (ABool true) None;
          bounded_schema "integer" None None None false []], (fun i => More None (Some 1%Z) None), [(lit "a", VInt 1); (lit "b", VInt 2)].
  split; [reflexivity|]. split; [reflexivity|]. intro rnd. vm_compute. reflexivity.
Qed.
Print Assumptions c46_max_properties_refuted.
(** uniqueItems is not looked at: the factory drops the duplicates and finds too few. *)
Theorem c46_unique_refuted : exists h rnd v,
  make rnd h plain_xs default_options 5 0 = Ok v /\ forall n, run0 h (S (S n)) 0 v (new_ctx true) = Err ValidationError.
Proof.
  exists [array_schema (Some 1) (Some 2%Z) (Some 2%Z) true None; bounded_schema "integer" None None None false [VInt 7; VInt 8]], (fun _ => 0%N).
  eexists. split; [vm_compute; reflexivity|]. intro n. vm_compute. reflexivity.
Qed.
Print Assumptions c46_unique_refuted.
(** A read-only property is rendered; the factory refuses it when writing. *)
Theorem c46_readonly_refuted : exists h rnd v,
  make rnd h plain_xs default_options 5 0 = Ok v /\ forall n e c, run0 h (S (S n)) 0 v (new_ctx false) = Ok (e, c) -> False.
Proof.
  exists [obj_schema (Some (lit "object")) (lit "A") [lit "id"] [] [(lit "id", 1)] (ABool true) None; ro_schema VNull false true None], (fun _ => 0%N).
  eexists. split; [vm_compute; reflexivity|]. intros n e c E. vm_compute in E. discriminate E.
Qed.
Print Assumptions c46_readonly_refuted.
(** A schema that 5 satisfies but for which the generator tries for ever. *)
Lemma trunc_small q : (0 <= q)%Q -> (q < 1)%Q -> q_trunc q = 0%Z.
Proof. intros A B. unfold q_trunc. unfold Qle, Qlt in *. cbn in *. apply Z.quot_small. lia. Qed.
Theorem c46_endless_refuted : exists s, conforms (fun _ => true) (one s) plain_xs 0 (VFloat 5%Q) /\
  forall rnd opt fuel, make rnd (one s) plain_xs opt fuel 0 = Err OutOfFuel.
Proof.
  exists (bounded_schema "number" (Some 4%Q) (Some 5%Q) (Some 5%Q) true []). split.
  - eapply conf_number with (t := 0) (q := 5%Q); [exists 0; split; [split; [constructor|reflexivity]|reflexivity]| |now left|now left| |].
    + split; [reflexivity|]. intros (f & _ & E). discriminate E.
    + split; intros m E; injection E as <-; [discriminate|reflexivity].
    + intros m E _. injection E as <-. now exists 1%Z.
  - intros rnd opt [|fuel]; [reflexivity|]. unfold make.
    assert (L : forall n i, float_loop rnd n (bounded_schema "number" (Some 4%Q) (Some 5%Q) (Some 5%Q) true []) 4 5 i = Err OutOfFuel).
    { induction n as [|n IH]; intro i; [reflexivity|]. cbn [float_loop]. unfold gbind at 1.
      destruct (random01 rnd i) as [[u j]|e] eqn:R; [|discriminate R]. apply random01_ok in R as [U0 U1].
      cbn [s_multiple bounded_schema]. replace (Qeq_bool 5 0) with false by reflexivity.
      rewrite trunc_small.
      - cbn [s_exmin bounded_schema]. replace (Qle_bool (inject_Z 0 * 5) 4) with true by reflexivity. apply IH.
      - apply Qle_shift_div_l; [reflexivity|]. setoid_replace (4 + (5 - 4) * u)%Q with (4 + u)%Q by ring.
        apply Qle_trans with 4%Q; [discriminate|]. rewrite <- (Qplus_0_r 4) at 1. apply Qplus_le_compat; [apply Qle_refl|exact U0].
      - apply Qlt_shift_div_r; [reflexivity|]. setoid_replace (4 + (5 - 4) * u)%Q with (u + 4)%Q by ring.
        setoid_replace (1 * 5)%Q with (1 + 4)%Q by reflexivity. apply Qplus_lt_le_compat; [exact U1|apply Qle_refl]. }
    cbn [generate]. unfold generate_step, gbind. cbn -[float_loop]. unfold gen_float, gbind. cbn -[float_loop]. now rewrite L.
Qed.
Print Assumptions c46_endless_refuted.
