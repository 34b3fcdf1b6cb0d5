(** C60: a value becomes what the type and format of its schema say. *)
From Coq Require Import QArith Qabs Lia.
From Verif Require Import PyBase PyFacts M_Graph S_Graph P_Graph M_Quote M_Time S_Time M_Prim M_PrimText S_Prim S_PrimKinds P_Op P_Prim
  P_PrimLeaf T_PrimLeaf P_Time T_Time.
Close Scope Q_scope.
Open Scope nat_scope.

Lemma cut_quot q : cut q (Z.quot (Qnum q) (Zpos (Qden q))).
Proof.
  destruct q as [a b]. unfold cut. cbn [Qnum Qden].
  destruct (Qle_bool 0 (a # b)) eqn:E.
  - apply Qle_bool_iff in E. unfold Qle in E. cbn in E. rewrite Z.mul_1_r in E.
    assert (E' : (0 <= a)%Z) by lia.
    pose proof (Z.quot_rem a (Zpos b) ltac:(discriminate)) as D.
    pose proof (Z.rem_bound_pos a (Zpos b) E' ltac:(reflexivity)) as R.
    unfold Qle, Qlt, inject_Z. cbn [Qnum Qden]. rewrite !Z.mul_1_r. split; nia.
  - assert (E' : (a < 0)%Z).
    { destruct (Z.ltb_spec a 0); auto. exfalso.
      assert (X : Qle_bool 0 (a # b) = true) by (apply Qle_bool_iff; unfold Qle; cbn; lia). congruence. }
    pose proof (Z.quot_rem a (Zpos b) ltac:(discriminate)) as D.
    assert (R' : (- Zpos b < Z.rem a (Zpos b) <= 0)%Z).
    { pose proof (Z.rem_bound_pos (-a) (Zpos b) ltac:(lia) ltac:(reflexivity)) as R1.
      rewrite Z.rem_opp_l in R1 by discriminate. lia. }
    unfold Qle, Qlt, inject_Z. cbn [Qnum Qden]. rewrite !Z.mul_1_r. split; nia.
Qed.
Lemma big_endian_fold s : forall acc,
  fold_left (fun acc c => acc * 256 + Z.of_N (N_of_ascii c))%Z s acc = (acc * 256 ^ Z.of_nat (length s) + big_endian s)%Z.
Proof.
  induction s as [|c s IH]; intro acc; cbn [fold_left big_endian length]; [cbn; lia|].
  rewrite IH, Nat2Z.inj_succ, Z.pow_succ_r by lia. lia.
Qed.
Lemma truthy_empty v : truthy v = false <-> empty_value v.
Proof.
  destruct v; cbn; try easy.
  - now rewrite Bool.negb_false_iff, Z.eqb_eq.
  - now rewrite Bool.negb_false_iff, Qeq_bool_iff.
  - now destruct s.
  - now destruct s.
  - now destruct l.
  - now destruct d.
Qed.
Lemma v_eqb_empty v : v_eqb v (VStr []) = true <-> v = VStr [].
Proof.
  destruct v; cbn; try easy. destruct s; cbn; easy.
Qed.

Section Any.
(** For any behaviour of the parts of Python that are not modelled (see M_Prim.v). *)
Context (int_of : str -> res Z) (float_of : str -> res Q) (str_of : value -> str)
  (date_at : Q -> res (Z * Z * Z)) (datetime_at : Q -> res datetime)
  (uuid_of : str -> option Z) (email_ok : str -> bool) (h : list schema).
Notation produce := (produce int_of float_of str_of date_at datetime_at uuid_of email_ok h).

(** ** Numbers *)
(** An integer schema: an int is itself, True and False are 1 and 0, a float loses its
    fraction, and a text is read by [int]. *)
Theorem c60_integer : forall n o t v rd r c, target h o t -> integer_kind (sch h t) -> members (sch h t) = [] ->
  effective h o v <> VNull -> produce (S n) o v (new_ctx rd) = Ok (r, c) ->
  exists z, r = PInt z /\
  match effective h o v with
  | VInt x => z = x
  | VBool b => z = (if b then 1 else 0)%Z
  | VFloat q => cut q z
  | VStr s | VBytes s => int_of s = Ok z
  | _ => False
  end.
Proof.
  intros n o t v rd r c T K M N E.
  destruct (proj1 (c26_integer int_of float_of str_of date_at datetime_at uuid_of email_ok h n o t v rd r T K N (or_introl M)))
    as (z & EZ & -> & _); [eauto|]. exists z. split; [reflexivity|].
  destruct (effective h o v); cbn in EZ; try discriminate EZ; try now injection EZ.
  injection EZ as <-. apply cut_quot. all: exact EZ.
Qed.
Theorem c60_number : forall n o t v rd r c, target h o t -> number_kind (sch h t) -> members (sch h t) = [] ->
  effective h o v <> VNull -> produce (S n) o v (new_ctx rd) = Ok (r, c) ->
  exists q, r = PFloat q /\
  match effective h o v with
  | VInt x => q = inject_Z x
  | VBool b => q = (if b then 1 else 0)%Q
  | VFloat x => q = x
  | VStr s | VBytes s => float_of s = Ok q
  | _ => False
  end.
Proof.
  intros n o t v rd r c T K M N E.
  destruct (proj1 (c26_number int_of float_of str_of date_at datetime_at uuid_of email_ok h n o t v rd r T K N (or_introl M)))
    as (z & EZ & -> & _); [eauto|]. exists z. split; [reflexivity|].
  destruct (effective h o v); cbn in EZ; try discriminate EZ; try now injection EZ. all: exact EZ.
Qed.
(** A boolean schema takes every value, and asks whether it is empty. *)
Theorem c60_boolean : forall n o t v rd, target h o t -> typed (sch h t) "boolean" -> members (sch h t) = [] ->
  effective h o v <> VNull ->
  exists b c, produce (S n) o v (new_ctx rd) = Ok (PBool b, c) /\ (b = false <-> empty_value (effective h o v)).
Proof.
  intros n o t v rd T K M N.
  assert (N' : is_null (effective h o v) = false) by (destruct (effective h o v); easy).
  exists (truthy (effective h o v)). eexists. split; [|apply truthy_empty].
  rewrite (produce_some _ _ _ _ _ _ _ _ n o t v (new_ctx rd) T N'); [|intros []].
  assert (G : get (s_type (sch h t)) (s_format (sch h t)) = (Some CrBool, None)) by (rewrite K; reflexivity).
  unfold start. destruct (typed_some _ _ K) as (a & x & ET); [discriminate|]. rewrite G, ET. cbn [create bind].
  apply finish_no_member; [reflexivity|exact M].
Qed.

(** In a URL it is True or False. *)
Theorem c60_boolean_sent : forall decode show_other n o t v rd, target h o t -> typed (sch h t) "boolean" -> members (sch h t) = [] ->
  effective h o v <> VNull ->
  exists p c, produce (S n) o v (new_ctx rd) = Ok (p, c) /\
    (empty_value (effective h o v) -> show decode show_other p = Ok (lit "False")) /\
    (~ empty_value (effective h o v) -> show decode show_other p = Ok (lit "True")).
Proof.
  intros de so n o t v rd T K M N. destruct (c60_boolean n o t v rd T K M N) as (b & c & E & B).
  exists (PBool b), c. split; [exact E|]. destruct b; split; intro X; try reflexivity.
  - apply B in X. discriminate X.
  - destruct X. now apply B.
Qed.

(** ** Objects that are filled in *)
Lemma filled n o t v rd cl r0 : target h o t -> effective h o v <> VNull ->
  get (s_type (sch h t)) (s_format (sch h t)) = (Some (CrObj cl), Some S2Obj) ->
  s_type (sch h t) <> None -> s_type (sch h t) <> Some [] ->
  create int_of float_of str_of (CrObj cl) (sch h t) (effective h o v) = Ok r0 ->
  produce (Datatypes.S n) o v (new_ctx rd) =
  do x <- apply_obj date_at datetime_at uuid_of h (produce n) r0 t (effective h o v) (ctx1 h t (new_ctx rd));
  let '(r, v, c) := x in finish date_at datetime_at uuid_of email_ok h (produce n) (sch h t) r v (set_2nd (Some S2Obj) c).
Proof.
  intros T N G T1 T2 C.
  assert (N' : is_null (effective h o v) = false) by (destruct (effective h o v); easy).
  rewrite (produce_some _ _ _ _ _ _ _ _ n o t v (new_ctx rd) T N'); [|intros []].
  unfold start. destruct (s_type (sch h t)) as [[|a ty]|] eqn:ET; try contradiction.
  rewrite G, C. cbn [bind run_2nd]. fold (ctx1 h t (new_ctx rd)).
  destruct (apply_obj _ _ _ _ _ _ _ _ _) as [[[r1 v1] c1]|e]; reflexivity.
Qed.
Lemma get_string s f : typed s "string" -> s_format s = Some (lit f) ->
  get (s_type s) (s_format s) = get (Some (lit "string")) (Some (lit f)).
Proof. intros K EF. now rewrite K, EF. Qed.

(** A date schema: a float is a timestamp, a date or date-time is itself, and a text is
    read as C10 and C11 say. *)
Theorem c60_date : forall n o t v rd, target h o t -> typed (sch h t) "string" ->
  format_in (sch h t) ["date"%string] -> effective h o v <> VNull ->
  match effective h o v with
  | VFloat q => forall y m d, date_at q = Ok (y, m, d) -> exists c, produce (S n) o v (new_ctx rd) = Ok (PDate y m d, c)
  | VDate y m d => exists c, produce (S n) o v (new_ctx rd) = Ok (PDate y m d, c)
  | VDatetime d => exists c, produce (S n) o v (new_ctx rd) = Ok (PDatetime d, c)
  | VStr s => (forall x, from_iso8601 s = Ok x -> exists c, produce (S n) o v (new_ctx rd) = Ok (PDate (year x) (month x) (day x), c)) /\
              (forall e, from_iso8601 s = Err e -> produce (S n) o v (new_ctx rd) = Err e)
  | _ => produce (S n) o v (new_ctx rd) = Err ValueError
  end.
Proof.
  intros n o t v rd T K (f & [<-|[]] & EF) N.
  assert (G := get_string _ _ K EF). cbn in G.
  rewrite (filled n o t v rd CDate (PDate 0 0 0) T N G); try (rewrite K; discriminate); [|reflexivity].
  cbn [apply_obj]. destruct (effective h o v); cbn [date_of bind]; try reflexivity; try (eexists; reflexivity).
  - intros y m d E. rewrite E. cbn [bind]. eexists. reflexivity.
  - unfold date_of_text. split; [intros x E|intros e E]; rewrite E; cbn [bind]; [eexists|]; reflexivity.
Qed.
(** A date-time schema. *)
Theorem c60_datetime : forall n o t v rd, target h o t -> typed (sch h t) "string" ->
  format_in (sch h t) ["date-time"%string] -> effective h o v <> VNull ->
  match effective h o v with
  | VFloat q => forall d, datetime_at q = Ok d -> exists c, produce (S n) o v (new_ctx rd) = Ok (PDatetime d, c)
  | VDatetime d => exists c, produce (S n) o v (new_ctx rd) = Ok (PDatetime d, c)
  | VStr s => (forall d, from_iso8601 s = Ok d -> exists c, produce (S n) o v (new_ctx rd) = Ok (PDatetime d, c)) /\
              (forall e, from_iso8601 s = Err e -> produce (S n) o v (new_ctx rd) = Err e)
  | _ => produce (S n) o v (new_ctx rd) = Err ValueError
  end.
Proof.
  intros n o t v rd T K (f & [<-|[]] & EF) N.
  assert (G := get_string _ _ K EF). cbn in G.
  rewrite (filled n o t v rd CDatetime (PDatetime (DT 0 0 0 0 0 0 0 None)) T N G); try (rewrite K; discriminate); [|reflexivity].
  cbn [apply_obj]. destruct (effective h o v); cbn [datetime_of bind]; try reflexivity; try (eexists; reflexivity).
  - intros d E. rewrite E. cbn [bind]. eexists. reflexivity.
  - unfold datetime_of_text. split; [intros x E|intros e E]; rewrite E; cbn [bind]; [eexists|]; reflexivity.
Qed.
(** Dates and date-times survive being sent as text and read back. *)
Theorem c60_date_back : forall decode show_other n o t y m d s rd, target h o t -> typed (sch h t) "string" ->
  format_in (sch h t) ["date"%string] -> valid_date y m d ->
  show decode show_other (PDate y m d) = Ok s \/ to_json show_other (PDate y m d) = Some s ->
  exists c, produce (S n) o (VStr s) (new_ctx rd) = Ok (PDate y m d, c).
Proof.
  intros decode so n o t y m d s rd T K F V SH.
  assert (s = iso_date y m d) as -> by (destruct SH as [E|E]; cbn [show to_json] in E; now injection E).
  pose proof (c60_date n o t (VStr (iso_date y m d)) rd T K F ltac:(discriminate)) as X. cbn [effective] in X.
  pose proof (c10_date y m d V) as D. unfold date_of_text in D.
  destruct (from_iso8601 (iso_date y m d)) as [x|e]; [|discriminate]. cbn in D.
  destruct (proj1 X x eq_refl) as [c Y]. exists c. rewrite Y. now injection D as -> -> ->.
Qed.
Theorem c60_datetime_back : forall decode show_other n o t d s rd, target h o t -> typed (sch h t) "string" ->
  format_in (sch h t) ["date-time"%string] -> valid d -> (forall z, tz d = Some z -> (Z.abs z < 24 * 60)%Z) ->
  show decode show_other (PDatetime d) = Ok s \/ to_json show_other (PDatetime d) = Some s ->
  exists c, produce (S n) o (VStr s) (new_ctx rd) = Ok (PDatetime d, c).
Proof.
  intros decode so n o t d s rd T K F V Z SH.
  assert (s = isoformat d) as -> by (destruct SH as [E|E]; cbn [show to_json] in E; now injection E).
  pose proof (c60_datetime n o t (VStr (isoformat d)) rd T K F ltac:(discriminate)) as X. cbn [effective] in X.
  apply (proj1 X). exact (c10_datetime d V Z).
Qed.

(** A UUID schema: a UUID is itself, a text is read by uuid.UUID, and 16 bytes are a number.
    A text of 16 characters that is no UUID fails in an assertion of the library. *)
Theorem c60_uuid : forall n o t v rd, target h o t -> typed (sch h t) "string" ->
  format_in (sch h t) ["uuid"%string] -> members (sch h t) = [] -> effective h o v <> VNull ->
  match effective h o v with
  | VUuid z => exists c, produce (S n) o v (new_ctx rd) = Ok (PUuid z, c)
  | VStr s => match uuid_of s with
              | Some z => exists c, produce (S n) o v (new_ctx rd) = Ok (PUuid z, c)
              | None => produce (S n) o v (new_ctx rd) = Err (if Nat.eqb (length s) 16 then GenericException else ValueError)
              end
  | VBytes s => if Nat.eqb (length s) 16 then exists c, produce (S n) o v (new_ctx rd) = Ok (PUuid (big_endian s), c)
                else produce (S n) o v (new_ctx rd) = Err ValueError
  | _ => produce (S n) o v (new_ctx rd) = Err ValueError
  end.
Proof.
  intros n o t v rd T K (f & [<-|[]] & EF) M N.
  assert (G := get_string _ _ K EF). cbn in G.
  assert (FI : forall z v c, finish date_at datetime_at uuid_of email_ok h (produce n) (sch h t) (PUuid z) v c = Ok (PUuid z, c)).
  { intros z w c. unfold finish, members in *. cbn [final_kind]. destruct (s_full (sch h t)); [rewrite M|]; reflexivity. }
  rewrite (filled n o t v rd CUuid (PUuid 0) T N G); try (rewrite K; discriminate); [|reflexivity].
  cbn [apply_obj]. destruct (effective h o v); cbn [uuid_val bind]; try reflexivity.
  - destruct (uuid_of s); cbn [bind]; [rewrite FI; eauto|]. now destruct (Nat.eqb (length s) 16).
  - unfold uuid_bytes. destruct (Nat.eqb (length s) 16); cbn [bind]; [|reflexivity].
    rewrite FI, big_endian_fold. cbn. eauto.
  - rewrite FI. eauto.
Qed.

(** A file schema: a dict with header, data and filename, one of the last two present. *)
Theorem c60_file : forall n o t v d rd, target h o t -> typed (sch h t) "file" -> effective h o v = VDict d ->
  let data := entry "data" d VNull in let name := entry "filename" d (VStr []) in
  (data = VNull /\ name = VStr [] -> produce (S n) o v (new_ctx rd) = Err ValidationError) /\
  (~ (data = VNull /\ name = VStr []) ->
   exists c, produce (S n) o v (new_ctx rd) = Ok (PFile (entry "header" d (VDict [])) data name, c)).
Proof.
  intros n o t v d rd T K EV data name.
  assert (G : get (s_type (sch h t)) (s_format (sch h t)) = (Some (CrObj CFile), Some S2Obj)) by (rewrite K; reflexivity).
  rewrite (filled n o t v rd CFile (PFile VNull VNull VNull) T); try (rewrite K; discriminate); try congruence; [|reflexivity].
  rewrite EV. cbn [apply_obj]. unfold file_of. fold (entry "data" d VNull) (entry "filename" d (VStr [])) (entry "header" d (VDict [])).
  fold data name. split.
  - intros [D E]. rewrite (proj2 (v_eqb_empty name) E), D. reflexivity.
  - intro NE. destruct (is_null data && v_eqb name (VStr [])) eqn:B; [|cbn [bind]; eexists; reflexivity].
    apply andb_prop in B as [B1 B2]. apply v_eqb_empty in B2. destruct NE. split; [|exact B2]. now destruct data.
Qed.
Theorem c60_file_refused : forall n o t v rd, target h o t -> typed (sch h t) "file" -> effective h o v <> VNull ->
  (forall d, effective h o v <> VDict d) -> produce (S n) o v (new_ctx rd) = Err AttributeError.
Proof.
  intros n o t v rd T K N ND.
  assert (G : get (s_type (sch h t)) (s_format (sch h t)) = (Some (CrObj CFile), Some S2Obj)) by (rewrite K; reflexivity).
  rewrite (filled n o t v rd CFile (PFile VNull VNull VNull) T N G); try (rewrite K; discriminate); [|reflexivity].
  cbn [apply_obj]. destruct (effective h o v) eqn:E; try reflexivity. now destruct (ND d).
Qed.

(** An unknown type is refused. *)
Theorem c60_unknown : forall n o t ty v rd, target h o t -> s_type (sch h t) = Some ty -> ty <> [] -> ~ In ty (map lit types) ->
  effective h o v <> VNull -> produce (S n) o v (new_ctx rd) = Err ValueError.
Proof.
  intros n o t ty v rd T K NE U N.
  assert (N' : is_null (effective h o v) = false) by (destruct (effective h o v); easy).
  rewrite (produce_some _ _ _ _ _ _ _ _ n o t v (new_ctx rd) T N'); [|intros []].
  destruct ty as [|a ty]; [contradiction|].
  assert (G : get (s_type (sch h t)) (s_format (sch h t)) = (None, None)).
  { rewrite K. assert (X : forall s, In s types -> str_eqb (a :: ty) (lit s) = false).
    { intros s IN. apply str_eqb_lit_false. intro E. apply U. rewrite E. now apply in_map. }
    unfold get. rewrite !X by (cbn; tauto). reflexivity. }
  unfold start. rewrite G, K. reflexivity.
Qed.
(** None is None unless there is a default. *)
Theorem c60_none : forall n o v rd, effective h o v = VNull -> produce (S n) o v (new_ctx rd) = Ok (PNone, new_ctx rd).
Proof.
  intros n o v rd E. cbn [M_Prim.produce]. unfold produce_step.
  replace (if is_null v then s_default (sch h o) else v) with (effective h o v) by (destruct v; reflexivity).
  now rewrite E.
Qed.
End Any.
Print Assumptions c60_integer.
Print Assumptions c60_number.
Print Assumptions c60_boolean.
Print Assumptions c60_boolean_sent.
Print Assumptions c60_date.
Print Assumptions c60_datetime.
Print Assumptions c60_date_back.
Print Assumptions c60_datetime_back.
Print Assumptions c60_uuid.
Print Assumptions c60_file.
Print Assumptions c60_file_refused.
Print Assumptions c60_unknown.
Print Assumptions c60_none.

(** ** Concrete cases *)
Notation fmt f := [text_schema (Some (lit f)) None [] []].
Notation ty t := [num_schema (Some (lit t)) None None None ANone []].
Example c60_ex_target : target (fmt "date") 0 0 /\ typed (sch (fmt "date") 0) "string" /\ format_in (sch (fmt "date") 0) ["date"%string].
Proof. split; [now apply target_refl|]. split; [reflexivity|]. eexists. split; [now left|reflexivity]. Qed.
Example c60_ex_int : out (run (ty "integer") 5 0 (VFloat (-7 # 2)) (new_ctx true)) = Ok (PInt (-3)) /\ cut (-7 # 2) (-3).
Proof. split; [reflexivity|]. split; reflexivity || discriminate. Qed.
Example c60_ex_bool : out (run (ty "boolean") 5 0 (VStr (lit "false")) (new_ctx true)) = Ok (PBool true).
Proof. reflexivity. Qed.
Example c60_ex_date : out (run (fmt "date") 5 0 (VStr (lit "2020-02-29")) (new_ctx true)) = Ok (PDate 2020 2 29).
Proof. vm_compute. reflexivity. Qed.
Example c60_ex_uuid : out (run (fmt "uuid") 5 0 (VBytes (lit "0123456789abcdef")) (new_ctx true))
  = Ok (PUuid 64058384521018188869745042196707698022).
Proof. vm_compute. reflexivity. Qed.
Example c60_ex_file : out (run (ty "file") 5 0 (VDict [(lit "filename", VStr (lit "a.txt"))]) (new_ctx true))
  = Ok (PFile (VDict []) VNull (VStr (lit "a.txt"))).
Proof. reflexivity. Qed.
Example c60_ex_unknown : run (ty "null") 5 0 (VInt 1) (new_ctx true) = Err ValueError.
Proof. reflexivity. Qed.

(** What does not hold: a date made from a date-time is sent with the time of day. *)
Theorem c60_date_only_refuted : exists h o d p s c, typed (sch h o) "string" /\ format_in (sch h o) ["date"%string] /\
  valid d /\ run h 5 o (VDatetime d) (new_ctx true) = Ok (p, c) /\
  to_json (fun _ => []) p = Some s /\ forall y m dd, s <> iso_date y m dd.
Proof.
  exists (fmt "date"), 0, (DT 2020 1 2 3 4 5 0 None). eexists _, _, _.
  split; [reflexivity|]. split; [eexists; split; [now left|reflexivity]|].
  split; [apply check_valid; vm_compute; reflexivity|]. split; [vm_compute; reflexivity|]. split; [vm_compute; reflexivity|].
  intros y m dd E.
  apply (f_equal (@length ascii)) in E. revert E. unfold iso_date.
  rewrite app_length. cbn [length]. rewrite app_length. cbn [length].
  rewrite (proj1 (pad_digits 4 y)), (proj1 (pad_digits 2 m)), (proj1 (pad_digits 2 dd)). discriminate.
Qed.
Print Assumptions c60_date_only_refuted.
(** A UUID schema with allOf refuses every value: the members are given None. *)
Theorem c60_uuid_members_refuted : exists h o a, typed (sch h o) "string" /\ format_in (sch h o) ["uuid"%string] /\
  members (sch h o) = [a] /\ s_type (sch h a) = Some (lit "string") /\
  forall n z rd, run h n o (VUuid z) (new_ctx rd) = Err (match n with O => OutOfFuel | _ => ValueError end).
Proof.
  exists [text_schema (Some (lit "uuid")) None [] [1]; text_schema None None [] []], 0, 1.
  split; [reflexivity|]. split; [eexists; split; [now left|reflexivity]|]. split; [reflexivity|]. split; [reflexivity|].
  intros n z rd. destruct n as [|n]; [reflexivity|].
  vm_compute. reflexivity.
Qed.
Print Assumptions c60_uuid_members_refuted.
