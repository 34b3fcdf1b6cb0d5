(** C26 (numeric primitives) and C27 (string primitives). *)
From Coq Require Import QArith.
From Verif Require Import PyBase PyFacts M_Graph S_Graph P_Graph M_Time M_Prim S_Prim P_Prim P_PrimLeaf.
Close Scope Q_scope.
Open Scope nat_scope.

Section Any.
(** For any behaviour of the parts of Python that are not modelled (see M_Prim.v). *)
Context (int_of : str -> res Z) (float_of : str -> res Q) (str_of : value -> str)
  (date_at : Q -> res (Z * Z * Z)) (datetime_at : Q -> res datetime)
  (uuid_of : str -> option Z) (email_ok : str -> bool) (h : list schema).
Notation produce := (produce int_of float_of str_of date_at datetime_at uuid_of email_ok h).
Notation to_int := (to_int_v int_of).
Notation to_float := (to_float_v float_of).
Notation to_str := (to_str_v str_of).

(** * C26 *)
(** An integer schema accepts exactly the values whose integer lies within its bounds
    and those of every allOf member, and gives that integer. *)
Theorem c26_integer : forall n o t v rd r, target h o t -> integer_kind (sch h t) ->
  effective h o v <> VNull ->
  members (sch h t) = [] \/ to_int (effective h o v) <> Ok 0%Z ->
  (exists c, produce (S n) o v (new_ctx rd) = Ok (r, c)) <->
  exists z, to_int (effective h o v) = Ok z /\ r = PInt z /\ within (sch h t) (inject_Z z) /\
    each_member h (sch h t) (fun a => within a (inject_Z z)).
Proof.
  intros n o t v rd r T K N Z0.
  assert (N' : is_null (effective h o v) = false) by (destruct (effective h o v); easy).
  split.
  - intros [c E]. apply (integer_iff _ _ _ _ _ _ _ _ n o t v (new_ctx rd) r c T) in E as (_ & E); auto.
  - intros E. eexists. apply (integer_iff _ _ _ _ _ _ _ _ n o t v (new_ctx rd) r); auto.
Qed.
Theorem c26_number : forall n o t v rd r, target h o t -> number_kind (sch h t) ->
  effective h o v <> VNull ->
  members (sch h t) = [] \/ (forall q, to_float (effective h o v) = Ok q -> ~ (q == 0)%Q) ->
  (exists c, produce (S n) o v (new_ctx rd) = Ok (r, c)) <->
  exists q, to_float (effective h o v) = Ok q /\ r = PFloat q /\ within (sch h t) q /\ multiple (sch h t) q /\
    each_member h (sch h t) (fun a => within a q /\ multiple a q).
Proof.
  intros n o t v rd r T K N Z0.
  assert (N' : is_null (effective h o v) = false) by (destruct (effective h o v); easy).
  split.
  - intros [c E]. apply (number_iff _ _ _ _ _ _ _ _ n o t v (new_ctx rd) r c T) in E as (_ & E); auto.
  - intros E. eexists. apply (number_iff _ _ _ _ _ _ _ _ n o t v (new_ctx rd) r); auto.
Qed.
(** A violation of the schema's own keywords raises ValidationError. *)
Theorem c26_integer_refused : forall n o t v rd z, target h o t -> integer_kind (sch h t) ->
  effective h o v <> VNull -> to_int (effective h o v) = Ok z -> ~ within (sch h t) (inject_Z z) ->
  produce (S n) o v (new_ctx rd) = Err ValidationError.
Proof.
  intros n o t v rd z T K N TI W. eapply integer_refused; eauto. destruct (effective h o v); easy.
Qed.
Theorem c26_number_refused : forall n o t v rd q, target h o t -> number_kind (sch h t) ->
  effective h o v <> VNull -> to_float (effective h o v) = Ok q ->
  ~ (within (sch h t) q /\ multiple (sch h t) q) ->
  produce (S n) o v (new_ctx rd) = Err ValidationError.
Proof.
  intros n o t v rd z T K N TI W. eapply number_refused; eauto. destruct (effective h o v); easy.
Qed.
(** Zero is no exception for the schema's own bounds, in any context. *)
Theorem c26_integer_own : forall n o t v c z c', target h o t -> integer_kind (sch h t) ->
  produce n o v c = Ok (PInt z, c') -> within (sch h t) (inject_Z z).
Proof. apply integer_own. Qed.
Theorem c26_number_own : forall n o t v c q c', target h o t -> number_kind (sch h t) ->
  produce n o v c = Ok (PFloat q, c') -> within (sch h t) q /\ multiple (sch h t) q.
Proof. apply number_own. Qed.
(** A schema without a type of its own, composed of members without allOf: a number that
    comes out (other than zero) satisfies every member. *)
Theorem c26_composed : forall n o t v c r c', target h o t ->
  s_type (sch h t) = None \/ s_type (sch h t) = Some [] ->
  each_member h (sch h t) (fun a => members a = []) ->
  produce n o v c = Ok (r, c') ->
  match r with
  | PInt z => z <> 0%Z -> each_member h (sch h t) (fun a => within a (inject_Z z))
  | PFloat q => ~ (q == 0)%Q -> each_member h (sch h t) (fun a => within a q /\ multiple a q)
  | _ => True
  end.
Proof.
  intros n o t v c r c' T TY FL E. destruct r as [|b|z|q|s|s|y m d|d|z|a b d|f l|m|x]; try exact I.
  - intro Z0. destruct (untyped_members _ _ _ _ _ _ _ _ n o t v c _ c' T TY FL E) as (f & A & _ & B).
    + exact I.
    + cbn. now apply Z.eqb_neq.
    + destruct f; try contradiction. intros a X. destruct (B a X) as (a' & Y & W). exists a'.
      split; [exact Y|]. now apply (validate_int_spec _ (PInt z) (inject_Z z) eq_refl).
  - intro Z0. destruct (untyped_members _ _ _ _ _ _ _ _ n o t v c _ c' T TY FL E) as (f & A & _ & B).
    + exact I.
    + cbn. destruct (Qeq_bool q 0) eqn:Q0; [apply Qeq_bool_iff in Q0; contradiction|reflexivity].
    + destruct f; try contradiction. intros a X. destruct (B a X) as (a' & Y & W). exists a'.
      split; [exact Y|]. now apply (validate_float_spec _ (PFloat q) q eq_refl).
Qed.

(** * C27 *)
(** A string schema accepts exactly the texts its own keywords and those of every allOf
    member allow, and leaves the text as it is. *)
Theorem c27_text : forall n o t v rd r, target h o t -> text_kind (sch h t) ->
  effective h o v <> VNull -> members (sch h t) = [] \/ to_str (effective h o v) <> [] ->
  (exists c, produce (S n) o v (new_ctx rd) = Ok (r, c)) <->
  r = PStr (to_str (effective h o v)) /\ text_ok (sch h t) (to_str (effective h o v)) /\
  each_member h (sch h t) (fun a => text_ok a (to_str (effective h o v))).
Proof.
  intros n o t v rd r T K N Z0.
  assert (N' : is_null (effective h o v) = false) by (destruct (effective h o v); easy).
  split.
  - intros [c E]. apply (text_iff _ _ _ _ _ _ _ _ n o t v (new_ctx rd) r c T) in E as (_ & E); auto.
  - intros E. eexists. apply (text_iff _ _ _ _ _ _ _ _ n o t v (new_ctx rd) r); auto.
Qed.
Theorem c27_unchanged : forall n o t s rd r c, target h o t -> text_kind (sch h t) ->
  members (sch h t) = [] \/ s <> [] ->
  produce (S n) o (VStr s) (new_ctx rd) = Ok (r, c) -> r = PStr s /\ text_ok (sch h t) s.
Proof.
  intros n o t s rd r c T K Z0 E.
  assert (X : r = PStr s /\ text_ok (sch h t) s /\ each_member h (sch h t) (fun a => text_ok a s)).
  { apply (proj1 (c27_text n o t (VStr s) rd r T K ltac:(discriminate) Z0)). eauto. }
  tauto.
Qed.
Theorem c27_refused : forall n o t v rd, target h o t -> text_kind (sch h t) ->
  effective h o v <> VNull -> ~ text_ok (sch h t) (to_str (effective h o v)) ->
  produce (S n) o v (new_ctx rd) = Err ValidationError.
Proof.
  intros n o t v rd T K N W. eapply text_refused; eauto. destruct (effective h o v); easy.
Qed.
Theorem c27_composed : forall n o t v c s c', target h o t ->
  s_type (sch h t) = None \/ s_type (sch h t) = Some [] ->
  each_member h (sch h t) (fun a => members a = [] /\ ~ format_in a ["email"%string]) ->
  produce n o v c = Ok (PStr s, c') -> s <> [] ->
  each_member h (sch h t) (fun a => text_ok a s).
Proof.
  intros n o t v c s c' T TY FL E Z0.
  assert (FL' : each_member h (sch h t) (fun a => members a = [])).
  { intros a X. destruct (FL a X) as (a' & Y & W & _). eauto. }
  destruct (untyped_members _ _ _ _ _ _ _ _ n o t v c _ c' T TY FL' E) as (f & A & B & C).
  - exact I.
  - cbn. destruct s; easy.
  - destruct f; try contradiction.
    + intros a X. destruct (C a X) as (a' & Y & W). exists a'. split; [exact Y|]. now apply validate_str_spec.
    + exfalso. destruct (B eq_refl) as (a & a' & X & Y & F). destruct (FL a X) as (a2 & Y2 & _ & N).
      apply deref_target in Y, Y2. assert (a2 = a') as -> by congruence.
      apply N. exists "email"%string. split; [now left|exact F].
Qed.
(** With format "email" the text must also pass the external check; the members' string
    keywords are not looked at (see c27_email_members_refuted). *)
Theorem c27_email : forall n o t v rd r, target h o t -> typed (sch h t) "string" ->
  format_in (sch h t) ["email"%string] ->
  effective h o v <> VNull -> to_str (effective h o v) <> [] ->
  (exists c, produce (S n) o v (new_ctx rd) = Ok (r, c)) <->
  r = PStr (to_str (effective h o v)) /\ text_ok (sch h t) (to_str (effective h o v)) /\
  email_ok (to_str (effective h o v)) = true /\ each_member h (sch h t) (fun _ => True).
Proof.
  intros n o t v rd r T K KF N Z0.
  assert (N' : is_null (effective h o v) = false) by (destruct (effective h o v); easy).
  split.
  - intros [c E]. apply (email_iff _ _ _ _ _ _ _ _ n o t v (new_ctx rd) r c T) in E as (_ & E); auto.
  - intros E. eexists. apply (email_iff _ _ _ _ _ _ _ _ n o t v (new_ctx rd) r); auto.
Qed.
End Any.
Print Assumptions c26_integer.
Print Assumptions c26_number.
Print Assumptions c26_integer_refused.
Print Assumptions c26_number_refused.
Print Assumptions c26_integer_own.
Print Assumptions c26_number_own.
Print Assumptions c26_composed.
Print Assumptions c27_text.
Print Assumptions c27_unchanged.
Print Assumptions c27_refused.
Print Assumptions c27_composed.
Print Assumptions c27_email.

(** ** Concrete schemas *)
Definition ex_int (s : str) : res Z := Err ValueError.
Definition ex_float (s : str) : res Q := Err ValueError.
Definition ex_str (v : value) : str := lit "?".
Definition ex_date (q : Q) : res (Z * Z * Z) := Err ValueError.
Definition ex_dt (q : Q) : res datetime := Err ValueError.
Definition ex_uuid (s : str) : option Z := None.
Definition ex_email (s : str) : bool := true.
Notation run := (produce ex_int ex_float ex_str ex_date ex_dt ex_uuid ex_email).
Definition out {A B} (r : res (A * B)) : res A := do x <- r; Ok (fst x).
(** a Schema Object with a type, a minimum and members *)
Definition num_schema (ty : option str) (mn mx mult : option Q) (ad : addp) (al : list nat) : schema :=
  Schema true (Some None) ty None None VNull false mx false mn true None None None None mult [] false None
    None [] al [] ad None false.
Definition text_schema (fmt : option str) (mxl : option Z) (en : list value) (al : list nat) : schema :=
  Schema true (Some None) (Some (lit "string")) fmt None VNull false None false None false mxl None None None None en
    false None None [] al [] (ABool true) None false.
Definition ref_schema (o : nat) : schema :=
  Schema true (Some None) None None None VNull false None false None false None None None None None [] false None
    (Some o) [] [] [] (ABool true) None false.
Definition h1 : list schema :=
  [num_schema (Some (lit "integer")) (Some 1%Q) None None ANone [1];
   ref_schema 2;
   num_schema None None (Some 10%Q) None ANone []].
Example c26_ex_target : target h1 1 2.
Proof. split; [|reflexivity]. eapply chain_step; [reflexivity|constructor]. Qed.
Example c26_ex_ok : out (run h1 5 0 (VInt 10) (new_ctx true)) = Ok (PInt 10).
Proof. reflexivity. Qed.
Example c26_ex_min : run h1 5 0 (VInt 1) (new_ctx true) = Err ValidationError.
Proof. reflexivity. Qed.
Example c26_ex_member : run h1 5 0 (VInt 11) (new_ctx true) = Err ValidationError.
Proof. reflexivity. Qed.
Example c26_ex_multiple :
  out (run [num_schema (Some (lit "number")) None None (Some (5 # 2)%Q) ANone []] 5 0 (VInt 5) (new_ctx true)) = Ok (PFloat 5%Q)
  /\ run [num_schema (Some (lit "number")) None None (Some (5 # 2)%Q) ANone []] 5 0 (VInt 6) (new_ctx true) = Err ValidationError.
Proof. split; reflexivity. Qed.

(** What does not hold.  Zero counts as "nothing produced yet": a member that asks for more
    than 0 is skipped. *)
Theorem c26_zero_member_refuted : exists h o a z,
  In a (members (sch h o)) /\ integer_kind (sch h o) /\ s_ref (sch h a) = None /\
  (exists n c, run h n o (VInt z) (new_ctx true) = Ok (PInt z, c)) /\ ~ within (sch h a) (inject_Z z).
Proof.
  exists [num_schema (Some (lit "integer")) None None None ANone [1; 2];
          num_schema None (Some 1%Q) None None ANone [];
          num_schema (Some (lit "integer")) None None None ANone []], 0, 1, 0%Z.
  split; [now left|]. split; [now left|]. split; [reflexivity|]. split.
  - exists 5. eexists. vm_compute. reflexivity.
  - intros [_ W]. specialize (W 1%Q eq_refl). cbn in W. now vm_compute in W.
Qed.
Print Assumptions c26_zero_member_refuted.
(** multipleOf is only looked at for floating-point numbers. *)
Theorem c26_integer_multiple_refuted : exists h o z,
  integer_kind (sch h o) /\
  (exists n c, run h n o (VInt z) (new_ctx true) = Ok (PInt z, c)) /\ ~ multiple (sch h o) (inject_Z z).
Proof.
  exists [num_schema (Some (lit "integer")) None None (Some 2%Q) ANone []], 0, 3%Z.
  split; [now left|]. split.
  - exists 5. eexists. vm_compute. reflexivity.
  - intro M. destruct (M 2%Q eq_refl) as [k K]; [discriminate|].
    unfold Qeq in K. cbn in K. rewrite Z.mul_1_r in K. 
    assert (X : Z.even 3 = Z.even (k * 2 * 1)) by (f_equal; cbn; rewrite ?Z.mul_1_r in *; exact K).
    rewrite Z.mul_1_r, Z.even_mul in X. cbn in X. now rewrite Bool.orb_true_r in X.
Qed.
Print Assumptions c26_integer_multiple_refuted.
(** The keywords of a schema that leaves its type to a member are not looked at. *)
Theorem c26_untyped_own_refuted : exists h o z,
  s_ref (sch h o) = None /\
  (exists n c, run h n o (VInt z) (new_ctx true) = Ok (PInt z, c)) /\ ~ within (sch h o) (inject_Z z).
Proof.
  exists [num_schema None (Some 100%Q) None None ANone [1];
          num_schema (Some (lit "integer")) None None None ANone []], 0, 5%Z.
  split; [reflexivity|]. split.
  - exists 5. eexists. vm_compute. reflexivity.
  - intros [_ W]. specialize (W 100%Q eq_refl). cbn in W. now vm_compute in W.
Qed.
Print Assumptions c26_untyped_own_refuted.

Example c27_ex_ok : out (run [text_schema None (Some 3%Z) [VStr (lit "ab"); VStr (lit "abcd")] []] 5 0 (VStr (lit "ab")) (new_ctx true))
  = Ok (PStr (lit "ab")).
Proof. reflexivity. Qed.
Example c27_ex_long : run [text_schema None (Some 3%Z) [VStr (lit "ab"); VStr (lit "abcd")] []] 5 0 (VStr (lit "abcd")) (new_ctx true)
  = Err ValidationError.
Proof. reflexivity. Qed.
Example c27_ex_enum : run [text_schema None (Some 3%Z) [VStr (lit "ab"); VStr (lit "abcd")] []] 5 0 (VStr (lit "b")) (new_ctx true)
  = Err ValidationError.
Proof. reflexivity. Qed.
Example c27_ex_member : run [text_schema None None [] [1]; text_schema None (Some 3%Z) [] []] 5 0 (VStr (lit "abcd")) (new_ctx true)
  = Err ValidationError.
Proof. reflexivity. Qed.
(** With format email the members' lengths are not enforced. *)
Theorem c27_email_members_refuted : exists h o a s,
  In a (members (sch h o)) /\ s_ref (sch h a) = None /\ typed (sch h o) "string" /\
  (exists n c, run h n o (VStr s) (new_ctx true) = Ok (PStr s, c)) /\ ~ text_ok (sch h a) s.
Proof.
  exists [text_schema (Some (lit "email")) None [] [1]; text_schema None (Some 3%Z) [] []], 0, 1, (lit "me@home").
  split; [now left|]. split; [reflexivity|]. split; [reflexivity|]. split.
  - exists 5. eexists. vm_compute. reflexivity.
  - intros (_ & W & _). specialize (W 3%Z eq_refl ltac:(discriminate)). now vm_compute in W.
Qed.
Print Assumptions c27_email_members_refuted.
