(** C46, continued: in a prepared application every schema has a composed one ([final]), which is
    rendered in its place; values are checked by the schema itself. *)
From Coq Require Import QArith Lia.
From Verif Require Import PyBase PyFacts M_Graph S_Graph P_Graph M_Time M_Prim S_Prim P_Prim P_PrimMono P_SpecBase
  M_Render S_Render P_Render P_RenderGen P_RenderAcc P_RenderAll T_PrimLeaf T_PrimObj T_Render S_Copies P_Copies.
Close Scope Q_scope.
Open Scope nat_scope.

Section Any.
(** As in C46 *)
Context (int_of : str -> res Z) (float_of : str -> res Q) (str_of : value -> str)
  (date_at : Q -> res (Z * Z * Z)) (datetime_at : Q -> res datetime)
  (uuid_of : str -> option Z) (email_ok : str -> bool)
  (MAIL : forall s, mailbox s -> email_ok s = true)
  (rnd : nat -> N) (dr dtr : Q * Q) (h : list schema) (xs : nat -> more) (opt : options).
Notation generate := (M_Render.generate rnd date_at datetime_at uuid_of dr dtr h xs opt).
Notation produce := (produce int_of float_of str_of date_at datetime_at uuid_of email_ok h).
Notation accepts := (accepts int_of float_of str_of date_at datetime_at uuid_of email_ok h).
(** What is made for copies of the schemas satisfies the schemas *)
Theorem c46_copied : forall R o o', copies R h xs -> R o o' -> all_sound email_ok h xs opt o -> forall fuel i v j, generate fuel o i = Ok (v, j) ->
  conforms email_ok h (uncomposed_only xs) o' v.
Proof.
  intros R o o' CO RO AS fuel i v j E. refine (conforms_copied email_ok h xs (uncomposed_only xs) R CO _ v o o' RO _); [reflexivity|].
  exact (c46_conforms date_at datetime_at uuid_of email_ok MAIL rnd dr dtr h xs opt fuel o i v j AS E).
Qed.
(** and is taken by them. *)
Theorem c46_prepared : forall R o o', copies R h xs -> R o o' -> all_sound email_ok h xs opt o -> all_take h (uncomposed_only xs) accepts o' ->
  forall fuel i v j, generate fuel o i = Ok (v, j) -> exists n r, forall m, n <= m -> exists c, produce m o' v (new_ctx true) = Ok (r, c).
Proof.
  intros R o o' CO RO AS AT fuel i v j E.
  exact (c46_conforming_accepted int_of float_of str_of date_at datetime_at uuid_of email_ok h (uncomposed_only xs) o' v (c46_copied R o o' CO RO AS fuel i v j E) AT).
Qed.
End Any.
Print Assumptions c46_copied.
Print Assumptions c46_prepared.

(** ** Example: a pet with an id and tags, as it is after preparation.  0 to 3 are its schemas, 4 to
    7 the composed ones, 8 to 11 the copies in these. *)
Definition pet (id tags : nat) : schema := obj_schema (Some (lit "object")) (lit "Pet") [lit "id"] [] [(lit "id", id); (lit "tags", tags)] (ABool true) None.
Definition small : schema := bounded_schema "integer" (Some 1%Q) (Some 10%Q) None false [].
Definition tags (i : nat) : schema := array_schema (Some i) (Some 1%Z) (Some 2%Z) false None.
Definition tag : schema := text_schema None (Some 3%Z) [] [].
Definition hp : list schema := [pet 1 2; small; tags 3; tag; pet 8 9; small; tags 11; tag; small; tags 10; tag; tag].
Definition hp_final : list (option nat) := [Some 4; Some 5; Some 6; Some 7; None; None; None; None; Some 5; Some 6; Some 7; Some 7].
Definition hp_xs (i : nat) : more := More None None (nth i hp_final None).
Definition hp_of (o o' : nat) : Prop := In (o, o') [(0, 0); (1, 1); (2, 2); (3, 3); (8, 1); (9, 2); (10, 3); (11, 3)].
Lemma hp_noref i : s_ref (sch hp i) = None.
Proof. do 12 (destruct i as [|i]; [reflexivity|]). unfold sch. cbn. destruct i; reflexivity. Qed.
Lemma hp_target o t : target hp o t -> t = o.
Proof. intros [C _]. inversion C as [|? b ? N]; subst; [reflexivity|]. rewrite hp_noref in N. discriminate N. Qed.
Lemma hp_here o : target hp o o. Proof. split; [constructor|apply hp_noref]. Qed.
Lemma hp_copies : copies hp_of hp hp_xs.
Proof.
  intros o o' RO t (u & T & ->). apply hp_target in T. subst u. exists o'. split; [apply hp_here|].
  unfold hp_of in RO. repeat (destruct RO as [E|RO]; [injection E as <- <-; constructor; cbn; try solve [auto 10|tauto|unfold hp_of; cbn; tauto]|]); try contradiction.
  intro k. generalize (str_eqb k [ "i"%char; "d"%char]), (str_eqb k ["t"%char; "a"%char; "g"%char; "s"%char]). intros [|] [|]; tauto.
Qed.
Lemma hp_visits xs o u : (forall i, i < 12 -> match x_final (xs i) with Some f => f < 12 | None => True end) -> visits hp xs o u -> o < 12 -> u < 12.
Proof.
  intro F. induction 1 as [o|o t k p u M E V IH|o t it u M E V IH|o t a u M E V IH]; intro L; [exact L| | |]; apply IH;
    (assert (t < 12) as LT by (destruct M as (w & T & ->); apply hp_target in T; subst w; specialize (F o L); destruct (x_final (xs o)); assumption)); clear M F IH V L.
  - do 12 (destruct t as [|t]; [try discriminate E; apply sget_In in E; cbn in E; repeat (destruct E as [E|E]; [injection E as _ <-; lia|]); destruct E|]). lia.
  - do 12 (destruct t as [|t]; [try discriminate E; injection E as <-; lia|]). lia.
  - do 12 (destruct t as [|t]; [discriminate E|]). lia.
Qed.
Example c46_prepared_sound email_ok : all_sound email_ok hp hp_xs default_options 0.
Proof.
  intros p t V M. apply hp_visits in V; [| |lia].
  2:{ intros i L. do 12 (destruct i as [|i]; [cbn; lia|]). lia. }
  assert (t < 12) as LT.
  { destruct M as (w & T & ->). apply hp_target in T. subst w. do 12 (destruct p as [|p]; [cbn; lia|]). lia. }
  clear M V. do 12 (destruct t as [|t]; [refine (conj _ (conj _ (conj _ (conj _ (conj _ (conj _ _))))));
    try solve [intros e []|intro T; discriminate T|intros [T _]; discriminate T];
    first [ intros _; split; [apply nodupb_ok; reflexivity|]; split; [intros k [<-|[]]; reflexivity|]; split; [discriminate|discriminate]
          | intros _ _; split; [split; intros q E; injection E as <-; discriminate|]; discriminate
          | intros _; split; [intros n E; injection E as <-; lia|reflexivity]
          | intros _; split; [intros n E; injection E as <-; lia|]; intros [_ (f & _ & E)]; discriminate E ]|]). lia.
Qed.
Example c46_prepared_takes (acc : nat -> value -> Prop) : all_take hp (uncomposed_only hp_xs) acc 0.
Proof.
  intros p t V T. apply hp_visits in V; [| |lia]; [|intros i L; exact I]. apply hp_target in T. subst t.
  do 12 (destruct p as [|p]; [clear V; refine (conj eq_refl (conj eq_refl (conj _ (conj _ (conj _ _)))));
    try solve [apply nodupb_ok; reflexivity|intros k [<-|[]]; reflexivity|intros k []|discriminate];
    intros k q E; apply sget_In in E; cbn in E; repeat (destruct E as [E|E]; [injection E as _ <-; discriminate|]); destruct E|]). lia.
Qed.
Example c46_prepared_ex : hp_of 0 0 /\ make count_up hp hp_xs default_options 5 0
  = Ok (VDict [(lit "id", VInt 1); (lit "tags", VList [VStr (lit "efg")])]).
Proof. split; [now left|]. vm_compute. reflexivity. Qed.
