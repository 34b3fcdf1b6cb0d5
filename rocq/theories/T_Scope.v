(** C03 (scope names), C04 (lookup in App.op / App.m), C05 (operation table). *)
From Verif Require Import PyBase PyFacts M_Scope S_Scope P_Scope.

(** C03: composition. *)
Theorem c03_compose : forall sep a b,
  a <> [] -> b <> [] -> scope_compose sep (Some a) (Some b) = Some (a ++ sep ++ b).
Proof. exact scope_compose_some. Qed.
Print Assumptions c03_compose.
Theorem c03_compose_absent : forall sep s n,
  scope_compose sep s None = s /\ scope_compose sep None n = n /\
  (n <> Some [] -> scope_compose sep (Some []) n = if n then n else Some []) /\
  (s <> None -> s <> Some [] -> scope_compose sep s (Some []) = s).
Proof.
  intros sep s n. split; [|split; [|split]].
  - destruct s; reflexivity.
  - destruct n; reflexivity.
  - destruct n; reflexivity.
  - destruct s as [[|]|]; easy.
Qed.
Print Assumptions c03_compose_absent.
Theorem c03_compose_assoc : forall sep a b c,
  a <> [] -> b <> [] -> c <> [] ->
  scope_compose sep (scope_compose sep (Some a) (Some b)) (Some c) =
  scope_compose sep (Some a) (scope_compose sep (Some b) (Some c)).
Proof. exact scope_assoc. Qed.
Print Assumptions c03_compose_assoc.

(** C03: splitting a composed scope gives the names back.  Every name but the last
    must not start a separator before its end, the last must not contain it. *)
Theorem c03_split_compose : forall sep x l,
  sep <> [] -> Forall (fun s => s <> []) (x :: l) ->
  (forall p a b, In p (removelast (x :: l)) -> p ++ sep = a ++ sep ++ b -> b = []) ->
  ~ has_sub sep (last (x :: l) []) ->
  scope_split sep (fold_left (scope_compose sep) (map Some l) (Some x)) =
  Ok (map Some (x :: l)).
Proof. exact scope_roundtrip. Qed.
Print Assumptions c03_split_compose.
(** In particular for names without any character of the separator. *)
Theorem c03_split_compose_disjoint : forall sep x l,
  sep <> [] -> Forall (fun s => s <> []) (x :: l) ->
  (forall p c, In p (x :: l) -> In c sep -> ~ In c p) ->
  scope_split sep (fold_left (scope_compose sep) (map Some l) (Some x)) =
  Ok (map Some (x :: l)).
Proof.
  intros sep x l Hs Hn Hd. apply scope_roundtrip; auto.
  - intros p a b Hp. apply clean_disjoint; auto. intros c Hc. apply Hd; auto.
    rewrite (app_removelast_last [] (l := x :: l)) by easy. apply in_or_app. now left.
  - apply no_sub_disjoint; auto. intros c Hc. apply Hd; auto.
    rewrite (app_removelast_last [] (l := x :: l)) at 2 by easy. apply in_or_app. right. now left.
Qed.
Print Assumptions c03_split_compose_disjoint.
(** An absent or empty scope splits to [[None]]. *)
Theorem c03_split_absent : forall sep,
  scope_split sep None = Ok [None] /\ scope_split sep (Some []) = Ok [None].
Proof. intros; split; reflexivity. Qed.
Print Assumptions c03_split_absent.
(** The side condition is needed: a scope that ends in a part of the separator. *)
Theorem c03_split_any_name_refuted : exists a b,
  a <> [] /\ b <> [] /\ ~ has_sub SCOPE_SEPARATOR a /\ ~ has_sub SCOPE_SEPARATOR b /\
  scope_split SCOPE_SEPARATOR (scope_compose SCOPE_SEPARATOR (Some a) (Some b))
    <> Ok [Some a; Some b].
Proof.
  exists (lit "a!##"), (lit "b").
  split; [easy|]. split; [easy|]. split; [apply after_last_None; easy|].
  split; [apply after_last_None; easy|]. vm_compute. discriminate.
Qed.
Print Assumptions c03_split_any_name_refuted.

(** C04: the lookup is exactly the documented one. *)
Theorem c04_getitem_iff_lookup : forall V sep (d : sdict V) k r,
  sep <> [] -> NoDup (map fst d) ->
  (scope_getitem sep d (KStr k) = r <-> lookup sep d k r).
Proof.
  intros V sep d k r Hs Hn. split.
  - intros <-. now apply getitem_sound.
  - intros H. eapply lookup_det; eauto. now apply getitem_sound.
Qed.
Print Assumptions c04_getitem_iff_lookup.
(** C04: a tuple of names stands for the names joined by the separator. *)
Theorem c04_getitem_tuple : forall V sep (d : sdict V) x l,
  Forall (fun s => s <> []) (x :: l) ->
  scope_getitem sep d (KTuple (map Some (x :: l))) =
  scope_getitem sep d (KStr (join sep (x :: l))).
Proof. exact @getitem_tuple. Qed.
Print Assumptions c04_getitem_tuple.

(** C05: either all keys differ and the table holds exactly the keyed operations,
    or preparation fails with SchemaError. *)
Theorem c05_table : forall O sep (l : list (tr_op O)),
  (NoDup (map fst (keyed sep l)) /\ type_reduce sep [] l = Ok (keyed sep l)) \/
  (~ NoDup (map fst (keyed sep l)) /\ type_reduce sep [] l = Err SchemaError).
Proof. exact @reduce_spec. Qed.
Print Assumptions c05_table.
(** C05: each operation with a key is found under it. *)
Theorem c05_reachable : forall O sep (l : list (tr_op O)) tbl o k,
  type_reduce sep [] l = Ok tbl -> In o l ->
  op_key sep (tr_tags o) (tr_opid o) = Some k ->
  scope_getitem sep tbl (KStr k) = Ok (tr_obj o).
Proof. exact @reduce_complete. Qed.
Print Assumptions c05_reachable.
(** C05: nothing else is in the table. *)
Theorem c05_nothing_else : forall O sep (l : list (tr_op O)) tbl k v,
  type_reduce sep [] l = Ok tbl -> In (k, v) tbl ->
  exists o, In o l /\ tr_obj o = v /\ op_key sep (tr_tags o) (tr_opid o) = Some k.
Proof. exact @reduce_sound. Qed.
Print Assumptions c05_nothing_else.

(** Non-vacuity; tests/test_utils.py (ScopeDict cases). *)
Definition ex_d : sdict nat :=
  [(lit "a!##!b", 1); (lit "b!##!get", 2); (lit "c!##!something-get", 3); (lit "d!##!get", 4);
   (lit "u!##!x-post", 5); (lit "v!##!post", 6)].
Example c04_ex0 : NoDup (map fst ex_d) /\ SCOPE_SEPARATOR <> [].
Proof.
  split; [|easy]. destruct (ListDec.NoDup_dec str_eq_dec (map fst ex_d)) as [H|H]; auto.
  exfalso; apply H. repeat constructor; vm_compute; intuition discriminate.
Qed.
Example c04_ex1 : scope_getitem SCOPE_SEPARATOR ex_d (KStr (lit "b")) = Ok 1.
Proof. vm_compute. reflexivity. Qed.
Example c04_ex2 : scope_getitem SCOPE_SEPARATOR ex_d (KTuple [Some (lit "b"); Some (lit "get")]) = Ok 2.
Proof. vm_compute. reflexivity. Qed.
Example c04_ex3 : scope_getitem SCOPE_SEPARATOR ex_d (KStr (lit "get")) = Err ValueError.
Proof. vm_compute. reflexivity. Qed.
Example c04_ex4 : scope_getitem SCOPE_SEPARATOR ex_d (KStr (lit "post")) = Ok 6.
Proof. vm_compute. reflexivity. Qed.
Example c04_ex5 : scope_getitem SCOPE_SEPARATOR ex_d (KStr (lit "zz")) = Err KeyError.
Proof. vm_compute. reflexivity. Qed.
Example c05_ex1 :
  type_reduce SCOPE_SEPARATOR []
    [TrOp (Some [lit "pet"]) (Some (lit "get")) 1; TrOp None None 2;
     TrOp (Some []) (Some (lit "list")) 3] =
  Ok [(lit "pet!##!get", 1); (lit "list", 3)].
Proof. vm_compute. reflexivity. Qed.
Example c05_ex2 :
  type_reduce SCOPE_SEPARATOR []
    [TrOp (Some [lit "pet"]) (Some (lit "get")) 1; TrOp (Some [lit "pet"]) (Some (lit "get")) 2]
  = Err SchemaError.
Proof. vm_compute. reflexivity. Qed.
Example c03_ex1 :
  scope_split SCOPE_SEPARATOR (fold_left (scope_compose SCOPE_SEPARATOR)
    (map Some [lit "b"; lit "c"]) (Some (lit "a"))) = Ok (map Some [lit "a"; lit "b"; lit "c"]).
Proof. vm_compute. reflexivity. Qed.
