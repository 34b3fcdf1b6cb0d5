(** C52: registered handlers. *)
From Verif Require Import PyBase PyFacts M_Prim M_Registry.

(** The last handler a history registers for a type and format. *)
Definition last_for {H} (l : list (okey * okey * H)) (ty fmt : okey) (x : option H) : Prop :=
  match x with
  | Some h => exists l1 l2, l = l1 ++ (ty, fmt, h) :: l2 /\ forall h', ~ In (ty, fmt, h') l2
  | None => forall h', ~ In (ty, fmt, h') l
  end.
(** The handler a table has for exactly this type and format. *)
Definition entry {H} (m : table H) (ty fmt : okey) : option H :=
  match dget okey_eqb ty m with Some r => dget okey_eqb fmt r | None => None end.

Lemma okey_eqb_eq a b : okey_eqb a b = true <-> a = b.
Proof.
  destruct a, b; cbn; try easy. rewrite str_eqb_eq. split; [now intros ->|now injection 1].
Qed.
Lemma okey_refl a : okey_eqb a a = true. Proof. now apply okey_eqb_eq. Qed.
Lemma okey_neq a b : a <> b -> okey_eqb a b = false.
Proof. intro N. destruct (okey_eqb a b) eqn:E; [|reflexivity]. now apply okey_eqb_eq in E. Qed.
Section Facts.
  Context {H : Type}.
  Implicit Types m : table H.
  Lemma dget_dset {V} (d : dict okey V) k k' x :
    dget okey_eqb k' (dset okey_eqb k x d) = if okey_eqb k' k then Some x else dget okey_eqb k' d.
  Proof.
    induction d as [|[k0 y] d IH]; cbn [dset dget].
    - now destruct (okey_eqb k' k).
    - destruct (okey_eqb k k0) eqn:E; cbn [dget].
      + apply okey_eqb_eq in E. subst. destruct (okey_eqb k' k0); reflexivity.
      + rewrite IH. destruct (okey_eqb k' k0) eqn:E2; [|reflexivity].
        apply okey_eqb_eq in E2. subst. destruct (okey_eqb k0 k) eqn:E3; [|reflexivity].
        apply okey_eqb_eq in E3. subst. now rewrite okey_refl in E.
  Qed.
  Lemma entry_register m ty fmt x ty' fmt' :
    entry (register m ty fmt x) ty' fmt' =
    if okey_eqb ty' ty && okey_eqb fmt' fmt then Some x else entry m ty' fmt'.
  Proof.
    unfold entry, register, dmem. destruct (dget okey_eqb ty m) as [r|] eqn:E.
    - rewrite E. rewrite dget_dset. destruct (okey_eqb ty' ty) eqn:E1; cbn [andb]; [|reflexivity].
      apply okey_eqb_eq in E1. subst. rewrite dget_dset, E. reflexivity.
    - rewrite dget_dset, okey_refl, !dget_dset. destruct (okey_eqb ty' ty) eqn:E1; cbn [andb]; [|reflexivity].
      apply okey_eqb_eq in E1. subst. rewrite dget_dset, E. reflexivity.
  Qed.
  Lemma known_register m ty fmt x ty' :
    is_primitive (register m ty fmt x) ty' = okey_eqb ty' ty || is_primitive m ty'.
  Proof.
    unfold is_primitive, register, dmem. destruct (dget okey_eqb ty m) as [r|] eqn:E.
    - rewrite E, dget_dset. destruct (okey_eqb ty' ty) eqn:E1; reflexivity.
    - rewrite dget_dset, okey_refl, !dget_dset. destruct (okey_eqb ty' ty) eqn:E1; reflexivity.
  Qed.
  Lemma entry_all l : forall m ty fmt x, last_for l ty fmt x ->
    entry (register_all m l) ty fmt = match x with Some h => Some h | None => entry m ty fmt end.
  Proof.
    induction l as [|[[t f] h] l IH]; intros m ty fmt x L.
    - destruct x; [|reflexivity]. destruct L as ([|] & l2 & L & _); discriminate L.
    - unfold register_all. cbn [fold_left fst snd]. fold (register_all (register m t f h) l).
      destruct x as [h0|]; cbn [last_for] in L.
      + destruct L as (l1 & l2 & L & NI). destruct l1 as [|r l1]; cbn [app] in L.
        * injection L as -> -> -> ->. rewrite (IH _ _ _ None NI), entry_register, !okey_refl. reflexivity.
        * injection L as <- ->. rewrite (IH _ ty fmt (Some h0)); [reflexivity|]. exists l1, l2. auto.
      + rewrite (IH _ ty fmt None).
        * rewrite entry_register. destruct (okey_eqb ty t && okey_eqb fmt f) eqn:E; [|reflexivity].
          apply andb_prop in E as [E1 E2]. apply okey_eqb_eq in E1, E2. subst. exfalso. apply (L h). now left.
        * intros h' I. apply (L h'). now right.
  Qed.
  Lemma known_all l : forall m ty, is_primitive (register_all m l) ty = true <->
    is_primitive m ty = true \/ exists fmt h, In (ty, fmt, h) l.
  Proof.
    induction l as [|[[t f] h] l IH]; intros m ty.
    - split; [auto|]. intros [A|(? & ? & [])]. exact A.
    - unfold register_all. cbn [fold_left fst snd]. fold (register_all (register m t f h) l). rewrite IH, known_register.
      rewrite Bool.orb_true_iff, okey_eqb_eq. split.
      + intros [[->|A]|(f' & h' & I)]; [|auto|]; right; [exists f, h; now left|exists f', h'; now right].
      + intros [A|(f' & h' & [I|I])]; [auto| |eauto]. injection I as -> -> ->. auto.
  Qed.
  Lemma tget_entry m ty fmt : tget m ty fmt =
    match entry m ty fmt with
    | Some x => Handler x
    | None => match entry m ty None with
              | Some x => Handler x
              | None => if is_primitive m ty then Missing else Unknown
              end
    end.
  Proof.
    unfold tget, entry, is_primitive, dmem. destruct (dget okey_eqb ty m); reflexivity.
  Qed.
End Facts.

(** After any history, [get] returns the handler last registered for the type and format,
    else the one already there, else the type's default, else nothing. *)
Theorem c52_get : forall {H} (m : table H) l ty fmt own dflt,
  last_for l ty fmt own -> last_for l ty None dflt ->
  tget (register_all m l) ty fmt =
  match own, entry m ty fmt, dflt, entry m ty None with
  | Some x, _, _, _ | None, Some x, _, _ | None, None, Some x, _ | None, None, None, Some x => Handler x
  | None, None, None, None => if is_primitive (register_all m l) ty then Missing else Unknown
  end.
Proof.
  intros H m l ty fmt own dflt A B. rewrite tget_entry, (entry_all l m ty fmt own A), (entry_all l m ty None dflt B).
  destruct own, (entry m ty fmt), dflt, (entry m ty None); reflexivity.
Qed.
(** A type counts as primitive iff it was there or was registered. *)
Theorem c52_is_primitive : forall {H} (m : table H) l ty, is_primitive (register_all m l) ty = true <->
  is_primitive m ty = true \/ exists fmt h, In (ty, fmt, h) l.
Proof. intros. apply known_all. Qed.
(** Other types are unaffected; other formats of a known type too, unless they were
    served by the default that is replaced. *)
Theorem c52_others : forall {H} (m : table H) ty fmt x ty' fmt',
  ty' <> ty \/ (is_primitive m ty = true /\ fmt' <> fmt /\ (fmt <> None \/ entry m ty fmt' <> None)) ->
  tget (register m ty fmt x) ty' fmt' = tget m ty' fmt'.
Proof.
  intros H m ty fmt x ty' fmt' C. rewrite !tget_entry, !entry_register, known_register.
  destruct (okey_eqb ty' ty) eqn:E; cbn [andb orb]; [|reflexivity].
  apply okey_eqb_eq in E. subst ty'. destruct C as [C|(K & N & C)]; [congruence|].
  rewrite (okey_neq fmt' fmt N), K. destruct (entry m ty fmt') as [y|]; [reflexivity|].
  destruct C as [C|C]; [|congruence]. rewrite (okey_neq None fmt); [reflexivity|congruence].
Qed.
(** The handlers the factory starts with are those used in the model of [produce]. *)
Theorem c52_initial : forall ty fmt,
  tget initial ty fmt =
  match get ty fmt with
  | (Some c, s) => Handler (c, s)
  | (None, _) => Unknown
  end.
Proof.
  intros [ty|] fmt; [|reflexivity].
  assert (E : forall s, okey_eqb (Some ty) (Some (lit s)) = str_eqb ty (lit s)) by reflexivity.
  assert (F : forall s, okey_eqb fmt (Some (lit s)) = str_eqb (match fmt with Some f => f | None => [] end) (lit s)
                \/ fmt = None).
  { intro s. destruct fmt; [now left|now right]. }
  unfold tget, initial, get. cbn [dget]. rewrite !E.
  destruct (str_eqb ty (lit "integer")).
  { cbn [dget]. destruct fmt as [f|]; [|reflexivity].
    repeat match goal with |- context [okey_eqb (Some ?a) (Some ?b)] => destruct (okey_eqb (Some a) (Some b)) end; reflexivity. }
  destruct (str_eqb ty (lit "number")).
  { cbn [dget]. destruct fmt as [f|]; [|reflexivity].
    change (okey_eqb (Some f) (Some (lit "float"))) with (str_eqb f (lit "float")).
    change (okey_eqb (Some f) (Some (lit "double"))) with (str_eqb f (lit "double")).
    change (okey_eqb (Some f) (Some (lit "int32"))) with (str_eqb f (lit "int32")).
    change (okey_eqb (Some f) (Some (lit "int64"))) with (str_eqb f (lit "int64")).
    destruct (str_eqb f (lit "float")) eqn:E1; [apply str_eqb_eq in E1; subst; reflexivity|].
    destruct (str_eqb f (lit "double")) eqn:E2; [apply str_eqb_eq in E2; subst; reflexivity|].
    destruct (str_eqb f (lit "int32")) eqn:E3; [reflexivity|].
    destruct (str_eqb f (lit "int64")) eqn:E4; reflexivity. }
  destruct (str_eqb ty (lit "string")).
  { cbn [dget]. destruct fmt as [f|]; [|reflexivity].
    change (fun s => okey_eqb (Some f) (Some (lit s))) with (fun s => str_eqb f (lit s)) in *.
    assert (G : forall s, okey_eqb (Some f) (Some (lit s)) = str_eqb f (lit s)) by reflexivity. rewrite !G. clear G.
    change (okey_eqb (Some f) None) with false.
    destruct (str_eqb f (lit "")) eqn:E1; [apply str_eqb_eq in E1; subst; reflexivity|].
    destruct (str_eqb f (lit "email")) eqn:E2; [reflexivity|].
    destruct (str_eqb f (lit "uuid")) eqn:E3; [reflexivity|].
    destruct (str_eqb f (lit "password")) eqn:E4; [apply str_eqb_eq in E4; subst; reflexivity|].
    destruct (str_eqb f (lit "byte")) eqn:E5; [reflexivity|].
    destruct (str_eqb f (lit "binary")) eqn:E6; [reflexivity|].
    destruct (str_eqb f (lit "date")) eqn:E7; [reflexivity|].
    destruct (str_eqb f (lit "date-time")) eqn:E8; reflexivity. }
  destruct (str_eqb ty (lit "boolean")).
  { cbn [dget]. destruct fmt as [f|]; [|reflexivity].
    repeat match goal with |- context [okey_eqb (Some ?a) (Some ?b)] => destruct (okey_eqb (Some a) (Some b)) end; reflexivity. }
  destruct (str_eqb ty (lit "file")).
  { cbn [dget]. destruct fmt as [f|]; [|reflexivity].
    repeat match goal with |- context [okey_eqb (Some ?a) (Some ?b)] => destruct (okey_eqb (Some a) (Some b)) end; reflexivity. }
  destruct (str_eqb ty (lit "array")).
  { cbn [dget]. destruct fmt as [f|]; [|reflexivity].
    repeat match goal with |- context [okey_eqb (Some ?a) (Some ?b)] => destruct (okey_eqb (Some a) (Some b)) end; reflexivity. }
  destruct (str_eqb ty (lit "object")); [|reflexivity].
  cbn [dget]. destruct fmt as [f|]; [|reflexivity].
  repeat match goal with |- context [okey_eqb (Some ?a) (Some ?b)] => destruct (okey_eqb (Some a) (Some b)) end; reflexivity.
Qed.
(** Registering one format of a new type changes what [get] gives for its other formats:
    None instead of the pair (None, None), which [produce] cannot unpack. *)
Theorem c52_new_type_refuted : exists (m : table nat) ty fmt fmt' x, fmt' <> fmt /\
  tget m ty fmt' = Unknown /\ tget (register m ty fmt x) ty fmt' = Missing.
Proof. exists [], (Some (lit "money")), (Some (lit "eur")), (Some (lit "usd")), 1. repeat split. discriminate. Qed.
Print Assumptions c52_get.
Print Assumptions c52_is_primitive.
Print Assumptions c52_others.
Print Assumptions c52_initial.
Print Assumptions c52_new_type_refuted.

(** A history on the initial table. *)
Definition reg1 : list (okey * okey * (creator * option second)) :=
  [(Some (lit "string"), Some (lit "email"), (CrStr, None));
   (Some (lit "money"), None, (CrInt, None));
   (Some (lit "string"), Some (lit "email"), (CrBool, None))].
Example c52_ex_own : tget (register_all initial reg1) (Some (lit "string")) (Some (lit "email")) = Handler (CrBool, None).
Proof. reflexivity. Qed.
Example c52_ex_last : last_for reg1 (Some (lit "string")) (Some (lit "email")) (Some (CrBool, None)).
Proof. exists (firstn 2 reg1), []. split; [reflexivity|]. intros h' []. Qed.
Example c52_ex_default : tget (register_all initial reg1) (Some (lit "money")) (Some (lit "usd")) = Handler (CrInt, None).
Proof. reflexivity. Qed.
Example c52_ex_other : tget (register_all initial reg1) (Some (lit "string")) (Some (lit "byte")) = Handler (CrObj CByte, Some S2Obj).
Proof. reflexivity. Qed.
Example c52_ex_unknown : tget (register_all initial reg1) (Some (lit "mone")) None = Unknown.
Proof. reflexivity. Qed.
