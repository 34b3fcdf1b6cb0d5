(** C25: the MIME codec registry. *)
From Verif Require Import PyBase PyFacts M_Codec S_Codec P_Codec.

Section T.
Context {R D : Type} (plain json : codec (R:=R) (D:=D)).

(** Every MIME string names something, and the codec found for it is the one of the last
    event about that name since the registry was created; without any, it is the one
    built in. *)
Theorem c25_total : forall mime, exists name, names mime name.
Proof. exact names_total. Qed.
Theorem c25_lookup : forall es mime name, names mime name ->
  lookup mime (run (init plain json) es) =
  match last_event name (rev es) with
  | Some (Reg _ c) => Some c
  | Some (Unreg _) => None
  | None => if str_eq_dec name (lit "text/plain") then Some plain
            else if str_eq_dec name (lit "application/json") then Some json
            else if str_eq_dec name (lit "text/json") then Some json
            else None
  end.
Proof.
  intros es mime name H. rewrite (lookup_names _ _ _ H), run_get.
  2:{ change (map fst (init plain json)) with [lit "text/plain"; lit "application/json"; lit "text/json"].
      constructor; [intros [X|[X|[]]]; discriminate X|]. constructor; [intros [X|[]]; discriminate X|].
      constructor; [easy|constructor]. }
  destruct (last_event name (rev es)) as [[]|]; auto.
  unfold init, register.
  destruct (str_eq_dec name (lit "text/plain")) as [->|N1]; [reflexivity|].
  destruct (str_eq_dec name (lit "application/json")) as [->|N2]; [reflexivity|].
  destruct (str_eq_dec name (lit "text/json")) as [->|N3]; [reflexivity|].
  change (lower "text/json"%string) with (lit "text/json").
  change (lower "application/json"%string) with (lit "application/json").
  change (lower "text/plain"%string) with (lit "text/plain").
  rewrite !sget_sset_other by auto. reflexivity.
Qed.
(** So the spelling of the MIME string does not matter. *)
Theorem c25_same_name : forall es a b name, names a name -> names b name ->
  lookup a (run (init plain json) es) = lookup b (run (init plain json) es).
Proof. intros es a b name Ha Hb. now rewrite (lookup_names _ _ _ Ha), (lookup_names _ _ _ Hb). Qed.
(** marshal and unmarshal use that codec, and raise exactly when there is none. *)
Theorem c25_marshal : forall es mime v,
  marshal mime v (run (init plain json) es) =
  match lookup mime (run (init plain json) es) with Some c => co_marshal c v | None => Err GenericException end.
Proof. intros. unfold marshal. now destruct (lookup _ _). Qed.
Theorem c25_unmarshal : forall es mime d,
  unmarshal mime d (run (init plain json) es) =
  match lookup mime (run (init plain json) es) with Some c => co_unmarshal c d | None => Err GenericException end.
Proof. intros. unfold unmarshal. now destruct (lookup _ _). Qed.
(** unregister of a name raises KeyError exactly when no codec is registered for it. *)
Theorem c25_unregister : forall es m name, names m name -> lower m = name ->
  (exists t, unregister m (run (init plain json) es) = Ok t) <-> lookup m (run (init plain json) es) <> None.
Proof.
  intros es m name H <-. rewrite (lookup_names _ _ _ H). unfold unregister.
  destruct (smem (lower m) (run (init plain json) es)) eqn:E.
  - split; intros X; [|eauto]. apply smem_In in E. intros Y. apply dget_None in Y; [easy|apply str_eqb_eq].
  - split; [intros [t X]; discriminate|]. intros X. exfalso. apply X. apply dget_None; [apply str_eqb_eq|].
    intros Y. apply smem_In in Y. congruence.
Qed.
End T.
Print Assumptions c25_total.
Print Assumptions c25_lookup.
Print Assumptions c25_same_name.
Print Assumptions c25_marshal.
Print Assumptions c25_unmarshal.
Print Assumptions c25_unregister.

Example c25_ex_names : names (lit " Text/JSON ; charset=UTF-8; q=1") (lit "text/json").
Proof.
  exists (lit " "), (lit "Text/JSON"), (lit " "), (lit "; charset=UTF-8; q=1").
  split; [reflexivity|]. split; [intros c [<-|[]]; reflexivity|]. split; [intros c [<-|[]]; reflexivity|].
  split; [split; reflexivity|]. split; [cbn; intuition discriminate|]. split; [now right|reflexivity].
Qed.
Example c25_ex : forall a b : codec (R:=str) (D:=str),
  lookup (lit "X/Y;v=2") (run (init a a) [Reg (lit "x/y") a; Unreg (lit "X/y"); Reg (lit "X/Y") b; Unreg (lit "q")]) = Some b.
Proof. reflexivity. Qed.
