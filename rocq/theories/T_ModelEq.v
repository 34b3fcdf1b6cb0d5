(** C33: equality of Models. *)
From Coq Require Import Lia.
From Verif Require Import PyBase PyFacts P_Op M_ModelEq.

Section Facts.
  Context {L : Type} (leaf_eq : L -> L -> bool).
  Notation mval := (mval L).
  Notation py_eq := (py_eq leaf_eq).
  Notation eqf := (eqf leaf_eq).

  Definition ddepth (d : sdict mval) : nat :=
    (fix go d := match d with [] => 0 | (_, x) :: d => Nat.max (depth x) (go d) end) d.
  Definition ldepth (l : list mval) : nat :=
    (fix go l := match l with [] => 0 | x :: l => Nat.max (depth x) (go l) end) l.
  Lemma depth_dict d : depth (MDict d) = S (ddepth d). Proof. reflexivity. Qed.
  Lemma depth_model d : depth (MModel d) = S (ddepth d). Proof. reflexivity. Qed.
  Lemma depth_list d : depth (MList d) = S (ldepth d). Proof. reflexivity. Qed.
  Lemma ddepth_cons k x d : ddepth ((k, x) :: d) = Nat.max (depth x) (ddepth d). Proof. reflexivity. Qed.
  Lemma ldepth_cons x d : ldepth (x :: d) = Nat.max (depth x) (ldepth d). Proof. reflexivity. Qed.
  Lemma ddepth_get d k : depth (get_or_none k d) <= ddepth d.
  Proof.
    unfold get_or_none. induction d as [|[k0 x] d IH]; [cbn; lia|].
    rewrite ddepth_cons. cbn [dget]. destruct (str_eqb k k0); [lia|].
    destruct (sget k d); lia.
  Qed.
  Lemma ddepth_some d k x : sget k d = Some x -> depth x <= ddepth d.
  Proof. intro E. pose proof (ddepth_get d k) as H. unfold get_or_none in H. now rewrite E in H. Qed.

  (** Two functions that agree on shallow values give the same step. *)
  Section Ext.
    Context (f g : mval -> mval -> res bool) (N : nat)
      (FG : forall v w, depth v <= N -> depth w <= N -> f v w = g v w).
    Lemma items_ext a b : ddepth a <= N -> ddepth b <= N -> items_eq f a b = items_eq g a b.
    Proof.
      induction a as [|[k v] a IH]; intros A B; [reflexivity|]. rewrite ddepth_cons in A.
      cbn [items_eq]. rewrite FG; [|lia|pose proof (ddepth_get b k); lia]. rewrite IH by lia. reflexivity.
    Qed.
    Lemma dict_items_ext a b : ddepth a <= N -> ddepth b <= N -> dict_items_eq f a b = dict_items_eq g a b.
    Proof.
      induction a as [|[k v] a IH]; intros A B; [reflexivity|]. rewrite ddepth_cons in A.
      cbn [dict_items_eq]. destruct (sget k b) eqn:E; [|reflexivity]. apply ddepth_some in E.
      rewrite FG by lia. rewrite IH by lia. reflexivity.
    Qed.
    Lemma list_ext a : forall b, ldepth a <= N -> ldepth b <= N -> list_eq f a b = list_eq g a b.
    Proof.
      induction a as [|v a IH]; intros [|w b] A B; try reflexivity. rewrite ldepth_cons in *.
      cbn [list_eq]. rewrite FG by lia. rewrite IH by lia. reflexivity.
    Qed.
    Lemma step_ext v w : depth v <= S N -> depth w <= S N -> eq_step leaf_eq f v w = eq_step leaf_eq g v w.
    Proof.
      intros A B. destruct v as [|x|l|d|d], w as [|y|m|e|e]; try reflexivity;
        rewrite ?depth_dict, ?depth_model, ?depth_list in *; cbn [eq_step]; unfold model_eq.
      - rewrite list_ext by lia. reflexivity.
      - rewrite dict_items_ext by lia. reflexivity.
      - rewrite items_ext by lia. reflexivity.
      - rewrite items_ext by lia. reflexivity.
      - rewrite items_ext by lia. reflexivity.
    Qed.
  End Ext.
  Lemma fuel_eq : forall N n m v w, depth v <= N -> depth w <= N -> N < n -> N < m -> eqf n v w = eqf m v w.
  Proof.
    induction N as [|N IH]; intros [|n] [|m] v w A B C D; try lia; cbn [M_ModelEq.eqf].
    - destruct v, w; try reflexivity; cbn in A, B; lia.
    - apply (step_ext _ _ N); [|exact A|exact B]. intros. apply IH; lia.
  Qed.
  Lemma py_eq_fuel n v w : depth v < n -> depth w < n -> eqf n v w = py_eq v w.
  Proof. intros. unfold M_ModelEq.py_eq. apply (fuel_eq (Nat.max (depth v) (depth w))); lia. Qed.
  (** One step of [==], in terms of [==]. *)
  Lemma py_eq_step v w : py_eq v w = eq_step leaf_eq py_eq v w.
  Proof.
    unfold M_ModelEq.py_eq at 1. cbn [M_ModelEq.eqf].
    destruct (Nat.max (depth v) (depth w)) as [|N] eqn:E.
    - destruct v, w; try reflexivity; cbn in E; lia.
    - apply (step_ext _ _ N); [|lia|lia]. intros. apply py_eq_fuel; lia.
  Qed.

  Lemma items_true a b : items_eq py_eq a b = Ok true <-> Forall (fun kv => py_eq (snd kv) (get_or_none (fst kv) b) = Ok true) a.
  Proof.
    induction a as [|[k v] a IH]; cbn [items_eq]; [split; auto|]. rewrite bind_ok. split.
    - intros ([] & A & B); [|discriminate]. constructor; [exact A|now apply IH].
    - intro F. inversion F; subst. exists true. split; [assumption|now apply IH].
  Qed.
  Lemma residual_true (a b : sdict mval) : residual_none a b = true <-> forall k v, In (k, v) b -> smem k a = false -> v = MNone.
  Proof.
    induction b as [|[k v] b IH]; cbn [residual_none]; [split; [intros _ k v []|auto]|]. split.
    - intros E k0 v0 [I|I] M.
      + injection I as -> ->. rewrite M in E. now destruct v0.
      + destruct (smem k a); [eapply IH; eauto|]. destruct v; try discriminate E. eapply IH; eauto.
    - intro F. destruct (smem k a) eqn:M.
      + apply IH. intros k0 v0 I. apply F. now right.
      + rewrite (F k v (or_introl eq_refl) M). apply IH. intros k0 v0 I. apply F. now right.
  Qed.
  Lemma In_sget k (v : mval) d : NoDup (map fst d) -> In (k, v) d <-> sget k d = Some v.
  Proof.
    induction d as [|[k0 x] d IH]; intro ND; cbn [dget].
    - split; [intros []|discriminate].
    - inversion ND as [|? ? NI ND']; subst. cbn [fst] in NI. destruct (str_eqb k k0) eqn:E.
      + apply str_eqb_eq in E. subst. split.
        * intros [I|I]; [now injection I as ->|]. exfalso. apply NI. apply in_map_iff. now exists (k0, v).
        * intro I. injection I as ->. now left.
      + rewrite <- IH by exact ND'. split; [|now right]. intros [I|I]; [|exact I].
        injection I as -> ->. now rewrite str_eqb_refl in E.
  Qed.
  Lemma none_eq v : py_eq MNone v = Ok true <-> v = MNone.
  Proof. rewrite py_eq_step. destruct v; cbn; split; try discriminate; auto. Qed.
  Lemma eq_none v : py_eq v MNone = Ok true <-> v = MNone.
  Proof. rewrite py_eq_step. destruct v; cbn; split; try discriminate; auto. Qed.
  Lemma model_true a b : NoDup (map fst a) -> NoDup (map fst b) ->
    model_eq py_eq a b = Ok true <-> forall k, py_eq (get_or_none k a) (get_or_none k b) = Ok true.
  Proof.
    intros NA NB. unfold model_eq. rewrite bind_ok. split.
    - intros ([] & A & B); [|discriminate]. apply items_true in A. injection B as B. rewrite residual_true in B.
      intro k. destruct (sget k a) as [v|] eqn:E.
      + unfold get_or_none at 1. rewrite E. apply In_sget in E; [|exact NA].
        rewrite Forall_forall in A. exact (A _ E).
      + unfold get_or_none at 1. rewrite E. apply none_eq. unfold get_or_none.
        destruct (sget k b) as [w|] eqn:E2; [|reflexivity]. apply In_sget in E2; [|exact NB].
        apply (B k w E2). unfold dmem. now rewrite E.
    - intro F. exists true. split.
      + apply items_true. apply Forall_forall. intros [k v] I. apply In_sget in I; [|exact NA].
        specialize (F k). unfold get_or_none at 1 in F. now rewrite I in F.
      + f_equal. apply residual_true. intros k v I M. apply In_sget in I; [|exact NB]. specialize (F k).
        unfold get_or_none in F. unfold dmem in M. destruct (sget k a); [discriminate M|]. rewrite I in F.
        now apply none_eq in F.
  Qed.
  Lemma dict_items_true a b : NoDup (map fst a) -> dict_items_eq py_eq a b = Ok true <->
    forall k v, sget k a = Some v -> exists w, sget k b = Some w /\ py_eq v w = Ok true.
  Proof.
    intro NA. assert (X : dict_items_eq py_eq a b = Ok true <->
      forall k v, In (k, v) a -> exists w, sget k b = Some w /\ py_eq v w = Ok true).
    { clear NA. induction a as [|[k v] a IH]; cbn [dict_items_eq]; [split; [intros _ k v []|auto]|].
      split.
      - destruct (sget k b) as [w|] eqn:E; [|discriminate]. rewrite bind_ok. intros ([] & A & B); [|discriminate].
        intros k0 v0 [I|I]; [injection I as -> ->; eauto|]. eapply IH; eauto.
      - intro F. destruct (F k v (or_introl eq_refl)) as (w & E & Q). rewrite E, Q. cbn [bind]. apply IH.
        intros k0 v0 I. apply F. now right. }
    rewrite X. split; intros F k v I; apply F; [apply In_sget in I|apply In_sget in I]; auto.
  Qed.
  Lemma list_true a : forall b, list_eq py_eq a b = Ok true <-> Forall2 (fun v w => py_eq v w = Ok true) a b.
  Proof.
    induction a as [|v a IH]; intros [|w b]; cbn [list_eq]; try (split; [discriminate|intro F; inversion F]); [split; auto|].
    rewrite bind_ok. split.
    - intros ([] & A & B); [|discriminate]. constructor; [exact A|now apply IH].
    - intro F. inversion F; subst. exists true. split; [assumption|now apply IH].
  Qed.
End Facts.

(** Python dictionaries have no key twice. *)
Inductive proper {L} : mval L -> Prop :=
| proper_none : proper MNone
| proper_leaf x : proper (MLeaf x)
| proper_list l : Forall proper l -> proper (MList l)
| proper_dict d : NoDup (map fst d) -> Forall (fun kv => proper (snd kv)) d -> proper (MDict d)
| proper_model d : NoDup (map fst d) -> Forall (fun kv => proper (snd kv)) d -> proper (MModel d).

Section Claims.
  Context {L : Type} (leaf_eq : L -> L -> bool).
  Notation mval := (mval L).
  Notation py_eq := (py_eq leaf_eq).
  Notation py_ne := (py_ne leaf_eq).

  Lemma proper_keys (d : sdict mval) : proper (MModel d) \/ proper (MDict d) -> NoDup (map fst d).
  Proof. intros [P|P]; inversion P; auto. Qed.
  Lemma proper_get (d : sdict mval) k : proper (MModel d) \/ proper (MDict d) -> proper (get_or_none k d).
  Proof.
    intro P. assert (F : Forall (fun kv => proper (snd kv)) d) by (destruct P as [P|P]; inversion P; auto).
    pose proof (proper_keys d P) as ND. unfold get_or_none. destruct (sget k d) eqn:E; [|constructor].
    apply In_sget in E; [|exact ND]. rewrite Forall_forall in F. exact (F _ E).
  Qed.
  Lemma NoDup_length_eq (a b : list str) : NoDup a -> NoDup b -> incl a b -> incl b a -> length a = length b.
  Proof. intros A B C D. apply Nat.le_antisymm; apply NoDup_incl_length; auto. Qed.
  Lemma smem_keys (d : sdict mval) k : In k (map fst d) <-> exists v, sget k d = Some v.
  Proof.
    rewrite <- smem_In. unfold dmem. destruct (sget k d); split; eauto; try discriminate. intros (v & E). discriminate E.
  Qed.

  (** Two Models, or a Model and a dict, are equal iff for every key the values agree, an
      absent key counting as None. *)
  Theorem c33_equal : forall a b x y, proper x -> proper y ->
    (x = MModel a /\ y = MModel b) \/ (x = MModel a /\ y = MDict b) ->
    py_eq x y = Ok true <-> forall k, py_eq (get_or_none k a) (get_or_none k b) = Ok true.
  Proof.
    intros a b x y PX PY C. rewrite py_eq_step.
    assert (E : eq_step leaf_eq py_eq x y = model_eq py_eq a b) by (destruct C as [[-> ->]|[-> ->]]; reflexivity).
    rewrite E. apply model_true.
    - apply proper_keys. destruct C as [[-> ->]|[-> ->]]; auto.
    - apply proper_keys. destruct C as [[-> ->]|[-> ->]]; auto.
  Qed.
  (** A dict on the left is compared the same way round. *)
  Theorem c33_dict_left : forall a b, py_eq (MDict a) (MModel b) = py_eq (MModel b) (MDict a).
  Proof. intros. rewrite !py_eq_step. reflexivity. Qed.
  (** Every value is equal to itself. *)
  Theorem c33_reflexive : (forall x, leaf_eq x x = true) -> forall v, proper v -> py_eq v v = Ok true.
  Proof.
    intro R. assert (X : forall n v, depth v < n -> proper v -> py_eq v v = Ok true).
    { induction n as [|n IH]; intros v D P; [lia|]. rewrite py_eq_step. destruct P as [|x|l FL|d ND FD|d ND FD]; cbn [eq_step].
      - reflexivity.
      - now rewrite R.
      - rewrite Nat.eqb_refl. rewrite depth_list in D. apply list_true. induction FL as [|v l P FL IHL]; [constructor|].
        rewrite ldepth_cons in D. constructor; [apply IH; [lia|exact P]|apply IHL; lia].
      - rewrite Nat.eqb_refl. rewrite depth_dict in D. apply dict_items_true; [exact ND|]. intros k v E. exists v.
        split; [exact E|]. pose proof (ddepth_some _ _ _ E). apply In_sget in E; [|exact ND]. rewrite Forall_forall in FD.
        apply IH; [lia|]. exact (FD _ E).
      - rewrite depth_model in D. apply model_true; [exact ND|exact ND|]. intro k. pose proof (ddepth_get d k).
        apply IH; [lia|]. apply proper_get. left. now constructor. }
    intros v P. apply (X (S (depth v))); auto.
  Qed.
  (** Being equal does not depend on the order. *)
  Theorem c33_symmetric : (forall x y, leaf_eq x y = leaf_eq y x) -> forall v w, proper v -> proper w ->
    py_eq v w = Ok true -> py_eq w v = Ok true.
  Proof.
    intro R. assert (X : forall n v w, depth v < n -> proper v -> proper w -> py_eq v w = Ok true -> py_eq w v = Ok true).
    { induction n as [|n IH]; intros v w D P Q E; [lia|].
      assert (MM : forall a b, ddepth a < n -> (forall k, proper (get_or_none k a)) -> (forall k, proper (get_or_none k b)) ->
                NoDup (map fst a) -> NoDup (map fst b) ->
                model_eq py_eq a b = Ok true -> model_eq py_eq b a = Ok true).
      { intros a b DA PA PB NA NB M. rewrite model_true in M by assumption. apply model_true; [assumption..|].
        intro k. apply IH; auto. pose proof (ddepth_get a k). lia. }
      assert (MM' : forall a b, ddepth a < n -> (forall k, proper (get_or_none k a)) -> (forall k, proper (get_or_none k b)) ->
                NoDup (map fst a) -> NoDup (map fst b) ->
                model_eq py_eq a b = Ok true -> model_eq py_eq b a = Ok true) by exact MM.
      rewrite py_eq_step in E |- *. destruct v as [|x|l|a|a], w as [|y|m|b|b]; cbn [eq_step] in E |- *; try discriminate E; try exact E.
      - rewrite R. exact E.
      - inversion P as [| |? FL| |]; subst. inversion Q as [| |? FM| |]; subst. rewrite depth_list in D.
        destruct (Nat.eqb (length l) (length m)) eqn:EL; [|discriminate E]. rewrite Nat.eqb_sym, EL.
        apply list_true in E. apply list_true. clear EL P Q MM MM'. revert FL FM D. induction E as [|v w l m E1 E2 IHE]; intros FL FM D; [constructor|].
        inversion FL; subst. inversion FM; subst. rewrite ldepth_cons in D. constructor; [apply IH; auto; lia|apply IHE; auto; lia].
      - destruct (Nat.eqb (length a) (length b)) eqn:EL; [|discriminate E]. rewrite Nat.eqb_sym, EL.
        assert (NA : NoDup (map fst a)) by (apply proper_keys; auto). assert (NB : NoDup (map fst b)) by (apply proper_keys; auto).
        rewrite dict_items_true in E by exact NA. apply dict_items_true; [exact NB|].
        assert (INC : incl (map fst b) (map fst a)).
        { apply NoDup_length_incl; [exact NA| |].
          - rewrite !map_length. apply Nat.eqb_eq in EL. lia.
          - intros k I. apply smem_keys in I as (v & I). destruct (E k v I) as (w & W & _). apply smem_keys. eauto. }
        intros k w W. assert (I : In k (map fst a)) by (apply INC, smem_keys; eauto). apply smem_keys in I as (v & V).
        destruct (E k v V) as (w' & W' & EQ). rewrite W in W'. injection W' as <-. exists v. split; [exact V|].
        rewrite depth_dict in D. pose proof (ddepth_some _ _ _ V). apply IH; auto; [lia|..].
        + pose proof (proper_get a k (or_intror P)) as PG. unfold get_or_none in PG. now rewrite V in PG.
        + pose proof (proper_get b k (or_intror Q)) as PG. unfold get_or_none in PG. now rewrite W in PG.
      - rewrite depth_model in D. apply MM; auto using proper_get, proper_keys; lia. }
    intros v w P Q. apply (X (S (depth v))); auto.
  Qed.
  (** [!=] is the negation of [==]. *)
  Theorem c33_not_equal : forall v w b, py_ne v w = Ok b <-> py_eq v w = Ok (negb b).
  Proof.
    intros v w b. unfold M_ModelEq.py_ne. rewrite bind_ok. split.
    - intros (e & E & X). injection X as <-. now rewrite Bool.negb_involutive.
    - intro E. exists (negb b). split; [exact E|]. now rewrite Bool.negb_involutive.
  Qed.
  (** Comparing always ends, with an answer or with AttributeError. *)
  Theorem c33_total : forall v w, py_eq v w <> Err OutOfFuel /\ (forall e, py_eq v w = Err e -> e = AttributeError).
  Proof.
    assert (X : forall v w e, py_eq v w = Err e -> e = AttributeError).
    { assert (Y : forall n v w e, Nat.max (depth v) (depth w) < n -> py_eq v w = Err e -> e = AttributeError).
      { induction n as [|n IH]; intros v w e D E; [lia|]. rewrite py_eq_step in E.
        assert (MI : forall a b, ddepth a < n -> ddepth b < n -> items_eq py_eq a b = Err e -> e = AttributeError).
        { induction a as [|[k v0] a IHa]; intros b DA DB EI; cbn [items_eq] in EI; [discriminate EI|].
          rewrite ddepth_cons in DA. destruct (py_eq v0 (get_or_none k b)) as [[]|e'] eqn:E1; cbn [bind] in EI; try discriminate EI.
          - apply (IHa b); auto; lia.
          - injection EI as ->. pose proof (ddepth_get b k). eapply (IH v0 (get_or_none k b)); [lia|exact E1]. }
        assert (MM : forall a b, ddepth a < n -> ddepth b < n -> model_eq py_eq a b = Err e -> e = AttributeError).
        { intros a b DA DB EM. unfold model_eq in EM. destruct (items_eq py_eq a b) as [[]|e'] eqn:E1; cbn [bind] in EM; try discriminate EM.
          injection EM as ->. apply (MI a b); auto. }
        destruct v as [|x|l|a|a], w as [|y|m|b|b]; cbn [eq_step] in E; try discriminate E; try (now injection E as <-);
          rewrite ?depth_list, ?depth_dict, ?depth_model in D.
        - destruct (Nat.eqb _ _); [|discriminate E]. revert m D E. induction l as [|v l IHl]; intros [|w m] D E; cbn [list_eq] in E; try discriminate E.
          rewrite !ldepth_cons in D. destruct (py_eq v w) as [[]|e'] eqn:E1; cbn [bind] in E; try discriminate E.
          + apply (IHl m); auto. lia.
          + injection E as ->. eapply IH; [|exact E1]. lia.
        - destruct (Nat.eqb _ _); [|discriminate E]. revert D E. clear MI MM. induction a as [|[k v] a IHa]; intros D E; cbn [dict_items_eq] in E; [discriminate E|].
          rewrite ddepth_cons in D. destruct (sget k b) as [w|] eqn:G; [|discriminate E]. apply ddepth_some in G.
          destruct (py_eq v w) as [[]|e'] eqn:E1; cbn [bind] in E; try discriminate E.
          + apply IHa; auto. lia.
          + injection E as ->. eapply IH; [|exact E1]. lia.
        - apply (MM b a); auto; lia.
        - apply (MM a b); auto; lia.
        - apply (MM a b); auto; lia. }
      intros v w e. apply (Y (S (Nat.max (depth v) (depth w)))). lia. }
    intros v w. split; [|apply X]. intro E. apply X in E. discriminate E.
  Qed.
End Claims.
Print Assumptions c33_equal.
Print Assumptions c33_dict_left.
Print Assumptions c33_reflexive.
Print Assumptions c33_symmetric.
Print Assumptions c33_not_equal.
Print Assumptions c33_total.

(** ** Concrete cases (leaves are numbers) *)
Definition m_a : mval nat := MModel [(lit "id", MLeaf 1); (lit "tag", MNone); (lit "in", MModel [(lit "x", MList [MLeaf 2])])].
Definition m_b : mval nat := MModel [(lit "in", MDict [(lit "x", MList [MLeaf 2]); (lit "y", MNone)]); (lit "id", MLeaf 1)].
Example c33_ex_proper : proper m_a /\ proper m_b.
Proof.
  split; repeat (constructor; cbn; try (intros [E|E]; try discriminate E); try easy).
  all: intuition discriminate.
Qed.
Example c33_ex_equal : py_eq Nat.eqb m_a m_b = Ok true /\ py_eq Nat.eqb m_b m_a = Ok true.
Proof. split; reflexivity. Qed.
Example c33_ex_differ : py_eq Nat.eqb m_a (MDict [(lit "id", MLeaf 1)]) = Ok false.
Proof. reflexivity. Qed.
(** Comparing a Model with something that is not a dict raises instead of being false. *)
Theorem c33_other_refuted : exists (m v : mval nat), py_eq Nat.eqb m v = Err AttributeError /\ py_eq Nat.eqb v m = Err AttributeError.
Proof. exists m_a, (MLeaf 5). split; reflexivity. Qed.
Print Assumptions c33_other_refuted.
