(** General lemmas on dictionaries and loops, and facts about the tables of M_SpecVal. *)
From Coq Require Import Lia.
From Verif Require Import PyBase PyFacts PyJson P_Op M_SpecVal.
Close Scope Q_scope.

Lemma sget_cons {A} k k' (x : A) d : sget k ((k', x) :: d) = if str_eqb k k' then Some x else sget k d.
Proof. reflexivity. Qed.
Lemma sget_app {A} k (d e : sdict A) : sget k (d ++ e) = match sget k d with Some x => Some x | None => sget k e end.
Proof. induction d as [|[k0 x] d IH]; [reflexivity|]. cbn [app]. rewrite !sget_cons. destruct (str_eqb k k0); auto. Qed.
Lemma sget_filter {A} (f : str -> bool) k (d : sdict A) :
  sget k (filter (fun kv => f (fst kv)) d) = if f k then sget k d else None.
Proof.
  induction d as [|[k1 x] d IH]; cbn [filter fst]; [now destruct (f k)|].
  rewrite sget_cons. destruct (f k1) eqn:F1.
  - rewrite sget_cons, IH. destruct (str_eqb k k1) eqn:E; [|reflexivity]. apply str_eqb_eq in E. subst. now rewrite F1.
  - rewrite IH. destruct (str_eqb k k1) eqn:E; [|reflexivity]. apply str_eqb_eq in E. subst. now rewrite F1.
Qed.
Lemma sget_map {A B} (f : A -> B) k (d : sdict A) :
  sget k (map (fun kv => (fst kv, f (snd kv))) d) = option_map f (sget k d).
Proof.
  induction d as [|[k1 x] d IH]; [reflexivity|]. cbn [map fst snd]. rewrite !sget_cons, IH.
  now destruct (str_eqb k k1).
Qed.
Lemma sget_mapk {A B} (f : str -> A -> B) k (d : sdict A) :
  sget k (map (fun kv => (fst kv, f (fst kv) (snd kv))) d) = option_map (f k) (sget k d).
Proof.
  induction d as [|[k1 x] d IH]; [reflexivity|]. cbn [map fst snd]. rewrite !sget_cons, IH.
  destruct (str_eqb k k1) eqn:E; [|reflexivity]. apply str_eqb_eq in E. now subst.
Qed.
Lemma smem_sget {A} k (d : sdict A) : smem k d = match sget k d with Some _ => true | None => false end.
Proof. reflexivity. Qed.
Lemma map_fst_map {A B} (f : str -> A -> B) (d : sdict A) : map fst (map (fun kv => (fst kv, f (fst kv) (snd kv))) d) = map fst d.
Proof. rewrite map_map. now apply map_ext. Qed.

Lemma Forall2_weaken {A B} (P Q : A -> B -> Prop) l m : (forall x y, P x y -> Q x y) -> Forall2 P l m -> Forall2 Q l m.
Proof. intros H F. induction F; constructor; auto. Qed.
Lemma Forall2_weaken_In {A B} (P Q : A -> B -> Prop) l m :
  (forall x y, In x l -> In y m -> P x y -> Q x y) -> Forall2 P l m -> Forall2 Q l m.
Proof.
  intros H F. induction F; constructor; [apply H; auto; now left|].
  apply IHF. intros. apply H; auto; now right.
Qed.
Lemma Forall2_map_l {A B C} (P : B -> C -> Prop) (f : A -> B) l m : Forall2 P (map f l) m <-> Forall2 (fun x y => P (f x) y) l m.
Proof.
  revert m. induction l as [|x l IH]; intros [|y m]; cbn [map]; split; intro F; inversion F; subst; constructor; auto; now apply IH.
Qed.
Lemma Forall2_map_r {A B C} (P : A -> C -> Prop) (f : B -> C) l m : Forall2 P l (map f m) <-> Forall2 (fun x y => P x (f y)) l m.
Proof.
  revert m. induction l as [|x l IH]; intros [|y m]; cbn [map]; split; intro F; inversion F; subst; constructor; auto; now apply IH.
Qed.
Lemma Forall2_comp {A B C} (P : A -> B -> Prop) (Q : B -> C -> Prop) l m n :
  Forall2 P l m -> Forall2 Q m n -> Forall2 (fun x z => exists y, P x y /\ Q y z) l n.
Proof. intro F. revert n. induction F; intros n G; inversion G; subst; constructor; eauto. Qed.
Lemma Forall2_nth {A B} (P : A -> B -> Prop) l m : Forall2 P l m ->
  forall i y, nth_error m i = Some y -> exists x, nth_error l i = Some x /\ P x y.
Proof.
  intro F. induction F; intros [|i] z E; cbn in E; try discriminate E.
  - injection E as <-. exists x. split; auto.
  - apply IHF in E. exact E.
Qed.
Lemma Forall2_len {A B} (P : A -> B -> Prop) l m : Forall2 P l m -> length l = length m.
Proof. intro F. induction F; cbn; auto. Qed.
Lemma Forall2_In_r {A B} (P : A -> B -> Prop) l m y : Forall2 P l m -> In y m -> exists x, In x l /\ P x y.
Proof.
  intro F. induction F; intros []; subst; [eexists; split; [now left|eauto]|].
  destruct (IHF H0) as (x0 & I & Q). exists x0. split; [now right|exact Q].
Qed.
Lemma Forall2_In_l {A B} (P : A -> B -> Prop) l m x : Forall2 P l m -> In x l -> exists y, In y m /\ P x y.
Proof.
  intro F. induction F; intros []; subst; [eexists; split; [now left|eauto]|].
  destruct (IHF H0) as (y0 & I & Q). exists y0. split; [now right|exact Q].
Qed.

(** Dictionaries related key by key. *)
Definition drel {A B} (P : str -> A -> B -> Prop) (d : sdict A) (e : sdict B) : Prop :=
  Forall2 (fun kv kw => fst kv = fst kw /\ P (fst kv) (snd kv) (snd kw)) d e.
Lemma drel_keys {A B} (P : str -> A -> B -> Prop) d e : drel P d e -> map fst d = map fst e.
Proof. intro F. induction F as [|x y d e (E & _) F IH]; cbn; [reflexivity|congruence]. Qed.
Lemma drel_get_r {A B} (P : str -> A -> B -> Prop) d e k y : drel P d e -> sget k e = Some y ->
  exists x, sget k d = Some x /\ P k x y.
Proof.
  intro F. induction F as [|[k1 x1] [k2 y2] d e (E & Q) F IH]; [discriminate|]. cbn [fst snd] in *. subst k2.
  rewrite !sget_cons. destruct (str_eqb k k1) eqn:E; [|exact IH]. apply str_eqb_eq in E. subst.
  intro X. injection X as ->. eauto.
Qed.
Lemma drel_get_l {A B} (P : str -> A -> B -> Prop) d e k x : drel P d e -> sget k d = Some x ->
  exists y, sget k e = Some y /\ P k x y.
Proof.
  intro F. induction F as [|[k1 x1] [k2 y2] d e (E & Q) F IH]; [discriminate|]. cbn [fst snd] in *. subst k2.
  rewrite !sget_cons. destruct (str_eqb k k1) eqn:E; [|exact IH]. apply str_eqb_eq in E. subst.
  intro X. injection X as ->. eauto.
Qed.
Lemma drel_weaken {A B} (P Q : str -> A -> B -> Prop) d e : (forall k x y, P k x y -> Q k x y) -> drel P d e -> drel Q d e.
Proof. intros H. apply Forall2_weaken. intros [k x] [k' y] (E & X). cbn in *. auto. Qed.

Lemma map_res_ok {A B} (f : A -> res B) l : forall rs, map_res f l = Ok rs <-> Forall2 (fun x y => f x = Ok y) l rs.
Proof.
  induction l as [|x l IH]; intro rs; cbn [map_res].
  - split; [intro E; injection E as <-; constructor|intro F; inversion F; reflexivity].
  - rewrite bind_ok. split.
    + intros (y & E & R). apply bind_ok in R as (ys & R & X). injection X as <-. constructor; [exact E|now apply IH].
    + intro F. inversion F as [|? y ? ys E R]; subst. exists y. split; [exact E|]. apply bind_ok. exists ys.
      split; [now apply IH|reflexivity].
Qed.
Lemma map_res_err {A B} (f : A -> res B) l e : map_res f l = Err e -> exists x, In x l /\ f x = Err e.
Proof.
  induction l as [|x l IH]; cbn [map_res]; [discriminate|]. destruct (f x) as [y|e0] eqn:E; cbn [bind].
  - destruct (map_res f l) as [ys|e1]; cbn [bind]; [discriminate|]. intro X. injection X as ->.
    destruct IH as (z & I & Z); [reflexivity|]. exists z. split; [now right|exact Z].
  - intro X. injection X as ->. exists x. split; [now left|exact E].
Qed.
Lemma map_res_ext {A B} (f g : A -> res B) l : (forall x, In x l -> f x = g x) -> map_res f l = map_res g l.
Proof.
  induction l as [|x l IH]; intro H; cbn [map_res]; [reflexivity|]. rewrite H by now left.
  rewrite IH; [reflexivity|]. intros. apply H. now right.
Qed.
(** A loop over the entries of a dictionary that keeps the keys. *)
Lemma map_res_dict {A B} (f : str -> A -> res B) (d : sdict A) e :
  map_res (fun kv => do x <- f (fst kv) (snd kv); Ok (fst kv, x)) d = Ok e <-> drel (fun k x y => f k x = Ok y) d e.
Proof.
  rewrite map_res_ok. split; apply Forall2_weaken; intros [k x] [k' y]; cbn [fst snd].
  - rewrite bind_ok. intros (z & E & X). injection X as <- <-. auto.
  - intros (<- & E). rewrite E. reflexivity.
Qed.
Lemma mapi_res_ext {A B} (f g : nat -> A -> res B) l : forall i,
  (forall j x, In x l -> f j x = g j x) -> mapi_res f i l = mapi_res g i l.
Proof.
  induction l as [|x l IH]; intros i H; cbn [mapi_res]; [reflexivity|]. rewrite H by now left.
  rewrite IH; [reflexivity|]. intros. apply H. now right.
Qed.
(** Lists related position by position. *)
Fixpoint irel {A B} (P : nat -> A -> B -> Prop) (i : nat) (l : list A) (m : list B) : Prop :=
  match l, m with
  | [], [] => True
  | x :: l, y :: m => P i x y /\ irel P (S i) l m
  | _, _ => False
  end.
Lemma mapi_res_ok {A B} (f : nat -> A -> res B) l : forall i rs, mapi_res f i l = Ok rs <-> irel (fun i x y => f i x = Ok y) i l rs.
Proof.
  induction l as [|x l IH]; intros i rs; cbn [mapi_res].
  - split; [intro E; injection E as <-; exact I|]. destruct rs; [reflexivity|intros []].
  - rewrite bind_ok. split.
    + intros (y & E & R). apply bind_ok in R as (ys & R & X). injection X as <-. split; [exact E|now apply IH].
    + destruct rs as [|y ys]; [intros []|]. intros (E & R). exists y. split; [exact E|]. apply bind_ok. exists ys.
      split; [now apply IH|reflexivity].
Qed.
Lemma mapi_res_err {A B} (f : nat -> A -> res B) l e : forall i, mapi_res f i l = Err e -> exists j x, In x l /\ f j x = Err e.
Proof.
  induction l as [|x l IH]; intro i; cbn [mapi_res]; [discriminate|]. destruct (f i x) as [y|e0] eqn:E; cbn [bind].
  - destruct (mapi_res f (S i) l) as [ys|e1] eqn:E1; cbn [bind]; [discriminate|]. intro X. injection X as ->.
    destruct (IH _ E1) as (j & z & I & Z). exists j, z. split; [now right|exact Z].
  - intro X. injection X as ->. exists i, x. split; [now left|exact E].
Qed.
Lemma irel_nth {A B} (P : nat -> A -> B -> Prop) l : forall i m, irel P i l m ->
  forall j y, nth_error m j = Some y -> exists x, nth_error l j = Some x /\ P (i + j) x y.
Proof.
  induction l as [|x l IH]; intros i [|y m] H j z E; try destruct H as (H & R).
  - destruct j; discriminate E.
  - destruct H.
  - destruct j; discriminate E.
  - destruct j as [|j]; cbn in E.
    + injection E as <-. exists x. rewrite Nat.add_0_r. auto.
    + destruct (IH _ _ R _ _ E) as (x' & N & Q). exists x'. split; [exact N|].
      replace (i + S j) with (S i + j) by lia. exact Q.
Qed.
Lemma irel_Forall2 {A B} (P : nat -> A -> B -> Prop) (Q : A -> B -> Prop) l : forall i m,
  (forall j x y, In x l -> P j x y -> Q x y) -> irel P i l m -> Forall2 Q l m.
Proof.
  induction l as [|x l IH]; intros i [|y m] H R; try destruct R as (R & S); try contradiction; constructor.
  - eapply H; [now left|exact R].
  - eapply IH; [|exact S]. intros. eapply H; [now right|eassumption].
Qed.

(** ** The tables *)
(** all classes, of both versions *)
Ltac each_class c := destruct c as [| | | | | | | | | | | | | | |[]].
Lemma ocls_eqb_eq a b : ocls_eqb a b = true <-> a = b.
Proof. unfold ocls_eqb. split; [destruct a, b; cbn; congruence|intros ->; now destruct b]. Qed.
Lemma cls_eqb_eq a b : cls_eqb a b = true <-> a = b.
Proof.
  split; [destruct a, b; cbn [cls_eqb]; try congruence; intro E; apply ocls_eqb_eq in E; congruence|].
  intros ->. destruct b; try reflexivity. now apply ocls_eqb_eq.
Qed.
Lemma cls_eqb_refl a : cls_eqb a a = true.
Proof. now apply cls_eqb_eq. Qed.
Fixpoint nodupb (l : list str) : bool := match l with [] => true | x :: l => negb (mem x l) && nodupb l end.
Lemma nodupb_ok l : nodupb l = true -> NoDup l.
Proof.
  induction l as [|x l IH]; cbn [nodupb]; intro E; constructor; apply andb_prop in E as (A & B); [|auto].
  apply mem_false. now destruct (mem x l).
Qed.
Lemma fields_nodup c : NoDup (map fst (t_fields c)).
Proof. apply nodupb_ok. now each_class c; vm_compute. Qed.
Lemma child_nodup c : NoDup (map fst (t_child c)).
Proof. apply nodupb_ok. now each_class c; vm_compute. Qed.
Lemma child_field c n k : sget n (t_child c) = Some k -> exists df, sget n (t_fields c) = Some df.
Proof.
  intro E. apply sget_In in E.
  assert (F : forallb (fun kv => smem (fst kv) (t_fields c)) (t_child c) = true) by (each_class c; vm_compute; reflexivity).
  rewrite forallb_forall in F. specialize (F _ E). cbn [fst] in F. unfold dmem in F.
  destruct (sget n (t_fields c)); [eauto|discriminate F].
Qed.
(** Only [additionalProperties] uses the special context, and on its own. *)
Lemma addp_one c n ct : sget n (t_child c) = Some (ct, AddP) -> ct = One.
Proof.
  intro E. apply sget_In in E.
  assert (F : forallb (fun kv => match snd kv with (One, _) => true | (_, Of _) => true | _ => false end) (t_child c) = true)
    by (each_class c; vm_compute; reflexivity).
  rewrite forallb_forall in F. specialize (F _ E). cbn [snd] in F. destruct ct; [reflexivity|discriminate F..].
Qed.
Definition simple_default (j : json) : bool :=
  match j with JNull | JBool _ | JStr _ | JList [] | JObj [] => true | _ => false end.
Lemma fields_default c n df : sget n (t_fields c) = Some df -> simple_default df = true.
Proof.
  intro E. apply sget_In in E.
  assert (F : forallb (fun kv => simple_default (snd kv)) (t_fields c) = true) by (each_class c; vm_compute; reflexivity).
  rewrite forallb_forall in F. exact (F _ E).
Qed.
(** [is_default] is Python's equality with the default. *)
Lemma is_default_py v df : simple_default df = true -> is_default (inject v) df = py_eqb v df.
Proof.
  intro S. destruct df as [|b|z|q|s|[|? ?]|[|? ?]]; try discriminate S; destruct v as [|b'|z'|q'|s'|l'|d']; try reflexivity.
  - cbn. now destruct b, b'.
  - cbn. unfold Qeq_bool, Zeq_bool, inject_Z. cbn [Qnum Qden]. rewrite Z.mul_1_r.
    destruct b; cbn [Qnum Qden]; rewrite ?Z.mul_1_r; rewrite Z.compare_eq_iff || idtac; unfold Z.eqb;
      destruct z' as [|p|p]; try reflexivity; destruct p; reflexivity.
  - cbn. apply str_eqb_sym.
  - destruct l'; reflexivity.
  - destruct d' as [|? ?]; reflexivity.
Qed.
