(** Proofs about what becomes of values by schemas (C67): heaps that describe schemas. *)
From Coq Require Import QArith Lia.
From Verif Require Import PyBase PyFacts PyJson P_Op M_Graph S_Graph M_Quote M_Time M_Prim S_Prim S_PrimKinds P_Prim P_PrimLeaf P_PrimObj P_PrimMono T_PrimLeaf T_PrimObj T_PrimText T_PrimKinds.
From Verif Require M_SpecVal S_Parse S_SpecTree S_Merge S_MergeRef S_Patch S_Cycles S_Compose S_Prepare P_Cycles.
From Verif Require Import S_Declared M_Declared P_Declared P_Declared2 P_Declared3 S_Body.
Close Scope Q_scope.
Open Scope nat_scope.

Notation val := M_SpecVal.val.
Notation field_of := S_Merge.field_of.
Notation is_obj := S_Parse.is_obj.

Section Takes.
  Context (abs_uri win_uri : str -> str) (u : str) (root : val).
  Notation stands := (S_Compose.stands abs_uri win_uri u root).
  Notation points := (S_Cycles.points abs_uri win_uri u root).
  Context (int_of : str -> res Z) (float_of : str -> res Q) (str_of : value -> str)
    (date_at : Q -> res (Z * Z * Z)) (datetime_at : Q -> res datetime) (uuid_of : str -> option Z) (email_ok : str -> bool).
  Notation becomes := (becomes int_of float_of str_of date_at datetime_at uuid_of email_ok).
  Notation takes := (takes abs_uri win_uri u root int_of float_of str_of date_at datetime_at uuid_of email_ok).
  Notation simple := (simple abs_uri win_uri u root).
  Notation involves := (involves abs_uri win_uri u root).
  Context (h : list schema).
  Notation produce := (produce int_of float_of str_of date_at datetime_at uuid_of email_ok h).
  Notation conv := (conv int_of float_of str_of date_at datetime_at uuid_of email_ok h).
  (** The number [j] is that of the schema [x]. *)
  Context (is_at : nat -> val -> Prop).
  Record full (x : val) (s : schema) : Prop := {
    fu_plain : mirror_plain x s;
    fu_full : s_full s = true;
    fu_type : field_ok x text_or_none "type";
    fu_cf : s_cf s = None;
    fu_ref : match s_ref s with None => S_MergeRef.no_reference x | Some j => exists r ts y, S_MergeRef.refers x r /\ points r ts y /\ is_at j y end;
    fu_items : forall i, field_of x (lit "items") = Some i -> is_obj i -> exists j, s_items s = Some j /\ is_at j i;
    fu_allof : (forall l, field_of x (lit "allOf") = Some (M_SpecVal.VList l) -> l = []) -> s_allof s = [];
    fu_parts : forall l, field_of x (lit "allOf") = Some (M_SpecVal.VList l) -> Forall2 (fun y j => is_at j y) l (s_allof s);
    fu_props : exists d, field_of x (lit "properties") = Some (M_SpecVal.VDict d) /\ NoDup (map fst d) /\ Forall2 (fun kx kj => fst kx = fst kj /\ is_at (snd kj) (snd kx)) d (s_props s);
    fu_addp : match s_addp s with ABool true => anything x | ASchema j => exists a, more x a /\ is_at j a | _ => nothing x end;
    fu_required : forall k, In k (s_required s) <-> S_Compose.requires x k;
    fu_disc : forall k, s_disc s = Some k <-> text_at x "discriminator" k;
    fu_readonly : s_readonly s = true <-> switched_on x "readOnly";
    fu_name : exists n, s_name s = Some n /\ forall y, named x y <-> y = match n with Some t => PStr t | None => PNone end;
    fu_set : s_default_set s = true <-> S_Prepare.says x (lit "default");
    fu_proper : exists d y, field_of x (lit "default") = Some d /\ same_value d y /\ proper y }.
  Hypothesis AT : forall j x, is_at j x -> full x (sch h j).

  (** ** References *)
  Lemma not_both x r : S_MergeRef.no_reference x -> S_MergeRef.refers x r -> False.
  Proof. intros (y & F & E) (N & F'). rewrite F in F'. injection F' as ->. inversion E; subst. now elim N. Qed.
  Lemma stands_target s e : stands s e -> forall j, is_at j s -> exists t, target h j t /\ is_at t e.
  Proof.
    induction 1 as [s NR|s r ts x e RF P SE IH]; intros j A; pose proof (fu_ref _ _ (AT _ _ A)) as X.
    - exists j. split; [|exact A]. apply target_refl. destruct (s_ref (sch h j)); [|reflexivity]. destruct X as (r & ts & x & RF & _). destruct (not_both _ _ NR RF).
    - destruct (s_ref (sch h j)) as [k|] eqn:R; [|destruct (not_both _ _ X RF)]. destruct X as (r' & ts' & x' & (NE & F') & P' & X). destruct RF as (_ & F). assert (r' = r) as -> by congruence.
      destruct (P_Cycles.points_fun _ _ _ _ _ _ _ _ _ P P') as (<- & <-). destruct (IH _ X) as (t & (C & N) & NT). exists t. split; [|exact NT]. split; [econstructor; eauto|exact N].
  Qed.
  Lemma target_stands j t : target h j t -> forall s, is_at j s -> exists e, stands s e /\ is_at t e.
  Proof.
    intros (C & N). induction C as [j|j k t R C IH]; intros s A; pose proof (fu_ref _ _ (AT _ _ A)) as X.
    - rewrite N in X. exists s. split; [now constructor|exact A].
    - rewrite R in X. destruct X as (r & ts & x & RF & P & X). destruct (IH N x X) as (e & SE & E). exists e. split; [econstructor; eauto|exact E].
  Qed.
  Lemma target_fun j t t' : target h j t -> target h j t' -> t' = t.
  Proof. intros A B. apply deref_target in A, B. congruence. Qed.
  Lemma simple_members s e t : simple s -> stands s e -> is_at t e -> members (sch h t) = [].
  Proof. intros S SE A. destruct (S e (in_itself _ _ _ _ _ _ SE)) as (AL & _). unfold members. rewrite (fu_full _ _ (AT _ _ A)). exact (fu_allof _ _ (AT _ _ A) AL). Qed.
  Lemma simple_next s e p : simple s -> stands s e -> next e p -> simple p.
  Proof. intros S SE N t I. apply S. eapply in_next; eauto. Qed.
  Lemma reads_at s e j t : simple s -> stands s e -> target h j t -> is_at t e -> read_as h e j t.
  Proof. intros S SE T A. constructor; [exact T|exact (fu_plain _ _ (AT _ _ A))|exact (simple_members _ _ _ S SE A)]. Qed.

  (** ** Properties *)
  Lemma prop_at x s k p : full x s -> S_Compose.has_property x k p -> exists j, sget k (s_props s) = Some j /\ is_at j p.
  Proof.
    intros F (d & D & G). destruct (fu_props _ _ F) as (d' & D' & _ & A). rewrite D in D'. injection D' as <-. clear D F. induction A as [|[k1 x1] [k2 j] d l (K & X) A IH]; [discriminate G|]. cbn [fst snd] in *. subst k2. cbn [sget dget] in *.
    destruct (str_eqb k k1); [injection G as <-; eauto|exact (IH G)].
  Qed.
  Lemma at_prop x s k j : full x s -> sget k (s_props s) = Some j -> exists p, S_Compose.has_property x k p /\ is_at j p.
  Proof.
    intros F G. destruct (fu_props _ _ F) as (d & D & _ & A). assert (X : exists p, sget k d = Some p /\ is_at j p).
    { clear D F. induction A as [|[k1 x1] [k2 i] d l (K & X) A IH]; [discriminate G|]. cbn [fst snd] in *. subst k2. cbn [sget dget] in *. destruct (str_eqb k k1); [injection G as <-; eauto|exact (IH G)]. }
    destruct X as (p & P & X). exists p. split; [|exact X]. exists d. auto.
  Qed.
  Lemma no_prop x s k : full x s -> sget k (s_props s) = None <-> forall p, ~ S_Compose.has_property x k p.
  Proof.
    intro F. split.
    - intros N p P. destruct (prop_at _ _ _ _ F P) as (j & J & _). congruence.
    - intro N. destruct (sget k (s_props s)) as [j|] eqn:E; [|reflexivity]. destruct (at_prop _ _ _ _ F E) as (p & P & _). destruct (N p P).
  Qed.
  Lemma props_nodup x s : full x s -> NoDup (map fst (s_props s)).
  Proof. intro F. destruct (fu_props _ _ F) as (d & _ & ND & A). assert (K : map fst d = map fst (s_props s)) by (clear - A; induction A as [|a b l m (E & _) A IH]; [reflexivity|cbn [map]; congruence]). now rewrite <- K. Qed.
  Lemma default_at x s : full x s -> exists d y, field_of x (lit "default") = Some d /\ same_value d y /\ proper y /\ s_default s = y.
  Proof.
    intro F. destruct (fu_proper _ _ F) as (d & y & D & SV & P). exists d, y. repeat (split; [assumption|]). destruct (mi_default _ _ (fu_plain _ _ F)) as (d' & D' & E & _). rewrite D in D'. injection D' as <-. now rewrite E, (same_value_of _ _ SV).
  Qed.

  (** ** Kinds *)
  Lemma untyped_is x s : mirror_plain x s -> field_ok x text_or_none "type" -> untyped x <-> s_type s = None \/ s_type s = Some [].
  Proof.
    intros M (v & F & K). pose proof (mi_type _ _ M) as T. unfold untyped. split.
    - intros [E|E]; [left|right; now apply T]. destruct (s_type s) as [t|] eqn:ST; [|reflexivity]. pose proof (proj1 (T t) eq_refl) as X. unfold text_at in X. congruence.
    - intros [E|E]; [left|right; now apply T]. destruct K as [->|(t & ->)]; [exact F|]. pose proof (proj2 (T t) F). congruence.
  Qed.
  Lemma object_is x s : full x s -> object_kind s <-> object_decl x.
  Proof.
    intros F. clear - F. pose proof (fu_type _ _ F) as K. pose proof (untyped_is _ _ (fu_plain _ _ F) K) as U. unfold object_kind, object_decl. rewrite (typed_decl _ _ (fu_plain _ _ F)), <- U. rewrite (fu_full _ _ F).
    assert (P : s_props s <> [] <-> exists k p, S_Compose.has_property x k p).
    { split.
      - intro N. destruct (s_props s) as [|[k j] l] eqn:E; [now destruct N|]. destruct (at_prop _ _ k j F) as (p & P & _); [rewrite E; cbn [sget dget]; now rewrite str_eqb_refl|]. eauto.
      - intros (k & p & P) N. destruct (prop_at _ _ _ _ F P) as (j & J & _). rewrite N in J. discriminate J. }
    assert (A : allows_extra (s_addp s) = true <-> ~ nothing x).
    { pose proof (fu_addp _ _ F) as A. destruct (s_addp s) as [|[|]|a]; cbn [allows_extra]; split; intro X; try reflexivity; try discriminate X; try now destruct X.
      - intros (N & _). now apply N.
      - intros (_ & N). destruct A as (a' & A & _). now apply (N a'). }
    rewrite P, A. tauto.
  Qed.
  Lemma disc_is x s k : full x s -> disc_of s = Some k <-> discriminates x k.
  Proof.
    intro F. unfold discriminates. rewrite <- (fu_disc _ _ F). unfold disc_of. destruct (s_disc s) as [[|a t]|]; split; intro E; try discriminate E.
    - destruct E as (E & N). injection E as <-. now destruct N.
    - injection E as <-. split; [reflexivity|discriminate].
    - destruct E as (E & _). injection E as <-. reflexivity.
    - now destruct E.
  Qed.
End Takes.
