(** Proofs about JSON bodies. *)
From Coq Require Import QArith Lia.
From Verif Require Import PyBase PyFacts PyJson M_SpecVal S_SpecTree S_Merge S_MergeRef S_Compose M_Base64 M_Time S_Time T_Time S_Declared S_Body M_JBody S_JBody.
From Verif Require M_Prim S_Prim S_PrimKinds M_PrimText.
From Verif Require Import P_Op.
Close Scope Q_scope.
Import M_Prim.

Section PrimInd.
  Context (P : prim -> Prop).
  Context (H0 : P PNone) (H1 : forall b, P (PBool b)) (H2 : forall z, P (PInt z)) (H3 : forall q, P (PFloat q)) (H4 : forall s, P (PStr s)) (H5 : forall s, P (PByte s))
    (H6 : forall y m d, P (PDate y m d)) (H7 : forall d, P (PDatetime d)) (H8 : forall z, P (PUuid z)) (H9 : forall h d n, P (PFile h d n))
    (HA : forall fmt l, Forall P l -> P (PArray fmt l)) (HM : forall m, Forall (fun kv => P (snd kv)) m -> P (PModel m)) (HR : forall v, P (PRaw v)).
  Fixpoint prim_ind' (p : prim) : P p :=
    match p with
    | PNone => H0 | PBool b => H1 b | PInt z => H2 z | PFloat q => H3 q | PStr s => H4 s | PByte s => H5 s | PDate y m d => H6 y m d | PDatetime d => H7 d | PUuid z => H8 z
    | PFile h d n => H9 h d n
    | PArray fmt l => HA fmt l ((fix go l := match l return Forall P l with [] => Forall_nil _ | x :: l => Forall_cons _ (prim_ind' x) (go l) end) l)
    | PModel m => HM m ((fix go m := match m return Forall (fun kv => P (snd kv)) m with [] => Forall_nil _ | kv :: m => Forall_cons _ (prim_ind' (snd kv)) (go m) end) m)
    | PRaw v => HR v
    end.
End PrimInd.
Section ValueInd.
  Context (P : value -> Prop).
  Context (HL : forall l, Forall P l -> P (VList l)) (HD : forall d, Forall (fun kv => P (snd kv)) d -> P (VDict d)) (HO : forall v, (forall l, v <> VList l) -> (forall d, v <> VDict d) -> P v).
  Fixpoint value_ind' (v : value) : P v.
  Proof.
    destruct v; try (apply HO; discriminate).
    - apply HL. exact ((fix go l := match l return Forall P l with [] => Forall_nil _ | x :: l => Forall_cons _ (value_ind' x) (go l) end) l).
    - apply HD. exact ((fix go m := match m return Forall (fun kv => P (snd kv)) m with [] => Forall_nil _ | kv :: m => Forall_cons _ (value_ind' (snd kv)) (go m) end) d).
  Defined.
End ValueInd.

Lemma goes_list {A B} (f : A -> res B) l js : (fix go l := match l with [] => Ok [] | x :: l => do j <- f x; do js <- go l; Ok (j :: js) end) l = Ok js <-> Forall2 (fun x j => f x = Ok j) l js.
Proof.
  revert js. induction l as [|x l IH]; intro js; [split; [intro E; injection E as <-; constructor|intro F; now inversion F]|]. split.
  - intro E. apply bind_ok in E as (j & X & E). apply bind_ok in E as (js' & Y & E). injection E as <-. constructor; [exact X|now apply IH].
  - intro F. inversion F as [|? j ? js' X Y]; subst. rewrite X. cbn [bind]. apply IH in Y. rewrite Y. reflexivity.
Qed.
Lemma goes_dict {A B} (f : A -> res B) (d : sdict A) js : (fix go d := match d with [] => Ok [] | (k, x) :: d => do j <- f x; do js <- go d; Ok ((k, j) :: js) end) d = Ok js <-> Forall2 (fun a b => fst a = fst b /\ f (snd a) = Ok (snd b)) d js.
Proof.
  revert js. induction d as [|[k x] d IH]; intro js; [split; [intro E; injection E as <-; constructor|intro F; now inversion F]|]. split.
  - intro E. apply bind_ok in E as (j & X & E). apply bind_ok in E as (js' & Y & E). injection E as <-. constructor; [split; [reflexivity|exact X]|now apply IH].
  - intro F. inversion F as [|? [k' j] ? js' (K & X) Y]; subst. cbn [fst snd] in *. subst k'. rewrite X. cbn [bind]. apply IH in Y. rewrite Y. reflexivity.
Qed.
Lemma raw_list l j : dump_raw (VList l) = Ok j <-> exists js, j = JList js /\ Forall2 (fun x j => dump_raw x = Ok j) l js.
Proof.
  cbn [dump_raw]. rewrite bind_ok. split; [intros (js & A & B); injection B as <-; exists js; split; [reflexivity|now apply goes_list]|intros (js & -> & F); exists js; split; [now apply goes_list|reflexivity]].
Qed.
Lemma raw_dict d j : dump_raw (VDict d) = Ok j <-> exists js, j = JObj js /\ Forall2 (fun a b => fst a = fst b /\ dump_raw (snd a) = Ok (snd b)) d js.
Proof.
  cbn [dump_raw]. rewrite bind_ok. split; [intros (js & A & B); injection B as <-; exists js; split; [reflexivity|now apply goes_dict]|intros (js & -> & F); exists js; split; [now apply goes_dict|reflexivity]].
Qed.
Lemma raw_back v : forall j, dump_raw v = Ok j -> load j = v.
Proof.
  induction v as [l IH|d IH|v NL ND] using value_ind'; intros j E.
  - apply raw_list in E as (js & -> & F). cbn [load]. f_equal. induction F as [|x j l js X F IHF]; [reflexivity|]. inversion IH; subst. cbn [map]. f_equal; auto.
  - apply raw_dict in E as (js & -> & F). cbn [load]. f_equal. induction F as [|[k x] [k' j] l js (K & X) F IHF]; [reflexivity|]. inversion IH; subst. cbn [fst snd] in *. subst k'. cbn [map fst snd]. f_equal; [f_equal|]; auto.
  - destruct v; try discriminate E; try (injection E as <-; reflexivity); [now destruct (NL l)|now destruct (ND d)].
Qed.
Lemma raw_shows v : forall j, dump_raw v = Ok j <-> plain_shows v j.
Proof.
  induction v as [l IH|d IH|v NL ND] using value_ind'; intro j.
  - rewrite raw_list. split.
    + intros (js & -> & F). constructor. induction F; constructor; inversion IH; subst; auto. now apply H2.
    + intro S. inversion S as [| | | | |? js F|]; subst. exists js. split; [reflexivity|]. clear S. induction F; constructor; inversion IH; subst; auto. now apply H2.
  - rewrite raw_dict. split.
    + intros (js & -> & F). constructor. induction F as [|a b d js (K & X) F IHF]; constructor; inversion IH; subst; auto. split; [exact K|]. now apply H1.
    + intro S. inversion S as [| | | | | |? js F]; subst. exists js. split; [reflexivity|]. clear S. induction F as [|a b d js (K & X) F IHF]; constructor; inversion IH; subst; auto. split; [exact K|]. now apply H1.
  - split.
    + intro E. destruct v; try discriminate E; try (injection E as <-; constructor); [now destruct (NL l)|now destruct (ND d)].
    + intro S. inversion S; subst; try reflexivity; [now destruct (NL l)|now destruct (ND d)].
Qed.

Section Any.
  Context (show_other : prim -> str).
  Notation dump := (dump show_other).
  Notation arrives := (arrives show_other).
  Lemma dump_array fmt l j : dump (PArray fmt l) = Ok j <-> exists js, j = JList js /\ Forall2 (fun x j => dump x = Ok j) l js.
  Proof.
    cbn [M_JBody.dump]. rewrite bind_ok. split; [intros (js & A & B); injection B as <-; exists js; split; [reflexivity|now apply goes_list]|intros (js & -> & F); exists js; split; [now apply goes_list|reflexivity]].
  Qed.
  Lemma dump_model d j : dump (PModel d) = Ok j <-> exists js, j = JObj js /\ Forall2 (fun a b => fst a = fst b /\ dump (snd a) = Ok (snd b)) d js.
  Proof.
    cbn [M_JBody.dump]. rewrite bind_ok. split; [intros (js & A & B); injection B as <-; exists js; split; [reflexivity|now apply goes_dict]|intros (js & -> & F); exists js; split; [now apply goes_dict|reflexivity]].
  Qed.
  Theorem dump_shows p : forall j, dump p = Ok j <-> shows urlsafe_b64encode (fun z => show_other (PUuid z)) p j.
  Proof.
    induction p as [| | | | | | | | | |fmt l IH|m IH|v] using prim_ind'; intro j; try (cbn; split; [intro E; injection E as <-; constructor|intro S; now inversion S]).
    - cbn. split; [discriminate|intro S; inversion S].
    - rewrite dump_array. split.
      + intros (js & -> & F). constructor. induction F; constructor; inversion IH; subst; auto. now apply H2.
      + intro S. inversion S as [| | | | | | | | |? ? js F| |]; subst. exists js. split; [reflexivity|]. clear S. induction F; constructor; inversion IH; subst; auto. now apply H2.
    - rewrite dump_model. split.
      + intros (js & -> & F). constructor. induction F as [|a b d js (K & X) F IHF]; constructor; inversion IH; subst; auto. split; [exact K|]. now apply H1.
      + intro S. inversion S as [| | | | | | | | | |? js F|]; subst. exists js. split; [reflexivity|]. clear S. induction F as [|a b d js (K & X) F IHF]; constructor; inversion IH; subst; auto. split; [exact K|]. now apply H1.
    - cbn. rewrite raw_shows. split; [now constructor|intro S; now inversion S].
  Qed.
  Lemma arrives_fun p v w : arrives p v -> arrives p w -> v = w.
  Proof. intros (j & A & ->) (j' & B & ->). congruence. Qed.
  Lemma arrives_array fmt l v : arrives (PArray fmt l) v -> exists vs, v = VList vs /\ Forall2 arrives l vs.
  Proof.
    intros (j & D & ->). apply dump_array in D as (js & -> & F). exists (map load js). split; [reflexivity|]. induction F; constructor; auto. eexists; eauto.
  Qed.
  Lemma arrives_model m v : arrives (PModel m) v -> exists d, v = VDict d /\ Forall2 (fun a b => fst a = fst b /\ arrives (snd a) (snd b)) m d.
  Proof.
    intros (j & D & ->). apply dump_model in D as (js & -> & F). eexists. split; [reflexivity|]. induction F as [|a b d js (K & X) F IHF]; constructor; auto. split; [exact K|]. eexists; eauto.
  Qed.
  Lemma entries m d : Forall2 (fun a b => fst a = fst b /\ arrives (snd a) (snd b)) m d -> forall k,
    match sget k m, sget k d with Some y, Some w => arrives y w | None, None => True | _, _ => False end.
  Proof.
    intros F k. unfold sget. induction F as [|[a y] [b w] m d (K & X) F IH]; [exact Logic.I|]. cbn [fst snd] in *. subst b. cbn [dget fst]. destruct (str_eqb k a); [exact X|exact IH].
  Qed.
End Any.
