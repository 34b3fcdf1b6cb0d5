(** Proofs about calls with other values that are converted to the same. *)
From Verif Require Import PyBase PyFacts M_Client M_Op S_Op M_SpecVal M_Contrib M_Request M_Invoke.

Section Same.
  Context {V P : Type} (urls : P -> option (list str)) (show : P -> str) (k k' : sdict V).
  Definition alike (q : param (V:=V) (P:=P)) : Prop :=
    match supplied k q, supplied k' q with Some x, Some y => q_prim q x = q_prim q y | None, None => True | _, _ => False end.
  Lemma convert_same st q : alike q -> convert urls show k st q = convert urls show k' st q.
  Proof.
    unfold alike, supplied, convert. destruct (sget (q_name q) k) as [x|], (sget (q_name q) k') as [y|]; destruct (q_default q) as [d|]; intro E; try reflexivity; try contradiction; now rewrite E.
  Qed.
  Lemma convert_all_same qs : (forall q, In q qs -> alike q) -> forall st, convert_all urls show k qs st = convert_all urls show k' qs st.
  Proof.
    induction qs as [|q qs IH]; intros A st; [reflexivity|]. cbn [convert_all]. rewrite (convert_same st q) by (apply A; now left). destruct (convert urls show k' st q); [|reflexivity]. cbn [bind]. apply IH. intros x I. apply A. now right.
  Qed.
  Lemma op_call_same qs : (forall q, In q qs -> alike q) -> map fst k = map fst k' -> op_call urls show qs k = op_call urls show qs k'.
  Proof.
    intros A E. unfold op_call. rewrite (convert_all_same qs A). destruct (convert_all urls show k' qs _) as [st|e]; [|reflexivity]. cbn [bind].
    assert (X : forall d : sdict V, forallb (fun kv => mem (fst kv) (snd st)) d = forallb (fun n => mem n (snd st)) (map fst d)) by (induction d as [|a d IH]; [reflexivity|]; cbn [forallb map]; now rewrite IH).
    now rewrite (X k), (X k'), E.
  Qed.
  Lemma call_same files plain produce o qs : params_of plain produce o = Ok qs -> (forall q, In q qs -> alike q) -> map fst k = map fst k' ->
    call urls show files plain produce o k = call urls show files plain produce o k'.
  Proof. intros PO A E. unfold call. rewrite PO. cbn [bind]. now rewrite (op_call_same qs A E). Qed.
End Same.

Section Placed.
  Context {V P : Type} (urls : P -> option (list str)) (show : P -> str).
  Notation param := (param (V:=V) (P:=P)).
  (** [q] is the only parameter of its name that lands in its location. *)
  Lemma picks_app {A} (p : A -> Prop) a b l : picks p (a ++ b) l -> exists la lb, l = la ++ lb /\ picks p a la /\ picks p b lb.
  Proof.
    revert l. induction a as [|x a IH]; intros l H; [exists [], l; split; [reflexivity|]; split; [constructor|exact H]|]. cbn [app] in H.
    inversion H as [|? ? l' PX R|? ? l' PX R]; subst; apply IH in R as (la & lb & -> & A1 & A2).
    - exists (x :: la), lb. split; [reflexivity|]. split; [now constructor|exact A2].
    - exists la, lb. split; [reflexivity|]. split; [now constructor|exact A2].
  Qed.
  Lemma picks_all {A} (p : A -> Prop) cs l x : picks p cs l -> In x l -> In x cs /\ p x.
  Proof. induction 1 as [|y cs l PY H IH|y cs l PY H IH]; [intros []| |]; intro I; [destruct I as [->|I]; [split; [now left|exact PY]|]|]; destruct (IH I); split; auto; now right. Qed.
  Lemma pairs_none n (l : list (param * P)) : (forall x, In x l -> q_name (fst x) <> n) -> filter (fun e => str_eqb (fst e) n) (flat_map (pairs urls show) l) = [].
  Proof.
    induction l as [|x l IH]; intro N; [reflexivity|]. cbn [flat_map]. rewrite filter_app, IH by (intros y I; apply N; now right). rewrite app_nil_r. unfold pairs. specialize (N x (or_introl eq_refl)).
    induction (texts urls show (snd x)) as [|t ts IT]; [reflexivity|]. cbn [map filter fst]. destruct (str_eqb_spec (q_name (fst x)) n); [contradiction|exact IT].
  Qed.
  Lemma pairs_one (q : param) c : filter (fun e => str_eqb (fst e) (q_name q)) (pairs urls show (q, c)) = pairs urls show (q, c).
  Proof. unfold pairs. cbn [fst snd]. induction (texts urls show c) as [|t ts IT]; [reflexivity|]. cbn [map filter fst]. rewrite str_eqb_refl. now rewrite IT. Qed.
  Lemma listed_alone loc a (q : param) c b l : picks (lands urls loc) (a ++ (q, c) :: b) l -> lands urls loc (q, c) -> (forall x, In x (a ++ b) -> q_name (fst x) = q_name q -> q_in (fst x) <> loc) ->
    filter (fun e => str_eqb (fst e) (q_name q)) (flat_map (pairs urls show) l) = pairs urls show (q, c).
  Proof.
    intros H L AL. apply picks_app in H as (la & lb & -> & A & B). inversion B as [|? ? l' PX R|? ? l' PX R]; subst; [|contradiction].
    rewrite flat_map_app, filter_app. cbn [flat_map]. rewrite filter_app, pairs_one, !pairs_none; [now rewrite app_nil_r| |]; intros x I E; apply (AL x); auto; try (apply in_or_app; destruct (picks_all _ _ _ _ A I) || destruct (picks_all _ _ _ _ R I); auto).
    - now destruct (picks_all _ _ _ _ R I) as (_ & X & _).
    - now destruct (picks_all _ _ _ _ A I) as (_ & X & _).
  Qed.
  Lemma find_none {A} (f : A -> bool) l : (forall x, In x l -> f x = false) -> find f l = None.
  Proof. induction l as [|x l IH]; intro N; [reflexivity|]. cbn [find]. rewrite (N x (or_introl eq_refl)). apply IH. intros y I. apply N. now right. Qed.
  Lemma find_app {A} (f : A -> bool) a b : find f (a ++ b) = match find f a with Some x => Some x | None => find f b end.
  Proof. induction a as [|x a IH]; [reflexivity|]. cbn [app find]. destruct (f x); auto. Qed.
  Lemma filled_alone loc a (q : param) c b l d : picks (lands urls loc) (a ++ (q, c) :: b) l -> lands urls loc (q, c) -> (forall x, In x (a ++ b) -> q_name (fst x) = q_name q -> q_in (fst x) <> loc) ->
    filled (map (named_text show) l) d -> sget (q_name q) d = Some (show c).
  Proof.
    intros H L AL (_ & F). rewrite F. apply picks_app in H as (la & lb & -> & A & B). inversion B as [|? ? l' PX R|? ? l' PX R]; subst; [|contradiction].
    rewrite map_app, rev_app_distr. cbn [map rev]. rewrite !find_app. rewrite find_none.
    - cbn [find named_text fst snd]. now rewrite str_eqb_refl.
    - intros x I. apply in_rev in I. apply in_map_iff in I as (y & <- & I). cbn [named_text fst]. destruct (picks_all _ _ _ _ R I) as (IN & LA & _). destruct (str_eqb_spec (q_name (fst y)) (q_name q)) as [E|]; [|reflexivity].
      exfalso. apply (AL y); auto. apply in_or_app. now right.
  Qed.
End Placed.
