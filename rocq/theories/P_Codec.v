(** Proofs about the codec registry. *)
From Verif Require Import PyBase PyFacts M_Codec S_Codec P_Url.

Lemma lstrip_blank b s : blank b -> lstrip (b ++ s) = lstrip s.
Proof.
  induction b as [|c b IH]; intros H; [reflexivity|]. cbn [app lstrip]. rewrite (H c) by now left.
  apply IH. intros x Hx. apply H. now right.
Qed.
Lemma lstrip_all b : blank b -> lstrip b = [].
Proof. intros H. rewrite <- (app_nil_r b). now rewrite lstrip_blank. Qed.
Lemma blank_rev b : blank b -> blank (rev b).
Proof. intros H c Hc. apply H. now apply in_rev. Qed.
Lemma strip_core b1 core b2 : blank b1 -> blank b2 -> tight core -> strip (b1 ++ core ++ b2) = core.
Proof.
  intros H1 H2 [T1 T2]. unfold strip. rewrite lstrip_blank by auto.
  destruct core as [|c core].
  - cbn [app]. rewrite (lstrip_all b2) by auto. reflexivity.
  - cbn [app lstrip]. rewrite T1. change (c :: core ++ b2) with ((c :: core) ++ b2).
    rewrite rev_app_distr, lstrip_blank by now apply blank_rev.
    destruct (rev (c :: core)) as [|d r] eqn:E.
    + apply (f_equal (@rev _)) in E. rewrite rev_involutive in E. discriminate.
    + cbn [lstrip]. rewrite T2, <- E. apply rev_involutive.
Qed.
Lemma lstrip_split s : exists b r, s = b ++ r /\ blank b /\ lstrip s = r /\
  match r with [] => True | c :: _ => is_space c = false end.
Proof.
  induction s as [|c s (b & r & E & B & L & T)].
  - exists [], []. split; [reflexivity|]. split; [intros c []|]. split; [reflexivity|exact I].
  - cbn [lstrip]. destruct (is_space c) eqn:S.
    + exists (c :: b), r. split; [cbn [app]; congruence|]. split; [|auto]. intros x [<-|Hx]; auto.
    + exists [], (c :: s). split; [reflexivity|]. split; [intros x []|]. split; [reflexivity|exact S].
Qed.
Lemma strip_split s : exists b1 core b2, s = b1 ++ core ++ b2 /\ blank b1 /\ blank b2 /\ tight core.
Proof.
  destruct (lstrip_split s) as (b1 & r & E & B & _ & T).
  destruct (lstrip_split (rev r)) as (b2 & q & E2 & B2 & _ & T2).
  apply (f_equal (@rev _)) in E2. rewrite rev_involutive, rev_app_distr in E2.
  exists b1, (rev q), (rev b2). split; [congruence|]. split; auto. split; [now apply blank_rev|].
  split; [|now rewrite rev_involutive].
  destruct (rev q) as [|c x]; [exact I|]. rewrite E2 in T. exact T.
Qed.

Lemma hd_split_params c a p : ~ In c a -> (p = [] \/ hd_error p = Some c) -> hd [] (split [c] (a ++ p)) = a.
Proof.
  intros Ha [->|Hp].
  - rewrite app_nil_r, split_char_none by auto. reflexivity.
  - destruct p as [|d p]; [discriminate|]. injection Hp as ->. rewrite split_char_app, split_char_none by auto. reflexivity.
Qed.
Lemma first_at c (s : str) : exists a p, s = a ++ p /\ ~ In c a /\ (p = [] \/ hd_error p = Some c).
Proof.
  induction s as [|d s (a & p & E & N & H)].
  - exists [], []. split; [reflexivity|]. split; [intros []|now left].
  - destruct (ascii_dec c d) as [->|D].
    + exists [], (d :: s). split; [reflexivity|]. split; [intros []|now right].
    + exists (d :: a), p. split; [cbn [app]; congruence|]. split; auto. intros [X|X]; auto.
Qed.

Lemma names_total mime : exists name, names mime name.
Proof.
  destruct (first_at ";"%char mime) as (a & p & E & N & H).
  destruct (strip_split a) as (b1 & core & b2 & E2 & B1 & B2 & T).
  exists (lower core), b1, core, b2, p. subst a. split; [rewrite E; now rewrite <- !app_assoc|]. repeat split; auto; apply T.
Qed.

Section L.
Context {R D : Type}.
Notation table := (table (R:=R) (D:=D)).
Notation event := (event (R:=R) (D:=D)).
Lemma lookup_names mime name (t : table) : names mime name -> lookup mime t = sget name t.
Proof.
  intros (b1 & core & b2 & p & -> & B1 & B2 & T & N & H & <-). unfold lookup.
  change (lit ";") with [";"%char].
  replace (b1 ++ core ++ b2 ++ p) with ((b1 ++ core ++ b2) ++ p) by now rewrite <- !app_assoc.
  rewrite hd_split_params by auto. now rewrite strip_core.
Qed.
Lemma apply_NoDup (t : table) e : NoDup (map fst t) -> NoDup (map fst (apply t e)).
Proof.
  intros H. destruct e as [m c|m]; cbn [apply].
  - unfold register. apply dset_NoDup; auto. apply str_eqb_eq.
  - unfold unregister. destruct (smem (lower m) t); auto. apply ddel_NoDup; auto.
Qed.
Lemma sget_apply name (t : table) e : NoDup (map fst t) ->
  sget name (apply t e) =
  match e with
  | Reg m c => if str_eq_dec (lower m) name then Some c else sget name t
  | Unreg m => if str_eq_dec (lower m) name then None else sget name t
  end.
Proof.
  intros H. destruct e as [m c|m]; cbn [apply].
  - unfold register. destruct (str_eq_dec (lower m) name) as [<-|N]; [apply sget_sset_same|]. apply sget_sset_other. auto.
  - unfold unregister. destruct (smem (lower m) t) eqn:E.
    + destruct (str_eq_dec (lower m) name) as [<-|N].
      * apply dget_ddel_same; auto. apply str_eqb_eq.
      * apply dget_ddel_other; auto. apply str_eqb_eq.
    + destruct (str_eq_dec (lower m) name) as [<-|N]; auto.
      apply dget_None; [apply str_eqb_eq|]. intros X. apply smem_In in X. congruence.
Qed.
Lemma run_get name es : forall t : table, NoDup (map fst t) ->
  sget name (run t es) =
  match last_event name (rev es) with
  | Some (Reg _ c) => Some c
  | Some (Unreg _) => None
  | None => sget name t
  end.
Proof.
  unfold run. induction es as [|e es IH] using rev_ind; intros t H; [reflexivity|].
  rewrite fold_left_app. cbn [fold_left]. rewrite sget_apply.
  2:{ clear IH. revert t H. induction es as [|x es IH]; intros t H; auto. cbn [fold_left]. apply IH. now apply apply_NoDup. }
  rewrite rev_app_distr. cbn [rev app last_event].
  destruct e as [m c|m]; destruct (str_eq_dec (lower m) name); auto.
Qed.
End L.
