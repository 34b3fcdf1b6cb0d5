(** Proofs about document comparison. *)
From Coq Require Import Lia Permutation.
From Verif Require Import PyBase PyFacts PyJson M_JsonPtr S_JsonPtr P_JsonPtr M_Diff S_Diff P_Op.

Lemma jty_eqb_eq a b : jty_eqb a b = true <-> a = b.
Proof. destruct a, b; cbn; split; congruence. Qed.

Definition ptr (jp : str) (path : list str) : str := fold_left (fun b t => sub t b) path jp.

Lemma nil_iff {A} (l : list A) : l = [] <-> forall x, ~ In x l.
Proof. destruct l as [|x l]; split; try easy. intros H. exfalso. apply (H x). now left. Qed.
Lemma concat_nil_iff {A} (l : list (list A)) : concat l = [] <-> Forall (fun x => x = []) l.
Proof.
  induction l as [|x l IH]; cbn [concat]; [split; auto|].
  split.
  - intros H. apply app_eq_nil in H as [H1 H2]. constructor; auto. now apply IH.
  - intros H. inversion H as [|? ? -> H2]; subst. now apply IH.
Qed.
Lemma wf_sget d k v : Forall (fun kv => wf (snd kv)) d -> sget k d = Some v -> wf v.
Proof.
  intros F H. apply dget_In in H; [|apply str_eqb_eq]. rewrite Forall_forall in F. exact (F _ H).
Qed.

Section D.
Context (order : list str -> list str) (Ho : forall l, Permutation (order l) l).
Context (sort_lists : list json -> bool) (include exclude : list str).
Notation diff := (diff order sort_lists include exclude).
Notation same := (same include exclude).
Notation real := (real include exclude).
Notation shown := (shown include exclude).
Notation visible := (visible include exclude).
Notation keys := (keys include exclude).

Lemma visible_shown k : visible k = true <-> shown k.
Proof.
  unfold M_Diff.visible, S_Diff.shown. rewrite andb_true_iff, negb_true_iff, mem_false.
  destruct include as [|i l]; cbn [nonempty].
  - split; [intros [_ H]; split; auto; easy|tauto].
  - rewrite mem_In. split; intros [H1 H2]; split; auto. apply H1. discriminate.
Qed.
Lemma keys_In k d : In k (keys d) <-> shown k /\ sget k d <> None.
Proof.
  unfold M_Diff.keys. rewrite filter_In, visible_shown. split; intros [H1 H2]; split; auto.
  - intros X. apply dget_None in X; [easy|apply str_eqb_eq].
  - destruct (in_dec str_eq_dec k (map fst d)); auto. exfalso. apply H2. apply dget_None; auto. apply str_eqb_eq.
Qed.
Lemma order_In x l : In x (order l) <-> In x l.
Proof. split; apply Permutation_in; [|apply Permutation_sym]; apply Ho. Qed.
Lemma order_nil l : order l = [] <-> l = [].
Proof. rewrite !nil_iff. split; intros H x; [rewrite <- order_In|rewrite order_In]; auto. Qed.

Lemma fold_diff (subs : sdict (json -> str -> res (list entry))) dst jp ks : forall l0 rest,
  fold_left (fun acc k => do l <- acc; match sget k subs, sget k dst with
        | Some f, Some d => do e <- f d (sub k jp); Ok (l ++ e)
        | _, _ => Err KeyError end) ks (Ok l0) = Ok rest ->
  exists es, Forall2 (fun k e => exists f d, sget k subs = Some f /\ sget k dst = Some d /\ f d (sub k jp) = Ok e) ks es /\
    rest = l0 ++ concat es.
Proof.
  induction ks as [|k ks IH]; intros l0 rest H; cbn [fold_left] in H.
  - injection H as <-. exists []. split; [constructor|]. cbn. now rewrite app_nil_r.
  - cbn [bind] in H.
    assert (bad : forall ks e, fold_left (fun acc k => do l <- acc; match sget k subs, sget k dst with
        | Some f, Some d => do e <- f d (sub k jp); Ok (l ++ e)
        | _, _ => Err KeyError end) ks (Err e) <> Ok rest).
    { clear. induction ks as [|k ks IH]; intros e; cbn [fold_left bind]; [discriminate|apply IH]. }
    destruct (sget k subs) as [f|] eqn:E1; [|now apply bad in H].
    destruct (sget k dst) as [d|] eqn:E2; [|now apply bad in H].
    destruct (f d (sub k jp)) as [e|x] eqn:E3; cbn [bind] in H; [|now apply bad in H].
    apply IH in H as (es & F & ->). exists (e :: es). split; [constructor; eauto|]. cbn [concat]. now rewrite app_assoc.
Qed.
Lemma fold_diff_total (subs : sdict (json -> str -> res (list entry))) dst jp ks : forall l0,
  (forall k, In k ks -> exists f d e, sget k subs = Some f /\ sget k dst = Some d /\ f d (sub k jp) = Ok e) ->
  exists rest, fold_left (fun acc k => do l <- acc; match sget k subs, sget k dst with
        | Some f, Some d => do e <- f d (sub k jp); Ok (l ++ e)
        | _, _ => Err KeyError end) ks (Ok l0) = Ok rest.
Proof.
  induction ks as [|k ks IH]; intros l0 H; cbn [fold_left]; [eauto|].
  destruct (H k (or_introl eq_refl)) as (f & d & e & E1 & E2 & E3). cbn [bind]. rewrite E1, E2, E3. cbn [bind].
  apply IH. intros x Hx. apply H. now right.
Qed.
Lemma subs_get k (s : sdict json) :
  sget k (map (fun kv => match kv with (k, v) => (k, fun d jp => diff v d jp) end) s) =
  option_map (fun v d jp => diff v d jp) (sget k s).
Proof. induction s as [|[k' v] s IH]; [reflexivity|]. cbn [map dget]. destruct (str_eqb k k'); auto. Qed.

(** The list loop. *)
Definition go := fix go (i : nat) (jp : str) (s d : list json) {struct s} : res (list entry) :=
  match s, d with
  | x :: s, y :: d => do e <- diff x y (sub (str_of_Z (Z.of_nat i)) jp); do r <- go (S i) jp s d; Ok (e ++ r)
  | _, _ => Ok []
  end.
Lemma diff_list s d jp : diff (JList s) (JList d) jp =
  if negb (Nat.eqb (length s) (length d)) then Ok [(jp, DLen (length s) (length d))]
  else if Nat.eqb (length s) 0 then Ok []
  else match element_type s, element_type d with
       | Some ts, Some td =>
           if negb (comparable ts td) then Ok [(jp, DType ts td)]
           else if negb (sorts sort_lists ts s && sorts sort_lists ts d) then Err TypeError
           else go 0 jp s d
       | _, _ => Err ValueError
       end.
Proof.
  assert (G : forall s d i, (fix go (i : nat) (s d : list json) {struct s} : res (list entry) :=
      match s, d with
      | x :: s, y :: d => do e <- diff x y (sub (str_of_Z (Z.of_nat i)) jp); do r <- go (S i) s d; Ok (e ++ r)
      | _, _ => Ok []
      end) i s d = go i jp s d).
  { clear s d. induction s as [|x s IH]; intros d i; [reflexivity|]. destruct d as [|y d]; [reflexivity|].
    cbn [go]. now rewrite <- IH. }
  cbn [M_Diff.diff]. now rewrite <- G.
Qed.

Lemma element_type_some l t : element_type l = Some t -> l <> [] /\ forall x, In x l -> jtype x = t.
Proof.
  destruct l as [|x l]; [discriminate|]. cbn [element_type]. destruct (forallb _ l) eqn:F; [|discriminate].
  intros H. injection H as <-. split; [discriminate|]. intros y [<-|Hy]; auto. rewrite forallb_forall in F.
  now apply jty_eqb_eq, F.
Qed.
Lemma element_type_ok l : l <> [] -> (forall x y, In x l -> In y l -> jtype x = jtype y) -> exists t, element_type l = Some t.
Proof.
  destruct l as [|x l]; [easy|]. intros _ H. cbn [element_type].
  assert (forallb (fun y => jty_eqb (jtype y) (jtype x)) l = true) as ->; eauto.
  apply forallb_forall. intros y Hy. apply jty_eqb_eq. apply H; [now right|now left].
Qed.
Lemma comparable_same x y : comparable (jtype x) (jtype y) = true <-> same_type x y.
Proof.
  unfold comparable, same_type. rewrite orb_true_iff, andb_true_iff, jty_eqb_eq. cbn [In].
  destruct (jtype x), (jtype y); cbn; intuition congruence.
Qed.

(** The two directions, at once. *)
Definition good (a : json) : Prop := forall b jp r, wf a -> wf b -> diff a b jp = Ok r ->
  (r = [] <-> same a b) /\
  (forall p k, In (p, k) r -> exists path, p = ptr jp path /\ real a b path k).

Lemma go_good l : Forall good l -> forall i jp m r, Forall wf l -> Forall wf m -> length l = length m ->
  go i jp l m = Ok r ->
  (r = [] <-> Forall2 same l m) /\
  (forall p k, In (p, k) r -> exists j x y path, nth_error l j = Some x /\ nth_error m j = Some y /\
     p = ptr jp (str_of_Z (Z.of_nat (i + j)) :: path) /\ real x y path k).
Proof.
  induction 1 as [|x l Hx Hl IH]; intros i jp m r Wl Wm L E.
  - destruct m; [|discriminate]. cbn [go] in E. injection E as <-. split; [split; auto|intros p k []].
  - destruct m as [|y m]; [discriminate|]. cbn [go] in E.
    apply bind_ok in E as (e & E1 & E). apply bind_ok in E as (r' & E2 & E). injection E as <-.
    inversion Wl as [|? ? Wx Wl']; inversion Wm as [|? ? Wy Wm']; subst.
    destruct (Hx y _ e Wx Wy E1) as [A1 A2].
    destruct (IH (S i) jp m r' Wl' Wm' ltac:(cbn in L; lia) E2) as [B1 B2]. split.
    + split.
      * intros H. apply app_eq_nil in H as [-> ->]. constructor; [now apply A1|now apply B1].
      * intros H. inversion H; subst. rewrite (proj2 A1), (proj2 B1); auto.
    + intros p k H. apply in_app_iff in H as [H|H].
      * destruct (A2 p k H) as (path & -> & Rl). exists 0%nat, x, y, path. rewrite Nat.add_0_r. auto.
      * destruct (B2 p k H) as (j & x' & y' & path & N1 & N2 & -> & Rl). exists (S j), x', y', path.
        replace (i + S j)%nat with (S i + j)%nat by lia. auto.
Qed.

Lemma real_under_key k d e x y path kd : sget k d = Some x -> sget k e = Some y -> real x y path kd ->
  real (JObj d) (JObj e) (k :: path) kd.
Proof.
  intros H1 H2 [(u & v & A & B & C)|(-> & p & key & d' & e' & -> & A & B & S & C)].
  - left. exists u, v. split; [econstructor; eauto|]. split; [econstructor; eauto|exact C].
  - right. split; auto. exists (k :: p), key, d', e'. split; [reflexivity|]. split; [econstructor; eauto|].
    split; [econstructor; eauto|]. auto.
Qed.
Lemma real_under_index j l m x y path kd : nth_error l j = Some x -> nth_error m j = Some y -> real x y path kd ->
  real (JList l) (JList m) (str_of_Z (Z.of_nat j) :: path) kd.
Proof.
  intros H1 H2 [(u & v & A & B & C)|(-> & p & key & d' & e' & -> & A & B & S & C)].
  - left. exists u, v. split; [econstructor; eauto|]. split; [econstructor; eauto|exact C].
  - right. split; auto. exists (str_of_Z (Z.of_nat j) :: p), key, d', e'. split; [reflexivity|]. split; [econstructor; eauto|].
    split; [econstructor; eauto|]. auto.
Qed.

Lemma same_inv_list l b : same (JList l) b -> exists m, b = JList m /\ Forall2 same l m /\
  (forall x y, In x l -> In y m -> same_type x y).
Proof. intros H. inversion H as [? ? S| |]; subst; [destruct S|]. eauto. Qed.
Lemma same_inv_obj d b : same (JObj d) b -> exists e, b = JObj e /\
  (forall k, shown k -> (sget k d = None <-> sget k e = None)) /\
  (forall k x y, shown k -> sget k d = Some x -> sget k e = Some y -> same x y).
Proof. intros H. inversion H as [? ? S| |]; subst; [destruct S|]. eauto. Qed.

Lemma good_scalar a : scalar a -> (forall b jp, diff a b jp = if py_eqb a b then Ok [] else Ok [(jp, DVal a b)]) -> good a.
Proof.
  intros S E b jp r _ _ H. rewrite E in H. destruct (py_eqb a b) eqn:P.
  - injection H as <-. split; [split; auto; intros _; now constructor|intros p k []].
  - injection H as <-. split.
    + split; [discriminate|]. intros X. inversion X; subst; [congruence|destruct S|destruct S].
    + intros p k [X|[]]. injection X as <- <-. exists []. split; [reflexivity|]. left. exists a, b.
      split; [constructor|]. split; [constructor|]. cbn. auto.
Qed.

Lemma good_all a : good a.
Proof.
  induction a as [|x|x|x|x|l IH|d IH] using json_ind'; try (apply good_scalar; [exact I|reflexivity]).
  - intros b jp r Wa Wb E. destruct b as [| | | | |m|].
    6:{ rewrite diff_list in E. inversion Wa as [| | | | |? Wl|]; subst. inversion Wb as [| | | | |? Wm|]; subst.
      destruct (Nat.eqb_spec (length l) (length m)) as [L|L]; cbn [negb] in E.
      2:{ injection E as <-. split.
          - split; [discriminate|]. intros X. apply same_inv_list in X as (m' & X & F & _). injection X as <-.
            exfalso. clear - L F. induction F; cbn in L; auto.
          - intros p k [X|[]]. injection X as <- <-. exists []. split; [reflexivity|]. left. do 2 eexists.
            split; [constructor|]. split; [constructor|]. cbn. exists l, m. auto. }
      destruct (Nat.eqb_spec (length l) 0) as [Z|Z].
      { injection E as <-. destruct l; [|discriminate]. destruct m; [|discriminate].
        split; [|intros p k []]. split; auto. intros _. apply same_list; [constructor|]. intros x y []. }
      destruct (element_type l) as [tl|] eqn:T1; [|discriminate].
      destruct (element_type m) as [tm|] eqn:T2; [|discriminate].
      apply element_type_some in T1 as [N1 T1]. apply element_type_some in T2 as [N2 T2].
      destruct (comparable tl tm) eqn:C; cbn [negb] in E.
      2:{ injection E as <-. split.
          - split; [discriminate|]. intros X. apply same_inv_list in X as (m' & X & F & ST). injection X as <-.
            destruct l as [|x l]; [easy|]. destruct m as [|y m]; [easy|].
            specialize (ST x y (or_introl eq_refl) (or_introl eq_refl)). apply comparable_same in ST.
            rewrite (T1 x), (T2 y) in ST by now left. congruence.
          - intros p k [X|[]]. injection X as <- <-. exists []. split; [reflexivity|]. left. do 2 eexists.
            split; [constructor|]. split; [constructor|]. cbn. right. exists l, m. repeat split; auto.
            intros ->. unfold comparable in C. rewrite (proj2 (jty_eqb_eq tm tm) eq_refl), orb_true_r in C. discriminate. }
      destruct (sorts sort_lists tl l && sorts sort_lists tl m); cbn [negb] in E; [|discriminate].
      destruct (go_good l IH 0 jp m r Wl Wm L E) as [A B]. split.
      - rewrite A. split.
        + intros F. apply same_list; auto. intros x y Hx Hy. apply comparable_same. now rewrite (T1 x Hx), (T2 y Hy).
        + intros X. apply same_inv_list in X as (m' & X & F & _). now injection X as <-.
      - intros p k H. destruct (B p k H) as (j & x & y & path & H1 & H2 & -> & Rl). cbn [Nat.add].
        eexists. split; [reflexivity|]. eapply real_under_index; eauto. }
    all: cbn [M_Diff.diff] in E; injection E as <-; (split; [split; [discriminate|intros X; apply same_inv_list in X as (m' & X & _); discriminate]|]);
      intros p k [X|[]]; injection X as <- <-; exists []; (split; [reflexivity|]); left; do 2 eexists;
      (split; [constructor|]); (split; [constructor|]); left; repeat split; discriminate.
  - intros b jp r Wa Wb E. destruct b as [| | | | |m|e].
    7:{ cbn [M_Diff.diff] in E. unfold diff_dict in E. inversion Wa as [| | | | | |? ND Wd]; subst. inversion Wb as [| | | | | |? NE We]; subst.
      apply bind_ok in E as (rest & F & E). apply fold_diff in F as (es & F & ->). cbn [app] in E.
      set (added := order (filter (fun k => negb (mem k (keys d))) (keys e))) in *.
      set (removed := order (filter (fun k => negb (mem k (keys e))) (keys d))) in *.
      set (common := order (filter (fun k => mem k (keys e)) (keys d))) in *.
      injection E as <-.
      assert (HA : forall k, In k added <-> shown k /\ sget k e <> None /\ sget k d = None).
      { intros k. unfold added. rewrite order_In, filter_In, negb_true_iff, mem_false, !keys_In.
        destruct (sget k d) eqn:G; intuition congruence. }
      assert (HR : forall k, In k removed <-> shown k /\ sget k d <> None /\ sget k e = None).
      { intros k. unfold removed. rewrite order_In, filter_In, negb_true_iff, mem_false, !keys_In.
        destruct (sget k e) eqn:G; intuition congruence. }
      assert (HC : forall k, In k common <-> shown k /\ sget k d <> None /\ sget k e <> None).
      { intros k. unfold common. rewrite order_In, filter_In, mem_In, !keys_In. tauto. }
      assert (each : Forall2 (fun k en => exists x y, sget k d = Some x /\ sget k e = Some y /\ diff x y (sub k jp) = Ok en) common es).
      { clear - F. induction F as [|k en ks es (f & y & H1 & H2 & H3) F IH]; constructor; auto.
        rewrite subs_get in H1. destruct (sget k d) as [x|]; [|discriminate]. cbn [option_map] in H1. injection H1 as <-. eauto. }
      clear F.
      assert (pt : forall k x y en, sget k d = Some x -> sget k e = Some y -> diff x y (sub k jp) = Ok en ->
         (en = [] <-> same x y) /\ (forall p kd, In (p, kd) en -> exists path, p = ptr (sub k jp) path /\ real x y path kd)).
      { intros k x y en H1 H2 H3. assert (Hx : In (k, x) d) by (apply dget_In in H1; auto; apply str_eqb_eq).
        rewrite Forall_forall in IH. apply (IH _ Hx); eauto using wf_sget. }
      split.
      - split.
        + intros H. apply app_eq_nil in H as [H1 H]. apply app_eq_nil in H as [H2 H3].
          apply map_eq_nil in H1. apply map_eq_nil in H2. rewrite concat_nil_iff in H3. apply same_obj.
          * intros k S. destruct (sget k d) eqn:G1, (sget k e) eqn:G2; try (split; congruence).
            -- exfalso. assert (X : In k removed) by (apply HR; split; [exact S|split; congruence]). now rewrite H2 in X.
            -- exfalso. assert (X : In k added) by (apply HA; split; [exact S|split; congruence]). now rewrite H1 in X.
          * intros k x y S G1 G2. assert (X : In k common) by (apply HC; split; [exact S|split; congruence]).
            clear - each X H3 G1 G2 pt. induction each as [|k' en ks es (x' & y' & E1 & E2 & E3) F IH]; [easy|].
            inversion H3 as [|? ? Z1 Z2]; subst. destruct X as [->|X]; [|auto].
            rewrite G1 in E1; injection E1 as <-. rewrite G2 in E2; injection E2 as <-.
            now apply (pt _ _ _ _ G1 G2 E3).
        + intros H. apply same_inv_obj in H as (e' & X & K & V). injection X as <-.
          assert (A0 : added = []).
          { apply nil_iff. intros k X. apply HA in X as (S & X1 & X2). apply X1, K; auto. }
          assert (R0 : removed = []).
          { apply nil_iff. intros k X. apply HR in X as (S & X1 & X2). apply X1, K; auto. }
          rewrite A0, R0. cbn [map app]. apply concat_nil_iff.
          assert (S : forall k, In k common -> shown k) by (intros k X; now apply HC in X).
          clear - each pt V S. induction each as [|k' en ks es (x' & y' & E1 & E2 & E3) F IH]; constructor.
          * apply (pt _ _ _ _ E1 E2 E3). apply (V k'); auto. apply S. now left.
          * apply IH. intros k X. apply S. now right.
      - intros p k H. apply in_app_iff in H as [H|H]; [|apply in_app_iff in H as [H|H]].
        + apply in_map_iff in H as (key & X & H). injection X as <- <-. apply HA in H as (S & H1 & H2).
          exists [key]. split; [reflexivity|]. right. split; auto. exists [], key, d, e. split; [reflexivity|]. split; [constructor|]. split; [constructor|]. split; [exact S|]. auto.
        + apply in_map_iff in H as (key & X & H). injection X as <- <-. apply HR in H as (S & H1 & H2).
          exists [key]. split; [reflexivity|]. right. split; auto. exists [], key, d, e. split; [reflexivity|]. split; [constructor|]. split; [constructor|]. split; [exact S|]. auto.
        + apply in_concat in H as (en & H1 & H2).
          assert (exists key x y, sget key d = Some x /\ sget key e = Some y /\ diff x y (sub key jp) = Ok en) as (key & x & y & G1 & G2 & G3).
          { clear - each H1. induction each as [|k' en' ks es (x' & y' & E1 & E2 & E3) F IH]; [easy|].
            destruct H1 as [->|H1]; eauto 8. }
          destruct (pt _ _ _ _ G1 G2 G3) as [_ Pt]. destruct (Pt p k H2) as (path & -> & Rl).
          exists (key :: path). split; [reflexivity|]. eapply real_under_key; eauto. }
    all: cbn [M_Diff.diff] in E; injection E as <-; (split; [split; [discriminate|intros X; apply same_inv_obj in X as (m' & X & _); discriminate]|]);
      intros p k [X|[]]; injection X as <- <-; exists []; (split; [reflexivity|]); left; do 2 eexists;
      (split; [constructor|]); (split; [constructor|]); left; repeat split; discriminate.
Qed.

(** No exception on uniform documents. *)
Lemma go_total l : Forall (fun a => forall b jp, uniform sort_lists a -> uniform sort_lists b -> exists r, diff a b jp = Ok r) l ->
  forall i jp m, Forall (uniform sort_lists) l -> Forall (uniform sort_lists) m -> exists r, go i jp l m = Ok r.
Proof.
  induction 1 as [|x l Hx Hl IH]; intros i jp m Ul Um; cbn [go]; [eauto|]. destruct m as [|y m]; [eauto|].
  inversion Ul; inversion Um; subst. destruct (Hx y (sub (str_of_Z (Z.of_nat i)) jp)) as [e ->]; auto.
  destruct (IH (S i) jp m) as [r ->]; auto. cbn [bind]. eauto.
Qed.
Lemma sorts_ok t l : (forall x, In x l -> jtype x = t \/ int_like t = true) -> uniform sort_lists (JList l) -> l <> [] -> sorts sort_lists t l = true.
Proof.
  intros T U N. inversion U as [? S|? Ul Ut Un Us|]; subst; [destruct S|]. destruct l as [|x l]; [easy|].
  destruct (T x (or_introl eq_refl)) as [X|X]; [|destruct t; try discriminate; reflexivity].
  destruct t; try reflexivity; cbn [sorts].
  - apply Nat.leb_le. apply Un. left. destruct x; try discriminate. reflexivity.
  - apply Us. destruct x; try discriminate. eexists. now left.
Qed.
Lemma diff_total a : forall b jp, uniform sort_lists a -> uniform sort_lists b -> exists r, diff a b jp = Ok r.
Proof.
  induction a as [|x|x|x|x|l IH|d IH] using json_ind'; intros b jp Ua Ub;
    try (cbn [M_Diff.diff]; destruct (py_eqb _ b); eauto; fail).
  - destruct b as [| | | | |m|]; try (cbn [M_Diff.diff]; eauto; fail). rewrite diff_list.
    destruct (Nat.eqb_spec (length l) (length m)) as [L|L]; cbn [negb]; [|eauto].
    destruct (Nat.eqb_spec (length l) 0) as [Z|Z]; [eauto|].
    inversion Ua as [? S|? Ul Ut Un Us|]; subst; [destruct S|]. inversion Ub as [? S|? Vl Vt Vn Vs|]; subst; [destruct S|].
    assert (Nl : l <> []) by (intros ->; auto). assert (Nm : m <> []) by (intros ->; auto).
    destruct (element_type_ok l Nl Ut) as [tl T1]. destruct (element_type_ok m Nm Vt) as [tm T2]. rewrite T1, T2.
    apply element_type_some in T1 as [_ T1]. apply element_type_some in T2 as [_ T2].
    destruct (comparable tl tm) eqn:C; cbn [negb]; [|eauto].
    rewrite sorts_ok, sorts_ok; auto. cbn [andb negb]. apply go_total; auto.
    intros x Hx. rewrite (T2 x Hx). unfold comparable in C. apply orb_true_iff in C as [C|C].
    + apply andb_true_iff in C. right. apply C.
    + apply jty_eqb_eq in C. auto.
  - destruct b as [| | | | |m|e]; try (cbn [M_Diff.diff]; eauto; fail). cbn [M_Diff.diff]. unfold diff_dict.
    inversion Ua as [? S| |? Ud]; subst; [destruct S|]. inversion Ub as [? S| |? Ue]; subst; [destruct S|].
    edestruct fold_diff_total as [rest ->].
    2:{ cbn [bind]. eauto. }
    intros k Hk. rewrite order_In, filter_In, mem_In, !keys_In in Hk. destruct Hk as [[S H1] [_ H2]].
    rewrite subs_get. destruct (sget k d) as [x|] eqn:G1; [|easy]. destruct (sget k e) as [y|] eqn:G2; [|easy].
    assert (Hx : In (k, x) d) by (apply dget_In in G1; auto; apply str_eqb_eq).
    assert (Hy : In (k, y) e) by (apply dget_In in G2; auto; apply str_eqb_eq).
    rewrite Forall_forall in IH, Ud, Ue. destruct (IH _ Hx y (sub k jp) (Ud _ Hx) (Ue _ Hy)) as [r E].
    exists (fun d jp => diff x d jp), y, r. auto.
Qed.
End D.

(** ** Equality *)
Lemma py_eqb_list l m : py_eqb (JList l) (JList m) = true <-> Forall2 (fun x y => py_eqb x y = true) l m.
Proof.
  cbn [py_eqb]. revert m. induction l as [|x l IH]; intros [|y m]; split; intros H; try discriminate; try constructor; try (inversion H; fail).
  - now apply andb_true_iff in H.
  - apply IH. now apply andb_true_iff in H.
  - inversion H; subst. apply andb_true_iff. split; auto. now apply IH.
Qed.
Lemma py_eqb_obj d e : py_eqb (JObj d) (JObj e) = true <->
  length d = length e /\ Forall (fun kv => exists y, sget (fst kv) e = Some y /\ py_eqb (snd kv) y = true) d.
Proof.
  cbn [py_eqb]. rewrite andb_true_iff, Nat.eqb_eq. apply and_iff_compat_l.
  induction d as [|[k x] d IH]; [split; auto|]. rewrite andb_true_iff, IH. cbn [fst snd]. split.
  - intros [H1 H2]. constructor; auto. cbn [fst snd]. destruct (sget k e); [eauto|discriminate].
  - intros H. inversion H as [|? ? (y & H1 & H2) H3]; subst. cbn [fst snd] in *. rewrite H1. auto.
Qed.
Lemma keys_length (d e : sdict json) : NoDup (map fst d) -> NoDup (map fst e) ->
  (forall k, sget k d = None <-> sget k e = None) -> length d = length e.
Proof.
  intros N1 N2 H. rewrite <- (map_length fst d), <- (map_length fst e).
  assert (I : forall k, In k (map fst d) <-> In k (map fst e)).
  { intros k. specialize (H k). rewrite !(dget_None str_eqb str_eqb_eq) in H.
    destruct (in_dec str_eq_dec k (map fst d)), (in_dec str_eq_dec k (map fst e)); tauto. }
  apply Nat.le_antisymm; apply NoDup_incl_length; auto; intros k; apply I.
Qed.
Lemma same_eq a : forall b, wf a -> wf b -> same [] [] a b -> py_eqb a b = true.
Proof.
  induction a as [|x|x|x|x|l IH|d IH] using json_ind'; intros b Wa Wb S; try (inversion S; subst; auto; fail).
  - inversion S as [? ? X| ? m F _|]; subst; [destruct X|]. apply py_eqb_list.
    inversion Wa as [| | | | |? Wl|]; subst. inversion Wb as [| | | | |? Wm|]; subst.
    clear S Wa Wb. induction F; constructor; inversion IH; inversion Wl; inversion Wm; subst; auto.
  - inversion S as [? ? X| |? e K V]; subst; [destruct X|]. apply py_eqb_obj.
    inversion Wa as [| | | | | |? ND Wd]; subst. inversion Wb as [| | | | | |? NE We]; subst.
    assert (Sh : forall k, shown [] [] k) by (intros k; split; easy).
    split; [apply keys_length; auto|]. rewrite Forall_forall in IH, Wd |- *. intros [k x] Hx. cbn [fst snd].
    assert (G : sget k d = Some x) by (apply In_dget; auto; apply str_eqb_eq).
    destruct (sget k e) as [y|] eqn:Ge.
    + exists y. split; auto. apply (IH _ Hx); [apply (Wd _ Hx)| |eapply V; eauto]. eapply wf_sget; eauto.
    + apply K in Ge; auto. congruence.
Qed.
Lemma Qeq_bool_refl' q : Qeq_bool q q = true.
Proof. apply Qeq_bool_iff. reflexivity. Qed.
Lemma py_eqb_refl a : wf a -> py_eqb a a = true.
Proof.
  induction a as [|x|x|x|x|l IH|d IH] using json_ind'; intros W; try (cbn; apply Qeq_bool_refl' || reflexivity || apply str_eqb_refl).
  - apply py_eqb_list. inversion W as [| | | | |? Wl|]; subst. clear W. induction IH; constructor; inversion Wl; subst; auto.
  - inversion W as [| | | | | |? ND Wd]; subst. apply py_eqb_obj. split; auto. rewrite Forall_forall in IH, Wd |- *.
    intros [k x] Hx. exists x. split; [apply In_dget; auto; apply str_eqb_eq|]. now apply (IH _ Hx), (Wd _ Hx).
Qed.
Lemma same_self inc exc sl a : wf a -> uniform sl a -> same inc exc a a.
Proof.
  induction a as [|x|x|x|x|l IH|d IH] using json_ind'; intros W U;
    try (apply same_scalar; [exact I|now apply py_eqb_refl]; fail).
  - inversion W as [| | | | |? Wl|]; subst. inversion U as [? S|? Ul Ut Un Us|]; subst; [destruct S|]. apply same_list.
    + clear W U Ut Un Us. induction IH; constructor; inversion Wl; inversion Ul; subst; auto.
    + intros x y Hx Hy. left. auto.
  - inversion W as [| | | | | |? ND Wd]; subst. inversion U as [? S| |? Ud]; subst; [destruct S|]. apply same_obj; [tauto|].
    intros k x y _ H1 H2. rewrite H1 in H2. injection H2 as <-. apply dget_In in H1; [|apply str_eqb_eq].
    rewrite Forall_forall in IH, Wd, Ud. apply (IH _ H1); [apply (Wd _ H1)|apply (Ud _ H1)].
Qed.

(** ** Pointers *)
Lemma ptr_base path : forall b, b <> [] -> ptr b path = rfc_pointer b path.
Proof.
  unfold ptr, rfc_pointer. induction path as [|t path IH]; intros b Hb; cbn [fold_left flat_map]; [now rewrite app_nil_r|].
  assert (E : sub t b = b ++ "/"%char :: rfc_escape t).
  { unfold sub. cbn [jp_compose]. destruct b as [|c b]; [easy|]. cbn [nonempty map].
    rewrite jp_encode_rfc. change (lit "/") with ["/"%char]. cbn [join]. reflexivity. }
  rewrite E, IH by now destruct b. rewrite <- app_assoc. reflexivity.
Qed.
Lemma ptr_top path : hd_error path <> Some [] -> ptr [] path = join (lit "/") (map rfc_escape path).
Proof.
  destruct path as [|t path]; [reflexivity|]. cbn [hd_error]. intros N.
  unfold ptr. cbn [fold_left]. assert (E : sub t [] = rfc_escape t).
  { unfold sub. cbn [jp_compose nonempty map join]. apply jp_encode_rfc. }
  rewrite E. assert (rfc_escape t <> []).
  { destruct t as [|c t]; [easy|]. unfold rfc_escape. cbn [flat_map]. unfold rfc_escape_char.
    destruct (Ascii.eqb c "~"); [discriminate|]. destruct (Ascii.eqb c "/"); discriminate. }
  change (fold_left (fun b t => sub t b) path (rfc_escape t)) with (ptr (rfc_escape t) path).
  rewrite ptr_base by auto. unfold rfc_pointer. cbn [map].
  change (lit "/") with ["/"%char]. clear. revert t. induction path as [|u path IH]; intros t; [now rewrite app_nil_r|].
  cbn [flat_map map]. change (join ["/"%char] (rfc_escape t :: rfc_escape u :: map rfc_escape path)) with
    (rfc_escape t ++ ["/"%char] ++ join ["/"%char] (rfc_escape u :: map rfc_escape path)).
  rewrite <- IH. reflexivity.
Qed.
