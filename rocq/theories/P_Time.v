(** Proofs about ISO-8601 parsing. *)
From Coq Require Import Lia Znumtheory.
From Verif Require Import PyBase PyFacts M_Time S_Time P_Quote.
Open Scope Z_scope.

Lemma is_digit_In c : is_digit c = true <-> In c (lit "0123456789").
Proof. split; [|intros H; cbn in H; repeat (destruct H as [<-|H]; [reflexivity|]); easy].
  all_ascii c; intros H; try discriminate H; cbn; tauto. Qed.
Lemma digits_cons n c s : digits (S n) (c :: s) <-> is_digit c = true /\ digits n s.
Proof.
  unfold digits. rewrite is_digit_In. cbn [length In]. split.
  - intros [H1 H2]. split; [apply H2; now left|]. split; [congruence|]. intros x Hx. apply H2. now right.
  - intros (H1 & H2 & H3). split; [congruence|]. intros x [<-|Hx]; auto.
Qed.
Lemma digits_nil s : digits 0 s <-> s = [].
Proof. unfold digits. split; [intros [H _]; now destruct s|intros ->; split; [reflexivity|intros c []]]. Qed.
Lemma exactly_app n : forall s r, digits n s -> digits_exactly n (s ++ r) = Some (s, r).
Proof.
  induction n as [|n IH]; intros s r H.
  - apply digits_nil in H as ->. reflexivity.
  - destruct s as [|c s]; [destruct H; discriminate|]. apply digits_cons in H as [H1 H2].
    cbn [digits_exactly app]. now rewrite H1, IH.
Qed.
Lemma exactly_inv n : forall s d r, digits_exactly n s = Some (d, r) -> s = d ++ r /\ digits n d.
Proof.
  induction n as [|n IH]; intros s d r H; cbn [digits_exactly] in H.
  - injection H as <- <-. split; [reflexivity|now apply digits_nil].
  - destruct s as [|c s]; [discriminate|]. destruct (is_digit c) eqn:C; [|discriminate].
    destruct (digits_exactly n s) as [[d' r']|] eqn:E; [|discriminate]. injection H as <- <-.
    destruct (IH _ _ _ E) as [-> D]. split; [reflexivity|]. now apply digits_cons.
Qed.
Lemma upto_inv n : forall s d r, digits_upto n s = (d, r) ->
  s = d ++ r /\ (length d <= n)%nat /\ digits (length d) d /\ ((length d < n)%nat -> ~ starts_digit r).
Proof.
  induction n as [|n IH]; intros s d r H; cbn [digits_upto] in H.
  - injection H as <- <-. split; [reflexivity|]. split; [cbn; lia|]. split; [now apply digits_nil|cbn; lia].
  - destruct s as [|c s].
    + injection H as <- <-. split; [reflexivity|]. split; [cbn; lia|]. split; [now apply digits_nil|].
      intros _ (c & s & E & _). discriminate.
    + destruct (is_digit c) eqn:C.
      * destruct (digits_upto n s) as [d' r'] eqn:E. injection H as <- <-.
        destruct (IH _ _ _ E) as (-> & L & D & N). split; [reflexivity|]. cbn [length]. split; [lia|].
        split; [now apply digits_cons|]. intros X. apply N. lia.
      * injection H as <- <-. split; [reflexivity|]. split; [cbn; lia|]. split; [now apply digits_nil|].
        intros _ (x & s' & E & D). injection E as -> ->. apply is_digit_In in D. congruence.
Qed.
Lemma upto_app n : forall k s r, digits k s -> (k <= n)%nat -> ((k < n)%nat -> ~ starts_digit r) ->
  digits_upto n (s ++ r) = (s, r).
Proof.
  induction n as [|n IH]; intros k s r D L N.
  - assert (k = 0)%nat as -> by lia. apply digits_nil in D as ->. reflexivity.
  - destruct k as [|k].
    + apply digits_nil in D as ->. cbn [app digits_upto]. destruct r as [|c r]; [reflexivity|].
      destruct (is_digit c) eqn:C; [|reflexivity]. exfalso. apply N; [lia|]. exists c, r. split; auto. now apply is_digit_In.
    + destruct s as [|c s]; [destruct D; discriminate|]. apply digits_cons in D as [D1 D2].
      cbn [app digits_upto]. rewrite D1, (IH k); auto; [lia|]. intros X. apply N. lia.
Qed.
Lemma eat_same c s : eat c (c :: s) = Some s.
Proof. cbn [eat]. now rewrite Ascii.eqb_refl. Qed.
Lemma eat_inv c s r : eat c s = Some r -> s = c :: r.
Proof. destruct s as [|d s]; cbn [eat]; [discriminate|]. destruct (Ascii.eqb_spec c d); [congruence|discriminate]. Qed.

Lemma to_int_num_gen s : forall a, fold_left (fun acc c => acc * 10 + digit_val c) s a = a * 10 ^ Z.of_nat (length s) + num s.
Proof.
  induction s as [|c s IH]; intros a; cbn [fold_left num length]; [cbn; lia|].
  rewrite IH. rewrite Nat2Z.inj_succ, Z.pow_succ_r by lia. unfold digit_val. ring.
Qed.
Lemma to_int_num s : to_int s = num s.
Proof. unfold to_int. rewrite to_int_num_gen. lia. Qed.
Lemma num_app a b : num (a ++ b) = num a * 10 ^ Z.of_nat (length b) + num b.
Proof. rewrite <- !to_int_num. unfold to_int. rewrite fold_left_app, !to_int_num_gen. lia. Qed.
Lemma num_zeros n : num (repeat "0"%char n) = 0.
Proof. induction n as [|n IH]; [reflexivity|]. cbn [repeat num]. rewrite IH. reflexivity. Qed.
Lemma num_frac f : (length f <= 6)%nat ->
  to_int (f ++ repeat "0"%char (6 - length f)) = num f * 10 ^ (6 - Z.of_nat (length f)).
Proof.
  intros H. rewrite to_int_num, num_app, num_zeros, repeat_length, Z.add_0_r. do 2 f_equal. lia.
Qed.
Lemma num_bound n s : digits n s -> 0 <= num s < 10 ^ Z.of_nat n.
Proof.
  revert s. induction n as [|n IH]; intros s H.
  - apply digits_nil in H as ->. cbn. lia.
  - destruct s as [|c s]; [destruct H; discriminate|]. apply digits_cons in H as [H1 H2].
    specialize (IH s H2). cbn [num]. destruct H2 as [-> _].
    assert (0 <= Z.of_nat (nat_of_ascii c) - 48 <= 9).
    { apply is_digit_In in H1. cbn in H1. repeat (destruct H1 as [<-|H1]; [cbn; lia|]). easy. }
    rewrite Nat2Z.inj_succ, Z.pow_succ_r by lia. nia.
Qed.

(** The calendar. *)
Lemma is_leap_spec y : is_leap y = true <-> leap y.
Proof.
  unfold is_leap, leap. rewrite andb_true_iff, orb_true_iff, negb_true_iff, !Z.eqb_eq, Z.eqb_neq.
  rewrite !Z.mod_divide by lia. tauto.
Qed.
Lemma between_spec a x b : between a x b = true <-> a <= x <= b.
Proof. unfold between. rewrite andb_true_iff, !Z.leb_le. tauto. Qed.
Lemma days_spec y m : 1 <= m <= 12 -> month_length y m (days_in_month y m).
Proof.
  intros H. assert (m = 1 \/ m = 2 \/ m = 3 \/ m = 4 \/ m = 5 \/ m = 6 \/ m = 7 \/ m = 8 \/ m = 9 \/ m = 10 \/ m = 11 \/ m = 12) by lia.
  unfold month_length. cbn [In].
  repeat (match goal with H : _ \/ _ |- _ => destruct H as [->|H] | H : m = _ |- _ => subst m end; try (cbn; tauto)).
  - right. right. split; auto. unfold days_in_month. cbn [Z.eqb Pos.eqb]. pose proof (is_leap_spec y) as L.
    destruct (is_leap y); [left; tauto|right]. split; auto. rewrite <- L. discriminate.
Qed.
Lemma month_length_fun y m n n' : month_length y m n -> month_length y m n' -> n = n'.
Proof.
  unfold month_length. cbn [In]. intros H H'.
  destruct H as [[H ->]|[[H ->]|[H K]]], H' as [[H' ->]|[[H' ->]|[H' K']]]; try reflexivity; try lia.
  destruct K as [[K ->]|[K ->]], K' as [[K' ->]|[K' ->]]; try reflexivity; tauto.
Qed.
Lemma check_valid d : check_fields d = true <-> valid d.
Proof.
  unfold check_fields, valid, valid_date, valid_time. rewrite !andb_true_iff, !between_spec. split.
  - intros ((((((H1 & H2) & H3) & H4) & H5) & H6) & H7).
    split; [|lia]. split; auto. exists (days_in_month (year d) (month d)). split; auto. now apply days_spec.
  - intros [[H1 (n & M & H2)] H3].
    assert (1 <= month d <= 12) as Hm.
    { unfold month_length in M. cbn [In] in M. lia. }
    assert (n = days_in_month (year d) (month d)) as -> by (eapply month_length_fun; eauto; now apply days_spec).
    lia.
Qed.
Lemma valid_nonzero d : valid d -> year d <> 0 /\ month d <> 0 /\ day d <> 0.
Proof. intros [[H (n & M & H2)] _]. unfold month_length in M. cbn [In] in M. lia. Qed.

(** ** The matchers *)
Lemma match_date_text y m d r : date_formed y m d -> match_date (date_text y m d ++ r) = Some (y, m, d, r).
Proof.
  intros (H1 & H2 & H3). unfold match_date, date_text. rewrite <- ?app_assoc.
  rewrite (exactly_app 4) by auto. cbn [app lit list_ascii_of_string]. rewrite eat_same.
  rewrite <- ?app_assoc. rewrite (exactly_app 2) by auto. cbn [app]. rewrite eat_same, (exactly_app 2) by auto. reflexivity.
Qed.
Lemma match_date_inv s y m d r : match_date s = Some (y, m, d, r) -> s = date_text y m d ++ r /\ date_formed y m d.
Proof.
  unfold match_date. destruct (digits_exactly 4 s) as [[y' s1]|] eqn:E1; [|discriminate].
  destruct (eat "-" s1) as [s2|] eqn:E2; [|discriminate].
  destruct (digits_exactly 2 s2) as [[m' s3]|] eqn:E3; [|discriminate].
  destruct (eat "-" s3) as [s4|] eqn:E4; [|discriminate].
  destruct (digits_exactly 2 s4) as [[d' s5]|] eqn:E5; [|discriminate]. intros H. injection H as -> -> -> ->.
  apply exactly_inv in E1 as [-> D1]. apply eat_inv in E2 as ->. apply exactly_inv in E3 as [-> D3].
  apply eat_inv in E4 as ->. apply exactly_inv in E5 as [-> D5].
  split; [|now repeat split; try apply D1; try apply D3; try apply D5].
  unfold date_text. rewrite <- ?app_assoc. cbn [app lit list_ascii_of_string]. now rewrite <- ?app_assoc.
Qed.
Lemma match_hm_text h m r : digits 2 h -> digits 2 m -> match_hm (lit "T" ++ h ++ lit ":" ++ m ++ r) = Some (h, m, r).
Proof.
  intros H1 H2. unfold match_hm. cbn [app lit list_ascii_of_string]. rewrite eat_same, (exactly_app 2) by auto.
  cbn [app]. rewrite eat_same, (exactly_app 2) by auto. reflexivity.
Qed.
Lemma match_hm_inv s h m r : match_hm s = Some (h, m, r) -> s = lit "T" ++ h ++ lit ":" ++ m ++ r /\ digits 2 h /\ digits 2 m.
Proof.
  unfold match_hm. destruct (eat "T" s) as [s1|] eqn:E1; [|discriminate].
  destruct (digits_exactly 2 s1) as [[h' s2]|] eqn:E2; [|discriminate].
  destruct (eat ":" s2) as [s3|] eqn:E3; [|discriminate].
  destruct (digits_exactly 2 s3) as [[m' s4]|] eqn:E4; [|discriminate]. intros H. injection H as -> -> ->.
  apply eat_inv in E1 as ->. apply exactly_inv in E2 as [-> D2]. apply eat_inv in E3 as ->. apply exactly_inv in E4 as [-> D4]. auto.
Qed.

Definition sec_text (x : option (str * option str)) : str :=
  match x with None => [] | Some (s, None) => lit ":" ++ s | Some (s, Some f) => lit ":" ++ s ++ lit "." ++ f end.
Definition zone_text (z : option zone) : str :=
  match z with None => [] | Some Zulu => lit "Z"
  | Some (Offset neg hh mm) => (if neg then lit "-" else lit "+") ++ hh ++ lit ":" ++ mm end.
Definition sec_formed (x : option (str * option str)) : Prop :=
  match x with
  | None => True
  | Some (s, f) => (digits 1 s \/ digits 2 s) /\
                   match f with None => True | Some f => exists n, (1 <= n <= 6)%nat /\ digits n f end
  end.
Definition zone_formed (z : option zone) : Prop :=
  match z with Some (Offset _ hh mm) => digits 2 hh /\ digits 2 mm | _ => True end.
Definition sec_longest (x : option (str * option str)) (r : str) : Prop :=
  match x with
  | None => ~ exists s, r = lit ":" ++ s /\ starts_digit s
  | Some (s, None) => (length s = 1%nat -> ~ starts_digit r) /\ ~ exists f, r = lit "." ++ f /\ starts_digit f
  | Some (s, Some f) => (length f < 6)%nat -> ~ starts_digit r
  end.
Definition sec_pair (x : option (str * option str)) : option str * option str :=
  match x with None => (None, None) | Some (s, f) => (Some s, f) end.

Lemma digits_ne n s : digits (S n) s -> exists c s', s = c :: s'.
Proof. destruct s; [intros [H _]; discriminate|eauto]. Qed.
Lemma not_digit_dot r : ~ starts_digit ("."%char :: r).
Proof. intros (c & s & E & D). injection E as <- <-. cbn in D. repeat destruct D as [D|D]; try discriminate; easy. Qed.

Lemma match_sec_text x r : sec_formed x -> sec_longest x r ->
  match_sec (sec_text x ++ r) = (fst (sec_pair x), snd (sec_pair x), r).
Proof.
  intros F L. destruct x as [[s f]|].
  - destruct F as [Fs Ff]. assert (exists k, (1 <= k <= 2)%nat /\ digits k s) as (k & Hk & Dk)
      by (destruct Fs; [exists 1%nat|exists 2%nat]; split; auto; lia).
    assert (Ls : length s = k) by apply Dk.
    assert (exists c s', s = c :: s') as (c & s' & Es) by (destruct k; [lia|]; now apply (digits_ne k)).
    destruct f as [f|].
    + destruct Ff as (n & Hn & Dn). assert (Lf : length f = n) by apply Dn.
      assert (exists c s', f = c :: s') as (cf & f' & Ef) by (destruct n; [lia|]; now apply (digits_ne n)).
      cbn [sec_text sec_pair fst snd]. unfold match_sec. rewrite <- ?app_assoc. cbn [app lit list_ascii_of_string]. rewrite eat_same.
      rewrite <- ?app_assoc, (upto_app 2 k); auto; [|lia|intros _; apply not_digit_dot].
      rewrite Es at 1. cbn [app]. rewrite eat_same, (upto_app 6 n); auto; [|lia|intros X; apply L; lia].
      rewrite Ef at 1. reflexivity.
    + cbn [sec_text sec_pair fst snd]. unfold match_sec. cbn [app lit list_ascii_of_string]. rewrite eat_same.
      destruct L as [L1 L2]. rewrite (upto_app 2 k); auto; [|lia|intros X; apply L1; lia].
      rewrite Es at 1. destruct (eat "." r) as [r'|] eqn:E; [|reflexivity].
      apply eat_inv in E as ->. destruct (digits_upto 6 r') as [f q] eqn:U.
      apply upto_inv in U as (-> & _ & D & _). destruct f as [|cf f]; [reflexivity|].
      exfalso. apply L2. exists ((cf :: f) ++ q). split; [reflexivity|]. exists cf, (f ++ q). split; [reflexivity|].
      apply D. now left.
  - cbn [sec_text sec_pair fst snd app]. unfold match_sec. destruct (eat ":" r) as [r'|] eqn:E; [|reflexivity].
    apply eat_inv in E as ->. destruct (digits_upto 2 r') as [f q] eqn:U.
    apply upto_inv in U as (-> & _ & D & _). destruct f as [|cf f]; [reflexivity|].
    exfalso. apply L. exists ((cf :: f) ++ q). split; [reflexivity|]. exists cf, (f ++ q). split; [reflexivity|].
    apply D. now left.
Qed.
Lemma match_sec_inv s sec fr r : match_sec s = (sec, fr, r) ->
  exists x, s = sec_text x ++ r /\ sec_formed x /\ sec_longest x r /\ (sec, fr) = sec_pair x.
Proof.
  unfold match_sec. destruct (eat ":" s) as [s1|] eqn:E1.
  2:{ intros H. injection H as <- <- <-. exists None. cbn. split; auto. split; auto. split; auto.
      intros (x & -> & _). cbn [app lit list_ascii_of_string] in E1. rewrite eat_same in E1. discriminate. }
  apply eat_inv in E1 as ->. destruct (digits_upto 2 s1) as [d s2] eqn:U. apply upto_inv in U as (-> & L & D & N).
  destruct d as [|c d].
  { intros H. injection H as <- <- <-. exists None. cbn [sec_text sec_formed sec_longest sec_pair app]. split; auto. split; auto. split; auto.
    intros (x & E & X). cbn [app lit list_ascii_of_string] in E. injection E as ->. revert X. apply N. cbn [length]. lia. }
  set (d0 := c :: d) in *.
  assert (Ds : digits 1 d0 \/ digits 2 d0).
  { assert (length d0 = 1 \/ length d0 = 2)%nat as [X|X] by (subst d0; cbn [length] in *; lia); rewrite X in D; auto. }
  assert (out : (Some d0, @None str, s2) = (sec, fr, r) -> (forall f, s2 = lit "." ++ f -> ~ starts_digit f) ->
     exists x, ":"%char :: d0 ++ s2 = sec_text x ++ r /\ sec_formed x /\ sec_longest x r /\ (sec, fr) = sec_pair x).
  { intros H X. injection H as <- <- <-. exists (Some (d0, None)). cbn [sec_text sec_formed sec_longest sec_pair].
    split; [reflexivity|]. split; auto. split; auto. split; [intros Y; apply N; lia|]. intros (f & Y & Z). now apply (X f). }
  destruct (eat "." s2) as [s3|] eqn:E2.
  2:{ intros H. apply out; auto. intros f ->. cbn [app lit list_ascii_of_string] in E2. rewrite eat_same in E2. discriminate. }
  apply eat_inv in E2 as ->. destruct (digits_upto 6 s3) as [f s4] eqn:U. apply upto_inv in U as (-> & Lf & Df & Nf).
  destruct f as [|cf f].
  { intros H. apply out; auto. intros f E. cbn [app lit list_ascii_of_string] in E. injection E as <-. apply Nf. cbn. lia. }
  intros H. injection H as <- <- <-. exists (Some (d0, Some (cf :: f))). cbn [sec_text sec_formed sec_longest sec_pair].
  split; [cbn [app lit list_ascii_of_string]; rewrite <- app_assoc; reflexivity|]. split; [|split; auto].
  split; auto. exists (length (cf :: f)). split; auto. split; auto. cbn [length]. lia.
Qed.

Definition zone_meaning (z : option zone) : option Z :=
  match z with
  | None => None
  | Some Zulu => Some 0
  | Some (Offset neg hh mm) => Some ((if neg then -1 else 1) * (60 * num hh + num mm))
  end.
Lemma match_tz_text z r : zone_formed z -> (z = None -> ~ starts_zone r) ->
  match_tz (zone_text z ++ r) = zone_meaning z.
Proof.
  intros F N. destruct z as [[|neg hh mm]|].
  - reflexivity.
  - destruct F as [F1 F2]. cbn [zone_text zone_meaning].
    assert (X : match_tz ((if neg then lit "-" else lit "+") ++ hh ++ lit ":" ++ mm ++ r) =
                Some (60 * (to_int hh * (if neg then -1 else 1)) + to_int mm * (if neg then -1 else 1))).
    { destruct neg; cbn [app lit list_ascii_of_string]; unfold match_tz; cbn [Ascii.eqb Bool.eqb orb];
        rewrite (exactly_app 2) by auto; rewrite eat_same, (exactly_app 2) by auto; reflexivity. }
    rewrite <- ?app_assoc. rewrite X, !to_int_num. f_equal. destruct neg; ring.
  - cbn [zone_text zone_meaning app]. destruct (match_tz r) as [o|] eqn:E; [|reflexivity]. exfalso. apply N; auto.
    unfold match_tz in E. destruct r as [|c r1]; [discriminate|].
    destruct (Ascii.eqb c "Z") eqn:CZ.
    { apply Ascii.eqb_eq in CZ as ->. exists Zulu, r1. split; [exact I|reflexivity]. }
    assert (E' : (if (c =? "+")%char || (c =? "-")%char then
        let? (h, s2) := digits_exactly 2 r1 in let? s3 := eat ":" s2 in let? (m, _) := digits_exactly 2 s3 in
        let neg := if Ascii.eqb c "-" then -1 else 1 in
        Some (60 * (to_int h * neg) + to_int m * neg) else None) = Some o).
    { revert E. clear - CZ. all_ascii c; try discriminate CZ; intros H; exact H. }
    clear E. destruct ((c =? "+")%char || (c =? "-")%char) eqn:C; [|discriminate].
    destruct (digits_exactly 2 r1) as [[h s2]|] eqn:E1; [|discriminate].
    destruct (eat ":" s2) as [s3|] eqn:E2; [|discriminate].
    destruct (digits_exactly 2 s3) as [[m s4]|] eqn:E3; [|discriminate].
    apply exactly_inv in E1 as [-> D1]. apply eat_inv in E2 as ->. apply exactly_inv in E3 as [-> D3].
    exists (Offset (Ascii.eqb c "-") h m), s4. split; auto.
    apply orb_true_iff in C as [C|C]; apply Ascii.eqb_eq in C as ->; cbn [Ascii.eqb Bool.eqb app lit list_ascii_of_string];
      rewrite <- app_assoc; reflexivity.
Qed.
Lemma zone_exists r : exists z q, r = zone_text z ++ q /\ zone_formed z /\ (z = None -> ~ starts_zone q).
Proof.
  destruct (match_tz r) as [o|] eqn:E.
  - assert (S : starts_zone r).
    { destruct r as [|c r1]; [discriminate|].
      destruct (Ascii.eqb c "Z") eqn:CZ.
      { apply Ascii.eqb_eq in CZ as ->. exists Zulu, r1. split; [exact I|reflexivity]. }
      assert (N : ~ ~ starts_zone (c :: r1)).
      { intros N. pose proof (match_tz_text None (c :: r1) I (fun _ => N)) as X. cbn [zone_text app zone_meaning] in X. congruence. }
      (* decide by the same match *)
      unfold match_tz in E.
      assert (E' : (if (c =? "+")%char || (c =? "-")%char then
        let? (h, s2) := digits_exactly 2 r1 in let? s3 := eat ":" s2 in let? (m, _) := digits_exactly 2 s3 in
        let neg := if Ascii.eqb c "-" then -1 else 1 in
        Some (60 * (to_int h * neg) + to_int m * neg) else None) = Some o).
      { revert E. clear - CZ. all_ascii c; try discriminate CZ; intros H; exact H. }
      clear E. destruct ((c =? "+")%char || (c =? "-")%char) eqn:C; [|discriminate].
      destruct (digits_exactly 2 r1) as [[h s2]|] eqn:E1; [|discriminate].
      destruct (eat ":" s2) as [s3|] eqn:E2; [|discriminate].
      destruct (digits_exactly 2 s3) as [[m s4]|] eqn:E3; [|discriminate].
      apply exactly_inv in E1 as [-> D1]. apply eat_inv in E2 as ->. apply exactly_inv in E3 as [-> D3].
      exists (Offset (Ascii.eqb c "-") h m), s4. split; auto.
      apply orb_true_iff in C as [C|C]; apply Ascii.eqb_eq in C as ->; cbn [Ascii.eqb Bool.eqb app lit list_ascii_of_string];
        rewrite <- app_assoc; reflexivity. }
    destruct S as (z & q & F & ->). exists (Some z), q. destruct z; (split; [reflexivity|]); (split; [auto|discriminate]).
  - exists None, r. split; [reflexivity|]. split; [exact I|]. intros _ (z & q & F & ->).
    assert (X : match_tz (zone_text (Some z) ++ q) = zone_meaning (Some z)).
    { apply match_tz_text; [destruct z; auto|discriminate]. }
    replace (zone_text (Some z) ++ q) with (match z with Zulu => lit "Z"
        | Offset neg hh mm => (if neg then lit "-" else lit "+") ++ hh ++ lit ":" ++ mm end ++ q) in X by (destruct z; reflexivity).
    rewrite X in E. destruct z; discriminate.
Qed.

(** ** The whole function *)
Lemma make_nonzero d :
  (if negb (negb (year d =? 0) && negb (month d =? 0) && negb (day d =? 0)) then Err ValueError else make d) = make d.
Proof.
  destruct (negb (year d =? 0) && negb (month d =? 0) && negb (day d =? 0)) eqn:E; [reflexivity|]. cbn [negb]. unfold make.
  destruct (check_fields d) eqn:C; [|reflexivity]. apply check_valid, valid_nonzero in C as (H1 & H2 & H3).
  apply Z.eqb_neq in H1, H2, H3. rewrite H1, H2, H3 in E. discriminate.
Qed.
Lemma text_eq p : text p = date_text (pY p) (pM p) (pD p) ++ lit "T" ++ ph p ++ lit ":" ++ pm p ++
  sec_text (psec p) ++ zone_text (pz p) ++ prest p.
Proof. reflexivity. Qed.
Lemma zone_no_clash z r : z <> None -> zone_formed z ->
  ~ starts_digit (zone_text z ++ r) /\ (forall f, zone_text z ++ r <> lit "." ++ f) /\ (forall f, zone_text z ++ r <> lit ":" ++ f).
Proof.
  intros N F. destruct z as [[|neg hh mm]|]; [| |easy].
  - split; [|split; intros f E; discriminate E].
    intros (c & s & E & D). cbn [zone_text app lit list_ascii_of_string] in E. injection E as <- <-. cbn in D.
    repeat destruct D as [D|D]; try discriminate; easy.
  - destruct neg; cbn [zone_text app lit list_ascii_of_string]; (split; [|split; intros f E; discriminate E]);
      intros (c & s & E & D); injection E as <- <-; cbn in D; repeat destruct D as [D|D]; try discriminate; easy.
Qed.
Lemma sec_longest_of p : formed p -> longest p -> sec_longest (psec p) (zone_text (pz p) ++ prest p).
Proof.
  intros F L. destruct F as (_ & _ & _ & _ & Fz). unfold longest in L. destruct (pz p) as [z|] eqn:Z.
  - destruct (zone_no_clash (Some z) (prest p) ltac:(discriminate)) as (C1 & C2 & C3); [destruct z; auto|].
    unfold sec_longest. destruct (psec p) as [[s [f|]]|]; auto.
    + split; auto. intros (f & E & _). exact (C2 f E).
    + intros (f & E & _). exact (C3 f E).
  - destruct L as [_ L]. exact L.
Qed.
Lemma iso_datetime p : formed p -> longest p -> from_iso8601 (text p) = make (meaning p).
Proof.
  intros F L. pose proof (sec_longest_of p F L) as SL. destruct F as (Fd & Fh & Fm & Fs & Fz).
  rewrite text_eq. unfold from_iso8601. rewrite match_date_text by auto. rewrite match_hm_text by auto.
  rewrite match_sec_text; auto. rewrite match_tz_text.
  3:{ intros E. unfold longest in L. rewrite E in L. apply L. }
  2:{ destruct (pz p) as [[|]|]; auto. }
  rewrite !to_int_num. rewrite <- (make_nonzero (meaning p)). cbn [meaning year month day].
  destruct (negb _); [reflexivity|]. f_equal. unfold meaning. f_equal.
  - destruct (psec p) as [[s f]|]; cbn [sec_pair fst snd]; auto. apply to_int_num.
  - destruct (psec p) as [[s [f|]]|]; cbn [sec_pair fst snd]; auto. apply num_frac.
    destruct Fs as [_ (n & Hn & [<- _])]. lia.
Qed.
Lemma iso_date_only y m d r : date_formed y m d -> ~ starts_time r ->
  from_iso8601 (date_text y m d ++ r) = make (DT (num y) (num m) (num d) 0 0 0 0 None).
Proof.
  intros F N. unfold from_iso8601. rewrite match_date_text by auto.
  destruct (match_hm r) as [[[h mm] q]|] eqn:E.
  { exfalso. apply match_hm_inv in E as (-> & H1 & H2). apply N. now exists h, mm, q. }
  rewrite !to_int_num. exact (make_nonzero (DT (num y) (num m) (num d) 0 0 0 0 None)).
Qed.
Lemma iso_reject s : (forall y m d r, date_formed y m d -> s <> date_text y m d ++ r) -> from_iso8601 s = Err ValueError.
Proof.
  intros N. unfold from_iso8601. destruct (match_date s) as [[[[y m] d] r]|] eqn:E; [|reflexivity].
  apply match_date_inv in E as [-> F]. now elim (N y m d r F).
Qed.
Lemma iso_cover s :
  (forall y m d r, date_formed y m d -> s <> date_text y m d ++ r) \/
  (exists y m d r, date_formed y m d /\ ~ starts_time r /\ s = date_text y m d ++ r) \/
  (exists p, formed p /\ longest p /\ s = text p).
Proof.
  destruct (match_date s) as [[[[y m] d] r]|] eqn:E.
  2:{ left. intros y m d r F ->. rewrite match_date_text in E by auto. discriminate. }
  apply match_date_inv in E as [-> F]. right.
  destruct (match_hm r) as [[[h mm] q]|] eqn:E.
  2:{ left. exists y, m, d, r. split; auto. split; auto. intros (h & mm & q & H1 & H2 & ->).
      rewrite match_hm_text in E by auto. discriminate. }
  apply match_hm_inv in E as (-> & H1 & H2). right.
  destruct (match_sec q) as [[sec fr] q1] eqn:Es. apply match_sec_inv in Es as (x & -> & S1 & S2 & _).
  destruct (zone_exists q1) as (z & q2 & -> & Z1 & Z2).
  exists (Parts y m d h mm x z q2). split; [|split].
  - repeat split; cbn [pY pM pD ph pm psec pz]; auto; try apply F; try apply H1; try apply H2.
  - unfold longest. cbn [pz psec prest]. destruct z as [z|]; [exact I|]. split; [now apply Z2|]. exact S2.
  - reflexivity.
Qed.

(** ** isoformat *)
Lemma pad_digits n : forall x, digits n (pad n x).
Proof.
  induction n as [|n IH]; intros x; [now apply digits_nil|]. cbn [pad]. destruct (IH (x / 10)) as [L D]. split.
  - rewrite app_length. cbn [length]. lia.
  - intros c Hc. apply in_app_iff in Hc as [Hc|[<-|[]]]; auto.
    apply is_digit_In. pose proof (Z.mod_pos_bound x 10 ltac:(lia)) as B.
    assert (exists k, Z.to_nat (48 + x mod 10) = k /\ (48 <= k <= 57)%nat) as (k & -> & Hk) by (eexists; split; [reflexivity|lia]).
    unfold is_digit. rewrite nat_ascii_embedding by lia. apply andb_true_iff. split; apply Nat.leb_le; lia.
Qed.
Lemma pad_num n : forall x, 0 <= x < 10 ^ Z.of_nat n -> num (pad n x) = x.
Proof.
  induction n as [|n IH]; intros x H; [cbn in *; lia|]. rewrite Nat2Z.inj_succ, Z.pow_succ_r in H by lia. cbn [pad].
  rewrite num_app, IH.
  - cbn [num length]. pose proof (Z.mod_pos_bound x 10 ltac:(lia)) as B.
    rewrite nat_ascii_embedding by lia. rewrite Z2Nat.id by lia. pose proof (Z.div_mod x 10 ltac:(lia)). cbn [Z.of_nat Z.pow]. 
    change (10 ^ Z.of_nat 1) with 10. change (10 ^ Z.of_nat 0) with 1. lia.
  - split; [apply Z.div_pos; lia|]. apply Z.div_lt_upper_bound; lia.
Qed.
