(** [int(str(n)) = n] *)
From Coq Require Import Lia DecimalZ.
From Verif Require Import PyBase PyFacts PyInt.
Lemma digits_acc u : forall p, int_digits (str_of_uint u) true (Zpos p) = Some (Zpos (Pos.of_uint_acc u p)).
Proof.
  induction u; intro p; cbn [str_of_uint int_digits Pos.of_uint_acc]; [reflexivity|..];
  match goal with |- context [is_digit ?c] => change (is_digit c) with true; let d := eval vm_compute in (digit_val c) in change (digit_val c) with d end;
  cbv iota; rewrite <- IHu; f_equal; lia.
Qed.
Lemma digits_uint u b : (u <> Decimal.Nil \/ b = true) -> int_digits (str_of_uint u) b 0 = Some (Z.of_uint u).
Proof.
  revert b. induction u; intros b N; cbn [str_of_uint int_digits]; [destruct N as [N|N]; [congruence|now rewrite N]|..];
  match goal with |- context [is_digit ?c] => change (is_digit c) with true; let d := eval vm_compute in (digit_val c) in change (digit_val c) with d end;
  cbv iota; cbn [Z.mul Z.add].
  1: { rewrite IHu by now right. reflexivity. }
  all: rewrite digits_acc; reflexivity.
Qed.
Lemma uint_chars u c : In c (str_of_uint u) -> is_digit c = true.
Proof. induction u; cbn; [intros []|..]; intros [<-|I]; auto. Qed.
Lemma lstrip_id s : (forall c, In c s -> is_space c = false) -> lstrip s = s.
Proof. destruct s as [|c s]; [reflexivity|]. intro H. cbn. now rewrite H by now left. Qed.
Lemma strip_id s : (forall c, In c s -> is_space c = false) -> strip s = s.
Proof.
  intro H. unfold strip. rewrite (lstrip_id s) by exact H. rewrite lstrip_id; [apply rev_involutive|].
  intros c I. apply H. now apply in_rev.
Qed.
Lemma digit_no_space c : is_digit c = true -> is_space c = false.
Proof.
  unfold is_digit, is_space. intro H. apply andb_prop in H as [H1 H2]. apply Nat.leb_le in H1, H2.
  repeat (apply orb_false_intro); try (apply andb_false_iff; rewrite !Nat.leb_gt; lia); apply Nat.eqb_neq; lia.
Qed.
Lemma to_int_nonnil z u : Z.to_int z = Decimal.Pos u \/ Z.to_int z = Decimal.Neg u -> u <> Decimal.Nil.
Proof.
  intros H ->. assert (E := DecimalZ.to_of (Z.to_int z)). rewrite DecimalZ.of_to in E.
  destruct H as [H|H]; rewrite H in E; vm_compute in E; discriminate.
Qed.
Theorem py_int_str z : py_int (str_of_Z z) = Ok z.
Proof.
  unfold py_int. rewrite strip_id.
  - unfold str_of_Z. pose proof (DecimalZ.of_to z) as E. destruct (Z.to_int z) as [u|u] eqn:Q; cbn [Z.of_int] in E.
    + assert (X : int_digits (str_of_uint u) false 0 = Some z).
      { rewrite digits_uint; [now rewrite E|]. left. apply (to_int_nonnil z). auto. }
      destruct u; try (rewrite X; reflexivity). 1: discriminate X.
      all: cbn [str_of_uint] in X |- *; rewrite X; reflexivity.
    + rewrite digits_uint; [now rewrite E|]. left. apply (to_int_nonnil z). auto.
  - intros c I. unfold str_of_Z in I. destruct (Z.to_int z) as [u|u].
    + apply digit_no_space. eauto using uint_chars.
    + destruct I as [<-|I]; [reflexivity|]. apply digit_no_space. eauto using uint_chars.
Qed.
Lemma str_of_Z_inj a b : str_of_Z a = str_of_Z b -> a = b.
Proof. intro E. pose proof (py_int_str a) as H. rewrite E, py_int_str in H. congruence. Qed.
