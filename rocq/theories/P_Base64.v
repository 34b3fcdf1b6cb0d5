From Verif Require Import PyBase PyFacts M_Base64 S_Base64.
From Coq Require Import Lia.

Definition good_alpha (alpha : str) : bool :=
  forallb (fun n => match position (nth n alpha "="%char) alpha with
                    | Some m => Nat.eqb m n | None => false end) (seq 0 64) &&
  match position "="%char alpha with None => true | _ => false end.

Lemma good_pos alpha n : good_alpha alpha = true -> n < 64 ->
  position (nth n alpha "="%char) alpha = Some n.
Proof.
  unfold good_alpha. rewrite andb_true_iff, forallb_forall. intros [H _] L.
  specialize (H n). rewrite in_seq in H. specialize (H ltac:(lia)).
  destruct (position _ _); [|discriminate]. apply Nat.eqb_eq in H. now subst.
Qed.
Lemma good_pad alpha : good_alpha alpha = true -> position "="%char alpha = None.
Proof.
  unfold good_alpha. rewrite andb_true_iff. intros [_ H].
  destruct (position "=" alpha); [discriminate|auto].
Qed.
Lemma sextet_lt a b c d e f : sextet a b c d e f < 64.
Proof. destruct a, b, c, d, e, f; vm_compute; lia. Qed.
Lemma bits6_sextet a b c d e f : bits6 (sextet a b c d e f) = [a; b; c; d; e; f].
Proof. destruct a, b, c, d, e, f; reflexivity. Qed.

Lemma b64_char alpha a b c d e f : good_alpha alpha = true ->
  match position (nth (sextet a b c d e f) alpha "="%char) alpha with
  | Some n => bits6 n | None => [] end = [a; b; c; d; e; f].
Proof. intros H. rewrite good_pos; auto using sextet_lt. apply bits6_sextet. Qed.

Lemma b64_roundtrip alpha : good_alpha alpha = true ->
  forall s, b64_read alpha (b64encode alpha s) = s.
Proof.
  intros H s. unfold b64_read.
  remember (length s) as n eqn:Hn. assert (L : length s <= n) by lia. clear Hn.
  revert s L. induction n as [|n IH]; intros s L.
  - destruct s; [reflexivity|simpl in L; lia].
  - destruct s as [|[a0 a1 a2 a3 a4 a5 a6 a7] [|[b0 b1 b2 b3 b4 b5 b6 b7] [|[c0 c1 c2 c3 c4 c5 c6 c7] s]]].
    + reflexivity.
    + cbn [b64encode flat_map]. rewrite !b64_char, good_pad by auto. reflexivity.
    + cbn [b64encode flat_map]. rewrite !b64_char, good_pad by auto. reflexivity.
    + cbn [b64encode flat_map]. rewrite !b64_char by auto.
      cbn [app octets]. rewrite IH; auto. simpl in L. lia.
Qed.

Lemma b64_alphabet alpha : length alpha = 64 ->
  forall s c, In c (b64encode alpha s) -> In c alpha \/ c = "="%char.
Proof.
  intros H s. remember (length s) as n eqn:Hn. assert (L : length s <= n) by lia. clear Hn.
  assert (N : forall a b c d e f, In (nth (sextet a b c d e f) alpha "="%char) alpha).
  { intros. apply nth_In. rewrite H. apply sextet_lt. }
  revert s L. induction n as [|n IH]; intros s L x Hx.
  - destruct s; [easy|simpl in L; lia].
  - destruct s as [|[a0 a1 a2 a3 a4 a5 a6 a7] [|[b0 b1 b2 b3 b4 b5 b6 b7] [|[c0 c1 c2 c3 c4 c5 c6 c7] s]]];
    cbn [b64encode] in Hx.
    + easy.
    + repeat (destruct Hx as [<-|Hx]; auto). easy.
    + repeat (destruct Hx as [<-|Hx]; auto). easy.
    + do 4 (destruct Hx as [<-|Hx]; auto). apply (IH s); auto. simpl in L. lia.
Qed.
Lemma b64_length alpha s : Nat.modulo (length (b64encode alpha s)) 4 = 0.
Proof.
  remember (length s) as n eqn:Hn. assert (L : length s <= n) by lia. clear Hn.
  revert s L. induction n as [|n IH]; intros s L.
  - destruct s; [reflexivity|simpl in L; lia].
  - destruct s as [|[a0 a1 a2 a3 a4 a5 a6 a7] [|[b0 b1 b2 b3 b4 b5 b6 b7] [|[c0 c1 c2 c3 c4 c5 c6 c7] s]]];
    cbn [b64encode]; try reflexivity.
    change (length (?a :: ?b :: ?c :: ?d :: ?e)) with (4 + length e).
    rewrite <- Nat.add_mod_idemp_l by lia. simpl (4 mod 4). rewrite Nat.add_0_l.
    apply IH. simpl in L. lia.
Qed.
