(** Proofs about the URLs of files. *)
From Coq Require Import Lia.
From Verif Require Import PyBase PyFacts M_Quote M_Url S_Url P_Url S_AsUri.
Close Scope Q_scope.

Definition qc (c : ascii) : str := flat_map (quote_byte (lit "/")) (utf8_char c).
Lemma quote_qc s : quote s (lit "/") = flat_map qc s.
Proof. unfold quote, utf8. induction s as [|c s IH]; [reflexivity|]. cbn [flat_map]. now rewrite flat_map_app, IH. Qed.
Definition qc_ok (c : ascii) : bool := if has c plain_chars then str_eqb (qc c) [c] else (2 <=? length (qc c)).
Lemma qc_all c : qc_ok c = true /\ existsb (fun x => has x (qc c)) (lit "?#[]") = false.
Proof. destruct c as [[|] [|] [|] [|] [|] [|] [|] [|]]; split; vm_compute; reflexivity. Qed.
Lemma qc_plain c : In c plain_chars -> qc c = [c].
Proof. intro I. destruct (qc_all c) as [Q _]. unfold qc_ok in Q. apply has_In in I. rewrite I in Q. now apply str_eqb_eq. Qed.
Lemma qc_long c : 1 <= length (qc c) /\ (~ In c plain_chars -> 2 <= length (qc c)).
Proof.
  destruct (qc_all c) as [Q _]. unfold qc_ok in Q. destruct (has c plain_chars) eqn:H.
  - apply has_In in H. rewrite (qc_plain c H). split; [cbn; lia|]. intro N. now elim N.
  - apply Nat.leb_le in Q. lia.
Qed.
Lemma quote_long s : length s <= length (flat_map qc s) /\ ((exists c, In c s /\ ~ In c plain_chars) -> length s < length (flat_map qc s)).
Proof.
  induction s as [|c s [IH1 IH2]]; [split; [cbn; lia|intros (c & [] & _)]|]. cbn [flat_map length]. rewrite app_length. destruct (qc_long c) as [L1 L2]. split; [lia|].
  intros (x & [<-|I] & N); [specialize (L2 N); lia|]. assert (length s < length (flat_map qc s)) by eauto. lia.
Qed.
Lemma quote_without s c : In c (lit "?#[]") -> ~ In c (flat_map qc s).
Proof.
  intros J I. apply in_flat_map in I as (x & _ & I). destruct (qc_all x) as [_ Q]. assert (X : existsb (fun y => has y (qc x)) (lit "?#[]") = true) by (apply existsb_exists; exists c; split; [exact J|now apply has_In]). congruence.
Qed.
