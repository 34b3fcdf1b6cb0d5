(** C10, C11: ISO-8601 dates and times. *)
From Coq Require Import Lia.
From Verif Require Import PyBase PyFacts M_Time S_Time P_Time.
Open Scope Z_scope.

(** * C11: the function, completely. *)
(** Every text is one of: no leading YYYY-MM-DD; a date not followed by Thh:mm; a date
    and time with optional seconds, fraction and zone, each read as far as possible. *)
Theorem c11_cover : forall s,
  (forall y m d r, date_formed y m d -> s <> date_text y m d ++ r) \/
  (exists y m d r, date_formed y m d /\ ~ starts_time r /\ s = date_text y m d ++ r) \/
  (exists p, formed p /\ longest p /\ s = text p).
Proof. exact iso_cover. Qed.
Print Assumptions c11_cover.
Theorem c11_reject : forall s,
  (forall y m d r, date_formed y m d -> s <> date_text y m d ++ r) -> from_iso8601 s = Err ValueError.
Proof. exact iso_reject. Qed.
Print Assumptions c11_reject.
Theorem c11_date : forall y m d r, date_formed y m d -> ~ starts_time r ->
  (valid_date (num y) (num m) (num d) ->
   from_iso8601 (date_text y m d ++ r) = Ok (DT (num y) (num m) (num d) 0 0 0 0 None)) /\
  (~ valid_date (num y) (num m) (num d) -> from_iso8601 (date_text y m d ++ r) = Err ValueError).
Proof.
  intros y m d r F N. rewrite iso_date_only by auto. unfold make. split; intros V.
  - destruct (check_fields _) eqn:C; auto.
    assert (X : check_fields (DT (num y) (num m) (num d) 0 0 0 0 None) = true).
    { apply check_valid. split; auto. cbn. unfold valid_time. lia. }
    congruence.
  - destruct (check_fields _) eqn:C; auto. apply check_valid in C as [X _]. easy.
Qed.
Print Assumptions c11_date.
Theorem c11_datetime : forall p, formed p -> longest p ->
  (valid (meaning p) -> from_iso8601 (text p) = Ok (meaning p)) /\
  (~ valid (meaning p) -> from_iso8601 (text p) = Err ValueError).
Proof.
  intros p F L. rewrite iso_datetime by auto. unfold make. split; intros V.
  - apply check_valid in V. now rewrite V.
  - destruct (check_fields _) eqn:C; auto. apply check_valid in C. easy.
Qed.
Print Assumptions c11_datetime.
(** So whatever is accepted is a valid date and time. *)
Theorem c11_valid : forall s d, from_iso8601 s = Ok d -> valid d.
Proof.
  intros s d H. destruct (iso_cover s) as [C|[(y & m & dd & r & F & N & ->)|(p & F & L & ->)]].
  - rewrite iso_reject in H by auto. discriminate.
  - rewrite iso_date_only in H by auto. unfold make in H. destruct (check_fields _) eqn:E; [|discriminate].
    apply check_valid in E. congruence.
  - rewrite iso_datetime in H by auto. unfold make in H. destruct (check_fields _) eqn:E; [|discriminate].
    apply check_valid in E. congruence.
Qed.
Print Assumptions c11_valid.
(** The offset is not range-checked: a zone of +99:99 is accepted although no datetime
    can use it. *)
Theorem c11_offset_range_refuted : exists s d o, from_iso8601 s = Ok d /\ tz d = Some o /\ 24 * 60 <= o.
Proof. exists (lit "2020-01-01T00:00+99:99"), (DT 2020 1 1 0 0 0 0 (Some 6039)), 6039. vm_compute. repeat split; discriminate. Qed.
Print Assumptions c11_offset_range_refuted.
Definition parts_ex := Parts (lit "2020") (lit "02") (lit "29") (lit "23") (lit "59")
  (Some (lit "5", Some (lit "25"))) (Some (Offset true (lit "05") (lit "30"))) (lit " (x)").
Example c11_ex_text : text parts_ex = lit "2020-02-29T23:59:5.25-05:30 (x)".
Proof. reflexivity. Qed.
Example c11_ex_value : from_iso8601 (text parts_ex) = Ok (DT 2020 2 29 23 59 5 250000 (Some (-330))).
Proof. vm_compute. reflexivity. Qed.
Ltac dig := split; [reflexivity|intros c Hc; cbn in Hc; repeat (destruct Hc as [<-|Hc]; [cbn; tauto|]); easy].
Example c11_ex_hyp : formed parts_ex /\ longest parts_ex.
Proof.
  split; [|exact I].
  split; [split; [dig|split; dig]|]. split; [dig|]. split; [dig|].
  split; [|split; dig]. split; [left; dig|]. exists 2%nat. split; [lia|dig].
Qed.
Example c11_ex_bad : from_iso8601 (lit "2019-02-29") = Err ValueError /\ from_iso8601 (lit "20190229") = Err ValueError.
Proof. split; vm_compute; reflexivity. Qed.
(** Trailing text after a date is ignored, even an unfinished time. *)
Example c11_ex_trailing : from_iso8601 (lit "2019-02-28T1:2") = Ok (DT 2019 2 28 0 0 0 0 None).
Proof. vm_compute. reflexivity. Qed.

(** * C10 *)
Theorem c10_datetime : forall d, valid d ->
  (forall o, tz d = Some o -> Z.abs o < 24 * 60) ->
  datetime_of_text (isoformat d) = Ok d.
Proof.
  intros [y m d h mi s u z] V Hz.
  pose proof V as ((Hy & n & Hn & Hd) & Hh & Hm & Hs & Hu). cbn [year month day hour minute second micro tz] in *.
  assert (Hmo : 1 <= m <= 12) by (unfold month_length in Hn; cbn [In] in Hn; lia).
  assert (Hd' : 1 <= d <= 31) by (unfold month_length in Hn; cbn [In] in Hn; lia).
  set (p := Parts (pad 4 y) (pad 2 m) (pad 2 d) (pad 2 h) (pad 2 mi)
     (Some (pad 2 s, if u =? 0 then None else Some (pad 6 u)))
     (match z with Some o => Some (Offset (o <? 0) (pad 2 (Z.abs o / 60)) (pad 2 (Z.abs o mod 60))) | None => None end) []).
  assert (E : isoformat (DT y m d h mi s u z) = text p).
  { unfold isoformat, text, p, iso_date, date_text. cbn [pY pM pD ph pm psec pz prest year month day hour minute second micro tz].
    destruct (u =? 0), z as [o|]; unfold iso_offset; try destruct (o <? 0);
      cbn [app lit list_ascii_of_string]; repeat (rewrite <- ?app_assoc; cbn [app]); rewrite ?app_nil_r; reflexivity. }
  assert (F : formed p).
  { repeat split; cbn [p pY pM pD ph pm psec pz]; try apply (pad_digits 4); try apply (pad_digits 2).
    - right. apply pad_digits.
    - destruct (u =? 0); [exact I|]. exists 6%nat. split; [lia|apply pad_digits].
    - destruct z as [o|]; [split; apply pad_digits|exact I]. }
  assert (M : meaning p = DT y m d h mi s u z).
  { unfold meaning, p. cbn [pY pM pD ph pm psec pz]. rewrite !pad_num by (cbn; lia). f_equal.
    - destruct (u =? 0) eqn:U; [apply Z.eqb_eq in U; congruence|].
      destruct (pad_digits 6 u) as [-> _]. rewrite pad_num by (cbn; lia). cbn. lia.
    - destruct z as [o|]; [|reflexivity]. specialize (Hz o eq_refl).
      pose proof (Z.mod_pos_bound (Z.abs o) 60 ltac:(lia)) as B.
      pose proof (Z.div_mod (Z.abs o) 60 ltac:(lia)) as D.
      assert (0 <= Z.abs o / 60 < 24) by (split; [apply Z.div_pos; lia|apply Z.div_lt_upper_bound; lia]).
      rewrite !pad_num by (cbn; lia). f_equal. destruct (Z.ltb_spec o 0); lia. }
  assert (L : longest p).
  { unfold longest, p. cbn [pz psec prest]. destruct z as [o|]; [exact I|].
    assert (ND : ~ starts_digit []) by (intros (c & r & X & _); discriminate).
    split; [intros ([|neg ? ?] & r & _ & X); [|destruct neg]; discriminate|].
    destruct (u =? 0); auto. split; auto. intros (f & X & _). discriminate. }
  unfold datetime_of_text. rewrite E, iso_datetime by auto. rewrite M. unfold make.
  apply check_valid in V. now rewrite V.
Qed.
Print Assumptions c10_datetime.
Theorem c10_date : forall y m d, valid_date y m d -> date_of_text (iso_date y m d) = Ok (y, m, d).
Proof.
  intros y m d V. pose proof V as (Hy & n & Hn & Hd).
  assert (Hmo : 1 <= m <= 12) by (unfold month_length in Hn; cbn [In] in Hn; lia).
  assert (Hd' : 1 <= d <= 31) by (unfold month_length in Hn; cbn [In] in Hn; lia).
  destruct (c11_date (pad 4 y) (pad 2 m) (pad 2 d) []) as [X _].
  - repeat split; try apply (pad_digits 4); try apply (pad_digits 2).
  - intros (h & mm & r & _ & _ & E). discriminate.
  - rewrite app_nil_r, !pad_num in X by (cbn; lia). unfold date_of_text, iso_date.
    change (pad 4 y ++ "-"%char :: pad 2 m ++ "-"%char :: pad 2 d) with (date_text (pad 4 y) (pad 2 m) (pad 2 d)).
    rewrite X by auto. reflexivity.
Qed.
Print Assumptions c10_date.
(** A date-time's own text is also a date text: the date primitive reads its date. *)
Theorem c10_date_of_datetime : forall d, valid d -> (forall o, tz d = Some o -> Z.abs o < 24 * 60) ->
  date_of_text (isoformat d) = Ok (year d, month d, day d).
Proof. intros d V Hz. unfold date_of_text. pose proof (c10_datetime d V Hz) as X. unfold datetime_of_text in X. now rewrite X. Qed.
Print Assumptions c10_date_of_datetime.
Example c10_ex : let d := DT 1 12 31 0 5 9 40 (Some (-90)) in
  isoformat d = lit "0001-12-31T00:05:09.000040-01:30" /\ valid d.
Proof.
  split; [vm_compute; reflexivity|]. split; [|cbn; unfold valid_time; lia]. split; [cbn; lia|].
  exists 31. split; [left; cbn; tauto|cbn; lia].
Qed.
