From Verif Require Import PyBase PyFacts M_Url M_Quote S_Quote P_Url.
From Coq Require Import Lia.

Ltac all_ascii c := destruct c as [[] [] [] [] [] [] [] []].

Lemma utf8_read_char c s : utf8_read (utf8_char c ++ s) = c :: utf8_read s.
Proof. all_ascii c; reflexivity. Qed.
Lemma utf8_round s : utf8_read (utf8 s) = s.
Proof. induction s as [|c s IH]; [reflexivity|]. unfold utf8 in *. cbn [flat_map]. now rewrite utf8_read_char, IH. Qed.
Lemma utf8_app a b : utf8 (a ++ b) = utf8 a ++ utf8 b.
Proof. apply flat_map_app. Qed.
Lemma utf8_inj a b : utf8 a = utf8 b -> a = b.
Proof. intros H. rewrite <- (utf8_round a), <- (utf8_round b). now rewrite H. Qed.

(** [quote_plus] byte by byte *)
Definition qp_byte (b : ascii) : str :=
  if Ascii.eqb b " " then ["+"%char] else quote_byte [] b.
Lemma quote_blank_byte b : has " " (quote_byte (lit " ") b) = Ascii.eqb b " ".
Proof. all_ascii b; reflexivity. Qed.
Lemma replace_char_app c r x y : replace (x ++ y) [c] r = replace x [c] r ++ replace y [c] r.
Proof.
  unfold replace. induction x as [|a x IH]; [reflexivity|].
  cbn [app replace_aux prefixb]. rewrite !andb_true_r. destruct (Ascii.eqb c a).
  - cbn [length Nat.sub]. rewrite IH. now rewrite app_assoc.
  - now rewrite IH.
Qed.
Lemma replace_quote b : replace (quote_byte (lit " ") b) [" "%char] ["+"%char] = qp_byte b.
Proof. all_ascii b; reflexivity. Qed.
Lemma quote_plus_bytes s : quote_plus s = flat_map qp_byte (utf8 s).
Proof.
  unfold quote_plus. destruct (has " " s) eqn:E; cbn [negb].
  - clear E. unfold quote. change (lit " ") with [" "%char] at 2. change (lit "+") with ["+"%char].
    induction (utf8 s) as [|b l IH]; [reflexivity|]. cbn [flat_map].
    rewrite replace_char_app, IH. f_equal. apply replace_quote.
  - unfold quote. assert (H : forall b, In b (utf8 s) -> quote_byte [] b = qp_byte b).
    { intros b Hb. unfold qp_byte. destruct (Ascii.eqb_spec b " ") as [->|]; auto. exfalso.
      unfold utf8 in Hb. apply in_flat_map in Hb as (c & Hc & Hb).
      assert (c = " "%char). { all_ascii c; cbn in Hb; repeat (destruct Hb as [Hb|Hb]; try discriminate); try easy. }
      subst. assert (has " " s = true) by (apply existsb_exists; exists " "%char; auto). congruence. }
    induction (utf8 s) as [|b l IH]; [reflexivity|]. cbn [flat_map].
    rewrite H by now left. rewrite IH; auto. intros x Hx. apply H. now right.
Qed.
Lemma unpercent_byte b s : unpercent (qp_byte b ++ s) = b :: unpercent s.
Proof. all_ascii b; reflexivity. Qed.
Lemma quote_plus_round s : unquote_plus (quote_plus s) = s.
Proof.
  unfold unquote_plus. rewrite quote_plus_bytes.
  assert (H : forall l, unpercent (flat_map qp_byte l) = l).
  { induction l as [|b l IH]; [reflexivity|]. cbn [flat_map]. now rewrite unpercent_byte, IH. }
  now rewrite H, utf8_round.
Qed.
Lemma qp_byte_chars b c : In c (qp_byte b) -> In c url_unreserved.
Proof.
  assert (H : forallb (fun c => existsb (Ascii.eqb c) url_unreserved) (qp_byte b) = true)
    by (all_ascii b; reflexivity).
  intros Hc. rewrite forallb_forall in H. apply H in Hc. apply existsb_exists in Hc as (x & Hx & E).
  apply Ascii.eqb_eq in E. now subst.
Qed.
Lemma quote_plus_chars s c : In c (quote_plus s) -> In c url_unreserved.
Proof.
  rewrite quote_plus_bytes. intros H. apply in_flat_map in H as (b & _ & H). eapply qp_byte_chars; eauto.
Qed.

(** * urlencode *)
Lemma quote_plus_plain s : (forall c, In c s -> In c url_unreserved /\ c <> "+"%char /\ c <> "%"%char) ->
  quote_plus s = s.
Proof.
  intros Hs. rewrite quote_plus_bytes. unfold utf8. induction s as [|c s IH]; [reflexivity|].
  cbn [flat_map]. rewrite flat_map_app, IH by (intros x Hx; apply Hs; now right).
  change (flat_map qp_byte (utf8_char c) ++ s = [c] ++ s). f_equal.
  destruct (Hs c (or_introl eq_refl)) as (Hc & N1 & N2). clear - Hc N1 N2.
  unfold url_unreserved in Hc. vm_compute in Hc.
  repeat (destruct Hc as [<-|Hc]; [try reflexivity; try (elim N1; reflexivity); elim N2; reflexivity|]). easy.
Qed.
Lemma before_after a b : ~ In "="%char a ->
  before_eq (a ++ "="%char :: b) = a /\ after_eq (a ++ "="%char :: b) = b.
Proof.
  induction a as [|c a IH]; intros H; [split; reflexivity|].
  assert (D : c <> "="%char) by (intros ->; apply H; now left).
  destruct IH as [I1 I2]; [intros X; apply H; now right|].
  cbn [app]. split.
  - replace (before_eq (c :: a ++ "="%char :: b)) with (c :: before_eq (a ++ "="%char :: b)).
    + now rewrite I1.
    + all_ascii c; try reflexivity. now elim D.
  - replace (after_eq (c :: a ++ "="%char :: b)) with (after_eq (a ++ "="%char :: b)).
    + exact I2.
    + all_ascii c; try reflexivity. now elim D.
Qed.
Lemma not_unreserved c : ~ In c url_unreserved -> forall s, ~ In c (quote_plus s).
Proof. intros H s X. apply H. eapply quote_plus_chars; eauto. Qed.
Ltac no_unres := let X := fresh in intros X; cbn in X;
  repeat (destruct X as [X|X]; [discriminate X|]); exact X.
Lemma urlencode_round l : read_form (urlencode l) = l.
Proof.
  destruct l as [|p l]; [reflexivity|].
  set (enc := fun kv : str * str => quote_plus (fst kv) ++ "="%char :: quote_plus (snd kv)).
  unfold urlencode. fold enc.
  assert (N : forall kv, ~ In "&"%char (enc kv)).
  { intros kv. unfold enc. rewrite in_app_iff. intros [H|[H|H]].
    - revert H. apply not_unreserved. no_unres.
    - discriminate.
    - revert H. apply not_unreserved. no_unres. }
  unfold read_form.
  destruct (join "&"%string (map enc (p :: l))) as [|c r] eqn:E.
  { exfalso. cbn [map join] in E. destruct (map enc l).
    - unfold enc in E. apply app_eq_nil in E as [_ E]. discriminate.
    - apply app_eq_nil in E as [E _]. unfold enc in E. apply app_eq_nil in E as [_ E]. discriminate. }
  rewrite <- E. change (lit "&") with ["&"%char]. rewrite split_char_join.
  - rewrite map_map. rewrite <- (map_id (p :: l)) at 2. apply map_ext. intros [k v]. unfold enc. cbn [fst snd].
    destruct (before_after (quote_plus k) (quote_plus v)) as [-> ->].
    + apply not_unreserved. no_unres.
    + now rewrite !quote_plus_round.
  - easy.
  - apply Forall_forall. intros x Hx. apply in_map_iff in Hx as (kv & <- & _). apply N.
Qed.

(** * format *)
Lemma format_text params s t :
  format_aux params None (double_braces s ++ t) = do r <- format_aux params None t; Ok (s ++ r).
Proof.
  induction s as [|c s IH].
  - cbn [double_braces flat_map app]. now destruct (format_aux params None t).
  - assert (E : forall u, format_aux params None ((if Ascii.eqb c "{" || Ascii.eqb c "}" then [c; c] else [c]) ++ u) =
                do r <- format_aux params None u; Ok (c :: r)).
    { intros u. all_ascii c; reflexivity. }
    change (double_braces (c :: s)) with ((if Ascii.eqb c "{" || Ascii.eqb c "}" then [c; c] else [c]) ++ double_braces s).
    rewrite <- app_assoc, E, IH. now destruct (format_aux params None t).
Qed.
Lemma format_field params n acc t : (forall c, In c n -> ~ In c (lit ".[!:{}")) ->
  format_aux params (Some acc) (n ++ "}"%char :: t) =
  do v <- field_value params (rev acc ++ n); do r <- format_aux params None t; Ok (v ++ r).
Proof.
  revert acc. induction n as [|c n IH]; intros acc H.
  - cbn [app]. now rewrite app_nil_r.
  - assert (D : ~ In c (lit ".[!:{}")) by (apply H; now left).
    assert (E : format_aux params (Some acc) (c :: n ++ "}"%char :: t) =
                format_aux params (Some (c :: acc)) (n ++ "}"%char :: t)).
    { all_ascii c; try reflexivity; exfalso; apply D; cbn; tauto. }
    cbn [app]. rewrite E, IH by (intros x X; apply H; now right).
    cbn [rev]. now rewrite <- app_assoc.
Qed.
Lemma field_value_hole params n : piece_ok (Hole n) ->
  field_value params n = match sget n params with Some v => Ok v | None => Err KeyError end.
Proof.
  intros [H1 (c & Hc & Hd)]. unfold field_value.
  assert (special_field n = false) as ->.
  { destruct (special_field n) eqn:E; auto. unfold special_field in E.
    apply existsb_exists in E as (x & Hx & E). apply existsb_exists in E as (y & Hy & E).
    apply Ascii.eqb_eq in E. subst y. exfalso. apply (H1 x Hy). cbn in Hx |- *. tauto. }
  assert (forallb is_digit n = false) as ->.
  { destruct (forallb is_digit n) eqn:E; auto. rewrite forallb_forall in E. specialize (E c Hc).
    exfalso. apply Hd. all_ascii c; try discriminate E; cbn; tauto. }
  reflexivity.
Qed.
Lemma format_hole params n t : piece_ok (Hole n) ->
  format_aux params None ("{"%char :: n ++ "}"%char :: t) =
  do v <- field_value params n; do r <- format_aux params None t; Ok (v ++ r).
Proof.
  intros H. pose proof (format_field params n [] t (proj1 H)) as F. cbn [rev app] in F. rewrite <- F.
  destruct H as [H1 (c & Hc & _)]. destruct n as [|x n]; [easy|].
  assert (x <> "{"%char). { intros ->. apply (H1 "{"%char); [now left|cbn; tauto]. }
  clear - H. all_ascii x; try reflexivity. now elim H.
Qed.
Lemma template_text s l : template (Text s :: l) = double_braces s ++ template l. Proof. reflexivity. Qed.
Lemma template_hole n l : template (Hole n :: l) = "{"%char :: n ++ "}"%char :: template l.
Proof. unfold template. cbn [flat_map app]. now rewrite <- app_assoc. Qed.
Lemma fill_text f s l : fill f (Text s :: l) = s ++ fill f l. Proof. reflexivity. Qed.
Lemma fill_hole f n l : fill f (Hole n :: l) = f n ++ fill f l. Proof. reflexivity. Qed.
Lemma format_ok params l f : Forall piece_ok l ->
  (forall n, In n (holes l) -> sget n params = Some (f n)) ->
  format (template l) params = Ok (fill f l).
Proof.
  unfold format. induction l as [|p l IH]; intros Hl Hp; [reflexivity|].
  inversion Hl as [|? ? H1 H2]; subst. specialize (IH H2).
  destruct p as [s|n].
  - rewrite template_text, fill_text. rewrite format_text.
    change (holes (Text s :: l)) with (holes l) in Hp. rewrite IH by auto. reflexivity.
  - rewrite template_hole, fill_hole.
    rewrite format_hole, field_value_hole, Hp by (auto; now left). cbn [bind].
    rewrite IH by (intros m Hm; apply Hp; now right). reflexivity.
Qed.
Lemma format_missing params l : Forall piece_ok l ->
  (exists n, In n (holes l) /\ sget n params = None) ->
  format (template l) params = Err KeyError.
Proof.
  unfold format. induction l as [|p l IH]; intros Hl (n & Hn & Hp); [easy|].
  inversion Hl as [|? ? H1 H2]; subst. specialize (IH H2).
  destruct p as [s|m].
  - rewrite template_text. rewrite format_text.
    rewrite IH; [reflexivity|]. exists n. auto.
  - rewrite template_hole. rewrite format_hole, field_value_hole by auto.
    destruct (sget m params) eqn:E; [|reflexivity]. cbn [bind].
    rewrite IH; [reflexivity|]. destruct Hn as [ <- |Hn]; [congruence|]. exists n. auto.
Qed.

(** Filling with encoded arguments adds none of the delimiters. *)
Lemma count_fill c f l : (forall n, In n (holes l) -> ~ In c (f n)) ->
  count_occ ascii_dec (fill f l) c = count_occ ascii_dec (fill (fun _ => []) l) c.
Proof.
  induction l as [|p l IH]; intros H; [reflexivity|].
  destruct p as [s|n].
  - rewrite !fill_text, !count_occ_app. f_equal. apply IH. exact H.
  - rewrite !fill_hole, !count_occ_app.
    assert (count_occ ascii_dec (f n) c = 0) as ->.
    { apply count_occ_not_In. apply H. now left. }
    apply IH. intros m Hm. apply H. now right.
Qed.
