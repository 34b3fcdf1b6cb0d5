(** Proofs about the JSON-pointer model. *)
From Verif Require Import PyBase PyFacts M_JsonPtr S_JsonPtr.
From Coq Require Import Lia.

Lemma replace_char s c rep :
  replace s [c] rep = flat_map (fun x => if Ascii.eqb c x then rep else [x]) s.
Proof.
  unfold replace. induction s as [|x s IH]; auto.
  cbn [replace_aux prefixb flat_map]. rewrite andb_true_r.
  destruct (Ascii.eqb c x); simpl; rewrite IH; auto.
Qed.

Lemma replace_two p q rep x y s :
  replace (x :: y :: s) [p; q] rep =
  if Ascii.eqb p x && Ascii.eqb q y then rep ++ replace s [p; q] rep
  else x :: replace (y :: s) [p; q] rep.
Proof.
  unfold replace. cbn [replace_aux prefixb length Nat.sub]. rewrite andb_true_r.
  destruct (Ascii.eqb p x && Ascii.eqb q y); reflexivity.
Qed.
Lemma replace_one p q rep x : replace [x] [p; q] rep = [x].
Proof. unfold replace. cbn. rewrite andb_false_r. reflexivity. Qed.
Lemma replace_skip p q rep x s :
  Ascii.eqb p x = false -> replace (x :: s) [p; q] rep = x :: replace s [p; q] rep.
Proof. intros H. unfold replace. cbn. now rewrite H. Qed.

Lemma jp_encode_rfc s : jp_encode s = rfc_escape s.
Proof.
  unfold jp_encode, rfc_escape.
  change (lit "~") with ["~"%char]. change (lit "/") with ["/"%char].
  rewrite !replace_char. induction s as [|x s IH]; auto.
  cbn [flat_map]. rewrite flat_map_app, IH. f_equal.
  unfold rfc_escape_char. rewrite (Ascii.eqb_sym x), (Ascii.eqb_sym x).
  destruct (Ascii.eqb "~" x) eqn:E; [reflexivity|].
  cbn [flat_map]. rewrite app_nil_r. destruct (Ascii.eqb "/" x); reflexivity.
Qed.

Lemma jp_decode_rfc s : jp_decode s = rfc_unescape s.
Proof.
  unfold jp_decode.
  change (lit "~1") with ["~";"1"]%char. change (lit "~0") with ["~";"0"]%char.
  change (lit "/") with ["/"%char]. change (lit "~") with ["~"%char].
  set (r1 := fun s => replace s ["~";"1"]%char ["/"%char]).
  set (r0 := fun s => replace s ["~";"0"]%char ["~"%char]).
  change (r0 (r1 s) = rfc_unescape s).
  remember (length s) as n eqn:Hn. assert (Hle : length s <= n) by lia. clear Hn.
  revert s Hle. induction n as [|n IH]; intros s Hle.
  - destruct s; [reflexivity|simpl in Hle; lia].
  - destruct s as [|x s]; [reflexivity|].
    cbn [rfc_unescape].
    destruct (Ascii.eqb_spec x "~") as [->|Hx].
    + destruct s as [|y s].
      { reflexivity. }
      assert (Ey : r1 ("~"%char :: y :: s) =
        if Ascii.eqb "1" y then "/"%char :: r1 s else "~"%char :: r1 (y :: s)).
      { unfold r1. rewrite replace_two, Ascii.eqb_refl. reflexivity. }
      destruct (Ascii.eqb_spec y "0") as [->|H0].
      * rewrite Ey. cbn [Ascii.eqb Bool.eqb]. 
        assert (E2 : r1 ("0"%char :: s) = "0"%char :: r1 s).
        { unfold r1. apply replace_skip. reflexivity. }
        change (r0 ("~"%char :: r1 ("0"%char :: s)) = "~"%char :: rfc_unescape s).
        rewrite E2. unfold r0. rewrite replace_two. cbn [Ascii.eqb Bool.eqb andb app].
        change (["~"%char] ++ r0 (r1 s) = "~"%char :: rfc_unescape s).
        rewrite IH by (simpl in Hle; lia). reflexivity.
      * destruct (Ascii.eqb_spec y "1") as [->|H1].
        -- rewrite Ey. change (r0 ("/"%char :: r1 s) = "/"%char :: rfc_unescape s).
           unfold r0. rewrite replace_skip by reflexivity.
           change ("/"%char :: r0 (r1 s) = "/"%char :: rfc_unescape s).
           rewrite IH by (simpl in Hle; lia). reflexivity.
        -- rewrite Ey. assert (Ascii.eqb "1" y = false) as ->.
           { destruct (Ascii.eqb_spec "1" y); congruence. }
           rewrite <- (IH (y :: s)) by (simpl in *; lia).
           assert (Hh : exists z t, r1 (y :: s) = z :: t /\ z <> "0"%char).
           { destruct s as [|y2 s].
             - exists y, []. split; auto. apply replace_one.
             - unfold r1. rewrite replace_two. destruct (_ && _).
               + eexists _, _. split; [reflexivity|]. discriminate.
               + eexists _, _. split; [reflexivity|]. auto. }
           destruct Hh as (z & t & -> & Hz). unfold r0. rewrite replace_two.
           assert (Ascii.eqb "0" z = false) as ->.
           { destruct (Ascii.eqb_spec "0" z); congruence. }
           reflexivity.
    + assert (E : r1 (x :: s) = x :: r1 s).
      { unfold r1. apply replace_skip. destruct (Ascii.eqb_spec "~" x); congruence. }
      rewrite E. unfold r0. rewrite replace_skip.
      2:{ destruct (Ascii.eqb_spec "~" x); congruence. }
      f_equal. apply IH. simpl in Hle. lia.
Qed.

Lemma rfc_unescape_escape s : rfc_unescape (rfc_escape s) = s.
Proof.
  induction s as [|x s IH]; auto.
  unfold rfc_escape in *. cbn [flat_map]. unfold rfc_escape_char at 1.
  destruct (Ascii.eqb_spec x "~") as [->|Hx].
  - cbn. now rewrite IH.
  - destruct (Ascii.eqb_spec x "/") as [->|Hy].
    + cbn. now rewrite IH.
    + cbn [app rfc_unescape]. destruct (Ascii.eqb_spec x "~"); [congruence|].
      now rewrite IH.
Qed.

Lemma rfc_escape_no_slash s : ~ In "/"%char (rfc_escape s).
Proof.
  unfold rfc_escape. rewrite in_flat_map. intros (x & _ & H).
  unfold rfc_escape_char in H.
  destruct (Ascii.eqb_spec x "~"); [simpl in H; intuition discriminate|].
  destruct (Ascii.eqb_spec x "/"); simpl in H; [intuition discriminate|].
  destruct H; congruence.
Qed.

Lemma join_slash_base b ts :
  join ["/"%char] (b :: ts) = b ++ flat_map (fun t => "/"%char :: t) ts.
Proof.
  revert b; induction ts as [|t ts IH]; intros b.
  - simpl. now rewrite app_nil_r.
  - rewrite join_cons, IH. reflexivity.
Qed.

Lemma flat_map_map {A B C} (f : A -> B) (g : B -> list C) l :
  flat_map g (map f l) = flat_map (fun x => g (f x)) l.
Proof. induction l; simpl; congruence. Qed.

Lemma compose_pointer_ok base ts :
  base <> [] -> jp_compose (JPList ts) (Some base) = Some (rfc_pointer base ts).
Proof.
  intros Hb. unfold jp_compose. destruct base as [|c base]; [easy|].
  cbn [nonempty]. f_equal. change (lit "/") with ["/"%char].
  rewrite join_slash_base, flat_map_map. unfold rfc_pointer. f_equal.
  apply flat_map_ext. intros t. now rewrite jp_encode_rfc.
Qed.

Lemma split_pointer base ts :
  split ["/"%char] (rfc_pointer base ts) =
  split ["/"%char] base ++ map rfc_escape ts.
Proof.
  unfold rfc_pointer. revert base. induction ts as [|t ts IH]; intros base.
  - simpl. now rewrite !app_nil_r.
  - cbn [flat_map map].
    replace (base ++ (("/"%char :: rfc_escape t) ++
               flat_map (fun t => "/"%char :: rfc_escape t) ts))
      with ((base ++ "/"%char :: rfc_escape t) ++
               flat_map (fun t => "/"%char :: rfc_escape t) ts)
      by (rewrite <- app_assoc; reflexivity).
    rewrite IH, split_char_app.
    assert (split ["/"%char] (rfc_escape t) = [rfc_escape t]) as ->.
    { unfold split. rewrite split_aux_no_occ; try easy.
      rewrite occurs_char. apply rfc_escape_no_slash. }
    now rewrite <- app_assoc.
Qed.

Lemma map_unescape ts : map jp_decode (map rfc_escape ts) = ts.
Proof.
  rewrite map_map. rewrite <- (map_id ts) at 2. apply map_ext.
  intros t. now rewrite jp_decode_rfc, rfc_unescape_escape.
Qed.

Lemma roundtrip_base base ts :
  base <> [] ->
  jp_split (jp_compose (JPList ts) (Some base)) = jp_split (Some base) ++ ts.
Proof.
  intros Hb. rewrite compose_pointer_ok by auto.
  unfold jp_split. change (lit "/") with ["/"%char].
  assert (Hn : exists c r, rfc_pointer base ts = c :: r).
  { unfold rfc_pointer. destruct base; [easy|]. simpl. eauto. }
  destruct Hn as (c & r & Hn). rewrite Hn.
  destruct base as [|b base]; [easy|].
  rewrite <- Hn, split_pointer, map_app, map_unescape. reflexivity.
Qed.

Lemma roundtrip_nobase ts :
  ts <> [[]] -> jp_split (jp_compose (JPList ts) None) = ts.
Proof.
  intros H. unfold jp_compose, jp_split. change (lit "/") with ["/"%char].
  destruct ts as [|t ts]; [reflexivity|].
  assert (E : map jp_decode (split ["/"%char] (join ["/"%char] (map jp_encode (t :: ts)))) = t :: ts).
  { rewrite split_char_join; try easy.
    - erewrite map_ext with (l := t :: ts); [|apply jp_encode_rfc]. apply map_unescape.
    - apply Forall_forall. intros x Hx. apply in_map_iff in Hx as (y & <- & _).
      rewrite jp_encode_rfc. apply rfc_escape_no_slash. }
  destruct (join ["/"%char] (map jp_encode (t :: ts))) as [|c r] eqn:J; [|exact E].
  exfalso. apply H. rewrite map_cons in J. destruct ts as [|t2 ts].
  - simpl in J. rewrite jp_encode_rfc in J. f_equal.
    rewrite <- (rfc_unescape_escape t), J. reflexivity.
  - rewrite map_cons, join_cons in J. apply app_eq_nil in J as [_ J]. discriminate.
Qed.

Lemma jp_split_pieces s raw :
  slash_pieces s raw -> s <> [] -> jp_split (Some s) = map rfc_unescape raw.
Proof.
  intros (Hn & Hf & ->) Hs. unfold jp_split.
  destruct (join "/"%string raw) eqn:E; [easy|]. rewrite <- E.
  change (lit "/") with ["/"%char] in *. rewrite split_char_join by auto.
  apply map_ext, jp_decode_rfc.
Qed.
Lemma slash_pieces_exist s : exists raw, slash_pieces s raw.
Proof.
  exists (split ["/"%char] s). repeat split.
  - apply split_nonempty.
  - apply split_char_no.
  - symmetry. now apply join_split.
Qed.

Lemma compose_injective base t1 t2 :
  base <> [] ->
  jp_compose (JPList t1) (Some base) = jp_compose (JPList t2) (Some base) -> t1 = t2.
Proof.
  intros Hb H. apply (f_equal jp_split) in H. rewrite !roundtrip_base in H by auto.
  now apply app_inv_head in H.
Qed.
Lemma compose_injective_nobase t1 t2 :
  t1 <> [[]] -> t2 <> [[]] ->
  jp_compose (JPList t1) None = jp_compose (JPList t2) None -> t1 = t2.
Proof.
  intros H1 H2 H. apply (f_equal jp_split) in H. now rewrite !roundtrip_nobase in H.
Qed.
(** A string argument is a one-token list. *)
Lemma compose_str s b : jp_compose (JPStr s) b = jp_compose (JPList [s]) b.
Proof. reflexivity. Qed.
Lemma compose_fold base ts :
  base <> [] ->
  jp_compose (JPList ts) (Some base) =
  fold_left (fun b t => jp_compose (JPStr t) b) ts (Some base).
Proof.
  intros Hb. rewrite compose_pointer_ok by auto. revert base Hb.
  induction ts as [|t ts IH]; intros base Hb; cbn [fold_left].
  - unfold rfc_pointer. simpl. now rewrite app_nil_r.
  - rewrite compose_str, compose_pointer_ok by auto. rewrite <- IH.
    + f_equal. unfold rfc_pointer. cbn [flat_map]. rewrite app_nil_r, <- app_assoc. auto.
    + unfold rfc_pointer. destruct base; easy.
Qed.
