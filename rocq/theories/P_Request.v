From Verif Require Import PyBase PyFacts M_Url M_Quote S_Quote P_Quote M_Client P_Client M_Request S_Request.
From Coq Require Import Lia.

(** * Multipart *)
Lemma app_cmp {A} (a : list A) : forall b c d, a ++ b = c ++ d ->
  (exists z, a = c ++ z) \/ (exists z, c = a ++ z).
Proof.
  induction a as [|x a IH]; intros b c d E; [right; now exists c|].
  destruct c as [|y c]; [left; now exists (x :: a)|]. cbn [app] in E. injection E as -> E.
  destruct (IH _ _ _ E) as [(z & ->)|(z & ->)]; [left|right]; now exists z.
Qed.
Lemma no_border c d p : ~ In c d -> ~ occurs (c :: d) p -> clean (c :: d) p.
Proof.
  intros Hd Ho a t E.
  (* compare a with p *)
  assert (C : (exists x, p = a ++ x) \/ (exists y, a = p ++ y /\ y <> [])).
  { clear - E. revert a E. induction p as [|x p IH]; intros a E.
    - destruct a as [|y a]; [left; now exists []|right; now exists (y :: a)].
    - destruct a as [|y a]; [left; now exists (x :: p)|]. cbn [app] in E. injection E as -> E.
      destruct (IH a E) as [(z & ->)|(z & -> & Hz)]; [left; now exists z|right; exists z; now split]. }
  destruct C as [(x & ->)|(y & -> & Hy)].
  - rewrite <- app_assoc in E. apply app_inv_head in E.
    (* x ++ D = D ++ t *)
    destruct x as [|x0 x].
    { cbn [app] in E. apply (f_equal (@length ascii)) in E. cbn [length] in E. rewrite app_length in E.
      destruct t; auto. cbn [length] in E. lia. }
    assert (S : (exists z, x = d ++ z) \/ (exists v, d = x ++ v)).
    { cbn [app] in E. injection E as -> E. eapply app_cmp; eauto. }
    cbn [app] in E. injection E as -> E.
    destruct S as [(z & ->)|(v & Hv)].
    + exfalso. apply Ho. exists a, z. cbn [app]. now rewrite <- ?app_assoc.
    + exfalso. rewrite Hv in E at 2. rewrite <- app_assoc in E. apply app_inv_head in E.
      destruct v as [|v0 v].
      * rewrite app_nil_r in Hv. subst x. apply Ho. exists a, []. now rewrite app_nil_r.
      * cbn [app] in E. injection E as -> E. apply Hd. rewrite Hv. apply in_app_iff. right. now left.
  - rewrite <- app_assoc in E. apply app_inv_head in E.
    apply (f_equal (@length ascii)) in E. rewrite !app_length in E. destruct t; auto. cbn [length] in E.
    destruct y; [easy|]. cbn [length] in E. lia.
Qed.

Lemma occurs_skip c d x y : ~ In c x -> occurs (c :: d) (x ++ y) -> occurs (c :: d) y.
Proof.
  induction x as [|e x IH]; intros H O; auto.
  apply IH; [intros X; apply H; now right|]. destruct O as (a & b & E). destruct a as [|a0 a].
  - cbn [app] in E. injection E as E1 E2. exfalso. apply H. now left.
  - cbn [app] in E. injection E as -> E. now exists a, b.
Qed.
Lemma occurs_at c d y : occurs (c :: d) (c :: y) -> prefixb d y = true \/ occurs (c :: d) y.
Proof.
  intros (a & b & E). destruct a as [|a0 a].
  - left. cbn [app] in E. injection E as ->. apply prefixb_app.
  - right. cbn [app] in E. injection E as E0 E. now exists a, b.
Qed.
Definition delim (b : str) : str := CRLF ++ lit "--" ++ b.
Lemma occurs_crlf b y : occurs (delim b) (CRLF ++ y) -> prefixb (lit "--" ++ b) y = true \/ occurs (delim b) y.
Proof.
  unfold delim, CRLF. cbn [app]. intros O. apply occurs_at in O as [O|O].
  - left. cbn [prefixb] in O. rewrite Ascii.eqb_refl in O. exact O.
  - right. apply (occurs_skip _ _ [LF]) in O; auto. cbn. intros [H|[]]. discriminate H.
Qed.
(** header block: each line followed by CRLF, lines do not start with a dash *)
Definition good_line (l : str) : Prop :=
  ~ In CR l /\ match l with c :: _ => c <> "-"%char | [] => False end.
Definition block (ls : list str) : str := flat_map (fun l => l ++ CRLF) ls.
Lemma occurs_block b ls y : Forall good_line ls ->
  occurs (delim b) (CRLF ++ block ls ++ y) -> occurs (delim b) (CRLF ++ y).
Proof.
  induction 1 as [|l ls [H1 H2] H IH]; auto.
  intros O. apply IH. cbn [block flat_map] in O. rewrite <- !app_assoc in O.
  apply occurs_crlf in O as [O|O].
  - destruct l as [|c l]; [easy|]. cbn [app] in O. change (lit "--" ++ b) with ("-"%char :: "-"%char :: b) in O.
    cbn [prefixb] in O. apply andb_true_iff in O as [O _]. apply Ascii.eqb_eq in O. now elim H2.
  - unfold delim, CRLF in O. cbn [app] in O. apply occurs_skip in O; auto.
Qed.
Definition raw_part (ls : list str) (content : str) : str := CRLF ++ block ls ++ CRLF ++ content.
Lemma occurs_raw b ls c : Forall good_line ls -> ~ occurs (lit "--" ++ b) c -> ~ occurs (delim b) (raw_part ls c).
Proof.
  intros H N O. unfold raw_part in O. apply occurs_block in O; auto.
  apply occurs_crlf in O as [O|O].
  { change (lit "--" ++ b) with ("-"%char :: "-"%char :: b) in O. discriminate O. }
  apply occurs_crlf in O as [O|O].
  - apply N. apply prefixb_spec in O as (t & ->). now exists [], t.
  - apply N. destruct O as (x & y & ->). exists (x ++ CRLF), y. unfold delim. now rewrite <- !app_assoc.
Qed.
Lemma read_lines_line l y cur : ~ In CR l -> cur <> [] \/ l <> [] ->
  read_lines cur (l ++ CRLF ++ y) =
  match read_lines [] y with Some (ls, rest) => Some ((rev cur ++ l) :: ls, rest) | None => None end.
Proof.
  revert cur. induction l as [|c l IH]; intros cur H N.
  - cbn [app CRLF]. change (read_lines cur (CR :: LF :: y)) with
      (match cur with [] => Some ([], y) | _ => match read_lines [] y with
         Some (ls, rest) => Some (rev cur :: ls, rest) | None => None end end).
    destruct cur; [destruct N; easy|]. now rewrite app_nil_r.
  - cbn [app read_lines]. destruct (Ascii.eqb_spec c "013") as [E|E].
    { exfalso. apply H. left. exact E. }
    rewrite IH.
    + cbn [rev]. now rewrite <- app_assoc.
    + intros X. apply H. now right.
    + left. discriminate.
Qed.
Lemma read_lines_block ls c : Forall good_line ls -> read_lines [] (block ls ++ CRLF ++ c) = Some (ls, c).
Proof.
  induction 1 as [|l ls [H1 H2] H IH]; [reflexivity|].
  cbn [block flat_map]. rewrite <- !app_assoc. rewrite read_lines_line; auto.
  - change (flat_map _ ls) with (block ls). now rewrite IH.
  - right. destruct l; easy.
Qed.

(** utf8 keeps ASCII characters apart *)
Lemma utf8_In c s : nat_of_ascii c < 128 -> In c (utf8 s) -> In c s.
Proof.
  intros Hc H. unfold utf8 in H. apply in_flat_map in H as (x & Hx & H).
  assert (c = x); [|now subst].
  unfold utf8_char in H. destruct (nat_of_ascii x <? 128) eqn:E.
  - destruct H as [H|[]]; auto.
  - exfalso.
    assert (L : nat_of_ascii x < 256) by (all_ascii x; cbn; lia).
    apply Nat.ltb_ge in E.
    destruct H as [H|[H|[]]]; subst c; rewrite nat_ascii_embedding in Hc.
    + lia.
    + apply Nat.lt_le_trans with (192 + 4); [|lia]. apply Nat.add_lt_mono_l. apply Nat.div_lt_upper_bound; lia.
    + lia.
    + pose proof (Nat.mod_upper_bound (nat_of_ascii x) 64). lia.
Qed.
Lemma utf8_no_CR s : ~ In CR s -> ~ In CR (utf8 s).
Proof. intros H X. apply H. apply utf8_In; auto. cbn. lia. Qed.
Lemma utf8_cons_ascii c s : nat_of_ascii c < 128 -> utf8 (c :: s) = c :: utf8 s.
Proof.
  intros H. unfold utf8. cbn [flat_map]. unfold utf8_char. apply Nat.ltb_lt in H. now rewrite H.
Qed.
Lemma upto_app c a b : ~ In c a -> upto c (a ++ c :: b) = Some (a, b).
Proof.
  induction a as [|x a IH]; intros H; cbn [app upto].
  - now rewrite Ascii.eqb_refl.
  - destruct (Ascii.eqb_spec x c) as [->|]; [exfalso; apply H; now left|].
    rewrite IH; auto. intros X. apply H. now right.
Qed.
Lemma strip_prefix_app p s : strip_prefix p (p ++ s) = Some s.
Proof. unfold strip_prefix. rewrite prefixb_app. now rewrite skipn_app, skipn_all, Nat.sub_diag. Qed.

Definition header_line (n v : str) : str := utf8 (n ++ lit ": " ++ v).
Lemma read_header_line n v : ~ In ":"%char n -> read_header (header_line n v) = Some (n, v).
Proof.
  intros H. unfold read_header, header_line. rewrite utf8_round.
  change (lit ": " ++ v) with (":"%char :: " "%char :: v). now rewrite upto_app.
Qed.
Lemma good_header n v : ~ In CR n -> ~ In CR v ->
  match n with c :: _ => c <> "-"%char /\ nat_of_ascii c < 128 | [] => False end ->
  good_line (header_line n v).
Proof.
  intros H1 H2 H3. split.
  - apply utf8_no_CR. rewrite !in_app_iff. intros [H|[H|H]]; auto. cbn in H. intuition discriminate.
  - unfold header_line. destruct n as [|c n]; [easy|]. destruct H3 as [H3 H4].
    change ((c :: n) ++ lit ": " ++ v) with (c :: (n ++ lit ": " ++ v)).
    rewrite utf8_cons_ascii by auto. exact H3.
Qed.
Lemma read_raw name fname ls0 hs c :
  Forall good_line (ls0) ->
  (exists v, all_some (map read_header ls0) = Some ((lit "Content-Disposition", v) :: hs) /\
             read_disposition v = Some (name, fname)) ->
  read_part (raw_part ls0 c) = Some (Part name fname hs c).
Proof.
  intros H (v & E & D). unfold raw_part, CRLF, CR, LF. cbn [app]. unfold read_part.
  change ["013"%char; "010"%char] with CRLF.
  change ("013"%char :: "010"%char :: c) with (CRLF ++ c).
  rewrite read_lines_block by auto. rewrite E. rewrite str_eqb_refl. now rewrite D.
Qed.
Lemma disp_field k : quotable k ->
  read_disposition (lit "form-data; name=" ++ quoted k) = Some (k, None).
Proof.
  intros [H _]. unfold read_disposition, quoted, DQ.
  replace (lit "form-data; name=" ++ """"%char :: k ++ [""""%char]) with
    ((lit "form-data; name=" ++ [""""%char]) ++ k ++ [""""%char]) by now rewrite <- app_assoc.
  rewrite strip_prefix_app. change (k ++ [""""%char]) with (k ++ """"%char :: []). now rewrite upto_app.
Qed.
Lemma disp_file k f : quotable k -> quotable f ->
  read_disposition (lit "form-data; name=" ++ quoted k ++ lit "; filename=" ++ quoted f) = Some (k, Some f).
Proof.
  intros [H _] [H' _]. unfold read_disposition, quoted, DQ.
  replace (lit "form-data; name=" ++ (""""%char :: k ++ [""""%char]) ++ lit "; filename=" ++ """"%char :: f ++ [""""%char]) with
    ((lit "form-data; name=" ++ [""""%char]) ++ k ++ """"%char :: lit "; filename=" ++ """"%char :: f ++ [""""%char])
    by (rewrite <- !app_assoc; cbn [app]; rewrite <- !app_assoc; reflexivity).
  rewrite strip_prefix_app, upto_app by auto.
  replace (lit "; filename=" ++ """"%char :: f ++ [""""%char]) with
    ((lit "; filename=" ++ [""""%char]) ++ f ++ [""""%char]) by now rewrite <- app_assoc.
  change (match (lit "; filename=" ++ [""""%char]) ++ f ++ [""""%char] with
          | [] => Some (k, None)
          | _ :: _ => match strip_prefix (lit "; filename=" ++ [""""%char]) ((lit "; filename=" ++ [""""%char]) ++ f ++ [""""%char]) with
                      | Some v => match upto """" v with Some (fn, []) => Some (k, Some fn) | _ => None end
                      | None => None end end = Some (k, Some f)).
  rewrite strip_prefix_app. change (f ++ [""""%char]) with (f ++ """"%char :: []). rewrite upto_app by auto. reflexivity.
Qed.

(** header lines of a field and of a file *)
Definition field_lines (k : str) : list str :=
  [header_line (lit "Content-Disposition") (lit "form-data; name=" ++ quoted k)].
Definition file_lines (k : str) (f : file) : list str :=
  header_line (lit "Content-Disposition")
    (lit "form-data; name=" ++ quoted k ++ lit "; filename=" ++ quoted (f_name f)) ::
  map (fun kv => header_line (fst kv) (snd kv)) (sent_headers f).
Lemma field_part_raw b kv : field_part b kv =
  lit "--" ++ b ++ raw_part (field_lines (fst kv)) (utf8 (snd kv)) ++ CRLF.
Proof.
  unfold field_part, raw_part, field_lines, block, header_line. cbn [flat_map]. rewrite <- !app_assoc.
  reflexivity.
Qed.
Lemma file_part_raw b k f c : file_part b k f c =
  lit "--" ++ b ++ raw_part (file_lines k f) c ++ CRLF.
Proof.
  unfold file_part, raw_part, file_lines, sent_headers, opt_header. unfold block, header_line.
  cbn [flat_map].
  destruct (sget "Content-Type"%string (f_header f)), (sget "Content-Transfer-Encoding"%string (f_header f));
    cbn [app map flat_map fst snd]; rewrite <- ?app_assoc; reflexivity.
Qed.
Lemma quoted_no_CR k : ~ In CR k -> ~ In CR (quoted k).
Proof.
  unfold quoted. intros H [X|X]; [discriminate|]. apply in_app_iff in X as [X|[X|[]]]; auto. discriminate.
Qed.
Ltac in_lit X := cbn in X; repeat (destruct X as [X|X]; [discriminate X|]); exact X.
Lemma field_lines_good k : quotable k -> Forall good_line (field_lines k).
Proof.
  intros [_ H]. constructor; [|constructor]. apply good_header.
  - intros X. in_lit X.
  - rewrite in_app_iff. intros [X|X]; [in_lit X|]. now apply quoted_no_CR in X.
  - split; [discriminate|cbn; lia].
Qed.
Lemma file_lines_good k f : quotable k -> quotable (f_name f) ->
  (forall n v, In (n, v) (sent_headers f) -> one_line v) -> Forall good_line (file_lines k f).
Proof.
  intros [_ H1] [_ H2] H3. constructor.
  - apply good_header.
    + intros X. in_lit X.
    + rewrite !in_app_iff. intros [X|[X|[X|X]]]; [in_lit X| |in_lit X|].
      * now apply quoted_no_CR in X.
      * now apply quoted_no_CR in X.
    + split; [discriminate|cbn; lia].
  - apply Forall_forall. intros l Hl. apply in_map_iff in Hl as ([n v] & <- & Hl).
    pose proof (H3 n v Hl) as Hv. unfold sent_headers in Hl. apply in_flat_map in Hl as (k' & Hk & Hl).
    destruct (sget k' (f_header f)); [|easy]. destruct Hl as [Hl|[]]. injection Hl as -> ->. cbn [fst snd].
    apply good_header; auto.
    + destruct Hk as [<-|[<-|[]]]; intros X; in_lit X.
    + destruct Hk as [<-|[<-|[]]]; (split; [discriminate|cbn; lia]).
Qed.
Lemma all_some_map {A C} (f : A -> option C) g l : (forall x, In x l -> f x = Some (g x)) ->
  all_some (map f l) = Some (map g l).
Proof.
  induction l as [|x l IH]; intros H; [reflexivity|]. cbn [map all_some]. rewrite (H x) by now left.
  rewrite IH; auto. intros y Hy. apply H. now right.
Qed.
Lemma read_field k c : quotable k -> read_part (raw_part (field_lines k) c) = Some (Part k None [] c).
Proof.
  intros H. apply read_raw; [now apply field_lines_good|].
  eexists. split; [|now apply disp_field].
  cbn [field_lines map]. rewrite read_header_line; [reflexivity|]. intros X. in_lit X.
Qed.
Lemma read_file_part k f c : quotable k -> quotable (f_name f) ->
  (forall n v, In (n, v) (sent_headers f) -> one_line v) ->
  read_part (raw_part (file_lines k f) c) = Some (Part k (Some (f_name f)) (sent_headers f) c).
Proof.
  intros H1 H2 H3. apply read_raw; [now apply file_lines_good|].
  eexists. split; [|now apply disp_file].
  unfold file_lines. cbn [map]. rewrite read_header_line; [|intros X; in_lit X].
  rewrite map_map. cbn [all_some].
  rewrite (all_some_map _ (fun kv => kv)); [now rewrite map_id|].
  intros [n v] Hl. cbn [fst snd]. apply read_header_line.
  unfold sent_headers in Hl. apply in_flat_map in Hl as (k' & Hk & Hl).
  destruct (sget k' (f_header f)); [|easy]. destruct Hl as [Hl|[]]. injection Hl as -> ->.
  destruct Hk as [<-|[<-|[]]]; intros X; in_lit X.
Qed.

(** a body made of raw parts *)
Definition raw_body (b : str) (ps : list str) : str :=
  flat_map (fun p => lit "--" ++ b ++ p ++ CRLF) ps ++ lit "--" ++ b ++ lit "--" ++ CRLF.
Lemma raw_body_join b ps :
  CRLF ++ raw_body b ps = join (delim b) (([] :: ps) ++ [lit "--" ++ CRLF]).
Proof.
  assert (H : forall ps, raw_body b ps = lit "--" ++ b ++ join (delim b) (ps ++ [lit "--" ++ CRLF])).
  { clear ps. induction ps as [|p ps IH]; [reflexivity|].
    unfold raw_body in *. cbn [flat_map]. rewrite <- !app_assoc. do 2 f_equal.
    rewrite IH. cbn [app].
    assert (E : exists y t, ps ++ [lit "--" ++ CRLF] = y :: t) by (destruct ps; cbn [app]; eauto).
    destruct E as (y & t & ->). rewrite join_cons. unfold delim. now rewrite <- !app_assoc. }
  rewrite H. change (([] :: ps) ++ [lit "--" ++ CRLF]) with ([] :: (ps ++ [lit "--" ++ CRLF])).
  remember (ps ++ [lit "--" ++ CRLF]) as L eqn:E. destruct L as [|y t].
  { destruct ps; discriminate. }
  rewrite join_cons. reflexivity.
Qed.
Lemma delim_form b : delim b = CR :: (LF :: lit "--" ++ b). Proof. reflexivity. Qed.
Lemma read_raw_body b ps parts : ~ In CR b ->
  Forall (fun p => ~ occurs (delim b) p) ps ->
  all_some (map read_part ps) = Some parts ->
  read_multipart b (raw_body b ps) = Some parts.
Proof.
  intros Hb Hp E. unfold read_multipart. change ["013"%char; "010"%char] with CRLF.
  change (CRLF ++ lit "--" ++ b) with (delim b). rewrite raw_body_join.
  assert (Hd : ~ In CR (LF :: lit "--" ++ b)).
  { intros [X|X]; [discriminate|]. apply in_app_iff in X as [X|X]; auto. in_lit X. }
  rewrite split_join.
  - cbn [app]. rewrite rev_app_distr. cbn [rev app]. rewrite str_eqb_refl, rev_involutive. exact E.
  - discriminate.
  - rewrite delim_form. constructor.
    + apply no_border; auto. intros (x & y & X). destruct x; discriminate.
    + eapply Forall_impl; [|exact Hp]. intros p H. now apply no_border.
  - rewrite delim_form. intros O. change (lit "--" ++ CRLF) with (["-"%char; "-"%char] ++ CRLF) in O.
    apply occurs_skip in O; [|intros X; in_lit X].
    unfold CRLF in O. apply occurs_at in O as [O|O].
    + destruct b; discriminate O.
    + apply (occurs_skip _ _ [LF] []) in O; [|intros X; in_lit X].
      destruct O as ([|] & ? & O); discriminate.
Qed.

Section Mp.
Context (disk : str -> res str).
Notation add_files := (add_files disk). Notation add_groups := (add_groups disk).
Notation read_file := (read_file disk).

Lemma read_file_bytes f f' c : read_file f = (f', Ok c) -> file_bytes disk f c.
Proof.
  unfold M_Request.read_file, file_bytes. destruct (f_data f) as [|rest []].
  - intros [= _ H]. exact H.
  - intros [= _ <-]. apply utf8_round.
  - intros [= _ <-]. reflexivity.
Qed.
Lemma add_files_ok b name l : forall l' body, add_files b name l = (l', Ok body) ->
  exists cs, Forall2 (fun f c => file_bytes disk f c) l cs /\
    body = flat_map (fun fc => file_part b name (fst fc) (snd fc)) (combine l cs).
Proof.
  induction l as [|f l IH]; intros l' body H; cbn [M_Request.add_files] in H.
  - injection H as <- <-. exists []. split; [constructor|reflexivity].
  - destruct (read_file f) as [f' [c|]] eqn:R; [|discriminate].
    destruct (add_files b name l) as [l2 [x|]] eqn:A; cbn [bind] in H; [|discriminate].
    injection H as <- <-. destruct (IH _ _ eq_refl) as (cs & F & ->).
    exists (c :: cs). split; [|reflexivity]. constructor; auto. eapply read_file_bytes; eauto.
Qed.
Lemma add_groups_ok b d : forall d' body, add_groups b d = (d', Ok body) ->
  exists cs, Forall2 (fun kf c => file_bytes disk (snd kf) c) (all_files d) cs /\
    body = flat_map (fun fc => file_part b (fst (fst fc)) (snd (fst fc)) (snd fc)) (combine (all_files d) cs).
Proof.
  induction d as [|[name l] d IH]; intros d' body H; cbn [M_Request.add_groups] in H.
  - injection H as <- <-. exists []. split; [constructor|reflexivity].
  - destruct (add_files b name l) as [l' [c|]] eqn:A; [|discriminate].
    destruct (add_groups b d) as [d2 [x|]] eqn:G; cbn [bind] in H; [|discriminate].
    injection H as <- <-. destruct (IH _ _ eq_refl) as (cs & F & ->).
    apply add_files_ok in A as (cl & Fl & ->).
    exists (cl ++ cs). unfold all_files. cbn [flat_map fst snd].
    change (flat_map _ d) with (all_files d).
    assert (L : length l = length cl) by (clear - Fl; induction Fl; cbn [length]; congruence).
    split.
    + apply Forall2_app; auto. clear - Fl. induction Fl; constructor; auto.
    + assert (Cb : combine (map (fun f => (name, f)) l ++ all_files d) (cl ++ cs) =
                combine (map (fun f => (name, f)) l) cl ++ combine (all_files d) cs).
      { clear - L. revert cl L. induction l as [|f l IH]; intros [|c cl] L; try discriminate; [reflexivity|].
        cbn [map app combine]. f_equal. apply IH. now injection L. }
      rewrite Cb, flat_map_app. f_equal. clear - L. revert cl L.
      induction l as [|f l IH]; intros [|c cl] L; try discriminate; [reflexivity|].
      cbn [map combine flat_map fst snd]. f_equal. apply IH. now injection L.
Qed.
End Mp.

Lemma Ok_inj {A} (a b : A) : Ok a = Ok b -> a = b.
Proof. intros [= ->]. reflexivity. Qed.
Section Mp2.
Context {B : Type} (disk : str -> res str).

(** What the multipart body is read back as. *)
Lemma multipart_read b (p : params (B:=B)) fs body :
  multipart disk b p = (fs, Ok body) ->
  ~ In CR b ->
  (forall k v, In (k, v) (p_form p) -> quotable k /\ ~ occurs (lit "--" ++ b) (utf8 v)) ->
  (forall k f, In (k, f) (all_files (p_file p)) -> quotable k /\ quotable (f_name f) /\
     (forall n v, In (n, v) (sent_headers f) -> one_line v) /\
     (forall c, file_bytes disk f c -> ~ occurs (lit "--" ++ b) c)) ->
  exists fparts flparts,
    read_multipart b body = Some (fparts ++ flparts) /\
    Forall2 field_as_part (p_form p) fparts /\
    Forall2 (file_as_part disk) (all_files (p_file p)) flparts.
Proof.
  intros H Hb Hf Hl. unfold multipart in H.
  destruct (add_groups disk b (p_file p)) as [d [c|]] eqn:G; cbn [bind] in H; [|discriminate].
  apply (f_equal snd) in H. cbn [snd] in H. apply Ok_inj in H. subst body.
  apply add_groups_ok in G as (cs & F & ->).
  set (fraw := map (fun kv => raw_part (field_lines (fst kv)) (utf8 (snd kv))) (p_form p)).
  set (lraw := map (fun fc => raw_part (file_lines (fst (fst fc)) (snd (fst fc))) (snd fc))
                   (combine (all_files (p_file p)) cs)).
  exists (map (fun kv => Part (fst kv) None [] (utf8 (snd kv))) (p_form p)).
  exists (map (fun fc => Part (fst (fst fc)) (Some (f_name (snd (fst fc)))) (sent_headers (snd (fst fc))) (snd fc))
              (combine (all_files (p_file p)) cs)).
  assert (Hc : forall fc, In fc (combine (all_files (p_file p)) cs) ->
     In (fst fc) (all_files (p_file p)) /\ file_bytes disk (snd (fst fc)) (snd fc)).
  { clear - F. intros fc. induction F as [|x y l l' Hxy F IH]; [easy|]. intros [ <- |Hi].
    - split; [now left|exact Hxy].
    - destruct (IH Hi). split; auto. now right. }
  split; [|split].
  - replace (flat_map (field_part b) (p_form p) ++
        flat_map (fun fc => file_part b (fst (fst fc)) (snd (fst fc)) (snd fc)) (combine (all_files (p_file p)) cs) ++
        lit "--" ++ b ++ lit "--" ++ CRLF) with (raw_body b (fraw ++ lraw)).
    2:{ unfold raw_body. rewrite flat_map_app, <- app_assoc. f_equal; [|f_equal].
        - unfold fraw. rewrite flat_map_concat_map, map_map, flat_map_concat_map. f_equal.
          apply map_ext. intros kv. symmetry. apply field_part_raw.
        - unfold lraw. rewrite flat_map_concat_map, map_map, flat_map_concat_map. f_equal.
          apply map_ext. intros kv. symmetry. apply file_part_raw. }
    apply read_raw_body; auto.
    + apply Forall_app. split; apply Forall_forall; intros x Hx.
      * apply in_map_iff in Hx as ([k v] & <- & Hx). apply Hf in Hx as [Q O]. cbn [fst snd].
        apply occurs_raw; auto. now apply field_lines_good.
      * apply in_map_iff in Hx as ([[k f] c] & <- & Hx). apply Hc in Hx as [Hx Hb2]. cbn [fst snd] in *.
        apply Hl in Hx as (Q1 & Q2 & Q3 & Q4). apply occurs_raw; auto. now apply file_lines_good.
    + rewrite map_app. unfold fraw, lraw. rewrite !map_map.
      assert (A : forall X (l1 l2 : list (option X)) a c, all_some l1 = Some a -> all_some l2 = Some c ->
        all_some (l1 ++ l2) = Some (a ++ c)).
      { induction l1 as [|[x|] l1 IH]; intros l2 a c; cbn [all_some app]; try discriminate.
        - intros [= <-]. auto.
        - destruct (all_some l1) eqn:E; [|discriminate]. intros [= <-] Hr. rewrite (IH _ _ _ eq_refl Hr). reflexivity. }
      apply A; apply all_some_map.
      * intros [k v] Hx. cbn [fst snd]. apply read_field. now apply Hf in Hx as [Q _].
      * intros [[k f] c] Hx. apply Hc in Hx as [Hx _]. cbn [fst snd] in *.
        apply Hl in Hx as (Q1 & Q2 & Q3 & _). now apply read_file_part.
  - clear. induction (p_form p) as [|[k v] l IH]; constructor; auto. constructor. apply utf8_round.
  - clear - F. induction F as [|[k f] c l l' Hx F IH]; constructor; auto. constructor. exact Hx.
Qed.
End Mp2.

(** * reset / prepare *)
Section Frame.
Context {B : Type} (marshal : str -> B -> res str) (disk : str -> res str).
Notation request := (request (B:=B)).

Section R.
Context (R : sdict (list file) -> sdict (list file) -> Prop).
Context (Rrefl : forall d, R d d) (Rtrans : forall a b c, R a b -> R b c -> R a c).
Definition pkeeps (p p' : params (B:=B)) : Prop :=
  p_header p' = p_header p /\ p_query p' = p_query p /\ p_path p' = p_path p /\
  p_body p' = p_body p /\ p_form p' = p_form p /\ R (p_file p) (p_file p').
Definition keeps (r r' : request) : Prop :=
  r_op r' = r_op r /\ r_consume r' = r_consume r /\ r_produce r' = r_produce r /\
  r_scheme r' = r_scheme r /\ pkeeps (r_p r) (r_p r').
Lemma keeps_refl r : keeps r r.
Proof. repeat split; auto. Qed.
Lemma keeps_trans a b c : keeps a b -> keeps b c -> keeps a c.
Proof.
  intros (H1 & H2 & H3 & H4 & H5) (G1 & G2 & G3 & G4 & G5).
  destruct H5 as (? & ? & ? & ? & ? & ?), G5 as (? & ? & ? & ? & ? & ?).
  repeat split; try congruence. eauto.
Qed.
Definition frame {A} (m : run A) : Prop := forall r, keeps r (fst (m r)).
Lemma frame_bind {A C} (m : run A) (f : A -> run C) : frame m -> (forall a, frame (f a)) -> frame (rbind m f).
Proof.
  intros H1 H2 r. unfold rbind. specialize (H1 r). destruct (m r) as [r' [a|e]]; cbn [fst] in *; auto.
  eapply keeps_trans; eauto. apply H2.
Qed.
Lemma frame_ret {A} (a : A) : frame (ret a). Proof. intros r. apply keeps_refl. Qed.
Lemma frame_lift {A} (a : res A) : frame (lift a). Proof. intros r. apply keeps_refl. Qed.
Lemma frame_gets {A} (f : request -> A) : frame (gets f). Proof. intros r. apply keeps_refl. Qed.
Lemma frame_url u : frame (modify (set_url u)). Proof. intros r. repeat split; auto; apply Rrefl. Qed.
Lemma frame_path u : frame (modify (set_path u)). Proof. intros r. repeat split; auto; apply Rrefl. Qed.
Lemma frame_data u : frame (modify (set_data u)). Proof. intros r. repeat split; auto; apply Rrefl. Qed.
Lemma frame_header f : frame (modify (fun r : request => set_header (f r) r)). Proof. intros r. repeat split; auto; apply Rrefl. Qed.
Lemma frame_cond (ct : option str) (f : ascii -> str -> request -> cid cred) :
  frame (modify (fun r => match ct with Some (c :: s) => set_header (f c s r) r | _ => r end)).
Proof. intros r. destruct ct as [[|? ?]|]; repeat split; auto; apply Rrefl. Qed.
Ltac frames := repeat first
  [ apply frame_bind; intros | apply frame_ret | apply frame_lift | apply frame_gets | apply frame_url
  | apply frame_path | apply frame_data | apply frame_header | apply frame_cond ].
Lemma frame_forms : frame prepare_forms. Proof. unfold prepare_forms. frames. Qed.
Lemma frame_body : frame (prepare_body marshal).
Proof.
  unfold prepare_body. frames. destruct (find _ _); [|frames]. destruct (negb _); [frames|].
  destruct (sget _ _); frames.
Qed.
Lemma frame_accept : frame prepare_accept.
Proof.
  unfold prepare_accept. frames. destruct (accept_type a) as [[|c s]|]; frames.
  destruct (_ && _); frames.
Qed.
Lemma frame_files b : (forall p : params (B:=B), R (p_file p) (fst (multipart disk b p))) ->
  frame (prepare_files disk b).
Proof.
  intros H r. unfold prepare_files, rbind, gets, id, lift.
  destruct (check_consumes _ _); [|apply keeps_refl].
  specialize (H (r_p r)). destruct (multipart disk b (r_p r)) as [fs c]. cbn [fst] in H.
  unfold modify. destruct c; cbn [fst snd]; unfold set_data, set_p, set_file, keeps, pkeeps; cbn;
    repeat split; auto.
Qed.
Lemma frame_prepare_data b h :
  (h = true -> forall p : params (B:=B), R (p_file p) (fst (multipart disk b p))) ->
  frame (prepare_data marshal disk b h).
Proof.
  intros H. unfold prepare_data. apply frame_bind; [apply frame_gets|intros r].
  destruct (nonempty (p_file _)).
  - destruct h.
    + apply frame_bind; [now apply frame_files, H|]. intros. apply frame_ret.
    + frames.
  - destruct (nonempty (p_form _)).
    + apply frame_bind; [apply frame_forms|]. intros. apply frame_ret.
    + destruct (nonempty (p_body _)); [apply frame_body|frames].
Qed.
Lemma frame_prepare b s h :
  (h = true -> forall p : params (B:=B), R (p_file p) (fst (multipart disk b p))) ->
  frame (prepare marshal disk b s h).
Proof.
  intros H. unfold prepare.
  repeat first [apply frame_accept | apply frame_prepare_data; exact H | apply frame_bind; intros | apply frame_lift
    | apply frame_gets | apply frame_url | apply frame_path | apply frame_header | apply frame_cond ].
Qed.
Lemma frame_patch n s : frame (patch n s).
Proof. unfold patch. destruct (_ || _); frames. Qed.
End R.

(** equality as R *)
Lemma keeps_eq r r' : keeps eq r r' -> reset r' = reset r.
Proof.
  intros (H1 & H2 & H3 & H4 & H5 & H6 & H7 & H8 & H9 & H10). unfold reset.
  assert (r_p r' = r_p r) as ->.
  { destruct (r_p r), (r_p r'); cbn in *. congruence. }
  congruence.
Qed.

(** files *)
Lemma file_like_refl f : file_like f f. Proof. repeat split; auto. Qed.
Lemma Forall2_refl' {A} (P : A -> A -> Prop) l : (forall x, P x x) -> Forall2 P l l.
Proof. intros H. induction l; constructor; auto. Qed.
Lemma files_like_refl d : files_like d d.
Proof. apply Forall2_refl'. intros g. split; auto. apply Forall2_refl', file_like_refl. Qed.
Lemma file_like_trans a b c : file_like a b -> file_like b c -> file_like a c.
Proof.
  intros (H1 & H2 & H3) (G1 & G2 & G3). split; [congruence|]. split; [congruence|].
  destruct H3 as [H3|(x & y & t & H3 & H4)], G3 as [G3|(x' & y' & t' & G3 & G4)].
  - left. congruence.
  - right. exists x', y', t'. split; congruence.
  - right. exists x, y, t. split; congruence.
  - right. exists x, y', t. split; auto. congruence.
Qed.
Lemma Forall2_trans' {A} (P : A -> A -> Prop) (H : forall a b c, P a b -> P b c -> P a c) :
  forall a b c, Forall2 P a b -> Forall2 P b c -> Forall2 P a c.
Proof.
  intros a b c F. revert c. induction F; intros c G; inversion G; subst; constructor; eauto.
Qed.
Lemma files_like_trans a b c : files_like a b -> files_like b c -> files_like a c.
Proof.
  apply Forall2_trans'. intros x y z [H1 H2] [G1 G2]. split; [congruence|].
  eapply Forall2_trans'; eauto. apply file_like_trans.
Qed.
Lemma read_file_like f : file_like f (fst (read_file disk f)).
Proof.
  unfold read_file. destruct (f_data f) as [|rest t] eqn:E.
  - apply file_like_refl.
  - repeat split; auto. right. exists rest, [], t. auto.
Qed.
Lemma add_files_like b n l : Forall2 file_like l (fst (add_files disk b n l)).
Proof.
  induction l as [|f l IH]; cbn [add_files]; [constructor|].
  pose proof (read_file_like f) as F. destruct (read_file disk f) as [f' [c|e]]; cbn [fst] in *.
  - destruct (add_files disk b n l) as [l2 r]. cbn [fst] in *. constructor; auto.
  - constructor; auto. apply Forall2_refl', file_like_refl.
Qed.
Lemma add_groups_like b d : files_like d (fst (add_groups disk b d)).
Proof.
  induction d as [|[n l] d IH]; cbn [add_groups]; [constructor|].
  pose proof (add_files_like b n l) as F. destruct (add_files disk b n l) as [l' [c|e]]; cbn [fst] in *.
  - destruct (add_groups disk b d) as [l2 r]. cbn [fst] in *. constructor; auto.
  - constructor; auto. apply files_like_refl.
Qed.
Lemma multipart_like b (p : params (B:=B)) : files_like (p_file p) (fst (multipart disk b p)).
Proof.
  unfold multipart. pose proof (add_groups_like b (p_file p)) as H.
  destruct (add_groups disk b (p_file p)). exact H.
Qed.
Lemma no_streams_eq d e : no_streams d -> files_like d e -> d = e.
Proof.
  intros N F. induction F as [|[k l] [k' l'] d e [H1 H2] F IH]; [reflexivity|]. cbn [fst snd] in *. subst k'.
  f_equal.
  - f_equal. assert (Nl : forall f, In f l -> f_data f = OnDisk).
    { intros f Hf. apply (N k). unfold all_files. cbn [flat_map fst snd]. apply in_app_iff. left.
      apply in_map_iff. now exists f. }
    clear - H2 Nl. induction H2 as [|f g l l' (A & C & D) F IH]; [reflexivity|]. f_equal.
    + specialize (Nl f (or_introl eq_refl)). destruct f, g; cbn in *. subst.
      destruct D as [D|(x & y & t & D & _)]; [now subst|discriminate].
    + apply IH. intros x Hx. apply Nl. now right.
  - apply IH. intros k2 f Hf. apply (N k2). unfold all_files. cbn [flat_map]. apply in_app_iff. now right.
Qed.

(** security and the parameters *)
Definition psec (info : sec_info) sec (p : params (B:=B)) : params (B:=B) :=
  let s := sec_call info sec (SecReq (p_header p) (p_query p)) in
  Params (sr_header s) (sr_query s) (p_path p) (p_body p) (p_form p) (p_file p).
Lemma secure_eq info sec r : fst (secure info sec r) = set_p (psec info sec (r_p r)) r.
Proof. reflexivity. Qed.
Lemma psec_idem info sec p : NoDup (map fst (p_header p)) -> psec info sec (psec info sec p) = psec info sec p.
Proof.
  intros N. unfold psec. cbn.
  set (s := sec_call info sec (SecReq (p_header p) (p_query p))).
  assert (E : SecReq (sr_header s) (sr_query s) = s) by (destruct s; reflexivity).
  rewrite E. unfold s. rewrite sec_call_idem by exact N. reflexivity.
Qed.

(** what the history leaves of a request: the same inputs, possibly secured *)
Definition input_of (info : sec_info) sec (r r' : request) : Prop :=
  r_op r' = r_op r /\ r_consume r' = r_consume r /\ r_produce r' = r_produce r /\
  r_scheme r' = r_scheme r /\ (r_p r' = r_p r \/ r_p r' = psec info sec (r_p r)).
Lemma step_input info sec c r r' : NoDup (map fst (p_header (r_p r))) ->
  no_streams (p_file (r_p r)) \/ reads_files c = false ->
  input_of info sec r r' -> input_of info sec r (step marshal disk info sec r' c).
Proof.
  intros N Hs (H1 & H2 & H3 & H4 & H5).
  assert (F : p_file (r_p r') = p_file (r_p r)) by (destruct H5 as [ -> | -> ]; reflexivity).
  assert (K : forall r2, keeps eq r' r2 -> input_of info sec r r2).
  { intros r2 (K1 & K2 & K3 & K4 & K5 & K6 & K7 & K8 & K9 & K10).
    assert (r_p r2 = r_p r') as E by (destruct (r_p r'), (r_p r2); cbn in *; congruence).
    repeat split; try congruence; rewrite E; exact H5. }
  destruct c as [|b s h|n s|]; cbn [step].
  - repeat split; auto.
  - apply K. destruct h.
    + destruct Hs as [Hs|Hs]; [|discriminate].
      pose proof (frame_prepare files_like files_like_refl files_like_trans b s true
                    (fun _ p => multipart_like b p) r') as (K1 & K2 & K3 & K4 & K5 & K6 & K7 & K8 & K9 & K10).
      repeat split; auto. apply no_streams_eq; auto. now rewrite F.
    + apply frame_prepare; [reflexivity|congruence|discriminate].
  - apply K. apply frame_patch; [reflexivity|congruence].
  - rewrite secure_eq. repeat split; auto. cbn [set_p r_p]. right.
    destruct H5 as [ -> | -> ]; auto. now apply psec_idem.
Qed.
Lemma history_input info sec l r : NoDup (map fst (p_header (r_p r))) ->
  no_streams (p_file (r_p r)) \/ forallb (fun c => negb (reads_files c)) l = true ->
  input_of info sec r (history marshal disk info sec l r).
Proof.
  intros N Hs. unfold history.
  assert (G : forall l r', (no_streams (p_file (r_p r)) \/ forallb (fun c => negb (reads_files c)) l = true) ->
    input_of info sec r r' -> input_of info sec r (fold_left (step marshal disk info sec) l r')).
  { clear l Hs. induction l as [|c l IH]; intros r' Hs I; auto. cbn [fold_left].
    assert (no_streams (p_file (r_p r)) \/ (reads_files c = false /\ forallb (fun c => negb (reads_files c)) l = true)) as Hs'.
    { destruct Hs as [Hs|Hs]; auto. right. cbn [forallb] in Hs. apply andb_true_iff in Hs as [H1 H2].
      split; auto. now apply negb_true_iff. }
    apply IH; [tauto|]. apply step_input; tauto. }
  apply G; auto. repeat split; auto.
Qed.
Lemma again_secured info sec l r : NoDup (map fst (p_header (r_p r))) ->
  no_streams (p_file (r_p r)) \/ forallb (fun c => negb (reads_files c)) l = true ->
  step marshal disk info sec (reset (history marshal disk info sec l r)) CSecure =
  step marshal disk info sec (reset r) CSecure.
Proof.
  intros N Hs. destruct (history_input info sec l r N Hs) as (H1 & H2 & H3 & H4 & H5).
  cbn [step]. rewrite !secure_eq. unfold reset, set_p. cbn.
  rewrite H1, H2, H3, H4. f_equal. destruct H5 as [ -> | -> ]; auto. now apply psec_idem.
Qed.
Lemma again_plain info sec l r :
  forallb (fun c => negb (is_secure c)) l = true ->
  no_streams (p_file (r_p r)) \/ forallb (fun c => negb (reads_files c)) l = true ->
  reset (history marshal disk info sec l r) = reset r.
Proof.
  intros Hc Hs.
  assert (G : forall l r', (no_streams (p_file (r_p r)) \/ forallb (fun c => negb (reads_files c)) l = true) ->
    forallb (fun c => negb (is_secure c)) l = true ->
    keeps eq r r' -> keeps eq r (fold_left (step marshal disk info sec) l r')).
  { clear l Hs Hc. induction l as [|c l IH]; intros r' Hs Hc I; auto. cbn [fold_left].
    cbn [forallb] in Hc. apply andb_true_iff in Hc as [C1 C2].
    assert (no_streams (p_file (r_p r)) \/ (reads_files c = false /\ forallb (fun c => negb (reads_files c)) l = true)) as Hs'.
    { destruct Hs as [Hs|Hs]; auto. right. cbn [forallb] in Hs. apply andb_true_iff in Hs as [H1 H2].
      split; auto. now apply negb_true_iff. }
    apply IH; auto; [tauto|].
    assert (T : forall a b c, keeps eq a b -> keeps eq b c -> keeps eq a c)
      by (intros; eapply keeps_trans; eauto; congruence).
    destruct c as [|b s h|n s|]; cbn [step].
    - eapply T; [exact I|]. repeat split; auto.
    - eapply T; [exact I|]. destruct h.
      + destruct Hs' as [Hs'|[Hs' _]]; [|discriminate].
        pose proof (frame_prepare files_like files_like_refl files_like_trans b s true
                    (fun _ p => multipart_like b p) r') as (K1 & K2 & K3 & K4 & K5 & K6 & K7 & K8 & K9 & K10).
        repeat split; auto. apply no_streams_eq; auto.
        destruct I as (_ & _ & _ & _ & _ & _ & _ & _ & _ & I). now rewrite <- I.
      + apply frame_prepare; [reflexivity|congruence|discriminate].
    - eapply T; [exact I|]. apply frame_patch; [reflexivity|congruence].
    - discriminate. }
  apply keeps_eq. apply G; auto. apply keeps_refl. reflexivity.
Qed.
End Frame.

(** * Two requests that differ only in streams read and in the accept preference *)
Section Sim.
Context {B : Type} (marshal : str -> B -> res str) (disk : str -> res str).
Notation request := (request (B:=B)).
Notation "'let!' x := e1 'in' e2" := (rbind e1 (fun x => e2))
    (at level 60, x pattern, e1 at level 50, e2 at level 60, right associativity).
Definition alike (r1 r2 : request) : Prop :=
  r_op r1 = r_op r2 /\ r_consume r1 = r_consume r2 /\ r_scheme r1 = r_scheme r2 /\
  r_url r1 = r_url r2 /\ r_path r1 = r_path r2 /\ r_header r1 = r_header r2 /\
  p_header (r_p r1) = p_header (r_p r2) /\ p_query (r_p r1) = p_query (r_p r2) /\
  p_path (r_p r1) = p_path (r_p r2) /\ p_body (r_p r1) = p_body (r_p r2) /\
  p_form (r_p r1) = p_form (r_p r2) /\ files_like (p_file (r_p r1)) (p_file (r_p r2)).
Definition sim {A} (m1 m2 : run A) : Prop := forall r1 r2, alike r1 r2 ->
  snd (m1 r1) = snd (m2 r2) /\ alike (fst (m1 r1)) (fst (m2 r2)).
Lemma sim_bind {A C} (m1 m2 : run A) (f1 f2 : A -> run C) :
  sim m1 m2 -> (forall a, sim (f1 a) (f2 a)) -> sim (rbind m1 f1) (rbind m2 f2).
Proof.
  intros H1 H2 r1 r2 H. unfold rbind. specialize (H1 r1 r2 H).
  destruct (m1 r1) as [x [a|e]], (m2 r2) as [y [a'|e']]; cbn [fst snd] in H1; destruct H1 as [E H1]; try discriminate.
  - injection E as <-. now apply H2.
  - injection E as <-. split; auto.
Qed.
Lemma sim_gets {C} (f1 f2 : request -> run C) :
  (forall a1 a2, alike a1 a2 -> sim (f1 a1) (f2 a2)) -> sim (rbind (gets id) f1) (rbind (gets id) f2).
Proof. intros H r1 r2 A. unfold rbind, gets, id. now apply H. Qed.
Lemma sim_ret {A} (a : A) : sim (ret a) (ret a). Proof. intros r1 r2 H. split; auto. Qed.
Lemma sim_lift {A} (a b : res A) : a = b -> sim (lift a) (lift b). Proof. intros <- r1 r2 H. split; auto. Qed.
Lemma sim_modify f g : (forall r1 r2, alike r1 r2 -> alike (f r1) (g r2)) -> sim (modify f) (modify g).
Proof. intros H r1 r2 A. split; auto. cbn. auto. Qed.
Ltac alikes H := let H' := fresh in pose proof H as H'; destruct H' as (? & ? & ? & ? & ? & ? & ? & ? & ? & ? & ? & ?).
Lemma sim_data d1 d2 : sim (modify (set_data d1)) (modify (set_data d2)).
Proof. apply sim_modify. intros r1 r2 H. alikes H. repeat split; auto. Qed.
Lemma sim_url u : sim (modify (set_url u)) (modify (set_url u)).
Proof. apply sim_modify. intros r1 r2 H. alikes H. repeat split; auto. Qed.
Lemma sim_path u : sim (modify (set_path u)) (modify (set_path u)).
Proof. apply sim_modify. intros r1 r2 H. alikes H. repeat split; auto. Qed.
Lemma alike_header r1 r2 h1 h2 : alike r1 r2 -> h1 = h2 -> alike (set_header h1 r1) (set_header h2 r2).
Proof. intros H <-. alikes H. repeat split; auto. Qed.

Definition same_out {A} (a b : res A) : Prop :=
  match a, b with Ok _, Ok _ => True | Err e, Err f => e = f | _, _ => False end.
Lemma read_sim f g : file_like f g -> file_like (fst (read_file disk f)) (fst (read_file disk g)) /\
  same_out (snd (read_file disk f)) (snd (read_file disk g)).
Proof.
  intros (H1 & H2 & H3). unfold read_file. destruct H3 as [H3|(x & y & t & H3 & H4)].
  - rewrite H3. destruct (f_data g) as [|rest t] eqn:E; cbn [fst snd].
    + split; [repeat split; auto; rewrite H3, E; auto|]. rewrite H1. unfold same_out. now destruct (disk _).
    + split; [repeat split; auto|exact I].
  - rewrite H3, H4. cbn [fst snd]. split; [repeat split; auto|exact I].
Qed.
Lemma add_files_sim b n l l' : Forall2 file_like l l' ->
  Forall2 file_like (fst (add_files disk b n l)) (fst (add_files disk b n l')) /\
  same_out (snd (add_files disk b n l)) (snd (add_files disk b n l')).
Proof.
  induction 1 as [|f g l l' H F [IH1 IH2]]; cbn [add_files]; [split; [constructor|exact I]|].
  destruct (read_sim f g H) as [R1 R2].
  destruct (read_file disk f) as [f' [c|e]], (read_file disk g) as [g' [c'|e']]; cbn [fst snd same_out] in *; try easy.
  - destruct (add_files disk b n l) as [x rx], (add_files disk b n l') as [y ry]. cbn [fst snd] in *.
    split; [now constructor|]. destruct rx, ry; cbn in *; auto.
  - split; [now constructor|auto].
Qed.
Lemma add_groups_sim b d e : files_like d e ->
  files_like (fst (add_groups disk b d)) (fst (add_groups disk b e)) /\
  same_out (snd (add_groups disk b d)) (snd (add_groups disk b e)).
Proof.
  induction 1 as [|[n l] [n' l'] d e [H H'] F [IH1 IH2]]; cbn [add_groups]; [split; [constructor|exact I]|].
  cbn [fst snd] in H, H'. subst n'. destruct (add_files_sim b n l l' H') as [R1 R2].
  destruct (add_files disk b n l) as [f' [c|x]], (add_files disk b n l') as [g' [c'|x']]; cbn [fst snd same_out] in *; try easy.
  - destruct (add_groups disk b d) as [y rx], (add_groups disk b e) as [z ry]. cbn [fst snd] in *.
    split; [now constructor|]. destruct rx, ry; cbn in *; auto.
  - split; [now constructor|auto].
Qed.
Lemma multipart_sim b (p q : params (B:=B)) : files_like (p_file p) (p_file q) ->
  files_like (fst (multipart disk b p)) (fst (multipart disk b q)) /\
  same_out (snd (multipart disk b p)) (snd (multipart disk b q)).
Proof.
  intros H. unfold multipart. destruct (add_groups_sim b _ _ H) as [A1 A2].
  destruct (add_groups disk b (p_file p)) as [x [|]], (add_groups disk b (p_file q)) as [y [|]]; cbn in *; auto.
Qed.
Lemma sim_files b : sim (prepare_files disk b) (prepare_files disk b).
Proof.
  unfold prepare_files. apply sim_gets. intros a1 a2 H. alikes H.
  apply sim_bind; [apply sim_lift; congruence|]. intros _.
  destruct (multipart_sim b (r_p a1) (r_p a2)) as [M1 M2]; auto.
  destruct (multipart disk b (r_p a1)) as [x rx], (multipart disk b (r_p a2)) as [y ry]. cbn [fst snd] in M1, M2.
  apply sim_bind.
  - apply sim_modify. intros r1 r2 A. alikes A. repeat split; auto.
  - intros _. destruct rx as [cx|ex], ry as [cy|ey]; cbn in M2; try contradiction.
    + intros r1 r2 A. alikes A. split; [reflexivity|]. repeat split; auto.
    + subst ey. apply sim_bind; [now apply sim_lift|]. intros x0. apply sim_bind; [apply sim_data|]. intros _. apply sim_ret.
Qed.
Lemma sim_forms : sim prepare_forms prepare_forms.
Proof.
  unfold prepare_forms. apply sim_gets. intros a1 a2 H. alikes H.
  apply sim_bind; [apply sim_lift; congruence|]. intros _. apply sim_bind; [apply sim_data|]. intros. apply sim_ret.
Qed.
Lemma sim_body : sim (prepare_body marshal) (prepare_body marshal).
Proof.
  unfold prepare_body. apply sim_gets. intros a1 a2 H. alikes H.
  assert (E : body_type a1 = body_type a2).
  { destruct H as (Ho & Hc & _). unfold body_type. now rewrite Ho, Hc. }
  apply sim_bind; [apply sim_lift; congruence|]. intros _.
  assert (O : o_params (r_op a1) = o_params (r_op a2)) by congruence. rewrite <- O.
  destruct (find _ _) as [p|]; [|apply sim_bind; [apply sim_data|intros; apply sim_ret]].
  destruct (negb _); [now apply sim_lift|].
  assert (PB : p_body (r_p a1) = p_body (r_p a2)) by auto. rewrite <- PB.
  destruct (sget _ _); [|now apply sim_lift].
  apply sim_bind; [apply sim_lift; congruence|]. intros d.
  apply sim_bind; [apply sim_data|]. intros _. rewrite E. apply sim_ret.
Qed.
Lemma files_like_nonempty d e : files_like d e -> nonempty d = nonempty e.
Proof. intros []; reflexivity. Qed.
Lemma sim_prepare_data b h : sim (prepare_data marshal disk b h) (prepare_data marshal disk b h).
Proof.
  unfold prepare_data. apply sim_gets. intros a1 a2 H. alikes H.
  rewrite (files_like_nonempty _ (p_file (r_p a2))) by auto.
  destruct (nonempty (p_file (r_p a2))).
  - destruct h.
    + apply sim_bind; [apply sim_files|]. intros. apply sim_ret.
    + apply sim_bind; [apply sim_data|]. intros. apply sim_ret.
  - assert (F : p_form (r_p a1) = p_form (r_p a2)) by auto. rewrite <- F. destruct (nonempty _).
    + apply sim_bind; [apply sim_forms|]. intros. apply sim_ret.
    + assert (PB : p_body (r_p a1) = p_body (r_p a2)) by auto. rewrite <- PB.
      destruct (nonempty _); [apply sim_body|].
      apply sim_bind; [apply sim_data|]. intros. apply sim_ret.
Qed.
Definition ct_header (ct : option str) (h : cid cred) : cid cred :=
  match ct with Some (c :: s) => cid_set (lit "Content-Type") (CTok (c :: s)) h | _ => h end.
Definition front (b : str) (scheme : scheme_arg) (h : bool) : run unit :=
  let! r := gets id in
  let! sch := lift (choose_scheme (r_scheme r) scheme) in
  let! path := lift (format (r_path r) (quoted_path (r_p r))) in
  let! _ := modify (set_path path) in
  let! url := lift (format (r_url r) (quoted_path (r_p r))) in
  let! _ := modify (set_url (sch ++ ":"%char :: url)) in
  let! _ := modify (fun r => set_header (cid_update (r_header r) (p_header (r_p r))) r) in
  let! ct := prepare_data marshal disk b h in
  modify (fun r => match ct with
                               | Some (c :: s) => set_header (cid_set (lit "Content-Type") (CTok (c :: s)) (r_header r)) r
                               | _ => r end).
Lemma prepare_front b s h r : prepare marshal disk b s h r = rbind (front b s h) (fun _ => prepare_accept) r.
Proof.
  unfold prepare, front, rbind, gets, lift, modify, id.
  destruct (choose_scheme _ _); [|reflexivity]. destruct (format (r_path r) _); [|reflexivity].
  destruct (format (r_url r) _); [|reflexivity].
  destruct (prepare_data marshal disk b h _) as [? []]; reflexivity.
Qed.
Lemma sim_front b s h : sim (front b s h) (front b s h).
Proof.
  unfold front. apply sim_gets. intros a1 a2 H. alikes H.
  assert (Q : quoted_path (r_p a1) = quoted_path (r_p a2)) by (unfold quoted_path; congruence).
  apply sim_bind; [apply sim_lift; congruence|]. intros sch.
  apply sim_bind; [apply sim_lift; congruence|]. intros p.
  apply sim_bind; [apply sim_path|]. intros _.
  apply sim_bind; [apply sim_lift; congruence|]. intros u.
  apply sim_bind; [apply sim_url|]. intros _.
  apply sim_bind; [apply sim_modify; intros x y A; alikes A; apply alike_header; congruence|]. intros _.
  apply sim_bind; [apply sim_prepare_data|]. intros ct.
  apply sim_modify. intros x y A. destruct ct as [[|c t]|]; auto. alikes A. apply alike_header; congruence.
Qed.
Lemma front_produce b s h r : r_produce (fst (front b s h r)) = r_produce r /\ r_op (fst (front b s h r)) = r_op r.
Proof.
  assert (F : frame files_like (front b s h)).
  { unfold front. pose proof files_like_refl as X. pose proof files_like_trans as Y.
    repeat first [apply (frame_prepare_data marshal disk files_like X Y); intros _; apply multipart_like
    | apply (frame_bind files_like Y); [|intros] | apply (frame_lift files_like X)
    | apply (frame_gets files_like X) | apply (frame_url files_like X) | apply (frame_path files_like X)
    | apply (frame_header files_like X) | apply (frame_cond files_like X) ]. }
  destruct (F r) as (H1 & _ & H2 & _). auto.
Qed.
Lemma prepare_alike b s h r1 r2 : alike r1 r2 -> r_produce r1 = r_produce r2 ->
  snd (prepare marshal disk b s h r1) = snd (prepare marshal disk b s h r2) /\
  alike (fst (prepare marshal disk b s h r1)) (fst (prepare marshal disk b s h r2)).
Proof.
  intros A P. rewrite !prepare_front. unfold rbind. destruct (sim_front b s h r1 r2 A) as [S1 S2].
  destruct (front_produce b s h r1) as [P1 O1]. destruct (front_produce b s h r2) as [P2 O2].
  destruct (front b s h r1) as [x [[]|e]], (front b s h r2) as [y [[]|e']]; cbn [fst snd] in *; try discriminate.
  - unfold prepare_accept, rbind, gets, id, lift, modify, ret. alikes S2.
    assert (E : accept_type x = accept_type y).
    { unfold accept_type. replace (r_op x) with (r_op y) by congruence.
      replace (r_produce x) with (r_produce y) by congruence. reflexivity. }
    assert (O : o_produces (r_op x) = o_produces (r_op y)) by congruence.
    rewrite E, O. destruct (accept_type y) as [[|c t]|]; cbn [fst snd]; auto.
    destruct (_ && _); cbn [fst snd]; auto. split; auto. apply alike_header; congruence.
  - injection S1 as <-. split; auto.
Qed.
End Sim.

(** * What a successful prepare does *)
Section Success.
Context {B : Type} (marshal : str -> B -> res str) (disk : str -> res str).
Notation request := (request (B:=B)).

(** the outcome of prepare_data *)
Lemma prepare_data_header b h (r : request) :
  r_header (fst (prepare_data marshal disk b h r)) = r_header r /\
  r_url (fst (prepare_data marshal disk b h r)) = r_url r /\
  r_path (fst (prepare_data marshal disk b h r)) = r_path r /\
  r_op (fst (prepare_data marshal disk b h r)) = r_op r /\
  r_produce (fst (prepare_data marshal disk b h r)) = r_produce r.
Proof.
  unfold prepare_data, prepare_files, prepare_forms, prepare_body, rbind, gets, id, lift, modify, ret.
  destruct (nonempty (p_file _)).
  - destruct h; [|repeat split].
    destruct (check_consumes _ _); [|repeat split].
    destruct (multipart disk b (r_p r)) as [fs [c|e]]; repeat split.
  - destruct (nonempty (p_form _)).
    + destruct (check_consumes _ _); repeat split.
    + destruct (nonempty (p_body _)); [|repeat split].
      destruct (check_consumes _ _); [|repeat split].
      destruct (find _ _); [|repeat split]. destruct (negb _); [repeat split|].
      destruct (sget _ _); [|repeat split]. destruct (marshal _ _); repeat split.
Qed.
Lemma check_ok ct cs u : check_consumes ct cs = Ok u -> cs = [] \/ In ct cs.
Proof.
  unfold check_consumes. destruct cs as [|c cs]; auto. cbn [nonempty andb].
  destruct (mem ct (c :: cs)) eqn:E; [|discriminate]. right. now apply mem_In.
Qed.
Lemma body_type_nonexplicit (r : request) : body_type r = body_type r. Proof. reflexivity. Qed.
(** The content type and the data chosen. *)
Lemma prepare_data_ok b h (r r' : request) ct :
  prepare_data marshal disk b h r = (r', Ok ct) ->
  (p_file (r_p r) <> [] /\ h = false /\ ct = None /\ r_data r' = Some (DForm (p_form (r_p r)))) \/
  (p_file (r_p r) <> [] /\ h = true /\ ct = Some (multipart_type ++ lit "; boundary=" ++ b) /\
     (o_consumes (r_op r) = [] \/ In multipart_type (o_consumes (r_op r))) /\
     exists fs c, multipart disk b (r_p r) = (fs, Ok c) /\ r_data r' = Some (DText c)) \/
  (p_file (r_p r) = [] /\ p_form (r_p r) <> [] /\ ct = Some form_type /\
     (o_consumes (r_op r) = [] \/ In form_type (o_consumes (r_op r))) /\
     r_data r' = Some (DText (urlencode (p_form (r_p r))))) \/
  (p_file (r_p r) = [] /\ p_form (r_p r) = [] /\ p_body (r_p r) <> [] /\
     (o_consumes (r_op r) = [] \/ In (body_type r) (o_consumes (r_op r))) /\
     ((ct = None /\ r_data r' = Some DNone /\ forall p, In p (o_params (r_op r)) -> pa_in p <> lit "body") \/
      exists p v d, In p (o_params (r_op r)) /\ pa_in p = lit "body" /\
        sget (pa_name p) (p_body (r_p r)) = Some v /\ marshal (body_type r) v = Ok d /\
        ct = Some (body_type r) /\ r_data r' = Some (DText d))) \/
  (p_file (r_p r) = [] /\ p_form (r_p r) = [] /\ p_body (r_p r) = [] /\ ct = None /\ r_data r' = Some DNone).
Proof.
  unfold prepare_data, prepare_files, prepare_forms, prepare_body, rbind, gets, id, lift, modify, ret.
  destruct (p_file (r_p r)) as [|f0 fl] eqn:EF; cbn [nonempty].
  - destruct (p_form (r_p r)) as [|g0 gl] eqn:EG; cbn [nonempty].
    + destruct (p_body (r_p r)) as [|b0 bl] eqn:EB; cbn [nonempty].
      * intros [= <- <-]. do 4 right. repeat split; auto.
      * destruct (check_consumes _ _) eqn:C; [|discriminate]. apply check_ok in C.
        intros H. right. right. right. left.
        split; [reflexivity|]. split; [reflexivity|]. split; [discriminate|]. split; [exact C|].
        destruct (find _ _) as [p|] eqn:Fd.
        -- apply find_some in Fd as [Hp Hb]. apply str_eqb_eq in Hb.
           destruct (negb (pa_schema p)); [discriminate|]. rewrite <- EB in *.
           destruct (sget (pa_name p) (p_body (r_p r))) as [v|] eqn:Hv; [|discriminate].
           destruct (marshal (body_type r) v) as [d|] eqn:Hd; [|discriminate].
           injection H as <- <-. right. exists p, v, d. repeat split; auto.
        -- injection H as <- <-. left. repeat split; auto. intros p Hp Hb.
           pose proof (find_none _ _ Fd p Hp) as X. cbn beta in X. rewrite Hb in X. discriminate X.
    + destruct (check_consumes _ _) eqn:C; [|discriminate]. apply check_ok in C.
      intros H. apply (f_equal fst) in H as H1. apply (f_equal snd) in H as H2. cbn [fst snd] in *. subst r'.
      right. right. left. split; [reflexivity|]. split; [discriminate|]. split; [|split; [exact C|]].
      * apply Ok_inj in H2. now rewrite <- H2.
      * cbn [set_data r_data]. try rewrite EG. reflexivity.
  - destruct h.
    + destruct (check_consumes _ _) eqn:C; [|discriminate]. apply check_ok in C.
      destruct (multipart disk b (r_p r)) as [fs [c|e]] eqn:M; [|discriminate].
      intros H. apply (f_equal fst) in H as H1. apply (f_equal snd) in H as H2. cbn [fst snd] in *. subst r'.
      right. left. split; [discriminate|]. split; [reflexivity|]. split; [|split; [exact C|]].
      * apply Ok_inj in H2. now rewrite <- H2.
      * exists fs, c. split; auto.
    + intros [= <- <-]. left. split; [discriminate|]. repeat split; auto.
Qed.

Definition accept_header (a : option str) (h : cid cred) : cid cred :=
  match a with Some (c :: s) => cid_set (lit "Accept") (CTok (c :: s)) h | _ => h end.
Lemma prepare_ok b s h (r r' : request) : prepare marshal disk b s h r = (r', Ok tt) ->
  exists sch path url ct r1,
    choose_scheme (r_scheme r) s = Ok sch /\
    format (r_path r) (quoted_path (r_p r)) = Ok path /\
    format (r_url r) (quoted_path (r_p r)) = Ok url /\
    prepare_data marshal disk b h
      (set_header (cid_update (r_header r) (p_header (r_p r)))
         (set_url (sch ++ ":"%char :: url) (set_path path r))) = (r1, Ok ct) /\
    r_path r' = path /\ r_url r' = sch ++ ":"%char :: url /\ r_data r' = r_data r1 /\
    r_header r' = accept_header (accept_type r) (ct_header ct (cid_update (r_header r) (p_header (r_p r)))) /\
    (forall a, accept_type r = Some a -> a <> [] -> o_produces (r_op r) = [] \/ In a (o_produces (r_op r))).
Proof.
  rewrite prepare_front. unfold front, rbind, gets, id, lift, modify.
  destruct (choose_scheme _ _) as [sch|]; [|discriminate].
  destruct (format (r_path r) _) as [path|]; [|discriminate].
  destruct (format (r_url r) _) as [url|]; [|discriminate].
  set (r0 := set_header _ _).
  pose proof (prepare_data_header b h r0) as HH.
  destruct (prepare_data marshal disk b h r0) as [r1 [ct|]] eqn:D; [|discriminate].
  cbn [fst] in HH. destruct HH as (H1 & H2 & H3 & H4 & H5).
  intros H. exists sch, path, url, ct, r1.
  set (r2 := match ct with Some (c :: t) => set_header (cid_set (lit "Content-Type") (CTok (c :: t)) (r_header r1)) r1 | _ => r1 end) in H.
  assert (E2 : r_header r2 = ct_header ct (cid_update (r_header r) (p_header (r_p r))) /\ r_url r2 = sch ++ ":"%char :: url /\
               r_path r2 = path /\ r_data r2 = r_data r1 /\ r_op r2 = r_op r /\ accept_type r2 = accept_type r).
  { unfold r2, ct_header, accept_type. destruct ct as [[|c t]|]; cbn [set_header r_header r_url r_path r_data r_op r_produce];
    rewrite ?H1, ?H2, ?H3, ?H4, ?H5; repeat split. }
  destruct E2 as (E2 & E3 & E4 & E5 & E6 & E7).
  unfold prepare_accept, rbind, gets, id, lift, modify, ret in H. rewrite E6, E7 in H.
  repeat (split; [reflexivity|]).
  destruct (accept_type r) as [[|c t]|] eqn:A.
  - injection H as <-. cbn [accept_header]. repeat split; auto. intros a [= <-] X. now elim X.
  - destruct (nonempty _ && _) eqn:P; [discriminate|]. injection H as <-. cbn [set_header r_path r_url r_data r_header].
    repeat split; auto.
    + cbn [accept_header]. now rewrite E2.
    + intros a [= <-] _. destruct (o_produces (r_op r)) as [|q qs] eqn:Q; auto. right. cbn [nonempty andb] in P.
      apply negb_false_iff in P. now apply mem_In.
  - injection H as <-. cbn [accept_header]. repeat split; auto. discriminate.
Qed.
End Success.

(** Reading the two headers prepare sets. *)
Lemma accept_keeps_ct a h : cid_get (lit "content-type") (accept_header a h) = cid_get (lit "content-type") h.
Proof.
  destruct a as [[|c t]|]; cbn [accept_header]; auto.
  unfold cid_get, cid_set. now rewrite sget_sset_other by discriminate.
Qed.
Lemma ct_get t h : t <> [] -> cid_get (lit "content-type") (ct_header (Some t) h) = Ok (CTok t).
Proof.
  destruct t as [|c t]; [easy|]. intros _. cbn [ct_header]. unfold cid_get, cid_set.
  change (lower (lit "Content-Type")) with (lower (lit "content-type")). now rewrite sget_sset_same.
Qed.
Lemma accept_get t h : t <> [] -> cid_get (lit "accept") (accept_header (Some t) h) = Ok (CTok t).
Proof.
  destruct t as [|c t]; [easy|]. intros _. cbn [accept_header]. unfold cid_get, cid_set.
  change (lower (lit "Accept")) with (lower (lit "accept")). now rewrite sget_sset_same.
Qed.
