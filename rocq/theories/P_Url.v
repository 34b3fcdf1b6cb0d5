From Verif Require Import PyBase PyFacts M_Url S_Url.
From Coq Require Import Lia.

(** * cut, rcut, span *)
Lemma cut_app c a b : ~ In c a -> cut c (a ++ c :: b) = Some (a, b).
Proof.
  induction a as [|x a IH]; intros H; cbn [app cut].
  - now rewrite Ascii.eqb_refl.
  - destruct (Ascii.eqb_spec x c) as [ -> |]; [exfalso; apply H; now left|].
    rewrite IH; auto. intros Hi. apply H. now right.
Qed.
Lemma cut_none c s : ~ In c s -> cut c s = None.
Proof.
  induction s as [|x s IH]; intros H; cbn [cut]; auto.
  destruct (Ascii.eqb_spec x c) as [ -> |]; [exfalso; apply H; now left|].
  rewrite IH; auto. intros Hi. apply H. now right.
Qed.
Lemma cut_spec c s a b : cut c s = Some (a, b) -> s = a ++ c :: b /\ ~ In c a.
Proof.
  revert a b. induction s as [|x s IH]; intros a b; cbn [cut]; [discriminate|].
  destruct (Ascii.eqb_spec x c) as [ -> |D].
  - intros [= <- <-]. auto.
  - destruct (cut c s) as [[a' b']|]; [|discriminate]. intros [= <- <-].
    destruct (IH a' b' eq_refl) as [-> Hn]. split; auto. intros [|]; auto.
Qed.
Lemma cut_None_inv c s : cut c s = None -> ~ In c s.
Proof.
  intros H Hi. apply in_split in Hi as (a & b & ->).
  revert H. induction a as [|x a IH]; cbn [app cut].
  - now rewrite Ascii.eqb_refl.
  - destruct (Ascii.eqb x c); [discriminate|]. destruct (cut c (a ++ c :: b)) as [[]|]; [discriminate|auto].
Qed.
Lemma rcut_none c s : ~ In c s -> rcut c s = None.
Proof.
  induction s as [|x s IH]; intros H; cbn [rcut]; auto.
  rewrite IH by (intros Hi; apply H; now right).
  destruct (Ascii.eqb_spec x c) as [ -> |]; auto. exfalso; apply H; now left.
Qed.
Lemma rcut_app c a b : ~ In c b -> rcut c (a ++ c :: b) = Some (a, b).
Proof.
  intros H. induction a as [|x a IH]; cbn [app rcut].
  - now rewrite rcut_none, Ascii.eqb_refl.
  - now rewrite IH.
Qed.
Lemma rcut_None_inv c s : rcut c s = None -> ~ In c s.
Proof.
  intros H Hi. induction s as [|x s IH]; [easy|]. cbn [rcut] in H.
  destruct (rcut c s) as [[]|]; [discriminate|].
  destruct (Ascii.eqb_spec x c) as [ -> |D]; [discriminate|].
  destruct Hi as [Hi|Hi]; auto.
Qed.
Lemma rcut_spec c s a b : rcut c s = Some (a, b) -> s = a ++ c :: b /\ ~ In c b.
Proof.
  revert a b. induction s as [|x s IH]; intros a b; cbn [rcut]; [discriminate|].
  destruct (rcut c s) as [[a' b']|] eqn:E.
  - intros [= <- <-]. destruct (IH a' b' eq_refl) as [-> Hn]. auto.
  - destruct (Ascii.eqb_spec x c) as [ -> |]; [|discriminate]. intros [= <- <-].
    split; auto. now apply rcut_None_inv.
Qed.
Lemma has_In c s : has c s = true <-> In c s.
Proof.
  unfold has. rewrite existsb_exists. split.
  - intros (x & H & E). apply Ascii.eqb_eq in E. now subst.
  - intros H. exists c. split; auto. apply Ascii.eqb_refl.
Qed.
Lemma has_false c s : ~ In c s -> has c s = false.
Proof. intros H. destruct (has c s) eqn:E; auto. apply has_In in E. contradiction. Qed.
Lemma span_app f a b : forallb f a = true -> (forall c b', b = c :: b' -> f c = false) ->
  span f (a ++ b) = (a, b).
Proof.
  induction a as [|x a IH]; cbn [app span forallb]; intros Ha Hb.
  - destruct b as [|c b]; auto. cbn [span]. now rewrite (Hb c b).
  - apply andb_true_iff in Ha as [Hx Ha]. rewrite Hx, IH; auto.
Qed.
Lemma without_not cs s c : without cs s -> In c cs -> ~ In c s.
Proof. intros H Hc. exact (H c Hc). Qed.
Ltac inlit := cbn; tauto.

Lemma without_app cs a b : without cs (a ++ b) <-> without cs a /\ without cs b.
Proof.
  unfold without. split.
  - intros H. split; intros c Hc Hi; apply (H c Hc); apply in_or_app; auto.
  - intros [Ha Hb] c Hc Hi. apply in_app_iff in Hi as [Hi|Hi]; [eapply Ha|eapply Hb]; eauto.
Qed.

(** * Parsing the text of a URL *)
Lemma lower_id s : (forall x, In x s -> lower_char x = x) -> lower s = s.
Proof.
  intros H. unfold lower. rewrite <- (map_id s) at 2. apply map_ext_in. auto.
Qed.
Lemma scheme_no_colon s : scheme_ok s -> ~ In ":"%char s.
Proof.
  intros (c & s' & -> & _ & H) Hi. apply H in Hi as [Hi _]. discriminate.
Qed.
Lemma split_scheme_ok s rest : scheme_ok s -> split_scheme (s ++ ":"%char :: rest) = (s, rest).
Proof.
  intros Hs. pose proof (scheme_no_colon s Hs) as Hc.
  destruct Hs as (c & s' & -> & Ha & H). unfold split_scheme. cbn [app].
  assert (C := cut_app ":" (c :: s') rest Hc). cbn [app] in C. rewrite C, Ha.
  assert (forallb scheme_char (c :: s') = true) as ->.
  { apply forallb_forall. intros x Hx. now apply H. }
  cbn [andb]. rewrite lower_id; auto. intros x Hx. now apply H.
Qed.

Definition tail_ (u : url6) : str :=
  u_path u ++ part ";" (u_params u) ++ part "?" (u_query u) ++ part "#" (u_frag u).

Lemma part_nil d : part d [] = []. Proof. reflexivity. Qed.
Lemma part_cons d s : s <> [] -> part d s = d :: s. Proof. destruct s; easy. Qed.
Lemma In_part d s c : In c (part d s) -> c = d \/ In c s.
Proof. destruct s; cbn; intuition. Qed.

Lemma split_params_ok p q :
  ~ In ";"%char (last_segment p) -> ~ In "/"%char q -> p <> [] -> (exists p', p = "/"%char :: p') ->
  split_params (p ++ ";"%char :: q) = (p, q).
Proof.
  intros Hl Hq Hne (p' & E). unfold split_params.
  destruct (rcut "/" p) as [[d l]|] eqn:R.
  - apply rcut_spec in R as [-> Hn]. rewrite <- app_assoc. cbn [app].
    rewrite rcut_app.
    + assert (L : last_segment (d ++ "/"%char :: l) = l).
      { unfold last_segment. change (split "/"%string) with (split ["/"%char]).
        rewrite split_char_app.
        assert (split ["/"%char] l = [l]) as ->.
        { unfold split. apply split_aux_no_occ; [easy|]. rewrite occurs_char. auto. }
        apply last_last. }
      rewrite L in Hl. now rewrite cut_app.
    + rewrite in_app_iff. intros [H|[H|H]]; auto. discriminate.
  - apply rcut_None_inv in R. exfalso. apply R. subst. now left.
Qed.
Lemma split_params_none p :
  ~ In ";"%char (last_segment p) -> (exists p', p = "/"%char :: p') ->
  split_params p = (p, []).
Proof.
  intros Hl (p' & E). unfold split_params.
  destruct (rcut "/" p) as [[d l]|] eqn:R.
  - apply rcut_spec in R as [Ep Hn].
    assert (L : last_segment p = l).
    { rewrite Ep. unfold last_segment. change (split "/"%string) with (split ["/"%char]).
      rewrite split_char_app.
      assert (split ["/"%char] l = [l]) as ->.
      { unfold split. apply split_aux_no_occ; [easy|]. rewrite occurs_char. auto. }
      apply last_last. }
    rewrite L in Hl. now rewrite cut_none.
  - apply rcut_None_inv in R. exfalso. apply R. rewrite E. now left.
Qed.

Lemma parse_show u : url_ok u -> urlparse (show u) = Ok u.
Proof.
  intros [Hs Hh Hn Hp Hpa Hpar Hseg Hpp Hq].
  unfold urlparse, show. change (lit "://") with (":"%char :: lit "//").
  cbn [app]. rewrite split_scheme_ok by auto.
  cbn [lit list_ascii_of_string app]. unfold split_netloc.
  assert (HN : forall c, In c (lit "/?#[]") -> ~ In c (u_netloc u)) by exact Hn.
  rewrite span_app.
  2:{ apply forallb_forall. intros x Hx. unfold netloc_char.
      destruct (Ascii.eqb_spec x "/"); [subst; exfalso; eapply HN; eauto; inlit|].
      destruct (Ascii.eqb_spec x "?"); [subst; exfalso; eapply HN; eauto; inlit|].
      destruct (Ascii.eqb_spec x "#"); [subst; exfalso; eapply HN; eauto; inlit|]. reflexivity. }
  2:{ intros c b' E. destruct Hpa as [P0|(p' & P1)].
      - rewrite P0 in E. assert (Q : u_params u = []).
        { destruct (u_params u) eqn:Eu; auto. destruct Hpp as [_ Hpp]; [easy|]. congruence. }
        rewrite Q in E. cbn [app part] in E.
        destruct (u_query u); cbn [app part] in E.
        + destruct (u_frag u); cbn [part] in E; [discriminate|]. inversion E; reflexivity.
        + inversion E; reflexivity.
      - rewrite P1 in E. inversion E; reflexivity. }
  rewrite !has_false by (apply HN; inlit). cbn [xorb bind].
  (* fragment *)
  assert (F : cut_or "#" (u_path u ++ part ";" (u_params u) ++ part "?" (u_query u) ++ part "#" (u_frag u))
              = (u_path u ++ part ";" (u_params u) ++ part "?" (u_query u), u_frag u)).
  { assert (N : ~ In "#"%char (u_path u ++ part ";" (u_params u) ++ part "?" (u_query u))).
    { rewrite !in_app_iff. intros [H|[H|H]].
      - eapply (Hp "#"%char); [inlit|auto].
      - apply In_part in H as [H|H]; [discriminate|]. eapply (Hpar "#"%char); [inlit|auto].
      - apply In_part in H as [H|H]; [discriminate|]. auto. }
    unfold cut_or. destruct (u_frag u) as [|f0 f].
    - rewrite part_nil, app_nil_r. now rewrite cut_none.
    - cbn [part]. rewrite !app_assoc in *. now rewrite cut_app. }
  rewrite F. clear F.
  assert (Q : cut_or "?" (u_path u ++ part ";" (u_params u) ++ part "?" (u_query u))
              = (u_path u ++ part ";" (u_params u), u_query u)).
  { assert (N : ~ In "?"%char (u_path u ++ part ";" (u_params u))).
    { rewrite !in_app_iff. intros [H|H].
      - eapply (Hp "?"%char); [inlit|auto].
      - apply In_part in H as [H|H]; [discriminate|]. eapply (Hpar "?"%char); [inlit|auto]. }
    unfold cut_or. destruct (u_query u) as [|f0 f].
    - rewrite part_nil, app_nil_r. now rewrite cut_none.
    - cbn [part]. rewrite !app_assoc in *. now rewrite cut_app. }
  rewrite Q. clear Q.
  assert (PP : parse_params (u_scheme u) (u_path u ++ part ";" (u_params u)) = (u_path u, u_params u)).
  { unfold parse_params. destruct (u_params u) as [|q0 q] eqn:Eq.
    - rewrite part_nil, app_nil_r. destruct (mem _ _ && _) eqn:C; auto.
      apply andb_true_iff in C as [_ C]. apply has_In in C.
      destruct Hpa as [P0|P1]; [rewrite P0 in C; easy|].
      apply split_params_none; auto.
    - destruct (Hpp ltac:(easy)) as [M Hne]. apply mem_In in M. rewrite M. cbn [part].
      assert (has ";" (u_path u ++ ";"%char :: q0 :: q) = true) as ->.
      { apply has_In, in_or_app. right. now left. }
      cbn [andb]. apply split_params_ok; auto.
      + apply Hpar. inlit.
      + destruct Hpa as [P0|P1]; [contradiction|auto]. }
  rewrite PP.
  destruct u; reflexivity.
Qed.

(** * Writing the text of a URL *)
Definition hier (u : url6) : Prop :=
  u_scheme u <> [] /\ (u_netloc u <> [] \/ In (u_scheme u) uses_netloc).
Lemma url_ok_hier u : url_ok u -> hier u.
Proof.
  intros H. split; [|apply H]. destruct (ok_scheme u H) as (c & s' & -> & _). discriminate.
Qed.
Lemma nonempty_false {A} (l : list A) : nonempty l = false <-> l = [].
Proof. destruct l; split; easy. Qed.
Lemma nonempty_true {A} (l : list A) : nonempty l = true <-> l <> [].
Proof. destruct l; split; easy. Qed.
Lemma unparse_show u : hier u -> (u_path u = [] /\ u_params u = [] \/ exists p, u_path u = "/"%char :: p) ->
  urlunparse u = show u.
Proof.
  intros [Hs Hh] Hp. unfold urlunparse, urlunsplit, show.
  apply nonempty_true in Hs. rewrite Hs.
  set (url := if nonempty (u_params u) then _ else _).
  assert (U : url = u_path u ++ part ";" (u_params u)).
  { subst url. destruct (u_params u); cbn; [now rewrite app_nil_r|reflexivity]. }
  assert (C : nonempty (u_netloc u) || (true && mem (u_scheme u) uses_netloc) || startswith url "//"%string = true).
  { destruct Hh as [H|H].
    - apply nonempty_true in H. now rewrite H.
    - apply mem_In in H. rewrite H. now destruct (nonempty (u_netloc u)). }
  rewrite C. clear C.
  assert (S : (if nonempty url && negb (startswith url "/"%string) then "/"%char :: url else url) = url).
  { rewrite U. destruct Hp as [[P0 P1]|(p & P1)].
    - rewrite P0, P1. reflexivity.
    - rewrite P1. reflexivity. }
  rewrite S, U. clear S U url. cbn [lit list_ascii_of_string app].
  destruct (u_query u) as [|q0 q], (u_frag u) as [|f0 f]; cbn [nonempty part];
    rewrite ?app_nil_r; repeat (rewrite <- ?app_assoc; cbn [app]); reflexivity.
Qed.
Lemma ok_path_show u : url_ok u -> (u_path u = [] /\ u_params u = [] \/ exists p, u_path u = "/"%char :: p).
Proof.
  intros H. destruct (ok_path_abs u H) as [E|E]; auto. left. split; auto.
  destruct (u_params u) eqn:P; auto. destruct (ok_params_path u H) as [_ Hn]; [rewrite P; easy|].
  contradiction.
Qed.
Lemma unparse_ok u : url_ok u -> urlunparse u = show u.
Proof. intros H. apply unparse_show; [now apply url_ok_hier|now apply ok_path_show]. Qed.

(** * url_join *)
Lemma startswith_slash p : startswith p "/"%string = true <-> exists p', p = "/"%char :: p'.
Proof.
  unfold startswith. rewrite prefixb_spec. split; intros (t & H); exists t; exact H.
Qed.
Lemma ltrim1_slash p' : ltrim1 ("/"%char :: p') = p'. Proof. reflexivity. Qed.
Lemma ltrim1_no p : startswith p "/"%string = false -> ltrim1 p = p.
Proof.
  intros H. destruct p as [|c p]; auto. unfold ltrim1.
  destruct c as [[] [] [] [] [] [] [] []]; try reflexivity. discriminate.
Qed.
Lemma with_path_hier u p : hier u -> hier (with_path u p).
Proof. auto. Qed.
Lemma url_join_ok u path : url_ok u ->
  url_join (show u) path = Ok (show (with_path u (rtrim1 (u_path u) ++ lit "/" ++ ltrim1 path))).
Proof.
  intros H. unfold url_join. rewrite parse_show by auto. cbn [bind].
  set (t := if endswith _ _ then _ else _).
  assert (T : t = rtrim1 (u_path u) ++ lit "/" ++ ltrim1 path).
  { subst t. unfold rtrim1. destruct (endswith (u_path u) "/"%string) eqn:E.
    - apply endswith_spec in E as (p & Ep). rewrite Ep.
      change (p ++ lit "/") with (p ++ ["/"%char]). rewrite removelast_last, <- app_assoc. f_equal. cbn [app]. f_equal.
      destruct (startswith path "/"%string) eqn:S.
      + apply startswith_slash in S as (p' & ->). reflexivity.
      + now rewrite ltrim1_no.
    - destruct (startswith path "/"%string) eqn:S.
      + apply startswith_slash in S as (p' & ->). reflexivity.
      + now rewrite ltrim1_no. }
  rewrite T. clear t T. f_equal. apply unparse_show; [apply with_path_hier, url_ok_hier; auto|].
  right. cbn [with_path u_path]. destruct (ok_path_abs u H) as [E|(p & E)]; rewrite E.
  - eexists. reflexivity.
  - unfold rtrim1. destruct (endswith _ _); [|eexists; reflexivity].
    destruct p as [|c p]; eexists; reflexivity.
Qed.

(** * dirname *)
Lemma lstrip_slash_no s : (forall s', s <> "/"%char :: s') -> lstrip_slash s = s.
Proof.
  intros H. destruct s as [|c s]; auto.
  destruct c as [[] [] [] [] [] [] [] []]; try reflexivity. exfalso. now apply (H s).
Qed.
Lemma rstrip_slash_id d : d <> [] -> last d "x"%char <> "/"%char -> rstrip_slash d = d.
Proof.
  intros Hne Hl. unfold rstrip_slash. destruct (exists_last Hne) as (d' & x & ->).
  rewrite last_last in Hl. rewrite rev_app_distr. cbn [rev app].
  rewrite lstrip_slash_no by congruence. cbn [rev]. now rewrite rev_involutive.
Qed.
Lemma rstrip_slash_snoc d : rstrip_slash (d ++ lit "/") = rstrip_slash d.
Proof. unfold rstrip_slash. rewrite rev_app_distr. reflexivity. Qed.
Lemma dirname_spec d f : ~ In "/"%char f -> d <> [] -> last d "x"%char <> "/"%char ->
  dirname (d ++ "/"%char :: f) = d.
Proof.
  intros Hf Hne Hl. unfold dirname. rewrite rcut_app by auto.
  rewrite forallb_app. assert (forallb (Ascii.eqb "/") d = false) as ->.
  { destruct (forallb (Ascii.eqb "/") d) eqn:E; auto. exfalso. apply Hl.
    rewrite forallb_forall in E. destruct (exists_last Hne) as (d' & x & ->).
    rewrite last_last. specialize (E x). apply Ascii.eqb_eq in E; auto.
    apply in_or_app. right. now left. }
  cbn [andb]. rewrite rstrip_slash_snoc. now apply rstrip_slash_id.
Qed.
Lemma dirname_root f : ~ In "/"%char f -> dirname ("/"%char :: f) = lit "/".
Proof.
  intros Hf. unfold dirname. change ("/"%char :: f) with ([] ++ "/"%char :: f).
  rewrite rcut_app by auto. reflexivity.
Qed.

Lemma url_dirname_other u : url_ok u ->
  endswith (u_path u) "json"%string = false -> endswith (u_path u) "yaml"%string = false ->
  url_dirname (show u) = Ok (show u).
Proof. intros H A B. unfold url_dirname. rewrite parse_show by auto. cbn [bind]. now rewrite A, B. Qed.
Lemma url_dirname_file u d f : url_ok u ->
  u_path u = d ++ "/"%char :: f -> ~ In "/"%char f ->
  endswith (u_path u) "json"%string = true \/ endswith (u_path u) "yaml"%string = true ->
  d = [] \/ (d <> [] /\ last d "x"%char <> "/"%char) ->
  url_dirname (show u) = Ok (show (with_path u (match d with [] => lit "/" | _ => d end))).
Proof.
  intros H P F E D. unfold url_dirname. rewrite parse_show by auto. cbn [bind].
  assert (endswith (u_path u) "json"%string || endswith (u_path u) "yaml"%string = true) as ->.
  { destruct E as [ -> | -> ]; auto using orb_true_r. }
  f_equal. rewrite P. destruct D as [ -> |[D1 D2]].
  - cbn [app]. rewrite dirname_root by auto. apply unparse_show; [now apply with_path_hier, url_ok_hier|].
    right. cbn. eauto.
  - rewrite dirname_spec by auto. destruct d as [|c d]; [easy|].
    apply unparse_show; [now apply with_path_hier, url_ok_hier|]. right. cbn [with_path u_path].
    destruct (ok_path_abs u H) as [Q|(p & Q)]; rewrite P in Q; [discriminate|]. inversion Q; eauto.
Qed.

(** * jr_split *)
Section Split.
  Context (abs_uri win_uri : str -> str).
  Lemma show_not_windows u : url_ok u -> windows_path (show u) = false.
  Proof.
    intros H. pose proof (ok_scheme u H) as (c & s' & E & Ha & Hc). unfold show. rewrite E.
    destruct s' as [|c2 s'].
    - reflexivity.
    - cbn [app]. unfold windows_path.
      assert (c2 <> ":"%char).
      { intros ->. assert (I : In ":"%char (u_scheme u)) by (rewrite E; right; now left).
        apply Hc in I as [I _]. discriminate. }
      destruct c2 as [[] [] [] [] [] [] [] []]; try reflexivity. congruence.
  Qed.
  Lemma show_nonempty u : url_ok u -> nonempty (show u) = true.
  Proof. intros H. destruct (ok_scheme u H) as (c & s' & E & _). unfold show. now rewrite E. Qed.
  Lemma normalize_url_ok u : url_ok u -> normalize_url abs_uri win_uri (show u) = Ok (show u).
  Proof.
    intros H. unfold normalize_url. rewrite show_nonempty, show_not_windows, parse_show by auto.
    cbn [negb bind]. destruct (ok_scheme u H) as (c & s' & E & _). now rewrite E.
  Qed.
  Lemma url_ok_no_frag u : url_ok u -> url_ok (no_frag u).
  Proof. intros []. constructor; auto. Qed.
  Lemma jr_split_ok u : url_ok u ->
    jr_split abs_uri win_uri (show u) = Ok (show (no_frag u), "#"%char :: u_frag u).
  Proof.
    intros H. unfold jr_split. rewrite parse_show by auto. cbn [bind].
    rewrite unparse_ok by now apply url_ok_no_frag.
    rewrite normalize_url_ok by now apply url_ok_no_frag. cbn [bind].
    destruct (u_frag u); reflexivity.
  Qed.
  Lemma show_no_hash u : url_ok u -> u_frag u = [] -> ~ In "#"%char (show u).
  Proof.
    intros H E. unfold show. rewrite E, part_nil, app_nil_r.
    assert (HS : ~ In "#"%char (u_scheme u)).
    { destruct (ok_scheme u H) as (c & s' & -> & _ & Hc). intros Hi. apply Hc in Hi as [Hi _]. discriminate. }
    rewrite !in_app_iff. intros [Hi|[Hi|[Hi|[Hi|[Hi|Hi]]]]].
    - auto.
    - cbn in Hi. intuition discriminate.
    - eapply (ok_netloc u H "#"%char); [inlit|auto].
    - eapply (ok_path u H "#"%char); [inlit|auto].
    - apply In_part in Hi as [Hi|Hi]; [discriminate|]. eapply (ok_params u H "#"%char); [inlit|auto].
    - apply In_part in Hi as [Hi|Hi]; [discriminate|]. now apply (ok_query u H).
  Qed.
  Lemma show_frag u : show u = show (no_frag u) ++ part "#" (u_frag u).
  Proof. unfold show, no_frag. cbn [u_scheme u_netloc u_path u_params u_query u_frag part].
    rewrite !app_nil_r, <- !app_assoc. reflexivity. Qed.
  (** a local pointer *)
  Lemma jr_split_local jp : jr_split abs_uri win_uri ("#"%char :: jp) = Ok ([], "#"%char :: jp).
  Proof.
    unfold jr_split, urlparse.
    assert (E : split_scheme ("#"%char :: jp) = ([], "#"%char :: jp)).
    { unfold split_scheme. destruct (cut _ _) as [[]|]; reflexivity. }
    rewrite E. cbn. destruct jp; reflexivity.
  Qed.
End Split.

(** * Dot segments *)
Lemma dots_dec s : {dots s} + {~ dots s}.
Proof.
  destruct s as [|c s]; [right; intros [H _]; easy|].
  destruct (forallb (Ascii.eqb ".") (c :: s)) eqn:E.
  - left. split; [easy|]. rewrite forallb_forall in E. intros x Hx. symmetry. apply Ascii.eqb_eq. auto.
  - right. intros [_ H]. assert (forallb (Ascii.eqb ".") (c :: s) = true); [|congruence].
    apply forallb_forall. intros x Hx. rewrite (H x Hx). apply Ascii.eqb_refl.
Qed.
Lemma dots_forallb s : dots s <-> s <> [] /\ forallb (Ascii.eqb ".") s = true.
Proof.
  unfold dots. rewrite forallb_forall. split; intros [A B]; split; auto; intros x Hx.
  - rewrite (B x Hx). apply Ascii.eqb_refl.
  - symmetry. apply Ascii.eqb_eq. auto.
Qed.
Lemma dot_step_plain np s : ~ dots s -> dot_step np s = s :: np.
Proof.
  intros H. unfold dot_step.
  destruct (str_eqb_spec s "."%string) as [ -> |D1].
  { exfalso. apply H. split; [easy|]. cbn. intuition. }
  destruct (str_eqb_spec s ".."%string) as [ -> |D2].
  { exfalso. apply H. split; [easy|]. cbn. intuition. }
  unfold is_dots3. destruct (forallb (Ascii.eqb ".") s) eqn:E; [|now rewrite andb_false_r].
  destruct s; [reflexivity|]. exfalso. apply H. apply dots_forallb. split; easy.
Qed.
Lemma dot_step_dot np : dot_step np (lit ".") = np.
Proof. reflexivity. Qed.
Lemma dot_step_up np s : up s -> dot_step np s = tl np.
Proof.
  intros [H1 H2]. unfold dot_step.
  destruct (str_eqb_spec s "."%string); [contradiction|].
  destruct (str_eqb_spec s ".."%string); auto.
  unfold is_dots3. apply dots_forallb in H1 as [A B]. rewrite B.
  destruct s as [|a [|b [|c s]]]; [easy| | |reflexivity]; exfalso.
  - cbn [forallb] in B. rewrite andb_true_r in B. apply Ascii.eqb_eq in B. subst. now apply n.
  - cbn [forallb] in B. rewrite andb_true_r in B. apply andb_true_iff in B as [B1 B2].
    apply Ascii.eqb_eq in B1, B2. subst. now apply n0.
Qed.
Lemma dots_cases s : dots s -> s = lit "." \/ up s.
Proof.
  intros H. destruct (str_eq_dec s (lit ".")); auto. right. split; auto.
Qed.
Lemma fold_plain a : (forall s, In s a -> ~ dots s) -> forall np,
  fold_left dot_step a np = rev a ++ np.
Proof.
  induction a as [|x a IH]; intros H np; cbn [fold_left rev app]; auto.
  rewrite dot_step_plain by (apply H; now left). rewrite IH by (intros s Hs; apply H; now right).
  now rewrite <- app_assoc.
Qed.
Lemma clean_removes_dots : removes_dots clean_segments.
Proof.
  unfold clean_segments. constructor.
  - intros l H. rewrite fold_plain by auto. now rewrite app_nil_r, rev_involutive.
  - intros a b. rewrite !fold_left_app. cbn [fold_left]. now rewrite dot_step_dot.
  - intros a x u b Ha Hx Hu. rewrite !fold_left_app. cbn [fold_left].
    rewrite (dot_step_plain _ x), (dot_step_up _ u) by auto. reflexivity.
  - intros u b Hu. cbn [fold_left]. rewrite dot_step_up by auto. reflexivity.
Qed.
Lemma first_dots l : (forall s, In s l -> ~ dots s) \/
  exists a d b, l = a ++ d :: b /\ (forall s, In s a -> ~ dots s) /\ dots d.
Proof.
  induction l as [|x l IH]; [left; easy|]. destruct (dots_dec x) as [D|D].
  - right. exists [], x, l. split; [reflexivity|]. split; [easy|exact D].
  - destruct IH as [IH|(a & d & b & -> & Ha & Hd)].
    + left. intros s [<-|Hs]; auto.
    + right. exists (x :: a), d, b. split; [reflexivity|]. split; [|exact Hd]. intros s [<-|Hs]; auto.
Qed.
Lemma removes_dots_unique f g : removes_dots f -> removes_dots g -> forall l, f l = g l.
Proof.
  intros Hf Hg l. remember (length l) as n eqn:Hn. assert (L : length l <= n) by lia. clear Hn.
  revert l L. induction n as [|n IH]; intros l L.
  - destruct l; [|cbn in L; lia]. rewrite (rd_plain f Hf), (rd_plain g Hg); easy.
  - destruct (first_dots l) as [P|(a & d & b & -> & Ha & Hd)].
    + rewrite (rd_plain f Hf), (rd_plain g Hg); auto.
    + rewrite app_length in L. cbn [length] in L. destruct (dots_cases d Hd) as [ -> |U].
      * rewrite (rd_dot f Hf), (rd_dot g Hg). apply IH. rewrite app_length. lia.
      * destruct a as [|a0 a'] eqn:Ea.
        -- cbn [app]. rewrite (rd_up_root f Hf), (rd_up_root g Hg) by auto. apply IH. cbn in L. lia.
        -- rewrite <- Ea in *. assert (Hne : a <> []) by (subst; easy).
           destruct (exists_last Hne) as (a1 & x & E). rewrite E in *. clear Ea.
           rewrite <- !app_assoc. cbn [app].
           assert (A1 : forall s, In s a1 -> ~ dots s) by (intros; apply Ha, in_or_app; auto).
           assert (X : ~ dots x) by (apply Ha, in_or_app; right; now left).
           rewrite (rd_up f Hf), (rd_up g Hg) by auto. apply IH.
           rewrite !app_length in *. cbn in L. lia.
Qed.
Lemma clean_no_dots l s : In s (clean_segments l) -> ~ dots s /\ In s l.
Proof.
  unfold clean_segments. rewrite <- in_rev.
  enough (G : forall np, In s (fold_left dot_step l np) -> (In s np \/ (~ dots s /\ In s l))).
  { intros H. apply G in H as [[]|H]; auto. }
  induction l as [|x l IH]; intros np; cbn [fold_left]; auto.
  intros H. apply IH in H as [H|[H1 H2]]; [|right; split; auto; now right].
  destruct (dots_dec x) as [D|D].
  - destruct (dots_cases x D) as [ -> |U].
    + rewrite dot_step_dot in H. auto.
    + rewrite dot_step_up in H by auto. destruct np; auto. left. now right.
  - rewrite dot_step_plain in H by auto. destruct H as [<-|H]; auto. right. split; auto. now left.
Qed.

(** * normalize_jr *)
Lemma split_char_none c s : ~ In c s -> split [c] s = [s].
Proof. intros H. unfold split. apply split_aux_no_occ; [easy|]. now rewrite occurs_char. Qed.
Lemma last_segment_app d l : last_segment (d ++ "/"%char :: l) = last_segment l.
Proof.
  unfold last_segment. change (split "/"%string) with (split ["/"%char]).
  rewrite split_char_app. destruct (exists_last (split_nonempty ["/"%char] l)) as (a & x & ->).
  now rewrite app_assoc, !last_last.
Qed.
Lemma In_last_segment c p : In c (last_segment p) -> In c p.
Proof.
  unfold last_segment. change (split "/"%string) with (split ["/"%char]).
  intros H. destruct (exists_last (split_nonempty ["/"%char] p)) as (a & x & E).
  rewrite E, last_last in H. rewrite <- (join_split ["/"%char] p) by easy. rewrite E.
  clear E. induction a as [|y a IH]; [exact H|]. cbn [app].
  destruct (a ++ [x]) eqn:E2; [destruct a; discriminate|]. rewrite join_cons.
  apply in_or_app. right. now right.
Qed.
Lemma split_join_slash segs rel : segs <> [] -> Forall (fun s => ~ In "/"%char s) segs ->
  split ["/"%char] (join ["/"%char] segs ++ "/"%char :: rel) = segs ++ split ["/"%char] rel.
Proof. intros Hne H. rewrite split_char_app. now rewrite split_char_join. Qed.

Lemma has_scheme_spec s p : urlparse s = Ok p -> (u_scheme p <> [] <-> has_scheme s).
Proof.
  unfold urlparse. destruct (split_scheme s) as [sc rest] eqn:E. intros H.
  assert (S : u_scheme p = sc).
  { destruct (split_netloc rest) as [[nl u]|]; [|discriminate].
    cbn [bind] in H. destruct (cut_or "#" u) as [u1 f1].
    destruct (cut_or "?" u1) as [u2 f2].
    destruct (parse_params sc u2) as [u3 f3]. inversion H; reflexivity. }
  rewrite S. clear H S. unfold split_scheme in E. split.
  - destruct s as [|c s]; [inversion E; congruence|].
    destruct (cut ":" (c :: s)) as [[a b]|] eqn:C; [|inversion E; congruence].
    destruct (is_alpha c && forallb scheme_char a) eqn:V; [|inversion E; congruence].
    intros _. apply andb_true_iff in V as [V1 V2]. apply cut_spec in C as [C1 C2].
    destruct a as [|a0 a]; cbn in C1.
    + inversion C1; subst. discriminate.
    + inversion C1; subst. exists a0, a, b. auto.
  - intros (c & a & b & -> & Ha & Hc). change (c :: a ++ ":"%char :: b) with ((c :: a) ++ ":"%char :: b) in E.
    rewrite cut_app in E.
    + cbn [app] in E. rewrite Ha, Hc in E. inversion E; subst. discriminate.
    + intros Hi. rewrite forallb_forall in Hc. apply Hc in Hi. discriminate.
Qed.

Lemma jr_absolute path jp url p : nonempty path = true -> ~ In "#"%char path ->
  urlparse path = Ok p -> has_scheme path ->
  normalize_jr (path ++ part "#" jp) url = Ok (path ++ part "#" jp).
Proof.
  intros Hne Hh Hp Hs. apply (has_scheme_spec _ _ Hp) in Hs.
  unfold normalize_jr.
  assert (C : jr_parts (path ++ part "#" jp) = (path, match jp with [] => None | _ => Some jp end)).
  { unfold jr_parts. destruct jp as [|j jp]; cbn [part].
    - rewrite app_nil_r. now rewrite cut_none.
    - now rewrite cut_app. }
  rewrite C. rewrite Hne, Hp. cbn [bind].
  apply nonempty_true in Hs. rewrite Hs. cbn [negb andb].
  destruct path as [|c path]; [discriminate|].
  destruct url; cbn [bind]; destruct jp; cbn [part]; rewrite ?app_nil_r; reflexivity.
Qed.
Lemma jr_local jp u : u <> [] -> normalize_jr ("#"%char :: jp) (Some u) = Ok (u ++ part "#" jp).
Proof.
  intros H. unfold normalize_jr, jr_parts. cbn [cut]. rewrite Ascii.eqb_refl. cbn [nonempty bind].
  destruct u; [easy|]. destruct jp; cbn [part]; rewrite ?app_nil_r; reflexivity.
Qed.
Lemma rel_parse_ok rel : ~ has_scheme rel -> without (lit "[]") rel -> exists p, urlparse rel = Ok p /\ u_scheme p = [].
Proof.
  intros Hs Hb.
  assert (E : exists p, urlparse rel = Ok p).
  { unfold urlparse. destruct (split_scheme rel) as [sc rest] eqn:E.
    assert (R : rest = rel).
    { unfold split_scheme in E. destruct rel as [|c rel]; [inversion E; auto|].
      destruct (cut ":" (c :: rel)) as [[a b]|] eqn:C; [|inversion E; auto].
      destruct (is_alpha c && forallb scheme_char a) eqn:V; [|inversion E; auto].
      exfalso. apply Hs. apply andb_true_iff in V as [V1 V2]. apply cut_spec in C as [C1 C2].
      destruct a as [|a0 a]; cbn in C1; inversion C1; subst; [discriminate|].
      exists a0, a, b. auto. }
    subst rest.
    assert (B : exists nl u, split_netloc rel = Ok (nl, u)).
    { assert (SP : forall f s c, In c (fst (span f s)) -> In c s).
      { clear. induction s as [|x s IH]; cbn [span fst]; auto. destruct (f x); cbn [fst]; [|easy].
        intros c [<-|H]; [now left|right; auto]. }
      assert (G : forall rest, (forall c, In c rest -> In c rel) ->
        exists nl u, (let '(netloc, url) := span netloc_char rest in
          if xorb (has "[" netloc) (has "]" netloc) then Err ValueError else Ok (netloc, url)) = Ok (nl, u)).
      { intros rest Hr. pose proof (SP netloc_char rest) as SPr.
        destruct (span netloc_char rest) as [nl u]. cbn [fst] in SPr.
        rewrite !has_false.
        - cbn [xorb]. eauto.
        - intros Hi. eapply (Hb "]"%char); [inlit|auto].
        - intros Hi. eapply (Hb "["%char); [inlit|auto]. }
      unfold split_netloc. destruct rel as [|c1 [|c2 rest]];
        [eauto| destruct c1 as [[] [] [] [] [] [] [] []]; eauto|].
      destruct c1 as [[] [] [] [] [] [] [] []]; eauto.
      destruct c2 as [[] [] [] [] [] [] [] []]; eauto.
      apply G. intros c Hc. right. now right. }
    destruct B as (nl & u & ->). cbn [bind].
    destruct (cut_or "#" u) as [u1 f1].
    destruct (cut_or "?" u1) as [u2 f2].
    destruct (parse_params sc u2) as [u3 f3]. eauto. }
  destruct E as (p & Hp). exists p. split; auto. pose proof (has_scheme_spec _ _ Hp) as HS.
  destruct (u_scheme p); auto. exfalso. apply Hs, HS. easy.
Qed.

Lemma jr_relative u segs file rel jp f :
  url_ok u -> u_frag u = [] ->
  u_path u = lit "/" ++ join "/"%string segs ++ lit "/" ++ file ->
  segs <> [] -> Forall (fun s => s <> [] /\ ~ In "/"%char s) segs -> ~ In "/"%char file ->
  rel <> [] -> ~ has_scheme rel -> without (lit "?#;[]") rel ->
  removes_dots f ->
  normalize_jr (rel ++ part "#" jp) (Some (show u)) =
  Ok (show (with_path u (lit "/" ++ join "/"%string (f (segs ++ split "/"%string rel)))) ++ part "#" jp).
Proof.
  intros Hu Hf Hpath Hsegs Hseg Hfile Hrel Hsch Hw Hrd.
  rewrite (removes_dots_unique _ _ Hrd clean_removes_dots). clear f Hrd.
  destruct (rel_parse_ok rel) as (p & Hp & Hps); auto.
  { intros c Hc. apply Hw. cbn in *. tauto. }
  assert (Hh : ~ In "#"%char rel) by (apply Hw; inlit).
  unfold normalize_jr.
  assert (C : jr_parts (rel ++ part "#" jp) = (rel, match jp with [] => None | _ => Some jp end)).
  { unfold jr_parts. destruct jp as [|j jp]; cbn [part].
    - rewrite app_nil_r. now rewrite cut_none.
    - now rewrite cut_app. }
  rewrite C. clear C. apply nonempty_true in Hrel as Hrel'. rewrite Hrel', Hp. cbn [bind].
  rewrite Hps, show_nonempty by auto. cbn [nonempty negb andb].
  rewrite parse_show by auto. cbn [bind].
  assert (D : dirname (u_path u) = lit "/" ++ join "/"%string segs).
  { rewrite Hpath. change (lit "/" ++ file) with ("/"%char :: file). rewrite app_assoc.
    apply dirname_spec; auto.
    - easy.
    - destruct (exists_last Hsegs) as (s' & x & ->). apply Forall_app in Hseg as [_ Hx].
      inversion Hx as [|? ? [Hx1 Hx2] _]; subst.
      assert (exists q, lit "/" ++ join "/"%string (s' ++ [x]) = q ++ x).
      { clear. induction s' as [|y s' IH]; [exists (lit "/"); reflexivity|].
        destruct IH as (q & Eq). cbn [app].
        destruct (s' ++ [x]) eqn:E2; [destruct s'; discriminate|]. rewrite join_cons.
        rewrite Eq. exists (lit "/" ++ y ++ q). now rewrite <- !app_assoc. }
      destruct H as (q & ->). destruct (exists_last Hx1) as (x' & c & ->).
      rewrite app_assoc, last_last. intros ->. apply Hx2, in_or_app. right. now left. }
  rewrite D. clear D.
  match goal with |- context [join ?s [?a; ?b]] =>
    change (join s [a; b]) with ("/"%char :: join ["/"%char] segs ++ "/"%char :: rel) end.
  set (P2 := "/"%char :: join ["/"%char] segs ++ "/"%char :: rel).
  assert (Hok2 : url_ok (with_path u P2)).
  { destruct Hu as [Hs Hho Hn Hpa Hpabs Hpar Hsg Hpp Hq]. constructor; cbn [with_path u_scheme u_netloc u_path u_params u_query u_frag]; auto.
    - subst P2. rewrite Hpath in Hpa.
      change (lit "/" ++ join "/"%string segs ++ lit "/" ++ file) with
        (["/"%char] ++ join ["/"%char] segs ++ ["/"%char] ++ file) in Hpa.
      rewrite !without_app in Hpa. destruct Hpa as (A1 & A2 & A3 & _).
      change ("/"%char :: join ["/"%char] segs ++ "/"%char :: rel) with
        (["/"%char] ++ join ["/"%char] segs ++ ["/"%char] ++ rel).
      rewrite !without_app. repeat split; auto. intros c Hc. apply Hw. cbn in *. tauto.
    - right. eexists. reflexivity.
    - subst P2. change ("/"%char :: join ["/"%char] segs ++ "/"%char :: rel) with
        (("/"%char :: join ["/"%char] segs) ++ "/"%char :: rel).
      rewrite last_segment_app. intros Hi. apply In_last_segment in Hi.
      eapply (Hw ";"%char); [inlit|auto].
    - intros Hne. split; [now apply Hpp|easy]. }
  rewrite unparse_ok by auto. unfold derelativise_url. rewrite parse_show by auto.
  cbn [bind with_path u_path]. subst P2. cbn [skipn].
  change (split "/"%string) with (split ["/"%char]).
  rewrite split_join_slash; auto.
  2:{ eapply Forall_impl; [|exact Hseg]. cbv beta; intros a []; auto. }
  match goal with |- context [urlunparse (with_path (with_path u _) ?p)] => set (P3 := p) end.
  match goal with |- context [urlunparse (with_path (with_path u ?q) P3)] =>
    change (urlunparse (with_path (with_path u q) P3)) with (urlunparse (with_path u P3)) end.
  match goal with |- _ = Ok (show (with_path u ?p) ++ _) => change p with P3 end.
  rewrite (unparse_show (with_path u P3)).
  2:{ now apply with_path_hier, url_ok_hier. }
  2:{ right. cbn. eauto. }
  assert (NE : exists c r, show (with_path u P3) = c :: r).
  { unfold show. cbn [with_path u_scheme]. destruct (ok_scheme u Hu) as (c & s' & E & _). rewrite E. cbn. eauto. }
  destruct NE as (c & r & ->). cbn [bind].
  destruct jp; cbn [part]; rewrite ?app_nil_r; reflexivity.
Qed.

(** * splitext *)
Lemma not_all_dots stem : (exists c, In c stem /\ c <> "."%char) <-> forallb (Ascii.eqb ".") stem = false.
Proof.
  split.
  - intros (c & Hc & Hn). destruct (forallb _ stem) eqn:E; auto. exfalso. apply Hn.
    rewrite forallb_forall in E. symmetry. now apply Ascii.eqb_eq, E.
  - induction stem as [|c s IH]; [discriminate|]. cbn [forallb].
    destruct (Ascii.eqb_spec "." c) as [<-|D]; cbn [andb]; intros H.
    + destruct (IH H) as (x & Hx & Hn). exists x. split; auto. now right.
    + exists c. split; [now left|congruence].
Qed.
Lemma base_of p : exists dir base, p = dir ++ base /\ ~ In "/"%char base /\
  (dir = [] \/ exists d, dir = d ++ ["/"%char]) /\
  match rcut "/" p with Some (_, l) => l | None => p end = base.
Proof.
  destruct (rcut "/" p) as [[d l]|] eqn:E.
  - apply rcut_spec in E as [-> H]. exists (d ++ ["/"%char]), l. rewrite <- app_assoc. eauto 6.
  - apply rcut_None_inv in E. exists [], p. auto.
Qed.
Lemma splitext_spec p e : e <> [] -> (splitext p = e <-> has_ext p e).
Proof.
  intros He. unfold splitext. split.
  - destruct (base_of p) as (dir & base & -> & Hb & Hd & ->).
    destruct (rcut "." base) as [[a b]|] eqn:R; [|congruence].
    apply rcut_spec in R as [-> Hn]. destruct (forallb _ a) eqn:F; [congruence|]. intros <-.
    exists dir, a, b. rewrite in_app_iff in Hb. repeat split; auto.
    + intros H. apply Hb. right. now right.
    + now apply not_all_dots.
  - intros (dir & stem & b & -> & -> & Hd & H1 & H2 & H3 & H4).
    assert (B : match rcut "/" (dir ++ stem ++ "."%char :: b) with Some (_, l) => l
                | None => dir ++ stem ++ "."%char :: b end = stem ++ "."%char :: b).
    { assert (N : ~ In "/"%char (stem ++ "."%char :: b)).
      { rewrite in_app_iff. intros [H|[H|H]]; auto. discriminate. }
      destruct Hd as [ -> |(d & ->)].
      - cbn [app]. now rewrite rcut_none.
      - rewrite <- app_assoc. cbn [app]. now rewrite rcut_app. }
    rewrite B, rcut_app by auto. apply not_all_dots in H4. now rewrite H4.
Qed.
Lemma has_ext_fun p e1 e2 : has_ext p e1 -> has_ext p e2 -> e1 = e2.
Proof.
  intros H1 H2.
  assert (N1 : e1 <> []) by (destruct H1 as (? & ? & ? & _ & -> & _); easy).
  assert (N2 : e2 <> []) by (destruct H2 as (? & ? & ? & _ & -> & _); easy).
  apply (splitext_spec p e1 N1) in H1. apply (splitext_spec p e2 N2) in H2. congruence.
Qed.
Lemma valid_exts_nonempty e : In e valid_exts -> e <> [].
Proof. cbn. intros [<-|[<-|[<-|[]]]]; discriminate. Qed.
Lemma patch_path_base b p e : In e valid_exts -> has_ext b e -> patch_path b p = completed p e.
Proof.
  intros He Hb. pose proof (valid_exts_nonempty e He) as Hn. apply (splitext_spec b e Hn) in Hb.
  unfold patch_path, completed. rewrite Hb. apply mem_In in He. rewrite He.
  apply nonempty_true in Hn. now rewrite !Hn, He, Hn.
Qed.
Lemma patch_path_own b p e : (forall e', In e' valid_exts -> ~ has_ext b e') ->
  In e valid_exts -> has_ext p e -> patch_path b p = p.
Proof.
  intros Hb He Hp. pose proof (valid_exts_nonempty e He) as Hn.
  assert (E : endswith p e = true).
  { destruct Hp as (d & s & x & -> & _). apply endswith_spec. exists (d ++ s). now rewrite app_assoc. }
  apply (splitext_spec p e Hn) in Hp. unfold patch_path.
  assert (mem (splitext b) valid_exts = false) as ->.
  { destruct (mem _ _) eqn:M; auto. apply mem_In in M. exfalso. apply (Hb _ M).
    apply splitext_spec; auto. now apply valid_exts_nonempty. }
  cbn [nonempty]. rewrite Hp. apply mem_In in He. rewrite He.
  apply nonempty_true in Hn. now rewrite Hn, E.
Qed.
Lemma patch_path_default b p : (forall e', In e' valid_exts -> ~ has_ext b e') ->
  (forall e', In e' valid_exts -> ~ has_ext p e') -> patch_path b p = completed p (lit ".json").
Proof.
  intros Hb Hp. unfold patch_path, completed.
  assert (mem (splitext b) valid_exts = false) as ->.
  { destruct (mem _ _) eqn:M; auto. apply mem_In in M. exfalso. apply (Hb _ M).
    apply splitext_spec; auto. now apply valid_exts_nonempty. }
  cbn [nonempty].
  assert (mem (splitext p) valid_exts = false) as ->.
  { destruct (mem _ _) eqn:M; auto. apply mem_In in M. exfalso. apply (Hp _ M).
    apply splitext_spec; auto. now apply valid_exts_nonempty. }
  reflexivity.
Qed.
