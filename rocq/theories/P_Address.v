(** Proofs about the addresses of documents. *)
From Coq Require Import Lia.
From Verif Require Import PyBase PyFacts M_Url S_Url P_Url S_Address.

Lemma split_no_scheme s : ~ has_scheme s -> split_scheme s = ([], s).
Proof.
  intro H. unfold split_scheme. destruct s as [|c s]; [reflexivity|]. destruct (cut ":" (c :: s)) as [[a b]|] eqn:C; [|reflexivity].
  destruct (is_alpha c && forallb scheme_char a) eqn:V; [|reflexivity]. exfalso. apply H. apply andb_true_iff in V as [V1 V2]. apply cut_spec in C as [C1 C2].
  destruct a as [|a0 a]; cbn in C1; inversion C1; subst; [discriminate|]. exists a0, a, b. auto.
Qed.
Lemma slash_no_scheme r : ~ has_scheme ("/"%char :: r).
Proof. intros (c & a & b & E & A & _). injection E as <- _. discriminate A. Qed.
Lemma netloc_none s : ~ two_slashes s -> split_netloc s = Ok ([], s).
Proof.
  intro H. unfold split_netloc. destruct s as [|c1 [|c2 r]]; [reflexivity|destruct c1 as [[] [] [] [] [] [] [] []]; reflexivity|].
  destruct c1 as [[] [] [] [] [] [] [] []]; try reflexivity. destruct c2 as [[] [] [] [] [] [] [] []]; try reflexivity. elim H. exists r. reflexivity.
Qed.
Lemma netloc_two r : split_netloc (lit "//" ++ r) = let '(n, u) := span netloc_char r in if xorb (has "[" n) (has "]" n) then Err ValueError else Ok (n, u).
Proof. reflexivity. Qed.
Definition path_in (sc u : str) : str := fst (parse_params sc (fst (cut_or "?" (fst (cut_or "#" u))))).
Lemma urlparse_is s : urlparse s = (do nu <- split_netloc (snd (split_scheme s));
  let u := snd nu in let ps := parse_params (fst (split_scheme s)) (fst (cut_or "?" (fst (cut_or "#" u)))) in
  Ok (Url6 (fst (split_scheme s)) (fst nu) (fst ps) (snd ps) (snd (cut_or "?" (fst (cut_or "#" u)))) (snd (cut_or "#" u)))).
Proof.
  unfold urlparse. destruct (split_scheme s) as [sc rest]. cbn [fst snd]. destruct (split_netloc rest) as [[n u]|e]; [|reflexivity]. cbn [bind fst snd].
  destruct (cut_or "#" u) as [u1 f1]. cbn [fst snd]. destruct (cut_or "?" u1) as [u2 f2]. cbn [fst snd]. now destruct (parse_params sc u2) as [u3 f3].
Qed.
Lemma front_path s p : front s p -> fst (cut_or "?" (fst (cut_or "#" s))) = p.
Proof.
  intros (r & -> & W & R). assert (NQ : ~ In "?"%char p) by (intro I; apply (W "?"%char); [now left|exact I]). assert (NH : ~ In "#"%char p) by (intro I; apply (W "#"%char); [right; now left|exact I]).
  unfold cut_or. destruct R as [->|(c & r' & -> & [<-|[<-|[]]])].
  - rewrite app_nil_r, (cut_none _ _ NH). cbn [fst]. now rewrite (cut_none _ _ NQ).
  - destruct (cut "#" (p ++ "?"%char :: r')) as [[a b]|] eqn:C; cbn [fst]; [|now rewrite (cut_app _ _ _ NQ)].
    apply cut_spec in C as [C NA]. assert (exists a', a = p ++ "?"%char :: a') as (a' & ->).
    { clear - C NH. revert a C NH. induction p as [|x p IH]; intros a C NH; cbn in C.
      - destruct a as [|y a]; [discriminate C|]. injection C as <- C. exists a. reflexivity.
      - destruct a as [|y a]; injection C as X C; [elim NH; now left|]. subst y. destruct (IH a C (fun I => NH (or_intror I))) as (a' & ->). exists a'. reflexivity. }
    now rewrite (cut_app _ _ _ NQ).
  - rewrite (cut_app _ _ _ NH). cbn [fst]. now rewrite (cut_none _ _ NQ).
Qed.
Lemma params_path p : nonempty (fst (parse_params [] p)) = true <-> path_text p.
Proof.
  unfold parse_params. replace (mem [] uses_params) with true by reflexivity. cbn [andb]. unfold path_text. destruct (has ";" p) eqn:H.
  - apply has_In in H. unfold split_params. destruct (rcut "/" p) as [[d l]|] eqn:R.
    + apply rcut_spec in R as [-> NL]. destruct (cut ";" l) as [[a b]|] eqn:C; cbn [fst]; (split; [intros _|intros _; now destruct d]).
      * split; [now destruct d|]. intros p' E. destruct d; [discriminate E|]. injection E as _ <-. apply in_or_app. right. now left.
      * split; [now destruct d|]. intros p' E. destruct d; [discriminate E|]. injection E as _ <-. apply in_or_app. right. now left.
    + apply rcut_None_inv in R. unfold cut_or. destruct (cut ";" p) as [[a b]|] eqn:C; [|now apply cut_None_inv in C]. apply cut_spec in C as [-> NA]. cbn [fst]. split.
      * destruct a as [|x a]; [discriminate|]. intros _. split; [discriminate|]. intros p' E. injection E as -> _. elim NA. now left.
      * intros [_ X]. destruct a as [|x a]; [|reflexivity]. exfalso. apply R. right. now apply (X b).
  - cbn [fst]. split; [|intros [X _]; now apply nonempty_true]. intro X. apply nonempty_true in X. split; [exact X|]. intros p' ->. cbn in H. discriminate H.
Qed.
Lemma not_drive s : ~ drive_path s -> windows_path s = false.
Proof.
  intro H. unfold windows_path. destruct s as [|c [|c1 [|c2 r]]]; try reflexivity; [destruct c1 as [[] [] [] [] [] [] [] []]; reflexivity|].
  destruct c1 as [[] [] [] [] [] [] [] []]; try reflexivity. destruct c2 as [[] [] [] [] [] [] [] []]; try reflexivity.
  destruct (is_alpha c) eqn:A; [|reflexivity]. elim H. exists c, r. split; [reflexivity|exact A].
Qed.
Lemma drive_scheme s : drive_path s -> has_scheme s.
Proof. intros (c & r & -> & A). exists c, [], ("\"%char :: r). split; [reflexivity|]. split; [exact A|]. cbn. unfold scheme_char. now rewrite A. Qed.
Lemma span_in f s c : In c (fst (span f s)) -> In c s.
Proof. induction s as [|x s IH]; cbn [span fst]; auto. destruct (f x); cbn [fst]; [|easy]. intros [<-|H]; [now left|right; auto]. Qed.
Lemma two_slashes_dec s : two_slashes s \/ ~ two_slashes s.
Proof.
  destruct s as [|a [|b r]]; [right; intros (r & E); discriminate E|right; intros (r & E); discriminate E|]. destruct (ascii_dec a "/"%char) as [->|N]; [|right; intros (q & E); injection E as -> _ _; now apply N].
  destruct (ascii_dec b "/"%char) as [->|N]; [left; now exists r|right; intros (q & E); injection E as -> _; now apply N].
Qed.
Lemma colon_char c : In c (lit ":") -> scheme_char c = false.
Proof. intros [<-|[]]. reflexivity. Qed.
Lemma scheme_split c a b : is_alpha c = true -> forallb scheme_char a = true -> split_scheme (c :: a ++ ":"%char :: b) = (lower (c :: a), b).
Proof.
  intros A F. unfold split_scheme. assert (N : ~ In ":"%char (c :: a)).
  { assert (X : forallb scheme_char (c :: a) = true) by (cbn [forallb]; rewrite F; unfold scheme_char; now rewrite A). intro I. rewrite forallb_forall in X. apply X in I. discriminate I. }
  pose proof (cut_app ":" (c :: a) b N) as C. cbn [app] in C. rewrite C, A. cbn [forallb]. rewrite F. unfold scheme_char. rewrite A. reflexivity.
Qed.
Lemma scheme_dec s : has_scheme s \/ ~ has_scheme s.
Proof.
  destruct s as [|c s]; [right; intros (? & ? & ? & E & _); discriminate E|]. destruct (cut ":" (c :: s)) as [[a b]|] eqn:C.
  - apply cut_spec in C as [C N]. destruct a as [|x a]; [right; intros (c' & a' & b' & E & A & _); injection C as -> _; injection E as <- _; discriminate A|]. injection C as -> ->.
    destruct (is_alpha x && forallb scheme_char a) eqn:V.
    + apply andb_true_iff in V as [V1 V2]. left. exists x, a, b. split; [reflexivity|]. split; [exact V1|]. cbn [forallb]. rewrite V2. unfold scheme_char. now rewrite V1.
    + right. intros (c' & a' & b' & E & A & F). pose proof E as E0. injection E as -> E. cbn [forallb] in F. apply andb_true_iff in F as [_ F].
      pose proof (scheme_split c' a' b' A F) as SS. rewrite <- E in SS. unfold split_scheme in SS. pose proof (cut_app ":" (c' :: a) b N) as C. cbn [app] in C. rewrite C in SS. cbn [forallb] in SS. rewrite A in SS.
      cbn [andb] in V. rewrite A in V. cbn [andb] in V. rewrite V, andb_false_r in SS. cbn [andb] in SS. injection SS as SS _. discriminate SS.
  - apply cut_None_inv in C. right. intros (c' & a & b & E & _). apply C. rewrite E. right. apply in_or_app. right. now left.
Qed.
Lemma has_scheme_parts s : has_scheme s -> exists c a b, s = c :: a ++ ":"%char :: b /\ is_alpha c = true /\ forallb scheme_char a = true.
Proof. intros (c & a & b & E & A & F). exists c, a, b. cbn [forallb] in F. apply andb_true_iff in F as [_ F]. auto. Qed.
Lemma netloc_chars n : without (lit "/?#") n <-> forallb netloc_char n = true.
Proof.
  rewrite forallb_forall. split.
  - intros W x I. unfold netloc_char. apply negb_true_iff. rewrite !orb_false_iff. repeat split; apply Ascii.eqb_neq; intros ->; refine (W _ _ I); cbn; auto.
  - intros W c J I. apply W in I. destruct J as [<-|[<-|[<-|[]]]]; discriminate I.
Qed.
Lemma span_inv f s n t : span f s = (n, t) -> s = n ++ t /\ forallb f n = true /\ (forall c t', t = c :: t' -> f c = false).
Proof.
  revert n t. induction s as [|x s IH]; cbn [span]; intros n t E; [injection E as <- <-; repeat split; discriminate|]. destruct (f x) eqn:F.
  - destruct (span f s) as [n' t'] eqn:S. injection E as <- <-. destruct (IH _ _ eq_refl) as (-> & A & B). cbn [forallb]. rewrite F. auto.
  - injection E as <- <-. repeat split. intros c t' E. now injection E as <- _.
Qed.
Lemma xorb_has n : xorb (has "[" n) (has "]" n) = true <-> ~ (In "["%char n <-> In "]"%char n).
Proof. rewrite <- !has_In. destruct (has "[" n), (has "]" n); cbn; intuition congruence. Qed.
Lemma end_host t : (t = [] \/ exists d t', t = d :: t' /\ In d (lit "/?#")) <-> (forall c t', t = c :: t' -> netloc_char c = false).
Proof.
  split.
  - intros [->|(d & t' & -> & J)] c t'' E; [discriminate E|]. injection E as <- _. destruct J as [<-|[<-|[<-|[]]]]; reflexivity.
  - intro H. destruct t as [|d t]; [now left|right]. exists d, t. split; [reflexivity|]. pose proof (H d t eq_refl) as N. unfold netloc_char in N. apply negb_false_iff in N. rewrite !orb_true_iff, !Ascii.eqb_eq in N. cbn. intuition congruence.
Qed.
Lemma bad_host_parse s : has_scheme s -> (bad_host s /\ urlparse s = Err ValueError) \/ (~ bad_host s /\ exists p, urlparse s = Ok p).
Proof.
  intro HS. pose proof (has_scheme_parts _ HS) as (c & a & b & E & A & F). pose proof (scheme_split c a b A F) as SS. rewrite <- E in SS. rewrite urlparse_is, SS. cbn [fst snd].
  assert (BH : bad_host s -> exists n t, b = lit "//" ++ n ++ t /\ span netloc_char (n ++ t) = (n, t) /\ xorb (has "[" n) (has "]" n) = true).
  { intros (c' & a' & n & t & E' & A' & F' & W & T & X). exists n, t. pose proof (scheme_split c' a' (lit "//" ++ n ++ t) A' F') as S'. change (c' :: a' ++ ":"%char :: lit "//" ++ n ++ t) with (c' :: a' ++ lit "://" ++ n ++ t) in S'. rewrite <- E' in S'.
    rewrite SS in S'. assert (B : b = lit "//" ++ n ++ t) by congruence. split; [exact B|]. split; [|now apply xorb_has]. apply span_app; [now apply netloc_chars|now apply end_host]. }
  destruct (two_slashes_dec b) as [(r & ->)|D].
  - rewrite netloc_two. destruct (span netloc_char r) as [n t] eqn:SP. destruct (xorb (has "[" n) (has "]" n)) eqn:X.
    + left. split; [|reflexivity]. destruct (span_inv _ _ _ _ SP) as (-> & N & T). exists c, a, n, t. split; [exact E|]. split; [exact A|]. split; [exact F|]. split; [now apply netloc_chars|]. split; [now apply end_host|now apply xorb_has].
    + right. split; [|cbn [bind]; eauto]. intro B. destruct (BH B) as (n' & t' & E' & SP' & X'). assert (R : r = n' ++ t') by (cbn in E'; congruence). rewrite R, SP' in SP. injection SP as <- <-. congruence.
  - right. rewrite (netloc_none _ D). cbn [bind]. split; [|eauto]. intro B. destruct (BH B) as (n' & t' & E' & _). apply D. rewrite E'. now exists (n' ++ t').
Qed.
Lemma bad_host_scheme s : bad_host s -> has_scheme s /\ ~ drive_path s.
Proof.
  intros (c & a & n & t & -> & A & F & _). split.
  - exists c, a, (lit "//" ++ n ++ t). split; [reflexivity|]. split; [exact A|]. cbn [forallb]. rewrite F. unfold scheme_char. now rewrite A.
  - intros (c' & r & E & _). destruct a as [|x a]; [discriminate E|]. injection E as _ -> _. discriminate F.
Qed.
Section Any.
  Context (abs_uri win_uri : str -> str).
  Notation normalize_url := (normalize_url abs_uri win_uri).
  Lemma normalize_no_scheme s n u : s <> [] -> ~ has_scheme s -> split_netloc s = Ok (n, u) ->
    normalize_url s = if negb (nonempty n) && nonempty (path_in [] u) then Ok (abs_uri s) else Err ValueError.
  Proof.
    intros NE NS SN. unfold M_Url.normalize_url. apply nonempty_true in NE. rewrite NE. cbn [negb]. rewrite not_drive by (intro D; now apply NS, drive_scheme).
    rewrite urlparse_is, (split_no_scheme _ NS). cbn [fst snd]. rewrite SN. cbn [bind u_scheme u_netloc u_path nonempty negb fst snd]. reflexivity.
  Qed.
  Lemma normalize_err s e : s <> [] -> ~ has_scheme s -> split_netloc s = Err e -> normalize_url s = Err e.
  Proof.
    intros NE NS SN. unfold M_Url.normalize_url. apply nonempty_true in NE. rewrite NE. cbn [negb]. rewrite not_drive by (intro D; now apply NS, drive_scheme).
    rewrite urlparse_is, (split_no_scheme _ NS). cbn [fst snd]. now rewrite SN.
  Qed.
  Lemma taken_is s r : taken abs_uri win_uri s r -> normalize_url s = r.
  Proof.
    intros [ |s' (c & t & -> & A)|s' p NS N2 FR PT|t|s' HS ND NB|s' BH|c t NI|s' p NE NS N2 FR NP|t T].
    - reflexivity.
    - unfold M_Url.normalize_url. cbn. now rewrite A.
    - assert (NE : s' <> []). { intros ->. destruct FR as (r' & E & _). destruct p; [now apply PT|discriminate E]. }
      rewrite (normalize_no_scheme _ _ _ NE NS (netloc_none _ N2)). unfold path_in. rewrite (front_path _ _ FR). apply params_path in PT. now rewrite PT.
    - erewrite (normalize_no_scheme _ [] ("/"%char :: t)); [|discriminate|apply slash_no_scheme|reflexivity]. cbn [nonempty negb andb].
      assert (X : exists p, front ("/"%char :: t) ("/"%char :: p)).
      { clear. induction t as [|x t (p & r & E & W & R)]; [exists [], []; split; [reflexivity|]; split; [|now left]; intros c I [<-|[]]; cbn in I; destruct I as [I|[I|[]]]; discriminate I|].
        destruct (in_dec ascii_dec x (lit "?#")) as [I|NI].
        - exists [], (x :: t). split; [reflexivity|]. split; [intros c J [<-|[]]; cbn in J; destruct J as [J|[J|[]]]; discriminate J|]. right. eauto.
        - exists (x :: p), r. injection E as ->. split; [reflexivity|]. split; [|exact R]. intros c J [<-|[<-|K]]; [apply (W "/"%char J); now left|auto|apply (W c J); now right]. }
      destruct X as (p & FR). unfold path_in. rewrite (front_path _ _ FR). assert (PT : path_text ("/"%char :: p)) by (split; [discriminate|discriminate]). apply params_path in PT. now rewrite PT.
    - unfold M_Url.normalize_url. destruct s' as [|x s']; [destruct HS as (? & ? & ? & E & _); discriminate E|]. cbn [nonempty negb]. rewrite (not_drive _ ND). destruct (bad_host_parse _ HS) as [[B _]|[_ (p & P)]]; [now elim NB|]. rewrite P. cbn [bind].
      apply (has_scheme_spec _ _ P) in HS. apply nonempty_true in HS. now rewrite HS.
    - destruct (bad_host_scheme _ BH) as [HS ND]. unfold M_Url.normalize_url. destruct s' as [|x s']; [destruct HS as (? & ? & ? & E & _); discriminate E|]. cbn [nonempty negb]. rewrite (not_drive _ ND).
      destruct (bad_host_parse _ HS) as [[_ P]|[B _]]; [now rewrite P|now elim B].
    - assert (NC : netloc_char c = true).
      { unfold netloc_char. apply negb_true_iff. rewrite !orb_false_iff. repeat split; apply Ascii.eqb_neq; intros ->; apply NI; cbn; auto. }
      destruct (split_netloc (lit "//" ++ c :: t)) as [[n u]|e] eqn:SN.
      + rewrite (normalize_no_scheme _ n u); [|discriminate|apply slash_no_scheme|exact SN]. rewrite netloc_two in SN. cbn [span] in SN. rewrite NC in SN. destruct (xorb _ _); [discriminate SN|]. injection SN as <- _. reflexivity.
      + rewrite (normalize_err _ e); [|discriminate|apply slash_no_scheme|exact SN]. rewrite netloc_two in SN. destruct (span netloc_char (c :: t)) as [n u]. destruct (xorb (has "[" n) (has "]" n)); [congruence|discriminate SN].
    - rewrite (normalize_no_scheme _ _ _ NE NS (netloc_none _ N2)). unfold path_in. rewrite (front_path _ _ FR). destruct (nonempty (fst (parse_params [] p))) eqn:X; [apply params_path in X; now elim NP|]. reflexivity.
    - assert (SN : split_netloc (lit "//" ++ t) = Ok ([], t)).
      { rewrite netloc_two. destruct T as [->|(c & t' & -> & I)]; [reflexivity|]. cbn [span]. replace (netloc_char c) with false; [reflexivity|]. destruct I as [<-|[<-|[]]]; reflexivity. }
      rewrite (normalize_no_scheme _ [] t); [|discriminate|apply slash_no_scheme|exact SN]. unfold path_in. assert (FR : front t []).
      { exists t. split; [reflexivity|]. split; [intros ? _ []|exact T]. }
      rewrite (front_path _ _ FR). reflexivity.
  Qed.
  Lemma front_exists s : exists p, front s p.
  Proof.
    induction s as [|x s (p & r & -> & W & R)]; [exists [], []; split; [reflexivity|]; split; [intros ? _ []|now left]|]. destruct (in_dec ascii_dec x (lit "?#")) as [I|NI].
    - exists [], (x :: p ++ r). split; [reflexivity|]. split; [intros ? _ []|]. right. eauto.
    - exists (x :: p), r. split; [reflexivity|]. split; [|exact R]. intros c J [<-|K]; [auto|]. now apply (W c J).
  Qed.
  Lemma taken_total s : exists r, taken abs_uri win_uri s r.
  Proof.
    destruct s as [|x s]; [eexists; constructor|]. destruct (scheme_dec (x :: s)) as [H|NS].
    - destruct (windows_path (x :: s)) eqn:WP.
      + eexists. apply tk_drive. unfold windows_path in WP. destruct s as [|c1 [|c2 r]]; try discriminate WP; [destruct c1 as [[] [] [] [] [] [] [] []]; discriminate WP|].
        destruct c1 as [[] [] [] [] [] [] [] []]; try discriminate WP. destruct c2 as [[] [] [] [] [] [] [] []]; try discriminate WP. exists x, r. split; [reflexivity|exact WP].
      + destruct (bad_host_parse _ H) as [[B _]|[B _]]; [eexists; now apply tk_bad_host|]. eexists. apply tk_url; auto. intros (c & r & E & A). injection E as -> ->. cbn in WP. congruence.
    - destruct (front_exists (x :: s)) as (q & FR). destruct (two_slashes_dec (x :: s)) as [(r & E)|D].
      + rewrite E. destruct r as [|c r]; [eexists; apply tk_two; now left|]. destruct (in_dec ascii_dec c (lit "/?#")) as [[<-|I]|NI]; [eexists; apply (tk_three _ _ r)|eexists; apply tk_two; right; eauto|eexists; now apply tk_host].
      + destruct (nonempty (fst (parse_params [] q))) eqn:X; [apply params_path in X; eexists; eapply tk_path; eauto|]. eexists. eapply tk_no_path; eauto; [discriminate|]. intro PT. apply params_path in PT. congruence.
  Qed.
End Any.
