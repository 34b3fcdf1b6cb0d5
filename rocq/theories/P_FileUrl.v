(** Proofs about file: URLs and paths with a drive. *)
From Coq Require Import Lia.
From Verif Require Import PyBase PyFacts P_Op M_Url M_Getter S_Url P_Url S_Getter P_Getter S_Address P_Address S_FileUrl.
Close Scope Q_scope.

Lemma drive_yes p : drive p = true <-> exists d rest, with_drive p d rest.
Proof.
  split.
  - intro D. destruct p as [|c p]; [discriminate D|]. cbn [drive] in D. destruct (Ascii.eqb c "/") eqn:C.
    + apply Ascii.eqb_eq in C. subst c. destruct (span is_upper p) as [[|a u] v] eqn:SP; [discriminate D|]. apply span_split in SP as [-> U].
      destruct v as [|x v]; [discriminate D|]. exists (a :: u), v. assert (x = ":"%char) as -> by (destruct x as [[|] [|] [|] [|] [|] [|] [|] [|]]; try discriminate D; reflexivity).
      split; [reflexivity|]. split; [discriminate|]. intros y I. apply U in I. unfold is_upper in I. apply andb_prop in I as [I1 I2].
      exists (nat_of_ascii y). split; [apply Nat.leb_le in I1, I2; lia|now rewrite ascii_nat_embedding].
    + destruct c as [[|] [|] [|] [|] [|] [|] [|] [|]]; try discriminate D; discriminate C.
  - intros (d & rest & -> & N & U). cbn [drive]. rewrite span_app.
    + destruct d; [now elim N|reflexivity].
    + apply forallb_forall. intros x I. destruct (U x I) as (n & L & ->). unfold is_upper. rewrite nat_ascii_embedding by lia. apply andb_true_intro. split; apply Nat.leb_le; lia.
    + intros c b' E. injection E as <- _. reflexivity.
Qed.
Lemma file_url_path s p : file_url s p -> exists u, urlparse s = Ok u /\ u_path u = p.
Proof.
  intros (h & r & -> & W & P & Q & R). rewrite urlparse_is. change (split_scheme (lit "file://" ++ h ++ p ++ r)) with (split_scheme ("f"%char :: lit "ile" ++ ":"%char :: lit "//" ++ h ++ p ++ r)).
  rewrite (scheme_split "f"%char (lit "ile") (lit "//" ++ h ++ p ++ r) eq_refl eq_refl). cbn [fst snd]. rewrite netloc_two. rewrite span_app.
  - assert (H1 : has "[" h = false) by (apply has_false; intro I; refine (W _ _ I); cbn; auto 6). assert (H2 : has "]" h = false) by (apply has_false; intro I; refine (W _ _ I); cbn; auto 6).
    rewrite H1, H2. cbn [xorb bind fst snd]. eexists. split; [reflexivity|]. cbn [u_path].
    assert (FR : front (p ++ r) p) by (exists r; auto). rewrite (front_path _ _ FR). reflexivity.
  - apply netloc_chars. intros c J I. refine (W c _ I). cbn in J |- *. tauto.
  - intros c b' E. destruct P as [->|(p' & ->)]; [|injection E as <- _; reflexivity]. cbn [app] in E. destruct R as [->|(x & r' & -> & J)]; [discriminate E|]. injection E as <- _. destruct J as [<-|[<-|[]]]; reflexivity.
Qed.
Lemma starts_file r : startswith (lit "file://" ++ r) "file://"%string = true.
Proof. reflexivity. Qed.
Lemma local_stands abspath s p : stands abspath s p -> local_path abspath s = Ok p.
Proof.
  intros (q & N & D). unfold local_path.
  assert (X : (if startswith s "file://"%string then do u <- urlparse s; Ok (u_path u) else Ok s) = Ok q).
  { destruct N as [[S ->]|F]; [now rewrite S|]. destruct (file_url_path _ _ F) as (u & P & <-). destruct F as (h & r & E & _). rewrite P. cbn [bind]. now rewrite E, starts_file. }
  rewrite X. cbn [bind]. f_equal. destruct D as [(d & rest & W & ->)|[W ->]].
  - assert (Y : drive q = true) by (apply drive_yes; eauto). rewrite Y. destruct W as (-> & _). reflexivity.
  - destruct (drive q) eqn:Y; [|reflexivity]. apply drive_yes in Y as (d & rest & Y). now elim (W d rest).
Qed.
