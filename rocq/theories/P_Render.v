(** Proofs about rendering: single values. *)
From Coq Require Import QArith Qround Lia Lqa.
From Verif Require Import PyBase PyFacts M_Graph S_Graph P_Graph M_Time M_Prim S_Prim P_Op P_Prim M_Render S_Render.
Close Scope Q_scope.
Open Scope nat_scope.

(** ** The generator monad *)
Lemma gbind_ok {A B} (m : gen A) (f : A -> gen B) i b k :
  gbind m f i = Ok (b, k) <-> exists a j, m i = Ok (a, j) /\ f a j = Ok (b, k).
Proof.
  unfold gbind. destruct (m i) as [[a j]|e].
  - split; [intro E; exists a, j; auto|]. intros (a' & j' & E & F). now injection E as <- <-.
  - split; [discriminate|]. intros (a & j & E & _). discriminate E.
Qed.
Lemma gret_ok {A} (a b : A) i j : gret a i = Ok (b, j) <-> b = a /\ j = i.
Proof. unfold gret. split; [intro E; now injection E as <- <-|now intros [-> ->]]. Qed.
Lemma glift_ok {A} (r : res A) a i j : glift r i = Ok (a, j) <-> r = Ok a /\ j = i.
Proof.
  unfold glift. rewrite bind_ok. split.
  - intros (x & -> & E). now injection E as <- <-.
  - intros [-> ->]. eauto.
Qed.
Ltac gstep H := apply gbind_ok in H as (? & ? & ? & H).

Lemma q_int_some q z : q_int q = Some z -> (q == inject_Z z)%Q.
Proof.
  unfold q_int. destruct (Qeq_bool (inject_Z (Qfloor q)) q) eqn:E; [|discriminate].
  intro X. injection X as <-. apply Qeq_bool_iff in E. now symmetry.
Qed.
Lemma q_int_inject q z : (q == inject_Z z)%Q -> q_int q = Some z.
Proof.
  intro E. unfold q_int. assert (Qfloor q = z) as ->. { rewrite <- (Qfloor_Z z). now apply Qfloor_comp. }
  replace (Qeq_bool (inject_Z z) q) with true; [reflexivity|]. symmetry. apply Qeq_bool_iff. now symmetry.
Qed.
Lemma given_q_some q d : ~ (q == 0)%Q -> given_q (Some q) d = q.
Proof. intro N. unfold given_q. destruct (Qeq_bool q 0) eqn:E; [apply Qeq_bool_iff in E; contradiction|reflexivity]. Qed.

Section Rnd.
  Context (rnd : nat -> N).
  Notation randint := (randint rnd).
  Notation random01 := (random01 rnd).

  Lemma randint_ok lo hi i z j : randint lo hi i = Ok (z, j) -> (lo <= z <= hi)%Z.
  Proof.
    unfold M_Render.randint. destruct (hi <? lo)%Z eqn:L; [discriminate|]. apply Z.ltb_ge in L.
    intro E. apply gbind_ok in E as (c & k & D & E). apply gret_ok in E as [-> ->].
    pose proof (Z.mod_pos_bound (Z.of_N c) (hi - lo + 1) ltac:(lia)). lia.
  Qed.
  Lemma randint_total lo hi i : (lo <= hi)%Z -> exists z, randint lo hi i = Ok (z, S i).
  Proof. intro L. unfold M_Render.randint. destruct (hi <? lo)%Z eqn:E; [apply Z.ltb_lt in E; lia|]. eexists. reflexivity. Qed.
  Lemma random01_ok i u j : random01 i = Ok (u, j) -> (0 <= u)%Q /\ (u < 1)%Q.
  Proof.
    unfold M_Render.random01. intro E. apply gbind_ok in E as (c & k & D & E). apply gret_ok in E as [-> ->].
    assert (P : (0 < 2 ^ 53)%Z) by reflexivity.
    pose proof (Z.mod_pos_bound (Z.of_N c) (2 ^ 53) P) as B.
    assert (D2 : Zpos (2 ^ 53)%positive = (2 ^ 53)%Z) by reflexivity.
    generalize dependent (Z.of_N c mod 2 ^ 53)%Z. intros z B. unfold Qle, Qlt. cbn [Qnum Qden].
    rewrite D2. rewrite !Z.mul_1_r, Z.mul_1_l. split; [rewrite Z.mul_0_l; apply B|apply B].
  Qed.
  Lemma random01_total i : exists u, random01 i = Ok (u, S i).
  Proof. eexists. reflexivity. Qed.
  Lemma choice_ok {A} (l : list A) i a j : choice rnd l i = Ok (a, j) -> In a l.
  Proof.
    destruct l as [|b l]; [discriminate|]. cbn [choice]. intro E. apply gbind_ok in E as (c & k & D & E).
    apply gret_ok in E as [-> ->]. apply nth_In.
    pose proof (N.mod_lt c (N.of_nat (length (b :: l))) ltac:(cbn [length]; lia)). lia.
  Qed.
  Lemma choice_total {A} (l : list A) i : l <> [] -> exists a, choice rnd l i = Ok (a, S i).
  Proof. destruct l as [|b l]; [contradiction|]. intros _. eexists. reflexivity. Qed.
  Lemma times_ok {A} (g : gen A) n : forall i l j, times n g i = Ok (l, j) ->
    length l = n /\ forall a, In a l -> exists i j, g i = Ok (a, j).
  Proof.
    induction n as [|n IH]; intros i l j E; cbn [times] in E.
    - apply gret_ok in E as [-> ->]. split; [reflexivity|]. intros a [].
    - apply gbind_ok in E as (a & k & A1 & E). apply gbind_ok in E as (l' & k' & B & E).
      apply gret_ok in E as [-> ->]. destruct (IH _ _ _ B) as [L F]. split; [cbn; now rewrite L|].
      intros x [<-|X]; eauto.
  Qed.
  Lemma times_total {A} (g : gen A) : (forall i, exists a j, g i = Ok (a, j)) ->
    forall n i, exists l j, times n g i = Ok (l, j).
  Proof.
    intro T. induction n as [|n IH]; intro i; cbn [times]; [do 2 eexists; reflexivity|].
    destruct (T i) as (a & j & E). destruct (IH j) as (l & k & F). exists (a :: l), k.
    apply gbind_ok. exists a, j. split; [exact E|]. apply gbind_ok. exists l, k. split; [exact F|reflexivity].
  Qed.
  Lemma text_of_ok cs n i s j : text_of rnd cs n i = Ok (s, j) -> length s = Z.to_nat n /\ Forall (fun c => In c cs) s.
  Proof.
    unfold text_of. intro E. apply times_ok in E as [L F]. split; [exact L|]. apply Forall_forall. intros c I.
    destruct (F c I) as (i' & j' & C). eapply choice_ok; eauto.
  Qed.
  Lemma text_of_total cs n i : cs <> [] -> exists s j, text_of rnd cs n i = Ok (s, j).
  Proof. intro N. apply times_total. intro k. destruct (choice_total cs k N) as (a & E). eauto. Qed.

  (** ** Numbers *)
  Lemma gen_int_ok s e i v j : gen_int rnd s e i = Ok (v, j) -> truthy e = false -> int_sound s ->
    exists z, v = VInt z /\ within s (inject_Z z) /\ multiple s (inject_Z z).
  Proof.
    unfold gen_int. intros E T [[NX NM] MU]. rewrite T in E.
    set (dhi := inject_Z (if match s_format s with None => true | Some f => str_eqb f (lit "int32") end then max_int32 else max_int64)) in *.
    set (dlo := inject_Z (if match s_format s with None => true | Some f => str_eqb f (lit "int32") end then min_int32 else min_int64)) in *.
    clearbody dhi dlo.
    destruct (q_int (given_q (s_min s) dlo)) as [lo|] eqn:EL; [|discriminate].
    destruct (q_int (given_q (s_max s) dhi)) as [hi|] eqn:EH; [|discriminate].
    cbv zeta in E. apply gbind_ok in E as (out & k & R & E). apply randint_ok in R as [RL RH].
    assert (HI : forall m, s_max s = Some m -> (m == inject_Z hi)%Q).
    { intros m EM. rewrite EM, given_q_some in EH; [|now apply NX]. now apply q_int_some. }
    assert (LO : forall m, s_min s = Some m -> (m == inject_Z lo)%Q).
    { intros m EM. rewrite EM, given_q_some in EL; [|now apply NM]. now apply q_int_some. }
    assert (MX : forall z, (z <= out)%Z -> forall m, s_max s = Some m -> if s_exmax s then (inject_Z z < m)%Q else (inject_Z z <= m)%Q).
    { intros z LZ m EM. destruct (s_exmax s); rewrite (HI m EM); [rewrite <- Zlt_Qlt|rewrite <- Zle_Qle]; lia. }
    assert (MN : forall z, ((if s_exmin s then lo + 1 else lo) <= z)%Z -> forall m, s_min s = Some m ->
       if s_exmin s then (m < inject_Z z)%Q else (m <= inject_Z z)%Q).
    { intros z LZ m EM. destruct (s_exmin s); rewrite (LO m EM); [rewrite <- Zlt_Qlt|rewrite <- Zle_Qle]; lia. }
    destruct (s_multiple s) as [m|] eqn:EM.
    - destruct (MU m eq_refl) as (kk & M1 & P & DV). rewrite (q_int_inject _ _ M1) in E.
      assert (kk =? 0 = false)%Z as K0 by (apply Z.eqb_neq; lia). rewrite K0 in E.
      apply gret_ok in E as [-> ->]. eexists. split; [reflexivity|].
      pose proof (Z.mod_pos_bound out kk P) as MB. pose proof (Z.div_mod out kk ltac:(lia)) as DM.
      split; [split|].
      + apply MX. lia.
      + intros q EQ. apply MN; [|exact EQ]. specialize (DV q EQ). destruct DV as (w & DW).
        assert (WW : (if s_exmin s then lo + 1 else lo)%Z = (w * kk)%Z).
        { apply (inject_Z_injective). rewrite inject_Z_mult, <- M1.
          pose proof (LO q EQ) as L1. destruct (s_exmin s).
          - rewrite inject_Z_plus, <- L1, <- DW. reflexivity.
          - now rewrite <- L1, <- DW. }
        assert (WO : (w <= out / kk)%Z) by (apply Z.div_le_lower_bound; [exact P|]; destruct (s_exmin s); lia).
        assert (WM : (w * kk <= kk * (out / kk))%Z) by nia. destruct (s_exmin s); lia.
      + intros q EQ _. rewrite EM in EQ. injection EQ as <-. exists (out / kk)%Z.
        rewrite M1, <- inject_Z_mult. apply inject_Z_injective. lia.
    - apply gret_ok in E as [-> ->]. eexists. split; [reflexivity|]. split; [split|].
      + apply MX. lia.
      + intros q EQ. apply MN; [|exact EQ]. destruct (s_exmin s); lia.
      + intros q EQ. congruence.
  Qed.
  Lemma q_trunc_spec q : ((0 <= q)%Q -> (inject_Z (q_trunc q) <= q)%Q /\ (0 <= q_trunc q)%Z /\ forall k, (inject_Z k <= q)%Q -> (k <= q_trunc q)%Z) /\
    ((q <= 0)%Q -> (q <= inject_Z (q_trunc q))%Q /\ (q_trunc q <= 0)%Z /\ forall k, (q <= inject_Z k)%Q -> (q_trunc q <= k)%Z).
  Proof.
    unfold q_trunc. destruct q as [n d]. unfold Qle. cbn [Qnum Qden inject_Z].
    pose proof (Z.quot_rem n (Zpos d) ltac:(lia)) as D. split.
    - intro P. rewrite ?Z.mul_1_r, ?Z.mul_0_l, ?Z.mul_1_l in *.
      pose proof (Z.rem_bound_pos n (Zpos d) ltac:(lia) ltac:(lia)) as B.
      split; [lia|]. split; [apply Z.quot_pos; lia|]. intros k K. rewrite ?Z.mul_1_r in K. nia.
    - intro P. rewrite ?Z.mul_1_r, ?Z.mul_0_l, ?Z.mul_1_l in *.
      pose proof (Z.rem_bound_pos_neg n (Zpos d) ltac:(lia) ltac:(lia)) as B.
      split; [lia|]. split; [nia|]. intros k K. rewrite ?Z.mul_1_r in K. nia.
  Qed.
  Lemma qdiv_mul q m : ~ (m == 0)%Q -> (q == q / m * m)%Q.
  Proof. intro N. field. exact N. Qed.
  (** Truncating to a multiple of [m] goes towards zero, and does not pass a multiple. *)
  Lemma trunc_mult q m : ~ (m == 0)%Q -> let r := (inject_Z (q_trunc (q / m)) * m)%Q in
    ((0 <= q)%Q -> (0 <= r)%Q /\ (r <= q)%Q /\ forall k, (inject_Z k * m <= q)%Q -> (inject_Z k * m <= r)%Q) /\
    ((q <= 0)%Q -> (r <= 0)%Q /\ (q <= r)%Q /\ forall k, (q <= inject_Z k * m)%Q -> (r <= inject_Z k * m)%Q).
  Proof.
    intros N r. destruct (q_trunc_spec (q / m)) as [TP TN]. pose proof (qdiv_mul q m N) as D.
    set (x := (q / m)%Q) in *. clearbody x. subst r.
    assert (ZQ : forall k, (0 <= k)%Z -> (0 <= inject_Z k)%Q) by (intros k K; change 0%Q with (inject_Z 0); now rewrite <- Zle_Qle).
    assert (ZN : forall k, (k <= 0)%Z -> (inject_Z k <= 0)%Q) by (intros k K; change 0%Q with (inject_Z 0); now rewrite <- Zle_Qle).
    destruct (Qlt_le_dec 0 m) as [P|P].
    - split; intro Q0.
      + assert (X : (0 <= x)%Q) by nra. destruct (TP X) as (A & B & C). specialize (ZQ _ B). split; [nra|]. split; [nra|].
        intros k K. assert (K' : (inject_Z k <= x)%Q) by nra. specialize (C k K'). rewrite Zle_Qle in C. nra.
      + assert (X : (x <= 0)%Q) by nra. destruct (TN X) as (A & B & C). specialize (ZN _ B). split; [nra|]. split; [nra|].
        intros k K. assert (K' : (x <= inject_Z k)%Q) by nra. specialize (C k K'). rewrite Zle_Qle in C. nra.
    - assert (M : (m < 0)%Q) by (apply Qle_lteq in P; destruct P as [P|P]; [exact P|contradiction]).
      split; intro Q0.
      + assert (X : (x <= 0)%Q) by nra. destruct (TN X) as (A & B & C). specialize (ZN _ B). split; [nra|]. split; [nra|].
        intros k K. assert (K' : (x <= inject_Z k)%Q) by nra. specialize (C k K'). rewrite Zle_Qle in C. nra.
      + assert (X : (0 <= x)%Q) by nra. destruct (TP X) as (A & B & C). specialize (ZQ _ B). split; [nra|]. split; [nra|].
        intros k K. assert (K' : (inject_Z k <= x)%Q) by nra. specialize (C k K'). rewrite Zle_Qle in C. nra.
  Qed.
  Lemma float_loop_ok s lo hi : (lo <= hi)%Q -> (s_exmax s = true -> (lo < hi)%Q) ->
    (forall q, s_min s = Some q -> q = lo) -> (forall q, s_max s = Some q -> q = hi) -> num_sound s ->
    forall fuel i q j, float_loop rnd fuel s lo hi i = Ok (q, j) -> within s q /\ multiple s q.
  Proof.
    intros LE LT EL EH (_ & _ & _ & MU). induction fuel as [|fuel IH]; intros i q j E; [discriminate E|].
    cbn [float_loop] in E. apply gbind_ok in E as (u & k & U & E). apply random01_ok in U as [U0 U1].
    set (out := (lo + (hi - lo) * u)%Q) in *.
    assert (OL : (lo <= out)%Q) by (unfold out; nra).
    assert (OH : (out <= hi)%Q) by (unfold out; nra).
    assert (OX : s_exmax s = true -> (out < hi)%Q) by (intro X; specialize (LT X); unfold out; nra).
    clearbody out.
    set (fin := match s_multiple s with Some m => if Qeq_bool m 0 then out else (inject_Z (q_trunc (out / m)) * m)%Q | None => out end) in *.
    destruct (Qle_bool fin lo && s_exmin s) eqn:RT; [exact (IH _ _ _ E)|]. apply gret_ok in E as [-> ->].
    assert (EX : s_exmin s = true -> (lo < fin)%Q).
    { intro X. rewrite X, Bool.andb_true_r in RT. now apply qle_bool_false. }
    assert (W : (forall m, s_min s = Some m -> (m <= fin)%Q) /\
      (forall m, s_max s = Some m -> if s_exmax s then (fin < m)%Q else (fin <= m)%Q) /\ multiple s fin).
    { unfold multiple. destruct (s_multiple s) as [m|].
      - destruct (Qeq_bool m 0) eqn:M0.
        + subst fin. split; [intros a A; now rewrite (EL a A)|]. split.
          * intros a A. rewrite (EH a A). destruct (s_exmax s); auto.
          * intros a A NA. injection A as <-. apply Qeq_bool_iff in M0. contradiction.
        + assert (NZ : ~ (m == 0)%Q) by (intro Z0; apply Qeq_bool_iff in Z0; congruence).
          destruct (MU m eq_refl NZ) as [ML MH]. destruct (trunc_mult out m NZ) as [TP TN]. fold fin in TP, TN.
          destruct (Qlt_le_dec out 0) as [ON|OP].
          * destruct (TN (Qlt_le_weak _ _ ON)) as (A & B & C). split; [intros a EA; rewrite (EL a EA); nra|]. split.
            -- intros a EA. specialize (MH a EA). rewrite (EH a EA) in *. destruct MH as [P|(XF & w & D)].
               ++ destruct (s_exmax s); nra.
               ++ rewrite XF. rewrite D. apply C. now rewrite <- D.
            -- intros a EA _. injection EA as <-. now exists (q_trunc (out / m)).
          * destruct (TP OP) as (A & B & C). split; [|split].
            -- intros a EA. specialize (ML a EA). rewrite (EL a EA) in *. destruct ML as [P|(w & D)]; [nra|].
               rewrite D. apply C. now rewrite <- D.
            -- intros a EA. rewrite (EH a EA). destruct (s_exmax s); [specialize (OX eq_refl)|]; nra.
            -- intros a EA _. injection EA as <-. now exists (q_trunc (out / m)).
      - subst fin. split; [intros a A; now rewrite (EL a A)|]. split.
        + intros a A. rewrite (EH a A). destruct (s_exmax s); auto.
        + intros a A. discriminate A. }
    destruct W as (W1 & W2 & W3). split; [split|exact W3].
    - exact W2.
    - intros m EM. destruct (s_exmin s); [|auto]. rewrite (EL m EM). auto.
  Qed.
  Lemma gen_float_ok fuel s e i v j : gen_float rnd fuel s e i = Ok (v, j) -> truthy e = false -> num_sound s ->
    exists q, v = VFloat q /\ within s q /\ multiple s q.
  Proof.
    unfold gen_float. intros E T NS. rewrite T in E. cbv zeta in E. apply gbind_ok in E as (q & k & F & E).
    apply gret_ok in E as [-> ->]. exists q. split; [reflexivity|].
    assert (NZ := NS). destruct NZ as ([NX NM] & BT & XT & _).
    assert (L : given_q (s_min s) float_min = bottom s).
    { unfold bottom. destruct (s_min s) as [m|]; [|reflexivity]. apply given_q_some. now apply NM. }
    assert (H : given_q (s_max s) float_max = top s).
    { unfold top. destruct (s_max s) as [m|]; [|reflexivity]. apply given_q_some. now apply NX. }
    rewrite L, H in F. eapply float_loop_ok; [exact BT|exact XT| | |exact NS|exact F].
    - intros a A. unfold bottom. now rewrite A.
    - intros a A. unfold top. now rewrite A.
  Qed.
  (** ** Texts *)
  Lemma given_z_some z d : z <> 0%Z -> given_z (Some z) d = z.
  Proof. intro N. unfold given_z. now apply Z.eqb_neq in N as ->. Qed.
  Lemma gen_str_ok opt s e i v j : gen_str rnd opt s e i = Ok (v, j) -> truthy e = false -> s_enum s = [] ->
    nonneg (s_maxlen s) -> exists t, v = VStr t /\ text_ok s t.
  Proof.
    unfold gen_str. intros E T EN NN. rewrite T in E. cbv zeta in E. apply gbind_ok in E as (n & k & R & E).
    apply gbind_ok in E as (t & k' & X & E). apply gret_ok in E as [-> ->]. apply randint_ok in R.
    apply text_of_ok in X as [L _]. exists t. split; [reflexivity|]. rewrite <- L || idtac. split; [now left|]. split.
    - intros m EM NZ. rewrite EM, given_z_some in R; [|exact NZ]. specialize (NN m EM). lia.
    - intros m EM NZ. rewrite EM, given_z_some in R; [|exact NZ]. lia.
  Qed.
  Lemma letters_names c : In c ascii_letters -> In c name_chars.
  Proof. intro I. unfold name_chars. apply in_or_app. now left. Qed.
  Lemma email_name_ok i s j : email_name rnd i = Ok (s, j) -> word 2 31 s.
  Proof.
    unfold email_name. intro E. apply gbind_ok in E as (a & ? & A & E). apply gbind_ok in E as (n & ? & R & E).
    apply gbind_ok in E as (m & ? & M & E). apply gbind_ok in E as (z & ? & Z0 & E). apply gret_ok in E as [-> ->].
    apply choice_ok in A, Z0. apply randint_ok in R. apply text_of_ok in M as [L F].
    exists a, (m ++ [z]). split; [reflexivity|]. split; [exact A|]. split.
    - apply Forall_app. split; [exact F|]. constructor; [now apply letters_names|constructor].
    - rewrite app_length, L. cbn [length]. lia.
  Qed.
  Lemma gen_email_ok e i v j : gen_email rnd e i = Ok (v, j) -> truthy e = false -> exists s, v = VStr s /\ mailbox s.
  Proof.
    unfold gen_email. intros E T. rewrite T in E.
    apply gbind_ok in E as (ho & ? & R1 & E). apply gbind_ok in E as (re & ? & R2 & E).
    apply gbind_ok in E as (k & ? & R3 & E). apply gbind_ok in E as (ns & ? & N & E).
    apply gbind_ok in E as (a & ? & A & E). apply gbind_ok in E as (hs & ? & H & E).
    apply gbind_ok in E as (b & ? & B & E). apply gbind_ok in E as (rs & ? & R & E). apply gret_ok in E as [-> ->].
    apply choice_ok in A, B. apply randint_ok in R1, R2, R3. apply text_of_ok in H as [LH FH]. apply text_of_ok in R as [LR FR].
    apply times_ok in N as [LN FN]. eexists. split; [reflexivity|].
    exists ns, (a :: hs), (b :: rs). split; [reflexivity|]. split; [lia|]. split; [|split].
    - apply Forall_forall. intros w X. destruct (FN w X) as (? & ? & Y). eapply email_name_ok; eauto.
    - exists a, hs. split; [reflexivity|]. split; [exact A|]. split; [exact FH|lia].
    - exists b, rs. split; [reflexivity|]. split; [exact B|]. split; [exact FR|lia].
  Qed.
  Lemma gen_file_ok opt i v j : gen_file rnd opt i = Ok (v, j) -> Forall file_value (files opt) -> file_value v.
  Proof.
    unfold gen_file. destruct (files opt) as [|f l]; intros E F.
    - apply gbind_ok in E as (n & ? & _ & E). apply gbind_ok in E as (s & ? & _ & E). apply gret_ok in E as [-> ->].
      eexists. split; [reflexivity|]. left. exists (VOther 0). split; [reflexivity|discriminate].
    - apply choice_ok in E. rewrite Forall_forall in F. auto.
  Qed.
End Rnd.
