(** Resolving tokens: proofs for C64. *)
From Coq Require Import Lia.
From Verif Require Import PyBase PyFacts PyInt PyJson M_SpecVal M_SpecTree P_Int S_Codec P_Codec P_Op S_App S_Resolve.
Close Scope Q_scope.

Lemma numeral_digits s z : numeral s z -> forall rest, int_digits (s ++ rest) false 0 = int_digits rest true z.
Proof.
  induction 1 as [c D|s z c H IH D|s z c H IH D]; intro rest.
  - cbn [List.app int_digits]. rewrite D. reflexivity.
  - rewrite <- app_assoc, IH. cbn [List.app int_digits]. now rewrite D.
  - rewrite <- app_assoc, IH. cbn [List.app int_digits]. change (is_digit "_") with false. change (Ascii.eqb "_" "_") with true. cbv iota. cbn [andb int_digits]. now rewrite D.
Qed.
Lemma digits_numeral s : forall p z, (numeral p z -> forall n, int_digits s true z = Some n -> numeral (p ++ s) n) /\ (numeral p z -> forall n, int_digits s false z = Some n -> numeral (p ++ "_"%char :: s) n).
Proof.
  induction s as [|c s IH]; intros p z; split; intros P n E; cbn [int_digits] in E.
  - injection E as <-. now rewrite app_nil_r.
  - discriminate E.
  - destruct (is_digit c) eqn:D.
    + replace (p ++ c :: s) with ((p ++ [c]) ++ s) by now rewrite <- app_assoc. apply (proj1 (IH _ (10 * z + digit_val c)%Z)); [now constructor|exact E].
    + destruct (Ascii.eqb_spec c "_"%char) as [->|]; [|discriminate E]. cbn [andb] in E. apply (proj2 (IH _ _) P _ E).
  - destruct (is_digit c) eqn:D.
    + replace (p ++ "_"%char :: c :: s) with ((p ++ ["_"%char; c]) ++ s) by now rewrite <- app_assoc. apply (proj1 (IH _ (10 * z + digit_val c)%Z)); [now constructor|exact E].
    + rewrite andb_false_r in E. discriminate E.
Qed.
Lemma digits_iff s z : int_digits s false 0 = Some z <-> numeral s z.
Proof.
  split; intro H.
  - destruct s as [|c s]; [discriminate H|]. cbn [int_digits] in H. destruct (is_digit c) eqn:D; [|rewrite andb_false_r in H; discriminate H].
    apply (proj1 (digits_numeral s [c] (digit_val c))); [now constructor|]. exact H.
  - rewrite <- (app_nil_r s), (numeral_digits _ _ H). reflexivity.
Qed.
Lemma numeral_ends s z : numeral s z -> exists c s' c' s'', s = c :: s' /\ is_digit c = true /\ rev s = c' :: s'' /\ is_digit c' = true.
Proof.
  induction 1 as [c D|s z c H (a & s' & b & s'' & -> & DA & R & DB) D|s z c H (a & s' & b & s'' & -> & DA & R & DB) D].
  - exists c, [], c, []. auto.
  - exists a, (s' ++ [c]), c, (b :: s''). split; [reflexivity|]. split; [exact DA|]. rewrite rev_app_distr, R. auto.
  - exists a, (s' ++ ["_"%char; c]), c, ("_"%char :: b :: s''). split; [reflexivity|]. split; [exact DA|]. rewrite rev_app_distr, R. auto.
Qed.
Lemma signed_tight s z : signed s z -> tight s.
Proof.
  intros H. assert (E : exists c s' c' s'', s = c :: s' /\ is_space c = false /\ rev s = c' :: s'' /\ is_space c' = false).
  { destruct H as [s z H|s z H|s z H]; destruct (numeral_ends _ _ H) as (c & s' & c' & s'' & E & D & R & D'); rewrite E in *.
    - exists c, s', c', s''. auto using digit_no_space.
    - exists "+"%char, (c :: s'), c', (s'' ++ ["+"%char]). split; [reflexivity|]. split; [reflexivity|]. split; [|auto using digit_no_space]. change ("+"%char :: c :: s') with (["+"%char] ++ c :: s'). now rewrite rev_app_distr, R.
    - exists "-"%char, (c :: s'), c', (s'' ++ ["-"%char]). split; [reflexivity|]. split; [reflexivity|]. split; [|auto using digit_no_space]. change ("-"%char :: c :: s') with (["-"%char] ++ c :: s'). now rewrite rev_app_distr, R. }
  destruct E as (c & s' & c' & s'' & E & D & R & D'). unfold tight. rewrite R, E. auto.
Qed.
Lemma py_int_iff t z : py_int t = Ok z <-> integer_text t z.
Proof.
  split.
  - intro E. destruct (strip_split t) as (a & s & b & -> & BA & BB & T). exists a, s, b. split; [reflexivity|]. split; [exact BA|]. split; [exact BB|]. unfold py_int in E. rewrite strip_core in E by auto.
    destruct s as [|c s]; [discriminate E|].
    destruct (Ascii.eqb_spec c "-"%char) as [->|N1]; [|destruct (Ascii.eqb_spec c "+"%char) as [->|N2]].
    + destruct (int_digits s false 0) as [n|] eqn:D; [|discriminate E]. injection E as <-. apply sg_minus. now apply digits_iff.
    + destruct (int_digits s false 0) as [n|] eqn:D; [|discriminate E]. injection E as <-. apply sg_plus. now apply digits_iff.
    + apply sg_none. apply digits_iff. destruct c as [[] [] [] [] [] [] [] []]; try congruence; cbv iota beta in E; match type of E with context [int_digits ?a false 0] => destruct (int_digits a false 0); congruence end.
  - intros (a & s & b & -> & BA & BB & H). unfold py_int. rewrite (strip_core a s b BA BB (signed_tight _ _ H)). destruct H as [s z H|s z H|s z H]; apply digits_iff in H.
    + destruct s as [|c s]; [discriminate H|]. destruct (is_digit c) eqn:D; [|cbn [int_digits] in H; rewrite D, andb_false_r in H; discriminate H].
      destruct c as [[] [] [] [] [] [] [] []]; try discriminate D; now rewrite H.
    + now rewrite H.
    + now rewrite H.
Qed.
Lemma py_int_error t e : py_int t = Err e <-> e = ValueError /\ forall z, ~ integer_text t z.
Proof.
  split.
  - intro E. split; [|intros z H; apply py_int_iff in H; congruence]. unfold py_int in E. cbv zeta in E. match type of E with match ?x with Some _ => _ | None => _ end = _ => destruct x; congruence end.
  - intros (-> & H). destruct (py_int t) as [z|e] eqn:E; [apply py_int_iff in E; now elim (H z)|]. unfold py_int in E. cbv zeta in E. match type of E with match ?x with Some _ => _ | None => _ end = _ => destruct x; congruence end.
Qed.
Lemma index_ok {A} (l : list A) z x : index l z = Ok x <-> (exists i, z = Z.of_nat i /\ nth_error l i = Some x) \/ exists i, z = (- Z.of_nat (S i))%Z /\ nth_error (rev l) i = Some x.
Proof.
  unfold index. cbv zeta. destruct (Z.ltb_spec z 0) as [N|N].
  - destruct (Z.ltb_spec (z + Z.of_nat (length l)) 0) as [M|M].
    + split; [discriminate|]. intros [(i & -> & _)|(i & -> & G)]; [lia|]. assert (i < length (rev l)) by (apply nth_error_Some; congruence). rewrite rev_length in H. lia.
    + split.
      * destruct (nth_error l (Z.to_nat (z + Z.of_nat (length l)))) as [y|] eqn:G; [|discriminate]. intro E. injection E as ->. right. exists (Z.to_nat (- z - 1)). split; [lia|].
        assert (L : Z.to_nat (z + Z.of_nat (length l)) = length l - S (Z.to_nat (- z - 1))) by lia. rewrite L in G. assert (B : Z.to_nat (- z - 1) < length l) by lia.
        rewrite (nth_error_nth' (rev l) x) by (rewrite rev_length; exact B). rewrite rev_nth by exact B. f_equal. now apply nth_error_nth.
      * intros [(i & -> & _)|(i & -> & G)]; [lia|]. assert (B : i < length (rev l)) by (apply nth_error_Some; congruence). assert (B' := B). rewrite rev_length in B'.
        replace (Z.to_nat (- Z.of_nat (S i) + Z.of_nat (length l))) with (length l - S i) by lia. rewrite (nth_error_nth' l x) by lia. f_equal. apply nth_error_nth with (d := x) in G. rewrite rev_nth in G by lia. exact G.
  - destruct (Z.ltb_spec z 0) as [M|M]; [lia|]. destruct (nth_error l (Z.to_nat z)) as [y|] eqn:G.
    + split.
      * intro E. injection E as ->. left. exists (Z.to_nat z). split; [lia|exact G].
      * intros [(i & -> & G')|(i & -> & _)]; [|lia]. rewrite Nat2Z.id in G. congruence.
    + split; [discriminate|]. intros [(i & -> & G')|(i & -> & _)]; [|lia]. rewrite Nat2Z.id in G. congruence.
Qed.
Lemma index_error {A} (l : list A) z e : index l z = Err e <-> e = IndexError /\ (z < - Z.of_nat (length l) \/ Z.of_nat (length l) <= z)%Z.
Proof.
  unfold index. cbv zeta. destruct (Z.ltb_spec z 0) as [N|N].
  - destruct (Z.ltb_spec (z + Z.of_nat (length l)) 0) as [M|M]; [split; [intro E; injection E as <-; split; [reflexivity|lia]|intros (-> & _); reflexivity]|].
    destruct (nth_error l _) as [y|] eqn:G; [split; [discriminate|intros (_ & ?); lia]|]. apply nth_error_None in G. lia.
  - destruct (Z.ltb_spec z 0) as [M|M]; [lia|]. destruct (nth_error l (Z.to_nat z)) as [y|] eqn:G.
    + assert (Z.to_nat z < length l) by (apply nth_error_Some; congruence). split; [discriminate|intros (_ & ?); lia].
    + apply nth_error_None in G. split; [intro E; injection E as <-; split; [reflexivity|lia]|intros (-> & _); reflexivity].
Qed.

Lemma step_iff v t x : step v t x <-> (match v with
  | VObj _ fs ints => attr fs ints t
  | VList l => do i <- py_int t; index l i
  | VDict d => match sget t d with Some x => Ok x | None => Err KeyError end
  | v => Ok v end) = Ok x.
Proof.
  split.
  - intros H. destruct H as [h fs ints t x G|h fs ints t x G GI|l t i x T G|l t i x T G|d t x G|v t NC].
    + unfold attr. now rewrite G.
    + unfold attr. now rewrite G, GI.
    + apply py_int_iff in T. rewrite T. cbn [bind]. apply index_ok. left. eauto.
    + apply py_int_iff in T. rewrite T. cbn [bind]. apply index_ok. right. eauto.
    + now rewrite G.
    + destruct v; try destruct NC; reflexivity.
  - destruct v as [| | | | |l|d|h fs ints]; try (intro E; injection E as <-; constructor; exact Logic.I).
    + intro E. apply bind_ok in E as (z & Z & E). apply py_int_iff in Z. apply index_ok in E as [(i & -> & G)|(i & -> & G)]; [eapply st_front|eapply st_back]; eauto.
    + destruct (sget t d) eqn:G; [|discriminate]. intro E. injection E as ->. now constructor.
    + unfold attr. destruct (sget t fs) eqn:G; [intro E; injection E as ->; now constructor|]. destruct (sget t ints) eqn:GI; [|discriminate]. intro E. injection E as ->. now apply st_internal.
Qed.
Lemma stuck_iff v t e : stuck v t e <-> (match v with
  | VObj _ fs ints => attr fs ints t
  | VList l => do i <- py_int t; index l i
  | VDict d => match sget t d with Some x => Ok x | None => Err KeyError end
  | v => Ok v end) = Err e.
Proof.
  split.
  - intros H. destruct H as [h fs ints t G GI|l t T|l t z T B|d t G].
    + unfold attr. now rewrite G, GI.
    + destruct (py_int t) as [z|e] eqn:P; [apply py_int_iff in P; now elim (T z)|]. apply py_int_error in P as (-> & _). reflexivity.
    + apply py_int_iff in T. rewrite T. cbn [bind]. now apply index_error.
    + now rewrite G.
  - destruct v as [| | | | |l|d|h fs ints]; try discriminate.
    + destruct (py_int t) as [z|e'] eqn:P; cbn [bind]; intro E.
      * apply index_error in E as (-> & B). apply py_int_iff in P. econstructor; eauto.
      * injection E as <-. apply py_int_error in P as (-> & P). now constructor.
    + destruct (sget t d) eqn:G; [discriminate|]. intro E. injection E as <-. now constructor.
    + unfold attr. destruct (sget t fs) eqn:G; [discriminate|]. destruct (sget t ints) eqn:GI; [discriminate|]. intro E. injection E as <-. now constructor.
Qed.
Lemma resolve_cons v t ts : resolve v (t :: ts) = do x <- (match v with
  | VObj _ fs ints => attr fs ints t
  | VList l => do i <- py_int t; index l i
  | VDict d => match sget t d with Some x => Ok x | None => Err KeyError end
  | v => Ok v end); resolve x ts.
Proof.
  destruct v; cbn [resolve]; try reflexivity.
  - destruct (py_int t); reflexivity.
  - destruct (sget t _); reflexivity.
Qed.
Lemma resolve_iff ts : forall v x, resolve v ts = Ok x <-> leads v ts x.
Proof.
  induction ts as [|t ts IH]; intros v x; [cbn [resolve]; split; [intro E; injection E as ->; constructor|inversion 1; reflexivity]|]. rewrite resolve_cons. split.
  - intro E. apply bind_ok in E as (y & S & E). apply step_iff in S. econstructor; [exact S|]. now apply IH.
  - inversion 1 as [|? ? y ? ? S L]; subst. apply step_iff in S. rewrite S. cbn [bind]. now apply IH.
Qed.
Lemma resolve_error ts : forall v e, resolve v ts = Err e <-> exists us t rest y, ts = us ++ t :: rest /\ leads v us y /\ stuck y t e.
Proof.
  induction ts as [|t ts IH]; intros v e; [cbn [resolve]; split; [discriminate|intros ([] & ? & ? & ? & E & _); discriminate E]|]. rewrite resolve_cons. split.
  - match goal with |- bind ?m _ = _ -> _ => destruct m as [y|e'] eqn:S end; cbn [bind]; intro E.
    + apply step_iff in S. apply IH in E as (us & t' & rest & w & -> & L & K). exists (t :: us), t', rest, w. split; [reflexivity|]. split; [econstructor; eauto|exact K].
    + injection E as ->. apply stuck_iff in S. exists [], t, ts, v. split; [reflexivity|]. split; [constructor|exact S].
  - intros ([|u us] & t' & rest & w & E & L & K); injection E as -> ->.
    + inversion L; subst. apply stuck_iff in K. rewrite K. reflexivity.
    + inversion L as [|? ? y ? ? S L']; subst. apply step_iff in S. rewrite S. cbn [bind]. apply IH. eauto 10.
Qed.
