(** Proofs about what becomes of values by declarations (C66). *)
From Coq Require Import QArith Lia.
From Verif Require Import PyBase PyFacts PyJson P_Op M_Graph S_Graph M_Quote M_Time M_Prim S_Prim S_PrimKinds P_Prim P_PrimLeaf P_PrimObj T_PrimLeaf T_PrimObj T_PrimText T_PrimKinds.
From Verif Require M_SpecVal S_Merge.
From Verif Require Import S_Declared M_Declared P_Declared.
Close Scope Q_scope.
Open Scope nat_scope.

Section Mirror.
  Context (f : M_SpecVal.val) (s : schema).
  Hypothesis M : mirror_plain f s.
  Lemma typed_decl t : typed s t <-> of_type f t.
  Proof. apply (mi_type _ _ M). Qed.
  Lemma format_decl l : format_in s l <-> of_format f l.
  Proof. unfold format_in, of_format. split; intros (x & I & E); exists x; (split; [exact I|]); now apply (mi_format _ _ M). Qed.
  Lemma integer_is : integer_kind s <-> integer_decl f.
  Proof. unfold integer_kind, integer_decl. now rewrite !typed_decl, format_decl. Qed.
  Lemma number_is : number_kind s <-> number_decl f.
  Proof. unfold number_kind, number_decl. now rewrite typed_decl, format_decl. Qed.
  Lemma text_is : text_kind s <-> text_decl f.
  Proof. unfold text_kind, text_decl. now rewrite typed_decl, format_decl. Qed.
  Lemma range_is q : within s q <-> in_range f q.
  Proof.
    unfold within, in_range. split; intros (A & B); split; intros m E.
    - apply (mi_max _ _ M) in E. specialize (A _ E). destruct (s_exmax s) eqn:X; split; auto using Qlt_le_weak. intro Y. apply (mi_exmax _ _ M) in Y. congruence.
    - apply (mi_min _ _ M) in E. specialize (B _ E). destruct (s_exmin s) eqn:X; split; auto using Qlt_le_weak. intro Y. apply (mi_exmin _ _ M) in Y. congruence.
    - apply (mi_max _ _ M) in E. destruct (A _ E) as (A1 & A2). destruct (s_exmax s) eqn:X; [apply A2; now apply (mi_exmax _ _ M)|exact A1].
    - apply (mi_min _ _ M) in E. destruct (B _ E) as (A1 & A2). destruct (s_exmin s) eqn:X; [apply A2; now apply (mi_exmin _ _ M)|exact A1].
  Qed.
  Lemma multiple_is q : multiple s q <-> multiple_of f q.
  Proof. unfold multiple, multiple_of. split; intros A m E; apply A; now apply (mi_multiple _ _ M). Qed.
  Lemma value_of_str v t : value_of v = VStr t -> v = M_SpecVal.VStr t.
  Proof. destruct v; cbn; intro E; try discriminate E. now injection E as ->. Qed.
  Lemma enum_is t : (s_enum s = [] \/ In (VStr t) (s_enum s)) <-> in_enum f t.
  Proof.
    unfold in_enum. destruct (mi_enum _ _ M) as [(F & E)|(l & F & E)]; rewrite E, F.
    - split; [intros _ l X; discriminate X|auto].
    - split.
      + intros [N|I] m X NE; injection X as <-; [now destruct l|]. apply in_map_iff in I as (v & V & I). apply value_of_str in V. now subst v.
      + intro A. destruct l as [|v l]; [now left|]. right. specialize (A _ eq_refl ltac:(discriminate)). apply in_map_iff. exists (M_SpecVal.VStr t). auto.
  Qed.
  Lemma right_is t : text_ok s t <-> right_text f t.
  Proof.
    unfold text_ok, right_text, sized. rewrite enum_is. split; intros (A & B & C); (split; [exact A|]); split; intros z E; first [apply B|apply C]; first [now apply (mi_maxlen _ _ M)|now apply (mi_minlen _ _ M)].
  Qed.
  Lemma count_is n : count_ok s n <-> sized f "minItems" "maxItems" n.
  Proof.
    pose proof (mi_maxitems _ _ M) as X. pose proof (mi_minitems _ _ M) as Y. unfold count_ok, sized. split; intros (A & B).
    - split; intros z E NZ; [apply B|apply A]; auto; [now apply X|now apply Y].
    - split; intros z E NZ; [apply B|apply A]; auto; [now apply Y|now apply X].


  Qed.
  Lemma unique_is (l l' : list value) : (if s_unique s then firsts [] l l' else l' = l) <-> (switched_on f "uniqueItems" /\ firsts [] l l' \/ ~ switched_on f "uniqueItems" /\ l' = l).
  Proof.
    pose proof (mi_unique _ _ M) as U. destruct (s_unique s); split.
    - intro A. left. split; [now apply U|exact A].
    - intros [(_ & A)|(N & _)]; [exact A|]. destruct N. now apply U.
    - intro A. right. split; [|exact A]. intro X. apply U in X. discriminate X.
    - intros [(X & _)|(_ & A)]; [|exact A]. apply U in X. discriminate X.
  Qed.
End Mirror.
Lemma no_members f s : mirror f s -> members s = [].
Proof. intro M. unfold members. now rewrite (mi_full _ _ M). Qed.

(** Values of the document *)
Lemma same_value_of : forall d x, same_value d x -> x = value_of d.
Proof.
  fix IH 3. intros d x [| | | | |l m F|e e' F]; try reflexivity; cbn [value_of]; f_equal.
  - induction F as [|a b l m A F IHF]; [reflexivity|]. cbn [map]. rewrite (IH _ _ A). f_equal. exact IHF.
  - induction F as [|[k a] [k' b] l m (K & A) F IHF]; [reflexivity|]. cbn [map fst snd] in *. rewrite (IH _ _ A), K. f_equal. exact IHF.
Qed.
Lemma value_of_null v : value_of v = VNull <-> v = M_SpecVal.VNone.
Proof. destruct v; cbn; split; intro E; try discriminate E; reflexivity. Qed.

Section Becomes.
  Context (int_of : str -> res Z) (float_of : str -> res Q) (str_of : value -> str)
    (date_at : Q -> res (Z * Z * Z)) (datetime_at : Q -> res datetime) (uuid_of : str -> option Z) (email_ok : str -> bool).
  Notation becomes := (becomes int_of float_of str_of date_at datetime_at uuid_of email_ok).
  Context (h : list schema).
  Notation produce := (produce int_of float_of str_of date_at datetime_at uuid_of email_ok h).

  Lemma whole_iff x z : to_int_v int_of x = Ok z <-> whole int_of x z.
  Proof.
    split.
    - destruct x; cbn; intro E; try discriminate E; try (injection E as <-); try now constructor. constructor. apply cut_quot.
    - intro W. inversion W as [|b|q z' C|s z' E|s z' E]; subst; cbn; try reflexivity; try exact E.
      f_equal. pose proof (cut_quot q) as C'. revert C C'. generalize (Z.quot (Qnum q) (Zpos (Qden q))). unfold cut. intro y. destruct (Qle_bool 0 q).
      + intros (A & B) (A' & B'). pose proof (Qle_lt_trans _ _ _ A B') as L1. pose proof (Qle_lt_trans _ _ _ A' B) as L2. apply Zlt_Qlt in L1, L2 || (rewrite <- Zlt_Qlt in L1, L2). lia.
      + intros (A & B) (A' & B'). pose proof (Qlt_le_trans _ _ _ A B') as L1. pose proof (Qlt_le_trans _ _ _ A' B) as L2. rewrite <- Zlt_Qlt in L1, L2. lia.
  Qed.
  Lemma fraction_iff x q : to_float_v float_of x = Ok q <-> fraction float_of x q.
  Proof.
    split.
    - destruct x; cbn; intro E; try discriminate E; try (injection E as <-); now constructor.
    - intro W. inversion W; subst; cbn; auto.
  Qed.
  Lemma text_iff' x s : to_str_v str_of x = s <-> S_Declared.text str_of x s.
  Proof.
    unfold S_Declared.text. split.
    - intros <-. destruct x; cbn; try (right; split; [discriminate|reflexivity]). now left.
    - intros [->|(N & ->)]; [reflexivity|]. destruct x; try reflexivity. now destruct (N s).
  Qed.
End Becomes.
