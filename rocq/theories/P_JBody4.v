(** What is made of values has each key once, so that the documents are well-formed. *)
From Coq Require Import QArith Lia.
From Verif Require Import PyBase PyFacts PyJson M_SpecVal P_Op S_SpecTree S_Merge S_MergeRef S_Cycles P_Cycles S_Prepare S_Compose M_Time S_Declared P_Declared2 S_Body P_Body2 M_JBody S_JBody P_JBody P_JBody2 P_JBody3.
From Verif Require M_Prim S_Prim S_PrimKinds P_PrimObj.
Close Scope Q_scope.
Import M_Prim.

Inductive keyed : prim -> Prop :=
| ke_other p : (forall f l, p <> PArray f l) -> (forall m, p <> PModel m) -> keyed p
| ke_array f l : Forall keyed l -> keyed (PArray f l)
| ke_model m : NoDup (map fst m) -> Forall (fun kv => keyed (snd kv)) m -> keyed (PModel m).
Definition keyed_m (m : sdict prim) : Prop := NoDup (map fst m) /\ Forall (fun kv => keyed (snd kv)) m.
Lemma keyed_model m : keyed (PModel m) <-> keyed_m m.
Proof. split; [intro K; inversion K as [? _ N| |]; subst; [now destruct (N m)|now split]|intros (A & B); now constructor]. Qed.
Lemma keyed_array f l : keyed (PArray f l) <-> Forall keyed l.
Proof. split; [intro K; inversion K as [? N _| |]; subst; [now destruct (N f l)|assumption]|now constructor]. Qed.
Lemma Forall_sset {V} (P : V -> Prop) k x (d : sdict V) : P x -> Forall (fun kv => P (snd kv)) d -> Forall (fun kv => P (snd kv)) (sset k x d).
Proof. intros X. induction 1 as [|[k' y] d Y F IH]; [constructor; [exact X|constructor]|]. unfold sset in *. cbn [dset]. destruct (str_eqb _ _); constructor; try assumption; exact X. Qed.
Lemma keyed_set k x m : keyed x -> keyed_m m -> keyed_m (sset k x m).
Proof. intros X (A & B). split; [now apply sset_NoDup|now apply Forall_sset]. Qed.
Ltac other := apply ke_other; discriminate.

Section Keyed.
  Context (int_of : str -> res Z) (float_of : str -> res Q) (str_of : value -> str)
    (date_at : Q -> res (Z * Z * Z)) (datetime_at : Q -> res datetime) (uuid_of : str -> option Z) (email_ok : str -> bool) (h : heap).
  Section Step.
    Context (rec : sid -> value -> ctx -> res (prim * ctx)).
    Hypothesis REC : forall o v c r c', rec o v c = Ok (r, c') -> keyed r.
    Lemma rec0_keyed o v r : rec0 rec o v = Ok r -> keyed r.
    Proof. intro E. apply bind_ok in E as ((r', c') & E & Q). injection Q as <-. exact (REC _ _ _ _ _ E). Qed.
    Lemma map_keyed it l rs : map_res (rec0 rec it) l = Ok rs -> Forall keyed rs.
    Proof.
      revert rs. induction l as [|x l IH]; intros rs E; [injection E as <-; constructor|]. cbn [map_res] in E. apply bind_ok in E as (y & Y & E). apply bind_ok in E as (ys & YS & E). injection E as <-. constructor; [exact (rec0_keyed _ _ _ Y)|auto].
    Qed.
    Lemma given_keyed o d : forall m c m' c', keyed_m m -> model_given h rec o d m c = Ok (m', c') -> keyed_m m'.
    Proof.
      induction d as [|[k v] d IH]; intros m c m' c' K E; [injection E as <- _; exact K|]. cbn [model_given] in E. destruct (sget k (s_props (sch h o))) as [p|].
      - destruct (s_readonly (sch h p) && negb (c_read c)); [discriminate E|]. apply bind_ok in E as (r & R & E). eapply IH; [|exact E]. apply keyed_set; [exact (rec0_keyed _ _ _ R)|exact K].
      - destruct (s_addp (sch h o)) as [|[|]|a]; eapply IH; eassumption.
    Qed.
    Lemma defaults_keyed ps : forall m m', keyed_m m -> model_defaults h rec ps m = Ok m' -> keyed_m m'.
    Proof.
      induction ps as [|[k p] ps IH]; intros m m' K E; [injection E as <-; exact K|]. cbn [model_defaults] in E. destruct (_ && _); [|eapply IH; eassumption]. apply bind_ok in E as (r & R & E). eapply IH; [|exact E]. apply keyed_set; [exact (rec0_keyed _ _ _ R)|exact K].
    Qed.
    Lemma model_keyed o m v c r w c' : keyed_m m -> model_apply h rec o m v c = Ok (r, w, c') -> keyed r.
    Proof.
      intros K E. unfold model_apply in E. destruct v; try discriminate E. destruct (negb _); [discriminate E|]. apply bind_ok in E as ((m1, c1) & G & E). apply bind_ok in E as (m2 & D & E). cbn [fst snd] in *.
      assert (K2 : keyed_m m2) by (eapply defaults_keyed; [|exact D]; eapply given_keyed; eassumption). destruct (negb _); [discriminate E|].
      destruct (s_disc (sch h o)) as [[|a s]|]; [injection E as <- _ _; now apply keyed_model| |injection E as <- _ _; now apply keyed_model].
      destruct (c_name c1) as [n|]; [|discriminate E]. injection E as <- _ _. apply keyed_model, keyed_set; [destruct n; other|exact K2].
    Qed.
    Lemma raw_keyed d : forall m, keyed_m m -> keyed_m (put_raw d m).
    Proof. induction d as [|[k v] d IH]; intros m K; [exact K|]. unfold put_raw in *. cbn [fold_left fst snd]. apply IH. apply keyed_set; [other|exact K]. Qed.
    Lemma conv_keyed a d : forall m m', keyed_m m -> put_conv rec a d m = Ok m' -> keyed_m m'.
    Proof.
      induction d as [|[k v] d IH]; intros m m' K E; [injection E as <-; exact K|]. cbn [put_conv] in E. apply bind_ok in E as (r & R & E). eapply IH; [|exact E]. apply keyed_set; [exact (rec0_keyed _ _ _ R)|exact K].
    Qed.
    Lemma cleanup_keyed m v c r c' : keyed_m m -> cleanup h rec m v c = Ok (r, c') -> keyed r.
    Proof.
      intros K E. unfold cleanup in E. destruct (c_addp c).
      - destruct v; try discriminate E. injection E as <- _. now apply keyed_model, raw_keyed.
      - destruct (c_addps c) as [o|]; [|injection E as <- _; now apply keyed_model]. destruct v; try discriminate E. destruct (s_addp (sch h o)); try discriminate E. apply bind_ok in E as (m' & P & E). injection E as <- _. apply keyed_model. eapply conv_keyed; eassumption.
    Qed.
    Lemma array_keyed o l v r w : Forall keyed l -> array_apply rec o l v = Ok (r, w) -> keyed r.
    Proof.
      intros K E. unfold array_apply in E. apply bind_ok in E as (v1 & _ & E). apply bind_ok in E as (v2 & _ & E). apply bind_ok in E as ((l2, v3) & L & E). cbn [fst snd] in E. apply bind_ok in E as (? & _ & E). apply bind_ok in E as (? & _ & E). injection E as <- _.
      apply keyed_array. destruct (s_items o) as [it|]; [|injection L as <- _; exact K]. destruct (elements v2) as [[|e es]|]; [injection L as <- _; exact K| |discriminate L]. apply bind_ok in L as (rs & M & L). injection L as <- _. apply Forall_app. split; [exact K|exact (map_keyed _ _ _ M)].
    Qed.
    Notation apply_obj := (apply_obj date_at datetime_at uuid_of h rec).
    Notation run_2nd := (run_2nd date_at datetime_at uuid_of email_ok h rec).
    Notation apply_more := (apply_more date_at datetime_at uuid_of email_ok h rec).
    Lemma obj_keyed r o v c r' w c' : keyed r -> apply_obj r o v c = Ok (r', w, c') -> keyed r'.
    Proof.
      intros K E. destruct r; try discriminate E; cbn [M_Prim.apply_obj] in E.
      1-5: apply bind_ok in E as (y0 & Y & E); injection E as <- _ _; try other.
      - unfold date_of in Y. destruct v; try discriminate Y; [apply bind_ok in Y as (((? & ?) & ?) & _ & Y)|apply bind_ok in Y as (((? & ?) & ?) & _ & Y)| |]; injection Y as <-; other.
      - unfold file_of in Y. destruct v; try discriminate Y. destruct (_ && _); [discriminate Y|]. injection Y as <-. other.
      - apply bind_ok in E as ((y0, z0) & Y & E). injection E as <- _ _. cbn [fst]. apply keyed_array in K. exact (array_keyed _ _ _ _ _ K Y).
      - apply keyed_model in K. exact (model_keyed _ _ _ _ _ _ _ K E).
    Qed.
    Lemma second_keyed f o r v c r' w c' : keyed r -> run_2nd f o r v c = Ok (r', w, c') -> keyed r'.
    Proof. intros K E. destruct f; cbn [M_Prim.run_2nd] in E; [..|exact (obj_keyed _ _ _ _ _ _ _ K E)]; apply bind_ok in E as (? & _ & E); injection E as <- _ _; exact K. Qed.
    Lemma more_keyed o r v c r' w c' : keyed r -> apply_more o r v c = Ok (r', w, c') -> keyed r'.
    Proof.
      intros K E. unfold M_Prim.apply_more in E. destruct (has_apply r); [exact (obj_keyed _ _ _ _ _ _ _ K E)|]. destruct (match c_2nd c with Some f => Some f | None => _ end) as [f|]; [|injection E as <- _ _; exact K]. apply bind_ok in E as (x & _ & E). injection E as <- _ _. exact K.
    Qed.
    Lemma all_keyed l : forall r v c na r' w c' na', keyed r -> all_of date_at datetime_at uuid_of email_ok h rec l r v c na = Ok (r', w, c', na') -> keyed r'.
    Proof.
      induction l as [|a l IH]; intros r v c na r' w c' na' K E; [injection E as <- _ _ _; exact K|]. cbn [all_of] in E. apply bind_ok in E as (b & _ & E). apply bind_ok in E as (((r1, v1), c1) & X & E). eapply IH; [|exact E].
      destruct (falsy r); [|exact (more_keyed _ _ _ _ _ _ _ K X)]. apply bind_ok in X as ((y, z) & Y & X). injection X as <- _ _. exact (REC _ _ _ _ _ Y).
    Qed.
    Lemma rest_keyed l : forall r v c r' w c', keyed r -> apply_rest date_at datetime_at uuid_of email_ok h rec l r v c = Ok (r', w, c') -> keyed r'.
    Proof. induction l as [|a l IH]; intros r v c r' w c' K E; [injection E as <- _ _; exact K|]. cbn [apply_rest] in E. apply bind_ok in E as (((r1, v1), c1) & X & E). eapply IH; [|exact E]. exact (more_keyed _ _ _ _ _ _ _ K X). Qed.
    Lemma create_keyed cr o v r : create int_of float_of str_of cr o v = Ok r -> keyed r.
    Proof.
      intro E. destruct cr as [| | | |[]]; cbn [create] in E; repeat (apply bind_ok in E as (? & _ & E)); injection E as <-; try other; constructor; constructor.
    Qed.
    Lemma start_keyed o v c r w c' : start int_of float_of str_of date_at datetime_at uuid_of email_ok h rec o v c = Ok (r, w, c') -> keyed r.
    Proof.
      intro E. unfold start in E. cbv zeta in E.
      assert (M : model_apply h rec o [] v c = Ok (r, w, c') -> keyed r) by (apply model_keyed; split; constructor).
      assert (M' : (if negb (s_full (sch h o)) then Err AttributeError else if nonempty (s_props (sch h o)) || match s_addp (sch h o) with ANone | ABool false => false | _ => true end then model_apply h rec o [] v c else Ok (PNone, v, c)) = Ok (r, w, c') -> keyed r).
      { destruct (negb _); [discriminate|]. destruct (_ || _); [exact M|]. intro X. injection X as <- _ _. other. }
      destruct (s_type (sch h o)) as [[|a s]|]; [exact (M' E)| |exact (M' E)]. destruct (get _ _) as ([cr|] & f); [|discriminate E]. apply bind_ok in E as (x & X & E). apply create_keyed in X.
      destruct f as [f|]; [|injection E as <- _ _; exact X]. apply bind_ok in E as (((r1, v1), c1) & Y & E). injection E as <- _ _. exact (second_keyed _ _ _ _ _ _ _ _ X Y).
    Qed.
    Lemma finish_keyed s r v c r' c' : keyed r -> finish date_at datetime_at uuid_of email_ok h rec s r v c = Ok (r', c') -> keyed r'.
    Proof.
      intros K E. unfold finish in E. destruct (final_kind r); [injection E as <- _; exact K|]. apply bind_ok in E as (((r1, v1), c1) & Y & E).
      assert (K1 : keyed r1). { destruct (s_full s); [|injection Y as <- _ _; exact K]. apply bind_ok in Y as ((((r2, v2), c2), na) & Z & Y). apply (all_keyed _ _ _ _ _ _ _ _ _ K) in Z. destruct (falsy r2); [injection Y as <- _ _; exact Z|exact (rest_keyed _ _ _ _ _ _ _ Z Y)]. }
      destruct r1; try (injection E as <- _; exact K1). apply keyed_model in K1. exact (cleanup_keyed _ _ _ _ _ K1 E).
    Qed.
    Lemma step_keyed o v c r c' : produce_step int_of float_of str_of date_at datetime_at uuid_of email_ok h rec o v c = Ok (r, c') -> keyed r.
    Proof.
      intro E. unfold produce_step in E. cbv zeta in E. destruct (is_null (if is_null v then _ else v)); [injection E as <- _; other|]. apply bind_ok in E as (b & _ & E). apply bind_ok in E as (g & _ & E). apply bind_ok in E as (((r1, v1), c1) & X & E).
      apply start_keyed in X. exact (finish_keyed _ _ _ _ _ _ X E).
    Qed.
  End Step.
  Lemma produce_keyed n : forall o v c r c', produce int_of float_of str_of date_at datetime_at uuid_of email_ok h n o v c = Ok (r, c') -> keyed r.
  Proof. induction n as [|n IH]; intros o v c r c' E; [discriminate E|]. exact (step_keyed _ IH _ _ _ _ _ E). Qed.
End Keyed.
