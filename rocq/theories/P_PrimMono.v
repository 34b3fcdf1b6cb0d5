(** More fuel never changes a result of the primitive factory. *)
From Coq Require Import QArith Lia.
From Verif Require Import PyBase PyFacts M_Graph M_Time M_Prim P_Op.
Close Scope Q_scope.
Open Scope nat_scope.

Definition le {A} (a b : res A) : Prop := forall x, a = Ok x -> b = Ok x.
Lemma le_refl {A} (a : res A) : le a a. Proof. intros x E; exact E. Qed.
Lemma le_bind {A B} (a a' : res A) (f f' : A -> res B) : le a a' -> (forall x, le (f x) (f' x)) -> le (bind a f) (bind a' f').
Proof. intros L F y E. apply bind_ok in E as (x & E1 & E2). apply bind_ok. exists x. split; [now apply L|now apply F]. Qed.

Section Mono.
  Context (int_of : str -> res Z) (float_of : str -> res Q) (str_of : value -> str)
    (date_at : Q -> res (Z * Z * Z)) (datetime_at : Q -> res datetime)
    (uuid_of : str -> option Z) (email_ok : str -> bool) (h : list schema).
  Notation produce := (produce int_of float_of str_of date_at datetime_at uuid_of email_ok h).
  Notation produce_step := (produce_step int_of float_of str_of date_at datetime_at uuid_of email_ok h).
  Section Rec.
    Context (rec rec' : nat -> value -> ctx -> res (prim * ctx)) (R : forall o v c, le (rec o v c) (rec' o v c)).
    Lemma rec0_mono o v : le (rec0 rec o v) (rec0 rec' o v).
    Proof. unfold rec0. apply le_bind; [apply R|intro; apply le_refl]. Qed.
    Lemma map_res_mono {A B} (f g : A -> res B) l : (forall x, le (f x) (g x)) -> le (map_res f l) (map_res g l).
    Proof.
      intro F. induction l as [|x l IH]; cbn [map_res]; [apply le_refl|]. apply le_bind; [apply F|intro].
      apply le_bind; [exact IH|intro; apply le_refl].
    Qed.
    Lemma array_mono s l v : le (array_apply rec s l v) (array_apply rec' s l v).
    Proof.
      unfold array_apply. apply le_bind; [apply le_refl|intro v1]. apply le_bind; [apply le_refl|intro v2].
      apply le_bind; [|intro; apply le_refl]. destruct (s_items s) as [it|]; [|apply le_refl].
      destruct (elements v2) as [[|e es]|]; try apply le_refl.
      apply le_bind; [|intro; apply le_refl]. apply map_res_mono. intro. apply rec0_mono.
    Qed.
    Lemma given_mono o : forall d m c, le (model_given h rec o d m c) (model_given h rec' o d m c).
    Proof.
      induction d as [|[k v] d IH]; intros m c; cbn [model_given]; [apply le_refl|].
      destruct (sget k (s_props (sch h o))) as [p|].
      - destruct (_ && _); [apply le_refl|]. apply le_bind; [apply rec0_mono|]. intro. apply IH.
      - destruct (s_addp (sch h o)) as [|[]|]; apply IH.
    Qed.
    Lemma defaults_mono : forall ps m, le (model_defaults h rec ps m) (model_defaults h rec' ps m).
    Proof.
      induction ps as [|[k p] ps IH]; intros m; cbn [model_defaults]; [apply le_refl|].
      destruct (_ && _); [|apply IH]. apply le_bind; [apply rec0_mono|]. intro. apply IH.
    Qed.
    Lemma model_mono o m v c : le (model_apply h rec o m v c) (model_apply h rec' o m v c).
    Proof.
      unfold model_apply. destruct v; try apply le_refl. destruct (negb _); [apply le_refl|].
      apply le_bind; [apply given_mono|intro]. apply le_bind; [apply defaults_mono|intro]. apply le_refl.
    Qed.
    Lemma put_conv_mono a : forall d m, le (put_conv rec a d m) (put_conv rec' a d m).
    Proof.
      induction d as [|[k v] d IH]; intro m; cbn [put_conv]; [apply le_refl|]. apply le_bind; [apply rec0_mono|]. intro. apply IH.
    Qed.
    Lemma cleanup_mono m v c : le (cleanup h rec m v c) (cleanup h rec' m v c).
    Proof.
      unfold cleanup. destruct (c_addp c); [apply le_refl|]. destruct (c_addps c) as [o|]; [|apply le_refl].
      destruct v; try apply le_refl. destruct (s_addp (sch h o)); try apply le_refl.
      apply le_bind; [apply put_conv_mono|]. intro. apply le_refl.
    Qed.
    Lemma apply_obj_mono r o v c : le (apply_obj date_at datetime_at uuid_of h rec r o v c) (apply_obj date_at datetime_at uuid_of h rec' r o v c).
    Proof.
      unfold apply_obj. destruct r; try apply le_refl.
      - apply le_bind; [apply array_mono|intro; apply le_refl].
      - apply model_mono.
    Qed.
    Lemma run_2nd_mono f o r v c : le (run_2nd date_at datetime_at uuid_of email_ok h rec f o r v c)
      (run_2nd date_at datetime_at uuid_of email_ok h rec' f o r v c).
    Proof. unfold run_2nd. destruct f; try apply le_refl. apply apply_obj_mono. Qed.
    Lemma apply_more_mono o r v c : le (apply_more date_at datetime_at uuid_of email_ok h rec o r v c)
      (apply_more date_at datetime_at uuid_of email_ok h rec' o r v c).
    Proof.
      unfold apply_more. destruct (has_apply r); [apply apply_obj_mono|].
      destruct (match c_2nd c with Some f => Some f | None => snd (get (s_type (sch h o)) (s_format (sch h o))) end) as [f|]; [|apply le_refl].
      apply le_bind; [apply run_2nd_mono|intro; apply le_refl].
    Qed.
    Lemma all_of_mono : forall l r v c na, le (all_of date_at datetime_at uuid_of email_ok h rec l r v c na)
      (all_of date_at datetime_at uuid_of email_ok h rec' l r v c na).
    Proof.
      induction l as [|a l IH]; intros r v c na; cbn [all_of]; [apply le_refl|].
      apply le_bind; [apply le_refl|intro a']. apply le_bind.
      - destruct (falsy r); [|apply apply_more_mono]. apply le_bind; [apply R|intro; apply le_refl].
      - intros [[r1 v1] c1]. apply IH.
    Qed.
    Lemma apply_rest_mono : forall l r v c, le (apply_rest date_at datetime_at uuid_of email_ok h rec l r v c)
      (apply_rest date_at datetime_at uuid_of email_ok h rec' l r v c).
    Proof.
      induction l as [|a l IH]; intros r v c; cbn [apply_rest]; [apply le_refl|].
      apply le_bind; [apply apply_more_mono|]. intros [[r1 v1] c1]. apply IH.
    Qed.
    Lemma start_mono o v c : le (start int_of float_of str_of date_at datetime_at uuid_of email_ok h rec o v c)
      (start int_of float_of str_of date_at datetime_at uuid_of email_ok h rec' o v c).
    Proof.
      unfold start. assert (X : le (if negb (s_full (sch h o)) then Err AttributeError
         else if nonempty (s_props (sch h o)) || match s_addp (sch h o) with ANone | ABool false => false | _ => true end
              then model_apply h rec o [] v c else Ok (PNone, v, c))
        (if negb (s_full (sch h o)) then Err AttributeError
         else if nonempty (s_props (sch h o)) || match s_addp (sch h o) with ANone | ABool false => false | _ => true end
              then model_apply h rec' o [] v c else Ok (PNone, v, c))).
      { destruct (negb _); [apply le_refl|]. destruct (_ || _); [apply model_mono|apply le_refl]. }
      destruct (s_type (sch h o)) as [[|ch ty]|]; try exact X.
      destruct (get _ _) as [[cr|] f]; [|apply le_refl]. apply le_bind; [apply le_refl|intro r].
      destruct f as [f|]; [|apply le_refl]. apply le_bind; [apply run_2nd_mono|]. intros [[r1 v1] c1]. apply le_refl.
    Qed.
    Lemma finish_mono s r v c : le (finish date_at datetime_at uuid_of email_ok h rec s r v c)
      (finish date_at datetime_at uuid_of email_ok h rec' s r v c).
    Proof.
      unfold finish. destruct (final_kind r); [apply le_refl|]. apply le_bind.
      - destruct (s_full s); [|apply le_refl]. apply le_bind; [apply all_of_mono|]. intros [[[r1 v1] c1] na].
        destruct (falsy r1); [apply le_refl|apply apply_rest_mono].
      - intros [[r1 v1] c1]. destruct r1; try apply le_refl. apply cleanup_mono.
    Qed.
    Lemma step_mono o v c : le (produce_step rec o v c) (produce_step rec' o v c).
    Proof.
      unfold M_Prim.produce_step. destruct (is_null _); [apply le_refl|]. apply le_bind; [apply le_refl|intro t].
      apply le_bind; [apply le_refl|intro g]. apply le_bind; [apply start_mono|]. intros [[r1 v1] c1]. apply finish_mono.
    Qed.
  End Rec.
  Lemma produce_S : forall n o v c, le (produce n o v c) (produce (S n) o v c).
  Proof.
    induction n as [|n IH]; intros o v c; [intros x E; discriminate E|].
    cbn [M_Prim.produce]. apply step_mono. exact IH.
  Qed.
  Theorem produce_mono n m o v c : n <= m -> le (produce n o v c) (produce m o v c).
  Proof. induction 1 as [|m L IH]; [apply le_refl|]. intros x E. apply produce_S. now apply IH. Qed.
End Mono.
