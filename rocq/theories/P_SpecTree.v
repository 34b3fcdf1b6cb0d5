(** Proofs about walking through objects. *)
From Coq Require Import Lia.
From Verif Require Import PyBase PyFacts PyJson PyInt P_Int M_JsonPtr S_JsonPtr P_JsonPtr P_Op M_SpecVal M_Parse M_SpecTree S_Parse S_SpecTree P_SpecBase P_Parse.
Close Scope Q_scope.

Section ValInd.
  Context (P : val -> Prop).
  Context (Hn : P VNone) (Hb : forall b, P (VBool b)) (Hi : forall z, P (VInt z)) (Hf : forall q, P (VFloat q)) (Hs : forall s, P (VStr s)).
  Context (Hl : forall l, Forall P l -> P (VList l)).
  Context (Hd : forall d, Forall (fun kv => P (snd kv)) d -> P (VDict d)).
  Context (Ho : forall h fs ints, Forall (fun kv => P (snd kv)) fs -> P (VObj h fs ints)).
  Fixpoint val_ind' (v : val) : P v :=
    match v with
    | VNone => Hn | VBool b => Hb b | VInt z => Hi z | VFloat q => Hf q | VStr s => Hs s
    | VList l => Hl l ((fix go l := match l return Forall P l with [] => Forall_nil _ | x :: l => Forall_cons _ (val_ind' x) (go l) end) l)
    | VDict d => Hd d ((fix go d := match d return Forall (fun kv => P (snd kv)) d with [] => Forall_nil _ | kv :: d => Forall_cons _ (val_ind' (snd kv)) (go d) end) d)
    | VObj h fs ints => Ho h fs ints ((fix go d := match d return Forall (fun kv => P (snd kv)) d with [] => Forall_nil _ | kv :: d => Forall_cons _ (val_ind' (snd kv)) (go d) end) fs)
    end.
End ValInd.

Lemma str_of_nat_inj i j : str_of_nat i = str_of_nat j -> i = j.
Proof. unfold str_of_nat. intro E. apply str_of_Z_inj in E. lia. Qed.

(** ** Pointers *)
Lemma pointer_app b ts us : rfc_pointer b (ts ++ us) = rfc_pointer (rfc_pointer b ts) us.
Proof. unfold rfc_pointer. now rewrite flat_map_app, app_assoc. Qed.
Lemma pointer_nil b : rfc_pointer b [] = b.
Proof. unfold rfc_pointer. now rewrite app_nil_r. Qed.
Lemma pointer_nonempty b ts : b <> [] -> rfc_pointer b ts <> [].
Proof. destruct b; [congruence|discriminate]. Qed.
Lemma pointer_inj b ts us : b <> [] -> rfc_pointer b ts = rfc_pointer b us -> ts = us.
Proof. intros N E. apply (compose_injective b); [exact N|]. now rewrite !compose_pointer_ok, E. Qed.
Lemma sub_pointer k b : b <> [] -> sub k b = rfc_pointer b [k].
Proof. intro N. unfold sub. now rewrite compose_str, compose_pointer_ok. Qed.
Lemma top_escape k : top k = rfc_escape k.
Proof. unfold top, jp_compose. cbn [map join]. apply jp_encode_rfc. Qed.
Lemma escape_nonempty k : k <> [] -> rfc_escape k <> [].
Proof.
  destruct k as [|c k]; [congruence|]. intros _. unfold rfc_escape. cbn [flat_map]. unfold rfc_escape_char.
  destruct (Ascii.eqb c "~"%char); [discriminate|]. destruct (Ascii.eqb c "/"%char); discriminate.
Qed.
Lemma slash_pointer p n ts : p ++ "/"%char :: rfc_pointer (rfc_escape n) ts = rfc_pointer p (n :: ts).
Proof. reflexivity. Qed.
Lemma pointer_len b ts : length b <= length (rfc_pointer b ts).
Proof. unfold rfc_pointer. rewrite app_length. lia. Qed.
Lemma pointer_longer b ts : ts <> [] -> length b < length (rfc_pointer b ts).
Proof. destruct ts as [|t ts]; [congruence|]. intros _. unfold rfc_pointer. rewrite app_length. cbn. lia. Qed.

(** ** The objects directly below, with the tokens that lead there *)
Fixpoint below (v : val) : list (list str * val) :=
  match v with
  | VObj _ _ _ => [([], v)]
  | VList l => (fix go (i : nat) l := match l with [] => [] | x :: l => map (fun p => (str_of_nat i :: fst p, snd p)) (below x) ++ go (S i) l end) 0 l
  | VDict d => (fix go d := match d with [] => [] | (k, x) :: d => map (fun p => (k :: fst p, snd p)) (below x) ++ go d end) d
  | _ => []
  end.
Definition below_all (d : sdict val) : list (list str * val) :=
  flat_map (fun kv => map (fun p => (fst kv :: fst p, snd p)) (below (snd kv))) d.
Fixpoint number {A} (i : nat) (l : list A) : list (str * A) :=
  match l with [] => [] | x :: l => (str_of_nat i, x) :: number (S i) l end.
Lemma below_list l : below (VList l) = below_all (number 0 l).
Proof. cbn [below]. generalize 0. induction l as [|x l IH]; intro i; [reflexivity|]. cbn [number below_all flat_map fst snd]. now rewrite IH. Qed.
Lemma below_dict d : below (VDict d) = below_all d.
Proof. cbn [below]. induction d as [|[k x] d IH]; [reflexivity|]. cbn [below_all flat_map fst snd]. now rewrite IH. Qed.
Lemma number_keys {A} (l : list A) : forall i k, In k (map fst (number i l)) -> exists j, i <= j /\ k = str_of_nat j.
Proof.
  induction l as [|x l IH]; intros i k; [intros []|]. cbn. intros [<-|I]; [exists i; split; [lia|reflexivity]|].
  destruct (IH _ _ I) as (j & L & ->). exists j. split; [lia|reflexivity].
Qed.
Lemma number_nodup {A} (l : list A) : forall i, NoDup (map fst (number i l)).
Proof.
  induction l as [|x l IH]; intro i; cbn; constructor; [|apply IH]. intro I. apply number_keys in I as (j & L & E).
  apply str_of_nat_inj in E. lia.
Qed.
Lemma number_get {A} (l : list A) : forall i j x, In (str_of_nat j, x) (number i l) <-> i <= j /\ nth_error l (j - i) = Some x.
Proof.
  induction l as [|y l IH]; intros i j x; cbn.
  - split; [intros []|intros [_ H]]. now destruct (j - i).
  - rewrite IH. split.
    + intros [E|[L N]].
      * injection E as E ->. apply str_of_nat_inj in E as ->. rewrite Nat.sub_diag. split; [lia|reflexivity].
      * split; [lia|]. replace (j - i) with (S (j - S i)) by lia. exact N.
    + intros [L N]. destruct (Nat.eq_dec j i) as [->|D].
      * left. rewrite Nat.sub_diag in N. cbn in N. congruence.
      * right. split; [lia|]. replace (j - i) with (S (j - S i)) in N by lia. exact N.
Qed.
Lemma number_In {A} (l : list A) k x : In (k, x) (number 0 l) <-> exists j, k = str_of_nat j /\ nth_error l j = Some x.
Proof.
  split.
  - intro I. destruct (number_keys l 0 k) as (j & L & ->); [now apply (in_map fst) in I|].
    apply number_get in I as [_ I]. rewrite Nat.sub_0_r in I. eauto.
  - intros (j & -> & N). apply number_get. rewrite Nat.sub_0_r. split; [lia|exact N].
Qed.
Lemma below_all_In d ts o : In (ts, o) (below_all d) <-> exists k us x, ts = k :: us /\ In (k, x) d /\ In (us, o) (below x).
Proof.
  unfold below_all. rewrite in_flat_map. split.
  - intros ([k x] & I & J). apply in_map_iff in J as ([us o'] & E & J). injection E as <- <-. eauto 7.
  - intros (k & us & x & -> & I & J). exists (k, x). split; [exact I|]. apply in_map_iff. exists (us, o). auto.
Qed.
Lemma below_inside v : wfv v -> forall ts o, In (ts, o) (below v) <-> inside v ts o /\ is_obj o.
Proof.
  induction v using val_ind'; intros W ts o.
  1-5: cbn; split; [intros []|intros [I O]; inversion I; subst; exact O].
  - rewrite below_list, below_all_In. inversion W as [| | | | |? F| |]; subst. rewrite Forall_forall in H, F. split.
    + intros (k & us & x & -> & I & J). apply number_In in I as (j & -> & N).
      assert (X := nth_error_In _ _ N). apply (H x X (F x X)) in J as [J O]. split; [|exact O]. econstructor; eauto.
    + intros [I O]. inversion I as [|? i x us ? N J|]; subst; [destruct O|].
      assert (X := nth_error_In _ _ N). do 3 eexists. split; [reflexivity|]. split; [apply number_In; eauto|]. apply H; auto.
  - rewrite below_dict, below_all_In. inversion W as [| | | | | |? N F|]; subst. rewrite Forall_forall in H, F. split.
    + intros (k & us & x & -> & I & J). apply (H (k, x) I (F _ I)) in J as [J O]. split; [|exact O]. econstructor; eauto. now apply In_sget.
    + intros [I O]. inversion I as [| |? k x us ? G J]; subst; [destruct O|]. apply sget_In in G.
      do 3 eexists. split; [reflexivity|]. split; [exact G|]. apply (H (k, x)); [exact G|exact (F _ G)|auto].
  - cbn [below]. split.
    + intros [E|[]]. injection E as <- <-. split; [constructor|exact I].
    + intros [I O]. inversion I; subst. now left.
Qed.
Lemma nodup_keyed (d : sdict val) : NoDup (map fst d) -> Forall (fun kv => NoDup (map fst (below (snd kv)))) d -> NoDup (map fst (below_all d)).
Proof.
  induction d as [|[k x] d IH]; intros N F; [constructor|]. inversion N as [|? ? NI N']. inversion F as [|? ? F1 F']. subst.
  cbn [below_all flat_map fst snd] in *. rewrite map_app, map_map. cbn [fst]. rewrite <- (map_map fst (cons k)).
  assert (C : NoDup (map (cons k) (map fst (below x)))).
  { clear - F1. induction F1; cbn; constructor; [|assumption]. intro I. apply in_map_iff in I as (y & E & I). injection E as ->. contradiction. }
  assert (D : forall a, In a (map (cons k) (map fst (below x))) -> ~ In a (map fst (below_all d))).
  { intros a I J. apply in_map_iff in I as (us & <- & _). apply in_map_iff in J as ([ts o] & E & J). cbn in E. subst ts.
    apply below_all_In in J as (k' & us' & x' & E & J & _). injection E as <- <-. apply NI. now apply (in_map fst) in J. }
  revert C D. generalize (map (cons k) (map fst (below x))) as a. intros a C D. induction C as [|y a NI' C IHC]; [now apply IH|].
  cbn. constructor.
  - rewrite in_app_iff. intros [I|I]; [contradiction|]. eapply D; [now left|exact I].
  - apply IHC. intros z I. apply D. now right.
Qed.
Lemma below_nodup v : wfv v -> NoDup (map fst (below v)).
Proof.
  induction v using val_ind'; intro W; try constructor; try (constructor; fail).
  - rewrite below_list. inversion W as [| | | | |? F| |]; subst. apply nodup_keyed; [apply number_nodup|].
    apply Forall_forall. intros [k x] I. apply number_In in I as (j & -> & I). apply nth_error_In in I. cbn [snd].
    rewrite Forall_forall in H, F. auto.
  - rewrite below_dict. inversion W as [| | | | | |? N F|]; subst. apply nodup_keyed; [exact N|].
    rewrite Forall_forall in *. intros kv I. apply H; auto.
  - cbn. intros [].
Qed.
Lemma down_below v : forall name, name <> [] -> down name v = map (fun p => (rfc_pointer name (fst p), snd p)) (below v).
Proof.
  induction v using val_ind'; intros name N; try reflexivity.
  - cbn [down below]. generalize 0. induction H as [|x l X H IH]; intro i; [reflexivity|]. cbn -[sub str_of_nat rfc_pointer]. rewrite map_app, map_map.
    rewrite X by (rewrite sub_pointer by exact N; now apply pointer_nonempty). rewrite IH. f_equal. apply map_ext. intros [ts o]. cbn [fst snd].
    now rewrite sub_pointer, <- pointer_app by exact N.
  - cbn [down below]. induction H as [|[k x] d X H IH]; [reflexivity|]. cbn -[sub rfc_pointer]. rewrite map_app, map_map. cbn [snd] in X.
    rewrite X by (rewrite sub_pointer by exact N; now apply pointer_nonempty). rewrite IH. f_equal. apply map_ext. intros [ts o]. cbn [fst snd].
    now rewrite sub_pointer, <- pointer_app by exact N.
  - cbn [down below map fst snd]. now rewrite pointer_nil.
Qed.

(** ** Children *)
Lemma field_nonempty c n : In n (map fst (t_fields c)) -> n <> [].
Proof.
  assert (X : forallb (fun n => nonempty n) (map fst (t_fields c)) = true) by (each_class c; vm_compute; reflexivity).
  rewrite forallb_forall in X. intro I. apply X in I. now destruct n.
Qed.
Lemma supdate_fresh {A} (e : sdict A) : forall d, NoDup (map fst d ++ map fst e) -> supdate d e = d ++ e.
Proof.
  unfold dupdate. induction e as [|[k x] e IH]; intros d N; cbn [fold_left fst snd]; [now rewrite app_nil_r|].
  assert (S : sset k x d = d ++ [(k, x)]).
  { cbn in N. apply NoDup_remove_2 in N. clear - N. induction d as [|[k' y] d IH]; [reflexivity|]. cbn [dset].
    destruct (str_eqb k k') eqn:Q; [apply str_eqb_eq in Q; subst; exfalso; apply N; now left|].
    cbn [app]. f_equal. apply IH. intro I. apply N. now right. }
  rewrite S, IH.
  - now rewrite <- app_assoc.
  - rewrite map_app, <- app_assoc. exact N.
Qed.
Definition child_list (v : val) : list (list str * val) :=
  match v with VObj _ fs _ => below_all fs | _ => [] end.
Lemma name_of_inj n ts m us : n <> [] -> m <> [] -> name_of (n :: ts) = name_of (m :: us) -> n :: ts = m :: us.
Proof.
  intros N M E. apply (pointer_inj (lit "#")); [discriminate|]. rewrite <- !slash_pointer. cbn [name_of] in E. now rewrite E.
Qed.
Lemma children_list v : wfv v -> children v = map (fun p => (name_of (fst p), snd p)) (child_list v).
Proof.
  destruct v as [| | | | | | |h fs ints]; intro W; try reflexivity. inversion W as [| | | | | | |? ? ? K F]; subst.
  assert (NE : forall n x, In (n, x) fs -> n <> []).
  { intros n x I. apply (field_nonempty (h_cls h)). rewrite <- K. now apply (in_map fst) in I. }
  assert (D : flat_map (fun nv => down (top (fst nv)) (snd nv)) fs = map (fun p => (name_of (fst p), snd p)) (below_all fs)).
  { clear - NE. unfold below_all. induction fs as [|[n x] fs IH]; [reflexivity|]. cbn [flat_map fst snd]. rewrite map_app, map_map, <- IH by eauto using in_cons.
    f_equal. rewrite top_escape, down_below by (apply escape_nonempty; eapply NE; now left). reflexivity. }
  cbn [children child_list]. rewrite D. apply supdate_fresh. cbn [map app]. rewrite map_map. cbn [fst]. rewrite <- (map_map fst name_of).
  assert (N : NoDup (map fst (below_all fs))).
  { apply nodup_keyed; [rewrite K; apply fields_nodup|]. apply Forall_forall. intros kv I. apply below_nodup. rewrite Forall_forall in F. auto. }
  assert (X : forall ts, In ts (map fst (below_all fs)) -> exists n us, ts = n :: us /\ n <> []).
  { intros ts I. apply in_map_iff in I as ([ts' o] & <- & I). apply below_all_In in I as (k & us & x & -> & I & _). cbn. eauto. }
  induction N as [|ts l NI N IH]; cbn; constructor.
  - intro I. apply in_map_iff in I as (us & E & I). apply NI.
    destruct (X ts (or_introl eq_refl)) as (n & ts' & -> & N1). destruct (X us (or_intror I)) as (m & us' & -> & N2).
    assert (Q : n :: ts' = m :: us') by (apply name_of_inj; auto). injection Q as -> ->. exact I.
  - apply IH. intros us I. apply X. now right.
Qed.

(** ** Reaching objects *)
Lemma inside_reach lv v us y : inside v us y -> forall vs o, reach lv y vs o -> reach lv v (us ++ vs) o.
Proof. induction 1; intros vs o' R; cbn [app]; [exact R|eapply reach_item; eauto|eapply reach_key; eauto]. Qed.
Lemma reach_split lv v ts o : reach lv v ts o -> is_obj o ->
  exists us y vs, inside v us y /\ is_obj y /\ ts = us ++ vs /\ reach lv y vs o.
Proof.
  induction 1 as [v|h fs ints n v ts o L G R IH|l i v ts o N R IH|d k v ts o G R IH]; intro O.
  - exists [], v, []. repeat split; auto; constructor.
  - exists [], (VObj h fs ints), (n :: ts). split; [constructor|]. split; [exact I|]. split; [reflexivity|]. econstructor; eauto.
  - destruct (IH O) as (us & y & vs & I & OY & -> & R'). exists (str_of_nat i :: us), y, vs. repeat split; auto. econstructor; eauto.
  - destruct (IH O) as (us & y & vs & I & OY & -> & R'). exists (k :: us), y, vs. repeat split; auto. econstructor; eauto.
Qed.
Definition leafb (leaves : list cls) (v : val) : bool :=
  match v with VObj h _ _ => existsb (cls_eqb (h_cls h)) leaves | _ => false end.
Lemma leafb_In leaves h fs ints : leafb leaves (VObj h fs ints) = false <-> ~ In (h_cls h) leaves.
Proof.
  cbn. rewrite <- not_true_iff_false, existsb_exists. split; intros H X; apply H.
  - exists (h_cls h). split; [exact X|]. apply cls_eqb_refl.
  - destruct X as (c & I & E). apply cls_eqb_eq in E. now subst.
Qed.
Lemma reach_children leaves v ts o : wfv v -> is_obj v -> is_obj o ->
  reach leaves v ts o <-> (ts = [] /\ o = v) \/ (leafb leaves v = false /\ exists us y vs, In (us, y) (child_list v) /\ ts = us ++ vs /\ reach leaves y vs o).
Proof.
  intros W V O. destruct v as [| | | | | | |h fs ints]; try destruct V. inversion W as [| | | | | | |? ? ? K F]; subst. rewrite Forall_forall in F.
  split.
  - intro R. inversion R as [|? ? ? n x us ? L G R'| |]; subst; [now left|right]. split; [now apply leafb_In|].
    destruct (reach_split _ _ _ _ R' O) as (us1 & y & vs & I & OY & -> & R2). exists (n :: us1), y, vs. split; [|auto].
    cbn [child_list]. apply below_all_In. do 3 eexists. split; [reflexivity|]. apply sget_In in G. split; [exact G|]. apply below_inside; [exact (F _ G)|auto].
  - intros [[-> ->]|(L & us & y & vs & I & -> & R)]; [constructor|]. cbn [child_list] in I. apply below_all_In in I as (n & us' & x & -> & I & J).
    cbn [app]. econstructor; [now apply (leafb_In leaves h fs ints)|..].
    + apply In_sget; [rewrite K; apply fields_nodup|exact I].
    + apply below_inside in J; [|exact (F _ I)]. destruct J. eapply inside_reach; eauto.
Qed.
Lemma inside_wf v ts o : inside v ts o -> wfv v -> wfv o.
Proof.
  induction 1 as [|l i v ts o N I IH|d k v ts o G I IH]; intro W; [exact W|..]; apply IH; inversion W as [| | | | |? F|? ? F|]; subst; rewrite Forall_forall in F.
  - apply F. eapply nth_error_In; eauto.
  - apply sget_In in G. exact (F _ G).
Qed.
Lemma child_list_wf v us y : wfv v -> In (us, y) (child_list v) -> wfv y /\ is_obj y /\ us <> [].
Proof.
  destruct v as [| | | | | | |h fs ints]; intros W I; [destruct I..|]. inversion W as [| | | | | | |? ? ? K F]; subst. rewrite Forall_forall in F.
  cbn [child_list] in I. apply below_all_In in I as (n & us' & x & -> & I & J). apply below_inside in J; [|exact (F _ I)].
  destruct J as [J O]. split; [|split; [exact O|discriminate]]. eapply inside_wf; [exact J|]. exact (F _ I).
Qed.
Lemma child_list_nodup v : wfv v -> NoDup (map fst (child_list v)).
Proof.
  destruct v as [| | | | | | |h fs ints]; intro W; try constructor. inversion W as [| | | | | | |? ? ? K F]; subst.
  cbn [child_list]. apply nodup_keyed; [rewrite K; apply fields_nodup|]. apply Forall_forall. intros kv I. apply below_nodup. rewrite Forall_forall in F. auto.
Qed.

(** ** The stack *)
Definition total (l : list (str * val)) : nat := list_sum (map (fun p => count (snd p)) l).
Lemma total_app a b : total (a ++ b) = total a + total b.
Proof. unfold total. now rewrite map_app, list_sum_app. Qed.
Lemma count_below v : list_sum (map (fun p => count (snd p)) (below v)) = count v.
Proof.
  induction v using val_ind'; try reflexivity.
  - rewrite below_list. assert (X : forall i, list_sum (map (fun p => count (snd p)) (below_all (number i l))) = list_sum (map count l)).
    { induction H as [|x l X H IH]; intro i; [reflexivity|]. unfold below_all in *. cbn [number flat_map fst snd]. rewrite map_app, list_sum_app, map_map, IH. cbn [snd]. now rewrite X. }
    rewrite X. cbn [count]. clear. induction l as [|x l IH]; [reflexivity|]. cbn [map]. change (list_sum (count x :: map count l)) with (count x + list_sum (map count l)). now rewrite IH.
  - cbn [below count]. induction H as [|[k x] d X H IH]; [reflexivity|]. rewrite map_app, list_sum_app, IH, map_map. cbn [snd] in *. now rewrite X.
  - cbn [below map list_sum fold_right snd]. cbn [list_sum fold_right]. lia.
Qed.
Lemma count_children v : is_obj v -> S (list_sum (map (fun p => count (snd p)) (child_list v))) = count v.
Proof.
  destruct v as [| | | | | | |h fs ints]; intros []. cbn [child_list count]. f_equal. unfold below_all.
  induction fs as [|[k x] fs IH]; [reflexivity|]. cbn [flat_map fst snd]. rewrite map_app, list_sum_app, map_map. cbn [snd]. now rewrite count_below, IH.
Qed.
Definition apart (a b : str * val) : Prop := forall ts us, rfc_pointer (fst a) ts <> rfc_pointer (fst b) us.
Lemma stack_last {A} (l : list A) x d : last (l ++ [x]) d = x /\ removelast (l ++ [x]) = l.
Proof. split; [apply last_last|apply removelast_last]. Qed.
Definition pushed (leaves : list cls) (p : str) (o : val) : list (str * val) :=
  if leafb leaves o then [] else map (fun c => (rfc_pointer p (fst c), snd c)) (child_list o).
Lemma walk_push fuel leaves l p o : wfv o -> is_obj o ->
  walk_stack (S fuel) leaves (l ++ [(p, o)]) =
  do r <- walk_stack fuel leaves (l ++ pushed leaves p o); Ok ((p, o) :: r).
Proof.
  intros W O. assert (E : l ++ [(p, o)] <> []) by (destruct l; discriminate).
  cbn [walk_stack]. destruct (l ++ [(p, o)]) as [|a l'] eqn:Q; [congruence|]. rewrite <- Q.
  destruct (stack_last l (p, o) ([], VNone)) as [-> ->]. cbv beta iota zeta.
  destruct o as [| | | | | | |h fs ints]; try destruct O. unfold pushed. cbn [leafb]. destruct (existsb _ leaves); [reflexivity|].
  rewrite (children_list _ W), map_map. cbn [fst snd]. erewrite map_ext_in; [reflexivity|].
  intros [us y] I. cbn [fst snd]. destruct (child_list_wf _ _ _ W I) as (_ & _ & N). destruct us as [|n us]; [congruence|]. reflexivity.
Qed.
Lemma pushed_In leaves p o q y : In (q, y) (pushed leaves p o) <-> leafb leaves o = false /\ exists us, In (us, y) (child_list o) /\ q = rfc_pointer p us.
Proof.
  unfold pushed. destruct (leafb leaves o); [split; [intros []|now intros []]|]. rewrite in_map_iff. split.
  - intros ([us y'] & E & I). injection E as <- <-. eauto.
  - intros (_ & us & I & ->). exists (us, y). auto.
Qed.
Lemma pushed_total leaves p o : is_obj o -> S (total (pushed leaves p o)) <= count o.
Proof.
  intro O. unfold pushed. destruct (leafb leaves o).
  - destruct o; try destruct O. cbn. lia.
  - rewrite <- count_children by exact O. unfold total. rewrite map_map. cbn [snd]. lia.
Qed.
Lemma pointer_same p q ts us : p <> [] -> rfc_pointer (rfc_pointer p q) ts = rfc_pointer p us -> us = q ++ ts.
Proof. intros N E. rewrite <- pointer_app in E. symmetry. eapply pointer_inj; eauto. Qed.
Lemma inside_antichain v us y us' y' ts ts' : is_obj y -> is_obj y' -> inside v us y -> inside v us' y' -> us ++ ts = us' ++ ts' -> us = us'.
Proof.
  intros O O' I. revert us' ts'. induction I as [v|l i v us y N I IH|d k v us y G I IH]; intros us' ts' I' E.
  - destruct v; try destruct O. inversion I'. reflexivity.
  - inversion I' as [|? j w vs ? N' J|]; subst; [destruct O'|]. injection E as E1 E. apply str_of_nat_inj in E1 as ->. rewrite N in N'. injection N' as <-.
    f_equal. eapply IH; eauto.
  - inversion I' as [| |? k' w vs ? G' J]; subst; [destruct O'|]. injection E as -> E. rewrite G in G'. injection G' as <-. f_equal. eapply IH; eauto.
Qed.
Lemma children_antichain v us y us' y' ts ts' : wfv v -> In (us, y) (child_list v) -> In (us', y') (child_list v) -> us ++ ts = us' ++ ts' -> us = us'.
Proof.
  destruct v as [| | | | | | |h fs ints]; intros W I I' E; [destruct I..|]. inversion W as [| | | | | | |? ? ? K F]; subst. rewrite Forall_forall in F.
  cbn [child_list] in *. apply below_all_In in I as (n & vs & x & -> & I & J), I' as (n' & vs' & x' & -> & I' & J').
  cbn in E. injection E as <- E. assert (x = x') as <-.
  { apply In_sget in I; [|rewrite K; apply fields_nodup]. apply In_sget in I'; [|rewrite K; apply fields_nodup]. congruence. }
  apply below_inside in J; [|exact (F _ I)]. apply below_inside in J'; [|exact (F _ I)]. destruct J, J'. f_equal. eapply (inside_antichain x vs y vs' y'); eauto.
Qed.
Fixpoint all_apart (l : list (str * val)) : Prop :=
  match l with [] => True | a :: l => (forall b, In b l -> apart a b) /\ all_apart l end.
Lemma all_apart_app a b : all_apart (a ++ b) <-> all_apart a /\ all_apart b /\ forall x y, In x a -> In y b -> apart x y.
Proof.
  induction a as [|x a IH]; cbn.
  - split; [intro H; repeat split; auto; intros ? ? []|tauto].
  - rewrite IH. split.
    + intros (H & A & B & C). split; [split; [intros b' I; apply H, in_or_app; auto|exact A]|]. split; [exact B|].
      intros x' y' [<-|I] J; [apply H, in_or_app; auto|eauto].
    + intros ((H & A) & B & C). split; [|split; [exact A|split; [exact B|eauto]]]. intros b' I. apply in_app_or in I as [I|I]; eauto.
Qed.
Lemma pushed_apart leaves p o : p <> [] -> wfv o -> all_apart (pushed leaves p o).
Proof.
  intros N W. unfold pushed. destruct (leafb leaves o); [exact I|].
  assert (X : forall us y us' y' ts ts', In (us, y) (child_list o) -> In (us', y') (child_list o) -> us ++ ts = us' ++ ts' -> us = us').
  { intros. eapply children_antichain; eauto. }
  pose proof (child_list_nodup o W) as D. revert X D. generalize (child_list o) as l. induction l as [|[us y] l IH]; intros X D; [exact I|].
  inversion D as [|? ? NI D']; subst. cbn [map all_apart]. split.
  - intros b J. apply in_map_iff in J as ([us' y'] & <- & J). intros ts ts' E. cbn [fst] in E. rewrite <- !pointer_app in E. apply pointer_inj in E; [|exact N].
    apply NI. assert (us = us') as -> by exact (X us y us' y' ts ts' (or_introl eq_refl) (or_intror J) E). now apply (in_map fst) in J.
  - apply IH; [|exact D']. intros us1 y1 us2 y2 ts1 ts2 I1 I2 E. exact (X us1 y1 us2 y2 ts1 ts2 (or_intror I1) (or_intror I2) E).
Qed.
Theorem walk_ok leaves : forall fuel stk,
  total stk <= fuel -> (forall p o, In (p, o) stk -> p <> [] /\ wfv o /\ is_obj o) -> all_apart stk ->
  exists r, walk_stack fuel leaves stk = Ok r /\
    (forall p o, In (p, o) r <-> exists q x ts, In (q, x) stk /\ p = rfc_pointer q ts /\ reach leaves x ts o /\ is_obj o) /\
    NoDup (map fst r) /\
    (forall r1 p o r2 q o', r = r1 ++ (p, o) :: r2 -> In (q, o') r1 -> forall ts, ts <> [] -> q <> rfc_pointer p ts).
Proof.
  assert (E0 : exists r : list (str * val), (forall fuel, walk_stack fuel leaves [] = Ok r) /\
    (forall p o, In (p, o) r <-> exists q x ts, In (q, x) [] /\ p = rfc_pointer q ts /\ reach leaves x ts o /\ is_obj o) /\
    NoDup (map fst r) /\
    (forall r1 p o r2 q o', r = r1 ++ (p, o) :: r2 -> In (q, o') r1 -> forall ts, ts <> [] -> q <> rfc_pointer p ts)).
  { exists []. split; [now intros []|]. split; [|split; [constructor|]].
    - intros p o. split; [intros []|]. intros (q & x & ts & [] & _).
    - intros r1 p o r2 q o' E. destruct r1; discriminate E. }
  induction fuel as [|fuel IH]; intros stk T W A.
  - destruct stk as [|[p o] stk]; [destruct E0 as (r & E & R); eauto|].
    exfalso. destruct (W p o (or_introl eq_refl)) as (_ & _ & O). destruct o; try destruct O. cbn in T. lia.
  - assert (E : stk = [] \/ stk <> []) by (destruct stk; [now left|now right]). destruct E as [->|E].
    { destruct E0 as (r & E' & R); eauto. }
    destruct (@exists_last _ stk) as (l & [p o] & ->); [exact E|]. clear E.
    destruct (W p o) as (N & WO & O); [apply in_or_app; right; now left|].
    rewrite walk_push by assumption. rewrite total_app in T. apply all_apart_app in A as (AL & _ & AX).
    destruct (IH (l ++ pushed leaves p o)) as (r & R & RI & RN & RO).
    + rewrite total_app. pose proof (pushed_total leaves p o O). unfold total in T at 2. cbn in T. lia.
    + intros q x I. apply in_app_or in I as [I|I]; [apply W, in_or_app; auto|].
      apply pushed_In in I as (_ & us & I & ->). destruct (child_list_wf _ _ _ WO I) as (WX & OX & _). split; [now apply pointer_nonempty|auto].
    + apply all_apart_app. split; [exact AL|]. split; [now apply pushed_apart|].
      intros x [q y] I J ts us E. apply pushed_In in J as (_ & vs & J & ->). cbn [fst] in E. rewrite <- pointer_app in E.
      apply (AX x (p, o) I (or_introl eq_refl) ts (vs ++ us)). exact E.
    + rewrite R. cbn [bind]. eexists. split; [reflexivity|].
      assert (AP : forall q x ts us, In (q, x) l -> rfc_pointer q ts <> rfc_pointer p us).
      { intros q x ts us I. apply (AX (q, x) (p, o) I (or_introl eq_refl)). }
      assert (FR : forall q x ts, In (q, x) (l ++ pushed leaves p o) -> forall us, rfc_pointer p [] <> rfc_pointer (rfc_pointer q ts) us).
      { intros q x ts I us E. rewrite <- pointer_app in E. apply in_app_or in I as [I|I].
        - eapply AP; eauto.
        - apply pushed_In in I as (_ & vs & I & ->). destruct (child_list_wf _ _ _ WO I) as (_ & _ & NV).
          rewrite <- pointer_app in E. apply pointer_inj in E; [|exact N]. destruct vs; [congruence|discriminate E]. }
      split; [|split].
      * intros q x. split.
        -- intros [E|I].
           ++ injection E as <- <-. exists p, o, []. split; [apply in_or_app; right; now left|]. rewrite pointer_nil. split; [reflexivity|]. split; [constructor|exact O].
           ++ apply RI in I as (q' & x' & ts & I & -> & R' & OX). apply in_app_or in I as [I|I].
              ** exists q', x', ts. split; [apply in_or_app; auto|auto].
              ** apply pushed_In in I as (L & us & I & ->). exists p, o, (us ++ ts). split; [apply in_or_app; right; now left|].
                 split; [now rewrite pointer_app|]. split; [|exact OX]. apply reach_children; auto. right. split; [exact L|]. eauto 6.
        -- intros (q' & x' & ts & I & -> & R' & OX). apply in_app_or in I as [I|[E|[]]].
           ++ right. apply RI. exists q', x', ts. split; [apply in_or_app; auto|auto].
           ++ injection E as <- <-. apply reach_children in R'; auto. destruct R' as [[-> ->]|(L & us & y & vs & I & -> & R')].
              ** left. now rewrite pointer_nil.
              ** right. apply RI. exists (rfc_pointer p us), y, vs. split; [apply in_or_app; right; apply pushed_In; eauto|]. rewrite pointer_app. auto.
      * cbn. constructor; [|exact RN]. intro I. apply in_map_iff in I as ([q x] & E & I). cbn in E. subst q.
        apply RI in I as (q & x' & ts & I & E & _). eapply (FR q x' ts I []). now rewrite !pointer_nil.
      * intros r1 q x r2 q' x' E I ts NT E'. destruct r1 as [|a r1]; [destruct I|]. injection E as <- ->. destruct I as [E|I].
        -- injection E as <- <-. assert (J : In (q, x) (r1 ++ (q, x) :: r2)) by (apply in_or_app; right; now left).
           apply RI in J as (q2 & x2 & us & J & -> & _). eapply (FR q2 x2 us J ts). now rewrite pointer_nil.
        -- eapply RO; eauto.
Qed.

(** ** Resolving *)
Lemma index_nth {A} (l : list A) i x : nth_error l i = Some x -> index l (Z.of_nat i) = Ok x.
Proof.
  intro N. unfold index. destruct (Z.ltb_spec (Z.of_nat i) 0); [lia|]. destruct (Z.ltb_spec (Z.of_nat i) 0); [lia|].
  now rewrite Nat2Z.id, N.
Qed.
Lemma resolve_reach leaves v ts o : reach leaves v ts o -> resolve v ts = Ok o.
Proof.
  induction 1 as [v|h fs ints n v ts o L G R IH|l i v ts o N R IH|d k v ts o G R IH]; [reflexivity|..]; cbn [resolve].
  - unfold attr. rewrite G. exact IH.
  - unfold str_of_nat. rewrite py_int_str. cbn [bind]. rewrite (index_nth _ _ _ N). exact IH.
  - now rewrite G.
Qed.
Lemma split_hash ts : jp_split (Some (rfc_pointer (lit "#") ts)) = lit "#" :: ts.
Proof.
  rewrite <- compose_pointer_ok by discriminate. rewrite roundtrip_base by discriminate. reflexivity.
Qed.
