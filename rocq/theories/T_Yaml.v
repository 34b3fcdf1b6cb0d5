(** C48: the status codes of responses in YAML documents. *)
From Coq Require Import Lia.
From Verif Require Import PyBase PyFacts PyJson PyInt P_Int M_SpecVal P_SpecTree M_Yaml.
Close Scope Q_scope.

(** ** Specification *)
(** The keys YAML makes of status codes and of "default": texts and integers; and booleans, of
    "yes", "off" and the like, which are integers in Python *)
Definition code (k : key) : Prop := match k with KStr _ | KInt _ | KBool _ => True | _ => False end.
(** The key as a text: an integer by its decimal digits, a boolean as Python writes it *)
Definition as_text (k : key) : str := match k with KStr s => s | KInt z => str_of_Z z | KBool true => lit "True" | KBool false => lit "False" | _ => [] end.

(** ** Lemmas *)
Lemma key_eqb_str s t : key_eqb (KStr s) (KStr t) = str_eqb s t.
Proof. reflexivity. Qed.
Lemma code_fix k : code k -> fix_key k = KStr (as_text k).
Proof. destruct k as [| |[]| |]; intros []; reflexivity. Qed.
Lemma dset_new {V} (d : dict key V) s v : Forall (fun kv => exists t, fst kv = KStr t /\ t <> s) d -> dset key_eqb (KStr s) v d = d ++ [(KStr s, v)].
Proof.
  induction 1 as [|[k w] d (t & E & N) F IH]; [reflexivity|]. cbn [fst] in E. subst k. cbn [dset app]. rewrite key_eqb_str, (proj2 (str_eqb_neq s t)) by congruence. now rewrite IH.
Qed.
Lemma fix_fold {V} (l : list (key * V)) : forall d, Forall (fun kv => code (fst kv)) l -> Forall (fun kv => exists t, fst kv = KStr t) d ->
  NoDup (map (fun kv => match fst kv with KStr t => t | _ => [] end) d ++ map (fun kv => as_text (fst kv)) l) ->
  fold_left (fun tmp kv => dset key_eqb (fix_key (fst kv)) (snd kv) tmp) l d = d ++ map (fun kv => (KStr (as_text (fst kv)), snd kv)) l.
Proof.
  induction l as [|[k v] l IH]; intros d C T ND; [cbn; now rewrite app_nil_r|]. inversion C as [|? ? C1 C2]; subst. cbn [fold_left fst snd map] in *.
  rewrite (code_fix k C1), dset_new.
  - rewrite IH; [now rewrite <- app_assoc|exact C2|..].
    + apply Forall_app. split; [exact T|]. constructor; [exists (as_text k); reflexivity|constructor].
    + rewrite map_app. cbn [map fst]. rewrite <- app_assoc. exact ND.
  - rewrite Forall_forall in T |- *. intros kv I. destruct (T _ I) as (t & E). exists t. split; [exact E|]. intros ->.
    apply NoDup_remove_2 in ND. apply ND. apply in_app_iff. left. apply in_map_iff. exists kv. now rewrite E.
Qed.

(** ** The property *)
(** If the keys are texts, integers and booleans, and no two of them are the same as texts, then
    every response is there afterwards, unchanged, under the text of its key; and nothing else. *)
Theorem c48_texts : forall V (d : dict key V), Forall (fun kv => code (fst kv)) d -> NoDup (map (fun kv => as_text (fst kv)) d) ->
  fix_responses (Some d) = Some (map (fun kv => (KStr (as_text (fst kv)), snd kv)) d).
Proof. intros V d C ND. unfold fix_responses, fix_loop. rewrite fix_fold; auto. Qed.
(** Read one by one *)
Theorem c48_lookup : forall V (d : dict key V) k v, Forall (fun kv => code (fst kv)) d -> NoDup (map (fun kv => as_text (fst kv)) d) -> In (k, v) d ->
  exists e, fix_responses (Some d) = Some e /\ dget key_eqb (KStr (as_text k)) e = Some v /\ length e = length d /\ Forall (fun kv => exists t, fst kv = KStr t) e.
Proof.
  intros V d k v C ND I. eexists. split; [now apply c48_texts|]. repeat split.
  - clear C. induction d as [|[k' v'] d IH]; [destruct I|]. cbn [map fst snd dget]. rewrite key_eqb_str. destruct I as [E|I].
    + injection E as -> ->. now rewrite str_eqb_refl.
    + inversion ND as [|? ? NI ND']; subst. destruct (str_eqb_spec (as_text k) (as_text k')) as [E|N]; [|now apply IH].
      elim NI. cbn [fst]. rewrite <- E. apply in_map_iff. exists (k, v). auto.
  - apply map_length.
  - apply Forall_forall. intros kv IN. apply in_map_iff in IN as (x & <- & _). cbn. eauto.
Qed.
(** The keys of a document loaded from JSON stay as they are. *)
Theorem c48_json : forall V (d : sdict V), NoDup (map fst d) ->
  fix_responses (Some (map (fun kv => (KStr (fst kv), snd kv)) d)) = Some (map (fun kv => (KStr (fst kv), snd kv)) d).
Proof.
  intros V d ND. rewrite c48_texts.
  - f_equal. rewrite map_map. reflexivity.
  - apply Forall_forall. intros kv I. apply in_map_iff in I as (x & <- & _). exact I.
  - rewrite map_map. exact ND.
Qed.
(** Different integers never become the same text, so integers alone never collide. *)
Theorem c48_integers : forall V (d : dict key V), (forall kv, In kv d -> exists z, fst kv = KInt z) -> NoDup (map fst d) ->
  fix_responses (Some d) = Some (map (fun kv => (KStr (as_text (fst kv)), snd kv)) d).
Proof.
  intros V d Z ND. apply c48_texts.
  - apply Forall_forall. intros kv I. destruct (Z _ I) as (z & ->). exact Logic.I.
  - clear -Z ND. induction d as [|[k v] d IH]; [constructor|]. cbn [map fst] in *. inversion ND as [|? ? NI ND']; subst. constructor.
    + intros I. apply in_map_iff in I as ([k' v'] & E & I). cbn [fst] in E. destruct (Z (k, v) (or_introl eq_refl)) as (z & EZ). destruct (Z (k', v') (or_intror I)) as (z' & EZ').
      cbn [fst] in EZ, EZ'. subst k k'. cbn [as_text] in E. apply NI. apply in_map_iff. exists (KInt z', v'). split; [|exact I]. cbn [fst]. f_equal. now apply str_of_Z_inj.
    + apply IH; [|exact ND']. intros kv I. apply Z. now right.
Qed.
Theorem c48_missing : forall V, fix_responses (@None (dict key V)) = None.
Proof. reflexivity. Qed.
(** Where the property fails: an integer and its own text leave one response only, *)
Theorem c48_collision_refuted : fix_responses (Some [(KInt 200, 1); (KStr (lit "200"), 2)]) = Some [(KStr (lit "200"), 2)].
Proof. vm_compute. reflexivity. Qed.
(** and keys that are neither texts nor integers are left as they are. *)
Theorem c48_others_refuted : forall V q (v : V), fix_responses (Some [(KFloat q, v)]) = Some [(KFloat q, v)].
Proof. reflexivity. Qed.
Print Assumptions c48_texts.
Print Assumptions c48_lookup.
Print Assumptions c48_json.
Print Assumptions c48_integers.
Print Assumptions c48_missing.
Print Assumptions c48_collision_refuted.
Print Assumptions c48_others_refuted.

Example c48_ex : fix_responses (Some [(KInt 200, 1); (KStr (lit "default"), 2); (KInt 404, 3)]) = Some [(KStr (lit "200"), 1); (KStr (lit "default"), 2); (KStr (lit "404"), 3)].
Proof. vm_compute. reflexivity. Qed.
