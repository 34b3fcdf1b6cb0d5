(** Proofs about operation calls and responses. *)
From Verif Require Import PyBase PyFacts M_Client P_Client M_Op S_Op.

Lemma bind_ok {A B} (r : res A) (f : A -> res B) y : bind r f = Ok y <-> exists x, r = Ok x /\ f x = Ok y.
Proof.
  destruct r as [x|e]; cbn [bind]; split.
  - intros H. now exists x.
  - intros (x' & H & H'). injection H as <-. exact H'.
  - discriminate.
  - intros (x' & H & _). discriminate.
Qed.

Lemma picks_snoc {A} (p : A -> Prop) cs l x : picks p cs l ->
  (p x -> picks p (cs ++ [x]) (l ++ [x])) /\ (~ p x -> picks p (cs ++ [x]) l).
Proof.
  intros H. split; intros X; induction H; cbn [app].
  - now repeat constructor.
  - now constructor.
  - now constructor.
  - now repeat constructor.
  - now constructor.
  - now constructor.
Qed.
Lemma filled_snoc {A} (l : list (str * A)) d n v : filled l d -> filled (l ++ [(n, v)]) (sset n v d).
Proof.
  intros [N F]. split; [apply dset_NoDup; auto; apply str_eqb_eq|]. intros m.
  rewrite rev_app_distr. cbn [rev app find fst]. destruct (str_eqb n m) eqn:E.
  - apply str_eqb_eq in E as ->. rewrite sget_sset_same. reflexivity.
  - rewrite sget_sset_other; auto. intros ->. now rewrite str_eqb_refl in E.
Qed.
Lemma filled_nil {A} : filled (A:=A) [] [].
Proof. split; [constructor|]. reflexivity. Qed.

Section Call.
Context {V P : Type} (urls : P -> option (list str)) (show : P -> str).
Notation param := (param (V:=V) (P:=P)).
Notation placed := (placed (V:=V) urls show).
Notation is_file := (is_file (V:=V) urls).
Notation has_items := (has_items (V:=V) urls).

Lemma type_is_eq t s : type_is t s = true <-> t = Some s.
Proof. destruct t as [t|]; cbn [type_is]; [rewrite str_eqb_eq|]; split; congruence. Qed.

Lemma placed_nil : placed [] pset_empty.
Proof.
  unfold S_Op.placed, pset_empty. cbn [s_query s_form s_header s_path s_body s_file].
  repeat split; exists []; (split; [constructor|]); first [apply filled_nil | reflexivity].
Qed.

Definition snoc_no {A} (p : A -> Prop) cs l x (H : picks p cs l) := proj2 (picks_snoc p cs l x H).
Definition snoc_yes {A} (p : A -> Prop) cs l x (H : picks p cs l) := proj1 (picks_snoc p cs l x H).

(** One parameter. *)
Lemma put_placed (q : param) c s s' cs : well_placed q -> placed cs s -> put urls show q c s = Ok s' ->
  placed (cs ++ [(q, c)]) s' /\ has_items (q, c).
Proof.
  intros W (Q & F & H & Pa & B & Fi) E. unfold put in E.
  destruct Q as (lq & Q1 & Q2), F as (lf & F1 & F2), H as (lh & H1 & H2), Pa as (lp & P1 & P2),
    B as (lb & B1 & B2), Fi as (lfi & Fi1 & Fi2).
  assert (file_case : is_file q c ->
    placed (cs ++ [(q, c)]) (set_sfile (sset (q_name q) (inl c) (s_file s)) s)).
  { intros X. unfold S_Op.placed, set_sfile. cbn [s_query s_form s_header s_path s_body s_file].
    assert (N : forall loc, ~ lands urls loc (q, c)) by (intros loc [_ Y]; exact (Y X)).
    split; [exists lq; split; auto; apply snoc_no; auto|].
    split; [exists lf; split; auto; apply snoc_no; auto|].
    split; [exists lh; split; auto; apply snoc_no; auto|].
    split; [exists lp; split; auto; apply snoc_no; auto|].
    split; [exists lb; split; auto; apply snoc_no; auto|].
    exists (lfi ++ [(q, c)]). split; [apply snoc_yes; auto|]. rewrite map_app. apply filled_snoc. exact Fi2. }
  destruct (type_is (q_type q) (lit "file")) eqn:T.
  { apply type_is_eq in T. injection E as <-. split; [apply file_case; now left|]. intros X. now elim X. }
  assert (NT : q_type q <> Some (lit "file")) by (rewrite <- type_is_eq; congruence).
  assert (other : forall loc, q_in q <> loc -> ~ lands urls loc (q, c)) by (intros loc X [Y _]; exact (X Y)).
  destruct (str_eqb (q_in q) (lit "query") || str_eqb (q_in q) (lit "formData")) eqn:L.
  - assert (LY : listy q) by (apply orb_true_iff in L as [L|L]; apply str_eqb_eq in L; [left|right]; auto).
    assert (ext : ~ is_file q c -> forall l, l = pairs urls show (q, c) ->
      placed (cs ++ [(q, c)]) (if str_eqb (q_in q) (lit "query") then set_squery (s_query s ++ l) s
                        else set_sform (s_form s ++ l) s)).
    { intros NF l ->. destruct (str_eqb (q_in q) (lit "query")) eqn:EQ.
      - apply str_eqb_eq in EQ. unfold S_Op.placed, set_squery. cbn [s_query s_form s_header s_path s_body s_file].
        split; [exists (lq ++ [(q, c)]); split; [apply snoc_yes; auto; now split|]|].
        { rewrite flat_map_app. cbn [flat_map]. rewrite app_nil_r. congruence. }
        split; [exists lf; split; auto; apply snoc_no; auto; apply other; rewrite EQ; discriminate|].
        split; [exists lh; split; auto; apply snoc_no; auto; apply other; rewrite EQ; discriminate|].
        split; [exists lp; split; auto; apply snoc_no; auto; apply other; rewrite EQ; discriminate|].
        split; [exists lb; split; auto; apply snoc_no; auto; apply other; rewrite EQ; discriminate|].
        exists lfi. split; auto. apply snoc_no; auto.
      - cbn [orb] in L. apply str_eqb_eq in L. unfold S_Op.placed, set_sform. cbn [s_query s_form s_header s_path s_body s_file].
        split; [exists lq; split; auto; apply snoc_no; auto; apply other; rewrite L; discriminate|].
        split; [exists (lf ++ [(q, c)]); split; [apply snoc_yes; auto; now split|]|].
        { rewrite flat_map_app. cbn [flat_map]. rewrite app_nil_r. congruence. }
        split; [exists lh; split; auto; apply snoc_no; auto; apply other; rewrite L; discriminate|].
        split; [exists lp; split; auto; apply snoc_no; auto; apply other; rewrite L; discriminate|].
        split; [exists lb; split; auto; apply snoc_no; auto; apply other; rewrite L; discriminate|].
        exists lfi. split; auto. apply snoc_no; auto. }
    destruct (urls c) as [us|] eqn:U.
    + destruct (q_items q) as [t|] eqn:I; [|discriminate]. split; [|intros _ _ _; cbn [fst]; congruence].
      destruct (type_is t (lit "file")) eqn:TI.
      * apply type_is_eq in TI. injection E as <-. apply file_case. right. rewrite U. split; auto. split; congruence.
      * injection E as <-. apply ext.
        -- intros [X|(_ & _ & X)]; [auto|]. rewrite I in X. injection X as ->. discriminate TI.
        -- unfold pairs, texts. cbn [fst snd]. now rewrite U.
    + split; [|intros _ _ X; now elim X]. injection E as <-. apply ext.
      * intros [X|(_ & X & _)]; auto.
      * unfold pairs, texts. cbn [fst snd map]. now rewrite U.
  - apply orb_false_iff in L as [L1 L2].
    assert (LN : ~ listy q) by (intros [X|X]; rewrite X in *; rewrite str_eqb_refl in *; discriminate).
    assert (NF : ~ is_file q c) by (intros [X|(X & _)]; auto).
    split; [|intros _ X; easy].
    assert (N1 : q_in q <> lit "query") by (intros X; now apply LN; left).
    assert (N2 : q_in q <> lit "formData") by (intros X; now apply LN; right).
    destruct (str_eqb (q_in q) (lit "body")) eqn:EB;
      [|destruct (str_eqb (q_in q) (lit "header")) eqn:EH; [|destruct (str_eqb (q_in q) (lit "path")) eqn:EP]].
    4:{ exfalso. destruct W as [X|[X|[X|[X|[X|[]]]]]]; rewrite <- X in *; rewrite str_eqb_refl in *; congruence. }
    + apply str_eqb_eq in EB. injection E as <-. unfold S_Op.placed, set_sbody. cbn [s_query s_form s_header s_path s_body s_file].
      split; [exists lq; split; auto; apply snoc_no; auto|].
      split; [exists lf; split; auto; apply snoc_no; auto|].
      split; [exists lh; split; auto; apply snoc_no; auto; apply other; rewrite EB; discriminate|].
      split; [exists lp; split; auto; apply snoc_no; auto; apply other; rewrite EB; discriminate|].
      split; [exists (lb ++ [(q, c)]); split; [apply snoc_yes; auto; now split|]|].
      { rewrite map_app. now apply filled_snoc. }
      exists lfi. split; auto. apply snoc_no; auto.
    + apply str_eqb_eq in EH. injection E as <-. unfold S_Op.placed, set_sheader. cbn [s_query s_form s_header s_path s_body s_file].
      split; [exists lq; split; auto; apply snoc_no; auto|].
      split; [exists lf; split; auto; apply snoc_no; auto|].
      split; [exists (lh ++ [(q, c)]); split; [apply snoc_yes; auto; now split|]|].
      { rewrite map_app. now apply filled_snoc. }
      split; [exists lp; split; auto; apply snoc_no; auto; apply other; rewrite EH; discriminate|].
      split; [exists lb; split; auto; apply snoc_no; auto; apply other; rewrite EH; discriminate|].
      exists lfi. split; auto. apply snoc_no; auto.
    + apply str_eqb_eq in EP. injection E as <-. unfold S_Op.placed, set_spath. cbn [s_query s_form s_header s_path s_body s_file].
      split; [exists lq; split; auto; apply snoc_no; auto|].
      split; [exists lf; split; auto; apply snoc_no; auto|].
      split; [exists lh; split; auto; apply snoc_no; auto; apply other; rewrite EP; discriminate|].
      split; [exists (lp ++ [(q, c)]); split; [apply snoc_yes; auto; now split|]|].
      { rewrite map_app. now apply filled_snoc. }
      split; [exists lb; split; auto; apply snoc_no; auto; apply other; rewrite EP; discriminate|].
      exists lfi. split; auto. apply snoc_no; auto.
Qed.
Lemma put_total (q : param) c s : well_placed q -> has_items (q, c) -> exists s', put urls show q c s = Ok s'.
Proof.
  intros W Hi. unfold put. destruct (type_is (q_type q) (lit "file")) eqn:T; [eauto|].
  destruct (_ || _) eqn:L.
  - destruct (urls c) as [us|] eqn:U; [|eauto]. destruct (q_items q) as [t|] eqn:I.
    + destruct (type_is t _); eauto.
    + exfalso. apply Hi; cbn [fst snd]; try congruence.
      * intros X. apply type_is_eq in X. congruence.
      * apply orb_true_iff in L as [L|L]; apply str_eqb_eq in L; [left|right]; auto.
  - destruct (str_eqb (q_in q) (lit "body")) eqn:EB; [eauto|].
    destruct (str_eqb (q_in q) (lit "header")) eqn:EH; [eauto|].
    destruct (str_eqb (q_in q) (lit "path")) eqn:EP; [eauto|].
    exfalso. apply orb_false_iff in L as [L1 L2].
    destruct W as [X|[X|[X|[X|[X|[]]]]]]; rewrite <- X in *; rewrite str_eqb_refl in *; congruence.
Qed.

(** All parameters: what a run produced, and what it recorded. *)
Lemma convert_all_ok k (ps : list param) : forall st st' cs0,
  (forall q, In q ps -> well_placed q) -> placed cs0 (fst st) ->
  convert_all urls show k ps st = Ok st' ->
  exists cs, converted k ps cs /\ (forall x, In x cs -> has_items x) /\ placed (cs0 ++ cs) (fst st') /\
    snd st' = snd st ++ map (fun x => q_name (fst x)) cs.
Proof.
  induction ps as [|q ps IH]; intros st st' cs0 W Pl E; cbn [convert_all] in E.
  - injection E as <-. exists []. rewrite !app_nil_r. split; [reflexivity|]. split; [intros x []|]. auto.
  - apply bind_ok in E as (st1 & E1 & E2).
    assert (go : forall v, supplied k q = Some v ->
      (do c <- q_prim q v; do s <- put urls show q c (fst st); Ok (s, snd st ++ [q_name q])) = Ok st1 ->
      exists cs, converted k (q :: ps) cs /\ (forall x, In x cs -> has_items x) /\ placed (cs0 ++ cs) (fst st') /\
        snd st' = snd st ++ map (fun x => q_name (fst x)) cs).
    { intros v S G. apply bind_ok in G as (c & G1 & G). apply bind_ok in G as (s & G2 & G). injection G as <-.
      destruct (put_placed q c (fst st) s cs0 (W q (or_introl eq_refl)) Pl G2) as [Pl1 Hi].
      destruct (IH (s, snd st ++ [q_name q]) st' (cs0 ++ [(q, c)])) as (cs & C1 & C2 & C3 & C4); auto.
      { intros x Hx. apply W. now right. }
      exists ((q, c) :: cs). cbn [converted]. rewrite S. split; [eauto 6|].
      split; [intros x [<-|Hx]; auto|]. rewrite <- app_assoc in C3. split; [exact C3|].
      cbn [map fst snd] in *. rewrite C4, <- app_assoc. reflexivity. }
    unfold convert in E1. unfold supplied in go.
    destruct (sget (q_name q) k) as [v|] eqn:G; [now apply (go v)|].
    destruct (q_default q) as [d|] eqn:Dq; [now apply (go d)|].
    destruct (q_required q) eqn:Rq; [discriminate|]. injection E1 as <-.
    destruct (IH st st' cs0) as (cs & C1 & C2); auto. { intros x Hx. apply W. now right. }
    exists cs. cbn [converted]. unfold supplied. rewrite G, Dq. auto.
Qed.
Lemma convert_all_total k (ps : list param) : forall st cs,
  (forall q, In q ps -> well_placed q) -> converted k ps cs -> (forall x, In x cs -> has_items x) ->
  exists st', convert_all urls show k ps st = Ok st' /\ snd st' = snd st ++ map (fun x => q_name (fst x)) cs.
Proof.
  induction ps as [|q ps IH]; intros st cs W C Hi; cbn [convert_all converted] in *.
  - subst. exists st. now rewrite app_nil_r.
  - unfold convert. unfold supplied in C.
    assert (go : forall v, (exists c cs', cs = (q, c) :: cs' /\ q_prim q v = Ok c /\ converted k ps cs') ->
      exists st', bind (do c <- q_prim q v; do s <- put urls show q c (fst st); Ok (s, snd st ++ [q_name q]))
        (fun st => convert_all urls show k ps st) = Ok st' /\ snd st' = snd st ++ map (fun x => q_name (fst x)) cs).
    { intros v (c & cs' & -> & E & C'). rewrite E. cbn [bind].
      destruct (put_total q c (fst st)) as [s Es]. { apply W. now left. } { apply Hi. now left. }
      rewrite Es. cbn [bind]. destruct (IH (s, snd st ++ [q_name q]) cs') as (st' & X & Y); auto.
      { intros x Hx. apply W. now right. } { intros x Hx. apply Hi. now right. }
      exists st'. split; auto. rewrite Y. cbn [snd map fst]. now rewrite <- app_assoc. }
    destruct (sget (q_name q) k) as [v|]; [now apply go|]. destruct (q_default q) as [d|]; [now apply go|].
    destruct C as [-> C]. cbn [bind]. apply IH; auto. intros x Hx. apply W. now right.
Qed.
Lemma converted_names k (ps : list param) cs : converted k ps cs -> forall n, In n (map fst k) ->
  (In n (map q_name ps) <-> In n (map (fun x => q_name (fst x)) cs)).
Proof.
  revert cs. induction ps as [|q ps IH]; intros cs C n Hn; cbn [converted map] in *; [now subst|].
  destruct (supplied k q) as [v|] eqn:S.
  - destruct C as (c & cs' & -> & _ & C). cbn [map fst In]. now rewrite (IH _ C n Hn).
  - destruct C as [_ C]. cbn [In]. rewrite (IH _ C n Hn). split; auto. intros [<-|X]; auto. exfalso.
    unfold supplied in S. destruct (sget (q_name q) k) eqn:G; [discriminate|].
    apply dget_None in G; [easy|apply str_eqb_eq].
Qed.

Lemma op_call_ok (ps : list param) k s : (forall q, In q ps -> well_placed q) ->
  op_call urls show ps k = Ok s ->
  (forall n, In n (map fst k) -> In n (map q_name ps)) /\
  exists cs, converted k ps cs /\ (forall x, In x cs -> has_items x) /\ placed cs s.
Proof.
  intros W E. unfold op_call in E. apply bind_ok in E as (st & E & F).
  destruct (convert_all_ok k ps (pset_empty, []) st [] W placed_nil E) as (cs & C1 & C2 & C3 & C4).
  destruct (forallb _ k) eqn:Fa; [|discriminate]. injection F as <-. split; [|eauto].
  intros n Hn. rewrite (converted_names k ps cs C1 n Hn). rewrite forallb_forall in Fa.
  apply in_map_iff in Hn as (kv & <- & Hk). specialize (Fa kv Hk). apply mem_In in Fa. rewrite C4 in Fa. exact Fa.
Qed.
Lemma op_call_total (ps : list param) k cs : (forall q, In q ps -> well_placed q) ->
  converted k ps cs -> (forall x, In x cs -> has_items x) ->
  ((forall n, In n (map fst k) -> In n (map q_name ps)) -> exists s, op_call urls show ps k = Ok s) /\
  ((exists n, In n (map fst k) /\ ~ In n (map q_name ps)) -> op_call urls show ps k = Err ValueError).
Proof.
  intros W C Hi. destruct (convert_all_total k ps (pset_empty, []) cs W C Hi) as (st & E & S).
  unfold op_call. rewrite E. cbn [bind snd app] in *. rewrite S. split.
  - intros H. assert (forallb (fun kv => mem (fst kv) (map (fun x => q_name (fst x)) cs)) k = true) as ->; [|eauto].
    apply forallb_forall. intros kv Hk. apply mem_In.
    assert (Hn : In (fst kv) (map fst k)) by now apply in_map.
    apply (converted_names k ps cs C _ Hn). auto.
  - intros (n & Hn & Hx). destruct (forallb _ k) eqn:F; auto. exfalso. rewrite forallb_forall in F.
    apply Hx. apply (converted_names k ps cs C n Hn). apply in_map_iff in Hn as (kv & <- & Hk).
    now apply mem_In, F.
Qed.
(** A missing required parameter. *)
Lemma op_call_missing a (q : param) b k cs : (forall x, In x a -> well_placed x) ->
  converted k a cs -> (forall x, In x cs -> has_items x) ->
  q_required q = true -> supplied k q = None ->
  op_call urls show (a ++ q :: b) k = Err ValueError.
Proof.
  intros W C Hi Rq S. unfold op_call.
  assert (G : forall st, convert_all urls show k (a ++ q :: b) st = Err ValueError).
  { revert cs W C Hi. induction a as [|p a IH]; intros cs W C Hi st; cbn [app convert_all].
    - unfold convert. unfold supplied in S. destruct (sget (q_name q) k); [discriminate|]. rewrite S, Rq. reflexivity.
    - cbn [converted] in C. unfold convert. unfold supplied in C.
      assert (go : forall v, (exists c cs', cs = (p, c) :: cs' /\ q_prim p v = Ok c /\ converted k a cs') ->
        bind (do c <- q_prim p v; do s <- put urls show p c (fst st); Ok (s, snd st ++ [q_name p]))
          (fun st => convert_all urls show k (a ++ q :: b) st) = Err ValueError).
      { intros v (c & cs' & -> & E & C'). rewrite E. cbn [bind].
        destruct (put_total p c (fst st)) as [s Es]. { apply W. now left. } { apply Hi. now left. }
        rewrite Es. cbn [bind]. apply (IH cs'); auto.
        { intros x Hx. apply W. now right. } { intros x Hx. apply Hi. now right. } }
      destruct (sget (q_name p) k) as [v|]; [now apply go|]. destruct (q_default p) as [d|]; [now apply go|].
      destruct C as [-> C]. cbn [bind]. apply (IH cs); auto. intros x Hx. apply W. now right. }
  now rewrite G.
Qed.
End Call.

Section Response.
Context {H R J D : Type} (text : H -> option str) (unmarshal : str -> R -> res J).
Notation rdecl := (rdecl (H:=H) (J:=J) (D:=D)).
Notation resp := (resp (H:=H) (R:=R) (D:=D)).

Definition hvals (n : str) (hs : cid (list H)) : list H := match cid_get n hs with Ok l => l | Err _ => [] end.
(** Stored headers: keys are the lower-cased names, and no list is empty. *)
Definition hok (hs : cid (list H)) : Prop :=
  NoDup (map fst hs) /\ forall e, In e hs -> fst e = lower (fst (snd e)) /\ snd (snd e) <> [].

Lemma sget_map_upd (n k : str) (g : str * list H -> str * list H) (hs : cid (list H)) :
  sget n (map (fun e => if str_eqb (fst e) k then (fst e, g (snd e)) else e) hs) =
  if str_eqb n k then option_map g (sget n hs) else sget n hs.
Proof.
  induction hs as [|[a x] hs IH]; [now destruct (str_eqb n k)|]. cbn [map fst snd].
  destruct (str_eqb a k) eqn:A; cbn [dget].
  - destruct (str_eqb n a) eqn:B; [|exact IH]. apply str_eqb_eq in B as ->. now rewrite A.
  - destruct (str_eqb n a) eqn:B; [|exact IH]. apply str_eqb_eq in B as ->. now rewrite A.
Qed.

Lemma convert_header_ok (r : option rdecl) hs k v hs' : hok hs -> convert_header r hs k v = Ok hs' ->
  hok hs' /\ exists w, received r (k, v) w /\
    forall n, hvals n hs' = hvals n hs ++ (if str_eqb (lower k) (lower n) then [w] else []).
Proof.
  intros [ND OK] E. unfold convert_header in E. apply bind_ok in E as (w & E1 & E2).
  assert (Rw : received r (k, v) w).
  { unfold received. cbn [fst snd]. destruct r as [d|]; [|congruence]. destruct (sget k (rd_headers d)); congruence. }
  unfold cid_get in E2. destruct (sget (lower k) hs) as [[k0 l]|] eqn:G; cbn [snd] in E2.
  - assert (E : hs' = map (fun e => if str_eqb (fst e) (lower k) then (fst e, (fun x => (fst x, l ++ [w])) (snd e)) else e) hs)
      by congruence.
    clear E2. subst hs'. split; [split|].
    + rewrite map_map. rewrite (map_ext _ fst); auto. intros [a x]. cbn [fst]. now destruct (str_eqb a (lower k)).
    + intros e He. apply in_map_iff in He as ([a x] & <- & He). destruct (OK _ He) as [O1 O2]. cbn [fst snd] in *.
      destruct (str_eqb a (lower k)); cbn [fst snd]; auto. split; auto. now destruct l.
    + exists w. split; auto. intros n. unfold hvals, cid_get.
      pose proof (sget_map_upd (lower n) (lower k) (fun x => (fst x, l ++ [w])) hs) as M. cbn beta in M. rewrite M.
      rewrite (str_eqb_sym (lower k)). destruct (str_eqb (lower n) (lower k)) eqn:X.
      * apply str_eqb_eq in X. rewrite X, G. reflexivity.
      * now rewrite app_nil_r.
  - assert (E : hs' = cid_set k [w] hs) by congruence. clear E2. subst hs'. unfold cid_set. split; [split|].
    + apply dset_NoDup; auto. apply str_eqb_eq.
    + intros e He. assert (e = (lower k, (k, [w])) \/ In e hs) as [->|He'].
      { clear -He. induction hs as [|[a x] hs IH]; cbn [dset] in He.
        - destruct He as [<-|[]]. now left.
        - destruct (str_eqb (lower k) a) eqn:A; destruct He as [<-|He].
          + apply str_eqb_eq in A. subst. now left.
          + right. now right.
          + right. now left.
          + destruct (IH He); [now left|]. right. now right. }
      * split; [reflexivity|discriminate].
      * auto.
    + exists w. split; auto. intros n. unfold hvals, cid_get. destruct (str_eqb (lower k) (lower n)) eqn:X.
      * apply str_eqb_eq in X. rewrite <- X, sget_sset_same, G. reflexivity.
      * rewrite sget_sset_other, app_nil_r; auto. intros Y. rewrite Y, str_eqb_refl in X. discriminate.
Qed.
Lemma convert_headers_ok (r : option rdecl) l : forall hs hs', hok hs -> convert_headers r hs l = (hs', Ok tt) ->
  hok hs' /\ exists all, Forall2 (received r) l all /\
    forall n, hvals n hs' = hvals n hs ++ map snd (filter (fun e => str_eqb (lower (fst (fst e))) (lower n)) (combine l all)).
Proof.
  induction l as [|[k v] l IH]; intros hs hs' O E; cbn [convert_headers] in E.
  - injection E as <-. split; auto. exists []. split; [constructor|]. intros n. cbn. now rewrite app_nil_r.
  - destruct (convert_header r hs k v) as [h1|e] eqn:C; [|discriminate].
    destruct (convert_header_ok r hs k v h1 O C) as (O1 & w & W1 & W2).
    destruct (IH h1 hs' O1 E) as (O2 & all & A1 & A2). split; auto.
    exists (w :: all). split; [now constructor|]. intros n. rewrite A2, W2. cbn [combine filter map fst snd].
    destruct (str_eqb (lower k) (lower n)); cbn [map snd]; [now rewrite <- app_assoc|]. now rewrite app_nil_r.
Qed.
Lemma convert_headers_hok (r : option rdecl) l : forall hs, hok hs -> hok (fst (convert_headers r hs l)).
Proof.
  induction l as [|[k v] l IH]; intros hs O; cbn [convert_headers fst]; auto.
  destruct (convert_header r hs k v) as [h1|e] eqn:C; cbn [fst]; auto.
  apply IH. eapply convert_header_ok; eauto.
Qed.

Lemma content_type_spec hs : hok hs ->
  content_type text hs =
  match hvals (lit "content-type") hs with
  | h :: _ => match text h with Some s => Ok (lower s) | None => Err AttributeError end
  | [] => Ok (lit "application/json")
  end.
Proof.
  intros [ND OK]. unfold hvals, cid_get. change (lower "content-type"%string) with (lit "content-type").
  induction hs as [|[a [k v]] hs IH]; [reflexivity|]. cbn [content_type dget].
  destruct (OK (a, (k, v)) (or_introl eq_refl)) as [O1 O2]. cbn [fst snd] in O1, O2. subst a.
  rewrite (str_eqb_sym (lit "content-type")). destruct (str_eqb (lower k) (lit "content-type")).
  - cbn [snd]. destruct v as [|h v]; [easy|reflexivity].
  - apply IH; [now inversion ND|]. intros e He. apply OK. now right.
Qed.

Lemma apply_hok rs st raw hd s : hok (p_hdr s) -> hok (p_hdr (fst (apply_with (D:=D) text unmarshal rs st raw hd s))).
Proof.
  intros O. unfold apply_with.
  pose proof (convert_headers_hok (declared rs match st with Some z => Some z | None => p_status s end)
                match hd with Some l => l | None => [] end (p_hdr s) O) as C.
  destruct (convert_headers _ (p_hdr s) _) as [hs e]. cbn [fst] in C.
  repeat match goal with |- context [match ?x with _ => _ end] => destruct x; cbn [fst p_hdr]; auto end.
Qed.
End Response.
