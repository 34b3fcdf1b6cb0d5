(** C29 (collection formats) and C32 (byte primitives). *)
From Coq Require Import QArith Lia.
From Verif Require Import PyBase PyFacts P_Op M_Graph S_Graph P_Graph M_Quote M_Base64 S_Base64 P_Base64 M_Time M_Prim S_Prim P_Prim
  P_PrimLeaf P_PrimObj P_PrimAll T_PrimLeaf T_PrimObj M_PrimText.
Close Scope Q_scope.
Close Scope Z_scope.
Open Scope nat_scope.

(** The texts from the first non-empty one on. *)
Fixpoint from_nonempty (l : list str) : list str :=
  match l with
  | [] => []
  | t :: l' => if nonempty t then l else from_nonempty l'
  end.

Lemma conv_aux_true p : forall l s, nonempty s = true -> conv_aux p s l = join p (s :: l).
Proof.
  induction l as [|t l IH]; intros s N; [reflexivity|].
  cbn [conv_aux]. rewrite N, IH.
  - destruct l as [|u l]; cbn [join]; rewrite <- ?app_assoc; reflexivity.
  - destruct s; [discriminate|reflexivity].
Qed.
Lemma conv_aux_from p : forall l, conv_aux p [] l = join p (from_nonempty l).
Proof.
  induction l as [|t l IH]; [reflexivity|].
  cbn [conv_aux from_nonempty nonempty app]. destruct t as [|c t]; [exact IH|].
  apply conv_aux_true. reflexivity.
Qed.
Lemma sep_separator f sp : sep_of f = Some sp -> exists ch, lit sp = [ch] /\ separator (lit f) = Some ch.
Proof.
  intro SP. unfold sep_of in SP.
  repeat (match goal with H : context [match ?x with _ => _ end] |- _ => destruct x end; try discriminate SP);
  injection SP as <-; eexists; split; reflexivity.
Qed.
Lemma map_res_texts decode so ts : map_res (show decode so) (map PStr ts) = Ok ts.
Proof. induction ts as [|t ts IH]; [reflexivity|]. cbn [map map_res show bind]. now rewrite IH. Qed.
Lemma show_array decode so fmt l : show decode so (PArray fmt l) = do ts <- map_res (show decode so) l; array_str fmt ts.
Proof.
  cbn [show]. f_equal. induction l as [|x l IH]; [reflexivity|]. cbn [map_res]. now rewrite IH.
Qed.

Section Any.
Context (decode : str -> res str) (show_other : prim -> str).
Notation show := (show decode show_other).
Notation to_url := (to_url decode show_other).

(** * C29 *)
(** The text of an array of texts: joined by the separator from the first non-empty one on. *)
Theorem c29_text : forall f sp ts, sep_of f = Some sp ->
  show (PArray (lit f) (map PStr ts)) = Ok (join (lit sp) (from_nonempty ts)).
Proof.
  intros f sp ts S. apply sep_separator in S as (ch & L & S). rewrite show_array, map_res_texts. cbn [bind].
  unfold array_str. rewrite S, conv_aux_from, L. reflexivity.
Qed.
(** Elements of any class: the same with the texts of the elements. *)
Theorem c29_elements : forall f sp l ts, sep_of f = Some sp -> Forall2 (fun p t => show p = Ok t) l ts ->
  show (PArray (lit f) l) = Ok (join (lit sp) (from_nonempty ts)).
Proof.
  intros f sp l ts S F. apply sep_separator in S as (ch & L & S). rewrite show_array.
  rewrite (proj2 (map_res_Forall2 _ _ _) F). cbn [bind]. unfold array_str. rewrite S, conv_aux_from, L. reflexivity.
Qed.
(** 'multi' sends one text per element, the other formats one text for all. *)
Theorem c29_multi : forall l ts, to_url (lit "multi") l = Ok ts <-> Forall2 (fun p t => show p = Ok t) l ts.
Proof. intros l ts. unfold M_PrimText.to_url. rewrite str_eqb_refl. apply map_res_Forall2. Qed.
Theorem c29_single : forall f l ts, f <> lit "multi" ->
  to_url f l = Ok ts <-> exists s, show (PArray f l) = Ok s /\ ts = [s].
Proof.
  intros f l ts N. unfold M_PrimText.to_url. destruct (str_eqb f "multi"%string) eqn:E; [now apply str_eqb_eq in E|].
  rewrite bind_ok. split; intros (s & A & B); exists s; (split; [exact A|]); congruence.
Qed.
(** An unknown format is refused. *)
Theorem c29_unknown_format : forall f l ts, ~ In f (map lit ["csv"; "ssv"; "tsv"; "pipes"]%string) ->
  Forall2 (fun p t => show p = Ok t) l ts -> show (PArray f l) = Err SchemaError.
Proof.
  intros f l ts NF F. rewrite show_array, (proj2 (map_res_Forall2 _ _ _) F). cbn [bind]. unfold array_str.
  assert (separator f = None) as ->; [|reflexivity]. unfold separator.
  destruct (str_eqb f "csv"%string) eqn:E1; [apply str_eqb_eq in E1; exfalso; apply NF; rewrite E1; cbn; auto|].
  destruct (str_eqb f "ssv"%string) eqn:E2; [apply str_eqb_eq in E2; exfalso; apply NF; rewrite E2; cbn; auto|].
  destruct (str_eqb f "tsv"%string) eqn:E3; [apply str_eqb_eq in E3; exfalso; apply NF; rewrite E3; cbn; auto|].
  destruct (str_eqb f "pipes"%string) eqn:E4; [apply str_eqb_eq in E4; exfalso; apply NF; rewrite E4; cbn; auto 6|].
  reflexivity.
Qed.
Lemma from_nonempty_first t ts : t <> [] -> from_nonempty (t :: ts) = t :: ts.
Proof. now destruct t. Qed.

Section Back.
Context (int_of : str -> res Z) (float_of : str -> res Q) (str_of : value -> str)
  (date_at : Q -> res (Z * Z * Z)) (datetime_at : Q -> res datetime)
  (uuid_of : str -> option Z) (email_ok : str -> bool) (h : list schema).
Notation produce := (produce int_of float_of str_of date_at datetime_at uuid_of email_ok h).
(** Reading the text back with the same schema gives the array that was sent. *)
Theorem c29_roundtrip : forall n o t it it' f sp t1 ts rd,
  target h o t -> typed (sch h t) "array" -> members (sch h t) = [] -> format_of (sch h t) = lit f ->
  sep_of f = Some sp ->
  s_items (sch h t) = Some it -> target h it it' -> text_kind (sch h it') -> members (sch h it') = [] ->
  s_unique (sch h t) = false -> count_ok (sch h t) (length (t1 :: ts)) -> Forall (text_ok (sch h it')) (t1 :: ts) ->
  t1 <> [] -> Forall (fun p => forall c, In c (lit sp) -> ~ In c p) (t1 :: ts) ->
  let array := PArray (lit f) (map PStr (t1 :: ts)) in
  exists s c, show array = Ok s /\ produce (S (S n)) o (VStr s) (new_ctx rd) = Ok (array, c).
Proof.
  intros n o t it it' f sp t1 ts rd T K M F S IT TI KI MI U C TO NE CL array.
  exists (join (lit sp) (t1 :: ts)).
  assert (X : exists c, produce (Datatypes.S (Datatypes.S n)) o (VStr (join (lit sp) (t1 :: ts))) (new_ctx rd) = Ok (array, c)).
  { apply (c28_text int_of float_of str_of date_at datetime_at uuid_of email_ok h (Datatypes.S n) o t _ (t1 :: ts) f sp rd array T K M F S eq_refl); [discriminate|exact CL|].
    apply (c28_list int_of float_of str_of date_at datetime_at uuid_of email_ok h (Datatypes.S n) o t (VList (map VStr (t1 :: ts))) (map VStr (t1 :: ts)) it rd array T K M IT eq_refl).
    exists (map VStr (t1 :: ts)), (map PStr (t1 :: ts)). rewrite U. split; [reflexivity|].
    split; [|split; [now rewrite map_length|now rewrite F]].
    clear - TO TI KI MI. induction TO as [|x l X TO IH]; constructor; [|exact IH].
    apply (c27_text int_of float_of str_of date_at datetime_at uuid_of email_ok h n it it' (VStr x) true (PStr x) TI KI);
      [discriminate|now left|].
    cbn [effective]. split; [reflexivity|]. split; [exact X|].
    unfold each_member. rewrite MI. intros a []. }
  destruct X as (c & X). exists c. split; [|exact X]. unfold array. rewrite (c29_text f sp _ S).
  now rewrite from_nonempty_first.
Qed.
End Back.

(** * C32 *)
(** The JSON form of a byte primitive reads back, by the standard, as its bytes. *)
Theorem c32_roundtrip : forall b, exists s, to_json show_other (PByte b) = Some s /\ b64_read b64_url s = b.
Proof. intro b. eexists. split; [reflexivity|]. apply b64_roundtrip. vm_compute. reflexivity. Qed.
(** It is only made of letters, digits, minus, underscore, and padding. *)
Theorem c32_alphabet : forall b s ch, to_json show_other (PByte b) = Some s -> In ch s ->
  In ch (lit "ABCDEFGHIJKLMNOPQRSTUVWXYZabcdefghijklmnopqrstuvwxyz0123456789-_=").
Proof.
  intros b s ch E I. injection E as <-. apply b64_alphabet in I; [|reflexivity].
  change (lit "ABCDEFGHIJKLMNOPQRSTUVWXYZabcdefghijklmnopqrstuvwxyz0123456789-_=") with (b64_url ++ ["="%char]).
  apply in_app_iff. destruct I as [I| ->]; [now left|right; now left].
Qed.
(** Its length is a multiple of four. *)
Theorem c32_padded : forall b s, to_json show_other (PByte b) = Some s -> Nat.modulo (length s) 4 = 0.
Proof. intros b s E. injection E as <-. apply b64_length. Qed.
(** Different bytes are never sent as the same text. *)
Theorem c32_injective : forall b b', to_json show_other (PByte b) = to_json show_other (PByte b') -> b = b'.
Proof.
  intros b b' E. destruct (c32_roundtrip b) as (s & E1 & <-). destruct (c32_roundtrip b') as (s' & E2 & <-).
  rewrite E, E2 in E1. now injection E1 as ->.
Qed.

Section Byte.
Context (int_of : str -> res Z) (float_of : str -> res Q) (str_of : value -> str)
  (date_at : Q -> res (Z * Z * Z)) (datetime_at : Q -> res datetime)
  (uuid_of : str -> option Z) (email_ok : str -> bool) (h : list schema).
Notation produce := (produce int_of float_of str_of date_at datetime_at uuid_of email_ok h).
(** A byte schema takes bytes as they are and texts in UTF-8, and refuses the rest. *)
Theorem c32_made : forall n o t v rd, target h o t -> typed (sch h t) "string" ->
  format_in (sch h t) ["byte"; "binary"]%string -> effective h o v <> VNull ->
  match effective h o v with
  | VBytes b => exists c, produce (S n) o v (new_ctx rd) = Ok (PByte b, c)
  | VStr s => exists c, produce (S n) o v (new_ctx rd) = Ok (PByte (utf8 s), c)
  | _ => produce (S n) o v (new_ctx rd) = Err ValueError
  end.
Proof.
  intros n o t v rd T K (f & IF & EF) N.
  assert (N' : is_null (effective h o v) = false) by (destruct (effective h o v); easy).
  assert (G : get (s_type (sch h t)) (s_format (sch h t)) = (Some (CrObj CByte), Some S2Obj)).
  { rewrite K, EF. destruct IF as [<-|[<-|[]]]; reflexivity. }
  assert (X : produce (Datatypes.S n) o v (new_ctx rd) =
    match byte_of (effective h o v) with
    | Ok b => Ok (PByte b, set_2nd (Some S2Obj) (ctx1 h t (new_ctx rd)))
    | Err e => Err e
    end).
  { rewrite (produce_some _ _ _ _ _ _ _ _ n o t v (new_ctx rd) T N'); [|intros []].
    destruct (typed_some _ _ K) as (a & x & E); [discriminate|].
    unfold start. rewrite G, E. cbn [create bind run_2nd apply_obj].
    destruct (byte_of (effective h o v)) as [b|e]; [|reflexivity]. cbn [bind]. reflexivity. }
  rewrite X. destruct (effective h o v); cbn [byte_of]; eauto; congruence.
Qed.
End Byte.
End Any.
Print Assumptions c29_text.
Print Assumptions c29_elements.
Print Assumptions c29_multi.
Print Assumptions c29_single.
Print Assumptions c29_unknown_format.
Print Assumptions c29_roundtrip.
Print Assumptions c32_roundtrip.
Print Assumptions c32_alphabet.
Print Assumptions c32_padded.
Print Assumptions c32_injective.
Print Assumptions c32_made.

(** ** Concrete cases *)
Definition ex_decode (s : str) : res str := Ok s.
Definition ex_show (p : prim) : str := lit "?".
Example c29_ex : show ex_decode ex_show (PArray (lit "pipes") [PStr (lit "a"); PInt 7; PStr (lit "b")]) = Ok (lit "a|7|b").
Proof. vm_compute. reflexivity. Qed.
Example c29_ex_multi : to_url ex_decode ex_show (lit "multi") [PStr (lit "a"); PDate 2020 1 2] = Ok [lit "a"; lit "2020-01-02"].
Proof. vm_compute. reflexivity. Qed.
Example c29_ex_back :
  let h := [array_schema (Some 1) (Some 2%Z) (Some 3%Z) false None; text_schema None (Some 3%Z) [] []] in
  out (run h 5 0 (VStr (lit "a,b")) (new_ctx true)) = Ok (PArray (lit "csv") [PStr (lit "a"); PStr (lit "b")]).
Proof. vm_compute. reflexivity. Qed.
(** An empty text at the front is lost. *)
Theorem c29_empty_first_refuted : exists ts s, show ex_decode ex_show (PArray (lit "csv") (map PStr ts)) = Ok s /\
  split [","%char] s <> ts /\ Forall (fun p => ~ In ","%char p) ts /\ ts <> [].
Proof.
  exists [[]; lit "a"], (lit "a"). split; [reflexivity|]. split; [discriminate|]. split; [|discriminate].
  constructor; [intros []|]. constructor; [|constructor]. intros [E|[]]. discriminate E.
Qed.
Print Assumptions c29_empty_first_refuted.
Example c32_ex : to_json ex_show (PByte (lit "ab?>")) = Some (lit "YWI_Pg==").
Proof. vm_compute. reflexivity. Qed.
(** What a server sends back in base64 is not decoded: the bytes are those of the base64 text. *)
Theorem c32_not_decoded_refuted : exists b s c,
  to_json ex_show (PByte b) = Some s /\
  run [text_schema (Some (lit "byte")) None [] []] 5 0 (VStr s) (new_ctx true) = Ok (PByte s, c) /\ s <> b.
Proof.
  exists (lit "ab"), (lit "YWI="). eexists. split; [vm_compute; reflexivity|]. split; [vm_compute; reflexivity|discriminate].
Qed.
Print Assumptions c32_not_decoded_refuted.
