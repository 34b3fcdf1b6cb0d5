(** C23 (operation calls) and C24 (responses). *)
From Verif Require Import PyBase PyFacts M_Client M_Op S_Op P_Op.

(** * C23 *)
Section Call.
Context {V P : Type} (urls : P -> option (list str)) (show : P -> str).
Notation param := (param (V:=V) (P:=P)).

(** A successful call had no unknown argument, no missing required parameter (part of
    [converted]), and the containers hold exactly the supplied parameters. *)
Theorem c23_success : forall (ps : list param) k s, (forall q, In q ps -> well_placed q) ->
  op_call urls show ps k = Ok s ->
  (forall n, In n (map fst k) -> In n (map q_name ps)) /\
  exists cs, converted k ps cs /\ (forall x, In x cs -> has_items urls x) /\ placed urls show cs s.
Proof. exact (op_call_ok urls show). Qed.
(** And a call succeeds whenever the arguments are known, nothing required is missing
    and the values convert. *)
Theorem c23_succeeds : forall (ps : list param) k cs, (forall q, In q ps -> well_placed q) ->
  converted k ps cs -> (forall x, In x cs -> has_items urls x) ->
  (forall n, In n (map fst k) -> In n (map q_name ps)) -> exists s, op_call urls show ps k = Ok s.
Proof. intros ps k cs W C Hi. now destruct (op_call_total urls show ps k cs W C Hi). Qed.
Theorem c23_unknown : forall (ps : list param) k cs, (forall q, In q ps -> well_placed q) ->
  converted k ps cs -> (forall x, In x cs -> has_items urls x) ->
  (exists n, In n (map fst k) /\ ~ In n (map q_name ps)) -> op_call urls show ps k = Err ValueError.
Proof. intros ps k cs W C Hi. now destruct (op_call_total urls show ps k cs W C Hi). Qed.
Theorem c23_missing : forall a (q : param) b k cs, (forall x, In x a -> well_placed x) ->
  converted k a cs -> (forall x, In x cs -> has_items urls x) ->
  q_required q = true -> sget (q_name q) k = None -> q_default q = None ->
  op_call urls show (a ++ q :: b) k = Err ValueError.
Proof.
  intros a q b k cs W C Hi Rq G Dq. apply (op_call_missing urls show a q b k cs W C Hi Rq).
  unfold supplied. now rewrite G, Dq.
Qed.
(** Whatever the order: with a required parameter missing no call succeeds. *)
Theorem c23_missing_never : forall (ps : list param) q k s, (forall q, In q ps -> well_placed q) ->
  In q ps -> q_required q = true -> sget (q_name q) k = None -> q_default q = None ->
  op_call urls show ps k <> Ok s.
Proof.
  intros ps q k s W Hq Rq G Dq E. destruct (op_call_ok urls show ps k s W E) as (_ & cs & C & _).
  clear W E. revert cs C. induction ps as [|p ps IH]; intros cs C; [easy|]. cbn [converted] in C.
  destruct Hq as [->|Hq].
  - unfold supplied in C. rewrite G, Dq in C. destruct C. congruence.
  - destruct (supplied k p); [destruct C as (c & cs' & _ & _ & C)|destruct C as [_ C]]; eauto.
Qed.
End Call.
Print Assumptions c23_success.
Print Assumptions c23_succeeds.
Print Assumptions c23_unknown.
Print Assumptions c23_missing.
Print Assumptions c23_missing_never.

(** A call with every kind of parameter; values are lists of strings, a list of length
    one being a scalar. *)
Definition urls_ex (c : list str) : option (list str) := match c with [_] => None | _ => Some c end.
Definition show_ex (c : list str) : str := match c with [x] => x | _ => [] end.
Definition mk (n i : string) (req : bool) (d : option (list str)) (t : string) (it : option (option str)) : param :=
  Param (V:=list str) (P:=list str) (lit n) (lit i) req d (Some (lit t)) it (fun v => Ok v).
Definition ps_ex := [mk "id" "path" true None "string" None; mk "q" "query" false (Some [lit "d"]) "string" None;
  mk "tags" "query" false None "array" (Some (Some (lit "string"))); mk "X" "header" false None "string" None;
  mk "b" "body" false None "object" None; mk "f" "formData" false None "file" None;
  mk "fs" "formData" false None "array" (Some (Some (lit "file")));
  mk "n" "formData" false None "string" None].
Example c23_ex : op_call urls_ex show_ex ps_ex
    [(lit "fs", [lit "1"; lit "2"]); (lit "id", [lit "7"]); (lit "tags", [lit "a"; lit "b"]); (lit "b", [lit "B"]);
     (lit "f", [lit "F"]); (lit "X", [lit "x"])] =
  Ok (PSet [(lit "X", lit "x")] [(lit "q", lit "d"); (lit "tags", lit "a"); (lit "tags", lit "b")] [(lit "id", lit "7")]
       [(lit "b", [lit "B"])] [] [(lit "f", inl [lit "F"]); (lit "fs", inl [lit "1"; lit "2"])]).
Proof. vm_compute. reflexivity. Qed.
Example c23_ex_unknown : op_call urls_ex show_ex ps_ex [(lit "id", [lit "7"]); (lit "z", [])] = Err ValueError.
Proof. vm_compute. reflexivity. Qed.
Example c23_ex_missing : op_call urls_ex show_ex ps_ex [(lit "q", [lit "7"])] = Err ValueError.
Proof. vm_compute. reflexivity. Qed.
Example c23_ex_hyp : (forall q, In q ps_ex -> well_placed q) /\
  exists cs, converted [(lit "id", [lit "7"])] ps_ex cs /\ (forall x, In x cs -> has_items urls_ex x) /\ length cs = 2.
Proof.
  split.
  - intros q Hq. cbn in Hq. repeat (destruct Hq as [<-|Hq]; [unfold well_placed; cbn; tauto|]). easy.
  - exists [(mk "id" "path" true None "string" None, [lit "7"]); (mk "q" "query" false (Some [lit "d"]) "string" None, [lit "d"])].
    split; [|split; [|reflexivity]].
    + cbn [converted ps_ex]. do 2 eexists. split; [reflexivity|]. split; [reflexivity|].
      do 2 eexists. split; [reflexivity|]. split; [reflexivity|]. repeat split.
    + intros x [<-|[<-|[]]]; unfold has_items; intros _ _ X; now elim X.
Qed.

(** * C24 *)
Section Response.
Context {H R J D : Type} (text : H -> option str) (unmarshal : str -> R -> res J).
Notation rdecl := (rdecl (H:=H) (J:=J) (D:=D)).
Notation resp := (resp (H:=H) (R:=R) (D:=D)).
Notation apply_with := (apply_with (D:=D) text unmarshal).

(** What a caller can do with a response object. *)
Inductive action := AApply (status : option Z) (raw : option R) (header : option (list (str * H)))
  | AReset | ARawOnly (b : bool).
Definition act (rs : sdict rdecl) (s : resp) (a : action) : resp :=
  match a with
  | AApply st raw hd => fst (apply_with rs st raw hd s)
  | AReset => resp_reset s
  | ARawOnly b => set_rawonly b s
  end.
(** The states a response object can be in. *)
Definition reachable (rs : sdict rdecl) (s : resp) : Prop := exists l, s = fold_left (act rs) l resp_new.

Lemma reachable_hok rs s : reachable rs s -> hok (p_hdr s).
Proof.
  intros [l ->]. assert (G : forall l s, hok (p_hdr s) -> hok (p_hdr (fold_left (act rs) l s))).
  { clear l. induction l as [|a l IH]; intros s O; auto. cbn [fold_left]. apply IH. destruct a; cbn [act].
    - now apply apply_hok.
    - split; [constructor|intros e []].
    - exact O. }
  apply G. split; [constructor|intros e []].
Qed.

(** A successful call, in any state: the status and the raw body are the given ones (else
    unchanged), every header's values are extended by those received under its name, in
    order and converted by the declaration found; the data is the raw body decoded for the
    received content type and converted with the declared schema. *)
Theorem c24_apply : forall rs s status raw header s', reachable rs s ->
  apply_with rs status raw header s = (s', Ok tt) ->
  let hl := match header with Some l => l | None => [] end in
  exists r, decl_for rs (p_status s') r /\
    p_status s' = match status with Some z => Some z | None => p_status s end /\
    p_raw s' = match raw with Some b => Some b | None => p_raw s end /\
    (exists all, Forall2 (received r) hl all /\
      forall n, values n s' = values n s ++
        map snd (filter (fun e => str_eqb (lower (fst (fst e))) (lower n)) (combine hl all))) /\
    (raw <> None -> p_status s' <> None) /\
    match raw, r with
    | Some b, Some (RDecl _ (Some prim)) =>
        if p_rawonly s then p_data s' = p_data s
        else exists ct j d, media text s' ct /\ unmarshal ct b = Ok j /\ prim j = Ok d /\ p_data s' = Some d
    | _, _ => p_data s' = p_data s
    end.
Proof.
  intros rs s status raw header s' Hr E hl. apply reachable_hok in Hr. unfold M_Op.apply_with in E. fold hl in E.
  set (st := match status with Some z => Some z | None => p_status s end) in *.
  destruct (convert_headers (declared rs st) (p_hdr s) hl) as [hs e] eqn:C.
  destruct e as [[]|e]; [|discriminate]. destruct (convert_headers_ok _ _ _ _ Hr C) as (O & all & A1 & A2).
  exists (declared rs st).
  assert (Dc : decl_for rs st (declared rs st)).
  { unfold decl_for, declared, status_text. destruct (sget _ rs); reflexivity. }
  assert (hdrs : p_hdr s' = hs -> exists all, Forall2 (received (declared rs st)) hl all /\
      forall n, values n s' = values n s ++
        map snd (filter (fun e => str_eqb (lower (fst (fst e))) (lower n)) (combine hl all))).
  { intros X. exists all. split; auto. intros n. unfold values. rewrite X. exact (A2 n). }
  destruct raw as [b|].
  2:{ injection E as <-. cbn [p_status p_raw p_data] in *. repeat split; auto; try easy. }
  destruct st as [z|] eqn:St; [|discriminate].
  destruct (declared rs (Some z)) as [[dh [prim|]]|] eqn:Dr.
  - destruct (p_rawonly s) eqn:Ro.
    + injection E as <-. cbn [p_status p_raw p_data] in *. repeat split; auto; easy.
    + destruct (do ct <- content_type text hs; do j <- unmarshal ct b; prim j) as [d|e] eqn:F; [|discriminate].
      apply bind_ok in F as (ct & F1 & F). apply bind_ok in F as (j & F2 & F3).
      injection E as <-. cbn [p_status p_raw p_data] in *. split; auto. split; auto. split; auto. split; auto. split; [easy|].
      exists ct, j, d. split; auto. unfold media, values. cbn [p_hdr].
      rewrite content_type_spec in F1 by auto. unfold hvals in F1.
      destruct (match cid_get (lit "content-type") hs with Ok l => l | Err _ => [] end) as [|h l]; [congruence|].
      destruct (text h) as [x|]; [|discriminate]. exists x. split; congruence.
  - injection E as <-. cbn [p_status p_raw p_data] in *. repeat split; auto; easy.
  - injection E as <-. cbn [p_status p_raw p_data] in *. repeat split; auto; easy.
Qed.
(** A call with a known status succeeds when everything converts; it fails only because a
    header, the content type, the decoder or the schema did. *)
Theorem c24_failure : forall rs s status raw header s' e, reachable rs s ->
  apply_with rs status raw header s = (s', Err e) ->
  let hl := match header with Some l => l | None => [] end in
  (exists k v d f, In (k, v) hl /\ decl_for rs (p_status s') (Some d) /\ sget k (rd_headers d) = Some f /\ f v = Err e) \/
  (raw <> None /\ p_raw s' = raw /\ p_data s' = p_data s /\
    ((p_status s' = None /\ e = GenericException) \/
     exists b d prim, raw = Some b /\ p_rawonly s = false /\ decl_for rs (p_status s') (Some d) /\ rd_schema d = Some prim /\
       ((e = AttributeError /\ exists h l, values (lit "content-type") s' = h :: l /\ text h = None) \/
        exists ct, media text s' ct /\ (unmarshal ct b = Err e \/ exists j, unmarshal ct b = Ok j /\ prim j = Err e)))).
Proof.
  intros rs s status raw header s' e Hr E hl. apply reachable_hok in Hr. unfold M_Op.apply_with in E. fold hl in E.
  set (st := match status with Some z => Some z | None => p_status s end) in *.
  assert (Dc : decl_for rs st (declared rs st)).
  { unfold decl_for, declared, status_text. destruct (sget _ rs); reflexivity. }
  destruct (convert_headers (declared rs st) (p_hdr s) hl) as [hs e0] eqn:C.
  destruct e0 as [[]|e0].
  - right. destruct (convert_headers_ok _ _ _ _ Hr C) as (O & _).
    destruct raw as [b|]; [|discriminate]. split; [discriminate|].
    destruct st as [z|] eqn:St.
    2:{ injection E as <- <-. split; auto. }
    destruct (declared rs (Some z)) as [[dh [prim|]]|] eqn:Dr; try discriminate.
    destruct (p_rawonly s) eqn:Ro; [discriminate|].
    destruct (do ct <- content_type text hs; do j <- unmarshal ct b; prim j) as [d|e0] eqn:F; [discriminate|].
    injection E as <- <-. cbn [p_raw p_data p_status]. split; auto. split; auto. right.
    exists b, (RDecl dh (Some prim)), prim. split; auto. split; auto. split; [exact Dc|]. split; auto.
    rewrite content_type_spec in F by auto. unfold media, values. cbn [p_hdr]. unfold hvals in F.
    destruct (match cid_get (lit "content-type") hs with Ok l => l | Err _ => [] end) as [|h l].
    + right. eexists. split; [reflexivity|]. cbn [bind] in F. destruct (unmarshal _ b) as [j|]; cbn [bind] in F; [|left; congruence].
      right. eauto.
    + destruct (text h) as [x|] eqn:Tx; cbn [bind] in F.
      * right. exists (lower x). split; [eauto|]. destruct (unmarshal _ b) as [j|]; cbn [bind] in F; [|left; congruence].
        right. eauto.
      * left. split; [congruence|]. eauto.
  - left. injection E as <- <-. cbn [p_status].
    clear Hr. revert hs C. generalize (p_hdr s). induction hl as [|[k v] l IH]; intros h0 hs C; cbn [convert_headers] in C; [discriminate|].
    destruct (convert_header (declared rs st) h0 k v) as [h1|e1] eqn:C1.
    + destruct (IH h1 hs C) as (k' & v' & d & f & X & Y). exists k', v', d, f. split; [now right|auto].
    + injection C as _ ->. unfold convert_header in C1.
      destruct (declared rs st) as [d|] eqn:Dd; cbn [bind] in C1.
      2:{ destruct (cid_get k h0); discriminate. }
      destruct (sget k (rd_headers d)) as [f|] eqn:G; cbn [bind] in C1.
      2:{ destruct (cid_get k h0); discriminate. }
      destruct (f v) as [w|e1] eqn:Fv; cbn [bind] in C1; [destruct (cid_get k h0); discriminate|].
      exists k, v, d, f. split; [now left|]. split; auto. split; congruence.
Qed.
(** raw without a status raises. *)
Theorem c24_raw_needs_status : forall rs s b, reachable rs s -> p_status s = None ->
  snd (apply_with rs None (Some b) None s) = Err GenericException.
Proof. intros rs s b _ E. unfold M_Op.apply_with. rewrite E. reflexivity. Qed.
(** Over a whole history without reset: the values of a header are those received by the
    calls in order. *)
Theorem c24_history : forall rs calls s s', reachable rs s ->
  (forall a c b, calls = a ++ c :: b ->
     exists st raw hd, c = AApply st raw hd /\ snd (apply_with rs st raw hd (fold_left (act rs) a s)) = Ok tt) ->
  s' = fold_left (act rs) calls s ->
  forall n, exists vss, values n s' = values n s ++ concat vss /\ Forall2 (fun c vs =>
    exists st raw hd r z, c = AApply st raw hd /\ decl_for rs z r /\ (st <> None -> z = st) /\
      received_as n r match hd with Some l => l | None => [] end vs) calls vss.
Proof.
  intros rs calls s s' Hr Hc -> n. revert s Hr Hc. induction calls as [|c calls IH]; intros s Hr Hc.
  - exists []. cbn. now rewrite app_nil_r.
  - destruct (Hc [] c calls eq_refl) as (st & raw & hd & -> & E). cbn [fold_left] in E.
    destruct (apply_with rs st raw hd s) as [s1 [[]|e]] eqn:A; [|discriminate].
    destruct (c24_apply rs s st raw hd s1 Hr A) as (r & D1 & D2 & _ & (all & A1 & A2) & _).
    assert (Hr1 : reachable rs s1).
    { destruct Hr as [l ->]. exists (l ++ [AApply st raw hd]). rewrite fold_left_app. cbn [fold_left act]. now rewrite A. }
    destruct (IH s1 Hr1) as (vss & V1 & V2).
    { intros a c b ->. destruct (Hc (AApply st raw hd :: a) c b eq_refl) as (st' & raw' & hd' & -> & E').
      cbn [fold_left act] in E'. rewrite A in E'. eauto. }
    eexists (_ :: vss). cbn [fold_left act]. rewrite A. cbn [fst concat]. rewrite V1, A2, <- app_assoc. split; [reflexivity|].
    constructor; auto. exists st, raw, hd, r, (p_status s1). split; auto. split; auto. split.
    + intros X. destruct st; [exact D2|easy].
    + exists all. auto.
Qed.
End Response.
Print Assumptions c24_apply.
Print Assumptions c24_failure.
Print Assumptions c24_raw_needs_status.
Print Assumptions c24_history.

(** An example: declared for 200, default otherwise; header names are matched exactly
    against the declaration, but case-insensitively when stored. *)
Definition rs_ex : sdict (rdecl (H:=str) (J:=str) (D:=str)) :=
  [(lit "200", RDecl [(lit "X-N", fun v => Ok (lit "int:" ++ v))] (Some (fun j => Ok (lit "200:" ++ j))));
   (lit "default", RDecl [] None)].
Definition run_ex st raw hd s := apply_with (R:=str) (fun h => Some h) (fun ct r => Ok (ct ++ lit "|" ++ r)) rs_ex st raw hd s.
Example c24_ex :
  let s1 := fst (run_ex (Some 200%Z) None (Some [(lit "X-N", lit "1"); (lit "CONTENT-type", lit "Text/PLAIN"); (lit "x-n", lit "2")]) resp_new) in
  let (s2, r) := run_ex None (Some (lit "body")) (Some [(lit "x-N", lit "3")]) s1 in
  (values (lit "x-n") s2, p_data s2, r) =
  ([lit "int:1"; lit "2"; lit "3"], Some (lit "200:text/plain|body"), Ok tt).
Proof. vm_compute. reflexivity. Qed.
Example c24_ex_default : p_data (fst (run_ex (Some 404%Z) (Some (lit "b")) None resp_new)) = None.
Proof. vm_compute. reflexivity. Qed.
