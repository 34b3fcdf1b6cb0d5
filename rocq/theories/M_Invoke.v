(** Model of using an operation of a prepared application: what pyswagger/spec/v2_0/objects.py:182-185,
    247-291 ([Operation.__call__]), pyswagger/io.py:25-41, 66-88, 284-417 ([Request] and
    [Response]) and pyswagger/core.py:466-518 ([Security]) read of the objects of the document.
    Whatever is not of the type it has in a document is refused when the operation is called,
    also when it is not used later or used later. *)
From Verif Require Import PyBase PyJson M_JsonPtr M_Scope M_SpecVal M_Parse M_SpecTree M_App M_Client M_Request M_Op M_Contrib.
From Verif Require Import M_Merge M_MergeRef M_Patch M_Prepare.
Close Scope Q_scope.

Definition text_of (v : val) : res str := match v with VStr s => Ok s | _ => Err TypeError end.
(** A value that is only compared to a text *)
Definition maybe_text (v : val) : option str := match v with VStr s => Some s | _ => None end.
Definition texts_of (v : val) : res (list str) := match v with VList l => map_res text_of l | _ => Err TypeError end.
Definition is_there (v : val) : bool := match v with VObj _ _ _ => true | _ => false end.
(** base.py:336-343 [is_set] *)
Definition was_set (n : string) (v : val) : bool := match v with VObj h _ _ => is_set h n | _ => false end.

Section Invoke.
  (** [V]: argument values, [P]: primitives, [R]: bodies of responses.  As in M_Op, [urls] and
      [show]; [files c]: the File primitives [c] consists of; [ptext c]: [c.lower()] can be
      called and what it is called for. *)
  Context {V P R : Type} (urls : P -> option (list str)) (show : P -> str) (files : P -> list file) (ptext : P -> option str).
  (** a value of the document, and a text, as argument values *)
  Context (plain : val -> V) (of_text : str -> V).
  (** [prim_factory.produce(obj, v, ctx=dict(read=...))] *)
  Context (produce : bool -> val -> V -> res P).
  (** the codec's [marshal] and [unmarshal] for a schema, dereferenced *)
  Context (encode : val -> str -> P -> res str) (decode : val -> str -> R -> res V).
  Context (disk : str -> res str).

  (** ** Calling *)
  (** objects.py:252-256, 265-270 and 182-184 for [final(p)] (objects.py:283-284) *)
  Definition param_of (p : val) : res (param (V:=V) (P:=P)) :=
    let q := final p in
    do n <- get "name" q; do n <- text_of n;
    do i <- get "in" q; do i <- text_of i;
    do r <- get "required" q;
    do d <- get "default" q;
    do t <- get "type" q;
    do it <- get "items" q;
    do it <- (if is_there it then do x <- get "type" it; Ok (Some (maybe_text x)) else Ok None);
    do s <- get "schema" q;
    Ok (Param n i (negb (falsy r)) (if was_set "default" q then Some (plain d) else None) (maybe_text t) it
          (fun v => produce false (if str_eqb i (lit "body") then s else q) v)).
  Definition params_of (o : val) : res (list (param (V:=V) (P:=P))) :=
    do l <- get "parameters" o;
    match l with VList l => map_res param_of l | _ => Err TypeError end.
  (** io.py:76-86 *)
  Definition oparam_of (p : val) : res oparam :=
    let q := final p in
    do i <- get "in" q; do i <- text_of i;
    do n <- get "name" q; do n <- text_of n;
    do s <- get "schema" q;
    Ok (OParam i n (is_there s)).
  (** io.py:25-41 and what is read later: 61, 69-72, 76, 230-238 *)
  Definition op_of (o : val) : res op :=
    do u <- get "url" o; do u <- text_of u;
    do p <- get "path" o; do p <- text_of p;
    do c <- get "consumes" o; do c <- texts_of c;
    do r <- get "produces" o; do r <- texts_of r;
    do l <- get "parameters" o;
    do l <- match l with VList l => map_res oparam_of l | _ => Err TypeError end;
    Ok (Op u p c r l).
  (** io.py:76-86: the schema of the first parameter for the body *)
  Definition body_schema (o : val) : val :=
    match get "parameters" o with
    | Ok (VList l) =>
        match find (fun p => match get "in" (final p) with Ok (VStr i) => str_eqb i (lit "body") | _ => false end) l with
        | Some p => match get "schema" (final p) with Ok s => s | Err _ => VNone end
        | None => VNone
        end
    | _ => VNone
    end.
  (** The parameter set as [Request] gets it.  A parameter that is declared to be in a location
      'file', which there is not, is refused. *)
  Fixpoint file_sets (d : sdict (P + str)) : res (sdict (list file)) :=
    match d with
    | [] => Ok []
    | (k, inl c) :: d => do r <- file_sets d; Ok ((k, files c) :: r)
    | (_, inr _) :: _ => Err TypeError
    end.
  Definition params_with (s : pset (P:=P)) : res (params (B:=P)) :=
    do f <- file_sets (s_file s);
    Ok (Params (map (fun kv => (fst kv, CTok (snd kv))) (s_header s)) (map (fun kv => (fst kv, CTok (snd kv))) (s_query s))
          (s_path s) (s_body s) (s_form s) f).
  (** objects.py:247-291 *)
  Definition call (o : val) (k : sdict V) : res (request (B:=P)) :=
    do ps <- params_of o;
    do s <- op_call urls show ps k;
    do x <- op_of o;
    do p <- params_with s;
    Ok (new_request x p).

  (** ** Sending *)
  (** Header values are texts until they are converted. *)
  Definition htext (h : str + P) : option str := match h with inl s => Some s | inr c => ptext c end.
  (** io.py:366-368 *)
  Definition header_of (h : val) (v : str + P) : res (str + P) :=
    match v with inl s => do c <- produce true h (of_text s); Ok (inr c) | inr c => Ok (inr c) end.
  (** io.py:387-388, 398-414.  Decoding needs the schema, so that both are done when [apply_with]
      (M_Op) converts. *)
  Definition rdecl_of (r : val) : res (rdecl (H:=str + P) (J:=str * R) (D:=P)) :=
    let q := final r in
    do hs <- get "headers" q;
    do s <- get "schema" q;
    Ok (RDecl (match hs with VDict d => map (fun kh => (fst kh, header_of (snd kh))) d | _ => [] end)
          (if is_there s then Some (fun cr => do v <- decode s (fst cr) (snd cr); produce true s v) else None)).
  (** core.py:503-507: the names in each requirement *)
  Definition names_of (v : val) : res (list str) := match v with VDict d => Ok (map fst d) | _ => Err TypeError end.
  Definition security_of (v : val) : res (option (list (list str))) :=
    if falsy v then Ok None else match v with VList l => do x <- map_res names_of l; Ok (Some x) | _ => Err TypeError end.
  (** io.py:284-289, 316-336 (method, schemes, security) and the responses *)
  Definition target_of (o : val) : res (target (H:=str + P) (J:=str * R) (D:=P)) :=
    do m <- get "method" o; do m <- text_of m;
    do ss <- get "cached_schemes" o; do ss <- texts_of ss;
    do s <- get "security" o; do s <- security_of s;
    do rs <- get "responses" o;
    do rs <- match rs with
             | VDict d => map_res (fun kr => do r <- rdecl_of (snd kr); Ok (fst kr, r)) d
             | _ => Err AttributeError
             end;
    Ok (Target m ss s rs).
  Notation message := M_Contrib.message.
  Notation reply := (reply (H:=str + P) (R:=R)).
  (** [client.request(req_and_resp, opt, headers)] with what calling the operation returned; [sent]: what has been sent before *)
  Definition use_op (send : list message -> message -> res reply) (c : client) (security : option sec_info) (o : val) (k : sdict V)
      (b : str) (opt : opts) (hs : headers_arg) (sent : list message) :=
    do r <- call o k;
    do t <- target_of o;
    Ok (client_request (encode (body_schema o)) disk htext (fun ct raw => Ok (ct, raw)) send c security t b (World r resp_new opt hs sent)).
End Invoke.

(** ** Security *)
(** core.py:466-489: what is read of the security definitions.  None (there are none) has no
    [get]. *)
Definition sec_def_of (s : val) : res sec_def :=
  do t <- get "type" s; do n <- get "name" s; do i <- get "in" s;
  Ok (SecDef (maybe_text t) (match n with VStr s => s | _ => [] end) (maybe_text i)).
Definition defs_of (root : val) : res (sdict sec_def) :=
  do d <- get "securityDefinitions" root;
  match d with VDict d => map_res (fun ks => do s <- sec_def_of (snd ks); Ok (fst ks, s)) d | _ => Err AttributeError end.

(** ** Looking up *)
(** [app.op[key]] (core.py:98-111): [pr_op] has pointers instead of the operations. *)
Definition op_named (sep : str) (pr : prepared) (key : scope_key) : res val :=
  do p <- scope_getitem sep (pr_op pr) key;
  do root <- root_of (pr_app pr);
  resolve root (tl (jp_split (Some p))).
