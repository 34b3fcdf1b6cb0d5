(** Model of pyswagger/io.py:16-337 (Request) and of the order of calls in
    pyswagger/core.py:610-629 (BaseClient.request). *)
From Verif Require Import PyBase M_Url M_Quote M_Client.

Definition CR : ascii := "013"%char.
Definition LF : ascii := "010"%char.
Definition CRLF : str := [CR; LF].
Definition DQ : ascii := """"%char.

(** ** primitives.File, primitives/_file.py.  [obj.data] is either falsy (the content is
    read from disk) or a file-like object: what [read()] will still return, and whether
    it returns text.  Two entries sharing one file-like object are not modelled. *)
Inductive fsource := OnDisk | Stream (rest : str) (text : bool).
Record file := File { f_name : str; f_header : sdict str; f_data : fsource }.

Section Request.
  (** Request bodies, and [op._mime_codec.marshal] for the body's schema. *)
  Context {B : Type} (marshal : str -> B -> res str).
  (** [open(name, 'rb').read()] *)
  Context (disk : str -> res str).

  (** What the request reads of the Operation; a parameter is its [in], its name and
      whether it has a schema. *)
  Record oparam := OParam { pa_in : str; pa_name : str; pa_schema : bool }.
  Record op := Op { o_url : str; o_path : str; o_consumes : list str; o_produces : list str;
                    o_params : list oparam }.
  (** The parameter set built by Operation.__call__ (spec/v2_0/objects.py:248).  Header
      and query values are [cred]: a string, or whatever Security put there. *)
  Record params := Params {
    p_header : sdict cred; p_query : list (str * cred); p_path : sdict str;
    p_body : sdict B; p_form : list (str * str); p_file : sdict (list file) }.
  (** [__data]: None, encoded text, or the form list (handle_files=False). *)
  Inductive data := DNone | DText (s : str) | DForm (l : list (str * str)).
  (** io.py:25-41.  [r_data = None]: the attribute does not exist yet. *)
  Record request := Req {
    r_op : op; r_p : params; r_url : str; r_path : str; r_header : cid cred;
    r_data : option data; r_consume : option str; r_produce : option str; r_scheme : option str }.
  Definition new_request (o : op) (p : params) : request :=
    Req o p (o_url o) (o_path o) cid_empty None None None None.

  Definition set_url u r := Req (r_op r) (r_p r) u (r_path r) (r_header r) (r_data r) (r_consume r) (r_produce r) (r_scheme r).
  Definition set_path u r := Req (r_op r) (r_p r) (r_url r) u (r_header r) (r_data r) (r_consume r) (r_produce r) (r_scheme r).
  Definition set_header h r := Req (r_op r) (r_p r) (r_url r) (r_path r) h (r_data r) (r_consume r) (r_produce r) (r_scheme r).
  Definition set_data d r := Req (r_op r) (r_p r) (r_url r) (r_path r) (r_header r) (Some d) (r_consume r) (r_produce r) (r_scheme r).
  Definition set_p p r := Req (r_op r) p (r_url r) (r_path r) (r_header r) (r_data r) (r_consume r) (r_produce r) (r_scheme r).
  Definition set_file f p := Params (p_header p) (p_query p) (p_path p) (p_body p) (p_form p) f.

  (** io.py:43-47 *)
  Definition reset (r : request) : request :=
    Req (r_op r) (r_p r) (o_url (r_op r)) (o_path (r_op r)) cid_empty (Some DNone)
        (r_consume r) (r_produce r) (r_scheme r).

  (** State and exception. *)
  Definition run A := request -> request * res A.
  Definition ret {A} (a : A) : run A := fun r => (r, Ok a).
  Definition rbind {A C} (m : run A) (f : A -> run C) : run C :=
    fun r => match m r with (r', Ok a) => f a r' | (r', Err e) => (r', Err e) end.
  Definition lift {A} (x : res A) : run A := fun r => (r, x).
  Definition modify (f : request -> request) : run unit := fun r => (f r, Ok tt).
  Definition gets {A} (f : request -> A) : run A := fun r => (r, Ok (f r)).
  Notation "'let!' x := e1 'in' e2" := (rbind e1 (fun x => e2))
    (at level 60, x pattern, e1 at level 50, e2 at level 60, right associativity).

  (** io.py:61-62 and the same test in the other two. *)
  Definition check_consumes (ct : str) (consumes : list str) : res unit :=
    if nonempty consumes && negb (mem ct consumes) then Err SchemaError else Ok tt.

  (** io.py:57-64 *)
  Definition form_type : str := "application/x-www-form-urlencoded"%string.
  Definition prepare_forms : run str :=
    let! r := gets id in
    let! _ := lift (check_consumes form_type (o_consumes (r_op r))) in
    let! _ := modify (set_data (DText (urlencode (p_form (r_p r))))) in
    ret form_type.

  (** io.py:66-88: the first body parameter.  (For a None schema: AttributeError.) *)
  Definition body_type (r : request) : str :=
    match r_consume r with
    | Some (c :: s) => c :: s
    | _ => match o_consumes (r_op r) with c :: _ => c | [] => lit "application/json" end
    end.
  Definition prepare_body : run (option str) :=
    let! r := gets id in
    let! _ := lift (check_consumes (body_type r) (o_consumes (r_op r))) in
    match find (fun p => str_eqb (pa_in p) "body"%string) (o_params (r_op r)) with
    | None => let! _ := modify (set_data DNone) in ret None
    | Some p =>
        if negb (pa_schema p) then lift (Err AttributeError)
        else match sget (pa_name p) (p_body (r_p r)) with
             | None => lift (Err KeyError)
             | Some b =>
                 let! d := lift (marshal (body_type r) b) in
                 let! _ := modify (set_data (DText d)) in
                 ret (Some (body_type r))
             end
    end.

  (** io.py:106-134 *)
  Definition opt_header (f : file) (k : str) : str :=
    match sget k (f_header f) with Some v => utf8 (k ++ lit ": " ++ v) ++ CRLF | None => [] end.
  Definition quoted (s : str) : str := DQ :: s ++ [DQ].
  Definition file_part (b name : str) (f : file) (content : str) : str :=
    lit "--" ++ b ++ CRLF ++
    utf8 (lit "Content-Disposition: form-data; name=" ++ quoted name ++ lit "; filename=" ++ quoted (f_name f)) ++ CRLF ++
    opt_header f "Content-Type"%string ++ opt_header f "Content-Transfer-Encoding"%string ++ CRLF ++
    content ++ CRLF.
  (** io.py:122-131: reading consumes a file-like object. *)
  Definition read_file (f : file) : file * res str :=
    match f_data f with
    | OnDisk => (f, disk (f_name f))
    | Stream rest text => (File (f_name f) (f_header f) (Stream [] text),
                           Ok (if text then utf8 rest else rest))
    end.
  Fixpoint add_files (b name : str) (l : list file) : list file * res str :=
    match l with
    | [] => ([], Ok [])
    | f :: l' =>
        match read_file f with
        | (f', Err e) => (f' :: l', Err e)
        | (f', Ok c) => let '(l'', rest) := add_files b name l' in
                        (f' :: l'', do x <- rest; Ok (file_part b name f c ++ x))
        end
    end.
  Fixpoint add_groups (b : str) (d : sdict (list file)) : sdict (list file) * res str :=
    match d with
    | [] => ([], Ok [])
    | (name, l) :: d' =>
        match add_files b name l with
        | (l', Err e) => ((name, l') :: d', Err e)
        | (l', Ok c) => let '(d'', rest) := add_groups b d' in
                        ((name, l') :: d'', do x <- rest; Ok (c ++ x))
        end
    end.
  (** io.py:136-145 *)
  Definition field_part (b : str) (kv : str * str) : str :=
    lit "--" ++ b ++ CRLF ++
    utf8 (lit "Content-Disposition: form-data; name=" ++ quoted (fst kv)) ++ CRLF ++ CRLF ++
    utf8 (snd kv) ++ CRLF.
  (** io.py:90-159 with the default encoding utf-8; [b] is the fresh [uuid4().hex]. *)
  Definition multipart (b : str) (p : params) : sdict (list file) * res str :=
    let '(fs, c) := add_groups b (p_file p) in
    (fs, do c <- c;
         Ok (flat_map (field_part b) (p_form p) ++ c ++ lit "--" ++ b ++ lit "--" ++ CRLF)).
  Definition multipart_type : str := "multipart/form-data"%string.
  Definition prepare_files (b : str) : run str :=
    let! r := gets id in
    let! _ := lift (check_consumes multipart_type (o_consumes (r_op r))) in
    let '(fs, c) := multipart b (r_p r) in
    let! _ := modify (set_p (set_file fs (r_p r))) in
    let! c := lift c in
    let! _ := modify (set_data (DText c)) in
    ret (multipart_type ++ lit "; boundary=" ++ b).

  (** io.py:208-228 *)
  Definition prepare_data (b : str) (handle_files : bool) : run (option str) :=
    let! r := gets id in
    if nonempty (p_file (r_p r)) then
      if handle_files then let! ct := prepare_files b in ret (Some ct)
      else let! _ := modify (set_data (DForm (p_form (r_p r)))) in ret None
    else if nonempty (p_form (r_p r)) then let! ct := prepare_forms in ret (Some ct)
    else if nonempty (p_body (r_p r)) then prepare_body
    else let! _ := modify (set_data DNone) in ret None.

  (** io.py:230-238 *)
  Definition accept_type (r : request) : option str :=
    match r_produce r with
    | Some (c :: s) => Some (c :: s)
    | _ => match o_produces (r_op r) with a :: _ => Some a | [] => None end
    end.
  Definition prepare_accept : run unit :=
    let! r := gets id in
    match accept_type r with
    | None | Some [] => ret tt
    | Some a =>
        if nonempty (o_produces (r_op r)) && negb (mem a (o_produces (r_op r)))
        then lift (Err SchemaError)
        else modify (fun r => set_header (cid_set (lit "Accept") (CTok a) (r_header r)) r)
    end.

  (** io.py:174-240.  The caller's scheme list loses its last element (pop), which the
      model does not show: callers pass a fresh list. *)
  Definition quoted_path (p : params) : sdict str :=
    map (fun kv => (fst kv, quote_plus (snd kv))) (p_path p).
  Definition prepare (b : str) (scheme : scheme_arg) (handle_files : bool) : run unit :=
    let! r := gets id in
    let! sch := lift (choose_scheme (r_scheme r) scheme) in
    let! path := lift (format (r_path r) (quoted_path (r_p r))) in
    let! _ := modify (set_path path) in
    let! url := lift (format (r_url r) (quoted_path (r_p r))) in
    let! _ := modify (set_url (sch ++ ":"%char :: url)) in
    let! _ := modify (fun r => set_header (cid_update (r_header r) (p_header (r_p r))) r) in
    let! ct := prepare_data b handle_files in
    let! _ := modify (fun r => match ct with
                               | Some (c :: s) => set_header (cid_set (lit "Content-Type") (CTok (c :: s)) (r_header r)) r
                               | _ => r end) in
    prepare_accept.

  (** io.py:161-181.  [truthy or other]; the options that were read are popped from the
      caller's dict, which the model leaves to the caller. *)
  Definition or_else (a : option str) (b : str) : str :=
    match a with Some (c :: s) => c :: s | _ => b end.
  Definition truthy (a : option str) : bool := match a with Some (_ :: _) => true | _ => false end.
  Definition patch (netloc scheme : option str) : run unit :=
    if truthy netloc || truthy scheme then
      let! r := gets id in
      let! u := lift (urlparse (r_url r)) in
      modify (set_url (urlunparse (Url6 (or_else scheme (u_scheme u)) (or_else netloc (u_netloc u))
                                        (u_path u) (u_params u) (u_query u) (u_frag u))))
    else ret tt.

  (** core.py:494-518 applied to the request's parameters. *)
  Definition secure (info : sec_info) (security : option (list (list str))) : run unit :=
    modify (fun r =>
      let p := r_p r in
      let s := sec_call info security (SecReq (p_header p) (p_query p)) in
      set_p (Params (sr_header s) (sr_query s) (p_path p) (p_body p) (p_form p) (p_file p)) r).

  (** Calls a client may make on one request. *)
  Inductive call :=
  | CReset
  | CPrepare (b : str) (scheme : scheme_arg) (handle_files : bool)
  | CPatch (netloc scheme : option str)
  | CSecure.
  Definition step (info : sec_info) (security : option (list (list str))) (r : request) (c : call)
    : request :=
    match c with
    | CReset => reset r
    | CPrepare b s h => fst (prepare b s h r)
    | CPatch n s => fst (patch n s r)
    | CSecure => fst (secure info security r)
    end.
  Definition history (info : sec_info) (security : option (list (list str))) (l : list call)
    (r : request) : request := fold_left (step info security) l r.
End Request.
