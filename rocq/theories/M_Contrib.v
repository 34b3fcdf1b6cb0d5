(** Model of the clients shipped with pyswagger: pyswagger/contrib/client/requests.py,
    tornado.py and flask.py, on top of BaseClient.request (core.py:610-636).  (The
    webapp2 client refuses to be created on Python 3, webapp2.py:26-27.) *)
From Verif Require Import PyBase M_Client M_Request M_Op.

(** [str.upper] for ASCII text; HTTP methods are ASCII. *)
Definition upper_char (c : ascii) : ascii :=
  let n := nat_of_ascii c in
  if (97 <=? n) && (n <=? 122) then ascii_of_nat (n - 32) else c.
Definition upper (s : str) : str := map upper_char s.

(** The values of the request's headers as text.  Simplification: a credential that is
    not text is refused by the HTTP libraries; the model refuses it a little earlier,
    before the headers are composed. *)
Fixpoint header_texts (h : cid cred) : res (cid str) :=
  match h with
  | [] => Ok []
  | (l, (k, CTok s)) :: h => do h' <- header_texts h; Ok ((l, (k, s)) :: h')
  | (_, (_, CPair _ _)) :: _ => Err TypeError
  end.

Section Clients.
  Context {B : Type} (marshal : str -> B -> res str) (disk : str -> res str).
  Context {H R J D : Type} (text : H -> option str) (unmarshal : str -> R -> res J).
  Notation request := (request (B:=B)).
  Notation resp := (resp (H:=H) (R:=R) (D:=D)).
  Notation rdecl := (rdecl (H:=H) (J:=J) (D:=D)).

  (** What the clients read of the operation: [req.method], [req.schemes],
      [req._security] and [op.responses]. *)
  Record target := Target {
    t_method : str; t_schemes : list str; t_security : option (list (list str));
    t_responses : sdict rdecl }.
  (** The [opt] dict: 'url_netloc', 'url_scheme' and 'join_headers'.  No dict and an
      empty dict behave alike (requests.py:35, tornado.py:31, flask.py:31). *)
  Record opts := Opts { o_netloc : option str; o_scheme : option str; o_join : bool }.

  (** A file handed to the HTTP library: what can be read from it and whether that is
      text ([None]: werkzeug's FileStorage got no stream at all). *)
  Record upload := Upload {
    u_field : str; u_filename : str; u_type : option str; u_content : option (str * bool) }.
  (** The [data] or [body] handed over: [req.data], a list of form fields, or flask's
      table of fields and files. *)
  Inductive payload := PData (d : data) | PTable (t : sdict (str + list upload)).
  (** Everything handed to the HTTP library for one request. *)
  Record message := Msg {
    m_method : str; m_url : str; m_query : list (str * cred); m_headers : headers_res;
    m_payload : payload; m_files : list upload }.
  Record reply := Reply { y_status : Z; y_headers : list (str * H); y_body : R }.
  (** The HTTP library and the server behind it: the answer may depend on everything
      that was sent before; [Err]: the library raises. *)
  Context (send : list message -> message -> res reply).

  (** The objects that a call of [client.request] can change: the request, the response,
      the caller's [opt] and [headers] objects; and what has been sent. *)
  Record world := World {
    w_req : request; w_resp : resp; w_opt : opts; w_headers : headers_arg;
    w_sent : list message }.
  Definition set_wreq r w := World r (w_resp w) (w_opt w) (w_headers w) (w_sent w).
  Definition set_wresp s w := World (w_req w) s (w_opt w) (w_headers w) (w_sent w).
  Definition set_wopt o w := World (w_req w) (w_resp w) o (w_headers w) (w_sent w).
  Definition set_wheaders h w := World (w_req w) (w_resp w) (w_opt w) h (w_sent w).

  (** core.py:571-608 with its effects: 'join_headers' is popped from [opt] unless there
      are no headers, and lines 583-585 update the caller's dict in place. *)
  Definition compose (as_dict : bool) (w : world) : world * res headers_res :=
    match header_texts (r_header (w_req w)) with
    | Err e => (w, Err e)
    | Ok h =>
        let hs := compose_headers h (w_headers w) (o_join (w_opt w)) as_dict in
        match w_headers w with
        | HNone => (w, hs)
        | arg =>
            let w1 := set_wopt (Opts (o_netloc (w_opt w)) (o_scheme (w_opt w)) false) w in
            match arg, hs with
            | HDict _, Ok (RDict d) =>
                if as_dict && negb (o_join (w_opt w)) then (set_wheaders (HDict d) w1, hs) else (w1, hs)
            | _, _ => (w1, hs)
            end
        end
    end.

  (** requests.py:30-42, tornado.py:26-37, flask.py:26-38 and core.py:624-636: reset both
      objects, apply the security, prepare, patch the URL, compose the headers.
      [_patch] pops its two options first (io.py:159-160). *)
  Definition ready (security : option sec_info) (schemes : list str) (b : str)
    (handle_files as_dict : bool) (t : target) (w : world) : world * res headers_res :=
    let r := reset (w_req w) in
    let w := set_wresp (resp_reset (w_resp w)) w in
    let r := match security with Some info => fst (secure info (t_security t) r) | None => r end in
    match prepare_schemes schemes (t_schemes t) with
    | Err e => (set_wreq r w, Err e)
    | Ok l =>
        match prepare marshal disk b (SchList l) handle_files r with
        | (r, Err e) => (set_wreq r w, Err e)
        | (r, Ok _) =>
            let o := w_opt w in
            let w := set_wopt (Opts None None (o_join o)) w in
            match patch (o_netloc o) (o_scheme o) r with
            | (r, Err e) => (set_wreq r w, Err e)
            | (r, Ok _) => compose as_dict (set_wreq r w)
            end
        end
    end.

  (** [req.data]; the attribute exists after [reset]. *)
  Definition data_of (r : request) : data := match r_data r with Some d => d | None => DNone end.

  (** Reading the files when the library builds the request exhausts the file-like
      objects. *)
  Definition exhaust_file (f : file) : file :=
    match f_data f with
    | OnDisk => f
    | Stream _ text => File (f_name f) (f_header f) (Stream [] text)
    end.
  Definition exhaust (r : request) : request :=
    set_p (set_file (map (fun g => (fst g, map exhaust_file (snd g))) (p_file (r_p r))) (r_p r)) r.

  (** Handing the message over, and what the reply does to the response. *)
  Definition deliver (m : message) (use : reply -> resp -> resp * res unit) (w : world)
    : world * res unit :=
    let w' := World (w_req w) (w_resp w) (w_opt w) (w_headers w) (w_sent w ++ [m]) in
    match send (w_sent w) m with
    | Err e => (w', Err e)
    | Ok y => let (s, e) := use y (w_resp w) in (set_wresp s w', e)
    end.
  Definition apply_all (t : target) (y : reply) (s : resp) : resp * res unit :=
    apply_with text unmarshal (t_responses t) (Some (y_status y)) (Some (y_body y)) (Some (y_headers y)) s.

  (** requests.py:44-58.  A file-like object is truthy, so it is used instead of the
      file of that name. *)
  Definition open_file (k : str) (f : file) : res upload :=
    do c <- match f_data f with
            | Stream rest text => Ok (rest, text)
            | OnDisk => do c <- disk (f_name f); Ok (c, false)
            end;
    Ok (Upload k (f_name f) (sget (lit "Content-Type") (f_header f)) (Some c)).
  Fixpoint open_all (l : list (str * file)) : res (list upload) :=
    match l with
    | [] => Ok []
    | (k, f) :: l => do u <- open_file k f; do us <- open_all l; Ok (u :: us)
    end.
  (** [for k, v in iteritems(req.files)], [for vv in v] *)
  Definition file_list (d : sdict (list file)) : list (str * file) :=
    flat_map (fun g => map (fun f => (fst g, f)) (snd g)) d.

  (** requests.py:26-77 *)
  Definition requests_request (security : option sec_info) (t : target) (b : str) (w : world)
    : world * res unit :=
    match ready security [lit "http"; lit "https"] b false true t w with
    | (w, Err e) => (w, Err e)
    | (w, Ok hs) =>
        match open_all (file_list (p_file (r_p (w_req w)))) with
        | Err e => (w, Err e)
        | Ok us =>
            let m := Msg (upper (t_method t)) (r_url (w_req w)) (p_query (r_p (w_req w))) hs
                         (PData (data_of (w_req w))) us in
            deliver m (apply_all t) (set_wreq (exhaust (w_req w)) w)
        end
    end.

  (** tornado.py:57-58: the headers one by one *)
  Fixpoint apply_headers (t : target) (l : list (str * H)) (s : resp) : resp * res unit :=
    match l with
    | [] => (s, Ok tt)
    | h :: l =>
        match apply_with text unmarshal (t_responses t) None None (Some [h]) s with
        | (s, Ok _) => apply_headers t l s
        | (s, Err e) => (s, Err e)
        end
    end.
  (** tornado.py:22-60.  The query is appended to the URL by tornado's [url_concat]; both
      are kept apart in the model.  [fetch] raises for an error status. *)
  Definition tornado_request (security : option sec_info) (t : target) (b : str) (w : world)
    : world * res unit :=
    match ready security [lit "http"; lit "https"] b true false t w with
    | (w, Err e) => (w, Err e)
    | (w, Ok hs) =>
        let m := Msg (upper (t_method t)) (r_url (w_req w)) (p_query (r_p (w_req w))) hs
                     (PData (data_of (w_req w))) [] in
        deliver m (fun y s =>
          match apply_with text unmarshal (t_responses t) (Some (y_status y)) (Some (y_body y)) None s with
          | (s, Ok _) => apply_headers t (y_headers y) s
          | (s, Err e) => (s, Err e)
          end) w
    end.

  (** flask.py:40-63.  [stream=None] for a file that is to be read from disk.  A single
      file is a list of one file in the model. *)
  Definition storage (k : str) (f : file) : upload :=
    Upload k (f_name f) None
      (match f_data f with OnDisk => None | Stream rest text => Some (rest, text) end).
  Definition flask_table (p : params (B:=B)) : sdict (str + list upload) :=
    fold_left (fun d g => sset (fst g) (inr (map (storage (fst g)) (snd g))) d) (p_file p)
      (fold_left (fun d kv => sset (fst kv) (inl (snd kv)) d) (p_form p) []).
  Definition flask_data (r : request) : payload :=
    if nonempty (p_file (r_p r)) then PTable (flask_table (r_p r))
    else if nonempty (p_body (r_p r)) then PData (data_of r)
    else PData (DForm (p_form (r_p r))).
  (** flask.py:22-80 *)
  Definition flask_request (security : option sec_info) (t : target) (b : str) (w : world)
    : world * res unit :=
    match ready security [lit "http"; lit "https"] b false false t w with
    | (w, Err e) => (w, Err e)
    | (w, Ok hs) =>
        let m := Msg (upper (t_method t)) (r_url (w_req w)) (p_query (r_p (w_req w))) hs
                     (flask_data (w_req w)) [] in
        deliver m (apply_all t) (set_wreq (exhaust (w_req w)) w)
    end.

  (** The client used. *)
  Inductive client := Requests | Tornado | Flask.
  Definition client_request (c : client) : option sec_info -> target -> str -> world -> world * res unit :=
    match c with
    | Requests => requests_request
    | Tornado => tornado_request
    | Flask => flask_request
    end.
End Clients.
