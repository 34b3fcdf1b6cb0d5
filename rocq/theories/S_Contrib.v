(** Specification of what a client sends for a request (C56). *)
From Verif Require Import PyBase M_Client S_Client M_Request S_Request M_Op M_Contrib.

(** [u] is [s] in capital letters. *)
Definition in_capitals (s u : str) : Prop :=
  lower u = lower s /\ forall c, In c u -> ~ (97 <= nat_of_ascii c <= 122).

(** The headers of a message under one (exact) name, in order. *)
Definition sent_values (n : str) (h : headers_res) : list str :=
  values_of n match h with RList l => l | RDict d => d | RCid d => cid_items d end.

Section Clients.
  Context {B : Type} (marshal : str -> B -> res str) (disk : str -> res str).
  Notation request := (request (B:=B)).

  (** Which clients leave the files to the HTTP library, and which want a header table. *)
  Definition own_files (c : client) : bool := match c with Tornado => true | _ => false end.
  Definition header_table (c : client) : bool := match c with Requests => true | _ => false end.

  (** The request as its API presents it after [reset], the security, [prepare] with the
      schemes that client and operation share, and [_patch]. *)
  Definition made_ready (c : client) (security : option sec_info) (sec : option (list (list str)))
      (schemes : list str) (b : str) (o : opts) (r r' : request) : Prop :=
    exists l r1 r2,
      r1 = match security with Some info => fst (secure info sec (reset r)) | None => reset r end /\
      prepare_schemes [lit "http"; lit "https"] schemes = Ok l /\
      prepare marshal disk b (SchList l) (own_files c) r1 = (r2, Ok tt) /\
      patch (o_netloc o) (o_scheme o) r2 = (r', Ok tt).

  (** A file of the request as an upload: name, declared content type, content. *)
  Definition uploaded (kf : str * file) (u : upload) : Prop :=
    u_field u = fst kf /\ u_filename u = f_name (snd kf) /\
    u_type u = sget (lit "Content-Type") (f_header (snd kf)) /\
    match f_data (snd kf) with
    | Stream rest text => u_content u = Some (rest, text)
    | OnDisk => exists c, disk (f_name (snd kf)) = Ok c /\ u_content u = Some (c, false)
    end.
  (** The same for flask: no content type, and files that are on disk have no content. *)
  Definition stored (k : str) (f : file) (u : upload) : Prop :=
    u_field u = k /\ u_filename u = f_name f /\ u_type u = None /\
    match f_data f with
    | Stream rest text => u_content u = Some (rest, text)
    | OnDisk => u_content u = None
    end.
  (** flask's table: per name the files if there are some, else the last form field. *)
  Definition field_table (p : params (B:=B)) (t : sdict (str + list upload)) : Prop :=
    NoDup (map fst t) /\
    forall n, match last_option (map snd (filter (fun g => str_eqb (fst g) n) (p_file p))) with
              | Some fs => exists us, sget n t = Some (inr us) /\ Forall2 (stored n) fs us
              | None => sget n t = option_map inl (last_option (values_of n (p_form p)))
              end.

  (** The data of the prepared request is handed over as it is. *)
  Definition prepared_data (r : request) (m : message) : Prop :=
    exists d, r_data r = Some d /\ m_payload m = PData d.
  (** The body, as prepared or in the library's own form. *)
  Definition body_sent (c : client) (r : request) (m : message) : Prop :=
    match c with
    | Requests => prepared_data r m /\
                  Forall2 uploaded (all_files (p_file (r_p r))) (m_files m)
    | Tornado => prepared_data r m /\ m_files m = []
    | Flask => m_files m = [] /\
        match p_file (r_p r), p_body (r_p r) with
        | [], [] => m_payload m = PData (DForm (p_form (r_p r)))
        | [], _ => prepared_data r m
        | _, _ => exists t, m_payload m = PTable t /\ field_table (r_p r) t
        end
    end.

  (** [m] is what client [c] must send for request [r] with the caller's options and
      headers. *)
  Definition faithful (c : client) (security : option sec_info) (method : str) (sec : option (list (list str)))
      (schemes : list str) (b : str) (r : request) (o : opts) (hs : headers_arg) (m : message) : Prop :=
    exists r' h,
      made_ready c security sec schemes b o r r' /\
      header_texts (r_header r') = Ok h /\
      in_capitals method (m_method m) /\
      m_url m = r_url r' /\
      m_query m = p_query (r_p r') /\
      compose_headers h hs (o_join o) (header_table c) = Ok (m_headers m) /\
      body_sent c r' m.
End Clients.

(** The header [n] of the request and its text: the credential configured for it, else
    the header parameter. *)
Definition header_given (info : sec_info) (sec : option (list (list str))) (params : sdict cred) (n v : str) : Prop :=
  last_configured info true (req_names sec) n (CTok v) \/
  (not_configured info true (req_names sec) n /\ sget n params = Some (CTok v)).
(** No header of the request is called [n] in another spelling. *)
Definition only_spelling (info : sec_info) (sec : option (list (list str))) (params : sdict cred) (n : str) : Prop :=
  forall n', same_name n n' -> n' <> n ->
    sget n' params = None /\ not_configured info true (req_names sec) n'.
