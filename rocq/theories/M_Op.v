(** Model of pyswagger/spec/v2_0/objects.py:247-291 (Operation.__call__) and
    pyswagger/io.py:340-408 (Response). *)
From Verif Require Import PyBase M_Client.

Section Call.
  (** [V]: argument values; [P]: what the primitive factory makes of them, with
      [urls c = Some (c.to_url())] if [c] is an Array and [show c = str(c)]. *)
  Context {V P : Type} (urls : P -> option (list str)) (show : P -> str).

  (** A finalised parameter: its fields, [is_set("default")] with the default, its type,
      the type of its items ([None]: [items] is None), and its [_prim_] with the
      operation's factory and ctx=dict(read=False). *)
  Record param := Param {
    q_name : str; q_in : str; q_required : bool; q_default : option V;
    q_type : option str; q_items : option (option str); q_prim : V -> res P }.
  (** objects.py:249.  An entry of params['file'] is a primitive, or a string if the
      (invalid) location 'file' is declared. *)
  Record pset := PSet {
    s_header : sdict str; s_query : list (str * str); s_path : sdict str; s_body : sdict P;
    s_form : list (str * str); s_file : sdict (P + str) }.
  Definition pset_empty : pset := PSet [] [] [] [] [] [].

  Definition set_sheader x s := PSet x (s_query s) (s_path s) (s_body s) (s_form s) (s_file s).
  Definition set_squery x s := PSet (s_header s) x (s_path s) (s_body s) (s_form s) (s_file s).
  Definition set_spath x s := PSet (s_header s) (s_query s) x (s_body s) (s_form s) (s_file s).
  Definition set_sbody x s := PSet (s_header s) (s_query s) (s_path s) x (s_form s) (s_file s).
  Definition set_sform x s := PSet (s_header s) (s_query s) (s_path s) (s_body s) x (s_file s).
  Definition set_sfile x s := PSet (s_header s) (s_query s) (s_path s) (s_body s) (s_form s) x.

  Definition type_is (t : option str) (s : str) : bool :=
    match t with Some t => str_eqb t s | None => false end.

  (** objects.py:265-279: put a converted parameter where it belongs.  [params[i]] is a
      KeyError for an unknown location; [params['query'][name] = ...] cannot be reached. *)
  Definition put (q : param) (c : P) (s : pset) : res pset :=
    if type_is (q_type q) (lit "file") then Ok (set_sfile (sset (q_name q) (inl c) (s_file s)) s)
    else if str_eqb (q_in q) (lit "query") || str_eqb (q_in q) (lit "formData") then
      let extend l s := if str_eqb (q_in q) (lit "query") then set_squery (s_query s ++ l) s
                        else set_sform (s_form s ++ l) s in
      match urls c with
      | Some us =>
          match q_items q with
          | None => Err AttributeError
          | Some t => if type_is t (lit "file") then Ok (set_sfile (sset (q_name q) (inl c) (s_file s)) s)
                      else Ok (extend (map (fun u => (q_name q, u)) us) s)
          end
      | None => Ok (extend [(q_name q, show c)] s)
      end
    else if str_eqb (q_in q) (lit "body") then Ok (set_sbody (sset (q_name q) c (s_body s)) s)
    else if str_eqb (q_in q) (lit "header") then Ok (set_sheader (sset (q_name q) (show c) (s_header s)) s)
    else if str_eqb (q_in q) (lit "path") then Ok (set_spath (sset (q_name q) (show c) (s_path s)) s)
    else if str_eqb (q_in q) (lit "file") then Ok (set_sfile (sset (q_name q) (inr (show c)) (s_file s)) s)
    else Err KeyError.

  (** objects.py:251-281 [_convert_parameter]; the second component is [names]. *)
  Definition convert (k : sdict V) (st : pset * list str) (q : param) : res (pset * list str) :=
    let go v := do c <- q_prim q v; do s <- put q c (fst st); Ok (s, snd st ++ [q_name q]) in
    match sget (q_name q) k, q_default q with
    | None, None => if q_required q then Err ValueError else Ok st
    | Some v, _ => go v
    | None, Some d => go d
    end.

  Fixpoint convert_all (k : sdict V) (ps : list param) (st : pset * list str) : res (pset * list str) :=
    match ps with
    | [] => Ok st
    | q :: ps => do st' <- convert k st q; convert_all k ps st'
    end.

  (** objects.py:283-291 *)
  Definition op_call (ps : list param) (k : sdict V) : res pset :=
    do st <- convert_all k ps (pset_empty, []);
    if forallb (fun kv => mem (fst kv) (snd st)) k then Ok (fst st) else Err ValueError.
End Call.

Section Response.
  (** [H]: header values, raw or converted ([text h]: its string, if it is one); [R]: raw
      bodies; [J]: decoded bodies; [D]: primitives made of them. *)
  Context {H R J D : Type} (text : H -> option str).
  (** [self.__op._mime_codec.unmarshal(content_type, raw, ...)] *)
  Context (unmarshal : str -> R -> res J).

  (** A finalised Response object: per declared header its [_prim_], and the schema's. *)
  Record rdecl := RDecl { rd_headers : sdict (H -> res H); rd_schema : option (J -> res D) }.
  (** io.py:344-357 *)
  Record resp := Resp {
    p_status : option Z; p_raw : option R; p_data : option D; p_hdr : cid (list H); p_rawonly : bool }.
  Definition resp_new : resp := Resp None None None cid_empty false.
  (** io.py:359-364; [raw_body_only] is kept *)
  Definition resp_reset (s : resp) : resp := Resp None None None cid_empty (p_rawonly s).
  (** io.py:410-414 *)
  Definition set_rawonly (b : bool) (s : resp) : resp :=
    Resp (p_status s) (p_raw s) (p_data s) (p_hdr s) b.

  (** io.py:387-388: [str(None)] is 'None' *)
  Definition status_text (s : option Z) : str :=
    match s with None => lit "None" | Some z => str_of_Z z end.
  Definition declared (rs : sdict rdecl) (s : option Z) : option rdecl :=
    match sget (status_text s) rs with Some r => Some r | None => sget (lit "default") rs end.

  (** io.py:366-373 [_convert_header] *)
  Definition convert_header (r : option rdecl) (hs : cid (list H)) (k : str) (v : H) : res (cid (list H)) :=
    do v' <- match r with
             | Some d => match sget k (rd_headers d) with Some f => f v | None => Ok v end
             | None => Ok v end;
    match cid_get k hs with
    | Ok l => (* self.__header[k].append(v) mutates the stored list; the key keeps its case *)
        Ok (map (fun e => if str_eqb (fst e) (lower k) then (fst e, (fst (snd e), l ++ [v'])) else e) hs)
    | Err _ => Ok (cid_set k [v'] hs)
    end.
  (** io.py:390-396: an exception leaves the headers added so far. *)
  Fixpoint convert_headers (r : option rdecl) (hs : cid (list H)) (l : list (str * H)) : cid (list H) * res unit :=
    match l with
    | [] => (hs, Ok tt)
    | (k, v) :: l => match convert_header r hs k v with
                     | Ok hs' => convert_headers r hs' l
                     | Err e => (hs, Err e)
                     end
    end.

  (** io.py:405-409: the first header whose name is content-type *)
  Fixpoint content_type (hs : cid (list H)) : res str :=
    match hs with
    | [] => Ok (lit "application/json")
    | (_, (k, v)) :: hs =>
        if str_eqb (lower k) (lit "content-type") then
          match v with
          | [] => Err IndexError
          | h :: _ => match text h with Some s => Ok (lower s) | None => Err AttributeError end
          end
        else content_type hs
    end.

  (** io.py:375-417 *)
  Definition apply_with (rs : sdict rdecl) (status : option Z) (raw : option R)
      (header : option (list (str * H))) (s : resp) : resp * res unit :=
    let st := match status with Some z => Some z | None => p_status s end in
    let r := declared rs st in
    let (hs, e) := convert_headers r (p_hdr s) (match header with Some l => l | None => [] end) in
    let s1 := Resp st (p_raw s) (p_data s) hs (p_rawonly s) in
    match e with
    | Err e => (s1, Err e)
    | Ok _ =>
        match raw with
        | None => (s1, Ok tt)
        | Some b =>
            let s2 := Resp st (Some b) (p_data s) hs (p_rawonly s) in
            match st with
            | None => (s2, Err GenericException)
            | Some _ =>
                match r with
                | Some (RDecl _ (Some prim)) =>
                    if p_rawonly s then (s2, Ok tt) else
                    match (do ct <- content_type hs; do j <- unmarshal ct b; prim j) with
                    | Ok d => (Resp st (Some b) (Some d) hs (p_rawonly s), Ok tt)
                    | Err e => (s2, Err e)
                    end
                | _ => (s2, Ok tt)
                end
            end
        end
    end.
End Response.
