(** Model of CaseInsensitiveDict, nv_tuple_list_replace (pyswagger/utils.py:286-296,
    599-637), Security, BaseClient.prepare_schemes and BaseClient.compose_headers
    (pyswagger/core.py:452-608) and of the choice of scheme in Request.prepare
    (pyswagger/io.py:183-192). *)
From Verif Require Import PyBase M_Base64.

(** ** CaseInsensitiveDict: [_store] maps the lower-cased key to (key, value). *)
Definition cid (V : Type) := sdict (str * V).
(** utils.py:609-610 *)
Definition cid_empty {V} : cid V := [].
(** utils.py:612-613 *)
Definition cid_set {V} (k : str) (v : V) (d : cid V) : cid V := sset (lower k) (k, v) d.
(** utils.py:615-616 *)
Definition cid_get {V} (k : str) (d : cid V) : res V :=
  match sget (lower k) d with Some (_, v) => Ok v | None => Err KeyError end.
(** utils.py:618-619 *)
Definition cid_del {V} (k : str) (d : cid V) : res (cid V) :=
  if smem (lower k) d then Ok (sdel (lower k) d) else Err KeyError.
(** utils.py:621-622 and the mixin [items()] / utils.py:624-625 *)
Definition cid_keys {V} (d : cid V) : list str := map (fun kv => fst (snd kv)) d.
Definition cid_items {V} (d : cid V) : list (str * V) := map snd d.
(** [key in d]: Mapping.__contains__ tries [self[key]]. *)
Definition cid_mem {V} (k : str) (d : cid V) : bool := smem (lower k) d.
(** utils.py:633-634 *)
Definition cid_len {V} (d : cid V) : nat := length d.
(** MutableMapping.update with a mapping or list of pairs *)
Definition cid_update {V} (d : cid V) (l : list (str * V)) : cid V :=
  fold_left (fun acc kv => cid_set (fst kv) (snd kv) acc) l d.

(** One mutation of a CaseInsensitiveDict; a failing [del] leaves it unchanged. *)
Inductive cid_op (V : Type) := CSet (k : str) (v : V) | CDel (k : str).
Arguments CSet {V}. Arguments CDel {V}.
Definition cid_apply {V} (d : cid V) (o : cid_op V) : cid V :=
  match o with
  | CSet k v => cid_set k v d
  | CDel k => match cid_del k d with Ok d' => d' | Err _ => d end
  end.
Definition cid_run {V} (ops : list (cid_op V)) : cid V := fold_left cid_apply ops cid_empty.

(** ** nv_tuple_list_replace, utils.py:286-296 *)
Definition nv_replace {V} (l : list (str * V)) (v : str * V) : list (str * V) :=
  let l' := map (fun x => if str_eqb (fst x) (fst v) then v else x) l in
  if existsb (fun x => str_eqb (fst x) (fst v)) l then l' else l' ++ [v].

(** ** Security *)
(** The parts of a Security Scheme Object that are read. *)
Record sec_def := SecDef { sd_type : option str; sd_name : str; sd_in : option str }.
(** User supplied credentials: a token or a (user, password) pair. *)
Inductive cred := CTok (s : str) | CPair (user pass : str).
(** [__info]: name -> (header?, {key: cred}) *)
Definition sec_info := sdict (bool * (str * cred)).

(** ['{0}:{1}'.format( *security_info)]: a string is unpacked into its characters,
    too few of them is an IndexError. *)
Definition basic_text (c : cred) : res str :=
  match c with
  | CPair u p => Ok (u ++ ":"%char :: p)
  | CTok (a :: b :: _) => Ok [a; ":"%char; b]
  | CTok _ => Err IndexError
  end.

(** core.py:466-492.  [six.b] is Latin-1 encoding, the identity in this model.
    Simplification: an apiKey scheme always has a [name] (it is required). *)
Definition update_with (defs : sdict sec_def) (info : sec_info) (name : str) (c : cred)
  : res sec_info :=
  match sget name defs with
  | None => Err ValueError
  | Some s =>
      let is t := match sd_type s with Some x => str_eqb x t | None => false end in
      if is "basic"%string then
        do txt <- basic_text c;
        Ok (sset name (true, (lit "Authorization",
              CTok (lit "Basic " ++ standard_b64encode txt))) info)
      else if is "apiKey"%string then
        let header := match sd_in s with Some x => str_eqb x "header"%string | None => false end in
        Ok (sset name (header, (sd_name s, c)) info)
      else if is "oauth2"%string then
        Ok (sset name (true, (lit "access_token", c)) info)
      else Err ValueError
  end.

(** The parameters of a request that Security touches: [_p['header']] (a plain dict)
    and [_p['query']] (a list of pairs). *)
Record sec_req := SecReq { sr_header : sdict cred; sr_query : list (str * cred) }.

(** core.py:505-516 for one required name *)
Definition sec_apply1 (info : sec_info) (r : sec_req) (k : str) : sec_req :=
  match sget k info with
  | None => r
  | Some (true, (key, c)) => SecReq (sset key c (sr_header r)) (sr_query r)
  | Some (false, (key, c)) => SecReq (sr_header r) (nv_replace (sr_query r) (key, c))
  end.
(** core.py:494-518.  [security] is the operation's list of requirement objects, each
    given by its names in order ([None] or empty: nothing to do). *)
Definition sec_call (info : sec_info) (security : option (list (list str))) (r : sec_req)
  : sec_req :=
  match security with
  | None => r
  | Some reqs => fold_left (fun r names => fold_left (sec_apply1 info) names r) reqs r
  end.

(** ** Schemes *)
(** [sorted(l, reverse=True)] of distinct strings (insertion sort). *)
Fixpoint insert_desc (x : str) (l : list str) : list str :=
  match l with
  | [] => [x]
  | y :: l' => if str_leb y x then x :: l else y :: insert_desc x l'
  end.
Definition sort_desc (l : list str) : list str := fold_right insert_desc [] l.
(** [set(l)] *)
Fixpoint to_set (l : list str) : list str :=
  match l with
  | [] => []
  | x :: l' => if mem x l' then to_set l' else x :: to_set l'
  end.
(** core.py:558-569.  [client] is the class attribute [__schemes__] (a set). *)
Definition prepare_schemes (client : list str) (req_schemes : list str) : res (list str) :=
  let ret := sort_desc (filter (fun s => mem s client) (to_set req_schemes)) in
  match ret with [] => Err ValueError | _ => Ok ret end.

(** The [scheme] argument of Request.prepare. *)
Inductive scheme_arg := SchStr (s : str) | SchList (l : list str) | SchOther.
(** io.py:183-192.  [pop()] of an empty list is an IndexError. *)
Definition choose_scheme (preferred : option str) (a : scheme_arg) : res str :=
  match a with
  | SchStr s => Ok s
  | SchOther => Err ValueError
  | SchList l =>
      match preferred with
      | None => match rev l with x :: _ => Ok x | [] => Err IndexError end
      | Some p => if mem p l then Ok p else Err GenericException
      end
  end.

(** ** compose_headers *)
Inductive headers_arg :=
  HNone | HList (l : list (str * str)) | HDict (d : sdict str) | HOther.
Inductive headers_res :=
  RList (l : list (str * str)) | RDict (d : sdict str) | RCid (d : cid str).

(** [dict(list of pairs)] *)
Definition dict_of (l : list (str * str)) : sdict str := supdate [] l.

(** core.py:598-606: the join loop *)
Definition join_step (joined : sdict str) (h : str * str) : sdict str :=
  match sget (fst h) joined with
  | Some v => sset (fst h) (join ","%string [v; snd h]) joined
  | None => sset (fst h) (snd h) joined
  end.

(** core.py:571-608.  [HOther] is an object that is neither list nor dict and has no
    [update] method.  The in-place update of the caller's dict (line 584) is visible
    only through the returned dict in this model. *)
Definition compose_headers (req_header : cid str) (headers : headers_arg)
  (join_headers as_dict : bool) : res headers_res :=
  match headers with
  | HNone => Ok (if as_dict then RCid req_header else RList (cid_items req_header))
  | _ =>
      if as_dict && negb join_headers then
        match headers with
        | HList l => Ok (RDict (supdate (dict_of l) (cid_items req_header)))
        | HDict d => Ok (RDict (supdate d (cid_items req_header)))
        | _ => Err AttributeError
        end
      else
        do extra <- match headers with
                    | HList l => Ok l
                    | HDict d => Ok d
                    | _ => Err GenericException
                    end;
        let agg := cid_items req_header ++ extra in
        let agg := if join_headers then fold_left join_step agg [] else agg in
        Ok (if as_dict then RDict (dict_of agg) else RList agg)
  end.

(** A history of [update_with] calls on one Security object; a call that raises leaves
    [__info] as it was. *)
Definition upd_run (defs : sdict sec_def) (hist : list (str * cred)) : sec_info :=
  fold_left (fun info nc => match update_with defs info (fst nc) (snd nc) with
                            | Ok info' => info' | Err _ => info end) hist [].
