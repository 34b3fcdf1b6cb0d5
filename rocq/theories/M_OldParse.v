(** Model of parsing Swagger 1.2 documents: the contexts (pyswagger/spec/v1_2/parser.py:26-190),
    the constructors of [DataTypeObj] and [Resource] (pyswagger/spec/v1_2/objects.py:46-55,
    258-280) and what they use of pyswagger/spec/base.py.  If parsing a child raises, the
    contexts around it still make their objects on the way out and may raise in turn
    (base.py:100-116); the model keeps the first exception. *)
From Verif Require Import PyBase PyJson M_SpecVal M_Parse M_MergeRef M_Merge M_Patch M_Validate M_Url.
Close Scope Q_scope.

(** base.py:11-22 *)
Inductive octype := XOne | XList | XDict | XDictList.
(** [__swagger_child__]: parser.py:49-53, 68-76, 79-87, 90-98, 109-118, 121-125, 134-138,
    140-148, 157-165 *)
Definition o_child (c : ocls) : list (str * (octype * ocls)) :=
  match c with
  | OImplicit => [(lit "loginEndpoint", (XOne, OLoginEndpoint))]
  | OAuthorizationCode => [(lit "tokenRequestEndpoint", (XOne, OTokenRequestEndpoint)); (lit "tokenEndpoint", (XOne, OTokenEndpoint))]
  | OGrantType => [(lit "implicit", (XOne, OImplicit)); (lit "authorization_code", (XOne, OAuthorizationCode))]
  | OAuthorization => [(lit "scopes", (XList, OScope)); (lit "grantTypes", (XOne, OGrantType))]
  | OOperation => [(lit "authorizations", (XDictList, OAuthorizations)); (lit "parameters", (XList, OParameter));
                   (lit "responseMessages", (XList, OResponseMessage))]
  | OApi => [(lit "operations", (XList, OOperation))]
  | OModel => [(lit "properties", (XDict, OProperty))]
  | OResource => [(lit "apis", (XList, OApi)); (lit "models", (XDict, OModel))]
  | OResourceList => [(lit "info", (XOne, OInfo)); (lit "authorizations", (XDict, OAuthorization))]
  | _ => []
  end.

(** base.py:24-51 on what a context has gathered *)
Definition o_apply (ct : octype) (f : val -> res val) (v : val) : res val :=
  match ct with
  | XOne => container_apply One f v
  | XList => container_apply ListOf f v
  | XDict => container_apply DictOf f v
  | XDictList => container_apply DictOf (container_apply ListOf f) v
  end.
(** base.py:221-240 *)
Fixpoint o_assign (p : place) (t : list (str * (octype * ocls))) (fs : sdict val) : res (sdict val) :=
  match fs with
  | [] => Ok []
  | (n, v) :: fs =>
      do v' <- match sget n t with Some (ct, c) => o_apply ct (assign1 p (Of (COld c))) v | None => Ok v end;
      do fs' <- o_assign p t fs;
      Ok ((n, v') :: fs')
  end.

(** objects.py:46-55: what is given as items becomes an object, without a parent *)
Definition old_items (pl : place) (obj : sdict val) : res (sdict val) :=
  match sget (lit "items") obj with
  | None => Ok obj
  | Some v => if falsy v then Ok obj
              else match v with
                   | VDict d => do i <- produce (COld OItems) (pl ++ [lit "items"]) d; Ok (sset (lit "items") i obj)
                   | _ => Err ValueError
                   end
  end.
(** objects.py:266-277, the operations of one Api of the path [path].  Simplified: a nickname
    is a text (Python takes any key). *)
Fixpoint flat_ops (rp : place) (path : val) (ops : list val) (acc : sdict val) : res (sdict val) :=
  match ops with
  | [] => Ok acc
  | op :: ops =>
      do name <- get "nickname" op;
      match name with
      | VStr n => if smem n acc then Err ValueError
                  else do op' <- update_field (lit "path") path op;
                       flat_ops rp path ops (sset n (set_parent rp op') acc)
      | _ => Err TypeError
      end
  end.
(** objects.py:265-277 *)
Fixpoint flat_apis (rp : place) (apis : list val) (acc : sdict val) : res (sdict val) :=
  match apis with
  | [] => Ok acc
  | api :: apis =>
      do ops <- get "operations" api;
      do ops <- iterate ops;
      do path <- get "path" api;
      do acc <- flat_ops rp path ops acc;
      flat_apis rp apis acc
  end.
Definition is_data_type (c : ocls) : bool := match c with OParameter | OOperation | OProperty => true | _ => false end.
(** base.py:200-219, objects.py:46-55, 258-280: [obj] is what the context has gathered *)
Definition o_produce (c : ocls) (pl : place) (obj : sdict val) : res val :=
  do obj <- if is_data_type c then old_items pl obj else Ok obj;
  let fs := map (fun nd => (fst nd, match sget (fst nd) obj with Some v => v | None => inject (snd nd) end)) (o_fields c) in
  let ints := map (fun nd => (fst nd, VNone)) (t_internal (COld c)) in
  do fs <- o_assign pl (o_child c) fs;
  let v := VObj (Head (COld c) pl None (map fst obj)) fs ints in
  match c with
  | OResource =>
      match sget (lit "apis") fs with
      | Some (VList apis) => do d <- flat_apis pl apis []; update_field (lit "apis") (VDict d) v
      | _ => Err KeyError
      end
  | _ => Ok v
  end.

Section Step.
  Context (rec : ocls -> place -> json -> res val).
  (** base.py:24-51 with 130-143 and 156-161 *)
  Definition o_parse_list (c : ocls) (pl : place) (v : json) : res val :=
    do l <- iter_json v; do l <- mapi_res (fun i x => rec c (pl ++ [str_of_nat i]) x) 0 l; Ok (VList l).
  Definition o_parse_child (ct : octype) (c : ocls) (pl : place) (v : json) : res val :=
    let under (f : place -> json -> res val) :=
      match v with
      | JObj d => do d <- map_res (fun kv => do x <- f (pl ++ [fst kv]) (snd kv); Ok (fst kv, x)) d; Ok (VDict d)
      | _ => Err AttributeError
      end in
    match ct with
    | XOne => rec c pl v
    | XList => o_parse_list c pl v
    | XDict => under (rec c)
    | XDictList => under (o_parse_list c)
    end.
  (** base.py:145-162 *)
  Fixpoint o_parse_children (pl : place) (t : list (str * (octype * ocls))) (d : sdict json) : res (sdict val) :=
    match t with
    | [] => Ok []
    | (key, (ct, c)) :: t =>
        do kv <- match sget key d with
                 | None | Some JNull =>
                     Ok (match ct with XOne => [] | XList => [(key, VList [])] | _ => [(key, VDict [])] end)
                 | Some v => do x <- o_parse_child ct c (pl ++ [key]) v; Ok [(key, x)]
                 end;
        do r <- o_parse_children pl t d;
        Ok (kv ++ r)
    end.
  (** base.py:145-171: what a context has gathered from a JSON object *)
  Definition o_gather (c : ocls) (pl : place) (d : sdict json) : res (sdict val) :=
    do kids <- o_parse_children pl (o_child c) d;
    Ok (kids ++ map (fun kv => (fst kv, inject (snd kv))) (filter (fun kv => negb (smem (fst kv) kids)) d)).
  (** base.py:118-171 and then 100-116 *)
  Definition o_parse_step (c : ocls) (pl : place) (j : json) : res val :=
    match j with
    | JNull => o_produce c pl []
    | JObj d => do obj <- o_gather c pl d; o_produce c pl obj
    | _ => Err ValueError
    end.
End Step.
(** The contexts are nested at most four deep. *)
Fixpoint o_parsef (fuel : nat) (c : ocls) (pl : place) (j : json) : res val :=
  match fuel with
  | O => Err OutOfFuel
  | S fuel => o_parse_step (o_parsef fuel) c pl j
  end.
Definition o_parse : ocls -> place -> json -> res val := o_parsef 4.

Section Doc.
  (** [resolver.resolve(url, getter)] (M_Getter) *)
  Context (fetch : str -> res json).
  (** parser.py:171-175: [api['path']].  Simplified: the path must be a text. *)
  Definition api_path (api : json) : res str :=
    match api with
    | JObj d => match sget (lit "path") d with Some (JStr p) => Ok p | Some _ => Err TypeError | None => Err KeyError end
    | _ => Err TypeError
    end.
  (** parser.py:179-190 *)
  Fixpoint fetch_all (base : str) (paths : list str) (acc : sdict val) : res (sdict val) :=
    match paths with
    | [] => Ok acc
    | p :: paths =>
        do url <- url_join base (tl p);
        do j <- fetch url;
        do r <- o_parse OResource [lit "apis"; tl p] j;
        fetch_all base paths (sset (tl p) r acc)
    end.
  (** parser.py:168-190, then base.py:100-116 *)
  Definition parse_listing (root_url : str) (j : json) : res val :=
    match j with
    | JNull => Err TypeError
    | JObj d =>
        do obj <- o_gather o_parse OResourceList [] d;
        do paths <- match sget (lit "apis") d with
                    | None => Ok []
                    | Some (JList l) => map_res api_path l
                    | Some _ => Err TypeError
                    end;
        do base <- url_dirname root_url;
        do apis <- fetch_all base paths [];
        o_produce OResourceList [] (sset (lit "apis") (VDict apis) obj)
    | _ => Err ValueError
    end.
End Doc.
