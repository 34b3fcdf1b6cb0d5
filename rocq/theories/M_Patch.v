(** Model of completing operations from their document: the scanner [PatchObject]
    (pyswagger/scanner/v2_0/patch_obj.py:18-95), [final] (pyswagger/utils.py:275-276) and the
    schemes of an application (pyswagger/core.py:266-270, 321-327). *)
From Verif Require Import PyBase PyJson M_JsonPtr M_Url M_Scope M_SpecVal M_SpecTree M_Merge M_MergeRef.
Close Scope Q_scope.

(** The parts of an application that are read: [root], [url], [schemes], whether [version]
    is 1.2.  [scope_split] is called with the default separator (patch_obj.py:92). *)
Record papp := PApp { p_root : val; p_url : str; p_schemes : val; p_old : bool }.

(** [getattr(v, n)] for a field *)
Definition get (n : string) (v : val) : res val :=
  match v with VObj _ fs ints => attr fs ints n | _ => Err AttributeError end.
(** [len(v)] *)
Definition py_len (v : val) : res nat :=
  match v with
  | VStr s => Ok (length s)
  | VList l => Ok (length l)
  | VDict d => Ok (length d)
  | _ => Err TypeError
  end.
(** utils.py:275-276; an object is never false *)
Definition final (v : val) : val :=
  match v with
  | VObj _ fs ints => match attr fs ints "final"%string with Ok f => if falsy f then v else f | Err _ => v end
  | v => v
  end.
Definition is_swagger (v : val) : bool := same_class CSwagger v.

(** [x if len(own) == 0 else own] *)
Definition own_or (own x : val) : res val := do n <- py_len own; Ok (if n =? 0 then x else own).
(** patch_obj.py:23, 24 for one field *)
Definition inherit (root : val) (n : string) (v : val) : res val :=
  do own <- get n v;
  do d <- get n root;
  do x <- own_or own d;
  update_field n x v.
(** patch_obj.py:31-33.  Simplified: names that are lists or dicts are never equal. *)
Fixpoint name_in (n : val) (l : list val) : res bool :=
  match l with
  | [] => Ok false
  | q :: l => do m <- get "name" (final q); if elem_eqb n m then Ok true else name_in n l
  end.
(** patch_obj.py:29-35: the elements of [ps] that are appended to [l], one after the other *)
Fixpoint add_params (l ps : list val) : res (list val) :=
  match ps with
  | [] => Ok l
  | p :: ps =>
      do n <- get "name" (final p);
      do b <- name_in n l;
      add_params (if b then l else l ++ [p]) ps
  end.
(** [obj.parameters] changed in place *)
Definition put_params (l : list val) (v : val) : val :=
  match v with
  | VObj h fs ints => VObj h (sset (lit "parameters") (VList l) fs) ints
  | v => v
  end.
(** patch_obj.py:27-37.  Simplified: what is iterated over are lists, as they are in fields
    for lists of parameters. *)
Definition combine_params (parent v : val) : res val :=
  do own <- get "parameters" v;
  do more <- get "parameters" parent;
  if falsy own then update_field "parameters"%string more v
  else match own, more with
       | VList l, VList ps => do l <- add_params l ps; Ok (put_params l v)
       | _, _ => Err TypeError
       end.
(** patch_obj.py:18-52.  The codecs and factories that are attached as well are modelled
    elsewhere. *)
Definition patch_operation (a : papp) (parent : option val) (v : val) : res val :=
  do v <- (if is_swagger (p_root a) then do v <- inherit (p_root a) "produces" v; inherit (p_root a) "consumes" v else Ok v);
  do v <- match parent with Some p => combine_params p v | None => Ok v end;
  do own <- get "schemes" v;
  do s <- own_or own (p_schemes a);
  do v <- update_field "cached_schemes"%string s v;
  do sec <- get "security" v;
  match sec with
  | VNone => if is_swagger (p_root a) then do s <- get "security" (p_root a); update_field "security"%string s v else Ok v
  | _ => Ok v
  end.

(** patch_obj.py:60-61.  Simplified: a host that is neither empty nor a text is refused. *)
Definition host_of (a : papp) : res str :=
  do h <- get "host" (p_root a);
  do h <- (if falsy h then do u <- urlparse (p_url a); Ok (u_netloc u)
           else match h with VStr s => Ok s | _ => Err TypeError end);
  Ok (if nonempty h then h else lit "localhost").
(** patch_obj.py:62-67 *)
Definition url_of (a : papp) (k : str) : res str :=
  do host <- host_of a;
  do b <- get "basePath" (p_root a);
  do b <- (if falsy b then Ok [] else match b with VStr s => Ok s | _ => Err TypeError end);
  Ok (urlunparse (Url6 [] host (b ++ k) [] [] [])).
(** patch_obj.py:73-84 *)
Definition patch_method (base url : val) (k n : str) (v : val) : res val :=
  if same_class COperation v then
    do v <- update_field "base_path"%string base v;
    do v <- update_field "path"%string (VStr k) v;
    do v <- update_field "url"%string url v;
    update_field "method"%string (VStr n) v
  else Ok v.
Fixpoint patch_methods (base url : val) (k : str) (fs : sdict val) : res (sdict val) :=
  match fs with
  | [] => Ok []
  | (n, x) :: fs =>
      do x <- (if smem n (t_child CPathItem) then patch_method base url k n x else Ok x);
      do fs <- patch_methods base url k fs;
      Ok ((n, x) :: fs)
  end.
(** patch_obj.py:54-84; [path] is where the object is *)
Definition patch_path_item (a : papp) (path : str) (v : val) : res val :=
  match v with
  | VObj h fs ints =>
      let k := last (jp_split (Some path)) [] in
      do ub <- (if is_swagger (p_root a)
                then do u <- url_of a k; do b <- get "basePath" (p_root a); Ok (VStr u, b)
                else Ok (VNone, VNone));
      do fs <- patch_methods (snd ub) (fst ub) k fs;
      Ok (VObj h fs ints)
  | v => Ok v
  end.
(** patch_obj.py:86-95 *)
Definition patch_schema (a : papp) (path : str) (v : val) : res val :=
  if startswith path "#/definitions"%string then
    let t := last (jp_split (Some path)) [] in
    if p_old a then
      do l <- scope_split SCOPE_SEPARATOR (Some t);
      update_field "name"%string (match last l None with Some s => VStr s | None => VNone end) v
    else update_field "name"%string (VStr t) v
  else Ok v.
(** What the scanner does to one object *)
Definition patch_visit (a : papp) (parent : option val) (path : str) (v : val) : res val :=
  match v with
  | VObj h _ _ =>
      match h_cls h with
      | COperation => patch_operation a parent v
      | CPathItem => patch_path_item a path v
      | CSchema => patch_schema a path v
      | _ => Ok v
      end
  | v => Ok v
  end.
(** The scan over all objects inside a value (core.py:331).  The scanner changes the objects
    in place; here a changed copy is made.  Simplified: the parent of an object is the
    object that holds it (see C37), and if handlers fail for several objects, the first one
    in the order of the fields tells the exception.  A parameter that is shared afterwards
    is not changed by this scan. *)
Fixpoint patch (a : papp) (parent : option val) (path : str) (v : val) : res val :=
  match v with
  | VList l =>
      do l <- (fix go i l := match l with
                             | [] => Ok []
                             | x :: l => do y <- patch a parent (sub (str_of_nat i) path) x; do l' <- go (S i) l; Ok (y :: l')
                             end) 0 l;
      Ok (VList l)
  | VDict d =>
      do d <- (fix go d := match d with
                           | [] => Ok []
                           | (k, x) :: d => do y <- patch a parent (sub k path) x; do d' <- go d; Ok ((k, y) :: d')
                           end) d;
      Ok (VDict d)
  | VObj h fs ints =>
      do fs' <- (fix go d := match d with
                             | [] => Ok []
                             | (k, x) :: d => do y <- patch a (Some v) (sub k path) x; do d' <- go d; Ok ((k, y) :: d')
                             end) fs;
      patch_visit a parent path (VObj h fs' ints)
  | v => Ok v
  end.
(** core.py:266-270 and 321-327: the schemes of an application loaded from [url] *)
Definition app_schemes (url : str) (root : val) : res val :=
  do u <- urlparse url;
  let given := VList (if nonempty (u_scheme u) then [VStr (u_scheme u)] else []) in
  match root with
  | VObj _ fs ints =>
      match attr fs ints "schemes"%string with
      | Err _ => Ok given
      | Ok s => if falsy s then Ok given else do n <- py_len s; Ok s
      end
  | _ => Err AttributeError
  end.
(** core.py:321-331, up to PatchObject *)
Definition patch_app (url : str) (old : bool) (root : val) : res val :=
  do s <- app_schemes url root;
  patch (PApp root url s old) None (lit "#") root.
