(** Model of the getters (pyswagger/getter.py) and of the cache of raw documents
    (pyswagger/resolve.py), on a POSIX system. *)
From Verif Require Import PyBase PyInt PyJson M_JsonPtr M_Url.
Close Scope Q_scope.

(** [os.path.join(a, b)] *)
Definition path_join (a b : str) : str :=
  if startswith b "/"%string then b
  else if negb (nonempty a) || endswith a "/"%string then a ++ b
  else a ++ "/"%char :: b.
Definition is_upper (c : ascii) : bool := let n := nat_of_ascii c in (65 <=? n) && (n <=? 90).
(** getter.py:71: [re.match('^/[A-Z]+:', path)] *)
Definition drive (p : str) : bool :=
  match p with
  | "/"%char :: s => match span is_upper s with (_ :: _, ":"%char :: _) => true | _ => false end
  | _ => false
  end.
(** consts/private.py:12-21 *)
Definition file_names : list str := map lit ["resource_list.json"; "swagger.json"; "swagger.yaml"; "swagger.yml"]%string.
Definition file_exts : list str := map lit ["json"; "yaml"; "yml"]%string.

Section Local.
  (** [os.path.isfile], [os.path.abspath] *)
  Context (isfile : str -> bool) (abspath : str -> str).
  (** getter.py:68-72: the path to look at *)
  Definition local_path (path : str) : res str :=
    do path <- (if startswith path "file://"%string then do p <- urlparse path; Ok (u_path p) else Ok path);
    Ok (if drive path then abspath (skipn 1 path) else path).
  (** getter.py:74-82: base path and file by a well-known name; [base] is the path as given *)
  Fixpoint by_name (base path : str) (names : list str) : option (str * str) :=
    match names with
    | [] => None
    | n :: names =>
        if endswith base n then Some (dirname base, path)
        else if isfile (path_join path n) then Some (base, path_join path n)
        else by_name base path names
    end.
  (** getter.py:98-102 *)
  Fixpoint by_ext (base path : str) (exts : list str) : option (str * str) :=
    match exts with
    | [] => None
    | e :: exts => if isfile (path ++ "."%char :: e) then Some (base, path ++ "."%char :: e) else by_ext base path exts
    end.
  (** getter.py:65-104: base path and file of a [LocalGetter] *)
  Definition locate (given : str) : res (str * str) :=
    do path <- local_path given;
    match by_name given path file_names with
    | Some r => Ok r
    | None =>
        if existsb (endswith (splitext path)) file_exts then Ok (dirname path, path)
        else match by_ext given path file_exts with
             | Some r => Ok r
             | None => Err ValueError
             end
    end.
  (** getter.py:106-110: the file that is opened *)
  Definition opens (given : str) : res str := do r <- locate given; Ok (patch_path (fst r) (snd r)).
End Local.

Section Load.
  (** [json.loads], [yaml.load] *)
  Context (json_loads yaml_load : str -> res json).
  (** getter.py:43-50 for a text: what does not follow the format is an [Exception] *)
  Definition decode (text : str) : res json :=
    match (if startswith text "{"%string then json_loads text else yaml_load text) with
    | Err ValueError => Err GenericException
    | r => r
    end.
  (** getter.py:28-52, 106-115, once: what a [LocalGetter] loads.  [read]: the content of a file. *)
  Definition local_next (isfile : str -> bool) (abspath : str -> str) (read : str -> res str) (given : str) : res json :=
    do file <- opens isfile abspath given;
    do text <- read file;
    decode text.
End Load.

(** ** resolve.py *)
(** Getters: classes and instances, by name. *)
Inductive getter := GClass (n : str) | GInstance (n : str).
(** Where a document is got from: an instance, a class called with a URL, or a local file. *)
Inductive source := FromInstance (n : str) | FromClass (n url : str) | FromFile (path : str).
Definition json_falsy (j : json) : bool :=
  match j with
  | JNull | JBool false | JStr [] | JList [] | JObj [] => true
  | JInt z => Z.eqb z 0
  | JFloat q => Qeq_bool q 0
  | _ => false
  end.
(** [obj[int(t)]] for a list *)
Definition list_item (l : list json) (t : str) : res json :=
  do z <- py_int t;
  let i := if (z <? 0)%Z then (z + Z.of_nat (length l))%Z else z in
  if (i <? 0)%Z then Err IndexError
  else match nth_error l (Z.to_nat i) with Some x => Ok x | None => Err IndexError end.
(** resolve.py:66-75 *)
Fixpoint json_walk (obj : json) (ts : list str) : res json :=
  match ts with
  | [] => Ok obj
  | t :: ts =>
      do x <- match obj with
              | JList l => list_item l t
              | JObj d => match sget t d with Some x => Ok x | None => Err KeyError end
              | _ => Err GenericException
              end;
      json_walk x ts
  end.

Section Resolver.
  Context (abs_uri win_uri : str -> str).
  (** resolve.py:22-37 *)
  Context (hook : option (str -> str)) (default : option getter).
  (** What a source gives; it may depend on what has been got before. *)
  Definition log := list (str * source * res json).
  Context (fetch : log -> source -> res json).
  (** The cache, and everything that has been got so far, with the URL it was got for. *)
  Record rstate := RState { r_cache : sdict json; r_log : log }.

  (** resolve.py:52-62 *)
  Definition source_of (g : option getter) (local_url : str) : res source :=
    match g with
    | Some (GInstance n) => Ok (FromInstance n)
    | Some (GClass n) => Ok (FromClass n local_url)
    | None =>
        do p <- urlparse local_url;
        if str_eqb (u_scheme p) "file"%string && nonempty (u_path p) then Ok (FromFile (path_join (u_netloc p) (u_path p)))
        else match default with
             | Some (GInstance n) => Ok (FromInstance n)
             | Some (GClass n) => Ok (FromClass n local_url)
             | None => Ok (FromClass "UrlGetter"%string local_url)
             end
    end.
  (** resolve.py:39-79.  Documents that are empty are cached as [None], which is as good as
      not at all. *)
  Definition rresolve (st : rstate) (jref : str) (g : option getter) : rstate * res json :=
    match jr_split abs_uri win_uri jref with
    | Err e => (st, Err e)
    | Ok (url, jp) =>
        let local_url := match hook with Some f => f url | None => url end in
        let ts := skipn 1 (jp_split (Some jp)) in
        match sget url (r_cache st) with
        | Some doc => (st, json_walk doc ts)
        | None =>
            match source_of g local_url with
            | Err e => (st, Err e)
            | Ok src =>
                let r := fetch (r_log st) src in
                let log := r_log st ++ [(url, src, r)] in
                match r with
                | Err e => (RState (r_cache st) log, Err e)
                | Ok doc =>
                    if json_falsy doc then (RState (r_cache st) log, Err GenericException)
                    else (RState (sset url doc (r_cache st)) log, json_walk doc ts)
                end
            end
        end
    end.
  Definition rinit : rstate := RState [] [].
  Fixpoint rrun (st : rstate) (calls : list (str * option getter)) : rstate :=
    match calls with [] => st | (r, g) :: calls => rrun (fst (rresolve st r g)) calls end.
End Resolver.
