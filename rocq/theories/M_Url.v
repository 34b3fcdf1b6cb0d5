(** Model of the URL helpers, pyswagger/utils.py:256-263, 299-424, 575-596, and of the
    parts of Python's urllib.parse and posixpath they call. *)
From Verif Require Import PyBase.

(** [s.split(c, 1)] / [s.find(c)] on a single character: what is before and after the
    first occurrence. *)
Fixpoint cut (c : ascii) (s : str) : option (str * str) :=
  match s with
  | [] => None
  | x :: s' => if Ascii.eqb x c then Some ([], s')
               else match cut c s' with
                    | Some (a, b) => Some (x :: a, b)
                    | None => None
                    end
  end.
(** [if c in s: a, b = s.split(c, 1)], else [s, ''] *)
Definition cut_or (c : ascii) (s : str) : str * str :=
  match cut c s with Some ab => ab | None => (s, []) end.
(** [s.rfind(c)]: what is before and after the last occurrence. *)
Fixpoint rcut (c : ascii) (s : str) : option (str * str) :=
  match s with
  | [] => None
  | x :: s' => match rcut c s' with
               | Some (a, b) => Some (x :: a, b)
               | None => if Ascii.eqb x c then Some ([], s') else None
               end
  end.
Definition has (c : ascii) (s : str) : bool := existsb (Ascii.eqb c) s.
(** Longest prefix of characters satisfying [f], and the rest. *)
Fixpoint span (f : ascii -> bool) (s : str) : str * str :=
  match s with
  | [] => ([], [])
  | x :: s' => if f x then (x :: fst (span f s'), snd (span f s')) else ([], s)
  end.

(** ** urllib.parse (CPython 3.11, Lib/urllib/parse.py).
    Not modelled: removal of leading control characters and of tab/CR/LF (URLs here
    have none), the check of the host inside brackets, and the NFKC check of a
    non-ASCII netloc. *)
Record url6 := Url6 {
  u_scheme : str; u_netloc : str; u_path : str; u_params : str; u_query : str; u_frag : str }.

Definition is_alpha (c : ascii) : bool :=
  let n := nat_of_ascii c in ((65 <=? n) && (n <=? 90)) || ((97 <=? n) && (n <=? 122)).
(** [scheme_chars] *)
Definition scheme_char (c : ascii) : bool :=
  is_alpha c || is_digit c || Ascii.eqb c "+" || Ascii.eqb c "-" || Ascii.eqb c ".".
Definition uses_params : list str := map lit
  [""; "ftp"; "hdl"; "prospero"; "http"; "imap"; "https"; "shttp"; "rtsp"; "rtsps"; "rtspu";
   "sip"; "sips"; "mms"; "sftp"; "tel"]%string.
Definition uses_netloc : list str := map lit
  [""; "ftp"; "http"; "gopher"; "nntp"; "telnet"; "imap"; "wais"; "file"; "mms"; "https";
   "shttp"; "snews"; "prospero"; "rtsp"; "rtsps"; "rtspu"; "rsync"; "svn"; "svn+ssh"; "sftp";
   "nfs"; "git"; "git+ssh"; "ws"; "wss"]%string.

(** The scheme part of [urlsplit]. *)
Definition split_scheme (url : str) : str * str :=
  match url, cut ":" url with
  | c :: _, Some (a, b) => if is_alpha c && forallb scheme_char a then (lower a, b) else ([], url)
  | _, _ => ([], url)
  end.
(** [_splitnetloc(url, 2)] on the text after ["//"] *)
Definition netloc_char (c : ascii) : bool :=
  negb (Ascii.eqb c "/" || Ascii.eqb c "?" || Ascii.eqb c "#").
Definition split_netloc (url : str) : res (str * str) :=
  match url with
  | "/"%char :: "/"%char :: rest =>
      let '(netloc, url) := span netloc_char rest in
      if xorb (has "[" netloc) (has "]" netloc) then Err ValueError else Ok (netloc, url)
  | _ => Ok ([], url)
  end.
(** [_splitparams] *)
Definition split_params (url : str) : str * str :=
  match rcut "/" url with
  | Some (d, l) => match cut ";" l with
                   | Some (a, b) => (d ++ "/"%char :: a, b)
                   | None => (url, [])
                   end
  | None => cut_or ";" url
  end.
Definition parse_params (scheme url : str) : str * str :=
  if mem scheme uses_params && has ";" url then split_params url else (url, []).
(** [urlparse(url)] *)
Definition urlparse (url : str) : res url6 :=
  let '(scheme, url) := split_scheme url in
  do nu <- split_netloc url;
  let '(netloc, url) := nu in
  let '(url, frag) := cut_or "#" url in
  let '(url, query) := cut_or "?" url in
  let '(path, params) := parse_params scheme url in
  Ok (Url6 scheme netloc path params query frag).

(** [urlunsplit] and [urlunparse] *)
Definition urlunsplit (scheme netloc url query frag : str) : str :=
  let url :=
    if nonempty netloc || (nonempty scheme && mem scheme uses_netloc) || startswith url "//"%string then
      let url := if nonempty url && negb (startswith url "/"%string) then "/"%char :: url else url in
      lit "//" ++ netloc ++ url
    else url in
  let url := if nonempty scheme then scheme ++ ":"%char :: url else url in
  let url := if nonempty query then url ++ "?"%char :: query else url in
  if nonempty frag then url ++ "#"%char :: frag else url.
Definition urlunparse (u : url6) : str :=
  let url := if nonempty (u_params u) then u_path u ++ ";"%char :: u_params u else u_path u in
  urlunsplit (u_scheme u) (u_netloc u) url (u_query u) (u_frag u).

Definition with_path (u : url6) (p : str) : url6 :=
  Url6 (u_scheme u) (u_netloc u) p (u_params u) (u_query u) (u_frag u).
Definition no_frag (u : url6) : url6 :=
  Url6 (u_scheme u) (u_netloc u) (u_path u) (u_params u) (u_query u) [].

(** ** posixpath *)
Fixpoint lstrip_slash (s : str) : str :=
  match s with "/"%char :: s' => lstrip_slash s' | _ => s end.
Definition rstrip_slash (s : str) : str := rev (lstrip_slash (rev s)).
(** [os.path.dirname] *)
Definition dirname (p : str) : str :=
  match rcut "/" p with
  | None => []
  | Some (d, _) =>
      let head := d ++ lit "/" in
      if forallb (Ascii.eqb "/") head then head else rstrip_slash head
  end.
(** [os.path.splitext(p)[1]]: the extension of the last component, leading dots of the
    component do not count. *)
Definition splitext (p : str) : str :=
  let base := match rcut "/" p with Some (_, l) => l | None => p end in
  match rcut "." base with
  | Some (a, b) => if forallb (Ascii.eqb ".") a then [] else "."%char :: b
  | None => []
  end.

(** ** pyswagger *)
Section Url.
  (** [path2url(os.path.abspath(p))] and [path2url(p)]: depend on the working
      directory and on pathlib. *)
  Context (abs_uri win_uri : str -> str).

  (** utils.py:310: the regular expression for a Windows drive *)
  Definition windows_path (s : str) : bool :=
    match s with
    | c :: ":"%char :: "\"%char :: _ => is_alpha c
    | _ => false
    end.

  (** utils.py:312-330 *)
  Definition normalize_url (url : str) : res str :=
    if negb (nonempty url) then Ok url
    else if windows_path url then Ok (win_uri url)
    else
      do p <- urlparse url;
      if negb (nonempty (u_scheme p)) then
        if negb (nonempty (u_netloc p)) && nonempty (u_path p) then Ok (abs_uri url)
        else Err ValueError
      else Ok url.

  (** utils.py:256-263 *)
  Definition jr_split (s : str) : res (str * str) :=
    do p <- urlparse s;
    do url <- normalize_url (urlunparse (no_frag p));
    Ok (url, if nonempty (u_frag p) then "#"%char :: u_frag p else lit "#").
End Url.

(** utils.py:332-343 *)
Definition url_dirname (url : str) : res str :=
  do p <- urlparse url;
  if endswith (u_path p) "json"%string || endswith (u_path p) "yaml"%string
  then Ok (urlunparse (with_path p (dirname (u_path p))))
  else Ok url.

(** utils.py:345-362 *)
Definition url_join (url path : str) : res str :=
  do p <- urlparse url;
  let t :=
    if endswith (u_path p) "/"%string then
      u_path p ++ (if startswith path "/"%string then skipn 1 path else path)
    else if startswith path "/"%string then u_path p ++ path
    else u_path p ++ "/"%char :: path in
  Ok (urlunparse (with_path p t)).

(** utils.py:405-424.  The loop over the segments; [newpath] is kept reversed. *)
Definition is_dots3 (c : str) : bool := (3 <=? length c) && forallb (Ascii.eqb ".") c.
Definition dot_step (newpath : list str) (chunk : str) : list str :=
  if str_eqb chunk "."%string then newpath
  else if str_eqb chunk ".."%string then tl newpath
  else if is_dots3 chunk then tl newpath
  else chunk :: newpath.
Definition clean_segments (l : list str) : list str := rev (fold_left dot_step l []).
Definition derelativise_url (url : str) : res str :=
  do p <- urlparse url;
  let newpath := clean_segments (split "/"%string (skipn 1 (u_path p))) in
  Ok (urlunparse (with_path p (lit "/" ++ join "/"%string newpath))).

(** utils.py:383-384 *)
Definition jr_parts (jr : str) : str * option str :=
  match cut "#" jr with Some (a, b) => (a, Some b) | None => (jr, None) end.
(** utils.py:364-400.  [jr] is [Some] reference; [url] may be [None].  With neither a
    path, nor a url, nor a '#' part the code evaluates ['#' + None]: TypeError. *)
Definition normalize_jr (jr : str) (url : option str) : res str :=
  let '(path, jp) := jr_parts jr in
  do path' <-
    (if nonempty path then
       do p <- urlparse path;
       match url with
       | Some u =>
           if negb (nonempty (u_scheme p)) && nonempty u then
             do pu <- urlparse u;
             do d <- derelativise_url
               (urlunparse (with_path pu (join "/"%string [dirname (u_path pu); path])));
             Ok (Some d)
           else Ok (Some path)
       | None => Ok (Some path)
       end
     else Ok url);
  match path' with
  | Some (c :: r) =>
      Ok (match jp with
          | Some (x :: y) => (c :: r) ++ "#"%char :: x :: y
          | _ => c :: r
          end)
  | _ => match jp with Some j => Ok ("#"%char :: j) | None => Err TypeError end
  end.

(** utils.py:575-596 on a POSIX system. *)
Definition valid_exts : list str := map lit [".json"; ".yaml"; ".yml"]%string.
Definition patch_path (base_path path : str) : str :=
  let ext := splitext base_path in
  let ext := if mem ext valid_exts then ext else [] in
  let ext := if nonempty ext then ext else splitext path in
  let ext := if mem ext valid_exts then ext else [] in
  let ext := if nonempty ext then ext else lit ".json" in
  if endswith path ext then path else path ++ ext.
