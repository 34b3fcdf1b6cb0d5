(** Model of loading documents and resolving references: [get_swagger_version]
    (pyswagger/utils.py:426-437), [App.load_obj], [App.prepare_obj], [App.resolve]
    (pyswagger/core.py:163-231, 368-423) and the scanners [NormalizeRef] and [Resolve]
    (pyswagger/scanner/v2_0/norm_ref.py, resolve.py). *)
From Verif Require Import PyBase PyJson M_JsonPtr M_Url M_SpecVal M_Parse M_SpecTree M_Merge M_MergeRef.
Close Scope Q_scope.

(** utils.py:426-437 on what a document holds: [None] without a version.  A value that is
    no dict has neither attribute. *)
Definition version_of (j : json) : res (option json) :=
  match j with
  | JObj d => Ok (match sget (lit "swaggerVersion") d with
                  | Some v => Some v
                  | None => sget (lit "swagger") d
                  end)
  | _ => Err AttributeError
  end.
(** [version == s] *)
Definition is_version (v : option json) (s : string) : bool :=
  match v with Some (JStr t) => str_eqb t (lit s) | _ => false end.
(** [version == None] *)
Definition no_version (v : option json) : bool :=
  match v with None | Some JNull => true | _ => false end.

(** ** NormalizeRef *)
(** norm_ref.py:21 *)
Definition refers_by (c : cls) : bool :=
  match c with CSchema | CParameter | CResponse | CPathItem => true | _ => false end.
(** utils.py:379-400 on what is in a field: only [None] and texts have a [find] or are
    passed over. *)
Definition norm_field (url : str) (v : val) : res val :=
  match v with
  | VNone => Ok VNone
  | VStr s => do t <- normalize_jr s (Some url); Ok (VStr t)
  | _ => Err AttributeError
  end.
(** norm_ref.py:22-23, for all objects inside a value.  The scanner changes the objects in
    place; here a changed copy is made.  Simplified: if several references cannot be
    normalised, the first one in the order of the fields tells the exception. *)
Fixpoint norm_refs (url : str) (v : val) : res val :=
  match v with
  | VList l =>
      do l <- (fix go l := match l with
                           | [] => Ok []
                           | x :: l => do y <- norm_refs url x; do l' <- go l; Ok (y :: l')
                           end) l;
      Ok (VList l)
  | VDict d =>
      do d <- (fix go d := match d with
                           | [] => Ok []
                           | (k, x) :: d => do y <- norm_refs url x; do d' <- go d; Ok ((k, y) :: d')
                           end) d;
      Ok (VDict d)
  | VObj h fs ints =>
      do fs <- (fix go d := match d with
                            | [] => Ok []
                            | (k, x) :: d => do y <- norm_refs url x; do d' <- go d; Ok ((k, y) :: d')
                            end) fs;
      if refers_by (h_cls h) then
        match sget (lit "$ref") fs with
        | Some r => do r <- norm_field url r; update_field (lit "$ref") r (VObj h fs ints)
        | None => Err AttributeError
        end
      else Ok (VObj h fs ints)
  | v => Ok v
  end.

(** ** The cache *)
(** An object is known by the number of the load it came with; its value tells the place
    inside what was loaded. *)
Definition obj : Type := nat * val.
(** core.py:52-55: what is known of a document *)
Inductive cached := Whole (o : obj) | Parts (d : sdict obj).
(** [a_old]: the application was loaded from a 1.2 document. *)
Record app := App { a_objs : sdict cached; a_root : option obj; a_old : bool; a_loads : nat }.

(** core.py:395-398 *)
Fixpoint in_parts (d : sdict obj) (jp : str) : res (option obj) :=
  match d with
  | [] => Ok None
  | (k, (n, v)) :: d =>
      if prefixb k jp
      then do x <- resolve v (tl (jp_split (Some (skipn (length k) jp)))); Ok (Some (n, x))
      else in_parts d jp
  end.
(** core.py:390-400; [None] is an object that is not found *)
Definition lookup (a : app) (url jp : str) : res (option obj) :=
  do o <- match sget url (a_objs a) with
          | None => Ok None
          | Some (Whole (n, v)) => do x <- resolve v (tl (jp_split (Some jp))); Ok (Some (n, x))
          | Some (Parts d) => in_parts d jp
          end;
  Ok (match o with Some (_, VNone) => None | o => o end).
(** core.py:216-225 *)
Definition store (a : app) (url jp : str) (o : obj) : res app :=
  let put c := App (sset url c (a_objs a)) (a_root a) (a_old a) (S (a_loads a)) in
  match sget url (a_objs a) with
  | None => Ok (put (if str_eqb jp (lit "#") then Whole o else Parts [(jp, o)]))
  | Some (Whole _) => Err GenericException
  | Some (Parts d) => Ok (put (Parts (sset jp o d)))
  end.
(** core.py:418-423: what is returned for a found object, the proxy standing for the object
    itself.  There are no proxies for floats. *)
Definition answer (o : obj) : res obj :=
  match snd o with
  | VNone => Err ValueError
  | VFloat _ => Err TypeError
  | _ => Ok o
  end.
(** resolve.py:16-26, the references to be resolved in the order of the scan *)
Definition schema_refs (v : val) : res (list str) :=
  do l <- traverse v [];
  Ok (flat_map (fun po => match snd po with
                          | VObj h fs _ => if cls_eqb (h_cls h) CSchema
                                           then match sget (lit "$ref") fs with Some (VStr (c :: r)) => [c :: r] | _ => [] end
                                           else []
                          | _ => []
                          end) l).

Section App.
  Context (abs_uri win_uri : str -> str).
  (** The application's resolver (M_Getter): what a reference leads to in the document.
      Simplified: it does not depend on the time of the call. *)
  Context (fetch : str -> res json).
  (** Swagger 1.2 objects, their parser (with the reference, to fetch the resources), the
      upgrade to 2.0, and the value that stands for such an object that is not upgraded.
      None of these is modelled here. *)
  Context {old : Type} (parse_old : str -> json -> res old) (upgrade : old -> res val) (as_is : old -> val).

  Inductive loaded := Old (o : old) | New (v : val).
  (** core.py:163-193, with the parser of a class or none.  The object and its version
      (always 2.0 for the objects of a class). *)
  Definition load_obj (jref : str) (parser : option cls) : res (loaded * str) :=
    do j <- fetch jref;
    do v <- version_of j;
    if is_version v "1.2" then do o <- parse_old jref j; Ok (Old o, lit "1.2")
    else if is_version v "2.0" then do o <- parse (Of CSwagger) [] j; Ok (New o, lit "2.0")
    else match parser with
         | Some c => if no_version v then do o <- parse (Of c) [] j; Ok (New o, lit "2.0") else Err NotImplementedError
         | None => Err NotImplementedError
         end.

  (** core.py:201-215.  Without 1.2 objects the upgrade makes nothing (upgrade.py:292-293).
      The scan of YamlFixer changes nothing in a document whose keys are texts (M_Yaml).
      Objects that are still 1.2 have no fields to be normalised. *)
  Definition normalised (a : app) (o : loaded) (url : str) : res val :=
    match a_old a, o with
    | true, New _ => Err GenericException
    | true, Old o => do v <- upgrade o; norm_refs url v
    | false, New v => norm_refs url v
    | false, Old o => Ok (as_is o)
    end.
  (** core.py:227-229: there are no schemas in 1.2 *)
  Definition to_resolve (a : app) (o : loaded) (v : val) : res (list str) :=
    match a_old a, o with
    | false, Old _ => Ok []
    | _, _ => schema_refs v
    end.

  Section Rec.
    (** [app.resolve(r, SchemaContext)] *)
    Context (rec : app -> str -> app * res obj).
    (** resolve.py:16-27; ReferenceError is no special exception here *)
    Fixpoint pre_resolve (a : app) (refs : list str) : app * res unit :=
      match refs with
      | [] => (a, Ok tt)
      | r :: refs =>
          match rec a r with
          | (a, Err e) => (a, Err e)
          | (a, Ok (_, ro)) =>
              if falsy ro then (a, Err GenericException)
              else if same_class CSchema ro then pre_resolve a refs
              else (a, Err TypeError)
          end
      end.
    (** core.py:195-231 *)
    Definition prepare_obj (a : app) (o : loaded) (jref : str) : app * res obj :=
      match (do uj <- jr_split abs_uri win_uri jref;
             do v <- normalised a o (fst uj);
             do a' <- store a (fst uj) (snd uj) (a_loads a, v);
             do refs <- to_resolve a o v;
             Ok (a', v, refs)) with
      | Err e => (a, Err e)
      | Ok (a', v, refs) =>
          match pre_resolve a' refs with
          | (a', Ok _) => (a', Ok (a_loads a, v))
          | (a', Err e) => (a', Err e)
          end
      end.
    (** core.py:368-423 *)
    Definition resolve_step (a : app) (jref : option str) (parser : option cls) : app * res obj :=
      match jref with
      | None | Some [] => (a, Err ValueError)
      | Some jref =>
          match (do uj <- jr_split abs_uri win_uri jref; do o <- lookup a (fst uj) (snd uj); Ok (uj, o)) with
          | Err e => (a, Err e)
          | Ok (_, Some o) => (a, answer o)
          | Ok ((url, jp), None) =>
              if nonempty url then
                match load_obj jref parser with
                | Err e => (a, Err e)
                | Ok (o, _) =>
                    match prepare_obj a o jref with
                    | (a, Err e) => (a, Err e)
                    | (a, Ok o) => (a, answer o)
                    end
                end
              else if negb (startswith jp "#"%string) then (a, Err ValueError)
              else match a_root a with
                   | None => (a, Err AttributeError)
                   | Some (n, v) =>
                       match resolve v (tl (jp_split (Some jp))) with
                       | Err e => (a, Err e)
                       | Ok x => (a, answer (n, x))
                       end
                   end
          end
      end.
  End Rec.
  Fixpoint resolvef (fuel : nat) (a : app) (jref : option str) (parser : option cls) : app * res obj :=
    match fuel with
    | O => (a, Err OutOfFuel)
    | S fuel => resolve_step (fun a r => resolvef fuel a (Some r) (Some CSchema)) a jref parser
    end.
  (** core.py:31-33, 428-440: [App.s(p, b)] for a base [b], the beginning expected of a path and
      a pointer.  The default base is the one for the paths of the document. *)
  Definition paths_base : str * str := (lit "/", lit "#/paths").
  Definition shortcut (fuel : nat) (a : app) (p : str) (b : str * str) : app * res obj :=
    let p := if nonempty (fst b) then if prefixb (fst b) p then p else fst b ++ p else p in
    resolvef fuel a (jp_compose (JPStr p) (Some (snd b))) None.
  (** core.py:283-300 and 333: [App.load(url)] and the beginning of [prepare].  What [prepare]
      does afterwards (validation, merging, patching, composing) is modelled elsewhere. *)
  Definition create (fuel : nat) (url : str) : res app :=
    do url <- normalize_url abs_uri win_uri url;
    do ov <- load_obj url None;
    match prepare_obj (fun a r => resolvef fuel a (Some r) (Some CSchema)) (App [] None (str_eqb (snd ov) (lit "1.2")) 0) (fst ov) url with
    | (a, Ok o) => Ok (App (a_objs a) (Some o) (a_old a) (a_loads a))
    | (_, Err e) => Err e
    end.
  (** A history of calls; exceptions are caught by the caller. *)
  Fixpoint calls (fuel : nat) (a : app) (l : list (option str * option cls)) : app :=
    match l with
    | [] => a
    | (j, p) :: l => calls fuel (fst (resolvef fuel a j p)) l
    end.
End App.
