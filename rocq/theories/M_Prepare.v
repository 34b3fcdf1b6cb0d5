(** Model of preparing an application as a whole: [App.prepare] and [App.create]
    (pyswagger/core.py:195-231, 312-366) with the scanners in their order, [AssignParent]
    (pyswagger/scanner/v2_0/assign_parent.py:25-60), and the state that [Merge], [TypeReduce]
    and [CycleDetector] work on (pyswagger/scanner/v2_0/merge.py, scanner/type_reducer.py,
    scanner/cycle_detector.py). *)
From Verif Require Import PyBase PyJson M_JsonPtr M_Url M_Scope M_SpecVal M_Parse M_SpecTree M_Merge M_MergeRef M_App M_Patch M_Validate M_OldValidate M_OldParse M_Upgrade.
From Verif Require M_Graph M_Aggt.
Close Scope Q_scope.

(** ** Converted documents *)
(** An object is known by its place (M_SpecVal), but those made by the conversion are all made
    at the same one (M_Upgrade).  Here they get the places where they are found; there is no
    such step in Python. *)
Fixpoint relocate (pl : place) (v : val) : val :=
  match v with
  | VList l => VList ((fix go i l := match l with [] => [] | x :: l => relocate (pl ++ [str_of_nat i]) x :: go (S i) l end) 0 l)
  | VDict d => VDict ((fix go d := match d with [] => [] | (k, x) :: d => (k, relocate (pl ++ [k]) x) :: go d end) d)
  | VObj h fs ints =>
      VObj (Head (h_cls h) pl (h_parent h) (h_keys h))
           ((fix go d := match d with [] => [] | (k, x) :: d => (k, relocate (pl ++ [k]) x) :: go d end) fs) ints
  | v => v
  end.
(** assign_parent.py:30-60: the classes with a handler *)
Definition assigns (c : cls) : bool :=
  match c with CItems | CSchema | CParameter | CHeader | CResponse | COperation | CPathItem | CSwagger => true | _ => false end.
(** core.py:211.  The scanner changes the objects in place, here a changed copy is made.
    Simplified: if it fails for several objects, the innermost first one in the order of the
    fields tells the exception. *)
Fixpoint assign_parents (v : val) : res val :=
  match v with
  | VList l =>
      do l <- (fix go l := match l with
                           | [] => Ok []
                           | x :: l => do y <- assign_parents x; do l' <- go l; Ok (y :: l')
                           end) l;
      Ok (VList l)
  | VDict d =>
      do d <- (fix go d := match d with
                           | [] => Ok []
                           | (k, x) :: d => do y <- assign_parents x; do d' <- go d; Ok ((k, y) :: d')
                           end) d;
      Ok (VDict d)
  | VObj h fs ints =>
      do fs <- (fix go d := match d with
                            | [] => Ok []
                            | (k, x) :: d => do y <- assign_parents x; do d' <- go d; Ok ((k, y) :: d')
                            end) fs;
      do fs <- (if assigns (h_cls h) then assign_fields (h_place h) (t_child (h_cls h)) fs else Ok fs);
      Ok (VObj h fs ints)
  | v => Ok v
  end.
(** core.py:201-211 *)
Definition convert_doc (prim : str -> bool) (float_of : str -> res Q) (sep : str) (raw : val) : res val :=
  do v <- upgrade prim float_of sep raw;
  assign_parents (relocate [] v).

(** ** Changing the document in place *)
(** The value with [x] where [ts] leads to *)
Fixpoint put_at (ts : list str) (x v : val) : val :=
  match ts with
  | [] => x
  | t :: ts =>
      let here kv : str * val := if str_eqb (fst kv) t then (fst kv, put_at ts x (snd kv)) else kv in
      match v with
      | VObj h fs ints => VObj h (map here fs) ints
      | VDict d => VDict (map here d)
      | VList l => VList ((fix go i l := match l with
                                         | [] => []
                                         | y :: l => (if str_eqb (str_of_nat i) t then put_at ts x y else y) :: go (S i) l
                                         end) 0 l)
      | v => v
      end
  end.
(** The document is known to the cache as well (core.py:217-225, 319): it is one object. *)
Definition set_root (v : val) (a : app) : app :=
  match a_root a with
  | Some (n, _) =>
      let same (o : obj) : obj := if fst o =? n then (n, v) else o in
      App (map (fun kc => (fst kc, match snd kc with
                                   | Whole o => Whole (same o)
                                   | Parts d => Parts (map (fun ko => (fst ko, same (snd ko))) d)
                                   end)) (a_objs a)) (Some (n, v)) (a_old a) (a_loads a)
  | None => a
  end.
Definition root_of (a : app) : res val := match a_root a with Some (_, v) => Ok v | None => Err AttributeError end.

(** ** TypeReduce *)
(** type_reducer.py:20: [obj.tags[0] if obj.tags and len(obj.tags) > 0 else None].  Simplified: a
    first tag that is neither a text nor None is refused here, also when it is not used. *)
Definition first_tag (v : val) : res (option (list str)) :=
  if falsy v then Ok None
  else match v with
       | VList (VStr t :: _) => Ok (Some [t])
       | VList (VNone :: _) => Ok None
       | VStr (c :: _) => Ok (Some [[c]])
       | VDict _ => Err KeyError
       | _ => Err TypeError
       end.
(** type_reducer.py:21 *)
Definition op_id (v : val) : res (option str) :=
  if falsy v then Ok None else match v with VStr s => Ok (Some s) | _ => Err TypeError end.
(** What TypeReduce reads of a visited operation; the object is known by its pointer. *)
Definition tr_of (po : str * val) : res (list (tr_op str)) :=
  if same_class COperation (snd po) then
    do t <- get "tags" (snd po);
    do i <- get "operationId" (snd po);
    do t <- first_tag t;
    do i <- op_id i;
    Ok [TrOp t i (fst po)]
  else Ok [].
Fixpoint tr_ops (objs : list (str * val)) : res (list (tr_op str)) :=
  match objs with
  | [] => Ok []
  | po :: objs => do x <- tr_of po; do r <- tr_ops objs; Ok (x ++ r)
  end.

(** ** CycleDetector *)
(** What [_schema_out_obj] (cycle_detector.py:24-43) looks at in a schema *)
Fixpoint sch_of (v : val) : M_Graph.sch :=
  match v with
  | VObj _ fs _ =>
      let field (n : string) := (fix go d := match d with [] => [] | (k, x) :: d => if str_eqb k (lit n) then
                                   match x with
                                   | VList l => (fix each l := match l with [] => [] | y :: l => ([], sch_of y) :: each l end) l
                                   | VDict e => (fix each e := match e with [] => [] | (m, y) :: e => (m, sch_of y) :: each e end) e
                                   | VObj _ _ _ => [([], sch_of x)]
                                   | _ => []
                                   end else go d end) fs in
      M_Graph.Sch (field "properties"%string) (map snd (field "allOf"%string))
        (match field "additionalProperties"%string with (_, s) :: _ => Some s | [] => None end)
        (match field "items"%string with (_, s) :: _ => Some s | [] => None end)
        (match sget (lit "$ref") fs with Some (VStr r) => Some r | _ => None end)
  | _ => M_Graph.Sch [] [] None None None
  end.

(** A 1.2 object that is not converted, see [normalised].  There is no such object that is None
    (M_OldParse). *)
Definition as_given (v : val) : val := match v with VNone => VBool true | v => v end.

Section Prepare.
  Context (abs_uri win_uri : str -> str) (fetch : str -> res json).
  (** the primitive factory, [float] and the separator of the application *)
  Context (prim : str -> bool) (float_of : str -> res Q) (sep : str).
  Notation solve := (resolvef abs_uri win_uri fetch (parse_listing fetch) (convert_doc prim float_of sep) as_given).
  (** the recursion limit of resolving *)
  Context (fuel : nat).

  (** ** Merge *)
  (** An object that references lead to, told apart from those of other documents (M_App) by the
      number of its document *)
  Definition mark (n : nat) (v : val) : val :=
    match v with
    | VObj h fs ints => VObj (Head (h_cls h) (str_of_nat n :: h_place h) (h_parent h) (h_keys h)) fs ints
    | v => v
    end.
  (** merge.py:28-42 with the application that is changed by resolving *)
  Fixpoint follow_in (steps : nat) (c : cls) (a : app) (result : val) (guard : list place) (r : option str) : app * res val :=
    match r with
    | None => (a, Ok result)
    | Some s =>
        match steps with
        | O => (a, Err OutOfFuel)
        | S steps =>
            match solve fuel a (Some s) (Some c) with
            | (a, Err e) => (a, Err e)
            | (a, Ok (n, ro)) =>
                let ro := mark n ro in
                if negb (same_class c ro) then (a, Err TypeError)
                else if visited guard ro then (a, Ok result)
                else match (do result <- merge result ro []; do r <- ref_of ro; Ok (result, r)) with
                     | Err e => (a, Err e)
                     | Ok (result, r) => follow_in steps c a result (place_in ro ++ guard) r
                     end
            end
        end
    end.
  (** merge.py:18-43 for an object of the document; the new object is made at [pl] *)
  Definition merge_refs_in (a : app) (pl : place) (obj : val) : app * res val :=
    match obj, a_root a with
    | VObj h _ _, Some (n, _) =>
        match (do result <- fresh (h_cls h) pl; do result <- merge result obj []; do r <- ref_of obj; Ok (result, r)) with
        | Err e => (a, Err e)
        | Ok (result, r) => follow_in fuel (h_cls h) a result (place_in (mark n obj)) r
        end
    | _, _ => (a, Err AttributeError)
    end.
  (** merge.py:50-59: what becomes of a visited object *)
  Definition merge_obj_in (a : app) (obj : val) : app * res val :=
    match obj with
    | VObj h _ _ =>
        let pl := h_place h ++ [lit "final"] in
        match h_cls h with
        | CParameter | CResponse =>
            let (a, f) := merge_refs_in a pl obj in (a, do f <- f; update_field "final"%string f obj)
        | CPathItem =>
            let (a, f) := merge_refs_in a pl obj in (a, do f <- f; merge obj f [])
        | _ => (a, Ok obj)
        end
    | _ => (a, Ok obj)
    end.
  (** The visit of the object at [ts], as it is now *)
  Definition merge_at (a : app) (ts : list str) : app * res unit :=
    match (do v <- root_of a; do obj <- resolve v ts; Ok (v, obj)) with
    | Err e => (a, Err e)
    | Ok (v, obj) =>
        match merge_obj_in a obj with
        | (a, Err e) => (a, Err e)
        | (a, Ok x) => (set_root (put_at ts x v) a, Ok tt)
        end
    end.
  Fixpoint merge_each (a : app) (objs : list (str * val)) : app * res unit :=
    match objs with
    | [] => (a, Ok tt)
    | (path, _) :: objs =>
        match merge_at a (tl (jp_split (Some path))) with
        | (a, Err e) => (a, Err e)
        | (a, Ok _) => merge_each a objs
        end
    end.
  (** core.py:330.  The children of an object are taken before it is visited (scan.py:12-20), so
      the visited objects are those that were there before. *)
  Definition merge_scan (a : app) : app * res unit :=
    match (do v <- root_of a; traverse v []) with
    | Err e => (a, Err e)
    | Ok objs => merge_each a objs
    end.

  (** ** Aggregate *)
  (** All documents and parts the application knows *)
  Definition documents (a : app) : list obj :=
    flat_map (fun kc => match snd kc with Whole o => [o] | Parts d => map snd d end) (a_objs a).
  (** Their schemas, known by the number of the document and their place; parameters that are
      shared (M_Patch) are met twice. *)
  Fixpoint schemas_of (l : list obj) : res (list (nat * val)) :=
    match l with
    | [] => Ok []
    | (n, v) :: l =>
        do objs <- (match v with VObj _ _ _ => traverse v [] | _ => Ok [] end);
        do r <- schemas_of l;
        Ok (map (fun po => (n, snd po)) (filter (fun po => same_class CSchema (snd po)) objs) ++ r)
    end.
  Definition is_at (n : nat) (pl : place) (s : nat * val) : bool :=
    (fst s =? n) && match snd s with VObj h _ _ => place_eqb (h_place h) pl | _ => false end.
  (** The number of a schema: where it is met first *)
  Fixpoint number_of (l : list (nat * val)) (n : nat) (v : val) : res nat :=
    match l, v with
    | s :: l, VObj h _ _ => if is_at n (h_place h) s then Ok 0 else do i <- number_of l n v; Ok (S i)
    | _, _ => Err AttributeError
    end.
  (** The schema as in M_Aggt, with [ref_obj] as it was found by the scanner [Resolve].
      Simplified: a reference is looked up again. *)
  Definition node_of (a : app) (l : list (nat * val)) (nv : nat * val) : res M_Aggt.node :=
    let (n, v) := nv in
    match v with
    | VObj _ fs ints =>
        do plain <- map_res (fun nd => do x <- attr fs ints (fst nd); Ok (fst nd, x)) M_Aggt.plain_fields;
        do r <- attr fs ints (lit "$ref");
        do r <- reference r;
        do ref <- match r with
                  | None => Ok None
                  | Some s => do o <- snd (solve fuel a (Some s) (Some CSchema)); do i <- number_of l (fst o) (snd o); Ok (Some i)
                  end;
        do i <- attr fs ints (lit "items");
        do items <- match i with VObj _ _ _ => do k <- number_of l n i; Ok (Some k) | _ => Ok None end;
        do i <- attr fs ints (lit "allOf");
        do allof <- match i with VList m => map_res (number_of l n) m | _ => Ok [] end;
        do i <- attr fs ints (lit "properties");
        do props <- match i with VDict d => map_res (fun kx => do k <- number_of l n (snd kx); Ok (fst kx, k)) d | _ => Err AttributeError end;
        do i <- attr fs ints (lit "additionalProperties");
        do addl <- match i with VBool b => Ok (M_Aggt.ABool b) | VObj _ _ _ => do k <- number_of l n i; Ok (M_Aggt.AObj k) | _ => Ok (M_Aggt.ABool true) end;
        Ok (M_Aggt.Node plain ref None items allof props addl)
    | _ => Err AttributeError
    end.
  Definition heap_of (a : app) : res (list (nat * val) * M_Aggt.heap) :=
    do l <- schemas_of (documents a);
    do h <- map_res (node_of a l) l;
    Ok (l, h).
  (** core.py:332: the scan over the schemas of the document *)
  Definition aggregate_scan (a : app) (objs : list (str * val)) : res M_Aggt.heap :=
    do lh <- heap_of a;
    do n <- match a_root a with Some (n, _) => Ok n | None => Err AttributeError end;
    do ids <- map_res (fun po => number_of (fst lh) n (snd po)) (filter (fun po => same_class CSchema (snd po)) objs);
    M_Aggt.aggregate fuel (snd lh) ids.

  (** ** CycleDetector *)
  (** All references of schemas in what the application knows *)
  Definition known_refs (a : app) : res (list str) :=
    do l <- schemas_of (documents a);
    Ok (flat_map (fun nv => match snd nv with
                            | VObj _ fs _ => match sget (lit "$ref") fs with Some (VStr (c :: r)) => [c :: r] | _ => [] end
                            | _ => []
                            end) l).
  (** cycle_detector.py:45-47 for these and the visited schemas.  Simplified: a reference that
      cannot be resolved (there is none, because all have been resolved before) leads nowhere,
      and the application is not changed. *)
  Definition sch_table (a : app) (refs : list str) : sdict M_Graph.sch :=
    flat_map (fun r => match snd (solve fuel a (Some r) (Some CSchema)) with
                       | Ok (_, v) => [(r, sch_of v)]
                       | Err _ => []
                       end) refs.
  (** core.py:335-337.  Only the cycles of schemas are looked at (core.py:349). *)
  Definition find_cycles (a : app) (objs : list (str * val)) : res (list (list str)) :=
    let paths := map fst (filter (fun po => same_class CSchema (snd po)) objs) in
    do refs <- known_refs a;
    M_Graph.detect fuel (sch_table a (paths ++ refs)) paths [].

  (** ** prepare *)
  Record prepared := Prepared {
    pr_app : app;                    (* with [root] *)
    pr_errors : list report;         (* what [validate] found *)
    pr_schemes : val;
    pr_op : sdict str;               (* [op]: pointers of operations *)
    pr_m : sdict val;
    pr_heap : M_Aggt.heap;
    pr_cycles : list (list str) }.
  (** core.py:234-258: the rules for the version of the document *)
  Definition raw_errors (raw : @loaded val) (root : val) : res (list report) :=
    match raw with Old o => validate12 o | New _ => validate20 root end.
  (** core.py:340-344 *)
  Definition models (root : val) : sdict val :=
    match root with
    | VObj _ fs ints => match attr fs ints "definitions"%string with Ok (VDict d) => d | _ => [] end
    | _ => []
    end.
  (** core.py:319-351; [a] after [prepare_obj].  A 2.0 document is validated with its references
      completed, because [raw] is the object that has been changed. *)
  Definition prepare (url : str) (strict : bool) (raw : @loaded val) (a : app) : res prepared :=
    do root <- root_of a;
    do errors <- validate (raw_errors raw root) strict;
    do schemes <- app_schemes url root;
    match merge_scan a with
    | (_, Err e) => Err e
    | (a, Ok _) =>
        do root <- root_of a;
        do root <- patch (PApp root url schemes (a_old a)) None (lit "#") root;
        let a := set_root root a in
        do objs <- traverse root [];
        do heap <- aggregate_scan a objs;
        do l <- tr_ops objs;
        do op <- type_reduce sep [] l;
        do cycles <- find_cycles a objs;
        do _ <- M_Graph.prepare_cycle_check strict cycles;
        Ok (Prepared a errors schemes op (models root) heap cycles)
    end.
  (** core.py:353-366 *)
  Definition create_app (url : str) (strict : bool) : res prepared :=
    do u <- normalize_url abs_uri win_uri url;
    do ov <- load_obj fetch (parse_listing fetch) u None;
    do a <- create abs_uri win_uri fetch (parse_listing fetch) (convert_doc prim float_of sep) as_given fuel url;
    prepare u strict (fst ov) a.
End Prepare.
