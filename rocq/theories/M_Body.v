(** Model of what [prim_factory.produce] (pyswagger/primitives/__init__.py:151-243, M_Prim.v) reads
    of the Schema Objects of a prepared application (pyswagger/spec/v2_0/objects.py:27-61, 63-92):
    the heap of M_Prim has all schemas the application knows and those of the given schema, which
    may be in a copy of a parameter or response that is part of no document (C57). *)
From Coq Require Import QArith.
From Verif Require Import PyBase PyJson M_Url M_SpecVal M_Parse M_SpecTree M_Merge M_MergeRef M_Patch M_Time M_App M_OldParse M_Upgrade M_Prepare M_Declared.
From Verif Require M_Prim.
Close Scope Q_scope.

Definition texts (v : val) : res (list str) :=
  match v with
  | VNone => Ok []
  | VList l => map_res (fun x => match x with VStr s => Ok s | _ => Err TypeError end) l
  | _ => Err TypeError
  end.
(** objects.py:31-47, 67-89: the schema [v], when the schemas it refers to and holds are those with
    these numbers.  As in M_Declared, what is not of the type it has in a document is refused. *)
Definition schema_view (ref items : option nat) (allof : list nat) (props : sdict nat) (addl : M_Prim.addp) (v : val) : res M_Prim.schema :=
  let text n := do x <- get n v; opt_text x in
  let number n := do x <- get n v; opt_number x in
  let size n := do x <- get n v; opt_size x in
  let flag n := do x <- get n v; Ok (negb (falsy x)) in
  do name <- (match v with VObj _ _ ints => match sget (lit "name") ints with Some x => opt_text x | None => Err AttributeError end | _ => Err AttributeError end);
  do ty <- text "type"%string;
  do fmt <- text "format"%string;
  do d <- get "default" v;
  do mx <- number "maximum"%string;
  do xmx <- flag "exclusiveMaximum"%string;
  do mn <- number "minimum"%string;
  do xmn <- flag "exclusiveMinimum"%string;
  do mxl <- size "maxLength"%string;
  do mnl <- size "minLength"%string;
  do mxi <- size "maxItems"%string;
  do mni <- size "minItems"%string;
  do mul <- number "multipleOf"%string;
  do e <- get "enum" v; do e <- opt_list e;
  do un <- flag "uniqueItems"%string;
  do req <- get "required" v; do req <- texts req;
  do disc <- text "discriminator"%string;
  do ro <- flag "readOnly"%string;
  Ok (M_Prim.Schema true (Some name) ty fmt items (value_of d) (match v with VObj h _ _ => is_set h (lit "default") | _ => false end)
        mx xmx mn xmn mxl mnl mxi mni mul e un None ref req allof props addl disc ro).

Section Body.
  (** As in M_Prepare *)
  Context (abs_uri win_uri : str -> str) (fetch : str -> res json) (prim : str -> bool) (number_text : str -> res Q) (sep : str) (fuel : nat).
  Notation solve := (resolvef abs_uri win_uri fetch (parse_listing fetch) (convert_doc prim number_text sep) as_given).
  (** The schema [v] of the document number [n]; [l] has all schemas.  As in M_Prepare the
      reference is looked up again. *)
  Definition schema_in (a : app) (l : list (nat * val)) (nv : nat * val) : res M_Prim.schema :=
    let (n, v) := nv in
    do r <- get "$ref" v;
    do r <- reference r;
    do ref <- match r with
              | None => Ok None
              | Some s => do o <- snd (solve fuel a (Some s) (Some CSchema)); do i <- number_of l (fst o) (snd o); Ok (Some i)
              end;
    do i <- get "items" v;
    do items <- match i with VObj _ _ _ => do k <- number_of l n i; Ok (Some k) | VNone => Ok None | _ => Err TypeError end;
    do i <- get "allOf" v;
    do allof <- match i with VList m => map_res (number_of l n) m | VNone => Ok [] | _ => Err TypeError end;
    do i <- get "properties" v;
    do props <- match i with VDict d => map_res (fun kx => do k <- number_of l n (snd kx); Ok (fst kx, k)) d | _ => Err TypeError end;
    do i <- get "additionalProperties" v;
    do addl <- match i with
               | VNone => Ok M_Prim.ANone
               | VBool b => Ok (M_Prim.ABool b)
               | VObj _ _ _ => do k <- number_of l n i; Ok (M_Prim.ASchema k)
               | _ => Err TypeError
               end;
    schema_view ref items allof props addl v.
  (** All schemas and the number of [v].  Simplified: schemas are looked at before they are needed,
      so that every one has to be in order.  The schema [v] gets places of its own, as the converted
      documents do in M_Prepare. *)
  Definition body_heap (a : app) (v : val) : res (list M_Prim.schema * nat) :=
    let own := S (a_loads a) in
    do l <- schemas_of (documents a ++ [(own, relocate [] v)]);
    do h <- map_res (schema_in a l) l;
    do i <- number_of l own (relocate [] v);
    Ok (h, i).

  (** As in M_Prim *)
  Context (int_of : str -> res Z) (float_of : str -> res Q) (str_of : M_Prim.value -> str)
    (date_at : Q -> res (Z * Z * Z)) (datetime_at : Q -> res datetime) (uuid_of : str -> option Z) (email_ok : str -> bool).
  (** [prim_factory.produce(v, x, ctx=dict(read=read))]; [limit] stands for the recursion limit. *)
  Definition produce_schema (a : app) (limit : nat) (read : bool) (v : val) (x : M_Prim.value) : res M_Prim.prim :=
    do hi <- body_heap a v;
    do r <- M_Prim.produce int_of float_of str_of date_at datetime_at uuid_of email_ok (fst hi) limit (snd hi) x (M_Prim.new_ctx read);
    Ok (fst r).
End Body.
