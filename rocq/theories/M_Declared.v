(** Model of what [prim_factory.produce] (pyswagger/primitives/__init__.py:151-243, M_Prim.v) reads
    of the Parameter, Header and Items Objects of a prepared application
    (pyswagger/spec/v2_0/objects.py:27-61, 153-197).  The objects become the heap of M_Prim: an
    object, the Items Object in it, the Items Object in that one and so on. *)
From Coq Require Import QArith.
From Verif Require Import PyBase PyJson M_SpecVal M_Parse M_SpecTree M_Merge M_MergeRef M_Patch M_Time.
From Verif Require M_Prim.
Close Scope Q_scope.

(** A value of the document as an argument (objects.py:256: the default).  Objects stay what
    they are; they are never defaults. *)
Fixpoint value_of (v : val) : M_Prim.value :=
  match v with
  | VNone => M_Prim.VNull | VBool b => M_Prim.VBool b | VInt z => M_Prim.VInt z | VFloat q => M_Prim.VFloat q | VStr s => M_Prim.VStr s
  | VList l => M_Prim.VList (map value_of l)
  | VDict d => M_Prim.VDict (map (fun kv => (fst kv, value_of (snd kv))) d)
  | VObj _ _ _ => M_Prim.VOther 0
  end.

(** ** Fields
    As in M_Invoke, what is not of the type it has in a document is refused. *)
Definition opt_text (v : val) : res (option str) := match v with VNone => Ok None | VStr s => Ok (Some s) | _ => Err TypeError end.
Definition opt_number (v : val) : res (option Q) :=
  match v with VNone => Ok None | VInt z => Ok (Some (inject_Z z)) | VFloat q => Ok (Some q) | _ => Err TypeError end.
Definition opt_size (v : val) : res (option Z) := match v with VNone => Ok None | VInt z => Ok (Some z) | _ => Err TypeError end.
Definition opt_list (v : val) : res (list M_Prim.value) := match v with VNone => Ok [] | VList l => Ok (map value_of l) | _ => Err TypeError end.

(** objects.py:31-47, 54-56, 160-176, 190-193: the object [v], when the Items Object in it is [items].
    Only Parameter Objects have a name. *)
Definition view (items : option nat) (v : val) : res M_Prim.schema :=
  let text n := do x <- get n v; opt_text x in
  let number n := do x <- get n v; opt_number x in
  let size n := do x <- get n v; opt_size x in
  let flag n := do x <- get n v; Ok (negb (falsy x)) in
  do name <- (if same_class CParameter v then do n <- text "name"%string; Ok (Some n) else Ok None);
  do ty <- text "type"%string;
  do fmt <- text "format"%string;
  do d <- get "default" v;
  do mx <- number "maximum"%string;
  do xmx <- flag "exclusiveMaximum"%string;
  do mn <- number "minimum"%string;
  do xmn <- flag "exclusiveMinimum"%string;
  do mxl <- size "maxLength"%string;
  do mnl <- size "minLength"%string;
  do mxi <- size "maxItems"%string;
  do mni <- size "minItems"%string;
  do mul <- number "multipleOf"%string;
  do e <- get "enum" v; do e <- opt_list e;
  do un <- flag "uniqueItems"%string;
  do cf <- get "collectionFormat" v;
  do cf <- match cf with VStr s => Ok s | _ => Err TypeError end;
  Ok (M_Prim.Schema false name ty fmt items (value_of d) (match v with VObj h _ _ => is_set h (lit "default") | _ => false end)
        mx xmx mn xmn mxl mnl mxi mni mul e un (Some cf) None [] [] [] (M_Prim.ABool true) None false).
(** The object [v] and the Items Objects in it, from the position [i] on *)
Fixpoint declared (i : nat) (v : val) : res (list M_Prim.schema) :=
  match v with
  | VObj h fs ints =>
      do below <- (fix look (l : sdict val) :=
                     match l with
                     | [] => Err AttributeError
                     | (n, x) :: l => if str_eqb (lit "items") n
                                      then match x with VObj _ _ _ => declared (S i) x | VNone => Ok [] | _ => Err TypeError end
                                      else look l
                     end) fs;
      do s <- view (match below with [] => None | _ => Some (S i) end) (VObj h fs ints);
      Ok (s :: below)
  | _ => Err AttributeError
  end.

Section Declared.
  (** As in M_Prim *)
  Context (int_of : str -> res Z) (float_of : str -> res Q) (str_of : M_Prim.value -> str)
    (date_at : Q -> res (Z * Z * Z)) (datetime_at : Q -> res datetime) (uuid_of : str -> option Z) (email_ok : str -> bool).
  (** [prim_factory.produce(v, x, ctx=dict(read=read))].  Every call goes to an object further in,
      so that there are no more calls inside each other than objects. *)
  Definition produce_declared (read : bool) (v : val) (x : M_Prim.value) : res M_Prim.prim :=
    do h <- declared 0 v;
    do r <- M_Prim.produce int_of float_of str_of date_at datetime_at uuid_of email_ok h (S (length h)) 0 x (M_Prim.new_ctx read);
    Ok (fst r).
  (** The same for all objects, when [model] does it for Schema Objects (C25-C32) *)
  Context (model : bool -> val -> M_Prim.value -> res M_Prim.prim).
  Definition produce_any (read : bool) (v : val) (x : M_Prim.value) : res M_Prim.prim :=
    if same_class CSchema v then model read v x else produce_declared read v x.
End Declared.
