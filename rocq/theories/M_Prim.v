(** Model of pyswagger/primitives: the factory [Primitive.produce]
    (__init__.py:21-252), the creators and second passes of _int.py, _float.py,
    _str.py, _bool.py, comm.py, and the classes Byte, Date, Datetime, UUID, File,
    Array and Model.  [register] and [get] with other handlers are in M_Registry.v. *)
From Coq Require Import QArith Qround.
From Verif Require Import PyBase M_Graph M_Quote M_Time.
Close Scope Q_scope.
Open Scope nat_scope.

(** ** Python values given to [produce]: what JSON can carry plus bytes, dates, uuids
    and other objects (known by identity, e.g. a file object).  Lists stand for lists
    and tuples; floats are rationals (no rounding, NaN or infinities). *)
Inductive value :=
| VNull | VBool (b : bool) | VInt (z : Z) | VFloat (q : Q) | VStr (s : str)
| VBytes (s : str) | VDate (y m d : Z) | VDatetime (d : datetime) | VUuid (z : Z) | VOther (n : nat)
| VList (l : list value) | VDict (d : sdict value).

Definition vnum (v : value) : option Q :=
  match v with
  | VBool b => Some (if b then 1%Q else 0%Q) | VInt z => Some (inject_Z z) | VFloat q => Some q
  | _ => None
  end.
Definition datetime_eqb (a b : datetime) : bool :=
  ((year a =? year b) && (month a =? month b) && (day a =? day b) && (hour a =? hour b) &&
   (minute a =? minute b) && (second a =? second b) && (micro a =? micro b))%Z &&
  match tz a, tz b with Some x, Some y => (x =? y)%Z | None, None => true | _, _ => false end.
(** [a == b].  Simplified: datetimes are equal when their fields are (CPython compares
    aware datetimes after shifting to UTC). *)
Fixpoint v_eqb (a b : value) : bool :=
  match a, b with
  | VNull, VNull => true
  | VStr s, VStr t => str_eqb s t
  | VBytes s, VBytes t => str_eqb s t
  | VDate y m d, VDate y' m' d' => ((y =? y') && (m =? m') && (d =? d'))%Z
  | VDatetime d, VDatetime e => datetime_eqb d e
  | VUuid z, VUuid w => (z =? w)%Z
  | VOther n, VOther m => Nat.eqb n m
  | VList l, VList m =>
      (fix go l m := match l, m with
                     | [], [] => true
                     | x :: l, y :: m => v_eqb x y && go l m
                     | _, _ => false
                     end) l m
  | VDict d, VDict e =>
      Nat.eqb (length d) (length e) &&
      (fix go d := match d with
                   | [] => true
                   | (k, x) :: d => match sget k e with Some y => v_eqb x y | None => false end && go d
                   end) d
  | _, _ => match vnum a, vnum b with Some p, Some q => Qeq_bool p q | _, _ => false end
  end.
(** [x in l] *)
Definition v_in (x : value) (l : list value) : bool := existsb (v_eqb x) l.
Definition is_null (v : value) : bool := match v with VNull => true | _ => false end.
(** [bool(v)] *)
Definition truthy (v : value) : bool :=
  match v with
  | VNull => false | VBool b => b | VInt z => negb (z =? 0)%Z | VFloat q => negb (Qeq_bool q 0)
  | VStr s | VBytes s => nonempty s
  | VList l => nonempty l | VDict d => nonempty d
  | _ => true
  end.

(** ** Primitives: what [produce] returns.  [PNone] is None; [PArray] keeps its
    collection format; [PRaw] is an input value stored unchanged in a Model
    (additionalProperties: true). *)
Inductive prim :=
| PNone | PBool (b : bool) | PInt (z : Z) | PFloat (q : Q) | PStr (s : str)
| PByte (s : str) | PDate (y m d : Z) | PDatetime (d : datetime) | PUuid (z : Z)
| PFile (header data filename : value)
| PArray (fmt : str) (l : list prim)
| PModel (m : sdict prim)
| PRaw (v : value).

(** [not ret], __init__.py:225,232,236: a Model is a dict, an Array a list. *)
Definition falsy (r : prim) : bool :=
  match r with
  | PNone => true | PBool b => negb b | PInt z => (z =? 0)%Z | PFloat q => Qeq_bool q 0
  | PStr s => negb (nonempty s) | PArray _ l => negb (nonempty l) | PModel m => negb (nonempty m)
  | PRaw v => negb (truthy v)
  | _ => false
  end.
(** [hasattr(ret, 'apply_with')] *)
Definition has_apply (r : prim) : bool :=
  match r with
  | PByte _ | PDate _ _ _ | PDatetime _ | PUuid _ | PFile _ _ _ | PArray _ _ | PModel _ => true
  | _ => false
  end.

(** ** Schema, Items, Parameter and Header objects (spec/v2_0/objects.py:27-92, 153-197).
    Objects live in a heap and are known by their position. *)
Notation sid := nat (only parsing).
Inductive addp := ANone | ABool (b : bool) | ASchema (o : sid).
Record schema := Schema {
  s_full : bool;                   (* a Schema Object: the only one with the last eight fields *)
  s_name : option (option str);    (* None: no such attribute (Items, Header) *)
  s_type : option str; s_format : option str;
  s_items : option sid;
  s_default : value; s_default_set : bool;
  s_max : option Q; s_exmax : bool; s_min : option Q; s_exmin : bool;
  s_maxlen : option Z; s_minlen : option Z;
  s_maxitems : option Z; s_minitems : option Z;
  s_multiple : option Q;
  s_enum : list value;
  s_unique : bool;
  s_cf : option str;               (* None: no such attribute (Schema) *)
  s_ref : option sid;
  s_required : list str; s_allof : list sid; s_props : sdict sid; s_addp : addp;
  s_disc : option str; s_readonly : bool }.

Definition empty_schema : schema :=
  Schema true (Some None) None None None VNull false None false None false None None None None None [] false None
    None [] [] [] (ABool true) None false.
Notation heap := (list schema) (only parsing).
Definition sch (h : heap) (o : sid) : schema := nth o h empty_schema.
(** The references of the heap, for [deref] (utils.py:265-273, M_Graph.v). *)
Fixpoint refs_from (i : nat) (h : heap) : ref_heap :=
  match h with
  | [] => []
  | s :: h => match s_ref s with Some r => (i, r) :: refs_from (S i) h | None => refs_from (S i) h end
  end.
Definition deref_s (h : heap) (o : sid) : res sid := do r <- deref (refs_from 0 h) o []; Ok (fst r).

(** The functions of the second pass that a handler may name. *)
Inductive second := S2Int | S2Float | S2Str | S2Email | S2Obj.
Inductive cls := CByte | CDate | CDatetime | CUuid | CFile | CArray | CModel.
Inductive creator := CrInt | CrFloat | CrStr | CrBool | CrObj (c : cls).

(** [ctx], __init__.py:164-183.  [c_name]: None = key absent. *)
Record ctx := Ctx {
  c_name : option (option str); c_guard : list sid; c_addp : bool; c_addps : option sid;
  c_2nd : option second; c_read : bool }.
(** A call without ctx, or with only 'read' given. *)
Definition new_ctx (read : bool) : ctx := Ctx None [] false None None read.
Definition set_name (n : option (option str)) (c : ctx) : ctx :=
  Ctx (match c_name c with Some x => Some x | None => n end) (c_guard c) (c_addp c) (c_addps c) (c_2nd c) (c_read c).
Definition set_guard (g : list sid) (c : ctx) := Ctx (c_name c) g (c_addp c) (c_addps c) (c_2nd c) (c_read c).
Definition set_addp (b : bool) (c : ctx) := Ctx (c_name c) (c_guard c) b (c_addps c) (c_2nd c) (c_read c).
Definition set_addps (o : option sid) (c : ctx) := Ctx (c_name c) (c_guard c) (c_addp c) o (c_2nd c) (c_read c).
Definition set_2nd (f : option second) (c : ctx) := Ctx (c_name c) (c_guard c) (c_addp c) (c_addps c) f (c_read c).

(** ** The default handler table, __init__.py:28-97: [get(_type, _format)].  In every
    type the handler for an unknown format is the one for None. *)
Definition get (ty fmt : option str) : option creator * option second :=
  match ty with
  | None => (None, None)
  | Some t =>
    let f := match fmt with Some f => f | None => [] end in
    if str_eqb t "integer"%string then (Some CrInt, Some S2Int)
    else if str_eqb t "number"%string then
      if str_eqb f "int32"%string || str_eqb f "int64"%string then (Some CrInt, Some S2Int) else (Some CrFloat, Some S2Float)
    else if str_eqb t "string"%string then
      if str_eqb f "email"%string then (Some CrStr, Some S2Email)
      else if str_eqb f "uuid"%string then (Some (CrObj CUuid), Some S2Obj)
      else if str_eqb f "byte"%string || str_eqb f "binary"%string then (Some (CrObj CByte), Some S2Obj)
      else if str_eqb f "date"%string then (Some (CrObj CDate), Some S2Obj)
      else if str_eqb f "date-time"%string then (Some (CrObj CDatetime), Some S2Obj)
      else (Some CrStr, Some S2Str)
    else if str_eqb t "boolean"%string then (Some CrBool, None)
    else if str_eqb t "file"%string then (Some (CrObj CFile), Some S2Obj)
    else if str_eqb t "array"%string then (Some (CrObj CArray), Some S2Obj)
    else if str_eqb t "object"%string then (Some (CrObj CModel), Some S2Obj)
    else (None, None)
  end.

(** comm.py:14-28 *)
Definition min_max (o : schema) (v : Q) (is_max : bool) : res unit :=
  match (if is_max then s_max o else s_min o) with
  | None => Ok tt
  | Some n =>
      let le a b := Qle_bool a b in
      let lt a b := negb (Qle_bool b a) in
      let to_raise := if is_max then (if s_exmax o then le n v else lt n v)
                      else (if s_exmin o then le v n else lt v n) in
      if to_raise then Err ValidationError else Ok tt
  end.
(** [r % m != 0]: [r] is not an integer multiple of [m] (exact arithmetic, m <> 0) *)
Definition not_multiple (r m : Q) : bool :=
  negb (Qeq_bool (inject_Z (Qfloor (r / m)) * m)%Q r).
(** [n and ...]: None and 0 both skip the check *)
Definition given (n : option Z) : option Z := match n with Some z => if (z =? 0)%Z then None else Some z | None => None end.

Section Prim.
  (** Parts of Python that are not modelled: [int(s)], [float(s)] of a string or bytes,
      [str(v)] of something that is not a string, [datetime.fromtimestamp],
      [uuid.UUID(s)] and the external validate_email package. *)
  Context (int_of : str -> res Z) (float_of : str -> res Q) (str_of : value -> str)
    (date_at : Q -> res (Z * Z * Z)) (datetime_at : Q -> res datetime)
    (uuid_of : str -> option Z) (email_ok : str -> bool).
  Context (h : heap).

  (** _int.py:5-9.  A comparison of a string with a number raises TypeError. *)
  Definition num_of (r : prim) : option Q :=
    match r with PInt z => Some (inject_Z z) | PFloat q => Some q
               | PBool b => Some (if b then 1%Q else 0%Q) | _ => None end.
  Definition has_bound (o : schema) : bool :=
    match s_min o, s_max o with None, None => false | _, _ => true end.
  Definition validate_int (o : schema) (r : prim) : res unit :=
    match num_of r with
    | Some q => do _ <- min_max o q false; min_max o q true
    | None => if has_bound o then Err TypeError else Ok tt
    end.
  (** _float.py:5-11 *)
  Definition validate_float (o : schema) (r : prim) : res unit :=
    do _ <- validate_int o r;
    match s_multiple o with
    | Some m => if Qeq_bool m 0 then Ok tt
                else match num_of r with
                     | Some q => if not_multiple q m then Err ValidationError else Ok tt
                     | None => Err TypeError
                     end
    | None => Ok tt
    end.
  Definition len_z {A} (l : list A) : Z := Z.of_nat (length l).
  (** [ret in obj.enum] for a primitive without apply_with *)
  Definition plain (r : prim) : value :=
    match r with PBool b => VBool b | PInt z => VInt z | PFloat q => VFloat q | PStr s => VStr s | _ => VNull end.
  (** _str.py:7-16 *)
  Definition validate_str (o : schema) (r : prim) : res unit :=
    if nonempty (s_enum o) && negb (v_in (plain r) (s_enum o)) then Err ValidationError else
    match r with
    | PStr s =>
        do _ <- (match given (s_maxlen o) with
                 | Some n => if (n <? len_z s)%Z then Err ValidationError else Ok tt | None => Ok tt end);
        match given (s_minlen o) with
        | Some n => if (len_z s <? n)%Z then Err ValidationError else Ok tt | None => Ok tt end
    | _ => match given (s_maxlen o), given (s_minlen o) with None, None => Ok tt | _, _ => Err TypeError end
    end.
  (** _str.py:26-30 *)
  Definition validate_email (r : prim) : res unit :=
    match r with
    | PStr s => if email_ok s then Ok tt else Err ValidationError
    | _ => Err TypeError
    end.

  (** [int(v)], [float(v)] *)
  Definition to_int_v (v : value) : res Z :=
    match v with
    | VInt z => Ok z | VBool b => Ok (if b then 1 else 0)%Z
    | VFloat q => Ok (Z.quot (Qnum q) (Zpos (Qden q)))
    | VStr s | VBytes s => int_of s
    | _ => Err TypeError
    end.
  Definition to_float_v (v : value) : res Q :=
    match v with
    | VInt z => Ok (inject_Z z) | VBool b => Ok (if b then 1 else 0)%Q
    | VFloat q => Ok q
    | VStr s | VBytes s => float_of s
    | _ => Err TypeError
    end.
  Definition to_str_v (v : value) : str := match v with VStr s => s | _ => str_of v end.

  (** The creators: _int.py:11-14, _float.py:13-16, _str.py:18-24, _bool.py:4-5,
      comm.py:42-43 (an object not yet filled in). *)
  Definition create (cr : creator) (o : schema) (v : value) : res prim :=
    match cr with
    | CrInt => do z <- to_int_v v; do _ <- validate_int o (PInt z); Ok (PInt z)
    | CrFloat => do q <- to_float_v v; do _ <- validate_float o (PFloat q); Ok (PFloat q)
    | CrStr => let s := to_str_v v in do _ <- validate_str o (PStr s); Ok (PStr s)
    | CrBool => Ok (PBool (truthy v))
    | CrObj CByte => Ok (PByte []) | CrObj CDate => Ok (PDate 0 0 0)
    | CrObj CDatetime => Ok (PDatetime (DT 0 0 0 0 0 0 0 None)) | CrObj CUuid => Ok (PUuid 0)
    | CrObj CFile => Ok (PFile VNull VNull VNull)
    | CrObj CArray => Ok (PArray "csv"%string []) | CrObj CModel => Ok (PModel [])
    end.

  (** _byte.py:10-20 *)
  Definition byte_of (v : value) : res str :=
    match v with VBytes s => Ok s | VStr s => Ok (utf8 s) | _ => Err ValueError end.
  (** _time.py:24-38.  In Python a datetime is a date, so it is kept as it is: such a Date
      is represented by [PDatetime] (the same value and the same text, _time.py:11-17). *)
  Definition date_of (v : value) : res prim :=
    match v with
    | VFloat q => do x <- date_at q; let '(y, m, d) := x in Ok (PDate y m d)
    | VDate y m d => Ok (PDate y m d)
    | VDatetime d => Ok (PDatetime d)
    | VStr s => do x <- date_of_text s; let '(y, m, d) := x in Ok (PDate y m d)
    | _ => Err ValueError end.
  (** _time.py:45-58 *)
  Definition datetime_of (v : value) : res datetime :=
    match v with
    | VFloat q => datetime_at q | VDatetime d => Ok d | VStr s => datetime_of_text s | _ => Err ValueError end.
  (** _uuid.py:16-33; [uuid.UUID(bytes=b)] wants 16 bytes, and asserts they are bytes *)
  Definition uuid_bytes (s : str) : res Z :=
    if Nat.eqb (length s) 16
    then Ok (fold_left (fun acc c => acc * 256 + Z.of_N (N_of_ascii c))%Z s 0%Z) else Err ValueError.
  Definition uuid_val (v : value) : res Z :=
    match v with
    | VUuid z => Ok z
    | VStr s => match uuid_of s with
                | Some z => Ok z
                | None => if Nat.eqb (length s) 16 then Err GenericException else Err ValueError
                end
    | VBytes s => uuid_bytes s
    | _ => Err ValueError
    end.
  (** _file.py:8-32 *)
  Definition file_of (v : value) : res prim :=
    match v with
    | VDict d =>
        let at_ k dflt := match sget k d with Some x => x | None => dflt end in
        let data := at_ "data"%string VNull in
        let name := at_ "filename"%string (VStr []) in
        if is_null data && v_eqb name (VStr []) then Err ValidationError
        else Ok (PFile (at_ "header"%string (VDict [])) data name)
    | _ => Err AttributeError
    end.

  (** _array.py:22-32: splitting a text value *)
  Definition separator (fmt : str) : option ascii :=
    if str_eqb fmt "csv"%string then Some ","%char else if str_eqb fmt "ssv"%string then Some " "%char
    else if str_eqb fmt "tsv"%string then Some "009"%char else if str_eqb fmt "pipes"%string then Some "|"%char
    else None.
  Definition split_text (fmt : str) (v : value) : res value :=
    match v with
    | VStr s => match separator fmt with
                | Some c => Ok (VList (map VStr (split [c] s)))
                | None => Err SchemaError
                end
    | _ => Ok v
    end.
  (** what iterating over the value gives; None: not iterable *)
  Definition elements (v : value) : option (list value) :=
    match v with
    | VList l => Some l
    | VDict d => Some (map (fun kv => VStr (fst kv)) d)
    | VBytes s => Some (map (fun c => VInt (Z.of_N (N_of_ascii c))) s)
    | _ => None
    end.
  (** _array.py:34-45.  [set(val)] (only for bytes here) in first-occurrence order. *)
  Fixpoint uniq (seen l : list value) : list value :=
    match l with
    | [] => seen
    | e :: l => if v_in e seen then uniq seen l else uniq (seen ++ [e]) l
    end.
  Definition unique (o : schema) (v : value) : res value :=
    if s_unique o then
      match elements v with Some l => Ok (VList (uniq [] l)) | None => Err TypeError end
    else Ok v.
  Fixpoint map_res {A B} (f : A -> res B) (l : list A) : res (list B) :=
    match l with
    | [] => Ok []
    | x :: l => do y <- f x; do ys <- map_res f l; Ok (y :: ys)
    end.

  Section Step.
    (** [produce] itself, for recursive calls. *)
    Context (rec : sid -> value -> ctx -> res (prim * ctx)).
    (** [ctx['factory'].produce(o, v)]: without a context *)
    Definition rec0 (o : sid) (v : value) : res prim := do r <- rec o v (new_ctx true); Ok (fst r).

    (** _array.py:17-57: new contents, new format, remaining value *)
    Definition array_apply (o : schema) (l : list prim) (v : value) : res (prim * value) :=
      let fmt := match s_cf o with Some f => f | None => "csv"%string end in
      do v <- split_text fmt v;
      do v <- unique o v;
      do lv <- (match s_items o with
                | Some it =>
                    match elements v with
                    | Some [] => Ok (l, v)
                    | Some es => do rs <- map_res (rec0 it) es; Ok (l ++ rs, VList [])
                    | None => Err TypeError
                    end
                | None => Ok (l, v)
                end);
      let n := len_z (fst lv) in
      do _ <- (match given (s_minitems o) with
               | Some k => if (n <? k)%Z then Err ValidationError else Ok tt | None => Ok tt end);
      do _ <- (match given (s_maxitems o) with
               | Some k => if (k <? n)%Z then Err ValidationError else Ok tt | None => Ok tt end);
      Ok (PArray fmt (fst lv), snd lv).

    (** _model.py:23-36: the loop over the given value *)
    Fixpoint model_given (o : sid) (d : sdict value) (m : sdict prim) (c : ctx) : res (sdict prim * ctx) :=
      match d with
      | [] => Ok (m, c)
      | (k, v) :: d =>
          match sget k (s_props (sch h o)) with
          | Some p => if s_readonly (sch h p) && negb (c_read c) then Err GenericException
                      else do r <- rec0 p v; model_given o d (sset k r m) c
          | None => match s_addp (sch h o) with
                    | ABool true => model_given o d m (set_addp true c)
                    | ASchema _ => model_given o d m (set_addps (Some o) c)
                    | _ => model_given o d m c
                    end
          end
      end.
    (** _model.py:38-45: defaults of the properties still missing (Python's set order is
        replaced by declaration order: it only affects which error comes first) *)
    Fixpoint model_defaults (ps : sdict sid) (m : sdict prim) : res (sdict prim) :=
      match ps with
      | [] => Ok m
      | (k, p) :: ps =>
          if negb (smem k m) && s_default_set (sch h p)
          then do r <- rec0 p (s_default (sch h p)); model_defaults ps (sset k r m)
          else model_defaults ps m
      end.
    (** _model.py:17-60 *)
    Definition model_apply (o : sid) (m : sdict prim) (v : value) (c : ctx) : res (prim * value * ctx) :=
      let s := sch h o in
      match v with
      | VDict d =>
          if negb (s_full s) then Err AttributeError else
          do mc <- model_given o d m c;
          do m2 <- model_defaults (s_props s) (fst mc);
          if negb (forallb (fun k => smem k m2) (s_required s)) then Err ValueError else
          let rest := filter (fun kv => negb (smem (fst kv) (s_props s))) d in
          match s_disc s with
          | Some ((_ :: _) as k) =>
              match c_name (snd mc) with
              | Some n => Ok (PModel (sset k (match n with Some x => PStr x | None => PNone end) m2),
                              VDict rest, snd mc)
              | None => Err KeyError
              end
          | _ => Ok (PModel m2, VDict rest, snd mc)
          end
      | _ => Err AttributeError
      end.
    (** _model.py:62-75 *)
    Definition put_raw (d : sdict value) (m : sdict prim) : sdict prim :=
      fold_left (fun m kv => sset (fst kv) (PRaw (snd kv)) m) d m.
    Fixpoint put_conv (a : sid) (d : sdict value) (m : sdict prim) : res (sdict prim) :=
      match d with
      | [] => Ok m
      | (k, v) :: d => do r <- rec0 a v; put_conv a d (sset k r m)
      end.
    Definition cleanup (m : sdict prim) (v : value) (c : ctx) : res (prim * ctx) :=
      if c_addp c then
        match v with VDict d => Ok (PModel (put_raw d m), set_addp false c) | _ => Err AttributeError end
      else match c_addps c with
           | Some o =>
               match v, s_addp (sch h o) with
               | VDict d, ASchema a => do m' <- put_conv a d m; Ok (PModel m', set_addps None c)
               | _, _ => Err AttributeError
               end
           | None => Ok (PModel m, c)
           end.

    (** [ret.apply_with(o, v, c)] for every class: the object, what is left of the value
        (None for the classes that return nothing) and the context *)
    Definition apply_obj (r : prim) (o : sid) (v : value) (c : ctx) : res (prim * value * ctx) :=
      match r with
      | PArray _ l => do x <- array_apply (sch h o) l v; Ok (fst x, snd x, c)
      | PModel m => model_apply o m v c
      | PByte _ => do s <- byte_of v; Ok (PByte s, VNull, c)
      | PDate _ _ _ => do d <- date_of v; Ok (d, VNull, c)
      | PDatetime _ => do d <- datetime_of v; Ok (PDatetime d, VNull, c)
      | PUuid _ => do z <- uuid_val v; Ok (PUuid z, VNull, c)
      | PFile _ _ _ => do f <- file_of v; Ok (f, VNull, c)
      | _ => Err AttributeError
      end.
    (** A second pass; the validators return the value they were given. *)
    Definition run_2nd (f : second) (o : sid) (r : prim) (v : value) (c : ctx) : res (prim * value * ctx) :=
      match f with
      | S2Obj => apply_obj r o v c
      | S2Int => do _ <- validate_int (sch h o) r; Ok (r, v, c)
      | S2Float => do _ <- validate_float (sch h o) r; Ok (r, v, c)
      | S2Str => do _ <- validate_str (sch h o) r; Ok (r, v, c)
      | S2Email => do _ <- validate_email r; Ok (r, v, c)
      end.
    (** [_apply], __init__.py:206-217: the result of a second pass is dropped there *)
    Definition apply_more (o : sid) (r : prim) (v : value) (c : ctx) : res (prim * value * ctx) :=
      if has_apply r then apply_obj r o v c
      else match (match c_2nd c with
                  | Some f => Some f
                  | None => snd (get (s_type (sch h o)) (s_format (sch h o)))
                  end) with
           | Some f => do x <- run_2nd f o r v c; Ok (r, v, set_2nd (Some f) (snd x))
           | None => Ok (r, v, c)
           end.
    (** __init__.py:222-235, the loop over allOf; the last component is [not_applied] *)
    Fixpoint all_of (l : list sid) (r : prim) (v : value) (c : ctx) (na : list sid)
      : res (prim * value * ctx * list sid) :=
      match l with
      | [] => Ok (r, v, c, na)
      | a :: l =>
          do a <- deref_s h a;
          do x <- (if falsy r then do y <- rec a v c; Ok (fst y, v, snd y) else apply_more a r v c);
          let '(r, v, c) := x in
          all_of l r v c (if falsy r then na ++ [a] else na)
      end.
    (** __init__.py:236-238 *)
    Fixpoint apply_rest (l : list sid) (r : prim) (v : value) (c : ctx) : res (prim * value * ctx) :=
      match l with
      | [] => Ok (r, v, c)
      | a :: l => do x <- apply_more a r v c; let '(r, v, c) := x in apply_rest l r v c
      end.

    (** __init__.py:188-200: the first object made for the value *)
    Definition start (o : sid) (v : value) (c : ctx) : res (prim * value * ctx) :=
      let s := sch h o in
      match s_type s with
      | Some (_ :: _) =>
          match get (s_type s) (s_format s) with
          | (None, _) => Err ValueError
          | (Some cr, f) =>
              do r <- create cr s v;
              match f with
              | Some f => do x <- run_2nd f o r v c; let '(r, v, c) := x in Ok (r, v, set_2nd (Some f) c)
              | None => Ok (r, v, c)
              end
          end
      | _ =>
          if negb (s_full s) then Err AttributeError
          else if nonempty (s_props s) || match s_addp s with ANone | ABool false => false | _ => true end
          then model_apply o [] v c
          else Ok (PNone, v, c)
      end.
    (** __init__.py:202-204 *)
    Definition final_kind (r : prim) : bool :=
      match r with PDate _ _ _ | PDatetime _ | PByte _ | PFile _ _ _ => true | _ => false end.

    (** __init__.py:202-243: everything after the first object was made *)
    Definition finish (s : schema) (r : prim) (v : value) (c : ctx) : res (prim * ctx) :=
      if final_kind r then Ok (r, c) else
      do y <- (if s_full s then
                 do z <- all_of (s_allof s) r v c [];
                 let '(r, v, c, na) := z in
                 if falsy r then Ok (r, v, c) else apply_rest na r v c
               else Ok (r, v, c));
      let '(r, v, c) := y in
      match r with
      | PModel m => cleanup m v c
      | _ => Ok (r, c)
      end.

    (** __init__.py:151-243 *)
    Definition produce_step (o : sid) (v : value) (c : ctx) : res (prim * ctx) :=
      let v := if is_null v then s_default (sch h o) else v in
      if is_null v then Ok (PNone, c) else
      do o <- deref_s h o;
      let c := set_name (s_name (sch h o)) c in
      do g <- guard_update (c_guard c) o;
      do x <- start o v (set_guard g c);
      let '(r, v, c) := x in finish (sch h o) r v c.
  End Step.

  (** The recursion; the fuel plays the part of Python's recursion limit. *)
  Fixpoint produce (fuel : nat) (o : sid) (v : value) (c : ctx) : res (prim * ctx) :=
    match fuel with
    | O => Err OutOfFuel
    | S fuel => produce_step (produce fuel) o v c
    end.
End Prim.
