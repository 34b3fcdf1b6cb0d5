(** Model of parsing and dumping: [Context.parse], [BaseObj.__init__], [_assign_parent],
    [is_set], [dump] (pyswagger/spec/base.py:24-171, 200-241, 336-343, 393-426) and
    [AdditionalPropertiesContext] (pyswagger/spec/v2_0/parser.py:57-97). *)
From Verif Require Import PyBase PyJson M_SpecVal.
Close Scope Q_scope.

(** base.py:92-95 and parser.py:71-78.  No class is a subclass of another one. *)
Definition is_produced (c : ctx) (v : val) : bool :=
  match c, v with
  | Of c, VObj h _ _ => cls_eqb c (h_cls h)
  | AddP, VObj h _ _ => cls_eqb CSchema (h_cls h)
  | AddP, VBool _ => true
  | _, _ => false
  end.
Definition set_parent (p : place) (v : val) : val :=
  match v with
  | VObj h fs ints => VObj (Head (h_cls h) (h_place h) (Some p) (h_keys h)) fs ints
  | v => v
  end.
(** base.py:224-232 *)
Definition assign1 (p : place) (c : ctx) (v : val) : res val :=
  match v with
  | VNone => Ok VNone
  | v => if is_produced c v then Ok (set_parent p v) else Err ValueError
  end.
(** base.py:24-49, on a value: lists may be any iterable, a dict must have items *)
Definition container_apply (ct : ctype) (f : val -> res val) (v : val) : res val :=
  match ct, v with
  | _, VNone => Ok VNone
  | One, v => f v
  | ListOf, VList l => do l <- map_res f l; Ok (VList l)
  | ListOf, VDict d => do l <- map_res f (map (fun kv => VStr (fst kv)) d); Ok (VList l)
  | ListOf, VStr s => do l <- map_res f (map (fun c => VStr [c]) s); Ok (VList l)
  | ListOf, _ => Err TypeError
  | DictOf, VDict d => do d <- map_res (fun kv => do x <- f (snd kv); Ok (fst kv, x)) d; Ok (VDict d)
  | DictOf, _ => Err AttributeError
  end.
(** base.py:234-240, for one field.  Python changes the children in place, so an iterable
    that is not a list stays as it is. *)
Definition assign_field (p : place) (ct : ctype) (c : ctx) (v : val) : res val :=
  do v' <- container_apply ct (assign1 p c) v;
  Ok (match ct, v with ListOf, VDict _ | ListOf, VStr _ => v | _, _ => v' end).
(** base.py:221-240 *)
Fixpoint assign_fields (p : place) (t : list (str * (ctype * ctx))) (fs : sdict val) : res (sdict val) :=
  match fs with
  | [] => Ok []
  | (n, v) :: fs =>
      do v' <- match sget n t with Some (ct, c) => assign_field p ct c v | None => Ok v end;
      do fs' <- assign_fields p t fs;
      Ok ((n, v') :: fs')
  end.
(** base.py:200-219: [obj] is what the context has gathered *)
Definition produce (c : cls) (pl : place) (obj : sdict val) : res val :=
  let fs := map (fun nd => (fst nd, match sget (fst nd) obj with Some v => v | None => inject (snd nd) end)) (t_fields c) in
  let ints := map (fun nd => (fst nd, VNone)) (t_internal c) in
  do fs <- assign_fields pl (t_child c) fs;
  Ok (VObj (Head c pl None (map fst obj)) fs ints).

(** [for vv in v] over a JSON value *)
Definition iter_json (j : json) : res (list json) :=
  match j with
  | JList l => Ok l
  | JObj d => Ok (map (fun kv => JStr (fst kv)) d)
  | JStr s => Ok (map (fun c => JStr [c]) s)
  | _ => Err TypeError
  end.
(** An exception inside [additionalProperties] leaves a temporary object behind
    (parser.py:80-86), which the enclosing Schema then refuses with ValueError when its
    own context exits (base.py:100-116, 232). *)
Definition mask {A} (c : ctx) (r : res A) : res A :=
  match c, r with
  | AddP, Err OutOfFuel => r
  | AddP, Err _ => Err ValueError
  | _, _ => r
  end.

Section Step.
  (** Parsing of the children *)
  Context (rec : ctx -> place -> json -> res val).
  (** base.py:24-49 with 130-143 and 156-161 *)
  Definition parse_child (ct : ctype) (c : ctx) (pl : place) (v : json) : res val :=
    match ct with
    | One => rec c pl v
    | ListOf => do l <- iter_json v; do l <- mapi_res (fun i x => rec c (pl ++ [str_of_nat i]) x) 0 l; Ok (VList l)
    | DictOf => match v with
                | JObj d => do d <- map_res (fun kv => do x <- rec c (pl ++ [fst kv]) (snd kv); Ok (fst kv, x)) d; Ok (VDict d)
                | _ => Err AttributeError
                end
    end.
  (** base.py:145-162 *)
  Fixpoint parse_children (pl : place) (t : list (str * (ctype * ctx))) (d : sdict json) : res (sdict val) :=
    match t with
    | [] => Ok []
    | (key, (ct, c)) :: t =>
        do kv <- match sget key d with
                 | None | Some JNull =>
                     Ok (match ct with One => [] | ListOf => [(key, VList [])] | DictOf => [(key, VDict [])] end)
                 | Some v => do x <- mask c (parse_child ct c (pl ++ [key]) v); Ok [(key, x)]
                 end;
        do r <- parse_children pl t d;
        Ok (kv ++ r)
    end.
  (** base.py:118-171 and then 100-116 for one of the classes.  Simplified: the remaining
      keys are added in the order of the document (a Python set has no fixed order). *)
  Definition parse_cls (c : cls) (pl : place) (j : json) : res val :=
    match j with
    | JNull => produce c pl []
    | JObj d =>
        do kids <- parse_children pl (t_child c) d;
        produce c pl (kids ++ map (fun kv => (fst kv, inject (snd kv))) (filter (fun kv => negb (smem (fst kv) kids)) d))
    | _ => Err ValueError
    end.
  (** parser.py:80-97 for additionalProperties *)
  Definition parse_step (c : ctx) (pl : place) (j : json) : res val :=
    match c, j with
    | Of c, _ => parse_cls c pl j
    | AddP, JNull => Ok (VBool true)
    | AddP, JBool b => Ok (VBool b)
    | AddP, _ => parse_cls CSchema pl j
    end.
End Step.
Fixpoint parsef (fuel : nat) (c : ctx) (pl : place) (j : json) : res val :=
  match fuel with
  | O => Err OutOfFuel
  | S fuel => parse_step (parsef fuel) c pl j
  end.
(** How deep a document is. *)
Fixpoint jdepth (j : json) : nat :=
  match j with
  | JList l => S ((fix go l := match l with [] => 0 | x :: l => Nat.max (jdepth x) (go l) end) l)
  | JObj d => S ((fix go d := match d with [] => 0 | (_, x) :: d => Nat.max (jdepth x) (go d) end) d)
  | _ => 0
  end.
(** [with XContext(tmp, 't') as ctx: ctx.parse(j)] and then [tmp['t']] *)
Definition parse (c : ctx) (pl : place) (j : json) : res val := parsef (S (jdepth j)) c pl j.

(** base.py:336-343 *)
Definition is_set (h : head) (k : str) : bool := mem k (h_keys h).

(** base.py:393-426.  The fields of an object are those of its class, so the loop over
    [__swagger_fields__] is one over the object's own fields. *)
Fixpoint dump_val (v : val) : res json :=
  match v with
  | VNone => Err ValueError
  | VBool b => Ok (JBool b) | VInt z => Ok (JInt z) | VFloat q => Ok (JFloat q) | VStr s => Ok (JStr s)
  | VList l =>
      do l <- (fix go l := match l with
                           | [] => Ok []
                           | x :: l => do y <- dump_val x; do l' <- go l; Ok (y :: l')
                           end) l;
      Ok (match l with [] => JNull | _ => JList l end)
  | VDict d =>
      do d <- (fix go d := match d with
                           | [] => Ok []
                           | (k, x) :: d => do y <- dump_val x; do d' <- go d; Ok ((k, y) :: d')
                           end) d;
      Ok (match d with [] => JNull | _ => JObj d end)
  | VObj h fs _ =>
      do r <- (fix go fs := match fs with
                            | [] => Ok []
                            | (n, x) :: fs =>
                                do kv <- match sget n (t_fields (h_cls h)) with
                                         | None => Ok []
                                         | Some df => if is_default x df then Ok []
                                                      else do y <- dump_val x;
                                                           Ok (match y with JNull => [] | y => [(n, y)] end)
                                         end;
                                do r <- go fs;
                                Ok (kv ++ r)
                            end) fs;
      Ok (match r with [] => JNull | r => JObj r end)
  end.
