(** Model of scope names, [ScopeDict] and [TypeReduce]:
    pyswagger/utils.py:15-93, pyswagger/scanner/type_reducer.py. *)
From Verif Require Import PyBase.

(** consts/private.py:23 *)
Definition SCOPE_SEPARATOR : str := "!##!"%string.

Definition truthy (s : option str) : bool :=
  match s with Some s => nonempty s | None => false end.

(** utils.py:15-31 *)
Definition scope_compose (sep : str) (scope name : option str) : option str :=
  match scope, name with
  | _, None => scope
  | Some s, Some n =>
      if nonempty s && nonempty n then Some (s ++ sep ++ n)
      else if nonempty s then scope else name
  | None, Some _ => name
  end.

(** utils.py:33-40.  [str.split] raises ValueError on an empty separator. *)
Definition scope_split (sep : str) (scope : option str) : res (list (option str)) :=
  match scope with
  | Some s =>
      if nonempty s then
        if nonempty sep then Ok (map Some (split sep s)) else Err ValueError
      else Ok [None]
  | None => Ok [None]
  end.

(** The argument of [ScopeDict.__getitem__]: a string or a tuple of names
    (names may be [None]). *)
Inductive scope_key := KStr (s : str) | KTuple (l : list (option str)).

(** utils.py:71: [reduce] of a tuple; TypeError on the empty tuple. *)
Definition fold_key (sep : str) (k : scope_key) : res (option str) :=
  match k with
  | KStr s => Ok (Some s)
  | KTuple [] => Err TypeError
  | KTuple (x :: l) => Ok (fold_left (scope_compose sep) l x)
  end.

(** utils.py:62-93.  [d] is the underlying dict with string keys.  A [None] key
    (a tuple of [None]s) is absent and [endswith(None)] is a TypeError as soon as
    there is a key to compare with. *)
Definition scope_getitem {V} (sep : str) (d : sdict V) (key : scope_key) : res V :=
  do k <- fold_key sep key;
  match k with
  | None => if nonempty d then Err TypeError else Err KeyError
  | Some k =>
      match sget k d with
      | Some v => Ok v
      | None =>
          let ret := filter (fun ik => endswith ik k) (map fst d) in
          match ret with
          | [] => Err KeyError
          | [ik] => match sget ik d with Some v => Ok v | None => Err KeyError end
          | _ =>
              if nonempty sep then
                let last_k := rsplit1_last sep k in
                let matched := filter (fun r => str_eqb (rsplit1_last sep r) last_k) ret in
                match matched with
                | [ik] => match sget ik d with Some v => Ok v | None => Err KeyError end
                | _ => Err ValueError
                end
              else Err ValueError
          end
      end
  end.

(** The fields of an Operation that [TypeReduce] reads; [op_ident] stands for the
    object itself. *)
Record tr_op (O : Type) := TrOp {
  tr_tags : option (list str);     (* Operation.tags, may be None *)
  tr_opid : option str;            (* Operation.operationId *)
  tr_obj : O
}.
Arguments TrOp {O}. Arguments tr_tags {O}. Arguments tr_opid {O}. Arguments tr_obj {O}.

(** scanner/type_reducer.py:18-34 *)
Definition type_reduce_op {O} (sep : str) (ops : sdict O) (o : tr_op O) : res (sdict O) :=
  let scope := match tr_tags o with Some (t :: _) => Some t | _ => None end in
  let name := if truthy (tr_opid o) then tr_opid o else None in
  match name with
  | None => Ok ops
  | Some _ =>
      let new_scope := scope_compose sep scope name in
      match new_scope with
      | Some ns =>
          if nonempty ns then
            if smem ns ops then Err SchemaError else Ok (sset ns (tr_obj o) ops)
          else Ok ops
      | None => Ok ops
      end
  end.

(** The scan of all operations, in visiting order (core.py:338-340). *)
Fixpoint type_reduce {O} (sep : str) (ops : sdict O) (l : list (tr_op O)) : res (sdict O) :=
  match l with
  | [] => Ok ops
  | o :: l' => do ops' <- type_reduce_op sep ops o; type_reduce sep ops' l'
  end.
