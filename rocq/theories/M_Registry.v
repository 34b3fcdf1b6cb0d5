(** Model of the handler table of the primitive factory
    (pyswagger/primitives/__init__.py:24-149): [get], [register], [is_primitive] and the
    initial table.  A handler is a pair (creater, _2nd_pass) of any type [H]. *)
From Verif Require Import PyBase M_Prim.

(** keys: a type or format name, or None *)
Definition okey := option str.
Definition okey_eqb (a b : okey) : bool :=
  match a, b with Some x, Some y => str_eqb x y | None, None => true | _, _ => false end.

Section Table.
  Context {H : Type}.
  Definition table := dict okey (dict okey H).
  (** What [get] returns: the pair (None, None), a handler, or None. *)
  Inductive got := Unknown | Handler (x : H) | Missing.
  (** __init__.py:99-105 *)
  Definition tget (m : table) (ty fmt : okey) : got :=
    match dget okey_eqb ty m with
    | None => Unknown
    | Some r =>
        match dget okey_eqb fmt r with
        | Some x => Handler x
        | None => match dget okey_eqb None r with Some x => Handler x | None => Missing end
        end
    end.
  (** __init__.py:107-149 *)
  Definition register (m : table) (ty fmt : okey) (x : H) : table :=
    let m := if dmem okey_eqb ty m then m else dset okey_eqb ty [] m in
    match dget okey_eqb ty m with
    | Some r => dset okey_eqb ty (dset okey_eqb fmt x r) m
    | None => m
    end.
  (** __init__.py:245-252 *)
  Definition is_primitive (m : table) (ty : okey) : bool := dmem okey_eqb ty m.
  (** A history of registrations. *)
  Definition register_all (m : table) (l : list (okey * okey * H)) : table :=
    fold_left (fun m r => register m (fst (fst r)) (snd (fst r)) (snd r)) l m.
End Table.
Arguments table : clear implicits.
Arguments got : clear implicits.

(** __init__.py:28-97 *)
Definition initial : table (creator * option second) :=
  let f s := Some (lit s) in
  let i := (CrInt, Some S2Int) in let fl := (CrFloat, Some S2Float) in let s := (CrStr, Some S2Str) in
  let o c := (CrObj c, Some S2Obj) in
  [(f "integer", [(f "int32", i); (f "int64", i); (None, i)]);
   (f "number", [(f "float", fl); (f "double", fl); (f "int32", i); (f "int64", i); (None, fl)]);
   (f "string", [(f "", s); (None, s); (f "email", (CrStr, Some S2Email)); (f "uuid", o CUuid); (f "password", s);
                 (f "byte", o CByte); (f "binary", o CByte); (f "date", o CDate); (f "date-time", o CDatetime)]);
   (f "boolean", [(f "", (CrBool, None)); (None, (CrBool, None))]);
   (f "file", [(f "", o CFile); (None, o CFile)]);
   (f "array", [(f "", o CArray); (None, o CArray)]);
   (f "object", [(f "", o CModel); (None, o CModel)])]%string.
