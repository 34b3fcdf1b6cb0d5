(** Model of validating: the 2.0 rules (pyswagger/scanner/v2_0/validate.py:9-35) and
    [App._validate], [App.validate] (pyswagger/core.py:234-258, 296-310). *)
From Verif Require Import PyBase PyJson M_SpecVal M_SpecTree M_Merge M_Scan.
Close Scope Q_scope.

(** The Python classes of objects (spec/v2_0/objects.py:11-347, spec/v1_2/objects.py:7-310)
    and their ancestors *)
Inductive pycls := Cls (c : cls) | BaseSchema | DataTypeObj | BaseObj20 | BaseObj12 | BaseObj | Object.
Definition pycls_eqb (a b : pycls) : bool :=
  match a, b with
  | Cls c, Cls d => cls_eqb c d
  | BaseSchema, BaseSchema | DataTypeObj, DataTypeObj | BaseObj20, BaseObj20 | BaseObj12, BaseObj12 | BaseObj, BaseObj | Object, Object => true
  | _, _ => false
  end.
Definition pymro (c : pycls) : list pycls :=
  match c with
  | Cls (CItems | CSchema | CParameter | CHeader) => [c; BaseSchema; BaseObj20; BaseObj; Object]
  | Cls (COld (OParameter | OOperation | OProperty)) => [c; DataTypeObj; BaseObj12; BaseObj; Object]
  | Cls (COld _) => [c; BaseObj12; BaseObj; Object]
  | Cls _ => [c; BaseObj20; BaseObj; Object]
  | DataTypeObj => [DataTypeObj; BaseObj12; BaseObj; Object]
  | BaseObj12 => [BaseObj12; BaseObj; Object]
  | BaseSchema => [BaseSchema; BaseObj20; BaseObj; Object]
  | BaseObj20 => [BaseObj20; BaseObj; Object]
  | BaseObj => [BaseObj; Object]
  | Object => [Object]
  end.
(** [obj.__class__]; only objects are visited *)
Definition class_of (v : val) : pycls := match v with VObj h _ _ => Cls (h_cls h) | _ => Object end.

(** An error message: its text and what is filled in *)
Definition message : Type := string * val.
(** What [validate] returns: ((path, name of the class), message) *)
Definition report : Type := str * string * message.

(** [for v in x] *)
Definition iterate (x : val) : res (list val) :=
  match x with
  | VList l => Ok l
  | VStr s => Ok (map (fun c => VStr [c]) s)
  | VDict d => Ok (map (fun kv => VStr (fst kv)) d)
  | _ => Err TypeError
  end.
(** [v in d and d[v].readOnly] for the properties [d].  Simplified: they are a dict or None,
    as they always are. *)
Definition read_only (props v : val) : res bool :=
  match props with
  | VDict d =>
      if negb (hashable v) then Err TypeError
      else match v with
           | VStr s => match sget s d with
                       | None => Ok false
                       | Some (VObj _ fs _) => match sget (lit "readOnly") fs with
                                               | Some r => Ok (negb (falsy r))
                                               | None => Err AttributeError
                                               end
                       | Some _ => Err AttributeError
                       end
           | _ => Ok false
           end
  | _ => Err TypeError
  end.
(** validate.py:27-29 *)
Fixpoint check_required (props : val) (l : list val) : res (list message) :=
  match l with
  | [] => Ok []
  | v :: l =>
      do b <- read_only props v;
      do r <- check_required props l;
      Ok (if b then ("ReadOnly property in required list: {0}"%string, v) :: r else r)
  end.
(** validate.py:23-35 *)
Definition validate_schema (path : str) (obj : val) : res (str * string * list message) :=
  match obj with
  | VObj _ fs _ =>
      match sget (lit "required") fs, sget (lit "properties") fs with
      | Some req, Some props =>
          do l <- iterate req;
          do errs <- check_required props l;
          Ok (path, "Schema"%string, errs)
      | _, _ => Err AttributeError
      end
  | _ => Err AttributeError
  end.
(** validate.py:17-21; the result of a handler is never None *)
Definition collect (errs : list report) (ret : str * string * list message) : list report :=
  let '(path, name, l) := ret in
  if nonempty l then errs ++ map (fun m => (path, name, m)) l else errs.

(** validate.py:23: the routes of the dispatcher, for its only handler *)
Definition validate_routes : res (dict pycls (list unit)) := registered pycls_eqb pymro BaseObj [] [([Cls CSchema], tt)].
(** core.py:234-258 for 2.0: [s.scan(route=[v], root=raw)] and then [v.errs] *)
Definition validate20 (raw : val) : res (list report) :=
  do routes <- validate_routes;
  do objs <- traverse raw [];
  match scan pycls_eqb pymro BaseObj class_of
          (fun errs (_ _ : unit) path o => (errs, validate_schema path o))
          (fun errs _ ret => (collect errs ret, Ok tt))
          [] [Entry tt routes true] objs with
  | (errs, Ok _) => Ok errs
  | (_, Err e) => Err e
  end.
(** core.py:296-310 *)
Definition validate (errors : res (list report)) (strict : bool) : res (list report) :=
  do r <- errors;
  if strict && nonempty r then Err ValidationError else Ok r.
