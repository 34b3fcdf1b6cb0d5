(** Model of JSON bodies: [PrimJSONEncoder] (pyswagger/primitives/comm.py:6-12) and [JsonCodec]
    (pyswagger/primitives/codec.py:47-55). *)
From Coq Require Import QArith.
From Verif Require Import PyBase PyJson M_Time M_Prim M_PrimText.
Close Scope Q_scope.

(** ** [json.dumps] and [json.loads]
    Simplified: between primitives and JSON documents; how documents are written as texts is a
    parameter. *)
(** Values that are stored unchanged in a Model: what is not of the types of JSON gets to
    [json.JSONEncoder.default], which refuses it (comm.py:12). *)
Fixpoint dump_raw (v : value) : res json :=
  match v with
  | VNull => Ok JNull | VBool b => Ok (JBool b) | VInt z => Ok (JInt z) | VFloat q => Ok (JFloat q) | VStr s => Ok (JStr s)
  | VList l =>
      do js <- (fix go l := match l with [] => Ok [] | x :: l => do j <- dump_raw x; do js <- go l; Ok (j :: js) end) l;
      Ok (JList js)
  | VDict d =>
      do js <- (fix go d := match d with [] => Ok [] | (k, x) :: d => do j <- dump_raw x; do js <- go d; Ok ((k, j) :: js) end) d;
      Ok (JObj js)
  | _ => Err TypeError
  end.
Section Dump.
  (** As in M_PrimText *)
  Context (show_other : prim -> str).
  (** comm.py:9-12: Model is a dict, Array a list; what is of no type of JSON is what its [to_json]
      gives. *)
  Fixpoint dump (p : prim) : res json :=
    match p with
    | PNone => Ok JNull | PBool b => Ok (JBool b) | PInt z => Ok (JInt z) | PFloat q => Ok (JFloat q) | PStr s => Ok (JStr s)
    | PArray _ l =>
        do js <- (fix go l := match l with [] => Ok [] | x :: l => do j <- dump x; do js <- go l; Ok (j :: js) end) l;
        Ok (JList js)
    | PModel m =>
        do js <- (fix go m := match m with [] => Ok [] | (k, x) :: m => do j <- dump x; do js <- go m; Ok ((k, j) :: js) end) m;
        Ok (JObj js)
    | PRaw v => dump_raw v
    | PByte _ | PDate _ _ _ | PDatetime _ | PUuid _ | PFile _ _ _ => match to_json show_other p with Some s => Ok (JStr s) | None => Err TypeError end
    end.
  (** What [json.loads] makes of a document *)
  Fixpoint load (j : json) : value :=
    match j with
    | JNull => VNull | JBool b => VBool b | JInt z => VInt z | JFloat q => VFloat q | JStr s => VStr s
    | JList l => VList (map load l)
    | JObj d => VDict (map (fun kv => (fst kv, load (snd kv))) d)
    end.

  (** ** The codec *)
  Context (write : json -> str) (parse : str -> res json).
  (** codec.py:48-49 *)
  Definition json_marshal (p : prim) : res str := do j <- dump p; Ok (write j).
  (** codec.py:51-55; bytes are decoded before *)
  Definition json_unmarshal (s : str) : res value := do j <- parse s; Ok (load j).
End Dump.
