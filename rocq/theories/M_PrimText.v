(** Model of the texts primitives are sent as: [str(p)], [Array.__str__] and
    [Array.to_url] (pyswagger/primitives/_array.py:58-89), [Byte] (_byte.py:22-29), [Time]
    (_time.py:11-17), [UUID] (_uuid.py:10-14), and the [to_json] of each class. *)
From Coq Require Import QArith.
From Verif Require Import PyBase M_Quote M_Base64 M_Time M_Prim.
Close Scope Q_scope.
Close Scope Z_scope.
Open Scope nat_scope.

(** _array.py:65-69: the separator is only put once the text so far is not empty. *)
Fixpoint conv_aux (p : str) (s : str) (l : list str) : str :=
  match l with
  | [] => s
  | v :: l => conv_aux p (s ++ (if nonempty s then p else []) ++ v) l
  end.
(** _array.py:71-80 *)
Definition array_str (fmt : str) (l : list str) : res str :=
  match separator fmt with
  | Some c => Ok (conv_aux [c] [] l)
  | None => Err SchemaError
  end.

Section Show.
  (** [bytes.decode('utf-8')] and [str] of floats, uuids, Files, Models and raw values. *)
  Context (decode : str -> res str) (show_other : prim -> str).
  (** [str(p)] *)
  Fixpoint show (p : prim) : res str :=
    match p with
    | PNone => Ok (lit "None")
    | PBool b => Ok (lit (if b then "True" else "False"))
    | PInt z => Ok (str_of_Z z)
    | PStr s => Ok s
    | PByte b => decode b
    | PDate y m d => Ok (iso_date y m d)
    | PDatetime d => Ok (isoformat d)
    | PArray fmt l =>
        do ts <- (fix go l := match l with
                              | [] => Ok []
                              | x :: l => do t <- show x; do ts <- go l; Ok (t :: ts)
                              end) l;
        array_str fmt ts
    | _ => Ok (show_other p)
    end.
  (** _array.py:82-89; the list is what a query or form field is sent as *)
  Definition to_url (fmt : str) (l : list prim) : res (list str) :=
    if str_eqb fmt "multi"%string then map_res show l
    else do s <- show (PArray fmt l); Ok [s].
  (** [to_json], for the classes that have one (used by PrimJSONEncoder, comm.py:6-12) *)
  Definition to_json (p : prim) : option str :=
    match p with
    | PByte b => Some (urlsafe_b64encode b)
    | PDate y m d => Some (iso_date y m d)
    | PDatetime d => Some (isoformat d)
    | PUuid z => Some (show_other p)
    | _ => None
    end.
End Show.
