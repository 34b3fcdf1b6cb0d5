(** Model of the fix for documents written in YAML (pyswagger/scanner/v2_0/yaml.py:9-26).
    YAML has keys that are no texts, so the responses of an operation are modelled on their
    own here, with such keys. *)
From Verif Require Import PyBase PyJson.
Close Scope Q_scope.

(** Keys of a dict as YAML has them; [KOther] is for other values (None, dates, tuples). *)
Inductive key := KStr (s : str) | KInt (z : Z) | KBool (b : bool) | KFloat (q : Q) | KOther (n : nat).
Definition key_num (k : key) : option Q :=
  match k with
  | KInt z => Some (inject_Z z)
  | KBool b => Some (if b then 1%Q else 0%Q)
  | KFloat q => Some q
  | _ => None
  end.
(** [k == l]: numbers by their value, booleans are numbers *)
Definition key_eqb (k l : key) : bool :=
  match key_num k, key_num l with
  | Some p, Some q => Qeq_bool p q
  | None, None => match k, l with
                  | KStr s, KStr t => str_eqb s t
                  | KOther m, KOther n => Nat.eqb m n
                  | _, _ => false
                  end
  | _, _ => false
  end.
(** yaml.py:22-25: the key in the new dict; [str(k)] *)
Definition fix_key (k : key) : key :=
  match k with
  | KInt z => KStr (str_of_Z z)
  | KBool b => KStr (if b then lit "True" else lit "False")
  | k => k
  end.
(** yaml.py:20-25 *)
Definition fix_loop {V} (l : list (key * V)) : dict key V :=
  fold_left (fun tmp kv => dset key_eqb (fix_key (fst kv)) (snd kv) tmp) l [].
(** yaml.py:15-26: what is in [responses] afterwards *)
Definition fix_responses {V} (r : option (dict key V)) : option (dict key V) :=
  match r with
  | None => None
  | Some d => Some (fix_loop d)
  end.
