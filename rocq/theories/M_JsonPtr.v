(** Model of the JSON-pointer helpers, pyswagger/utils.py:232-254. *)
From Verif Require Import PyBase.

(** The [s] argument of [jp_compose]: [None], a string, or a list of strings. *)
Inductive jp_arg := JPNone | JPStr (s : str) | JPList (l : list str).

(** utils.py:239: [s.replace('~', '~0').replace('/', '~1')] *)
Definition jp_encode (s : str) : str :=
  replace (replace s "~"%string "~0"%string) "/"%string "~1"%string.

(** utils.py:232-242.  The Python code may mutate a fresh list ([ss]); the model
    builds it functionally.  A falsy [base] is ignored. *)
Definition jp_compose (s : jp_arg) (base : option str) : option str :=
  let go ss :=
    let ss := map jp_encode ss in
    let ss := match base with
              | Some b => if nonempty b then b :: ss else ss
              | None => ss
              end in
    Some (join "/"%string ss) in
  match s with
  | JPNone => base
  | JPStr s => go [s]
  | JPList l => go l
  end.

(** utils.py:250-252 *)
Definition jp_decode (s : str) : str :=
  replace (replace s "~1"%string "/"%string) "~0"%string "~"%string.

(** utils.py:244-254 *)
Definition jp_split (s : option str) : list str :=
  match s with
  | None => []
  | Some [] => []
  | Some s => map jp_decode (split "/"%string s)
  end.
