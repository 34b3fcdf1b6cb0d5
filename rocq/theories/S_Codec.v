(** Specification of the codec registry (C25): what a MIME string names, and the last
    event about a name. *)
From Verif Require Import PyBase PyFacts M_Codec.

(** [mime] names [name]: up to blanks around it, letter case and parameters after the
    first ';'. *)
Definition blank (s : str) : Prop := forall c, In c s -> is_space c = true.
Definition tight (s : str) : Prop :=
  match s with [] => True | c :: _ => is_space c = false end /\
  match rev s with [] => True | c :: _ => is_space c = false end.
Definition names (mime name : str) : Prop :=
  exists b1 core b2 params, mime = b1 ++ core ++ b2 ++ params /\ blank b1 /\ blank b2 /\ tight core /\
    ~ In ";"%char (b1 ++ core ++ b2) /\ (params = [] \/ hd_error params = Some ";"%char) /\
    lower core = name.

(** The effect of the last event about [name], newest event first. *)
Fixpoint last_event {R D} (name : str) (l : list (event (R:=R) (D:=D))) : option (event (R:=R) (D:=D)) :=
  match l with
  | [] => None
  | e :: l => match e with
              | Reg m _ | Unreg m => if str_eq_dec (lower m) name then Some e else last_event name l
              end
  end.
