(** Specifications for scanning. *)
From Verif Require Import PyBase M_Scan.

(** Lexicographic order of positions *)
Inductive before : list nat -> list nat -> Prop :=
| before_here i j a b : i < j -> before (i :: a) (j :: b)
| before_later i a b : before a b -> before (i :: a) (i :: b).

Section Scan.
  Context {K H O W R S : Type} (eqb : K -> K -> bool) (mro : K -> list K) (base : K) (cls_of : O -> K).
  (** A call of a handler: for which scanner, at which place, for which object *)
  Record event := Event { ev_entry : entry K H W; ev_path : str; ev_obj : O; ev_handler : H }.
  (** The handler number [l] for the class number [k] among the object's class and its
      ancestors below [BaseObj], of the scanner number [j], for the visited object number [i] *)
  Inductive due (route : list (entry K H W)) (objs : list (str * O)) : list nat -> event -> Prop :=
  | due_at i j k l path o e c fs f :
      nth_error objs i = Some (path, o) ->
      nth_error route j = Some e ->
      nth_error (mro (cls_of o)) k = Some c ->
      k + 1 < length (mro (cls_of o)) ->
      (forall k', k' <= k -> nth_error (mro (cls_of o)) k' <> Some base) ->
      dget eqb c (e_route e) = Some fs ->
      nth_error fs l = Some f ->
      due route objs [i; j; k; l] (Event e path o f).
  (** A handler is called, and what it returns goes to the function for the results, if the
      scanner has one. *)
  Definition perform (call : S -> W -> H -> str -> O -> S * res R) (result : S -> W -> R -> S * res unit) (s : S) (ev : event) : S * res unit :=
    match call s (e_self (ev_entry ev)) (ev_handler ev) (ev_path ev) (ev_obj ev) with
    | (s, Err x) => (s, Err x)
    | (s, Ok ret) => if e_result (ev_entry ev) then result s (e_self (ev_entry ev)) ret else (s, Ok tt)
    end.
End Scan.
