(** Model of scanning: [Dispatcher] and [Scanner] (pyswagger/scan.py:36-125). *)
From Verif Require Import PyBase.

(** What a loop over [l] does to a state, up to the first exception. *)
Fixpoint each {S A} (f : S -> A -> S * res unit) (s : S) (l : list A) : S * res unit :=
  match l with
  | [] => (s, Ok tt)
  | x :: l => match f s x with
              | (s, Ok _) => each f s l
              | (s, Err e) => (s, Err e)
              end
  end.

Section Scan.
  (** Python classes and handler functions *)
  Context {K H : Type} (eqb : K -> K -> bool).
  (** [__mro__] of a class, from itself to [object], and the class [BaseObj] *)
  Context (mro : K -> list K) (base : K).

  (** scan.py:41-53 *)
  Definition add_route (r : dict K (list H)) (t : K) (f : H) : res (dict K (list H)) :=
    if negb (existsb (eqb base) (mro t)) then Err ValueError
    else match dget eqb t r with
         | Some l => Ok (dset eqb t (l ++ [f]) r)
         | None => Ok (dset eqb t [f] r)
         end.
  (** scan.py:55-69 *)
  Fixpoint register (r : dict K (list H)) (target : list K) (f : H) : res (dict K (list H)) :=
    match target with
    | [] => Ok r
    | t :: target => do r <- add_route r t f; register r target f
    end.
  (** The body of a class that has the dispatcher: one decorated method after the other *)
  Fixpoint registered (r : dict K (list H)) (l : list (list K * H)) : res (dict K (list H)) :=
    match l with
    | [] => Ok r
    | (ts, f) :: l => do r <- register r ts f; registered r l
    end.

  (** scan.py:92-102: a scanner, the routes of its dispatcher, and whether that has a
      function for the results *)
  Context {O W R S : Type} (cls_of : O -> K).
  Record entry := Entry { e_self : W; e_route : dict K (list H); e_result : bool }.
  (** Calling a handler, and the function for the results, with what they do to the
      scanners, the objects and the application *)
  Context (call : S -> W -> H -> str -> O -> S * res R) (result : S -> W -> R -> S * res unit).

  (** scan.py:117-120 *)
  Definition call_one (e : entry) (path : str) (o : O) (s : S) (ff : H) : S * res unit :=
    match call s (e_self e) ff path o with
    | (s, Err x) => (s, Err x)
    | (s, Ok ret) => if e_result e then result s (e_self e) ret else (s, Ok tt)
    end.
  (** scan.py:114-120 *)
  Definition handle_cls (e : entry) (path : str) (o : O) (s : S) (c : K) : S * res unit :=
    match dget eqb c (e_route e) with
    | Some f => each (call_one e path o) s f
    | None => (s, Ok tt)
    end.
  (** scan.py:122-125 *)
  Fixpoint handle_all (e : entry) (path : str) (o : O) (s : S) (cs : list K) : S * res unit :=
    match cs with
    | [] => (s, Ok tt)
    | c :: cs => if eqb c base then (s, Ok tt)
                 else match handle_cls e path o s c with
                      | (s, Ok _) => handle_all e path o s cs
                      | (s, Err x) => (s, Err x)
                      end
    end.
  (** scan.py:104-125 on what [nexter(root, leaves)] yields.  Simplified: the objects to be
      visited are not changed by the handlers while the scan goes on. *)
  Definition scan (s : S) (route : list entry) (objs : list (str * O)) : S * res unit :=
    each (fun s po => each (fun s e => handle_all e (fst po) (snd po) s (removelast (mro (cls_of (snd po))))) s route) s objs.
End Scan.
Arguments entry : clear implicits.
