(** Model of [CycleGuard], [deref], [walk] and [CycleDetector]:
    pyswagger/utils.py:96-106, 265-273, 439-480;
    pyswagger/scanner/cycle_detector.py; pyswagger/core.py:349-351. *)
From Verif Require Import PyBase.

(** ** CycleGuard and deref.
    Objects are identified by a number; [obj in visited] is identity because
    BaseObj defines no [__eq__].  The heap lists, for each object that has one,
    its [ref_obj].  utils.py:96-106 *)
Notation oid := nat (only parsing).
Notation guard := (list nat) (only parsing).
Definition guard_update (g : guard) (o : oid) : res guard :=
  if existsb (Nat.eqb o) g then Err CycleDetectionError else Ok (g ++ [o]).

Definition ref_heap := dict oid oid.
Definition ref_obj (h : ref_heap) (o : oid) : option oid := dget Nat.eqb o h.

(** The [while] loop, utils.py:270-272 (after the first [guard.update]). *)
Fixpoint deref_loop (fuel : nat) (h : ref_heap) (g : guard) (cur : oid) : res (oid * guard) :=
  match fuel with
  | O => Err OutOfFuel
  | S fuel' =>
      match ref_obj h cur with
      | None => Ok (cur, g)
      | Some nxt => do g' <- guard_update g nxt; deref_loop fuel' h g' nxt
      end
  end.

(** utils.py:265-273 for a non-None [obj] ([deref(None)] just returns None).  The
    guard is mutable in Python: the model returns its final state.  Fuel
    [length h + 1] suffices (theorem c06_total). *)
Definition deref (h : ref_heap) (obj : oid) (g : guard) : res (oid * guard) :=
  do g' <- guard_update g obj; deref_loop (S (length h)) h g' obj.

(** ** walk.
    utils.py:439-480, over any vertex type with equality and order. *)
Section Walk.
  Context {V : Type} (eqb leb : V -> V -> bool).

  Definition vmem (x : V) (l : list V) : bool := existsb (eqb x) l.

  (** [l.index(x)] for an element of the list. *)
  Fixpoint index (x : V) (l : list V) : nat :=
    match l with
    | [] => 0
    | y :: l' => if eqb x y then 0 else S (index x l')
    end.

  (** [l.remove(x)]: first occurrence. *)
  Fixpoint remove_first (x : V) (l : list V) : list V :=
    match l with
    | [] => []
    | y :: l' => if eqb x y then l' else y :: remove_first x l'
    end.

  (** [min(l)] of a non-empty list: the first smallest element. *)
  Definition vmin (x : V) (l : list V) : V :=
    fold_left (fun m y => if leb m y then m else y) l x.

  (** utils.py:465-467: rotate to the smallest vertex and close the cycle. *)
  Definition normalize_cycle (nc : list V) : list V :=
    match nc with
    | [] => []
    | x :: l =>
        let m := vmin x l in
        let ni := index m nc in
        skipn ni nc ++ firstn ni nc ++ [m]
    end.

  Fixpoint list_eqb (a b : list V) : bool :=
    match a, b with
    | [], [] => true
    | x :: a', y :: b' => eqb x y && list_eqb a' b'
    | _, _ => false
    end.

  (** utils.py:468-469 *)
  Definition add_cycle (c : list V) (cyc : list (list V)) : list (list V) :=
    if existsb (list_eqb c) cyc then cyc else cyc ++ [c].

  (** Loop state: the stack (top first, i.e. reversed w.r.t. Python's list), the
      dictionary [ctx] of pending out-edges, and the cycles. *)
  Record wstate := WState {
    w_stk : list V;
    w_ctx : dict V (list V);
    w_cyc : list (list V)
  }.

  (** One iteration of the loop body, utils.py:452-478. *)
  Definition walk_step (ofn : V -> list V) (s : wstate) : wstate :=
    match w_stk s with
    | [] => s
    | top :: rest =>
        let ctx := if dmem eqb top (w_ctx s) then w_ctx s
                   else dset eqb top (ofn top) (w_ctx s) in
        match dget eqb top ctx with
        | Some (n :: es) =>
            if vmem n (w_stk s) then
              let stk := rev (w_stk s) in
              let nc := normalize_cycle (skipn (index n stk) stk) in
              WState (w_stk s) (dset eqb top es ctx) (add_cycle nc (w_cyc s))
            else WState (n :: w_stk s) ctx (w_cyc s)
        | _ =>
            let ctx := ddel eqb top ctx in
            match rest with
            | [] => WState [] ctx (w_cyc s)
            | p :: _ =>
                let pe := match dget eqb p ctx with Some l => l | None => [] end in
                WState rest (dset eqb p (remove_first top pe) ctx) (w_cyc s)
            end
        end
    end.

  Fixpoint walk_loop (fuel : nat) (ofn : V -> list V) (s : wstate) : res (list (list V)) :=
    match w_stk s with
    | [] => Ok (w_cyc s)
    | _ => match fuel with
           | O => Err OutOfFuel
           | S fuel' => walk_loop fuel' ofn (walk_step ofn s)
           end
    end.

  Definition walk (fuel : nat) (start : V) (ofn : V -> list V) (cyc : list (list V)) :=
    walk_loop fuel ofn (WState [start] [] cyc).
End Walk.
Arguments WState {V}. Arguments w_stk {V}. Arguments w_ctx {V}. Arguments w_cyc {V}.

(** ** CycleDetector for schemas. *)

(** What [_schema_out_obj] looks at in a Schema object. *)
Inductive sch :=
  Sch (properties : list (str * sch)) (allOf : list sch)
      (additionalProperties : option sch) (items : option sch) (ref : option str).

(** cycle_detector.py:24-43: the references inside a schema, in the order the code
    appends them.  [if r:] skips an empty reference. *)
Fixpoint schema_out_obj (s : sch) : list str :=
  match s with
  | Sch props allof addp items ref =>
      flat_map (fun p => schema_out_obj (snd p)) props ++
      flat_map schema_out_obj allof ++
      match addp with Some a => schema_out_obj a | None => [] end ++
      match items with Some i => schema_out_obj i | None => [] end ++
      match ref with Some (c :: r) => [c :: r] | _ => [] end
  end.

(** cycle_detector.py:45-47.  [app.resolve] is abstracted by a finite table from
    reference to schema; a reference that resolves to nothing has no out-edges. *)
Definition schema_out (doc : sdict sch) (path : str) : list str :=
  match sget path doc with Some s => schema_out_obj s | None => [] end.

(** cycle_detector.py:63-69 over all schemas the scanner visits, in order. *)
Fixpoint detect (fuel : nat) (doc : sdict sch) (paths : list str) (cyc : list (list str)) :
  res (list (list str)) :=
  match paths with
  | [] => Ok cyc
  | p :: paths' =>
      do cyc' <- walk str_eqb str_leb fuel p (schema_out doc) cyc;
      detect fuel doc paths' cyc'
  end.

(** core.py:349-351 *)
Definition prepare_cycle_check (strict : bool) (cycles : list (list str)) : res unit :=
  if nonempty cycles && strict then Err CycleDetectionError else Ok tt.
