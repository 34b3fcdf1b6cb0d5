(** Model of composing schemas: [_compose] and the scanner [Aggregate]
    (pyswagger/scanner/v2_0/aggt.py:10-62), with [deref] on a shared guard
    (pyswagger/utils.py:96-106, 265-273) and [BaseObj.merge] for schemas that refer to each
    other (pyswagger/spec/base.py:280-334). *)
From Verif Require Import PyBase PyJson M_SpecVal M_Merge.
Close Scope Q_scope.

(** ** Schemas that refer to each other
    A schema is known by its number, the position in a list of all schemas.  Its fields that
    hold schemas, and the internal fields [ref_obj] and [final], hold numbers; all other
    fields are values.  Simplified: [xml] and [externalDocs] are such values, so they are
    not copied when they are merged. *)
Notation oid := nat (only parsing).
(** [additionalProperties] *)
Inductive addl := ABool (b : bool) | AObj (o : oid).
Record node := Node {
  s_plain : sdict val;
  s_ref : option oid;
  s_final : option oid;
  s_items : option oid;
  s_allof : list oid;
  s_props : sdict oid;
  s_addl : addl
}.
Definition heap := list node.
Definition get (h : heap) (i : oid) : res node := match nth_error h i with Some n => Ok n | None => Err AttributeError end.
Definition alloc (h : heap) (n : node) : heap * oid := (h ++ [n], length h).
(** objects.py:30-48, 67-90: the fields that hold values, and the internal field [name] *)
Definition plain_fields : list (str * json) :=
  filter (fun nd => negb (mem (fst nd) (map lit ["items"; "allOf"; "properties"; "additionalProperties"]%string))) (t_fields CSchema) ++ [(lit "name", JNull)].
(** [Schema(NullContext())] *)
Definition new_node : node := Node (map (fun nd => (fst nd, inject (snd nd))) plain_fields) None None None [] [] (ABool true).

(** ** deref
    utils.py:265-273; the guard keeps what was added before the exception ([None]). *)
Fixpoint deref_loop (fuel : nat) (h : heap) (g : list oid) (i : oid) : res (list oid * option oid) :=
  if existsb (Nat.eqb i) g then Ok (g, None)
  else
    do n <- get h i;
    match s_ref n with
    | None => Ok (i :: g, Some i)
    | Some j => match fuel with O => Err OutOfFuel | S fuel => deref_loop fuel h (i :: g) j end
    end.
(** No more steps than schemas are possible. *)
Definition deref (h : heap) (g : list oid) (i : oid) : res (list oid * option oid) := deref_loop (length h) h g i.

(** ** merge *)
(** base.py:297-316 for one name *)
Definition plain1 (exclude : list str) (n : str) (df : json) (sv ov : val) : res val :=
  if mem n exclude then Ok sv
  else if is_default ov df then Ok sv
  else match ov with
       | VList l => do m <- as_list sv; Ok (VList (union m l))
       | VDict d => do m <- as_dict sv; Ok (VDict (supdate d m))
       | _ => Ok (if is_default sv df then ov else sv)
       end.
Fixpoint merge_plain (exclude : list str) (t : list (str * json)) (sf of : sdict val) : res (sdict val) :=
  match t with
  | [] => Ok []
  | (n, df) :: t =>
      match sget n sf, sget n of with
      | Some sv, Some ov => do x <- plain1 exclude n df sv ov; do r <- merge_plain exclude t sf of; Ok ((n, x) :: r)
      | _, _ => Err AttributeError
      end
  end.
Section Merge.
  (** [_produce_new_obj], base.py:287-288 *)
  Context (clone : heap -> oid -> res (heap * oid)).
  Fixpoint clone_list (h : heap) (l : list oid) : res (heap * list oid) :=
    match l with
    | [] => Ok (h, [])
    | i :: l => do a <- clone h i; do b <- clone_list (fst a) l; Ok (fst b, snd a :: snd b)
    end.
  Fixpoint clone_dict (h : heap) (d : sdict oid) : res (heap * sdict oid) :=
    match d with
    | [] => Ok (h, [])
    | (k, i) :: d => do a <- clone h i; do b <- clone_dict (fst a) d; Ok (fst b, (k, snd a) :: snd b)
    end.
  (** base.py:280-334 for schemas: [f.merge(o, SchemaContext, exclude)].  Only fields that
      hold values and [allOf] are ever excluded. *)
  Definition merge_node (exclude : list str) (h : heap) (f o : node) : res (heap * node) :=
    do p <- merge_plain exclude plain_fields (s_plain f) (s_plain o);
    do a <- (match s_items o, s_items f with
             | Some i, None => do a <- clone h i; Ok (fst a, Some (snd a))
             | _, x => Ok (h, x)
             end);
    do b <- (match s_allof o, s_allof f with
             | [], x => Ok (fst a, x)
             | l, [] => if mem (lit "allOf") exclude then Ok (fst a, []) else clone_list (fst a) l
             | _, x => Ok (fst a, x)
             end);
    do c <- (match s_props o, s_props f with
             | [], x => Ok (fst b, x)
             | d, [] => clone_dict (fst b) d
             | _, x => Ok (fst b, x)
             end);
    do d <- (match s_addl o, s_addl f with
             | ABool true, x => Ok (fst c, x)
             | ABool b, ABool true => Ok (fst c, ABool b)
             | AObj i, ABool true => do a <- clone (fst c) i; Ok (fst a, AObj (snd a))
             | _, x => Ok (fst c, x)
             end);
    Ok (fst d, Node p (match s_ref f with None => s_ref o | r => r end) (match s_final f with None => s_final o | r => r end)
                    (snd a) (snd b) (snd c) (snd d)).
End Merge.
Fixpoint clone (fuel : nat) (h : heap) (i : oid) : res (heap * oid) :=
  match fuel with
  | O => Err OutOfFuel
  | S fuel => do n <- get h i; do a <- merge_node (clone fuel) [] h new_node n; Ok (alloc (fst a) (snd a))
  end.

(** ** compose *)
(** aggt.py:40-43 *)
Definition add_props (own : sdict oid) (d : sdict oid) (more : sdict oid) : sdict oid :=
  fold_left (fun d kp => if smem (fst kp) own then d else sset (fst kp) (snd kp) d) more d.
Definition with_props (f : node) (d : sdict oid) : node := Node (s_plain f) (s_ref f) (s_final f) (s_items f) (s_allof f) d (s_addl f).
Definition not_merged : list str := map lit ["$ref"; "allOf"]%string.
(** aggt.py:33-44: [stk] with its end first, [f] is the new schema that nothing refers to yet *)
Fixpoint gather (fuel : nat) (own : sdict oid) (h : heap) (g : list oid) (f : node) (stk : list oid) : res (heap * node) :=
  match stk with
  | [] => Ok (h, f)
  | x :: stk =>
      match fuel with
      | O => Err OutOfFuel
      | S fuel =>
          do gd <- deref h g x;
          match snd gd with
          | None => gather fuel own h (fst gd) f stk
          | Some i =>
              do o <- get h i;
              do o <- match s_final o with Some j => get h j | None => Ok o end;
              do a <- merge_node (clone fuel) not_merged h f o;
              gather fuel own (fst a) (fst gd) (with_props (snd a) (add_props own (s_props (snd a)) (s_props o))) (rev (s_allof o) ++ stk)
          end
      end
  end.
Fixpoint update {A} (l : list A) (i : nat) (f : A -> A) : list A :=
  match l, i with
  | [], _ => []
  | x :: l, O => f x :: l
  | x :: l, S i => x :: update l i f
  end.
Definition set_final (j : oid) (n : node) : node := Node (s_plain n) (s_ref n) (Some j) (s_items n) (s_allof n) (s_props n) (s_addl n).
Section Compose.
  Context (rec : heap -> list oid -> oid -> res (heap * list oid)).
  Fixpoint compose_all (h : heap) (g : list oid) (l : list oid) : res (heap * list oid) :=
    match l with
    | [] => Ok (h, g)
    | i :: l => do a <- rec h g i; compose_all (fst a) (snd a) l
    end.
  (** aggt.py:10-45 *)
  Definition compose_step (fuel : nat) (h : heap) (g : list oid) (i : oid) : res (heap * list oid) :=
    do gd <- deref h g i;
    match snd gd with
    | None => Ok (h, fst gd)
    | Some i =>
        do n <- get h i;
        match s_final n with
        | Some _ => Ok (h, fst gd)
        | None =>
            do a <- compose_all h (fst gd) (match s_items n with Some j => [j] | None => [] end ++ map snd (s_props n) ++ s_allof n);
            do n <- get (fst a) i;
            do m <- merge_node (clone fuel) [] (fst a) new_node n;
            do f <- gather fuel (s_props n) (fst m) [] (snd m) (rev (s_allof n));
            let r := alloc (fst f) (snd f) in
            Ok (update (fst r) i (set_final (snd r)), snd a)
        end
    end.
End Compose.
Fixpoint compose (fuel : nat) (h : heap) (g : list oid) (i : oid) : res (heap * list oid) :=
  match fuel with
  | O => Err OutOfFuel
  | S fuel => compose_step (compose fuel) fuel h g i
  end.
(** aggt.py:48-62: the scan over the schemas of a document *)
Fixpoint aggregate (fuel : nat) (h : heap) (ids : list oid) : res heap :=
  match ids with
  | [] => Ok h
  | i :: ids => do a <- compose fuel h [] i; aggregate fuel (fst a) ids
  end.
