(** Model of following references between parameters, responses and path items:
    [_merge] and the [Merge] scanner (pyswagger/scanner/v2_0/merge.py:18-59). *)
From Verif Require Import PyBase PyJson M_SpecVal M_Parse M_SpecTree M_Merge.
Close Scope Q_scope.

(** [r and len(r) > 0] for a reference [r]: the reference to follow, or none.  Simplified: a
    reference that is neither empty nor a text is refused at once; Python would fail on it
    when resolving it, if not before. *)
Definition reference (v : val) : res (option str) :=
  if falsy v then Ok None else match v with VStr s => Ok (Some s) | _ => Err TypeError end.
(** [getattr(obj, '$ref')] *)
Definition ref_of (v : val) : res (option str) :=
  match v with
  | VObj _ fs _ => match sget (lit "$ref") fs with Some r => reference r | None => Err AttributeError end
  | _ => Err AttributeError
  end.
(** [update] of utils.py:103-106 would raise *)
Definition visited (guard : list place) (v : val) : bool :=
  match v with VObj h _ _ => existsb (place_eqb (h_place h)) guard | _ => false end.
Definition same_class (c : cls) (v : val) : bool :=
  match v with VObj h _ _ => cls_eqb c (h_cls h) | _ => false end.
Definition place_in (v : val) : list place := match v with VObj h _ _ => [h_place h] | _ => [] end.

Section Follow.
  (** [app.resolve] with the parser of the class *)
  Context (look : str -> res val).
  (** merge.py:28-42 *)
  Fixpoint follow (fuel : nat) (c : cls) (result : val) (guard : list place) (r : option str) : res val :=
    match r with
    | None => Ok result
    | Some s =>
        match fuel with
        | O => Err OutOfFuel
        | S fuel =>
            do ro <- look s;
            if negb (same_class c ro) then Err TypeError
            else if visited guard ro then Ok result
            else
              do result <- merge result ro [];
              do r <- ref_of ro;
              follow fuel c result (place_in ro ++ guard) r
        end
    end.
  (** merge.py:18-43; the new object is made at [pl] *)
  Definition merge_refs (fuel : nat) (pl : place) (obj : val) : res val :=
    match obj with
    | VObj h _ _ =>
        do result <- fresh (h_cls h) pl;
        do result <- merge result obj [];
        do r <- ref_of obj;
        follow fuel (h_cls h) result [h_place h] r
    | _ => Err AttributeError
    end.
End Follow.

(** base.py:246-257 for a field that is there *)
Definition update_field (f : str) (x : val) (v : val) : res val :=
  match v with
  | VObj h fs ints =>
      let h' := Head (h_cls h) (h_place h) (h_parent h) (f :: h_keys h) in
      if smem f fs then Ok (VObj h' (sset f x fs) ints)
      else if smem f ints then Ok (VObj h' fs (sset f x ints))
      else Err AttributeError
  | _ => Err AttributeError
  end.
(** merge.py:50-59: what becomes of a visited object.  [pl] is where its new object is made. *)
Definition merge_visit (look : str -> res val) (fuel : nat) (pl : place) (obj : val) : res val :=
  match obj with
  | VObj h _ _ =>
      match h_cls h with
      | CParameter | CResponse => do f <- merge_refs look fuel pl obj; update_field "final"%string f obj
      | CPathItem => do f <- merge_refs look fuel pl obj; merge obj f []
      | _ => Ok obj
      end
  | _ => Ok obj
  end.
