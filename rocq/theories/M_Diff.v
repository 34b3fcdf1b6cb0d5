(** Model of pyswagger/utils.py:482-565 ([_diff_]). *)
From Verif Require Import PyBase PyJson M_JsonPtr.

(** One reported difference: list lengths, a missing key, two types, two values.  Type
    names are kept as [jty]. *)
Inductive kind := DLen (n m : nat) | DKey | DType (s t : jty) | DVal (x y : json).
Definition entry := (str * kind)%type.

Section Diff.
  (** The order in which a Python set of strings is iterated (it depends on the hash
      seed), and whether [sorted] of a list of lists succeeds. *)
  Context (order : list str -> list str) (sort_lists : list json -> bool).
  (** The filters (utils.py:482). *)
  Context (include exclude : list str).

  (** utils.py:494-498: the keys looked at *)
  Definition visible (k : str) : bool :=
    (if nonempty include then mem k include else true) && negb (mem k exclude).
  Definition keys (d : sdict json) : list str := filter visible (map fst d).

  (** utils.py:521-527: [reduce(r, l)], all elements have the type of the first; [None] when
      it raises ValueError. *)
  Definition element_type (l : list json) : option jty :=
    match l with
    | [] => None
    | x :: l => if forallb (fun y => jty_eqb (jtype y) (jtype x)) l then Some (jtype x) else None
    end.
  (** utils.py:529-536 *)
  Definition int_like (t : jty) : bool := match t with TInt | TBool => true | _ => false end.
  Definition comparable (t u : jty) : bool := (int_like t && int_like u) || jty_eqb t u.
  (** utils.py:540-541: does [sorted(l)] succeed on a list with elements of type [t]? *)
  Definition sorts (t : jty) (l : list json) : bool :=
    match t with
    | TDict => true (* not sorted *)
    | TNone => Nat.leb (length l) 1
    | TList => sort_lists l
    | _ => true
    end.

  Definition sub (k jp : str) : str :=
    match jp_compose (JPStr k) (Some jp) with Some p => p | None => [] end.

  (** utils.py:494-509 [_dict_]: added keys, removed keys, then the common ones.  [subs]
      compares the value of a key of src. *)
  Definition diff_dict (subs : sdict (json -> str -> res (list entry))) (src dst : sdict json) (jp : str) : res (list entry) :=
    let ss := keys src in let sd := keys dst in
    let added := map (fun k => (sub k jp, DKey)) (order (filter (fun k => negb (mem k ss)) sd)) in
    let removed := map (fun k => (sub k jp, DKey)) (order (filter (fun k => negb (mem k sd)) ss)) in
    do rest <- fold_left (fun acc k =>
        do l <- acc;
        match sget k subs, sget k dst with
        | Some f, Some d => do e <- f d (sub k jp); Ok (l ++ e)
        | _, _ => Err KeyError
        end) (order (filter (fun k => mem k sd) ss)) (Ok []);
    Ok (added ++ removed ++ rest).

  (** utils.py:482-492, 551-565 *)
  Fixpoint diff (src dst : json) (jp : str) {struct src} : res (list entry) :=
    match src with
    | JObj s => match dst with
                | JObj d => diff_dict (map (fun kv => match kv with (k, v) => (k, fun d jp => diff v d jp) end) s) s d jp
                | _ => Ok [(jp, DType TDict (jtype dst))]
                end
    | JList s =>
        match dst with
        | JList d =>
            (* utils.py:511-549 [_list_] *)
            if negb (Nat.eqb (length s) (length d)) then Ok [(jp, DLen (length s) (length d))]
            else if Nat.eqb (length s) 0 then Ok []
            else match element_type s, element_type d with
                 | Some ts, Some td =>
                     if negb (comparable ts td) then Ok [(jp, DType ts td)]
                     else if negb (sorts ts s && sorts ts d) then Err TypeError
                     else (fix go (i : nat) (s d : list json) {struct s} : res (list entry) :=
                             match s, d with
                             | x :: s, y :: d =>
                                 do e <- diff x y (sub (str_of_Z (Z.of_nat i)) jp);
                                 do r <- go (S i) s d; Ok (e ++ r)
                             | _, _ => Ok []
                             end) 0 s d
                 | _, _ => Err ValueError
                 end
        | _ => Ok [(jp, DType TList (jtype dst))]
        end
    | _ => if py_eqb src dst then Ok [] else Ok [(jp, DVal src dst)]
    end.
End Diff.
