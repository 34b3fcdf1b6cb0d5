(** Specification of composing schemas. *)
From Verif Require Import PyBase PyJson M_SpecVal S_Merge M_Aggt.
Close Scope Q_scope.

Section Heap.
  Context (h : heap).
  Definition is_node (i : oid) (n : node) : Prop := nth_error h i = Some n.
  (** Following references from a schema ends at another. *)
  Inductive ends : oid -> oid -> Prop :=
  | ends_here i n : is_node i n -> s_ref n = None -> ends i i
  | ends_there i n j k : is_node i n -> s_ref n = Some j -> ends j k -> ends i k.
  (** [j] is one of the schemas that [i] is composed of, at any distance. *)
  Inductive member : oid -> oid -> Prop :=
  | member_direct i n m j : is_node i n -> In m (s_allof n) -> ends m j -> member i j
  | member_next i j k : member i j -> member j k -> member i k.
  Definition part (i j : oid) : Prop := i = j \/ member i j.
  Definition property (i : oid) (k : str) (p : oid) : Prop := exists n, is_node i n /\ sget k (s_props n) = Some p.
  Definition field (i : oid) (k : string) (v : val) : Prop := exists n, is_node i n /\ sget (lit k) (s_plain n) = Some v.
  Definition requires (i : oid) (x : str) : Prop := exists l, field i "required" (VList l) /\ In (VStr x) l.
  Definition final_is (i f : oid) : Prop := exists n, is_node i n /\ s_final n = Some f.

  (** ** Copies *)
  (** The same value; of a list, equal elements may have been dropped. *)
  Definition covered (l m : list val) : Prop := forall x, In x l -> exists y, In y m /\ (x = y \/ equal_elems x y).
  Inductive same_value : val -> val -> Prop :=
  | sv_same v : same_value v v
  | sv_list l m : covered l m -> covered m l -> same_value (VList l) (VList m).
  Definition same_plain (f g : sdict val) : Prop := map fst f = map fst g /\ forall n v w, sget n f = Some v -> sget n g = Some w -> same_value v w.
  (** A schema with the same values and the same reference, whose own schemas are copies, too. *)
  Inductive copy : oid -> oid -> Prop :=
  | copy_node i j n m : is_node i n -> is_node j m -> same_plain (s_plain n) (s_plain m) -> s_ref n = s_ref m ->
      copy_opt (s_items n) (s_items m) -> copy_list (s_allof n) (s_allof m) -> copy_dict (s_props n) (s_props m) -> copy_addl (s_addl n) (s_addl m) -> copy i j
  with copy_opt : option oid -> option oid -> Prop :=
  | co_none : copy_opt None None
  | co_some i j : copy i j -> copy_opt (Some i) (Some j)
  with copy_list : list oid -> list oid -> Prop :=
  | cl_nil : copy_list [] []
  | cl_cons i j l m : copy i j -> copy_list l m -> copy_list (i :: l) (j :: m)
  with copy_dict : sdict oid -> sdict oid -> Prop :=
  | cd_nil : copy_dict [] []
  | cd_cons k i j d e : copy i j -> copy_dict d e -> copy_dict ((k, i) :: d) ((k, j) :: e)
  with copy_addl : addl -> addl -> Prop :=
  | ca_bool b : copy_addl (ABool b) (ABool b)
  | ca_obj i j : copy i j -> copy_addl (AObj i) (AObj j).

  (** ** The composed schema [f] of [i] *)
  Definition composed (i f : oid) : Prop :=
    (* it has the properties of all its parts, and no others; *)
    (forall k, (exists q, property f k q) <-> exists j p, part i j /\ property j k p) /\
    (* copies of its own properties; for the others, of a property of a part; *)
    (forall k p, property i k p -> exists q, property f k q /\ copy p q) /\
    (forall k q, property f k q -> exists j p, part i j /\ property j k p /\ copy p q) /\
    (* it requires what any of its parts requires; *)
    (forall x, requires f x <-> exists j, part i j /\ requires j x) /\
    (* its own values stay. *)
    (forall k v, field i k v -> ~ empty_value v -> ~ container v -> field f k v).

  (** ** Schemas as they are before *)
  Definition holds (n : node) (j : oid) : Prop := s_items n = Some j \/ In j (s_allof n) \/ (exists k, In (k, j) (s_props n)) \/ s_addl n = AObj j.
  (** No schema is inside itself. *)
  Inductive tree : nat -> oid -> Prop :=
  | tree_node d i n : is_node i n -> (forall j, holds n j -> tree d j) -> tree (S d) i.
End Heap.
(** All schemas that are referred to exist, with all fields; schemas are trees, keys are unique
    and the composed schemas are missing.  References may go in circles. *)
Definition fresh_heap (h : heap) : Prop :=
  forall i n, is_node h i n -> (exists d, tree h d i) /\ (forall j, s_ref n = Some j -> exists m, is_node h j m) /\ s_final n = None /\ NoDup (map fst (s_props n)) /\
    map fst (s_plain n) = map fst plain_fields.
(** Lists and dicts are not mixed with other values in the same field, so they can be
    merged. *)
Definition always (h : heap) (k : string) (P : val -> Prop) : Prop := forall i v, field h i k v -> P v.
Definition list_or_none (v : val) : Prop := (exists l, v = VList l) \/ v = VNone.
Definition dict_or_none (v : val) : Prop := (exists d, v = VDict d) \/ v = VNone.
Definition regular (h : heap) : Prop :=
  always h "required" list_or_none /\
  forall k, always h k list_or_none \/ always h k dict_or_none \/ always h k (fun v => ~ container v).
(** A schema is as before, except for its composed schema. *)
Definition unchanged (h h' : heap) (i : oid) : Prop :=
  exists n m, is_node h i n /\ is_node h' i m /\
    s_plain m = s_plain n /\ s_ref m = s_ref n /\ s_items m = s_items n /\ s_allof m = s_allof n /\ s_props m = s_props n /\ s_addl m = s_addl n.
