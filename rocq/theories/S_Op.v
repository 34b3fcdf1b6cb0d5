(** Specification of operation calls (C23) and responses (C24). *)
From Verif Require Import PyBase PyFacts M_Client M_Op.

Section Call.
  Context {V P : Type} (urls : P -> option (list str)) (show : P -> str).
  Notation param := (param (V:=V) (P:=P)).

  (** The value a parameter gets: the caller's, else the declared default. *)
  Definition supplied (k : sdict V) (q : param) : option V :=
    match sget (q_name q) k with Some v => Some v | None => q_default q end.

  (** [cs]: the supplied parameters with their converted values, in declaration order. *)
  Fixpoint converted (k : sdict V) (ps : list param) (cs : list (param * P)) : Prop :=
    match ps with
    | [] => cs = []
    | q :: ps =>
        match supplied k q with
        | None => q_required q = false /\ converted k ps cs
        | Some v => exists c cs', cs = (q, c) :: cs' /\ q_prim q v = Ok c /\ converted k ps cs'
        end
    end.

  (** Files: type 'file', or an array of files in the query or form. *)
  Definition listy (q : param) : Prop := q_in q = lit "query" \/ q_in q = lit "formData".
  Definition is_file (q : param) (c : P) : Prop :=
    q_type q = Some (lit "file") \/
    (listy q /\ urls c <> None /\ q_items q = Some (Some (lit "file"))).
  (** The text(s) of a query or form value: one per array element, or one. *)
  Definition texts (c : P) : list str := match urls c with Some us => us | None => [show c] end.
  (** The (name, text) pairs a parameter contributes to its list container. *)
  Definition pairs (qc : param * P) : list (str * str) := map (fun u => (q_name (fst qc), u)) (texts (snd qc)).

  (** Which container, by location. *)
  Definition lands (loc : str) (qc : param * P) : Prop := q_in (fst qc) = loc /\ ~ is_file (fst qc) (snd qc).
  (** [l] picks exactly the elements of [cs] satisfying [p], in order. *)
  Inductive picks {A : Type} (p : A -> Prop) : list A -> list A -> Prop :=
  | picks_nil : picks p [] []
  | picks_yes x cs l : p x -> picks p cs l -> picks p (x :: cs) (x :: l)
  | picks_no x cs l : ~ p x -> picks p cs l -> picks p (x :: cs) l.
  (** A dict filled from named values: unique names, the last value wins. *)
  Definition filled {A} (l : list (str * A)) (d : sdict A) : Prop :=
    NoDup (map fst d) /\
    forall n, sget n d = option_map snd (find (fun e => str_eqb (fst e) n) (rev l)).
  Definition named (qc : param * P) := (q_name (fst qc), snd qc).
  Definition named_text (qc : param * P) := (q_name (fst qc), show (snd qc)).

  (** The six containers. *)
  Definition placed (cs : list (param * P)) (s : pset) : Prop :=
    (exists l, picks (lands (lit "query")) cs l /\ s_query s = flat_map pairs l) /\
    (exists l, picks (lands (lit "formData")) cs l /\ s_form s = flat_map pairs l) /\
    (exists l, picks (lands (lit "header")) cs l /\ filled (map named_text l) (s_header s)) /\
    (exists l, picks (lands (lit "path")) cs l /\ filled (map named_text l) (s_path s)) /\
    (exists l, picks (lands (lit "body")) cs l /\ filled (map named l) (s_body s)) /\
    (exists l, picks (fun qc => is_file (fst qc) (snd qc)) cs l /\
       filled (map (fun qc => (q_name (fst qc), inl (snd qc))) l) (s_file s)).

  (** The five locations of the specification; an array needs [items]. *)
  Definition well_placed (q : param) : Prop :=
    In (q_in q) [lit "query"; lit "formData"; lit "header"; lit "path"; lit "body"].
  Definition has_items (qc : param * P) : Prop :=
    q_type (fst qc) <> Some (lit "file") -> listy (fst qc) -> urls (snd qc) <> None -> q_items (fst qc) <> None.
End Call.

Section Response.
  Context {H R J D : Type} (text : H -> option str).
  Notation rdecl := (rdecl (H:=H) (J:=J) (D:=D)).
  Notation resp := (resp (H:=H) (R:=R) (D:=D)).

  (** The values of header [n] (any letter case), oldest first. *)
  Definition values (n : str) (s : resp) : list H :=
    match cid_get n (p_hdr s) with Ok l => l | Err _ => [] end.
  (** A received header after conversion with the declaration of exactly that name. *)
  Definition received (r : option rdecl) (kv : str * H) (w : H) : Prop :=
    match r with
    | Some d => match sget (fst kv) (rd_headers d) with Some f => f (snd kv) = Ok w | None => w = snd kv end
    | None => w = snd kv
    end.
  (** The values received under name [n], in order. *)
  Definition received_as (n : str) (r : option rdecl) (l : list (str * H)) (ws : list H) : Prop :=
    exists all, Forall2 (received r) l all /\
      ws = map snd (filter (fun e => str_eqb (lower (fst (fst e))) (lower n)) (combine l all)).
  (** The response object for a status: its own entry, else 'default'. *)
  Definition decl_for (rs : sdict rdecl) (st : option Z) (r : option rdecl) : Prop :=
    let key := match st with Some z => str_of_Z z | None => lit "None" end in
    match sget key rs with Some d => r = Some d | None => r = sget (lit "default") rs end.
  (** The content type: of the first content-type header received, else JSON. *)
  Definition media (s : resp) (ct : str) : Prop :=
    match values (lit "content-type") s with
    | h :: _ => exists x, text h = Some x /\ ct = lower x
    | [] => ct = lit "application/json"
    end.
End Response.
