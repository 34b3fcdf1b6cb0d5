(** Specification of using the operations of a created application. *)
From Verif Require Import PyBase PyJson M_Url M_SpecVal S_SpecTree S_Merge S_MergeRef S_Patch S_Prepare M_Client M_Request M_Op S_Op M_Contrib.
Close Scope Q_scope.

(** [v] is, or is not, the text. *)
Definition text_is (v : val) (t : option str) : Prop := forall s, t = Some s <-> v = VStr s.
Section Declarations.
  (** Argument values [V] and primitives [P]: a value of the document as an argument; making a
      primitive for a parameter or schema, when it is read or written. *)
  Context {V P : Type} (plain : val -> V) (produce : bool -> val -> V -> res P).
  (** The parameter object [f], that has no reference, declares [q]. *)
  Record declares (f : val) (q : param (V:=V) (P:=P)) : Prop := {
    de_name : field_of f (lit "name") = Some (VStr (q_name q));
    de_in : field_of f (lit "in") = Some (VStr (q_in q));
    de_required : exists r, field_of f (lit "required") = Some r /\ (q_required q = false <-> empty_value r);
    de_default : exists d, field_of f (lit "default") = Some d /\ (says f (lit "default") /\ q_default q = Some (plain d) \/ ~ says f (lit "default") /\ q_default q = None);
    de_type : exists t, field_of f (lit "type") = Some t /\ text_is t (q_type q);
    de_items : exists i, field_of f (lit "items") = Some i /\
      (i = VNone /\ q_items q = None \/ exists t x, field_of i (lit "type") = Some t /\ q_items q = Some x /\ text_is t x);
    de_prim : exists s, field_of f (lit "schema") = Some s /\ forall v,
      q_in q = lit "body" /\ q_prim q v = produce false s v \/ q_in q <> lit "body" /\ q_prim q v = produce false f v }.

  (** The response object [f], that has no reference, declares [d]: how headers (texts, that
      become primitives) and bodies of the type [R] are read. *)
  Context {R : Type} (of_text : str -> V) (decode : val -> str -> R -> res V).
  Record describes (f : val) (d : rdecl (H:=str + P) (J:=str * R) (D:=P)) : Prop := {
    ds_headers : exists hs, field_of f (lit "headers") = Some hs /\ forall n,
      match key_in n hs with
      | Some h => exists g, sget n (rd_headers d) = Some g /\ forall s, g (inl s) = do c <- produce true h (of_text s); Ok (inr c)
      | None => sget n (rd_headers d) = None
      end;
    ds_schema : exists s, field_of f (lit "schema") = Some s /\
      (s = VNone /\ rd_schema d = None \/ s <> VNone /\ exists g, rd_schema d = Some g /\ forall ct raw, g (ct, raw) = do v <- decode s ct raw; produce true s v) }.

  (** The document at [url], and where references lead to in it *)
  Context (abs_uri win_uri : str -> str) (url : str) (doc : val).
  Definition leads (c : cls) (p : val) (l : list val) : Prop := exists h fs ints, p = VObj h fs ints /\ h_cls h = c /\ way abs_uri win_uri url doc c [h_place h] p l.
  (** [p], or what its references lead to, says that its field [n] is a text. *)
  Definition text_in (n : string) (p : val) (s : str) : Prop := exists l, leads CParameter p l /\
    (forall o v, In o l -> field_of o (lit n) = Some v -> ~ container v) /\ first_set (lit n) JNull l (VStr s).
  (** The parameters of a list that have other names than those before and those of [l] *)
  Inductive other_names : list val -> list val -> list val -> Prop :=
  | on_end l : other_names l [] []
  | on_skip l p ps more q n : In q l -> text_in "name" p n -> text_in "name" q n -> other_names l ps more -> other_names l (p :: ps) more
  | on_take l p ps more n : text_in "name" p n -> (forall q, In q l -> ~ text_in "name" q n) -> other_names (l ++ [p]) ps more -> other_names l (p :: ps) (p :: more).
  Definition elements (v : val) (l : list val) : Prop := empty_value v /\ l = [] \/ v = VList l.
  (** The parameters [ps] of an operation [op] in a path item [pi]: its own ones and those of the
      path item with other names; if it has none, all of the path item. *)
  Definition accepted (op pi : val) (ps : list val) : Prop :=
    exists own shared os ss, field_of op (lit "parameters") = Some own /\ field_of pi (lit "parameters") = Some shared /\ elements own os /\ elements shared ss /\
      (os = [] /\ ps = ss \/ os <> [] /\ exists more, other_names os ss more /\ ps = os ++ more).
  (** [q] is what a parameter of the document stands for. *)
  Definition stands_for (p : val) (q : param (V:=V) (P:=P)) : Prop := exists l f, leads CParameter p l /\ combined CParameter l f /\ declares f q.
  Definition answers (r : val) (d : rdecl (H:=str + P) (J:=str * R) (D:=P)) : Prop := exists l f, leads CResponse r l /\ combined CResponse l f /\ describes f d.
  (** Parameters that can be used: they have a name and a location, and everything that they refer
      to is in the document. *)
  Definition usable (p : val) : Prop := (exists n, text_in "name" p n) /\
    exists i, text_in "in" p i /\ In i [lit "query"; lit "formData"; lit "header"; lit "path"; lit "body"].
  (** A parameter as an entry of the list that requests read *)
  Definition listed (p : val) (x : oparam) : Prop := text_in "name" p (pa_name x) /\ text_in "in" p (pa_in x).
  (** The schema [s] of the body, for the parameters [ps]: that of the first one that is in the body *)
  Definition body_declared (ps : list val) (s : val) : Prop :=
    (forall p, In p ps -> ~ text_in "in" p (lit "body")) /\ s = VNone \/
    exists a p b l f, ps = a ++ p :: b /\ (forall q, In q a -> ~ text_in "in" q (lit "body")) /\ text_in "in" p (lit "body") /\
      leads CParameter p l /\ combined CParameter l f /\ field_of f (lit "schema") = Some s.
End Declarations.

(** What an operation says itself or takes from the document: a list of texts, *)
Definition taken (n : string) (op doc : val) (l : list str) : Prop :=
  exists own d x, field_of op (lit n) = Some own /\ field_of doc (lit n) = Some d /\ inherited own d x /\ x = VList (map VStr l).
(** the schemes, where that of the URL of the document counts if the document has none, *)
Definition taken_schemes (scheme : str) (op doc : val) (l : list str) : Prop :=
  exists own d x, field_of op (lit "schemes") = Some own /\ doc_schemes scheme doc d /\ inherited own d x /\ x = VList (map VStr l).
(** and the names of security definitions. *)
Definition taken_security (op doc : val) (s : option (list (list str))) : Prop :=
  exists own d x, field_of op (lit "security") = Some own /\ field_of doc (lit "security") = Some d /\ (own = VNone /\ x = d \/ own <> VNone /\ x = own) /\
    (empty_value x /\ s = None \/ exists ds, ds <> [] /\ x = VList (map VDict ds) /\ s = Some (map (map fst) ds)).

(** The parameters of a request for the converted ones of a call, see C23; header and query values
    are texts, files are what the primitives consist of. *)
Definition arranged {V P} (urls : P -> option (list str)) (show : P -> str) (files : P -> list file) (cs : list (param (V:=V) (P:=P) * P)) (p : params (B:=P)) : Prop :=
  exists s, placed urls show cs s /\
    p_header p = map (fun kv => (fst kv, CTok (snd kv))) (s_header s) /\ p_query p = map (fun kv => (fst kv, CTok (snd kv))) (s_query s) /\
    p_path p = s_path s /\ p_body p = s_body s /\ p_form p = s_form s /\
    Forall2 (fun a b => fst a = fst b /\ exists c, snd a = inl c /\ snd b = files c) (s_file s) (p_file p).

(** [r] is the request for calling the operation [op] at the path [k] with [args]: [qs] are its
    parameters, [ps] those in the document. *)
Definition requested {V P} (urls : P -> option (list str)) (show : P -> str) (files : P -> list file) (abs_uri win_uri : str -> str) (nu u : str) (doc : val) (k : str) (op : val)
    (ps : list val) (qs : list (param (V:=V) (P:=P))) (args : sdict V) (r : request (B:=P)) : Prop :=
  (forall n, In n (map fst args) -> In n (map q_name qs)) /\
  exists cs s host base os co pd, converted args qs cs /\ arranged urls show files cs (r_p r) /\
    urlparse nu = Ok s /\ host_is doc (u_netloc s) host /\ base_is doc base /\ taken "consumes" op doc co /\ taken "produces" op doc pd /\
    Forall2 (listed abs_uri win_uri u doc) ps os /\ r = new_request (Op (lit "//" ++ host ++ with_slash (base ++ k)) k co pd os) (r_p r).
(** The value [c] is the last one with the name [n] that goes to the location [loc]. *)
Definition carries {V P} (urls : P -> option (list str)) (loc : string) (cs : list (param (V:=V) (P:=P) * P)) (n : str) (c : P) : Prop :=
  exists a q b, cs = a ++ (q, c) :: b /\ q_name q = n /\ lands urls (lit loc) (q, c) /\ forall x, In x b -> lands urls (lit loc) x -> q_name (fst x) <> n.
Definition no_braces (s : str) : Prop := ~ In "{"%char s /\ ~ In "}"%char s.
Definition none_lands {V P} (urls : P -> option (list str)) (loc : string) (cs : list (param (V:=V) (P:=P) * P)) : Prop := forall x, In x cs -> ~ lands urls (lit loc) x.
Definition no_file {V P} (urls : P -> option (list str)) (cs : list (param (V:=V) (P:=P) * P)) : Prop := forall x, In x cs -> ~ is_file urls (fst x) (snd x).
