(** Independent specification of URLs: the text of a hierarchical URL and when its
    components are well formed. *)
From Verif Require Import PyBase M_Url.

(** A delimiter followed by a part, nothing if the part is empty. *)
Definition part (d : ascii) (s : str) : str := match s with [] => [] | _ => d :: s end.

(** scheme://netloc/path;params?query#fragment *)
Definition show (u : url6) : str :=
  u_scheme u ++ lit "://" ++ u_netloc u ++ u_path u ++
  part ";" (u_params u) ++ part "?" (u_query u) ++ part "#" (u_frag u).

Definition without (cs : str) (s : str) : Prop := forall c, In c cs -> ~ In c s.

(** A scheme: a letter, then letters, digits, '+', '-', '.', all in lower case. *)
Definition scheme_ok (s : str) : Prop :=
  exists c s', s = c :: s' /\ is_alpha c = true /\
    (forall x, In x s -> scheme_char x = true /\ lower_char x = x).

(** The last path segment. *)
Definition last_segment (p : str) : str := last (split "/"%string p) [].

Record url_ok (u : url6) : Prop := {
  ok_scheme : scheme_ok (u_scheme u);
  ok_host : u_netloc u <> [] \/ In (u_scheme u) uses_netloc;
  ok_netloc : without (lit "/?#[]") (u_netloc u);
  ok_path : without (lit "?#") (u_path u);
  ok_path_abs : u_path u = [] \/ exists p, u_path u = "/"%char :: p;
  ok_params : without (lit "/?#") (u_params u);
  ok_params_seg : ~ In ";"%char (last_segment (u_path u));
  ok_params_path : u_params u <> [] -> In (u_scheme u) uses_params /\ u_path u <> [];
  ok_query : ~ In "#"%char (u_query u) }.

(** A text that starts with a scheme. *)
Definition has_scheme (s : str) : Prop :=
  exists c a b, s = c :: a ++ ":"%char :: b /\ is_alpha c = true /\
    forallb scheme_char (c :: a) = true.

(** Dot segments. *)
Definition dots (s : str) : Prop := s <> [] /\ forall c, In c s -> c = "."%char.
Definition up (s : str) : Prop := dots s /\ s <> lit ".".

(** [f] removes dot segments: '.' disappears, two or more dots cancel the segment
    before it (or nothing at the root). *)
Record removes_dots (f : list str -> list str) : Prop := {
  rd_plain : forall l, (forall s, In s l -> ~ dots s) -> f l = l;
  rd_dot : forall a b, f (a ++ lit "." :: b) = f (a ++ b);
  rd_up : forall a x u b, (forall s, In s a -> ~ dots s) -> ~ dots x -> up u ->
          f (a ++ x :: u :: b) = f (a ++ b);
  rd_up_root : forall u b, up u -> f (u :: b) = f b }.

(** [e] is the extension of the last component of [p]: ".name" after a stem that is not
    made of dots only. *)
Definition has_ext (p e : str) : Prop :=
  exists dir stem b, p = dir ++ stem ++ e /\ e = "."%char :: b /\
    (dir = [] \/ exists d, dir = d ++ ["/"%char]) /\
    ~ In "/"%char stem /\ ~ In "/"%char b /\ ~ In "."%char b /\
    (exists c, In c stem /\ c <> "."%char).

(** [path] with extension [e], unless it ends with it already. *)
Definition completed (path e : str) : str := if endswith path e then path else path ++ e.

Definition rtrim1 (p : str) : str := if endswith p "/"%string then removelast p else p.

Definition ltrim1 (p : str) : str := match p with "/"%char :: p' => p' | _ => p end.

(** The extensions of documents. *)
Definition doc_exts : list str := [lit ".json"; lit ".yaml"; lit ".yml"].
