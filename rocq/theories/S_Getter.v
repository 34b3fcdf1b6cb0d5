(** Specification of locating files, and of getting parts of documents. *)
From Verif Require Import PyBase PyInt PyJson S_Url M_Getter.
Close Scope Q_scope.

(** ** Files *)
(** Names of documents that are found in folders, in this order. *)
Definition well_known : list str := [lit "resource_list.json"; lit "swagger.json"; lit "swagger.yaml"; lit "swagger.yml"].
Definition in_folder (p n : str) : str :=
  match p with [] => n | _ => if endswith p "/"%string then p ++ n else p ++ "/"%char :: n end.
(** Not a URL, and no drive letter in front. *)
Definition plain_path (p : str) : Prop :=
  startswith p "file://"%string = false /\
  ~ exists d rest, p = "/"%char :: d ++ ":"%char :: rest /\ d <> [] /\ forall c, In c d -> exists n, 65 <= n <= 90 /\ c = ascii_of_nat n.
Definition doc_ext (p : str) : Prop := exists e, In e doc_exts /\ has_ext p e.
(** The last component of the path has some other character than dots. *)
Definition named (p : str) : Prop :=
  exists dir stem c, p = dir ++ stem /\ (dir = [] \/ exists d, dir = d ++ ["/"%char]) /\ ~ In "/"%char stem /\ In c stem /\ c <> "."%char.
(** [x] is the first element of [l] that satisfies [P]. *)
Definition first_of {A} (P : A -> Prop) (l : list A) (x : A) : Prop := exists l1 l2, l = l1 ++ x :: l2 /\ P x /\ forall y, In y l1 -> ~ P y.

(** ** Parts of documents *)
(** [y] is at the end of [ts] in [x]. *)
Inductive selects : json -> list str -> json -> Prop :=
| sel_here x : selects x [] x
| sel_key d k x ts y : sget k d = Some x -> selects x ts y -> selects (JObj d) (k :: ts) y
| sel_item l i x ts y : nth_error l i = Some x -> selects x ts y -> selects (JList l) (str_of_Z (Z.of_nat i) :: ts) y.
Definition is_empty (j : json) : Prop :=
  j = JNull \/ j = JBool false \/ j = JInt 0 \/ (exists q, j = JFloat q /\ (q == 0)%Q) \/ j = JStr [] \/ j = JList [] \/ j = JObj [].
(** [doc] has been got for the URL, and is not empty. *)
Definition got (st : rstate) (url : str) (doc : json) : Prop := exists l1 src l2, r_log st = l1 ++ (url, src, Ok doc) :: l2 /\ ~ is_empty doc.
(** A token that is read as an integer is written as one: decimal, without sign. *)
Definition decimal_if_number (t : str) : Prop := forall z, py_int t = Ok z -> exists i, t = str_of_Z (Z.of_nat i).
