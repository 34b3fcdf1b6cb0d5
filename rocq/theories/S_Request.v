(** Independent reader for multipart/form-data bodies (RFC 2046, RFC 2388), and what a
    request is expected to carry. *)
From Verif Require Import PyBase S_Quote M_Client M_Request.

Record part := Part {
  pt_name : str; pt_filename : option str; pt_headers : list (str * str); pt_content : str }.

(** What is before and after the first [c]. *)
Fixpoint upto (c : ascii) (s : str) : option (str * str) :=
  match s with
  | [] => None
  | x :: s' => if Ascii.eqb x c then Some ([], s')
               else match upto c s' with Some (a, b) => Some (x :: a, b) | None => None end
  end.
Definition strip_prefix (p s : str) : option str :=
  if prefixb p s then Some (skipn (length p) s) else None.

(** Header lines up to an empty line, and what follows. *)
Fixpoint read_lines (cur s : str) : option (list str * str) :=
  match s with
  | [] => None
  | c :: s' =>
      if Ascii.eqb c "013" then
        match s' with
        | d :: s'' =>
            if Ascii.eqb d "010" then
              match cur with
              | [] => Some ([], s'')
              | _ => match read_lines [] s'' with
                     | Some (ls, rest) => Some (rev cur :: ls, rest)
                     | None => None
                     end
              end
            else read_lines (c :: cur) s'
        | [] => None
        end
      else read_lines (c :: cur) s'
  end.
(** "Name: value" *)
Definition read_header (line : str) : option (str * str) :=
  match upto ":" (utf8_read line) with
  | Some (n, " "%char :: v) => Some (n, v)
  | _ => None
  end.
(** form-data; name="..." [; filename="..."] *)
Definition read_disposition (v : str) : option (str * option str) :=
  match strip_prefix (lit "form-data; name=" ++ [""""%char]) v with
  | None => None
  | Some v =>
      match upto """" v with
      | None => None
      | Some (name, []) => Some (name, None)
      | Some (name, v) =>
          match strip_prefix (lit "; filename=" ++ [""""%char]) v with
          | None => None
          | Some v => match upto """" v with
                      | Some (fname, []) => Some (name, Some fname)
                      | _ => None
                      end
          end
      end
  end.
Fixpoint all_some {A} (l : list (option A)) : option (list A) :=
  match l with
  | [] => Some []
  | Some x :: l' => match all_some l' with Some r => Some (x :: r) | None => None end
  | None :: _ => None
  end.
Definition read_part (s : str) : option part :=
  match s with
  | "013"%char :: "010"%char :: s =>
      match read_lines [] s with
      | Some (lines, content) =>
          match all_some (map read_header lines) with
          | Some ((n, v) :: hs) =>
              if str_eqb n "Content-Disposition"%string then
                match read_disposition v with
                | Some (name, fname) => Some (Part name fname hs content)
                | None => None
                end
              else None
          | _ => None
          end
      | None => None
      end
  | _ => None
  end.
(** The delimiter is CRLF "--" boundary; the last one is followed by "--" CRLF. *)
Definition read_multipart (b body : str) : option (list part) :=
  match split (["013"%char; "010"%char] ++ lit "--" ++ b) (["013"%char; "010"%char] ++ body) with
  | [] :: pieces =>
      match rev pieces with
      | final :: rev_parts =>
          if str_eqb final (lit "--" ++ ["013"%char; "010"%char])
          then all_some (map read_part (rev rev_parts)) else None
      | [] => None
      end
  | _ => None
  end.

(** The parts a request's form fields and files must give.  Text is sent as UTF-8. *)
Inductive field_as_part : str * str -> part -> Prop :=
| FieldPart k v c : utf8_read c = v -> field_as_part (k, v) (Part k None [] c).
Definition file_bytes (disk : str -> res str) (f : file) (c : str) : Prop :=
  match f_data f with
  | OnDisk => disk (f_name f) = Ok c
  | Stream rest true => utf8_read c = rest
  | Stream rest false => c = rest
  end.
Definition sent_headers (f : file) : list (str * str) :=
  flat_map (fun k => match sget k (f_header f) with Some v => [(k, v)] | None => [] end)
           [lit "Content-Type"; lit "Content-Transfer-Encoding"].
Inductive file_as_part (disk : str -> res str) : str * file -> part -> Prop :=
| FilePart k f c : file_bytes disk f c ->
    file_as_part disk (k, f) (Part k (Some (f_name f)) (sent_headers f) c).
(** The files of a request in order. *)
Definition all_files (d : sdict (list file)) : list (str * file) :=
  flat_map (fun g => map (fun f => (fst g, f)) (snd g)) d.

(** Names that can be written between quotes, and values that fit on a header line. *)
Definition quotable (s : str) : Prop := ~ In """"%char s /\ ~ In "013"%char s.
Definition one_line (s : str) : Prop := ~ In "013"%char s.

(** Two files, and two file tables, that differ at most in how far their file-like
    objects have been read. *)
Definition file_like (f g : file) : Prop :=
  f_name f = f_name g /\ f_header f = f_header g /\
  (f_data f = f_data g \/
   exists r r' t, f_data f = Stream r t /\ f_data g = Stream r' t).
Definition files_like (d e : sdict (list file)) : Prop :=
  Forall2 (fun g h => fst g = fst h /\ Forall2 file_like (snd g) (snd h)) d e.
(** No file is a file-like object. *)
Definition no_streams (d : sdict (list file)) : Prop :=
  forall k f, In (k, f) (all_files d) -> f_data f = OnDisk.
(** The calls that read the files of the request. *)
Definition reads_files (c : call) : bool :=
  match c with CPrepare _ _ true => true | _ => false end.
Definition is_secure (c : call) : bool := match c with CSecure => true | _ => false end.
