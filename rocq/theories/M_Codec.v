(** Model of pyswagger/primitives/codec.py:6-52 (MIME codec registry). *)
From Verif Require Import PyBase.

Section Codec.
  (** A codec: its identity and its two functions ([R] raw text, [D] data). *)
  Context {R D : Type}.
  Record codec := Codec { co_marshal : D -> res R; co_unmarshal : R -> res D }.
  (** codec.py:7-13 [MimeCodec._codecs].  [MimeCodec()] is [init plain json]. *)
  Definition table := sdict codec.
  (** codec.py:15-16 *)
  Definition register (mime : str) (c : codec) (t : table) : table := sset (lower mime) c t.
  (** codec.py:7-13 *)
  Definition init (plain json : codec) : table :=
    register (lit "text/json") json
      (register (lit "application/json") json (register (lit "text/plain") plain [])).
  (** codec.py:18-19: dict.pop without default *)
  Definition unregister (mime : str) (t : table) : res table :=
    if smem (lower mime) t then Ok (sdel (lower mime) t) else Err KeyError.
  (** codec.py:21-24; [split(';', 1)[0]] is the text before the first ';'. *)
  Definition lookup (mime : str) (t : table) : option codec :=
    sget (lower (strip (hd [] (split (lit ";") mime)))) t.
  (** codec.py:26-30: codec objects are truthy *)
  Definition marshal (mime : str) (v : D) (t : table) : res R :=
    match lookup mime t with None => Err GenericException | Some c => co_marshal c v end.
  (** codec.py:32-36 *)
  Definition unmarshal (mime : str) (d : R) (t : table) : res D :=
    match lookup mime t with None => Err GenericException | Some c => co_unmarshal c d end.

  (** A caller's history of registrations; a failing unregister changes nothing. *)
  Inductive event := Reg (mime : str) (c : codec) | Unreg (mime : str).
  Definition apply (t : table) (e : event) : table :=
    match e with
    | Reg m c => register m c t
    | Unreg m => match unregister m t with Ok t' => t' | Err _ => t end
    end.
  Definition run (t : table) (es : list event) : table := fold_left apply es t.
End Codec.
