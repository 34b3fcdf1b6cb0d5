(** Model of the URLs of files, on a POSIX system. *)
From Verif Require Import PyBase M_Quote.

(** utils.py:299-308 with utils.py:326: [pathlib.Path(os.path.abspath(p)).as_uri()], which is
    ['file://' + quote_from_bytes(os.fsencode(path))] for an absolute path.  [abspath]: os.path.abspath,
    whose results pathlib leaves as they are.  Simplified: the encoding of file names is UTF-8. *)
Definition as_uri (abspath : str -> str) (p : str) : str := lit "file://" ++ quote (abspath p) (lit "/").
