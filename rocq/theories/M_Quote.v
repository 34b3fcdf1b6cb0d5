(** Model of the parts of Python's urllib.parse and str.format used by
    pyswagger/io.py:55-63, 194-202: UTF-8, quote_plus, urlencode, [str.format]. *)
From Verif Require Import PyBase M_Url.

(** ** [s.encode('utf-8')].  Characters are Latin-1 (see PyBase): one byte below
    U+0080, two bytes above. *)
Definition utf8_char (c : ascii) : str :=
  let n := nat_of_ascii c in
  if n <? 128 then [c] else [ascii_of_nat (192 + n / 64); ascii_of_nat (128 + n mod 64)].
Definition utf8 (s : str) : str := flat_map utf8_char s.

(** ** urllib.parse (CPython 3.11): [_ALWAYS_SAFE] and [_Quoter.__missing__] *)
Definition always_safe (c : ascii) : bool :=
  is_alpha c || is_digit c || Ascii.eqb c "_" || Ascii.eqb c "." || Ascii.eqb c "-" || Ascii.eqb c "~".
Definition hex_digit (n : nat) : ascii :=
  if n <? 10 then ascii_of_nat (48 + n) else ascii_of_nat (55 + n).
Definition quote_byte (safe : str) (b : ascii) : str :=
  if always_safe b || has b safe then [b]
  else ["%"%char; hex_digit (nat_of_ascii b / 16); hex_digit (nat_of_ascii b mod 16)].
(** [quote(s, safe)]; the shortcut for texts that are all safe gives the same result. *)
Definition quote (s safe : str) : str := flat_map (quote_byte safe) (utf8 s).
(** [quote_plus(s)] with [safe=''] *)
Definition quote_plus (s : str) : str :=
  if negb (has " " s) then quote s []
  else replace (quote s (lit " ")) " "%string "+"%string.

(** [urlencode(query)] for a list of pairs of strings, [doseq=False] *)
Definition urlencode (l : list (str * str)) : str :=
  join "&"%string (map (fun kv => quote_plus (fst kv) ++ "="%char :: quote_plus (snd kv)) l).

(** ** [s.format( **params)] with string values.
    A field that asks for an attribute, an index, a conversion or a format spec
    (contains one of ". [ ! :") is not modelled: the model raises ValueError.
    An empty or numeric field names a positional argument: IndexError. *)
Definition special_field (f : str) : bool :=
  existsb (fun c => has c f) ["."%char; "["%char; "!"%char; ":"%char].
Definition field_value (params : sdict str) (f : str) : res str :=
  if special_field f then Err ValueError
  else if forallb is_digit f then Err IndexError
  else match sget f params with Some v => Ok v | None => Err KeyError end.
(** [field] is the text read so far of the field being scanned (reversed). *)
Fixpoint format_aux (params : sdict str) (field : option str) (s : str) : res str :=
  match field with
  | None =>
      match s with
      | [] => Ok []
      | "{"%char :: "{"%char :: s' => do r <- format_aux params None s'; Ok ("{"%char :: r)
      | "{"%char :: s' => format_aux params (Some []) s'
      | "}"%char :: "}"%char :: s' => do r <- format_aux params None s'; Ok ("}"%char :: r)
      | "}"%char :: _ => Err ValueError
      | c :: s' => do r <- format_aux params None s'; Ok (c :: r)
      end
  | Some acc =>
      match s with
      | [] => Err ValueError
      | "}"%char :: s' =>
          do v <- field_value params (rev acc);
          do r <- format_aux params None s'; Ok (v ++ r)
      | "{"%char :: _ => Err ValueError
      | c :: s' => format_aux params (Some (c :: acc)) s'
      end
  end.
Definition format (s : str) (params : sdict str) : res str := format_aux params None s.
