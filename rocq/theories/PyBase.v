(** Python prelude used by every model file: strings, results, dictionaries.
    This file only contains definitions (no proofs).

    Simplifications (see DESIGN.md):
    - [str] is a list of code points in the Latin-1 range;
    - exception messages are dropped, only the class is kept. *)
From Coq Require Export Ascii String Bool Arith ZArith List.
From Coq Require Decimal.
Export ListNotations.
Open Scope list_scope.
Open Scope bool_scope.

(** Python [str]. *)
Definition str := list ascii.
Definition lit (s : string) : str := list_ascii_of_string s.
Coercion lit : string >-> str.

(** Python exceptions: pyswagger/errs.py:4-60 plus the builtins that the code
    raises.  [OutOfFuel] is not a Python exception: it marks a model loop that ran
    out of fuel, and theorems show it is never produced. *)
Inductive exn :=
| ValueError | KeyError | TypeError | AttributeError | IndexError
| SchemaError | ValidationError | CycleDetectionError | NotImplementedError
| GenericException | OSError | OverflowError | OutOfFuel.

Inductive res (A : Type) := Ok (a : A) | Err (e : exn).
Arguments Ok {A} a.
Arguments Err {A} e.

Definition bind {A B} (r : res A) (f : A -> res B) : res B :=
  match r with Ok a => f a | Err e => Err e end.
Notation "'do' x <- e1 ; e2" := (bind e1 (fun x => e2))
  (at level 60, x pattern, e1 at level 50, e2 at level 60, right associativity).

Definition exn_eqb (a b : exn) : bool :=
  match a, b with
  | ValueError, ValueError | KeyError, KeyError | TypeError, TypeError
  | AttributeError, AttributeError | IndexError, IndexError
  | SchemaError, SchemaError | ValidationError, ValidationError
  | CycleDetectionError, CycleDetectionError
  | NotImplementedError, NotImplementedError
  | GenericException, GenericException | OSError, OSError
  | OverflowError, OverflowError | OutOfFuel, OutOfFuel => true
  | _, _ => false
  end.

(** [a == b] on strings. *)
Fixpoint str_eqb (a b : str) : bool :=
  match a, b with
  | [], [] => true
  | x :: a', y :: b' => Ascii.eqb x y && str_eqb a' b'
  | _, _ => false
  end.

(** [a <= b] on strings (lexicographic by code point). *)
Fixpoint str_leb (a b : str) : bool :=
  match a, b with
  | [], _ => true
  | _ :: _, [] => false
  | x :: a', y :: b' =>
      if Ascii.eqb x y then str_leb a' b'
      else (nat_of_ascii x <? nat_of_ascii y)%nat
  end.

(** [x in l] on lists of strings. *)
Definition mem (x : str) (l : list str) : bool := existsb (str_eqb x) l.

(** [not s] / truthiness of a string. *)
Definition nonempty {A} (l : list A) : bool := match l with [] => false | _ => true end.

(** [s.startswith(p)] *)
Fixpoint prefixb (p s : str) : bool :=
  match p, s with
  | [], _ => true
  | x :: p', y :: s' => Ascii.eqb x y && prefixb p' s'
  | _ :: _, [] => false
  end.
Definition startswith (s p : str) : bool := prefixb p s.

(** [s.endswith(p)] *)
Definition endswith (s p : str) : bool := prefixb (rev p) (rev s).

(** [s.replace(pat, rep)] for a non-empty pattern (leftmost, non-overlapping). *)
Fixpoint replace_aux (pat rep : str) (skip : nat) (s : str) : str :=
  match s with
  | [] => []
  | c :: s' =>
      match skip with
      | S k => replace_aux pat rep k s'
      | O => if prefixb pat s then rep ++ replace_aux pat rep (length pat - 1) s'
             else c :: replace_aux pat rep 0 s'
      end
  end.
Definition replace (s pat rep : str) : str := replace_aux pat rep 0 s.

(** [s.split(sep)] for a non-empty separator. *)
Fixpoint split_aux (sep : str) (skip : nat) (cur : str) (s : str) : list str :=
  match s with
  | [] => [rev cur]
  | c :: s' =>
      match skip with
      | S k => split_aux sep k cur s'
      | O => if prefixb sep s then rev cur :: split_aux sep (length sep - 1) [] s'
             else split_aux sep 0 (c :: cur) s'
      end
  end.
Definition split (sep s : str) : list str := split_aux sep 0 [] s.

(** [sep.join(l)] *)
Fixpoint join (sep : str) (l : list str) : str :=
  match l with
  | [] => []
  | [x] => x
  | x :: l' => x ++ sep ++ join sep l'
  end.

(** What follows the last occurrence of [sep] in [s], if any. *)
Fixpoint after_last (sep s : str) : option str :=
  match s with
  | [] => None
  | _ :: s' =>
      match after_last sep s' with
      | Some t => Some t
      | None => if prefixb sep s then Some (skipn (length sep) s) else None
      end
  end.
(** [s.rsplit(sep, 1)[-1]] for a non-empty separator. *)
Definition rsplit1_last (sep s : str) : str :=
  match after_last sep s with Some t => t | None => s end.

(** [s.find(pat)] as an option ([None] for -1), [pat] non-empty. *)
Fixpoint find_sub (pat s : str) : option nat :=
  if prefixb pat s then Some 0 else
  match s with
  | [] => None
  | _ :: s' => option_map S (find_sub pat s')
  end.
Definition contains (pat s : str) : bool :=
  match find_sub pat s with Some _ => true | None => false end.

(** [c.lower()] on Latin-1: A-Z and U+00C0..U+00DE except U+00D7. *)
Definition lower_char (c : ascii) : ascii :=
  let n := nat_of_ascii c in
  if ((65 <=? n) && (n <=? 90)) || ((192 <=? n) && (n <=? 222) && negb (n =? 215))
  then ascii_of_nat (n + 32) else c.
Definition lower (s : str) : str := map lower_char s.

(** [str.isspace] on Latin-1, as used by [str.strip()]. *)
Definition is_space (c : ascii) : bool :=
  let n := nat_of_ascii c in
  ((9 <=? n) && (n <=? 13)) || ((28 <=? n) && (n <=? 32)) || (n =? 133) || (n =? 160).
Fixpoint lstrip (s : str) : str :=
  match s with
  | c :: s' => if is_space c then lstrip s' else s
  | [] => []
  end.
(** [s.strip()] *)
Definition strip (s : str) : str := rev (lstrip (rev (lstrip s))).

Definition is_digit (c : ascii) : bool :=
  let n := nat_of_ascii c in (48 <=? n) && (n <=? 57).
Definition digit_val (c : ascii) : Z := (Z.of_nat (nat_of_ascii c) - 48)%Z.

(** [str(n)] for an [int]. *)
Fixpoint str_of_uint (u : Decimal.uint) : str :=
  match u with
  | Decimal.Nil => []
  | Decimal.D0 u => "0"%char :: str_of_uint u
  | Decimal.D1 u => "1"%char :: str_of_uint u
  | Decimal.D2 u => "2"%char :: str_of_uint u
  | Decimal.D3 u => "3"%char :: str_of_uint u
  | Decimal.D4 u => "4"%char :: str_of_uint u
  | Decimal.D5 u => "5"%char :: str_of_uint u
  | Decimal.D6 u => "6"%char :: str_of_uint u
  | Decimal.D7 u => "7"%char :: str_of_uint u
  | Decimal.D8 u => "8"%char :: str_of_uint u
  | Decimal.D9 u => "9"%char :: str_of_uint u
  end.
Definition str_of_Z (z : Z) : str :=
  match Z.to_int z with
  | Decimal.Pos u => str_of_uint u
  | Decimal.Neg u => "-"%char :: str_of_uint u
  end.

(** Python [dict]: insertion-ordered association list.  [dset] keeps the position
    of an existing key, as CPython does. *)
Definition dict (K V : Type) := list (K * V).

Section Dict.
  Context {K V : Type} (eqb : K -> K -> bool).
  Fixpoint dget (k : K) (d : dict K V) : option V :=
    match d with
    | [] => None
    | (k', v) :: d' => if eqb k k' then Some v else dget k d'
    end.
  Fixpoint dset (k : K) (v : V) (d : dict K V) : dict K V :=
    match d with
    | [] => [(k, v)]
    | (k', v') :: d' => if eqb k k' then (k', v) :: d' else (k', v') :: dset k v d'
    end.
  Fixpoint ddel (k : K) (d : dict K V) : dict K V :=
    match d with
    | [] => []
    | (k', v') :: d' => if eqb k k' then d' else (k', v') :: ddel k d'
    end.
  Definition dmem (k : K) (d : dict K V) : bool :=
    match dget k d with Some _ => true | None => false end.
  Definition dupdate (d e : dict K V) : dict K V :=
    fold_left (fun acc kv => dset (fst kv) (snd kv) acc) e d.
End Dict.

(** Dictionaries keyed by strings. *)
Definition sdict V := dict str V.
Notation sget := (dget str_eqb).
Notation sset := (dset str_eqb).
Notation sdel := (ddel str_eqb).
Notation smem := (dmem str_eqb).
Notation supdate := (dupdate str_eqb).
