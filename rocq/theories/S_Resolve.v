(** Specification of resolving tokens from objects (C64). *)
From Verif Require Import PyBase PyJson M_SpecVal S_App.
Close Scope Q_scope.

(** ** Texts that are integers, as Python reads them *)
(** One or more decimal digits, single underscores between them *)
Inductive numeral : str -> Z -> Prop :=
| nu_one c : is_digit c = true -> numeral [c] (digit_val c)
| nu_more s z c : numeral s z -> is_digit c = true -> numeral (s ++ [c]) (10 * z + digit_val c)
| nu_under s z c : numeral s z -> is_digit c = true -> numeral (s ++ ["_"%char; c]) (10 * z + digit_val c).
Inductive signed : str -> Z -> Prop :=
| sg_none s z : numeral s z -> signed s z
| sg_plus s z : numeral s z -> signed ("+"%char :: s) z
| sg_minus s z : numeral s z -> signed ("-"%char :: s) (- z).
Definition spaces (s : str) : Prop := forall c, In c s -> is_space c = true.
(** A sign, if any, and a numeral; white space around *)
Definition integer_text (t : str) (z : Z) : Prop := exists a s b, t = a ++ s ++ b /\ spaces a /\ spaces b /\ signed s z.

(** ** Tokens *)
(** The token [t] leads from [v] to [x]: an attribute of an object, the number of an element of a
    list (negative ones count from the end), a key of a dict; it is passed over elsewhere. *)
Inductive step : val -> str -> val -> Prop :=
| st_field h fs ints t x : sget t fs = Some x -> step (VObj h fs ints) t x
| st_internal h fs ints t x : sget t fs = None -> sget t ints = Some x -> step (VObj h fs ints) t x
| st_front l t i x : integer_text t (Z.of_nat i) -> nth_error l i = Some x -> step (VList l) t x
| st_back l t i x : integer_text t (- Z.of_nat (S i)) -> nth_error (rev l) i = Some x -> step (VList l) t x
| st_key d t x : sget t d = Some x -> step (VDict d) t x
| st_plain v t : not_container v -> step v t v.
(** Why it leads nowhere *)
Inductive stuck : val -> str -> exn -> Prop :=
| sk_field h fs ints t : sget t fs = None -> sget t ints = None -> stuck (VObj h fs ints) t AttributeError
| sk_text l t : (forall z, ~ integer_text t z) -> stuck (VList l) t ValueError
| sk_index l t z : integer_text t z -> (z < - Z.of_nat (length l) \/ Z.of_nat (length l) <= z)%Z -> stuck (VList l) t IndexError
| sk_key d t : sget t d = None -> stuck (VDict d) t KeyError.
Inductive leads : val -> list str -> val -> Prop :=
| ld_here v : leads v [] v
| ld_step v t x ts y : step v t x -> leads x ts y -> leads v (t :: ts) y.
