(** Model of pyswagger/primitives/render.py: random input for schemas and operations. *)
From Coq Require Import QArith Qround.
From Verif Require Import PyBase M_Graph M_Quote M_Time M_Base64 M_Prim.
Close Scope Q_scope.
Open Scope nat_scope.

(** What the generator reads of a Schema besides M_Prim's [schema]: maxProperties,
    minProperties and the composed schema [final] (spec/v2_0/objects.py:66-84). *)
Record more := More { x_minprops : option Z; x_maxprops : option Z; x_final : option sid }.

(** The options, render.py:231-264.  Simplified: every option is there and of the right
    type (an option dict that lacks a key raises KeyError when the key is looked up). *)
Record options := Options {
  max_name_length : Z; max_prop_count : Z; max_str_length : Z; max_byte_length : Z;
  max_array_length : Z; max_file_length : Z;
  minimal_property : bool; minimal_parameter : bool;
  files : list value;
  object_template : sdict value; parameter_template : sdict value;
  max_property : bool; max_parameter : bool }.
(** render.py:250-264 *)
Definition default_options : options :=
  Options 64 32 100 100 100 200 false false [] [] [] false false.

(** A Parameter Object of an operation: name, required, in == 'body', schema, and the
    object itself (spec/v2_0/objects.py:153-190). *)
Record rparam := RParam { rp_name : str; rp_required : bool; rp_body : bool; rp_schema : option sid; rp_self : sid }.

(** ** Randomness.  The module-level generator is a sequence of choices, [rnd i] being the
    [i]-th one; a computation takes the position of the next choice and returns the new
    position.  Nothing is assumed about the sequence. *)
Definition gen (A : Type) := nat -> res (A * nat).
Definition gret {A} (a : A) : gen A := fun i => Ok (a, i).
Definition gfail {A} (e : exn) : gen A := fun _ => Err e.
Definition gbind {A B} (m : gen A) (f : A -> gen B) : gen B :=
  fun i => match m i with Ok (a, j) => f a j | Err e => Err e end.
Definition glift {A} (r : res A) : gen A := fun i => do a <- r; Ok (a, i).
Notation "'let!' x ':=' e 'in' f" := (gbind e (fun x => f)) (at level 200, x name, e at level 100, f at level 200).

(** [string.ascii_letters], render.py:65; [names], render.py:73 *)
Definition ascii_letters : str := lit "abcdefghijklmnopqrstuvwxyzABCDEFGHIJKLMNOPQRSTUVWXYZ".
Definition name_chars : str := ascii_letters ++ lit "_-" ++ lit "0123456789".

(** render.py:20-23: [1 << 31 - 1] is [1 << 30], [1 << 63 - 1] is [1 << 62] *)
Definition max_int32 : Z := Z.shiftl 1 (31 - 1).
Definition min_int32 : Z := - max_int32.
Definition max_int64 : Z := Z.shiftl 1 (63 - 1).
Definition min_int64 : Z := - max_int64.
(** sys.float_info.max and .min of a binary64 *)
Definition float_max : Q := inject_Z ((2 ^ 53 - 1) * 2 ^ 971).
Definition float_min : Q := Qmake 1 (2 ^ 1022)%positive.

(** A number is an int.  Simplified: numbers are rationals, so 2.0 counts as the int 2. *)
Definition q_int (q : Q) : option Z :=
  if Qeq_bool (inject_Z (Qfloor q)) q then Some (Qfloor q) else None.
(** [x if x else d] *)
Definition given_q (x : option Q) (d : Q) : Q :=
  match x with Some q => if Qeq_bool q 0 then d else q | None => d end.
Definition given_z (x : option Z) (d : Z) : Z :=
  match x with Some z => if (z =? 0)%Z then d else z | None => d end.
(** [int(q)] truncates *)
Definition q_trunc (q : Q) : Z := Z.quot (Qnum q) (Zpos (Qden q)).

Section Render.
  Context (rnd : nat -> N).
  (** Parts that are not modelled, as in M_Prim.v; [date_range] and [datetime_range] are
      the module constants computed with time.mktime (render.py:98-99, 105-106). *)
  Context (date_at : Q -> res (Z * Z * Z)) (datetime_at : Q -> res datetime)
    (uuid_of : str -> option Z) (date_range datetime_range : Q * Q).
  Context (h : list schema) (xs : sid -> more) (opt : options).

  Definition draw : gen N := fun i => Ok (rnd i, S i).
  (** [random.randint(lo, hi)]: ValueError for an empty range *)
  Definition randint (lo hi : Z) : gen Z :=
    if (hi <? lo)%Z then gfail ValueError
    else let! c := draw in gret (lo + Z.of_N c mod (hi - lo + 1))%Z.
  (** [random.random()]: a multiple of 2^-53 below 1 *)
  Definition random01 : gen Q := let! c := draw in gret (Qmake (Z.of_N c mod 2 ^ 53)%Z (2 ^ 53)%positive).
  (** [random.choice(l)]: IndexError when empty *)
  Definition choice {A} (l : list A) : gen A :=
    match l with
    | [] => gfail IndexError
    | a :: _ => let! c := draw in gret (nth (N.to_nat (N.modulo c (N.of_nat (length l)))) l a)
    end.
  (** [random.uniform(a, b)] *)
  Definition uniform (r : Q * Q) : gen Q := let! u := random01 in gret (fst r + (snd r - fst r) * u)%Q.
  (** [f() for _ in range(n)] *)
  Fixpoint times {A} (n : nat) (g : gen A) : gen (list A) :=
    match n with
    | O => gret []
    | S n => let! a := g in let! l := times n g in gret (a :: l)
    end.
  (** a text of [n] characters out of [cs] *)
  Definition text_of (cs : str) (n : Z) : gen str := times (Z.to_nat n) (choice cs).

  (** render.py:25-38.  Simplified: a bound that is not a whole number raises ValueError
      (CPython 3.11; newer versions raise TypeError). *)
  Definition gen_int (o : schema) (val : value) : gen value :=
    if truthy val then gret val else
    let narrow := match s_format o with None => true | Some f => str_eqb f (lit "int32") end in
    let hi := given_q (s_max o) (inject_Z (if narrow then max_int32 else max_int64)) in
    let lo := given_q (s_min o) (inject_Z (if narrow then min_int32 else min_int64)) in
    match q_int lo, q_int hi with
    | Some lo, Some hi =>
        let hi := if s_exmax o then (hi - 1)%Z else hi in
        let lo := if s_exmin o then (lo + 1)%Z else lo in
        let! out := randint lo hi in
        match s_multiple o with
        | Some m => match q_int m with
                    | Some m => gret (VInt (if (m =? 0)%Z then out else (out - out mod m)%Z))
                    | None => gret (VInt out)
                    end
        | None => gret (VInt out)
        end
    | _, _ => gfail ValueError
    end.
  (** render.py:48-55: the loop; the fuel bounds the number of attempts *)
  Fixpoint float_loop (fuel : nat) (o : schema) (lo hi : Q) : gen Q :=
    match fuel with
    | O => gfail OutOfFuel
    | S fuel =>
        let! u := random01 in
        let out := (lo + (hi - lo) * u)%Q in
        let out := match s_multiple o with
                   | Some m => if Qeq_bool m 0 then out else (inject_Z (q_trunc (out / m)) * m)%Q
                   | None => out
                   end in
        if Qle_bool out lo && s_exmin o then float_loop fuel o lo hi else gret out
    end.
  (** render.py:40-55 *)
  Definition gen_float (fuel : nat) (o : schema) (val : value) : gen value :=
    if truthy val then gret val else
    let hi := given_q (s_max o) float_max in
    let lo := given_q (s_min o) float_min in
    let! q := float_loop fuel o lo hi in gret (VFloat q).
  (** render.py:57-65 *)
  Definition gen_str (o : schema) (val : value) : gen value :=
    if truthy val then gret val else
    let hi := given_z (s_maxlen o) (max_str_length opt) in
    let lo := given_z (s_minlen o) 0 in
    let! n := randint lo hi in
    let! s := text_of ascii_letters n in gret (VStr s).
  (** render.py:67-68 *)
  Definition gen_bool (val : value) : gen value :=
    if truthy val then gret (VBool true)
    else let! c := randint 0 1 in gret (VBool (c =? 0)%Z).
  (** render.py:70-71; [uuid.uuid4()] is some 128-bit number; [uuid.UUID(x)] of something
      that is not a text raises AttributeError *)
  Definition gen_uuid (val : value) : gen value :=
    if truthy val then
      match val with
      | VStr s => match uuid_of s with Some z => gret (VUuid z) | None => gfail ValueError end
      | _ => gfail AttributeError
      end
    else let! c := draw in gret (VUuid (Z.of_N c mod 2 ^ 128)%Z).
  (** render.py:74-77 *)
  Definition email_name : gen str :=
    let! a := choice ascii_letters in
    let! n := randint 1 30 in
    let! m := text_of name_chars n in
    let! z := choice ascii_letters in gret (a :: m ++ [z]).
  (** render.py:79-91 *)
  Definition gen_email (val : value) : gen value :=
    if truthy val then gret val else
    let! host := randint 2 100 in
    let! region := randint 2 30 in
    let! k := randint 1 4 in
    let! ns := times (Z.to_nat k) email_name in
    let! a := choice ascii_letters in
    let! hs := text_of name_chars host in
    let! b := choice ascii_letters in
    let! rs := text_of name_chars region in
    gret (VStr (join (lit ".") ns ++ lit "@" ++ a :: hs ++ lit "." ++ b :: rs)).
  (** render.py:93-96 *)
  Definition gen_byte (val : value) : gen value :=
    if truthy val then gret val else
    let! n := randint 0 (max_byte_length opt) in
    let! s := text_of ascii_letters n in gret (VBytes (standard_b64encode s)).
  (** render.py:100-103 *)
  Definition gen_date (val : value) : gen value :=
    if truthy val then
      match val with
      | VStr s => let! d := glift (date_of_text s) in let '(y, m, d) := d in gret (VDate y m d)
      | _ => gfail TypeError
      end
    else let! t := uniform date_range in let! d := glift (date_at t) in let '(y, m, d) := d in gret (VDate y m d).
  (** render.py:107-110 *)
  Definition gen_datetime (val : value) : gen value :=
    if truthy val then
      match val with
      | VStr s => let! d := glift (datetime_of_text s) in gret (VDatetime d)
      | _ => gfail TypeError
      end
    else let! t := uniform datetime_range in let! d := glift (datetime_at t) in gret (VDatetime d).
  (** render.py:112-124.  Simplified: the StringIO with the random text is the object 0. *)
  Definition gen_file : gen value :=
    match files opt with
    | [] =>
        let! n := randint 0 (max_file_length opt) in
        let! s := text_of ascii_letters n in
        gret (VDict [(lit "header", VDict [(lit "Content-Type", VStr (lit "text/plain"));
                                           (lit "Content-Transfer-Encoding", VStr (lit "binary"))]);
                     (lit "filename", VStr (lit ""));
                     (lit "data", VOther 0)])
    | l => choice l
    end.

  (** render.py:136-171: the table of generators and [_get] *)
  Inductive generator := GInt | GFloat | GStr | GByte | GDate | GDatetime | GUuid | GEmail | GBool | GFile.
  Definition locate (ty fmt : option str) : option generator :=
    match ty with
    | None => None
    | Some t =>
      let f := match fmt with Some f => f | None => [] end in
      let is l := existsb (fun x => str_eqb f (lit x)) l in
      if str_eqb t (lit "integer") then if is [""; "int32"; "int64"]%string then Some GInt else None
      else if str_eqb t (lit "number") then if is [""; "float"; "double"]%string then Some GFloat else None
      else if str_eqb t (lit "string") then
        if is [""; "password"]%string then Some GStr
        else if is ["byte"]%string then Some GByte else if is ["date"]%string then Some GDate
        else if is ["date-time"]%string then Some GDatetime else if is ["uuid"]%string then Some GUuid
        else if is ["email"]%string then Some GEmail else None
      else if str_eqb t (lit "boolean") then if is [""]%string then Some GBool else None
      else if str_eqb t (lit "file") then if is [""]%string then Some GFile else None
      else None
    end.
  Definition run_generator (fuel : nat) (g : generator) (o : schema) (val : value) : gen value :=
    match g with
    | GInt => gen_int o val | GFloat => gen_float fuel o val | GStr => gen_str o val
    | GByte => gen_byte val | GDate => gen_date val | GDatetime => gen_datetime val
    | GUuid => gen_uuid val | GEmail => gen_email val | GBool => gen_bool val | GFile => gen_file
    end.

  (** [out = final(deref(obj))], utils.py:265-276 *)
  Definition settle (o : sid) : res sid :=
    do t <- deref_s h o; Ok (match x_final (xs t) with Some f => f | None => t end).

  Section Step.
    Context (fuel : nat) (rec : sid -> gen value).
    (** render.py:183-192: the declared properties; [count] is the number generated *)
    Fixpoint gen_props (req : list str) (ps : sdict sid) (out : sdict value) (count : Z) : gen (sdict value * Z) :=
      match ps with
      | [] => gret (out, count)
      | (name, p) :: ps =>
          match sget name (object_template opt) with
          | Some v => gen_props req ps (sset name v out) count
          | None =>
              let! skip := (if negb (max_property opt) && negb (mem name req)
                            then let! c := randint 0 1 in gret ((c =? 0)%Z || minimal_property opt)
                            else gret false) in
              if (skip : bool) then gen_props req ps out count
              else let! v := rec p in gen_props req ps (sset name v out) (count + 1)%Z
          end
      end.
    (** render.py:202-207: a name that is not taken; the fuel bounds the attempts *)
    Fixpoint new_name (tries : nat) (out : sdict value) : gen str :=
      match tries with
      | O => gfail OutOfFuel
      | S tries =>
          let! n := randint 0 (max_name_length opt) in
          let! s := text_of ascii_letters n in
          if smem s out then new_name tries out else gret s
      end.
    (** render.py:199-207 *)
    Fixpoint gen_more (a : sid) (n : nat) (out : sdict value) : gen (sdict value) :=
      match n with
      | O => gret out
      | S n => let! k := new_name fuel out in let! v := rec a in gen_more a n (sset k v out)
      end.
    (** render.py:178-207.  Only a Schema has properties; [random.randint(None, ..)]
        raises TypeError. *)
    Definition gen_object (t : sid) : gen value :=
      let s := sch h t in
      if negb (s_full s) then gfail AttributeError else
      let hi := given_z (x_maxprops (xs t)) (max_prop_count opt) in
      let lo := given (x_minprops (xs t)) in
      let! oc := gen_props (s_required s) (s_props s) [] 0%Z in
      match s_addp s with
      | ASchema a =>
          match lo with
          | None => gfail TypeError
          | Some lo =>
              let! r := randint lo hi in
              let! out := gen_more a (Z.to_nat (r - snd oc)) (fst oc) in gret (VDict out)
          end
      | _ => gret (VDict (fst oc))
      end.
    (** render.py:209-214; an array without items: [None.type] raises AttributeError *)
    Definition gen_array (s : schema) : gen value :=
      let lo := given_z (s_minitems s) 0 in
      let hi := given_z (s_maxitems s) (max_array_length opt) in
      let! n := randint lo hi in
      let! l := times (Z.to_nat n) (match s_items s with Some it => rec it | None => gfail AttributeError end) in
      gret (VList l).
    (** render.py:216-224 *)
    Definition gen_scalar (s : schema) : gen value :=
      let! e := (match s_enum s with [] => gret VNull | l => choice l end) in
      match locate (s_type s) (s_format s) with
      | None => gfail GenericException
      | Some g => run_generator fuel g s e
      end.
    (** render.py:173-228 *)
    Definition generate_step (o : sid) : gen value :=
      let! t := glift (settle o) in
      let s := sch h t in
      match s_type s with
      | None => gfail GenericException
      | Some ty =>
          if str_eqb ty (lit "object") then gen_object t
          else if str_eqb ty (lit "array") then gen_array s
          else gen_scalar s
      end.
  End Step.
  (** The recursion; the fuel stands for Python's recursion limit and bounds the two
      retry loops. *)
  Fixpoint generate (fuel : nat) (o : sid) : gen value :=
    match fuel with
    | O => gfail OutOfFuel
    | S fuel => generate_step fuel (generate fuel) o
    end.

  (** render.py:266-285, on a Parameter.  A body parameter without schema:
      [None.type] raises AttributeError. *)
  Definition render_param (fuel : nat) (p : rparam) : gen value :=
    if rp_body p then match rp_schema p with Some s => generate fuel s | None => gfail AttributeError end
    else generate fuel (rp_self p).
  (** render.py:304-314 *)
  Fixpoint render_params (fuel : nat) (exclude : list str) (ps : list rparam) (out : sdict value) : gen (sdict value) :=
    match ps with
    | [] => gret out
    | p :: ps =>
        if mem (rp_name p) exclude then render_params fuel exclude ps out else
        match sget (rp_name p) (parameter_template opt) with
        | Some v => render_params fuel exclude ps (sset (rp_name p) v out)
        | None =>
            let! skip := (if negb (max_parameter opt) && negb (rp_required p)
                          then let! c := randint 0 1 in gret ((c =? 0)%Z || minimal_parameter opt)
                          else gret false) in
            if (skip : bool) then render_params fuel exclude ps out
            else let! v := render_param fuel p in render_params fuel exclude ps (sset (rp_name p) v out)
        end
    end.
  (** render.py:287-314 *)
  Definition render_all (fuel : nat) (ps : list rparam) (exclude : list str) : gen (sdict value) :=
    render_params fuel exclude ps [].
End Render.
