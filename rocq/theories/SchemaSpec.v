(** Specification of YAML core-schema scalars (YAML 1.2, 10.3.2), independent of the code. *)
From Coq Require Import String.
From Verif Require Import Base.
Local Open Scope N_scope.

(** [r] is a digit of value [d] in base [base] *)
Definition digit_of (base : N) (r : rune) (d : N) : Prop :=
  d < base /\ ((d < 10 /\ r = 48 + d) \/ (10 <= d /\ r = 87 + d) \/ (10 <= d /\ r = 55 + d)).

(** non-empty numerals and their values *)
Inductive numeral (base : N) : text -> N -> Prop :=
| num_one r d : digit_of base r d -> numeral base [r] d
| num_snoc s n r d : numeral base s n -> digit_of base r d ->
    numeral base (s ++ [r]) (n * base + d).

(** integers of the core schema and their values *)
Inductive yaml_integer : text -> Z -> Prop :=
| yi_dec s n : numeral 10 s n -> yaml_integer s (Z.of_N n)
| yi_plus s n : numeral 10 s n -> yaml_integer (43 :: s) (Z.of_N n)
| yi_minus s n : numeral 10 s n -> yaml_integer (45 :: s) (- Z.of_N n)
| yi_oct s n : numeral 8 s n -> yaml_integer (48 :: 111 :: s) (Z.of_N n)
| yi_hex s n : numeral 16 s n -> yaml_integer (48 :: 120 :: s) (Z.of_N n).

(** unsigned integers: no minus sign *)
Inductive yaml_unsigned : text -> N -> Prop :=
| yu_dec s n : numeral 10 s n -> yaml_unsigned s n
| yu_plus s n : numeral 10 s n -> yaml_unsigned (43 :: s) n
| yu_oct s n : numeral 8 s n -> yaml_unsigned (48 :: 111 :: s) n
| yu_hex s n : numeral 16 s n -> yaml_unsigned (48 :: 120 :: s) n.

(** ranges of Go's intN / uintN *)
Definition fits_int (bits : N) (z : Z) : bool :=
  ((- 2 ^ (Z.of_N bits - 1) <=? z) && (z <? 2 ^ (Z.of_N bits - 1)))%Z.
Definition fits_uint (bits : N) (n : N) : bool := n <? 2 ^ bits.

(** a decimal numeral starting with 0 and not being 0 itself, possibly signed *)
Definition padded (s : text) : bool :=
  let body := match s with r :: s' => if (r =? 43) || (r =? 45) then s' else s | [] => [] end in
  match body with
  | z :: d :: _ => (z =? 48) && (48 <=? d) && (d <=? 57)
  | _ => false
  end.

(** nulls, booleans and numbers of the core schema *)
Definition yaml_null (s : text) : Prop :=
  s = [] \/ s = t' "~" \/ s = t' "null" \/ s = t' "Null" \/ s = t' "NULL".
Inductive yaml_boolean : text -> bool -> Prop :=
| yb_t1 : yaml_boolean (t' "true") true | yb_t2 : yaml_boolean (t' "True") true
| yb_t3 : yaml_boolean (t' "TRUE") true
| yb_f1 : yaml_boolean (t' "false") false | yb_f2 : yaml_boolean (t' "False") false
| yb_f3 : yaml_boolean (t' "FALSE") false.

(** floats of the core schema: [-+]? ( \. [0-9]+ | [0-9]+ ( \. [0-9]* )? ) ( [eE] [-+]? [0-9]+ )?,
    infinities and not-a-number *)
Definition digits (s : text) : Prop := Forall (fun r => 48 <= r <= 57) s.
Definition sign (s : text) : Prop := s = [] \/ s = [43] \/ s = [45].
Inductive mantissa : text -> Prop :=
| man_frac d : digits d -> d <> [] -> mantissa (46 :: d)
| man_int d : digits d -> d <> [] -> mantissa d
| man_both d f : digits d -> d <> [] -> digits f -> mantissa (d ++ 46 :: f).
Inductive exponent : text -> Prop :=
| exp_none : exponent []
| exp_some e g d : e = 101 \/ e = 69 -> sign g -> digits d -> d <> [] -> exponent (e :: g ++ d).
Inductive yaml_float : text -> Prop :=
| yf_num g m e : sign g -> mantissa m -> exponent e -> yaml_float (g ++ m ++ e)
| yf_inf g i : sign g -> i = t' ".inf" \/ i = t' ".Inf" \/ i = t' ".INF" -> yaml_float (g ++ i)
| yf_nan i : i = t' ".nan" \/ i = t' ".NaN" \/ i = t' ".NAN" -> yaml_float i.
