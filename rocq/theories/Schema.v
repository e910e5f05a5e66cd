(** Model of engines/pkg/schema/schema.go (scalar recognition and conversion), including the
    parts of strconv it relies on.  Not modelled: ParseFloat/FormatFloat of finite numbers and
    time.Parse/Format (see [IsFloat] below for recognition only). *)
From Coq Require Import String.
From Verif Require Import Base YamlChar.
Local Open Scope N_scope.

(* schema.go 15 *)
Definition merge_key : text := t' "<<".

Definition text_in (s : text) (l : list text) : bool := existsb (text_eqb s) l.

(* schema.go 19-26 *)
Definition sc_is_null (s : text) : bool :=
  text_in s [t' "null"; t' "Null"; t' "NULL"; t' "~"; t' ""].

(* schema.go 48-57 *)
Definition try_get_boolean (s : text) : option bool :=
  if text_in s [t' "true"; t' "True"; t' "TRUE"] then Some true
  else if text_in s [t' "false"; t' "False"; t' "FALSE"] then Some false
  else None.
(* schema.go 29-32 *)
Definition sc_is_boolean (s : text) : bool :=
  match try_get_boolean s with Some _ => true | None => false end.
(* schema.go 35-37 *)
Definition sc_from_boolean (b : bool) : text := if b then t' "true" else t' "false".
(* schema.go 40-46 *)
Definition sc_to_boolean (s : text) : option bool := try_get_boolean s.

(** non-empty and all characters satisfying [p]: the regexp [p]+ up to the end *)
Definition plus (p : rune -> bool) (s : text) : bool :=
  match s with [] => false | _ => forallb p s end.

(* schema.go 60, regexp ^[-+]?[0-9]+$ *)
Definition re_decimal (s : text) : bool :=
  match s with
  | r :: s' => if (r =? 45) || (r =? 43) then plus is_digit s' else plus is_digit s
  | [] => false
  end.
(* schema.go 61, regexp ^\+?[0-9]+$ *)
Definition re_decimal_unsigned (s : text) : bool :=
  match s with
  | r :: s' => if r =? 43 then plus is_digit s' else plus is_digit s
  | [] => false
  end.
Definition is_octal_digit (r : rune) : bool := (48 <=? r) && (r <=? 55).
(* schema.go 62, regexp ^0o[0-7]+$ *)
Definition re_octal (s : text) : bool :=
  match s with
  | a :: b :: s' => (a =? 48) && (b =? 111) && plus is_octal_digit s'
  | _ => false
  end.
(* schema.go 63, regexp ^0x[0-9a-fA-F]+$ *)
Definition re_hex (s : text) : bool :=
  match s with
  | a :: b :: s' => (a =? 48) && (b =? 120) && plus is_hex_digit s'
  | _ => false
  end.

(* schema.go 67-71 *)
Definition sc_is_integer (s : text) : bool := re_decimal s || re_octal s || re_hex s.
(* schema.go 74-78 *)
Definition sc_is_unsigned (s : text) : bool := re_decimal_unsigned s || re_octal s || re_hex s.

(** strconv.FormatUint(n, 10): decimal digits, no leading zeros.  Fuel: the number of bits. *)
Fixpoint format_digits (fuel : nat) (n : N) (acc : text) : text :=
  let acc' := (48 + n mod 10) :: acc in
  match fuel with
  | O => acc'
  | S f => if n / 10 =? 0 then acc' else format_digits f (n / 10) acc'
  end.
(* schema.go 91-93 *)
Definition sc_from_unsigned (n : N) : text := format_digits (N.size_nat n) n [].
(* schema.go 81-83: strconv.FormatInt(z, 10) *)
Definition sc_from_integer (z : Z) : text :=
  if (z <? 0)%Z then 45 :: sc_from_unsigned (Z.to_N (- z)) else sc_from_unsigned (Z.to_N z).

(** strconv: lower(c) = c | 0x20 *)
Definition go_lower (r : rune) : rune := N.lor r 32.

(** strconv.underscoreOK.  State: last seen is beginning, digit (or prefix), underscore, other. *)
Inductive us_state := UsBegin | UsDigit | UsUnderscore | UsOther.
Fixpoint underscore_loop (hex : bool) (i : us_state) (s : text) : bool :=
  match s with
  | [] => match i with UsUnderscore => false | _ => true end
  | c :: s' =>
      if is_digit c || (hex && (97 <=? go_lower c) && (go_lower c <=? 102)) then
        underscore_loop hex UsDigit s'
      else if c =? 95 then
        match i with UsDigit => underscore_loop hex UsUnderscore s' | _ => false end
      else match i with
           | UsUnderscore => false
           | _ => underscore_loop hex UsOther s'
           end
  end.
Definition underscore_ok (s : text) : bool :=
  let s := match s with
           | c :: s' => if (c =? 45) || (c =? 43) then s' else s
           | [] => s end in
  match s with
  | a :: b :: s' =>
      if (a =? 48) && ((go_lower b =? 98) || (go_lower b =? 111) || (go_lower b =? 120))
      then underscore_loop (go_lower b =? 120) UsDigit s'
      else underscore_loop false UsBegin s
  | _ => underscore_loop false UsBegin s
  end.

(** strconv digit value; [None] = syntax error *)
Definition go_digit (c : rune) : option N :=
  if is_digit c then Some (c - 48)
  else if (97 <=? go_lower c) && (go_lower c <=? 122) then Some (go_lower c - 97 + 10)
  else None.

(** strconv.ParseUint digit loop with base-0 underscores.  Unbounded accumulation; the range
    check is done at the end ([n > maxVal]), which gives the same success/failure as the
    incremental check since the accumulator never decreases.
    Result: value and whether an underscore was seen. *)
Fixpoint parse_digits (base : N) (acc : N) (us : bool) (s : text) : option (N * bool) :=
  match s with
  | [] => Some (acc, us)
  | c :: s' =>
      if c =? 95 then parse_digits base acc true s'
      else match go_digit c with
           | None => None
           | Some d => if base <=? d then None else parse_digits base (acc * base + d) us s'
           end
  end.

(** strconv.ParseUint(s, 0, bits); [None] stands for any error (syntax or range) *)
Definition parse_uint0 (s : text) (bits : N) : option N :=
  let run base ds :=
    match parse_digits base 0 false ds with
    | None => None
    | Some (n, us) =>
        if 2 ^ bits <=? n then None
        else if us && negb (underscore_ok s) then None
        else Some n
    end in
  match s with
  | [] => None
  | a :: s' =>
      if a =? 48 then
        match s' with
        | b :: ((_ :: _) as ds) =>
            if go_lower b =? 98 then run 2 ds
            else if go_lower b =? 111 then run 8 ds
            else if go_lower b =? 120 then run 16 ds
            else run 8 s'
        | _ => run 8 s'
        end
      else run 10 s
  end.

(* schema.go 96-98 *)
Definition sc_to_unsigned (s : text) (bits : N) : option N := parse_uint0 s bits.

(* schema.go 86-88: strconv.ParseInt(s, 0, bits).  The unsigned part is parsed with the same bit
   size, then checked against the signed range. *)
Definition sc_to_integer (s : text) (bits : N) : option Z :=
  match s with
  | [] => None
  | c :: s' =>
      let neg := c =? 45 in
      let u := if (c =? 43) || (c =? 45) then s' else s in
      match parse_uint0 u bits with
      | None => None
      | Some n =>
          let cutoff := 2 ^ (bits - 1) in
          if negb neg && (cutoff <=? n) then None
          else if neg && (cutoff <? n) then None
          else Some (if neg then - Z.of_N n else Z.of_N n)%Z
      end
  end.

(** ** floats: recognition *)
(* longest prefix of digits and the rest *)
Fixpoint span_digits (s : text) : text * text :=
  match s with
  | r :: s' => if is_digit r then let '(d, rest) := span_digits s' in (r :: d, rest) else ([], s)
  | [] => ([], [])
  end.
Definition is_nil {A} (l : list A) : bool := match l with [] => true | _ => false end.

(* (?:[eE][-+]?[0-9]+)?$ *)
Definition re_exponent (s : text) : bool :=
  match s with
  | [] => true
  | r :: s' =>
      ((r =? 101) || (r =? 69)) &&
      match s' with
      | g :: s'' => if (g =? 45) || (g =? 43) then plus is_digit s'' else plus is_digit s'
      | [] => false
      end
  end.
(* schema.go 101: ^[+-]?(?:\.[0-9]+|[0-9]+(?:\.[0-9]STAR)?)(?:[eE][-+]?[0-9]+)?$ *)
Definition re_float (s : text) : bool :=
  let body s :=
    match s with
    | r :: s' =>
        if r =? 46 then
          let '(d, rest) := span_digits s' in negb (is_nil d) && re_exponent rest
        else
          let '(d, rest) := span_digits s in
          negb (is_nil d) &&
          match rest with
          | q :: rest' =>
              if q =? 46 then let '(_, rest'') := span_digits rest' in re_exponent rest''
              else re_exponent rest
          | [] => true
          end
    | [] => false
    end in
  match s with
  | r :: s' => if (r =? 43) || (r =? 45) then body s' else body s
  | [] => false
  end.
(* schema.go 102 *)
Definition re_inf (s : text) : bool :=
  let body s := text_in s [t' ".inf"; t' ".Inf"; t' ".INF"] in
  match s with
  | r :: s' => if (r =? 43) || (r =? 45) then body s' else body s
  | [] => false
  end.
(* schema.go 103 *)
Definition re_nan (s : text) : bool := text_in s [t' ".nan"; t' ".NaN"; t' ".NAN"].
(* schema.go 107-111 *)
Definition sc_is_float (s : text) : bool := re_float s || re_inf s || re_nan s.

(** ** binary *)
Definition is_base64_char (r : rune) : bool :=
  is_ascii_letter r || is_digit r || (r =? 43) || (r =? 47).
(* schema.go 143: groups of four, the last one possibly padded *)
Fixpoint re_base64 (s : text) : bool :=
  match s with
  | [] => true
  | a :: b :: c :: d :: s' =>
      is_base64_char a && is_base64_char b &&
      ((is_base64_char c && is_base64_char d && re_base64 s')
       || (is_nil s' && (d =? 61) && (is_base64_char c || (c =? 61))))
  | _ => false
  end.
(** unicode.IsSpace *)
Definition is_unicode_space (r : rune) : bool :=
  ((9 <=? r) && (r <=? 13)) || (r =? 32) || (r =? 133) || (r =? 160) || (r =? 5760)
  || ((8192 <=? r) && (r <=? 8202)) || (r =? 8232) || (r =? 8233) || (r =? 8239)
  || (r =? 8287) || (r =? 12288).
(** strings.Fields *)
Fixpoint fields_loop (cur : text) (s : text) : list text :=
  match s with
  | [] => match cur with [] => [] | _ => [rev cur] end
  | r :: s' =>
      if is_unicode_space r then
        match cur with [] => fields_loop [] s' | _ => rev cur :: fields_loop [] s' end
      else fields_loop (r :: cur) s'
  end.
Definition fields (s : text) : list text := fields_loop [] s.
(* schema.go 146-154 *)
Definition sc_is_binary (s : text) : bool := forallb re_base64 (fields s).
