(** Model of engines/yayamls/yamlchar/chars.go, charset.go and transformations.go. *)
From Verif Require Import Base.
Local Open Scope N_scope.

(** ** chars.go 18-49: named characters *)
Definition ch_seq_entry : rune := 45.       (* - ; also directive end, strip chomping *)
Definition ch_map_key : rune := 63.         (* ? *)
Definition ch_map_value : rune := 58.       (* : *)
Definition ch_collect : rune := 44.         (* , *)
Definition ch_seq_start : rune := 91.       (* [ *)
Definition ch_seq_end : rune := 93.         (* ] *)
Definition ch_map_start : rune := 123.      (* { *)
Definition ch_map_end : rune := 125.        (* } *)
Definition ch_comment : rune := 35.         (* # *)
Definition ch_anchor : rune := 38.          (* & *)
Definition ch_alias : rune := 42.           (* * *)
Definition ch_tag : rune := 33.             (* ! *)
Definition ch_literal : rune := 124.        (* | *)
Definition ch_folded : rune := 62.          (* > *)
Definition ch_squote : rune := 39.          (* ' *)
Definition ch_dquote : rune := 34.          (* double quote *)
Definition ch_directive : rune := 37.       (* % *)
Definition ch_lf : rune := 10.
Definition ch_cr : rune := 13.
Definition ch_space : rune := 32.
Definition ch_tab : rune := 9.
Definition ch_escape : rune := 92.          (* \ *)
Definition ch_dot : rune := 46.             (* . ; also document end *)
Definition ch_bom : rune := 65279.          (* 0xFEFF *)
Definition ch_plus : rune := 43.            (* + keep chomping *)

(** ** chars.go 184-222, 265-278: character predicates *)
(* chars.go 195-197 *)
Definition is_digit (r : rune) : bool := (48 <=? r) && (r <=? 57).
(* chars.go 200-202 *)
Definition is_hex_digit (r : rune) : bool :=
  is_digit r || ((65 <=? r) && (r <=? 70)) || ((97 <=? r) && (r <=? 102)).
(* chars.go 205-212 *)
Definition are_hex_digits (rs : text) : bool := forallb is_hex_digit rs.
(* chars.go 215-217 *)
Definition is_ascii_letter (r : rune) : bool :=
  ((65 <=? r) && (r <=? 90)) || ((97 <=? r) && (r <=? 122)).
(* chars.go 185-192 *)
Definition is_flow_indicator (r : rune) : bool :=
  (r =? ch_collect) || (r =? ch_seq_start) || (r =? ch_seq_end) ||
  (r =? ch_map_start) || (r =? ch_map_end).
(* chars.go 220-222 *)
Definition is_json_char (r : rune) : bool := (r =? 9) || ((32 <=? r) && (r <=? 1114111)).
(* chars.go 266-268 *)
Definition is_whitespace_char (r : rune) : bool := (r =? ch_space) || (r =? ch_tab).
(* chars.go 271-273 *)
Definition is_linebreak_char (r : rune) : bool := (r =? ch_lf) || (r =? ch_cr).
(* chars.go 276-278 *)
Definition is_blank_char (r : rune) : bool := is_whitespace_char r || is_linebreak_char r.

(** ** chars.go 51-182: string predicates *)
(* chars.go 53-60 *)
Definition is_decimal (s : text) : bool := forallb is_digit s.
(* chars.go 63-70 *)
Definition is_word (s : text) : bool :=
  forallb (fun c => is_digit c || is_ascii_letter c || (c =? 45)) s.

(** chars.go 74: the literal -#;/?:@&=+$_.!~*' *)
Definition uri_only_chars : text :=
  [45; 35; 59; 47; 63; 58; 64; 38; 61; 43; 36; 95; 46; 33; 126; 42; 39].
(** chars.go 98: the literal #;/?:@&=+$_.~*' *)
Definition tag_only_chars : text :=
  [35; 59; 47; 63; 58; 64; 38; 61; 43; 36; 95; 46; 126; 42; 39].

(* chars.go 73-94; the index loop becomes recursion on the remaining runes *)
Fixpoint is_uri (s : text) : bool :=
  match s with
  | [] => true
  | r :: s' =>
      if r =? 37 then
        match s' with
        | h1 :: h2 :: s'' => are_hex_digits [h1; h2] && is_uri s''
        | _ => false
        end
      else (is_digit r || is_ascii_letter r || is_flow_indicator r || rune_in r uri_only_chars)
           && is_uri s'
  end.

(* chars.go 97-118 *)
Fixpoint is_tag_string (s : text) : bool :=
  match s with
  | [] => true
  | r :: s' =>
      if r =? 37 then
        match s' with
        | h1 :: h2 :: s'' => are_hex_digits [h1; h2] && is_tag_string s''
        | _ => false
        end
      else (is_digit r || is_ascii_letter r || rune_in r tag_only_chars) && is_tag_string s'
  end.

(* chars.go 127-134 *)
Definition is_plain_safe_string (s : text) : bool := forallb (fun c => negb (is_flow_indicator c)) s.
(* chars.go 121-124 *)
Definition is_anchor_string (s : text) : bool := is_plain_safe_string s.

(* chars.go 137-154 *)
Fixpoint is_single_quoted_string (s : text) : bool :=
  match s with
  | [] => true
  | r :: s' =>
      if r =? 39 then
        match s' with
        | q :: s'' => (q =? 39) && is_single_quoted_string s''
        | [] => false
        end
      else is_json_char r && is_single_quoted_string s'
  end.

(** chars.go 225: the literal 0at<TAB>nvfre <dquote>/<backslash>N_LP *)
Definition single_escaped_characters : text :=
  [48; 97; 116; 9; 110; 118; 102; 114; 101; 32; 34; 47; 92; 78; 95; 76; 80].

(* chars.go 230-263, IsEscapedCharacter: given the runes after the backslash, the runes after the
   escape sequence if it is valid. *)
Definition escaped_rest (s : text) : option text :=
  match s with
  | [] => None
  | r :: s' =>
      let hexes (n : nat) :=
        if Nat.ltb (length s') n then None
        else if are_hex_digits (firstn n s') then Some (skipn n s') else None in
      if r =? 120 then hexes 2%nat
      else if r =? 117 then hexes 4%nat
      else if r =? 85 then hexes 8%nat
      else if rune_in r single_escaped_characters then Some s' else None
  end.

(* chars.go 157-182.  Fuel: every iteration consumes at least one rune, so the length of the
   string is enough (see [is_double_quoted_string]). *)
Fixpoint is_double_quoted_fuel (fuel : nat) (s : text) : bool :=
  match s with
  | [] => true
  | r :: s' =>
      match fuel with
      | O => false
      | S fuel' =>
          if r =? 92 then
            match escaped_rest s' with
            | None => false
            | Some s'' => is_double_quoted_fuel fuel' s''
            end
          else if r =? 34 then false
          else is_json_char r && is_double_quoted_fuel fuel' s'
      end
  end.
Definition is_double_quoted_string (s : text) : bool := is_double_quoted_fuel (length s) s.

(** ** charset.go *)
(* charset.go 4-27.  The numeric values are 1 shifted by the position in this list. *)
Inductive charset :=
| CsDecimal | CsWord | CsURI | CsTag | CsAnchor | CsPlainSafe | CsSingleQuoted | CsDoubleQuoted.

(* charset.go 10-27: CharSetType values, 1 << iota *)
Definition charset_value (c : charset) : N :=
  match c with
  | CsDecimal => 1 | CsWord => 2 | CsURI => 4 | CsTag => 8 | CsAnchor => 16
  | CsPlainSafe => 32 | CsSingleQuoted => 64 | CsDoubleQuoted => 128
  end.

(* charset.go 30-51 *)
Definition conforms_charset (s : text) (c : charset) : bool :=
  match c with
  | CsDecimal => is_decimal s
  | CsWord => is_word s
  | CsURI => is_uri s
  | CsTag => is_tag_string s
  | CsAnchor => is_anchor_string s
  | CsPlainSafe => is_plain_safe_string s
  | CsSingleQuoted => is_single_quoted_string s
  | CsDoubleQuoted => is_double_quoted_string s
  end.

(** ** transformations.go *)
(* transformations.go 43-45 *)
Definition to_single_quoted (s : text) : text :=
  flat_map (fun r => if r =? 39 then [39; 39] else [r]) s.

(* transformations.go 11-40; [pending] is hasPrecedingQuote *)
Fixpoint from_single_quoted_loop (pending : bool) (s : text) : option text :=
  match s with
  | [] => if pending then None else Some []
  | r :: s' =>
      if r =? 39 then
        if pending then option_map (cons 39) (from_single_quoted_loop false s')
        else from_single_quoted_loop true s'
      else if pending then None
      else if is_json_char r then option_map (cons r) (from_single_quoted_loop false s')
      else None
  end.
Definition from_single_quoted (s : text) : option text := from_single_quoted_loop false s.

(* transformations.go 122-166: the escape letter for the characters of the table *)
Definition escape_ascii (r : rune) : option text :=
  if r =? 0 then Some [92; 48]
  else if r =? 7 then Some [92; 97]
  else if r =? 8 then Some [92; 98]
  else if r =? 9 then Some [92; 116]
  else if r =? 10 then Some [92; 110]
  else if r =? 11 then Some [92; 118]
  else if r =? 12 then Some [92; 102]
  else if r =? 13 then Some [92; 114]
  else if r =? 27 then Some [92; 101]
  else if r =? 34 then Some [92; 34]
  else if r =? 92 then Some [92; 92]
  else if r =? 133 then Some [92; 78]
  else if r =? 160 then Some [92; 95]
  else if r =? 8232 then Some [92; 76]
  else if r =? 8233 then Some [92; 80]
  else None.

Definition hex_digit_lower (n : N) : rune := if n <? 10 then 48 + n else 87 + n.

(* transformations.go 114-120: strconv.QuoteRuneToASCII without its quotes, for a rune that is
   not a JSON character and not in the table above: [\xhh] below 0x20; a value above 0x10FFFF
   is not a valid rune and is quoted as the replacement character. *)
Definition escape_unicode (r : rune) : option text :=
  if is_json_char r then None
  else if r <? 32 then
    Some [92; 120; hex_digit_lower (r / 16); hex_digit_lower (r mod 16)]
  else Some [92; 117; 102; 102; 102; 100].

(* transformations.go 107-112 *)
Definition escape_character (r : rune) : option text :=
  match escape_ascii r with Some e => Some e | None => escape_unicode r end.

(* transformations.go 82-93 *)
Definition to_double_quoted (s : text) : text :=
  flat_map (fun r => match escape_character r with Some e => e | None => [r] end) s.

(** Outcome of unquoting: a string, an error, or reading the slice of runes beyond its end
    (a panic, or an error when the converted slice happens to have spare capacity). *)
Inductive unquoted :=
| UOk (s : text) | UErr | UOutOfRange.

Definition ucons (r : rune) (u : unquoted) : unquoted :=
  match u with UOk s => UOk (r :: s) | _ => u end.

(* transformations.go 168-210 *)
Definition unescape_ascii (r : rune) : option rune :=
  if r =? 48 then Some 0
  else if r =? 97 then Some 7
  else if r =? 98 then Some 8
  else if r =? 116 then Some 9
  else if r =? 110 then Some 10
  else if r =? 118 then Some 11
  else if r =? 102 then Some 12
  else if r =? 114 then Some 13
  else if r =? 101 then Some 27
  else if r =? 32 then Some 32
  else if r =? 34 then Some 34
  else if r =? 47 then Some 47
  else if r =? 92 then Some 92
  else if r =? 78 then Some 133
  else if r =? 95 then Some 160
  else if r =? 76 then Some 8232
  else if r =? 80 then Some 8233
  else None.

Definition hex_value (r : rune) : option N :=
  if is_digit r then Some (r - 48)
  else if (65 <=? r) && (r <=? 70) then Some (r - 55)
  else if (97 <=? r) && (r <=? 102) then Some (r - 87)
  else None.

Fixpoint hex_number (acc : N) (s : text) : option N :=
  match s with
  | [] => Some acc
  | r :: s' => match hex_value r with
               | None => None
               | Some d => hex_number (acc * 16 + d) s'
               end
  end.

(* transformations.go 253-263: strconv.ParseInt(s, 16, 32), then replacement of invalid runes.
   ParseInt accepts an optional sign followed by at least one digit and requires the value to
   fit in 32 bits. *)
Definition parse_escaped_hex (s : text) : option rune :=
  let valid (n : N) := (n <? 55296) || ((57344 <=? n) && (n <=? 1114111)) in
  let digits (neg : bool) (ds : text) :=
    match ds with
    | [] => None
    | _ => match hex_number 0 ds with
           | None => None
           | Some n =>
               if neg then
                 if n <=? 2147483648 then Some (if n =? 0 then 0 else 65533) else None
               else if n <=? 2147483647 then Some (if valid n then n else 65533) else None
           end
    end in
  match s with
  | 43 :: ds => digits false ds
  | 45 :: ds => digits true ds
  | _ => digits false s
  end.

(* transformations.go 212-251.  [s] is what follows the letter x, u or U and [n] the number of
   digits of that letter.  The code checks the [n] runes after the letter, then advances past
   them and takes the NEXT [n] runes as the digits to convert (225, 236, 247); the position it
   returns is just after the checked digits. *)
Definition unescape_unicode (n : nat) (s : text) : option (option (rune * text)) :=
  if Nat.ltb (length s) n then Some None
  else if negb (are_hex_digits (firstn n s)) then Some None
  else
    let rest := skipn n s in
    if Nat.ltb (length rest) n then None
    else match parse_escaped_hex (firstn n rest) with
         | None => Some None
         | Some r => Some (Some (r, rest))
         end.

(* transformations.go 95-105.  Result: [None] out of range; [Some None] error. *)
Definition unescape_character (s : text) : option (option (rune * text)) :=
  match s with
  | [] => Some None
  | r :: s' =>
      if r =? 120 then unescape_unicode 2 s'
      else if r =? 117 then unescape_unicode 4 s'
      else if r =? 85 then unescape_unicode 8 s'
      else match unescape_ascii r with
           | None => Some None
           | Some u => Some (Some (u, s'))
           end
  end.

(* transformations.go 48-79; fuel as in [is_double_quoted_fuel] *)
Fixpoint from_double_quoted_fuel (fuel : nat) (s : text) : unquoted :=
  match s with
  | [] => UOk []
  | r :: s' =>
      match fuel with
      | O => UErr
      | S fuel' =>
          if r =? 92 then
            match unescape_character s' with
            | None => UOutOfRange
            | Some None => UErr
            | Some (Some (u, s'')) => ucons u (from_double_quoted_fuel fuel' s'')
            end
          else if r =? 34 then UErr
          else if is_json_char r then ucons r (from_double_quoted_fuel fuel' s')
          else UErr
      end
  end.
Definition from_double_quoted (s : text) : unquoted := from_double_quoted_fuel (length s) s.
