(** Model of engines/yayamls/token/token.go and bitmap.go. *)
From Verif Require Import Base YamlChar.
Local Open Scope N_scope.

(* token.go 12-70 *)
Inductive ttype :=
| TUnknown | TSequenceEntry | TMappingKey | TMappingValue | TCollectEntry
| TSequenceStart | TSequenceEnd | TMappingStart | TMappingEnd | TComment | TAnchor | TAlias
| TTag | TLiteral | TFolded | TSingleQuote | TDoubleQuote | TDirective | TLineBreak | TSpace
| TTab | TBOM | TEOF | TDocumentEnd | TDirectiveEnd | TString | TStripChomping | TKeepChomping.

Definition ttype_eqb (a b : ttype) : bool :=
  match a, b with
  | TUnknown, TUnknown | TSequenceEntry, TSequenceEntry | TMappingKey, TMappingKey
  | TMappingValue, TMappingValue | TCollectEntry, TCollectEntry
  | TSequenceStart, TSequenceStart | TSequenceEnd, TSequenceEnd
  | TMappingStart, TMappingStart | TMappingEnd, TMappingEnd | TComment, TComment
  | TAnchor, TAnchor | TAlias, TAlias | TTag, TTag | TLiteral, TLiteral | TFolded, TFolded
  | TSingleQuote, TSingleQuote | TDoubleQuote, TDoubleQuote | TDirective, TDirective
  | TLineBreak, TLineBreak | TSpace, TSpace | TTab, TTab | TBOM, TBOM | TEOF, TEOF
  | TDocumentEnd, TDocumentEnd | TDirectiveEnd, TDirectiveEnd | TString, TString
  | TStripChomping, TStripChomping | TKeepChomping, TKeepChomping => true
  | _, _ => false
  end.

(* token.go 217-220 *)
Record position := mkPos { row : N; column : N }.

(* token.go 189-195; the bitmap (conformationBitmap, a uint16) is the last field *)
Record token := mkTok {
  tok_type : ttype;
  tok_start : position;
  tok_end : position;
  tok_origin : text;
  tok_map : N
}.

(* token.go 136-143 *)
Definition is_white_space (tk : token) : bool :=
  match tok_type tk with TSpace | TTab => true | _ => false end.
(* token.go 147-154 *)
Definition is_non_break (tk : token) : bool :=
  match tok_type tk with TBOM | TLineBreak | TEOF => false | _ => true end.
(* token.go 157-164 *)
Definition may_precede_word (tk : token) : bool :=
  match tok_type tk with TSpace | TTab | TLineBreak | TUnknown => true | _ => false end.
(* token.go 168-175 *)
Definition is_opening_flow_indicator (tk : token) : bool :=
  match tok_type tk with TMappingStart | TSequenceStart | TCollectEntry => true | _ => false end.
(* token.go 179-186 *)
Definition is_closing_flow_indicator (tk : token) : bool :=
  match tok_type tk with TMappingEnd | TSequenceEnd | TCollectEntry => true | _ => false end.

(** ** bitmap.go, with 16-bit arithmetic written out *)
Definition mask16 : N := 65535.
Definition shl16 (x k : N) : N := N.land (N.shiftl x k) mask16.
Definition not16 (x : N) : N := N.lxor x mask16.

(* math/bits.TrailingZeros16: number of low zero bits, 16 for zero *)
Fixpoint trailing_zeros_fuel (fuel : nat) (v : N) : N :=
  match fuel with
  | O => 0
  | S f => if N.odd v then 0 else 1 + trailing_zeros_fuel f (N.div2 v)
  end.
Definition trailing_zeros16 (v : N) : N := trailing_zeros_fuel 16 (N.land v mask16).

(* bitmap.go 18-30 *)
Definition bitmap_get (b : N) (c : charset) : bool * bool :=
  let shift := 2 * trailing_zeros16 (charset_value c) in
  let v := N.shiftr (N.land b (shl16 3 shift)) shift in
  if (v =? 0) || (v =? 3) then (false, false)
  else if v =? 1 then (true, true)
  else if v =? 2 then (false, true)
  else (false, false).

(* bitmap.go 32-37 *)
Definition bitmap_set_true (b : N) (c : charset) : N :=
  let shift := 2 * trailing_zeros16 (charset_value c) in
  let b := N.land b (not16 (shl16 1 (1 + shift))) in
  N.lor b (shl16 1 shift).

(* bitmap.go 39-44 *)
Definition bitmap_set_false (b : N) (c : charset) : N :=
  let shift := 1 + 2 * trailing_zeros16 (charset_value c) in
  let b := N.land b (not16 (shl16 1 (shift - 1))) in
  N.lor b (shl16 1 shift).

(* bitmap.go 11-16 *)
Definition bitmap_set (b : N) (c : charset) (v : bool) : N :=
  if v then bitmap_set_true b c else bitmap_set_false b c.

(* token.go 202-214; returns the answer and the token with its updated cache *)
Definition tok_conforms (tk : token) (c : charset) : bool * token :=
  match bitmap_get (tok_map tk) c with
  | (result, true) => (result, tk)
  | (_, false) =>
      let result := conforms_charset (tok_origin tk) c in
      (result, mkTok (tok_type tk) (tok_start tk) (tok_end tk) (tok_origin tk)
                     (bitmap_set (tok_map tk) c result))
  end.

(** A sequence of questions asked to the same token. *)
Fixpoint tok_ask (tk : token) (qs : list charset) : list bool * token :=
  match qs with
  | [] => ([], tk)
  | q :: qs' =>
      let '(r, tk1) := tok_conforms tk q in
      let '(rs, tk2) := tok_ask tk1 qs' in
      (r :: rs, tk2)
  end.
