(** Model of the rune stream of the tokenizer over bytes (lexer/rune_stream.go) and of Go's
    unicode/utf8.DecodeRune, which it calls. *)
From Verif Require Import Base Ast Token CPAccessor Lexer Parser ParserDocs.
Local Open Scope N_scope.

(** A byte is a number below 256. *)
Notation byte := N (only parsing).
Definition bytes := list N.

(** utf8.RuneError *)
Definition rune_error : rune := 65533.

(* unicode/utf8.DecodeRune of Go's library: the rune at the start of a non-empty slice and the number
   of bytes it takes; one byte and RuneError if no well-formed sequence is there.  The table [first]
   gives by the first byte the length of the sequence and the range of the second byte.  The masks and
   shifts are written as arithmetic: [p land 31] as [p mod 32], [x shl 6] as [x * 64]. *)
Inductive lead := Ascii | Bad | Seq (size : nat) (lo hi : N).
Definition first (p : byte) : lead :=
  if p <? 128 then Ascii
  else if p <? 194 then Bad
  else if p <? 224 then Seq 2 128 191
  else if p =? 224 then Seq 3 160 191
  else if p <? 237 then Seq 3 128 191
  else if p =? 237 then Seq 3 128 159
  else if p <? 240 then Seq 3 128 191
  else if p =? 240 then Seq 4 144 191
  else if p <? 244 then Seq 4 128 191
  else if p =? 244 then Seq 4 128 143
  else Bad.
Definition within (lo hi b : N) : bool := (lo <=? b) && (b <=? hi).
Definition decode_rune (p0 : byte) (rest : bytes) : rune * nat :=
  match first p0 with
  | Ascii => (p0, 1%nat)
  | Bad => (rune_error, 1%nat)
  | Seq sz lo hi =>
      if Nat.ltb (Datatypes.S (length rest)) sz then (rune_error, 1%nat)
      else let b1 := nth 0 rest 0 in
      if negb (within lo hi b1) then (rune_error, 1%nat)
      else if Nat.leb sz 2 then (p0 mod 32 * 64 + b1 mod 64, 2%nat)
      else let b2 := nth 1 rest 0 in
      if negb (within 128 191 b2) then (rune_error, 1%nat)
      else if Nat.leb sz 3 then (p0 mod 16 * 4096 + b1 mod 64 * 64 + b2 mod 64, 3%nat)
      else let b3 := nth 2 rest 0 in
      if negb (within 128 191 b3) then (rune_error, 1%nat)
      else (p0 mod 8 * 262144 + b1 mod 64 * 4096 + b2 mod 64 * 64 + b3 mod 64, 4%nat)
  end.

(* rune_stream.go 8-29.  The state is what is left of [src] from [pos] on; EOF is [None]. *)
Definition byte_next (s : bytes) : option rune * bytes :=
  match s with
  | [] => (None, [])
  | p0 :: rest => let '(r, n) := decode_rune p0 rest in (Some r, skipn n s)
  end.

(** The checkpointing accessor over a stream of runes, with lookahead as in tokenizer.go 127-136: the
    definitions at the end of Lexer, for any stream. *)
Section Accessor.
  Context {S : Type} (next : S -> option rune * S).

  Definition over_read (a : accessor S (option rune)) : option rune * accessor S (option rune) :=
    match acc_next next a with Some (v, a') => (v, a') | None => (None, a) end.
  Fixpoint over_reads (n : nat) (a : accessor S (option rune)) : list (option rune) * accessor S (option rune) :=
    match n with
    | O => ([], a)
    | Datatypes.S n' =>
        let '(v, a1) := over_read a in
        let '(vs, a2) := over_reads n' a1 in (v :: vs, a2)
    end.
  Definition over_look (n : nat) (a : accessor S (option rune)) : list (option rune) * accessor S (option rune) :=
    let '(vs, a1) := over_reads n (acc_set_checkpoint a) in
    match acc_rollback a1 with Some (_, a2) => (vs, a2) | None => (vs, a1) end.
  Definition over_source : source (accessor S (option rune)) := mkSource over_read over_look.
End Accessor.
Definition byte_source : source (accessor bytes (option rune)) := over_source byte_next.

(* tokenizer.go 43-65 (NewTokenizer): tokens along a raw-mode schedule.  A token has at most as many
   runes as there are bytes. *)
Definition tokenize_bytes (src : bytes) (sched : list bool) : option (list token) :=
  lex_run byte_source (Datatypes.S (length src)) sched (lex_new (acc_init None src)).

(* parser.go 101-125 (ParseString, ParseBytes) *)
Definition parse_bytes (is_digit_u : rune -> bool) (fuel : nat) (omit_stream : bool) (src : bytes)
  : ran unit (node + list perror) :=
  match parse_token_stream is_digit_u fuel (lexer_stream byte_source (Datatypes.S (length src))) (lex_new (acc_init None src)) with
  | Fin (tree, errs) _ =>
      match errs with
      | [] => Fin (inl (match tree with
                        | NStream [d] => if omit_stream then d else tree
                        | _ => tree
                        end)) tt
      | _ => Fin (inr errs) tt
      end
  | Panicked => Panicked
  | OutOfFuel => OutOfFuel
  end.
