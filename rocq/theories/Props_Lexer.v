(** Property theorems C06 - C08, C44: tokenization. *)
From Coq Require Import String.
From Verif Require Import Base Token Lexer LexerSpec LexerProofs.

(** C06: the texts of the tokens handed out so far are an initial part of the document, and when
    the end of input is reported they are all of it, for every raw-mode schedule. *)
Theorem C06_lossless :
  forall doc sched ts, tokenize doc sched = Some ts ->
    (exists rest, doc = origins ts ++ rest) /\
    (forall before tok after, ts = before ++ tok :: after -> is_eof tok = true -> origins before = doc).
Proof. exact lossless. Qed.
Print Assumptions C06_lossless.

(** C07: every request is answered; before the end of input with a token of at least one character;
    more requests than characters reach the end of input; afterwards only the end of input is
    reported. *)
Theorem C07_terminates :
  forall doc sched,
    exists ts, tokenize doc sched = Some ts /\ length ts = length sched /\
      (forall before tok after, ts = before ++ tok :: after ->
         if is_eof tok then forallb is_eof after = true else tok_origin tok <> []) /\
      (length doc < length sched -> existsb is_eof ts = true).
Proof. exact terminates. Qed.
Print Assumptions C07_terminates.

(** C08: a token starts and ends at the positions of its first and last characters; the first end
    of input is at the position after the last character. *)
Theorem C08_positions :
  forall doc sched ts before tok after,
    tokenize doc sched = Some ts -> ts = before ++ tok :: after ->
    if is_eof tok then
      forallb (fun t => negb (is_eof t)) before = true -> tok_start tok = place doc (length doc)
    else
      tok_start tok = place doc (length (origins before)) /\
      tok_end tok = place doc (length (origins before) + length (tok_origin tok) - 1).
Proof. exact positions. Qed.
Print Assumptions C08_positions.

(** C44: the kind of a token determines its text, up to the choice of line break; words contain no
    line break, tab or byte order mark. *)
Theorem C44_kind_determines_text :
  forall doc sched ts, tokenize doc sched = Some ts ->
    Forall (fun tok => kind_text (tok_type tok) (tok_origin tok)) ts.
Proof. exact kinds. Qed.
Print Assumptions C44_kind_determines_text.

(** A document with an escaped quote, a CR LF line break and a document end marker, read with raw
    mode on for some requests. *)
Definition sample : text := t' "- ""a\"" b"": c" ++ [13; 10]%N ++ t' "...".

Example C06_case :
  exists ts, tokenize sample [false; false; false; false; false; true; false; false; false; false; false; false; false; false] = Some ts /\
    origins ts = sample /\
    map (fun t => (tok_type t, length (tok_origin t))) ts =
    [(TSequenceEntry, 1); (TSpace, 1); (TDoubleQuote, 1); (TString, 3); (TSpace, 1); (TString, 3);
     (TSpace, 1); (TString, 1); (TLineBreak, 2); (TString, 3); (TEOF, 0); (TEOF, 0); (TEOF, 0); (TEOF, 0)].
Proof. eexists. split; [vm_compute; reflexivity|]. split; reflexivity. Qed.

Example C08_case :
  place (t' "ab" ++ [13; 10]%N ++ t' "c" ++ [13]%N ++ t' "d") 4 = mkPos 2 1 /\
  place (t' "ab" ++ [13; 10]%N ++ t' "c" ++ [13]%N ++ t' "d") 3 = mkPos 1 4 /\
  place (t' "ab" ++ [13; 10]%N ++ t' "c" ++ [13]%N ++ t' "d") 6 = mkPos 3 1 /\
  exists ts, tokenize (t' "ab" ++ [13; 10]%N ++ t' "c" ++ [13]%N ++ t' "d") [false; true; false; false; false] = Some ts /\
    map (fun t => (tok_start t, tok_end t)) ts =
    [(mkPos 1 1, mkPos 1 2); (mkPos 1 3, mkPos 1 4); (mkPos 2 1, mkPos 2 1); (mkPos 2 2, mkPos 2 2); (mkPos 3 1, mkPos 3 1)].
Proof. repeat (split; [reflexivity|]). eexists. split; [vm_compute; reflexivity|]. reflexivity. Qed.
