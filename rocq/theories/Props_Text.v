(** Property theorems C52: texts of documents, flow collections and JSON. *)
From Coq Require Import String.
From Verif Require Import Base Token Ast Lexer Parser ParserDocs RoundTripSpec TextSpec TextProofs.

(** C52: a stream of documents of the grammar in TextSpec is parsed to the trees it stands for: scalars, flow
    collections and block collections nested in each other, at any indentation, with comments, empty
    lines, line breaks of either kind, values left out, and the marks between documents. *)
Theorem C52_streams_parse : forall ds s, stream_text ds s ->
  forall digit omit fuel, 4 * length s + 4 <= fuel ->
    parse_string digit fuel omit s = Fin (inl (match ds with [d] => if omit then d else NStream ds | _ => NStream ds end)) tt.
Proof. exact streams_parse. Qed.
Print Assumptions C52_streams_parse.

(** C52: a document of the grammar in TextSpec (scalars, flow collections and block collections, nested
    in each other) is parsed to the tree it stands for. *)
Theorem C52_documents_parse : forall t s, document_text t s ->
  forall digit omit fuel, 4 * length s + 4 <= fuel ->
    parse_string digit fuel omit s = Fin (inl (if omit then t else NStream [t])) tt.
Proof. exact documents_parse. Qed.
Print Assumptions C52_documents_parse.

(** C52: JSON texts on one line or several, arrays nested at most five deep, with a space (or more) after colons. *)
Theorem C52_json_parses : forall k h t s, 1 <= k -> h <= 5 -> json_text k h t s ->
  forall digit omit fuel, 4 * length s + 4 <= fuel ->
    parse_string digit fuel omit s = Fin (inl (if omit then t else NStream [t])) tt.
Proof. exact json_parses. Qed.
Print Assumptions C52_json_parses.

(** C52 is refuted for JSON texts without a space after colons. *)
Theorem C52_compact_json_refuted : forall digit omit, ~ forall t s, json_text 0 1 t s ->
  exists fuel0, forall fuel, fuel0 <= fuel ->
    parse_string digit fuel omit s = Fin (inl (if omit then t else NStream [t])) tt.
Proof.
  intros digit omit H. destruct (H _ _ compact_json) as [f0 Hf]. specialize (Hf (f0 + 100) ltac:(lia)).
  destruct (compact_fails digit omit (f0 + 100) ltac:(lia)) as (tk & E & _). rewrite E in Hf. discriminate.
Qed.
Print Assumptions C52_compact_json_refuted.

(** C52 is refuted for a dash that is the last character of the input: the entry is dropped. *)
Theorem C52_last_dash_refuted : forall digit omit, ~ forall t s, lines_text false t s ->
  exists fuel0, forall fuel, fuel0 <= fuel ->
    parse_string digit fuel omit s = Fin (inl (if omit then t else NStream [t])) tt.
Proof.
  intros digit omit H. destruct (H _ _ last_dash_lines) as [f0 Hf]. specialize (Hf (f0 + 100) ltac:(lia)).
  rewrite (last_dash_lost digit omit (f0 + 100) ltac:(lia)) in Hf. destruct omit; discriminate.
Qed.
Print Assumptions C52_last_dash_refuted.

(** C52 is refuted for blanks before a line break between quotes: they are kept in the text. *)
Theorem C52_quoted_blanks_refuted : forall digit omit, ~ forall a k c, plain_word a -> plain_word c ->
  exists fuel0, forall fuel, fuel0 <= fuel ->
    parse_string digit fuel omit (34%N :: a ++ spaces k ++ 10%N :: c ++ [34%N]) =
      Fin (inl (let t := NText (a ++ 32%N :: c) DoubleQuoting in if omit then t else NStream [t])) tt.
Proof.
  intros digit omit H. destruct (H (t' "x") 1 (t' "y")) as [f0 Hf]; [word_ok|word_ok|]. specialize (Hf (f0 + 200) ltac:(lia)).
  rewrite (blanks_kept digit omit (f0 + 200) ltac:(lia)) in Hf. destruct omit; discriminate.
Qed.
Print Assumptions C52_quoted_blanks_refuted.

(** C52 is refuted for an empty line inside a scalar when lines end with a carriage return and a line feed:
    the carriage return is kept in the text. *)
Theorem C52_empty_crlf_line_refuted : forall digit omit, ~ forall a e c, plain_word a -> break_text e -> plain_word c ->
  exists fuel0, forall fuel, fuel0 <= fuel ->
    parse_string digit fuel omit (a ++ e ++ e ++ c) =
      Fin (inl (let t := NText (a ++ 10%N :: c) UnknownQuoting in if omit then t else NStream [t])) tt.
Proof.
  intros digit omit H. destruct (H (t' "x") crlf (t' "y")) as [f0 Hf]; [word_ok|constructor|word_ok|]. specialize (Hf (f0 + 200) ltac:(lia)).
  rewrite (returns_kept digit omit (f0 + 200) ltac:(lia)) in Hf. destruct omit; discriminate.
Qed.
Print Assumptions C52_empty_crlf_line_refuted.

Example C52_lines_case : document_text fold_tree fold_sample /\
  forall digit fuel, 300 <= fuel -> parse_string digit fuel true fold_sample = Fin (inl fold_tree) tt.
Proof.
  split; [exact fold_sample_text|]. intros digit fuel H. apply (documents_parse fold_tree fold_sample fold_sample_text digit true fuel).
  vm_compute in H |- *. lia.
Qed.
Example C52_stream_case : stream_text stream_trees stream_sample /\ length stream_trees = 3 /\
  forall digit omit fuel, 1000 <= fuel -> parse_string digit fuel omit stream_sample = Fin (inl (NStream stream_trees)) tt.
Proof.
  split; [exact stream_sample_text|]. split; [reflexivity|]. intros digit omit fuel H.
  apply (streams_parse stream_trees stream_sample stream_sample_text digit omit fuel). vm_compute in H |- *. lia.
Qed.
Example C52_document_case : document_text sample_tree sample /\
  forall digit fuel, 500 <= fuel -> parse_string digit fuel true sample = Fin (inl sample_tree) tt.
Proof.
  split; [exact sample_text|]. intros digit fuel H. apply (documents_parse sample_tree sample sample_text digit true fuel).
  vm_compute in H |- *. lia.
Qed.
Example C52_json_case : forall digit omit fuel, 100 <= fuel ->
  compact = t' "{""a"":[1]}" /\
  exists tk, parse_string digit fuel omit compact = Fin (inr [UnbalancedClosing tk]) tt /\ tok_origin tk = t' "]".
Proof. intros digit omit fuel H. split; [reflexivity|exact (compact_fails digit omit fuel H)]. Qed.
