(** Property theorems C55: literal block scalars. *)
From Coq Require Import String.
From Verif Require Import Base Token Ast Lexer Parser ParserDocs RoundTripSpec TextSpec TextFacts TextProofs LiteralProofs.

(** C55: a literal scalar, or a folded one (C62) (header with or without a chomping mark, comment, lines indented alike or more,
    empty lines) is parsed to the text that YAML gives it, whatever its lines look like. *)
Theorem C55_literals_parse : forall t s, literal_text 1 t s ->
  forall digit omit fuel, 4 * length s + 4 <= fuel ->
    parse_string digit fuel omit s = Fin (inl (if omit then t else NStream [t])) tt.
Proof. exact literal_parses. Qed.
Print Assumptions C55_literals_parse.

(** C55: as the value of an entry, it leaves the entries after it alone. *)
Theorem C55_entries_after_literals : forall k ks t s es r, scalar_text k ks -> literal_text 1 t s -> entries_text false false 0 es r ->
  forall digit omit fuel, let doc := ks ++ 58%N :: 32%N :: s ++ r ++ [10%N] in 4 * length doc + 4 <= fuel ->
    parse_string digit fuel omit doc = Fin (inl (let v := NMapping (NEntry k t :: es) in if omit then v else NStream [v])) tt.
Proof. exact literal_value_parses. Qed.
Print Assumptions C55_entries_after_literals.

(** C55: lines given as a list come back as they were. *)
Theorem C55_lines_parse : forall k v l ls, plain_word k -> 1 <= v -> line_text l -> Forall line_text ls ->
  forall digit omit fuel,
    let doc := k ++ [58; 32; 124; 10]%N ++ concat (map (fun l => spaces v ++ l ++ [10%N]) (l :: ls)) in
    4 * length doc + 4 <= fuel ->
    parse_string digit fuel omit doc =
      Fin (inl (let t := NMapping [NEntry (NText k UnknownQuoting) (NText (concat (map (fun l => l ++ [10%N]) (l :: ls))) UnknownQuoting)] in
        if omit then t else NStream [t])) tt.
Proof. exact literal_lines_parse. Qed.
Print Assumptions C55_lines_parse.

(** C55 is refuted for an empty line in front of the text: it sets the indentation to nothing, and the rest
    of the document becomes the text. *)
Theorem C55_leading_empty_line_refuted : forall digit omit, ~ forall k l k2 v,
  plain_word k -> plain_word l -> plain_word k2 -> plain_word v -> exists fuel0, forall fuel, fuel0 <= fuel ->
    parse_string digit fuel omit (k ++ [58; 32; 124; 10]%N ++ [10%N] ++ line_up 2 [l] ++ k2 ++ [58; 32]%N ++ v ++ [10%N]) =
      Fin (inl (lone omit (NMapping [NEntry (word k) (word (10%N :: l ++ [10%N])); NEntry (word k2) (word v)]))) tt.
Proof.
  intros digit omit H. destruct (H (t' "a") (t' "x") (t' "b") (t' "c")) as [f0 Hf]; try word_ok. specialize (Hf (f0 + 300) ltac:(lia)).
  pose proof (eq_trans (eq_sym Hf) (empty_line_swallows digit omit (f0 + 300) ltac:(lia))) as D. destruct omit; discriminate D.
Qed.
Print Assumptions C55_leading_empty_line_refuted.

(** C55 is refuted for a scalar without lines: the entries after it become its text. *)
Theorem C55_empty_literal_refuted : forall digit omit, ~ forall k k2 v,
  plain_word k -> plain_word k2 -> plain_word v -> exists fuel0, forall fuel, fuel0 <= fuel ->
    parse_string digit fuel omit (k ++ [58; 32; 124; 10]%N ++ k2 ++ [58; 32]%N ++ v ++ [10%N]) =
      Fin (inl (lone omit (NMapping [NEntry (word k) (word []); NEntry (word k2) (word v)]))) tt.
Proof.
  intros digit omit H. destruct (H (t' "a") (t' "b") (t' "c")) as [f0 Hf]; try word_ok. specialize (Hf (f0 + 300) ltac:(lia)).
  pose proof (eq_trans (eq_sym Hf) (no_lines_swallow digit omit (f0 + 300) ltac:(lia))) as D. destruct omit; discriminate D.
Qed.
Print Assumptions C55_empty_literal_refuted.

(** C55 is refuted for lines of any characters: a bracket at the start of a line is an error. *)
Theorem C55_brackets_refuted : forall digit omit, ~ forall k l,
  plain_word k -> l <> [] -> Forall comment_char l -> ~ blank (hd 0%N l) -> exists fuel0, forall fuel, fuel0 <= fuel ->
    parse_string digit fuel omit (k ++ [58; 32; 124; 10]%N ++ line_up 2 [l]) =
      Fin (inl (lone omit (NMapping [NEntry (word k) (word (l ++ [10%N]))]))) tt.
Proof.
  intros digit omit H. destruct (H (t' "a") (t' "[x")) as [f0 Hf]; [word_ok|discriminate|chars_ok|intros [E|E]; discriminate|]. specialize (Hf (f0 + 300) ltac:(lia)).
  destruct (bracket_fails digit omit (f0 + 300) ltac:(lia)) as [es E]. pose proof (eq_trans (eq_sym Hf) E) as D. discriminate D.
Qed.
Print Assumptions C55_brackets_refuted.

(** ... and a quote in the first word of a line makes the parser drop the entries after the scalar. *)
Theorem C55_quotes_refuted : forall digit omit, ~ forall k l k2 v,
  plain_word k -> l <> [] -> Forall comment_char l -> ~ blank (hd 0%N l) -> ~ In (hd 0%N l) [91; 123]%N -> plain_word k2 -> plain_word v ->
  exists fuel0, forall fuel, fuel0 <= fuel ->
    parse_string digit fuel omit (k ++ [58; 32; 124; 10]%N ++ line_up 2 [l] ++ k2 ++ [58; 32]%N ++ v ++ [10%N]) =
      Fin (inl (lone omit (NMapping [NEntry (word k) (word (l ++ [10%N])); NEntry (word k2) (word v)]))) tt.
Proof.
  intros digit omit H. destruct (H (t' "a") (t' "it's") (t' "b") (t' "c")) as [f0 Hf]; try word_ok; [discriminate|chars_ok|intros [E|E]; discriminate|vm_compute; intuition discriminate|].
  specialize (Hf (f0 + 300) ltac:(lia)). pose proof (eq_trans (eq_sym Hf) (quote_drops digit omit (f0 + 300) ltac:(lia))) as D. destruct omit; discriminate D.
Qed.
Print Assumptions C55_quotes_refuted.

(** C55 is refuted for lines that end with a carriage return and a line feed: both are kept in the text. *)
Theorem C55_crlf_refuted : forall digit omit, ~ forall k e l,
  plain_word k -> break_text e -> plain_word l -> exists fuel0, forall fuel, fuel0 <= fuel ->
    parse_string digit fuel omit (k ++ [58; 32; 124]%N ++ e ++ spaces 2 ++ l ++ e) =
      Fin (inl (lone omit (NMapping [NEntry (word k) (word (l ++ [10%N]))]))) tt.
Proof.
  intros digit omit H. destruct (H (t' "a") crlf (t' "x")) as [f0 Hf]; try word_ok; [constructor|]. specialize (Hf (f0 + 300) ltac:(lia)).
  pose proof (eq_trans (eq_sym Hf) (returns_in_text digit omit (f0 + 300) ltac:(lia))) as D. destruct omit; discriminate D.
Qed.
Print Assumptions C55_crlf_refuted.

Example C55_stream_case : stream_text literal_trees literal_sample /\ length literal_trees = 2 /\
  forall digit omit fuel, 1000 <= fuel -> parse_string digit fuel omit literal_sample = Fin (inl (NStream literal_trees)) tt.
Proof.
  split; [exact literal_sample_text|]. split; [reflexivity|]. intros digit omit fuel H.
  apply (streams_parse literal_trees literal_sample literal_sample_text digit omit fuel). vm_compute in H |- *. lia.
Qed.
Example C55_lines_case : forall digit fuel, 300 <= fuel ->
  parse_string digit fuel true (t' "run" ++ [58; 32; 124; 10]%N ++ line_up 2 [t' "- a: [1,"; t' "#b ""c"""]) =
    Fin (inl (NMapping [NEntry (word (t' "run")) (word (t' "- a: [1," ++ [10%N] ++ t' "#b ""c""" ++ [10%N]))])) tt.
Proof.
  intros digit fuel H. apply (literal_lines_parse (t' "run") 2 (t' "- a: [1,") [t' "#b ""c"""]); [word_ok|lia| | |vm_compute; vm_compute in H; lia].
  - first_word (t' "-") (t' " a: [1,").
  - constructor; [|constructor]. first_word (t' "#b") (t' " ""c""").
Qed.
