(** Property theorems C62: folded block scalars. *)
From Coq Require Import String.
From Verif Require Import Base Token Ast Lexer Parser ParserDocs RoundTripSpec TextSpec TextFacts TextProofs LiteralProofs FoldedSpec FoldedProofs.

(** C62: a folded scalar (header with or without a chomping mark, comment, lines indented alike, empty lines
    between and after them) is parsed to the text that YAML gives it. *)
Theorem C62_folded_parse : forall t s, folded_text 1 t s ->
  forall digit omit fuel, 4 * length s + 4 <= fuel ->
    parse_string digit fuel omit s = Fin (inl (if omit then t else NStream [t])) tt.
Proof. exact folded_parses. Qed.
Print Assumptions C62_folded_parse.

(** C62: as the value of an entry, it leaves the entries after it alone. *)
Theorem C62_entries_after_folded : forall k ks t s es r, scalar_text k ks -> folded_text 1 t s -> entries_text false false 0 es r ->
  forall digit omit fuel, let doc := ks ++ 58%N :: 32%N :: s ++ r ++ [10%N] in 4 * length doc + 4 <= fuel ->
    parse_string digit fuel omit doc = Fin (inl (let v := NMapping (NEntry k t :: es) in if omit then v else NStream [v])) tt.
Proof. exact folded_value_parses. Qed.
Print Assumptions C62_entries_after_folded.

(** C62: lines given as a list, with any numbers of empty lines between them, are folded as YAML folds them. *)
Theorem C62_lines_fold : forall k v l ls, plain_word k -> 1 <= v -> fold_line_text l -> Forall (fun p => fold_line_text (snd p)) ls ->
  forall digit omit fuel, let doc := k ++ [58; 32; 62; 10]%N ++ fold_source v l ls in 4 * length doc + 4 <= fuel ->
    parse_string digit fuel omit doc =
      Fin (inl (let t := NMapping [NEntry (NText k UnknownQuoting) (NText (yaml_fold l ls) UnknownQuoting)] in if omit then t else NStream [t])) tt.
Proof. exact folded_lines_parse. Qed.
Print Assumptions C62_lines_fold.

(** C62 is refuted for lines that are indented more: the break between two of them is doubled. *)
Theorem C62_more_indented_refuted : forall digit omit, ~ forall k l ls,
  plain_word k -> plain_word l -> Forall (fun p : nat * text => exists i w, plain_word w /\ snd p = spaces i ++ w) ls ->
  exists fuel0, forall fuel, fuel0 <= fuel ->
    parse_string digit fuel omit (k ++ [58; 32; 62; 10]%N ++ fold_source 2 l ls) =
      Fin (inl (lone omit (NMapping [NEntry (word k) (word (yaml_fold l ls))]))) tt.
Proof.
  intros digit omit H. destruct (H (t' "a") (t' "x") [(0, t' " y"); (0, t' " z")]) as [f0 Hf]; try word_ok.
  - constructor; [exists 1, (t' "y"); split; [word_ok|reflexivity]|]. constructor; [exists 1, (t' "z"); split; [word_ok|reflexivity]|constructor].
  - specialize (Hf (f0 + 300) ltac:(lia)). pose proof (eq_trans (eq_sym Hf) (breaks_doubled digit omit (f0 + 300) ltac:(lia))) as D. destruct omit; discriminate D.
Qed.
Print Assumptions C62_more_indented_refuted.

(** C62 is refuted for lines of any characters: a bracket at the start of a line is an error. *)
Theorem C62_brackets_refuted : forall digit omit, ~ forall k l,
  plain_word k -> l <> [] -> Forall comment_char l -> ~ blank (hd 0%N l) -> exists fuel0, forall fuel, fuel0 <= fuel ->
    parse_string digit fuel omit (k ++ [58; 32; 62; 10]%N ++ fold_source 2 l []) =
      Fin (inl (lone omit (NMapping [NEntry (word k) (word (yaml_fold l []))]))) tt.
Proof.
  intros digit omit H. destruct (H (t' "a") (t' "[x")) as [f0 Hf]; [word_ok|discriminate|chars_ok|intros [E|E]; discriminate|]. specialize (Hf (f0 + 300) ltac:(lia)).
  destruct (folded_bracket_fails digit omit (f0 + 300) ltac:(lia)) as [es E]. pose proof (eq_trans (eq_sym Hf) E) as D. discriminate D.
Qed.
Print Assumptions C62_brackets_refuted.

(** ... and a quote in the first word of a line makes the parser drop the entries after the scalar. *)
Theorem C62_quotes_refuted : forall digit omit, ~ forall k l k2 v,
  plain_word k -> l <> [] -> Forall comment_char l -> ~ blank (hd 0%N l) -> ~ In (hd 0%N l) [91; 123]%N -> plain_word k2 -> plain_word v ->
  exists fuel0, forall fuel, fuel0 <= fuel ->
    parse_string digit fuel omit (k ++ [58; 32; 62; 10]%N ++ fold_source 2 l [] ++ k2 ++ [58; 32]%N ++ v ++ [10%N]) =
      Fin (inl (lone omit (NMapping [NEntry (word k) (word (yaml_fold l [])); NEntry (word k2) (word v)]))) tt.
Proof.
  intros digit omit H. destruct (H (t' "a") (t' "it's") (t' "b") (t' "c")) as [f0 Hf]; try word_ok; [discriminate|chars_ok|intros [E|E]; discriminate|vm_compute; intuition discriminate|].
  specialize (Hf (f0 + 300) ltac:(lia)). pose proof (eq_trans (eq_sym Hf) (folded_quote_drops digit omit (f0 + 300) ltac:(lia))) as D. destruct omit; discriminate D.
Qed.
Print Assumptions C62_quotes_refuted.

Example C62_lines_case : forall digit fuel, 400 <= fuel ->
  parse_string digit fuel true (t' "a: >" ++ [10%N] ++ t' "  one - two #" ++ [10%N] ++ t' "  b c: d" ++ [10; 10; 10]%N ++ t' "  three" ++ [10%N]) =
    Fin (inl (NMapping [NEntry (word (t' "a")) (word (t' "one - two # b c: d" ++ [10; 10]%N ++ t' "three" ++ [10%N]))])) tt.
Proof.
  intros digit fuel H. apply (folded_lines_parse (t' "a") 2 (t' "one - two #") [(0, t' "b c: d"); (2, t' "three")]); [word_ok|lia| | |vm_compute; vm_compute in H; lia].
  - apply (fl_words (t' "one") (t' " - two #")); [word_ok|chars_ok|right; reflexivity].
  - constructor; [apply (fl_words (t' "b") (t' " c: d")); [word_ok|chars_ok|right; reflexivity]|].
    constructor; [apply (fl_words (t' "three") []); [word_ok|constructor|left; reflexivity]|constructor].
Qed.
(** a single line that is indented more keeps the breaks around it *)
Example C62_one_kept_case : forall digit omit fuel, 300 <= fuel ->
  parse_string digit fuel omit (t' "a" ++ [58; 32; 62; 10]%N ++ fold_source 2 (t' "x") [(0, t' " y"); (1, t' "z")]) =
    Fin (inl (lone omit (NMapping [NEntry (word (t' "a")) (word (t' "x" ++ [10%N] ++ t' " y" ++ [10; 10]%N ++ t' "z" ++ [10%N]))]))) tt.
Proof. exact one_kept. Qed.
