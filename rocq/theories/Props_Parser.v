(** Property theorems C37, C38, C46: parsing. *)
From Coq Require Import String.
From Verif Require Import Base YamlChar Token Ast CPAccessor CPAccessorSpec Lexer LexerSpec Parser ParserDocs ParserLogic
  ParserTerm ParserTotal ParserFacts.

(** C37: parsing any text finishes with a tree or with at least one error, and never panics.  The
    loops and recursions of the parser go round at most four times per character (and four times
    more), whatever the classification of digits outside of ASCII. *)
Theorem C37_parsing_finishes :
  forall digit omit_stream doc,
    exists r, (forall fuel, 4 * length doc + 4 <= fuel -> parse_string digit fuel omit_stream doc = Fin r tt) /\
      match r with inl tree => True | inr errs => errs <> [] end.
Proof.
  intros digit omit doc. destruct (parse_string_finishes digit omit doc) as (r & H).
  exists r. split; [exact H|]. destruct r as [tree|errs]; [exact I|].
  exact (parse_string_errors digit omit doc _ errs (H _ (le_n _))).
Qed.
Print Assumptions C37_parsing_finishes.

(** C37 for a slice of tokens, if their byte order marks are none of the words YAML and TAG. *)
Theorem C37_parsing_tokens_finishes :
  forall digit ts,
    Forall (fun tk => tok_type tk = TBOM -> tok_origin tk <> t' "YAML" /\ tok_origin tk <> t' "TAG") ts ->
    exists tree errs, forall fuel, 4 * length ts + 4 <= fuel -> parse_tokens digit fuel ts = Fin (tree, errs) tt.
Proof.
  intros digit ts H. destruct (parse_tokens_finishes digit ts) as ([tree errs] & E).
  - eapply Forall_impl; [|exact H]. intros tk Hk Hb. unfold is_bom in Hb.
    destruct (tok_type tk) eqn:Et; try discriminate. destruct (Hk Et) as [H1 H2].
    split; apply Bool.not_true_is_false; intro Hx; apply text_eqb_eq in Hx; contradiction.
  - exists tree, errs. exact E.
Qed.
Print Assumptions C37_parsing_tokens_finishes.

(** C37: the parser sees its checkpointing accessor (C02) as a plain cursor over the tokens: the
    defects of C02 cannot be observed through the parser. *)
Theorem C37_accessor_is_cursor :
  forall digit doc fuel, 4 * length doc + 4 <= fuel ->
    exists r a c,
      run_acc (lexer_stream acc_source (S (length doc))) (parse_program digit fuel new_parser)
        (acc_init zero_token (lex_new (acc_init None doc))) = Fin r a /\
      run_cur (lexer_stream acc_source (S (length doc))) zero_token (parse_program digit fuel new_parser)
        (cur_init (lex_new (acc_init None doc))) = Fin r c.
Proof. exact parse_text_cursor. Qed.
Print Assumptions C37_accessor_is_cursor.

Example C37_case_tree :
  parse_string is_digit 200 true (t' "a: [b, 'c']") =
  Fin (inl (NMapping [NEntry (NText (t' "a") UnknownQuoting)
    (NSequence [NText (t' "b") UnknownQuoting; NText (t' "c") SingleQuoting])])) tt.
Proof. vm_compute. reflexivity. Qed.
Example C37_case_error :
  parse_string is_digit 200 true (t' "a: [b") = Fin (inr [UnbalancedOpening (Some TSequenceStart) (mkPos 1 6)]) tt.
Proof. vm_compute. reflexivity. Qed.

(** C38 is refuted: some text is parsed successfully although not all of it was read. *)
Theorem C38_whole_input_refuted : forall digit, ~ forall doc, reads_all digit doc.
Proof. intros digit H. destruct (not_all_read digit) as [doc Hd]. exact (Hd (H doc)). Qed.
Print Assumptions C38_whole_input_refuted.

(** C38: such a text gives the same tree as the empty text, and another one the same tree as the
    text without its last line. *)
Theorem C38_rest_dropped_refuted :
  forall digit omit fuel, 100 <= fuel ->
    parse_string digit fuel omit (t' "a: b c: d") = Fin (inl (NStream [])) tt /\
    parse_string digit fuel omit [] = Fin (inl (NStream [])) tt /\
    parse_string digit fuel omit (t' "- a" ++ [10%N] ++ t' "b: c") = parse_string digit fuel omit (t' "- a").
Proof. exact rest_dropped. Qed.
Print Assumptions C38_rest_dropped_refuted.

(** C46 is refuted: a word in seven pairs of brackets is reported as a dead end, in six pairs it is
    parsed. *)
Theorem C46_nested_flow_refuted :
  forall digit, ~ forall n, exists F, forall fuel, F <= fuel ->
    parse_string digit fuel true (brackets n (t' "a")) = Fin (inl (nested n (NText (t' "a") UnknownQuoting))) tt.
Proof.
  intros digit H. destruct (H 7) as [F HF]. specialize (HF (F + 100) ltac:(lia)).
  rewrite (nested_seven digit (F + 100)) in HF by lia. discriminate.
Qed.
Print Assumptions C46_nested_flow_refuted.

Example C46_case : forall digit fuel, 100 <= fuel ->
  parse_string digit fuel true (t' "[[[[[[a]]]]]]") = Fin (inl (nested 6 (NText (t' "a") UnknownQuoting))) tt /\
  parse_string digit fuel true (t' "[[[[[[[a]]]]]]]") = Fin (inr [DeadEnd (mkPos 1 7)]) tt.
Proof. intros digit fuel H. exact (conj (nested_six digit fuel H) (nested_seven digit fuel H)). Qed.
