(** Property theorems C56: flow collections over several lines. *)
From Coq Require Import String.
From Verif Require Import Base Token Ast Lexer Parser ParserDocs RoundTripSpec TextSpec TextFacts TextProofs ParserFacts FlowLineSpec FlowLineProofs.

(** C56: a flow collection, with line breaks, empty lines and spaces anywhere around its brackets and commas, is
    parsed to its tree. *)
Theorem C56_flow_lines_parse : forall h t s, h <= 5 -> flow_text 0 h t s ->
  forall digit omit fuel, 4 * length s + 4 <= fuel ->
    parse_string digit fuel omit s = Fin (inl (if omit then t else NStream [t])) tt.
Proof. exact flows_parse. Qed.
Print Assumptions C56_flow_lines_parse.

(** C56: so the layout does not matter. *)
Theorem C56_layout_does_not_matter : forall h t s s2, h <= 5 -> flow_text 0 h t s -> flow_text 0 h t s2 ->
  forall digit omit fuel, 4 * length s + 4 <= fuel -> 4 * length s2 + 4 <= fuel ->
    parse_string digit fuel omit s = parse_string digit fuel omit s2.
Proof.
  intros h t s s2 Hh H H2 digit omit fuel Hf Hf2. rewrite (flows_parse h t s Hh H digit omit fuel Hf). symmetry. exact (flows_parse h t s2 Hh H2 digit omit fuel Hf2).
Qed.
Print Assumptions C56_layout_does_not_matter.

(** C56: as the value of an entry, with its further lines indented, it leaves the entries after it alone. *)
Theorem C56_flow_values_parse : forall h k ks t s es r, h <= 5 -> scalar_text k ks -> flow_text 1 h t s -> entries_text false false 0 es r ->
  forall digit omit fuel, let doc := ks ++ 58%N :: 32%N :: s ++ 10%N :: r ++ [10%N] in 4 * length doc + 4 <= fuel ->
    parse_string digit fuel omit doc = Fin (inl (let v := NMapping (NEntry k t :: es) in if omit then v else NStream [v])) tt.
Proof. intros h k ks t s es r Hh Hk H Hr digit omit fuel doc Hf. exact (flow_value_parses h k ks t s es r Hh Hk H Hr digit omit fuel Hf). Qed.
Print Assumptions C56_flow_values_parse.

(** C56: indented JSON, whatever the indentation step. *)
Theorem C56_indented_json_parses : forall step v, simple v -> arrays v <= 5 ->
  forall digit omit fuel, 4 * length (indented step 0 v) + 4 <= fuel ->
    parse_string digit fuel omit (indented step 0 v) = Fin (inl (if omit then tree v else NStream [tree v])) tt.
Proof. exact indented_parses. Qed.
Print Assumptions C56_indented_json_parses.

(** C56: and under a key, as long as all of its lines are indented. *)
Theorem C56_indented_json_under_key : forall step k v d, 1 <= step * d -> plain_word k -> simple v -> arrays v <= 5 ->
  forall digit omit fuel, let doc := k ++ [58; 32]%N ++ indented step d v ++ [10%N] in 4 * length doc + 4 <= fuel ->
    parse_string digit fuel omit doc = Fin (inl (let t := NMapping [NEntry (NText k UnknownQuoting) (tree v)] in if omit then t else NStream [t])) tt.
Proof. intros step k v d Hd Hk Hs Ha digit omit fuel doc Hf. exact (indented_value_parses step k v d Hd Hk Hs Ha digit omit fuel Hf). Qed.
Print Assumptions C56_indented_json_under_key.

(** C56 is refuted for comments inside of brackets: they are read as text. *)
Theorem C56_comments_refuted : forall digit omit, ~ forall a c b, plain_word a -> comment_text c -> plain_word b ->
  exists fuel0, forall fuel, fuel0 <= fuel ->
    parse_string digit fuel omit (91%N :: a ++ [44; 32]%N ++ c ++ 10%N :: b ++ [93%N]) =
      Fin (inl (alone omit (NSequence [NText a UnknownQuoting; NText b UnknownQuoting]))) tt.
Proof.
  intros digit omit H. destruct (H (t' "a") (t' "#x") (t' "b")) as [f0 Hf]; [word_ok|comment_ok|word_ok|]. specialize (Hf (f0 + 200) ltac:(lia)).
  pose proof (eq_trans (eq_sym Hf) (comment_read digit omit (f0 + 200) ltac:(lia))) as D. destruct omit; discriminate D.
Qed.
Print Assumptions C56_comments_refuted.

(** C56 is refuted for a closing bracket that is not indented more than the key: the document is lost, without an error. *)
Theorem C56_level_bracket_refuted : forall digit omit, ~ forall k a, plain_word k -> plain_word a ->
  exists fuel0, forall fuel, fuel0 <= fuel ->
    parse_string digit fuel omit (k ++ [58; 32; 91; 10; 32; 32]%N ++ a ++ [10; 93; 10]%N) =
      Fin (inl (alone omit (NMapping [NEntry (NText k UnknownQuoting) (NSequence [NText a UnknownQuoting])]))) tt.
Proof.
  intros digit omit H. destruct (H (t' "a") (t' "b")) as [f0 Hf]; [word_ok|word_ok|]. specialize (Hf (f0 + 200) ltac:(lia)).
  pose proof (eq_trans (eq_sym Hf) (level_lost digit omit (f0 + 200) ltac:(lia))) as D. destruct omit; discriminate D.
Qed.
Print Assumptions C56_level_bracket_refuted.

Example C56_flow_case : flow_text 1 1 flow_value_tree flow_value /\
  forall digit fuel, 400 <= fuel -> parse_string digit fuel true (t' "a: " ++ flow_value ++ nl ++ t' "b: []" ++ nl) =
    Fin (inl (NMapping [NEntry (u "a") flow_value_tree; NEntry (u "b") (NSequence [])])) tt.
Proof.
  split; [exact flow_value_text|]. intros digit fuel H.
  refine (C56_flow_values_parse 1 (u "a") (t' "a") flow_value_tree flow_value [NEntry (u "b") (NSequence [])] (t' "b: []") _ _ flow_value_text _ digit true fuel _).
  - lia.
  - constructor. constructor. word_ok.
  - apply es_one, (et_key false 0 _ (t' "b") _ (t' " []")); [constructor; constructor; word_ok|]. apply at_word, (lt_flow _ 1); [lia|apply (empty_flow 1 true 0 0)].
  - vm_compute in H |- *. lia.
Qed.
Example C56_json_case :
  indented 2 0 json_value = t' "{" ++ nl ++ t' "  ""a"": [" ++ nl ++ t' "    1," ++ nl ++ t' "    []," ++ nl ++ t' "    ""x y""" ++ nl ++ t' "  ]," ++ nl ++
    t' "  ""b"": {}," ++ nl ++ t' "  ""c"": [" ++ nl ++ t' "    {" ++ nl ++ t' "      """": null" ++ nl ++ t' "    }" ++ nl ++ t' "  ]" ++ nl ++ t' "}"
  /\ simple json_value /\ arrays json_value = 2
  /\ forall digit fuel, 500 <= fuel -> parse_string digit fuel true (indented 2 0 json_value) = Fin (inl (tree json_value)) tt.
Proof.
  split; [reflexivity|]. split; [exact json_value_simple|]. split; [reflexivity|]. intros digit fuel H.
  apply (indented_parses 2 json_value json_value_simple ltac:(cbn; lia) digit true fuel). vm_compute in H |- *. lia.
Qed.
Example C56_refuted_cases : forall digit fuel, 300 <= fuel ->
  parse_string digit fuel true (t' "[a, #x" ++ nl ++ t' "b]") = Fin (inl (NSequence [u "a"; u "#x b"])) tt /\
  parse_string digit fuel true (t' "a: [" ++ nl ++ t' "  b" ++ nl ++ t' "]" ++ nl) = Fin (inl (NStream [])) tt.
Proof. intros digit fuel H. split; [apply (comment_read digit true); lia|apply (level_lost digit true); lia]. Qed.

(** C46: what remains of it, up to five levels, with any word, and spaces inside of the brackets. *)
Theorem C46_five_levels_partial : forall n w m, n <= 5 -> plain_word w -> hd 0%N w <> 58%N ->
  forall digit omit fuel, let doc := padded m n w in 4 * length doc + 4 <= fuel ->
    parse_string digit fuel omit doc = Fin (inl (if omit then nested n (NText w UnknownQuoting) else NStream [nested n (NText w UnknownQuoting)])) tt.
Proof. exact levels_parse. Qed.
Print Assumptions C46_five_levels_partial.
Example C46_levels_case : padded 0 3 (t' "a") = t' "[[[a]]]" /\ padded 1 2 (t' "a") = t' "[ [ a ] ]".
Proof. split; reflexivity. Qed.
