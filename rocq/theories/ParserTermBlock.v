(** Specifications of the productions of ParserBlock.v: each of them finishes. *)
From Coq Require Import String.
From Verif Require Import Base YamlChar Token Ast Balance Parser ParserLogic ParserTerm ParserFlow ParserTermFlow ParserBlock.
Local Open Scope parser_scope.

Section Block.
  Variable fuel : nat.

  Lemma ok_repeat_valid_truncating m saved : ok fuel m strict -> ok fuel (repeat_valid_truncating fuel m saved) anyp.
  Proof. intro H. unfold repeat_valid_truncating. start; go'. Qed.
  Hint Resolve ok_repeat_valid_truncating : pspec.

  Lemma ok_rest_of_line : ok fuel (rest_of_line fuel) anyp.
  Proof. unfold rest_of_line. start; go'. Qed.
  Hint Resolve ok_rest_of_line : pspec.

  Lemma ok_literal_text : ok fuel (parse_literal_text fuel) anyp.
  Proof. unfold parse_literal_text. start; go'. Qed.
  Hint Resolve ok_literal_text : pspec.
  Lemma ok_literal_next : ok fuel (parse_literal_next fuel) strict.
  Proof. unfold parse_literal_next. start; go'. Qed.
  Hint Resolve ok_literal_next : pspec.
  Lemma ok_chomped_last c : c <> UnknownChomping -> ok fuel (parse_chomped_last c) anyp.
  Proof. intro H. unfold parse_chomped_last. start; go'. Qed.
  Lemma ok_trail_comments : ok fuel (parse_trail_comments fuel) anyp.
  Proof. unfold parse_trail_comments. start; go'. Qed.
  Hint Resolve ok_chomped_last ok_trail_comments : pspec.
  Lemma ok_strip_empty : ok fuel (parse_strip_empty fuel) anyp.
  Proof. unfold parse_strip_empty. start; go'. Qed.
  Lemma ok_keep_empty : ok fuel (parse_keep_empty fuel) anyp.
  Proof. unfold parse_keep_empty. start; go'. Qed.
  Hint Resolve ok_strip_empty ok_keep_empty : pspec.
  Lemma ok_chomped_empty c : ok fuel (parse_chomped_empty fuel c) anyp.
  Proof. unfold parse_chomped_empty. start; go'. Qed.
  Hint Resolve ok_chomped_empty : pspec.
  Lemma ok_literal_content c : c <> UnknownChomping -> ok fuel (parse_literal_content fuel c) anyp.
  Proof. intro H. unfold parse_literal_content. start; go'. Qed.
  Hint Resolve ok_literal_content : pspec.
  Lemma ok_literal : ok fuel (parse_literal fuel) anyp.
  Proof. unfold parse_literal. start; go'. Qed.
  Hint Resolve ok_literal : pspec.

  Lemma ok_folded_text : ok fuel (parse_folded_text fuel) strict.
  Proof. unfold parse_folded_text. start; go'. Qed.
  Hint Resolve ok_folded_text : pspec.
  Lemma ok_folded_lines : ok fuel (parse_folded_lines fuel) anyp.
  Proof. unfold parse_folded_lines, repeat_valid_truncating. start; go'. Qed.
  Hint Resolve ok_folded_lines : pspec.
  Lemma ok_spaced_text : ok fuel (parse_spaced_text fuel) strict.
  Proof. unfold parse_spaced_text. start; go'. Qed.
  Hint Resolve ok_spaced_text : pspec.
  Lemma ok_spaced_line_break : ok fuel (parse_spaced_line_break fuel) anyp.
  Proof. unfold parse_spaced_line_break. start; go'. Qed.
  Hint Resolve ok_spaced_line_break : pspec.
  Lemma ok_spaced_lines : ok fuel (parse_spaced_lines fuel) anyp.
  Proof. unfold parse_spaced_lines, repeat_valid_truncating. start; go'. Qed.
  Hint Resolve ok_spaced_lines : pspec.
  Lemma ok_same_lines : ok fuel (parse_same_lines fuel) anyp.
  Proof. unfold parse_same_lines. start; go'. Qed.
  Hint Resolve ok_same_lines : pspec.
  Lemma ok_diff_lines : ok fuel (parse_diff_lines fuel) anyp.
  Proof. unfold parse_diff_lines. start; go'. Qed.
  Hint Resolve ok_diff_lines : pspec.
  Lemma ok_folded_content c : c <> UnknownChomping -> ok fuel (parse_folded_content fuel c) anyp.
  Proof. intro H. unfold parse_folded_content. start; go'. Qed.
  Hint Resolve ok_folded_content : pspec.
  Lemma ok_folded : ok fuel (parse_folded fuel) anyp.
  Proof. unfold parse_folded. start; go'. Qed.
  Hint Resolve ok_folded : pspec.
  Lemma ok_block_scalar ctx : ok fuel (parse_block_scalar fuel ctx) anyp.
  Proof. unfold parse_block_scalar. start; go'. Qed.
  Hint Resolve ok_block_scalar : pspec.

  Lemma ok_more_entries B entry first : B <= fuel -> ok B entry strict -> ok B (more_entries fuel entry first) anyp.
  Proof. intros HB H. unfold more_entries. start; go'. Qed.
  Hint Resolve ok_more_entries : pspec.

  Section Knot.
    Variable B : nat.
    Hypothesis HB : S B <= fuel.
    Variables (block_node block_indented : context -> M node).
    Hypothesis Hnode : forall ctx, ok B (block_node ctx) anyp.
    Hypothesis Hindented : forall ctx, ok B (block_indented ctx) anyp.
    Hint Resolve Hnode Hindented : pspec.

    Lemma ok_block_mapping_implicit_key : ok fuel (parse_block_mapping_implicit_key fuel) anyp.
    Proof. unfold parse_block_mapping_implicit_key. start; go'. Qed.
    Hint Resolve ok_block_mapping_implicit_key : pspec.
    Lemma ok_block_mapping_implicit_value : ok (S B) (parse_block_mapping_implicit_value fuel block_node) strict.
    Proof. unfold parse_block_mapping_implicit_value. start; go'. Qed.
    Hint Resolve ok_block_mapping_implicit_value : pspec.
    Lemma ok_block_mapping_implicit_entry : ok (S B) (parse_block_mapping_implicit_entry fuel block_node) strict.
    Proof. unfold parse_block_mapping_implicit_entry. start; go'. Qed.
    Lemma ok_block_mapping_explicit_key : ok (S B) (parse_block_mapping_explicit_key block_indented) strict.
    Proof. unfold parse_block_mapping_explicit_key. start; go'. Qed.
    Lemma ok_block_mapping_explicit_value : ok (S B) (parse_block_mapping_explicit_value fuel block_indented) anyp.
    Proof. unfold parse_block_mapping_explicit_value. start; go'. Qed.
    Hint Resolve ok_block_mapping_implicit_entry ok_block_mapping_explicit_key ok_block_mapping_explicit_value : pspec.
    Lemma ok_block_mapping_explicit_entry : ok (S B) (parse_block_mapping_explicit_entry fuel block_indented) strict.
    Proof. unfold parse_block_mapping_explicit_entry. start; go'. Qed.
    Hint Resolve ok_block_mapping_explicit_entry : pspec.
    Lemma ok_block_mapping_entry : ok (S B) (parse_block_mapping_entry fuel block_node block_indented) strict.
    Proof. unfold parse_block_mapping_entry. start; go'. Qed.
    Lemma ok_block_sequence_entry : ok (S B) (parse_block_sequence_entry block_indented) strict.
    Proof. unfold parse_block_sequence_entry. start; go'. Qed.
    Hint Resolve ok_block_mapping_entry ok_block_sequence_entry : pspec.
    Lemma ok_block_collection' entry build : ok (S B) entry strict -> ok (S B) (block_collection fuel entry build) anyp.
    Proof. intro H. unfold block_collection. start; go'. Qed.
    Lemma ok_compact_collection entry build : ok (S B) entry strict -> ok (S B) (compact_collection fuel entry build) anyp.
    Proof. intro H. unfold compact_collection. start; go'. Qed.
    Lemma ok_block_mapping : ok (S B) (parse_block_mapping fuel block_node block_indented) anyp.
    Proof. exact (ok_block_collection' _ _ ok_block_mapping_entry). Qed.
    Lemma ok_block_sequence : ok (S B) (parse_block_sequence fuel block_indented) anyp.
    Proof. exact (ok_block_collection' _ _ ok_block_sequence_entry). Qed.
    Lemma ok_compact_mapping : ok (S B) (parse_compact_mapping fuel block_node block_indented) anyp.
    Proof. exact (ok_compact_collection _ _ ok_block_mapping_entry). Qed.
    Lemma ok_compact_sequence : ok (S B) (parse_compact_sequence fuel block_indented) anyp.
    Proof. exact (ok_compact_collection _ _ ok_block_sequence_entry). Qed.
    Hint Resolve ok_block_mapping ok_block_sequence ok_compact_mapping ok_compact_sequence : pspec.
    Lemma ok_seq_space ctx : ok (S B) (parse_seq_space fuel block_indented ctx) anyp.
    Proof. unfold parse_seq_space. start; go'. Qed.
    Hint Resolve ok_seq_space : pspec.
    Lemma ok_block_collection ctx : ok (S B) (parse_block_collection fuel block_node block_indented ctx) anyp.
    Proof. unfold parse_block_collection. start; go'. Qed.
    Hint Resolve ok_block_collection : pspec.
    Lemma ok_block_in_block ctx : ok (S B) (parse_block_in_block fuel block_node block_indented ctx) anyp.
    Proof. unfold parse_block_in_block. start; go'. Qed.
    Hint Resolve ok_block_in_block : pspec.
    Lemma ok_block_node_body ctx : ok (S B) (block_node_body fuel block_node block_indented ctx) anyp.
    Proof. unfold block_node_body. start; go'. Qed.
  End Knot.

  Section Indented.
    Variable B : nat.
    Hypothesis HB : S B <= fuel.
    Variables (block_node block_indented : context -> M node).
    Hypothesis Hnode : forall ctx, ok (S B) (block_node ctx) anyp.
    Hypothesis Hindented : forall ctx, ok B (block_indented ctx) anyp.

    Lemma ok_block_indented_body ctx : ok (S B) (block_indented_body fuel block_node block_indented ctx) anyp.
    Proof.
      assert (Hnode' : forall ctx, ok B (block_node ctx) anyp).
      { intro c. eapply ok_weaken; [|intros ? ? ? HH; exact HH|apply Hnode]. lia. }
      pose proof (ok_compact_sequence B HB block_indented Hindented) as H1.
      pose proof (ok_compact_mapping B HB block_node block_indented Hnode' Hindented) as H2.
      clear Hnode'.
      unfold block_indented_body. start; go'.
    Qed.
  End Indented.

  Lemma ok_block n : forall B ctx, B <= fuel ->
    (2 * B <= n -> ok B (block fuel n true ctx) anyp) /\ (2 * B <= n + 1 -> ok B (block fuel n false ctx) anyp).
  Proof.
    induction n as [|n IH]; intros B ctx HB.
    - split; intro Hn; start; lia.
    - destruct B as [|B]; [split; intro; start; lia|].
      cbn [block]. split; intro Hn.
      + apply ok_block_indented_body; [exact HB| |]; intro c; apply IH; lia.
      + apply ok_block_node_body; [exact HB| |]; intro c; apply IH; lia.
  Qed.

  Lemma ok_parse_block_node B ctx : 2 * B <= fuel -> ok B (parse_block_node fuel ctx) anyp.
  Proof. intro H. apply (ok_block fuel B ctx); lia. Qed.
End Block.
