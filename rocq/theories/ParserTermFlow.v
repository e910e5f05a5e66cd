(** Specifications of the productions of ParserFlow.v: each of them finishes. *)
From Coq Require Import String.
From Verif Require Import Base YamlChar Token Ast Balance Parser ParserLogic ParserTerm ParserFlow.
Local Open Scope parser_scope.

Lemma lay_drop k d b bs S : lay k d (b :: bs) S -> lay k d bs S.
Proof.
  intros (L & x & S' & -> & HL & Hx & Hb & Hl).
  destruct bs as [|b2 bs]; cbn in *.
  - rewrite app_length. cbn. lia.
  - destruct Hl as (L2 & x2 & S2 & -> & HL2 & Hx2 & Hb2 & Hl).
    exists (L ++ x :: L2), x2, S2. split; [rewrite <- app_assoc; reflexivity|].
    split; [|auto]. apply Forall_app. split; [|constructor; [lia|exact HL2]].
    eapply Forall_impl; [|eassumption]. cbn. intros. lia.
Qed.

(** a checkpoint that is never closed *)
Lemma at_drop k d b bs t m s g : at_ k d (b :: bs) t m s g -> at_ k d bs t m s g.
Proof.
  intros [H1 H2 H3 H4 H5 H6 H7]. constructor; try assumption.
  - eapply lay_drop. exact H5.
  - destruct (lay_pop _ _ _ _ _ H5) as (x & S' & _ & _ & Hb & _). destruct bs; cbn in *; [exact I|lia].
Qed.

Lemma plain_safe_string t ctx : is_plain_safe_token t ctx = true -> tok_type t = TString.
Proof.
  unfold is_plain_safe_token. destruct ctx; try discriminate;
    destruct (tok_type t); cbn; congruence.
Qed.

Ltac flow_facts := repeat match goal with
  | E : is_plain_safe_token _ _ = true |- _ => apply plain_safe_string in E
  | E : is_non_break _ = true |- _ => apply plain_non_break in E as [? ?]
  | E : is_white_space _ = true |- _ => apply plain_white_space in E as [? ?]
  | E : _ && _ = true |- _ => apply andb_prop in E as [? ?]
  end.

Lemma plain_in_quotes cs : plain_cond (in_quotes cs).
Proof.
  intros t. unfold in_quotes, is_white_space. destruct (tok_type t); cbn; try discriminate; split; congruence.
Qed.
Global Hint Resolve plain_in_quotes : pspec.

Ltac go' := repeat (flow_facts; step); try (fin; [..|post]).

Section Flow.
  Variable fuel : nat.

  Lemma ok_trimmed ctx : ok fuel (parse_trimmed fuel ctx) strict.
  Proof. unfold parse_trimmed. start; go'. Qed.
  Hint Resolve ok_trimmed : pspec.
  Lemma ok_folded_line_break ctx : ok fuel (parse_folded_line_break fuel ctx) strict.
  Proof. unfold parse_folded_line_break. start; go'. Qed.
  Hint Resolve ok_folded_line_break : pspec.
  Lemma ok_flow_folded : ok fuel (parse_flow_folded fuel) strict.
  Proof. unfold parse_flow_folded. start; go'. Qed.
  Hint Resolve ok_flow_folded : pspec.

  Lemma ok_plain_first ctx : ok fuel (parse_plain_first ctx) anyp.
  Proof. unfold parse_plain_first. start; go'. Qed.
  Hint Resolve ok_plain_first : pspec.
  Lemma ok_plain_in_line ctx : ok fuel (parse_plain_in_line fuel ctx) anyp.
  Proof. unfold parse_plain_in_line. start; go'. Qed.
  Hint Resolve ok_plain_in_line : pspec.
  Lemma ok_plain_one_line ctx : ok fuel (parse_plain_one_line fuel ctx) anyp.
  Proof. unfold parse_plain_one_line. start; go'. Qed.
  Hint Resolve ok_plain_one_line : pspec.
  Lemma ok_plain_next_line ctx : ok fuel (parse_plain_next_line fuel ctx) strict.
  Proof. unfold parse_plain_next_line. start; go'. Qed.
  Hint Resolve ok_plain_next_line : pspec.
  Lemma ok_plain_multi_line ctx : ok fuel (parse_plain_multi_line fuel ctx) anyp.
  Proof. unfold parse_plain_multi_line. start; go'. Qed.
  Hint Resolve ok_plain_multi_line : pspec.
  Lemma ok_plain ctx : ok fuel (parse_plain fuel ctx) anyp.
  Proof. unfold parse_plain. start; go'. Qed.
  Hint Resolve ok_plain : pspec.

  Lemma ok_double_escaped : ok fuel (parse_double_escaped fuel) strict.
  Proof.
    unfold parse_double_escaped. start; go'.
    apply at_drop in A0. fin. post.
  Qed.
  Hint Resolve ok_double_escaped : pspec.
  Lemma ok_double_break : ok fuel (parse_double_break fuel) strict.
  Proof. unfold parse_double_break. start; go'. Qed.
  Hint Resolve ok_double_break : pspec.

  Lemma ok_quoted_next_line cs break : ok fuel break strict ->
    forall n, n <= fuel -> ok n (parse_quoted_next_line fuel cs break n) strict.
  Proof.
    intros Hb n. induction n as [|n IH]; intro Hn; [start; lia|].
    assert (IH' : ok n (parse_quoted_next_line fuel cs break n) strict) by (apply IH; lia). clear IH.
    cbn [parse_quoted_next_line]. start; go'.
  Qed.
  Lemma ok_quoted_next_line' cs break : ok fuel break strict ->
    ok fuel (parse_quoted_next_line fuel cs break fuel) strict.
  Proof. intro H. apply ok_quoted_next_line; [exact H|lia]. Qed.
  Hint Resolve ok_quoted_next_line' : pspec.
  Lemma ok_quoted_multi_line cs q break : ok fuel break strict -> ok fuel (parse_quoted_multi_line fuel cs q break) anyp.
  Proof. intro H. unfold parse_quoted_multi_line. start; go'. Qed.
  Lemma ok_quoted_one_line cs q : ok fuel (parse_quoted_one_line fuel cs q) anyp.
  Proof. unfold parse_quoted_one_line. start; go'. Qed.
  Hint Resolve ok_quoted_multi_line ok_quoted_one_line : pspec.
  Lemma ok_quoted_text cs q break ctx : ok fuel break strict -> ok fuel (parse_quoted_text fuel cs q break ctx) anyp.
  Proof. intro H. unfold parse_quoted_text. start; go'. Qed.
  Hint Resolve ok_quoted_text : pspec.
  Lemma ok_quoted quote cs q break ctx : quote <> TBOM -> ok fuel break strict ->
    ok fuel (parse_quoted fuel quote cs q break ctx) anyp.
  Proof. intros Hq H. unfold parse_quoted. start; go'. Qed.
  Lemma ok_double_quoted ctx : ok fuel (parse_double_quoted fuel ctx) anyp.
  Proof. unfold parse_double_quoted. apply (ok_quoted TDoubleQuote); [discriminate|apply ok_double_break]. Qed.
  Lemma ok_single_quoted ctx : ok fuel (parse_single_quoted fuel ctx) anyp.
  Proof. unfold parse_single_quoted. apply (ok_quoted TSingleQuote); [discriminate|apply ok_flow_folded]. Qed.
  Hint Resolve ok_double_quoted ok_single_quoted : pspec.

  Lemma ok_generic_flow_node B content ctx : B <= fuel -> ok B (content ctx) anyp ->
    ok B (parse_generic_flow_node fuel content ctx) anyp.
  Proof. intros HB H. unfold parse_generic_flow_node. start; go'. Qed.
  Lemma ok_flow_yaml_node ctx : ok fuel (parse_flow_yaml_node fuel ctx) anyp.
  Proof. apply ok_generic_flow_node; [lia|apply ok_plain]. Qed.
  Hint Resolve ok_flow_yaml_node : pspec.
  Lemma ok_maybe_separate ctx : ok fuel (maybe_separate fuel ctx) anyp.
  Proof. unfold maybe_separate. start; go'. Qed.
  Lemma ok_maybe_separate_in_line : ok fuel (maybe_separate_in_line fuel) anyp.
  Proof. unfold maybe_separate_in_line. start; go'. Qed.
  Hint Resolve ok_maybe_separate ok_maybe_separate_in_line : pspec.
  Lemma ok_implicit_yaml_key ctx : ok fuel (parse_implicit_yaml_key fuel ctx) anyp.
  Proof. unfold parse_implicit_yaml_key. start; go'. Qed.
  Hint Resolve ok_implicit_yaml_key : pspec.

  Section Knot.
    Variable B : nat.
    Hypothesis HB : B <= fuel.
    Variable json_content : context -> M node.
    Hypothesis Hjson : forall ctx, ok B (json_content ctx) anyp.
    Hint Resolve Hjson : pspec.

    Lemma ok_flow_json_node ctx : ok B (parse_flow_json_node fuel json_content ctx) anyp.
    Proof. unfold parse_flow_json_node. start; go'. Qed.
    Lemma ok_flow_content ctx : ok B (parse_flow_content fuel json_content ctx) anyp.
    Proof. unfold parse_flow_content. start; go'. Qed.
    Hint Resolve ok_flow_json_node ok_flow_content : pspec.
    Lemma ok_flow_node ctx : ok B (parse_flow_node fuel json_content ctx) anyp.
    Proof. apply ok_generic_flow_node; [exact HB|apply ok_flow_content]. Qed.
    Hint Resolve ok_flow_node : pspec.
    Lemma ok_implicit_json_key ctx : ok B (parse_implicit_json_key fuel json_content ctx) anyp.
    Proof. unfold parse_implicit_json_key. start; go'. Qed.
    Hint Resolve ok_implicit_json_key : pspec.
    Lemma ok_flow_mapping_separate_value ctx : ok B (parse_flow_mapping_separate_value fuel json_content ctx) anyp.
    Proof. unfold parse_flow_mapping_separate_value. start; go'. Qed.
    Lemma ok_flow_mapping_adjacent_value ctx : ok B (parse_flow_mapping_adjacent_value fuel json_content ctx) anyp.
    Proof. unfold parse_flow_mapping_adjacent_value. start; go'. Qed.
    Hint Resolve ok_flow_mapping_separate_value ok_flow_mapping_adjacent_value : pspec.
    Lemma ok_key_then_value key value ctx : ok B key anyp -> ok B value anyp ->
      ok B (parse_key_then_value fuel key value ctx) anyp.
    Proof. intros H1 H2. unfold parse_key_then_value. start; go'. Qed.
    Lemma ok_flow_mapping_yaml_key_entry ctx : ok B (parse_flow_mapping_yaml_key_entry fuel json_content ctx) anyp.
    Proof.
      apply ok_key_then_value; [|apply ok_flow_mapping_separate_value].
      eapply ok_weaken; [exact HB| |apply ok_flow_yaml_node]. auto.
    Qed.
    Lemma ok_flow_mapping_json_key_entry ctx : ok B (parse_flow_mapping_json_key_entry fuel json_content ctx) anyp.
    Proof. apply ok_key_then_value; [apply ok_flow_json_node|apply ok_flow_mapping_adjacent_value]. Qed.
    Lemma ok_flow_mapping_empty_key_entry ctx : ok B (parse_flow_mapping_empty_key_entry fuel json_content ctx) anyp.
    Proof. unfold parse_flow_mapping_empty_key_entry. start; go'. Qed.
    Hint Resolve ok_flow_mapping_yaml_key_entry ok_flow_mapping_json_key_entry ok_flow_mapping_empty_key_entry : pspec.
    Lemma ok_flow_mapping_implicit_entry ctx : ok B (parse_flow_mapping_implicit_entry fuel json_content ctx) anyp.
    Proof. unfold parse_flow_mapping_implicit_entry. start; go'. Qed.
    Hint Resolve ok_flow_mapping_implicit_entry : pspec.
    Lemma ok_flow_mapping_explicit_entry ctx : ok B (parse_flow_mapping_explicit_entry fuel json_content ctx) anyp.
    Proof. unfold parse_flow_mapping_explicit_entry. start; go'. Qed.
    Hint Resolve ok_flow_mapping_explicit_entry : pspec.
    Lemma ok_flow_mapping_entry ctx : ok B (parse_flow_mapping_entry fuel json_content ctx) anyp.
    Proof. unfold parse_flow_mapping_entry. start; go'. Qed.
    Hint Resolve ok_flow_mapping_entry : pspec.
    Lemma ok_flow_mapping_entries ctx : ok B (parse_flow_mapping_entries fuel json_content ctx) anyp.
    Proof. unfold parse_flow_mapping_entries. start; go'. Qed.
    Hint Resolve ok_flow_mapping_entries : pspec.
    Lemma ok_flow_mapping ctx : ok (S B) (parse_flow_mapping fuel json_content ctx) anyp.
    Proof. unfold parse_flow_mapping. start; go'. Qed.
    Lemma ok_flow_pair_yaml_key_entry ctx : ok B (parse_flow_pair_yaml_key_entry fuel json_content ctx) anyp.
    Proof. unfold parse_flow_pair_yaml_key_entry. start; go'. Qed.
    Lemma ok_flow_pair_json_key_entry ctx : ok B (parse_flow_pair_json_key_entry fuel json_content ctx) anyp.
    Proof. unfold parse_flow_pair_json_key_entry. start; go'. Qed.
    Hint Resolve ok_flow_pair_yaml_key_entry ok_flow_pair_json_key_entry : pspec.
    Lemma ok_flow_pair_entry ctx : ok B (parse_flow_pair_entry fuel json_content ctx) anyp.
    Proof. unfold parse_flow_pair_entry. start; go'. Qed.
    Hint Resolve ok_flow_pair_entry : pspec.
    Lemma ok_flow_pair ctx : ok B (parse_flow_pair fuel json_content ctx) anyp.
    Proof. unfold parse_flow_pair. start; go'. Qed.
    Hint Resolve ok_flow_pair : pspec.
    Lemma ok_flow_sequence_entry ctx : ok B (parse_flow_sequence_entry fuel json_content ctx) anyp.
    Proof. unfold parse_flow_sequence_entry. start; go'. Qed.
    Hint Resolve ok_flow_sequence_entry : pspec.
    Lemma ok_flow_sequence_entries ctx : ok B (parse_flow_sequence_entries fuel json_content ctx) anyp.
    Proof. unfold parse_flow_sequence_entries. start; go'. Qed.
    Hint Resolve ok_flow_sequence_entries : pspec.
    Lemma ok_in_flow ctx : ok B (parse_in_flow fuel json_content ctx) anyp.
    Proof. unfold parse_in_flow. start; go'. Qed.
    Hint Resolve ok_in_flow : pspec.
    Lemma ok_flow_sequence ctx : ok (S B) (parse_flow_sequence fuel json_content ctx) anyp.
    Proof. unfold parse_flow_sequence. start; go'. Qed.
    Hint Resolve ok_flow_mapping ok_flow_sequence : pspec.
    Lemma ok_json_content_body ctx : S B <= fuel -> ok (S B) (json_content_body fuel json_content ctx) anyp.
    Proof. intro. unfold json_content_body. start; go'. Qed.
  End Knot.

  Lemma ok_flow_json_content n : n <= fuel -> forall ctx, ok n (parse_flow_json_content fuel n ctx) anyp.
  Proof.
    induction n as [|n IH]; intros Hn ctx; [start; lia|].
    cbn [parse_flow_json_content]. apply ok_json_content_body; [lia| |lia]. apply IH. lia.
  Qed.
  Lemma ok_json_content ctx : ok fuel (json_content fuel ctx) anyp.
  Proof. exact (ok_flow_json_content fuel (le_n fuel) ctx). Qed.

  Lemma ok_flow_node' ctx : ok fuel (parse_flow_node fuel (json_content fuel) ctx) anyp.
  Proof. exact (ok_flow_node fuel (le_n fuel) _ ok_json_content ctx). Qed.
  Lemma ok_implicit_json_key' ctx : ok fuel (parse_implicit_json_key fuel (json_content fuel) ctx) anyp.
  Proof. exact (ok_implicit_json_key fuel (le_n fuel) _ ok_json_content ctx). Qed.
  Hint Resolve ok_flow_node' : pspec.
  Lemma ok_flow_in_block : ok fuel (parse_flow_in_block fuel) anyp.
  Proof. unfold parse_flow_in_block. start; go'. Qed.
End Flow.

Global Hint Resolve ok_folded_line_break ok_implicit_yaml_key ok_implicit_json_key' ok_flow_in_block : pspec.
