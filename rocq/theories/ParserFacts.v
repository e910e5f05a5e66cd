(** What the parser does with some texts, at every sufficient fuel. *)
From Coq Require Import String.
From Verif Require Import Base Token Ast CPAccessor Lexer LexerSpec Parser ParserFlow ParserBlock ParserDocs
  ParserFuel ParserTotal.

(** The run of the parser over the tokens of a text (parser.go 101-140): the tree and the final
    state of the parser. *)
Definition text_run (digit : rune -> bool) (fuel : nat) (doc : text) : ran unit (node * pst) :=
  match run_acc (lexer_stream acc_source (S (length doc))) (parse_program digit fuel new_parser)
                (acc_init zero_token (lex_new (acc_init None doc))) with
  | Fin r _ => Fin r tt
  | Panicked => Panicked
  | OutOfFuel => OutOfFuel
  end.

(** A successful parse stops at the end of the input. *)
Definition reads_all (digit : rune -> bool) (doc : text) : Prop :=
  forall fuel tree p, text_run digit fuel doc = Fin (tree, p) tt -> p_errs p = [] -> is_eof (p_tok p) = true.

Lemma text_run_fuel digit doc f f2 r : f <= f2 ->
  text_run digit f doc = Fin r tt -> text_run digit f2 doc = Fin r tt.
Proof.
  intros Hf. unfold text_run.
  destruct (run_acc _ (parse_program digit f new_parser) _) as [x a| |] eqn:E1; try discriminate.
  intros [= <-].
  pose proof (ple_run _ _ _ _ _ _ (mle_parse_program digit f f2 Hf new_parser) E1) as E2.
  unfold text, rune in *. rewrite E2. reflexivity.
Qed.

Lemma parse_string_fuel digit omit doc f f2 r : f <= f2 ->
  parse_string digit f omit doc = Fin r tt -> parse_string digit f2 omit doc = Fin r tt.
Proof.
  intros Hf. unfold parse_string.
  destruct (parse_token_stream digit f _ _) as [[tree errs] []| |] eqn:E1; try discriminate.
  intros E. rewrite (token_stream_fuel digit _ _ _ _ _ Hf E1). exact E.
Qed.

(** the fuel at which texts are computed below *)
Definition enough (doc : text) : nat := 4 * length doc + 4.

Lemma parse_string_at digit omit doc r : parse_string digit (enough doc) omit doc = Fin r tt ->
  forall fuel, 4 * length doc + 4 <= fuel -> parse_string digit fuel omit doc = Fin r tt.
Proof. intros H fuel Hf. exact (parse_string_fuel digit omit doc _ _ r Hf H). Qed.

Definition doc_two_values : text := t' "a: b c: d".
Definition doc_seq_then_map : text := t' "- a" ++ [10%N] ++ t' "b: c".

Lemma not_all_read digit : exists doc, ~ reads_all digit doc.
Proof.
  exists doc_two_values. intro H.
  destruct (text_run digit (enough doc_two_values) doc_two_values) as [[tree p] []| |] eqn:E.
  - specialize (H _ _ _ E). vm_compute in E. injection E as <- <-. discriminate (H eq_refl).
  - vm_compute in E. discriminate.
  - vm_compute in E. discriminate.
Qed.

Lemma rest_dropped digit omit fuel : 100 <= fuel ->
  parse_string digit fuel omit doc_two_values = Fin (inl (NStream [])) tt /\
  parse_string digit fuel omit [] = Fin (inl (NStream [])) tt /\
  parse_string digit fuel omit doc_seq_then_map = parse_string digit fuel omit (t' "- a").
Proof.
  intro Hf. repeat split.
  - apply parse_string_at; [destruct omit; vm_compute; reflexivity|cbn; lia].
  - apply parse_string_at; [destruct omit; vm_compute; reflexivity|cbn; lia].
  - assert (E : exists r, parse_string digit (enough doc_seq_then_map) omit doc_seq_then_map = Fin r tt /\
      parse_string digit (enough (t' "- a")) omit (t' "- a") = Fin r tt).
    { destruct omit; eexists; split; vm_compute; reflexivity. }
    destruct E as (r & E1 & E2).
    rewrite (parse_string_at _ _ _ _ E1), (parse_string_at _ _ _ _ E2) by (cbn; lia). reflexivity.
Qed.

(** ** Nested flow sequences *)
Fixpoint brackets (n : nat) (inner : text) : text :=
  match n with O => inner | S n' => (91%N :: brackets n' inner ++ [93%N])%list end.
Fixpoint nested (n : nat) (inner : node) : node :=
  match n with O => inner | S n' => NSequence [nested n' inner] end.

Lemma nested_six digit fuel : 100 <= fuel ->
  parse_string digit fuel true (brackets 6 (t' "a")) = Fin (inl (nested 6 (NText (t' "a") UnknownQuoting))) tt.
Proof. intro Hf. apply parse_string_at; [vm_compute; reflexivity|cbn; lia]. Qed.

Lemma nested_seven digit fuel : 100 <= fuel ->
  parse_string digit fuel true (brackets 7 (t' "a")) = Fin (inr [DeadEnd (mkPos 1 7)]) tt.
Proof. intro Hf. apply parse_string_at; [vm_compute; reflexivity|cbn; lia]. Qed.
