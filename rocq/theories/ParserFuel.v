(** Giving the loops and recursions of the parser more fuel does not change what they do, unless
    they run out of it. *)
From Verif Require Import Base Token Ast CPAccessor YamlChar Parser ParserFlow ParserBlock ParserDocs.

(** [ple p q]: [q] does the same as [p], where [p] does not run out of fuel *)
Fixpoint ple {A} (p q : prog A) : Prop :=
  match p, q with
  | Stuck, _ => True
  | Ret a, Ret b => a = b
  | Next k, Next k2 => forall t, ple (k t) (k2 t)
  | SetCp k, SetCp k2 => ple k k2
  | Commit k, Commit k2 => ple k k2
  | Rollback k, Rollback k2 => forall t, ple (k t) (k2 t)
  | Raw b k, Raw b2 k2 => b = b2 /\ ple k k2
  | _, _ => False
  end.
Definition mle {A} (m m2 : M A) : Prop := forall s, ple (m s) (m2 s).

Lemma ple_refl {A} (p : prog A) : ple p p.
Proof. induction p; cbn; auto. Qed.
Lemma mle_refl {A} (m : M A) : mle m m.
Proof. intro. apply ple_refl. Qed.

Lemma ple_bind {A B} (p : prog A) : forall q (f g : A -> prog B), ple p q -> (forall a, ple (f a) (g a)) ->
  ple (pbind p f) (pbind q g).
Proof.
  induction p as [a| |k IH|k IH|k IH|k IH|b k IH]; intros q f g H Hf; destruct q; cbn in *; try tauto; auto.
  - subst. apply Hf.
  - destruct H. split; auto.
Qed.
Lemma mle_bind {A B} (m m2 : M A) (f g : A -> M B) : mle m m2 -> (forall a, mle (f a) (g a)) ->
  mle (bind m f) (bind m2 g).
Proof. intros H Hf s. unfold bind. apply ple_bind; [apply H|]. intro. apply Hf. Qed.

Lemma ple_run {S A} (st : stream S) (p : prog A) : forall q a x a2,
  ple p q -> run_acc st p a = Fin x a2 -> run_acc st q a = Fin x a2.
Proof.
  induction p as [b| |k IH|k IH|k IH|k IH|b k IH]; intros q a x a2 H E; destruct q; cbn in *; try tauto; try discriminate.
  - congruence.
  - destruct (acc_next (st_next st) a) as [[t a']|]; [|discriminate]. eapply IH; eauto.
  - eapply IH; eauto.
  - eapply IH; eauto.
  - destruct (acc_rollback a) as [[t a']|]; [|discriminate]. eapply IH; eauto.
  - destruct H as [-> H]. eapply IH; eauto.
Qed.

Create HintDb mono discriminated.
#[export] Hint Constants Opaque : mono.

Ltac mono :=
  repeat first
  [ assumption
  | solve [auto with mono nocore]
  | lazymatch goal with |- mle ?m ?m => exact (mle_refl m) | |- mle (bind _ _) _ => simple apply mle_bind; [|intro] end
  | progress cbv zeta
  | match goal with
    | |- mle (match ?x with _ => _ end) _ => destruct x
    | |- forall _, _ => intro
    end ].

Lemma mle_loop_go {A} n n' (b b2 : A -> M (A * bool)) : n <= n' -> (forall a, mle (b a) (b2 a)) ->
  forall a, mle (loop_go n b a) (loop_go n' b2 a).
Proof.
  intros Hn Hb. revert n' Hn. induction n as [|n IH]; intros [|n'] Hn a; try lia; try (intro; exact I).
  cbn [loop_go]. mono. apply IH. lia.
Qed.
Lemma mle_loop {A} f f' (b b2 : A -> M (A * bool)) a : f <= f' -> (forall a, mle (b a) (b2 a)) ->
  mle (loop f b a) (loop f' b2 a).
Proof. intros. apply mle_loop_go; assumption. Qed.


Lemma mle_with_ind {A} i (m m2 : M A) : mle m m2 -> mle (with_ind i m) (with_ind i m2).
Proof. intro. unfold with_ind. mono. Qed.
Lemma mle_with_ind_ {A} i (m m2 : M A) : mle m m2 -> mle (with_ind_ i m) (with_ind_ i m2).
Proof. intro. unfold with_ind_. simple apply mle_bind; [apply mle_with_ind; assumption|mono]. Qed.
Lemma mle_with_buf {A} (m m2 : M A) : mle m m2 -> mle (with_buf m) (with_buf m2).
Proof. intro. unfold with_buf. mono. Qed.
Lemma mle_unless_errors (m m2 : M node) : mle m m2 -> mle (unless_errors m) (unless_errors m2).
Proof. intro. unfold unless_errors. mono. Qed.
Lemma mle_valid (m m2 : M node) : mle m m2 -> mle (valid m) (valid m2).
Proof. intro. unfold valid. mono. Qed.

Ltac mono_apply := lazymatch goal with
  | |- mle (with_buf _) _ => simple apply mle_with_buf
  | |- mle (with_ind _ _) _ => simple apply mle_with_ind
  | |- mle (with_ind_ _ _) _ => simple apply mle_with_ind_
  | |- mle (unless_errors _) _ => simple apply mle_unless_errors
  | |- mle (valid _) _ => simple apply mle_valid
  | |- mle (loop _ _ _) _ => simple apply mle_loop
  end.
Ltac mono ::=
  repeat first
  [ assumption
  | solve [auto with mono nocore]
  | lazymatch goal with |- mle ?m ?m => exact (mle_refl m) | |- mle (bind _ _) _ => simple apply mle_bind; [|intro] end
  | mono_apply
  | progress cbv zeta
  | match goal with
    | |- mle (match ?x with _ => _ end) _ => destruct x
    | |- forall _, _ => intro
    end ].

Lemma mle_loop_ f f' (m1 m1' : M bool) : f <= f' -> mle m1 m1' ->
  mle (loop_ f m1) (loop_ f' m1').
Proof. intros. unfold loop_. mono. Qed.
#[export] Hint Resolve mle_loop_ : mono.
Ltac mono_apply ::= lazymatch goal with
  | |- mle (with_buf _ ) _ => simple apply mle_with_buf
  | |- mle (with_ind _ _ ) _ => simple apply mle_with_ind
  | |- mle (with_ind_ _ _ ) _ => simple apply mle_with_ind_
  | |- mle (unless_errors _ ) _ => simple apply mle_unless_errors
  | |- mle (valid _ ) _ => simple apply mle_valid
  | |- mle (loop _ _ _ ) _ => simple apply mle_loop
  | |- mle (loop_ _ _ ) _ => simple apply mle_loop_
  end.
Lemma mle_skip_while f f' (x1 : (token -> bool)) : f <= f' ->
  mle (skip_while f x1) (skip_while f' x1).
Proof. intros. unfold skip_while. mono. Qed.
#[export] Hint Resolve mle_skip_while : mono.
Lemma mle_write_while f f' (x1 : (token -> bool)) : f <= f' ->
  mle (write_while f x1) (write_while f' x1).
Proof. intros. unfold write_while. mono. Qed.
#[export] Hint Resolve mle_write_while : mono.
Lemma mle_parse_separate_in_line f f' : f <= f' ->
  mle (parse_separate_in_line f) (parse_separate_in_line f').
Proof. intros. unfold parse_separate_in_line. mono. Qed.
#[export] Hint Resolve mle_parse_separate_in_line : mono.
Lemma mle_parse_indent_lower f f' (x1 : Z) : f <= f' ->
  mle (parse_indent_lower f x1) (parse_indent_lower f' x1).
Proof. intros. unfold parse_indent_lower. mono. Qed.
#[export] Hint Resolve mle_parse_indent_lower : mono.
Lemma mle_parse_indent f f' : f <= f' ->
  mle (parse_indent f) (parse_indent f').
Proof. intros. unfold parse_indent. mono. Qed.
#[export] Hint Resolve mle_parse_indent : mono.
Lemma mle_parse_flow_line_prefix f f' : f <= f' ->
  mle (parse_flow_line_prefix f) (parse_flow_line_prefix f').
Proof. intros. unfold parse_flow_line_prefix. mono. Qed.
#[export] Hint Resolve mle_parse_flow_line_prefix : mono.
Lemma mle_parse_line_prefix f f' (x1 : context) : f <= f' ->
  mle (parse_line_prefix f x1) (parse_line_prefix f' x1).
Proof. intros. unfold parse_line_prefix. mono. Qed.
#[export] Hint Resolve mle_parse_line_prefix : mono.
Lemma mle_parse_empty f f' (x1 : context) : f <= f' ->
  mle (parse_empty f x1) (parse_empty f' x1).
Proof. intros. unfold parse_empty. mono. Qed.
#[export] Hint Resolve mle_parse_empty : mono.
Lemma mle_parse_comment_text f f' : f <= f' ->
  mle (parse_comment_text f) (parse_comment_text f').
Proof. intros. unfold parse_comment_text. mono. Qed.
#[export] Hint Resolve mle_parse_comment_text : mono.
Lemma mle_parse_comment_line f f' : f <= f' ->
  mle (parse_comment_line f) (parse_comment_line f').
Proof. intros. unfold parse_comment_line. mono. Qed.
#[export] Hint Resolve mle_parse_comment_line : mono.
Lemma mle_parse_separated_comment f f' : f <= f' ->
  mle (parse_separated_comment f) (parse_separated_comment f').
Proof. intros. unfold parse_separated_comment. mono. Qed.
#[export] Hint Resolve mle_parse_separated_comment : mono.
Lemma mle_repeat_valid f f' (m1 m1' : M node) : f <= f' -> mle m1 m1' ->
  mle (repeat_valid f m1) (repeat_valid f' m1').
Proof. intros. unfold repeat_valid. mono. Qed.
#[export] Hint Resolve mle_repeat_valid : mono.
Ltac mono_apply ::= lazymatch goal with
  | |- mle (with_buf _ ) _ => simple apply mle_with_buf
  | |- mle (with_ind _ _ ) _ => simple apply mle_with_ind
  | |- mle (with_ind_ _ _ ) _ => simple apply mle_with_ind_
  | |- mle (unless_errors _ ) _ => simple apply mle_unless_errors
  | |- mle (valid _ ) _ => simple apply mle_valid
  | |- mle (loop _ _ _ ) _ => simple apply mle_loop
  | |- mle (loop_ _ _ ) _ => simple apply mle_loop_
  | |- mle (repeat_valid _ _ ) _ => simple apply mle_repeat_valid
  end.
Lemma mle_parse_comments f f' : f <= f' ->
  mle (parse_comments f) (parse_comments f').
Proof. intros. unfold parse_comments. mono. Qed.
#[export] Hint Resolve mle_parse_comments : mono.
Lemma mle_parse_separate_lines f f' : f <= f' ->
  mle (parse_separate_lines f) (parse_separate_lines f').
Proof. intros. unfold parse_separate_lines. mono. Qed.
#[export] Hint Resolve mle_parse_separate_lines : mono.
Lemma mle_parse_separate f f' (x1 : context) : f <= f' ->
  mle (parse_separate f x1) (parse_separate f' x1).
Proof. intros. unfold parse_separate. mono. Qed.
#[export] Hint Resolve mle_parse_separate : mono.
Lemma mle_parse_block_header f f' : f <= f' ->
  mle (parse_block_header f) (parse_block_header f').
Proof. intros. unfold parse_block_header. mono. Qed.
#[export] Hint Resolve mle_parse_block_header : mono.
Lemma mle_parse_properties f f' (x1 : context) : f <= f' ->
  mle (parse_properties f x1) (parse_properties f' x1).
Proof. intros. unfold parse_properties. mono. Qed.
#[export] Hint Resolve mle_parse_properties : mono.
Lemma mle_parse_trimmed f f' (x1 : context) : f <= f' ->
  mle (parse_trimmed f x1) (parse_trimmed f' x1).
Proof. intros. unfold parse_trimmed. mono. Qed.
#[export] Hint Resolve mle_parse_trimmed : mono.
Lemma mle_parse_folded_line_break f f' (x1 : context) : f <= f' ->
  mle (parse_folded_line_break f x1) (parse_folded_line_break f' x1).
Proof. intros. unfold parse_folded_line_break. mono. Qed.
#[export] Hint Resolve mle_parse_folded_line_break : mono.
Lemma mle_parse_flow_folded f f' : f <= f' ->
  mle (parse_flow_folded f) (parse_flow_folded f').
Proof. intros. unfold parse_flow_folded. mono. Qed.
#[export] Hint Resolve mle_parse_flow_folded : mono.
Lemma mle_parse_plain_in_line f f' (x1 : context) : f <= f' ->
  mle (parse_plain_in_line f x1) (parse_plain_in_line f' x1).
Proof. intros. unfold parse_plain_in_line. mono. Qed.
#[export] Hint Resolve mle_parse_plain_in_line : mono.
Lemma mle_parse_plain_one_line f f' (x1 : context) : f <= f' ->
  mle (parse_plain_one_line f x1) (parse_plain_one_line f' x1).
Proof. intros. unfold parse_plain_one_line. mono. Qed.
#[export] Hint Resolve mle_parse_plain_one_line : mono.
Lemma mle_parse_plain_next_line f f' (x1 : context) : f <= f' ->
  mle (parse_plain_next_line f x1) (parse_plain_next_line f' x1).
Proof. intros. unfold parse_plain_next_line. mono. Qed.
#[export] Hint Resolve mle_parse_plain_next_line : mono.
Lemma mle_parse_plain_multi_line f f' (x1 : context) : f <= f' ->
  mle (parse_plain_multi_line f x1) (parse_plain_multi_line f' x1).
Proof. intros. unfold parse_plain_multi_line. mono. Qed.
#[export] Hint Resolve mle_parse_plain_multi_line : mono.
Lemma mle_parse_plain f f' (x1 : context) : f <= f' ->
  mle (parse_plain f x1) (parse_plain f' x1).
Proof. intros. unfold parse_plain. mono. Qed.
#[export] Hint Resolve mle_parse_plain : mono.
Lemma mle_parse_double_escaped f f' : f <= f' ->
  mle (parse_double_escaped f) (parse_double_escaped f').
Proof. intros. unfold parse_double_escaped. mono. Qed.
#[export] Hint Resolve mle_parse_double_escaped : mono.
Lemma mle_parse_double_break f f' : f <= f' ->
  mle (parse_double_break f) (parse_double_break f').
Proof. intros. unfold parse_double_break. mono. Qed.
#[export] Hint Resolve mle_parse_double_break : mono.

Lemma mle_parse_quoted_next_line f f' c (m m' : M node) n n' : f <= f' -> n <= n' -> mle m m' ->
  mle (parse_quoted_next_line f c m n) (parse_quoted_next_line f' c m' n').
Proof.
  intros Hf Hn Hm. revert n' Hn. induction n as [|n IH]; intros [|n'] Hn; try lia; try (intro; exact I).
  cbn [parse_quoted_next_line]. mono. all: apply IH; lia.
Qed.
#[export] Hint Resolve mle_parse_quoted_next_line : mono.
Lemma mle_parse_quoted_multi_line f f' (x1 : YamlChar.charset) (x2 : quoting) (m3 m3' : M node) : f <= f' -> mle m3 m3' ->
  mle (parse_quoted_multi_line f x1 x2 m3) (parse_quoted_multi_line f' x1 x2 m3').
Proof. intros. unfold parse_quoted_multi_line. mono. Qed.
#[export] Hint Resolve mle_parse_quoted_multi_line : mono.
Lemma mle_parse_quoted_one_line f f' (x1 : YamlChar.charset) (x2 : quoting) : f <= f' ->
  mle (parse_quoted_one_line f x1 x2) (parse_quoted_one_line f' x1 x2).
Proof. intros. unfold parse_quoted_one_line. mono. Qed.
#[export] Hint Resolve mle_parse_quoted_one_line : mono.
Ltac mono_apply ::= lazymatch goal with
  | |- mle (with_buf _ ) _ => simple apply mle_with_buf
  | |- mle (with_ind _ _ ) _ => simple apply mle_with_ind
  | |- mle (with_ind_ _ _ ) _ => simple apply mle_with_ind_
  | |- mle (unless_errors _ ) _ => simple apply mle_unless_errors
  | |- mle (valid _ ) _ => simple apply mle_valid
  | |- mle (loop _ _ _ ) _ => simple apply mle_loop
  | |- mle (loop_ _ _ ) _ => simple apply mle_loop_
  | |- mle (repeat_valid _ _ ) _ => simple apply mle_repeat_valid
  | |- mle (parse_quoted_multi_line _ _ _ _ ) _ => simple apply mle_parse_quoted_multi_line
  end.
Lemma mle_parse_quoted_text f f' (x1 : YamlChar.charset) (x2 : quoting) (m3 m3' : M node) (x4 : context) : f <= f' -> mle m3 m3' ->
  mle (parse_quoted_text f x1 x2 m3 x4) (parse_quoted_text f' x1 x2 m3' x4).
Proof. intros. unfold parse_quoted_text. mono. Qed.
#[export] Hint Resolve mle_parse_quoted_text : mono.
Ltac mono_apply ::= lazymatch goal with
  | |- mle (with_buf _ ) _ => simple apply mle_with_buf
  | |- mle (with_ind _ _ ) _ => simple apply mle_with_ind
  | |- mle (with_ind_ _ _ ) _ => simple apply mle_with_ind_
  | |- mle (unless_errors _ ) _ => simple apply mle_unless_errors
  | |- mle (valid _ ) _ => simple apply mle_valid
  | |- mle (loop _ _ _ ) _ => simple apply mle_loop
  | |- mle (loop_ _ _ ) _ => simple apply mle_loop_
  | |- mle (repeat_valid _ _ ) _ => simple apply mle_repeat_valid
  | |- mle (parse_quoted_multi_line _ _ _ _ ) _ => simple apply mle_parse_quoted_multi_line
  | |- mle (parse_quoted_text _ _ _ _ _ ) _ => simple apply mle_parse_quoted_text
  end.
Lemma mle_parse_quoted f f' (x1 : ttype) (x2 : YamlChar.charset) (x3 : quoting) (m4 m4' : M node) (x5 : context) : f <= f' -> mle m4 m4' ->
  mle (parse_quoted f x1 x2 x3 m4 x5) (parse_quoted f' x1 x2 x3 m4' x5).
Proof. intros. unfold parse_quoted. mono. Qed.
#[export] Hint Resolve mle_parse_quoted : mono.
Ltac mono_apply ::= lazymatch goal with
  | |- mle (with_buf _ ) _ => simple apply mle_with_buf
  | |- mle (with_ind _ _ ) _ => simple apply mle_with_ind
  | |- mle (with_ind_ _ _ ) _ => simple apply mle_with_ind_
  | |- mle (unless_errors _ ) _ => simple apply mle_unless_errors
  | |- mle (valid _ ) _ => simple apply mle_valid
  | |- mle (loop _ _ _ ) _ => simple apply mle_loop
  | |- mle (loop_ _ _ ) _ => simple apply mle_loop_
  | |- mle (repeat_valid _ _ ) _ => simple apply mle_repeat_valid
  | |- mle (parse_quoted_multi_line _ _ _ _ ) _ => simple apply mle_parse_quoted_multi_line
  | |- mle (parse_quoted_text _ _ _ _ _ ) _ => simple apply mle_parse_quoted_text
  | |- mle (parse_quoted _ _ _ _ _ _ ) _ => simple apply mle_parse_quoted
  end.
Lemma mle_parse_double_quoted f f' (x1 : context) : f <= f' ->
  mle (parse_double_quoted f x1) (parse_double_quoted f' x1).
Proof. intros. unfold parse_double_quoted. mono. Qed.
#[export] Hint Resolve mle_parse_double_quoted : mono.
Lemma mle_parse_single_quoted f f' (x1 : context) : f <= f' ->
  mle (parse_single_quoted f x1) (parse_single_quoted f' x1).
Proof. intros. unfold parse_single_quoted. mono. Qed.
#[export] Hint Resolve mle_parse_single_quoted : mono.
Lemma mle_parse_generic_flow_node f f' (k1 k1' : context -> M node) (x2 : context) : f <= f' -> (forall c, mle (k1 c) (k1' c)) ->
  mle (parse_generic_flow_node f k1 x2) (parse_generic_flow_node f' k1' x2).
Proof. intros. unfold parse_generic_flow_node. mono. Qed.
#[export] Hint Resolve mle_parse_generic_flow_node : mono.
Lemma mle_parse_flow_yaml_node f f' (x1 : context) : f <= f' ->
  mle (parse_flow_yaml_node f x1) (parse_flow_yaml_node f' x1).
Proof. intros. unfold parse_flow_yaml_node. mono. Qed.
#[export] Hint Resolve mle_parse_flow_yaml_node : mono.
Lemma mle_maybe_separate f f' (x1 : context) : f <= f' ->
  mle (maybe_separate f x1) (maybe_separate f' x1).
Proof. intros. unfold maybe_separate. mono. Qed.
#[export] Hint Resolve mle_maybe_separate : mono.
Lemma mle_maybe_separate_in_line f f' : f <= f' ->
  mle (maybe_separate_in_line f) (maybe_separate_in_line f').
Proof. intros. unfold maybe_separate_in_line. mono. Qed.
#[export] Hint Resolve mle_maybe_separate_in_line : mono.
Lemma mle_parse_implicit_yaml_key f f' (x1 : context) : f <= f' ->
  mle (parse_implicit_yaml_key f x1) (parse_implicit_yaml_key f' x1).
Proof. intros. unfold parse_implicit_yaml_key. mono. Qed.
#[export] Hint Resolve mle_parse_implicit_yaml_key : mono.
Lemma mle_parse_flow_json_node f f' (k1 k1' : context -> M node) (x2 : context) : f <= f' -> (forall c, mle (k1 c) (k1' c)) ->
  mle (parse_flow_json_node f k1 x2) (parse_flow_json_node f' k1' x2).
Proof. intros. unfold parse_flow_json_node. mono. Qed.
#[export] Hint Resolve mle_parse_flow_json_node : mono.
Lemma mle_parse_flow_content f f' (k1 k1' : context -> M node) (x2 : context) : f <= f' -> (forall c, mle (k1 c) (k1' c)) ->
  mle (parse_flow_content f k1 x2) (parse_flow_content f' k1' x2).
Proof. intros. unfold parse_flow_content. mono. Qed.
#[export] Hint Resolve mle_parse_flow_content : mono.
Lemma mle_parse_flow_node f f' (k1 k1' : context -> M node) (x2 : context) : f <= f' -> (forall c, mle (k1 c) (k1' c)) ->
  mle (parse_flow_node f k1 x2) (parse_flow_node f' k1' x2).
Proof. intros. unfold parse_flow_node. mono. Qed.
#[export] Hint Resolve mle_parse_flow_node : mono.
Lemma mle_parse_implicit_json_key f f' (k1 k1' : context -> M node) (x2 : context) : f <= f' -> (forall c, mle (k1 c) (k1' c)) ->
  mle (parse_implicit_json_key f k1 x2) (parse_implicit_json_key f' k1' x2).
Proof. intros. unfold parse_implicit_json_key. mono. Qed.
#[export] Hint Resolve mle_parse_implicit_json_key : mono.
Lemma mle_parse_flow_mapping_separate_value f f' (k1 k1' : context -> M node) (x2 : context) : f <= f' -> (forall c, mle (k1 c) (k1' c)) ->
  mle (parse_flow_mapping_separate_value f k1 x2) (parse_flow_mapping_separate_value f' k1' x2).
Proof. intros. unfold parse_flow_mapping_separate_value. mono. Qed.
#[export] Hint Resolve mle_parse_flow_mapping_separate_value : mono.
Lemma mle_parse_flow_mapping_adjacent_value f f' (k1 k1' : context -> M node) (x2 : context) : f <= f' -> (forall c, mle (k1 c) (k1' c)) ->
  mle (parse_flow_mapping_adjacent_value f k1 x2) (parse_flow_mapping_adjacent_value f' k1' x2).
Proof. intros. unfold parse_flow_mapping_adjacent_value. mono. Qed.
#[export] Hint Resolve mle_parse_flow_mapping_adjacent_value : mono.
Lemma mle_parse_key_then_value f f' (m1 m1' : M node) (m2 m2' : M node) (x3 : context) : f <= f' -> mle m1 m1' -> mle m2 m2' ->
  mle (parse_key_then_value f m1 m2 x3) (parse_key_then_value f' m1' m2' x3).
Proof. intros. unfold parse_key_then_value. mono. Qed.
#[export] Hint Resolve mle_parse_key_then_value : mono.
Ltac mono_apply ::= lazymatch goal with
  | |- mle (with_buf _ ) _ => simple apply mle_with_buf
  | |- mle (with_ind _ _ ) _ => simple apply mle_with_ind
  | |- mle (with_ind_ _ _ ) _ => simple apply mle_with_ind_
  | |- mle (unless_errors _ ) _ => simple apply mle_unless_errors
  | |- mle (valid _ ) _ => simple apply mle_valid
  | |- mle (loop _ _ _ ) _ => simple apply mle_loop
  | |- mle (loop_ _ _ ) _ => simple apply mle_loop_
  | |- mle (repeat_valid _ _ ) _ => simple apply mle_repeat_valid
  | |- mle (parse_quoted_multi_line _ _ _ _ ) _ => simple apply mle_parse_quoted_multi_line
  | |- mle (parse_quoted_text _ _ _ _ _ ) _ => simple apply mle_parse_quoted_text
  | |- mle (parse_quoted _ _ _ _ _ _ ) _ => simple apply mle_parse_quoted
  | |- mle (parse_key_then_value _ _ _ _ ) _ => simple apply mle_parse_key_then_value
  end.
Lemma mle_parse_flow_mapping_yaml_key_entry f f' (k1 k1' : context -> M node) (x2 : context) : f <= f' -> (forall c, mle (k1 c) (k1' c)) ->
  mle (parse_flow_mapping_yaml_key_entry f k1 x2) (parse_flow_mapping_yaml_key_entry f' k1' x2).
Proof. intros. unfold parse_flow_mapping_yaml_key_entry. mono. Qed.
#[export] Hint Resolve mle_parse_flow_mapping_yaml_key_entry : mono.
Lemma mle_parse_flow_mapping_json_key_entry f f' (k1 k1' : context -> M node) (x2 : context) : f <= f' -> (forall c, mle (k1 c) (k1' c)) ->
  mle (parse_flow_mapping_json_key_entry f k1 x2) (parse_flow_mapping_json_key_entry f' k1' x2).
Proof. intros. unfold parse_flow_mapping_json_key_entry. mono. Qed.
#[export] Hint Resolve mle_parse_flow_mapping_json_key_entry : mono.
Lemma mle_parse_flow_mapping_empty_key_entry f f' (k1 k1' : context -> M node) (x2 : context) : f <= f' -> (forall c, mle (k1 c) (k1' c)) ->
  mle (parse_flow_mapping_empty_key_entry f k1 x2) (parse_flow_mapping_empty_key_entry f' k1' x2).
Proof. intros. unfold parse_flow_mapping_empty_key_entry. mono. Qed.
#[export] Hint Resolve mle_parse_flow_mapping_empty_key_entry : mono.
Lemma mle_parse_flow_mapping_implicit_entry f f' (k1 k1' : context -> M node) (x2 : context) : f <= f' -> (forall c, mle (k1 c) (k1' c)) ->
  mle (parse_flow_mapping_implicit_entry f k1 x2) (parse_flow_mapping_implicit_entry f' k1' x2).
Proof. intros. unfold parse_flow_mapping_implicit_entry. mono. Qed.
#[export] Hint Resolve mle_parse_flow_mapping_implicit_entry : mono.
Lemma mle_parse_flow_mapping_explicit_entry f f' (k1 k1' : context -> M node) (x2 : context) : f <= f' -> (forall c, mle (k1 c) (k1' c)) ->
  mle (parse_flow_mapping_explicit_entry f k1 x2) (parse_flow_mapping_explicit_entry f' k1' x2).
Proof. intros. unfold parse_flow_mapping_explicit_entry. mono. Qed.
#[export] Hint Resolve mle_parse_flow_mapping_explicit_entry : mono.
Lemma mle_parse_flow_mapping_entry f f' (k1 k1' : context -> M node) (x2 : context) : f <= f' -> (forall c, mle (k1 c) (k1' c)) ->
  mle (parse_flow_mapping_entry f k1 x2) (parse_flow_mapping_entry f' k1' x2).
Proof. intros. unfold parse_flow_mapping_entry. mono. Qed.
#[export] Hint Resolve mle_parse_flow_mapping_entry : mono.
Lemma mle_parse_flow_mapping_entries f f' (k1 k1' : context -> M node) (x2 : context) : f <= f' -> (forall c, mle (k1 c) (k1' c)) ->
  mle (parse_flow_mapping_entries f k1 x2) (parse_flow_mapping_entries f' k1' x2).
Proof. intros. unfold parse_flow_mapping_entries. mono. Qed.
#[export] Hint Resolve mle_parse_flow_mapping_entries : mono.
Lemma mle_parse_flow_mapping f f' (k1 k1' : context -> M node) (x2 : context) : f <= f' -> (forall c, mle (k1 c) (k1' c)) ->
  mle (parse_flow_mapping f k1 x2) (parse_flow_mapping f' k1' x2).
Proof. intros. unfold parse_flow_mapping. mono. Qed.
#[export] Hint Resolve mle_parse_flow_mapping : mono.
Lemma mle_parse_flow_pair_yaml_key_entry f f' (k1 k1' : context -> M node) (x2 : context) : f <= f' -> (forall c, mle (k1 c) (k1' c)) ->
  mle (parse_flow_pair_yaml_key_entry f k1 x2) (parse_flow_pair_yaml_key_entry f' k1' x2).
Proof. intros. unfold parse_flow_pair_yaml_key_entry. mono. Qed.
#[export] Hint Resolve mle_parse_flow_pair_yaml_key_entry : mono.
Lemma mle_parse_flow_pair_json_key_entry f f' (k1 k1' : context -> M node) (x2 : context) : f <= f' -> (forall c, mle (k1 c) (k1' c)) ->
  mle (parse_flow_pair_json_key_entry f k1 x2) (parse_flow_pair_json_key_entry f' k1' x2).
Proof. intros. unfold parse_flow_pair_json_key_entry. mono. Qed.
#[export] Hint Resolve mle_parse_flow_pair_json_key_entry : mono.
Lemma mle_parse_flow_pair_entry f f' (k1 k1' : context -> M node) (x2 : context) : f <= f' -> (forall c, mle (k1 c) (k1' c)) ->
  mle (parse_flow_pair_entry f k1 x2) (parse_flow_pair_entry f' k1' x2).
Proof. intros. unfold parse_flow_pair_entry. mono. Qed.
#[export] Hint Resolve mle_parse_flow_pair_entry : mono.
Lemma mle_parse_flow_pair f f' (k1 k1' : context -> M node) (x2 : context) : f <= f' -> (forall c, mle (k1 c) (k1' c)) ->
  mle (parse_flow_pair f k1 x2) (parse_flow_pair f' k1' x2).
Proof. intros. unfold parse_flow_pair. mono. Qed.
#[export] Hint Resolve mle_parse_flow_pair : mono.
Lemma mle_parse_flow_sequence_entry f f' (k1 k1' : context -> M node) (x2 : context) : f <= f' -> (forall c, mle (k1 c) (k1' c)) ->
  mle (parse_flow_sequence_entry f k1 x2) (parse_flow_sequence_entry f' k1' x2).
Proof. intros. unfold parse_flow_sequence_entry. mono. Qed.
#[export] Hint Resolve mle_parse_flow_sequence_entry : mono.
Lemma mle_parse_flow_sequence_entries f f' (k1 k1' : context -> M node) (x2 : context) : f <= f' -> (forall c, mle (k1 c) (k1' c)) ->
  mle (parse_flow_sequence_entries f k1 x2) (parse_flow_sequence_entries f' k1' x2).
Proof. intros. unfold parse_flow_sequence_entries. mono. Qed.
#[export] Hint Resolve mle_parse_flow_sequence_entries : mono.
Lemma mle_parse_in_flow f f' (k1 k1' : context -> M node) (x2 : context) : f <= f' -> (forall c, mle (k1 c) (k1' c)) ->
  mle (parse_in_flow f k1 x2) (parse_in_flow f' k1' x2).
Proof. intros. unfold parse_in_flow. mono. Qed.
#[export] Hint Resolve mle_parse_in_flow : mono.
Lemma mle_parse_flow_sequence f f' (k1 k1' : context -> M node) (x2 : context) : f <= f' -> (forall c, mle (k1 c) (k1' c)) ->
  mle (parse_flow_sequence f k1 x2) (parse_flow_sequence f' k1' x2).
Proof. intros. unfold parse_flow_sequence. mono. Qed.
#[export] Hint Resolve mle_parse_flow_sequence : mono.
Lemma mle_json_content_body f f' (k1 k1' : context -> M node) (x2 : context) : f <= f' -> (forall c, mle (k1 c) (k1' c)) ->
  mle (json_content_body f k1 x2) (json_content_body f' k1' x2).
Proof. intros. unfold json_content_body. mono. Qed.
#[export] Hint Resolve mle_json_content_body : mono.

Lemma mle_parse_flow_json_content f f' n n' c : f <= f' -> n <= n' ->
  mle (parse_flow_json_content f n c) (parse_flow_json_content f' n' c).
Proof.
  intros Hf Hn. revert n' c Hn. induction n as [|n IH]; intros [|n'] c Hn; try lia; try (intro; exact I).
  cbn [parse_flow_json_content]. apply mle_json_content_body; [exact Hf|]. intro. apply IH. lia.
Qed.
#[export] Hint Resolve mle_parse_flow_json_content : mono.
Lemma mle_json_content f f' (x1 : context) : f <= f' ->
  mle (json_content f x1) (json_content f' x1).
Proof. intros. unfold json_content. mono. Qed.
#[export] Hint Resolve mle_json_content : mono.
Lemma mle_parse_flow_in_block f f' : f <= f' ->
  mle (parse_flow_in_block f) (parse_flow_in_block f').
Proof. intros. unfold parse_flow_in_block. mono. Qed.
#[export] Hint Resolve mle_parse_flow_in_block : mono.
Lemma mle_repeat_valid_truncating f f' (m1 m1' : M node) (x2 : nat) : f <= f' -> mle m1 m1' ->
  mle (repeat_valid_truncating f m1 x2) (repeat_valid_truncating f' m1' x2).
Proof. intros. unfold repeat_valid_truncating. mono. Qed.
#[export] Hint Resolve mle_repeat_valid_truncating : mono.
Lemma mle_rest_of_line f f' : f <= f' ->
  mle (rest_of_line f) (rest_of_line f').
Proof. intros. unfold rest_of_line. mono. Qed.
#[export] Hint Resolve mle_rest_of_line : mono.
Lemma mle_parse_literal_text f f' : f <= f' ->
  mle (parse_literal_text f) (parse_literal_text f').
Proof. intros. unfold parse_literal_text. mono. Qed.
#[export] Hint Resolve mle_parse_literal_text : mono.
Lemma mle_parse_literal_next f f' : f <= f' ->
  mle (parse_literal_next f) (parse_literal_next f').
Proof. intros. unfold parse_literal_next. mono. Qed.
#[export] Hint Resolve mle_parse_literal_next : mono.
Lemma mle_parse_trail_comments f f' : f <= f' ->
  mle (parse_trail_comments f) (parse_trail_comments f').
Proof. intros. unfold parse_trail_comments. mono. Qed.
#[export] Hint Resolve mle_parse_trail_comments : mono.
Lemma mle_parse_strip_empty f f' : f <= f' ->
  mle (parse_strip_empty f) (parse_strip_empty f').
Proof. intros. unfold parse_strip_empty. mono. Qed.
#[export] Hint Resolve mle_parse_strip_empty : mono.
Lemma mle_parse_keep_empty f f' : f <= f' ->
  mle (parse_keep_empty f) (parse_keep_empty f').
Proof. intros. unfold parse_keep_empty. mono. Qed.
#[export] Hint Resolve mle_parse_keep_empty : mono.
Lemma mle_parse_chomped_empty f f' (x1 : chomping) : f <= f' ->
  mle (parse_chomped_empty f x1) (parse_chomped_empty f' x1).
Proof. intros. unfold parse_chomped_empty. mono. Qed.
#[export] Hint Resolve mle_parse_chomped_empty : mono.
Lemma mle_parse_literal_content f f' (x1 : chomping) : f <= f' ->
  mle (parse_literal_content f x1) (parse_literal_content f' x1).
Proof. intros. unfold parse_literal_content. mono. Qed.
#[export] Hint Resolve mle_parse_literal_content : mono.
Lemma mle_parse_literal f f' : f <= f' ->
  mle (parse_literal f) (parse_literal f').
Proof. intros. unfold parse_literal. mono. Qed.
#[export] Hint Resolve mle_parse_literal : mono.
Lemma mle_parse_folded_text f f' : f <= f' ->
  mle (parse_folded_text f) (parse_folded_text f').
Proof. intros. unfold parse_folded_text. mono. Qed.
#[export] Hint Resolve mle_parse_folded_text : mono.
Ltac mono_apply ::= lazymatch goal with
  | |- mle (with_buf _ ) _ => simple apply mle_with_buf
  | |- mle (with_ind _ _ ) _ => simple apply mle_with_ind
  | |- mle (with_ind_ _ _ ) _ => simple apply mle_with_ind_
  | |- mle (unless_errors _ ) _ => simple apply mle_unless_errors
  | |- mle (valid _ ) _ => simple apply mle_valid
  | |- mle (loop _ _ _ ) _ => simple apply mle_loop
  | |- mle (loop_ _ _ ) _ => simple apply mle_loop_
  | |- mle (repeat_valid _ _ ) _ => simple apply mle_repeat_valid
  | |- mle (parse_quoted_multi_line _ _ _ _ ) _ => simple apply mle_parse_quoted_multi_line
  | |- mle (parse_quoted_text _ _ _ _ _ ) _ => simple apply mle_parse_quoted_text
  | |- mle (parse_quoted _ _ _ _ _ _ ) _ => simple apply mle_parse_quoted
  | |- mle (parse_key_then_value _ _ _ _ ) _ => simple apply mle_parse_key_then_value
  | |- mle (repeat_valid_truncating _ _ _ ) _ => simple apply mle_repeat_valid_truncating
  end.
Lemma mle_parse_folded_lines f f' : f <= f' ->
  mle (parse_folded_lines f) (parse_folded_lines f').
Proof. intros. unfold parse_folded_lines. mono. Qed.
#[export] Hint Resolve mle_parse_folded_lines : mono.
Lemma mle_parse_spaced_text f f' : f <= f' ->
  mle (parse_spaced_text f) (parse_spaced_text f').
Proof. intros. unfold parse_spaced_text. mono. Qed.
#[export] Hint Resolve mle_parse_spaced_text : mono.
Lemma mle_parse_spaced_line_break f f' : f <= f' ->
  mle (parse_spaced_line_break f) (parse_spaced_line_break f').
Proof. intros. unfold parse_spaced_line_break. mono. Qed.
#[export] Hint Resolve mle_parse_spaced_line_break : mono.
Lemma mle_parse_spaced_lines f f' : f <= f' ->
  mle (parse_spaced_lines f) (parse_spaced_lines f').
Proof. intros. unfold parse_spaced_lines. mono. Qed.
#[export] Hint Resolve mle_parse_spaced_lines : mono.
Lemma mle_parse_same_lines f f' : f <= f' ->
  mle (parse_same_lines f) (parse_same_lines f').
Proof. intros. unfold parse_same_lines. mono. Qed.
#[export] Hint Resolve mle_parse_same_lines : mono.
Lemma mle_parse_diff_lines f f' : f <= f' ->
  mle (parse_diff_lines f) (parse_diff_lines f').
Proof. intros. unfold parse_diff_lines. mono. Qed.
#[export] Hint Resolve mle_parse_diff_lines : mono.
Lemma mle_parse_folded_content f f' (x1 : chomping) : f <= f' ->
  mle (parse_folded_content f x1) (parse_folded_content f' x1).
Proof. intros. unfold parse_folded_content. mono. Qed.
#[export] Hint Resolve mle_parse_folded_content : mono.
Lemma mle_parse_folded f f' : f <= f' ->
  mle (parse_folded f) (parse_folded f').
Proof. intros. unfold parse_folded. mono. Qed.
#[export] Hint Resolve mle_parse_folded : mono.
Lemma mle_parse_block_scalar f f' (x1 : context) : f <= f' ->
  mle (parse_block_scalar f x1) (parse_block_scalar f' x1).
Proof. intros. unfold parse_block_scalar. mono. Qed.
#[export] Hint Resolve mle_parse_block_scalar : mono.
Lemma mle_more_entries f f' (m1 m1' : M node) (x2 : node) : f <= f' -> mle m1 m1' ->
  mle (more_entries f m1 x2) (more_entries f' m1' x2).
Proof. intros. unfold more_entries. mono. Qed.
#[export] Hint Resolve mle_more_entries : mono.
Lemma mle_parse_block_mapping_implicit_key f f' : f <= f' ->
  mle (parse_block_mapping_implicit_key f) (parse_block_mapping_implicit_key f').
Proof. intros. unfold parse_block_mapping_implicit_key. mono. Qed.
#[export] Hint Resolve mle_parse_block_mapping_implicit_key : mono.
Lemma mle_parse_block_mapping_implicit_value f f' (k1 k1' : context -> M node) : f <= f' -> (forall c, mle (k1 c) (k1' c)) ->
  mle (parse_block_mapping_implicit_value f k1) (parse_block_mapping_implicit_value f' k1').
Proof. intros. unfold parse_block_mapping_implicit_value. mono. Qed.
#[export] Hint Resolve mle_parse_block_mapping_implicit_value : mono.
Lemma mle_parse_block_mapping_implicit_entry f f' (k1 k1' : context -> M node) : f <= f' -> (forall c, mle (k1 c) (k1' c)) ->
  mle (parse_block_mapping_implicit_entry f k1) (parse_block_mapping_implicit_entry f' k1').
Proof. intros. unfold parse_block_mapping_implicit_entry. mono. Qed.
#[export] Hint Resolve mle_parse_block_mapping_implicit_entry : mono.
Lemma mle_parse_block_mapping_explicit_key (k0 k0' : context -> M node) : (forall c, mle (k0 c) (k0' c)) ->
  mle (parse_block_mapping_explicit_key k0) (parse_block_mapping_explicit_key k0').
Proof. intros. unfold parse_block_mapping_explicit_key. mono. Qed.
#[export] Hint Resolve mle_parse_block_mapping_explicit_key : mono.
Lemma mle_parse_block_mapping_explicit_value f f' (k1 k1' : context -> M node) : f <= f' -> (forall c, mle (k1 c) (k1' c)) ->
  mle (parse_block_mapping_explicit_value f k1) (parse_block_mapping_explicit_value f' k1').
Proof. intros. unfold parse_block_mapping_explicit_value. mono. Qed.
#[export] Hint Resolve mle_parse_block_mapping_explicit_value : mono.
Lemma mle_parse_block_mapping_explicit_entry f f' (k1 k1' : context -> M node) : f <= f' -> (forall c, mle (k1 c) (k1' c)) ->
  mle (parse_block_mapping_explicit_entry f k1) (parse_block_mapping_explicit_entry f' k1').
Proof. intros. unfold parse_block_mapping_explicit_entry. mono. Qed.
#[export] Hint Resolve mle_parse_block_mapping_explicit_entry : mono.
Lemma mle_parse_block_mapping_entry f f' (k1 k1' : context -> M node) (k2 k2' : context -> M node) : f <= f' -> (forall c, mle (k1 c) (k1' c)) -> (forall c, mle (k2 c) (k2' c)) ->
  mle (parse_block_mapping_entry f k1 k2) (parse_block_mapping_entry f' k1' k2').
Proof. intros. unfold parse_block_mapping_entry. mono. Qed.
#[export] Hint Resolve mle_parse_block_mapping_entry : mono.
Lemma mle_parse_block_sequence_entry (k0 k0' : context -> M node) : (forall c, mle (k0 c) (k0' c)) ->
  mle (parse_block_sequence_entry k0) (parse_block_sequence_entry k0').
Proof. intros. unfold parse_block_sequence_entry. mono. Qed.
#[export] Hint Resolve mle_parse_block_sequence_entry : mono.
Ltac mono_apply ::= lazymatch goal with
  | |- mle (with_buf _ ) _ => simple apply mle_with_buf
  | |- mle (with_ind _ _ ) _ => simple apply mle_with_ind
  | |- mle (with_ind_ _ _ ) _ => simple apply mle_with_ind_
  | |- mle (unless_errors _ ) _ => simple apply mle_unless_errors
  | |- mle (valid _ ) _ => simple apply mle_valid
  | |- mle (loop _ _ _ ) _ => simple apply mle_loop
  | |- mle (loop_ _ _ ) _ => simple apply mle_loop_
  | |- mle (repeat_valid _ _ ) _ => simple apply mle_repeat_valid
  | |- mle (parse_quoted_multi_line _ _ _ _ ) _ => simple apply mle_parse_quoted_multi_line
  | |- mle (parse_quoted_text _ _ _ _ _ ) _ => simple apply mle_parse_quoted_text
  | |- mle (parse_quoted _ _ _ _ _ _ ) _ => simple apply mle_parse_quoted
  | |- mle (parse_key_then_value _ _ _ _ ) _ => simple apply mle_parse_key_then_value
  | |- mle (repeat_valid_truncating _ _ _ ) _ => simple apply mle_repeat_valid_truncating
  | |- mle (more_entries _ _ _ ) _ => simple apply mle_more_entries
  end.
Lemma mle_block_collection f f' (m1 m1' : M node) (x2 : (list node -> node)) : f <= f' -> mle m1 m1' ->
  mle (block_collection f m1 x2) (block_collection f' m1' x2).
Proof. intros. unfold block_collection. mono. Qed.
#[export] Hint Resolve mle_block_collection : mono.
Ltac mono_apply ::= lazymatch goal with
  | |- mle (with_buf _ ) _ => simple apply mle_with_buf
  | |- mle (with_ind _ _ ) _ => simple apply mle_with_ind
  | |- mle (with_ind_ _ _ ) _ => simple apply mle_with_ind_
  | |- mle (unless_errors _ ) _ => simple apply mle_unless_errors
  | |- mle (valid _ ) _ => simple apply mle_valid
  | |- mle (loop _ _ _ ) _ => simple apply mle_loop
  | |- mle (loop_ _ _ ) _ => simple apply mle_loop_
  | |- mle (repeat_valid _ _ ) _ => simple apply mle_repeat_valid
  | |- mle (parse_quoted_multi_line _ _ _ _ ) _ => simple apply mle_parse_quoted_multi_line
  | |- mle (parse_quoted_text _ _ _ _ _ ) _ => simple apply mle_parse_quoted_text
  | |- mle (parse_quoted _ _ _ _ _ _ ) _ => simple apply mle_parse_quoted
  | |- mle (parse_key_then_value _ _ _ _ ) _ => simple apply mle_parse_key_then_value
  | |- mle (repeat_valid_truncating _ _ _ ) _ => simple apply mle_repeat_valid_truncating
  | |- mle (more_entries _ _ _ ) _ => simple apply mle_more_entries
  | |- mle (block_collection _ _ _ ) _ => simple apply mle_block_collection
  end.
Lemma mle_parse_block_mapping f f' (k1 k1' : context -> M node) (k2 k2' : context -> M node) : f <= f' -> (forall c, mle (k1 c) (k1' c)) -> (forall c, mle (k2 c) (k2' c)) ->
  mle (parse_block_mapping f k1 k2) (parse_block_mapping f' k1' k2').
Proof. intros. unfold parse_block_mapping. mono. Qed.
#[export] Hint Resolve mle_parse_block_mapping : mono.
Lemma mle_parse_block_sequence f f' (k1 k1' : context -> M node) : f <= f' -> (forall c, mle (k1 c) (k1' c)) ->
  mle (parse_block_sequence f k1) (parse_block_sequence f' k1').
Proof. intros. unfold parse_block_sequence. mono. Qed.
#[export] Hint Resolve mle_parse_block_sequence : mono.
Lemma mle_compact_collection f f' (m1 m1' : M node) (x2 : (list node -> node)) : f <= f' -> mle m1 m1' ->
  mle (compact_collection f m1 x2) (compact_collection f' m1' x2).
Proof. intros. unfold compact_collection. mono. Qed.
#[export] Hint Resolve mle_compact_collection : mono.
Ltac mono_apply ::= lazymatch goal with
  | |- mle (with_buf _ ) _ => simple apply mle_with_buf
  | |- mle (with_ind _ _ ) _ => simple apply mle_with_ind
  | |- mle (with_ind_ _ _ ) _ => simple apply mle_with_ind_
  | |- mle (unless_errors _ ) _ => simple apply mle_unless_errors
  | |- mle (valid _ ) _ => simple apply mle_valid
  | |- mle (loop _ _ _ ) _ => simple apply mle_loop
  | |- mle (loop_ _ _ ) _ => simple apply mle_loop_
  | |- mle (repeat_valid _ _ ) _ => simple apply mle_repeat_valid
  | |- mle (parse_quoted_multi_line _ _ _ _ ) _ => simple apply mle_parse_quoted_multi_line
  | |- mle (parse_quoted_text _ _ _ _ _ ) _ => simple apply mle_parse_quoted_text
  | |- mle (parse_quoted _ _ _ _ _ _ ) _ => simple apply mle_parse_quoted
  | |- mle (parse_key_then_value _ _ _ _ ) _ => simple apply mle_parse_key_then_value
  | |- mle (repeat_valid_truncating _ _ _ ) _ => simple apply mle_repeat_valid_truncating
  | |- mle (more_entries _ _ _ ) _ => simple apply mle_more_entries
  | |- mle (block_collection _ _ _ ) _ => simple apply mle_block_collection
  | |- mle (compact_collection _ _ _ ) _ => simple apply mle_compact_collection
  end.
Lemma mle_parse_compact_mapping f f' (k1 k1' : context -> M node) (k2 k2' : context -> M node) : f <= f' -> (forall c, mle (k1 c) (k1' c)) -> (forall c, mle (k2 c) (k2' c)) ->
  mle (parse_compact_mapping f k1 k2) (parse_compact_mapping f' k1' k2').
Proof. intros. unfold parse_compact_mapping. mono. Qed.
#[export] Hint Resolve mle_parse_compact_mapping : mono.
Lemma mle_parse_compact_sequence f f' (k1 k1' : context -> M node) : f <= f' -> (forall c, mle (k1 c) (k1' c)) ->
  mle (parse_compact_sequence f k1) (parse_compact_sequence f' k1').
Proof. intros. unfold parse_compact_sequence. mono. Qed.
#[export] Hint Resolve mle_parse_compact_sequence : mono.
Lemma mle_parse_seq_space f f' (k1 k1' : context -> M node) (x2 : context) : f <= f' -> (forall c, mle (k1 c) (k1' c)) ->
  mle (parse_seq_space f k1 x2) (parse_seq_space f' k1' x2).
Proof. intros. unfold parse_seq_space. mono. Qed.
#[export] Hint Resolve mle_parse_seq_space : mono.
Lemma mle_parse_block_collection f f' (k1 k1' : context -> M node) (k2 k2' : context -> M node) (x3 : context) : f <= f' -> (forall c, mle (k1 c) (k1' c)) -> (forall c, mle (k2 c) (k2' c)) ->
  mle (parse_block_collection f k1 k2 x3) (parse_block_collection f' k1' k2' x3).
Proof. intros. unfold parse_block_collection. mono. Qed.
#[export] Hint Resolve mle_parse_block_collection : mono.
Lemma mle_parse_block_in_block f f' (k1 k1' : context -> M node) (k2 k2' : context -> M node) (x3 : context) : f <= f' -> (forall c, mle (k1 c) (k1' c)) -> (forall c, mle (k2 c) (k2' c)) ->
  mle (parse_block_in_block f k1 k2 x3) (parse_block_in_block f' k1' k2' x3).
Proof. intros. unfold parse_block_in_block. mono. Qed.
#[export] Hint Resolve mle_parse_block_in_block : mono.
Lemma mle_block_node_body f f' (k1 k1' : context -> M node) (k2 k2' : context -> M node) (x3 : context) : f <= f' -> (forall c, mle (k1 c) (k1' c)) -> (forall c, mle (k2 c) (k2' c)) ->
  mle (block_node_body f k1 k2 x3) (block_node_body f' k1' k2' x3).
Proof. intros. unfold block_node_body. mono. Qed.
#[export] Hint Resolve mle_block_node_body : mono.
Lemma mle_block_indented_body f f' (k1 k1' : context -> M node) (k2 k2' : context -> M node) (x3 : context) : f <= f' -> (forall c, mle (k1 c) (k1' c)) -> (forall c, mle (k2 c) (k2' c)) ->
  mle (block_indented_body f k1 k2 x3) (block_indented_body f' k1' k2' x3).
Proof. intros. unfold block_indented_body. mono. Qed.
#[export] Hint Resolve mle_block_indented_body : mono.

Lemma mle_block f f' n n' b c : f <= f' -> n <= n' -> mle (block f n b c) (block f' n' b c).
Proof.
  intros Hf Hn. revert n' b c Hn. induction n as [|n IH]; intros [|n'] b c Hn; try lia; try (intro; exact I).
  cbn [block]. destruct b; [apply mle_block_indented_body|apply mle_block_node_body]; try exact Hf; intro; apply IH; lia.
Qed.
#[export] Hint Resolve mle_block : mono.
Lemma mle_parse_block_node f f' (x1 : context) : f <= f' ->
  mle (parse_block_node f x1) (parse_block_node f' x1).
Proof. intros. unfold parse_block_node. mono. Qed.
#[export] Hint Resolve mle_parse_block_node : mono.
Lemma mle_parse_yaml_directive (x0 : (rune -> bool)) f f' : f <= f' ->
  mle (parse_yaml_directive x0 f) (parse_yaml_directive x0 f').
Proof. intros. unfold parse_yaml_directive. mono. Qed.
#[export] Hint Resolve mle_parse_yaml_directive : mono.
Lemma mle_parse_tag_directive f f' : f <= f' ->
  mle (parse_tag_directive f) (parse_tag_directive f').
Proof. intros. unfold parse_tag_directive. mono. Qed.
#[export] Hint Resolve mle_parse_tag_directive : mono.
Lemma mle_parse_reserved_directive f f' : f <= f' ->
  mle (parse_reserved_directive f) (parse_reserved_directive f').
Proof. intros. unfold parse_reserved_directive. mono. Qed.
#[export] Hint Resolve mle_parse_reserved_directive : mono.
Lemma mle_parse_directive (x0 : (rune -> bool)) f f' : f <= f' ->
  mle (parse_directive x0 f) (parse_directive x0 f').
Proof. intros. unfold parse_directive. mono. Qed.
#[export] Hint Resolve mle_parse_directive : mono.
Lemma mle_parse_bare_document f f' : f <= f' ->
  mle (parse_bare_document f) (parse_bare_document f').
Proof. intros. unfold parse_bare_document. mono. Qed.
#[export] Hint Resolve mle_parse_bare_document : mono.
Lemma mle_parse_explicit_document f f' : f <= f' ->
  mle (parse_explicit_document f) (parse_explicit_document f').
Proof. intros. unfold parse_explicit_document. mono. Qed.
#[export] Hint Resolve mle_parse_explicit_document : mono.
Lemma mle_parse_directive_document (x0 : (rune -> bool)) f f' : f <= f' ->
  mle (parse_directive_document x0 f) (parse_directive_document x0 f').
Proof. intros. unfold parse_directive_document. mono. Qed.
#[export] Hint Resolve mle_parse_directive_document : mono.
Lemma mle_parse_any_document (x0 : (rune -> bool)) f f' : f <= f' ->
  mle (parse_any_document x0 f) (parse_any_document x0 f').
Proof. intros. unfold parse_any_document. mono. Qed.
#[export] Hint Resolve mle_parse_any_document : mono.
Lemma mle_parse_document_suffix f f' : f <= f' ->
  mle (parse_document_suffix f) (parse_document_suffix f').
Proof. intros. unfold parse_document_suffix. mono. Qed.
#[export] Hint Resolve mle_parse_document_suffix : mono.
Lemma mle_parse_document_prefix f f' : f <= f' ->
  mle (parse_document_prefix f) (parse_document_prefix f').
Proof. intros. unfold parse_document_prefix. mono. Qed.
#[export] Hint Resolve mle_parse_document_prefix : mono.
Lemma mle_parse_prefixes f f' : f <= f' ->
  mle (parse_prefixes f) (parse_prefixes f').
Proof. intros. unfold parse_prefixes. mono. Qed.
#[export] Hint Resolve mle_parse_prefixes : mono.
Lemma mle_parse_suffixes_and_prefixes f f' : f <= f' ->
  mle (parse_suffixes_and_prefixes f) (parse_suffixes_and_prefixes f').
Proof. intros. unfold parse_suffixes_and_prefixes. mono. Qed.
#[export] Hint Resolve mle_parse_suffixes_and_prefixes : mono.
Lemma mle_maybe_any_document (x0 : (rune -> bool)) f f' (x2 : list node) : f <= f' ->
  mle (maybe_any_document x0 f x2) (maybe_any_document x0 f' x2).
Proof. intros. unfold maybe_any_document. mono. Qed.
#[export] Hint Resolve mle_maybe_any_document : mono.
Lemma mle_parse_stream (x0 : (rune -> bool)) f f' : f <= f' ->
  mle (parse_stream x0 f) (parse_stream x0 f').
Proof. intros. unfold parse_stream. mono. Qed.
#[export] Hint Resolve mle_parse_stream : mono.
Lemma mle_parse_program (x0 : (rune -> bool)) f f' : f <= f' ->
  mle (parse_program x0 f) (parse_program x0 f').
Proof. intros. unfold parse_program. mono. Qed.
#[export] Hint Resolve mle_parse_program : mono.
