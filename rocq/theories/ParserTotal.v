(** The parser finishes on every token stream that comes to an end, in particular on the tokens of
    every text. *)
From Coq Require Import String.
From Verif Require Import Base Token CPAccessor CPAccessorSpec CPAccessorProofs Lexer LexerSpec
  LexerProofs Parser ParserFlow ParserBlock ParserDocs ParserLogic ParserTerm ParserTermFlow
  ParserTermBlock ParserTermDocs ParserFuel.

(** ** The parser over a stream *)
Section Total.
  Context {S : Type} (st : stream S) (bounded : nat -> S -> Prop).
  Hypothesis bounded_next : forall n s, bounded n s ->
    tok_ok (fst (st_next st s)) /\ cost (fst (st_next st s)) <= n /\
    bounded (n - cost (fst (st_next st s))) (snd (st_next st s)).
  Hypothesis bounded_raw : forall n b s, bounded n s -> bounded n (st_raw st b s).
  Context (is_digit_u : rune -> bool).

  Lemma program_finishes n s fuel : bounded n s -> 4 * n + 4 <= fuel ->
    exists r c a, run_acc st (parse_program is_digit_u fuel new_parser) (acc_init zero_token s) = Fin r a /\
      run_cur st zero_token (parse_program is_digit_u fuel new_parser) (cur_init s) = Fin r c.
  Proof.
    intros Hb Hf. destruct (bounded_next _ _ Hb) as (Ht & Hc & Hb').
    unfold parse_program, bind, next. cbn [pbind run_acc run_cur].
    unfold cur_init, cur_next. cbn [cur_hist cur_pos cur_stream cur_stack nth_error].
    destruct (step_next _ _ (st_next st) zero_token 0 (Some false) (cur_init s) (acc_init zero_token s)
      (rel_init _ _ zero_token s) eq_refl) as (base' & HR' & HO & HS').
    unfold cur_step, cur_next in HR', HO, HS'. cbn [acc_step cur_hist cur_pos cur_stream cur_stack nth_error cur_init] in HR', HO, HS'.
    unfold cur_init in *.
    destruct (st_next st s) as [v s'] eqn:Es. cbn [fst snd] in *.
    destruct (acc_next (st_next st) (acc_init zero_token s)) as [[t2 a']|] eqn:Ea; [|discriminate].
    cbn [fst snd length Nat.eqb app Nat.add] in *. injection HO as ->.
    unfold set_start_of_line, modify. cbn [pbind fst snd].
    set (s1 := mkP _ true _ _ _ _ _ _).
    assert (A : at_ 0 0 [] v (msr true (n - cost v) v) s1 (mkG (n - cost v) v [] 0)).
    { constructor; cbn; unfold took, new_parser; cbn; repeat (match goal with |- context [if ?b then _ else _] => destruct b | |- context [match ?b with _ => _ end] => destruct b end; cbn); auto with arith. }
    assert (Hm : msr true (n - cost v) v < 2 * n + 2) by (unfold msr; cbn; lia).
    pose proof (okT_stream is_digit_u fuel (2 * n + 2) ltac:(lia) _ _ _ _ _ _ A Hm) as W.
    unfold wpM in W.
    assert (G : good tok_ok zero_token bounded (mkCur s' [v] 1 []) (mkG (n - cost v) v [] 0)).
    { constructor; cbn; auto.
      - exists (n - cost v). split; [exact Hb'|]. split; [lia|constructor].
      - intros i Hi Hi2. lia. }
    destruct (wp_sound tok_ok st zero_token bounded bounded_next bounded_raw eq_refl _ _ _ _ _ _ W G HR' HS')
      as (x & c' & a2 & g' & E1 & E2 & _).
    exists x, c', a2. split; [exact E1|exact E2].
  Qed.
End Total.

(** ** A slice of tokens as a stream *)
Definition slice_bounded (n : nat) (ts : list token) : Prop := costs ts <= n /\ Forall tok_ok ts.

Lemma slice_next n ts : slice_bounded n ts ->
  tok_ok (fst (st_next slice_stream ts)) /\ cost (fst (st_next slice_stream ts)) <= n /\
  slice_bounded (n - cost (fst (st_next slice_stream ts))) (snd (st_next slice_stream ts)).
Proof.
  intros [H1 H2]. destruct ts as [|t ts]; cbn.
  - split; [discriminate|]. split; [lia|]. split; [cbn; lia|constructor].
  - inversion H2; subst. change (costs (t :: ts)) with (cost t + costs ts) in H1.
    split; [assumption|]. split; [lia|]. split; [lia|assumption].
Qed.

(** ** The tokenizer as a stream *)
Definition text_bounded (doc : text) (n : nat) (l : lex rune_accessor) : Prop :=
  exists l2 : lex text, lex_rel acc_rel l l2 /\ (forall p, lx_prepared l2 = Some p -> kind_ok p) /\
    ((exists pre, at_place doc pre l2 /\ length doc <= n + length pre) \/ finished l2).

Lemma kind_tok_ok t : kind_ok t -> tok_ok t.
Proof.
  unfold kind_ok, tok_ok, is_bom. intros H Hb. destruct (tok_type t); try discriminate.
  cbn in H. rewrite H. split; reflexivity.
Qed.

Lemma lex_next_kind fuel (l : lex text) tok l' :
  (forall p, lx_prepared l = Some p -> kind_ok p) -> lex_next list_source fuel l = Some (tok, l') ->
  kind_ok tok /\ (forall p, lx_prepared l' = Some p -> kind_ok p).
Proof.
  intros Hl E. unfold lex_next in E. destruct (lx_prepared l) as [p|] eqn:Hp.
  - injection E as <- <-. split; [auto|]. cbn. discriminate.
  - pose proof (emit_kind fuel None l Hp I) as K. unfold text, rune in *. rewrite E in K. exact K.
Qed.

Lemma text_next doc n l : text_bounded doc n l ->
  let st := lexer_stream acc_source (S (length doc)) in
  tok_ok (fst (st_next st l)) /\ cost (fst (st_next st l)) <= n /\
  text_bounded doc (n - cost (fst (st_next st l))) (snd (st_next st l)).
Proof.
  intros (l2 & HR & HK & HP) st. unfold st, lexer_stream. cbn [st_next].
  pose proof (lex_next_sim acc_source list_source acc_rel acc_read_ok
    (fun k s1 s2 H => acc_look_ok k s1 s2 H) (S (length doc)) l l2 HR) as Sim.
  destruct HP as [(pre & HP & Hn)|HF].
  - destruct (next_advance doc pre (S (length doc)) l2 HP ltac:(lia)) as (tok & l2' & E & Adv).
    pose proof (lex_next_kind _ _ _ _ HK E) as [K1 K2].
    change (list N) with text in *.
    rewrite E in Sim. destruct (lex_next acc_source (S (length doc)) l) as [[tok1 l1']|]; [|destruct Sim].
    destruct Sim as [S1 S2]. cbn [fst snd] in *. subst tok1. split; [apply kind_tok_ok, K1|].
    destruct Adv as [[(C1 & C2 & _) AP]|((F1 & F2 & _) & -> & FN & _)]; unfold cost.
    + rewrite C2.
      assert (Hle : length (pre ++ tok_origin tok) <= length doc).
      { destruct AP as [_ D _|tk _ _ D _|tk _ _ D _]; rewrite D, ?app_length; lia. }
      rewrite app_length in Hle.
      assert (1 <= length (tok_origin tok)) by (destruct (tok_origin tok); [congruence|cbn; lia]).
      split; [lia|]. exists l2'. split; [exact S2|]. split; [exact K2|]. left.
      exists (pre ++ tok_origin tok). split; [exact AP|]. rewrite app_length. lia.
    + rewrite F1. split; [lia|]. exists l2'. split; [exact S2|]. split; [exact K2|]. right. exact FN.
  - destruct (next_finished (S (length doc)) l2 HF ltac:(lia)) as (tok & l2' & E & F1 & F2 & FN & _).
    pose proof (lex_next_kind _ _ _ _ HK E) as [K1 K2].
    change (list N) with text in *.
    rewrite E in Sim. destruct (lex_next acc_source (S (length doc)) l) as [[tok1 l1']|]; [|destruct Sim].
    destruct Sim as [S1 S2]. cbn [fst snd] in *. subst tok1. split; [apply kind_tok_ok, K1|].
    unfold cost. rewrite F1. split; [lia|]. exists l2'. split; [exact S2|]. split; [exact K2|]. right. exact FN.
Qed.

Lemma text_raw doc n b l : text_bounded doc n l -> text_bounded doc n (lex_set_raw b l).
Proof.
  intros (l2 & HR & HK & HP). exists (lex_set_raw b l2). split; [apply rel_raw, HR|]. split; [exact HK|].
  destruct HP as [(pre & HP & Hn)|HF]; [left|right; exact HF].
  exists pre. split; [apply at_place_raw, HP|exact Hn].
Qed.

Lemma text_start doc : text_bounded doc (length doc) (lex_new (acc_init None doc)).
Proof.
  exists (lex_new doc). split; [repeat split; cbn; constructor|]. split; [cbn; discriminate|].
  left. exists []. split; [apply ap_ready; reflexivity|cbn; lia].
Qed.

(** ** Parsing finishes *)
Section Finish.
  Context (is_digit_u : rune -> bool).

  Lemma token_stream_fuel {S} (st : stream S) s f f2 r : f <= f2 ->
    parse_token_stream is_digit_u f st s = Fin r tt -> parse_token_stream is_digit_u f2 st s = Fin r tt.
  Proof.
    intros Hf E. unfold parse_token_stream in *.
    destruct (run_acc st (parse_program is_digit_u f new_parser) (acc_init zero_token s)) as [[n p] a| |] eqn:E1;
      try discriminate.
    rewrite (ple_run st _ _ _ _ _ (mle_parse_program is_digit_u f f2 Hf new_parser) E1). exact E.
  Qed.

  Lemma token_stream_run {S} (st : stream S) s f tree p a :
    run_acc st (parse_program is_digit_u f new_parser) (acc_init zero_token s) = Fin (tree, p) a ->
    parse_token_stream is_digit_u f st s = Fin (tree, p_errs p) tt.
  Proof. intro E. unfold parse_token_stream. rewrite E. reflexivity. Qed.

  Lemma slice_start ts : Forall tok_ok ts -> slice_bounded (length ts) ts.
  Proof.
    intro Ht. split; [|exact Ht]. clear. induction ts as [|t ts IH]; [cbn; lia|].
    change (costs (t :: ts)) with (cost t + costs ts). unfold cost. destruct (is_eof t); cbn [length]; lia.
  Qed.

  Lemma parse_tokens_finishes ts : Forall tok_ok ts ->
    exists r, forall fuel, 4 * length ts + 4 <= fuel -> parse_tokens is_digit_u fuel ts = Fin r tt.
  Proof.
    intros Ht.
    destruct (program_finishes slice_stream slice_bounded slice_next (fun _ _ _ H => H) is_digit_u
      (length ts) ts (4 * length ts + 4) (slice_start ts Ht) (le_n _)) as ((tree & p) & c & a & E & _).
    exists (tree, p_errs p). intros fuel Hf. apply (token_stream_fuel slice_stream ts _ fuel _ Hf).
    exact (token_stream_run _ _ _ _ _ _ E).
  Qed.

  Lemma parse_text_finishes (doc : text) :
    exists tree errs, forall fuel, 4 * length doc + 4 <= fuel ->
      parse_token_stream is_digit_u fuel (lexer_stream acc_source (S (length doc)))
        (lex_new (acc_init None doc)) = Fin (tree, errs) tt.
  Proof.
    destruct (program_finishes (lexer_stream acc_source (S (length doc))) (text_bounded doc)
      (text_next doc) (text_raw doc) is_digit_u (length doc) _ (4 * length doc + 4) (text_start doc) (le_n _))
      as ((tree & p) & c & a & E & _).
    exists tree, (p_errs p). intros fuel Hf. apply (token_stream_fuel _ _ _ fuel _ Hf).
    exact (token_stream_run _ _ _ _ _ _ E).
  Qed.

  Lemma parse_string_finishes omit (doc : text) :
    exists r, forall fuel, 4 * length doc + 4 <= fuel -> parse_string is_digit_u fuel omit doc = Fin r tt.
  Proof.
    destruct (parse_text_finishes doc) as (tree & errs & H).
    destruct errs as [|e es]; eexists; intros fuel Hf; specialize (H fuel Hf); unfold parse_string; rewrite H; reflexivity.
  Qed.

  (** the errors of a failed parse are not empty *)
  Lemma parse_string_errors omit (doc : text) fuel errs :
    parse_string is_digit_u fuel omit doc = Fin (inr errs) tt -> errs <> [].
  Proof.
    unfold parse_string. destruct (parse_token_stream _ _ _ _) as [[tree [|e es]] []| |]; try discriminate.
    intros [= <-]. discriminate.
  Qed.

  (** the checkpointing accessor behaves towards the parser like the plain cursor *)
  Lemma parse_text_cursor (doc : text) fuel : 4 * length doc + 4 <= fuel ->
    exists r a c,
      run_acc (lexer_stream acc_source (S (length doc))) (parse_program is_digit_u fuel new_parser)
        (acc_init zero_token (lex_new (acc_init None doc))) = Fin r a /\
      run_cur (lexer_stream acc_source (S (length doc))) zero_token (parse_program is_digit_u fuel new_parser)
        (cur_init (lex_new (acc_init None doc))) = Fin r c.
  Proof.
    intro Hf.
    destruct (program_finishes (lexer_stream acc_source (S (length doc))) (text_bounded doc)
      (text_next doc) (text_raw doc) is_digit_u (length doc) _ fuel (text_start doc) Hf)
      as (r & c & a & E1 & E2). exists r, a, c. auto.
  Qed.
End Finish.
