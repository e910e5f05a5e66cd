(** Property C54: the input as bytes. *)
From Coq Require Import String.
From Verif Require Import Base YamlChar Ast Token CPAccessor Lexer LexerSpec LexerProofs Parser ParserDocs Utf8 Utf8Spec Utf8Proofs.
Local Open Scope N_scope.

(** C54: the tokens and the tree (or errors) of the UTF-8 encoding of a text are those of the text.  All
    theorems stated for [tokenize] and [parse_string] on texts thereby hold for the encoded input. *)
Theorem C54_characters :
  forall s b, utf8_text s b ->
    (forall sched, tokenize_bytes b sched = tokenize s sched) /\
    (forall digit fuel omit, parse_bytes digit fuel omit b = parse_string digit fuel omit s).
Proof.
  intros s b H. apply utf8_reads in H. split; [intro; apply tokens_of_bytes, H|intros; apply parse_of_bytes, H].
Qed.
Print Assumptions C54_characters.

(** Every text of Unicode scalar values has an encoding. *)
Theorem C54_encodable : forall s, Forall scalar_value s -> exists b, utf8_text s b.
Proof. exact text_total. Qed.
Print Assumptions C54_encodable.

(** Any input at all, well-formed or not, reads as exactly one text: each byte at which no character
    starts stands for the replacement character.  Tokens and tree are those of that text. *)
Theorem C54_any_bytes :
  forall b, exists s, reads_as b s /\ (forall s2, reads_as b s2 -> s2 = s) /\
    (forall sched, tokenize_bytes b sched = tokenize s sched) /\
    (forall digit fuel omit, parse_bytes digit fuel omit b = parse_string digit fuel omit s).
Proof.
  intro b. destruct (reads_as_total b) as (s & H). exists s. split; [exact H|]. split; [intros s2 H2; exact (reads_as_unique b s2 s H2 H)|].
  split; [intro; apply tokens_of_bytes, H|intros; apply parse_of_bytes, H].
Qed.
Print Assumptions C54_any_bytes.

(** Losslessness (C06) holds for the bytes exactly when they are UTF-8: the texts of the tokens up to the
    end of input encode to the input if anything does. *)
Theorem C54_kept_exactly : forall b sched ts before tok after,
  tokenize_bytes b sched = Some ts -> ts = before ++ tok :: after -> is_eof tok = true ->
  reads_as b (origins before) /\ (utf8_text (origins before) b <-> exists s, utf8_text s b).
Proof.
  intros b sched ts before tok after E Et Hk. destruct (reads_as_total b) as (s & Hs). rewrite (tokens_of_bytes b s sched Hs) in E.
  destruct (lossless s sched ts E) as [_ K]. rewrite (K before tok after Et Hk). split; [exact Hs|]. split; [eauto|].
  intros (s2 & H2). rewrite (reads_as_unique b s s2 Hs (utf8_reads s2 b H2)). exact H2.
Qed.
Print Assumptions C54_kept_exactly.

(** A document with characters of one, two, three and four bytes, then one that is not UTF-8: an overlong
    form, a surrogate, a lone continuation byte and a truncated sequence. *)
Definition c54_bytes : bytes :=
  [107; 195; 164; 115; 101; 58; 32; 34; 226; 130; 172; 32; 240; 159; 167; 128; 34].
Definition c54_text : text := [107; 228; 115; 101; 58; 32; 34; 8364; 32; 129472; 34].
Lemma c54_encodes : utf8_text c54_text c54_bytes.
Proof.
  unfold c54_text, c54_bytes.
  apply (u8_cons 107 [107]); [constructor; reflexivity|]. apply (u8_cons _ [195; 164]); [apply (u8_two 3 36); (reflexivity || discriminate)|].
  apply (u8_cons 115 [115]); [constructor; reflexivity|]. apply (u8_cons 101 [101]); [constructor; reflexivity|]. apply (u8_cons 58 [58]); [constructor; reflexivity|].
  apply (u8_cons 32 [32]); [constructor; reflexivity|]. apply (u8_cons 34 [34]); [constructor; reflexivity|].
  apply (u8_cons _ [226; 130; 172]); [apply (u8_three 2 2 44); try reflexivity; [discriminate|left; reflexivity]|].
  apply (u8_cons 32 [32]); [constructor; reflexivity|].
  apply (u8_cons _ [240; 159; 167; 128]); [apply (u8_four 0 31 39 0); try reflexivity; [discriminate|right; split; [discriminate|reflexivity]]|].
  apply (u8_cons 34 [34]); [constructor; reflexivity|]. constructor.
Qed.
Example C54_example : utf8_text c54_text c54_bytes /\
  parse_bytes is_digit 200 true c54_bytes =
    Fin (inl (NMapping [NEntry (NText [107; 228; 115; 101] UnknownQuoting) (NText [8364; 32; 129472] DoubleQuoting)])) tt.
Proof. split; [exact c54_encodes|]. vm_compute. reflexivity. Qed.
Example C54_example_bad :
  parse_bytes is_digit 200 true [192; 175; 32; 237; 160; 128; 128; 240; 159] =
    Fin (inl (NText [65533; 65533; 32; 65533; 65533; 65533; 65533; 65533; 65533] UnknownQuoting)) tt.
Proof. vm_compute. reflexivity. Qed.
(** Input that is not UTF-8 ends up in the tokens as something else. *)
Example C54_not_kept_case : exists t1 t2, tokenize_bytes [255] [false; false] = Some [t1; t2] /\ is_eof t2 = true /\
  origins [t1] = [65533] /\ ~ utf8_text (origins [t1]) [255].
Proof.
  do 2 eexists. split; [vm_compute; reflexivity|]. split; [reflexivity|]. split; [reflexivity|]. intro H.
  inversion H as [|c e s b C T H1 H2]. subst c s. inversion T; subst b. rewrite app_nil_r in H2. subst e.
  inversion C as [c0 K| | |]; discriminate K.
Qed.
