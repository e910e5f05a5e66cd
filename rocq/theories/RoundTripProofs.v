(** Writing and reading back. *)
From Coq Require Import String.
From Verif Require Import Base Token Ast Lexer LexerSpec LexerProofs Parser ParserDocs ParserTape ParserFuel ParserTotal
  TapeRules BlockParse1 BlockParse2 BlockParse3 BlockParse4 LitParse LeafParse BlockParse5 BlockParse7 Writer Encoder WriterSpec RoundTripSpec FlowParse2 FoldParse FlowParse4 LexText BlockText LineText TokenStarts NotedSpec WriterText TextSpec.
Local Open Scope nat_scope.

Lemma texts_not_eof ts : Forall (fun t => texty t = true) ts -> Forall (fun t => is_eof t = false) ts.
Proof. intro H. eapply Forall_impl; [|exact H]. unfold texty, is_eof. intro t. destruct (tok_type t); congruence. Qed.
Lemma quoted_not_eof (o c : token) ts cs ty : ty = TSingleQuote \/ ty = TDoubleQuote -> tok_type o = ty -> tok_type c = ty ->
  Forall (fits cs) ts -> Forall (fun t => is_eof t = false) (o :: ts ++ [c]).
Proof.
  intros Hty Ho Hc Hs. constructor; [unfold is_eof; rewrite Ho; destruct Hty as [-> | ->]; reflexivity|]. apply Forall_app. split.
  - apply texts_not_eof. eapply Forall_impl; [|exact Hs]. intros t. apply fits_texty.
  - constructor; [unfold is_eof; rewrite Hc; destruct Hty as [-> | ->]; reflexivity|constructor].
Qed.
Lemma scalar_not_eof t ts : scalar t ts -> Forall (fun t => is_eof t = false) ts.
Proof.
  intros [s ts2 H|o ts2 c H1 H2 H3|o ts2 c H1 H2 H3].
  - apply texts_not_eof. eapply plain_texts, H.
  - apply (quoted_not_eof o c ts2 _ TSingleQuote (or_introl eq_refl) H1 H3 H2).
  - apply (quoted_not_eof o c ts2 _ TDoubleQuote (or_intror eq_refl) H1 H3 H2).
Qed.
Lemma type_not_eof (t : token) ty : tok_type t = ty -> ty <> TEOF -> is_eof t = false.
Proof. unfold is_eof. intros -> H. destruct ty; congruence. Qed.
Lemma blanks_not_eof ts : blanks ts -> Forall (fun t => is_eof t = false) ts.
Proof. intro H. apply texts_not_eof, blanks_texts, H. Qed.
Lemma mild_not_eof ts : Forall (fun t => mild t = true) ts -> Forall (fun t => is_eof t = false) ts.
Proof. intro H. eapply Forall_impl; [|exact H]. intros t. unfold mild, is_eof. destruct (tok_type t); congruence. Qed.
Lemma inner_not_eof n t ts : FlowParse4.inner n t ts -> Forall (fun t => is_eof t = false) ts.
Proof.
  intros [(h & _ & H)|H]; [|eapply Forall_impl; [|eapply folded_tokens, H]; unfold mild, is_eof; intros x [Hx|[-> | ->]]; try reflexivity; destruct (tok_type x); congruence]. revert h t ts H.
  enough ((forall h t ts, flow n h t ts -> Forall (fun t => is_eof t = false) ts) /\
    (forall kind h e ts, item n kind h e ts -> Forall (fun t => is_eof t = false) ts) /\
    (forall kind h es ts, items n kind h es ts -> Forall (fun t => is_eof t = false) ts)) by tauto.
  apply flows_ind; intros; repeat first [assumption | apply Forall_app; split | apply Forall_cons | apply Forall_nil];
    try (eapply type_not_eof; [eassumption|first [discriminate|destruct kind; discriminate]]); eauto using scalar_not_eof, blanks_not_eof, mild_not_eof, FlowParse1.sep_mild.
Qed.
Lemma quiet_not_eof ts : Forall (fun y => quiet y = true /\ calm y = true) ts -> Forall (fun t => is_eof t = false) ts.
Proof. intro H. eapply Forall_impl; [|exact H]. intros t [Hq _]. unfold quiet, is_eof in *. destruct (tok_type t); congruence. Qed.
Lemma leaf_not_eof n t ts : leaf n t ts -> Forall (fun t => is_eof t = false) ts.
Proof.
  intros [H|[[a w Ha Hw _]|[p pts sps t0 ts0 Hp Hs _ H]]]; [eapply inner_not_eof, H| |].
  - repeat constructor; eapply type_not_eof; eauto; discriminate.
  - destruct (props_head _ _ _ Hp) as (_ & _ & _ & _ & F). rewrite !Forall_app. split; [apply quiet_not_eof, F|]. split; [apply blanks_not_eof, Hs|eapply inner_not_eof, H].
Qed.
Lemma props_not_eof no p ts : props no p ts -> Forall (fun t => is_eof t = false) ts.
Proof. intro H. destruct (props_head _ _ _ H) as (_ & _ & _ & _ & F). apply quiet_not_eof, F. Qed.
(** the tokens of literal scalars *)
Lemma raws_not_eof ts : Forall (fun t => rawly t = true) ts -> Forall (fun t => is_eof t = false) ts.
Proof. intro H. eapply Forall_impl; [|exact H]. intro t. unfold rawly, is_eof. destruct (tok_type t); congruence. Qed.
Lemma hollow_not_eof v t l : hollow_in v t l -> Forall (fun t => is_eof t = false) l.
Proof.
  induction 1 as [|sps nl t l Hs _ Hn _ IH]; [constructor|]. apply Forall_app. split; [apply blanks_not_eof, Hs|].
  constructor; [eapply type_not_eof; [exact Hn|discriminate]|exact IH].
Qed.
Lemma solid_not_eof x : is_non_break x = true -> is_eof x = false.
Proof. unfold is_non_break, is_eof. destruct (tok_type x); congruence. Qed.
Lemma literal_not_eof z t ts : literal z t ts -> Forall (fun t => is_eof t = false) ts.
Proof.
  assert (B : forall b, is_eof (bar b) = false) by reflexivity.
  assert (M : forall v s ts, lit_more v s ts -> Forall (fun t => is_eof t = false) ts).
  { induction 1 as [|nl t0 l s ts0 s2 ts2 Hn Hh Hl _ IH]; [constructor|]. constructor; [eapply type_not_eof; [exact Hn|discriminate]|]. constructor; [apply B|].
    apply Forall_app. split; [eapply hollow_not_eof, Hh|]. apply Forall_app. split; [|exact IH].
    destruct Hl as [sps x ts3 H1 _ H0 _ H2 _]. apply Forall_app. split; [apply blanks_not_eof, H1|]. constructor; [apply solid_not_eof, H0|]. constructor; [apply B|apply raws_not_eof, H2]. }
  assert (F : forall s ts nl, fold_line s ts nl -> Forall (fun t => is_eof t = false) ts).
  { intros s ts0 nl [x nl2 Hx Hn|x y ts2 nl2 Hx Hy Ht Hn]; (constructor; [eapply type_not_eof; [exact Hx|discriminate]|]).
    - constructor; [eapply type_not_eof; [exact Hn|discriminate]|]. repeat constructor.
    - constructor; [unfold is_white_space, is_eof in *; destruct (tok_type y); congruence|]. constructor; [apply B|]. apply Forall_app. split; [apply raws_not_eof, Ht|].
      constructor; [eapply type_not_eof; [exact Hn|discriminate]|]. repeat constructor. }
  assert (FM : forall v nl0 s ts nl, fold_more v nl0 s ts nl -> Forall (fun t => is_eof t = false) ts).
  { induction 1 as [nl|nl0 t0 l sps s ts0 nl s2 ts2 nl2 Hl Hs He Hf Hm IH]; [constructor|]. repeat (apply Forall_app; split); eauto using hollow_not_eof, blanks_not_eof. }
  intros [t1 ts' [v o c hs u nl0 sps x ts1 s2 ts2 nl t0 l Ho Hh Hu Hn0 _ _ Hs _ Hx _ _ Ht Hm Hn Hl _]|t1 ts' [v o c hs u nl0 sps s ts1 nl1 s2 ts2 nl t0 l Ho Hh Hu Hn0 _ _ Hs _ Hf Hm Hl]].
  2: { constructor; [eapply type_not_eof; [exact Ho|discriminate]|]. apply Forall_app. split.
    { destruct Hh as [|h Hh|h Hh]; repeat constructor; (eapply type_not_eof; [exact Hh|discriminate]). }
    apply Forall_app. split; [apply mild_not_eof, idle_line_mild, trailing_idle, Hu|]. constructor; [eapply type_not_eof; [exact Hn0|discriminate]|].
    apply Forall_app. split; [apply blanks_not_eof, Hs|]. apply Forall_app. split; [eapply F, Hf|]. apply Forall_app. split; [eapply FM, Hm|eapply hollow_not_eof, Hl]. }
  constructor; [eapply type_not_eof; [exact Ho|discriminate]|]. apply Forall_app. split.
  { destruct Hh as [|h Hh|h Hh]; repeat constructor; (eapply type_not_eof; [exact Hh|discriminate]). }
  apply Forall_app. split; [apply mild_not_eof, idle_line_mild, trailing_idle, Hu|]. constructor; [eapply type_not_eof; [exact Hn0|discriminate]|].
  apply Forall_app. split; [apply blanks_not_eof, Hs|]. constructor; [apply solid_not_eof, Hx|]. constructor; [apply B|].
  apply Forall_app. split; [apply raws_not_eof, Ht|]. apply Forall_app. split; [eapply M, Hm|]. constructor; [eapply type_not_eof; [exact Hn|discriminate]|].
  constructor; [apply B|eapply hollow_not_eof, Hl].
Qed.
Lemma grammar_not_eof :
  (forall o kind n e ts, entry o kind n e ts -> Forall (fun t => is_eof t = false) ts) /\
  (forall o kind n t ts, after o kind n t ts -> Forall (fun t => is_eof t = false) ts) /\
  (forall o kind n es ts, entries o kind n es ts -> Forall (fun t => is_eof t = false) ts).
Proof.
  apply grammar_ind; intros; repeat first [assumption | apply Forall_app; split | apply Forall_cons | apply Forall_nil];
    try (eapply type_not_eof; [eassumption|discriminate]); eauto using scalar_not_eof, leaf_not_eof, blanks_not_eof, mild_not_eof, gap_mild, between_mild, literal_not_eof, props_not_eof.
Qed.

Lemma plain_doc_not_eof o t ts : plain_doc o t ts -> Forall (fun t => is_eof t = false) ts.
Proof.
  intros [t2 sps ts2 Hs H|o2 kind sps es ts2 Hs H|t2 sps ts2 Hs H]; (apply Forall_app; split; [apply blanks_not_eof, Hs|]); [eapply leaf_not_eof, H| |eapply literal_not_eof, H].
  eapply (proj2 (proj2 grammar_not_eof)), H.
Qed.
Lemma marked_doc_not_eof o t ts : marked_doc o t ts -> Forall (fun t => is_eof t = false) ts.
Proof.
  intros [t2 sps ts2 Hs _ H|t2 sps ts2 Hs _ H|o2 t2 g ts2 Hg H|]; [| | |constructor]; apply Forall_app; split;
    eauto using blanks_not_eof, leaf_not_eof, mild_not_eof, gap_mild, plain_doc_not_eof, literal_not_eof.
Qed.
(** the tokens of a stream end with two ends of input *)
Definition two_ends (ts : list token) : Prop := exists body tail, ts = body ++ tail /\ length tail = 2 /\ Forall (fun t => is_eof t = false) body.
Lemma two_app a ts : Forall (fun t => is_eof t = false) a -> two_ends ts -> two_ends (a ++ ts).
Proof. intros H (b & e & -> & H1 & H2). exists (a ++ b), e. rewrite app_assoc, Forall_app. auto. Qed.
Lemma two_pair e1 e2 : two_ends [e1; e2].
Proof. exists [], [e1; e2]. repeat constructor. Qed.
Definition ended (ts : list token) (sol : bool) : Prop := if sol then two_ends ts else length ts = 1.
Lemma ended_lands tl ts sol : lands (-1) tl ts sol -> ended ts sol -> two_ends tl.
Proof.
  intros [g sps x r Hg Hs Hl Hx|g x r Hg Hx|g v e1 e2 r Hg Hv H1 H2|u e1 e2 r Hu H1 H2] H; cbn [ended] in H.
  - lia.
  - apply two_app; [apply mild_not_eof, gap_mild, Hg|exact H].
  - destruct r; [|discriminate H]. apply two_app; [apply mild_not_eof, gap_mild, Hg|]. apply two_app; [apply mild_not_eof, idle_line_mild, Hv|apply two_pair].
  - destruct r; [|discriminate H]. apply two_app; [apply mild_not_eof, idle_line_mild; auto|apply two_pair].
Qed.
Lemma ended_goes o tl ts sol : goes o (-1) tl ts sol -> ended ts sol -> two_ends tl.
Proof.
  destruct o; cbn [goes]; [|apply ended_lands]. intros K H. destruct K as [sps x r Hs Hl Hx|x r Hx|e1 e2 r H1 H2|cs c txt q tl2 sol2 H1 H2 H3 H4 H5]; auto.
  change (c :: txt ++ q) with ((c :: txt) ++ q). rewrite app_assoc. apply two_app; [apply mild_not_eof, idle_line_mild, idle_comment; auto|].
  eapply ended_lands; [apply lined_lands, H5|exact H].
Qed.
Lemma docs_split ds ts sol : docs ds ts sol -> ended ts sol.
Proof.
  induction 1 as [e He|e1 e2 H1 H2|o x t ts tl tl2 sol2 l Hx Hm Hj Hl Hd IH]; [reflexivity|apply two_pair|].
  apply (two_app [x]); [constructor; [eapply type_not_eof; [exact Hx|discriminate]|constructor]|]. apply two_app; [eapply marked_doc_not_eof, Hm|].
  eapply ended_goes; eassumption.
Qed.
Lemma stream_split ds ts : stream_of ds ts -> two_ends ts.
Proof.
  intros [o l t ts2 tl tl2 sol2 ds2 Hl Hp Hj Hn Hd|l t ds2 tl Hl Hd]; (apply two_app; [apply mild_not_eof, idle_mild, Hl|]).
  - apply two_app; [eapply plain_doc_not_eof, Hp|]. eapply ended_goes; [exact Hn|]. eapply docs_split, Hd.
  - apply (docs_split _ _ _ Hd).
Qed.

(** what a parse gives for a stream *)
Theorem streams_read digit omit ds s : stream_text ds s -> forall fuel, 4 * length s + 4 <= fuel ->
  parse_string digit fuel omit s = Fin (inl (match ds with [d] => if omit then d else NStream ds | _ => NStream ds end)) tt.
Proof.
  intros H fuel Hf.
  destruct (stream_tokens (S (length s)) ltac:(lia) ds s H ltac:(lia)) as (ts & Hd & Hg).
  destruct (stream_split _ _ Hd) as (body & tail & E & Ht & Hb).
  assert (Hl : length ts < fuel).
  { subst ts. pose proof (few_tokens (S (length s)) s _ _ ltac:(lia) Hg [] body tail eq_refl (new_place s) Hb) as L.
    rewrite app_length, Ht. cbn in L. lia. }
  destruct (starts_differ (S (length s)) s ts _ ltac:(lia) Hg [] (new_place s)) as [Hn _].
  destruct (stream_ok digit fuel ltac:(lia) ds ts Hd Hl Hn) as (p & tp & E1 & E2).
  rewrite (parse_text_tape digit omit s fuel ts _ p tp Hf Hg E1 E2). destruct ds as [|d [|d2 ds]]; reflexivity.
Qed.
Theorem reads_back digit omit t s : document_text t s -> forall fuel, 4 * length s + 4 <= fuel ->
  parse_string digit fuel omit s = Fin (inl (if omit then t else NStream [t])) tt.
Proof. apply streams_read. Qed.

Theorem noted_round_trip t : noted t -> exists s, serialized t = OutText s /\
  forall digit omit fuel, 4 * length s + 4 <= fuel ->
    parse_string digit fuel omit s = Fin (inl (if omit then reread t else NStream [reread t])) tt.
Proof.
  intro H. destruct (serialized_text t H) as (s & E & D). exists s. split; [exact E|].
  intros digit omit fuel Hf. apply reads_back; assumption.
Qed.
Theorem round_trip t : simple t -> exists s, serialized t = OutText s /\
  forall digit omit fuel, 4 * length s + 4 <= fuel ->
    parse_string digit fuel omit s = Fin (inl (if omit then reread t else NStream [reread t])) tt.
Proof. intro H. apply noted_round_trip, simple_noted, H. Qed.
