(** Tokenizing text made of words, spaces, line breaks, quotes and block indicators. *)
From Coq Require Import String.
From Verif Require Import Base YamlChar Token CPAccessor Lexer LexerSpec LexerProofs ParserTape RoundTripSpec.
Local Open Scope N_scope.

Definition st (ctx : list ctx_type) (b : ttype) (p : position) (s : text) : lex text := mkLex s ctx false false p b None.

(** [c], followed by [s], is part of a word *)
Definition inert (ctx : list ctx_type) (b : ttype) (c : rune) (s : text) : Prop :=
  forall p, match_special list_source (st ctx b p s) (Some c) = (None, st ctx b p s).
(** a word ends before [s] *)
Definition stopper (ctx : list ctx_type) (s : text) : Prop :=
  forall p, exists tk l, match_special list_source (st ctx TString p (tl s)) (fst (list_next s)) = (Some tk, l) /\ lx_prepared l = None.
Definition inner (ctx : list ctx_type) (w s : text) : Prop :=
  forall u c v, w = u ++ c :: v -> inert ctx TString c (v ++ s).

Section Lex.
  Context (fuel : nat).

  Lemma emit_run ctx s : stopper ctx s -> (0 < fuel)%nat -> forall w f p start o, inner ctx w s -> (length w < f)%nat ->
    exists e l2 p2, emit list_source f (Some (start, o)) (st ctx TString p (w ++ s)) =
      Some (mkTok TString start e (rev o ++ w) 0, l2) /\
      forall tl, lgives fuel (st ctx TString p2 s) tl -> lgives fuel l2 tl.
  Proof.
    intros Hst Hf. induction w as [|c w IH]; intros f p start o Hi Hl; (destruct f as [|f]; [cbn in Hl; lia|]); cbn [app emit].
    - set (cur := mkPos (row (lx_pos (st ctx TString p s))) (column (lx_pos (st ctx TString p s)) + 1)).
      destruct (Hst cur) as (tk & l & E & Ep).
      assert (Es : src_next list_source (lx_src (st ctx TString p s)) = (fst (list_next s), tl s))
        by (destruct s; reflexivity).
      rewrite Es.
      change (with_pos cur (with_src (tl s) (st ctx TString p s))) with (st ctx TString cur (tl s)).
      rewrite E. do 3 eexists. split; [rewrite app_nil_r; reflexivity|].
      intros tl0 H. instantiate (1 := p) in H.
      assert (Hnx : forall t l3, lex_next list_source fuel (st ctx TString p s) = Some (t, l3) ->
                lex_next list_source fuel (with_prepared (Some tk) l) = Some (t, l3)).
      { intros t l3. unfold lex_next. cbn [lx_prepared st with_prepared].
        destruct fuel as [|g]; [lia|]. cbn [emit]. rewrite Es.
        change (with_pos _ (with_src (List.tl s) (st ctx TString p s))) with (st ctx TString cur (List.tl s)).
        rewrite E. intros [= <- <-]. destruct l; cbn in *. subst. reflexivity. }
      inversion H as [|? t l2 ts Hn Hb Hr|? t l2 m ts Hn Hb Hr|? t l2 m0 m ts Hn Hb Hr]; subst; [constructor|eapply lg_cons; eauto|eapply lg_switch; eauto|eapply lg_twice; eauto].
    - cbn [src_next list_source lx_src st list_next].
      set (cur := mkPos (row (lx_pos (st ctx TString p (c :: w ++ s)))) (column (lx_pos (st ctx TString p (c :: w ++ s))) + 1)).
      change (with_pos cur (with_src (w ++ s) (st ctx TString p (c :: w ++ s)))) with (st ctx TString cur (w ++ s)).
      rewrite (Hi [] c w eq_refl cur). cbn [rune_list rev_append].
      destruct (IH f cur start (c :: o)) as (e & l2 & p2 & E & K).
      + intros u c2 v Ev. apply (Hi (c :: u)). rewrite Ev. reflexivity.
      + cbn in Hl. lia.
      + exists e, l2, p2. split; [|exact K]. eapply eq_trans; [exact E|]. cbn [rev]. rewrite <- app_assoc. reflexivity.
  Qed.

  Lemma lex_word ctx b p c w s : inert ctx b c (w ++ s) -> inner ctx w s -> stopper ctx s -> (S (length w) < fuel)%nat ->
    exists tk p2, tok_type tk = TString /\ tok_origin tk = c :: w /\
      forall tl, lgives fuel (st ctx TString p2 s) tl -> lgives fuel (st ctx b p ((c :: w) ++ s)) (tk :: tl).
  Proof.
    intros Hc Hi Hst Hf. destruct fuel as [|f] eqn:Ef; [lia|]. rewrite <- Ef in *.
    set (cur := mkPos (row p) (column p + 1)).
    destruct (emit_run ctx s Hst ltac:(lia) w f cur cur [c] Hi ltac:(lia)) as (e & l2 & p2 & E & K).
    exists (mkTok TString cur e ([c] ++ w) 0), p2. split; [reflexivity|]. split; [reflexivity|].
    intros tl H. eapply lg_cons; [|reflexivity|apply K, H]. unfold lex_next. cbn [lx_prepared st]. rewrite Ef. cbn [emit app].
    cbn [src_next list_source lx_src st list_next].
    change (with_pos _ (with_src (w ++ s) _)) with (st ctx b cur (w ++ s)). rewrite (Hc cur).
    change (with_behind TString (st ctx b cur (w ++ s))) with (st ctx TString cur (w ++ s)). cbn [rune_list]. exact E.
  Qed.

  Lemma lex_one ctx b p c s ty ctx2 o :
    (forall p, exists e p2, match_special list_source (st ctx b p s) (Some c) = (Some (mkTok ty p e o 0), st ctx2 b p2 s)) ->
    (0 < fuel)%nat ->
    exists tk p2, tok_type tk = ty /\ tok_origin tk = o /\
      forall tl, lgives fuel (st ctx2 ty p2 s) tl -> lgives fuel (st ctx b p (c :: s)) (tk :: tl).
  Proof.
    intros H Hf. set (cur := mkPos (row p) (column p + 1)). destruct (H cur) as (e & p2 & E).
    exists (mkTok ty cur e o 0), p2. split; [reflexivity|]. split; [reflexivity|]. intros tl Hl.
    eapply lg_cons; [|exact (special_real _ _ _ _ _ E)|exact Hl]. unfold lex_next. cbn [lx_prepared st]. destruct fuel; [lia|]. cbn [emit].
    cbn [src_next list_source lx_src st list_next].
    change (with_pos _ (with_src s _)) with (st ctx b cur s). rewrite E. reflexivity.
  Qed.

  Lemma lex_eof ctx b p : ctx = [] \/ ctx = [CComment] -> (0 < fuel)%nat -> exists e1 e2, tok_type e1 = TEOF /\ tok_type e2 = TEOF /\ tok_origin e1 = [] /\ tok_origin e2 = [] /\
    lgives fuel (st ctx b p []) [e1; e2].
  Proof.
    intros Hc Hf. destruct fuel as [|f] eqn:E; [lia|].
    destruct Hc as [-> | ->]; do 2 eexists;
      (split; [|split; [|split; [|split; [|eapply lg_cons; [reflexivity|reflexivity|eapply lg_cons; [reflexivity|reflexivity|constructor]]]]]]; reflexivity).
  Qed.
End Lex.

(** ** which characters are part of words *)
Lemma base_none (l : lex text) c : ~ In c [9; 10; 13; 32; 65279] -> base_matching list_source l (Some c) = (None, l).
Proof.
  intro H. cbn in H. unfold base_matching, ch_bom, ch_cr, ch_lf, ch_space, ch_tab.
  repeat match goal with |- context[?x =? ?y] => destruct (N.eqb_spec x y); [exfalso; intuition congruence|] end.
  reflexivity.
Qed.

Ltac reading := unfold match_special, block_matching, flow_matching, single_quote_matching, double_quote_matching,
    ch_seq_entry, ch_map_key, ch_map_value, ch_seq_start, ch_map_start, ch_comment, ch_anchor, ch_alias, ch_tag, ch_literal,
    ch_folded, ch_seq_end, ch_map_end, ch_collect, ch_squote, ch_dquote, ch_directive, ch_dot, ch_escape, ch_space;
  cbn [lx_raw lx_ctx lx_escaped st current_type].
Ltac charcase H := match goal with |- context[?x =? ?y] => destruct (N.eqb_spec x y); [subst x; try solve [exfalso; apply H; cbn; tauto]|] end.

Lemma inert_inside c s : plain_char c -> (c = 58 -> blank_or_eof (list_look 1 s) = false) -> inert [] TString c s.
Proof.
  intros Hc H p. unfold plain_char in Hc. reading. rewrite ?lookahead_list. cbn [lx_src st].
  unfold lookbehind. cbn [lx_behind st may_precede_word_t].
  repeat charcase Hc; rewrite ?lookahead_list; cbn [lx_src st]; rewrite ?andb_false_r;
    rewrite ?(H eq_refl); apply base_none; try (cbn; intuition congruence).
  intro K. apply Hc. cbn in K |- *. tauto.
Qed.

Lemma inert_first b c s : plain_char c -> ~ In c [35; 38; 42; 124; 62] ->
  (c = 58 \/ c = 63 -> blank_or_eof (list_look 1 s) = false) ->
  (c = 45 -> blank_or_eof (list_look 1 s) = false /\ two_then_blank 45 (list_look 3 s) = false) ->
  (c = 46 -> two_then_blank 46 (list_look 3 s) = false) -> inert [] b c s.
Proof.
  intros Hc Hn H1 H2 H3 p. unfold plain_char in Hc. reading.
  repeat (charcase Hc; try solve [exfalso; apply Hn; cbn; tauto]); rewrite ?lookahead_list; cbn [lx_src st];
    try rewrite (H1 (or_introl eq_refl)); try rewrite (H1 (or_intror eq_refl)); try (destruct (H2 eq_refl) as [-> E]; cbn [andb]; rewrite ?lookahead_list; cbn [lx_src st]; rewrite E);
    try rewrite (H3 eq_refl); cbn [andb]; apply base_none; try (cbn; intuition congruence).
  intro K. apply Hc. cbn in K |- *. tauto.
Qed.

(** where plain words end *)
Definition ended (s : text) : Prop :=
  match s with [] => True | c :: r => c = 32 \/ c = 10 \/ c = 13 \/ (c = 58 /\ blank_or_eof (list_look 1 r) = true) end.

Lemma ended_stopper s : ended s -> stopper [] s.
Proof.
  intros H p. destruct s as [|c s]; [|cbn [ended] in H; destruct H as [->|[->|[->|[-> H]]]]]; cbn [tl list_next fst]; try (do 2 eexists; split; reflexivity).
  - destruct s as [|x s]; [do 2 eexists; split; reflexivity|]. reading. cbn [N.eqb Pos.eqb]. unfold base_matching, lookahead. cbn. destruct (x =? ch_lf); do 2 eexists; split; reflexivity.
  - reading. cbn [N.eqb Pos.eqb]. rewrite lookahead_list. cbn [lx_src st]. rewrite H. do 2 eexists; split; reflexivity.
Qed.

Lemma not_blank c : plain_char c -> is_blank_char c = false.
Proof.
  intro H. unfold is_blank_char, is_whitespace_char, is_linebreak_char, ch_space, ch_tab, ch_lf, ch_cr.
  repeat match goal with |- context[?x =? ?y] => destruct (N.eqb_spec x y); [subst x; exfalso; apply H; cbn; tauto|] end.
  reflexivity.
Qed.

Lemma word_inner c w s : plain_word (c :: w) -> ended s -> inner [] w s.
Proof.
  intros (_ & Hc & _ & Hl & _) Hs u d v E. subst w. inversion Hc as [|? ? _ Hw]; subst.
  apply Forall_app in Hw. destruct Hw as [_ Hw]. inversion Hw as [|? ? Hd Hv]; subst. apply inert_inside; [exact Hd|].
  intros ->. destruct v as [|x v].
  - exfalso. apply Hl. change (c :: u ++ [58]) with ((c :: u) ++ [58]). apply last_last.
  - inversion Hv; subst. cbn. apply not_blank. assumption.
Qed.

Lemma two_no k c w s : plain_char k -> plain_word (c :: w) -> ended s -> c = k -> k <> 58 -> ~ In (c :: w) [[k; k; k]] ->
  two_then_blank k (list_look 3 (w ++ s)) = false.
Proof.
  intros Hk (_ & Hc & _) Hs -> Hk2 Hn. inversion Hc as [|? ? _ Hw]; subst.
  assert (Z : forall s, ended s -> k =? 58 = false /\ match fst (list_next s) with Some x => x <> k | None => True end).
  { intros s0 H0. split; [apply N.eqb_neq, Hk2|]. destruct s0 as [|x s0]; [exact I|]. cbn in H0 |- *.
    intros ->. unfold plain_char in Hk. cbn in Hk. intuition congruence. }
  destruct (Z s Hs) as [_ Hh].
  destruct w as [|x w]; cbn [app].
  - destruct s as [|y s]; [reflexivity|]. cbn in Hh. cbn. destruct s as [|z s]; [reflexivity|]. cbn.
    destruct (N.eqb_spec y z); [|reflexivity]. subst. destruct (N.eqb_spec z k); [congruence|reflexivity].
  - inversion Hw as [|? ? _ Hw2]; subst. destruct w as [|y w]; cbn [app].
    + destruct s as [|y s]; [reflexivity|]. cbn in Hh. cbn. destruct (N.eqb_spec y k); [congruence|]. rewrite andb_false_r. reflexivity.
    + inversion Hw2 as [|? ? _ Hw3]; subst. cbn. destruct (N.eqb_spec x y); [|reflexivity]. destruct (N.eqb_spec y k); [|reflexivity]. subst x y.
      destruct w as [|z w].
      * exfalso. apply Hn. left. reflexivity.
      * cbn. inversion Hw3; subst. apply not_blank. assumption.
Qed.

Lemma word_first b c w s : plain_word (c :: w) -> ended s -> inert [] b c (w ++ s).
Proof.
  intros H Hs. pose proof H as (_ & Hc & Hf & Hl & Hn). inversion Hc as [|? ? Hd Hw]; subst. cbn [hd] in Hf.
  assert (B : (w = [] -> c <> 58 /\ c <> 63 /\ c <> 45) -> c = 58 \/ c = 63 \/ c = 45 -> blank_or_eof (list_look 1 (w ++ s)) = false).
  { intros K E. destruct w as [|x w]; [destruct (K eq_refl) as (? & ? & ?); intuition congruence|]. inversion Hw; subst. cbn. apply not_blank. assumption. }
  assert (K : w = [] -> c <> 58 /\ c <> 63 /\ c <> 45).
  { intros ->. split; [intros ->; apply Hl; reflexivity|]. split; intros ->; apply Hn; cbn; tauto. }
  apply inert_first; auto.
  - intros [E|E]; apply B; auto.
  - intros ->. split; [apply B; auto|]. eapply two_no; eauto; try congruence. intros [E|[]]. apply Hn. rewrite <- E. cbn. tauto.
  - intros ->. eapply two_no; eauto; try congruence. intros [E|[]]. apply Hn. rewrite <- E. cbn. tauto.
Qed.

(** ** words inside brackets *)
Lemma not_flow c : plain_char c -> is_flow_indicator c = false.
Proof.
  intro H. unfold is_flow_indicator, ch_collect, ch_seq_start, ch_seq_end, ch_map_start, ch_map_end.
  repeat match goal with |- context[?x =? ?y] => destruct (N.eqb_spec x y); [subst x; exfalso; apply H; cbn; tauto|] end.
  reflexivity.
Qed.
Lemma flow_inside ctx c s : plain_char c -> (c = 58 -> blank_flow_or_eof (list_look 1 s) = false) -> inert (CFlow :: ctx) TString c s.
Proof.
  intros Hc H p. unfold plain_char in Hc. reading. rewrite ?lookahead_list. cbn [lx_src st].
  unfold lookbehind. cbn [lx_behind st may_precede_word_t may_precede_word_in_flow closing_flow_t ttype_eqb opening_flow_t orb].
  repeat charcase Hc; rewrite ?lookahead_list; cbn [lx_src st]; rewrite ?andb_false_r;
    rewrite ?(H eq_refl); cbn [orb]; try reflexivity; apply base_none; try (cbn; intuition congruence).
  intro K. apply Hc. cbn in K |- *. tauto.
Qed.
Lemma flow_first ctx b c s : plain_char c -> ~ In c [38; 42; 58] -> (c = 63 -> blank_or_eof (list_look 1 s) = false) ->
  inert (CFlow :: ctx) b c s.
Proof.
  intros Hc Hn H1 p. unfold plain_char in Hc. reading.
  repeat (charcase Hc; try solve [exfalso; apply Hn; cbn; tauto]); rewrite ?lookahead_list; cbn [lx_src st];
    try rewrite (H1 eq_refl); cbn [andb]; apply base_none; try (cbn; intuition congruence).
  intro K. apply Hc. cbn in K |- *. tauto.
Qed.
(** where words inside brackets end *)
Definition fended (s : text) : Prop :=
  match s with [] => False | c :: r => In c [32; 10; 13; 44; 93; 125] \/ (c = 58 /\ blank_flow_or_eof (list_look 1 r) = true) end.
Lemma fended_stopper ctx s : fended s -> stopper (CFlow :: ctx) s.
Proof.
  intros H p. destruct s as [|c s]; [destruct H|]. cbn [fended] in H. cbn [tl list_next fst].
  destruct H as [[<-|[<-|[<-|[<-|[<-|[<-|[]]]]]]]|[-> H]]; try (do 2 eexists; split; reflexivity).
  { destruct s as [|x s]; [do 2 eexists; split; reflexivity|]. reading. cbn [N.eqb Pos.eqb]. unfold base_matching, lookahead. cbn. destruct (x =? ch_lf); do 2 eexists; split; reflexivity. }
  reading. cbn [N.eqb Pos.eqb]. rewrite lookahead_list. cbn [lx_src st]. rewrite H. do 2 eexists; split; reflexivity.
Qed.
Lemma fword_inner ctx c w s : plain_word (c :: w) -> fended s -> inner (CFlow :: ctx) w s.
Proof.
  intros (_ & Hc & _ & Hl & _) Hs u d v E. subst w. inversion Hc as [|? ? _ Hw]; subst.
  apply Forall_app in Hw. destruct Hw as [_ Hw]. inversion Hw as [|? ? Hd Hv]; subst. apply flow_inside; [exact Hd|].
  intros ->. destruct v as [|x v].
  - exfalso. apply Hl. change (c :: u ++ [58]) with ((c :: u) ++ [58]). apply last_last.
  - inversion Hv; subst. cbn. rewrite not_blank, not_flow by assumption. reflexivity.
Qed.
Lemma fword_first ctx b c w s : plain_word (c :: w) -> c <> 58 -> inert (CFlow :: ctx) b c (w ++ s).
Proof.
  intros (_ & Hc & Hf & Hl & Hn) H58. inversion Hc as [|? ? Hd Hw]; subst. cbn [hd] in Hf. apply flow_first; [exact Hd| |].
  - cbn in Hf |- *. intuition congruence.
  - intros ->. destruct w as [|x w]; [exfalso; apply Hn; cbn; tauto|]. inversion Hw; subst. cbn. apply not_blank. assumption.
Qed.
(** a word inside brackets after another token than a comma, a closing bracket or a quote *)
Lemma fword_later ctx b c w s : plain_word (c :: w) -> closing_flow_t b || ttype_eqb b TDoubleQuote || ttype_eqb b TSingleQuote = false -> inert (CFlow :: ctx) b c (w ++ s).
Proof.
  intros H Hb. destruct (N.eq_dec c 58) as [->|N]; [|apply fword_first; assumption].
  intro p. destruct H as (_ & Hc & _ & Hl & _). reading. cbn [N.eqb Pos.eqb]. rewrite lookahead_list. cbn [lx_src st].
  destruct w as [|x w]; [exfalso; apply Hl; reflexivity|]. inversion Hc as [|? ? _ Hw]; subst. inversion Hw; subst.
  cbn [list_look list_next app blank_flow_or_eof].
  rewrite not_blank, not_flow by assumption. unfold lookbehind. cbn [lx_behind st orb]. rewrite Hb. apply base_none. cbn. intuition congruence.
Qed.

(** ** quoted text *)
Definition quote_ctx (q : rune) : ctx_type := if q =? 39 then CSingle else CDouble.
Definition quote_tok (q : rune) : ttype := if q =? 39 then TSingleQuote else TDoubleQuote.
Definition quoted_char (q : rune) (c : rune) : Prop := c <> q /\ ~ In c [10; 13; 65279] /\ (q = 34 -> c <> 92).

Lemma quoted_inert q ctx b c s : q = 39 \/ q = 34 -> quoted_char q c -> c <> 32 -> c <> 9 -> inert (quote_ctx q :: ctx) b c s.
Proof.
  intros Hq (Hc & Hn & He) H1 H2 p. reading. cbn in Hn.
  assert (B : base_matching list_source (st (quote_ctx q :: ctx) b p s) (Some c) = (None, st (quote_ctx q :: ctx) b p s)).
  { apply base_none. cbn. intuition congruence. }
  destruct Hq as [-> | ->]; cbn [quote_ctx N.eqb Pos.eqb] in *.
  - destruct (N.eqb_spec c 39); [congruence|]. exact B.
  - destruct (N.eqb_spec c 92); [destruct (He eq_refl); assumption|]. rewrite andb_false_r. destruct (N.eqb_spec c 34); [congruence|]. exact B.
Qed.
Lemma quoted_stopper q ctx c s : q = 39 \/ q = 34 -> c = 32 \/ c = 9 \/ (c = q /\ hd 0 s <> 39) -> stopper (quote_ctx q :: ctx) (c :: s).
Proof.
  intros Hq Hc p. cbn [tl list_next fst].
  destruct Hq as [-> | ->]; cbn [quote_ctx N.eqb Pos.eqb]; destruct Hc as [->|[->|[-> Hs]]]; try (do 2 eexists; split; reflexivity).
  reading. cbn [N.eqb Pos.eqb]. rewrite lookahead_list. cbn [lx_src st].
  assert (E : match list_look 1 s with Some x :: _ => negb (x =? 39) | _ => true end = true).
  { destruct s as [|x s]; [reflexivity|]. cbn in *. apply negb_true_iff, N.eqb_neq, Hs. }
  rewrite E. do 2 eexists; split; reflexivity.
Qed.
