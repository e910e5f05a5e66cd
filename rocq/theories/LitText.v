(** The tokens of literal block scalars. *)
From Coq Require Import String.
From Verif Require Import Base YamlChar YamlCharSpec YamlCharProofs Token Ast CPAccessor Lexer LexerProofs Parser ParserTape
  RoundTripSpec TapeRules BlockParse1 BlockParse2 BlockParse3 BlockParse4 LitParse FlowParse1 FlowParse2 FoldParse FlowParse4 LexText BlockText FoldText GapText TextSpec.
Local Open Scope N_scope.

(** the tokenizer in the raw mode *)
Definition rst (ctx : list ctx_type) (b : ttype) (p : position) (s : text) : lex text := mkLex s ctx false true p b None.
(** the contexts that end with the line *)
Definition soft (ctx : list ctx_type) : Prop := line_break_revert ctx = [].
Lemma soft_blank ctx : soft ctx -> soft (whitespace_revert ctx).
Proof. unfold soft. induction ctx as [|[] ctx IH]; cbn; auto. Qed.

(** ** characters of the first word of a line *)
Definition wordy (c : rune) : Prop := ~ In c [9; 10; 13; 32; 33; 34; 37; 39; 65279].
Lemma wordy_inside c s : wordy c -> (c = 58 -> blank_or_eof (list_look 1 s) = false) -> inert [] TString c s.
Proof.
  intros Hc H p. unfold wordy in Hc. reading. rewrite ?lookahead_list. cbn [lx_src st].
  unfold lookbehind. cbn [lx_behind st may_precede_word_t].
  repeat charcase Hc; rewrite ?lookahead_list; cbn [lx_src st]; rewrite ?andb_false_r;
    rewrite ?(H eq_refl); apply base_none; try (cbn; intuition congruence).
  intro K. apply Hc. cbn in K |- *. tauto.
Qed.
Lemma wordy_first b c s : wordy c -> ~ In c [35; 38; 42; 124; 62; 91; 123] ->
  (c = 58 \/ c = 63 -> blank_or_eof (list_look 1 s) = false) ->
  (c = 45 -> blank_or_eof (list_look 1 s) = false /\ two_then_blank 45 (list_look 3 s) = false) ->
  (c = 46 -> two_then_blank 46 (list_look 3 s) = false) -> inert [] b c s.
Proof.
  intros Hc Hn H1 H2 H3 p. unfold wordy in Hc. reading.
  repeat (charcase Hc; try solve [exfalso; apply Hn; cbn; tauto]); rewrite ?lookahead_list; cbn [lx_src st];
    try rewrite (H1 (or_introl eq_refl)); try rewrite (H1 (or_intror eq_refl)); try (destruct (H2 eq_refl) as [-> E]; cbn [andb]; rewrite ?lookahead_list; cbn [lx_src st]; rewrite E);
    try rewrite (H3 eq_refl); cbn [andb]; apply base_none; try (cbn; intuition congruence).
  intro K. apply Hc. cbn in K |- *. tauto.
Qed.
Definition gapless (c : rune) : Prop := ~ In c [9; 10; 13; 32].
Lemma gapless_blank c : gapless c -> is_blank_char c = false.
Proof.
  intro H. unfold is_blank_char, is_whitespace_char, is_linebreak_char, ch_space, ch_tab, ch_lf, ch_cr.
  repeat match goal with |- context[?x =? ?y] => destruct (N.eqb_spec x y); [subst x; exfalso; apply H; cbn; tauto|] end.
  reflexivity.
Qed.
Lemma mark_no k w y r : Forall gapless w -> w <> [k; k] -> y <> k -> two_then_blank k (list_look 3 (w ++ y :: r)) = false.
Proof.
  intros Hw Hn Hy. destruct w as [|x1 [|x2 [|x3 w]]]; cbn [app list_look list_next fst snd two_then_blank].
  - destruct r as [|z r]; [reflexivity|]. cbn. destruct (N.eqb_spec y z); [subst z|reflexivity]. destruct (N.eqb_spec y k); [congruence|reflexivity].
  - destruct (N.eqb_spec x1 y); [subst x1|reflexivity]. destruct (N.eqb_spec y k); [congruence|reflexivity].
  - destruct (N.eqb_spec x1 x2); [subst x1|reflexivity]. destruct (N.eqb_spec x2 k); [subst; congruence|reflexivity].
  - inversion Hw as [|? ? _ H1]; subst. inversion H1 as [|? ? _ H2]; subst. inversion H2; subst. cbn [blank_or_eof].
    rewrite gapless_blank by assumption. apply andb_false_r.
Qed.

(** where the first word stops: at a character that is read for itself *)
Definition stops (u q : text) : Prop :=
  (q = [] /\ last u 0 <> 58) \/ (exists d v, q = d :: v /\ (d = 33 \/ d = 37)) \/ q = [58].
Lemma word_stops (w : text) : Forall (fun c => ~ In c [9; 10; 13; 32; 34; 39; 65279]) w -> exists u q, w = u ++ q /\ stops u q /\ Forall wordy u.
Proof.
  assert (G : Forall (fun c => ~ In c [9; 10; 13; 32; 34; 39; 65279]) w ->
    (Forall wordy w \/ exists u d v, w = u ++ d :: v /\ (d = 33 \/ d = 37) /\ Forall wordy u)).
  { induction 1 as [|c w Hc _ IH]; [left; constructor|].
    destruct (N.eq_dec c 33) as [->|N1]; [right; exists [], 33, w; auto|].
    destruct (N.eq_dec c 37) as [->|N2]; [right; exists [], 37, w; auto|].
    assert (wordy c) by (unfold wordy; cbn in Hc |- *; intuition congruence).
    destruct IH as [IH|(u & d & v & -> & H1 & H2)]; [left; auto|]. right. exists (c :: u), d, v. auto. }
  intro Hw. destruct (G Hw) as [H|(u & d & v & -> & H1 & H2)].
  - destruct (N.eq_dec (last w 0) 58) as [E|E].
    + destruct (@exists_last _ w) as (u & d & ->); [intros ->; discriminate|]. rewrite last_last in E. subst d. exists u, [58]. apply Forall_app in H. destruct H.
      repeat split; auto. unfold stops. auto.
    + exists w, []. rewrite app_nil_r. repeat split; auto. left. auto.
  - exists u, (d :: v). repeat split; auto. right. left. eauto.
Qed.

Section Raw.
  Context (fuel : nat) (some_fuel : (0 < fuel)%nat).

  (** ** one token before the mode changes *)
  Lemma one_raw b p c s ty ctx2 :
    (forall p, match_special list_source (st [] b p s) (Some c) = (Some (mkTok ty p p [c] 0), st ctx2 b p s)) ->
    exists tk p2, tok_type tk = ty /\ tok_origin tk = [c] /\
      forall tl, lgives fuel (rst ctx2 ty p2 s) tl -> lgives fuel (st [] b p (c :: s)) (tk :: bar true :: tl).
  Proof.
    intros H. set (cur := mkPos (row p) (column p + 1)). pose proof (H cur) as E.
    exists (mkTok ty cur cur [c] 0), cur. split; [reflexivity|]. split; [reflexivity|]. intros tl Hl.
    apply (lg_switch fuel _ _ (st ctx2 ty cur s) true); [|exact (special_real _ _ _ _ _ E)|exact Hl]. unfold lex_next. cbn [lx_prepared st]. destruct fuel; [lia|]. cbn [emit].
    cbn [src_next list_source lx_src st list_next].
    change (with_pos _ (with_src s _)) with (st [] b cur s). rewrite E. reflexivity.
  Qed.

  (** a word, and the token read together with it *)
  Lemma run_raw s TK L : (forall cur, match_special list_source (st [] TString cur (tl s)) (fst (list_next s)) = (Some (TK cur), L cur)) ->
    forall w f p start o, inner [] w s -> (length w < f)%nat ->
    exists e cur p2, emit list_source f (Some (start, o)) (st [] TString p (w ++ s)) =
      Some (mkTok TString start e (rev o ++ w) 0, with_prepared (Some (TK cur)) (L cur)) /\ cur = mkPos (row p2) (column p2 + 1).
  Proof.
    intros Hst. induction w as [|c w IH]; intros f p start o Hi Hl; (destruct f as [|f]; [cbn in Hl; lia|]); cbn [app emit].
    - set (cur := mkPos (row (lx_pos (st [] TString p s))) (column (lx_pos (st [] TString p s)) + 1)).
      assert (Es : src_next list_source (lx_src (st [] TString p s)) = (fst (list_next s), tl s))
        by (destruct s; reflexivity).
      rewrite Es.
      change (with_pos cur (with_src (tl s) (st [] TString p s))) with (st [] TString cur (tl s)).
      rewrite Hst. exists (mkPos (row cur) (column cur - 1)), cur, p. split; [rewrite app_nil_r; reflexivity|reflexivity].
    - cbn [src_next list_source lx_src st list_next].
      set (cur := mkPos (row (lx_pos (st [] TString p (c :: w ++ s)))) (column (lx_pos (st [] TString p (c :: w ++ s))) + 1)).
      change (with_pos cur (with_src (w ++ s) (st [] TString p (c :: w ++ s)))) with (st [] TString cur (w ++ s)).
      rewrite (Hi [] c w eq_refl cur). cbn [rune_list rev_append].
      destruct (IH f cur start (c :: o)) as (e & cur2 & p2 & E & K).
      + intros u c2 v Ev. apply (Hi (c :: u)). rewrite Ev. reflexivity.
      + cbn in Hl. lia.
      + exists e, cur2, p2. split; [|exact K]. eapply eq_trans; [exact E|]. cbn [rev]. rewrite <- app_assoc. reflexivity.
  Qed.
  Lemma word_raw_gen b p c w s TK L : inert [] b c (w ++ s) -> inner [] w s -> (S (length w) < fuel)%nat ->
    (forall cur, match_special list_source (st [] TString cur (tl s)) (fst (list_next s)) = (Some (TK cur), L cur)) ->
    exists tk cur p2, tok_type tk = TString /\ tok_origin tk = c :: w /\ cur = mkPos (row p2) (column p2 + 1) /\
      forall tl, lgives fuel (lex_set_raw true (with_prepared (Some (TK cur)) (L cur))) tl -> lgives fuel (st [] b p ((c :: w) ++ s)) (tk :: bar true :: tl).
  Proof.
    intros Hc Hi Hf Hst. destruct fuel as [|f] eqn:Ef; [lia|]. rewrite <- Ef in *.
    set (cur := mkPos (row p) (column p + 1)).
    destruct (run_raw s TK L Hst w f cur cur [c] Hi ltac:(lia)) as (e & cur2 & p2 & E & K).
    exists (mkTok TString cur e ([c] ++ w) 0), cur2, p2. split; [reflexivity|]. split; [reflexivity|]. split; [exact K|].
    intros tl H. eapply lg_switch; [|reflexivity|exact H]. unfold lex_next. cbn [lx_prepared st]. rewrite Ef. cbn [emit app].
    cbn [src_next list_source lx_src st list_next].
    change (with_pos _ (with_src (w ++ s) _)) with (st [] b cur (w ++ s)). rewrite (Hc cur).
    change (with_behind TString (st [] b cur (w ++ s))) with (st [] TString cur (w ++ s)). cbn [rune_list]. exact E.
  Qed.
  (** followed by a space or a line break *)
  Lemma word_raw b p c w y s : inert [] b c (w ++ y :: s) -> inner [] w (y :: s) -> (S (length w) < fuel)%nat -> In y [9; 10; 32] ->
    exists tk p2, tok_type tk = TString /\ tok_origin tk = c :: w /\
      forall tl, lgives fuel (rst [] TString p2 (y :: s)) tl -> lgives fuel (st [] b p ((c :: w) ++ y :: s)) (tk :: bar true :: tl).
  Proof.
    intros Hc Hi Hf Hy.
    destruct (word_raw_gen b p c w (y :: s) (fun cur => mkTok (if y =? 10 then TLineBreak else if y =? 32 then TSpace else TTab) cur cur [y] 0)
      (fun cur => st [] TString (if y =? 10 then mkPos (row cur + 1) 0 else cur) s) Hc Hi Hf) as (tk & cur & p2 & T1 & T2 & Ecur & T3).
    { intro cur. cbn [tl list_next fst]. destruct Hy as [<-|[<-|[<-|[]]]]; reflexivity. }
    exists tk, p2. split; [exact T1|]. split; [exact T2|]. intros tl0 H. apply T3.
    assert (N : forall t l3, lex_next list_source fuel (rst [] TString p2 (y :: s)) = Some (t, l3) ->
      lex_next list_source fuel (lex_set_raw true (with_prepared (Some (mkTok (if y =? 10 then TLineBreak else if y =? 32 then TSpace else TTab) cur cur [y] 0))
        (st [] TString (if y =? 10 then mkPos (row cur + 1) 0 else cur) s))) = Some (t, l3)).
    { intros t l3. subst cur. destruct fuel as [|f]; [lia|]. destruct Hy as [<-|[<-|[<-|[]]]]; exact (fun x => x). }
    inversion H as [|? t l2 ts Hn Hb Hr|? t l2 m ts Hn Hb Hr|? t l2 m0 m ts Hn Hb Hr]; subst tl0;
      [constructor|eapply lg_cons; [apply N; exact Hn|exact Hb|exact Hr]|eapply lg_switch; [apply N; exact Hn|exact Hb|exact Hr]|eapply lg_twice; [apply N; exact Hn|exact Hb|exact Hr]].
  Qed.
  (** followed by a character read for itself *)
  Lemma word_raw_char b p c w y s ty ctx2 : inert [] b c (w ++ y :: s) -> inner [] w (y :: s) -> (S (length w) < fuel)%nat -> ttype_eqb ty TUnknown = false ->
    (forall cur, match_special list_source (st [] TString cur s) (Some y) = (Some (mkTok ty cur cur [y] 0), st ctx2 TString cur s)) ->
    exists tk y2 p2, tok_type tk = TString /\ tok_origin tk = c :: w /\ tok_type y2 = ty /\ tok_origin y2 = [y] /\
      forall tl, lgives fuel (rst ctx2 ty p2 s) tl -> lgives fuel (st [] b p ((c :: w) ++ y :: s)) (tk :: bar true :: y2 :: tl).
  Proof.
    intros Hc Hi Hf Hty Hy.
    destruct (word_raw_gen b p c w (y :: s) (fun cur => mkTok ty cur cur [y] 0)
      (fun cur => st ctx2 TString cur s) Hc Hi Hf Hy) as (tk & cur & p2 & T1 & T2 & Ecur & T3).
    exists tk, (mkTok ty cur cur [y] 0), cur. repeat (split; [assumption || reflexivity|]). intros tl0 H. apply T3.
    eapply lg_cons; [reflexivity| |exact H]. unfold is_bar. cbn. destruct ty; try reflexivity; discriminate.
  Qed.

  (** ** the rest of the line, in the raw mode *)
  Lemma raw_inner c w : Forall comment_char (c :: w) -> Forall (fun c => c <> 32 /\ c <> 9) (c :: w) ->
    forall ctx y s, In y [9; 10; 32] -> soft ctx -> forall b p, (S (length w) < fuel)%nat ->
    exists tk p2, tok_type tk = TString /\ tok_origin tk = c :: w /\
      forall tl, lgives fuel (rst ctx TString p2 (y :: s)) tl -> lgives fuel (rst ctx b p ((c :: w) ++ y :: s)) (tk :: tl).
  Proof.
    intros H1 H2 ctx y s Hy Hsoft b p Hf.
    assert (B : forall b c p r, comment_char c -> c <> 32 /\ c <> 9 -> match_special list_source (rst ctx b p r) (Some c) = (None, rst ctx b p r)).
    { intros b0 c0 p0 r K1 K2. change (match_special list_source (rst ctx b0 p0 r) (Some c0)) with (base_matching list_source (rst ctx b0 p0 r) (Some c0)).
      apply base_none. unfold comment_char in K1. cbn in K1 |- *. intuition congruence. }
    assert (R : forall w f p start o, Forall comment_char w -> Forall (fun c => c <> 32 /\ c <> 9) w -> (length w < f)%nat ->
      exists e l2 p2, emit list_source f (Some (start, o)) (rst ctx TString p (w ++ y :: s)) = Some (mkTok TString start e (rev o ++ w) 0, l2) /\
      forall tl, lgives fuel (rst ctx TString p2 (y :: s)) tl -> lgives fuel l2 tl).
    { clear w H1 H2 Hf. induction w as [|d w IH]; intros f p0 start o K1 K2 Hf; (destruct f as [|f]; [cbn in Hf; lia|]).
      - set (cur := mkPos (row p0) (column p0 + 1)).
        exists (mkPos (row cur) (column cur - 1)),
          (with_prepared (Some (mkTok (if y =? 10 then TLineBreak else if y =? 32 then TSpace else TTab) cur cur [y] 0))
            (rst (if y =? 10 then [] else whitespace_revert ctx) TString (if y =? 10 then mkPos (row cur + 1) 0 else cur) s)), p0.
        split.
        + rewrite app_nil_r. destruct Hy as [<-|[<-|[<-|[]]]]; cbn; rewrite ?Hsoft; reflexivity.
        + intros tl0 H.
          assert (N : forall t l3, lex_next list_source fuel (rst ctx TString p0 (y :: s)) = Some (t, l3) ->
            lex_next list_source fuel (with_prepared (Some (mkTok (if y =? 10 then TLineBreak else if y =? 32 then TSpace else TTab) cur cur [y] 0))
            (rst (if y =? 10 then [] else whitespace_revert ctx) TString (if y =? 10 then mkPos (row cur + 1) 0 else cur) s)) = Some (t, l3)).
          { intros t l3. destruct fuel as [|g]; [lia|]. destruct Hy as [<-|[<-|[<-|[]]]]; cbn; rewrite ?Hsoft; exact (fun x => x). }
          inversion H as [|? t l2 ts Hn Hb Hr|? t l2 m ts Hn Hb Hr|? t l2 m0 m ts Hn Hb Hr]; subst tl0;
      [constructor|eapply lg_cons; [apply N; exact Hn|exact Hb|exact Hr]|eapply lg_switch; [apply N; exact Hn|exact Hb|exact Hr]|eapply lg_twice; [apply N; exact Hn|exact Hb|exact Hr]].
      - inversion K1; inversion K2; subst. cbn [app emit]. cbn [src_next list_source lx_src rst list_next].
        set (cur := mkPos (row p0) (column p0 + 1)).
        change (with_pos _ (with_src (w ++ y :: s) _)) with (rst ctx TString cur (w ++ y :: s)).
        rewrite B by assumption. cbn [rune_list rev_append].
        destruct (IH f cur start (d :: o)) as (e & l2 & p2 & E & K); auto; [cbn in Hf; lia|].
        exists e, l2, p2. split; [|exact K]. eapply eq_trans; [exact E|]. cbn [rev]. rewrite <- app_assoc. reflexivity. }
    inversion H1; inversion H2; subst. destruct fuel as [|f] eqn:Ef; [lia|]. rewrite <- Ef in *.
    set (cur := mkPos (row p) (column p + 1)).
    destruct (R w f cur cur [c]) as (e & l2 & p2 & E & K); auto; [lia|].
    exists (mkTok TString cur e ([c] ++ w) 0), p2. split; [reflexivity|]. split; [reflexivity|].
    intros tl H. eapply lg_cons; [|reflexivity|apply K, H]. unfold lex_next. cbn [lx_prepared rst]. rewrite Ef. cbn [emit app].
    cbn [src_next list_source lx_src rst list_next].
    change (with_pos _ (with_src (w ++ y :: s) _)) with (rst ctx b cur (w ++ y :: s)). rewrite B by assumption.
    change (with_behind TString (rst ctx b cur (w ++ y :: s))) with (rst ctx TString cur (w ++ y :: s)). cbn [rune_list]. exact E.
  Qed.
  Lemma raw_blank ctx c s b p : c = 32 \/ c = 9 -> exists tk p2 b2, rawly tk = true /\ tok_origin tk = [c] /\
    forall tl, lgives fuel (rst (whitespace_revert ctx) b2 p2 s) tl -> lgives fuel (rst ctx b p (c :: s)) (tk :: tl).
  Proof.
    intro Hc. set (cur := mkPos (row p) (column p + 1)). set (ty := if c =? 32 then TSpace else TTab).
    exists (mkTok ty cur cur [c] 0), cur, ty. split; [subst ty; destruct Hc as [-> | ->]; reflexivity|]. split; [reflexivity|].
    intros tl H. eapply lg_cons; [| |exact H]; [|subst ty; destruct Hc as [-> | ->]; reflexivity].
    unfold lex_next. cbn [lx_prepared rst]. destruct fuel; [lia|]. destruct Hc as [-> | ->]; reflexivity.
  Qed.
  Lemma raw_rest (r : text) : forall s, Forall comment_char s -> forall ctx b p, soft ctx -> (length (s ++ 10%N :: r) < fuel)%nat ->
    exists ts ctx2 p2 b2, soft ctx2 /\ Forall (fun t => rawly t = true) ts /\ origins ts = s /\
      forall tl, lgives fuel (rst ctx2 b2 p2 (10 :: r)) tl -> lgives fuel (rst ctx b p (s ++ 10 :: r)) (ts ++ tl).
  Proof.
    intro s. remember (length s) as n eqn:En. revert s En.
    induction n as [n IH] using lt_wf_ind. intros s En Hs ctx b p Hc Hf.
    destruct s as [|c s]; [exists [], ctx, p, b; repeat split; auto; constructor|].
    inversion Hs as [|? ? Hc1 Hs1]; subst. cbn [length app] in *.
    assert (W : (c = 32 \/ c = 9) \/ (c <> 32 /\ c <> 9)) by lia. destruct W as [W|W].
    - destruct (raw_blank ctx c (s ++ 10 :: r) b p W) as (tk & p1 & b1 & T1 & T2 & T3).
      destruct (IH (length s) ltac:(lia) s eq_refl Hs1 (whitespace_revert ctx) b1 p1 (soft_blank _ Hc) ltac:(lia)) as (ts & ctx2 & p2 & b2 & K1 & K2 & K3 & K4).
      exists (tk :: ts), ctx2, p2, b2. split; [exact K1|]. split; [auto|]. split; [unfold origins in *; cbn; rewrite T2, K3; reflexivity|].
      intros tl H. cbn [app]. apply T3, K4, H.
    - destruct (split_word s) as (w & s2 & -> & Hw1 & Hw2). apply Forall_app in Hs1. destruct Hs1 as [Hs1 Hs2].
      assert (Y : exists y q, s2 ++ 10 :: r = y :: q /\ In y [9; 10; 32]).
      { destruct s2 as [|y s2]; cbn [app]; [exists 10, r|exists y, (s2 ++ 10 :: r)]; (split; [reflexivity|]); cbn; intuition. }
      destruct Y as (y & q & Ey & Hy). rewrite !app_length in Hf. cbn [length] in Hf.
      destruct (raw_inner c w) with (ctx := ctx) (y := y) (s := q) (b := b) (p := p) as (tk & p1 & T1 & T2 & T3); auto; [lia|].
      destruct (IH (length s2)) with (s := s2) (ctx := ctx) (b := TString) (p := p1) as (ts & ctx2 & p2 & b2 & K1 & K2 & K3 & K4); auto.
      { rewrite app_length. lia. }
      { rewrite app_length. cbn [length]. lia. }
      exists (tk :: ts), ctx2, p2, b2. split; [exact K1|]. split; [constructor; [unfold rawly; rewrite T1; reflexivity|exact K2]|].
      split; [unfold origins in *; cbn; rewrite T2, K3; reflexivity|].
      intros tl H. cbn [app]. rewrite <- app_assoc, Ey. apply (T3 (ts ++ tl)). specialize (K4 tl H). unfold text, rune in *. rewrite Ey in K4. exact K4.
  Qed.
  Lemma raw_break ctx b p r : soft ctx -> exists nl p2, tok_type nl = TLineBreak /\ tok_origin nl = [10] /\
    forall tl, lgives fuel (st [] TLineBreak p2 r) tl -> lgives fuel (rst ctx b p (10 :: r)) (nl :: bar false :: tl).
  Proof.
    intro Hc. set (cur := mkPos (row p) (column p + 1)). exists (mkTok TLineBreak cur cur [10] 0), (mkPos (row cur + 1) 0).
    split; [reflexivity|]. split; [reflexivity|]. intros tl H. apply (lg_switch fuel _ _ (rst [] TLineBreak (mkPos (row cur + 1) 0) r) false); [| |exact H]; [|reflexivity].
    unfold lex_next. cbn [lx_prepared rst]. destruct fuel; [lia|]. cbn. rewrite Hc. reflexivity.
  Qed.

  (** ** the first token of a line *)
  Definition lead (x : token) : Prop := is_non_break x = true /\ calm x = true /\ quiet x = true.
  Definition opens_line (b : ttype) (p : position) (s r : text) : Prop :=
    exists x ts s2 ctx p2 b2, lead x /\ is_white_space x = false /\ Forall (fun t => rawly t = true) ts /\ tok_origin x ++ origins ts ++ s2 = s /\ soft ctx /\
      forall tl, lgives fuel (rst ctx b2 p2 (s2 ++ r)) tl -> lgives fuel (st [] b p (s ++ r)) (x :: bar true :: ts ++ tl).

  Lemma opens_char b p c s r ty ctx : (forall p, match_special list_source (st [] b p (s ++ r)) (Some c) = (Some (mkTok ty p p [c] 0), st ctx b p (s ++ r))) ->
    soft ctx -> lead (mkTok ty p p [c] 0) -> is_white_space (mkTok ty p p [c] 0) = false -> opens_line b p (c :: s) r.
  Proof.
    intros H Hc Hl Hw. destruct (one_raw b p c (s ++ r) ty ctx H) as (tk & p2 & T1 & T2 & T3).
    exists tk, [], s, ctx, p2, ty. split; [unfold lead, is_non_break, calm, quiet in *; rewrite T1; exact Hl|].
    split; [unfold is_white_space in *; rewrite T1; exact Hw|]. split; [constructor|]. split; [rewrite T2; reflexivity|]. split; [exact Hc|].
    intros tl H2. cbn [app]. apply T3, H2.
  Qed.
  Lemma next_blank (s r : text) y : s = [] \/ blank (hd 0 s) -> In y [9; 10; 32] -> exists z q, s ++ y :: r = z :: q /\ In z [9; 10; 32].
  Proof.
    intros [-> |H] Hy; [exists y, r; auto|]. destruct s as [|z s]; [exists y, r; auto|]. exists z, (s ++ y :: r). split; [reflexivity|].
    cbn in H |- *. unfold blank in H. intuition.
  Qed.
  Lemma blank_ahead z q : In z [9; 10; 32] -> blank_or_eof (list_look 1 (z :: q)) = true.
  Proof. intros [<-|[<-|[<-|[]]]]; reflexivity. Qed.
  Lemma word_lead tk : tok_type tk = TString -> lead tk /\ is_white_space tk = false.
  Proof. intro H. unfold lead, is_non_break, calm, quiet, is_white_space. rewrite H. auto. Qed.

  Lemma line_opens b p w s r : BlockText.starts b -> Forall comment_char (w ++ s) -> w <> [] -> Forall (fun c => ~ In c [9; 32; 34; 39]) w ->
    ~ In (hd 0 w) [91; 123] -> ~ In w [[45; 45; 45]; [46; 46; 46]] -> s = [] \/ blank (hd 0 s) -> (length (w ++ s) < fuel)%nat ->
    opens_line b p (w ++ s) (10 :: r).
  Proof.
    intros Hb Hc Hw Hq Hh Hm Hs Hf.
    assert (Hall : Forall (fun c => ~ In c [9; 10; 13; 32; 34; 39; 65279]) w).
    { apply Forall_app in Hc. destruct Hc as [Hc _]. rewrite Forall_forall in *. intros x Hx. specialize (Hc x Hx). specialize (Hq x Hx).
      unfold comment_char in Hc. cbn in Hc, Hq |- *. intuition congruence. }
    assert (Hgap : Forall gapless w).
    { eapply Forall_impl; [|exact Hall]. unfold gapless. cbn. intuition. }
    destruct (next_blank s r 10 Hs) as (z & q & Ez & Hz); [cbn; auto|].
    destruct (word_stops w Hall) as (u & v & -> & Hst & Hu).
    destruct u as [|c u].
    - (* a character read for itself comes first *)
      cbn [app] in *. destruct Hst as [[-> _]|[(d & v2 & -> & Hd)| ->]]; [congruence| |].
      + cbn [app]. destruct Hd as [-> | ->]; [apply (opens_char b p 33 (v2 ++ s) (10 :: r) TTag [CTag])|apply (opens_char b p 37 (v2 ++ s) (10 :: r) TDirective [])];
          repeat split; reflexivity.
      + apply (opens_char b p 58 s (10 :: r) TMappingValue []); [|repeat split; reflexivity|repeat split; reflexivity|reflexivity].
        intro p0. reading. cbn [N.eqb Pos.eqb]. rewrite lookahead_list. cbn [lx_src st]. unfold text, rune in *. rewrite Ez, blank_ahead by assumption. reflexivity.
    - cbn [app hd] in *.
      assert (B : forall p1, may_precede_word_t (lx_behind (st [] b p1 ([] : text))) = true) by (intro; exact Hb).
      destruct (in_dec N.eq_dec c [35; 38; 42; 124; 62]) as [Hin|Hin].
      { apply (opens_char b p c ((u ++ v) ++ s) (10 :: r)
          (if c =? 35 then TComment else if c =? 38 then TAnchor else if c =? 42 then TAlias else if c =? 124 then TLiteral else TFolded)
          (if c =? 35 then [CComment] else if c =? 38 then [] else if c =? 42 then [] else [CMultiline])).
        - intro p0. destruct Hin as [<-|[<-|[<-|[<-|[<-|[]]]]]]; reading; cbn [N.eqb Pos.eqb]; unfold lookbehind; cbn [lx_behind st]; rewrite Hb; reflexivity.
        - destruct Hin as [<-|[<-|[<-|[<-|[<-|[]]]]]]; reflexivity.
        - destruct Hin as [<-|[<-|[<-|[<-|[<-|[]]]]]]; repeat split; reflexivity.
        - destruct Hin as [<-|[<-|[<-|[<-|[<-|[]]]]]]; reflexivity. }
      destruct (in_dec (list_eq_dec N.eq_dec) (c :: u ++ v) [[45]; [63]]) as [Hin2|Hin2].
      { assert (E : u ++ v = []) by (destruct Hin2 as [E|[E|[]]]; injection E; auto). rewrite E in *. cbn [app] in *.
        apply (opens_char b p c s (10 :: r) (if c =? 45 then TSequenceEntry else TMappingKey) []).
        - intro p0. destruct Hin2 as [E2|[E2|[]]]; injection E2 as <-; reading; cbn [N.eqb Pos.eqb]; rewrite lookahead_list; cbn [lx_src st]; unfold text, rune in *;
            rewrite Ez, blank_ahead by assumption; unfold lookbehind; cbn [lx_behind st]; rewrite Hb; reflexivity.
        - reflexivity.
        - destruct Hin2 as [E2|[E2|[]]]; injection E2 as <-; repeat split; reflexivity.
        - destruct Hin2 as [E2|[E2|[]]]; injection E2 as <-; reflexivity. }
      (* a word *)
      assert (T : exists y q2, v ++ s ++ 10 :: r = y :: q2 /\ (v = [] -> In y [9; 10; 32]) /\ (v <> [] -> gapless y)).
      { destruct v as [|y v]; [exists z, q; repeat split; auto; congruence|]. exists y, (v ++ s ++ 10 :: r). repeat split; [discriminate|].
        intros _. inversion Hgap as [|? ? _ Hg]; subst. apply Forall_app in Hg. destruct Hg as [_ Hg]. inversion Hg; auto. }
      destruct T as (y & q2 & Ey & Ty1 & Ty2).
      inversion Hu as [|? ? Hc0 Hu0]; subst.
      assert (I1 : inert [] b c (u ++ y :: q2)).
      { apply wordy_first; [exact Hc0|cbn in Hin, Hh |- *; intuition| | |].
        - intro E. destruct u as [|x u]; cbn [app].
          + cbn. apply gapless_blank, Ty2. intros ->. destruct E as [-> | ->]; [destruct Hst as [[_ Hl]|[(? & ? & K & _)|K]]; [apply Hl; reflexivity|discriminate|discriminate]|].
            apply Hin2. cbn. auto.
          + cbn. inversion Hgap as [|? ? _ Hg]; subst. inversion Hg; subst. apply gapless_blank. assumption.
        - intros ->. split.
          + destruct u as [|x u]; cbn [app].
            * cbn. apply gapless_blank, Ty2. intros ->. apply Hin2. cbn. auto.
            * cbn. inversion Hgap as [|? ? _ Hg]; subst. inversion Hg; subst. apply gapless_blank. assumption.
          + rewrite <- Ey, Ez, app_assoc. apply mark_no; [inversion Hgap; assumption| |].
            * intro E. apply Hm. rewrite E. cbn. auto.
            * intros ->. cbn in Hz. intuition discriminate.
        - intros ->. rewrite <- Ey, Ez, app_assoc. apply mark_no; [inversion Hgap; assumption| |].
          + intro E. apply Hm. rewrite E. cbn. auto.
          + intros ->. cbn in Hz. intuition discriminate. }
      assert (I2 : inner [] u (y :: q2)).
      { intros u1 d v1 ->. apply Forall_app in Hu0. destruct Hu0 as [_ Hu0]. inversion Hu0 as [|? ? Hd Hv1]; subst. apply wordy_inside; [exact Hd|].
        intros ->. destruct v1 as [|x v1]; cbn [app].
        - cbn. apply gapless_blank, Ty2. intros ->. destruct Hst as [[_ Hl]|[(? & ? & K & _)|K]]; [|discriminate|discriminate]. apply Hl. rewrite app_comm_cons. apply last_last.
        - cbn. inversion Hv1 as [|? ? Hx _]; subst. apply gapless_blank. unfold wordy, gapless in *. cbn in *. intuition. }
      cbn [length] in Hf. rewrite !app_length in Hf.
      destruct Hst as [[-> Hl]|[(d & v2 & -> & Hd)| ->]]; cbn [app length] in *.
      + destruct (word_raw b p c u y q2) as (tk & p2 & T1 & T2 & T3); auto; [lia|]. destruct (word_lead tk T1) as [W1 W2].
        exists tk, [], s, [], p2, TString. repeat (split; [assumption || constructor|]). split; [rewrite T2, app_nil_r; reflexivity|]. split; [reflexivity|].
        intros tl H. cbn [app]. rewrite app_nil_r, <- app_assoc. unfold text, rune in *. rewrite Ey in *. apply (T3 tl H).
      + injection Ey as -> <-.
        destruct (word_raw_char b p c u y (v2 ++ s ++ 10 :: r) (if y =? 33 then TTag else TDirective) (if y =? 33 then [CTag] else [])) as (tk & y2 & p2 & T1 & T2 & T3 & T4 & T5); auto.
        { lia. }
        { destruct Hd as [-> | ->]; reflexivity. }
        { intro cur. destruct Hd as [-> | ->]; reflexivity. }
        destruct (word_lead tk T1) as [W1 W2].
        exists tk, [y2], (v2 ++ s), (if y =? 33 then [CTag] else []), p2, (if y =? 33 then TTag else TDirective). repeat (split; [assumption|]).
        split; [constructor; [unfold rawly; rewrite T3; destruct Hd as [-> | ->]; reflexivity|constructor]|].
        split; [unfold origins; cbn; rewrite T2, T4; cbn; rewrite <- !app_assoc; reflexivity|]. split; [destruct Hd as [-> | ->]; reflexivity|].
        intros tl H. cbn [app] in *. rewrite <- !app_assoc in *. apply T5, H.
      + injection Ey as <- <-.
        destruct (word_raw_char b p c u 58 (s ++ 10 :: r) TMappingValue []) as (tk & y2 & p2 & T1 & T2 & T3 & T4 & T5); auto.
        { lia. }
        { intro cur. reading. cbn [N.eqb Pos.eqb]. rewrite lookahead_list. cbn [lx_src st]. unfold text, rune in *. rewrite Ez, blank_ahead by assumption. reflexivity. }
        destruct (word_lead tk T1) as [W1 W2].
        exists tk, [y2], s, [], p2, TMappingValue. repeat (split; [assumption|]).
        split; [constructor; [unfold rawly; rewrite T3; reflexivity|constructor]|].
        split; [unfold origins; cbn; rewrite T2, T4; cbn; rewrite <- !app_assoc; reflexivity|]. split; [reflexivity|].
        intros tl H. cbn [app] in *. rewrite <- !app_assoc in *. apply T5, H.
  Qed.

  (** ** lines *)
  Definition whole_line (P : token -> Prop) (s : text) (ts : list token) : Prop :=
    exists x ts1 nl, ts = x :: bar true :: ts1 ++ [nl; bar false] /\ lead x /\ P x /\ Forall (fun t => rawly t = true) ts1 /\
      tok_type nl = TLineBreak /\ tok_origin nl = [10] /\ tok_origin x ++ origins ts1 = s.
  Lemma origins_cat a b : origins (a ++ b) = origins a ++ origins b.
  Proof. unfold origins. rewrite map_app, concat_app. reflexivity. Qed.

  Lemma opened_line b s r : Forall comment_char s -> (length (s ++ 10%N :: r) < fuel)%nat -> (forall p, opens_line b p s (10 :: r)) ->
    lexes fuel [] [] b (s ++ [10]) BlockText.starts r (whole_line (fun x => is_white_space x = false) s).
  Proof.
    intros Hs Hf H p. destruct (H p) as (x & ts & s2 & ctx & p2 & b2 & H1 & H2 & H3 & H4 & H5 & H6). clear H.
    assert (Hs2 : Forall comment_char s2) by (rewrite <- H4 in Hs; apply Forall_app in Hs; destruct Hs as [_ Hs]; apply Forall_app in Hs; tauto).
    assert (L : (length s2 <= length s)%nat) by (rewrite <- H4, !app_length; lia).
    rewrite app_length in Hf.
    destruct (raw_rest r s2 Hs2 ctx b2 p2 H5) as (ts2 & ctx2 & p3 & b3 & K1 & K2 & K3 & K4); [rewrite app_length; lia|].
    destruct (raw_break ctx2 b3 p3 r K1) as (nl & p4 & N1 & N2 & N3).
    exists (x :: bar true :: (ts ++ ts2) ++ [nl; bar false]), p4, TLineBreak. split; [reflexivity|]. split.
    - exists x, (ts ++ ts2), nl. repeat (split; [assumption || reflexivity|]). split; [apply Forall_app; auto|]. repeat (split; [assumption|]).
      rewrite origins_cat, K3. exact H4.
    - intros tl H. rewrite <- app_assoc. cbn [app]. rewrite <- !app_assoc. apply H6, K4, N3, H.
  Qed.
  Lemma lexes_first b s r : line_text s -> BlockText.starts b -> (length (s ++ 10%N :: r) < fuel)%nat ->
    lexes fuel [] [] b (s ++ [10]) BlockText.starts r (whole_line (fun x => is_white_space x = false) s).
  Proof.
    intros [w s2 Hc Hw Hq Hh Hm Hs] Hb Hf. apply opened_line; [exact Hc|exact Hf|]. intro p. apply line_opens; auto.
    rewrite app_length in Hf. lia.
  Qed.
  Lemma lexes_further b s r : further_text s -> BlockText.starts b -> (length (s ++ 10%N :: r) < fuel)%nat ->
    lexes fuel [] [] b (s ++ [10]) BlockText.starts r (whole_line (fun x => True) s).
  Proof.
    intros [s2 H|c s2 Hc Hs] Hb Hf.
    - eapply lexes_weak; [apply lexes_first; eassumption|auto|]. intros ts (x & ts1 & nl & K). exists x, ts1, nl. tauto.
    - intro p. destruct (one_raw b p c (s2 ++ 10 :: r) (if c =? 32 then TSpace else TTab) []) as (x & p2 & T1 & T2 & T3).
      { intro p0. destruct Hc as [-> | ->]; reflexivity. }
      cbn [app length] in Hf. destruct (raw_rest r s2 Hs [] (if c =? 32 then TSpace else TTab) p2 eq_refl) as (ts2 & ctx2 & p3 & b3 & K1 & K2 & K3 & K4); [lia|].
      destruct (raw_break ctx2 b3 p3 r K1) as (nl & p4 & N1 & N2 & N3).
      exists (x :: bar true :: ts2 ++ [nl; bar false]), p4, TLineBreak. split; [reflexivity|]. split.
      + exists x, ts2, nl. split; [reflexivity|]. split; [unfold lead, is_non_break, calm, quiet; rewrite T1; destruct Hc as [-> | ->]; auto|]. split; [exact I|].
        repeat (split; [assumption|]). rewrite T2, K3. reflexivity.
      + intros tl H. cbn [app]. rewrite <- !app_assoc. apply T3, K4, N3, H.
  Qed.

  Lemma lexes_hollow v k s : hollow_text v k s -> forall b r, BlockText.starts b -> lexes fuel [] [] b s BlockText.starts r (hollow_in v (repeat 10 k)).
  Proof.
    induction 1 as [|k m s Hm Hs IH]; intros b r Hb.
    - intro p. exists [], p, b. split; [exact Hb|]. split; [constructor|auto].
    - change (10 :: s) with ([10] ++ s). eapply lexes_weak with (B := BlockText.starts).
      + eapply lexes_cat; [apply lexes_spaces; [exact some_fuel|exact I|exact Hb]|intros b1 Hb1].
        eapply lexes_cat; [apply lexes_line; exact some_fuel|intros b2 Hb2; apply IH; exact Hb2].
      + auto.
      + intros x (x0 & y & -> & (H1 & H2 & _) & x1 & y1 & -> & (nl & -> & N1 & N2) & H3). cbn [repeat app].
        replace (10 :: repeat 10 k) with (tok_origin nl ++ repeat 10 k) by (rewrite N2; reflexivity). apply hi_more; auto. lia.
  Qed.
  (** the lines after the first: the line break before each of them belongs to the line before *)
  Definition tailed (v : nat) (w : text) (ts : list token) : Prop := forall nl0, tok_type nl0 = TLineBreak -> tok_origin nl0 = [10] ->
    exists ts2 nl, nl0 :: bar false :: ts = ts2 ++ [nl; bar false] /\ lit_more v w ts2 /\ tok_type nl = TLineBreak /\ tok_origin nl = [10].
  Lemma lexes_more v w s : literal_more_text v w s -> exists body, s ++ [10] = 10 :: body /\
    forall b r, BlockText.starts b -> (length (body ++ r) < fuel)%nat -> lexes fuel [] [] b body BlockText.starts r (tailed v w).
  Proof.
    induction 1 as [|k l s w s2 Hl Hs Hm (body & E & IH)].
    - exists []. split; [reflexivity|]. intros b r Hb _ p. exists [], p, b. split; [exact Hb|]. split; [|auto].
      intros nl0 H1 H2. exists [], nl0. repeat split; auto. constructor.
    - exists (l ++ spaces v ++ (s ++ [10]) ++ body). split.
      { cbn [app]. f_equal. rewrite <- !app_assoc. do 3 f_equal. exact E. }
      intros b r Hb Hf. eapply lexes_weak with (B := BlockText.starts).
      + eapply lexes_cat; [apply (lexes_hollow v k l Hl); exact Hb|intros b1 Hb1].
        eapply lexes_cat; [apply lexes_spaces; [exact some_fuel|exact I|exact Hb1]|intros b2 Hb2].
        eapply lexes_cat; [apply lexes_further; [exact Hs|exact Hb2|len]|intros b3 Hb3]. apply IH; [exact Hb3|len].
      + auto.
      + intros x (x0 & y & -> & H1 & x1 & y1 & -> & (H2 & H3 & _) & x2 & y2 & -> & (z & ts1 & nl1 & -> & (Z1 & Z2 & Z3) & _ & Z4 & Z5 & Z6 & Z7) & H4) nl0 N1 N2.
        destruct (H4 nl1 Z5 Z6) as (ts2 & nl & K1 & K2 & K3 & K4).
        exists (nl0 :: bar false :: x0 ++ (x1 ++ z :: bar true :: ts1) ++ ts2), nl. split.
        { cbn [app]. do 2 f_equal. rewrite <- !app_assoc. do 2 f_equal. cbn [app]. do 2 f_equal. f_equal. exact K1. }
        split; [|auto].
        change (10 :: repeat 10 k ++ s ++ w) with ([10] ++ repeat 10 k ++ s ++ w). rewrite <- N2, <- Z7.
        apply lm_line; auto. apply lit_line_intro; auto.
  Qed.

  (** ** lines of folded scalars *)
  Lemma break_twice b p r : exists nl p2, tok_type nl = TLineBreak /\ tok_origin nl = [10] /\
    forall tl, lgives fuel (st [] TLineBreak p2 r) tl -> lgives fuel (st [] b p (10 :: r)) (nl :: bar true :: bar false :: tl).
  Proof.
    set (cur := mkPos (row p) (column p + 1)). exists (mkTok TLineBreak cur cur [10] 0), (mkPos (row cur + 1) 0).
    split; [reflexivity|]. split; [reflexivity|]. intros tl H. apply (lg_twice fuel _ _ (st [] TLineBreak (mkPos (row cur + 1) 0) r) true false); [|reflexivity|exact H].
    unfold lex_next. cbn [lx_prepared st]. destruct fuel; [lia|]. reflexivity.
  Qed.
  Definition fold_whole (s : text) (ts : list token) : Prop := exists nl, fold_line s ts nl /\ tok_origin nl = [10].
  Lemma lexes_fold_line b s r : fold_line_text s -> BlockText.starts b -> (length (s ++ 10%N :: r) < fuel)%nat ->
    lexes fuel [] [] b (s ++ [10]) BlockText.starts r (fold_whole s).
  Proof.
    intros [w s2 Hw Hc Hs] Hb Hf p. destruct s2 as [|c s2].
    - rewrite app_nil_r in *.
      destruct (lexes_word fuel some_fuel [] b w (10 :: r) I Hw) with (p := p) as (ts & p1 & b1 & _ & (tk & -> & [T1 _] & T2) & T3); [left; reflexivity|cbn; auto|exact Hf|].
      destruct (break_twice b1 p1 r) as (nl & p2 & N1 & N2 & N3).
      exists [tk; nl; bar true; bar false], p2, TLineBreak. split; [reflexivity|]. split; [exists nl; split; [rewrite <- T2; constructor; assumption|exact N2]|].
      intros tl H. rewrite <- app_assoc. cbn [app]. apply T3, N3, H.
    - destruct Hs as [Hs|Hs]; [discriminate|]. cbn [hd] in Hs. subst c. inversion Hc as [|? ? _ Hc2]; subst.
      rewrite <- app_assoc in Hf. cbn [app] in Hf.
      destruct (lexes_word fuel some_fuel [] b w (32 :: s2 ++ 10 :: r) I Hw) with (p := p) as (ts & p1 & b1 & _ & (tk & -> & [T1 _] & T2) & T3);
        [left; reflexivity|cbn; auto|exact Hf|].
      destruct (one_raw b1 p1 32 (s2 ++ 10 :: r) TSpace []) as (x & p2 & X1 & X2 & X3).
      { reflexivity. }
      rewrite app_length in Hf. cbn [length] in Hf.
      destruct (raw_rest r s2 Hc2 [] TSpace p2 eq_refl) as (ts2 & ctx2 & p3 & b3 & K1 & K2 & K3 & K4); [lia|].
      destruct (raw_break ctx2 b3 p3 r K1) as (nl & p4 & N1 & N2 & N3).
      exists (tk :: x :: bar true :: ts2 ++ [nl; bar false]), p4, TLineBreak. split; [reflexivity|]. split.
      + exists nl. split; [|exact N2]. assert (E : tok_origin tk ++ tok_origin x ++ origins ts2 = w ++ 32 :: s2) by (rewrite T2, X2; f_equal; cbn; f_equal; exact K3).
        pose proof (fl_more tk x ts2 nl T1) as K. unfold text, rune in *. rewrite E in K. apply K; auto.
        unfold is_white_space. rewrite X1. reflexivity.
      + intros tl H. rewrite <- !app_assoc. cbn [app]. apply T3. rewrite <- app_assoc. cbn [app]. apply X3, K4, N3, H.
  Qed.
  Definition fold_tailed (v : nat) (w : text) (ts : list token) : Prop := forall nl0, tok_origin nl0 = [10] ->
    exists nl, fold_more v nl0 w ts nl /\ tok_origin nl = [10].
  Lemma lexes_hollow_some v k s : hollow_text v k s -> forall b r, BlockText.starts b ->
    lexes fuel [] [] b s BlockText.starts r (fun ts => hollow_in v (repeat 10 k) ts /\ fold_text ts (repeat 10 k) = fold_break k).
  Proof.
    intros H b r Hb. destruct H as [|k m s Hm Hs].
    - intro p. exists [], p, b. split; [exact Hb|]. split; [split; [constructor|reflexivity]|auto].
    - change (10 :: s) with ([10] ++ s). eapply lexes_weak with (B := BlockText.starts).
      + eapply lexes_cat; [apply lexes_spaces; [exact some_fuel|exact I|exact Hb]|intros b1 Hb1].
        eapply lexes_cat; [apply lexes_line; exact some_fuel|intros b2 Hb2; apply (lexes_hollow v k s Hs); exact Hb2].
      + auto.
      + intros x (x0 & y & -> & (H1 & H2 & _) & x1 & y1 & -> & (nl & -> & N1 & N2) & H3). split; [|destruct x0; reflexivity]. cbn [repeat app].
        replace (10 :: repeat 10 k) with (tok_origin nl ++ repeat 10 k) by (rewrite N2; reflexivity). apply hi_more; auto. lia.
  Qed.
  Lemma lexes_fold_more v w s : fold_more_text v w s -> exists body, s ++ [10] = 10 :: body /\
    forall b r, BlockText.starts b -> (length (body ++ r) < fuel)%nat -> lexes fuel [] [] b body BlockText.starts r (fold_tailed v w).
  Proof.
    induction 1 as [|k l s w s2 Hl Hs Hm (body & E & IH)].
    - exists []. split; [reflexivity|]. intros b r Hb _ p. exists [], p, b. split; [exact Hb|]. split; [|auto].
      intros nl0 H1. exists nl0. split; [constructor|exact H1].
    - exists (l ++ spaces v ++ (s ++ [10]) ++ body). split.
      { cbn [app]. f_equal. rewrite <- !app_assoc. do 3 f_equal. exact E. }
      intros b r Hb Hf. eapply lexes_weak with (B := BlockText.starts).
      + eapply lexes_cat; [apply (lexes_hollow_some v k l Hl); exact Hb|intros b1 Hb1].
        eapply lexes_cat; [apply lexes_spaces; [exact some_fuel|exact I|exact Hb1]|intros b2 Hb2].
        eapply lexes_cat; [apply lexes_fold_line; [exact Hs|exact Hb2|len]|intros b3 Hb3]. apply IH; [exact Hb3|len].
      + auto.
      + intros x (x0 & y & -> & [H1 F] & x1 & y1 & -> & (H2 & H3 & _) & x2 & y2 & -> & (nl1 & Z1 & Z2) & H4) nl0 N1.
        destruct (H4 nl1 Z2) as (nl & K1 & K2). exists nl. split; [|exact K2]. rewrite <- F. econstructor; eauto.
  Qed.

  (** ** the header *)
  Lemma lexes_run_header n : forall b r, lexes fuel [CMultiline] [CMultiline] b (spaces n) (fun b2 => (n = O -> b2 = b) /\ (n <> O -> BlockText.starts b2)) r (spacing n).
  Proof.
    induction n as [|n IH]; intros b r.
    - intro p. exists [], p, b. split; [split; [auto|congruence]|]. split; [repeat split; constructor|]. auto.
    - change (spaces (S n)) with ([32] ++ spaces n). apply (lexes_seq fuel [CMultiline] [CMultiline] [CMultiline] b [32] BlockText.starts (spaces n) r (oneof TSpace [32]) _ (spacing n)).
      + eapply lexes_weak; [apply (lexes_one fuel [CMultiline] [CMultiline] b 32 (spaces n ++ r) TSpace some_fuel)| |auto].
        * intro p. do 2 eexists. reflexivity.
        * intros x ->. reflexivity.
      + intros b1 Hb1. eapply lexes_weak; [apply IH| |auto]. intros x [H1 H2]. split; [discriminate|]. intros _.
        destruct n; [rewrite H1 by reflexivity; exact Hb1|auto].
      + intros x y (tk & -> & H1 & H2) (H3 & H4 & H5). cbn. split; [constructor; assumption|]. split; [cbn; lia|].
        unfold origins in *. cbn. rewrite H2, H5. reflexivity.
  Qed.
  Definition in_header (c : list ctx_type) : Prop := c = [CMultiline] \/ c = [CComment; CMultiline].
  Lemma lexes_header_end b u e r : trailing_text u -> break_text e -> (length (u ++ e ++ r) < fuel)%nat ->
    lexes fuel [CMultiline] [] b (u ++ e) BlockText.starts r (fun ts => exists tr nl, ts = tr ++ [nl] /\ trailing tr /\ tok_type nl = TLineBreak).
  Proof.
    intros Hu He Hf.
    assert (T : exists c, in_header c /\ lexes fuel [CMultiline] c b u any (e ++ r) trailing).
    { destruct Hu as [n|n s2 Hs].
      - exists [CMultiline]. split; [left; reflexivity|]. eapply lexes_to; [apply lexes_run_header|]. intros x (H1 & _). constructor. exact H1.
      - exists [CComment; CMultiline]. split; [right; reflexivity|]. destruct Hs as [s3 Hs]. eapply lexes_to.
        + eapply lexes_cat; [apply lexes_run_header|]. intros b1 [_ Hb1] p. specialize (Hb1 ltac:(discriminate)).
          destruct (lex_one fuel [CMultiline] b1 p 35 (s3 ++ e ++ r) TComment [CComment; CMultiline] [35]) as (c & p1 & C1 & _ & C3); auto.
          { intro p0. exists p0, p0. unfold match_special, multiline_start_matching, ch_seq_entry, ch_plus, ch_comment. cbn [lx_raw lx_ctx st current_type N.eqb Pos.eqb].
            unfold lookbehind. cbn [lx_behind st]. rewrite Hb1. reflexivity. }
          destruct (comment_content fuel some_fuel [CMultiline] (e ++ r) (break_end e r He) s3 Hs TComment p1) as (ts & p2 & b2 & K1 & K2); [len|].
          exists (c :: ts), p2, b2. split; [exact I|]. split; [|intros tl H; cbn [app]; apply C3, K2, H].
          instantiate (1 := fun ts => exists c txt, ts = c :: txt /\ tok_type c = TComment /\ Forall (fun t => texty t = true) txt). exists c, ts. auto.
        + intros x (x0 & y & -> & (H1 & H2 & _) & c & txt & -> & H3 & H4). apply trailing_comment; auto. intros ->. discriminate. }
    destruct T as (c & Hc & L). eapply lexes_weak with (B := BlockText.starts).
    - eapply lexes_cat with (Q2 := fun ts => exists tk, ts = [tk] /\ tok_type tk = TLineBreak); [exact L|]. intros b1 _. destruct He.
      + eapply lexes_weak with (Q2 := fun ts => exists tk, ts = [tk] /\ tok_type tk = TLineBreak); [apply (lexes_one fuel c [] b1 10 r TLineBreak some_fuel)| |].
        * intro p. do 2 eexists. destruct Hc as [-> | ->]; reflexivity.
        * intros x ->. reflexivity.
        * intros x (tk & -> & H & _). eauto.
      + intro p. set (cur := mkPos (row p) (column p + 1)).
        exists [mkTok TLineBreak cur (mkPos (row cur) (column cur + 1)) [13; 10] 0], (mkPos (row cur + 1) 0), TLineBreak.
        split; [reflexivity|]. split; [eauto|]. intros tl Hl. eapply lg_cons; [|reflexivity|exact Hl]. unfold lex_next. cbn [lx_prepared st].
        destruct fuel; [lia|]. destruct Hc as [-> | ->]; reflexivity.
    - auto.
    - intros x (x0 & y & -> & H1 & nl & -> & H2). eauto.
  Qed.

  Definition ending_of (c : chomping) (k : nat) : text := chomped c [10] (repeat 10 k).
  Definition header_type (q : rune) : ttype := if q =? 124 then TLiteral else TFolded.
  Lemma lexes_header q f h : header_text q f h -> q = 124 \/ q = 62 -> exists c, (forall k, ending_of c k = f k) /\
    forall b r, BlockText.starts b -> lexes fuel [] [CMultiline] b h any r (fun ts => exists o hs, ts = o :: hs /\ tok_type o = header_type q /\ header c hs).
  Proof.
    intros Hh Hq.
    assert (O : forall b r, BlockText.starts b -> lexes fuel [] [CMultiline] b [q] any r (oneof (header_type q) [q])).
    { intros b r Hb. eapply lexes_weak; [apply (lexes_one fuel [] [CMultiline] b q r (header_type q) some_fuel)|intros; exact I|auto].
      intro p. exists p, p. destruct Hq as [-> | ->]; reading; cbn [N.eqb Pos.eqb]; unfold lookbehind; cbn [lx_behind st]; rewrite Hb; reflexivity. }
    destruct Hh as [| |].
    - exists ClipChomping. split; [reflexivity|]. intros b r Hb. eapply lexes_to; [apply O, Hb|]. intros x (o & -> & H & _). exists o, []. repeat split; auto. constructor.
    - exists StripChomping. split; [reflexivity|]. intros b r Hb. eapply lexes_to.
      + apply (lexes_cat fuel [] [CMultiline] [CMultiline] b [q] any [45] r); [apply O, Hb|]. intros b1 _.
        apply (lexes_one fuel [CMultiline] [CMultiline] b1 45 r TStripChomping some_fuel). intro p. do 2 eexists. reflexivity.
      + intros x (x0 & y & -> & (o & -> & H & _) & h2 & -> & H2 & _). exists o, [h2]. repeat split; auto. constructor. exact H2.
    - exists KeepChomping. split; [reflexivity|]. intros b r Hb. eapply lexes_to.
      + apply (lexes_cat fuel [] [CMultiline] [CMultiline] b [q] any [43] r); [apply O, Hb|]. intros b1 _.
        apply (lexes_one fuel [CMultiline] [CMultiline] b1 43 r TKeepChomping some_fuel). intro p. do 2 eexists. reflexivity.
      + intros x (x0 & y & -> & (o & -> & H & _) & h2 & -> & H2 & _). exists o, [h2]. repeat split; auto. constructor. exact H2.
  Qed.

  (** ** the scalar *)
  Lemma lexes_folded n t s : folded_text (S n) t s -> forall b r, BlockText.starts b -> (length (s ++ r) < fuel)%nat ->
    lexes fuel [] [] b s BlockText.starts r (LitParse.folded (Z.of_nat n) t).
  Proof.
    intros [v f h u e s1 w s2 k l Hn Hh Hu He Hs Hw Hl] b r Hb Hf.
    destruct (lexes_header 62 f h Hh) as (c & Ec & Lh); [auto|]. destruct (lexes_fold_more v w s2 Hw) as (body & Eb & Lb).
    assert (E : h ++ u ++ e ++ spaces v ++ s1 ++ s2 ++ 10 :: l = h ++ (u ++ e) ++ spaces v ++ (s1 ++ [10]) ++ body ++ l).
    { rewrite <- !app_assoc. do 5 f_equal. change (10 :: l) with ([10] ++ l). rewrite app_assoc. unfold text, rune in *. rewrite Eb. reflexivity. }
    unfold text, rune in *. rewrite E in *. eapply lexes_weak with (B := BlockText.starts).
    - eapply lexes_cat; [apply Lh, Hb|intros b1 _].
      eapply lexes_cat; [apply lexes_header_end; [exact Hu|exact He|clear E; len]|intros b2 Hb2].
      eapply lexes_cat; [apply lexes_spaces; [exact some_fuel|exact I|exact Hb2]|intros b3 Hb3].
      eapply lexes_cat; [apply lexes_fold_line; [exact Hs|exact Hb3|clear E; len]|intros b4 Hb4].
      eapply lexes_cat; [apply Lb; [exact Hb4|clear E; len]|intros b5 Hb5]. apply (lexes_hollow v k l Hl); exact Hb5.
    - auto.
    - intros x (x0 & y0 & -> & (o & hs & -> & O1 & O2) & x1 & y1 & -> & (tr & nl0 & -> & T1 & T2) & x2 & y2 & -> & (S1 & S2 & _) &
        x3 & y3 & -> & (nl1 & Z1 & Z2) & x4 & y4 & -> & H4 & H5).
      destruct (H4 nl1 Z2) as (nl & K1 & K2).
      assert (Et : (o :: hs) ++ (tr ++ [nl0]) ++ x2 ++ x3 ++ x4 ++ y4 = o :: hs ++ tr ++ nl0 :: x2 ++ x3 ++ x4 ++ y4).
      { cbn [app]. f_equal. rewrite <- !app_assoc. reflexivity. }
      rewrite Et. rewrite <- (Ec k). unfold ending_of. rewrite <- K2.
      apply folded_lines with (v := v) (nl1 := nl1); auto; lia.
  Qed.
  Theorem lexes_literal n t s : literal_text (S n) t s -> forall b r, BlockText.starts b -> (length (s ++ r) < fuel)%nat ->
    lexes fuel [] [] b s BlockText.starts r (literal (Z.of_nat n) t).
  Proof.
    intros [v f h u e s1 w s2 k l Hn Hh Hu He Hs Hw Hl|t0 s0 H] b r Hb Hf;
      [|eapply lexes_weak; [apply lexes_folded; eassumption|auto|intros x Hx; apply literal_folded, Hx]].
    destruct (lexes_header 124 f h Hh) as (c & Ec & Lh); [auto|]. destruct (lexes_more v w s2 Hw) as (body & Eb & Lb).
    assert (E : h ++ u ++ e ++ spaces v ++ s1 ++ s2 ++ 10 :: l = h ++ (u ++ e) ++ spaces v ++ (s1 ++ [10]) ++ body ++ l).
    { rewrite <- !app_assoc. do 5 f_equal. change (10 :: l) with ([10] ++ l). rewrite app_assoc. unfold text, rune in *. rewrite Eb. reflexivity. }
    unfold text, rune in *. rewrite E in *. eapply lexes_weak with (B := BlockText.starts).
    - eapply lexes_cat; [apply Lh, Hb|intros b1 _].
      eapply lexes_cat; [apply lexes_header_end; [exact Hu|exact He|clear E; len]|intros b2 Hb2].
      eapply lexes_cat; [apply lexes_spaces; [exact some_fuel|exact I|exact Hb2]|intros b3 Hb3].
      eapply lexes_cat; [apply lexes_first; [exact Hs|exact Hb3|clear E; len]|intros b4 Hb4].
      eapply lexes_cat; [apply Lb; [exact Hb4|clear E; len]|intros b5 Hb5]. apply (lexes_hollow v k l Hl); exact Hb5.
    - auto.
    - intros x (x0 & y0 & -> & (o & hs & -> & O1 & O2) & x1 & y1 & -> & (tr & nl0 & -> & T1 & T2) & x2 & y2 & -> & (S1 & S2 & _) &
        x3 & y3 & -> & (z & ts1 & nl1 & -> & (Z1 & Z2 & Z3) & Zw & Z4 & Z5 & Z6 & Z7) & x4 & y4 & -> & H4 & H5).
      destruct (H4 nl1 Z5 Z6) as (ts2 & nl & K1 & K2 & K3 & K4).
      assert (Et : (o :: hs) ++ (tr ++ [nl0]) ++ x2 ++ (z :: bar true :: ts1 ++ [nl1; bar false]) ++ x4 ++ y4 =
        o :: hs ++ tr ++ nl0 :: x2 ++ z :: bar true :: ts1 ++ ts2 ++ nl :: bar false :: y4).
      { cbn [app]. f_equal. rewrite <- !app_assoc. do 2 f_equal. cbn [app]. do 2 f_equal. do 2 f_equal. f_equal.
        change (nl1 :: bar false :: x4 ++ y4) with ((nl1 :: bar false :: x4) ++ y4). rewrite K1, <- app_assoc. reflexivity. }
      rewrite Et. rewrite <- Z7, <- app_assoc. rewrite <- (Ec k). unfold ending_of. rewrite <- K4.
      apply literal_barred, literal_lines with (v := v); auto; lia.
  Qed.
End Raw.
