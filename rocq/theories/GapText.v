(** The tokens between lines: spaces, comments, line breaks. *)
From Coq Require Import String.
From Verif Require Import Base YamlChar YamlCharSpec YamlCharProofs Token Ast CPAccessor Lexer LexerProofs Parser ParserTape
  RoundTripSpec TapeRules BlockParse1 BlockParse2 BlockParse3 BlockParse4 FlowParse1 FlowParse2 FoldParse FlowParse4 LexText BlockText FoldText TextSpec.
Local Open Scope N_scope.

Ltac len := unfold text, rune in *; do 3 (rewrite ?app_length in *; cbn [length app] in *); rewrite ?app_length in *; cbn [length] in *; lia.

(** at the end of a line *)
Definition line_end (r : text) : Prop := match r with [] => True | c :: _ => In c [10; 13] end.
(** at the end of something that counts *)
Definition open_end (r : text) : Prop := match r with [] => True | c :: _ => In c [32; 10; 13] end.
Lemma line_open r : line_end r -> open_end r.
Proof. destruct r; cbn; tauto. Qed.
Lemma open_ended r : open_end r -> ended r.
Proof. destruct r; cbn; [auto|]. intuition congruence. Qed.
Lemma open_blank r : open_end r -> blank_or_eof (list_look 1 r) = true.
Proof. destruct r as [|c r]; cbn; [auto|]. intros [<-|[<-|[<-|[]]]]; reflexivity. Qed.
#[local] Hint Resolve line_open open_ended open_blank : core.

(** after a comment the context is that of the comment *)
Definition loose (c : list ctx_type) : Prop := c = [] \/ c = [CComment].

Lemma comment_inert ctx b c s : comment_char c -> c <> 32 -> c <> 9 -> inert (CComment :: ctx) b c s.
Proof. intros H H1 H2 p. unfold match_special. cbn [lx_raw st current_type lx_ctx]. apply base_none. unfold comment_char in H. cbn in *. intuition congruence. Qed.
Lemma comment_stopper ctx s : match s with [] => True | c :: _ => In c [32; 9; 10; 13] end -> stopper (CComment :: ctx) s.
Proof.
  intros H p. destruct s as [|c s]; [do 2 eexists; split; reflexivity|]. cbn [tl list_next fst].
  destruct H as [<-|[<-|[<-|[<-|[]]]]]; try (do 2 eexists; split; reflexivity).
  destruct s as [|x s]; [do 2 eexists; split; reflexivity|]. unfold match_special, base_matching, lookahead. cbn. destruct (x =? ch_lf); do 2 eexists; split; reflexivity.
Qed.

Section Lines.
  Context (fuel : nat) (some_fuel : (0 < fuel)%nat).
  Notation lexes := (lexes fuel).

  Lemma lexes_break c b e r : loose c -> break_text e -> lexes c [] b e BlockText.starts r (fun ts => exists tk, ts = [tk] /\ tok_type tk = TLineBreak).
  Proof.
    intros Hc [|].
    - eapply lexes_weak; [apply (lexes_one fuel c [] b 10 r TLineBreak some_fuel)| |].
      + intro p. do 2 eexists. destruct Hc as [-> | ->]; reflexivity.
      + intros x ->. reflexivity.
      + intros x (tk & -> & H & _). eauto.
    - intro p. set (cur := mkPos (row p) (column p + 1)).
      exists [mkTok TLineBreak cur (mkPos (row cur) (column cur + 1)) [13; 10] 0], (mkPos (row cur + 1) 0), TLineBreak.
      split; [reflexivity|]. split; [eauto|]. intros tl Hl. eapply lg_cons; [|reflexivity|exact Hl]. unfold lex_next. cbn [lx_prepared st].
      destruct fuel; [lia|]. destruct Hc as [-> | ->]; reflexivity.
  Qed.

  Lemma comment_content ctx r : line_end r -> forall s, Forall comment_char s -> forall b p, (length (s ++ r) < fuel)%nat ->
    exists ts p2 b2, Forall (fun t => texty t = true) ts /\
      forall tl, lgives fuel (st (CComment :: ctx) b2 p2 r) tl -> lgives fuel (st (CComment :: ctx) b p (s ++ r)) (ts ++ tl).
  Proof.
    intros Hr s. remember (length s) as n eqn:En. revert s En.
    induction n as [n IH] using lt_wf_ind. intros s En Hs b p Hf.
    destruct s as [|c s]; [exists [], p, b; split; [constructor|auto]|].
    assert (W : c = 32 \/ c = 9 \/ (c <> 32 /\ c <> 9)) by lia.
    assert (One : c = 32 \/ c = 9 -> exists ts p2 b2, Forall (fun t => texty t = true) ts /\
      forall tl, lgives fuel (st (CComment :: ctx) b2 p2 r) tl -> lgives fuel (st (CComment :: ctx) b p ((c :: s) ++ r)) (ts ++ tl)).
    { intro Hb. set (ty := if c =? 32 then TSpace else TTab).
      destruct (lex_one fuel (CComment :: ctx) b p c (s ++ r) ty (CComment :: ctx) [c]) as (tk & p1 & T1 & T2 & T3); auto.
      { intro p0. exists p0, p0. subst ty. destruct Hb as [-> | ->]; reflexivity. }
      inversion Hs; subst. cbn [length] in *. destruct (IH (length s) ltac:(lia) s eq_refl) with (b := ty) (p := p1) as (ts & p2 & b2 & K1 & K2); auto.
      { cbn [app length] in Hf. lia. }
      exists (tk :: ts), p2, b2. split; [constructor; [|exact K1]|].
      - unfold texty. subst ty. rewrite T1. destruct Hb as [-> | ->]; reflexivity.
      - intros tl H. cbn [app]. apply T3, K2, H. }
    destruct W as [W|[W|W]]; auto.
    destruct (split_word s) as (w & s2 & -> & Hw1 & Hw2).
    inversion Hs as [|? ? Hc1 Hs1]; subst. apply Forall_app in Hs1. destruct Hs1 as [Hs1 Hs2].
    destruct (lex_word fuel (CComment :: ctx) b p c w (s2 ++ r)) as (tk & p1 & T1 & T2 & T3).
    { apply comment_inert; tauto. }
    { intros u d v ->. apply Forall_app in Hs1, Hw1. destruct Hs1 as [_ Hs1], Hw1 as [_ Hw1]. inversion Hs1; inversion Hw1; subst.
      apply comment_inert; tauto. }
    { apply comment_stopper. destruct s2 as [|d s2]; cbn [app]; [destruct r; cbn in *; tauto|cbn; intuition]. }
    { cbn [app length] in Hf. rewrite !app_length in Hf. lia. }
    destruct (IH (length s2)) with (s := s2) (b := TString) (p := p1) as (ts & p2 & b2 & K1 & K2); auto.
    { cbn. rewrite app_length. lia. }
    { cbn [app length] in Hf. rewrite !app_length in *. lia. }
    exists (tk :: ts), p2, b2. split; [constructor; [|exact K1]|].
    - unfold texty. rewrite T1. reflexivity.
    - intros tl H. cbn [app] in *. rewrite <- app_assoc. apply T3, K2, H.
  Qed.
  Lemma lexes_comment b s r : comment_text s -> BlockText.starts b -> line_end r -> (length (s ++ r) < fuel)%nat ->
    lexes [] [CComment] b s any r (fun ts => exists c txt, ts = c :: txt /\ tok_type c = TComment /\ Forall (fun t => texty t = true) txt).
  Proof.
    intros [s2 Hs] Hb Hr Hf p. cbn [app length] in Hf.
    destruct (lex_one fuel [] b p 35 (s2 ++ r) TComment [CComment] [35]) as (c & p1 & C1 & _ & C3); auto.
    { intro p0. exists p0, p0. reading. cbn [N.eqb Pos.eqb]. unfold lookbehind. cbn [lx_behind st]. rewrite Hb. reflexivity. }
    destruct (comment_content [] r Hr s2 Hs TComment p1) as (ts & p2 & b2 & K1 & K2); [lia|].
    exists (c :: ts), p2, b2. split; [exact I|]. split; [eauto|]. intros tl H. cbn [app]. apply C3, K2, H.
  Qed.

  Lemma lexes_trailing b s r : trailing_text s -> line_end r -> (length (s ++ r) < fuel)%nat ->
    exists c, loose c /\ lexes [] c b s any r (fun ts => trailing ts /\ (ts = [] -> s = [])).
  Proof.
    intros [n|n s2 Hs] Hr Hf.
    - exists []. split; [left; reflexivity|]. eapply lexes_to; [apply lexes_run; [exact some_fuel|exact I]|].
      intros x (H1 & H2 & _). split; [constructor; exact H1|]. intros ->. cbn in H2. subst n. reflexivity.
    - exists [CComment]. split; [right; reflexivity|]. eapply lexes_to.
      + eapply lexes_cat; [apply (lexes_blanks fuel some_fuel BlockText.starts); [exact I|auto|discriminate]|].
        intros b1 Hb1. apply lexes_comment; auto. len.
      + intros x (x0 & y & -> & (H1 & H2 & _) & c & txt & -> & H3 & H4). split.
        * apply trailing_comment; auto. intros ->. discriminate.
        * intro E. destruct x0; discriminate.
  Qed.
  Lemma lexes_idle_line b s r : idle_line_text s -> BlockText.starts b -> line_end r -> (length (s ++ r) < fuel)%nat ->
    exists c, loose c /\ lexes [] c b s any r idle_line.
  Proof.
    intros [n|n s2 Hs] Hb Hr Hf.
    - exists []. split; [left; reflexivity|]. eapply lexes_to; [apply lexes_run; [exact some_fuel|exact I]|].
      intros x (H1 & H2 & _). constructor. exact H1.
    - exists [CComment]. split; [right; reflexivity|]. eapply lexes_to.
      + eapply lexes_cat; [apply lexes_spaces; [exact some_fuel|exact I|exact Hb]|]. intros b1 Hb1. apply lexes_comment; auto. len.
      + intros x (x0 & y & -> & (H1 & H2 & _) & c & txt & -> & H3 & H4). apply idle_comment; auto.
  Qed.
  Lemma break_end e r : break_text e -> line_end (e ++ r).
  Proof. intros []; cbn; auto. Qed.
  Lemma lexes_idle s : idle_text s -> forall b r, BlockText.starts b -> (length (s ++ r) < fuel)%nat -> lexes [] [] b s BlockText.starts r idle.
  Proof.
    induction 1 as [|v e s Hv He Hs IH]; intros b r Hb Hf.
    - intro p. exists [], p, b. split; [exact Hb|]. split; [constructor|auto].
    - destruct (lexes_idle_line b v ((e ++ s) ++ r) Hv Hb) as (c & Hc & L); [rewrite <- app_assoc; apply break_end, He|len|].
      eapply lexes_weak with (B := BlockText.starts).
      + eapply lexes_cat; [exact L|]. intros b1 _. eapply lexes_cat; [apply lexes_break; auto|]. intros b2 Hb2. apply IH; [exact Hb2|len].
      + auto.
      + intros x (x0 & y & -> & H1 & x1 & y1 & -> & (tk & -> & H2) & H3). cbn [app]. constructor; auto.
  Qed.
  Lemma lexes_gap s b r : gap_text s -> (length (s ++ r) < fuel)%nat -> lexes [] [] b s BlockText.starts r gap.
  Proof.
    intros [u e s2 Hu He Hs] Hf.
    destruct (lexes_trailing b u ((e ++ s2) ++ r) Hu) as (c & Hc & L); [rewrite <- app_assoc; apply break_end, He|len|].
    eapply lexes_weak with (B := BlockText.starts).
    - eapply lexes_cat; [exact L|]. intros b1 _. eapply lexes_cat; [apply lexes_break; auto|]. intros b2 Hb2. apply lexes_idle; [exact Hs|exact Hb2|len].
    - auto.
    - intros x (x0 & y & -> & [H1 _] & x1 & y1 & -> & (tk & -> & H2) & H3). cbn [app]. constructor; auto.
  Qed.
End Lines.
