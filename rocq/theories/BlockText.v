(** The text of block documents and its tokens. *)
From Coq Require Import String.
From Verif Require Import Base YamlChar YamlCharSpec YamlCharProofs Token Ast CPAccessor Lexer LexerProofs Parser ParserTape
  RoundTripSpec TapeRules BlockParse1 BlockParse2 BlockParse3 BlockParse4 FlowParse1 FlowParse2 FlowParse4 LexText TextSpec.
Local Open Scope N_scope.

Ltac len := unfold text, rune in *; do 3 (rewrite ?app_length in *; cbn [length app] in *); rewrite ?app_length in *; cbn [length] in *; lia.

Definition starts (b : ttype) : Prop := may_precede_word_t b = true.
Definition any (b : ttype) : Prop := True.

(** outside and inside brackets *)
Definition place (ctx : list ctx_type) : Prop := match ctx with [] => True | c :: _ => c = CFlow end.
Definition ending (ctx : list ctx_type) (r : text) : Prop := match ctx with [] => ended r | _ => fended r end.
(** what may come before a collection, a quote, a word *)
Definition may (ctx : list ctx_type) (b : ttype) : Prop :=
  match ctx with [] => may_precede_word_t b = true | _ => may_precede_word_in_flow b = true end.
Definition may_quote (ctx : list ctx_type) (b : ttype) : Prop := ctx = [] \/ may_precede_word_in_flow b = true \/ b = TMappingValue.
Definition may_word (ctx : list ctx_type) (b : ttype) (s : text) : Prop := ctx = [] \/ hd 0 s <> 58 \/ starts b.
Definition is_quote (b : ttype) : Prop := b = TSingleQuote \/ b = TDoubleQuote.

Lemma starts_flow b : starts b -> closing_flow_t b || ttype_eqb b TDoubleQuote || ttype_eqb b TSingleQuote = false.
Proof. unfold starts. destruct b; try discriminate; reflexivity. Qed.
Lemma starts_may ctx b : starts b -> may ctx b.
Proof. unfold starts. destruct ctx; cbn; [auto|]. unfold may_precede_word_in_flow. intros ->. reflexivity. Qed.
Lemma ending_space ctx r : ending ctx (32 :: r).
Proof. destruct ctx; cbn; tauto. Qed.
Lemma ending_quote ctx r : ending ctx r -> hd 0 r <> 39.
Proof. destruct ctx; destruct r as [|x r]; cbn; intuition (subst; discriminate). Qed.
#[local] Hint Resolve starts_may ending_space : core.

Section Segments.
  Context (fuel : nat).

  (** The text [s], followed by [r], is cut into tokens with the property [Q]. *)
  Definition lexes (c1 c2 : list ctx_type) (b : ttype) (s : text) (B : ttype -> Prop) (r : text) (Q : list token -> Prop) : Prop :=
    forall p, exists ts p2 b2, B b2 /\ Q ts /\
      forall tl, lgives fuel (st c2 b2 p2 r) tl -> lgives fuel (st c1 b p (s ++ r)) (ts ++ tl).

  Lemma lexes_seq c1 c2 c3 b s1 B1 s2 r Q1 B2 Q2 (Q : list token -> Prop) :
    lexes c1 c2 b s1 B1 (s2 ++ r) Q1 -> (forall b1, B1 b1 -> lexes c2 c3 b1 s2 B2 r Q2) ->
    (forall x y, Q1 x -> Q2 y -> Q (x ++ y)) -> lexes c1 c3 b (s1 ++ s2) B2 r Q.
  Proof.
    intros H1 H2 HQ p. destruct (H1 p) as (x & p1 & b1 & K1 & K2 & K3).
    destruct (H2 b1 K1 p1) as (y & p2 & b2 & L1 & L2 & L3).
    exists (x ++ y), p2, b2. split; [exact L1|]. split; [apply HQ; assumption|].
    intros tl H. rewrite <- !app_assoc. apply K3, L3, H.
  Qed.
  Lemma lexes_weak c1 c2 b s (B B2 : ttype -> Prop) r (Q Q2 : list token -> Prop) :
    lexes c1 c2 b s B r Q -> (forall x, B x -> B2 x) -> (forall x, Q x -> Q2 x) -> lexes c1 c2 b s B2 r Q2.
  Proof.
    intros H HB HQ p. destruct (H p) as (ts & p2 & b2 & K1 & K2 & K3). exists ts, p2, b2. auto.
  Qed.

  Definition oneof (ty : ttype) (o : text) (ts : list token) : Prop :=
    exists tk, ts = [tk] /\ tok_type tk = ty /\ tok_origin tk = o.

  Lemma lexes_one c1 c2 b c r ty : (0 < fuel)%nat ->
    (forall p, exists e p2, match_special list_source (st c1 b p r) (Some c) = (Some (mkTok ty p e [c] 0), st c2 b p2 r)) ->
    lexes c1 c2 b [c] (fun b2 => b2 = ty) r (oneof ty [c]).
  Proof.
    intros Hf H p. destruct (lex_one fuel c1 b p c r ty c2 [c] H Hf) as (tk & p2 & H1 & H2 & H3).
    exists [tk], p2, ty. split; [reflexivity|]. split; [exists tk; auto|]. exact H3.
  Qed.

  Context (some_fuel : (0 < fuel)%nat).

  Lemma lexes_space ctx b r : place ctx -> lexes ctx ctx b [32] starts r (oneof TSpace [32]).
  Proof.
    intro Hp. eapply lexes_weak; [apply lexes_one; [exact some_fuel|]| |intros x H; exact H].
    - intro p. do 2 eexists. destruct ctx as [|c ctx]; [|cbn in Hp; subst c]; reflexivity.
    - intros x ->. reflexivity.
  Qed.
  Lemma lexes_line b r : lexes [] [] b [10] starts r (oneof TLineBreak [10]).
  Proof.
    eapply lexes_weak; [apply lexes_one; [exact some_fuel|]| |intros x H; exact H].
    - intro p. do 2 eexists. reflexivity.
    - intros x ->. reflexivity.
  Qed.
  Lemma lexes_dash b r : starts b -> blank_or_eof (list_look 1 r) = true -> lexes [] [] b [45] any r (oneof TSequenceEntry [45]).
  Proof.
    intros Hb Hr. eapply lexes_weak; [apply lexes_one; [exact some_fuel|]| |intros x H; exact H]; [|intros; exact I].
    intro p. exists p, p. reading. cbn [N.eqb Pos.eqb]. rewrite lookahead_list. cbn [lx_src st]. rewrite Hr.
    unfold lookbehind. cbn [lx_behind st]. rewrite Hb. reflexivity.
  Qed.
  Lemma lexes_colon b r : blank_or_eof (list_look 1 r) = true -> lexes [] [] b [58] any r (oneof TMappingValue [58]).
  Proof.
    intro Hb. eapply lexes_weak; [apply lexes_one; [exact some_fuel|]| |intros x H; exact H]; [|intros; exact I].
    intro p. exists p, p. reading. cbn [N.eqb Pos.eqb]. rewrite lookahead_list. cbn [lx_src st]. rewrite Hb. reflexivity.
  Qed.
  Lemma flow_colon ctx b r : blank_flow_or_eof (list_look 1 r) = true \/ is_quote b ->
    lexes (CFlow :: ctx) (CFlow :: ctx) b [58] (fun b => b = TMappingValue) r (oneof TMappingValue [58]).
  Proof.
    intro Hb. apply lexes_one; [exact some_fuel|].
    intro p. exists p, p. reading. cbn [N.eqb Pos.eqb]. rewrite lookahead_list. cbn [lx_src st]. unfold lookbehind. cbn [lx_behind st].
    destruct Hb as [-> |[-> | ->]]; [reflexivity| |]; destruct (blank_flow_or_eof _); reflexivity.
  Qed.
  Lemma flow_comma ctx b r : lexes (CFlow :: ctx) (CFlow :: ctx) b [44] (may (CFlow :: ctx)) r (oneof TCollectEntry [44]).
  Proof.
    eapply lexes_weak; [apply lexes_one; [exact some_fuel|]| |intros x H; exact H].
    - intro p. do 2 eexists. reflexivity.
    - intros x ->. reflexivity.
  Qed.
  Lemma lexes_open kind ctx b r : place ctx -> may ctx b ->
    lexes ctx (CFlow :: ctx) b [opening kind] (may (CFlow :: ctx)) r (oneof (if kind then TSequenceStart else TMappingStart) [opening kind]).
  Proof.
    intros Hp Hb. eapply lexes_weak; [apply lexes_one; [exact some_fuel|]| |intros x H; exact H].
    - intro p. exists p, p. destruct ctx as [|c ctx]; [|cbn in Hp; subst c]; destruct kind; cbn [opening]; reading; cbn [N.eqb Pos.eqb];
        unfold lookbehind; cbn [lx_behind st]; cbn in Hb; rewrite Hb; reflexivity.
    - intros x ->. destruct kind; reflexivity.
  Qed.
  Lemma lexes_close kind ctx b r :
    lexes (CFlow :: ctx) ctx b [closing kind] any r (oneof (if kind then TSequenceEnd else TMappingEnd) [closing kind]).
  Proof.
    eapply lexes_weak; [apply lexes_one; [exact some_fuel|]|intros; exact I|intros x H; exact H].
    intro p. exists p, p. destruct kind; reflexivity.
  Qed.

  Definition spacing (n : nat) (ts : list token) : Prop := blanks ts /\ length ts = n /\ origins ts = spaces n.
  Lemma lexes_run n : forall ctx b r, place ctx -> lexes ctx ctx b (spaces n) (fun b2 => (n = O -> b2 = b) /\ (n <> O -> starts b2)) r (spacing n).
  Proof.
    induction n as [|n IH]; intros ctx b r Hp.
    - intro p. exists [], p, b. split; [split; [auto|congruence]|]. split; [repeat split; constructor|]. auto.
    - change (spaces (S n)) with ([32] ++ spaces n). apply (lexes_seq ctx ctx ctx b [32] starts (spaces n) r (oneof TSpace [32]) _ (spacing n)); [apply lexes_space, Hp| |].
      + intros b1 Hb1. eapply lexes_weak; [apply IH, Hp| |auto]. intros x [H1 H2]. split; [discriminate|]. intros _.
        destruct n; [rewrite H1 by reflexivity; exact Hb1|auto].
      + intros x y (tk & -> & H1 & H2) (H3 & H4 & H5). cbn. split; [constructor; assumption|]. split; [cbn; lia|].
        unfold origins in *. cbn. rewrite H2, H5. reflexivity.
  Qed.
  Lemma lexes_blanks (P : ttype -> Prop) n ctx b r : place ctx -> (n <> O -> forall b, starts b -> P b) -> (n = O -> P b) ->
    lexes ctx ctx b (spaces n) P r (spacing n).
  Proof.
    intros Hp H1 H2. eapply lexes_weak; [apply lexes_run, Hp| |auto]. intros x [K1 K2]. destruct n; [rewrite K1; auto|apply H1; auto].
  Qed.
  Lemma lexes_spaces n ctx b r : place ctx -> starts b -> lexes ctx ctx b (spaces n) starts r (spacing n).
  Proof. intros. apply lexes_blanks; auto. Qed.

  Lemma lexes_word ctx b w r : place ctx -> plain_word w -> may_word ctx b w -> ending ctx r -> (length (w ++ r) < fuel)%nat ->
    lexes ctx ctx b w any r (fun ts => exists tk, ts = [tk] /\ word tk /\ tok_origin tk = w).
  Proof.
    intros Hp Hw Hm Hr Hf p. destruct w as [|c w]; [destruct Hw as [[] _]; reflexivity|].
    rewrite app_length in Hf. cbn in Hf.
    assert (G : inert ctx b c (w ++ r) /\ inner ctx w r /\ stopper ctx r).
    { destruct ctx as [|x ctx].
      - split; [apply word_first; assumption|]. split; [eapply word_inner; eassumption|apply ended_stopper, Hr].
      - cbn in Hp. subst x. split; [|split; [eapply fword_inner; eassumption|apply fended_stopper, Hr]].
        destruct Hm as [Hm|[Hm|Hm]]; [discriminate|apply fword_first; assumption|apply fword_later; [assumption|apply starts_flow, Hm]]. }
    destruct G as (G1 & G2 & G3).
    destruct (lex_word fuel ctx b p c w r G1 G2 G3) as (tk & p2 & H1 & H2 & H3); [lia|].
    exists [tk], p2, TString. split; [exact I|]. split; [|exact H3].
    exists tk. split; [reflexivity|]. split; [|exact H2]. split; [exact H1|].
    unfold conforms. rewrite H2. cbn [conforms_charset]. unfold is_plain_safe_string. apply forallb_forall. intros x Hx.
    destruct Hw as (_ & Hc & _). rewrite Forall_forall in Hc. specialize (Hc x Hx). unfold plain_char in Hc.
    unfold is_flow_indicator, ch_collect, ch_seq_start, ch_seq_end, ch_map_start, ch_map_end.
    repeat match goal with |- context[?x =? ?y] => destruct (N.eqb_spec x y); [subst x; exfalso; apply Hc; cbn; tauto|] end. reflexivity.
  Qed.

  Definition cat (Q1 Q2 : list token -> Prop) (ts : list token) : Prop := exists x y, ts = x ++ y /\ Q1 x /\ Q2 y.
  Lemma lexes_cat c1 c2 c3 b s1 B1 s2 r Q1 B2 Q2 :
    lexes c1 c2 b s1 B1 (s2 ++ r) Q1 -> (forall b1, B1 b1 -> lexes c2 c3 b1 s2 B2 r Q2) -> lexes c1 c3 b (s1 ++ s2) B2 r (cat Q1 Q2).
  Proof. intros H1 H2. eapply lexes_seq; [exact H1|exact H2|]. intros x y Hx Hy. exists x, y. auto. Qed.
  Lemma lexes_to c1 c2 b s B r (Q Q2 : list token -> Prop) : lexes c1 c2 b s B r Q -> (forall x, Q x -> Q2 x) -> lexes c1 c2 b s any r Q2.
  Proof. intros H HQ. eapply lexes_weak; [exact H|intros; exact I|exact HQ]. Qed.

  Lemma lexes_plain s : plain_text s -> forall ctx b r, place ctx -> may_word ctx b s -> ending ctx r -> (length (s ++ r) < fuel)%nat ->
    lexes ctx ctx b s any r (plain s).
  Proof.
    induction 1 as [w Hw|w n s Hw Hs IH]; intros ctx b r Hp Hm Hr Hf.
    - eapply lexes_to; [apply lexes_word; eassumption|]. intros x (tk & -> & H1 & <-). constructor. exact H1.
    - rewrite <- !app_assoc in Hf.
      assert (Hm2 : may_word ctx b w).
      { destruct Hm as [Hm|[Hm|Hm]]; [left; exact Hm| |right; right; exact Hm]. right. left.
        destruct w as [|c w]; [destruct Hw as [[] _]; reflexivity|exact Hm]. }
      eapply lexes_to.
      + apply lexes_cat with (B1 := any) (c2 := ctx); [apply lexes_word; [exact Hp|exact Hw|exact Hm2|apply ending_space|rewrite <- app_assoc; exact Hf]|].
        intros b1 _. change (repeat 32 (S n) ++ s) with ([32] ++ spaces n ++ s).
        eapply lexes_cat; [apply lexes_space, Hp|]. intros b2 Hb2.
        eapply lexes_cat; [apply (lexes_spaces n); [exact Hp|exact Hb2]|]. intros b3 Hb3. apply IH; [exact Hp|right; right; exact Hb3|exact Hr|]. len.
      + intros x (x0 & y0 & -> & (tk & -> & Hk & <-) & x1 & y1 & -> & (sp & -> & H1 & H2) & x2 & y2 & -> & (H3 & H4 & H5) & H6).
        assert (E : repeat 32 (S n) = origins (sp :: x2)) by (unfold origins in *; cbn; rewrite H2, H5; reflexivity).
        rewrite E. apply (plain_more tk (sp :: x2) s y2); auto; [constructor; assumption|discriminate].
  Qed.

  (** ** quoted text *)
  Lemma split_word (s : text) : exists w s2, s = w ++ s2 /\ Forall (fun c => c <> 32 /\ c <> 9) w /\
    match s2 with [] => True | c :: _ => c = 32 \/ c = 9 end.
  Proof.
    induction s as [|c s (w & s2 & -> & H1 & H2)]; [exists [], []; repeat split; constructor|].
    destruct (N.eq_dec c 32) as [->|N1]; [exists [], (32 :: w ++ s2); repeat split; [constructor|left; reflexivity]|].
    destruct (N.eq_dec c 9) as [->|N2]; [exists [], (9 :: w ++ s2); repeat split; [constructor|right; reflexivity]|].
    exists (c :: w), s2. repeat split; [constructor; auto|exact H2].
  Qed.

  (** a part of the text between quotes *)
  Lemma quoted_content q ctx cs r : place ctx -> q = 39 \/ q = 34 -> stopper (quote_ctx q :: ctx) r ->
    forall s, Forall (quoted_char q) s -> (forall w, incl w s -> conforms_charset w cs = true) ->
    forall b p, (length (s ++ r) < fuel)%nat ->
    exists ts p2 b2, Forall (fits cs) ts /\ origins ts = s /\
      (s <> [] -> hd 0 s <> 32 /\ hd 0 s <> 9 -> exists x ts2, ts = x :: ts2 /\ tok_type x = TString /\ conforms x cs = true) /\
      forall tl, lgives fuel (st (quote_ctx q :: ctx) b2 p2 r) tl -> lgives fuel (st (quote_ctx q :: ctx) b p (s ++ r)) (ts ++ tl).
  Proof.
    intros Hp Hq Hr s. remember (length s) as n eqn:En. revert s En.
    induction n as [n IH] using lt_wf_ind. intros s En Hs Hc b p Hf.
    destruct s as [|c s]; [exists [], p, b; repeat split; [constructor|congruence|auto]|].
    assert (W : c = 32 \/ c = 9 \/ (c <> 32 /\ c <> 9)) by lia.
    assert (One : c = 32 \/ c = 9 -> exists ts p2 b2, Forall (fits cs) ts /\ origins ts = c :: s /\
      (c :: s <> [] -> hd 0 (c :: s) <> 32 /\ hd 0 (c :: s) <> 9 -> exists x ts2, ts = x :: ts2 /\ tok_type x = TString /\ conforms x cs = true) /\
      forall tl, lgives fuel (st (quote_ctx q :: ctx) b2 p2 r) tl -> lgives fuel (st (quote_ctx q :: ctx) b p ((c :: s) ++ r)) (ts ++ tl)).
    { intro Hb. set (ty := if c =? 32 then TSpace else TTab).
      destruct (lex_one fuel (quote_ctx q :: ctx) b p c (s ++ r) ty (quote_ctx q :: ctx) [c]) as (tk & p1 & T1 & T2 & T3); auto.
      { intro p0. exists p0, p0. subst ty. destruct Hq as [-> | ->], Hb as [-> | ->]; destruct ctx as [|x ctx]; try reflexivity; cbn in Hp; subst x; reflexivity. }
      inversion Hs; subst. cbn [length] in *. destruct (IH (length s) ltac:(lia) s eq_refl) with (b := ty) (p := p1) as (ts & p2 & b2 & K1 & K2 & _ & K3); auto.
      { intros w Hw. apply Hc. intros x Hx. right. apply Hw, Hx. } { cbn [app length] in Hf. lia. }
      exists (tk :: ts), p2, b2. split; [constructor; [|exact K1]|].
      - unfold fits. subst ty. rewrite T1. destruct Hb as [-> | ->]; cbn; auto.
      - split; [unfold origins in *; cbn; rewrite T2, K2; reflexivity|]. split; [cbn; intros _ [N1 N2]; destruct Hb; congruence|].
        intros tl H. cbn [app]. apply T3, K3, H. }
    destruct W as [W|[W|W]]; auto.
    destruct (split_word s) as (w & s2 & -> & Hw1 & Hw2).
    inversion Hs as [|? ? Hc1 Hs1]; subst. apply Forall_app in Hs1. destruct Hs1 as [Hs1 Hs2].
    assert (Hst : stopper (quote_ctx q :: ctx) (s2 ++ r)).
    { destruct s2 as [|d s2]; cbn [app]; [exact Hr|]. apply quoted_stopper; auto. destruct Hw2; auto. }
    destruct (lex_word fuel (quote_ctx q :: ctx) b p c w (s2 ++ r)) as (tk & p1 & T1 & T2 & T3).
    { apply quoted_inert; tauto. }
    { intros u d v ->. apply Forall_app in Hs1, Hw1. destruct Hs1 as [_ Hs1], Hw1 as [_ Hw1]. inversion Hs1; inversion Hw1; subst.
      apply quoted_inert; tauto. }
    { exact Hst. }
    { cbn [app length] in Hf. rewrite !app_length in Hf. lia. }
    destruct (IH (length s2)) with (s := s2) (b := TString) (p := p1) as (ts & p2 & b2 & K1 & K2 & _ & K3); auto.
    { cbn. rewrite app_length. lia. }
    { intros v Hv. apply Hc. intros x Hx. right. apply in_or_app. right. apply Hv, Hx. }
    { cbn [app length] in Hf. rewrite !app_length in *. lia. }
    assert (Ct : conforms tk cs = true).
    { unfold conforms. rewrite T2. apply Hc. intros x [<-|Hx]; [left; reflexivity|right; apply in_or_app; left; exact Hx]. }
    exists (tk :: ts), p2, b2. split; [constructor; [|exact K1]|].
    - left. auto.
    - split; [unfold origins in *; cbn; rewrite T2, K2; reflexivity|]. split; [eauto|]. intros tl H. cbn [app] in *. rewrite <- app_assoc. apply T3, K3, H.
  Qed.

  Lemma quoted_lexes q ctx cs b r s : place ctx -> may_quote ctx b -> q = 39 \/ q = 34 -> hd 0 r <> 39 -> Forall (quoted_char q) s ->
    (forall w, incl w s -> conforms_charset w cs = true) -> (length ((q :: s ++ [q]) ++ r) < fuel)%nat ->
    lexes ctx ctx b (q :: s ++ [q]) is_quote r (fun ts => exists o c m, ts = o :: m ++ [c] /\ tok_type o = quote_tok q /\ tok_type c = quote_tok q /\
      Forall (fits cs) m /\ origins m = s).
  Proof.
    intros Hp Hm Hq Hr Hs Hc Hf p. cbn [app] in *. rewrite <- app_assoc in *. cbn [app] in *.
    destruct (lex_one fuel ctx b p q (s ++ q :: r) (quote_tok q) (quote_ctx q :: ctx) [q]) as (o & p1 & O1 & _ & O3); auto.
    { intro p0. exists p0, p0. destruct ctx as [|x ctx]; [destruct Hq as [-> | ->]; reflexivity|]. cbn in Hp. subst x.
      assert (E : may_precede_word_in_flow b || ttype_eqb b TMappingValue = true).
      { destruct Hm as [Hm|[Hm|Hm]]; [discriminate|rewrite Hm; reflexivity|subst b; reflexivity]. }
      destruct Hq as [-> | ->]; reading; cbn [N.eqb Pos.eqb]; unfold lookbehind; cbn [lx_behind st]; rewrite E; reflexivity. }
    destruct (quoted_content q ctx cs (q :: r) Hp Hq (quoted_stopper q ctx q r Hq (or_intror (or_intror (conj eq_refl Hr)))) s Hs Hc (quote_tok q) p1) as (m & p2 & b2 & M1 & M2 & _ & M3).
    { len. }
    destruct (lex_one fuel (quote_ctx q :: ctx) b2 p2 q r (quote_tok q) ctx [q]) as (c & p3 & C1 & _ & C3); auto.
    { intro p0. exists p0, p0. destruct Hq as [-> | ->]; cbn [quote_ctx quote_tok N.eqb Pos.eqb]; [|reflexivity].
      reading. cbn [N.eqb Pos.eqb]. rewrite lookahead_list. cbn [lx_src st].
      assert (E : match list_look 1 r with Some x :: _ => negb (x =? 39) | _ => true end = true).
      { destruct r as [|x r]; [reflexivity|]. cbn in *. apply negb_true_iff, N.eqb_neq, Hr. }
      rewrite E. reflexivity. }
    exists (o :: m ++ [c]), p3, (quote_tok q). split; [destruct Hq as [-> | ->]; [left|right]; reflexivity|]. split; [exists o, c, m; auto|].
    intros tl H. cbn [app]. rewrite <- app_assoc. apply O3, M3, C3, H.
  Qed.

  Lemma single_conforms w : Forall single_char w -> is_single_quoted_string w = true.
  Proof.
    induction 1 as [|c w [H1 H2] Hw IH]; [reflexivity|]. cbn. cbn in H2.
    destruct (N.eqb_spec c 39); [exfalso; intuition congruence|]. rewrite IH, andb_true_r. unfold is_json_char.
    destruct H1 as [->|H1]; [reflexivity|]. apply orb_true_iff. right. apply andb_true_iff. split; apply N.leb_le; lia.
  Qed.
  Lemma double_conforms w : Forall double_char w -> forall n, (length w <= n)%nat -> is_double_quoted_fuel n w = true.
  Proof.
    induction 1 as [|c w [H1 H2] Hw IH]; intros n Hn; [destruct n; reflexivity|]. cbn in Hn. destruct n as [|n]; [lia|]. cbn in H2 |- *.
    destruct (N.eqb_spec c 92); [exfalso; intuition congruence|]. destruct (N.eqb_spec c 34); [exfalso; intuition congruence|].
    rewrite IH by lia. rewrite andb_true_r. unfold is_json_char. apply orb_true_iff. right. apply andb_true_iff. split; apply N.leb_le; lia.
  Qed.
  Lemma Forall_incl {A} (P : A -> Prop) (w s : list A) : Forall P s -> incl w s -> Forall P w.
  Proof. rewrite !Forall_forall. intros H Hi x Hx. apply H, Hi, Hx. Qed.

  (** what may come before a scalar *)
  Definition may_scalar (ctx : list ctx_type) (b : ttype) (s : text) : Prop := may_word ctx b s /\ may_quote ctx b.
  Lemma lexes_scalar t s ctx b r : place ctx -> scalar_text t s -> may_scalar ctx b s -> hd 0 r <> 39 -> (quoted t \/ ending ctx r) ->
    (length (s ++ r) < fuel)%nat -> lexes ctx ctx b s (fun b => quoted t -> is_quote b) r (scalar t).
  Proof.
    intros Hp [s2 H|s2 H|s2 H] [Hm1 Hm2] Hh Hr Hf.
    - eapply lexes_weak; [apply lexes_plain; auto| |].
      + destruct Hr as [(x & [E|E])|Hr]; [discriminate|discriminate|exact Hr].
      + intros x _ (y & [E|E]); discriminate.
      + intros x Hx. constructor. exact Hx.
    - eapply lexes_weak; [apply (quoted_lexes 39 ctx CsSingleQuoted); auto| |].
      + eapply Forall_impl; [|exact H]. intros c [H1 H2]. cbn in H2. unfold quoted_char. cbn. repeat split; try discriminate; lia.
      + intros w Hw. apply single_conforms. eapply Forall_incl; eassumption.
      + auto.
      + intros x (o & c & m & -> & H1 & H2 & H3 & <-). constructor; assumption.
    - eapply lexes_weak; [apply (quoted_lexes 34 ctx CsDoubleQuoted); auto| |].
      + eapply Forall_impl; [|exact H]. intros c [H1 H2]. cbn in H2. unfold quoted_char. cbn. repeat split; intros; lia.
      + intros w Hw. apply double_conforms; [eapply Forall_incl; eassumption|constructor].
      + auto.
      + intros x (o & c & m & -> & H1 & H2 & H3 & <-). constructor; assumption.
  Qed.
  Lemma block_scalar t s b r : scalar_text t s -> ended r -> (length (s ++ r) < fuel)%nat -> lexes [] [] b s any r (scalar t).
  Proof.
    intros Hs Hr Hf. eapply lexes_to; [apply (lexes_scalar t s [] b r I Hs); [split; left; reflexivity|apply (ending_quote []), Hr|right; exact Hr|exact Hf]|auto].
  Qed.

  (** ** flow collections *)
  (** what may come before a flow node *)
  Definition ready (ctx : list ctx_type) (b : ttype) (t : node) : Prop := may ctx b \/ (ctx <> [] /\ is_text t /\ b = TMappingValue).
  Lemma may_scalars ctx b s : may ctx b \/ b = TMappingValue -> hd 0 s <> 58 -> may_scalar ctx b s.
  Proof. intros H Hs. split; [right; left; exact Hs|]. unfold may_quote. destruct ctx; [left; reflexivity|right; exact H]. Qed.
  Lemma ready_scalars ctx b t s : ready ctx b t -> hd 0 s <> 58 -> may_scalar ctx b s.
  Proof. intros [H|(_ & _ & H)] Hs; apply may_scalars; auto. Qed.
  Lemma closing_ends kind ctx r : fended (closing kind :: r) /\ ending (CFlow :: ctx) (closing kind :: r).
  Proof. destruct kind; cbn; tauto. Qed.
  (** between the parts *)
  Lemma flow_break ctx b e r : break_text e -> lexes (CFlow :: ctx) (CFlow :: ctx) b e starts r (fun ts => exists tk, ts = [tk] /\ tok_type tk = TLineBreak).
  Proof.
    intros [|].
    - eapply lexes_weak; [apply lexes_one; [exact some_fuel|]| |].
      + intro p. do 2 eexists. reflexivity.
      + intros x ->. reflexivity.
      + intros x (tk & -> & H & _). eauto.
    - intro p. set (cur := mkPos (row p) (column p + 1)).
      exists [mkTok TLineBreak cur (mkPos (row cur) (column cur + 1)) [13; 10] 0], (mkPos (row cur + 1) 0), TLineBreak.
      split; [reflexivity|]. split; [eauto|]. intros tl Hl. eapply lg_cons; [|reflexivity|exact Hl]. unfold lex_next. cbn [lx_prepared st].
      destruct fuel; [lia|]. reflexivity.
  Qed.
  Lemma flow_lines ctx s : blank_lines s -> forall b r, starts b -> lexes (CFlow :: ctx) (CFlow :: ctx) b s starts r (fun ts => exists t, hollow t ts).
  Proof.
    induction 1 as [|m e s He Hs IH]; intros b r Hb.
    - intro p. exists [], p, b. split; [exact Hb|]. split; [exists []; constructor|auto].
    - eapply lexes_weak.
      + eapply lexes_cat; [apply lexes_spaces; [reflexivity|exact Hb]|intros b1 _]. eapply lexes_cat; [apply flow_break, He|intros b2 Hb2; apply IH, Hb2].
      + auto.
      + intros x (x0 & y & -> & (H1 & _) & x1 & y1 & -> & (tk & -> & H2) & t & H4). cbn [app]. exists (tok_origin tk ++ t). constructor; auto.
  Qed.
  Lemma lexes_sep n ctx w b r (P : ttype -> Prop) : sep_text n w -> (forall b, starts b -> P b) -> P b -> lexes (CFlow :: ctx) (CFlow :: ctx) b w P r (sep n).
  Proof.
    intros [a|a e l m He Hl Hm] HP Hb.
    - eapply lexes_weak; [apply (lexes_blanks P a); [reflexivity|auto|auto]|auto|]. intros x (H & _). apply sep_blanks, H.
    - eapply lexes_weak.
      + eapply lexes_cat; [apply (lexes_blanks any a); [reflexivity|intros; exact I|intros; exact I]|intros b1 _]. eapply lexes_cat; [apply flow_break, He|intros b2 Hb2].
        eapply lexes_cat; [apply flow_lines; [exact Hl|exact Hb2]|intros b3 Hb3]. apply lexes_spaces; [reflexivity|exact Hb3].
      + exact HP.
      + intros x (x0 & y & -> & (H1 & _) & x1 & y1 & -> & (tk & -> & H2) & x2 & y2 & -> & (t & H3) & H4 & H5 & _). cbn [app].
        eapply sep_lines; [exact H1|]. constructor; [exact H2|exact H3|exact H4|lia].
  Qed.
  Lemma sep_end n ctx w c r : sep_text n w -> In c [44; 93; 125] -> ending (CFlow :: ctx) (w ++ c :: r).
  Proof.
    intros [a|a e l m He _ _] H; (destruct a as [|a]; [|left; left; reflexivity]); [|destruct He; cbn; auto].
    left. do 3 right. exact H.
  Qed.
  Lemma spaces_colon ctx n r : blank_flow_or_eof (list_look 1 r) = true -> ending (CFlow :: ctx) (spaces n ++ 58 :: r).
  Proof. intro H. destruct n as [|n]; [|left; left; reflexivity]. right. split; [reflexivity|exact H]. Qed.
  Lemma quoted_plain t ts : scalar t ts -> quoted t -> ~ is_plain ts.
  Proof.
    intros [s x H|o x c H1 H2 H3|o x c H1 H2 H3] (y & [E|E]) (z & P); try discriminate;
      inversion P as [? W|? ? ? ? W]; subst; destruct W as [W _]; congruence.
  Qed.

  Theorem lexes_flows n :
    (forall h t s, flow_text n h t s -> forall ctx b (r : text), place ctx -> ready ctx b t -> ending ctx r -> (length (s ++ r) < fuel)%nat ->
       lexes ctx ctx b s any r (flow n h t)) /\
    (forall kind h e s, item_text n kind h e s -> forall ctx b w c (r : text), may (CFlow :: ctx) b -> sep_text n w -> In c [44; 93; 125] ->
       (length (s ++ w ++ c :: r) < fuel)%nat ->
       lexes (CFlow :: ctx) (CFlow :: ctx) b s any (w ++ c :: r) (item n kind h e)) /\
    (forall kind h es s, items_text n kind h es s -> forall ctx b c (r : text), may (CFlow :: ctx) b -> In c [93; 125] ->
       (length (s ++ c :: r) < fuel)%nat ->
       lexes (CFlow :: ctx) (CFlow :: ctx) b s any (c :: r) (items n kind h es)).
  Proof.
    apply flow_text_ind2.
    - intros h t s [Hs Hc] ctx b r Hp Hb Hr Hf. eapply lexes_to; [apply lexes_scalar; eauto using ready_scalars, ending_quote|].
      intros x Hx. constructor. exact Hx.
    - intros kind h w Hw ctx b r Hp [Hb|(_ & (s & q & E) & _)] Hr Hf; [|destruct kind; discriminate].
      change (opening kind :: w ++ [closing kind]) with ([opening kind] ++ w ++ [closing kind]). eapply lexes_to.
      + eapply lexes_cat; [apply lexes_open; assumption|intros b1 Hb1].
        eapply lexes_cat; [apply (lexes_sep n ctx w b1 _ any Hw); [intros; exact I|exact I]|intros b2 _; apply lexes_close].
      + intros x (x0 & y0 & -> & (o & -> & Ho & _) & x1 & y1 & -> & H1 & c & -> & Hc & _). cbn [app]. constructor; assumption.
    - intros kind h w es s Hw Hs IH ctx b r Hp [Hb|(_ & (s0 & q & E) & _)] Hr Hf; [|destruct kind; discriminate].
      change (opening kind :: w ++ s ++ [closing kind]) with ([opening kind] ++ w ++ s ++ [closing kind]). eapply lexes_to.
      + eapply lexes_cat; [apply lexes_open; assumption|intros b1 Hb1].
        eapply lexes_cat; [apply (lexes_sep n ctx w b1 _ (may (CFlow :: ctx)) Hw); auto|intros b2 Hb2].
        eapply lexes_cat; [|intros b3 _; apply lexes_close]. cbn [app]. apply IH; [exact Hb2|destruct kind; cbn; tauto|]. len.
      + intros x (x0 & y0 & -> & (o & -> & Ho & _) & x1 & y1 & -> & H1 & x2 & y2 & -> & H2 & c & -> & Hc & _). cbn [app]. constructor; assumption.
    - intros h t s Hs IH ctx b w c r Hb Hw Hc Hf. eapply lexes_to; [apply IH; [reflexivity|left; exact Hb|eapply sep_end; eassumption|exact Hf]|].
      intros x Hx. constructor. exact Hx.
    - intros h k s [Hs Hc] ctx b w c r Hb Hw Hi Hf. pose proof (sep_end n ctx w c r Hw Hi) as He.
      eapply lexes_to; [apply lexes_scalar; eauto using may_scalars, ending_quote; reflexivity|]. intros x Hx. constructor. exact Hx.
    - intros kind h k ks n1 n2 t s [Hk Hc] Ht Hs IH ctx b w c r Hb Hw Hi Hf. pose proof (sep_end n ctx w c r Hw Hi) as He.
      set (R := w ++ c :: r) in *.
      change (58 :: spaces n2 ++ s) with ([58] ++ spaces n2 ++ s). eapply lexes_to.
      + eapply lexes_cat; [apply lexes_scalar; [reflexivity|exact Hk|apply may_scalars; auto| | |]|intros b1 Hb1].
        * destruct n1; discriminate.
        * destruct n2 as [|n2]; [left; apply Ht; reflexivity|right]. rewrite <- app_assoc. apply spaces_colon. reflexivity.
        * rewrite <- app_assoc in Hf. exact Hf.
        * eapply lexes_cat; [apply (lexes_blanks (fun b2 => n2 = O -> is_quote b2)); [reflexivity| | ]|intros b2 Hb2].
          -- intros N b2 _ E. destruct (Ht E) as (-> & _). congruence.
          -- intros _ E. apply Hb1, (Ht E).
          -- eapply lexes_cat; [apply flow_colon|intros b3 ->].
             ++ destruct n2 as [|n2]; [right; auto|left; reflexivity].
             ++ eapply lexes_cat; [apply (lexes_blanks (fun b4 => ready (CFlow :: ctx) b4 t)); [reflexivity| |]|intros b4 Hb4; apply IH; [reflexivity|exact Hb4|exact He|]].
                ** intros _ b4 Hb4. left. auto.
                ** intro E. right. split; [discriminate|]. split; [apply (Ht E)|reflexivity].
                ** len.
      + intros x (x0 & y0 & -> & H1 & x1 & y1 & -> & (H2 & _) & x2 & y2 & -> & (co & -> & Hco & _) & x3 & y3 & -> & (H3 & L3 & _) & H4).
        cbn [app]. constructor; auto. intros Hp E. subst x3. cbn in L3. destruct (Ht (eq_sym L3)) as (_ & Hq & _). eapply quoted_plain; eassumption.
    - intros kind h e s w He IH Hw ctx b c r Hb Hc Hf. eapply lexes_to.
      + eapply lexes_cat; [apply IH; [exact Hb|exact Hw|cbn in Hc |- *; tauto|rewrite <- app_assoc in Hf; exact Hf]|intros b1 _].
        apply (lexes_sep n ctx w b1 _ any Hw); [intros; exact I|exact I].
      + intros x (x0 & y0 & -> & H1 & H2). constructor; assumption.
    - intros kind h e s w w2 He IH Hw Hw2 ctx b c r Hb Hc Hf. change (44 :: w2) with ([44] ++ w2). eapply lexes_to.
      + eapply lexes_cat; [rewrite <- !app_assoc; apply IH; [exact Hb|exact Hw|cbn; tauto|len]|intros b1 _].
        eapply lexes_cat; [apply (lexes_sep n ctx w b1 _ any Hw); [intros; exact I|exact I]|intros b2 _].
        eapply lexes_cat; [apply flow_comma|intros b3 _]. apply (lexes_sep n ctx w2 b3 _ any Hw2); [intros; exact I|exact I].
      + intros x (x0 & y0 & -> & H1 & x1 & y1 & -> & H2 & x2 & y2 & -> & (co & -> & Hco & _) & H3). cbn [app]. constructor; assumption.
    - intros kind h e s w w2 es s2 He IH Hw Hw2 Hes IH2 ctx b c r Hb Hc Hf. change (44 :: w2 ++ s2) with ([44] ++ w2 ++ s2). eapply lexes_to.
      + eapply lexes_cat; [rewrite <- !app_assoc; apply IH; [exact Hb|exact Hw|cbn; tauto|len]|intros b1 _].
        eapply lexes_cat; [apply (lexes_sep n ctx w b1 _ any Hw); [intros; exact I|exact I]|intros b2 _].
        eapply lexes_cat; [apply flow_comma|intros b3 Hb3]. eapply lexes_cat; [apply (lexes_sep n ctx w2 b3 _ (may (CFlow :: ctx)) Hw2); auto|intros b4 Hb4].
        apply IH2; [exact Hb4|exact Hc|]. len.
      + intros x (x0 & y0 & -> & H1 & x1 & y1 & -> & H2 & x2 & y2 & -> & (co & -> & Hco & _) & x3 & y3 & -> & H3 & H4). cbn [app]. constructor; assumption.
  Qed.

End Segments.
