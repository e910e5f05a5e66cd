(** The tokens of scalars over several lines. *)
From Coq Require Import String.
From Verif Require Import Base YamlChar YamlCharSpec YamlCharProofs Token Ast CPAccessor Lexer LexerProofs Parser ParserTape
  RoundTripSpec TapeRules BlockParse1 BlockParse2 BlockParse3 BlockParse4 FlowParse1 FlowParse2 FoldParse FlowParse4 LeafParse LexText BlockText TextSpec.
Local Open Scope N_scope.

(** outside of brackets, or inside of quotes *)
Definition inline (ctx : list ctx_type) : Prop := ctx = [] \/ ctx = [CSingle] \/ ctx = [CDouble].

Lemma quote_room q : q = 39 \/ q = 34 -> inline [quote_ctx q].
Proof. intros [-> | ->]; unfold inline; cbn; auto. Qed.
Lemma quote_break_stopper q r : q = 39 \/ q = 34 -> match r with c :: _ => In c [10; 13] | [] => False end -> stopper [quote_ctx q] r.
Proof.
  intros Hq H p. destruct r as [|c s]; [tauto|]. cbn [tl list_next fst].
  destruct H as [<-|[<-|[]]]; [destruct Hq as [-> | ->]; do 2 eexists; split; reflexivity|].
  destruct s as [|x s]; [destruct Hq as [-> | ->]; do 2 eexists; split; reflexivity|].
  destruct Hq as [-> | ->]; unfold match_special, base_matching, lookahead; cbn; destruct (x =? ch_lf); do 2 eexists; split; reflexivity.
Qed.

Section Folds.
  Context (fuel : nat) (some_fuel : (0 < fuel)%nat).
  Notation lexes := (lexes fuel).

  Lemma room_space ctx b r : inline ctx -> lexes ctx ctx b [32] starts r (oneof TSpace [32]).
  Proof.
    intro Hc. eapply lexes_weak; [apply lexes_one; [exact some_fuel|]| |intros x H; exact H].
    - intro p. do 2 eexists. destruct Hc as [-> |[-> | ->]]; reflexivity.
    - intros x ->. reflexivity.
  Qed.
  Lemma room_run n : forall ctx b r, inline ctx -> starts b -> lexes ctx ctx b (spaces n) starts r (spacing n).
  Proof.
    induction n as [|n IH]; intros ctx b r Hc Hb.
    - intro p. exists [], p, b. split; [exact Hb|]. split; [repeat split; constructor|]. auto.
    - change (spaces (S n)) with ([32] ++ spaces n). apply (lexes_seq fuel ctx ctx ctx b [32] starts (spaces n) r (oneof TSpace [32]) _ (spacing n)); [apply room_space, Hc| |].
      + intros b1 Hb1. apply IH; auto.
      + intros x y (tk & -> & H1 & H2) (H3 & H4 & H5). cbn. split; [constructor; assumption|]. split; [cbn; lia|].
        unfold origins in *. cbn. rewrite H2, H5. reflexivity.
  Qed.
  Lemma room_line ctx b r : inline ctx -> lexes ctx ctx b [10] starts r (oneof TLineBreak [10]).
  Proof.
    intro Hc. eapply lexes_weak; [apply lexes_one; [exact some_fuel|]| |intros x H; exact H].
    - intro p. do 2 eexists. destruct Hc as [-> |[-> | ->]]; reflexivity.
    - intros x ->. reflexivity.
  Qed.
  Lemma room_break ctx b e r : inline ctx -> break_text e -> lexes ctx ctx b e starts r (fun ts => exists tk, ts = [tk] /\ tok_type tk = TLineBreak).
  Proof.
    intros Hc [|].
    - eapply lexes_weak; [apply room_line, Hc|auto|]. intros x (tk & -> & H & _). eauto.
    - intro p. set (cur := mkPos (row p) (column p + 1)).
      exists [mkTok TLineBreak cur (mkPos (row cur) (column cur + 1)) [13; 10] 0], (mkPos (row cur + 1) 0), TLineBreak.
      split; [reflexivity|]. split; [eauto|]. intros tl Hl. eapply lg_cons; [|reflexivity|exact Hl]. unfold lex_next. cbn [lx_prepared st].
      destruct fuel; [lia|]. destruct Hc as [-> |[-> | ->]]; reflexivity.
  Qed.
  Lemma room_empty ctx k s : inline ctx -> empty_text k s -> forall b r, starts b ->
    lexes ctx ctx b s starts r (fun ts => hollow (repeat 10 k) ts /\ (ts = [] <-> k = O)).
  Proof.
    intros Hc. induction 1 as [|k m s H IH]; intros b r Hb.
    - intro p. exists [], p, b. split; [exact Hb|]. split; [split; [constructor|tauto]|auto].
    - change (10 :: s) with ([10] ++ s). eapply lexes_weak.
      + eapply lexes_cat; [apply room_run; [exact Hc|exact Hb]|intros b1 _]. eapply lexes_cat; [apply room_line, Hc|intros b2 Hb2; apply IH, Hb2].
      + auto.
      + intros x (x0 & y & -> & (H1 & _) & x1 & y1 & -> & (tk & -> & H2 & H3) & H4 & _). cbn [app].
        split; [|destruct x0; split; discriminate]. change (repeat 10 (S k)) with ([10] ++ repeat 10 k). rewrite <- H3. constructor; auto.
  Qed.
  Lemma lexes_seam n ctx w j b r : inline ctx -> seam_text n w j -> lexes ctx ctx b j starts r (seam n w).
  Proof.
    intros Hc [e k l m He Hl Hm]. eapply lexes_weak.
    - eapply lexes_cat; [apply room_break; auto|intros b1 Hb1]. eapply lexes_cat; [apply (room_empty ctx k); auto|intros b2 Hb2].
      apply room_run; auto.
    - auto.
    - intros x (x0 & y & -> & (tk & -> & H1) & x1 & y1 & -> & (H2 & H3) & H4 & H5 & _). cbn [app].
      assert (E : folding k = fold_text x1 (repeat 10 k)).
      { destruct k as [|k]; [rewrite (proj2 H3) by reflexivity; reflexivity|]. destruct x1; [destruct H3 as [H3 _]; discriminate (H3 eq_refl)|reflexivity]. }
      rewrite E. constructor; auto. lia.
  Qed.
  Lemma seam_start n w j r : seam_text n w j -> match j ++ r with c :: _ => In c [10; 13] | [] => False end.
  Proof. intros [e k l m He _ _]. destruct He; cbn; auto. Qed.

  (** ** unquoted *)
  Lemma more_ended n v m a r : plain_more_text n v m -> ended r -> a = O -> ended (m ++ r).
  Proof.
    intros [|k w j s v2 r2 Hj _ _] Hr _; [exact Hr|]. rewrite <- app_assoc. destruct k; [|cbn; auto].
    cbn [spaces repeat app]. rewrite <- app_assoc. pose proof (seam_start n w j ((s ++ r2) ++ r) Hj) as E. destruct (j ++ (s ++ r2) ++ r); [tauto|]. cbn in E |- *. intuition.
  Qed.
  Lemma lexes_more n v m : plain_more_text n v m -> forall b r, ended r -> (length (m ++ r) < fuel)%nat -> lexes [] [] b m any r (plain_rest n v).
  Proof.
    induction 1 as [|a w j s v m Hj Hs Hm IH]; intros b r Hr Hf.
    - intro p. exists [], p, b. split; [exact I|]. split; [constructor|auto].
    - eapply lexes_to.
      + eapply lexes_cat; [apply lexes_run; [exact some_fuel|exact I]|intros b1 _].
        eapply lexes_cat; [apply (lexes_seam n [] w); [left; reflexivity|exact Hj]|intros b2 Hb2].
        eapply lexes_cat; [apply lexes_plain; [exact some_fuel|exact Hs|exact I|left; reflexivity|eapply (more_ended n v m O); eauto|len]|intros b3 _; apply IH; [exact Hr|len]].
      + intros x (x0 & y & -> & (H1 & _) & x1 & y1 & -> & H2 & x2 & y2 & -> & H3 & H4). constructor; auto.
  Qed.

  (** ** quoted *)
  Section Quoted.
    Context (q : rune) (cs : charset) (char : rune -> Prop) (Hq : q = 39 \/ q = 34) (Hchar : forall c, char c -> quoted_char q c)
      (Hcs : forall w, Forall char w -> conforms_charset w cs = true).
    Lemma more_stopper n v m r : quoted_more_text n char v m -> hd 0 r <> 39 -> stopper [quote_ctx q] (m ++ q :: r).
    Proof.
      intros [|w j Hj|w j s v2 r2 Hj _ _ _ _ _] Hr.
      - apply quoted_stopper; auto.
      - apply quote_break_stopper; [exact Hq|]. eapply seam_start, Hj.
      - apply quote_break_stopper; [exact Hq|]. rewrite <- app_assoc. eapply seam_start, Hj.
    Qed.
    Lemma lexes_content s r b : Forall char s -> stopper [quote_ctx q] r -> (length (s ++ r) < fuel)%nat ->
      lexes [quote_ctx q] [quote_ctx q] b s any r (fun ts => Forall (fits cs) ts /\ origins ts = s /\
        (s <> [] -> ~ blank (hd 0 s) -> exists x ts2, ts = x :: ts2 /\ tok_type x = TString /\ conforms x cs = true)).
    Proof.
      intros Hs Hr Hf p. destruct (quoted_content fuel some_fuel q [] cs r I Hq Hr s) with (b := b) (p := p) as (ts & p2 & b2 & K1 & K2 & K3 & K4); auto.
      - eapply Forall_impl; [exact Hchar|exact Hs].
      - intros w Hw. apply Hcs. eapply Forall_incl; eassumption.
      - exists ts, p2, b2. split; [exact I|]. split; [|exact K4]. split; [exact K1|]. split; [exact K2|]. intros E B. apply K3; [exact E|].
        unfold blank in B. tauto.
    Qed.
    Lemma lexes_quoted_more n v m : quoted_more_text n char v m -> forall b r, hd 0 r <> 39 -> (length (m ++ q :: r) < fuel)%nat ->
      lexes [quote_ctx q] [quote_ctx q] b m any (q :: r) (quoted_rest n cs v).
    Proof.
      induction 1 as [|w j Hj|w j s v m Hj Hs Hc Hb Hl Hm IH]; intros b r Hr Hf.
      - intro p. exists [], p, b. split; [exact I|]. split; [constructor|auto].
      - eapply lexes_to; [apply (lexes_seam n [quote_ctx q] w); [apply quote_room, Hq|exact Hj]|]. intros x H. constructor. exact H.
      - eapply lexes_to.
        + eapply lexes_cat; [apply (lexes_seam n [quote_ctx q] w); [apply quote_room, Hq|exact Hj]|intros b1 _].
          eapply lexes_cat; [apply lexes_content; [exact Hc|eapply more_stopper; eassumption|len]|intros b2 _; apply IH; [exact Hr|len]].
        + intros x (x0 & y & -> & H1 & x1 & y1 & -> & (H2 & H3 & H4) & H5). destruct (H4 Hs Hb) as (tk & ts & -> & T1 & T2).
          rewrite <- H3. inversion H2; subst. cbn [app]. apply qr_line; auto.
    Qed.
    Lemma lexes_quoted n b s v m r : Forall char s -> quoted_more_text n char v m -> hd 0 r <> 39 -> (length ((q :: s ++ m ++ [q]) ++ r) < fuel)%nat ->
      lexes [] [] b (q :: s ++ m ++ [q]) any r (fun ts => exists o c x y, ts = o :: x ++ y ++ [c] /\ tok_type o = quote_tok q /\ tok_type c = quote_tok q /\
        Forall (fits cs) x /\ origins x = s /\ quoted_rest n cs v y).
    Proof.
      intros Hs Hm Hr Hf. change (q :: s ++ m ++ [q]) with ([q] ++ s ++ m ++ [q]). eapply lexes_to.
      - eapply lexes_cat with (c2 := [quote_ctx q]); [apply (lexes_one fuel [] [quote_ctx q] b q _ (quote_tok q) some_fuel)|intros b1 _].
        { intro p. do 2 eexists. destruct Hq as [-> | ->]; reflexivity. }
        eapply lexes_cat; [apply lexes_content; [exact Hs|rewrite <- app_assoc; eapply more_stopper; eassumption|len]|intros b2 _].
        eapply lexes_cat; [apply (lexes_quoted_more n v m Hm); [exact Hr|len]|intros b3 _].
        apply (lexes_one fuel [quote_ctx q] [] b3 q r (quote_tok q) some_fuel).
        intro p0. exists p0, p0. destruct Hq as [-> | ->]; cbn [quote_ctx quote_tok N.eqb Pos.eqb]; [|reflexivity].
        reading. cbn [N.eqb Pos.eqb]. rewrite lookahead_list. cbn [lx_src st].
        assert (E : match list_look 1 r with Some x :: _ => negb (x =? 39) | _ => true end = true).
        { destruct r as [|x r]; [reflexivity|]. cbn in *. apply negb_true_iff, N.eqb_neq, Hr. }
        rewrite E. reflexivity.
      - intros z (x0 & y0 & -> & (o & -> & O1 & _) & x & y1 & -> & (X1 & X2 & _) & y & z1 & -> & Y & c & -> & C1 & _). exists o, c, x, y. auto 8.
    Qed.
  End Quoted.

  Lemma lexes_bare n t s b r : bare_text n t s -> starts b -> ended r -> (length (s ++ r) < fuel)%nat -> lexes [] [] b s any r (FlowParse4.inner n t).
  Proof.
    intros [t0 s0 Hs|h t0 s0 Hh Hs|s0 v m Hs Hm|s0 v m Hs _ Hm|s0 v m Hs _ Hm] Hb Hr Hf.
    - eapply lexes_to; [apply block_scalar; eassumption|]. intros x Hx. apply inner_scalar, Hx.
    - eapply lexes_to; [apply (proj1 (lexes_flows fuel some_fuel n) h t0 s0 Hs [] b r I (or_introl Hb) Hr Hf)|]. intros x Hx. left. exists h. auto.
    - eapply lexes_to.
      + eapply lexes_cat; [apply lexes_plain; [exact some_fuel|exact Hs|exact I|left; reflexivity|eapply (more_ended n v m O); eauto|len]|intros b3 _; apply (lexes_more n v m Hm); [exact Hr|len]].
      + intros x (x0 & y & -> & H1 & H2). right. constructor; assumption.
    - eapply lexes_to; [apply (lexes_quoted 39 CsSingleQuoted single_char); eauto|].
      + intros c [H1 H2]. cbn in H2. unfold quoted_char. cbn. repeat split; try discriminate; lia.
      + intros w Hw. apply (single_conforms fuel some_fuel); exact Hw.
      + apply (ending_quote []), Hr.
      + intros z (o & c & x & y & -> & H1 & H2 & H3 & <- & H5). right. constructor; assumption.
    - eapply lexes_to; [apply (lexes_quoted 34 CsDoubleQuoted double_char); eauto|].
      + intros c [H1 H2]. cbn in H2. unfold quoted_char. cbn. repeat split; intros; lia.
      + intros w Hw. apply (double_conforms fuel some_fuel); [exact Hw|constructor].
      + apply (ending_quote []), Hr.
      + intros z (o & c & x & y & -> & H1 & H2 & H3 & <- & H5). right. constructor; assumption.
  Qed.

  (** ** aliases, anchors and tags *)
  Lemma lexes_sign b c r ty : starts b -> c = 38 /\ ty = TAnchor \/ c = 42 /\ ty = TAlias -> lexes [] [] b [c] any r (oneof ty [c]).
  Proof.
    intros Hb Hc. eapply lexes_weak; [apply lexes_one; [exact some_fuel|]|intros; exact I|intros x H; exact H].
    intro p. exists p, p. destruct Hc as [[-> ->]|[-> ->]]; reading; cbn [N.eqb Pos.eqb]; unfold lookbehind; cbn [lx_behind st]; rewrite Hb; reflexivity.
  Qed.
  Lemma lexes_name b c w r ty : starts b -> c = 38 /\ ty = TAnchor \/ c = 42 /\ ty = TAlias -> plain_word w -> ended r -> (length ((c :: w) ++ r) < fuel)%nat ->
    lexes [] [] b (c :: w) any r (fun ts => exists a x, ts = [a; x] /\ tok_type a = ty /\ tok_type x = TString /\ conforms x CsAnchor = true /\ tok_origin x = w).
  Proof.
    intros Hb Hc Hw Hr Hf. change (c :: w) with ([c] ++ w). eapply lexes_to.
    - eapply lexes_cat; [apply lexes_sign; eassumption|intros b1 _]. apply (lexes_word fuel some_fuel [] b1 w r I Hw (or_introl eq_refl) Hr). len.
    - intros z (x & y & -> & (a & -> & A1 & _) & tk & -> & [T1 T2] & T3). exists a, tk. auto.
  Qed.
  Lemma lexes_alias b w r n : starts b -> plain_word w -> ended r -> (length ((42%N :: w) ++ r) < fuel)%nat -> lexes [] [] b (42 :: w) any r (leaf n (NAlias w)).
  Proof.
    intros Hb Hw Hr Hf. eapply lexes_to; [apply (lexes_name b 42 w r TAlias); auto|].
    intros x (a & tk & -> & A & T1 & T2 & <-). right. left. constructor; assumption.
  Qed.
  (** what ends a tag or an anchor *)
  Definition off (c : rune) : Prop := c = 32 \/ c = 10 \/ c = 13.
  Lemma lexes_anchor b a s c r : starts b -> anchor_text a s -> off c -> (length (s ++ c :: r) < fuel)%nat -> lexes [] [] b s any (c :: r) (anchor_of a).
  Proof.
    intros Hb [w Hw] Hc Hf. eapply lexes_to; [apply (lexes_name b 38 w _ TAnchor); auto; unfold off in Hc; cbn; tauto|].
    intros x (t & tk & -> & A & T1 & T2 & <-). constructor; assumption.
  Qed.
  Lemma alnum_class c : alnum c -> is_digit c || is_ascii_letter c = true.
  Proof. unfold alnum, is_digit, is_ascii_letter. lia. Qed.
  Lemma handle_tag_inert b c r : handle_char c \/ tag_char c -> inert [CTag] b c r.
  Proof.
    intros H p. unfold match_special, tag_matching, ch_tag. cbn [lx_raw lx_ctx st current_type].
    assert (N : ~ In c [9; 10; 13; 32; 65279; 33]).
    { unfold handle_char, tag_char, alnum in H. cbn in *. intuition lia. }
    destruct (N.eqb_spec c 33); [subst c; exfalso; apply N; cbn; tauto|]. apply base_none. clear H. intro K. apply N. cbn in K |- *. tauto.
  Qed.
  Lemma tag_stopper c r : off c \/ c = 33 -> stopper [CTag] (c :: r).
  Proof.
    intros [[-> |[-> | ->]]| ->] p; try (do 2 eexists; split; reflexivity). destruct r as [|x r]; [do 2 eexists; split; reflexivity|].
    unfold match_special. cbn [lx_raw lx_ctx st current_type]. unfold tag_matching, base_matching, lookahead. cbn. destruct (x =? ch_lf); do 2 eexists; split; reflexivity.
  Qed.
  Lemma lexes_tag_word b w c r : w <> [] -> Forall (fun c => handle_char c \/ tag_char c) w -> off c \/ c = 33 -> (length (w ++ c :: r) < fuel)%nat ->
    lexes [CTag] [CTag] b w any (c :: r) (fun ts => exists tk, ts = [tk] /\ tok_type tk = TString /\ tok_origin tk = w).
  Proof.
    intros Hn Hw Hc Hf p. destruct w as [|x w]; [congruence|]. inversion Hw as [|? ? Hx Hy]; subst.
    destruct (lex_word fuel [CTag] b p x w (c :: r)) as (tk & p2 & H1 & H2 & H3); [apply handle_tag_inert, Hx| |apply tag_stopper, Hc|len|].
    { intros u z v E. subst w. apply Forall_app in Hy as [_ Hy]. inversion Hy; subst. apply handle_tag_inert. assumption. }
    exists [tk], p2, TString. split; [exact I|]. split; [exists tk; auto|exact H3].
  Qed.
  Lemma lexes_exclaim ctx b r : ctx = [] \/ ctx = [CTag] -> lexes ctx [CTag] b [33] any r (oneof TTag [33]).
  Proof.
    intro Hc. eapply lexes_weak; [apply lexes_one; [exact some_fuel|]|intros; exact I|intros x H; exact H].
    intro p. exists p, p. destruct Hc as [-> | ->]; reflexivity.
  Qed.
  Lemma tag_conforms w tk : Forall tag_char w -> tok_origin tk = w -> conforms tk CsTag = true.
  Proof.
    intros H E. unfold conforms. rewrite E. cbn [conforms_charset]. clear E. induction H as [|c w Hc _ IH]; [reflexivity|].
    cbn [is_tag_string]. rewrite IH, andb_true_r. destruct (N.eqb_spec c 37) as [->|_].
    { exfalso. unfold tag_char, alnum in Hc. cbn in Hc. intuition lia. }
    destruct Hc as [Hc|Hc]; [rewrite (alnum_class c Hc); reflexivity|]. replace (rune_in c tag_only_chars) with true; [rewrite orb_true_r; reflexivity|].
    symmetry. unfold rune_in, tag_only_chars. apply existsb_exists. exists c. split; [exact Hc|apply N.eqb_refl].
  Qed.
  Lemma handle_conforms w tk : Forall handle_char w -> tok_origin tk = w -> conforms tk CsWord = true.
  Proof.
    intros H E. unfold conforms. rewrite E. cbn [conforms_charset]. apply forallb_forall. intros c Hc. rewrite Forall_forall in H.
    destruct (H c Hc) as [K|K]; [rewrite (alnum_class c K); reflexivity|subst c; reflexivity].
  Qed.
  Lemma lexes_tag b t s c r : tag_text t s -> off c -> (length (s ++ c :: r) < fuel)%nat -> lexes [] [CTag] b s any (c :: r) (tag_of t).
  Proof.
    assert (W : forall w, Forall tag_char w -> Forall (fun c => handle_char c \/ tag_char c) w) by (intros w H; eapply Forall_impl; [|exact H]; auto).
    intros [w Hn Hw|w Hn Hw|h w Hh Hk Hn Hw] Hc Hf.
    - change (33 :: w) with ([33] ++ w). eapply lexes_to.
      + eapply lexes_cat; [apply lexes_exclaim; auto|intros b1 _]. apply lexes_tag_word; auto. len.
      + intros z (x & y & -> & (a & -> & A1 & _) & tk & -> & T1 & <-). constructor; auto. eapply tag_conforms; eauto.
    - change (33 :: 33 :: w) with ([33] ++ [33] ++ w). eapply lexes_to.
      + eapply lexes_cat; [apply lexes_exclaim; auto|intros b1 _]. eapply lexes_cat; [apply lexes_exclaim; auto|intros b2 _]. apply lexes_tag_word; auto. len.
      + intros z (x & y & -> & (a & -> & A1 & _) & x2 & y2 & -> & (a2 & -> & A2 & _) & tk & -> & T1 & <-). apply (tag_two a a2 tk); auto. eapply tag_conforms; eauto.
    - change (33 :: h ++ 33 :: w) with ([33] ++ h ++ [33] ++ w). eapply lexes_to.
      + eapply lexes_cat; [apply lexes_exclaim; auto|intros b1 _].
        eapply lexes_cat; [change (([33] ++ w) ++ c :: r) with (33 :: w ++ c :: r); apply lexes_tag_word; auto; [eapply Forall_impl; [|exact Hk]; auto|len]|intros b2 _].
        eapply lexes_cat; [apply lexes_exclaim; auto|intros b3 _]. apply lexes_tag_word; auto. len.
      + intros z (x & y & -> & (a & -> & A1 & _) & x1 & y1 & -> & (th & -> & H1 & H2) & x2 & y2 & -> & (a2 & -> & A2 & _) & tk & -> & T1 & <-).
        apply (tag_named a th a2 tk); auto; [eapply handle_conforms; eauto|eapply tag_conforms; eauto].
  Qed.
  (** spaces after a tag or an anchor *)
  Lemma lexes_off ctx b m r : ctx = [] \/ ctx = [CTag] -> lexes ctx [] b (spaces (S m)) starts r (spacing (S m)).
  Proof.
    intros Hc. change (spaces (S m)) with ([32] ++ spaces m).
    apply (lexes_seq fuel ctx [] [] b [32] starts (spaces m) r (oneof TSpace [32]) _ (spacing m)).
    - eapply lexes_weak; [apply lexes_one; [exact some_fuel|]| |intros x H; exact H].
      + intro p. do 2 eexists. destruct Hc as [-> | ->]; reflexivity.
      + intros x ->. reflexivity.
    - intros b1 Hb1. apply lexes_spaces; auto. exact I.
    - intros x y (tk & -> & H1 & H2) (H3 & H4 & H5). cbn. split; [constructor; assumption|]. split; [cbn; lia|].
      unfold origins in *. cbn. rewrite H2, H5. reflexivity.
  Qed.
  Definition spacer (ts : list token) : Prop := blanks ts /\ ts <> [].
  Lemma spacing_spacer m ts : spacing (S m) ts -> spacer ts.
  Proof. intros (H1 & H2 & _). split; [exact H1|]. intros ->. discriminate. Qed.
  Lemma lexes_mark b t s m r : starts b -> tag_text t s \/ anchor_text t s -> (length (s ++ spaces (S m) ++ r) < fuel)%nat ->
    lexes [] [] b (s ++ spaces (S m)) starts r (cat (fun ts => tag_text t s /\ tag_of t ts \/ anchor_text t s /\ anchor_of t ts) spacer).
  Proof.
    intros Hb [H|H] Hf.
    - apply (lexes_seq fuel [] [CTag] [] b s any (spaces (S m)) r (tag_of t) starts (spacing (S m))); [apply lexes_tag; [exact H|left; reflexivity|exact Hf]|intros; apply lexes_off; auto|].
      intros x y Hx Hy. exists x, y. split; [reflexivity|]. split; [auto|eapply spacing_spacer, Hy].
    - apply (lexes_seq fuel [] [] [] b s any (spaces (S m)) r (anchor_of t) starts (spacing (S m))); [apply lexes_anchor; [exact Hb|exact H|left; reflexivity|exact Hf]|intros; apply lexes_off; auto|].
      intros x y Hx Hy. exists x, y. split; [reflexivity|]. split; [auto|eapply spacing_spacer, Hy].
  Qed.
  Lemma tag_not_anchor t s : tag_text t s -> anchor_text t s -> False.
  Proof. intros H1 H2. destruct H1; inversion H2. Qed.
  Lemma lexes_props b p s m r : starts b -> props_text p s -> (length (s ++ spaces (S m) ++ r) < fuel)%nat ->
    lexes [] [] b (s ++ spaces (S m)) starts r (cat (props NInvalid p) spacer).
  Proof.
    intros Hb [t s0 H|a s0 H|t s0 k a s2 H H2|t s0 k a s2 H H2] Hf.
    - eapply lexes_weak; [apply (lexes_mark b t); auto|auto|]. intros z (x & y & -> & [[_ X]|[X _]] & Y); [|destruct (tag_not_anchor _ _ H X)].
      exists x, y. split; [reflexivity|]. split; [constructor; exact X|exact Y].
    - eapply lexes_weak; [apply (lexes_mark b a); auto|auto|]. intros z (x & y & -> & [[X _]|[_ X]] & Y); [destruct (tag_not_anchor _ _ X H)|].
      exists x, y. split; [reflexivity|]. split; [constructor; exact X|exact Y].
    - replace ((s0 ++ spaces (S k) ++ s2) ++ spaces (S m)) with ((s0 ++ spaces (S k)) ++ s2 ++ spaces (S m)) by (rewrite <- !app_assoc; reflexivity).
      eapply lexes_weak; [eapply lexes_cat; [apply (lexes_mark b t); [exact Hb|auto|len]|intros b1 Hb1; apply (lexes_mark b1 a); [exact Hb1|auto|len]]|auto|].
      intros z (x & y & -> & (x1 & y1 & -> & [[_ X]|[X _]] & Y) & x2 & y2 & -> & [[X2 _]|[_ X2]] & Y2);
        [destruct (tag_not_anchor _ _ X2 H2)| |destruct (tag_not_anchor _ _ H X)..].
      exists (x1 ++ y1 ++ x2), y2. split; [rewrite <- !app_assoc; reflexivity|]. split; [|exact Y2]. destruct Y. constructor; assumption.
    - replace ((s0 ++ spaces (S k) ++ s2) ++ spaces (S m)) with ((s0 ++ spaces (S k)) ++ s2 ++ spaces (S m)) by (rewrite <- !app_assoc; reflexivity).
      eapply lexes_weak; [eapply lexes_cat; [apply (lexes_mark b a); [exact Hb|auto|len]|intros b1 Hb1; apply (lexes_mark b1 t); [exact Hb1|auto|len]]|auto|].
      intros z (x & y & -> & (x1 & y1 & -> & [[X _]|[_ X]] & Y) & x2 & y2 & -> & [[_ X2]|[X2 _]] & Y2);
        [destruct (tag_not_anchor _ _ X H)..| |destruct (tag_not_anchor _ _ H2 X2)].
      exists (x1 ++ y1 ++ x2), y2. split; [rewrite <- !app_assoc; reflexivity|]. split; [|exact Y2]. destruct Y. constructor; assumption.
  Qed.
  Lemma lexes_leaf n t s b r : leaf_text n t s -> starts b -> ended r -> (length (s ++ r) < fuel)%nat -> lexes [] [] b s any r (leaf n t).
  Proof.
    intros [t0 s0 H|w Hw|p s0 m t0 s2 Hp H] Hb Hr Hf.
    - eapply lexes_to; [apply lexes_bare; eassumption|]. intros x Hx. left. exact Hx.
    - apply lexes_alias; assumption.
    - rewrite app_assoc. eapply lexes_to.
      + eapply lexes_cat; [apply (lexes_props b p s0 m _ Hb Hp); len|intros b1 Hb1; apply (lexes_bare n t0 s2 b1 r H Hb1 Hr); len].
      + intros z (x & y & -> & (x1 & y1 & -> & X & [Y1 Y2]) & I). right. right. rewrite <- app_assoc. constructor; assumption.
  Qed.
End Folds.
