(** The tokens of block collections and of streams of documents. *)
From Coq Require Import String.
From Verif Require Import Base YamlChar YamlCharSpec YamlCharProofs Token Ast CPAccessor Lexer LexerProofs Parser ParserTape
  RoundTripSpec TapeRules BlockParse1 BlockParse2 BlockParse3 BlockParse4 LitParse FlowParse1 FlowParse2 FoldParse FlowParse4 LeafParse BlockParse5 BlockParse6 BlockParse7 LexText BlockText FoldText GapText LitText TextSpec.
Local Open Scope N_scope.
#[local] Hint Resolve line_open open_ended open_blank : core.

(** what comes before a line *)
Definition edge (o : bool) (b : ttype) : Prop := o = true -> BlockText.starts b.
Lemma literal_weak t ts : literal 0 t ts -> literal (-1) t ts.
Proof. intros [t0 ts0 []|t0 ts0 []]; [apply literal_barred; eapply literal_lines|apply literal_folded; eapply folded_lines]; eauto; lia. Qed.

Lemma literal_calm z t sps ts : literal z t ts -> ~ ends_dash (sps ++ ts).
Proof.
  intros H (a & d & E & Hd). destruct (literal_last _ _ _ H) as (a2 & y & -> & Hy). rewrite app_assoc in E. apply app_inj_tail in E as [_ ->]. congruence.
Qed.

Section Lines.
  Context (fuel : nat) (some_fuel : (0 < fuel)%nat).
  Notation lexes := (lexes fuel).
  Notation lexes_break := (lexes_break fuel some_fuel).
  Notation lexes_comment := (lexes_comment fuel some_fuel).
  Notation lexes_trailing := (lexes_trailing fuel some_fuel).
  Notation lexes_idle_line := (lexes_idle_line fuel some_fuel).
  Notation lexes_idle := (lexes_idle fuel some_fuel).
  Notation lexes_gap := (lexes_gap fuel some_fuel).

  (** ** dashes at the end *)
  Definition no_dash_token (t : token) : Prop := tok_type t <> TSequenceEntry.
  Lemma blanks_dash sps : blanks sps -> Forall no_dash_token sps.
  Proof. intro H. eapply Forall_impl; [|exact H]. unfold no_dash_token. intros t Ht E. pose proof (blank_texty t Ht) as T. unfold texty in T. rewrite E in T. discriminate. Qed.
  Lemma plain_dash s ts : plain s ts -> Forall no_dash_token ts.
  Proof.
    induction 1 as [w [H _]|w sps s ts [H _] Hs Hn Hp IH]; constructor; try (unfold no_dash_token; congruence); [constructor|].
    apply Forall_app. split; [apply blanks_dash, Hs|exact IH].
  Qed.
  Lemma scalar_dash t ts : scalar t ts -> Forall no_dash_token ts.
  Proof.
    intros [s ts2 H|o ts2 c H1 H2 H3|o ts2 c H1 H2 H3]; [eapply plain_dash, H| |];
      (constructor; [unfold no_dash_token; congruence|]; apply Forall_app; split;
        [|constructor; [unfold no_dash_token; congruence|constructor]];
        eapply Forall_impl; [|exact H2]; intros t0 F; unfold no_dash_token; destruct F as [[F _]|[F|F]]; congruence).
  Qed.
  Lemma sep_dash n s : sep n s -> Forall no_dash_token s.
  Proof. intro H. eapply Forall_impl; [|eapply sep_mild, H]. unfold mild, no_dash_token. intros x Hx E. rewrite E in Hx. intuition discriminate. Qed.
  Lemma flows_dash n :
    (forall h t ts, flow n h t ts -> Forall no_dash_token ts) /\
    (forall kind h e ts, item n kind h e ts -> Forall no_dash_token ts) /\
    (forall kind h es ts, items n kind h es ts -> Forall no_dash_token ts).
  Proof.
    assert (O : forall kind o, opens kind o -> no_dash_token o) by (intros kind o H E; unfold opens in H; rewrite E in H; destruct kind; discriminate).
    assert (C : forall kind o, closes kind o -> no_dash_token o) by (intros kind o H E; unfold closes in H; rewrite E in H; destruct kind; discriminate).
    apply flows_ind; intros; rewrite ?Forall_app; repeat (split || apply Forall_cons || rewrite Forall_app); eauto using scalar_dash, blanks_dash, sep_dash;
      unfold no_dash_token; congruence.
  Qed.
  Lemma inner_dash n t ts : FlowParse4.inner n t ts -> Forall no_dash_token ts.
  Proof.
    intros [(h & _ & H)|H]; [eapply (proj1 (flows_dash n)), H|]. eapply Forall_impl; [|eapply folded_tokens, H].
    unfold mild, no_dash_token. intros x Hx E. rewrite E in Hx. intuition discriminate.
  Qed.
  Lemma props_dash no p ts : props no p ts -> Forall no_dash_token ts.
  Proof.
    assert (T : forall t x, tag_of t x -> Forall no_dash_token x) by (intros t x []; unfold no_dash_token; repeat constructor; congruence).
    assert (A : forall t x, anchor_of t x -> Forall no_dash_token x) by (intros t x []; unfold no_dash_token; repeat constructor; congruence).
    intros []; rewrite ?Forall_app; repeat split; eauto using blanks_dash.
  Qed.
  Lemma leaf_dash n t ts : leaf n t ts -> Forall no_dash_token ts.
  Proof.
    intros [H|[[a w Ha Hw _]|[p pts sps t0 ts0 Hp Hs _ H]]]; [eapply inner_dash, H| |].
    - unfold no_dash_token. repeat constructor; congruence.
    - rewrite !Forall_app. repeat split; eauto using blanks_dash, inner_dash, props_dash.
  Qed.
  Lemma calm_end ts : Forall no_dash_token ts -> ~ ends_dash ts.
  Proof. intros H (a & d & -> & Hd). apply Forall_app in H. destruct H as [_ H]. inversion H; subst. auto. Qed.
  Lemma dash_tail a b : b <> [] -> ends_dash (a ++ b) -> ends_dash b.
  Proof.
    intros Hb (p & d & E & Hd). destruct (exists_last Hb) as (b2 & y & ->). rewrite app_assoc in E. apply app_inj_tail in E.
    destruct E as [_ ->]. exists b2, d. auto.
  Qed.
  Lemma leaf_some n t ts : leaf n t ts -> ts <> [].
  Proof. intros H ->. destruct (leaf_head _ _ _ H) as (x & r & E & _). discriminate. Qed.

  (** gaps end with a line break *)
  Lemma last_app {A} (a b : list A) d : b <> [] -> last (a ++ b) d = last b d.
  Proof. intro H. induction a as [|x a IH]; [reflexivity|]. cbn [app]. rewrite <- IH. destruct (a ++ b) eqn:E; [destruct a; [cbn in E; congruence|discriminate]|reflexivity]. Qed.
  Lemma break_last e : break_text e -> e <> [] /\ last e 0 = 10.
  Proof. intros []; split; try discriminate; reflexivity. Qed.
  Lemma idle_last s : idle_text s -> s = [] \/ last s 0 = 10.
  Proof.
    induction 1 as [|v e s Hv He Hs IH]; [left; reflexivity|right]. destruct (break_last e He) as [E1 E2].
    destruct IH as [-> | IH]; [rewrite app_nil_r, last_app; auto|].
    destruct s; [rewrite app_nil_r, last_app; auto|]. rewrite (last_app v), (last_app e); [exact IH|discriminate|destruct e; discriminate].
  Qed.
  Lemma gap_last s : gap_text s -> s <> [] /\ last s 0 = 10.
  Proof.
    intros [u e s2 Hu He Hs]. destruct (break_last e He) as [E1 E2].
    split; [destruct u, e; try discriminate; congruence|].
    rewrite last_app by (destruct e; [congruence|discriminate]). destruct (idle_last s2 Hs) as [-> | H]; [rewrite app_nil_r; exact E2|].
    destruct s2; [rewrite app_nil_r; exact E2|]. rewrite last_app by discriminate. exact H.
  Qed.
  Lemma spaces_last m : m <> O -> last (spaces m) 0 = 32.
  Proof. induction m as [|[|m] IH]; [congruence|reflexivity|intros _]. change (last (spaces (S m)) 0 = 32). auto. Qed.

  Lemma dangling_app a s : (a = [] \/ In (last a 0) [32; 10]) -> dangling s -> dangling (a ++ s).
  Proof.
    intros Ha (u & -> & Hu). exists (a ++ u). split; [rewrite app_assoc; reflexivity|].
    destruct Hu as [-> | Hu]; [rewrite app_nil_r; exact Ha|]. destruct u as [|x u]; [rewrite app_nil_r; exact Ha|].
    right. rewrite last_app by discriminate. exact Hu.
  Qed.
  Lemma dangling_gap g m s : gap_text g -> dangling s -> dangling (g ++ spaces m ++ s).
  Proof.
    intros Hg Hs. rewrite app_assoc. apply dangling_app; [|exact Hs]. right. destruct (gap_last g Hg) as [G1 G2]. destruct m as [|m].
    - replace (g ++ spaces 0) with g by (symmetry; apply app_nil_r). right. left. symmetry. exact G2.
    - rewrite last_app by discriminate. rewrite spaces_last by discriminate. cbn. auto.
  Qed.
  Lemma dangling_spaces m s : dangling s -> dangling (spaces m ++ s).
  Proof. intro H. destruct m; [exact H|]. apply dangling_app; [|exact H]. right. rewrite spaces_last by discriminate. cbn. auto. Qed.

  Lemma between_last n o g : between_text n o g -> g = [] /\ o = true \/ g <> [] /\ last g 0 = 10.
  Proof.
    intros [g2 H| |m s e l Hm Hs He Hl]; [right; apply gap_last, H|left; auto|right].
    destruct (break_last e He) as [E1 E2].
    assert (L : e ++ l <> [] /\ last (e ++ l) 0 = 10).
    { split; [destruct e; [congruence|discriminate]|].
      destruct (idle_last l Hl) as [-> |K]; [rewrite app_nil_r; exact E2|]. destruct l; [rewrite app_nil_r; exact E2|]. rewrite last_app by discriminate. exact K. }
    destruct L as [L1 L2]. split; [intro E; apply app_eq_nil in E as [_ E]; apply app_eq_nil in E as [_ E]; auto|].
    rewrite last_app; [rewrite last_app; auto|]. intro E; apply app_eq_nil in E as [_ E]; auto.
  Qed.
  Lemma literal_text_last n t s : literal_text n t s -> s <> [] /\ last s 0 = 10.
  Proof.
    assert (L : forall v k l, hollow_text v k l -> last (10 :: l) 0 = 10).
    { intros v k l Hl. assert (G : l = [] \/ last l 0 = 10).
      { induction Hl as [|k m x Hm _ IH]; [auto|]. right. rewrite last_app by discriminate. destruct IH as [-> |IH]; [reflexivity|]. destruct x; [reflexivity|exact IH]. }
      destruct G as [-> |G]; [reflexivity|]. destruct l; [reflexivity|exact G]. }
    intros [v f h u e s1 w s2 k l Hn Hh Hu He Hs Hw Hl|t0 s0 [v f h u e s1 w s2 k l Hn Hh Hu He Hs Hw Hl]];
      (split; [destruct Hh; discriminate|]); rewrite !app_assoc, last_app by discriminate; eapply L, Hl.
  Qed.
  Lemma text_last :
    (forall o kind n e s, entry_text o kind n e s -> o = true -> s <> [] /\ last s 0 = 10) /\
    (forall o kind n t s, after_text o kind n t s -> o = true -> s <> [] /\ last s 0 = 10) /\
    (forall o kind n es s, entries_text o kind n es s -> o = true -> s <> [] /\ last s 0 = 10).
  Proof.
    assert (P : forall a b : text, b <> [] /\ last b 0 = 10 -> a ++ b <> [] /\ last (a ++ b) 0 = 10).
    { intros a b [H1 H2]. split; [destruct a; [exact H1|discriminate]|]. rewrite last_app; auto. }
    apply text_ind; intros; try discriminate; auto.
    - apply (P [45]); auto.
    - apply P, P. apply (P [58]); auto.
    - eapply P, literal_text_last; eauto.
    - apply P, P, P. eapply literal_text_last; eauto.
    - repeat apply P. auto.
  Qed.

  (** ** block collections *)
  Lemma gap_open g r : gap_text g -> open_end (g ++ r).
  Proof.
    intros [u e s Hu He Hs]. destruct Hu as [[|n]|n s2 H]; cbn; auto. destruct He; cbn; auto.
  Qed.
  Lemma after_start o kind n t s : after_text o kind n t s -> forall r, (o = false -> open_end r) -> open_end (s ++ r).
  Proof.
    intros [? ? m ? ? _|? ? g m ? ? Hg _ _|? ? ? m ? ? _|? ? ? ? g m ? ? Hg _ _| |? ? m ? ? _|? ? m ? ? ? ? ? _ _|? ? ? ? m ? ? ? ? ? ? _ _ _ _] r Hr; cbn; auto;
      rewrite <- app_assoc; apply gap_open, Hg.
  Qed.
  Lemma lexes_between n o g b r : between_text n o g -> edge o b -> (length (g ++ r) < fuel)%nat -> lexes [] [] b g BlockText.starts r (fun ts => between n o ts /\ (ts = [] -> g = [])).
  Proof.
    intros [g2 Hg| |m s e l Hm Hs He Hl] Hb Hf.
    - eapply lexes_weak; [apply lexes_gap; [exact Hg|exact Hf]|auto|]. intros x Hx. split; [constructor; exact Hx|]. intros ->. inversion Hx as [? ? ? E]. destruct u; discriminate.
    - intro p. exists [], p, b. split; [apply Hb; reflexivity|]. split; [split; [constructor|auto]|auto].
    - eapply lexes_weak with (B := BlockText.starts).
      + eapply lexes_cat; [apply lexes_spaces; [exact some_fuel|exact I|apply Hb; reflexivity]|intros b1 Hb1].
        eapply lexes_cat; [apply lexes_comment; [exact Hs|exact Hb1|rewrite <- app_assoc; apply break_end, He|len]|intros b2 _].
        eapply lexes_cat; [apply lexes_break; [right; reflexivity|exact He]|intros b3 Hb3]. apply lexes_idle; [exact Hl|exact Hb3|len].
      + auto.
      + intros x (x0 & y & -> & (H1 & H2 & _) & x1 & y1 & -> & (c & txt & -> & C1 & C2) & x2 & y2 & -> & (nl & -> & N1) & H3).
        split; [cbn [app]; apply between_note; auto; lia|]. destruct x0; discriminate.
  Qed.
  Lemma between_open n g r : between_text n false g -> open_end (g ++ r).
  Proof. intro H. inversion H; subst. auto using gap_open. Qed.
  Hint Resolve gap_open : core.

  (** ** a tag or an anchor at the end of its line *)
  Lemma lexes_off_break ctx b e r : ctx = [] \/ ctx = [CTag] -> break_text e -> lexes ctx [] b e BlockText.starts r (fun ts => exists tk, ts = [tk] /\ tok_type tk = TLineBreak).
  Proof.
    intros [-> | ->] He; [apply lexes_break; [left; reflexivity|exact He]|]. destruct He.
    - eapply lexes_weak; [apply (lexes_one fuel [CTag] [] b 10 r TLineBreak some_fuel)| |].
      + intro p. do 2 eexists. reflexivity.
      + intros x ->. reflexivity.
      + intros x (tk & -> & H & _). eauto.
    - intro p. set (cur := mkPos (row p) (column p + 1)).
      exists [mkTok TLineBreak cur (mkPos (row cur) (column cur + 1)) [13; 10] 0], (mkPos (row cur + 1) 0), TLineBreak.
      split; [reflexivity|]. split; [eauto|]. intros tl Hl. eapply lg_cons; [|reflexivity|exact Hl]. unfold lex_next. cbn [lx_prepared st].
      destruct fuel; [lia|]. reflexivity.
  Qed.
  Lemma lexes_gap_off ctx s b r : ctx = [] \/ ctx = [CTag] -> gap_text s -> (length (s ++ r) < fuel)%nat -> lexes ctx [] b s BlockText.starts r gap.
  Proof.
    intros Hc [u e s2 Hu He Hs] Hf.
    assert (Idle : forall b2, BlockText.starts b2 -> lexes [] [] b2 s2 BlockText.starts r idle) by (intros; apply lexes_idle; [exact Hs|assumption|len]).
    destruct Hu as [[|n]|n s3 H3].
    - cbn [spaces repeat app]. eapply lexes_weak; [eapply lexes_cat; [apply (lexes_off_break ctx); [exact Hc|exact He]|exact Idle]|auto|].
      intros x (x0 & y & -> & (tk & -> & H) & Hy). apply (gap_lines [] tk y); auto. apply trailing_blanks. constructor.
    - eapply lexes_weak; [eapply lexes_cat; [apply (lexes_off fuel some_fuel); exact Hc|intros b1 Hb1; eapply lexes_cat; [apply (lexes_off_break []); [left; reflexivity|exact He]|exact Idle]]|auto|].
      intros x (x0 & y & -> & (H1 & H2 & _) & x1 & y1 & -> & (tk & -> & H) & Hy). cbn [app]. constructor; auto. constructor; auto.
    - rewrite <- app_assoc. eapply lexes_weak;
        [eapply lexes_cat; [apply (lexes_off fuel some_fuel); exact Hc|intros b1 Hb1; eapply lexes_cat; [apply lexes_comment; [exact H3|exact Hb1|rewrite <- app_assoc; apply break_end, He|len]|
           intros b2 _; eapply lexes_cat; [apply lexes_break; [right; reflexivity|exact He]|exact Idle]]]|auto|].
      intros x (x0 & y & -> & (H1 & H2 & _) & x1 & y1 & -> & (c & txt & -> & C1 & C2) & x2 & y2 & -> & (tk & -> & H) & Hy). rewrite app_assoc. cbn [app]. constructor; auto.
      apply trailing_comment; auto. intros ->. discriminate.
  Qed.
  Lemma lexes_props_end p s c r : props_text p s -> off c -> (length (s ++ c :: r) < fuel)%nat ->
    exists ctx, (ctx = [] \/ ctx = [CTag]) /\ forall b, BlockText.starts b -> lexes [] ctx b s any (c :: r) (props NInvalid p).
  Proof.
    intros [t s0 H|a s0 H|t s0 k a s2 H H2|t s0 k a s2 H H2] Hc Hf.
    - exists [CTag]. split; [auto|]. intros b Hb. eapply lexes_to; [apply lexes_tag; eassumption|]. intros; constructor; assumption.
    - exists []. split; [auto|]. intros b Hb. eapply lexes_to; [apply lexes_anchor; eassumption|]. intros; constructor; assumption.
    - exists []. split; [auto|]. intros b Hb. rewrite app_assoc. eapply lexes_to.
      + eapply lexes_cat; [apply (FoldText.lexes_mark fuel some_fuel b t); [exact Hb|auto|len]|intros b1 Hb1; apply lexes_anchor; [exact some_fuel|exact Hb1|exact H2|exact Hc|len]].
      + intros z (x & y & -> & (x1 & y1 & -> & [[_ X]|[X _]] & Y) & H3); [|destruct (tag_not_anchor _ _ H X)]. rewrite <- app_assoc. destruct Y. constructor; assumption.
    - exists [CTag]. split; [auto|]. intros b Hb. rewrite app_assoc. eapply lexes_to.
      + eapply lexes_cat; [apply (FoldText.lexes_mark fuel some_fuel b a); [exact Hb|auto|len]|intros b1 Hb1; apply lexes_tag; [exact some_fuel|exact H2|exact Hc|len]].
      + intros z (x & y & -> & (x1 & y1 & -> & [[X _]|[_ X]] & Y) & H3); [destruct (tag_not_anchor _ _ X H)|]. rewrite <- app_assoc. destruct Y. constructor; assumption.
  Qed.

  Definition and_dash (Q : list token -> Prop) (s : text) (ts : list token) : Prop := Q ts /\ (ends_dash ts -> dangling s).

  Lemma lexes_into c1 c2 b s B r (Q Q2 : list token -> Prop) : lexes c1 c2 b s B r Q -> (forall x, Q x -> Q2 x) -> lexes c1 c2 b s B r Q2.
  Proof. intros H HQ. eapply lexes_weak; [exact H|auto|exact HQ]. Qed.
  Theorem lexes_blocks :
    (forall o kind n e s, entry_text o kind n e s -> forall b (r : text), BlockText.starts b -> (o = false -> open_end r) -> (length (s ++ r) < fuel)%nat ->
       lexes [] [] b s (edge o) r (and_dash (entry o kind n e) s)) /\
    (forall o kind n t s, after_text o kind n t s -> forall b (r : text), (o = false -> open_end r) -> (length (s ++ r) < fuel)%nat ->
       lexes [] [] b s (edge o) r (fun ts => after o kind n t ts /\ (ts = [] -> s = []) /\ (ends_dash ts -> dangling s))) /\
    (forall o kind n es s, entries_text o kind n es s -> forall b (r : text), BlockText.starts b -> (o = false -> open_end r) -> (length (s ++ r) < fuel)%nat ->
       lexes [] [] b s (edge o) r (and_dash (entries o kind n es) s)).
  Proof.
    apply text_ind.
    - intros o n t s Ha IH b r Hb Hr Hf. change (45 :: s) with ([45] ++ s). eapply lexes_into.
      + eapply lexes_cat; [|intros b1 _; apply IH].
        * apply lexes_dash; [exact some_fuel|exact Hb|apply open_blank; eapply after_start; eassumption].
        * exact Hr.
        * len.
      + intros x (x0 & y & -> & (tk & -> & H1 & _) & H2 & H3 & H4). split; [cbn; constructor; assumption|]. intro D.
        destruct y as [|y0 y].
        * rewrite H3 by reflexivity. exists []. auto.
        * apply (dash_tail [tk]) in D; [|discriminate]. destruct (H4 D) as (u & -> & [-> | Hu]).
          { exfalso. pose proof (after_start _ _ _ _ _ Ha [] (fun _ => I)) as O. cbn in O. intuition discriminate. }
          { exists (45 :: u). split; [reflexivity|]. right. destruct u; [cbn in Hu; intuition discriminate|]. exact Hu. }
    - intros o n k ks m t s Hk Ha IH b r Hb Hr Hf.
      change (58 :: s) with ([58] ++ s). eapply lexes_into.
      + eapply lexes_cat; [apply (block_scalar fuel some_fuel k); [exact Hk| |]|intros b1 _].
        * rewrite <- app_assoc. destruct m; cbn; [|auto]. right. right. right. split; [reflexivity|]. eapply open_blank, after_start; eassumption.
        * len.
        * eapply lexes_cat; [apply lexes_run; [exact some_fuel|exact I]|intros b3 _].
          eapply lexes_cat; [apply lexes_colon; [exact some_fuel|]; eapply open_blank, after_start; eassumption|intros b2 _; apply IH].
          { exact Hr. } len.
      + intros x (x0 & y & -> & H1 & x2 & y2 & -> & (H4 & _) & x1 & y1 & -> & (tk & -> & H2 & _) & H3 & H5 & H6). split; [cbn; constructor; assumption|].
        intro D. apply dash_tail in D; [|destruct x2; discriminate]. apply dash_tail in D; [|discriminate].
        destruct y1 as [|z y1]; [exfalso; revert D; apply calm_end; constructor; [unfold no_dash_token; congruence|constructor]|].
        apply (dash_tail [tk]) in D; [|discriminate]. destruct (H6 D) as (u & -> & [-> | Hu]).
        { exfalso. pose proof (after_start _ _ _ _ _ Ha [] (fun _ => I)) as O. cbn in O. intuition discriminate. }
        exists (ks ++ spaces m ++ 58 :: u). split; [rewrite <- !app_assoc; reflexivity|]. right.
        rewrite last_app by (destruct m; discriminate). rewrite last_app by discriminate. destruct u; [cbn in Hu; intuition discriminate|]. exact Hu.
    - intros kind n m t s Hs b r Hr Hf. eapply lexes_weak with (B := any).
      + eapply lexes_cat; [apply lexes_blanks with (P := BlockText.starts); [exact some_fuel|exact I|auto|discriminate]|intros b1 Hb1; apply lexes_leaf; [exact some_fuel|exact Hs|exact Hb1|auto|len]].
      + intros b2 _ E. discriminate E.
      + intros x (x0 & y & -> & (H1 & H2 & _) & H3). assert (x0 <> []) by (intros ->; discriminate). split; [constructor; auto|].
        split; [destruct x0; [congruence|discriminate]|]. intro D. exfalso. apply dash_tail in D; [|eapply leaf_some, H3]. revert D. eapply calm_end, leaf_dash, H3.
    - intros kind n g m t s Hg Hm Hs b r Hr Hf. eapply lexes_weak with (B := any).
      + eapply lexes_cat; [apply lexes_gap; [exact Hg|len]|intros b1 Hb1].
        eapply lexes_cat; [apply lexes_spaces; [exact some_fuel|exact I|exact Hb1]|intros b2 Hb2; apply lexes_leaf; [exact some_fuel|exact Hs|exact Hb2|auto|len]].
      + intros b2 _ E. discriminate E.
      + intros x (x0 & y & -> & H1 & x1 & y1 & -> & (H2 & H3 & _) & H4). split; [constructor; auto; lia|].
        split; [intro E; exfalso; destruct x0, x1; try discriminate; cbn in E; eapply leaf_some; eassumption|].
        intro D. exfalso. apply dash_tail in D; [|destruct x1; [eapply leaf_some, H4|discriminate]]. apply dash_tail in D; [|eapply leaf_some, H4]. revert D. eapply calm_end, leaf_dash, H4.
    - intros o kind n m es s Hs IH b r Hr Hf. eapply lexes_into.
      + eapply lexes_cat; [apply lexes_blanks with (P := BlockText.starts); [exact some_fuel|exact I|auto|discriminate]|intros b1 Hb1; apply IH; [exact Hb1|exact Hr|len]].
      + intros x (x0 & y & -> & (H1 & H2 & _) & H3 & H4). assert (x0 <> []) by (intros ->; discriminate).
        destruct (entries_head _ _ _ _ _ H3) as (z & q & -> & _). split; [constructor; auto; rewrite H2; exact H3|].
        split; [destruct x0; [congruence|discriminate]|]. intro D. apply dash_tail in D; [|discriminate]. apply dangling_spaces. auto.
    - intros o k2 kind n g m es s Hg Hm Hs IH b r Hr Hf. eapply lexes_into.
      + eapply lexes_cat; [apply lexes_gap; [exact Hg|len]|intros b1 Hb1].
        eapply lexes_cat; [apply lexes_spaces; [exact some_fuel|exact I|exact Hb1]|intros b2 Hb2; apply IH; [exact Hb2|exact Hr|len]].
      + intros x (x0 & y & -> & H1 & x1 & y1 & -> & (H2 & H3 & _) & H4 & H5). 
        destruct (entries_head _ _ _ _ _ H4) as (z & q & -> & _).
        split; [constructor; auto; rewrite H3; auto|].
        split; [intro E; exfalso; destruct x0, x1; discriminate|].
        intro D. apply dash_tail in D; [|destruct x1; discriminate]. apply dash_tail in D; [|discriminate]. apply dangling_gap; auto.
    - intros kind n b r Hr Hf p. exists [], p, b. split; [intro E; discriminate E|]. split; [split; [constructor|]|auto]. split; [auto|]. intros (a & d & E & _). destruct a; discriminate.
    - intros kind n m t s Hs b r Hr Hf. eapply lexes_weak with (B := BlockText.starts).
      + eapply lexes_cat; [apply lexes_blanks with (P := BlockText.starts); [exact some_fuel|exact I|auto|discriminate]|intros b1 Hb1; apply (lexes_literal fuel some_fuel); [exact Hs|exact Hb1|len]].
      + intros b2 Hb2 _. exact Hb2.
      + intros x (x0 & y & -> & (H1 & H2 & _) & H3). assert (x0 <> []) by (intros ->; discriminate). split; [constructor; auto|].
        split; [destruct x0; [congruence|discriminate]|]. intro D. exfalso. destruct (literal_last _ _ _ H3) as (a & z & -> & Hz).
        destruct D as (a2 & d & E & Hd). rewrite app_assoc in E. apply app_inj_tail in E as [_ ->]. congruence.
    - intros kind n m p ps m2 t s Hp Hs b r Hr Hf. rewrite (app_assoc ps). eapply lexes_weak with (B := BlockText.starts).
      + eapply lexes_cat; [apply lexes_blanks with (P := BlockText.starts); [exact some_fuel|exact I|auto|discriminate]|intros b1 Hb1].
        eapply lexes_cat; [apply (lexes_props fuel some_fuel b1 p ps m2 _ Hb1 Hp); len|intros b2 Hb2; apply (lexes_literal fuel some_fuel); [exact Hs|exact Hb2|len]].
      + intros b2 Hb2 _. exact Hb2.
      + intros x (x0 & y & -> & (H1 & H2 & _) & x1 & y1 & -> & (x2 & y2 & -> & X & [Y1 Y2]) & H3). assert (x0 <> []) by (intros ->; discriminate).
        split; [rewrite <- app_assoc; apply after_marked_literal; auto|].
        split; [destruct x0; [congruence|discriminate]|]. intro D. exfalso. destruct (literal_last _ _ _ H3) as (a & z & -> & Hz).
        destruct D as (a2 & d & E & Hd). rewrite !app_assoc in E. apply app_inj_tail in E as [_ ->]. congruence.
    - intros o k2 kind n m0 p ps g m es s Hp Hg Hm Hs IH b r Hr Hf.
      assert (Hc : exists c q, g = c :: q /\ off c).
      { destruct Hg as [u e l Hu He Hl]. unfold off. destruct Hu as [[|j]|j s3 H3]; [destruct He| |]; cbn; eauto 8. }
      destruct Hc as (c & gq & Eg & Hc).
      assert (Pr : exists ctx, (ctx = [] \/ ctx = [CTag]) /\ forall b, BlockText.starts b -> lexes [] ctx b ps any ((g ++ spaces m ++ s) ++ r) (props NInvalid p)).
      { subst g. assert (Hf2 : (length (ps ++ c :: (gq ++ spaces m ++ s) ++ r) < fuel)%nat) by len.
        exact (lexes_props_end p ps c ((gq ++ spaces m ++ s) ++ r) Hp Hc Hf2). }
      destruct Pr as (ctx & Hctx & Pr). eapply lexes_into.
      + eapply lexes_cat; [apply lexes_blanks with (P := BlockText.starts); [exact some_fuel|exact I|auto|discriminate]|intros b1 Hb1].
        eapply lexes_cat; [apply Pr, Hb1|intros b2 _].
        eapply lexes_cat; [apply (lexes_gap_off ctx); [exact Hctx|exact Hg|len]|intros b3 Hb3].
        eapply lexes_cat; [apply lexes_spaces; [exact some_fuel|exact I|exact Hb3]|intros b4 Hb4; apply IH; [exact Hb4|exact Hr|len]].
      + intros x (x00 & y00 & -> & (H01 & H02 & _) & xp & yp & -> & Hpp & x0 & y & -> & H1 & x1 & y1 & -> & (H2 & H3 & _) & H4 & H5).
        assert (x00 <> []) by (intros ->; discriminate).
        destruct (entries_head _ _ _ _ _ H4) as (z & q & -> & _).
        split; [apply after_marked_lines; auto; rewrite H3; auto|].
        split; [intro E; exfalso; destruct x00; [congruence|discriminate]|].
        intro D. apply dash_tail in D; [|destruct xp, x0, x1; discriminate]. apply dash_tail in D; [|destruct x0, x1; discriminate].
        apply dash_tail in D; [|destruct x1; discriminate]. apply dash_tail in D; [|discriminate].
        apply H5, (dangling_gap g m) in D; [|exact Hg]. destruct D as (u & E & Hu). exists (spaces (S m0) ++ ps ++ u).
        split; [rewrite E, <- !app_assoc; reflexivity|]. right. destruct Hu as [-> | Hu].
        { exfalso. subst g. cbn in E. injection E as -> _. unfold off in Hc. intuition discriminate. }
        rewrite last_app; [rewrite last_app; [exact Hu|]|]; destruct u; try discriminate; cbn in Hu; intuition discriminate || (destruct ps; discriminate).
    - intros o kind n e s He IH b r Hb Hr Hf. eapply lexes_into; [apply IH; assumption|]. intros x [Hx Hd]. split; [constructor; exact Hx|exact Hd].
    - intros o o2 kind n e s g es s2 He IH1 Hg Hes IH2 b r Hb Hr Hf. eapply lexes_into.
      + eapply lexes_cat; [apply IH1; [exact Hb|intros ->; rewrite <- app_assoc; eapply between_open, Hg|len]|intros b0 Hb0].
        eapply lexes_cat; [apply lexes_between with (n := n) (o := o2); [exact Hg|exact Hb0|len]|intros b1 Hb1].
        eapply lexes_cat; [apply lexes_spaces; [exact some_fuel|exact I|exact Hb1]|intros b2 Hb2; apply IH2; [exact Hb2|exact Hr|len]].
      + intros x (x0 & y & -> & [H0 _] & x1 & y1 & -> & [H1 _] & x2 & y2 & -> & (H2 & H3 & _) & H4 & H5).
        destruct (entries_head _ _ _ _ _ H4) as (z & q & -> & _). split; [econstructor; eauto|].
        intro D. do 2 (apply dash_tail in D; [|destruct x1; [destruct x2; discriminate|discriminate] || destruct x2; discriminate]). apply dash_tail in D; [|discriminate].
        specialize (H5 D). rewrite (app_assoc g), app_assoc. apply dangling_app; [|exact H5]. right.
        destruct n as [|n].
        * right. left. symmetry. cbn [spaces repeat]. rewrite app_nil_r. destruct (between_last _ _ _ Hg) as [[-> ->]|[G1 G2]].
          { rewrite app_nil_r. apply (proj1 text_last _ _ _ _ _ He eq_refl). }
          { rewrite last_app; auto. }
        * left. symmetry. rewrite last_app by (destruct g; discriminate). rewrite last_app by discriminate. unfold spaces. clear. induction n; [reflexivity|exact IHn].
  Qed.

  (** ** documents *)
  Lemma lexes_mark b r : BlockText.starts b -> open_end r -> lexes [] [] b mark_text any r (fun ts => exists x, ts = [x] /\ tok_type x = TDirectiveEnd).
  Proof.
    intros Hb Hr p. assert (T : two_then_blank 45 (list_look 3 (45 :: 45 :: r)) = true).
    { destruct r as [|c r]; [reflexivity|]. destruct Hr as [<-|[<-|[<-|[]]]]; reflexivity. }
    set (cur := mkPos (row p) (column p + 1)). set (e := mkPos (row cur) (column cur + 2)).
    exists [mkTok TDirectiveEnd cur e mark_text 0], e, TDirectiveEnd. split; [exact I|]. split; [eauto|].
    intros tl H. cbn [app]. eapply lg_cons; [|reflexivity|exact H]. unfold lex_next. cbn [lx_prepared st]. destruct fuel as [|f]; [lia|].
    cbn [emit]. cbn [src_next list_source lx_src st list_next mark_text app].
    change (with_pos _ (with_src (45 :: 45 :: r) _)) with (st [] b cur (45 :: 45 :: r)).
    reading. cbn [N.eqb Pos.eqb]. rewrite lookahead_list. cbn [lx_src st]. change (blank_or_eof (list_look 1 (45 :: 45 :: r))) with false. cbn [andb].
    rewrite lookahead_list. cbn [lx_src st]. rewrite T. unfold lookbehind. cbn [lx_behind st]. rewrite Hb. reflexivity.
  Qed.
  Lemma end_open s : end_text false s -> open_end s.
  Proof.
    intro H. inversion H as [u H1|g v H1 _ | | |]; subst; [|apply gap_open, H1]. destruct H1 as [[|n]|n s2 H1]; cbn; auto.
  Qed.
  Lemma docs_open ds s : docs_text false ds s -> open_end s.
  Proof. intro H. inversion H as [o s2 H1|]; subst; [apply end_open, H1|eapply between_open; eassumption]. Qed.

  Lemma lexes_lines o t s b r : lines_text o t s -> BlockText.starts b -> (o = false -> open_end r) -> (length (s ++ r) < fuel)%nat ->
    lexes [] [] b s (edge o) r (and_dash (plain_doc o t) s).
  Proof.
    intros [m t2 s2 H|o2 kind m es s2 H|m t2 s2 H] Hb Hr Hf.
    - eapply lexes_weak with (B := any).
      + eapply lexes_cat; [apply lexes_spaces; [exact some_fuel|exact I|exact Hb]|intros b1 Hb1; apply lexes_leaf; [exact some_fuel|exact H|exact Hb1|auto|len]].
      + intros b2 _ E. discriminate E.
      + intros x (x0 & y & -> & (H1 & H2 & _) & H3). split; [constructor; auto|]. intro D. exfalso. apply dash_tail in D; [|eapply leaf_some, H3]. revert D. eapply calm_end, leaf_dash, H3.
    - eapply lexes_into.
      + eapply lexes_cat; [apply lexes_spaces; [exact some_fuel|exact I|exact Hb]|intros b1 Hb1; apply (proj2 (proj2 lexes_blocks)); [exact H|exact Hb1|exact Hr|len]].
      + intros x (x0 & y & -> & (H1 & H2 & _) & H3 & H4). destruct (entries_head _ _ _ _ _ H3) as (z & q & -> & _). split; [constructor; auto; rewrite H2; exact H3|].
        intro D. apply dash_tail in D; [|discriminate]. apply dangling_spaces. auto.
    - eapply lexes_weak with (B := BlockText.starts).
      + eapply lexes_cat; [apply lexes_spaces; [exact some_fuel|exact I|exact Hb]|intros b1 Hb1; apply (lexes_literal fuel some_fuel); [exact H|exact Hb1|len]].
      + intros b2 Hb2 _. exact Hb2.
      + intros x (x0 & y & -> & (H1 & H2 & _) & H3). split; [apply plain_literal; auto; apply literal_weak, H3|]. intro D. exfalso.
        revert D. eapply literal_calm, H3.
  Qed.
  Lemma plain_some o t ts : plain_doc o t ts -> ts <> [].
  Proof.
    intros [t2 sps ts2 _ H|o2 kind sps es ts2 _ H|t2 sps ts2 _ H];
      [pose proof (leaf_some _ _ _ H)|destruct (entries_head _ _ _ _ _ H) as (x & r & -> & _)|destruct (literal_last _ _ _ H) as (a & x & -> & _)];
      destruct sps; try discriminate; cbn; auto; destruct a; discriminate.
  Qed.
  Lemma lexes_marked o t s b r : marked_text o t s -> (o = false -> open_end r) -> (length (s ++ r) < fuel)%nat ->
    lexes [] [] b s (edge o) r (and_dash (marked_doc o t) s).
  Proof.
    intros [m t2 s2 H|o2 g t2 s2 Hg H| |m t2 s2 H] Hr Hf.
    - eapply lexes_weak with (B := any).
      + eapply lexes_cat; [apply lexes_blanks with (P := BlockText.starts); [exact some_fuel|exact I|auto|discriminate]|intros b1 Hb1; apply lexes_leaf; [exact some_fuel|exact H|exact Hb1|auto|len]].
      + intros b2 _ E. discriminate E.
      + intros x (x0 & y & -> & (H1 & H2 & _) & H3). assert (x0 <> []) by (intros ->; discriminate). split; [constructor; auto|].
        intro D. exfalso. apply dash_tail in D; [|eapply leaf_some, H3]. revert D. eapply calm_end, leaf_dash, H3.
    - eapply lexes_into.
      + eapply lexes_cat; [apply lexes_gap; [exact Hg|len]|intros b1 Hb1; apply lexes_lines; [exact H|exact Hb1|exact Hr|len]].
      + intros x (x0 & y & -> & H1 & H2 & H3). split; [apply marked_below; auto|]. intro D.
        apply dangling_app; [right; right; left; symmetry; apply (proj2 (gap_last g Hg))|]. apply H3. eapply dash_tail; [|exact D].
        eapply plain_some, H2.
    - intro p. exists [], p, b. split; [intro E; discriminate E|]. split; [split; [constructor|]|auto]. intros (a & d & E & _). destruct a; discriminate.
    - eapply lexes_weak with (B := BlockText.starts).
      + eapply lexes_cat; [apply lexes_blanks with (P := BlockText.starts); [exact some_fuel|exact I|auto|discriminate]|intros b1 Hb1; apply (lexes_literal fuel some_fuel); [exact H|exact Hb1|len]].
      + intros b2 Hb2 _. exact Hb2.
      + intros x (x0 & y & -> & (H1 & H2 & _) & H3). assert (x0 <> []) by (intros ->; discriminate). split; [apply marked_literal; auto; apply literal_weak, H3|].
        intro D. exfalso. revert D. eapply literal_calm, H3.
  Qed.
  Lemma marked_open o t s ds s2 : marked_text o t s -> docs_text o ds s2 -> open_end (s ++ s2).
  Proof.
    intros Hm Hd. destruct Hm as [m t2 s3 _|o2 g2 t2 s3 Hg2 _| |m t2 s3 _]; [cbn; auto|rewrite <- app_assoc; apply gap_open, Hg2|eapply docs_open, Hd|cbn; auto].
  Qed.

  (** the end of input *)
  Lemma lexes_end c b p : loose c -> exists e1 e2, tok_type e1 = TEOF /\ tok_type e2 = TEOF /\ lgives fuel (st c b p []) [e1; e2].
  Proof. intro Hc. destruct (lex_eof fuel c b p Hc some_fuel) as (e1 & e2 & E1 & E2 & _ & _ & E5). eauto. Qed.
  Lemma mild_starts x ts tl : Forall (fun t => mild t = true) (x :: ts) -> BlockParse5.starts (x :: ts ++ tl).
  Proof. intro M. exists x, (ts ++ tl). split; [reflexivity|]. inversion M as [|? ? Hx _]; subst. intro A. unfold mild in Hx. rewrite A in Hx. discriminate. Qed.
  Lemma note_mild c txt : tok_type c = TComment -> Forall (fun t => texty t = true) txt -> Forall (fun t => mild t = true) (c :: txt).
  Proof. intros H1 H2. apply idle_line_mild. apply (idle_comment [] c txt); auto. Qed.
  Lemma between_zero g : between 0 true g -> g = [] \/ exists c txt nl l, g = c :: txt ++ nl :: l /\ tok_type c = TComment /\
    Forall (fun t => texty t = true) txt /\ tok_type nl = TLineBreak /\ idle l.
  Proof.
    intro H. inversion H as [| |cs c txt nl l H1 H2 H3 H4 H5 H6]; subst; [auto|right]. destruct cs; [|cbn in H2; lia]. exists c, txt, nl, l. auto.
  Qed.
  Lemma docs_tokens o ds s : docs_text o ds s -> forall b p, edge o b -> (length s < fuel)%nat ->
    exists tl tl2 sol2, goes o (-1) tl tl2 sol2 /\ docs ds tl2 sol2 /\ (s <> [] -> BlockParse5.starts tl) /\ lgives fuel (st [] b p s) tl.
  Proof.
    induction 1 as [o s H|o o2 g t s ds s2 Hg Hm Hd IH Hj]; intros b p Hb Hf.
    - destruct H as [u H|g v Hg Hv| |s H|g v Hg Hn Hv].
      + destruct (lexes_trailing b u [] H I ltac:(rewrite app_nil_r; exact Hf)) as (c & Hc & L).
        destruct (L p) as (ts & p2 & b2 & _ & [H1 H2] & H3). destruct (lexes_end c b2 p2 Hc) as (e1 & e2 & E1 & E2 & E5).
        specialize (H3 _ E5). rewrite app_nil_r in H3. exists (ts ++ [e1; e2]), [e2], false. split; [constructor; auto|]. split; [constructor; auto|].
        split; [|exact H3]. intro Hu. destruct ts as [|x ts]; [destruct Hu; auto|]. apply mild_starts, idle_line_mild; auto.
      + pose proof (lexes_gap g b v Hg ltac:(len)) as Lg. destruct (Lg p) as (ts & p2 & b2 & B2 & G1 & G2).
        destruct (lexes_idle_line b2 v [] Hv B2 I ltac:(len)) as (c & Hc & L).
        destruct (L p2) as (ts2 & p3 & b3 & _ & H1 & H3). destruct (lexes_end c b3 p3 Hc) as (e1 & e2 & E1 & E2 & E5).
        specialize (H3 _ E5). rewrite app_nil_r in H3. exists (ts ++ ts2 ++ [e1; e2]), [e2], false. split; [constructor; auto|]. split; [constructor; auto|].
        split; [auto|]. apply G2, H3.
      + destruct (lexes_end [] b p (or_introl eq_refl)) as (e1 & e2 & E1 & E2 & E5).
        exists [e1; e2], [e1; e2], true. split; [apply rests_end; auto|]. split; [constructor; auto|]. split; [congruence|exact E5].
      + destruct (lexes_comment b s [] H (Hb eq_refl) I ltac:(rewrite app_nil_r; exact Hf) p) as (ts & p2 & b2 & _ & (c & txt & -> & C1 & C2) & H3).
        destruct (lexes_end [CComment] b2 p2 (or_intror eq_refl)) as (e1 & e2 & E1 & E2 & E5).
        specialize (H3 _ E5). rewrite app_nil_r in H3. exists ((c :: txt) ++ [e1; e2]), [e2], false.
        split; [apply (rests_note _ [] c txt); auto; constructor; auto|]. split; [constructor; auto|].
        split; [intros _; apply mild_starts, note_mild; auto|exact H3].
      + pose proof (lexes_between 0 true g b v Hg Hb ltac:(len)) as Lg. destruct (Lg p) as (ts & p2 & b2 & B2 & [G1 G3] & G2).
        destruct (lexes_idle_line b2 v [] Hv B2 I ltac:(len)) as (c & Hc & L).
        destruct (L p2) as (ts2 & p3 & b3 & _ & H1 & H3). destruct (lexes_end c b3 p3 Hc) as (e1 & e2 & E1 & E2 & E5).
        specialize (H3 _ E5). rewrite app_nil_r in H3. destruct (between_zero _ G1) as [-> |(c1 & txt & nl & l & -> & C1 & C2 & C3 & C4)].
        * destruct Hn. auto.
        * specialize (G2 _ H3). exists ((c1 :: txt ++ nl :: l) ++ ts2 ++ [e1; e2]), [e2], false.
          rewrite <- app_comm_cons, <- app_assoc, <- app_comm_cons in *.
          split; [apply (rests_note _ [] c1 txt); auto; constructor; auto|]. split; [constructor; auto|].
          split; [intros _; apply mild_starts, note_mild; auto|exact G2].
    - pose proof (lexes_between 0 o g b (mark_text ++ s ++ s2) Hg Hb Hf) as Lg. destruct (Lg p) as (ts & p2 & b2 & B2 & [G1 _] & G2).
      pose proof (marked_open _ _ _ _ _ Hm Hd) as O.
      destruct (lexes_mark b2 (s ++ s2) B2 O p2) as (ts2 & p3 & b3 & _ & (x & -> & Hx) & M2).
      destruct (lexes_marked o2 t s b3 s2 Hm ltac:(intros ->; eapply docs_open, Hd) ltac:(unfold mark_text in Hf; len) p3) as (ts3 & p4 & b4 & B4 & [D1 D2] & D3).
      destruct (IH b4 p4 B4) as (tl & tl2 & sol2 & L1 & L2 & L3 & L4); [unfold mark_text in Hf; len|].
      assert (Dm : doc_mark x = true) by (unfold doc_mark; rewrite Hx; reflexivity).
      exists (ts ++ x :: ts3 ++ tl), (x :: ts3 ++ tl), true. split.
      { destruct o; cbn [goes]; [|inversion G1; subst; apply lands_mark; auto].
        destruct (between_zero _ G1) as [-> |(c1 & txt & nl & l & -> & C1 & C2 & C3 & C4)]; [apply rests_mark, Dm|].
        rewrite <- app_comm_cons, <- app_assoc, <- app_comm_cons. apply (rests_note _ [] c1 txt); auto; apply lined_mark; auto. }
      split; [econstructor; eauto; intro D; apply L3; intros ->; apply Hj; auto|]. split; [intros _; destruct ts as [|y ts]; [exists x, (ts3 ++ tl); split; [reflexivity|congruence]|apply mild_starts; eapply between_mild, G1]|].
      apply G2. change (x :: ts3 ++ tl) with ([x] ++ ts3 ++ tl). apply M2, D3, L4.
  Qed.

  Theorem stream_tokens ds s : stream_text ds s -> (length s < fuel)%nat -> exists ts, stream_of ds ts /\ lgives fuel (lex_new s) ts.
  Proof.
    intros H Hf. change (lex_new s) with (st [] TUnknown (mkPos 1 0) s).
    destruct H as [o l t s ds s2 Hl Ht Hd Hj|o l t s ds s2 Hl Hm Hd Hj].
    - pose proof (lexes_idle l Hl TUnknown (s ++ s2) eq_refl Hf) as Li. destruct (Li (mkPos 1 0)) as (ts & p2 & b2 & B2 & G1 & G2).
      destruct (lexes_lines o t s b2 s2 Ht B2 ltac:(intros ->; eapply docs_open, Hd) ltac:(len) p2) as (ts3 & p4 & b4 & B4 & [D1 D2] & D3).
      destruct (docs_tokens o ds s2 Hd b4 p4 B4) as (tl & tl2 & sol2 & L1 & L2 & L3 & L4); [len|].
      exists (ts ++ ts3 ++ tl). split; [econstructor; eauto; intro D; apply L3; intros ->; apply Hj; auto|]. apply G2, D3, L4.
    - pose proof (lexes_idle l Hl TUnknown (mark_text ++ s ++ s2) eq_refl Hf) as Li. destruct (Li (mkPos 1 0)) as (ts & p2 & b2 & B2 & G1 & G2).
      pose proof (marked_open _ _ _ _ _ Hm Hd) as O.
      destruct (lexes_mark b2 (s ++ s2) B2 O p2) as (ts2 & p3 & b3 & _ & (x & -> & Hx) & M2).
      destruct (lexes_marked o t s b3 s2 Hm ltac:(intros ->; eapply docs_open, Hd) ltac:(unfold mark_text in Hf; len) p3) as (ts3 & p4 & b4 & B4 & [D1 D2] & D3).
      destruct (docs_tokens o ds s2 Hd b4 p4 B4) as (tl & tl2 & sol2 & L1 & L2 & L3 & L4); [unfold mark_text in Hf; len|].
      exists (ts ++ x :: ts3 ++ tl). split; [apply stream_marked; [exact G1|]; econstructor; eauto; intro D; apply L3; intros ->; apply Hj; auto|].
      apply G2. change (x :: ts3 ++ tl) with ([x] ++ ts3 ++ tl). apply M2, D3, L4.
  Qed.
End Lines.
