(** The tokens of directives before a document. *)
From Coq Require Import String.
From Verif Require Import Base YamlChar YamlCharSpec YamlCharProofs Token Ast CPAccessor Lexer LexerProofs Generator Parser ParserTape
  RoundTripSpec TapeRules BlockParse1 BlockParse2 BlockParse3 BlockParse4 LitParse FlowParse1 FlowParse2 FoldParse FlowParse4 LeafParse BlockParse5 BlockColl BlockParse6 BlockParse7 DirParse
  LexText BlockText FoldText GapText LitText LineText TextSpec DirSpec.
Local Open Scope N_scope.

Section Directives.
  Context (digit : rune -> bool) (decimals : forall c, decimal c -> digit c = true).
  Context (fuel : nat) (some_fuel : (0 < fuel)%nat).
  Local Notation lexes := (lexes fuel).

  (** ** the version *)
  Lemma version_second b : Forall decimal b -> version_go digit VSecond b = true.
  Proof. induction 1 as [|c b Hc _ IH]; [reflexivity|]. cbn. rewrite (decimals c Hc). exact IH. Qed.
  Lemma version_ok v : version_text v -> is_correct_version digit v = true.
  Proof.
    intros [a b Ha Fa Hb Fb]. unfold is_correct_version. destruct a as [|c a]; [congruence|]. inversion Fa as [|? ? Hc Fa2]; subst.
    cbn [app version_go]. rewrite (decimals c Hc). clear Ha Fa c Hc.
    induction Fa2 as [|c a Hc _ IH]; cbn [app version_go].
    - destruct b as [|d b]; [congruence|]. inversion Fb; subst. cbn. rewrite decimals by assumption. apply version_second. assumption.
    - replace (c =? 46) with false by (unfold decimal in Hc; lia). rewrite (decimals c Hc). exact IH.
  Qed.
  Lemma version_word v : version_text v -> plain_word v.
  Proof.
    intros [a b Ha Fa Hb Fb].
    assert (P : forall c, decimal c -> plain_char c) by (intros c Hc K; unfold decimal in Hc; cbn in K; lia).
    assert (F : Forall plain_char (a ++ 46 :: b)).
    { apply Forall_app. split; [eapply Forall_impl; [|exact Fa]; auto|]. constructor; [intro K; cbn in K; lia|eapply Forall_impl; [|exact Fb]; auto]. }
    destruct a as [|c a]; [congruence|]. inversion Fa as [|? ? Hc _]; subst. split; [discriminate|]. split; [exact F|].
    split; [intro K; unfold decimal in Hc; cbn in K; lia|]. split.
    - replace ((c :: a) ++ 46 :: b) with (((c :: a) ++ [46]) ++ b) by (rewrite <- app_assoc; reflexivity).
      destruct (exists_last Hb) as (b0 & d & ->). rewrite app_assoc, last_last. apply Forall_app in Fb. destruct Fb as [_ Fb]. inversion Fb; subst. unfold decimal in *. lia.
    - intro K. unfold decimal in Hc. cbn in K. decompose [or] K; try contradiction; match goal with H : _ = _ :: _ |- _ => injection H; intros; subst; lia end.
  Qed.

  (** ** the name: the mode changes after it *)
  Lemma raw_none b c p r : name_char c -> match_special list_source (rst [] b p r) (Some c) = (None, rst [] b p r).
  Proof.
    intro K. change (match_special list_source (rst [] b p r) (Some c)) with (base_matching list_source (rst [] b p r) (Some c)).
    apply base_none. unfold name_char in K. cbn in K |- *. intuition congruence.
  Qed.
  Lemma raw_name c w y s b p : Forall name_char (c :: w) -> In y [10; 32] -> (S (length w) < fuel)%nat ->
    exists tk l2 p2, tok_type tk = TString /\ tok_origin tk = c :: w /\ lex_next list_source fuel (rst [] b p ((c :: w) ++ y :: s)) = Some (tk, l2) /\
      (forall tl, lgives fuel (st [] TString p2 (y :: s)) tl -> lgives fuel (lex_set_raw false l2) tl) /\
      (forall tl, lgives fuel (rst [] TString p2 (y :: s)) tl -> lgives fuel (lex_set_raw true (lex_set_raw false l2)) tl).
  Proof.
    intros H Hy Hf.
    assert (R : forall w f p start o, Forall name_char w -> (length w < f)%nat ->
      exists e l2 p2, emit list_source f (Some (start, o)) (rst [] TString p (w ++ y :: s)) = Some (mkTok TString start e (rev o ++ w) 0, l2) /\
      (forall tl, lgives fuel (st [] TString p2 (y :: s)) tl -> lgives fuel (lex_set_raw false l2) tl) /\
      (forall tl, lgives fuel (rst [] TString p2 (y :: s)) tl -> lgives fuel (lex_set_raw true (lex_set_raw false l2)) tl)).
    { clear w H Hf. induction w as [|d w IH]; intros f p0 start o K1 Hf; (destruct f as [|f]; [cbn in Hf; lia|]).
      - set (cur := mkPos (row p0) (column p0 + 1)).
        exists (mkPos (row cur) (column cur - 1)),
          (with_prepared (Some (mkTok (if y =? 10 then TLineBreak else TSpace) cur cur [y] 0))
            (rst [] TString (if y =? 10 then mkPos (row cur + 1) 0 else cur) s)), p0.
        split; [rewrite app_nil_r; destruct Hy as [<-|[<-|[]]]; reflexivity|]. split; intros tl0 H.
        all: match type of H with lgives _ ?l1 _ => match goal with |- lgives _ ?l2 _ =>
          assert (N : forall t l3, lex_next list_source fuel l1 = Some (t, l3) -> lex_next list_source fuel l2 = Some (t, l3)) end end;
          [intros t l3; destruct fuel as [|g]; [lia|]; destruct Hy as [<-|[<-|[]]]; exact (fun x => x)|].
        all: inversion H as [|? t l2 ts Hn Hb Hr|? t l2 m ts Hn Hb Hr|? t l2 m0 m ts Hn Hb Hr]; subst tl0;
          [constructor|eapply lg_cons; [apply N; exact Hn|exact Hb|exact Hr]|eapply lg_switch; [apply N; exact Hn|exact Hb|exact Hr]|eapply lg_twice; [apply N; exact Hn|exact Hb|exact Hr]].
      - inversion K1; subst. cbn [app emit]. cbn [src_next list_source lx_src rst list_next].
        set (cur := mkPos (row p0) (column p0 + 1)).
        change (with_pos _ (with_src (w ++ y :: s) _)) with (rst [] TString cur (w ++ y :: s)).
        rewrite raw_none by assumption. cbn [rune_list rev_append].
        destruct (IH f cur start (d :: o)) as (e & l2 & p2 & E & K); auto; [cbn in Hf; lia|].
        exists e, l2, p2. split; [|exact K]. eapply eq_trans; [exact E|]. cbn [rev]. rewrite <- app_assoc. reflexivity. }
    inversion H; subst. destruct fuel as [|f] eqn:Ef; [lia|]. rewrite <- Ef in *.
    set (cur := mkPos (row p) (column p + 1)).
    destruct (R w f cur cur [c]) as (e & l2 & p2 & E & K); auto; [lia|].
    exists (mkTok TString cur e ([c] ++ w) 0), l2, p2. split; [reflexivity|]. split; [reflexivity|]. split; [|exact K].
    unfold lex_next. cbn [lx_prepared rst]. rewrite Ef. cbn [emit app].
    cbn [src_next list_source lx_src rst list_next].
    change (with_pos _ (with_src (w ++ y :: s) _)) with (rst [] b cur (w ++ y :: s)). rewrite raw_none by assumption.
    change (with_behind TString (rst [] b cur (w ++ y :: s))) with (rst [] TString cur (w ++ y :: s)). cbn [rune_list]. exact E.
  Qed.

  (** ** the parameters *)
  Lemma raw_spaces n r : forall b p, exists sps p2 b2, blanks sps /\ length sps = n /\
    forall tl, lgives fuel (rst [] b2 p2 r) tl -> lgives fuel (rst [] b p (spaces n ++ r)) (sps ++ tl).
  Proof.
    induction n as [|n IH]; intros b p; [exists [], p, b; repeat split; [constructor|auto]|].
    set (cur := mkPos (row p) (column p + 1)). destruct (IH TSpace cur) as (sps & p2 & b2 & H1 & H2 & H3).
    exists (mkTok TSpace cur cur [32] 0 :: sps), p2, b2. split; [constructor; [reflexivity|exact H1]|]. split; [cbn; lia|].
    intros tl H. change (spaces (S n) ++ r) with (32 :: spaces n ++ r). cbn [app]. eapply lg_cons; [|reflexivity|apply H3, H].
    unfold lex_next. cbn [lx_prepared rst]. destruct fuel; [lia|]. reflexivity.
  Qed.
  Lemma name_comment w : Forall name_char w -> Forall comment_char w /\ Forall (fun c => c <> 32 /\ c <> 9) w.
  Proof. intro H. split; (eapply Forall_impl; [|exact H]); intros c K; unfold name_char, comment_char in *; cbn in *; intuition. Qed.
  Lemma params_next ps r : params_text ps -> exists y q, ps ++ 10 :: r = y :: q /\ In y [10; 32].
  Proof. intros [|n w s _ _ _]; [exists 10, r; cbn; auto|]. exists 32. eexists. split; [reflexivity|cbn; auto]. Qed.
  Lemma raw_params ps r : params_text ps -> forall b p, (length (ps ++ 10%N :: r) < fuel)%nat -> exists ws p2 b2, words ws /\
    forall tl, lgives fuel (rst [] b2 p2 (10 :: r)) tl -> lgives fuel (rst [] b p (ps ++ 10 :: r)) (ws ++ tl).
  Proof.
    induction 1 as [|n w s Hw Fw Hs IH]; intros b p Hf; [exists [], p, b; split; [constructor|auto]|].
    rewrite <- !app_assoc in *. destruct (raw_spaces (S n) (w ++ s ++ 10 :: r) b p) as (sps & p1 & b1 & S1 & S2 & S3).
    destruct (params_next s r Hs) as (y & q & Ey & Hy). destruct w as [|c w]; [congruence|]. destruct (name_comment _ Fw) as [F1 F2].
    destruct (raw_inner fuel some_fuel c w F1 F2 [] y q) with (b := b1) (p := p1) as (tk & p2 & T1 & T2 & T3); [cbn in Hy |- *; tauto|reflexivity|len|].
    destruct (IH TString p2) as (ws & p3 & b3 & W1 & W2); [len|].
    exists (sps ++ tk :: ws), p3, b3. split; [constructor; auto; intros ->; discriminate|].
    intros tl H. rewrite <- app_assoc. cbn [app]. apply S3. rewrite Ey in *. apply T3, W2, H.
  Qed.

  (** ** handles and prefixes of tags *)
  Lemma lexes_handle b s r : handle_text s -> (length (s ++ r) < fuel)%nat -> lexes [] [CTag] b s any r handle.
  Proof.
    intros [| |h Hn Hh] Hf.
    - eapply lexes_weak; [apply (lexes_exclaim fuel some_fuel); auto|auto|]. intros z (a & -> & A1 & _). constructor; exact A1.
    - change [33; 33] with ([33] ++ [33]). eapply lexes_weak.
      + eapply lexes_cat; [apply (lexes_exclaim fuel some_fuel); auto|intros b1 _]. apply (lexes_exclaim fuel some_fuel); auto.
      + auto.
      + intros z (x & y & -> & (a & -> & A1 & _) & (a2 & -> & A2 & _)). apply handle_two; assumption.
    - change (33 :: h ++ [33]) with ([33] ++ h ++ [33]). eapply lexes_weak.
      + eapply lexes_cat; [apply (lexes_exclaim fuel some_fuel); auto|intros b1 _].
        eapply lexes_cat; [change ([33] ++ r) with (33 :: r); apply (lexes_tag_word fuel some_fuel); auto; [eapply Forall_impl; [|exact Hh]; auto|len]|intros b2 _].
        apply (lexes_exclaim fuel some_fuel); auto.
      + auto.
      + intros z (x & y & -> & (a & -> & A1 & _) & x1 & y1 & -> & (th & -> & H1 & H2) & (a2 & -> & A2 & _)).
        apply (handle_named a th a2); auto. eapply handle_conforms; eauto.
  Qed.
  Lemma uri_conforms w : Forall uri_char w -> is_uri w = true.
  Proof.
    induction 1 as [|c w Hc _ IH]; [reflexivity|]. cbn [is_uri]. rewrite IH, Bool.andb_true_r.
    assert (c = 37 -> False) by (intros ->; unfold uri_char, tag_char, alnum in Hc; cbn in Hc; intuition lia).
    destruct (N.eqb_spec c 37) as [->|_]; [tauto|]. destruct Hc as [[Hc|Hc]|Hc].
    - rewrite (alnum_class fuel some_fuel c Hc). reflexivity.
    - replace (rune_in c uri_only_chars) with true; [rewrite !Bool.orb_true_r; reflexivity|]. symmetry. unfold rune_in. apply existsb_exists. exists c. split; [|apply N.eqb_refl].
      cbn in Hc |- *. tauto.
    - cbn in Hc. decompose [or] Hc; try contradiction; subst c; reflexivity.
  Qed.
  Lemma uri_name w : Forall uri_char w -> Forall name_char w.
  Proof. intro H. eapply Forall_impl; [|exact H]. intros c Hc K. unfold uri_char, tag_char, alnum in Hc. cbn in Hc, K. intuition lia. Qed.
  Lemma space_raw b p s : exists sp p2, tok_type sp = TSpace /\
    forall tl, lgives fuel (rst [] TSpace p2 s) tl -> lgives fuel (st [CTag] b p (32 :: s)) (sp :: bar true :: tl).
  Proof.
    set (cur := mkPos (row p) (column p + 1)). exists (mkTok TSpace cur cur [32] 0), cur. split; [reflexivity|]. intros tl H.
    apply (lg_switch fuel _ _ (st [] TSpace cur s) true); [|reflexivity|exact H]. unfold lex_next. cbn [lx_prepared st]. destruct fuel; [lia|]. reflexivity.
  Qed.

  (** ** whole directives *)
  Lemma percent b p s : exists x p2, tok_type x = TDirective /\
    forall tl, lgives fuel (rst [] TDirective p2 s) tl -> lgives fuel (st [] b p (37 :: s)) (x :: bar true :: tl).
  Proof.
    destruct (one_raw fuel some_fuel b p 37 s TDirective []) as (x & p2 & T1 & _ & T3); [reflexivity|]. exists x, p2. auto.
  Qed.
  Lemma lexes_directive s b r : directive_text s -> (length (s ++ r) < fuel)%nat -> lexes [] [] b s BlockText.starts r (directive digit).
  Proof.
    intros [n v g Hv Hg|n h m c u l Hh Hc Hu Hl|w ps l Hw Fw Ny Nt Hps Hl] Hf p.
    - assert (Fy : Forall name_char (t' "YAML")) by (change (Forall name_char [89; 65; 77; 76]); do 4 (constructor; [intro K; cbn in K; lia|]); constructor).
      destruct (percent b p ((t' "YAML" ++ spaces (S n) ++ v ++ g) ++ r)) as (x & p1 & X1 & X2).
      destruct (raw_name 89 (t' "AML") 32 ((spaces n ++ v ++ g) ++ r) TDirective p1 Fy) as (tk & l2 & p2 & T1 & T2 & T3 & T4 & _); [cbn; auto|cbn in Hf |- *; lia|].
      assert (L : lexes [] [] TString (spaces (S n) ++ v ++ g) BlockText.starts r
        (cat (spacing (S n)) (cat (fun ts => exists tk, ts = [tk] /\ word tk /\ tok_origin tk = v) gap))).
      { rewrite <- !app_assoc in Hf. change (t' "%YAML" ++ spaces (S n) ++ v ++ g ++ r) with (37 :: 89 :: 65 :: 77 :: 76 :: spaces (S n) ++ v ++ g ++ r) in Hf.
        eapply lexes_cat; [apply lexes_blanks with (P := BlockText.starts); [exact some_fuel|exact I|auto|discriminate]|intros b1 Hb1].
        eapply lexes_cat; [|intros b2 _; apply (lexes_gap fuel some_fuel); [exact Hg|len]].
        apply lexes_word; [exact some_fuel|exact I|apply version_word, Hv|left; reflexivity| |len].
        cbn [ending]. pose proof (gap_open g r Hg) as O. destruct (g ++ r) as [|c q]; [exact I|]. cbn in O |- *. intuition. }
      destruct (L p2) as (ts & p3 & b3 & B3 & (x1 & y1 & -> & (S1 & S2 & _) & x2 & y2 & -> & (v2 & -> & (V1 & _) & V2) & G) & L3).
      exists (x :: bar true :: tk :: bar false :: x1 ++ v2 :: y2), p3, b3. split; [exact B3|]. split.
      { apply directive_version; auto; [intros ->; discriminate|]. rewrite V2. apply version_ok, Hv. }
      intros tl H. cbn [app]. apply X2. eapply lg_switch; [exact T3|unfold is_bar; rewrite T1; reflexivity|]. apply T4. apply (L3 tl H).
    - assert (Fy : Forall name_char (t' "TAG")) by (change (Forall name_char [84; 65; 71]); do 3 (constructor; [intro K; cbn in K; lia|]); constructor).
      assert (Fu : Forall uri_char (c :: u)) by (constructor; [left; exact Hc|exact Hu]).
      set (rest := (c :: u) ++ 10 :: l ++ r).
      assert (Er : (t' "%TAG" ++ spaces (S n) ++ h ++ spaces (S m) ++ (c :: u) ++ 10 :: l) ++ r = 37 :: t' "TAG" ++ 32 :: spaces n ++ h ++ 32 :: spaces m ++ rest)
        by (subst rest; change (spaces (S n)) with (32 :: spaces n); change (spaces (S m)) with (32 :: spaces m); cbn; rewrite <- !app_assoc; cbn; rewrite <- !app_assoc; cbn; rewrite <- ?app_assoc; reflexivity).
      rewrite Er in Hf.
      destruct (percent b p (t' "TAG" ++ 32 :: spaces n ++ h ++ 32 :: spaces m ++ rest)) as (x & p1 & X1 & X2).
      destruct (raw_name 84 (t' "AG") 32 (spaces n ++ h ++ 32 :: spaces m ++ rest) TDirective p1 Fy) as (tk & l2 & p2 & T1 & T2 & T3 & T4 & _); [cbn; auto|cbn in Hf |- *; lia|].
      assert (L : lexes [] [CTag] TString (spaces (S n) ++ h) any (32 :: spaces m ++ rest) (cat (spacing (S n)) handle)).
      { eapply lexes_cat; [apply lexes_blanks with (P := BlockText.starts); [exact some_fuel|exact I|auto|discriminate]|intros b1 Hb1].
        apply lexes_handle; [exact Hh|]. cbn [app length] in Hf. repeat (rewrite app_length in *; cbn [length] in * ). lia. }
      destruct (L p2) as (ts & p3 & b3 & _ & (x1 & y1 & -> & (S1 & S2 & _) & G) & L3).
      destruct (space_raw b3 p3 (spaces m ++ rest)) as (sp & p4 & P1 & P2).
      destruct (raw_spaces m rest TSpace p4) as (sps2 & p5 & b5 & Q1 & Q2 & Q3).
      destruct (name_comment _ (uri_name _ Fu)) as [F1 F2].
      destruct (raw_inner fuel some_fuel c u F1 F2 [] 10 (l ++ r)) with (b := b5) (p := p5) as (pf & p6 & R1 & R2 & R3);
        [cbn; tauto|reflexivity|subst rest; cbn [app length] in Hf; repeat (rewrite app_length in *; cbn [length] in * ); lia|].
      destruct (raw_break fuel some_fuel [] TString p6 (l ++ r) eq_refl) as (nl & p7 & N1 & _ & N2).
      destruct (lexes_idle fuel some_fuel l Hl TLineBreak r eq_refl) with (p := p7) as (ts & p8 & b8 & B8 & I1 & I2).
      { subst rest. cbn [app length] in Hf. repeat (rewrite app_length in *; cbn [length] in * ). lia. }
      exists (x :: bar true :: tk :: bar false :: x1 ++ y1 ++ sp :: bar true :: sps2 ++ pf :: nl :: bar false :: ts), p8, b8. split; [exact B8|]. split.
      { apply (directive_tag digit x tk x1 y1 sp sps2 pf c u); auto; [intros ->; discriminate| |unfold conforms; rewrite R2; apply uri_conforms, Fu].
        apply (tag_conforms fuel some_fuel [c] (mkTok TString p p [c] 0)); [constructor; auto|reflexivity]. }
      intros tl H. unfold text, rune in *. rewrite Er. cbn [app]. apply X2. eapply lg_switch; [exact T3|unfold is_bar; rewrite T1; reflexivity|]. apply T4.
      repeat (rewrite <- app_assoc; cbn [app]). specialize (L3 (sp :: bar true :: sps2 ++ pf :: nl :: bar false :: ts ++ tl)).
      rewrite <- app_assoc in L3. change (spaces (S n)) with (32 :: spaces n) in L3. rewrite <- app_assoc in L3. apply L3.
      apply P2, Q3. subst rest. apply R3, N2, I2, H.
    - destruct w as [|c w]; [congruence|].
      destruct (percent b p (((c :: w) ++ ps ++ 10 :: l) ++ r)) as (x & p1 & X1 & X2).
      destruct (params_next ps (l ++ r) Hps) as (y & q & Ey & Hy).
      destruct (raw_name c w y q TDirective p1 Fw Hy) as (tk & l2 & p2 & T1 & T2 & T3 & _ & T4); [len|].
      destruct (raw_params ps (l ++ r) Hps TString p2) as (ws & p3 & b3 & W1 & W2); [len|].
      destruct (raw_break fuel some_fuel [] b3 p3 (l ++ r) eq_refl) as (nl & p4 & N1 & _ & N2).
      destruct (lexes_idle fuel some_fuel l Hl TLineBreak r eq_refl ltac:(len) p4) as (ts & p5 & b5 & B5 & I1 & I2).
      exists (x :: bar true :: tk :: bar false :: bar true :: ws ++ nl :: bar false :: ts), p5, b5. split; [exact B5|]. split.
      { apply directive_other; auto; rewrite T2; assumption. }
      intros tl H. cbn [app]. apply X2. rewrite <- !app_assoc. cbn [app]. unfold text, rune in *. rewrite Ey. eapply lg_twice; [exact T3|unfold is_bar; rewrite T1; reflexivity|].
      apply T4. rewrite <- Ey. apply W2, N2, I2, H.
  Qed.
  Lemma lexes_directives s : directives_text s -> forall b r, (length (s ++ r) < fuel)%nat -> lexes [] [] b s BlockText.starts r (directives digit).
  Proof.
    induction 1 as [s H|s s2 H _ IH]; intros b r Hf.
    - eapply lexes_weak; [apply lexes_directive; eassumption|auto|]. intros x Hx. apply directives_one, Hx.
    - eapply lexes_weak; [eapply lexes_cat; [apply lexes_directive; [exact H|len]|intros b1 _; apply IH; len]|auto|].
      intros x (x0 & y & -> & H1 & H2). apply directives_more; assumption.
  Qed.

  Theorem directed_tokens ds s : directed_text ds s -> (length s < fuel)%nat -> exists ts, directed_of digit ds ts /\ lgives fuel (lex_new s) ts.
  Proof.
    intros [o l d t s1 ds1 s2 Hl Hdt Hm Hd Hj] Hf. change (lex_new ?s) with (st [] TUnknown (mkPos 1 0) s).
    destruct (lexes_idle fuel some_fuel l Hl TUnknown (d ++ mark_text ++ s1 ++ s2) eq_refl Hf (mkPos 1 0)) as (ts & p2 & b2 & B2 & G1 & G2).
    destruct (lexes_directives d Hdt b2 (mark_text ++ s1 ++ s2) ltac:(len) p2) as (ts1 & q2 & c2 & C2 & D0 & D00).
    pose proof (marked_open _ _ _ _ _ Hm Hd) as O.
    destruct (LineText.lexes_mark fuel some_fuel c2 (s1 ++ s2) C2 O q2) as (ts2 & p3 & b3 & _ & (x & -> & Hx) & M2).
    destruct (lexes_marked fuel some_fuel o t s1 b3 s2 Hm ltac:(intros ->; eapply docs_open, Hd) ltac:(unfold mark_text in Hf; len) p3) as (ts3 & p4 & b4 & B4 & [D1 D2] & D3).
    destruct (docs_tokens fuel some_fuel o ds1 s2 Hd b4 p4 B4) as (tl & tl2 & sol2 & L1 & L2 & L3 & L4); [unfold mark_text in Hf; len|].
    exists (ts ++ ts1 ++ x :: ts3 ++ tl). split; [apply directed_stream; [exact G1|exact D0|]; econstructor; eauto; intro D; apply L3; intros ->; apply Hj; auto|].
    apply G2, D00. change (x :: ts3 ++ tl) with ([x] ++ ts3 ++ tl). apply M2, D3, L4.
  Qed.
End Directives.
