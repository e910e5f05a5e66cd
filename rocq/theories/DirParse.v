(** Parsing the tokens of directives before a document. *)
From Coq Require Import String ZArith.
From Verif Require Import Base YamlChar Token Ast Balance CPAccessor Lexer Generator Parser ParserFlow ParserBlock ParserDocs ParserTape TextSpec TapeRules BlockParse1 BlockParse2 BlockParse3 BlockParse4 LitParse
  FlowParse1 FlowParse2 FlowParse3 FoldParse FlowParse4 LeafParse BlockParse5 BlockColl BlockParse6 BlockParse7.
Local Open Scope parser_scope.
Local Arguments cons {A}%type_scope & _ _.
Local Arguments pair {A B}%type_scope & _ _.

(** the words of a directive: its parameters *)
Inductive words : list token -> Prop :=
| words_none : words []
| words_more sps w ts : blanks sps -> sps <> [] -> tok_type w = TString -> words ts -> words (sps ++ w :: ts).

(** a handle: one mark, two of them, or a name between two *)
Inductive handle : list token -> Prop :=
| handle_one x : tok_type x = TTag -> handle [x]
| handle_two x y : tok_type x = TTag -> tok_type y = TTag -> handle [x; y]
| handle_named x v y : tok_type x = TTag -> tok_type v = TString -> conforms v CsWord = true -> tok_type y = TTag -> handle [x; v; y].

Section Directives.
  Context (digit : rune -> bool).
  (** a directive up to the start of the next line that counts *)
  Inductive directive : list token -> Prop :=
  | directive_version x n sps v g : tok_type x = TDirective -> tok_type n = TString -> tok_origin n = t' "YAML" -> blanks sps -> sps <> [] ->
      tok_type v = TString -> is_correct_version digit (tok_origin v) = true -> gap g ->
      directive (x :: bar true :: n :: bar false :: sps ++ v :: g)
  | directive_tag x n sps hs sp sps2 p c u nl l : tok_type x = TDirective -> tok_type n = TString -> tok_origin n = t' "TAG" -> blanks sps -> sps <> [] ->
      handle hs -> tok_type sp = TSpace -> blanks sps2 -> tok_type p = TString -> tok_origin p = c :: u ->
      conforms_charset [c] CsTag = true -> conforms p CsURI = true -> tok_type nl = TLineBreak -> idle l ->
      directive (x :: bar true :: n :: bar false :: sps ++ hs ++ sp :: bar true :: sps2 ++ p :: nl :: bar false :: l)
  | directive_other x n ws nl l : tok_type x = TDirective -> tok_type n = TString -> tok_origin n <> t' "YAML" -> tok_origin n <> t' "TAG" ->
      words ws -> tok_type nl = TLineBreak -> idle l ->
      directive (x :: bar true :: n :: bar false :: bar true :: ws ++ nl :: bar false :: l).
  Inductive directives : list token -> Prop :=
  | directives_one ts : directive ts -> directives ts
  | directives_more ts ts2 : directive ts -> directives ts2 -> directives (ts ++ ts2).

  Context (fuel : nat) (some_fuel : 1 < fuel).
  Let f0 : 0 < fuel. Proof. lia. Qed.

  Lemma words_calm ws y r : words ws -> calm y = true -> calm_hd (ws ++ y :: r) = true.
  Proof.
    intros [|sps w ts Hs Hn Hw _] Hy; [exact Hy|]. destruct sps as [|s sps]; [congruence|]. inversion Hs; subst. cbn. unfold calm. rewrite H1. reflexivity.
  Qed.
  Definition words_body : M bool :=
        set_checkpoint ;;
        ok <- valid (parse_separate_in_line fuel) ;;
        if ok : bool then
          ty <- tok_ty ;;
          if ttype_eqb ty TString then next ;; commit ;; ret true else rollback ;; ret false
        else rollback ;; ret false.
  Lemma words_ok nl r sv i b d ws : words ws -> tok_type nl = TLineBreak -> length ws < fuel -> forall n, length ws < n ->
    runs (loop_go n (fun _ : unit => b <- words_body ;; ret (tt, b)) tt) (mkC (ws ++ nl :: r) false sv i b d) tt (mkC (nl :: r) false sv i b d).
  Proof.
    intros H Hn. assert (Wn : is_white_space nl = false) by (unfold is_white_space; rewrite Hn; reflexivity).
    assert (Cn : calm nl = true) by (unfold calm; rewrite Hn; reflexivity).
    induction H as [|sps w ts Hs Hne Hw Ht IH]; intros Hf n Hl; (destruct n as [|n]; [lia|]).
    - cbn [app]. apply runs_loop_stop. mid false (mkC (nl :: r) false sv i b d); [|go]. unfold words_body.
      go1; [go|]. go1; [go1; apply sep_in_line_no; exact Wn|]. cbn [valid_node]. go.
    - rewrite app_length in Hf, Hl. cbn [length] in Hf, Hl. rewrite <- app_assoc. cbn [app].
      assert (Cw : calm w = true) by (unfold calm; rewrite Hw; reflexivity).
      assert (Ww : is_white_space w = false) by (unfold is_white_space; rewrite Hw; reflexivity).
      eapply runs_loop_more; [|apply IH; lia].
      mid true (mkC (ts ++ nl :: r) false sv i b d); [|go]. unfold words_body. go1; [go|]. apply runs_lose.
      go1; [go1; apply sep_in_line_ok; auto; try lia|]. replace (sol_after sps false) with false by (destruct sps; reflexivity). cbn [valid_node]. try decide1. go1; [go|]. rewrite Hw. cbn [ttype_eqb].
      go1; [apply runs_next, may_calm, words_calm; auto|]. rewrite Hw. cbn [is_start_of_line]. go.
  Qed.
  Lemma text_neq a c : a <> c -> text_eqb a c = false.
  Proof. intro H. destruct (text_eqb a c) eqn:E; [|reflexivity]. apply text_eqb_eq in E. congruence. Qed.
  Lemma handle_first ts : handle ts -> exists x q, ts = x :: q /\ tok_type x = TTag.
  Proof. intros []; eauto. Qed.
  Lemma handle_ok ts y r sv i b d : handle ts -> tok_type y = TSpace ->
    runs parse_tag_handle (mkC (ts ++ y :: r) false sv i b d) (NBasic TagType) (mkC (y :: r) false sv i b d).
  Proof.
    intros H Hy. assert (Cy : calm y = true) by (unfold calm; rewrite Hy; reflexivity).
    destruct H as [x H1|x z H1 H2|x v z H1 H2 H3 H4]; cbn [app]; unfold parse_tag_handle; go1; (go1; [go|]); rewrite H1; decide1.
    - go1; [apply runs_next, may_calm, Cy|]. rewrite H1. cbn [is_start_of_line]. go1; [apply runs_tok|]. rewrite Hy. decide1. go1; [go|].
      cbn [ttype_eqb andb]. go.
    - assert (Cz : calm z = true) by (unfold calm; rewrite H2; reflexivity).
      go1; [apply runs_next, may_calm, Cz|]. rewrite H1. cbn [is_start_of_line]. go1; [apply runs_tok|]. rewrite H2. decide1.
      go1; [apply runs_next, may_calm, Cy|]. rewrite H2. go.
    - assert (Cz : calm z = true) by (unfold calm; rewrite H4; reflexivity).
      assert (Cv : calm v = true) by (unfold calm; rewrite H2; reflexivity).
      go1; [apply runs_next, may_calm, Cv|]. rewrite H1. cbn [is_start_of_line]. go1; [apply runs_tok|]. rewrite H2, H3. decide1. go1; [go|].
      mid true (mkC (z :: y :: r) false ((v :: z :: y :: r, live false) :: sv) i b d).
      { cbn [ttype_eqb andb]. go1; [apply runs_next, may_calm, Cz|]. rewrite H2. cbn [is_start_of_line]. go1; [go|]. rewrite H4. go. }
      cbv iota. go1; [apply runs_next, may_calm, Cy|]. rewrite H4. go.
  Qed.
  Definition heads (x : token) : Prop := tok_type x = TDirective \/ tok_type x = TDirectiveEnd.
  Lemma heads_calm x : heads x -> calm x = true /\ middle x = true.
  Proof. unfold calm, middle. intros [-> | ->]; auto. Qed.
  Lemma directive_ok ts z r sv i b d : directive ts -> heads z -> length ts < fuel ->
    runs (parse_directive digit fuel) (mkC (ts ++ z :: r) true sv i b d) (NBasic DirectiveType) (mkC (z :: r) true sv i b d).
  Proof.
    intros H Hz Hf. destruct (heads_calm z Hz) as [Cz Mz].
    assert (Com : forall g, gap g -> length g < fuel -> runs (parse_comments fuel) (mkC (g ++ z :: r) false sv i b d) (NBasic CommentType) (mkC (z :: r) true sv i b d)).
    { intros g Hg Hl. apply (comments_gap fuel f0 g []); auto; left; exact Cz. }
    destruct H as [x n sps v g Hx Hn On Hs Hne Hv Ov Hg|x n sps hs sp sps2 p c u nl l Hx Hn On Hs Hne Hh Hsp Hs2 Hp Op Oc Ou Hnl Hl|x n ws nl l Hx Hn N1 N2 Hw Hnl Hl].
    - assert (Cn : calm n = true) by (unfold calm; rewrite Hn; reflexivity).
      assert (Cv : calm v = true) by (unfold calm; rewrite Hv; reflexivity).
      assert (Wv : is_white_space v = false) by (unfold is_white_space; rewrite Hv; reflexivity).
      cbn [app length] in *. rewrite <- app_assoc. rewrite app_length in Hf. cbn [app length] in *.
      unfold parse_directive. go1. go1; [go|]. rewrite Hx. cbn [ttype_eqb]. go1; [apply runs_raw|].
      go1; [apply runs_next, may_calm; exact Cn|]. go1; [apply runs_raw|]. go1; [go|]. rewrite On. cbn [text_eqb].
      mid true (mkC (g ++ z :: r) false sv i b d).
      2:{ try decide1. go1; [go1; apply Com; [exact Hg|lia]|]. cbn [valid_node]. go. }
      apply (runs_valid _ _ (NBasic DirectiveType)). rewrite Hx. cbn [is_start_of_line]. try decide1.
      go1; [apply runs_next, may_calm; destruct sps; [congruence|inversion Hs; subst; cbn; unfold calm; rewrite H1; reflexivity]|].
      rewrite Hn. cbn [is_start_of_line]. unfold parse_yaml_directive. go1.
      go1; [apply runs_skip; auto; try lia|]. replace (sol_after sps false) with false by (destruct sps; reflexivity).
      mid true (mkC (g ++ z :: r) false sv i b d); [|go]. apply (runs_valid _ _ (NBasic TextType)). unfold parse_yaml_version. go1. go1; [go|].
      rewrite Hv, Ov. cbn [ttype_eqb andb]. go1; [apply runs_next, may_calm|rewrite Hv; go].
      destruct (gap_first g Hg) as (y & q & -> & Hy). cbn. unfold calm. destruct Hy as [-> | ->]; reflexivity.
    - assert (Cn : calm n = true) by (unfold calm; rewrite Hn; reflexivity).
      assert (Cl : calm nl = true) by (unfold calm; rewrite Hnl; reflexivity).
      assert (Cp : calm p = true) by (unfold calm; rewrite Hp; reflexivity).
      assert (Wp : is_white_space p = false) by (unfold is_white_space; rewrite Hp; reflexivity).
      destruct (handle_first hs Hh) as (h0 & hs0 & Eh & Th).
      assert (Wh : is_white_space h0 = false) by (unfold is_white_space; rewrite Th; reflexivity).
      assert (Ch : calm h0 = true) by (unfold calm; rewrite Th; reflexivity).
      cbn [app length] in *. repeat (rewrite <- app_assoc; cbn [app]). rewrite !app_length in Hf. cbn [app length] in *. rewrite app_length in Hf. cbn [length] in Hf.
      unfold parse_directive. go1. go1; [go|]. rewrite Hx. cbn [ttype_eqb]. go1; [apply runs_raw|].
      go1; [apply runs_next, may_calm; exact Cn|]. go1; [apply runs_raw|]. go1; [go|]. rewrite On. cbn [text_eqb].
      mid true (mkC (nl :: l ++ z :: r) false sv i b d).
      2:{ try decide1. go1; [go1; apply (Com (nl :: l)); [apply (gap_lines [] nl l); auto; apply trailing_blanks; constructor|cbn [length]; lia]|]. cbn [valid_node]. go. }
      apply (runs_valid _ _ (NBasic DirectiveType)). rewrite Hx. cbn [is_start_of_line]. change (text_eqb (t' "TAG") (t' "YAML")) with false. change (text_eqb (t' "TAG") (t' "TAG")) with true. cbv iota.
      go1; [apply runs_next, may_calm; destruct sps; [congruence|inversion Hs; subst; cbn; unfold calm; rewrite H1; reflexivity]|].
      rewrite Hn. cbn [is_start_of_line]. unfold parse_tag_directive. go1.
      assert (Sep : forall sps0 y q, blanks sps0 -> sps0 <> [] -> is_white_space y = false -> calm y = true -> length sps0 < fuel ->
        runs (valid (parse_separate_in_line fuel)) (mkC (sps0 ++ y :: q) false sv i b d) true (mkC (y :: q) false sv i b d)).
      { intros sps0 y q B1 B2 B3 B4 B5. apply (runs_valid _ _ (NBasic IndentType)). pose proof (sep_in_line_ok fuel sps0 y q false sv i b d B1 B3) as R.
        replace (sol_after sps0 false) with false in R by (destruct sps0; reflexivity). apply R; auto. }
      go1; [rewrite Eh; cbn [app]; apply Sep; auto; lia|]. change (h0 :: hs0 ++ sp :: bar true :: sps2 ++ p :: nl :: bar false :: l ++ z :: r) with ((h0 :: hs0) ++ sp :: bar true :: sps2 ++ p :: nl :: bar false :: l ++ z :: r). rewrite <- Eh.
      try decide1. go1; [go1; apply handle_ok; auto|]. cbn [valid_node]. try decide1.
      go1; [apply runs_raw|].
      go1; [apply (Sep (sp :: sps2)); auto; [constructor; auto|discriminate|cbn [length]; lia]|].
      try decide1. mid true (mkC (nl :: bar false :: l ++ z :: r) false sv i b d).
      { apply (runs_valid _ _ (NBasic TagType)). unfold parse_tag_prefix. go1. go1; [go|].
        mid false (mkC (p :: nl :: bar false :: l ++ z :: r) false ((p :: nl :: bar false :: l ++ z :: r, live false) :: sv) i b d).
        { apply (runs_valid _ _ NInvalid). unfold parse_local_tag_prefix. go1. go1; [go|]. rewrite Hp. go. }
        try decide1. go1; [go|]. go1; [go|]. rewrite Op, Hp, Oc, Ou. cbn [ttype_eqb andb]. go1; [apply runs_next, may_calm; exact Cl|]. rewrite Hp. go. }
      go1; [apply runs_raw|]. go.
    - assert (Cn : calm n = true) by (unfold calm; rewrite Hn; reflexivity).
      assert (Cl : calm nl = true) by (unfold calm; rewrite Hnl; reflexivity).
      cbn [app length] in *. rewrite <- app_assoc. rewrite app_length in Hf. cbn [app length] in *.
      unfold parse_directive. go1. go1; [go|]. rewrite Hx. cbn [ttype_eqb]. go1; [apply runs_raw|].
      go1; [apply runs_next, may_calm; exact Cn|]. go1; [apply runs_raw|]. go1; [go|]. rewrite !text_neq by assumption.
      mid true (mkC (nl :: l ++ z :: r) false sv i b d).
      2:{ try decide1. go1; [go1; apply (Com (nl :: l)); [apply (gap_lines [] nl l); auto; apply trailing_blanks; constructor|cbn [length]; lia]|]. cbn [valid_node]. go. }
      apply (runs_valid _ _ (NBasic DirectiveType)). rewrite Hx. cbn [is_start_of_line].
      unfold parse_reserved_directive. go1. go1; [go|]. rewrite Hn. cbn [ttype_eqb]. go1; [apply runs_raw|].
      go1; [apply runs_next, may_calm, words_calm; auto|]. rewrite Hn. cbn [is_start_of_line].
      mid tt (mkC (nl :: bar false :: l ++ z :: r) false sv i b d); [apply (words_ok nl (bar false :: l ++ z :: r)); auto; lia|].
      go1; [apply runs_raw|]. go.
  Qed.

  (** ** one after the other *)
  Lemma directive_first ts : directive ts -> exists x q, ts = x :: q /\ tok_type x = TDirective.
  Proof. intros []; eauto. Qed.
  Lemma directives_first ts : directives ts -> exists x q, ts = x :: q /\ tok_type x = TDirective.
  Proof. intros [ts1 H|ts1 ts2 H _]; destruct (directive_first _ H) as (x & q & -> & Hx); [eauto|]. exists x, (q ++ ts2). auto. Qed.
  Lemma no_directive z r sol sv i b d : tok_type z = TDirectiveEnd ->
    runs (parse_directive digit fuel) (mkC (z :: r) sol sv i b d) NInvalid (mkC (z :: r) sol sv i b d).
  Proof. intro H. unfold parse_directive. go1. go1; [go|]. rewrite H. go. Qed.
  Definition one_more : unit -> M (unit * bool) := fun _ =>
    b <- (set_checkpoint ;; ok <- valid (parse_directive digit fuel) ;; if ok : bool then commit ;; ret true else rollback ;; ret false) ;; ret (tt, b).
  Lemma more_stop n z r sv i b d : tok_type z = TDirectiveEnd ->
    runs (loop_go (S n) one_more tt) (mkC (z :: r) true sv i b d) tt (mkC (z :: r) true sv i b d).
  Proof.
    intro Hz. apply runs_loop_stop. unfold one_more. mid false (mkC (z :: r) true sv i b d); [|go]. go1; [go|].
    go1; [go1; apply no_directive, Hz|]. cbn [valid_node]. go.
  Qed.
  Lemma more_ok ts z r sv i b d : directives ts -> tok_type z = TDirectiveEnd -> length ts < fuel -> forall n, length ts < n ->
    runs (loop_go n one_more tt) (mkC (ts ++ z :: r) true sv i b d) tt (mkC (z :: r) true sv i b d).
  Proof.
    intros H Hz. induction H as [ts H|ts ts2 H H2 IH]; intros Hf n Hn; (destruct n as [|n]; [lia|]).
    - destruct n as [|n]; [destruct (directive_first _ H) as (x & q & -> & _); cbn in Hn; lia|].
      eapply runs_loop_more; [|apply more_stop, Hz]. unfold one_more. mid true (mkC (z :: r) true sv i b d); [|go]. go1; [go|]. apply runs_lose.
      go1; [go1; apply directive_ok; auto; right; exact Hz|]. cbn [valid_node]. go.
    - rewrite app_length in *. rewrite <- app_assoc. destruct (directives_first _ H2) as (x & q & -> & Hx). cbn [app length] in *.
      destruct (directive_first _ H) as (x1 & q1 & E1 & _). assert (0 < length ts) by (rewrite E1; cbn; lia).
      eapply runs_loop_more; [|apply IH; lia]. unfold one_more. mid true (mkC (x :: q ++ z :: r) true sv i b d); [|go]. go1; [go|]. apply runs_lose.
      go1; [go1; apply directive_ok; auto; [left; exact Hx|lia]|]. cbn [valid_node]. go.
  Qed.
  Lemma more_directives ts z r sv i b d : ts = [] \/ directives ts -> tok_type z = TDirectiveEnd -> length ts < fuel ->
    runs (repeat_valid fuel (parse_directive digit fuel)) (mkC (ts ++ z :: r) true sv i b d) tt (mkC (z :: r) true sv i b d).
  Proof.
    intros H Hz Hf. change (runs (loop_go fuel one_more tt) (mkC (ts ++ z :: r) true sv i b d) tt (mkC (z :: r) true sv i b d)).
    destruct H as [->|H]; [|apply more_ok; auto]. cbn [app]. assert (E : fuel = S (fuel - 1)) by lia. generalize (fuel - 1) E. intros m ->. apply more_stop, Hz.
  Qed.
  Lemma any_directed dts o x t ts ds tl tl2 sol2 sv i b d :
    directives dts -> tok_type x = TDirectiveEnd -> marked_doc o t ts -> joined ts tl -> goes o (-1) tl tl2 sol2 -> docs ds tl2 sol2 ->
    length (dts ++ x :: ts ++ tl) < fuel -> flat sv -> fresh d (ts ++ tl) ->
    exists d2, runs (maybe_any_document digit fuel []) (mkC (dts ++ x :: ts ++ tl) true sv i b d) [t] (mkC tl2 sol2 sv i b d2) /\ fresh d2 (List.tl tl2).
  Proof.
    intros Hdt Hx Hm Hj Hl Hds Hf Hfl Hd. set (all := dts ++ x :: ts ++ tl). rewrite app_length in Hf. cbn [length] in Hf.
    destruct (explicit_ok fuel some_fuel o x t ts ds tl tl2 sol2 ((all, lost) :: (all, lost) :: sv) i b d) as (d2 & R & C); auto; [lia|].
    exists d2. split; [|exact C]. pose proof (marked_valid _ _ _ Hm) as V.
    unfold maybe_any_document. go1; [go|]. apply runs_lose.
    mid t (mkC tl2 sol2 ((all, lost) :: sv) i b d2); [|rewrite V; go].
    unfold parse_any_document. go1. go1; [go|]. apply runs_lose.
    mid t (mkC tl2 sol2 ((all, lost) :: (all, lost) :: sv) i b d2); [|rewrite V; go].
    unfold parse_directive_document. go1. subst all.
    destruct Hdt as [dts H|dts dts2 H H2].
    - go1; [go1; apply directive_ok; auto; [right; exact Hx|lia]|]. cbn [valid_node]. try decide1.
      go1; [|exact R]. apply (more_directives []); auto; try (cbn; lia).
    - destruct (directives_first _ H2) as (y & q & -> & Hy). rewrite app_length in Hf. rewrite <- app_assoc in R |- *. cbn [app] in R |- *.
      go1; [go1; apply directive_ok; auto; [left; exact Hy|lia]|]. cbn [valid_node]. try decide1.
      go1; [|exact R]. apply (more_directives (y :: q)); auto; lia.
  Qed.

  (** ** a stream whose first document has directives *)
  Inductive directed_of : list node -> list token -> Prop :=
  | directed_stream l dts t ds tl : idle l -> directives dts -> docs (t :: ds) tl true -> directed_of (t :: ds) (l ++ dts ++ tl).
  Lemma directive_quiet ts : directive ts -> Forall (fun t => quiet t = true) ts.
  Proof.
    intros [x n sps v g Hx Hn _ Hs _ Hv _ Hg|x n sps hs sp sps2 p c u nl l Hx Hn On Hs Hne Hh Hsp Hs2 Hp Op Oc Ou Hnl Hl|x n ws nl l Hx Hn _ _ Hw Hnl Hl].
    2:{ assert (Forall (fun t => quiet t = true) (sps ++ hs ++ sp :: bar true :: sps2 ++ p :: nl :: bar false :: l)).
      { apply Forall_app. split; [apply mild_quiet, blanks_mild, Hs|]. apply Forall_app. split; [destruct Hh; repeat constructor; unfold quiet; match goal with H : tok_type ?x = _ |- context [tok_type ?x] => rewrite H end; reflexivity|].
        constructor; [unfold quiet; rewrite Hsp; reflexivity|]. constructor; [reflexivity|]. apply Forall_app. split; [apply mild_quiet, blanks_mild, Hs2|].
        constructor; [unfold quiet; rewrite Hp; reflexivity|]. constructor; [unfold quiet; rewrite Hnl; reflexivity|]. constructor; [reflexivity|apply mild_quiet, idle_mild, Hl]. }
      repeat constructor; auto; unfold quiet; rewrite ?Hx, ?Hn; reflexivity. }
    - assert (Forall (fun t => quiet t = true) (sps ++ v :: g)).
      { apply Forall_app. split; [apply mild_quiet, blanks_mild, Hs|]. constructor; [unfold quiet; rewrite Hv; reflexivity|apply mild_quiet, gap_mild, Hg]. }
      repeat constructor; auto; unfold quiet; rewrite ?Hx, ?Hn; reflexivity.
    - assert (Forall (fun t => quiet t = true) (ws ++ nl :: bar false :: l)).
      { apply Forall_app. split; [|repeat constructor; [unfold quiet; rewrite Hnl; reflexivity|apply mild_quiet, idle_mild, Hl]].
        induction Hw as [|sps w ts0 Hs _ Hw _ IH]; [constructor|]. apply Forall_app. split; [apply mild_quiet, blanks_mild, Hs|].
        constructor; [unfold quiet; rewrite Hw; reflexivity|exact IH]. }
      repeat constructor; auto; unfold quiet; rewrite ?Hx, ?Hn; reflexivity.
  Qed.
  Lemma directives_quiet ts : directives ts -> Forall (fun t => quiet t = true) ts.
  Proof. induction 1 as [ts H|ts ts2 H _ IH]; [apply directive_quiet, H|]. apply Forall_app. split; [apply directive_quiet, H|exact IH]. Qed.
  Lemma brk_directed ds ts : directed_of ds ts -> brk ts = Some [].
  Proof.
    intros [l dts t ds2 tl Hl Hdt Hd]. rewrite (idle_quiet _ Hl), (bal_quiet _ (directives_quiet _ Hdt)). eauto using brk_docs.
  Qed.
  Theorem directed_ok ds ts : directed_of ds ts -> length ts < fuel -> NoDup (map tok_start (strip ts)) -> exists p tp,
    peval (parse_program digit fuel new_parser) (mkTape zero_token ts []) = Some ((NStream ds, p), tp) /\ p_errs p = [].
  Proof.
    intros H Hf Hn.
    assert (Hd : fresh df_new ts) by (split; [exact Hn|split; [apply Forall_forall; reflexivity|intro p; change (df_new p) with 0%Z; lia]]).
    pose proof (brk_directed _ _ H) as Hb. destruct H as [l dts t ds tl Hl Hdt Hds].
    inversion Hds as [| |o x t2 ts tl1 tl2 sol2 ds2 Hx Hm Hj Hla Hds2]; subst. rewrite app_length in Hf. cbn [length] in Hf.
    do 2 apply fresh_tail in Hd. pose proof (fresh_next _ _ _ Hd) as Hd2.
    destruct (any_directed dts o x t ts ds tl1 tl2 sol2 [] (mkInd 0 UnknownMode) [] df_new) as (d1 & R1 & F1); auto; try lia.
    assert (Lt : length tl2 <= length tl1) by (eapply goes_length, Hla). rewrite app_length in Hf. cbn [length] in Hf. rewrite app_length in Hf.
    destruct (docs_ok digit fuel some_fuel _ _ _ Hds2 fuel [t] [] (mkInd 0 UnknownMode) [] d1) as (e & d2 & R2); auto; try lia.
    destruct (directives_first _ Hdt) as (y & q & Ey & Hy). rewrite Ey in *. cbn [app] in *.
    assert (My : middle y = true) by (unfold middle; rewrite Hy; reflexivity).
    eapply runs_whole; [exact Hb|].
    unfold parse_program. go1; [apply runs_next; apply may_mild; [apply idle_mild, Hl|]; apply low_go; [exact My|constructor]|]. go1; [apply runs_set_sol|].
    unfold parse_stream.
    assert (Pre : forall sv i b d, reach (l ++ []) sv (y :: q ++ x :: ts ++ tl1) ->
      runs (parse_prefixes fuel) (mkC (l ++ y :: q ++ x :: ts ++ tl1) true sv i b d) tt (mkC (y :: q ++ x :: ts ++ tl1) true sv i b d)).
    { intros sv i b d Hr. apply (prefixes_ok fuel some_fuel l [] y (q ++ x :: ts ++ tl1)); auto; try congruence; try constructor; try (rewrite app_nil_r; lia). }
    go1; [apply Pre; right; apply low_go; [exact My|constructor]|].
    go1; [exact R1|]. go1; [exact R2|]. go.
  Qed.
End Directives.
