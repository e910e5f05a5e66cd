(** Parsing the tokens of a stream of documents. *)
From Coq Require Import String ZArith.
From Verif Require Import Base YamlChar Token Ast Balance CPAccessor Lexer Parser ParserFlow ParserBlock ParserDocs ParserTape TextSpec TapeRules BlockParse1 BlockParse2 BlockParse3 BlockParse4 LitParse
  FlowParse1 FlowParse2 FlowParse3 FoldParse FlowParse4 LeafParse BlockParse5 BlockColl BlockParse6.
Local Open Scope parser_scope.
Local Arguments cons {A}%type_scope & _ _.
Local Arguments pair {A B}%type_scope & _ _.

(** a document without a mark, from the start of its first line; the index is true if it ends with a block scalar *)
Inductive plain_doc : bool -> node -> list token -> Prop :=
| plain_leaf t sps ts : blanks sps -> leaf 0 t ts -> plain_doc false t (sps ++ ts)
| plain_lines o kind sps es ts : blanks sps -> entries o kind (length sps) es ts -> plain_doc o (build kind es) (sps ++ ts)
| plain_literal t sps ts : blanks sps -> literal (-1) t ts -> plain_doc true t (sps ++ ts).
(** what follows the mark of a document *)
Inductive marked_doc : bool -> node -> list token -> Prop :=
| marked_leaf t sps ts : blanks sps -> sps <> [] -> leaf 0 t ts -> marked_doc false t (sps ++ ts)
| marked_literal t sps ts : blanks sps -> sps <> [] -> literal (-1) t ts -> marked_doc true t (sps ++ ts)
| marked_below o t g ts : gap g -> plain_doc o t ts -> marked_doc o t (g ++ ts)
| marked_none : marked_doc false NNull [].
(** the documents after the first, and the end of input *)
Inductive docs : list node -> list token -> bool -> Prop :=
| docs_end e : tok_type e = TEOF -> docs [] [e] false
| docs_last e1 e2 : tok_type e1 = TEOF -> tok_type e2 = TEOF -> docs [] [e1; e2] true
| docs_more o x t ts tl tl2 sol2 l : tok_type x = TDirectiveEnd -> marked_doc o t ts -> joined ts tl ->
    goes o (-1) tl tl2 sol2 -> docs l tl2 sol2 -> docs (t :: l) (x :: ts ++ tl) true.
(** a stream up to the second end of input *)
Inductive stream_of : list node -> list token -> Prop :=
| stream_plain o l t ts tl tl2 sol2 ds : idle l -> plain_doc o t ts -> joined ts tl -> goes o (-1) tl tl2 sol2 -> docs ds tl2 sol2 ->
    stream_of (t :: ds) (l ++ ts ++ tl)
| stream_marked l t ds tl : idle l -> docs (t :: ds) tl true -> stream_of (t :: ds) (l ++ tl).

(** ** the brackets of a stream are balanced *)
Lemma mild_quiet ts : Forall (fun t => mild t = true) ts -> Forall (fun t => quiet t = true) ts.
Proof. intro H. eapply Forall_impl; [|exact H]. intros t. unfold mild, quiet. destruct (tok_type t); congruence. Qed.
Lemma bal_mild ts : Forall (fun t => mild t = true) ts -> bal ts.
Proof. intro H. apply bal_quiet, mild_quiet, H. Qed.
Lemma bal_gap g : gap g -> bal g.
Proof. intro H. apply bal_mild, gap_mild, H. Qed.
Lemma bal_nil : bal [].
Proof. intro. reflexivity. Qed.
Lemma bal_between n o g : between n o g -> bal g.
Proof. intro H. eapply bal_mild, between_mild, H. Qed.
Lemma bal_props no p ts : props no p ts -> bal ts.
Proof. intro H. destruct (props_head _ _ _ H) as (x & r & _ & _ & F). apply bal_quiet. eapply Forall_impl; [|exact F]. cbn. tauto. Qed.
Lemma bal_block :
  (forall o kind n e ts, entry o kind n e ts -> bal ts) /\
  (forall o kind n t ts, after o kind n t ts -> bal ts) /\
  (forall o kind n es ts, entries o kind n es ts -> bal ts).
Proof.
  apply grammar_ind; intros; repeat first [apply bal_cons; [is_quiet|] | apply bal_app];
    eauto using bal_scalar, bal_leaf, bal_blanks, bal_gap, bal_nil, bal_between, bal_literal, bal_props.
Qed.
Lemma bal_plain o t ts : plain_doc o t ts -> bal ts.
Proof.
  intros [t2 sps ts2 Hs Hl|o2 kind sps es ts2 Hs He|t2 sps ts2 Hs Hl]; apply bal_app; eauto using bal_blanks, bal_leaf, bal_literal.
  apply (proj2 (proj2 bal_block) _ _ _ _ _ He).
Qed.
Lemma bal_marked o t ts : marked_doc o t ts -> bal ts.
Proof. intros []; auto using bal_nil; apply bal_app; eauto using bal_blanks, bal_leaf, bal_gap, bal_plain, bal_literal. Qed.
Lemma idle_quiet l : idle l -> bal l.
Proof.
  induction 1 as [|v nl l Hv Hn Hl IH]; [apply bal_nil|]. apply bal_app; [apply bal_mild, idle_line_mild, Hv|]. apply bal_cons; [is_quiet|exact IH].
Qed.
Lemma brk_lands i tl tl2 sol2 : lands i tl tl2 sol2 -> brk tl2 = Some [] -> brk tl = Some [].
Proof.
  intros Hl H.
  assert (Eof : forall e r, tok_type e = TEOF -> brk (e :: r) = Some [] -> forall e1, tok_type e1 = TEOF -> brk (e1 :: e :: r) = Some []).
  { intros e r E Hb e1 E1. rewrite brk_cons, E1, Hb. reflexivity. }
  destruct Hl as [g sps x r Hg Hs Hl Hx|g x r Hg Hx|g v e1 e2 r Hg Hv H1 H2|u e1 e2 r Hu H1 H2].
  - rewrite (bal_gap _ Hg). exact H.
  - rewrite (bal_gap _ Hg). exact H.
  - rewrite (bal_gap _ Hg), (bal_mild _ (idle_line_mild _ Hv)). eauto.
  - rewrite (bal_mild _ (idle_line_mild _ (trailing_idle _ Hu))). eauto.
Qed.
Lemma brk_goes o i tl tl2 sol2 : goes o i tl tl2 sol2 -> brk tl2 = Some [] -> brk tl = Some [].
Proof.
  destruct o; cbn [goes]; [|apply brk_lands]. intros K H. destruct K as [| | |cs c txt q tl2' sol2' H1 H2 H3 H4 H5]; auto.
  assert (B : bal (cs ++ c :: txt)) by (apply bal_mild, idle_line_mild, idle_comment; auto).
  specialize (B q). rewrite <- app_assoc in B. cbn [app] in B. rewrite B. eapply brk_lands; [eapply lined_lands, H5|exact H].
Qed.
Lemma brk_docs ds tl sol : docs ds tl sol -> brk tl = Some [].
Proof.
  induction 1 as [e He|e1 e2 H1 H2|o x t ts tl tl2 sol2 l Hx Hm Hj Hl Hd IH]; [rewrite brk_cons, He; reflexivity|rewrite !brk_cons, H1, H2; reflexivity|].
  rewrite brk_cons, (bal_marked _ _ _ Hm), (brk_goes _ _ _ _ _ Hl IH), Hx. reflexivity.
Qed.
Lemma brk_stream ds ts : stream_of ds ts -> brk ts = Some [].
Proof.
  intros [o l t ts2 tl tl2 sol2 ds2 Hl Hp Hj Hla Hd|l t ds2 tl Hl Hd]; rewrite (idle_quiet _ Hl).
  - rewrite (bal_plain _ _ _ Hp). eapply brk_goes; eauto using brk_docs.
  - eauto using brk_docs.
Qed.

Lemma plain_valid o t ts : plain_doc o t ts -> valid_node t = true.
Proof. intros []; eauto using leaf_valid, build_valid, literal_valid. Qed.
Lemma marked_valid o t ts : marked_doc o t ts -> valid_node t = true.
Proof. intros []; eauto using leaf_valid, plain_valid, literal_valid. Qed.

(** where the documents after this one begin *)
Lemma docs_point ds tl2 sol2 : docs ds tl2 sol2 -> exists x r, tl2 = x :: r /\ bare x = true /\ no_json (tok_type x) = true /\
  calm x = true /\ is_white_space x = false /\ tok_type x <> TSequenceEntry /\ stub x.
Proof.
  intros [e He|e1 e2 He _|o x t ts tl tl3 sol3 l Hx _ _ _ _]; [exists e, []|exists e1, [e2]|exists x, (ts ++ tl)]; unfold bare, no_json, calm, is_white_space, stub;
    [rewrite He|rewrite He|rewrite Hx]; repeat split; discriminate.
Qed.

Section Whole.
  Context (digit : rune -> bool) (fuel : nat) (some_fuel : 1 < fuel).
  Let f0 : 0 < fuel. Proof. lia. Qed.

  Lemma runs_loop_once body c : (runs body c false c) -> runs (loop_ fuel body) c tt c.
  Proof.
    intro H. unfold loop_, loop. destruct fuel; [lia|]. apply runs_loop_stop. go1; [exact H|]. go.
  Qed.

  Lemma runs_loop_end {S} (body : S -> M (S * bool)) a b c c2 : runs (body a) c (b, false) c2 -> runs (loop fuel body a) c b c2.
  Proof. intro H. unfold loop. destruct fuel; [lia|]. apply runs_loop_stop, H. Qed.

  Lemma runs_loop_pred {S} n (body : S -> M (S * bool)) a c a1 c1 r c2 : 0 < n ->
    runs (body a) c (a1, true) c1 -> runs (loop_go (pred n) body a1) c1 r c2 -> runs (loop_go n body a) c r c2.
  Proof. intros Hn H1 H2. destruct n; [lia|]. eapply runs_loop_more; eassumption. Qed.

  Lemma explicit_no x r sol sv i b d : tok_type x <> TDirectiveEnd ->
    runs (parse_explicit_document fuel) (mkC (x :: r) sol sv i b d) NInvalid (mkC (x :: r) sol sv i b d).
  Proof. intro H. unfold parse_explicit_document. go1. go1; [go|]. rewrite (ttype_eqb_no _ _ H). go. Qed.
  Lemma directive_no x r sol sv i b d : tok_type x <> TDirective ->
    runs (parse_directive_document digit fuel) (mkC (x :: r) sol sv i b d) NInvalid (mkC (x :: r) sol sv i b d).
  Proof.
    intro H. unfold parse_directive_document. go1.
    mid false (mkC (x :: r) sol sv i b d); [|go]. apply (runs_valid _ _ NInvalid).
    unfold parse_directive. go1. go1; [go|]. rewrite (ttype_eqb_no _ _ H). go.
  Qed.

  Lemma firm_other x ty : firm x = true -> firm (mkTok ty (mkPos 0 0) (mkPos 0 0) [] 0) = false -> tok_type x <> ty.
  Proof. unfold firm. cbn. intros H1 H2 E. rewrite E in H1. congruence. Qed.

  Lemma firm_middle x : firm x = true -> middle x = true.
  Proof. unfold firm, middle. destruct (tok_type x); congruence. Qed.

  (** ** a document without a body *)
  Notation ind n := (mkInd (Z.of_nat n) StrictMode).
  Notation outer ctx := (match ctx with BlockIn | BlockOut | FlowIn | FlowOut => True | _ => False end).
  Lemma separate_root ctx tl x r sol2 sv b d : outer ctx -> lands (-1) tl (x :: r) sol2 -> is_white_space x = false -> length tl < fuel ->
    runs (parse_separate fuel ctx) (mkC tl false sv (ind 0) b d) (NBasic IndentType) (mkC (x :: r) sol2 sv (ind 0) b d).
  Proof.
    intros Hc Hl Hw Hf.
    assert (G : runs (parse_separate_lines fuel) (mkC tl false sv (ind 0) b d) (NBasic IndentType) (mkC (x :: r) sol2 sv (ind 0) b d));
      [|destruct ctx; try destruct Hc; exact G].
    unfold parse_separate_lines. go1. go1; [go|].
    go1; [go1; eapply comments_lands; [exact some_fuel|exact Hl|lia]|].
    go1; [decide1; go1; apply (flow_prefix fuel f0 0 [] x r); auto; constructor|]. cbn [valid_node]. go.
  Qed.
  Lemma root_none bn bi tl x r sol2 sv b d : lands (-1) tl (x :: r) sol2 -> bare x = true -> no_json (tok_type x) = true ->
    calm x = true -> is_white_space x = false -> tok_type x <> TSequenceEntry -> stub x -> length tl < fuel -> room 2 [x] d -> exists ts3 sol3 d2,
    runs (block_node_body fuel bn bi BlockIn) (mkC tl false sv (mkInd (-1) StrictMode) b d) NInvalid (mkC ts3 sol3 sv (mkInd (-1) StrictMode) b d2) /\
    spent 2 [x] d d2.
  Proof.
    intros Hl X1 X2 X3 X4 X5 X6 Hf Hr.
    assert (Sep : forall c sv d, outer c -> runs (parse_separate fuel c) (mkC tl false sv (ind 0) b d) (NBasic IndentType) (mkC (x :: r) sol2 sv (ind 0) b d)).
    { intros c sv0 d0 Hc. apply separate_root; auto. }
    destruct (entry_none fuel some_fuel bn bi x r sol2 ((tl, live false) :: sv) (ind 0) b d) as (d1 & R1 & S1); auto.
    { eapply weaken_room; [|exact Hr]; lia. }
    assert (Hr1 : room 1 [x] d1) by (intro p; generalize (Hr p), (S1 p); unfold charge; pose proof (occ_pos [x] p); lia).
    destruct (plain_mark fuel FlowOut x r sol2 ((x :: r, live sol2) :: (x :: r, live sol2) :: sv) (ind 0) b d1) as (d2 & R2 & S2); auto.
    exists (x :: r), sol2, d2. split.
    2:{ intro p. generalize (S1 p), (S2 p). unfold charge. pose proof (occ_pos [x] p). lia. }
    assert (R : runs (parse_flow_in_block fuel) (mkC tl false sv (mkInd (-1) StrictMode) b d1) NInvalid (mkC (x :: r) sol2 sv (mkInd (-1) StrictMode) b d2)).
    { unfold parse_flow_in_block. go1; [go|]. cbn [ind_value]. change (-1 + 1)%Z with (Z.of_nat 0). go1. go1; [go|].
      go1; [go1; apply Sep; exact I|]. decide1. go1; [eapply node_none; [exact X1|exact R2|apply json_no; auto]|]. go. }
    unfold block_node_body. go1. go1; [go|].
    mid NInvalid (mkC (x :: r) sol2 ((tl, live false) :: sv) (mkInd (-1) StrictMode) b d1).
    2:{ decide1. go1; [go|]. go1; [exact R|]. go. }
    unfold parse_block_in_block. go1. go1; [go|].
    mid NInvalid (mkC (x :: r) sol2 ((tl, live false) :: (tl, live false) :: sv) (mkInd (-1) StrictMode) b d).
    { eapply (block_scalar_stub fuel some_fuel); [exact X6|]. change (-1 + 1)%Z with (Z.of_nat 0). apply Sep. exact I. }
    decide1. go1; [go|].
    mid NInvalid (mkC (x :: r) sol2 ((tl, live false) :: sv) (mkInd (-1) StrictMode) b d1); [|go].
    unfold parse_block_collection. go1. go1; [go|]. go1; [go|].
    change (-1 + 1)%Z with (Z.of_nat 0). go1; [go1; apply Sep; exact I|]. go1; [apply (no_properties fuel), X6|].
    go1; [go|]. change (Z.of_nat 0 + -1)%Z with (-1)%Z.
    go1; [go1; eapply comments_lands; [exact some_fuel|exact Hl|lia]|]. decide1. go1; [go|].
    mid NInvalid (mkC (x :: r) sol2 ((x :: r, live sol2) :: (tl, live false) :: sv) (mkInd (-1) StrictMode) b d).
    { cbn [parse_seq_space]. apply (block_seq_no fuel some_fuel _ x r (-1) [] sol2); auto; cbn; lia. }
    decide1. go1; [go|].
    mid NInvalid (mkC (x :: r) sol2 ((tl, live false) :: sv) (mkInd (-1) StrictMode) b d1); [|go].
    unfold parse_block_mapping, block_collection. go1. go1; [go|]. cbn [ind_value]. go1.
    mid true (mkC (x :: r) sol2 ((tl, live false) :: sv) (ind 0) b d).
    { apply (runs_valid _ _ (NIndent 0)). apply (indent_lower_ok fuel 0 []); auto. }
    try decide1. go1; [exact R1|]. go.
  Qed.

  (** ** a document with a body *)
  Lemma fresh_tl o i d tl tl2 sol2 : goes o i tl tl2 sol2 -> fresh d tl -> fresh d (List.tl tl2).
  Proof. intros Hl F. apply (fresh_goes _ _ _ _ _ _ Hl) in F. destruct tl2; [exact F|eapply fresh_next, F]. Qed.
  Lemma plain_ok o t ts pre sol0 tl tl2 sol2 sv i b d :
    plain_doc o t ts -> opening pre sol0 -> joined ts tl -> goes o (-1) tl tl2 sol2 -> length (pre ++ ts ++ tl) < fuel -> flat sv -> fresh d (ts ++ tl) ->
    exists d2, runs (parse_bare_document fuel) (mkC (pre ++ ts ++ tl) sol0 sv i b d) t (mkC tl2 sol2 sv i b d2) /\ fresh d2 (List.tl tl2).
  Proof.
    intros H Ho Hj Hl Hf Hfl Hd. unfold parse_bare_document, parse_block_node. destruct fuel as [|m] eqn:Ef; [lia|]. cbn [block]. rewrite <- Ef in *.
    rewrite !app_length in Hf.
    destruct H as [t sps ts Hsp Hs|o kind sps es ts Hsp He|t sps ts Hsp Hs]; rewrite <- app_assoc in *; rewrite app_length in Hf.
    - destruct (node_leaf_line fuel some_fuel (block fuel m false) (block fuel m true) BlockIn (-1) 0 t pre sps ts tl tl2 sol0 sol2 sv b d)
        as (d2 & R & Sd); auto; try lia.
      { rewrite !app_length. lia. } { eapply fresh_room; [eapply fresh_tail, Hd|lia]. }
      exists d2. split; [go1; exact R|]. eapply (fresh_tl false); [exact Hl|]. eapply fresh_spent; [eapply fresh_tail, Hd| |exact Sd]. lia.
    - assert (Lt : 0 < length tl) by (eapply goes_some, Hl).
      destruct (node_block fuel some_fuel o kind (length sps) es ts m (-1) BlockIn (-1) pre sps tl tl2 sol0 sol2 sv b d)
        as (d2 & R & C); auto; try lia.
      { apply (grammar_ok fuel some_fuel), He. } { eapply entries_head, He. }
      { rewrite !app_length. lia. } { apply (joined_tail sps), Hj. } { eapply fresh_tail, Hd. }
      exists d2. split; [go1; exact R|]. apply C.
    - exists d. split; [|eapply (fresh_tl true); [exact Hl|do 2 eapply fresh_tail in Hd; exact Hd]]. go1.
      destruct (literal_head _ _ _ Hs) as (z & r & E & Hz).
      eapply (literal_node fuel some_fuel) with (a := NBasic IndentType) (sol1 := sol_after sps true); [exact Hs|exact Hl|apply Z.le_refl|rewrite app_length; lia|reflexivity|].
      intro sv0. rewrite E. cbn [app]. change (-1 + 1)%Z with (Z.of_nat 0).
      apply (sep_open fuel some_fuel BlockIn pre sol0 0 sps z (r ++ tl)); auto; [lia|rewrite app_length; lia|unfold middle; destruct Hz as [Hz|Hz]; rewrite Hz; reflexivity|].
      apply reach_calm. unfold calm. destruct Hz as [Hz|Hz]; rewrite Hz; reflexivity.
  Qed.

  (** ** the lines before the first document *)
  Definition prefix_body : bool -> M (bool * bool) := fun not_null =>
      set_checkpoint ;;
      ok <- valid (parse_comment_line fuel) ;;
      if ok : bool then commit ;; ret (true, true) else rollback ;; ret (not_null, false).
  Lemma prefix_lines n : forall l sps x r acc sv i b d, idle l -> blanks sps -> middle x = true -> length (l ++ sps) < fuel -> length l < n ->
    reach (l ++ sps) sv (x :: r) ->
    runs (loop_go n prefix_body acc) (mkC (l ++ sps ++ x :: r) true sv i b d) (match l with [] => acc | _ => true end)
      (mkC (sps ++ x :: r) true sv i b d).
  Proof.
    induction n as [|n IH]; intros l sps x r acc sv i b d Hl Hs Hx Hf Hn Hg; [lia|]. rewrite app_length in Hf.
    destruct Hl as [|v nl l Hv Hnl Hl].
    - cbn [app] in *. apply runs_loop_stop. unfold prefix_body. go1; [go|].
      go1; [go1; apply comment_line_no; auto; apply reach_cp; auto|]. go.
    - rewrite app_length in *. cbn [length] in *. rewrite <- app_assoc. cbn [app].
      replace (match v ++ nl :: l with [] => acc | _ => true end) with true by (destruct v; reflexivity).
      assert (Hg1 : may_go sv (x :: r)) by (destruct Hg as [A|A]; [destruct v; discriminate|exact A]).
      assert (Hg2 : may_go sv (l ++ sps ++ x :: r)).
      { rewrite app_assoc. apply may_mild; [|exact Hg1]. apply Forall_app; split; [apply idle_mild, Hl|apply blanks_mild, Hs]. }
      eapply runs_loop_more.
      + unfold prefix_body. go1; [go|].
        go1; [go1; apply comment_line_ok; auto; [left; exact Hnl|apply (may_line v nl []); auto; constructor|lia]|]. rewrite Hnl. go.
      + replace true with (match l with [] => true | _ => true end) at 2 by (destruct l; reflexivity).
        apply IH; auto; try (rewrite ?app_length; lia). right. exact Hg1.
  Qed.
  Lemma prefix_ok l sps x r sv i b d : idle l -> blanks sps -> middle x = true -> tok_type x <> TBOM -> length (l ++ sps) < fuel -> reach (l ++ sps) sv (x :: r) ->
    runs (parse_document_prefix fuel) (mkC (l ++ sps ++ x :: r) true sv i b d) (match l with [] => NNull | _ => NBasic DocumentPrefixType end)
      (mkC (sps ++ x :: r) true sv i b d).
  Proof.
    intros Hl Hs Hx Hb Hf Hg. unfold parse_document_prefix. go1.
    assert (Hh : exists y q, l ++ sps ++ x :: r = y :: q /\ tok_type y <> TBOM).
    { rewrite app_assoc. destruct (l ++ sps) as [|y q] eqn:E; [exists x, r; auto|]. exists y, (q ++ x :: r). split; [reflexivity|].
      assert (M : Forall (fun t => mild t = true) (l ++ sps)) by (apply Forall_app; split; [apply idle_mild, Hl|apply blanks_mild, Hs]).
      rewrite E in M. inversion M as [|? ? My _]; subst. intro A. unfold mild in My. rewrite A in My. discriminate. }
    destruct Hh as (y & q & E & Hy).
    go1; [rewrite E; go|]. mid false (mkC (l ++ sps ++ x :: r) true sv i b d); [rewrite E; rewrite ttype_eqb_no by exact Hy; go|].
    pose proof (prefix_lines fuel l sps x r false sv i b d Hl Hs Hx Hf) as K.
    rewrite app_length in Hf. go1; [apply K; [lia|exact Hg]|]. destruct l; go.
  Qed.
  Lemma prefixes_ok l sps x r sv i b d : idle l -> blanks sps -> middle x = true -> tok_type x <> TBOM -> length (l ++ sps) < fuel ->
    reach (l ++ sps) sv (x :: r) ->
    runs (parse_prefixes fuel) (mkC (l ++ sps ++ x :: r) true sv i b d) tt (mkC (sps ++ x :: r) true sv i b d).
  Proof.
    intros Hl Hs Hx Hb Hf Hr.
    assert (Stop : forall m, 0 < m -> runs (loop_go m (fun _ : unit => b <- (set_checkpoint ;; prefix <- parse_document_prefix fuel ;;
        if negb (valid_node prefix) || match prefix with NNull => true | _ => false end
        then rollback ;; ret false else commit ;; ret true) ;; ret (tt, b)) tt) (mkC (sps ++ x :: r) true sv i b d) tt (mkC (sps ++ x :: r) true sv i b d)).
    { intros m Hm. destruct m as [|m]; [lia|]. apply runs_loop_stop.
      mid false (mkC (sps ++ x :: r) true sv i b d); [|go]. go1; [go|].
      rewrite app_length in Hf.
      assert (Hr2 : reach sps ((sps ++ x :: r, live true) :: sv) (x :: r)) by (apply reach_cp; auto; eapply reach_part, Hr).
      assert (Hf2 : length ([] ++ sps) < fuel) by (cbn [app]; lia).
      go1; [exact (prefix_ok [] sps x r _ i b d idle_none Hs Hx Hb Hf2 Hr2)|]. go. }
    destruct l as [|y l0] eqn:El; [apply Stop; lia|]. unfold parse_prefixes, loop_, loop.
    rewrite <- El in *.
    eapply runs_loop_pred; [exact f0| |apply Stop; rewrite El, app_length in Hf; cbn [length] in Hf; lia].
    mid true (mkC (sps ++ x :: r) true sv i b d); [|go]. go1; [go|].
    go1; [apply prefix_ok; auto|].
    { rewrite !app_assoc. apply reach_before; auto. apply Forall_app; split; [apply idle_mild, Hl|apply blanks_mild, Hs]. }
    rewrite El. go.
  Qed.

  Lemma opened g : gap g -> opening g false.
  Proof. right. auto. Qed.
  Lemma marked_first o t ts i tl tl2 sol2 : marked_doc o t ts -> goes o i tl tl2 sol2 -> exists y r, ts ++ tl = y :: r /\ calm y = true.
  Proof.
    assert (M : forall y ty, tok_type y = ty -> match ty with TSpace | TLineBreak | TEOF => True | _ => False end -> calm y = true).
    { intros y ty E H. unfold calm. rewrite E. destruct ty; try destruct H; reflexivity. }
    intros Hm Hl. destruct Hm as [t sps ts Hs Hn Hl2|t sps ts Hs Hn Hl2|o t g ts Hg Hp|].
    - destruct sps as [|s sps]; [congruence|]. exists s, (sps ++ ts ++ tl). rewrite <- app_assoc. split; [reflexivity|].
      inversion Hs; subst. eapply M; [eassumption|exact I].
    - destruct sps as [|s sps]; [congruence|]. exists s, (sps ++ ts ++ tl). rewrite <- app_assoc. split; [reflexivity|].
      inversion Hs; subst. eapply M; [eassumption|exact I].
    - destruct (gap_first g Hg) as (y & q & -> & Hy). exists y, (q ++ ts ++ tl). rewrite <- app_assoc. split; [reflexivity|].
      destruct Hy as [Hy|Hy]; eapply M; try eassumption; exact I.
    - destruct (lands_first _ _ _ _ Hl) as (y & q & -> & Hy). exists y, q. split; [reflexivity|].
      destruct Hy as [Hy|[Hy|Hy]]; eapply M; try eassumption; exact I.
  Qed.
  Lemma explicit_ok o x t ts ds tl tl2 sol2 sv i b d :
    tok_type x = TDirectiveEnd -> marked_doc o t ts -> joined ts tl -> goes o (-1) tl tl2 sol2 -> docs ds tl2 sol2 ->
    length (ts ++ tl) < fuel -> flat sv -> fresh d (ts ++ tl) ->
    exists d2, runs (parse_explicit_document fuel) (mkC (x :: ts ++ tl) true sv i b d) t (mkC tl2 sol2 sv i b d2) /\ fresh d2 (List.tl tl2).
  Proof.
    intros Hx Hm Hj Hl Hds Hf Hfl Hd.
    assert (Next : runs next (mkC (x :: ts ++ tl) true sv i b d) tt (mkC (ts ++ tl) false sv i b d)).
    { pose proof (runs_next x (ts ++ tl) true sv i b d) as K. rewrite Hx in K. apply K.
      destruct (marked_first _ _ _ _ _ _ _ Hm Hl) as (y & q & -> & Hy). left. exact Hy. }
    assert (Body : forall d2, runs (parse_bare_document fuel) (mkC (ts ++ tl) false ((ts ++ tl, lost) :: sv) i b d) t (mkC tl2 sol2 ((ts ++ tl, lost) :: sv) i b d2) ->
       valid_node t = true ->
       runs (parse_explicit_document fuel) (mkC (x :: ts ++ tl) true sv i b d) t (mkC tl2 sol2 sv i b d2)).
    { intros d2 R V. unfold parse_explicit_document. go1. go1; [go|]. rewrite Hx. cbn [ttype_eqb]. go1; [exact Next|]. go1; [go|].
      apply runs_lose. go1; [exact R|]. rewrite V. go. }
    pose proof (marked_valid _ _ _ Hm) as V.
    destruct Hm as [t sps ts Hs Hne Hle|t sps ts Hs Hne Hle|o t g ts Hg Hp|].
    - rewrite <- app_assoc in *. rewrite !app_length in Hf.
      destruct (node_leaf fuel some_fuel (block fuel (pred fuel) false) (block fuel (pred fuel) true) BlockIn (-1) 0 t sps ts tl tl2 sol2
        ((sps ++ ts ++ tl, lost) :: sv) b d) as (d2 & R & Sd); auto.
      { rewrite !app_length. lia. } { eapply fresh_room; [eapply fresh_tail, Hd|lia]. }
      exists d2. split.
      + apply Body; [|exact V]. unfold parse_bare_document, parse_block_node. destruct fuel as [|m] eqn:Ef; [lia|]. cbn [block pred] in *. rewrite <- Ef in *.
        go1. exact R.
      + eapply (fresh_tl false); [exact Hl|]. eapply fresh_spent; [eapply fresh_tail, Hd| |exact Sd]. lia.
    - rewrite <- app_assoc in *. rewrite !app_length in Hf. destruct (literal_head _ _ _ Hle) as (z & r & E & Hz).
      exists d. split; [|eapply (fresh_tl true); [exact Hl|do 2 eapply fresh_tail in Hd; exact Hd]].
      apply Body; [|exact V]. unfold parse_bare_document, parse_block_node. destruct fuel as [|m] eqn:Ef; [lia|]. cbn [block pred] in *. rewrite <- Ef in *.
      go1. eapply (literal_node fuel some_fuel) with (a := NBasic IndentType) (sol1 := false); [exact Hle|exact Hl|apply Z.le_refl|rewrite app_length; lia|reflexivity|].
      intro sv0. rewrite E. cbn [app].
      apply separate_blanks; auto; [unfold middle; destruct Hz as [Hz|Hz]; rewrite Hz; reflexivity|apply reach_calm; unfold calm; destruct Hz as [Hz|Hz]; rewrite Hz; reflexivity|lia].
    - rewrite <- app_assoc in *.
      destruct (plain_ok o t ts g false tl tl2 sol2 ((g ++ ts ++ tl, lost) :: sv) i b d) as (d2 & R & C); auto using opened.
      { apply (joined_tail g), Hj. } { eapply fresh_tail, Hd. }
      exists d2. split; [|exact C]. apply Body; [|exact V]. exact R.
    - cbn [app] in *. destruct (docs_point _ _ _ Hds) as (y & r & -> & Y1 & Y2 & Y3 & Y4 & Y5 & Y6).
      destruct (root_none (block fuel (pred fuel) false) (block fuel (pred fuel) true) tl y r sol2 ((tl, live false) :: sv) b d)
        as (ts3 & sol3 & d2 & R & Sd); auto.
      { apply (fresh_room 2 d [y] r); [exact (fresh_goes _ _ _ _ _ _ Hl Hd)|lia]. }
      exists d2. split.
      + unfold parse_explicit_document. go1. go1; [go|]. rewrite Hx. cbn [ttype_eqb]. go1; [exact Next|]. go1; [go|].
        mid NInvalid (mkC ts3 sol3 ((tl, live false) :: sv) i b d2).
        { unfold parse_bare_document, parse_block_node. destruct fuel as [|m] eqn:Ef; [lia|]. cbn [block pred] in *. rewrite <- Ef in *. go1. exact R. }
        decide1. go1; [go|]. go1; [go|]. go1; [go1; eapply comments_lands; [exact some_fuel|exact Hl|lia]|]. go.
      + apply (fresh_spent 2 d [y] r); [exact (fresh_goes _ _ _ _ _ _ Hl Hd)|lia|exact Sd].
  Qed.

  (** ** the documents after the first *)
  Definition docs_body : list node -> M (list node * bool) := fun docs =>
      set_checkpoint ;;
      ok <- valid (parse_suffixes_and_prefixes fuel) ;;
      if ok : bool then
        commit ;; docs <- maybe_any_document digit fuel docs ;; ret (docs, true)
      else
        rollback ;;
        ty <- tok_ty ;;
        if ttype_eqb ty TBOM then next ;; ret (docs, true)
        else
          set_checkpoint ;;
          ok <- valid (parse_comment_line fuel) ;;
          if ok : bool then commit ;; ret (docs, true)
          else
            rollback ;;
            set_checkpoint ;;
            doc <- parse_explicit_document fuel ;;
            if valid_node doc then commit ;; ret (docs ++ [doc], true)
            else rollback ;; ret (docs, false).
  Lemma suffixes_no x r sol sv i b d : tok_type x <> TDocumentEnd ->
    runs (valid (parse_suffixes_and_prefixes fuel)) (mkC (x :: r) sol sv i b d) false (mkC (x :: r) sol sv i b d).
  Proof.
    intro He. apply (runs_valid _ _ NInvalid). unfold parse_suffixes_and_prefixes. go1.
    mid false (mkC (x :: r) sol sv i b d); [|go].
    apply (runs_valid _ _ NInvalid). unfold parse_document_suffix. go1. go1; [go|]. rewrite (ttype_eqb_no _ _ He). go.
  Qed.
  Lemma lands_length i tl tl2 sol2 : lands i tl tl2 sol2 -> length tl2 <= length tl.
  Proof. intro Hl. destruct Hl; rewrite !app_length; cbn [length]; lia. Qed.
  Lemma last_step n acc e sv i b d : tok_type e = TEOF ->
    runs (loop_go (S n) docs_body acc) (mkC [e] false sv i b d) acc (mkC [e] false sv i b d).
  Proof.
    intro He. apply runs_loop_stop.
      assert (We : is_white_space e = false) by (unfold is_white_space; rewrite He; reflexivity).
      unfold docs_body. go1; [go|]. go1; [apply suffixes_no; congruence|]. try decide1. go1; [go|]. go1; [go|]. rewrite He. try decide1. go1; [go|].
      go1; [go1; apply comment_line_off; auto|]. try decide1. go1; [go|]. go1; [go|].
      go1; [apply explicit_no; congruence|]. go.
  Qed.
  Lemma docs_ok l tl sol : docs l tl sol -> forall n acc sv i b d, length tl <= n -> length tl < fuel -> flat sv -> fresh d (List.tl tl) -> exists e d2,
    runs (loop_go n docs_body acc) (mkC tl sol sv i b d) (acc ++ l) (mkC [e] false sv i b d2).
  Proof.
    induction 1 as [e He|e1 e He1 He|o x t ts tl tl2 sol2 l Hx Hm Hj Hl Hd IH]; intros n acc sv i b d Hn Hf Hfl Hfr.
    - exists e, d. destruct n as [|n]; [cbn in Hn; lia|]. rewrite app_nil_r. apply last_step, He.
    - exists e, d. destruct n as [|[|n]]; [cbn in Hn; lia|cbn in Hn; lia|]. rewrite app_nil_r.
      eapply runs_loop_more; [|apply last_step, He].
      unfold docs_body. go1; [go|]. go1; [apply suffixes_no; congruence|]. try decide1. go1; [go|]. go1; [go|]. rewrite He1. try decide1. go1; [go|].
      go1; [go1; apply (comment_line_ok fuel f0 [] e1 [e]); auto; [constructor; constructor|right; exact He1|]|].
      { apply may_calm. cbn. unfold calm. rewrite He. reflexivity. }
      rewrite He1. go.
    - destruct n as [|n]; [cbn in Hn; lia|]. cbn [length] in *. cbn [List.tl] in Hfr.
      destruct (explicit_ok o x t ts l tl tl2 sol2 ((x :: ts ++ tl, lost) :: sv) i b d) as (d1 & R & F); auto; [lia|].
      assert (Hle : length tl2 <= length (ts ++ tl)).
      { apply goes_length in Hl. rewrite app_length. lia. }
      destruct (IH n (acc ++ [t]) sv i b d1) as (e & d2 & R2); auto; try lia.
      exists e, d2. rewrite <- app_assoc in R2. eapply runs_loop_more; [|exact R2].
      unfold docs_body. go1; [go|]. go1; [apply suffixes_no; congruence|]. try decide1. go1; [go|]. go1; [go|]. rewrite Hx. try decide1. go1; [go|].
      go1; [go1; apply (comment_line_no fuel [] x (ts ++ tl) true); auto; unfold middle; rewrite Hx; reflexivity|].
      cbn [sol_after]. try decide1. go1; [go|]. go1; [go|]. apply runs_lose. go1; [exact R|]. rewrite (marked_valid _ _ _ Hm). go.
  Qed.

  Lemma any_plain o t ts tl tl2 sol2 sv i b d x r :
    plain_doc o t ts -> joined ts tl -> goes o (-1) tl tl2 sol2 -> length (ts ++ tl) < fuel -> flat sv -> fresh d (ts ++ tl) ->
    ts = x :: r -> tok_type x <> TDirective -> tok_type x <> TDirectiveEnd ->
    exists d2, runs (maybe_any_document digit fuel []) (mkC (ts ++ tl) true sv i b d) [t] (mkC tl2 sol2 sv i b d2) /\ fresh d2 (List.tl tl2).
  Proof.
    intros Hp Hj Hl Hf Hfl Hd E X1 X2. set (all := ts ++ tl) in *.
    destruct (plain_ok o t ts [] true tl tl2 sol2 ((all, lost) :: (all, lost) :: sv) i b d) as (d2 & R & C); auto.
    { left. auto. }
    exists d2. split; [|exact C]. pose proof (plain_valid _ _ _ Hp) as V. cbn [app] in R. fold all in R.
    assert (Ea : all = x :: r ++ tl) by (subst all ts; reflexivity).
    unfold maybe_any_document. go1; [go|]. apply runs_lose.
    mid t (mkC tl2 sol2 ((all, lost) :: sv) i b d2); [|rewrite V; go].
    unfold parse_any_document. go1. go1; [go|].
    go1; [rewrite Ea; apply directive_no, X1|]. decide1. try rewrite <- Ea. go1; [go|]. go1; [go|].
    go1; [rewrite Ea; apply explicit_no, X2|]. decide1. try rewrite <- Ea. go1; [go|]. go1; [go|]. apply runs_lose.
    go1; [exact R|]. rewrite V. go.
  Qed.
  Lemma any_marked o x t ts ds tl tl2 sol2 sv i b d :
    tok_type x = TDirectiveEnd -> marked_doc o t ts -> joined ts tl -> goes o (-1) tl tl2 sol2 -> docs ds tl2 sol2 ->
    length (ts ++ tl) < fuel -> flat sv -> fresh d (ts ++ tl) ->
    exists d2, runs (maybe_any_document digit fuel []) (mkC (x :: ts ++ tl) true sv i b d) [t] (mkC tl2 sol2 sv i b d2) /\ fresh d2 (List.tl tl2).
  Proof.
    intros Hx Hm Hj Hl Hds Hf Hfl Hd. set (all := x :: ts ++ tl).
    destruct (explicit_ok o x t ts ds tl tl2 sol2 ((all, lost) :: (all, lost) :: sv) i b d) as (d2 & R & C); auto.
    exists d2. split; [|exact C]. pose proof (marked_valid _ _ _ Hm) as V. fold all in R.
    unfold maybe_any_document. go1; [go|]. apply runs_lose.
    mid t (mkC tl2 sol2 ((all, lost) :: sv) i b d2); [|rewrite V; go].
    unfold parse_any_document. go1. go1; [go|].
    go1; [apply directive_no; congruence|]. decide1. go1; [go|]. go1; [go|]. apply runs_lose. go1; [exact R|]. rewrite V. go.
  Qed.
  Definition begins (x : token) : Prop :=
    middle x = true /\ tok_type x <> TBOM /\ tok_type x <> TDirective /\ tok_type x <> TDirectiveEnd.
  Lemma plain_first o t ts : plain_doc o t ts -> exists sps x r, ts = sps ++ x :: r /\ blanks sps /\ begins x.
  Proof.
    intros [t2 sps ts2 Hs Hl|o2 kind sps es ts2 Hs He|t2 sps ts2 Hs Hl].
    - destruct (leaf_head _ _ _ Hl) as (x & r & -> & Hx). exists sps, x, r. split; [reflexivity|]. split; [exact Hs|].
      unfold lead, head, mark_head, begins, middle in *. destruct (tok_type x); try discriminate; repeat split; discriminate.
    - destruct (entries_head _ _ _ _ _ He) as (x & r & -> & Hx & _). exists sps, x, r. split; [reflexivity|]. split; [exact Hs|].
      unfold solid, begins, middle in *. destruct (tok_type x); try discriminate; repeat split; discriminate.
    - destruct (literal_head _ _ _ Hl) as (x & r & -> & Hx). exists sps, x, r. split; [reflexivity|]. split; [exact Hs|].
      unfold begins, middle. destruct Hx as [Hx|Hx]; rewrite Hx; repeat split; discriminate.
  Qed.

  Theorem stream_ok ds ts : stream_of ds ts -> length ts < fuel -> NoDup (map tok_start (strip ts)) -> exists p tp,
    peval (parse_program digit fuel new_parser) (mkTape zero_token ts []) = Some ((NStream ds, p), tp) /\ p_errs p = [].
  Proof.
    intros H Hf Hn.
    assert (Hd : fresh df_new ts) by (split; [exact Hn|split; [apply Forall_forall; reflexivity|intro p; change (df_new p) with 0%Z; lia]]).
    pose proof (brk_stream _ _ H) as Hb.
    destruct H as [o l t ts tl tl2 sol2 ds Hl Hp Hj Hla Hds|l t ds tl Hl Hds].
    - destruct (plain_first _ _ _ Hp) as (sps & x & r & E & Hs & X1 & X2 & X3 & X4). rewrite app_length in Hf.
      assert (Hh : exists y q, ts = y :: q /\ tok_type y <> TDirective /\ tok_type y <> TDirectiveEnd).
      { destruct sps as [|s sps].
        - exists x, r. rewrite E. auto.
        - exists s, (sps ++ x :: r). rewrite E. split; [reflexivity|]. inversion Hs; subst. split; congruence. }
      destruct Hh as (y & q & Ey & Y1 & Y2).
      destruct (any_plain o t ts tl tl2 sol2 [] (mkInd 0 UnknownMode) [] df_new y q) as (d1 & R1 & F1); auto; try lia.
      { eapply fresh_tail, Hd. }
      destruct (docs_ok _ _ _ Hds fuel [t] [] (mkInd 0 UnknownMode) [] d1) as (e & d2 & R2); auto; try (rewrite app_length in Hf; pose proof (goes_length _ _ _ _ _ Hla); lia).
      eapply runs_whole; [exact Hb|]. rewrite app_assoc in *. rewrite E in *. rewrite app_length in Hf.
      unfold parse_program. go1; [apply runs_next; rewrite <- !app_assoc; apply may_mild; [apply idle_mild, Hl|]; apply may_mild; [apply blanks_mild, Hs|]; apply low_go; [exact X1|constructor]|]. go1; [apply runs_set_sol|].
      unfold parse_stream. rewrite <- !app_assoc in *. cbn [app] in *.
      go1; [apply prefixes_ok; auto|].
      { rewrite !app_length in *. lia. } { right. apply low_go; [exact X1|constructor]. }
      go1; [exact R1|]. go1; [exact R2|]. go.
    - inversion Hds as [| |o x t2 ts tl1 tl2 sol2 ds2 Hx Hm Hj Hla Hds2]; subst. rewrite app_length in Hf. cbn [length] in Hf.
      apply fresh_tail in Hd. pose proof (fresh_next _ _ _ Hd) as Hd2.
      destruct (any_marked o x t ts ds tl1 tl2 sol2 [] (mkInd 0 UnknownMode) [] df_new) as (d1 & R1 & F1); auto; try lia.
      destruct (docs_ok _ _ _ Hds2 fuel [t] [] (mkInd 0 UnknownMode) [] d1) as (e & d2 & R2); auto; try (rewrite app_length in Hf; pose proof (goes_length _ _ _ _ _ Hla); lia).
      eapply runs_whole; [exact Hb|].
      unfold parse_program. go1; [apply runs_next; apply may_mild; [apply idle_mild, Hl|]; apply low_go; [unfold middle; rewrite Hx; reflexivity|constructor]|]. go1; [apply runs_set_sol|].
      unfold parse_stream.
      assert (Pre : forall sv i b d, reach (l ++ []) sv (x :: ts ++ tl1) ->
        runs (parse_prefixes fuel) (mkC (l ++ x :: ts ++ tl1) true sv i b d) tt (mkC (x :: ts ++ tl1) true sv i b d)).
      { intros sv i b d Hr. apply (prefixes_ok l [] x (ts ++ tl1)); auto; try congruence; [unfold middle; rewrite Hx; reflexivity|].
        rewrite app_nil_r. lia. }
      go1; [apply Pre; right; apply low_go; [unfold middle; rewrite Hx; reflexivity|constructor]|].
      go1; [exact R1|]. go1; [exact R2|]. go.
  Qed.
End Whole.
