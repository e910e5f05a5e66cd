(** A tag or an anchor before a block scalar and before the lines of a block collection. *)
From Coq Require Import String ZArith.
From Verif Require Import Base YamlChar Token Ast Balance CPAccessor Lexer Parser ParserFlow ParserBlock ParserDocs ParserTape TextSpec TapeRules BlockParse1 BlockParse2 BlockParse3 BlockParse4 LitParse
  FlowParse1 FlowParse2 FlowParse3 FoldParse FlowParse4 LeafParse BlockParse5 BlockColl.
Local Open Scope parser_scope.
Local Arguments cons {A}%type_scope & _ _.
Local Arguments pair {A B}%type_scope & _ _.

Lemma props_any no1 no2 p ts : props no1 p ts -> exists p2, props no2 p2 ts.
Proof. intros []; eexists; [apply props_tag|apply props_anchor|apply props_tag_anchor|apply props_anchor_tag]; eassumption. Qed.

Section Marks.
  Context (fuel : nat) (some_fuel : 1 < fuel).
  Let f0 : 0 < fuel. Proof. lia. Qed.

  (** properties before anything; what a single one leaves in the place of the other depends on what follows *)
  Lemma props_then ctx no p pts y q sol sv i b d a z q2 s : ctx <> NoCtx -> props no p pts -> calm y = true -> tok_type y <> TTag -> length pts < fuel ->
    (forall sv, runs (parse_separate fuel ctx) (mkC (y :: q) false sv i b d) a (mkC (z :: q2) s sv i b d)) ->
    (if valid_node a then no = NInvalid /\ mark_head z = false else no = NNil) ->
    runs (parse_properties fuel ctx) (mkC (pts ++ y :: q) sol sv i b d) p (mkC (y :: q) false sv i b d).
  Proof.
    intros Hx H Cy Ty Hf Sep Hno.
    assert (Anch : forall sv, runs (if valid_node a : bool then parse_anchor_property else ret NNil) (mkC (z :: q2) s sv i b d) no (mkC (z :: q2) s sv i b d)).
    { intro sv0. destruct (valid_node a); [|subst; go]. destruct Hno as [-> Hz]. apply anchor_no. unfold mark_head in Hz. intro A. rewrite A in Hz. discriminate. }
    assert (Tag : forall sv, runs (if valid_node a : bool then parse_tag_property else ret NNil) (mkC (z :: q2) s sv i b d) no (mkC (z :: q2) s sv i b d)).
    { intro sv0. destruct (valid_node a); [|subst; go]. destruct Hno as [-> Hz]. apply tag_no. unfold mark_head in Hz. intro A. rewrite A in Hz. discriminate. }
    assert (Vn : valid_node no = false) by (destruct (valid_node a); [destruct Hno as [-> _]|subst]; reflexivity).
    destruct H as [t ts H|c ts H|t ts sp2 c ts2 H Hs2 Hn2 H2|t ts sp2 c ts2 H Hs2 Hn2 H2].
    - destruct (tag_head _ _ H) as (y1 & q1 & E & Hy & _). unfold parse_properties. go1.
      mid TTag (mkC (ts ++ y :: q) sol sv i b d); [rewrite <- Hy, E; apply runs_tok_ty|].
      go1; [apply tag_ok; eauto|]. rewrite (tag_valid _ _ H). go1; [go|]. go1; [go1; apply Sep|]. go1; [apply Anch|].
      rewrite ?(tag_valid _ _ H), Vn. go.
    - destruct (anchor_head _ _ H) as (y1 & q1 & E & Hy & _). unfold parse_properties. go1.
      mid TAnchor (mkC (ts ++ y :: q) sol sv i b d); [rewrite <- Hy, E; apply runs_tok_ty|].
      go1; [apply anchor_ok; eauto|]. rewrite (anchor_valid _ _ H). go1; [go|]. go1; [go1; apply Sep|]. go1; [apply Tag|].
      rewrite Vn. go.
    - destruct (tag_head _ _ H) as (y1 & q1 & E & Hy & _). destruct (anchor_head _ _ H2) as (y2 & q2' & E2 & Hy2 & _).
      assert (M2 : middle y2 = true) by (unfold middle; rewrite Hy2; reflexivity).
      assert (C2 : calm y2 = true) by (unfold calm; rewrite Hy2; reflexivity).
      rewrite !app_length in Hf. rewrite <- !app_assoc.
      unfold parse_properties. go1.
      mid TTag (mkC (ts ++ sp2 ++ ts2 ++ y :: q) sol sv i b d); [rewrite <- Hy, E; apply runs_tok_ty|].
      mid t (mkC (sp2 ++ ts2 ++ y :: q) false sv i b d); [rewrite E2; cbn [app]; apply tag_ok_blanks; auto|].
      rewrite (tag_valid _ _ H). go1; [go|].
      mid true (mkC (ts2 ++ y :: q) false ((sp2 ++ ts2 ++ y :: q, live false) :: sv) i b d).
      { apply (runs_valid _ _ (NBasic IndentType)). rewrite E2. cbn [app]. apply separate_all; auto. lia. }
      go1; [apply anchor_ok; eauto|]. rewrite ?(tag_valid _ _ H), (anchor_valid _ _ H2). go.
    - destruct (anchor_head _ _ H) as (y1 & q1 & E & Hy & _). destruct (tag_head _ _ H2) as (y2 & q2' & E2 & Hy2 & _).
      assert (M2 : middle y2 = true) by (unfold middle; rewrite Hy2; reflexivity).
      assert (C2 : calm y2 = true) by (unfold calm; rewrite Hy2; reflexivity).
      rewrite !app_length in Hf. rewrite <- !app_assoc.
      unfold parse_properties. go1.
      mid TAnchor (mkC (ts ++ sp2 ++ ts2 ++ y :: q) sol sv i b d); [rewrite <- Hy, E; apply runs_tok_ty|].
      mid c (mkC (sp2 ++ ts2 ++ y :: q) false sv i b d); [rewrite E2; cbn [app]; apply anchor_ok_blanks; auto|].
      rewrite (anchor_valid _ _ H). go1; [go|].
      mid true (mkC (ts2 ++ y :: q) false ((sp2 ++ ts2 ++ y :: q, live false) :: sv) i b d).
      { apply (runs_valid _ _ (NBasic IndentType)). rewrite E2. cbn [app]. apply separate_all; auto. lia. }
      go1; [apply tag_ok; eauto|]. rewrite ?(anchor_valid _ _ H), (tag_valid _ _ H2). go.
  Qed.

  (** after a dash: properties with no flow node behind them on their line are no key *)
  Lemma props_no_entry bn bi p pts sps z q sol sv i b d : props NInvalid p pts -> blanks sps -> bare z = true -> no_json (tok_type z) = true ->
    is_white_space z = false -> calm z = true -> tok_type z <> TMappingValue -> length (pts ++ sps) < fuel ->
    room 1 (pts ++ sps ++ [z]) d -> exists d2,
    runs (parse_block_mapping_entry fuel bn bi) (mkC (pts ++ sps ++ z :: q) sol sv i b d) NInvalid (mkC (z :: q) false sv i b d2) /\
    spent 1 (pts ++ sps ++ [z]) d d2.
  Proof.
    intros Hp Hs Z0 Zj Z2 Z3 Z5 Hf Hr. rewrite app_length in Hf.
    assert (Hfs : length sps < fuel) by lia. assert (Hfp : length pts < fuel) by lia. clear Hf.
    destruct (props_head _ _ _ Hp) as (x & pr & Ep & Hx & Fp). destruct (mark_head_no _ Hx) as (X1 & X2 & X3 & X4).
    set (all := pts ++ sps ++ z :: q). set (cp := (all, live sol)).
    assert (Zm : mark_head z = false) by (unfold mark_head; unfold bare in Z0; destruct (tok_type z); try discriminate; reflexivity).
    assert (Sep : exists a, forall sv i d, runs (parse_separate fuel BlockKey) (mkC (sps ++ z :: q) false sv i b d) a (mkC (z :: q) false sv i b d)).
    { cbn [parse_separate]. destruct sps as [|s0 sps].
      - eexists. intros sv0 i0 d0. apply sep_in_line_no; auto.
      - eexists. intros sv0 i0 d0. apply (sep_in_line_ok fuel (s0 :: sps) z q false); auto; left; discriminate. }
    destruct Sep as (a & Sep).
    destruct (blanks_or sps z q Hs Z3) as (y & qy & Ey & Cy).
    assert (Ty : tok_type y <> TTag).
    { destruct sps as [|s0 sps]; cbn [app] in Ey; injection Ey as <- <-; [|inversion Hs; subst; congruence].
      intro A. unfold mark_head in Zm. rewrite A in Zm. discriminate. }
    assert (Pr : exists p2, props (if valid_node a then NInvalid else NNil) p2 pts) by (eapply props_any; exact Hp).
    destruct Pr as (p2 & Hp2). assert (Vp := props_valid _ _ _ Hp2).
    assert (Props : forall sol sv i d, runs (parse_properties fuel BlockKey) (mkC all sol sv i b d) p2 (mkC (sps ++ z :: q) false sv i b d)).
    { intros sol0 sv0 i0 d0. subst all. rewrite Ey in *. eapply props_then; [discriminate|exact Hp2|exact Cy|exact Ty|exact Hfp|intro; apply Sep|].
      destruct (valid_node a); auto. }
    assert (Eall : all = x :: pr ++ sps ++ z :: q) by (subst all pts; reflexivity).
    assert (Et : forall v, occ (pts ++ sps ++ [z]) v = (occ [x] v + occ pr v + occ sps v + occ [z] v)%Z).
    { intro v. rewrite !occ_app. subst pts. change (x :: pr) with ([x] ++ pr). rewrite !occ_app. clear; lia. }
    destruct (plain_mark_head fuel BlockKey x (pr ++ sps ++ z :: q) sol (cp :: cp :: sv) (mkInd 0 StrictMode) b d) as (d1 & R1 & S1); auto.
    { intro v. specialize (Hr v). unfold charge in *. rewrite Et in Hr. pose proof (occ_pos [x] v). pose proof (occ_pos pr v). pose proof (occ_pos [z] v). pose proof (occ_pos sps v). nums. }
    rewrite <- Eall in R1.
    destruct (plain_mark fuel BlockKey z q false ((sps ++ z :: q, live false) :: cp :: sv) (mkInd 0 StrictMode) b d1) as (d2 & R2 & S2); auto.
    { intro v. specialize (Hr v). specialize (S1 v). unfold charge in *. rewrite Et in Hr. pose proof (occ_pos [x] v). pose proof (occ_pos pr v). pose proof (occ_pos [z] v). pose proof (occ_pos sps v). nums. }
    exists (if valid_node a then d2 else d1). split.
    2:{ intro v. specialize (S1 v). specialize (S2 v). unfold charge in *. rewrite Et. pose proof (occ_pos [x] v). pose proof (occ_pos pr v). pose proof (occ_pos [z] v). pose proof (occ_pos sps v).
        destruct (valid_node a); nums. }
    eapply (key_no_entry fuel bn bi (NContent p2 NNull)); [reflexivity|exact Z5| |].
    { exists x, (pr ++ sps ++ z :: q). split; [exact Eall|]. unfold lead. rewrite Hx, Bool.orb_true_r. reflexivity. }
    fold all cp. unfold parse_block_mapping_implicit_key. go1. go1; [go|]. fold cp.
    assert (Json : exists ts3 sol3, runs (parse_flow_json_node fuel (json_content fuel) BlockKey) (mkC all sol (cp :: cp :: sv) (mkInd 0 StrictMode) b d)
      NInvalid (mkC ts3 sol3 (cp :: cp :: sv) (mkInd 0 StrictMode) b d)).
    { destruct (valid_node a) eqn:Va.
      - exists (z :: q), false. unfold parse_flow_json_node. go1. go1; [go|]. go1; [apply Props|]. rewrite Vp.
        go1; [go1; apply Sep|]. rewrite Va. go1; [go|]. go1; [apply json_no; auto|]. go.
      - exists all, sol. unfold parse_flow_json_node. go1. go1; [go|]. go1; [apply Props|]. rewrite Vp.
        go1; [go1; apply Sep|]. rewrite Va. go1; [go|]. rewrite Eall. go1; [apply json_no; auto|]. go. }
    destruct Json as (ts3 & sol3 & Json).
    mid NInvalid (mkC ts3 sol3 (cp :: cp :: sv) i b d).
    { unfold parse_implicit_json_key. go1. go1; [go1; exact Json|]. go. }
    decide1. go1; [subst cp; go|]. fold cp. unfold parse_implicit_yaml_key. go1.
    mid (NContent p2 NNull) (mkC (sps ++ z :: q) false (cp :: sv) i b (if valid_node a then d2 else d1)).
    2:{ decide1. go1; [apply maybe_sep_no; auto|]. go. }
    go1. unfold parse_flow_yaml_node, parse_generic_flow_node. go1. go1; [go|]. go1; [rewrite Eall; apply alias_no, X1|]. decide1.
    rewrite <- Eall. go1; [go|]. go1; [go|]. go1; [exact R1|]. decide1. go1; [subst cp; go|]. go1; [apply Props|]. rewrite Vp.
    go1; [go|]. go1; [go1; apply Sep|]. unfold new_content. rewrite Vp. destruct (valid_node a).
    - go1; [exact R2|]. decide1. go.
    - go1; [go|]. decide1. go.
  Qed.

  (** ** the node behind the properties *)
  Section Node.
    Context (bn bi : context -> M node) (ctx : context) (k : nat) (sps p_ts : list token) (p : node) (y : token) (q : list token).
    Context (Hcx : ctx = BlockIn \/ ctx = BlockOut) (Hs : blanks sps) (Hn : sps <> []) (Hp : props NInvalid p p_ts) (Cy : calm y = true) (Ty : tok_type y <> TTag)
      (Hfs : length sps < fuel) (Hfp : length p_ts < fuel).
    Context (z : token) (q2 : list token) (s : bool) (b : text) (Hz : mark_head z = false).
    Context (Sep : forall sv d, runs (parse_separate fuel ctx) (mkC (y :: q) false sv (ind (S k)) b d) (NBasic IndentType) (mkC (z :: q2) s sv (ind (S k)) b d)).

    Lemma marked_props sol sv d : runs (parse_properties fuel ctx) (mkC (p_ts ++ y :: q) sol sv (ind (S k)) b d) p (mkC (y :: q) false sv (ind (S k)) b d).
    Proof.
      eapply (props_then ctx NInvalid) with (a := NBasic IndentType); [destruct Hcx; subst; discriminate|exact Hp|exact Cy|exact Ty|exact Hfp|intro; apply Sep|].
      split; [reflexivity|exact Hz].
    Qed.
    Lemma marked_sep sv d : runs (parse_separate fuel ctx) (mkC (sps ++ p_ts ++ y :: q) false sv (ind (S k)) b d) (NBasic IndentType)
      (mkC (p_ts ++ y :: q) false sv (ind (S k)) b d).
    Proof.
      destruct (props_head _ _ _ Hp) as (x & pr & E & Hx & _). destruct (mark_head_no _ Hx) as (_ & _ & X3 & _). rewrite E. cbn [app].
      apply separate_blanks; auto using reach_calm; [destruct Hcx; subst; exact I|].
      unfold mark_head in Hx. unfold middle. destruct (tok_type x); try discriminate; reflexivity.
    Qed.

    (** a block scalar after them *)
    Lemma marked_scalar t c2 sv d : valid_node t = true -> tok_type z = TLiteral \/ tok_type z = TFolded ->
      (forall sv, runs (match tok_type z with TLiteral => parse_literal fuel | TFolded => parse_folded fuel | _ => invalid end)
        (mkC (z :: q2) s sv (ind k) b d) t (c2 sv)) ->
      runs (parse_block_scalar fuel ctx) (mkC (sps ++ p_ts ++ y :: q) false sv (ind k) b d) (NContent p t) (c2 sv).
    Proof.
      intros V Tz R. pose proof (props_valid _ _ _ Hp) as Vp. unfold parse_block_scalar. go1. go1; [go|].
      replace (Z.of_nat k + 1)%Z with (Z.of_nat (S k)) by (clear; lia). go1; [go1; apply marked_sep|]. decide1. go1; [go|]. go1; [apply marked_props|]. rewrite Vp.
      mid p (mkC (z :: q2) s sv (ind (S k)) b d); [go1; [go1; apply Sep|]; decide1; go|].
      go1; [go|]. replace (Z.of_nat (S k) + -1)%Z with (Z.of_nat k) by (clear; lia). go1; [go|]. go1; [apply R|]. rewrite V. unfold new_content. rewrite Vp. go.
    Qed.
    (** no block scalar after them *)
    Lemma marked_no_scalar sv d : tok_type z <> TLiteral -> tok_type z <> TFolded ->
      runs (parse_block_scalar fuel ctx) (mkC (sps ++ p_ts ++ y :: q) false sv (ind k) b d) NInvalid (mkC (z :: q2) s sv (ind k) b d).
    Proof.
      intros T1 T2. pose proof (props_valid _ _ _ Hp) as Vp. unfold parse_block_scalar. go1. go1; [go|].
      replace (Z.of_nat k + 1)%Z with (Z.of_nat (S k)) by (clear; lia). go1; [go1; apply marked_sep|]. decide1. go1; [go|]. go1; [apply marked_props|]. rewrite Vp.
      mid p (mkC (z :: q2) s sv (ind (S k)) b d); [go1; [go1; apply Sep|]; decide1; go|].
      go1; [go|]. replace (Z.of_nat (S k) + -1)%Z with (Z.of_nat k) by (clear; lia). go1; [go|].
      mid NInvalid (mkC (z :: q2) s sv (ind k) b d); [|go].
      destruct (tok_type z); try congruence; exact (runs_invalid _).
    Qed.
  End Node.

  Lemma node_marked_literal bn bi ctx k i sps p pts sps2 t ts tl tl2 sol2 sv b d : ctx = BlockIn \/ ctx = BlockOut ->
    blanks sps -> sps <> [] -> props NInvalid p pts -> blanks sps2 -> sps2 <> [] -> literal (Z.of_nat k) t ts -> rests i tl tl2 sol2 -> (i <= Z.of_nat k)%Z ->
    length (sps ++ pts ++ sps2 ++ ts ++ tl) < fuel ->
    runs (block_node_body fuel bn bi ctx) (mkC (sps ++ pts ++ sps2 ++ ts ++ tl) false sv (ind k) b d) (NContent p t) (mkC tl2 sol2 sv (ind k) b d).
  Proof.
    intros Hc Hs Hn Hp Hs2 Hn2 Hl Hr Hi Hf. rewrite !app_length in Hf.
    destruct (literal_head _ _ _ Hl) as (o & r & E & Ho). pose proof (literal_valid _ _ _ Hl) as V.
    assert (Co : calm o = true) by (unfold calm; destruct Ho as [Ho|Ho]; rewrite Ho; reflexivity).
    assert (Mo : middle o = true) by (unfold middle; destruct Ho as [Ho|Ho]; rewrite Ho; reflexivity).
    assert (Ko : mark_head o = false) by (unfold mark_head; destruct Ho as [Ho|Ho]; rewrite Ho; reflexivity).
    assert (Sep : forall sv d, runs (parse_separate fuel ctx) (mkC (sps2 ++ ts ++ tl) false sv (ind (S k)) b d) (NBasic IndentType) (mkC (ts ++ tl) false sv (ind (S k)) b d)).
    { intros sv0 d0. rewrite E. cbn [app]. apply separate_blanks; auto using reach_calm; [destruct Hc; subst; exact I|lia]. }
    assert (Hd : exists y q, sps2 ++ ts ++ tl = y :: q /\ tok_type y = TSpace).
    { destruct sps2 as [|y q]; [congruence|]. inversion Hs2; subst. exists y, (q ++ (o :: r) ++ tl). auto. }
    destruct Hd as (y & q & Ey & Ty).
    assert (R : forall sv, runs (match tok_type o with TLiteral => parse_literal fuel | TFolded => parse_folded fuel | _ => invalid end)
      (mkC (o :: r ++ tl) false sv (ind k) b d) t (mkC tl2 sol2 sv (ind k) b d)).
    { intro sv0. destruct (scalar_ok fuel f0 (Z.of_nat k) i t ts tl tl2 sol2 false sv0 b d Hl Hr Hi) as (o2 & r2 & E2 & R); [rewrite app_length; lia|].
      rewrite E in E2, R. injection E2 as <- <-. exact R. }
    assert (Hfs : length sps < fuel) by lia. assert (Hfp : length pts < fuel) by lia. clear Hf.
    rewrite E in *. cbn [app] in *. rewrite Ey in *.
    assert (S : forall sv, runs (parse_block_scalar fuel ctx) (mkC (sps ++ pts ++ y :: q) false sv (ind k) b d) (NContent p t) (mkC tl2 sol2 sv (ind k) b d)).
    { intro sv0. refine (marked_scalar ctx k sps pts p y q Hc Hs Hn Hp _ _ Hfs Hfp o (r ++ tl) false b Ko Sep t (fun sv => mkC tl2 sol2 sv (ind k) b d) sv0 d V Ho R).
      - unfold calm. rewrite Ty. reflexivity.
      - rewrite Ty. discriminate. }
    set (all := sps ++ pts ++ y :: q) in *. clearbody all.
    unfold block_node_body. go1. go1; [go|]. apply runs_lose.
    mid (NContent p t) (mkC tl2 sol2 ((all, lost) :: sv) (ind k) b d); [|go].
    unfold parse_block_in_block. go1. go1; [go|]. apply runs_lose.
    go1; [apply S|]. go.
  Qed.

  Lemma node_marked_coll o kind n es ts m i ctx k sps1 p pts g sps tl tl2 sol2 sv b d :
    P_entries fuel o kind n es ts -> (exists x r, ts = x :: r /\ dash_head kind x) -> length ts + 1 <= m ->
    blanks sps1 -> sps1 <> [] -> props NInvalid p pts -> gap g -> blanks sps -> length sps = n -> k < n -> ctx = BlockIn \/ ctx = BlockOut ->
    length (sps1 ++ pts ++ g ++ sps ++ ts ++ tl) < fuel ->
    goes o i tl tl2 sol2 -> (i < Z.of_nat n)%Z -> joined ts tl -> flat sv -> fresh d (ts ++ tl) -> exists d2,
    runs (block_node_body fuel (block fuel m false) (block fuel m true) ctx)
         (mkC (sps1 ++ pts ++ g ++ sps ++ ts ++ tl) false sv (ind k) b d) (NContent p (build kind es)) (mkC tl2 sol2 sv (ind k) b d2) /\ clean kind n d2 tl2.
  Proof.
    intros H Hh Hm Hs1 Hn1 Hp Hg Hs Hn Hk Hc Hf Hl Hi Hj Hfl Hd. rewrite !app_length in Hf.
    destruct (coll_ok fuel some_fuel o kind n es ts m i ctx (Z.of_nat k) sps tl tl2 sol2 ((sps1 ++ pts ++ g ++ sps ++ ts ++ tl, lost) :: sv) b d p) as (d2 & R & F); auto.
    { rewrite !app_length. lia. } { left. lia. } { destruct Hc as [-> | ->]; [auto|right; split; [reflexivity|lia]]. }
    exists d2. split; [|exact F]. clear F H.
    destruct Hh as (x & r & E & Hx & _).
    assert (Kx : mark_head x = false) by (unfold solid in Hx; unfold mark_head; destruct (tok_type x); try discriminate; reflexivity).
    assert (L1 : tok_type x <> TLiteral) by (intro A; unfold solid in Hx; rewrite A in Hx; discriminate).
    assert (L2 : tok_type x <> TFolded) by (intro A; unfold solid in Hx; rewrite A in Hx; discriminate).
    assert (Sep : forall sv d, runs (parse_separate fuel ctx) (mkC (g ++ sps ++ ts ++ tl) false sv (ind (S k)) b d) (NBasic IndentType) (mkC (ts ++ tl) (sol_after sps true) sv (ind (S k)) b d)).
    { intros sv0 d0. rewrite E. cbn [app]. apply separate_gap; auto using solid_middle; try lia; [destruct Hc; subst; exact I|]. left. apply solid_calm, Hx. }
    assert (Com : forall sv d, runs (parse_comments fuel) (mkC (g ++ sps ++ ts ++ tl) false sv (ind k) b d) (NBasic CommentType) (mkC (sps ++ ts ++ tl) true sv (ind k) b d)).
    { intros sv0 d0. rewrite E. cbn [app]. apply comments_gap; auto using solid_middle; try lia. left. apply solid_calm, Hx. }
    assert (Hy : exists y q, g ++ sps ++ ts ++ tl = y :: q /\ calm y = true /\ tok_type y <> TTag).
    { pose proof (gap_mild g Hg) as M. pose proof (gap_some g Hg). destruct g as [|y g]; [congruence|]. inversion M as [|? ? My _]; subst. eexists y, _.
      split; [reflexivity|]. unfold mild in My. unfold calm. destruct (tok_type y); try discriminate My; (split; [reflexivity|discriminate]). }
    destruct Hy as (y & q & Ey & Cy & Ty).
    assert (Hfs : length sps1 < fuel) by lia. assert (Hfp : length pts < fuel) by lia. clear Hf.
    rewrite Ey in *. rewrite E in Sep. cbn [app] in Sep.
    assert (NS : forall sv d, runs (parse_block_scalar fuel ctx) (mkC (sps1 ++ pts ++ y :: q) false sv (ind k) b d) NInvalid (mkC (x :: r ++ tl) (sol_after sps true) sv (ind k) b d)).
    { intros sv0 d0. exact (marked_no_scalar ctx k sps1 pts p y q Hc Hs1 Hn1 Hp Cy Ty Hfs Hfp x (r ++ tl) (sol_after sps true) b Kx Sep sv0 d0 L1 L2). }
    assert (S1 : forall sv d, runs (parse_separate fuel ctx) (mkC (sps1 ++ pts ++ y :: q) false sv (ind (S k)) b d) (NBasic IndentType) (mkC (pts ++ y :: q) false sv (ind (S k)) b d)) by (intros; eapply marked_sep; eassumption).
    assert (S2 : forall sol sv d, runs (parse_properties fuel ctx) (mkC (pts ++ y :: q) sol sv (ind (S k)) b d) p (mkC (y :: q) false sv (ind (S k)) b d)) by (intros; eapply marked_props; eassumption).
    pose proof (props_valid _ _ _ Hp) as Vp. unfold new_content in R at 3. rewrite Vp in R.
    set (all := sps1 ++ pts ++ y :: q) in *. clearbody all.
    unfold block_node_body. go1. go1; [go|]. apply runs_lose.
    mid (NContent p (build kind es)) (mkC tl2 sol2 ((all, lost) :: sv) (ind k) b d2); [|go].
    unfold parse_block_in_block. go1. go1; [go|].
    go1; [apply NS|]. decide1. go1; [go|].
    mid (NContent p (build kind es)) (mkC tl2 sol2 ((all, lost) :: sv) (ind k) b d2); [|go].
    unfold parse_block_collection. go1. go1; [go|]. apply runs_lose. go1; [go|].
    replace (Z.of_nat k + 1)%Z with (Z.of_nat (S k)) by (clear; lia). go1; [go1; apply S1|].
    mid p (mkC (y :: q) false ((all, lost) :: sv) (ind (S k)) b d).
    { decide1. go1; [apply S2|]. rewrite Vp. go. }
    go1; [go|]. replace (Z.of_nat (S k) + -1)%Z with (Z.of_nat k) by (clear; lia).
    go1; [go1; apply Com|]. decide1. exact R.
  Qed.
End Marks.
