(** Aliases, and flow nodes with a tag or an anchor before them. *)
From Coq Require Import String ZArith.
From Verif Require Import Base YamlChar Token Ast Balance CPAccessor Lexer Parser ParserFlow ParserBlock ParserDocs ParserTape TextSpec TapeRules
  BlockParse1 BlockParse2 BlockParse3 BlockParse4 FlowParse1 FlowParse2 FlowParse3 FoldParse FlowParse4.
Local Open Scope parser_scope.
Local Arguments cons {A}%type_scope & _ _.
Local Arguments pair {A B}%type_scope & _ _.

(** ** tokens *)
Inductive alias_of : node -> list token -> Prop :=
| alias_name a w : tok_type a = TAlias -> tok_type w = TString -> conforms w CsAnchor = true -> alias_of (NAlias (tok_origin w)) [a; w].
Inductive anchor_of : node -> list token -> Prop :=
| anchor_name a w : tok_type a = TAnchor -> tok_type w = TString -> conforms w CsAnchor = true -> anchor_of (NAnchor (tok_origin w)) [a; w].
(** with one, two or a named handle *)
Inductive tag_of : node -> list token -> Prop :=
| tag_one x w : tok_type x = TTag -> tok_type w = TString -> conforms w CsTag = true -> tag_of (NTag (tok_origin w)) [x; w]
| tag_two x y w : tok_type x = TTag -> tok_type y = TTag -> tok_type w = TString -> conforms w CsTag = true -> tag_of (NTag (tok_origin w)) [x; y; w]
| tag_named x v y w : tok_type x = TTag -> tok_type v = TString -> conforms v CsWord = true -> tok_type y = TTag -> tok_type w = TString ->
    conforms w CsTag = true -> tag_of (NTag (tok_origin w)) [x; v; y; w].
(** [no]: what stands for the one that is missing *)
Inductive props (no : node) : node -> list token -> Prop :=
| props_tag t ts : tag_of t ts -> props no (NProperties t no) ts
| props_anchor a ts : anchor_of a ts -> props no (NProperties no a) ts
| props_tag_anchor t ts sps a ts2 : tag_of t ts -> blanks sps -> sps <> [] -> anchor_of a ts2 -> props no (NProperties t a) (ts ++ sps ++ ts2)
| props_anchor_tag t ts sps a ts2 : anchor_of a ts -> blanks sps -> sps <> [] -> tag_of t ts2 -> props no (NProperties t a) (ts ++ sps ++ ts2).
Inductive dressed (n : nat) : node -> list token -> Prop :=
| dressed_node p pts sps t ts : props NInvalid p pts -> blanks sps -> sps <> [] -> inner n t ts -> dressed n (NContent p t) (pts ++ sps ++ ts).
Definition leaf (n : nat) (t : node) (ts : list token) : Prop := inner n t ts \/ alias_of t ts \/ dressed n t ts.

(** the first token of properties *)
Definition mark_head (x : token) : bool := match tok_type x with TTag | TAnchor => true | _ => false end.
Lemma anchor_head t ts : anchor_of t ts -> exists x r, ts = x :: r /\ tok_type x = TAnchor /\ Forall (fun y => quiet y = true /\ calm y = true) ts.
Proof. intros [a w Ha Hw _]. exists a, [w]. unfold quiet, calm. repeat constructor; rewrite ?Ha, ?Hw; reflexivity. Qed.
Lemma tag_head t ts : tag_of t ts -> exists x r, ts = x :: r /\ tok_type x = TTag /\ Forall (fun y => quiet y = true /\ calm y = true) ts.
Proof.
  intros [x w H1 H2 _|x y w H1 H2 H3 _|x v y w H1 H2 _ H3 H4 _]; eexists _, _; (split; [reflexivity|split; [exact H1|]]); unfold quiet, calm;
    repeat constructor; repeat match goal with H : tok_type ?z = _ |- context [tok_type ?z] => rewrite H end; reflexivity.
Qed.
Lemma blanks_quiet sps : blanks sps -> Forall (fun y => quiet y = true /\ calm y = true) sps.
Proof. intro H. eapply Forall_impl; [|exact H]. cbn. intros y Hy. unfold quiet, calm. rewrite Hy. auto. Qed.
Lemma props_head no p ts : props no p ts -> exists x r, ts = x :: r /\ mark_head x = true /\ Forall (fun y => quiet y = true /\ calm y = true) ts.
Proof.
  unfold mark_head. intros [t ts2 H|a ts2 H|t ts2 sps a ts3 H Hs _ H2|t ts2 sps a ts3 H Hs _ H2].
  - destruct (tag_head _ _ H) as (x & r & E & Hx & F). exists x, r. rewrite Hx. auto.
  - destruct (anchor_head _ _ H) as (x & r & E & Hx & F). exists x, r. rewrite Hx. auto.
  - destruct (tag_head _ _ H) as (x & r & E & Hx & F). destruct (anchor_head _ _ H2) as (? & ? & _ & _ & F2).
    exists x, (r ++ sps ++ ts3). rewrite Hx. split; [subst; reflexivity|split; [reflexivity|]]. rewrite !Forall_app. auto using blanks_quiet.
  - destruct (anchor_head _ _ H) as (x & r & E & Hx & F). destruct (tag_head _ _ H2) as (? & ? & _ & _ & F2).
    exists x, (r ++ sps ++ ts3). rewrite Hx. split; [subst; reflexivity|split; [reflexivity|]]. rewrite !Forall_app. auto using blanks_quiet.
Qed.
Lemma props_valid no p ts : props no p ts -> valid_node p = true.
Proof. intros []; reflexivity. Qed.

Lemma leaf_scalar n t ts : scalar t ts -> leaf n t ts.
Proof. left. auto. Qed.
#[export] Hint Resolve leaf_scalar : core.
(** the first token of a leaf *)
Definition lead (x : token) : bool := head x || mark_head x || ttype_eqb (tok_type x) TAlias.
Lemma leaf_head n t ts : leaf n t ts -> exists x r, ts = x :: r /\ lead x = true.
Proof.
  unfold lead. intros [H|[H|H]].
  - destruct (inner_head _ _ _ H) as (x & r & E & Hx). exists x, r. rewrite Hx. auto.
  - destruct H as [a w H _ _]. exists a, [w]. rewrite H. split; [reflexivity|]. rewrite Bool.orb_true_r. reflexivity.
  - destruct H as [p pts sps t ts H _ _ _]. destruct (props_head _ _ _ H) as (x & r & -> & Hx & _). exists x, (r ++ sps ++ ts).
    rewrite Hx, Bool.orb_true_r. auto.
Qed.
Lemma lead_facts x : lead x = true -> middle x = true /\ is_white_space x = false /\ closer x = false /\ tok_type x <> TSequenceEntry.
Proof. unfold lead, head, mark_head, middle, is_white_space, closer. destruct (tok_type x); cbn; intros; repeat split; congruence. Qed.
Lemma leaf_valid n t ts : leaf n t ts -> valid_node t = true.
Proof. intros [H|[H|H]]; [eapply inner_valid, H|destruct H; reflexivity..]. Qed.
Lemma bal_leaf n t ts : leaf n t ts -> bal ts.
Proof.
  intros [H|[H|H]]; [eapply bal_inner, H| |].
  - destruct H as [a w Ha Hw _]. apply bal_quiet. unfold quiet. repeat constructor; rewrite ?Ha, ?Hw; reflexivity.
  - destruct H as [p pts sps t ts H Hs _ Hi]. destruct (props_head _ _ _ H) as (_ & _ & _ & _ & F).
    apply bal_app; [apply bal_quiet; eapply Forall_impl; [|exact F]; cbn; tauto|].
    apply bal_app; [apply bal_quiet; eapply Forall_impl; [|apply blanks_quiet, Hs]; cbn; tauto|eapply bal_inner, Hi].
Qed.

(** ** checkpoints before properties *)
Lemma brk_quiet a ts : Forall (fun y => quiet y = true /\ calm y = true) a -> brk (a ++ ts) = brk ts.
Proof. intro H. apply bal_quiet. eapply Forall_impl; [|exact H]. cbn. tauto. Qed.
Lemma low_quiet a s sv x r : Forall (fun y => quiet y = true /\ calm y = true) a -> a <> [] -> low sv (x :: r) -> low ((a ++ x :: r, s) :: sv) (x :: r).
Proof.
  intros Ha Hn Hl. destruct a as [|y a]; [congruence|]. inversion Ha; subst. constructor; [|exact Hl].
  etransitivity; [apply height_le|]. cbn [fst app tl]. unfold depth. rewrite brk_quiet by assumption. apply le_n.
Qed.
Lemma under_quiet a sv x r : Forall (fun y => quiet y = true /\ calm y = true) a -> a <> [] -> under sv (a ++ x :: r) -> low sv (x :: r).
Proof.
  intros Ha Hn Hl. destruct a as [|y a]; [congruence|]. inversion Ha; subst. unfold under in Hl. cbn [app tl] in Hl.
  eapply low_eq; [|exact Hl]. apply brk_quiet. assumption.
Qed.

(** only the numbers matter *)
Local Ltac sums :=
  repeat match goal with
  | H : lt _ _ |- _ => revert H
  | H : le _ _ |- _ => revert H
  | H : Z.lt _ _ |- _ => revert H
  | H : Z.le _ _ |- _ => revert H
  | H : @eq nat _ _ |- _ => revert H
  | H : @eq Z _ _ |- _ => revert H
  | H : Z.le _ _ /\ Z.le _ _ |- _ => revert H
  end; clear; intros; lia.

Section Leaf.
  Context (fuel : nat) (some_fuel : 1 < fuel).
  Let f0 : 0 < fuel. Proof. lia. Qed.

  Lemma separate_all ctx sps x r sv i b d : ctx <> NoCtx -> blanks sps -> sps <> [] -> middle x = true -> reach sps sv (x :: r) -> length sps < fuel ->
    runs (parse_separate fuel ctx) (mkC (sps ++ x :: r) false sv i b d) (NBasic IndentType) (mkC (x :: r) false sv i b d).
  Proof.
    intros Hx Hs Hn Hm Hr Hf. destruct ctx; solve [congruence | apply separate_some; auto | apply separate_blanks; auto].
  Qed.
  Lemma anchor_no x r sol sv i b d : tok_type x <> TAnchor ->
    runs parse_anchor_property (mkC (x :: r) sol sv i b d) NInvalid (mkC (x :: r) sol sv i b d).
  Proof. intro H. unfold parse_anchor_property. go1. go1; [go|]. rewrite (ttype_eqb_no _ _ H). go. Qed.
  Lemma tag_no x r sol sv i b d : tok_type x <> TTag ->
    runs parse_tag_property (mkC (x :: r) sol sv i b d) NInvalid (mkC (x :: r) sol sv i b d).
  Proof.
    intro H. unfold parse_tag_property. go1. go1; [go|].
    mid false (mkC (x :: r) sol ((x :: r, live sol) :: sv) i b d).
    { apply (runs_valid _ _ NInvalid). unfold parse_tag_handle. go1. go1; [go|]. rewrite (ttype_eqb_no _ _ H). go. }
    go1; [apply runs_tok|]. cbn [andb]. go1; [go|]. go1; [go|]. rewrite (ttype_eqb_no _ _ H). go.
  Qed.

  Lemma anchor_ok t ts y r sol sv i b d : anchor_of t ts -> calm y = true ->
    runs parse_anchor_property (mkC (ts ++ y :: r) sol sv i b d) t (mkC (y :: r) false sv i b d).
  Proof.
    intros [a w Ha Hw Hc] Hy. assert (Cw : calm w = true) by (unfold calm; rewrite Hw; reflexivity). cbn [app].
    unfold parse_anchor_property. go1. go1; [go|]. rewrite Ha. decide1. go1; [go|]. go1; [apply runs_next, may_calm, Cw|].
    go1; [apply runs_tok|]. cbn [hd]. rewrite Hw, Hc. decide1. go1; [apply runs_next, may_calm, Hy|]. rewrite Ha, Hw. cbn [is_start_of_line]. go.
  Qed.
  Lemma tag_ok t ts y r sol sv i b d : tag_of t ts -> calm y = true -> tok_type y <> TTag ->
    runs parse_tag_property (mkC (ts ++ y :: r) sol sv i b d) t (mkC (y :: r) false sv i b d).
  Proof.
    intros H Hy Ht. unfold parse_tag_property. go1. go1; [go|].
    assert (G : forall w s, tok_type w = TString -> conforms w CsTag = true ->
      runs (parse_tag_handle) (mkC (ts ++ y :: r) sol ((ts ++ y :: r, live sol) :: sv) i b d) (NBasic TagType)
        (mkC (w :: y :: r) s ((ts ++ y :: r, live sol) :: sv) i b d) ->
      runs (ok <- valid parse_tag_handle;; t0 <- tok ;;
        (if ok && ttype_eqb (tok_type t0) TString && conforms t0 CsTag then commit ;; next ;; ret (NTag (tok_origin t0)) else
           rollback ;;
      ty <- tok_ty ;;
      if ttype_eqb ty TTag then
        set_raw true ;; next ;; set_raw false ;;
        t <- tok ;;
        let is_string := ttype_eqb (tok_type t) TString in
        let verbatim :=
          match verbatim_body (tok_origin t) with
          | Some body => if is_string && conforms_charset body CsURI then Some body else None
          | None => None
          end in
        match verbatim with
        | Some body => next ;; ret (NTag body)
        | None =>
            (if is_string then append_err (TagError (tok_origin t) (tok_start t)) else ret tt) ;;
            ret (NTag [])
        end
      else invalid)) (mkC (ts ++ y :: r) sol ((ts ++ y :: r, live sol) :: sv) i b d) (NTag (tok_origin w)) (mkC (y :: r) false sv i b d)).
    { intros w s Hw Hc R. go1; [go1; exact R|]. go1; [apply runs_tok|]. cbn [hd]. rewrite Hw, Hc. decide1. go1; [go|].
      go1; [apply runs_next, may_calm, Hy|]. rewrite Hw. cbn [is_start_of_line]. go. }
    destruct H as [x w H1 H2 H3|x z w H1 H2 H3 H4|x v z w H1 H2 H3 H4 H5 H6].
    - assert (Cw : calm w = true) by (unfold calm; rewrite H2; reflexivity). cbn [app] in *. apply (G w false); auto.
      unfold parse_tag_handle. go1. go1; [go|]. rewrite H1. decide1. go1; [apply runs_next, may_calm, Cw|]. rewrite H1. cbn [is_start_of_line].
      go1; [apply runs_tok|]. rewrite H2. decide1. go1; [go|].
      mid false (if conforms w CsWord then mkC (y :: r) false ((w :: y :: r, live false) :: (x :: w :: y :: r, live sol) :: sv) i b d
                 else mkC (w :: y :: r) false ((w :: y :: r, live false) :: (x :: w :: y :: r, live sol) :: sv) i b d).
      { destruct (conforms w CsWord); cbn [ttype_eqb andb]; [|go]. go1; [apply runs_next, may_calm, Hy|]. rewrite H2. cbn [is_start_of_line].
        go1; [go|]. rewrite (ttype_eqb_no _ _ Ht). go. }
      cbv iota. destruct (conforms w CsWord); go.
    - assert (Cw : calm w = true) by (unfold calm; rewrite H3; reflexivity).
      assert (Cz : calm z = true) by (unfold calm; rewrite H2; reflexivity). cbn [app] in *. apply (G w false); auto.
      unfold parse_tag_handle. go1. go1; [go|]. rewrite H1. decide1. go1; [apply runs_next, may_calm, Cz|]. rewrite H1. cbn [is_start_of_line].
      go1; [apply runs_tok|]. rewrite H2. decide1. go1; [apply runs_next, may_calm, Cw|]. rewrite H2. go.
    - assert (Cw : calm w = true) by (unfold calm; rewrite H5; reflexivity).
      assert (Cz : calm z = true) by (unfold calm; rewrite H4; reflexivity).
      assert (Cv : calm v = true) by (unfold calm; rewrite H2; reflexivity). cbn [app] in *. apply (G w false); auto.
      unfold parse_tag_handle. go1. go1; [go|]. rewrite H1. decide1. go1; [apply runs_next, may_calm, Cv|]. rewrite H1. cbn [is_start_of_line].
      go1; [apply runs_tok|]. rewrite H2, H3. decide1. go1; [go|].
      mid true (mkC (z :: w :: y :: r) false ((v :: z :: w :: y :: r, live false) :: (x :: v :: z :: w :: y :: r, live sol) :: sv) i b d).
      { cbn [ttype_eqb andb]. go1; [apply runs_next, may_calm, Cz|]. rewrite H2. cbn [is_start_of_line]. go1; [go|]. rewrite H4. go. }
      cbv iota. go1; [apply runs_next, may_calm, Cw|]. rewrite H4. go.
  Qed.

  Lemma blanks_hd sps x r : blanks sps -> sps <> [] -> exists y q, sps ++ x :: r = y :: q /\ calm y = true /\ tok_type y <> TTag.
  Proof.
    intros Hs Hn. destruct sps as [|y q]; [congruence|]. exists y, (q ++ x :: r). inversion Hs as [|? ? E _]; subst. split; [reflexivity|].
    unfold calm. rewrite E. split; [reflexivity|discriminate].
  Qed.
  Lemma tag_ok_blanks t ts sps x r sol sv i b d : tag_of t ts -> blanks sps -> sps <> [] ->
    runs parse_tag_property (mkC (ts ++ sps ++ x :: r) sol sv i b d) t (mkC (sps ++ x :: r) false sv i b d).
  Proof. intros H Hs Hn. destruct (blanks_hd sps x r Hs Hn) as (y & q & -> & Hy & Ht). apply tag_ok; auto. Qed.
  Lemma anchor_ok_blanks t ts sps x r sol sv i b d : anchor_of t ts -> blanks sps -> sps <> [] ->
    runs parse_anchor_property (mkC (ts ++ sps ++ x :: r) sol sv i b d) t (mkC (sps ++ x :: r) false sv i b d).
  Proof. intros H Hs Hn. destruct (blanks_hd sps x r Hs Hn) as (y & q & -> & Hy & Ht). apply anchor_ok; auto. Qed.
  Lemma tag_valid t ts : tag_of t ts -> valid_node t = true.
  Proof. intros []; reflexivity. Qed.
  Lemma anchor_valid t ts : anchor_of t ts -> valid_node t = true.
  Proof. intros []; reflexivity. Qed.

  (** properties followed by something on the same line *)
  Lemma props_ok ctx p ts sps x r sol sv i b d : ctx <> NoCtx -> props NInvalid p ts -> blanks sps -> sps <> [] -> middle x = true -> mark_head x = false ->
    low sv (x :: r) -> length (ts ++ sps) < fuel ->
    runs (parse_properties fuel ctx) (mkC (ts ++ sps ++ x :: r) sol sv i b d) p (mkC (sps ++ x :: r) false sv i b d).
  Proof.
    intros Hx H Hs Hn Hm Hh Hl Hf. rewrite app_length in Hf.
    assert (T1 : tok_type x <> TTag) by (intro A; unfold mark_head in Hh; rewrite A in Hh; discriminate).
    assert (T2 : tok_type x <> TAnchor) by (intro A; unfold mark_head in Hh; rewrite A in Hh; discriminate).
    assert (Sep : forall b d, runs (parse_separate fuel ctx) (mkC (sps ++ x :: r) false ((sps ++ x :: r, live false) :: sv) i b d) (NBasic IndentType)
      (mkC (x :: r) false ((sps ++ x :: r, live false) :: sv) i b d)).
    { intros b0 d0. apply separate_all; auto; [|lia]. apply reach_low; [exact Hm|]. apply low_before; auto. }
    destruct H as [t ts H|a ts H|t ts sp2 a ts2 H Hs2 Hn2 H2|t ts sp2 a ts2 H Hs2 Hn2 H2].
    - destruct (tag_head _ _ H) as (y & q & E & Hy & _). unfold parse_properties. go1.
      mid TTag (mkC (ts ++ sps ++ x :: r) sol sv i b d); [rewrite <- Hy, E; apply runs_tok_ty|].
      go1; [apply tag_ok_blanks; eauto|]. rewrite (tag_valid _ _ H). go1; [go|]. go1; [go1; apply Sep|]. go1; [decide1; apply anchor_no, T2|]. go.
    - destruct (anchor_head _ _ H) as (y & q & E & Hy & _). unfold parse_properties. go1.
      mid TAnchor (mkC (ts ++ sps ++ x :: r) sol sv i b d); [rewrite <- Hy, E; apply runs_tok_ty|].
      go1; [apply anchor_ok_blanks; eauto|]. rewrite (anchor_valid _ _ H). go1; [go|]. go1; [go1; apply Sep|]. go1; [decide1; apply tag_no, T1|]. go.
    - destruct (tag_head _ _ H) as (y & q & E & Hy & _). destruct (anchor_head _ _ H2) as (y2 & q2 & E2 & Hy2 & _).
      assert (M2 : middle y2 = true) by (unfold middle; rewrite Hy2; reflexivity).
      assert (C2 : calm y2 = true) by (unfold calm; rewrite Hy2; reflexivity).
      rewrite !app_length in Hf. rewrite <- !app_assoc.
      unfold parse_properties. go1.
      mid TTag (mkC (ts ++ sp2 ++ ts2 ++ sps ++ x :: r) sol sv i b d); [rewrite <- Hy, E; apply runs_tok_ty|].
      mid t (mkC (sp2 ++ ts2 ++ sps ++ x :: r) false sv i b d); [rewrite E2; cbn [app]; apply tag_ok_blanks; auto|].
      rewrite (tag_valid _ _ H). go1; [go|].
      mid true (mkC (ts2 ++ sps ++ x :: r) false ((sp2 ++ ts2 ++ sps ++ x :: r, live false) :: sv) i b d).
      { apply (runs_valid _ _ (NBasic IndentType)). rewrite E2. cbn [app]. apply separate_all; auto. lia. }
      go1; [apply anchor_ok_blanks; eauto|]. rewrite (anchor_valid _ _ H2). go.
    - destruct (anchor_head _ _ H) as (y & q & E & Hy & _). destruct (tag_head _ _ H2) as (y2 & q2 & E2 & Hy2 & _).
      assert (M2 : middle y2 = true) by (unfold middle; rewrite Hy2; reflexivity).
      assert (C2 : calm y2 = true) by (unfold calm; rewrite Hy2; reflexivity).
      rewrite !app_length in Hf. rewrite <- !app_assoc.
      unfold parse_properties. go1.
      mid TAnchor (mkC (ts ++ sp2 ++ ts2 ++ sps ++ x :: r) sol sv i b d); [rewrite <- Hy, E; apply runs_tok_ty|].
      mid a (mkC (sp2 ++ ts2 ++ sps ++ x :: r) false sv i b d); [rewrite E2; cbn [app]; apply anchor_ok_blanks; auto|].
      rewrite (anchor_valid _ _ H). go1; [go|].
      mid true (mkC (ts2 ++ sps ++ x :: r) false ((sp2 ++ ts2 ++ sps ++ x :: r, live false) :: sv) i b d).
      { apply (runs_valid _ _ (NBasic IndentType)). rewrite E2. cbn [app]. apply separate_all; auto. lia. }
      go1; [apply tag_ok_blanks; eauto|]. rewrite (tag_valid _ _ H2). go.
  Qed.

  (** ** aliases *)
  Lemma alias_ok t ts y r sol sv i b d : alias_of t ts -> calm y = true ->
    runs parse_alias_node (mkC (ts ++ y :: r) sol sv i b d) t (mkC (y :: r) false sv i b d).
  Proof.
    intros [a w Ha Hw Hc] Hy. assert (Cw : calm w = true) by (unfold calm; rewrite Hw; reflexivity). cbn [app].
    unfold parse_alias_node. go1. go1; [go|]. rewrite Ha. decide1. go1; [apply runs_next, may_calm, Cw|].
    go1; [apply runs_tok|]. cbn [hd]. rewrite Hw, Hc. decide1. go1; [apply runs_next, may_calm, Hy|]. rewrite Ha, Hw. cbn [is_start_of_line]. go.
  Qed.
  Lemma alias_valid t ts : alias_of t ts -> valid_node t = true.
  Proof. intros []; reflexivity. Qed.
  Lemma generic_alias content ctx t ts y r sol sv i b d : alias_of t ts -> calm y = true ->
    runs (parse_generic_flow_node fuel content ctx) (mkC (ts ++ y :: r) sol sv i b d) t (mkC (y :: r) false sv i b d).
  Proof.
    intros H Hy. unfold parse_generic_flow_node. go1. go1; [go|]. go1; [apply alias_ok; eauto|]. rewrite (alias_valid _ _ H). go.
  Qed.

  (** no plain scalar begins with a mark; so much is noted *)
  Lemma plain_mark_head ctx x r sol sv i b d : inside ctx = true -> mark_head x = true -> room 1 [x] d -> exists d2,
    runs (parse_plain fuel ctx) (mkC (x :: r) sol sv i b d) NInvalid (mkC (x :: r) sol sv i b d2) /\ spent 1 [x] d d2.
  Proof.
    intros Hx Hb Hr.
    destruct (mark_ok x d ltac:(unfold mark_head in Hb; unfold is_bar; destruct (tok_type x); congruence) Hr) as [M1 M2]. eexists. split; [|exact M2].
    assert (R : runs (parse_plain_one_line fuel ctx) (mkC (x :: r) sol sv i b d) NInvalid (mkC (x :: r) sol sv i b (snd (df_mark d (tok_start x))))).
    { unfold parse_plain_one_line. go1. go1.
      mid false (mkC (x :: r) sol sv i [] d).
      - apply (runs_valid _ _ NInvalid). unfold parse_plain_first. go1. go1; [go|].
        unfold mark_head in Hb. destruct (tok_type x); try discriminate Hb; go.
      - go1; [go|]. rewrite M1. go. }
    assert (G : runs (parse_plain_multi_line fuel ctx) (mkC (x :: r) sol sv i b d) NInvalid (mkC (x :: r) sol sv i b (snd (df_mark d (tok_start x))))).
    { unfold parse_plain_multi_line. go1. go1; [exact R|]. exact (runs_invalid _). }
    destruct ctx; try discriminate Hx; assumption.
  Qed.

  (** ** the content as a key *)
  Definition no_colon (ts : list token) : Prop := exists sps y r, ts = sps ++ y :: r /\ blanks sps /\ length sps < fuel /\
    is_white_space y = false /\ calm y = true /\ tok_type y <> TMappingValue.
  Definition key_run (t : node) (ts rest : list token) (sva svb : list (list token * mark)) (b : text) (d : finder) : Prop :=
    exists x r, ts = x :: r /\ exists a ts2 sol2 d1,
      runs (json_content fuel BlockKey) (mkC (ts ++ rest) false sva (mkInd 0 StrictMode) b d) a (mkC ts2 sol2 sva (mkInd 0 StrictMode) b d1) /\
      spent 32 r d d1 /\
      ((a = t /\ no_colon ts2 /\ sol2 = false) \/
       (a = NInvalid /\ forall d3, room 1 [x] d3 -> exists a2 ts3 d2,
         runs (parse_plain fuel BlockKey) (mkC (ts ++ rest) false svb (mkInd 0 StrictMode) b d3) a2 (mkC ts3 false svb (mkInd 0 StrictMode) b d2) /\
         spent 1 [x] d3 d2 /\ (a2 = NInvalid \/ valid_node a2 = true /\ no_colon ts3))).
  Lemma plain_key t s ts ts2 rest sp y r svb sva b d : plain s ts -> blanks sp -> length sp < fuel -> tok_type y <> TString -> is_white_space y = false ->
    calm y = true -> tok_type y <> TMappingValue -> length ts < fuel -> ts2 ++ rest = sp ++ y :: r -> key_run t (ts ++ ts2) rest sva svb b d.
  Proof.
    intros P Hs Hf H1 H2 H3 H4 Hl Er. destruct (plain_head _ _ P) as (w & q & E & [W _]).
    exists w, (q ++ ts2). split; [subst ts; reflexivity|]. rewrite <- app_assoc, Er. exists NInvalid, (ts ++ sp ++ y :: r), false, d.
    split; [rewrite E; apply json_no; auto; rewrite W; reflexivity|]. split; [apply spent_none; lia|]. right.
    split; [reflexivity|]. intros d3 _. exists (NText s UnknownQuoting), (sp ++ y :: r), d3.
    split; [apply (one_line_blanks fuel f0 BlockKey s ts); auto|]. split; [apply spent_none; lia|]. right. split; [reflexivity|].
    exists sp, y, r. auto 8.
  Qed.
  Lemma open_key t o r ts2 sol2 q svb sva b d d1 : bare o = true ->
    runs (json_content fuel BlockKey) (mkC (o :: r ++ q) false sva (mkInd 0 StrictMode) b d) NInvalid (mkC ts2 sol2 sva (mkInd 0 StrictMode) b d1) ->
    spent 32 r d d1 -> key_run t (o :: r) q sva svb b d.
  Proof.
    intros B R S1. exists o, r. split; [reflexivity|].
    exists NInvalid, ts2, sol2, d1. split; [exact R|]. split; [exact S1|]. right. split; [reflexivity|]. intros d3 Hd.
    destruct (plain_mark fuel BlockKey o (r ++ q) false svb (mkInd 0 StrictMode) b d3) as (d2 & R2 & S2); auto.
    exists NInvalid, (o :: r ++ q), d2. auto.
  Qed.
  Lemma quoted_key q o ts y2 rest t tail sva svb b d : (q = TSingleQuote \/ q = TDoubleQuote) -> tok_type o = q ->
    Forall (fits (match q with TSingleQuote => CsSingleQuoted | _ => CsDoubleQuoted end)) ts -> tok_type y2 = TLineBreak -> length ts < fuel ->
    key_run t (o :: ts ++ y2 :: rest) tail sva svb b d.
  Proof.
    intros Hq Ho Hf Hy Hl.
    assert (B : bare o = true) by (unfold bare; rewrite Ho; destruct Hq as [-> | ->]; reflexivity).
    apply (open_key t o (ts ++ y2 :: rest) (y2 :: rest ++ tail) false tail svb sva b d d B); [|apply spent_none; lia].
    rewrite <- app_assoc. cbn [app]. unfold json_content. destruct fuel as [|m] eqn:Ef; [lia|]. cbn [parse_flow_json_content]. rewrite <- Ef in *.
    unfold json_content_body. go1; [go|]. rewrite Ho. destruct Hq as [-> | ->].
    - unfold parse_single_quoted. apply (quoted_open fuel some_fuel TSingleQuote); auto. left; reflexivity.
    - unfold parse_double_quoted. apply (quoted_open fuel some_fuel TDoubleQuote); auto. right; reflexivity.
  Qed.
  Lemma rest_break n cs s2 y2 ts2 : quoted_rest n cs s2 (y2 :: ts2) -> tok_type y2 = TLineBreak.
  Proof.
    intro H. inversion H as [|? ? Hj2|? ? ? ? ? ? Hj2]; subst; destruct (seam_head _ _ _ Hj2) as (nl & z & E & Hn); [congruence|].
    subst. match goal with H : (_ :: _) ++ _ = _ |- _ => injection H as <- _ end. exact Hn.
  Qed.
  Lemma rest_none n cs s2 : quoted_rest n cs s2 [] -> s2 = [].
  Proof.
    intro H. inversion H as [|? ? Hj2|? ? ? ? ? ? Hj2]; subst; [reflexivity| |].
    - destruct (seam_head _ _ _ Hj2) as (? & ? & E2 & _); discriminate E2.
    - match goal with H : ?a ++ _ = [] |- _ => destruct (seam_head _ _ _ Hj2) as (? & ? & -> & _); discriminate H end.
  Qed.
  Lemma inner_key n t ts sp y r sva svb b d : inner n t ts -> blanks sp -> length sp < fuel -> tok_type y <> TString -> is_white_space y = false ->
    calm y = true -> tok_type y <> TMappingValue -> length ts < fuel -> under sva (ts ++ sp ++ y :: r) -> room 32 ts d ->
    key_run t ts (sp ++ y :: r) sva svb b d.
  Proof.
    intros Hl Hs Hf H1 H2 H3 H4 Hlen Hu Hr.
    assert (Line : forall t h, h <= 5 -> flow n h t ts -> key_run t ts (sp ++ y :: r) sva svb b d).
    { clear t Hl. intros t h Hh Hl.
      destruct (line_cases fuel some_fuel n t ts) as [(s & -> & P)|(x & q & h2 & E & B & Hh2 & P)]; [exists h; auto| |].
      { rewrite <- (app_nil_r ts). apply (plain_key _ s ts [] _ sp y r); auto. }
      pose proof (J_small h2 Hh2) as [Hj Hj2].
      assert (Hr2 : room (J h2) (tl ts) d).
      { intro p. specialize (Hr p). subst ts. rewrite charge_cons in Hr. cbn [tl]. unfold charge in *. pose proof (occ_pos [x] p). pose proof (occ_pos q p). nia. }
      destruct (P fuel BlockKey 0 (sp ++ y :: r) false sva b d) as (a & ts2 & sol2 & d2 & R2 & S2 & Ha); auto; try lia.
      { apply calm_blanks; auto. }
      assert (S3 : spent 32 q d d2).
      { eapply (weaken_spent 32 (J h2)); [lia|]. subst ts. exact S2. }
      destruct Ha as [(-> & -> & ->)|(_ & ->)].
      - exists x, q. split; [exact E|]. exists t, (sp ++ y :: r), false, d2. split; [exact R2|]. split; [exact S3|].
        left. split; [reflexivity|]. split; [exists sp, y, r; auto 8|]. reflexivity.
      - subst ts. cbn [app] in *. exact (open_key t x q ts2 sol2 (sp ++ y :: r) svb sva b d d2 B R2 S3). }
    destruct Hl as [(h & Hh & Hl)|Hl]; [eapply Line; eauto|].
    destruct Hl as [s ts s2 ts2 Hp Hr2|o ts s2 ts2 c Ho Hft Hr2 Hc|o ts s2 ts2 c Ho Hft Hr2 Hc].
    - rewrite app_length in Hlen. destruct Hr2 as [|sp3 w j s3 ts3 s4 ts4 Hs3 Hj Hp3 _].
      { apply (plain_key _ s ts [] _ sp y r); auto. lia. }
      destruct (seam_head _ _ _ Hj) as (nl & z & -> & Hn). rewrite !app_length in Hlen. cbn [length] in Hlen.
      apply (plain_key _ s ts _ _ sp3 nl (z ++ ts3 ++ ts4 ++ sp ++ y :: r)); auto; try lia.
      + rewrite Hn. discriminate.
      + unfold is_white_space. rewrite Hn. reflexivity.
      + unfold calm. rewrite Hn. reflexivity.
      + rewrite Hn. discriminate.
      + rewrite <- !app_assoc. reflexivity.
    - cbn [length] in Hlen. rewrite !app_length in Hlen. destruct ts2 as [|y2 ts2].
      { apply rest_none in Hr2 as ->. rewrite app_nil_r in *. cbn [app] in *. apply (Line _ 0); [lia|]. constructor. constructor; auto. }
      cbn [app]. apply (quoted_key TSingleQuote); auto; [eapply rest_break, Hr2|lia].
    - cbn [length] in Hlen. rewrite !app_length in Hlen. destruct ts2 as [|y2 ts2].
      { apply rest_none in Hr2 as ->. rewrite app_nil_r in *. cbn [app] in *. apply (Line _ 0); [lia|]. constructor. constructor; auto. }
      cbn [app]. apply (quoted_key TDoubleQuote); auto; [eapply rest_break, Hr2|lia].
  Qed.

  (** ** a key that is not followed by a colon *)
  Lemma key_no_entry bn bi k ts z q sol sv i b d d2 : valid_node k = true -> tok_type z <> TMappingValue ->
    (exists x r, ts = x :: r /\ lead x = true) ->
    runs (parse_block_mapping_implicit_key fuel) (mkC ts sol ((ts, live sol) :: sv) i b d) k (mkC (z :: q) false ((ts, live sol) :: sv) i b d2) ->
    runs (parse_block_mapping_entry fuel bn bi) (mkC ts sol sv i b d) NInvalid (mkC (z :: q) false sv i b d2).
  Proof.
    intros V Hz (x & r & E & Hx) R.
    assert (G : runs (parse_block_mapping_implicit_entry fuel bn) (mkC ts sol sv i b d) NInvalid (mkC (z :: q) false sv i b d2)).
    { unfold parse_block_mapping_implicit_entry. go1. go1; [go|]. go1; [exact R|].
      rewrite V. mid k (mkC (z :: q) false sv i b d2); [go|].
      mid NInvalid (mkC (z :: q) false sv i b d2); [|go].
      unfold parse_block_mapping_implicit_value. go1. go1; [go|]. rewrite (ttype_eqb_no _ _ Hz). go. }
    unfold parse_block_mapping_entry. go1. mid (tok_type x) (mkC ts sol sv i b d); [subst ts; apply runs_tok_ty|].
    unfold lead, head, mark_head in Hx. destruct (tok_type x); try discriminate; exact G.
  Qed.
  Lemma alias_no_entry bn bi t ts sp y r sol sv i b d : alias_of t ts -> blanks sp -> length sp < fuel -> is_white_space y = false -> calm y = true ->
    tok_type y <> TMappingValue ->
    runs (parse_block_mapping_entry fuel bn bi) (mkC (ts ++ sp ++ y :: r) sol sv i b d) NInvalid (mkC (y :: r) false sv i b d).
  Proof.
    intros H Hs Hf H2 H3 H4. pose proof (alias_valid _ _ H) as V. destruct H as [a w Ha Hw Hcf].
    assert (J1 : no_json (tok_type a) = true) by (rewrite Ha; reflexivity).
    eapply key_no_entry; [exact V|exact H4| |].
    { exists a, ([w] ++ sp ++ y :: r). split; [reflexivity|]. unfold lead. rewrite Ha, Bool.orb_true_r. reflexivity. }
    set (all := [a; w] ++ sp ++ y :: r).
    unfold parse_block_mapping_implicit_key. go1. go1; [go|].
    mid NInvalid (mkC all sol ((all, live sol) :: (all, live sol) :: sv) i b d).
    { unfold parse_implicit_json_key. go1. go1; [go1; subst all; cbn [app]; apply json_node_no; auto; congruence|]. go. }
    decide1. go1; [go|]. unfold parse_implicit_yaml_key. go1.
    mid (NAlias (tok_origin w)) (mkC (sp ++ y :: r) false ((all, live sol) :: sv) i b d).
    { go1. subst all. destruct (blanks_or sp y r Hs H3) as (z & q2 & -> & Cz). apply generic_alias; auto. constructor; auto. }
    decide1. go1; [apply maybe_sep_no; auto|]. go.
  Qed.

  Lemma mark_head_no x : mark_head x = true -> tok_type x <> TAlias /\ no_json (tok_type x) = true /\ calm x = true /\ closer x = false.
  Proof. unfold mark_head, calm, closer. destruct (tok_type x); try discriminate; repeat split; discriminate. Qed.
  Lemma head_no_mark x : head x = true -> mark_head x = false /\ middle x = true /\ is_white_space x = false /\ closer x = false /\ tok_type x <> TMappingValue.
  Proof. unfold mark_head, head, middle, is_white_space, closer. destruct (tok_type x); try discriminate; repeat split; discriminate. Qed.

  Lemma dressed_no_entry n bn bi p pts sps t ts sp y r sol sv i b d : props NInvalid p pts -> blanks sps -> sps <> [] -> inner n t ts ->
    blanks sp -> length sp < fuel -> tok_type y <> TString -> is_white_space y = false -> calm y = true ->
    tok_type y <> TMappingValue -> length (pts ++ sps ++ ts) < fuel -> under sv (pts ++ sps ++ ts ++ sp ++ y :: r) -> room 32 (pts ++ sps ++ ts) d ->
    exists ts2 d2, runs (parse_block_mapping_entry fuel bn bi) (mkC (pts ++ sps ++ ts ++ sp ++ y :: r) sol sv i b d) NInvalid (mkC ts2 false sv i b d2) /\
    spent 32 (pts ++ sps ++ ts) d d2.
  Proof.
    intros Hp Hs Hn Hi Hsp Hfs H1 H2 H3 H4 Hf Hu Hr. rewrite !app_length in Hf. assert (Hfs2 : length sps < fuel) by lia. assert (Hfp : length (pts ++ sps) < fuel) by (rewrite app_length; sums).
    destruct (props_head _ _ _ Hp) as (x & pr & Ep & Hx & Fp). destruct (mark_head_no _ Hx) as (X1 & X2 & X3 & X4).
    destruct (inner_head _ _ _ Hi) as (o & ir & Ei & Ho). destruct (head_no_mark _ Ho) as (O1 & O2 & O3 & O4 & O5).
    set (all := pts ++ sps ++ ts ++ sp ++ y :: r). set (rest := sp ++ y :: r) in *.
    assert (Fa : Forall (fun y => quiet y = true /\ calm y = true) (pts ++ sps)) by (apply Forall_app; auto using blanks_quiet).
    assert (Na : pts ++ sps <> []) by (subst pts; discriminate).
    assert (Ea : all = (pts ++ sps) ++ o :: ir ++ rest) by (subst all ts; rewrite <- app_assoc; reflexivity).
    assert (Lo : low sv (o :: ir ++ rest)).
    { apply (under_quiet (pts ++ sps)); auto. rewrite <- Ea. exact Hu. }
    assert (Cp : forall s sv, low sv (o :: ir ++ rest) -> low ((all, s) :: sv) (o :: ir ++ rest)) by (intros; rewrite Ea; apply low_quiet; auto).
    assert (Cb : forall s sv, low sv (o :: ir ++ rest) -> low ((sps ++ ts ++ rest, s) :: sv) (o :: ir ++ rest)) by (intros; subst ts; apply low_before; auto).
    set (cp := (all, live sol)). set (cs := (sps ++ ts ++ rest, live false)).
    assert (Props : forall sol sv i d, low sv (o :: ir ++ rest) -> runs (parse_properties fuel BlockKey) (mkC all sol sv i b d) p (mkC (sps ++ ts ++ rest) false sv i b d)).
    { intros sol0 sv0 i0 d0 L. subst all ts. cbn [app]. apply props_ok; try assumption; discriminate. }
    assert (Sep : forall sv i d, low sv (o :: ir ++ rest) -> runs (parse_separate fuel BlockKey) (mkC (sps ++ ts ++ rest) false sv i b d) (NBasic IndentType)
      (mkC (ts ++ rest) false sv i b d)).
    { intros sv0 i0 d0 L. subst ts. cbn [app]. apply separate_all; [discriminate|assumption|assumption|assumption|apply reach_low; assumption|exact Hfs2]. }
    assert (Hr3 : room 32 ts d).
    { intro v. specialize (Hr v). rewrite !charge_app in Hr. unfold charge in *. pose proof (occ_pos pts v). pose proof (occ_pos sps v). sums. }
    destruct (inner_key n t ts sp y r (cp :: cp :: sv) (cs :: cp :: sv) b d) as (o2 & ir2 & E2 & a & ts2 & sol2 & d1 & R1 & S1 & Ha); auto; [sums| |].
    { subst ts. cbn [app]. apply low_under; auto. subst cp. auto. }
    rewrite Ei in E2. injection E2 as <- <-. fold rest in R1, Ha.
    assert (Lead : exists x r, all = x :: r /\ lead x = true).
    { exists x, (pr ++ sps ++ ts ++ rest). split; [subst all pts; reflexivity|]. unfold lead. rewrite Hx, Bool.orb_true_r. reflexivity. }
    assert (Vp := props_valid _ _ _ Hp).
    assert (Json : runs (parse_flow_json_node fuel (json_content fuel) BlockKey) (mkC all sol (cp :: cp :: sv) (mkInd 0 StrictMode) b d)
      (if valid_node a then new_content p a else NInvalid) (mkC ts2 sol2 (cp :: cp :: sv) (mkInd 0 StrictMode) b d1)).
    { unfold parse_flow_json_node. go1. go1; [go|]. go1; [apply Props; subst cp; auto|]. rewrite Vp.
      go1; [go1; apply Sep; subst cp; auto|]. mid tt (mkC (ts ++ rest) false (cp :: cp :: sv) (mkInd 0 StrictMode) b d); [go|].
      go1; [exact R1|]. destruct (valid_node a); go. }
    assert (Et : forall v, occ (pts ++ sps ++ ts) v = (occ [x] v + occ pr v + occ sps v + occ [o] v + occ ir v)%Z).
    { intro v. rewrite !occ_app. subst pts ts. change (x :: pr) with ([x] ++ pr). change (o :: ir) with ([o] ++ ir). rewrite !occ_app. sums. }
    destruct Ha as [(-> & (sp3 & y3 & r3 & -> & Y1 & Y2 & Y3 & Y4 & Y5) & ->)|(-> & Rest)].
    - rewrite (inner_valid _ _ _ Hi) in Json. unfold new_content in Json. rewrite Vp in Json.
      exists (y3 :: r3), d1. split.
      + eapply (key_no_entry bn bi (NContent p t)); eauto. fold cp.
        unfold parse_block_mapping_implicit_key. go1. go1; [go|].
        mid (NContent p t) (mkC (y3 :: r3) false (cp :: cp :: sv) i b d1); [|go].
        unfold parse_implicit_json_key. go1. go1; [go1; exact Json|]. decide1. go1; [apply maybe_sep_no; auto|]. go.
      + intro v. specialize (S1 v). unfold charge in *. rewrite Et.
        pose proof (occ_pos [x] v). pose proof (occ_pos pr v). pose proof (occ_pos sps v). pose proof (occ_pos [o] v). sums.
    - destruct (plain_mark_head BlockKey x (pr ++ sps ++ ts ++ rest) sol (cp :: cp :: sv) (mkInd 0 StrictMode) b d1) as (d3 & R3 & S3); auto.
      { intro v. specialize (S1 v). specialize (Hr v). unfold charge in *. rewrite Et in Hr.
        pose proof (occ_pos [x] v). pose proof (occ_pos pr v). pose proof (occ_pos sps v). pose proof (occ_pos [o] v). pose proof (occ_pos ir v). sums. }
      destruct (Rest d3) as (a2 & ts3 & d2 & R2 & S2 & Ha2).
      { intro v. specialize (S1 v). specialize (S3 v). specialize (Hr v). unfold charge in *. rewrite Et in Hr.
        pose proof (occ_pos [x] v). pose proof (occ_pos pr v). pose proof (occ_pos sps v). pose proof (occ_pos [o] v). pose proof (occ_pos ir v). sums. }
      assert (Sd : spent 32 (pts ++ sps ++ ts) d d2).
      { intro v. specialize (S1 v). specialize (S3 v). specialize (S2 v). unfold charge in *. rewrite Et.
        pose proof (occ_pos [x] v). pose proof (occ_pos pr v). pose proof (occ_pos sps v). pose proof (occ_pos [o] v). pose proof (occ_pos ir v). sums. }
      assert (Eall : all = x :: pr ++ sps ++ ts ++ rest) by (subst all pts; reflexivity).
      rewrite <- Eall in R3.
      assert (Done : forall k z q, valid_node k = true -> tok_type z <> TMappingValue ->
        runs (parse_implicit_yaml_key fuel BlockKey) (mkC all sol (cp :: sv) i b d1) k (mkC (z :: q) false (cp :: sv) i b d2) ->
        exists ts2 d2, runs (parse_block_mapping_entry fuel bn bi) (mkC all sol sv i b d) NInvalid (mkC ts2 false sv i b d2) /\ spent 32 (pts ++ sps ++ ts) d d2).
      { intros k z q V Hz R. exists (z :: q), d2. split; [|exact Sd]. eapply (key_no_entry bn bi k); eauto. fold cp.
        unfold parse_block_mapping_implicit_key. go1. go1; [go|]. fold cp.
        mid NInvalid (mkC ts2 sol2 (cp :: cp :: sv) i b d1).
        { unfold parse_implicit_json_key. go1. go1; [go1; exact Json|]. go. }
        decide1. go1; [subst cp; go|]. exact R. }
      assert (Gen : forall k c2, runs (if valid_node a2 then commit ;; ret (new_content p a2) else rollback ;; ret (new_content p NNull))
          (mkC ts3 false (cs :: cp :: sv) (mkInd 0 StrictMode) b d2) k c2 ->
        runs (parse_flow_yaml_node fuel BlockKey) (mkC all sol (cp :: sv) (mkInd 0 StrictMode) b d1) k c2).
      { intros k c2 R. unfold parse_flow_yaml_node, parse_generic_flow_node. go1. go1; [go|]. go1; [rewrite Eall; apply alias_no, X1|]. decide1.
        rewrite <- Eall. go1; [go|]. go1; [go|]. go1; [exact R3|]. decide1. go1; [subst cp; go|]. go1; [apply Props; subst cp; auto|]. rewrite Vp.
        go1; [go|]. fold cs. go1; [go1; apply Sep; subst cp cs; auto|]. go1; [decide1; exact R2|]. exact R. }
      unfold new_content in Gen. rewrite Vp in Gen.
      destruct Ha2 as [-> |(V2 & sp3 & y3 & r3 & -> & Y1 & Y2 & Y3 & Y4 & Y5)].
      + apply (Done (NContent p NNull) o (ir ++ rest)); auto. unfold parse_implicit_yaml_key. go1.
        mid (NContent p NNull) (mkC (sps ++ ts ++ rest) false (cp :: sv) i b d2); [go1; apply Gen; decide1; subst cs; go|].
        decide1. go1; [subst ts; cbn [app]; apply maybe_sep_no; [assumption|assumption|apply reach_low; [assumption|subst cp; apply Cp; assumption]|exact Hfs2]|]. go.
      + rewrite V2 in Gen. apply (Done (NContent p a2) y3 r3); auto. unfold parse_implicit_yaml_key. go1.
        mid (NContent p a2) (mkC (sp3 ++ y3 :: r3) false (cp :: sv) i b d2); [go1; apply Gen; go|].
        decide1. go1; [apply maybe_sep_no; auto|]. go.
  Qed.

  Lemma dressed_value n p pts sps t ts tl sol sv b d : props NInvalid p pts -> blanks sps -> sps <> [] -> inner n t ts ->
    stops fuel n tl -> length (pts ++ sps ++ ts) < fuel -> under sv (pts ++ sps ++ ts ++ tl) -> room 32 (pts ++ sps ++ ts) d ->
    exists d2, runs (parse_flow_node fuel (json_content fuel) FlowOut) (mkC (pts ++ sps ++ ts ++ tl) sol sv (mkInd (Z.of_nat n) StrictMode) b d) (NContent p t)
      (mkC tl false sv (mkInd (Z.of_nat n) StrictMode) b d2) /\ spent 32 (pts ++ sps ++ ts) d d2.
  Proof.
    intros Hp Hs Hn Hi Ht Hf Hu Hr. rewrite !app_length in Hf. assert (Hfs2 : length sps < fuel) by lia. assert (Hfp : length (pts ++ sps) < fuel) by (rewrite app_length; sums).
    destruct (props_head _ _ _ Hp) as (x & pr & Ep & Hx & Fp). destruct (mark_head_no _ Hx) as (X1 & X2 & X3 & X4).
    destruct (inner_head _ _ _ Hi) as (o & ir & Ei & Ho). destruct (head_no_mark _ Ho) as (O1 & O2 & O3 & O4 & O5).
    set (all := pts ++ sps ++ ts ++ tl).
    assert (Fa : Forall (fun y => quiet y = true /\ calm y = true) (pts ++ sps)) by (apply Forall_app; auto using blanks_quiet).
    assert (Na : pts ++ sps <> []) by (subst pts; discriminate).
    assert (Ea : all = (pts ++ sps) ++ o :: ir ++ tl) by (subst all ts; rewrite <- app_assoc; reflexivity).
    assert (Lo : low sv (o :: ir ++ tl)).
    { apply (under_quiet (pts ++ sps)); auto. rewrite <- Ea. exact Hu. }
    assert (Cb : forall s sv, low sv (o :: ir ++ tl) -> low ((sps ++ ts ++ tl, s) :: sv) (o :: ir ++ tl)) by (intros; subst ts; apply low_before; auto).
    assert (Vp := props_valid _ _ _ Hp). assert (Vt := inner_valid _ _ _ Hi).
    assert (Et : forall v, occ (pts ++ sps ++ ts) v = (occ [x] v + occ pr v + occ sps v + occ ts v)%Z).
    { intro v. rewrite !occ_app. subst pts. change (x :: pr) with ([x] ++ pr). rewrite !occ_app. sums. }
    destruct (plain_mark_head FlowOut x (pr ++ sps ++ ts ++ tl) sol ((all, live sol) :: (all, live sol) :: sv) (mkInd (Z.of_nat n) StrictMode) b d) as (d1 & R1 & S1); auto.
    { intro v. specialize (Hr v). unfold charge in *. rewrite Et in Hr.
      pose proof (occ_pos [x] v). pose proof (occ_pos pr v). pose proof (occ_pos sps v). pose proof (occ_pos ts v). sums. }
    destruct (inner_content fuel some_fuel n t ts tl false ((sps ++ ts ++ tl, live false) :: sv) b d1) as (d2 & R2 & S2); auto; [sums| | |].
    { subst ts. cbn [app]. apply low_under; auto. }
    { intro v. specialize (Hr v). specialize (S1 v). unfold charge in *. rewrite Et in Hr.
      pose proof (occ_pos [x] v). pose proof (occ_pos pr v). pose proof (occ_pos sps v). pose proof (occ_pos ts v). sums. }
    exists d2. split.
    2:{ intro v. specialize (S1 v). specialize (S2 v). unfold charge in *. rewrite Et.
        pose proof (occ_pos [x] v). pose proof (occ_pos pr v). pose proof (occ_pos sps v). pose proof (occ_pos ts v). sums. }
    assert (Eall : all = x :: pr ++ sps ++ ts ++ tl) by (subst all pts; reflexivity). rewrite <- Eall in R1.
    unfold parse_flow_node, parse_generic_flow_node. go1. go1; [go|]. go1; [rewrite Eall; apply alias_no, X1|]. decide1. rewrite <- Eall. go1; [go|]. go1; [go|].
    mid NInvalid (mkC all sol ((all, live sol) :: sv) (mkInd (Z.of_nat n) StrictMode) b d1).
    { unfold parse_flow_content. go1. go1; [go|]. go1; [exact R1|]. decide1. go1; [go|]. rewrite Eall. apply json_no; auto. }
    decide1. go1; [go|].
    mid p (mkC (sps ++ ts ++ tl) false sv (mkInd (Z.of_nat n) StrictMode) b d1).
    { subst all ts. cbn [app]. apply props_ok; try assumption; discriminate. }
    rewrite Vp. go1; [go|].
    mid true (mkC (ts ++ tl) false ((sps ++ ts ++ tl, live false) :: sv) (mkInd (Z.of_nat n) StrictMode) b d1).
    { apply (runs_valid _ _ (NBasic IndentType)). subst ts. cbn [app]. apply separate_all; [discriminate|assumption|assumption|assumption|apply reach_low; [assumption|apply low_before; assumption]|exact Hfs2]. }
    go1; [exact R2|]. rewrite Vt. unfold new_content. rewrite Vp. go.
  Qed.

  Lemma leaf_value n t ts tl sol sv b d : leaf n t ts -> stops fuel n tl -> length ts < fuel -> under sv (ts ++ tl) -> room 32 ts d ->
    exists d2, runs (parse_flow_node fuel (json_content fuel) FlowOut) (mkC (ts ++ tl) sol sv (mkInd (Z.of_nat n) StrictMode) b d) t
      (mkC tl false sv (mkInd (Z.of_nat n) StrictMode) b d2) /\ spent 32 ts d d2.
  Proof.
    intros [H|[H|H]] Ht Hf Hu Hr; [eapply inner_value; eauto| |].
    - exists d. split; [|apply spent_none; lia]. pose proof (stops_calm fuel f0 _ _ Ht) as Cy. destruct tl as [|y r]; [discriminate|].
      apply generic_alias; auto.
    - destruct H as [p pts sps t ts Hp Hs Hn Hi]. rewrite <- !app_assoc in *. apply dressed_value; auto.
  Qed.
  Lemma leaf_no_entry n bn bi t ts sps y r sol sv i b d : leaf n t ts -> blanks sps -> length sps < fuel -> tok_type y <> TString -> is_white_space y = false -> calm y = true ->
    tok_type y <> TMappingValue -> length ts < fuel -> under sv (ts ++ sps ++ y :: r) -> room 32 ts d -> exists ts2 sol2 d2,
    runs (parse_block_mapping_entry fuel bn bi) (mkC (ts ++ sps ++ y :: r) sol sv i b d) NInvalid (mkC ts2 sol2 sv i b d2) /\
    spent 32 ts d d2.
  Proof.
    intros [H|[H|H]] Hs Hf H1 H2 H3 H4 Hl Hu Hr; [eapply inner_no_entry; eauto| |].
    - exists (y :: r), false, d. split; [|apply spent_none; lia]. eapply alias_no_entry; eauto.
    - destruct H as [p pts sp2 t ts Hp Hs2 Hn Hi]. rewrite <- !app_assoc in *.
      destruct (dressed_no_entry n bn bi p pts sp2 t ts sps y r sol sv i b d) as (ts2 & d2 & R & S2); auto. exists ts2, false, d2. auto.
  Qed.
End Leaf.
