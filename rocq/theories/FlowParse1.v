(** Counting dead ends, and the productions that skip blanks or find nothing in a flow collection. *)
From Coq Require Import String ZArith.
From Verif Require Import Base YamlChar Token Ast Balance CPAccessor Lexer Parser ParserFlow ParserBlock ParserDocs ParserTape TextSpec TapeRules
  BlockParse1 BlockParse2 BlockParse3 BlockParse4.
Local Open Scope parser_scope.
Local Arguments cons {A}%type_scope & _ _.
Local Arguments pair {A B}%type_scope & _ _.

(** ** dead ends *)
Fixpoint occ (ts : list token) (p : position) : Z :=
  match ts with [] => 0%Z | x :: r => ((if negb (is_bar x) && pos_eqb (tok_start x) p then 1 else 0) + occ r p)%Z end.
Definition charge (k : Z) (ts : list token) (p : position) : Z := (k * occ ts p)%Z.

Lemma occ_pos ts p : (0 <= occ ts p)%Z.
Proof. induction ts as [|x r IH]; cbn [occ]; [lia|]. destruct (negb (is_bar x) && pos_eqb (tok_start x) p); lia. Qed.
Lemma occ_app a b p : occ (a ++ b) p = (occ a p + occ b p)%Z.
Proof. induction a as [|x r IH]; cbn [occ app]; lia. Qed.
Lemma charge_app k a b p : charge k (a ++ b) p = (charge k a p + charge k b p)%Z.
Proof. unfold charge. rewrite occ_app. ring. Qed.
Lemma charge_cons k x b p : charge k (x :: b) p = (charge k [x] p + charge k b p)%Z.
Proof. apply (charge_app k [x] b p). Qed.
Lemma charge_nil k p : charge k [] p = 0%Z.
Proof. unfold charge. cbn. ring. Qed.
Lemma charge_two k ts p : charge (2 * k) ts p = (2 * charge k ts p)%Z.
Proof. unfold charge. ring. Qed.
Lemma charge_one k ts p : (1 <= k)%Z -> (0 <= charge 1 ts p <= charge k ts p)%Z.
Proof. intro H. unfold charge. pose proof (occ_pos ts p). nia. Qed.
Lemma charge_mono k k2 ts p : (k <= k2)%Z -> (charge k ts p <= charge k2 ts p)%Z.
Proof. intro H. unfold charge. pose proof (occ_pos ts p). nia. Qed.

(** the tokens may be marked [k] times more; they were marked at most [k] times *)
Definition room (k : Z) (ts : list token) (d : finder) : Prop := forall p, (0 <= d p /\ d p + charge k ts p <= 64)%Z.
Definition spent (k : Z) (ts : list token) (d d2 : finder) : Prop := forall p, (d p <= d2 p <= d p + charge k ts p)%Z.

Ltac charges p :=
  repeat match goal with
  | H : room _ _ _ |- _ => generalize (H p); clear H
  | H : spent _ _ _ _ |- _ => generalize (H p); clear H
  end;
  cbn [app tl];
  repeat first [ rewrite charge_two | rewrite charge_app | rewrite charge_nil
               | match goal with
                 | |- context [charge ?k (?x :: ?y :: ?b) p] => rewrite (charge_cons k x (y :: b) p)
                 | |- context [charge ?k (?x :: ?b) p] => is_var b; rewrite (charge_cons k x b p)
                 | |- context [charge ?k (?x :: ?a ++ ?b) p] => rewrite (charge_cons k x (a ++ b) p)
                 end ];
  repeat match goal with
  | H1 : (1 <= ?j)%Z |- context [charge ?j ?l p] =>
      let c := fresh "c" in let c1 := fresh "c" in
      generalize (charge_one j l p H1); set (c := charge j l p); set (c1 := charge 1 l p); clearbody c c1
  end;
  repeat match goal with
  | |- context [charge 1 ?l p] =>
      let c := fresh "c" in generalize (charge_one 1 l p (Z.le_refl 1)); set (c := charge 1 l p); clearbody c
  end.
(** only bounds on lengths matter *)
Ltac len :=
  repeat match goal with
  | H : lt _ _ |- _ => revert H
  | H : le _ _ |- _ => revert H
  end; clear; intros; lia.
Ltac cost := let p := fresh "p" in intro p; charges p; clear; lia.

Lemma spent_none k ts d : (0 <= k)%Z -> spent k ts d d.
Proof. intros H p. pose proof (occ_pos ts p). unfold charge. nia. Qed.

Lemma mark_ok x d : is_bar x = false -> room 1 [x] d ->
  fst (df_mark d (tok_start x)) = false /\ spent 1 [x] d (snd (df_mark d (tok_start x))).
Proof.
  intros Hb H. pose proof (H (tok_start x)) as [H1 H2]. unfold charge in H2. cbn [occ] in H2. rewrite Hb in H2. cbn [negb andb] in H2.
  assert (E : pos_eqb (tok_start x) (tok_start x) = true) by (unfold pos_eqb; rewrite !N.eqb_refl; reflexivity).
  rewrite E in H2.
  assert (W : wrap8 (d (tok_start x) + 1) = (d (tok_start x) + 1)%Z).
  { unfold wrap8. rewrite Z.mod_small by lia. lia. }
  unfold df_mark. rewrite W. cbn [fst snd]. split.
  - apply Z.ltb_ge. unfold dead_end_threshold. lia.
  - intro p. unfold charge. cbn [occ]. rewrite Hb. cbn [negb andb]. destruct (pos_eqb (tok_start x) p) eqn:Ep; [|lia].
    apply pos_eqb_eq in Ep. subst p. lia.
Qed.

(** ** brackets *)
Definition low (sv : list (list token * mark)) (ts : list token) : Prop :=
  Forall (fun e => height e <= depth ts) sv.
Definition under (sv : list (list token * mark)) (ts : list token) : Prop := low sv (tl ts).

Definition closer (x : token) : bool := match tok_type x with TSequenceEnd | TMappingEnd => true | _ => false end.
Lemma depth_down x r : closer x = false -> depth (x :: r) <= depth r.
Proof.
  intro H. unfold depth. rewrite brk_cons. unfold closer in H.
  destruct (tok_type x); try discriminate; try (apply le_n); destruct (brk r) as [[|[] s]|]; cbn; lia.
Qed.
Lemma low_under sv x r : closer x = false -> low sv (x :: r) -> under sv (x :: r).
Proof. intros H L. eapply Forall_impl; [|exact L]. intros e He. cbn [tl]. etransitivity; [exact He|apply depth_down, H]. Qed.
Lemma under_cp sv ts sol : under sv ts -> under ((ts, sol) :: sv) ts.
Proof. intro H. constructor; [apply height_le|exact H]. Qed.
Lemma low_eq sv ts ts2 : brk ts = brk ts2 -> low sv ts -> low sv ts2.
Proof. intros E H. unfold low, depth in *. rewrite <- E. exact H. Qed.
Lemma middle_real x : middle x = true -> is_bar x = false.
Proof. unfold middle, is_bar. destruct (tok_type x); congruence. Qed.
Lemma low_go sv x r : middle x = true -> low sv (x :: r) -> may_go sv (x :: r).
Proof. intros M H. right. split; [cbn; rewrite (middle_real x M); reflexivity|exact H]. Qed.
(** a checkpoint before a token that is not a bracket *)
Lemma low_cp sv x r sol : brk (x :: r) = brk r -> low sv (x :: r) -> low ((x :: r, sol) :: sv) (x :: r).
Proof. intros E H. constructor; [|exact H]. etransitivity; [apply height_le|]. cbn [fst tl]. unfold depth. rewrite E. apply le_n. Qed.

#[export] Hint Resolve under_cp : core.

(** ** the tokens between two lines of a scalar indented by [n], and the text they stand for *)
Inductive seam (n : nat) : text -> list token -> Prop :=
| seam_lines nl t l sps : tok_type nl = TLineBreak -> hollow t l -> blanks sps -> n <= length sps ->
    seam n (fold_text l t) (nl :: l ++ sps).

Lemma seam_head n w j : seam n w j -> exists nl r, j = nl :: r /\ tok_type nl = TLineBreak.
Proof. intros [nl t l sps H _ _ _]. eauto. Qed.
Lemma hollow_mild t l : hollow t l -> Forall (fun t => mild t = true) l.
Proof.
  induction 1 as [|sps nl t l Hs Hn _ IH]; [constructor|]. apply Forall_app. split; [apply blanks_mild, Hs|].
  constructor; [eapply mild_one; eauto|exact IH].
Qed.
Lemma seam_mild n w j : seam n w j -> Forall (fun t => mild t = true) j.
Proof.
  intros [nl t l sps Hn Hl Hs _]. constructor; [eapply mild_one; eauto|]. apply Forall_app. split; [eapply hollow_mild, Hl|apply blanks_mild, Hs].
Qed.
(** the tokens between the parts of a flow collection *)
Inductive sep (n : nat) : list token -> Prop :=
| sep_blanks sp : blanks sp -> sep n sp
| sep_lines sp w j : blanks sp -> seam n w j -> sep n (sp ++ j).
Lemma sep_mild n s : sep n s -> Forall (fun t => mild t = true) s.
Proof.
  intros [sp H|sp w j H Hj]; [apply blanks_mild, H|]. apply Forall_app. split; [apply blanks_mild, H|eapply seam_mild, Hj].
Qed.

(** ** blanks *)
Section Skip.
  Context (fuel : nat) (some_fuel : 1 < fuel).
  Let f0 : 0 < fuel. Proof. lia. Qed.

  Lemma separate_none ctx x r sv i b d : inside ctx = true -> middle x = true ->
    runs (parse_separate fuel ctx) (mkC (x :: r) false sv i b d) NInvalid (mkC (x :: r) false sv i b d).
  Proof.
    intros Hx Hm.
    assert (W : is_white_space x = false) by (apply middle_white, Hm).
    assert (G : runs (parse_separate_lines fuel) (mkC (x :: r) false sv i b d) NInvalid (mkC (x :: r) false sv i b d)).
    { unfold parse_separate_lines. go1. go1; [go|]. go1; [go1; apply (comments_mid fuel f0 []); auto|]. cbn [valid_node].
      go. { apply sep_in_line_no, W. } go. }
    destruct ctx; try discriminate Hx; try exact G; cbn [parse_separate]; apply sep_in_line_no, W.
  Qed.
  Lemma separate_some ctx sps x r sv i b d : inside ctx = true -> blanks sps -> sps <> [] -> middle x = true ->
    reach sps sv (x :: r) -> length sps < fuel ->
    runs (parse_separate fuel ctx) (mkC (sps ++ x :: r) false sv i b d) (NBasic IndentType) (mkC (x :: r) false sv i b d).
  Proof.
    intros Hx Hs Hn Hm Hr Hf.
    assert (K : runs (parse_separate_in_line fuel) (mkC (sps ++ x :: r) false sv i b d) (NBasic IndentType) (mkC (x :: r) false sv i b d)).
    { rewrite <- (sol_after_false sps) at 2. apply sep_in_line_ok; auto using middle_white. }
    destruct ctx; try discriminate Hx; try solve [apply separate_blanks; auto]; exact K.
  Qed.
  Lemma maybe_separate_ok ctx sps x r sv i b d : inside ctx = true -> blanks sps -> middle x = true ->
    reach sps sv (x :: r) -> length sps < fuel ->
    runs (maybe_separate fuel ctx) (mkC (sps ++ x :: r) false sv i b d) tt (mkC (x :: r) false sv i b d).
  Proof.
    intros Hx Hs Hm Hr Hf. unfold maybe_separate. go1; [go|]. destruct sps as [|s sps].
    - cbn [app]. go1; [go1; apply separate_none; auto|]. go.
    - go1; [go1; apply separate_some; auto; discriminate|]. go.
  Qed.
  Lemma maybe_in_line_ok sps x r sv i b d : blanks sps -> middle x = true ->
    reach sps sv (x :: r) -> length sps < fuel ->
    runs (maybe_separate_in_line fuel) (mkC (sps ++ x :: r) false sv i b d) tt (mkC (x :: r) false sv i b d).
  Proof.
    intros Hs Hm Hr Hf. apply maybe_sep_no; auto using middle_white.
  Qed.

  (** ** nothing there *)
  Definition bare (x : token) : bool :=
    match tok_type x with
    | TSequenceStart | TMappingStart | TSequenceEnd | TMappingEnd | TSingleQuote | TDoubleQuote
    | TLineBreak | TEOF | TComment | TDirectiveEnd | TDocumentEnd | TLiteral | TFolded => true | _ => false end.
  Lemma one_line_mark ctx x r sol sv i b d : inside ctx = true -> bare x = true -> room 1 [x] d -> exists d2,
    runs (parse_plain_one_line fuel ctx) (mkC (x :: r) sol sv i b d) NInvalid (mkC (x :: r) sol sv i b d2) /\ spent 1 [x] d d2.
  Proof.
    intros Hx Hb Hr. destruct (mark_ok x d ltac:(unfold bare in Hb; unfold is_bar; destruct (tok_type x); congruence) Hr) as [M1 M2]. eexists. split; [|exact M2].
    unfold parse_plain_one_line. go1. go1.
    mid false (mkC (x :: r) sol sv i [] d).
    - apply (runs_valid _ _ NInvalid). unfold parse_plain_first. go1. go1; [go|].
      unfold bare in Hb. destruct (tok_type x); try discriminate Hb; go.
    - go1; [go|]. rewrite M1. go.
  Qed.
  Lemma plain_mark ctx x r sol sv i b d : inside ctx = true -> bare x = true -> room 1 [x] d -> exists d2,
    runs (parse_plain fuel ctx) (mkC (x :: r) sol sv i b d) NInvalid (mkC (x :: r) sol sv i b d2) /\ spent 1 [x] d d2.
  Proof.
    intros Hx Hb Hr. destruct (one_line_mark ctx x r sol sv i b d Hx Hb Hr) as (d2 & R & S). exists d2. split; [|exact S].
    assert (G : runs (parse_plain_multi_line fuel ctx) (mkC (x :: r) sol sv i b d) NInvalid (mkC (x :: r) sol sv i b d2)).
    { unfold parse_plain_multi_line. go1. go1; [exact R|]. exact (runs_invalid _). }
    destruct ctx; try discriminate Hx; assumption.
  Qed.
  Lemma bare_not x : bare x = true -> tok_type x <> TAlias /\ tok_type x <> TTag /\ tok_type x <> TAnchor /\ tok_type x <> TMappingKey
    /\ tok_type x <> TMappingValue.
  Proof. unfold bare. destruct (tok_type x); try discriminate; repeat split; discriminate. Qed.
  Lemma yaml_node_mark ctx x r sol sv i b d : inside ctx = true -> bare x = true -> room 1 [x] d -> exists d2,
    runs (parse_flow_yaml_node fuel ctx) (mkC (x :: r) sol sv i b d) NInvalid (mkC (x :: r) sol sv i b d2) /\ spent 1 [x] d d2.
  Proof.
    intros Hx Hb Hr. destruct (bare_not _ Hb) as (B1 & B2 & B3 & _).
    destruct (plain_mark ctx x r sol ((x :: r, sol) :: sv) i b d Hx Hb Hr) as (d2 & R & S). exists d2. split; [|exact S].
    unfold parse_flow_yaml_node, parse_generic_flow_node. go1. go1; [go|]. go1; [apply alias_no, B1|]. decide1. go1; [go|]. go1; [go|].
    go1; [exact R|]. decide1. go1; [go|]. go1; [apply properties_no; auto|]. go.
  Qed.

  Section Content.
    Context (content : context -> M node).
    Lemma separate_value_no ctx x r sol sv i b d : tok_type x <> TMappingValue ->
      runs (parse_flow_mapping_separate_value fuel content ctx) (mkC (x :: r) sol sv i b d) NInvalid (mkC (x :: r) sol sv i b d).
    Proof. intro H. unfold parse_flow_mapping_separate_value. go1. go1; [go|]. rewrite (ttype_eqb_no _ _ H). go. Qed.
    Lemma adjacent_value_no ctx x r sol sv i b d : tok_type x <> TMappingValue ->
      runs (parse_flow_mapping_adjacent_value fuel content ctx) (mkC (x :: r) sol sv i b d) NInvalid (mkC (x :: r) sol sv i b d).
    Proof. intro H. unfold parse_flow_mapping_adjacent_value. go1. go1; [go|]. rewrite (ttype_eqb_no _ _ H). go. Qed.
    Lemma empty_key_no ctx x r sol sv i b d : tok_type x <> TMappingValue ->
      runs (parse_flow_mapping_empty_key_entry fuel content ctx) (mkC (x :: r) sol sv i b d) NInvalid (mkC (x :: r) sol sv i b d).
    Proof. intro H. unfold parse_flow_mapping_empty_key_entry. go1. go1; [apply separate_value_no, H|]. go. Qed.

    (** nodes made of a collection or a quoted scalar *)
    Lemma json_node_ok ctx x r sol sv i b d t c2 : tok_type x <> TTag -> tok_type x <> TAnchor -> valid_node t = true ->
      runs (content ctx) (mkC (x :: r) sol sv i b d) t c2 ->
      runs (parse_flow_json_node fuel content ctx) (mkC (x :: r) sol sv i b d) t c2.
    Proof.
      intros B2 B3 V R. unfold parse_flow_json_node. go1. go1; [go|]. go1; [apply properties_no; auto|].
      mid false (mkC (x :: r) sol ((x :: r, sol) :: sv) i b d); [go|].
      go1; [go|]. go1; [exact R|]. rewrite V. go.
    Qed.
    Lemma json_node_fails ctx x r sol sv i b d c2 : tok_type x <> TTag -> tok_type x <> TAnchor ->
      runs (content ctx) (mkC (x :: r) sol sv i b d) NInvalid c2 ->
      runs (parse_flow_json_node fuel content ctx) (mkC (x :: r) sol sv i b d) NInvalid c2.
    Proof.
      intros B2 B3 R. unfold parse_flow_json_node. go1. go1; [go|]. go1; [apply properties_no; auto|].
      mid false (mkC (x :: r) sol ((x :: r, sol) :: sv) i b d); [go|].
      go1; [go|]. go1; [exact R|]. go.
    Qed.
    Lemma node_json ctx x r sol sv i b d d1 t ts2 sol2 d2 : bare x = true -> valid_node t = true ->
      (runs (parse_plain fuel ctx) (mkC (x :: r) sol ((x :: r, sol) :: (x :: r, sol) :: sv) i b d) NInvalid
        (mkC (x :: r) sol ((x :: r, sol) :: (x :: r, sol) :: sv) i b d1)) ->
      runs (content ctx) (mkC (x :: r) sol ((x :: r, sol) :: sv) i b d1) t (mkC ts2 sol2 ((x :: r, sol) :: sv) i b d2) ->
      runs (parse_flow_node fuel content ctx) (mkC (x :: r) sol sv i b d) t (mkC ts2 sol2 sv i b d2).
    Proof.
      intros Hb V R1 R2. destruct (bare_not _ Hb) as (B1 & B2 & B3 & _).
      unfold parse_flow_node, parse_generic_flow_node. go1. go1; [go|]. go1; [apply alias_no, B1|]. decide1. go1; [go|]. go1; [go|].
      mid t (mkC ts2 sol2 ((x :: r, sol) :: sv) i b d2); [|rewrite V; go].
      unfold parse_flow_content. go1. go1; [go|]. go1; [exact R1|]. decide1. go1; [go|]. exact R2.
    Qed.
    Lemma node_fails ctx x r sol sv i b d d1 ts2 sol2 d2 : bare x = true ->
      (runs (parse_plain fuel ctx) (mkC (x :: r) sol ((x :: r, sol) :: (x :: r, sol) :: sv) i b d) NInvalid
        (mkC (x :: r) sol ((x :: r, sol) :: (x :: r, sol) :: sv) i b d1)) ->
      runs (content ctx) (mkC (x :: r) sol ((x :: r, sol) :: sv) i b d1) NInvalid (mkC ts2 sol2 ((x :: r, sol) :: sv) i b d2) ->
      runs (parse_flow_node fuel content ctx) (mkC (x :: r) sol sv i b d) NInvalid (mkC (x :: r) sol sv i b d2).
    Proof.
      intros Hb R1 R2. destruct (bare_not _ Hb) as (B1 & B2 & B3 & _).
      unfold parse_flow_node, parse_generic_flow_node. go1. go1; [go|]. go1; [apply alias_no, B1|]. decide1. go1; [go|]. go1; [go|].
      mid NInvalid (mkC ts2 sol2 ((x :: r, sol) :: sv) i b d2).
      { unfold parse_flow_content. go1. go1; [go|]. go1; [exact R1|]. decide1. go1; [go|]. exact R2. }
      decide1. go1; [go|]. go1; [apply properties_no; auto|]. go.
    Qed.
    Lemma node_none ctx x r sol sv i b d d1 : bare x = true ->
      (runs (parse_plain fuel ctx) (mkC (x :: r) sol ((x :: r, sol) :: (x :: r, sol) :: sv) i b d) NInvalid
        (mkC (x :: r) sol ((x :: r, sol) :: (x :: r, sol) :: sv) i b d1)) ->
      runs (content ctx) (mkC (x :: r) sol ((x :: r, sol) :: sv) i b d1) NInvalid (mkC (x :: r) sol ((x :: r, sol) :: sv) i b d1) ->
      runs (parse_flow_node fuel content ctx) (mkC (x :: r) sol sv i b d) NInvalid (mkC (x :: r) sol sv i b d1).
    Proof.
      intros. eapply node_fails; eauto.
    Qed.
    Lemma node_plain ctx x r sol sv i b d t ts2 : tok_type x <> TAlias -> valid_node t = true ->
      (forall sv, runs (parse_plain fuel ctx) (mkC (x :: r) sol sv i b d) t (mkC ts2 false sv i b d)) ->
      runs (parse_flow_node fuel content ctx) (mkC (x :: r) sol sv i b d) t (mkC ts2 false sv i b d).
    Proof.
      intros B1 V R1.
      unfold parse_flow_node, parse_generic_flow_node. go1. go1; [go|]. go1; [apply alias_no, B1|]. decide1. go1; [go|]. go1; [go|].
      mid t (mkC ts2 false ((x :: r, sol) :: sv) i b d); [|rewrite V; go].
      unfold parse_flow_content. go1. go1; [go|]. go1; [apply R1|]. rewrite V. go.
    Qed.
  End Content.
  Lemma yaml_node_plain ctx x r sol sv i b d t ts2 : tok_type x <> TAlias -> valid_node t = true ->
    (forall sv, runs (parse_plain fuel ctx) (mkC (x :: r) sol sv i b d) t (mkC ts2 false sv i b d)) ->
    runs (parse_flow_yaml_node fuel ctx) (mkC (x :: r) sol sv i b d) t (mkC ts2 false sv i b d).
  Proof.
    intros B1 V R1.
    unfold parse_flow_yaml_node, parse_generic_flow_node. go1. go1; [go|]. go1; [apply alias_no, B1|]. decide1. go1; [go|]. go1; [go|].
    go1; [apply R1|]. rewrite V. go.
  Qed.

  (** ** scalars before blanks and an indicator *)
  Definition stopper (y : token) : bool :=
    match tok_type y with TCollectEntry | TSequenceEnd | TMappingEnd | TMappingValue => true | _ => false end.
  Lemma stopper_facts y : stopper y = true -> calm y = true /\ middle y = true /\ is_white_space y = false /\ tok_type y <> TString
    /\ tok_type y <> TLineBreak.
  Proof. unfold stopper, calm, middle, is_white_space. destruct (tok_type y); try discriminate; repeat split; discriminate. Qed.

  (** ** what separates the parts of a collection: blanks, or line breaks before a line indented by [n] *)
  Definition key (ctx : context) : bool := match ctx with BlockKey | FlowKey => true | _ => false end.
  (** within a key nothing is skipped from the first line break on *)
  Inductive skipped (ctx : context) : list token -> token -> list token -> token -> list token -> Prop :=
  | skipped_all s x r : blanks s \/ key ctx = false -> skipped ctx s x r x r
  | skipped_line sp nl l x r : key ctx = true -> blanks sp -> tok_type nl = TLineBreak -> skipped ctx (sp ++ nl :: l) x r nl (l ++ x :: r).
  Definition sol_at (ctx : context) (s : list token) : bool :=
    negb (key ctx) && match rev s with [] => false | t :: _ => ttype_eqb (tok_type t) TLineBreak end.

  Lemma skipped_ex n ctx s x r : sep n s -> exists z q, skipped ctx s x r z q.
  Proof.
    intros [sp H|sp w j H Hj]; [exists x, r; constructor; auto|]. destruct (key ctx) eqn:E; [|exists x, r; constructor; auto].
    destruct (seam_head _ _ _ Hj) as (nl & l & -> & Hn). exists nl, (l ++ x :: r). constructor; auto.
  Qed.
  Lemma skipped_last ctx s x r z q : skipped ctx s x r z q -> middle x = true ->
    (middle z = true /\ z = x /\ q = r) \/ (key ctx = true /\ tok_type z = TLineBreak).
  Proof. intros [] Hm; auto. Qed.
  (** how much of the marks goes to the line break *)
  Lemma skipped_charge ctx s x r z q k p : skipped ctx s x r z q -> (0 <= k)%Z -> key ctx = true -> tok_type z = TLineBreak -> middle x = true ->
    (charge k [z] p <= charge k s p)%Z.
  Proof.
    intros [s0 x0 r0 H|sp nl l x0 r0 H1 H2 H3] Hk Hx Hz Hm.
    - unfold middle in Hm. rewrite Hz in Hm. discriminate.
    - rewrite charge_app, (charge_cons k nl l). pose proof (occ_pos sp p). pose proof (occ_pos l p). unfold charge in *. nia.
  Qed.

  Lemma rev_blanks sp : blanks sp -> blanks (rev sp).
  Proof. unfold blanks. intro H. apply Forall_rev. exact H. Qed.
  Lemma sol_blanks ctx sp : blanks sp -> sol_at ctx sp = false.
  Proof.
    intro H. apply rev_blanks in H. unfold sol_at. destruct (rev sp) as [|t l]; [apply andb_false_r|].
    inversion H as [|? ? E _]; subst. rewrite E. apply andb_false_r.
  Qed.
  Lemma sol_key ctx s : key ctx = true -> sol_at ctx s = false.
  Proof. intro H. unfold sol_at. rewrite H. reflexivity. Qed.
  Lemma sol_lines ctx a nl l sps t : key ctx = false -> tok_type nl = TLineBreak -> hollow t l -> blanks sps ->
    sol_at ctx (a ++ nl :: l ++ sps) = sol_after sps true.
  Proof.
    intros Hk Hn Hl Hs. unfold sol_at. rewrite Hk. cbn [negb andb].
    assert (E : sps = [] -> exists z u, rev (a ++ nl :: l ++ sps) = z :: u /\ tok_type z = TLineBreak).
    { intros ->. rewrite app_nil_r. clear Hs. assert (G : l = [] \/ exists l1 n1, l = l1 ++ [n1] /\ tok_type n1 = TLineBreak).
      { induction Hl as [|sp n1 t1 l1 Hs Hn1 _ IH]; [left; reflexivity|right]. destruct IH as [->|(l2 & n2 & -> & H2)].
        - exists sp, n1. auto.
        - exists (sp ++ n1 :: l2), n2. rewrite <- app_assoc. auto. }
      destruct G as [->|(l1 & n1 & -> & H1)].
      - rewrite rev_app_distr. cbn. eauto.
      - rewrite rev_app_distr. cbn. rewrite rev_app_distr. cbn. eauto. }
    destruct sps as [|s sps].
    - destruct (E eq_refl) as (z & u & -> & ->). reflexivity.
    - clear E. change (nl :: l ++ s :: sps) with ((nl :: l) ++ s :: sps). rewrite app_assoc, rev_app_distr.
      apply rev_blanks in Hs. destruct (rev (s :: sps)) as [|y v] eqn:E; [cbn in E; apply app_eq_nil in E as [_ E]; discriminate|].
      inversion Hs as [|? ? E2 _]; subst. cbn [app]. rewrite E2. reflexivity.
  Qed.
  Lemma sol_zero n ctx s : sep n s -> sol_at ctx s = true -> n = 0.
  Proof.
    intros [sp H|sp w j H Hj] E; [rewrite sol_blanks in E by assumption; discriminate|].
    destruct (key ctx) eqn:Ek; [rewrite sol_key in E by assumption; discriminate|].
    destruct Hj as [nl t l sps Hn Hl Hs Hk]. rewrite (sol_lines _ _ _ _ _ t) in E by assumption. destruct sps; [cbn in Hk; lia|discriminate].
  Qed.
  Lemma line_skip s x r z q sv i b d : skipped FlowKey s x r z q -> middle x = true -> may_go sv (x :: r) -> length s < fuel ->
    runs (maybe_separate_in_line fuel) (mkC (s ++ x :: r) false sv i b d) tt (mkC (z :: q) false sv i b d).
  Proof.
    intros [s0 x0 r0 [H|H]|sp nl l x0 r0 H1 H2 H3] Hm Hg Hf; [|discriminate|].
    - apply maybe_sep_no; auto using middle_white. right. exact Hg.
    - rewrite <- app_assoc. cbn [app]. rewrite app_length in Hf. apply maybe_sep_no; auto; [| |lia].
      + unfold is_white_space. rewrite H3. reflexivity.
      + apply reach_calm. unfold calm. rewrite H3. reflexivity.
  Qed.
  Lemma skip_ok n k ctx s x r z q sv b d : inside ctx = true -> key ctx = true \/ k = n -> sep n s -> skipped ctx s x r z q ->
    middle x = true -> may_go sv (x :: r) -> length s < fuel ->
    runs (maybe_separate fuel ctx) (mkC (s ++ x :: r) false sv (mkInd (Z.of_nat k) StrictMode) b d) tt
      (mkC (z :: q) (sol_at ctx s) sv (mkInd (Z.of_nat k) StrictMode) b d).
  Proof.
    intros Hx Hk Hs Hz Hm Hg Hf. revert Hs Hm Hg Hf. destruct Hz as [s0 x0 r0 H|sp nl l x0 r0 H1 H2 H3]; intros Hs Hm Hg Hf.
    - destruct Hs as [sp Hb|sp w j Hb Hj].
      + rewrite sol_blanks by assumption. apply maybe_separate_ok; auto. right. exact Hg.
      + destruct H as [H|H].
        { destruct (seam_head _ _ _ Hj) as (nl & l & -> & Hn). unfold blanks in H. rewrite Forall_app in H. destruct H as [_ H]. inversion H; subst. congruence. }
        destruct Hk as [Hk|Hk]; [congruence|subst k].
        destruct Hj as [nl t l sps Hn Hl Hbs Hkn].
        replace (sol_at ctx (sp ++ nl :: l ++ sps)) with (sol_after sps true) by (symmetry; apply (sol_lines _ _ _ _ _ t); assumption).
        assert (G : gap (sp ++ nl :: l)).
        { apply gap_lines; [apply trailing_blanks, Hb|exact Hn|]. clear -Hl. induction Hl as [|sp2 n2 t2 l2 H2 Hn2 _ IH]; [constructor|].
          apply idle_more; [apply idle_blanks, H2|exact Hn2|exact IH]. }
        rewrite app_length in Hf. cbn [length] in Hf. rewrite app_length in Hf.
        replace ((sp ++ nl :: l ++ sps) ++ x0 :: r0) with ((sp ++ nl :: l) ++ sps ++ x0 :: r0)
          by (rewrite <- !app_assoc; cbn [app]; rewrite <- app_assoc; reflexivity).
        unfold maybe_separate. go1; [go|].
        assert (Hc : may_go (((sp ++ nl :: l) ++ sps ++ x0 :: r0, live false) :: sv) (x0 :: r0)).
        { rewrite (app_assoc (sp ++ nl :: l)). apply may_app; [|destruct sp; discriminate|exact Hg].
          apply Forall_app. split; [apply gap_mild, G|apply blanks_mild, Hbs]. }
        go1; [go1; apply (separate_gap fuel f0 ctx (sp ++ nl :: l) n sps x0 r0); auto;
          [destruct ctx; try discriminate; exact I|rewrite app_length; cbn [length]; lia|lia]|]. cbn [valid_node]. go.
    - rewrite sol_key by assumption. rewrite <- app_assoc. cbn [app]. rewrite app_length in Hf.
      unfold maybe_separate. go1; [go|].
      destruct (sep_in_line_any fuel sp nl (l ++ x0 :: r0) false ((sp ++ nl :: l ++ x0 :: r0, live false) :: sv) (mkInd (Z.of_nat k) StrictMode) b d H2)
        as (a & Ra & Va); [unfold is_white_space; rewrite H3; reflexivity|apply reach_calm; unfold calm; rewrite H3; reflexivity|lia|].
      rewrite sol_after_false in Ra.
      mid (valid_node a) (mkC (nl :: l ++ x0 :: r0) false ((sp ++ nl :: l ++ x0 :: r0, live false) :: sv) (mkInd (Z.of_nat k) StrictMode) b d).
      { go1. destruct ctx; try discriminate; exact Ra. }
      rewrite Va. destruct sp; go.
  Qed.
  (** nothing more to skip *)
  Lemma skip_again n k ctx s x r z q sv b d : inside ctx = true -> key ctx = true \/ k = n -> sep n s -> skipped ctx s x r z q ->
    middle x = true ->
    runs (maybe_separate fuel ctx) (mkC (z :: q) (sol_at ctx s) sv (mkInd (Z.of_nat k) StrictMode) b d) tt
      (mkC (z :: q) (sol_at ctx s) sv (mkInd (Z.of_nat k) StrictMode) b d).
  Proof.
    intros Hx Hk Hs Hz Hm. destruct (skipped_last _ _ _ _ _ _ Hz Hm) as [(Hm2 & _ & _)|[Hk2 Hn]].
    - destruct (sol_at ctx s) eqn:E; [|apply (maybe_separate_ok ctx []); auto; cbn; lia].
      pose proof (sol_zero _ _ _ Hs E) as E0. destruct (key ctx) eqn:Ek; [rewrite sol_key in E by assumption; discriminate|].
      destruct Hk as [Hk|Hk]; [discriminate|]. subst k n.
      unfold maybe_separate. go1; [go|].
      go1; [go1; apply (separate_here fuel f0 ctx 0 [] z q); auto; destruct ctx; try discriminate; exact I|]. cbn [sol_after valid_node]. go.
    - rewrite sol_key by assumption. unfold maybe_separate. go1; [go|].
      mid false (mkC (z :: q) false ((z :: q, live false) :: sv) (mkInd (Z.of_nat k) StrictMode) b d); [|go].
      apply (runs_valid _ _ NInvalid).
      pose proof (sep_in_line_no fuel z q ((z :: q, live false) :: sv) (mkInd (Z.of_nat k) StrictMode) b d ltac:(unfold is_white_space; rewrite Hn; reflexivity)) as R.
      destruct ctx; try discriminate; exact R.
  Qed.

  (** ** what follows a node: a separation and an indicator *)
  Inductive tail (n : nat) (ctx : context) : list token -> token -> list token -> list token -> Prop :=
  | tail_sep s y r z q : sep n s -> stopper y = true -> skipped ctx s y r z q -> length s < fuel -> tail n ctx (s ++ y :: r) z q s.
  Lemma tail_calm n ctx rest z q s : tail n ctx rest z q s -> calm_hd rest = true.
  Proof.
    intros [s0 y r z0 q0 Hs Hy _ _]. destruct (stopper_facts _ Hy) as (Y1 & _). destruct Hs as [sp H|sp w j H Hj]; [apply calm_blanks; auto|].
    destruct (seam_head _ _ _ Hj) as (nl & l & -> & Hn). rewrite <- app_assoc. cbn [app]. apply calm_blanks; auto. unfold calm. rewrite Hn. reflexivity.
  Qed.
  Lemma tail_line n ctx rest z q s : tail n ctx rest z q s -> exists sp y r, rest = sp ++ y :: r /\ blanks sp /\ length sp < fuel /\
    tok_type y <> TString /\ is_white_space y = false /\ calm y = true /\ (stopper y = true /\ z = y /\ q = r \/ tok_type y = TLineBreak).
  Proof.
    intros [s0 y r z0 q0 Hs Hy Hz Hf]. destruct (stopper_facts _ Hy) as (Y1 & Y2 & Y3 & Y4 & Y5). destruct Hs as [sp H|sp w j H Hj].
    - exists sp, y, r. repeat split; auto. left. split; auto. destruct Hz as [? ? ? _|sp2 nl l x r H1 H2 H3]; [auto|].
      unfold blanks in H. rewrite Forall_app in H. destruct H as [_ H]. inversion H; subst. congruence.
    - destruct (seam_head _ _ _ Hj) as (nl & l & -> & Hn). exists sp, nl, (l ++ y :: r). rewrite <- app_assoc. rewrite app_length in Hf.
      unfold is_white_space, calm. rewrite Hn. repeat split; auto; [lia|discriminate].
  Qed.
  Lemma tail_stops n ctx rest z q s : tail n ctx rest z q s -> stops fuel n rest.
  Proof.
    intros [s0 y r z0 q0 Hs Hy Hz Hf]. destruct (stopper_facts _ Hy) as (Y1 & Y2 & Y3 & Y4 & Y5). destruct Hs as [sp H|sp w j H Hj].
    - constructor; auto.
    - destruct Hj as [nl t l sps Hn Hl Hs Hk]. rewrite <- app_assoc. cbn [app]. rewrite <- app_assoc. eapply stops_line; eauto.
  Qed.
  Lemma tail_one_line n ctx ctx2 rest z q s1 s ts sol sv i b d : tail n ctx rest z q s1 -> inside ctx2 = true -> plain s ts -> length ts < fuel ->
    runs (parse_plain_one_line fuel ctx2) (mkC (ts ++ rest) sol sv i b d) (NText s UnknownQuoting) (mkC rest false sv i b d).
  Proof.
    intros Ht Hx Hp Hf. destruct (tail_line _ _ _ _ _ _ Ht) as (sp & y & r & -> & H1 & H2 & H3 & H4 & H5 & _). apply one_line_blanks; auto.
  Qed.
  Lemma tail_plain n k ctx rest z q s1 s ts sol sv b d : tail n ctx rest z q s1 -> inside ctx = true -> key ctx = true \/ k = n ->
    plain s ts -> length ts < fuel ->
    runs (parse_plain fuel ctx) (mkC (ts ++ rest) sol sv (mkInd (Z.of_nat k) StrictMode) b d) (NText s UnknownQuoting)
         (mkC rest false sv (mkInd (Z.of_nat k) StrictMode) b d).
  Proof.
    intros Ht Hx Hk Hp Hf. destruct (key ctx) eqn:E.
    - assert (G : parse_plain fuel ctx = parse_plain_one_line fuel ctx) by (destruct ctx; try discriminate; reflexivity).
      rewrite G. eapply tail_one_line; eauto.
    - destruct Hk as [Hk|Hk]; [discriminate|]. subst k. apply plain_value; auto; [destruct ctx; try discriminate; auto|eapply tail_stops, Ht].
  Qed.
  Lemma tail_skip n k ctx rest z q s sv b d : tail n ctx rest z q s -> inside ctx = true -> key ctx = true \/ k = n ->
    runs (maybe_separate fuel ctx) (mkC rest false sv (mkInd (Z.of_nat k) StrictMode) b d) tt
      (mkC (z :: q) (sol_at ctx s) sv (mkInd (Z.of_nat k) StrictMode) b d).
  Proof.
    intros [s0 y r z0 q0 Hs Hy Hz Hf] Hx Hk. destruct (stopper_facts _ Hy) as (Y1 & Y2 & _). eapply skip_ok; eauto. left. exact Y1.
  Qed.
  (** to the end of the line at most *)
  Lemma tail_line_skip n ctx rest z q s : tail n ctx rest z q s -> exists z2 q2,
    (z2 = z /\ q2 = q \/ tok_type z2 = TLineBreak) /\ forall sv i b d,
    runs (maybe_separate_in_line fuel) (mkC rest false sv i b d) tt (mkC (z2 :: q2) false sv i b d).
  Proof.
    intro H. destruct (tail_line _ _ _ _ _ _ H) as (sp & y & r & -> & H1 & H2 & H3 & H4 & H5 & H6).
    exists y, r. split; [destruct H6 as [(_ & -> & ->)|H6]; auto|]. intros. apply maybe_sep_no; auto.
  Qed.
End Skip.
