(** Flow nodes where a block node may be: as values, and taken for keys. *)
From Coq Require Import String ZArith.
From Verif Require Import Base YamlChar Token Ast Balance CPAccessor Lexer Parser ParserFlow ParserBlock ParserDocs ParserTape TextSpec TapeRules
  BlockParse1 BlockParse2 BlockParse3 BlockParse4 FlowParse1 FlowParse2 FlowParse3 FoldParse.
Local Open Scope parser_scope.
Local Arguments cons {A}%type_scope & _ _.
Local Arguments pair {A B}%type_scope & _ _.

(** Sequences nested at most five deep: the tokens of a node may be visited twice, which ends below
    the limit for dead ends.  Scalars and collections may go on in lines indented by [n]. *)
Definition inner (n : nat) (t : node) (ts : list token) : Prop := (exists h, h <= 5 /\ flow n h t ts) \/ folded n t ts.
Lemma inner_scalar n t ts : scalar t ts -> inner n t ts.
Proof. intro H. left. exists 0. split; [lia|constructor; exact H]. Qed.
#[export] Hint Resolve inner_scalar : core.

Lemma inner_head n t ts : inner n t ts -> exists x r, ts = x :: r /\ head x = true.
Proof.
  intros [(h & _ & H)|H]; [eapply flow_first, H|].
  destruct H as [s ts s2 ts2 Hp _|o ts s2 ts2 c Ho _ _ _|o ts s2 ts2 c Ho _ _ _];
    [destruct (plain_head _ _ Hp) as (w & r & -> & [W _]); exists w, (r ++ ts2); split; [reflexivity|]|eexists _, _; (split; [reflexivity|])..];
    unfold head; [rewrite W|rewrite Ho..]; reflexivity.
Qed.
Lemma head_firm x : head x = true -> firm x = true /\ middle x = true /\ is_white_space x = false /\ closer x = false /\ tok_type x <> TSequenceEntry.
Proof. unfold head, firm, middle, is_white_space, closer. destruct (tok_type x); intros; repeat split; congruence. Qed.
Lemma inner_valid n t ts : inner n t ts -> valid_node t = true.
Proof. intros [(h & _ & H)|H]; [eapply flow_valid, H|]. destruct H; reflexivity. Qed.
Lemma bal_inner n t ts : inner n t ts -> bal ts.
Proof.
  intros [(h & _ & H)|H]; [eapply bal_flow, H|].
  assert (Q : forall q x, tok_type x = q -> is_quote q -> quiet x = true) by (intros q x Hx [E|E]; unfold quiet; rewrite Hx, E; reflexivity).
  assert (M : forall ts, Forall (fun t => mild t = true) ts -> bal ts) by (intros l Hl tl; apply brk_mild, Hl).
  destruct H as [s ts s2 ts2 Hp Hr|o ts s2 ts2 c Ho Hf Hr Hc|o ts s2 ts2 c Ho Hf Hr Hc].
  - apply bal_app; apply M; [eapply plain_mild, Hp|eapply plain_rest_mild, Hr].
  - apply bal_cons; [eapply Q; [exact Ho|left; reflexivity]|]. apply bal_app; [apply M; eapply fits_mild, Hf|].
    apply bal_app; [apply M; eapply quoted_rest_mild, Hr|]. apply bal_quiet. constructor; [eapply Q; [exact Hc|left; reflexivity]|constructor].
  - apply bal_cons; [eapply Q; [exact Ho|right; reflexivity]|]. apply bal_app; [apply M; eapply fits_mild, Hf|].
    apply bal_app; [apply M; eapply quoted_rest_mild, Hr|]. apply bal_quiet. constructor; [eapply Q; [exact Hc|right; reflexivity]|constructor].
Qed.
Lemma J_small h : h <= 5 -> (1 <= J h <= 32)%Z.
Proof. intro H. split; [apply J_pos|]. change 32%Z with (J 5). unfold J. apply Z.pow_le_mono_r; lia. Qed.

(** ** tokens that were not marked yet *)
Lemma occ_strip ts p : occ ts p = occ (strip ts) p.
Proof. induction ts as [|x r IH]; [reflexivity|]. cbn. destruct (is_bar x) eqn:E; cbn; rewrite ?E; cbn; rewrite IH; reflexivity. Qed.
Lemma occ_none ts p : ~ In p (map tok_start (strip ts)) -> occ ts p = 0%Z.
Proof.
  induction ts as [|x r IH]; intro H; [reflexivity|]. cbn in *. destruct (is_bar x); cbn in *; [apply IH, H|].
  destruct (pos_eqb (tok_start x) p) eqn:E; [apply pos_eqb_eq in E; tauto|].
  rewrite IH; tauto.
Qed.
Lemma occ_once ts p : NoDup (map tok_start (strip ts)) -> (0 <= occ ts p <= 1)%Z.
Proof.
  induction ts as [|x r IH]; intro H; [cbn; lia|]. cbn in *. destruct (is_bar x); cbn in *; [apply IH, H|].
  inversion H as [|? ? Hn Hd]; subst. specialize (IH Hd).
  destruct (pos_eqb (tok_start x) p) eqn:E; [|lia]. apply pos_eqb_eq in E. subst p. rewrite occ_none by exact Hn. lia.
Qed.
Lemma NoDup_left {A} (a b : list A) : NoDup (a ++ b) -> NoDup a.
Proof.
  induction a as [|x a IH]; intro H; [constructor|]. inversion H as [|? ? Hn Hd]; subst. constructor; [|auto].
  intro Hi. apply Hn, in_or_app. left. exact Hi.
Qed.
Lemma NoDup_apart {A} (a b : list A) x : NoDup (a ++ b) -> In x a -> In x b -> False.
Proof.
  induction a as [|y a IH]; intros H H1 H2; [exact H1|]. inversion H as [|? ? Hn Hd]; subst. destruct H1 as [->|H1]; [|auto].
  apply Hn, in_or_app. right. exact H2.
Qed.
Lemma pos_dec (a b : position) : {a = b} + {a <> b}.
Proof. decide equality; apply N.eq_dec. Qed.
Lemma fresh_room k d ts tl : fresh d (ts ++ tl) -> (0 <= k <= 64)%Z -> room k ts d.
Proof.
  unfold fresh. rewrite strip_app.
  intros (H1 & H2 & H3) Hk p. split; [apply H3|]. unfold charge. rewrite map_app in H1. apply NoDup_left in H1.
  destruct (in_dec pos_dec p (map tok_start (strip ts))) as [Hi|Hi].
  - apply Forall_app in H2 as [H2 _]. apply in_map_iff in Hi as (t & <- & Ht). rewrite Forall_forall in H2. rewrite (H2 t Ht).
    pose proof (occ_once ts (tok_start t) H1). nia.
  - rewrite occ_none by exact Hi. specialize (H3 p). nia.
Qed.
Lemma fresh_spent k d ts tl d2 : fresh d (ts ++ tl) -> (0 <= k <= 64)%Z -> spent k ts d d2 -> fresh d2 tl.
Proof.
  intros F Hk S. pose proof (fresh_room k _ _ _ F Hk) as Hr. destruct (fresh_tail _ _ _ F) as (T1 & T2 & T3).
  destruct F as (H1 & _ & _). rewrite strip_app, map_app in H1. split; [exact T1|]. split.
  - rewrite Forall_forall in *. intros t Ht. specialize (T2 t Ht). specialize (S (tok_start t)). unfold charge in S.
    rewrite occ_none in S; [lia|]. intro Hi. eapply NoDup_apart; [exact H1|exact Hi|]. apply in_map, Ht.
  - intro p. specialize (Hr p). specialize (S p). lia.
Qed.

(** ** checkpoints outside of brackets *)
Definition flat (sv : list (list token * mark)) : Prop := Forall (fun e => height e = 0) sv.
Lemma flat_low sv ts : flat sv -> low sv ts.
Proof. intro H. eapply Forall_impl; [|exact H]. cbn. intros e ->. apply Nat.le_0_l. Qed.
Lemma flat_under sv ts : flat sv -> under sv ts.
Proof. apply flat_low. Qed.
Lemma flat_nil : flat [].
Proof. constructor. Qed.
Lemma flat_lost z sv : flat sv -> flat ((z, lost) :: sv).
Proof. constructor; [reflexivity|assumption]. Qed.
#[export] Hint Resolve flat_low flat_under flat_nil flat_lost : core.

Lemma weaken_room k j ts d : (0 <= j <= k)%Z -> room k ts d -> room j ts d.
Proof. intros Hj H p. specialize (H p). unfold charge in *. pose proof (occ_pos ts p). nia. Qed.
Lemma weaken_spent k j ts d d2 : (0 <= j <= k)%Z -> spent j ts d d2 -> spent k ts d d2.
Proof. intros Hj H p. specialize (H p). unfold charge in *. pose proof (occ_pos ts p). nia. Qed.

Lemma room_half ts d d1 : room 64 ts d -> spent 32 ts d d1 -> room 32 ts d1.
Proof. intros H1 H2 p. specialize (H1 p). specialize (H2 p). unfold charge in *. lia. Qed.
Lemma spent_sum ts d d1 d2 : spent 32 ts d d1 -> spent 32 ts d1 d2 -> spent 64 ts d d2.
Proof. intros H1 H2 p. specialize (H1 p). specialize (H2 p). unfold charge in *. lia. Qed.

Section Leaves.
  Context (fuel : nat) (some_fuel : 1 < fuel).
  Let f0 : 0 < fuel. Proof. lia. Qed.

  Notation line n t ts := (exists h, h <= 5 /\ flow n h t ts).
  (** not a plain scalar: quoted or a collection *)
  Lemma line_cases n t ts : line n t ts -> (exists s, t = NText s UnknownQuoting /\ plain s ts) \/
    exists x r h, ts = x :: r /\ bare x = true /\ h <= 5 /\ P_json fuel n h t ts.
  Proof.
    intros (h & Hh & H). destruct (proj1 (flows_ok fuel some_fuel n) _ _ _ H) as [P|((x & r & E & B) & V & P)]; [left; exact P|right].
    exists x, r, h. auto.
  Qed.

  (** a value *)
  Lemma content_plain ctx x r sol sv i b d t ts2 : valid_node t = true ->
    (forall sv, runs (parse_plain fuel ctx) (mkC (x :: r) sol sv i b d) t (mkC ts2 false sv i b d)) ->
    runs (parse_flow_content fuel (json_content fuel) ctx) (mkC (x :: r) sol sv i b d) t (mkC ts2 false sv i b d).
  Proof. intros V R. unfold parse_flow_content. go1. go1; [go|]. go1; [apply R|]. rewrite V. go. Qed.
  Lemma content_json ctx x r sol sv i b d d1 t ts2 sol2 d2 :
    (runs (parse_plain fuel ctx) (mkC (x :: r) sol ((x :: r, sol) :: sv) i b d) NInvalid (mkC (x :: r) sol ((x :: r, sol) :: sv) i b d1)) ->
    runs (json_content fuel ctx) (mkC (x :: r) sol sv i b d1) t (mkC ts2 sol2 sv i b d2) ->
    runs (parse_flow_content fuel (json_content fuel) ctx) (mkC (x :: r) sol sv i b d) t (mkC ts2 sol2 sv i b d2).
  Proof. intros R1 R2. unfold parse_flow_content. go1. go1; [go|]. go1; [exact R1|]. decide1. go1; [go|]. exact R2. Qed.
  Lemma line_value n t ts tl sol sv b d : line n t ts -> stops fuel n tl -> length ts < fuel -> under sv (ts ++ tl) -> room 32 ts d ->
    exists d2, runs (parse_flow_content fuel (json_content fuel) FlowOut) (mkC (ts ++ tl) sol sv (mkInd (Z.of_nat n) StrictMode) b d) t
      (mkC tl false sv (mkInd (Z.of_nat n) StrictMode) b d2) /\ spent 32 ts d d2.
  Proof.
    intros Hl Ht Hf Hu Hr. pose proof (inner_valid n t ts (or_introl Hl)) as V.
    destruct (line_cases _ _ _ Hl) as [(s & -> & P)|(x & r & h & E & B & Hh & P)].
    - exists d. split; [|apply spent_none; lia]. destruct (plain_head _ _ P) as (w & q & -> & [W _]).
      apply content_plain; auto. intro sv0. apply (plain_value fuel f0 FlowOut n s (w :: q)); auto.
    - pose proof (J_small h Hh) as Hj. pose proof (stops_calm fuel f0 _ _ Ht) as Cy. subst ts. cbn [app] in *.
      assert (Hr2 : room (J h) (x :: r) d) by (eapply weaken_room; [|exact Hr]; lia). destruct Hj as [Hj Hj2].
      set (all := x :: r ++ tl) in *.
      destruct (plain_mark fuel FlowOut x (r ++ tl) sol ((all, live sol) :: sv) (mkInd (Z.of_nat n) StrictMode) b d)
        as (d1 & R1 & S1); auto; [cost|].
      destruct (P fuel FlowOut n tl sol sv b d1) as (a & ts2 & sol2 & d2 & R2 & S2 & Ha); auto; try lia.
      { cost. }
      exists d2. split; [|eapply (weaken_spent 32 (J h)); [lia|]; clear Hr; cost].
      destruct Ha as [(-> & -> & ->)|(Kx & _)]; [|discriminate Kx].
      eapply content_json; eauto.
  Qed.
  Lemma folded_value n t ts tl sol sv b d : folded n t ts -> stops fuel n tl -> length ts < fuel -> room 32 ts d ->
    exists d2, runs (parse_flow_content fuel (json_content fuel) FlowOut) (mkC (ts ++ tl) sol sv (mkInd (Z.of_nat n) StrictMode) b d) t
      (mkC tl false sv (mkInd (Z.of_nat n) StrictMode) b d2) /\ spent 32 ts d d2.
  Proof.
    intros Hl Ht Hf Hr. pose proof (stops_calm fuel f0 _ _ Ht) as Cy.
    destruct Hl as [s ts s2 ts2 Hp H2|o ts s2 ts2 c Ho Hft H2 Hc|o ts s2 ts2 c Ho Hft H2 Hc].
    - exists d. split; [|apply spent_none; lia]. destruct (plain_head _ _ Hp) as (w & q & E & [W _]). rewrite <- app_assoc.
      assert (G : forall sv0, runs (parse_plain fuel FlowOut) (mkC (ts ++ ts2 ++ tl) sol sv0 (mkInd (Z.of_nat n) StrictMode) b d) (NText (s ++ s2) UnknownQuoting)
        (mkC tl false sv0 (mkInd (Z.of_nat n) StrictMode) b d)) by (intro sv0; apply plain_lines_value; auto).
      subst ts. cbn [app] in *. apply content_plain; auto.
    - assert (B : bare o = true) by (unfold bare; rewrite Ho; reflexivity).
      set (all := o :: ts ++ ts2 ++ c :: tl).
      assert (E : (o :: ts ++ ts2 ++ [c]) ++ tl = all) by (subst all; cbn [app]; rewrite <- !app_assoc; reflexivity). rewrite E.
      destruct (plain_mark fuel FlowOut o (ts ++ ts2 ++ c :: tl) sol ((all, live sol) :: sv) (mkInd (Z.of_nat n) StrictMode) b d)
        as (d1 & R1 & S1); auto.
      { assert (Hj : room 1 (o :: ts ++ ts2 ++ [c]) d) by (eapply weaken_room; [|exact Hr]; lia). cost. }
      exists d1. split; [|eapply (weaken_spent 32 1); [lia|]; clear Hr; cost].
      subst all. eapply content_json; eauto. unfold json_content. destruct fuel as [|m] eqn:Ef; [lia|]. cbn [parse_flow_json_content]. rewrite <- Ef in *.
      unfold json_content_body. go1; [go|]. rewrite Ho. unfold parse_single_quoted.
      apply (quoted_lines fuel some_fuel TSingleQuote); auto; [left; reflexivity|]. cbn [length] in Hf. rewrite app_assoc, app_length in Hf. lia.
    - assert (B : bare o = true) by (unfold bare; rewrite Ho; reflexivity).
      set (all := o :: ts ++ ts2 ++ c :: tl).
      assert (E : (o :: ts ++ ts2 ++ [c]) ++ tl = all) by (subst all; cbn [app]; rewrite <- !app_assoc; reflexivity). rewrite E.
      destruct (plain_mark fuel FlowOut o (ts ++ ts2 ++ c :: tl) sol ((all, live sol) :: sv) (mkInd (Z.of_nat n) StrictMode) b d)
        as (d1 & R1 & S1); auto.
      { assert (Hj : room 1 (o :: ts ++ ts2 ++ [c]) d) by (eapply weaken_room; [|exact Hr]; lia). cost. }
      exists d1. split; [|eapply (weaken_spent 32 1); [lia|]; clear Hr; cost].
      subst all. eapply content_json; eauto. unfold json_content. destruct fuel as [|m] eqn:Ef; [lia|]. cbn [parse_flow_json_content]. rewrite <- Ef in *.
      unfold json_content_body. go1; [go|]. rewrite Ho. unfold parse_double_quoted.
      apply (quoted_lines fuel some_fuel TDoubleQuote); auto; [right; reflexivity|]. cbn [length] in Hf. rewrite app_assoc, app_length in Hf. lia.
  Qed.
  Lemma inner_content n t ts tl sol sv b d : inner n t ts -> stops fuel n tl -> length ts < fuel -> under sv (ts ++ tl) -> room 32 ts d ->
    exists d2, runs (parse_flow_content fuel (json_content fuel) FlowOut) (mkC (ts ++ tl) sol sv (mkInd (Z.of_nat n) StrictMode) b d) t
      (mkC tl false sv (mkInd (Z.of_nat n) StrictMode) b d2) /\ spent 32 ts d d2.
  Proof. intros [Hl|Hl] Ht Hf Hu Hr; [apply line_value; auto|apply folded_value; auto]. Qed.
  Lemma inner_value n t ts tl sol sv b d : inner n t ts -> stops fuel n tl -> length ts < fuel -> under sv (ts ++ tl) -> room 32 ts d ->
    exists d2, runs (parse_flow_node fuel (json_content fuel) FlowOut) (mkC (ts ++ tl) sol sv (mkInd (Z.of_nat n) StrictMode) b d) t
      (mkC tl false sv (mkInd (Z.of_nat n) StrictMode) b d2) /\ spent 32 ts d d2.
  Proof.
    intros Hl Ht Hf Hu Hr. pose proof (inner_valid n t ts Hl) as V. destruct (inner_head n t ts Hl) as (x & r & E & Hx).
    destruct (inner_content n t ts tl sol ((ts ++ tl, live sol) :: sv) b d) as (d2 & R & S2); auto. exists d2. split; [|exact S2].
    unfold parse_flow_node, parse_generic_flow_node. go1. go1; [go|].
    mid NInvalid (mkC (ts ++ tl) sol ((ts ++ tl, live sol) :: sv) (mkInd (Z.of_nat n) StrictMode) b d).
    { subst ts. apply alias_no. unfold head in Hx. intro A. rewrite A in Hx. discriminate. }
    decide1. go1; [go|]. go1; [go|]. go1; [exact R|]. rewrite V. go.
  Qed.

  (** a collection or a quoted scalar that does not end on its line *)
  Lemma open_no_entry bn bi o r ts2 sol2 sol sv i b d d1 : bare o = true ->
    let cp := (o :: r, live sol) in
    runs (json_content fuel BlockKey) (mkC (o :: r) sol (cp :: cp :: sv) (mkInd 0 StrictMode) b d) NInvalid
      (mkC ts2 sol2 (cp :: cp :: sv) (mkInd 0 StrictMode) b d1) ->
    room 1 [o] d1 -> exists d2,
    runs (parse_block_mapping_entry fuel bn bi) (mkC (o :: r) sol sv i b d) NInvalid (mkC (o :: r) sol sv i b d2) /\ spent 1 [o] d1 d2.
  Proof.
    intros B cp R Hr. subst cp. destruct (bare_not _ B) as (B1 & B2 & B3 & B4 & B5).
    destruct (yaml_node_mark fuel BlockKey o r sol ((o :: r, live sol) :: sv) (mkInd 0 StrictMode) b d1 eq_refl B Hr) as (d2 & R2 & S2).
    exists d2. split; [|exact S2].
    assert (G : runs (parse_block_mapping_implicit_entry fuel bn) (mkC (o :: r) sol sv i b d) NInvalid (mkC (o :: r) sol sv i b d2)).
    { unfold parse_block_mapping_implicit_entry. go1. go1; [go|].
      mid NInvalid (mkC (o :: r) sol ((o :: r, live sol) :: sv) i b d2).
      { unfold parse_block_mapping_implicit_key. go1. go1; [go|].
        mid NInvalid (mkC ts2 sol2 ((o :: r, live sol) :: (o :: r, live sol) :: sv) i b d1).
        { unfold parse_implicit_json_key. go1. go1; [go1; apply json_node_fails; eauto|]. go. }
        decide1. go1; [go|]. unfold parse_implicit_yaml_key. go1. go1; [go1; exact R2|]. go. }
      mid NNull (mkC (o :: r) sol sv i b d2); [decide1; go|].
      mid NInvalid (mkC (o :: r) sol sv i b d2); [|go].
      unfold parse_block_mapping_implicit_value. go1. go1; [go|]. rewrite (ttype_eqb_no _ _ B5). go. }
    unfold parse_block_mapping_entry. go1.
    mid (tok_type o) (mkC (o :: r) sol sv i b d); [apply runs_tok_ty|].
    destruct (tok_type o); try (exfalso; apply B4; reflexivity); exact G.
  Qed.

  (** a value without the colon is no entry *)
  Lemma line_no_entry n bn bi t ts sps y r sol sv i b d : line n t ts -> blanks sps -> length sps < fuel -> tok_type y <> TString -> is_white_space y = false -> calm y = true ->
    tok_type y <> TMappingValue -> length ts < fuel -> under sv (ts ++ sps ++ y :: r) -> room 32 ts d -> exists ts2 sol2 d2,
    runs (parse_block_mapping_entry fuel bn bi) (mkC (ts ++ sps ++ y :: r) sol sv i b d) NInvalid (mkC ts2 sol2 sv i b d2) /\
    spent 32 ts d d2.
  Proof.
    intros Hl Hsp Hfs H1 H2 H3 H4 Hf Hu Hr. pose proof (inner_valid n t ts (or_introl Hl)) as V. destruct (inner_head n t ts (or_introl Hl)) as (x & q & E & Hx).
    assert (Done : (exists d2, (forall cp : list token * mark, cp = (ts ++ sps ++ y :: r, live sol) ->
      runs (parse_block_mapping_implicit_key fuel) (mkC (ts ++ sps ++ y :: r) sol (cp :: sv) i b d) t (mkC (y :: r) false (cp :: sv) i b d2)) /\
      spent 32 ts d d2) -> exists ts2 sol2 d2,
      runs (parse_block_mapping_entry fuel bn bi) (mkC (ts ++ sps ++ y :: r) sol sv i b d) NInvalid (mkC ts2 sol2 sv i b d2) /\
      spent 32 ts d d2).
    { intros (d2 & R & S2). exists (y :: r), false, d2. split; [|exact S2].
      unfold parse_block_mapping_entry. go1.
      mid (tok_type x) (mkC (ts ++ sps ++ y :: r) sol sv i b d); [subst ts; apply runs_tok_ty|].
      assert (G : runs (parse_block_mapping_implicit_entry fuel bn) (mkC (ts ++ sps ++ y :: r) sol sv i b d) NInvalid (mkC (y :: r) false sv i b d2)).
      { unfold parse_block_mapping_implicit_entry. go1. go1; [go|]. go1; [apply R; reflexivity|].
        rewrite V. mid t (mkC (y :: r) false sv i b d2); [go|].
        mid NInvalid (mkC (y :: r) false sv i b d2); [|go].
        unfold parse_block_mapping_implicit_value. go1. go1; [go|]. rewrite (ttype_eqb_no _ _ H4). go. }
      unfold head in Hx. destruct (tok_type x); try discriminate; exact G. }
    destruct (line_cases _ _ _ Hl) as [(s & -> & P)|(x2 & r2 & h & E2 & B & Hh & P)].
    - apply Done. exists d. split; [|apply spent_none; lia]. intros cp _. apply key_ok; auto. constructor. exact P.
    - pose proof (J_small h Hh) as Hj. rewrite E in E2. injection E2 as <- <-. subst ts. cbn [app] in *.
      destruct (bare_not _ B) as (B1 & B2 & B3 & _). set (cp := (x :: q ++ sps ++ y :: r, live sol)).
      assert (Hr2 : room (J h) (x :: q) d) by (eapply weaken_room; [|exact Hr]; lia).
      destruct (P fuel BlockKey 0 (sps ++ y :: r) sol (cp :: cp :: sv) b d) as (a & ts2 & sol2 & d2 & R2 & S2 & Ha); auto; try lia.
      { apply calm_blanks; auto. } { subst cp. cbn [app]. auto. }
      { destruct Hj as [Hj Hj2]. cbn [tl]. cost. }
      destruct Ha as [(-> & -> & ->)|(_ & ->)].
      + apply Done. exists d2. split; [|eapply (weaken_spent 32 (J h)); [lia|]; clear Hr; destruct Hj as [Hj Hj2]; cbn [tl] in *; cost].
        intros cp2 ->. unfold parse_block_mapping_implicit_key. go1. go1; [go|].
        mid t (mkC (y :: r) false (cp :: cp :: sv) i b d2); [|rewrite V; go].
        unfold parse_implicit_json_key. go1.
        mid t (mkC (sps ++ y :: r) false (cp :: cp :: sv) i b d2); [go1; apply (json_node_ok fuel (json_content fuel) BlockKey); auto; exact R2|].
        rewrite V. go1; [apply maybe_sep_no; auto|]. go.
      + clear Done. destruct Hj as [Hj Hj2]. cbn [tl] in S2.
        destruct (open_no_entry bn bi x (q ++ sps ++ y :: r) ts2 sol2 sol sv i b d d2 B R2) as (d3 & R3 & S3); [clear Hr; cost|].
        exists (x :: q ++ sps ++ y :: r), sol, d3. split; [exact R3|]. eapply (weaken_spent 32 (J h)); [lia|]. clear Hr. cost.
  Qed.

  Lemma inner_no_entry n bn bi t ts sps y r sol sv i b d : inner n t ts -> blanks sps -> length sps < fuel -> tok_type y <> TString -> is_white_space y = false -> calm y = true ->
    tok_type y <> TMappingValue -> length ts < fuel -> under sv (ts ++ sps ++ y :: r) -> room 32 ts d -> exists ts2 sol2 d2,
    runs (parse_block_mapping_entry fuel bn bi) (mkC (ts ++ sps ++ y :: r) sol sv i b d) NInvalid (mkC ts2 sol2 sv i b d2) /\
    spent 32 ts d d2.
  Proof.
    intros [Hl|Hl] Hsp Hfs H1 H2 H3 H4 Hf Hu Hr.
    { eapply line_no_entry; eauto. }
    assert (Scalar : scalar t ts -> exists ts2 sol2 d2,
      runs (parse_block_mapping_entry fuel bn bi) (mkC (ts ++ sps ++ y :: r) sol sv i b d) NInvalid (mkC ts2 sol2 sv i b d2) /\
      spent 32 ts d d2).
    { intro Hs. apply (line_no_entry n bn bi t); auto. exists 0. split; [lia|constructor; exact Hs]. }
    destruct Hl as [s ts s2 ts2 Hp Hr2|o ts s2 ts2 c Ho Hft Hr2 Hc|o ts s2 ts2 c Ho Hft Hr2 Hc].
    - destruct Hr2 as [|sp3 w j s3 ts3 s4 ts4 Hs3 Hj Hp3 _].
      { rewrite !app_nil_r in *. apply Scalar. constructor. exact Hp. }
      destruct (seam_head _ _ _ Hj) as (nl & z & -> & Hn). rewrite !app_length in Hf. cbn [length] in Hf.
      destruct (line_no_entry n bn bi (NText s UnknownQuoting) ts sp3 nl (z ++ ts3 ++ ts4 ++ sps ++ y :: r) sol sv i b d) as (ts5 & sol5 & d2 & R & S2); auto.
      + exists 0. split; [lia|constructor; constructor; exact Hp].
      + lia.
      + rewrite Hn. discriminate.
      + unfold is_white_space. rewrite Hn. reflexivity.
      + unfold calm. rewrite Hn. reflexivity.
      + rewrite Hn. discriminate.
      + lia.
      + rewrite <- !app_assoc in Hu. cbn [app] in Hu. rewrite <- ?app_assoc in Hu. exact Hu.
      + intro p. specialize (Hr p). rewrite charge_app in Hr. pose proof (charge_one 32 (sp3 ++ (nl :: z) ++ ts3 ++ ts4) p ltac:(lia)). lia.
      + eexists _, _, d2. split; [|intro p; specialize (S2 p); rewrite charge_app; pose proof (charge_one 32 (sp3 ++ (nl :: z) ++ ts3 ++ ts4) p ltac:(lia)); lia].
        rewrite <- !app_assoc. cbn [app]. rewrite <- ?app_assoc. exact R.
    - destruct ts2 as [|y2 ts2].
      { assert (s2 = []) as ->; [|rewrite app_nil_r in *; cbn [app] in *; apply Scalar; constructor; auto].
        inversion Hr2 as [|? ? Hj2|? ? ? ? ? ? Hj2]; subst; [reflexivity| |].
        - destruct (seam_head _ _ _ Hj2) as (? & ? & E2 & _); discriminate E2.
        - match goal with H : ?a ++ _ = [] |- _ => destruct (seam_head _ _ _ Hj2) as (? & ? & -> & _); discriminate H end. }
      assert (Hn : tok_type y2 = TLineBreak).
      { inversion Hr2 as [|? ? Hj2|? ? ? ? ? ? Hj2]; subst; destruct (seam_head _ _ _ Hj2) as (nl & z & E & Hn); [congruence|].
        subst. match goal with H : (_ :: _) ++ _ = _ |- _ => injection H as <- _ end. exact Hn. }
      assert (B : bare o = true) by (unfold bare; rewrite Ho; reflexivity).
      cbn [length] in Hf. rewrite !app_length in Hf.
      cbn [app]. rewrite <- !app_assoc. cbn [app].
      destruct (open_no_entry bn bi o (ts ++ y2 :: (ts2 ++ [c]) ++ sps ++ y :: r) (y2 :: (ts2 ++ [c]) ++ sps ++ y :: r) false sol sv i b d d B) as (d2 & R & S2).
      + unfold json_content. destruct fuel as [|m] eqn:Ef; [lia|]. cbn [parse_flow_json_content]. rewrite <- Ef in *.
        unfold json_content_body. go1; [go|]. rewrite Ho. unfold parse_single_quoted.
        apply (quoted_open fuel some_fuel TSingleQuote); auto; [left; reflexivity|lia].
      + assert (Hj : room 1 (o :: ts ++ (y2 :: ts2) ++ [c]) d) by (eapply weaken_room; [|exact Hr]; lia). clear Hr. cost.
      + eexists _, _, d2. split; [exact R|]. eapply (weaken_spent 32 1); [lia|]. clear Hr. cost.
    - destruct ts2 as [|y2 ts2].
      { assert (s2 = []) as ->; [|rewrite app_nil_r in *; cbn [app] in *; apply Scalar; constructor; auto].
        inversion Hr2 as [|? ? Hj2|? ? ? ? ? ? Hj2]; subst; [reflexivity| |].
        - destruct (seam_head _ _ _ Hj2) as (? & ? & E2 & _); discriminate E2.
        - match goal with H : ?a ++ _ = [] |- _ => destruct (seam_head _ _ _ Hj2) as (? & ? & -> & _); discriminate H end. }
      assert (Hn : tok_type y2 = TLineBreak).
      { inversion Hr2 as [|? ? Hj2|? ? ? ? ? ? Hj2]; subst; destruct (seam_head _ _ _ Hj2) as (nl & z & E & Hn); [congruence|].
        subst. match goal with H : (_ :: _) ++ _ = _ |- _ => injection H as <- _ end. exact Hn. }
      assert (B : bare o = true) by (unfold bare; rewrite Ho; reflexivity).
      cbn [length] in Hf. rewrite !app_length in Hf.
      cbn [app]. rewrite <- !app_assoc. cbn [app].
      destruct (open_no_entry bn bi o (ts ++ y2 :: (ts2 ++ [c]) ++ sps ++ y :: r) (y2 :: (ts2 ++ [c]) ++ sps ++ y :: r) false sol sv i b d d B) as (d2 & R & S2).
      + unfold json_content. destruct fuel as [|m] eqn:Ef; [lia|]. cbn [parse_flow_json_content]. rewrite <- Ef in *.
        unfold json_content_body. go1; [go|]. rewrite Ho. unfold parse_double_quoted.
        apply (quoted_open fuel some_fuel TDoubleQuote); auto; [right; reflexivity|lia].
      + assert (Hj : room 1 (o :: ts ++ (y2 :: ts2) ++ [c]) d) by (eapply weaken_room; [|exact Hr]; lia). clear Hr. cost.
      + eexists _, _, d2. split; [exact R|]. eapply (weaken_spent 32 1); [lia|]. clear Hr. cost.
  Qed.
End Leaves.
