(** Parsing the tokens of block collections gives the collections. *)
From Coq Require Import String ZArith.
From Verif Require Import Base YamlChar Token Ast Balance CPAccessor Lexer Parser ParserFlow ParserBlock ParserDocs ParserTape TextSpec TapeRules BlockParse1 BlockParse2 BlockParse3 BlockParse4 LitParse
  FlowParse1 FlowParse2 FlowParse3 FoldParse FlowParse4 LeafParse BlockParse5 BlockColl MarkParse.
Local Open Scope parser_scope.
Local Arguments cons {A}%type_scope & _ _.
Local Arguments pair {A B}%type_scope & _ _.

Lemma gap_dull g : gap g -> exists sps z q, g = sps ++ z :: q /\ blanks sps /\ dull z.
Proof.
  intros [u nl l Hu Hn Hl]. destruct (trailing_dull u nl [] Hu (or_introl Hn)) as (sps & z & q & E & H1 & H2 & _).
  rewrite !app_nil_r in E. exists sps, z, (q ++ l). split; [|auto].
  replace (u ++ nl :: l) with ((u ++ [nl]) ++ l) by (rewrite <- app_assoc; reflexivity). rewrite E, <- app_assoc. reflexivity.
Qed.

Section Main.
  Context (fuel : nat) (some_fuel : 1 < fuel).
  Let f0 : 0 < fuel. Proof. lia. Qed.

  Lemma comments_open_sol sps : sol_after sps false = false.
  Proof. destruct sps; reflexivity. Qed.

  (** ** after the dash *)
  Section Indented.
    Context (bn bi : context -> M node) (n : nat) (sps : list token) (x : token) (r : list token).
    Context (Hs : blanks sps) (Hx : is_white_space x = false) (Hf : length sps < fuel).

    Lemma indented_start sv b d : reach sps sv (x :: r) ->
      runs (with_ind (mkInd 0 LowerBoundMode) (parse_indent fuel)) (mkC (sps ++ x :: r) false sv (ind n) b d)
        (NIndent (Z.of_nat (length sps)), ind (length sps)) (mkC (x :: r) false sv (ind n) b d).
    Proof.
      intro Hr. go1. rewrite <- (comments_open_sol sps) at 2. apply (indent_lower_ok fuel 0 sps); auto. apply Nat.le_0_l.
    Qed.

    Lemma compact_seq_no sol sv i b d : tok_type x <> TSequenceEntry ->
      runs (with_ind i (parse_compact_sequence fuel bi)) (mkC (x :: r) sol sv (ind n) b d) (NInvalid, i)
           (mkC (x :: r) sol sv (ind n) b d).
    Proof.
      intro H. go1. unfold parse_compact_sequence, compact_collection. go1. go1; [apply seq_entry_no, H|]. go.
    Qed.
  End Indented.

  Lemma merged n k : mkInd (ind_value (ind n) + 1 + ind_value (ind k)) StrictMode = ind (n + 1 + k).
  Proof. cbn. f_equal. lia. Qed.

  Lemma indented_leaf bn bi n t sps ts tl tl2 sol2 sv b d :
    blanks sps -> sps <> [] -> leaf (S n) t ts -> lands (Z.of_nat n) tl tl2 sol2 -> length (sps ++ ts ++ tl) < fuel -> flat sv -> room 32 ts d ->
    exists d1, spent 32 ts d d1 /\ forall d2,
   (runs (bn BlockIn) (mkC (sps ++ ts ++ tl) false ((sps ++ ts ++ tl, lost) :: sv) (ind n) b d1) t
         (mkC tl2 sol2 ((sps ++ ts ++ tl, lost) :: sv) (ind n) b d2) ->
    runs (block_indented_body fuel bn bi BlockIn) (mkC (sps ++ ts ++ tl) false sv (ind n) b d) t
         (mkC tl2 sol2 sv (ind n) b d2)).
  Proof.
    intros Hsp Hne Hs Hl Hf Hfl Hr. rewrite !app_length in Hf. destruct (leaf_head _ _ _ Hs) as (x & r & E & Hx).
    destruct (lead_facts _ Hx) as (Mx & Wx & Cx & Dx).
    destruct (lands_start _ _ _ _ Hl) as (sp2 & z & q & Ez & Hs2 & Hz & Lz). destruct (dull_bare _ Hz) as (_ & _ & Z1 & Z2 & Z3 & Z4 & _).
    set (all := sps ++ ts ++ tl). set (cp := (all, live false)).
    assert (Lo : low (cp :: sv) (ts ++ tl)).
    { subst cp all ts. cbn [app]. apply low_before; auto. }
    destruct (leaf_no_entry fuel some_fuel (S n) bn bi t ts sp2 z (q ++ tl2) false (cp :: sv) (ind (n + 1 + length sps)) b d) as (ts9 & sol9 & d1 & R1 & S1); auto; [nums|nums| |].
    { rewrite <- Ez. subst ts. cbn [app] in *. apply low_under; auto. }
    rewrite <- Ez in R1.
    exists d1. split; [exact S1|]. intros d2 R.
    unfold block_indented_body. go1. go1; [go|].
    mid (NIndent (Z.of_nat (length sps)), ind (length sps)) (mkC (ts ++ tl) false (cp :: sv) (ind n) b d).
    { subst all ts. cbn [app] in *. apply indented_start; auto; [nums|apply reach_low; auto]. }
    go1; [go|]. go1; [go|]. cbv zeta. cbn [snd]. rewrite merged.
    mid (NInvalid, ind (n + 1 + length sps)) (mkC (ts ++ tl) false ((ts ++ tl, live false) :: cp :: sv) (ind n) b d).
    { subst ts. cbn [app]. apply compact_seq_no; auto. }
    decide1. go1; [go|]. cbn [snd].
    mid (NInvalid, ind (n + 1 + length sps)) (mkC ts9 sol9 (cp :: sv) (ind n) b d1).
    { go1. unfold parse_compact_mapping, compact_collection. go1. go1; [exact R1|]. go. }
    decide1. go1; [go|]. go1; [go|]. apply runs_lose. go1; [exact R|]. rewrite (leaf_valid _ _ _ Hs). go.
  Qed.

  Lemma indented_coll o kind n m es sps ts i tl tl2 sol2 sv b d :
    blanks sps -> P_entries fuel o kind (n + 1 + length sps) es ts -> (exists x r, ts = x :: r /\ dash_head kind x) ->
    length ts + 1 <= m -> length (sps ++ ts ++ tl) < fuel -> goes o i tl tl2 sol2 -> (i <= Z.of_nat n)%Z -> joined ts tl -> flat sv ->
    fresh d (ts ++ tl) -> exists d2,
    runs (block_indented_body fuel (block fuel m false) (block fuel m true) BlockIn) (mkC (sps ++ ts ++ tl) false sv (ind n) b d)
         (build kind es) (mkC tl2 sol2 sv (ind n) b d2) /\ fresh d2 tl2.
  Proof.
    intros Hsp P (x & r & E & Hx & Hk) Hm Hf Hl Hi Hj Hfl Hd. rewrite !app_length in Hf.
    assert (Re : forall s, reach sps s (x :: r ++ tl)) by (intro; apply reach_calm, solid_calm, Hx).
    destruct kind.
    - destruct (compact_ok fuel some_fuel o true (n + 1 + length sps) es ts m i tl tl2 false sol2
        ((ts ++ tl, lost) :: (sps ++ ts ++ tl, lost) :: sv) b d) as (d2 & R & F); auto; try lia.
      { rewrite app_length. lia. }
      exists d2. split; [|apply F; auto].
      subst ts. cbn [app] in *. unfold block_indented_body. go1. go1; [go|].
      go1; [apply indented_start; auto using solid_white; lia|]. apply runs_lose. go1; [go|]. apply runs_lose. go1; [go|]. cbv zeta. cbn [snd]. rewrite merged.
      go1; [go1; exact R|]. go.
    - destruct (compact_ok fuel some_fuel o false (n + 1 + length sps) es ts m i tl tl2 false sol2
        ((sps ++ ts ++ tl, lost) :: sv) b d) as (d2 & R & F); auto; try lia.
      { rewrite app_length. lia. }
      exists d2. split; [|apply F; lia].
      subst ts. cbn [app] in *. unfold block_indented_body. go1. go1; [go|].
      go1; [apply indented_start; auto using solid_white; lia|]. apply runs_lose. go1; [go|]. go1; [go|]. cbv zeta. cbn [snd]. rewrite merged.
      go1; [apply compact_seq_no; auto|]. decide1. go1; [go|]. cbn [snd]. go1; [go1; exact R|]. go.
  Qed.

  (** no collection and no flow node after the dash on its line *)
  Lemma indented_bare bn bi n sps z q sv b d : blanks sps -> bare z = true -> no_json (tok_type z) = true -> is_white_space z = false ->
    calm z = true -> tok_type z <> TSequenceEntry -> length sps < fuel -> room 1 [z] d ->
    exists d1, spent 1 [z] d d1 /\ forall s c2 t, s = live false \/ s = lost ->
    runs (content <- bn BlockIn ;;
          if valid_node content then commit ;; ret content
          else
            rollback ;;
            ok <- valid (parse_comments fuel) ;;
            if ok : bool then ret NNull else invalid)
      (mkC (sps ++ z :: q) false ((sps ++ z :: q, s) :: sv) (ind n) b d1) t c2 ->
    runs (block_indented_body fuel bn bi BlockIn) (mkC (sps ++ z :: q) false sv (ind n) b d) t c2.
  Proof.
    intros Hs Z0 Zj Z2 Z3 Z5 Hf Hr.
    set (all := sps ++ z :: q).
    destruct (entry_none fuel some_fuel bn bi z q false ((all, live false) :: sv) (ind (n + 1 + length sps)) b d Z0 Zj Hr) as (d1 & R1 & Sd).
    exists d1. split; [exact Sd|]. intros s c2 t Es R.
    unfold block_indented_body. go1. go1; [go|].
    go1; [apply indented_start; auto; apply reach_calm, Z3|].
    go1; [go|]. go1; [go|]. cbv zeta. cbn [snd]. rewrite merged.
    go1; [apply compact_seq_no; auto|]. decide1. go1; [go|]. cbn [snd].
    mid (NInvalid, ind (n + 1 + length sps)) (mkC (z :: q) false ((all, live false) :: sv) (ind n) b d1).
    { go1. unfold parse_compact_mapping, compact_collection. go1. go1; [exact R1|]. go. }
    decide1. go1; [go|]. destruct Es as [-> | ->].
    - go1; [go|]. exact R.
    - go1; [go|]. apply runs_lose. exact R.
  Qed.

  (** a tag or an anchor after the dash, and no flow node behind it on its line *)
  Lemma indented_marked bn bi n sps p pts sps2 z q t tl2 sol2 sv b d : blanks sps -> sps <> [] -> props NInvalid p pts -> blanks sps2 ->
    bare z = true -> no_json (tok_type z) = true -> is_white_space z = false -> calm z = true -> tok_type z <> TMappingValue ->
    length (sps ++ pts ++ sps2) < fuel -> room 1 (pts ++ sps2 ++ [z]) d -> valid_node t = true ->
    let all := sps ++ pts ++ sps2 ++ z :: q in
    exists d1, spent 1 (pts ++ sps2 ++ [z]) d d1 /\ forall d2,
   (runs (bn BlockIn) (mkC all false ((all, lost) :: sv) (ind n) b d1) t (mkC tl2 sol2 ((all, lost) :: sv) (ind n) b d2) ->
    runs (block_indented_body fuel bn bi BlockIn) (mkC all false sv (ind n) b d) t (mkC tl2 sol2 sv (ind n) b d2)).
  Proof.
    intros Hs Hn Hp Hs2 Z0 Zj Z2 Z3 Z5 Hf Hr V all. rewrite !app_length in Hf.
    destruct (props_head _ _ _ Hp) as (x & pr & Ep & Hx & _). destruct (mark_head_no _ Hx) as (_ & _ & X3 & _).
    assert (Wx : is_white_space x = false) by (unfold mark_head in Hx; unfold is_white_space; destruct (tok_type x); try discriminate; reflexivity).
    assert (Dx : tok_type x <> TSequenceEntry) by (intro A; unfold mark_head in Hx; rewrite A in Hx; discriminate).
    set (cp := (all, live false)).
    destruct (props_no_entry fuel some_fuel bn bi p pts sps2 z q false (cp :: sv) (ind (n + 1 + length sps)) b d) as (d1 & R1 & S1); auto; [rewrite app_length; lia|].
    exists d1. split; [exact S1|]. intros d2 R.
    unfold block_indented_body. go1. go1; [go|].
    mid (NIndent (Z.of_nat (length sps)), ind (length sps)) (mkC (pts ++ sps2 ++ z :: q) false (cp :: sv) (ind n) b d).
    { subst all pts. cbn [app] in *. apply indented_start; auto. nums. }
    go1; [go|]. go1; [go|]. cbv zeta. cbn [snd]. rewrite merged.
    mid (NInvalid, ind (n + 1 + length sps)) (mkC (pts ++ sps2 ++ z :: q) false ((pts ++ sps2 ++ z :: q, live false) :: cp :: sv) (ind n) b d).
    { subst pts. cbn [app]. apply compact_seq_no; auto. }
    decide1. go1; [go|]. cbn [snd].
    mid (NInvalid, ind (n + 1 + length sps)) (mkC (z :: q) false (cp :: sv) (ind n) b d1).
    { go1. unfold parse_compact_mapping, compact_collection. go1. go1; [exact R1|]. go. }
    decide1. go1; [go|]. go1; [go|]. apply runs_lose. go1; [exact R|]. rewrite V. go.
  Qed.

  (** nothing after the dash on its line *)
  Lemma indented_dull bn bi n sps z q sv b d : blanks sps -> dull z -> length sps < fuel -> flat sv -> room 1 [z] d ->
    exists d1, spent 1 [z] d d1 /\ forall s c2 t, s = live false \/ s = lost ->
    runs (content <- bn BlockIn ;;
          if valid_node content then commit ;; ret content
          else
            rollback ;;
            ok <- valid (parse_comments fuel) ;;
            if ok : bool then ret NNull else invalid)
      (mkC (sps ++ z :: q) false ((sps ++ z :: q, s) :: sv) (ind n) b d1) t c2 ->
    runs (block_indented_body fuel bn bi BlockIn) (mkC (sps ++ z :: q) false sv (ind n) b d) t c2.
  Proof.
    intros Hs Hz Hf Hfl Hr. destruct (dull_bare _ Hz) as (Z0 & Zj & Z1 & Z2 & Z3 & Z4 & Z5 & Z6). apply indented_bare; auto.
  Qed.

  Lemma pafter_value m all t tl2 sol2 sv i b d d2 : valid_node t = true ->
    runs (block fuel m false BlockOut) (mkC all false ((all, lost) :: sv) i b d) t (mkC tl2 sol2 ((all, lost) :: sv) i b d2) ->
    runs (pafter fuel false m) (mkC all false sv i b d) t (mkC tl2 sol2 sv i b d2).
  Proof. intros V R. cbn [pafter]. go1; [go|]. apply runs_lose. go1; [exact R|]. rewrite V. go. Qed.

  (** a value on the following lines *)
  Lemma after_next k2 n m g r t tl2 sol2 sv b d : gap g -> length (g ++ r) < fuel -> valid_node t = true -> flat sv -> fresh d (g ++ r) ->
    (forall m2 ctx d1 sv, m <= m2 -> ctx = BlockIn /\ k2 = true \/ ctx = BlockOut /\ k2 = false -> flat sv -> fresh d1 r -> exists d2,
      runs (block_node_body fuel (block fuel m2 false) (block fuel m2 true) ctx) (mkC (g ++ r) false sv (ind n) b d1) t
        (mkC tl2 sol2 sv (ind n) b d2) /\ fresh d2 tl2) ->
    exists d2, runs (pafter fuel k2 (S (S m))) (mkC (g ++ r) false sv (ind n) b d) t (mkC tl2 sol2 sv (ind n) b d2) /\ fresh d2 tl2.
  Proof.
    intros Hg Hf V Hfl Hd H. destruct (gap_dull g Hg) as (sps & z & q & E & Hs & Hz).
    assert (Ea : g ++ r = sps ++ z :: q ++ r) by (rewrite E, <- app_assoc; reflexivity).
    rewrite Ea in Hf. rewrite app_length in Hf. cbn [length] in Hf.
    pose proof (fresh_tail _ _ _ Hd) as F0. rewrite Ea in Hd. apply fresh_tail in Hd.
    destruct k2.
    - destruct (indented_dull (block fuel (S m) false) (block fuel (S m) true) n sps z (q ++ r) sv b d) as (d1 & Sd & G); auto; [lia| |].
      { apply (fresh_room 1 d [z] (q ++ r)); auto. lia. }
      destruct (H m BlockIn d1 ((g ++ r, lost) :: sv)) as (d2 & R & F); auto.
      { eapply (fresh_tail _ q). eapply (fresh_spent 1 d [z]); [exact Hd|lia|exact Sd]. }
      exists d2. split; [|exact F]. cbn [pafter]. rewrite Ea in *. apply (G lost); auto. go1; [exact R|]. rewrite V. go.
    - destruct (H (S m) BlockOut d ((g ++ r, lost) :: sv)) as (d2 & R & F); auto.
      exists d2. split; [|exact F]. apply pafter_value; auto.
  Qed.

  Lemma gap_first g : gap g -> exists y q, g = y :: q /\ (tok_type y = TSpace \/ tok_type y = TLineBreak).
  Proof.
    intros [u nl l [[|s sps] Hs|[|s sps] c txt Hs Hn Hc Ht] Hn2 Hl]; cbn [app]; eauto; try congruence;
      inversion Hs; subst; eauto.
  Qed.
  Lemma after_first o k n t ts i tl tl2 sol2 : after o k n t ts -> goes o i tl tl2 sol2 -> exists y q, ts ++ tl = y :: q /\
    (tok_type y = TSpace \/ tok_type y = TLineBreak \/ ts = [] /\ tok_type y = TEOF).
  Proof.
    assert (B : forall sps ts tl, blanks sps -> sps <> [] -> exists y q, (sps ++ ts) ++ tl = y :: q /\
      (tok_type y = TSpace \/ tok_type y = TLineBreak \/ sps ++ ts = [] /\ tok_type y = TEOF)).
    { intros [|s sps] ts0 tl0 Hs Hn; [congruence|]. inversion Hs; subst. exists s, ((sps ++ ts0) ++ tl0). auto. }
    assert (G : forall g ts tl, gap g -> exists y q, (g ++ ts) ++ tl = y :: q /\
      (tok_type y = TSpace \/ tok_type y = TLineBreak \/ g ++ ts = [] /\ tok_type y = TEOF)).
    { intros g ts0 tl0 Hg. destruct (gap_first _ Hg) as (y & q & -> & H). exists y, ((q ++ ts0) ++ tl0). destruct H; auto. }
    intros H Hl. destruct H; auto. destruct (lands_first _ _ _ _ Hl) as (y & q & -> & Hy). exists y, q. destruct Hy as [|[|]]; auto.
  Qed.

  (** ** every node *)
  Theorem grammar_ok :
    (forall o kind n e ts, entry o kind n e ts -> P_entry fuel o kind n e ts) /\
    (forall o kind n t ts, after o kind n t ts -> P_after fuel o kind n t ts) /\
    (forall o kind n es ts, entries o kind n es ts -> P_entries fuel o kind n es ts).
  Proof.
    apply grammar_ind.
    - (* sequence entry *)
      intros o n t dsh ts Hds Ha IH m tl tl2 sol sol2 sv b d Hm Hf Hl _ Hj Hfl Hd. cbn [app length] in *.
      assert (Hst : ts = [] -> starts tl) by (intros ->; apply Hj; exists [], dsh; auto).
      destruct (IH m tl tl2 sol2 sv b d) as (d2 & R & F); auto; try lia; [eapply (joined_tail [dsh]), Hj|eapply fresh_next, Hd|].
      exists d2. split; [|exact F]. cbn [pentry]. unfold parse_block_sequence_entry. go1. go1; [go|]. rewrite Hds.
      decide1.
      assert (Hh : exists y q, ts ++ tl = y :: q /\ (tok_type y = TSpace \/ tok_type y = TLineBreak)).
      { destruct (after_first _ _ _ _ _ _ _ _ _ Ha Hl) as (y & q & E & [H|[H|[E2 H]]]); eauto.
        destruct (Hst E2) as (y2 & q2 & E3 & H3). subst ts. cbn [app] in E. congruence. }
      destruct Hh as (y & q & E & Hy). rewrite E in *.
      go1; [apply runs_next, may_calm; cbn; unfold calm; destruct Hy as [-> | ->]; reflexivity|]. rewrite Hds. cbn [is_start_of_line].
      go1; [go|]. destruct Hy as [Hy|Hy]; rewrite Hy; exact R.
    - (* mapping entry *)
      intros o n k kts sps c t ts Hk Hsp Hc Ha IH m tl tl2 sol sol2 sv b d Hm Hf Hl Hnd Hj Hfl Hd.
      rewrite <- !app_assoc in *. cbn [app] in *. rewrite !app_length in *. cbn [length] in *. rewrite app_length in *.
      assert (Lk : 0 < length kts) by (destruct (scalar_head _ _ Hk) as (? & ? & -> & _); cbn; lia).
      destruct (after_first _ _ _ _ _ _ _ _ _ Ha Hl) as (y & q & Ey & Hy).
      set (ts0 := ts ++ tl). fold ts0 in Hd.
      destruct (IH m tl tl2 sol2 sv b d) as (d2 & R & F); auto; try lia.
      { rewrite app_length. lia. }
      { eapply (joined_tail [c]), (joined_tail sps), (joined_tail kts). exact Hj. }
      { do 2 apply fresh_tail in Hd. eapply fresh_next, Hd. }
      exists d2. split; [|exact F]. cbn [pentry].
      assert (Cc : calm c = true) by (unfold calm; rewrite Hc; reflexivity).
      assert (Wc : is_white_space c = false) by (unfold is_white_space; rewrite Hc; reflexivity).
      unfold parse_block_mapping_entry. go1. destruct (scalar_head _ _ Hk) as (x & r & E & Hx & _).
      mid (tok_type x) (mkC (kts ++ sps ++ c :: ts0) sol sv (ind n) b d).
      { subst kts. apply runs_tok_ty. }
      assert (G : runs (parse_block_mapping_implicit_entry fuel (block fuel m false)) (mkC (kts ++ sps ++ c :: ts0) sol sv (ind n) b d)
                (NEntry k t) (mkC tl2 sol2 sv (ind n) b d2)).
      { unfold parse_block_mapping_implicit_entry. go1. go1; [go|].
        go1; [apply (key_ok fuel some_fuel k); auto; [lia|congruence|lia]|].
        rewrite (scalar_valid _ _ Hk). mid k (mkC (c :: ts0) false sv (ind n) b d); [go|].
        mid t (mkC tl2 sol2 sv (ind n) b d2); [|rewrite (after_valid _ _ _ _ _ Ha); go].
        rewrite value_unfold. go1. go1; [go|]. rewrite Hc. decide1.
        go1; [apply runs_next, may_calm; subst ts0; rewrite Ey; cbn; unfold calm; destruct Hy as [-> |[-> |[_ ->]]]; reflexivity|].
        rewrite Hc. cbn [is_start_of_line]. exact R. }
      unfold solid in Hx. destruct (tok_type x); try discriminate; exact G.
    - (* a leaf *)
      intros kind n t sps ts Hsp Hne Hs m tl tl2 sol2 sv b d Hm Hf Hl _ _ _ Hfl Hd. rewrite <- app_assoc in *. rewrite !app_length in *.
      assert (Ls : 0 < length ts) by (destruct (leaf_head _ _ _ Hs) as (? & ? & -> & _); cbn; lia).
      assert (Hd2 : fresh d (ts ++ tl)) by (eapply fresh_tail, Hd).
      assert (Hr : room 64 ts d) by (eapply fresh_room; [exact Hd2|lia]).
      assert (Hr2 : room 32 ts d) by (eapply weaken_room; [|exact Hr]; lia).
      destruct m as [|[|m]]; [lia|lia|]. destruct kind.
      + destruct (indented_leaf (block fuel (S m) false) (block fuel (S m) true) n t sps ts tl tl2 sol2 sv b d) as (d1 & S1 & G); auto; [rewrite !app_length; lia|].
        destruct (node_leaf fuel some_fuel (block fuel m false) (block fuel m true) BlockIn (Z.of_nat n) (S n) t sps ts tl tl2 sol2
          ((sps ++ ts ++ tl, lost) :: sv) b d1) as (d2 & R & S2); auto; try (rewrite ?app_length; lia).
        { eapply room_half; eauto. }
        exists d2. split; [cbn [pafter block]; apply G; exact R|].
        eapply fresh_lands; [exact Hl|]. eapply (fresh_spent 64); [exact Hd2|lia|]. eapply spent_sum; eauto.
      + destruct (node_leaf fuel some_fuel (block fuel (S m) false) (block fuel (S m) true) BlockOut (Z.of_nat n) (S n) t sps ts tl tl2 sol2
          ((sps ++ ts ++ tl, lost) :: sv) b d) as (d2 & R & S2); auto; try (rewrite ?app_length; lia).
        exists d2. split; [apply pafter_value; [eapply leaf_valid, Hs|exact R]|].
        eapply fresh_lands; [exact Hl|]. eapply (fresh_spent 32); [exact Hd2|lia|exact S2].
    - (* a leaf on the following lines *)
      intros kind n t g sps ts Hg Hsp Hlen Hs m tl tl2 sol2 sv b d Hm Hf Hl _ _ _ Hfl Hd. rewrite <- !app_assoc in *.
      assert (Hm2 := Hm). rewrite !app_length in Hm2.
      destruct m as [|[|m]]; [lia|lia|].
      apply (after_next kind n m g (sps ++ ts ++ tl) t tl2 sol2 sv b d); auto; [eapply leaf_valid, Hs|].
      intros m2 ctx d1 sv1 _ Hctx Hfl1 Hd1. apply fresh_tail in Hd1.
      destruct (node_leaf_line fuel some_fuel (block fuel m2 false) (block fuel m2 true) ctx (Z.of_nat n) (S n) t g sps ts tl tl2 false sol2 sv1 b d1)
        as (d2 & R & S2); auto; try lia.
      { destruct Hctx as [[-> _]|[-> _]]; [auto|right; split; [reflexivity|lia]]. } { right. auto. }
      { eapply fresh_room; [exact Hd1|lia]. }
      exists d2. split; [exact R|]. eapply fresh_lands; [exact Hl|]. eapply (fresh_spent 64); [exact Hd1|lia|exact S2].
    - (* a collection on the line of the dash *)
      intros o kind n sps es ts Hsp Hne He IH m tl tl2 sol2 sv b d Hm Hf Hl _ Hj _ Hfl Hd. rewrite <- app_assoc in *. rewrite !app_length in Hm.
      assert (0 < length sps) by (destruct sps; [congruence|cbn; lia]).
      destruct m as [|m]; [lia|].
      destruct (indented_coll o kind n m es sps ts (Z.of_nat n) tl tl2 sol2 sv b d) as (d2 & R & F); auto; try lia.
      { eapply entries_head, He. } { eapply joined_tail, Hj. } { eapply fresh_tail, Hd. }
      exists d2. split; [exact R|exact F].
    - (* a collection on the following lines *)
      intros o k2 kind n g sps es ts Hg Hs Hlen He IH m tl tl2 sol2 sv b d Hm Hf Hl Hnd Hj _ Hfl Hd.
      rewrite <- !app_assoc in *. assert (Hm2 := Hm). rewrite !app_length in Hm2.
      assert (Lg : 0 < length g) by (pose proof (gap_some g Hg); destruct g; [congruence|cbn; lia]).
      destruct m as [|[|m]]; [lia|lia|].
      apply (after_next k2 n m g (sps ++ ts ++ tl) (build kind es) tl2 sol2 sv b d); auto; [apply build_valid|].
      intros m2 ctx d1 sv1 Hm3 Hctx Hfl1 Hd1. apply fresh_tail in Hd1.
      destruct (node_block fuel some_fuel o kind (length sps) es ts m2 (Z.of_nat n) ctx (Z.of_nat n) g sps tl tl2 false sol2 sv1 b d1)
        as (d2 & R & F); auto; try lia.
      { eapply entries_head, He. }
      { destruct Hlen as [Hlen|(-> & -> & Hlen)]; [left; lia|]. destruct Hctx as [[_ A]|[-> _]]; [discriminate A|]. right. rewrite Hlen. auto. }
      { destruct Hctx as [[-> _]|[-> _]]; [auto|right; split; [reflexivity|lia]]. } { right. auto. }
      { destruct Hlen as [Hlen|(-> & -> & Hlen)]; [left; lia|]. right. rewrite <- Hlen. repeat split; [lia|]. apply Hnd. reflexivity. }
      { do 2 eapply joined_tail in Hj. exact Hj. }
      exists d2. split; [exact R|]. apply F. destruct Hlen as [Hlen|(_ & -> & _)]; [left; lia|auto].
    - (* no value *)
      intros kind n m tl tl2 sol2 sv b d Hm Hf Hl Hnd _ Hst Hfl Hd. cbn [app length] in *.
      destruct (lands_start _ _ _ _ Hl) as (sps & z & q & Ez & Hs & Hz & Lz).
      destruct m as [|[|m]]; [lia|lia|].
      assert (Hd2 : fresh d (z :: q ++ tl2)) by (rewrite Ez in Hd; eapply fresh_tail, Hd).
      assert (Hr : forall k, (0 <= k <= 64)%Z -> room k [z] d) by (intros; eapply (fresh_room k d [z] (q ++ tl2)); auto).
      destruct kind.
      + destruct (indented_dull (block fuel (S m) false) (block fuel (S m) true) n sps z (q ++ tl2) sv b d) as (d1 & S1 & G); auto; [lia|apply Hr; lia|].
        destruct (block_node_none fuel some_fuel (block fuel m false) (block fuel m true) BlockIn n tl tl2 sol2 sps z (q ++ tl2)
          ((sps ++ z :: q ++ tl2, live false) :: sv) b d1) as (ts3 & d2 & R & S2); auto; [lia| |].
        { intro p. specialize (Hr 2%Z ltac:(lia) p). specialize (S1 p). unfold charge in *. lia. }
        exists d2. split.
        * cbn [pafter]. rewrite Ez. cbn [block]. apply (G (live false)); auto. cbn [block]. rewrite <- Ez in *. go1; [exact R|].
          decide1. go1; [go|]. go1; [go1; eapply comments_lands; [exact some_fuel|exact Hl|lia]|]. go.
        * eapply (fresh_tail _ q). eapply (fresh_spent 2 d [z]); [exact Hd2|lia|].
          intro p. specialize (S1 p). specialize (S2 p). unfold charge in *. lia.
      + destruct (block_node_none fuel some_fuel (block fuel (S m) false) (block fuel (S m) true) BlockOut n tl tl2 sol2 sps z (q ++ tl2)
          ((tl, live false) :: sv) b d) as (ts3 & d2 & R & S2); auto; [lia|apply Hr; lia|].
        exists d2. split.
        * cbn [pafter]. go1; [go|]. go1; [exact R|].
          decide1. go1; [go|]. go1; [go1; eapply comments_lands; [exact some_fuel|exact Hl|lia]|]. go.
        * eapply (fresh_tail _ q). eapply (fresh_spent 1 d [z]); [exact Hd2|lia|exact S2].
    - (* a literal *)
      intros kind n t sps ts Hsp Hne Hs m tl tl2 sol2 sv b d Hm Hf Hl _ _ _ Hfl Hd. rewrite <- app_assoc in *. rewrite !app_length in *.
      destruct (literal_head _ _ _ Hs) as (z & r & E & Hz).
      assert (0 < length sps) by (destruct sps; [congruence|cbn; lia]).
      assert (Hd2 : fresh d (ts ++ tl)) by (eapply fresh_tail, Hd).
      assert (Z3 : calm z = true) by (unfold calm; destruct Hz as [Hz|Hz]; rewrite Hz; reflexivity).
      assert (Sep : forall ctx sv d, ctx = BlockIn \/ ctx = BlockOut -> runs (parse_separate fuel ctx) (mkC (sps ++ ts ++ tl) false sv (mkInd (Z.of_nat n + 1) StrictMode) b d) (NBasic IndentType)
        (mkC (ts ++ tl) false sv (mkInd (Z.of_nat n + 1) StrictMode) b d)).
      { intros ctx sv0 d0 Hc. subst ts. cbn [app]. apply separate_blanks; auto using reach_calm; [destruct Hc; subst; exact I|unfold middle; destruct Hz as [Hz|Hz]; rewrite Hz; reflexivity|lia]. }
      destruct m as [|[|m]]; [lia|lia|]. destruct kind.
      + destruct (indented_bare (block fuel (S m) false) (block fuel (S m) true) n sps z (r ++ tl) sv b d) as (d1 & S1 & G); auto; try (unfold bare, is_white_space, no_json; destruct Hz as [Hz|Hz]; rewrite Hz; first [reflexivity | discriminate]).
        { lia. } { apply (fresh_room 1 d [z] (r ++ tl)); [subst ts; exact Hd2|lia]. }
        exists d1. split.
        * cbn [pafter]. replace (sps ++ ts ++ tl) with (sps ++ z :: r ++ tl) in * by (rewrite E; reflexivity). cbn [block]. apply (G lost); auto. cbn [block].
          go1; [eapply (literal_node fuel some_fuel) with (a := NBasic IndentType); [exact Hs|exact Hl|apply Z.le_refl|rewrite app_length; lia|reflexivity|intro; apply Sep; auto]|].
          rewrite (literal_valid _ _ _ Hs). go.
        * eapply (fresh_goes true); [exact Hl|]. subst ts. cbn [app] in *. apply (fresh_tail _ r). eapply (fresh_spent 1 d [z]); [exact Hd2|lia|exact S1].
      + exists d. split; [|eapply (fresh_goes true); [exact Hl|eapply fresh_tail, Hd2]].
        apply pafter_value; [eapply literal_valid, Hs|]. cbn [block].
        eapply (literal_node fuel some_fuel) with (a := NBasic IndentType); [exact Hs|exact Hl|apply Z.le_refl|rewrite app_length; lia|reflexivity|intro; apply Sep; auto].
    - (* a tag or an anchor before a literal *)
      intros kind n p pts t sps sps2 ts Hsp Hne Hp Hsp2 Hne2 Hs m tl tl2 sol2 sv b d Hm Hf Hl _ _ _ Hfl Hd. rewrite <- !app_assoc in *. rewrite !app_length in Hm.
      destruct (literal_head _ _ _ Hs) as (z & r & E & Hz).
      assert (0 < length sps) by (destruct sps; [congruence|cbn; lia]).
      assert (0 < length sps2) by (destruct sps2; [congruence|cbn; lia]).
      assert (Hd2 : fresh d (pts ++ sps2 ++ ts ++ tl)) by (eapply fresh_tail, Hd).
      destruct m as [|[|m]]; [lia|lia|]. destruct kind.
      + destruct (indented_marked (block fuel (S m) false) (block fuel (S m) true) n sps p pts sps2 z (r ++ tl) (NContent p t) tl2 sol2 sv b d) as (d1 & S1 & G); auto;
          try (unfold bare, is_white_space, no_json, calm; destruct Hz as [Hz|Hz]; rewrite Hz; first [reflexivity | discriminate]).
        { rewrite !app_length in *. lia. }
        { apply (fresh_room 1 d _ (r ++ tl)); [|lia]. rewrite <- !app_assoc. subst ts. exact Hd2. }
        exists d1. split.
        2:{ eapply (fresh_goes true); [exact Hl|]. apply (fresh_tail _ r). eapply (fresh_spent 1 d (pts ++ sps2 ++ [z])); [|lia|exact S1].
            rewrite <- !app_assoc. subst ts. exact Hd2. }
        cbn [pafter]. replace (sps ++ pts ++ sps2 ++ ts ++ tl) with (sps ++ pts ++ sps2 ++ z :: r ++ tl) in * by (rewrite E; reflexivity). cbn [block]. apply G. cbn [block].
        replace (z :: r ++ tl) with (ts ++ tl) in * by (rewrite E; reflexivity).
        eapply (node_marked_literal fuel some_fuel); eauto; lia.
      + exists d. split; [|do 2 apply fresh_tail in Hd2; eapply (fresh_goes true); [exact Hl|eapply fresh_tail, Hd2]].
        apply pafter_value; [reflexivity|]. cbn [block]. eapply (node_marked_literal fuel some_fuel); eauto; lia.
    - (* a tag or an anchor before a collection on the following lines *)
      intros o k2 kind n p pts sps1 g sps es ts Hs1 Hn1 Hp Hg Hs Hlen He IH m tl tl2 sol2 sv b d Hm Hf Hl Hnd Hj _ Hfl Hd.
      rewrite <- !app_assoc in *. assert (Hm2 := Hm). rewrite !app_length in Hm2.
      assert (Lg : 0 < length g) by (pose proof (gap_some g Hg); destruct g; [congruence|cbn; lia]).
      assert (L1 : 0 < length sps1) by (destruct sps1; [congruence|cbn; lia]).
      assert (Hj2 : joined ts tl) by (do 4 eapply joined_tail in Hj; exact Hj).
      assert (Hd2 : fresh d (ts ++ tl)) by (do 4 apply fresh_tail in Hd; exact Hd).
      destruct (gap_dull g Hg) as (sps2 & z & q & E & Hs2 & Hz). destruct (dull_bare _ Hz) as (Z0 & Zj & Z1 & Z2 & Z3 & Z4 & Z5 & Z6).
      destruct m as [|[|m]]; [lia|lia|].
      destruct k2.
      + destruct (indented_marked (block fuel (S m) false) (block fuel (S m) true) n sps1 p pts sps2 z (q ++ sps ++ ts ++ tl) (NContent p (build kind es)) tl2 sol2 sv b d)
          as (d1 & S1 & G); auto; try congruence.
        { subst g. rewrite !app_length in *. lia. }
        { apply (fresh_room 1 d _ (q ++ sps ++ ts ++ tl)); [|lia]. apply fresh_tail in Hd. subst g. rewrite <- !app_assoc in *. exact Hd. }
        assert (Hd3 : fresh d1 (ts ++ tl)).
        { apply (fresh_tail _ (q ++ sps)). eapply (fresh_spent 1 d (pts ++ sps2 ++ [z])); [|lia|exact S1]. apply fresh_tail in Hd. subst g. rewrite <- !app_assoc in *. exact Hd. }
        destruct (node_marked_coll fuel some_fuel o kind (length sps) es ts m (Z.of_nat n) BlockIn n sps1 p pts g sps tl tl2 sol2
          ((sps1 ++ pts ++ g ++ sps ++ ts ++ tl, lost) :: sv) b d1) as (d2 & R & F); auto; try lia; [eapply entries_head, He|].
        exists d2. split; [|apply F; left; lia]. cbn [pafter block].
        replace (sps1 ++ pts ++ g ++ sps ++ ts ++ tl) with (sps1 ++ pts ++ sps2 ++ z :: q ++ sps ++ ts ++ tl) in * by (rewrite E, <- !app_assoc; reflexivity).
        apply G. exact R.
      + destruct (node_marked_coll fuel some_fuel o kind (length sps) es ts (S m) (Z.of_nat n) BlockOut n sps1 p pts g sps tl tl2 sol2
          ((sps1 ++ pts ++ g ++ sps ++ ts ++ tl, lost) :: sv) b d) as (d2 & R & F); auto; try lia; [eapply entries_head, He|].
        exists d2. split; [apply pafter_value; [reflexivity|exact R]|apply F; left; lia].
    - (* one entry *)
      intros o kind n e ts He IH m k i tl tl2 sol sol2 sv sv2 b d Hm Hk Hf Hl Hi Hj Hfl Hfl2 Hd.
      destruct (IH m tl tl2 sol sol2 sv b d) as (d1 & R & F); auto; [eapply goes_weak; [exact Hl|lia]| |].
      { intros ->. destruct Hi as [Hi|(A & _)]; [|discriminate A]. eapply goes_no_dash; eauto. }
      destruct k as [|k].
      { destruct (entry_head _ _ _ _ _ He) as (? & ? & -> & _). cbn in Hk. lia. }
      destruct (entries_stop fuel some_fuel kind (block fuel m false) (block fuel m true) k n i tl2 sol2 sv2 b d1 (goes_lies _ _ _ _ _ Hl) Hi)
        as (d2 & R2 & F2); auto.
      exists e, [], tl2, sol2, d1, d2. split; [reflexivity|]. split; [exact R|]. split; [eapply entry_valid, He|].
      split; [|exact F2]. intro acc. rewrite app_nil_r. apply R2.
    - (* more entries *)
      intros o o2 kind n e ts g sps es ts2 He IHe Hg Hs Hlen Hes IHes m k i tl tl2 sol sol2 sv sv2 b d Hm Hk Hf Hl Hi Hj Hfl Hfl2 Hd.
      rewrite <- !app_assoc in *.
      destruct (entries_head _ _ _ _ _ Hes) as (x & r & E & Hx & Hkd).
      assert (Lg : 0 < length ts) by (destruct (entry_head _ _ _ _ _ He) as (? & ? & -> & _); cbn; lia).
      assert (Hm2 := Hm). rewrite !app_length in Hm2.
      assert (Hk2 := Hk). rewrite !app_length in Hk2.
      assert (Hf2 := Hf). rewrite !app_length in Hf2.
      destruct (IHe m (g ++ sps ++ ts2 ++ tl) (sps ++ ts2 ++ tl) sol true sv b d) as (d1 & R1 & F1); auto; try lia.
      { subst ts2. cbn [app]. apply goes_between; auto. }
      { intros ->. subst ts2. cbn [app]. apply line_no_dash; auto. }
      { apply starts_joined. subst ts2. cbn [app]. eapply between_starts; eauto. }
      destruct k as [|k]; [lia|].
      destruct (IHes m k i tl tl2 (sol_after sps true) sol2 ((sps ++ ts2 ++ tl, lost) :: sv2) sv2 b d1)
        as (e2 & rest & tlm & solm & d2 & d3 & E2 & R2 & V2 & R3 & F3); auto; try lia.
      { rewrite app_length. lia. } { eapply (joined_tail (ts ++ g ++ sps)). rewrite <- !app_assoc. exact Hj. } { eapply fresh_tail, F1. }
      exists e, es, (sps ++ ts2 ++ tl), true, d1, d3. split; [reflexivity|]. split; [exact R1|].
      split; [eapply entry_valid, He|]. split; [|exact F3]. intro acc. subst es.
      replace (acc ++ e2 :: rest) with ((acc ++ [e2]) ++ rest) by (rewrite <- app_assoc; reflexivity).
      eapply runs_loop_more; [|apply R3]. unfold entries_body. go1; [go|]. apply runs_lose.
      go1; [go1; subst ts2; cbn [app]; apply indent_strict_ok; auto; [apply reach_calm, solid_calm, Hx|lia]|]. decide1.
      rewrite <- Hlen, skipn_all, firstn_all, Hlen. cbn [app].
      subst ts2. cbn [app] in *. go1; [exact R2|]. rewrite V2. go.
  Qed.
End Main.
