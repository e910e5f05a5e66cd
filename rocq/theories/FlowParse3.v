(** Parsing the tokens of flow collections gives the collections. *)
From Coq Require Import String ZArith.
From Verif Require Import Base YamlChar Token Ast Balance CPAccessor Lexer Parser ParserFlow ParserBlock ParserDocs ParserTape TextSpec TapeRules
  BlockParse1 BlockParse2 BlockParse3 BlockParse4 FlowParse1 FlowParse2.
Local Open Scope parser_scope.
Local Arguments cons {A}%type_scope & _ _.
Local Arguments pair {A B}%type_scope & _ _.

Section Items.
  Context (fuel : nat) (some_fuel : 1 < fuel).
  Let f0 : 0 < fuel. Proof. lia. Qed.
  Notation content m := (parse_flow_json_content fuel m).
  Notation ind n := (mkInd (Z.of_nat n) StrictMode).

  Lemma key_low sv k x q sp1 rest : scalar k (x :: q) -> blanks sp1 -> under sv (x :: q ++ sp1 ++ rest) -> low sv rest.
  Proof.
    intros Hk Hs. apply low_eq. cbn [tl]. pose proof (scalar_quiet _ _ Hk) as Q. inversion Q; subst.
    rewrite brk_seg by assumption. apply brk_blanks, Hs.
  Qed.

  (** ** what follows a scalar on its line *)
  Lemma tail_blank n ctx sps y r : blanks sps -> stopper y = true -> length sps < fuel -> tail fuel n ctx (sps ++ y :: r) y r sps.
  Proof. intros. constructor; auto; constructor; auto. Qed.

  (** ** keys of pairs in sequences *)
  Lemma implicit_yaml_ok k ts sps y r sol sv i b d : plain k ts -> blanks sps -> tok_type y <> TString -> is_white_space y = false -> calm y = true ->
    length ts < fuel -> length sps < fuel ->
    runs (parse_implicit_yaml_key fuel FlowKey) (mkC (ts ++ sps ++ y :: r) sol sv i b d) (NText k UnknownQuoting)
      (mkC (y :: r) false sv i b d).
  Proof.
    intros P Hs Hy1 Hy2 Hy3 Hf Hf2.
    unfold parse_implicit_yaml_key. go1. mid (NText k UnknownQuoting) (mkC (sps ++ y :: r) false sv i b d).
    { go1. destruct (plain_head _ _ P) as (w & q2 & E & [W _]).
      assert (R : forall sv, runs (parse_plain fuel FlowKey) (mkC (ts ++ sps ++ y :: r) sol sv (mkInd 0 StrictMode) b d) (NText k UnknownQuoting)
        (mkC (sps ++ y :: r) false sv (mkInd 0 StrictMode) b d)) by (intro; apply one_line_blanks; auto).
      subst ts. apply yaml_node_plain; auto. congruence. }
    decide1. go1; [apply maybe_sep_no; auto|]. go.
  Qed.
  Lemma implicit_json_ok m t x q sps y r sol sv i b d d2 : bare x = true -> valid_node t = true -> blanks sps -> is_white_space y = false -> calm y = true ->
    length sps < fuel ->
    runs (content m FlowKey) (mkC (x :: q ++ sps ++ y :: r) sol sv (ind 0) b d) t (mkC (sps ++ y :: r) false sv (ind 0) b d2) ->
    runs (parse_implicit_json_key fuel (content m) FlowKey) (mkC (x :: q ++ sps ++ y :: r) sol sv i b d) t
      (mkC (y :: r) false sv i b d2).
  Proof.
    intros Hb V Hs Hy1 Hy2 Hf R. destruct (bare_not _ Hb) as (_ & B2 & B3 & _).
    unfold parse_implicit_json_key. go1. go1; [go1; apply json_node_ok; eauto|]. rewrite V.
    go1; [apply maybe_sep_no; auto|]. go.
  Qed.
  Lemma implicit_json_fails m x q sol sv i b d ts2 sol2 d2 : bare x = true ->
    runs (content m FlowKey) (mkC (x :: q) sol sv (ind 0) b d) NInvalid (mkC ts2 sol2 sv (ind 0) b d2) ->
    runs (parse_implicit_json_key fuel (content m) FlowKey) (mkC (x :: q) sol sv i b d) NInvalid (mkC ts2 sol2 sv i b d2).
  Proof.
    intros Hb R. destruct (bare_not _ Hb) as (_ & B2 & B3 & _).
    unfold parse_implicit_json_key. go1. go1; [go1; apply json_node_fails; eauto|]. go.
  Qed.
  Lemma implicit_yaml_mark x q sol sv i b d : bare x = true -> room 1 [x] d -> exists d2,
    runs (parse_implicit_yaml_key fuel FlowKey) (mkC (x :: q) sol sv i b d) NInvalid (mkC (x :: q) sol sv i b d2) /\ spent 1 [x] d d2.
  Proof.
    intros Hb Hr. destruct (yaml_node_mark fuel FlowKey x q sol sv (mkInd 0 StrictMode) b d) as (d2 & R & S); auto.
    exists d2. split; [|exact S]. unfold parse_implicit_yaml_key. go1. go1; [go1; exact R|]. go.
  Qed.
  Lemma implicit_json_word m s x q rest sol sv i b d : 0 < m -> plain s (x :: q) ->
    runs (parse_implicit_json_key fuel (content m) FlowKey) (mkC (x :: q ++ rest) sol sv i b d) NInvalid (mkC (x :: q ++ rest) sol sv i b d).
  Proof.
    intros Hm P. unfold parse_implicit_json_key. go1. go1; [go1; eapply json_word_no; eauto|]. go.
  Qed.

  (** no pair *)
  Lemma pair_shape m ctx x q sol sv i b d d1 d2 ts1 sol1 ts2 sol2 : tok_type x <> TMappingKey -> tok_type x <> TMappingValue ->
    let cp := (x :: q, live sol) in
    runs (parse_flow_pair_yaml_key_entry fuel (content m) ctx) (mkC (x :: q) sol (cp :: cp :: sv) i b d) NInvalid
      (mkC ts1 sol1 (cp :: cp :: sv) i b d1) ->
    runs (parse_flow_pair_json_key_entry fuel (content m) ctx) (mkC (x :: q) sol (cp :: sv) i b d1) NInvalid
      (mkC ts2 sol2 (cp :: sv) i b d2) ->
    runs (parse_flow_pair fuel (content m) ctx) (mkC (x :: q) sol sv i b d) NInvalid (mkC (x :: q) sol sv i b d2).
  Proof.
    intros H1 H2 cp R1 R2. subst cp. unfold parse_flow_pair. go1. go1; [go|].
    mid NInvalid (mkC ts2 sol2 ((x :: q, live sol) :: sv) i b d2).
    { unfold parse_flow_pair_entry. go1. go1; [go|]. go1; [exact R1|]. decide1. go1; [go|]. go1; [go|].
      go1; [apply empty_key_no, H2|]. decide1. go1; [go|]. exact R2. }
    decide1. go1; [go|]. go1; [go|]. rewrite (ttype_eqb_no _ _ H1). go.
  Qed.

  Lemma pair_fails n h t ts : P_flow fuel n h t ts -> (exists x r, ts = x :: r /\ head x = true) -> forall m ctx k rest z zq s sol sv b d,
    inside ctx = true -> tail fuel n ctx rest z zq s -> tok_type z <> TMappingValue -> length ts <= m -> length ts < fuel ->
    under sv (ts ++ rest) -> room (J h) ts d -> exists d2,
    runs (parse_flow_pair fuel (content m) ctx) (mkC (ts ++ rest) sol sv (ind k) b d) NInvalid
         (mkC (ts ++ rest) sol sv (ind k) b d2) /\ spent (J h) ts d d2.
  Proof.
    intros H (x & q & -> & Hh) m ctx k rest z zq s sol sv b d Hx Ht Hv Hm Hf Hu Hr. pose proof (J_pos h) as Hj.
    destruct (head_facts _ Hh) as (M1 & C1 & H1 & H2 & H3 & H4 & H5).
    pose proof (tail_calm _ _ _ _ _ _ _ Ht) as Hcr.
    destruct (tail_line _ some_fuel _ _ _ _ _ _ Ht) as (sps & y & r & -> & Hs & Hf2 & Y1 & Y2 & Y3 & Hy).
    assert (Hvy : tok_type y <> TMappingValue) by (destruct Hy as [(_ & -> & _)|Hy]; [exact Hv|congruence]).
    set (cp := ((x :: q) ++ sps ++ y :: r, live sol)). cbn [app] in *.
    destruct H as [(s1 & -> & P)|((x2 & q2 & [= <- <-] & Hb) & V & HJ)].
    - exists d. split; [|apply spent_none; lia]. eapply pair_shape; auto.
      + unfold parse_flow_pair_yaml_key_entry. go1. go1; [apply (implicit_yaml_ok s1 (x :: q)); auto|]. decide1.
        go1; [apply separate_value_no, Hvy|]. go.
      + unfold parse_flow_pair_json_key_entry. go1. go1; [eapply implicit_json_word; eauto; cbn in Hm; lia|]. go.
    - destruct (implicit_yaml_mark x (q ++ sps ++ y :: r) sol (cp :: cp :: sv) (ind k) b d) as (d1 & R1 & S1); auto; [cost|].
      destruct (HJ m FlowKey 0 (sps ++ y :: r) sol (cp :: sv) b d1) as (a & ts2 & sol2 & d2 & R2 & S2 & Ha); auto.
      { apply under_cp. exact Hu. } { cost. }
      exists d2. split; [|cost]. destruct Ha as [(-> & -> & ->)|(_ & ->)]; eapply pair_shape; auto.
      + unfold parse_flow_pair_yaml_key_entry. go1. go1; [exact R1|]. go.
      + unfold parse_flow_pair_json_key_entry. go1. go1; [apply implicit_json_ok; eauto|]. rewrite V.
        go1; [apply adjacent_value_no, Hvy|]. go.
      + unfold parse_flow_pair_yaml_key_entry. go1. go1; [exact R1|]. go.
      + unfold parse_flow_pair_json_key_entry. go1. go1; [apply implicit_json_fails; eauto|]. go.
  Qed.

  (** ** items *)
  Definition pitem (kind : bool) (m : nat) (ctx : context) : M node :=
    if kind then parse_flow_sequence_entry fuel (content m) ctx else parse_flow_mapping_entry fuel (content m) ctx.

  (** Within a key a pair whose value fails is taken for a key alone, and its value is left over. *)
  Definition left_over (ts all : list token) : Prop :=
    exists sp x q, ts = sp ++ x :: q /\ blanks sp /\ length sp < fuel /\ head x = true /\ brk (x :: q) = brk all.
  Definition P_item (n : nat) (kind : bool) (h : nat) (e : node) (ts : list token) : Prop :=
    forall m ctx k rest z q s sol sv b d, inside ctx = true -> key ctx = true \/ k = n -> tail fuel n ctx rest z q s ->
      tok_type z <> TMappingValue -> length ts <= m -> length ts < fuel ->
      under sv (ts ++ rest) -> room (K kind h) ts d -> exists a ts2 sol2 d2,
      runs (pitem kind m ctx) (mkC (ts ++ rest) sol sv (ind k) b d) a (mkC ts2 sol2 sv (ind k) b d2) /\
      spent (K kind h) ts d d2 /\
      (a = e /\ ts2 = rest /\ sol2 = false \/
       key ctx = true /\ (a = NInvalid \/ valid_node a = true /\ sol2 = false /\ left_over ts2 (ts ++ rest))).

  Lemma flow_valid n h t ts : flow n h t ts -> valid_node t = true.
  Proof. intros []; eauto using scalar_valid, build_valid. Qed.

  Lemma P_item_node n h t ts : flow n h t ts -> P_flow fuel n h t ts -> P_item n true h t ts.
  Proof.
    intros HF H m ctx k rest z q s sol sv b d Hx Hk Ht Hv Hm Hf Hu Hr. unfold K in *. cbn [deeper] in *. rewrite J_next in *.
    pose proof (J_pos h) as Hj.
    destruct (pair_fails n h t ts H (flow_first _ _ _ _ HF) m ctx k rest z q s sol ((ts ++ rest, live sol) :: sv) b d)
      as (d1 & R1 & S1); auto; [cost|].
    destruct (node_ok fuel some_fuel n h t ts H m ctx k rest z q s sol sv b d1) as (a & ts2 & sol2 & d2 & R2 & S2 & Ha); auto; [cost|].
    exists a, ts2, sol2, d2. split; [|split; [cost|]].
    - cbn [pitem]. unfold parse_flow_sequence_entry. go1. go1; [go|]. go1; [exact R1|]. decide1. go1; [go|]. exact R2.
    - destruct Ha as [(-> & -> & ->)|(Kx & -> & _)]; auto.
  Qed.

  (** pairs *)
  Section Pair.
    Context (n h : nat) (k : node) (kx : token) (kq sp1 : list token) (c : token) (sp2 : list token) (t : node) (x : token) (q : list token).
    Context (Hk : scalar k (kx :: kq)) (Hs1 : blanks sp1) (Hc : tok_type c = TMappingValue) (Hs2 : blanks sp2)
      (Hsp : is_plain (kx :: kq) -> sp2 <> []) (H : P_flow fuel n h t (x :: q)) (V : valid_node t = true) (Hh : head x = true).
    Context (m : nat) (ctx : context) (i : nat) (rest : list token) (z : token) (zq s : list token) (sol : bool) (sv : list (list token * mark))
      (b : text) (d : finder).
    Let all := kx :: kq ++ sp1 ++ c :: sp2 ++ x :: q ++ rest.
    Let whole := kx :: kq ++ sp1 ++ c :: sp2 ++ x :: q.
    Context (Hx : inside ctx = true) (Hi : key ctx = true \/ i = n) (Ht : tail fuel n ctx rest z zq s) (Hm : length whole <= m) (Hf : length whole < fuel)
      (Hu : under sv all) (Hr : room (J h) whole d).

    Let L : length (kx :: kq) < fuel /\ length sp1 < fuel /\ length sp2 < fuel /\ length (x :: q) < fuel /\
      length (x :: q) <= m /\ 0 < m.
    Proof.
      unfold whole in *. cbn [length] in *. repeat rewrite app_length in *. cbn [length] in *. repeat rewrite app_length in *. cbn [length] in *. lia.
    Qed.
    Let Sc : stopper c = true. Proof. unfold stopper. rewrite Hc. reflexivity. Qed.
    Let Kv : valid_node k = true. Proof. eapply scalar_valid, Hk. Qed.
    Let Ks : Forall (fun t => quiet t = true) (kx :: kq). Proof. eapply scalar_quiet, Hk. Qed.
    Lemma pair_left : left_over (sp2 ++ x :: q ++ rest) all.
    Proof.
      exists sp2, x, (q ++ rest). repeat split; auto; [apply L|]. symmetry. unfold all.
      change (kx :: kq ++ sp1 ++ c :: sp2 ++ x :: q ++ rest) with ((kx :: kq) ++ sp1 ++ c :: sp2 ++ x :: q ++ rest).
      rewrite brk_seg by exact Ks. rewrite (brk_blanks _ _ Hs1), brk_cons, Hc. apply brk_blanks, Hs2.
    Qed.

    Lemma seq_pair : exists a ts2 d2,
      runs (pitem true m ctx) (mkC all sol sv (ind i) b d) (NEntry k a) (mkC ts2 false sv (ind i) b d2) /\
      spent (J h) whole d d2 /\ (a = t /\ ts2 = rest \/ key ctx = true /\ left_over ts2 all).
    Proof.
      destruct L as (L1 & L2 & L3 & L4 & L5 & L6). pose proof (J_pos h) as Hj.
      destruct (head_facts _ Hh) as (M1 & C1 & _). destruct (stopper_facts _ Sc) as (Y1 & Y2 & Y3 & Y4 & Y5).
      destruct (scalar_first _ _ Hk) as (kx2 & kq2 & [= <- <-] & Hkh). destruct (head_facts _ Hkh) as (_ & _ & _ & K2 & K3 & K4 & K5).
      set (cp := (all, live sol)).
      assert (Lo : forall sv, under sv all -> low sv (c :: sp2 ++ x :: q ++ rest)) by (intros sv0; apply (key_low sv0 k); auto).
      destruct (plain_dec _ _ Hk) as [(s1 & Ek & P)|NP].
      - destruct (separate_value_ok fuel some_fuel n h t x q H V m ctx i c sp2 rest z zq s Hx Hi Hc Hs2 Ht L5 L4 L3 Hh
          (cp :: cp :: cp :: sv) b d) as (a & ts2 & d2 & R & S & Va & Ha).
        { apply Hsp. exists s1. exact P. } { apply Lo; subst cp; auto 10. } { subst whole; cost. }
        exists a, ts2, d2. split; [|split; [subst whole; cost|destruct Ha as [Ha|(Kx & ->)]; [left; exact Ha|right; split; [exact Kx|apply pair_left]]]].
        cbn [pitem]. unfold parse_flow_sequence_entry. go1. go1; [go|].
        mid (NEntry k a) (mkC ts2 false (cp :: sv) (ind i) b d2); [|go].
        unfold parse_flow_pair. go1. go1; [go|].
        mid (NEntry k a) (mkC ts2 false (cp :: cp :: sv) (ind i) b d2); [|go].
        unfold parse_flow_pair_entry. go1. go1; [go|].
        mid (NEntry k a) (mkC ts2 false (cp :: cp :: cp :: sv) (ind i) b d2); [|go].
        unfold parse_flow_pair_yaml_key_entry. go1. go1; [rewrite Ek; apply (implicit_yaml_ok s1 (kx :: kq) sp1 c); auto|].
        decide1. go1; [exact R|]. rewrite Va. go.
      - pose proof (quoted_bare _ _ _ Hk NP) as Hb.
        destruct (implicit_yaml_mark kx (kq ++ sp1 ++ c :: sp2 ++ x :: q ++ rest) sol (cp :: cp :: cp :: sv) (ind i) b d)
          as (d1 & R1 & S1); auto; [subst whole; cost|].
        destruct (adjacent_value_ok fuel some_fuel n h t x q H V m ctx i c sp2 rest z zq s Hx Hi Hc Hs2 Ht L5 L4 L3 Hh
          (cp :: cp :: sv) b d1) as (a & ts2 & d2 & R & S & Va & Ha).
        { apply Lo; subst cp; auto 10. } { subst whole; cost. }
        exists a, ts2, d2. split; [|split; [subst whole; cost|destruct Ha as [Ha|(Kx & ->)]; [left; exact Ha|right; split; [exact Kx|apply pair_left]]]].
        cbn [pitem]. unfold parse_flow_sequence_entry. go1. go1; [go|].
        mid (NEntry k a) (mkC ts2 false (cp :: sv) (ind i) b d2); [|go].
        unfold parse_flow_pair. go1. go1; [go|].
        mid (NEntry k a) (mkC ts2 false (cp :: cp :: sv) (ind i) b d2); [|go].
        unfold parse_flow_pair_entry. go1. go1; [go|].
        mid NInvalid (mkC all sol (cp :: cp :: cp :: sv) (ind i) b d1).
        { unfold parse_flow_pair_yaml_key_entry. go1. go1; [exact R1|]. go. }
        decide1. go1; [go|]. go1; [go|]. go1; [apply empty_key_no, K5|]. decide1. go1; [go|].
        unfold parse_flow_pair_json_key_entry. go1.
        go1.
        { apply (implicit_json_ok m k kx kq sp1 c); auto.
          assert (Cq : calm_hd (sp1 ++ c :: sp2 ++ x :: q ++ rest) = true) by (apply calm_blanks; auto).
          destruct (sp1 ++ c :: sp2 ++ x :: q ++ rest) as [|z0 zs]; [discriminate|].
          apply (content_quoted fuel some_fuel m FlowKey 0 k (kx :: kq)); auto. intros s1 P. apply NP. exists s1. exact P. }
        rewrite Kv. go1; [exact R|]. rewrite Va. go.
    Qed.

    (** the key of an entry of a mapping *)
    Lemma map_pair : exists a ts2 d2,
      runs (pitem false m ctx) (mkC all sol sv (ind i) b d) (NEntry k a) (mkC ts2 false sv (ind i) b d2) /\
      spent (J h) whole d d2 /\ (a = t /\ ts2 = rest \/ key ctx = true /\ left_over ts2 all).
    Proof.
      destruct L as (L1 & L2 & L3 & L4 & L5 & L6). pose proof (J_pos h) as Hj.
      destruct (head_facts _ Hh) as (M1 & C1 & _). destruct (stopper_facts _ Sc) as (Y1 & Y2 & _).
      destruct (scalar_first _ _ Hk) as (kx2 & kq2 & [= <- <-] & Hkh). destruct (head_facts _ Hkh) as (_ & _ & _ & K2 & K3 & K4 & K5).
      set (cp := (all, live sol)). set (more := c :: sp2 ++ x :: q ++ rest). set (cp2 := (sp1 ++ more, live false)).
      assert (Lo : forall sv, under sv all -> low sv more) by (intros sv0; apply (key_low sv0 k); auto).
      assert (Lo2 : low (cp2 :: cp :: sv) more).
      { assert (E : brk more = brk (tl more)) by (subst more; cbn [tl]; rewrite brk_cons, Hc; reflexivity).
        constructor; [|apply Lo; subst cp; auto]. subst cp2. etransitivity; [apply height_le|]. cbn [fst]. unfold depth.
        destruct sp1 as [|s0 sp]; cbn [app tl]; [rewrite E; apply le_n|]. inversion Hs1; subst. rewrite brk_blanks by assumption. apply le_n. }
      assert (Sep : forall d, runs (maybe_separate fuel ctx) (mkC (sp1 ++ more) false (cp2 :: cp :: sv) (ind i) b d) tt
        (mkC more false (cp2 :: cp :: sv) (ind i) b d)) by (intro; apply maybe_separate_ok; auto).
      cbn [pitem]. unfold parse_flow_mapping_entry.
      destruct (plain_dec _ _ Hk) as [(s1 & Ek & P)|NP].
      - destruct (separate_value_ok fuel some_fuel n h t x q H V m ctx i c sp2 rest z zq s Hx Hi Hc Hs2 Ht L5 L4 L3 Hh
          (cp2 :: cp :: sv) b d) as (a & ts2 & d2 & R & S & Va & Ha); auto.
        { apply Hsp. exists s1. exact P. } { subst whole; cost. }
        exists a, ts2, d2. split; [|split; [subst whole; cost|destruct Ha as [Ha|(Kx & ->)]; [left; exact Ha|right; split; [exact Kx|apply pair_left]]]].
        go1. go1; [apply runs_tok_ty|]. rewrite (ttype_eqb_no _ _ K4).
        mid NInvalid (mkC all sol sv (ind i) b d); [go|]. decide1.
        mid (NEntry k a) (mkC ts2 false sv (ind i) b d2); [|go].
        unfold parse_flow_mapping_implicit_entry. go1. go1; [go|].
        mid (NEntry k a) (mkC ts2 false (cp :: sv) (ind i) b d2); [|go].
        unfold parse_flow_mapping_yaml_key_entry, parse_key_then_value. go1.
        go1; [rewrite Ek; apply (yaml_key_ok fuel some_fuel n ctx s1 (kx :: kq) (sp1 ++ more) c (sp2 ++ x :: q ++ rest) sp1); auto; apply tail_blank; auto|]. try rewrite Kv; try decide1.
        go1; [go|]. go1; [apply Sep|]. go1; [exact R|]. rewrite Va, Ek. go.
      - pose proof (quoted_bare _ _ _ Hk NP) as Hb.
        destruct (yaml_node_mark fuel ctx kx (kq ++ sp1 ++ more) sol (cp :: sv) (ind i) b d) as (d1 & R1 & S1); auto; [subst whole; cost|].
        destruct (adjacent_value_ok fuel some_fuel n h t x q H V m ctx i c sp2 rest z zq s Hx Hi Hc Hs2 Ht L5 L4 L3 Hh
          (cp2 :: cp :: sv) b d1) as (a & ts2 & d2 & R & S & Va & Ha); auto.
        { subst whole; cost. }
        exists a, ts2, d2. split; [|split; [subst whole; cost|destruct Ha as [Ha|(Kx & ->)]; [left; exact Ha|right; split; [exact Kx|apply pair_left]]]].
        go1. go1; [apply runs_tok_ty|]. rewrite (ttype_eqb_no _ _ K4).
        mid NInvalid (mkC all sol sv (ind i) b d); [go|]. decide1.
        mid (NEntry k a) (mkC ts2 false sv (ind i) b d2); [|go].
        unfold parse_flow_mapping_implicit_entry. go1. go1; [go|].
        mid NInvalid (mkC all sol (cp :: sv) (ind i) b d1).
        { unfold parse_flow_mapping_yaml_key_entry, parse_key_then_value. go1. go1; [exact R1|]. go. }
        decide1. go1; [go|]. go1; [go|].
        mid (NEntry k a) (mkC ts2 false (cp :: sv) (ind i) b d2); [|go].
        unfold parse_flow_mapping_json_key_entry, parse_key_then_value. go1.
        go1; [apply (json_key_ok fuel some_fuel m ctx k (kx :: kq) (sp1 ++ more)); auto; apply calm_blanks; auto|]. rewrite Kv.
        go1; [go|]. go1; [apply Sep|]. go1; [exact R|]. rewrite Va. go.
    Qed.
  End Pair.

  Lemma P_item_pair n kind h k kts sp1 c sp2 t ts : scalar k kts -> blanks sp1 -> tok_type c = TMappingValue -> blanks sp2 ->
    (is_plain kts -> sp2 <> []) -> flow n h t ts -> P_flow fuel n h t ts -> P_item n kind h (NEntry k t) (kts ++ sp1 ++ c :: sp2 ++ ts).
  Proof.
    intros Hk Hs1 Hc Hs2 Hsp HF H m ctx i rest z zq s sol sv b d Hx Hi Ht Hv Hm Hf Hu Hr.
    destruct (scalar_first _ _ Hk) as (kx & kq & -> & Hkh). destruct (flow_first _ _ _ _ HF) as (x & q & -> & Hh).
    pose proof (J_pos h) as Hj.
    assert (E : ((kx :: kq) ++ sp1 ++ c :: sp2 ++ x :: q) ++ rest = kx :: kq ++ sp1 ++ c :: sp2 ++ x :: q ++ rest).
    { cbn [app]. repeat (rewrite <- app_assoc; cbn [app]). reflexivity. }
    rewrite E in *. change ((kx :: kq) ++ sp1 ++ c :: sp2 ++ x :: q) with (kx :: kq ++ sp1 ++ c :: sp2 ++ x :: q) in *.
    assert (Hr2 : room (J h) (kx :: kq ++ sp1 ++ c :: sp2 ++ x :: q) d).
    { unfold K, deeper in Hr. destruct kind; [|exact Hr]. rewrite J_next in Hr. cost. }
    assert (W : forall d2, spent (J h) (kx :: kq ++ sp1 ++ c :: sp2 ++ x :: q) d d2 -> spent (K kind h) (kx :: kq ++ sp1 ++ c :: sp2 ++ x :: q) d d2).
    { unfold K, deeper. intros d2 S. destruct kind; [|exact S]. rewrite J_next. clear Hr Hr2. cost. }
    pose proof (flow_valid _ _ _ _ HF) as V.
    assert (G : exists a ts2 d2,
      runs (pitem kind m ctx) (mkC (kx :: kq ++ sp1 ++ c :: sp2 ++ x :: q ++ rest) sol sv (ind i) b d) (NEntry k a) (mkC ts2 false sv (ind i) b d2) /\
      spent (J h) (kx :: kq ++ sp1 ++ c :: sp2 ++ x :: q) d d2 /\
      (a = t /\ ts2 = rest \/ key ctx = true /\ left_over ts2 (kx :: kq ++ sp1 ++ c :: sp2 ++ x :: q ++ rest))).
    { destruct kind; [apply (seq_pair n h k kx kq sp1 c sp2 t x q Hk Hs1 Hc Hs2 Hsp H V Hh m ctx i rest z zq s)
        |apply (map_pair n h k kx kq sp1 c sp2 t x q Hk Hs1 Hc Hs2 Hsp H V Hh m ctx i rest z zq s)]; auto. }
    destruct G as (a & ts2 & d2 & R & S & Ha). exists (NEntry k a), ts2, false, d2. split; [exact R|]. split; [apply W, S|].
    destruct Ha as [(-> & ->)|(Kx & Ha)]; [left; auto|right; split; [exact Kx|right; auto]].
  Qed.

  (** a key alone *)
  Lemma P_item_key n h k ts : scalar k ts -> P_item n false h (NEntry k NNull) ts.
  Proof.
    intros Hk m ctx i rest z zq s sol sv b d Hx Hi Ht Hv Hm Hf Hu Hr.
    destruct (scalar_first _ _ Hk) as (kx & kq & -> & Hkh). destruct (head_facts _ Hkh) as (_ & _ & _ & K2 & K3 & K4 & K5).
    pose proof (J_pos h) as Hj. unfold K, deeper in *.
    cbn [app] in *. set (all := kx :: kq ++ rest) in *. pose proof (scalar_valid _ _ Hk) as Kv.
    set (cp := (all, live sol)). set (cp2 := (rest, live false)).
    assert (Sep : forall d, runs (maybe_separate fuel ctx) (mkC rest false (cp2 :: cp :: sv) (ind i) b d) tt
      (mkC (z :: zq) (sol_at ctx s) (cp2 :: cp :: sv) (ind i) b d)) by (intro; eapply tail_skip; eauto).
    cbn [pitem]. unfold parse_flow_mapping_entry.
    destruct (plain_dec _ _ Hk) as [(s1 & Ek & P)|NP].
    - exists (NEntry k NNull), rest, false, d. split; [|split; [apply spent_none; lia|left; auto]].
      go1. go1; [apply runs_tok_ty|]. rewrite (ttype_eqb_no _ _ K4).
      mid NInvalid (mkC all sol sv (ind i) b d); [go|]. decide1.
      mid (NEntry k NNull) (mkC rest false sv (ind i) b d); [|go].
      unfold parse_flow_mapping_implicit_entry. go1. go1; [go|].
      mid (NEntry k NNull) (mkC rest false (cp :: sv) (ind i) b d); [|go].
      unfold parse_flow_mapping_yaml_key_entry, parse_key_then_value. go1.
      go1; [rewrite Ek; apply (yaml_key_ok fuel some_fuel n ctx s1 (kx :: kq) rest z zq s); auto|]. decide1.
      go1; [go|]. go1; [apply Sep|]. go1; [apply separate_value_no, Hv|]. rewrite Ek. decide1. go.
    - pose proof (quoted_bare _ _ _ Hk NP) as Hb.
      destruct (yaml_node_mark fuel ctx kx (kq ++ rest) sol (cp :: sv) (ind i) b d) as (d1 & R1 & S1); auto; [cost|].
      exists (NEntry k NNull), rest, false, d1. split; [|split; [cost|left; auto]].
      go1. go1; [apply runs_tok_ty|]. rewrite (ttype_eqb_no _ _ K4).
      mid NInvalid (mkC all sol sv (ind i) b d); [go|]. decide1.
      mid (NEntry k NNull) (mkC rest false sv (ind i) b d1); [|go].
      unfold parse_flow_mapping_implicit_entry. go1. go1; [go|].
      mid NInvalid (mkC all sol (cp :: sv) (ind i) b d1).
      { unfold parse_flow_mapping_yaml_key_entry, parse_key_then_value. go1. go1; [exact R1|]. go. }
      decide1. go1; [go|]. go1; [go|].
      mid (NEntry k NNull) (mkC rest false (cp :: sv) (ind i) b d1); [|go].
      unfold parse_flow_mapping_json_key_entry, parse_key_then_value. go1.
      go1; [apply (json_key_ok fuel some_fuel m ctx k (kx :: kq) rest); auto;
            [cbn in Hm; len|eapply tail_calm, Ht]|]. rewrite Kv.
      go1; [go|]. go1; [apply Sep|]. go1; [apply adjacent_value_no, Hv|]. decide1. go.
  Qed.

  (** no item at the end of the collection or, within a key, of the line *)
  Definition stray (z : token) : Prop := bare z = true /\ no_json (tok_type z) = true.
  Lemma item_none kind h m ctx k z q sol sv b d : stray z -> inside ctx = true -> 0 < m -> room (K kind h) [z] d -> exists d2,
    runs (pitem kind m ctx) (mkC (z :: q) sol sv (ind k) b d) NInvalid (mkC (z :: q) sol sv (ind k) b d2) /\
    spent (K kind h) [z] d d2.
  Proof.
    intros [Hb Hj] Hx Hm Hr. destruct (bare_not _ Hb) as (B1 & B2 & B3 & B4 & B5).
    pose proof (J_pos h) as Hp. set (cp := (z :: q, live sol)). unfold K in *. destruct kind; cbn [deeper pitem] in *; [rewrite J_next in *|].
    - destruct (implicit_yaml_mark z q sol (cp :: cp :: cp :: sv) (ind k) b d) as (d1 & R1 & S1); auto; [cost|].
      destruct (plain_mark fuel ctx z q sol (cp :: cp :: sv) (ind k) b d1) as (d2 & R2 & S2); auto; [cost|].
      exists d2. split; [|cost]. unfold parse_flow_sequence_entry. go1. go1; [go|].
      mid NInvalid (mkC (z :: q) sol (cp :: sv) (ind k) b d1).
      { apply (pair_shape m ctx z q sol (cp :: sv) (ind k) b d d1 d1 (z :: q) sol (z :: q) sol); auto.
        - unfold parse_flow_pair_yaml_key_entry. go1. go1; [exact R1|]. go.
        - unfold parse_flow_pair_json_key_entry. go1.
          go1; [apply (implicit_json_fails m z q sol); auto; apply content_no; auto|]. go. }
      decide1. go1; [go|]. eapply node_none; [exact Hb|exact R2|apply content_no; auto].
    - destruct (yaml_node_mark fuel ctx z q sol (cp :: sv) (ind k) b d) as (d1 & R1 & S1); auto; [cost|].
      exists d1. split; [|cost]. unfold parse_flow_mapping_entry. go1. go1; [go|]. rewrite (ttype_eqb_no _ _ B4).
      mid NInvalid (mkC (z :: q) sol sv (ind k) b d); [go|]. decide1.
      mid NInvalid (mkC (z :: q) sol sv (ind k) b d1); [|go].
      unfold parse_flow_mapping_implicit_entry. go1. go1; [go|].
      mid NInvalid (mkC (z :: q) sol (cp :: sv) (ind k) b d1).
      { unfold parse_flow_mapping_yaml_key_entry, parse_key_then_value. go1. go1; [exact R1|]. go. }
      decide1. go1; [go|]. go1; [go|].
      mid NInvalid (mkC (z :: q) sol (cp :: sv) (ind k) b d1).
      { unfold parse_flow_mapping_json_key_entry, parse_key_then_value. go1.
        go1; [apply json_node_fails; auto; apply content_no; auto|]. go. }
      decide1. go1; [go|]. apply empty_key_no, B5.
  Qed.

  (** ** the loop *)
  Definition items_body (kind : bool) (m : nat) (ctx : context) : list node -> M (list node * bool) := fun entries =>
    maybe_separate fuel ctx ;;
    ty <- tok_ty ;;
    if ttype_eqb ty TCollectEntry then
      next ;;
      maybe_separate fuel ctx ;;
      set_checkpoint ;;
      entry <- pitem kind m ctx ;;
      if valid_node entry then commit ;; ret (entries ++ [entry], true)
      else rollback ;; ret (entries, negb kind)
    else ret (entries, false).
  Definition P_items (n : nat) (kind : bool) (h : nat) (es : list node) (ts : list token) : Prop :=
    forall m ctx k i c rest sol sv sv2 b d, inside ctx = true -> key ctx = true \/ k = n -> closes kind c ->
      length ts <= m -> 0 < m -> length ts < fuel -> length ts < i ->
      under sv (ts ++ c :: rest) -> low sv2 (ts ++ c :: rest) -> room (K kind h) (ts ++ [c]) d -> exists a md sol1 d1,
      runs (pitem kind m ctx) (mkC (ts ++ c :: rest) sol sv (ind k) b d) a (mkC md sol1 sv (ind k) b d1) /\
      (key ctx = true /\ a = NInvalid /\ spent (K kind h) (ts ++ [c]) d d1 \/
       valid_node a = true /\ exists es2 z q sol2 d2,
       (forall acc, runs (loop_go i (items_body kind m ctx) acc) (mkC md sol1 sv2 (ind k) b d1) (acc ++ es2)
         (mkC (z :: q) sol2 sv2 (ind k) b d2)) /\
       spent (K kind h) (ts ++ [c]) d d2 /\
       (es = a :: es2 /\ z = c /\ q = rest \/ key ctx = true /\ ~ closes kind z)).

  Lemma item_valid n kind h e ts : item n kind h e ts -> valid_node e = true.
  Proof. intros []; eauto using flow_valid. Qed.
  Lemma K_pos kind h : (1 <= K kind h)%Z.
  Proof. apply J_pos. Qed.

  Lemma body_stop kind m ctx i z q sol2 md sol1 sv k b d : 0 < i -> tok_type z <> TCollectEntry ->
    runs (maybe_separate fuel ctx) (mkC md sol1 sv k b d) tt (mkC (z :: q) sol2 sv k b d) ->
    forall acc, runs (loop_go i (items_body kind m ctx) acc) (mkC md sol1 sv k b d) acc (mkC (z :: q) sol2 sv k b d).
  Proof.
    intros Hi Hz R acc. destruct i as [|i]; [lia|]. apply runs_loop_stop. unfold items_body. go1; [exact R|]. go1; [go|].
    rewrite (ttype_eqb_no _ _ Hz). go.
  Qed.
  (** an entry after a comma that fails *)
  Lemma body_none kind m ctx n k i md s0 x s y r z q ts2 sol2 sv b d d2 : inside ctx = true -> key ctx = true \/ k = n -> 1 < i ->
    tok_type x = TCollectEntry -> sep n s -> middle y = true -> skipped ctx s y r z q -> may_go sv (y :: r) -> length s < fuel ->
    runs (maybe_separate fuel ctx) (mkC md false sv (ind k) b d) tt (mkC (x :: s ++ y :: r) s0 sv (ind k) b d) ->
    may_go sv (s ++ y :: r) -> tok_type z <> TCollectEntry ->
    runs (pitem kind m ctx) (mkC (z :: q) (sol_at ctx s) ((z :: q, live (sol_at ctx s)) :: sv) (ind k) b d) NInvalid
      (mkC ts2 sol2 ((z :: q, live (sol_at ctx s)) :: sv) (ind k) b d2) ->
    forall acc, runs (loop_go i (items_body kind m ctx) acc) (mkC md false sv (ind k) b d) acc
      (mkC (z :: q) (sol_at ctx s) sv (ind k) b d2).
  Proof.
    intros Hx Hk Hi Hcx Hs Hy Hz Hg Hf R1 Hg2 Hnz R acc. destruct i as [|[|i]]; [lia|lia|].
    assert (B : runs (items_body kind m ctx acc) (mkC md false sv (ind k) b d) (acc, negb kind)
      (mkC (z :: q) (sol_at ctx s) sv (ind k) b d2)).
    { unfold items_body. go1; [exact R1|]. go1; [go|]. rewrite Hcx. decide1.
      go1; [apply runs_next, Hg2|]. rewrite Hcx. cbn [is_start_of_line].
      go1; [eapply skip_ok; eauto|]. go1; [go|]. go1; [exact R|]. decide1. go. }
    destruct kind; cbn [negb] in B; [apply runs_loop_stop, B|].
    eapply runs_loop_more; [exact B|]. apply body_stop; [lia|exact Hnz|]. eapply skip_again; eauto.
  Qed.
  Lemma head_other kind x : head x = true -> tok_type x <> TCollectEntry /\ ~ closes kind x.
  Proof. unfold head, closes. destruct (tok_type x), kind; intros; split; congruence. Qed.
  Lemma break_other kind x : tok_type x = TLineBreak -> tok_type x <> TCollectEntry /\ ~ closes kind x /\ stray x.
  Proof. unfold closes, stray, bare. intros ->. destruct kind; repeat split; congruence. Qed.
  Lemma closes_facts kind c : closes kind c -> stray c /\ tok_type c <> TCollectEntry /\ stopper c = true /\ middle c = true /\ tok_type c <> TMappingValue.
  Proof. unfold closes, stray, bare, stopper, middle. destruct kind; intros ->; repeat split; congruence. Qed.
  Lemma comma_facts x : tok_type x = TCollectEntry -> stopper x = true /\ middle x = true /\ calm x = true /\ tok_type x <> TMappingValue.
  Proof. unfold stopper, middle, calm. intros ->. repeat split; congruence. Qed.
  Lemma left_stop kind m ctx i ts2 all sv k b d : left_over ts2 all -> inside ctx = true -> low sv all -> 0 < i -> exists z q,
    ~ closes kind z /\
    forall acc, runs (loop_go i (items_body kind m ctx) acc) (mkC ts2 false sv k b d) acc (mkC (z :: q) false sv k b d).
  Proof.
    intros (sp & x & q & -> & Hs & Hf & Hh & E) Hx Hl Hi. destruct (head_facts _ Hh) as (M1 & C1 & _).
    destruct (head_other kind _ Hh) as [N1 N2]. exists x, q. split; [exact N2|]. apply body_stop; auto. apply maybe_separate_ok; auto.
    apply reach_low; auto. eapply low_eq; [symmetry; exact E|exact Hl].
  Qed.
  Lemma may_sep n s x r sv : sep n s -> may_go sv (x :: r) -> may_go sv (s ++ x :: r).
  Proof.
    intros [sp H|sp w j H Hj] Hg; [apply may_blanks; auto|]. destruct (seam_head _ _ _ Hj) as (nl & l & -> & Hn).
    rewrite <- app_assoc. cbn [app]. apply may_calm, calm_blanks; auto. unfold calm. rewrite Hn. reflexivity.
  Qed.
  (** the line break at the end of the line or the token after it *)
  Lemma skipped_stray kind h ctx s c rest z q d : skipped ctx s c rest z q -> closes kind c -> room (K kind h) (s ++ [c]) d ->
    stray z /\ room (K kind h) [z] d /\ (forall d2, spent (K kind h) [z] d d2 -> spent (K kind h) (s ++ [c]) d d2) /\
    tok_type z <> TCollectEntry /\ (z = c /\ q = rest \/ key ctx = true /\ ~ closes kind z).
  Proof.
    intros Hz Hc Hr. destruct (closes_facts _ _ Hc) as (C1 & C2 & C3 & C4 & C5). pose proof (K_pos kind h) as Hj.
    destruct (skipped_last _ _ _ _ _ _ Hz C4) as [(M & -> & ->)|(Kx & Hn)].
    - split; [exact C1|]. split; [cost|]. split; [intros d2 S; clear Hr; cost|]. auto.
    - destruct (break_other kind _ Hn) as (B1 & B2 & B3). pose proof (fun p => skipped_charge _ some_fuel _ _ _ _ _ _ (K kind h) p Hz ltac:(lia) Kx Hn C4) as Hch.
      split; [exact B3|]. split; [|split; [|auto]].
      + intro p. specialize (Hr p). specialize (Hch p). rewrite charge_app in Hr. pose proof (charge_one (K kind h) [c] p Hj). lia.
      + intros d2 S p. specialize (S p). specialize (Hch p). rewrite charge_app. pose proof (charge_one (K kind h) [c] p Hj). lia.
  Qed.

  Lemma P_items_one n kind h e ts s : item n kind h e ts -> P_item n kind h e ts -> sep n s -> P_items n kind h [e] (ts ++ s).
  Proof.
    intros Hi H Hs m ctx k i c rest sol sv sv2 b d Hx Hk Hc Hm Hm0 Hf Hfi Hu Hl Hr. rewrite app_length in *. rewrite <- app_assoc in *.
    destruct (closes_facts _ _ Hc) as (C1 & C2 & C3 & C4 & C5). pose proof (K_pos kind h) as Hj.
    destruct (skipped_ex n ctx s c rest Hs) as (z & q & Hz).
    assert (Ht : tail fuel n ctx (s ++ c :: rest) z q s) by (constructor; auto; len).
    assert (Z : tok_type z <> TCollectEntry /\ tok_type z <> TMappingValue /\ (z = c /\ q = rest \/ key ctx = true /\ ~ closes kind z)).
    { destruct (skipped_last _ _ _ _ _ _ Hz C4) as [(M & -> & ->)|(Kx & Hn)]; [auto|]. destruct (break_other kind _ Hn) as (B1 & B2 & _).
      repeat split; auto. congruence. }
    destruct Z as (Z1 & Z2 & Z3).
    destruct (H m ctx k (s ++ c :: rest) z q s sol sv b d) as (a & md & sol1 & d1 & R1 & S1 & Ha); auto; try len; [cost|].
    exists a, md, sol1, d1. split; [exact R1|]. destruct Ha as [(-> & -> & ->)|(Kx & [->|(Va & -> & Hlo)])].
    - right. split; [eapply item_valid, Hi|]. exists [], z, q, (sol_at ctx s), d1. split; [|split; [cost|]].
      + intro acc. rewrite app_nil_r. apply body_stop; auto; [len|]. eapply tail_skip; eauto.
      + destruct Z3 as [(-> & ->)|Z3]; auto.
    - left. split; [exact Kx|]. split; [reflexivity|]. cost.
    - right. split; [exact Va|]. destruct (left_stop kind m ctx i md _ sv2 (ind k) b d1 Hlo Hx Hl ltac:(len)) as (z2 & q2 & N & R).
      exists [], z2, q2, false, d1. split; [intro acc; rewrite app_nil_r; apply R|]. split; [cost|]. right. auto.
  Qed.

  Lemma P_items_last n kind h e ts s x s2 : item n kind h e ts -> P_item n kind h e ts -> sep n s -> tok_type x = TCollectEntry ->
    sep n s2 -> P_items n kind h [e] (ts ++ s ++ x :: s2).
  Proof.
    intros Hi H Hs Hcx Hs2 m ctx k i c rest sol sv sv2 b d Hx Hk Hc Hm Hm0 Hf Hfi Hu Hl Hr.
    repeat (rewrite app_length in *; cbn [length] in * ). repeat (rewrite <- app_assoc in *; cbn [app] in * ).
    destruct (closes_facts _ _ Hc) as (C1 & C2 & C3 & C4 & C5). destruct (comma_facts _ Hcx) as (X1 & X2 & X3 & X4). pose proof (K_pos kind h) as Hj.
    destruct (skipped_ex n ctx s x (s2 ++ c :: rest) Hs) as (z & q & Hz).
    assert (Ht : tail fuel n ctx (s ++ x :: s2 ++ c :: rest) z q s) by (constructor; auto; len).
    assert (Z : tok_type z <> TMappingValue /\ (z = x /\ q = s2 ++ c :: rest \/ key ctx = true /\ tok_type z = TLineBreak)).
    { destruct (skipped_last _ _ _ _ _ _ Hz X2) as [(M & -> & ->)|(Kx & Hn)]; [auto|]. split; auto. congruence. }
    destruct Z as (Z2 & Z3).
    destruct (H m ctx k (s ++ x :: s2 ++ c :: rest) z q s sol sv b d) as (a & md & sol1 & d1 & R1 & S1 & Ha); auto; try len; [cost|].
    exists a, md, sol1, d1. split; [exact R1|]. destruct Ha as [(-> & -> & ->)|(Kx & [->|(Va & -> & Hlo)])].
    - right. split; [eapply item_valid, Hi|]. destruct Z3 as [(-> & ->)|(Kx & Hn)].
      + destruct (skipped_ex n ctx s2 c rest Hs2) as (z2 & q2 & Hz2).
        destruct (skipped_stray kind h ctx s2 c rest z2 q2 d1 Hz2 Hc) as (W1 & W2 & W3 & W4 & W5); [cost|].
        assert (Hg : may_go sv2 (c :: rest)) by (apply may_calm; destruct (stopper_facts _ C3); assumption).
        destruct (item_none kind h m ctx k z2 q2 (sol_at ctx s2) ((z2 :: q2, live (sol_at ctx s2)) :: sv2) b d1) as (d2 & R2 & S2); auto.
        apply W3 in S2. exists [], z2, q2, (sol_at ctx s2), d2. split; [|split; [clear W2 W3; cost|]].
        * intro acc. rewrite app_nil_r. assert (I1 : 1 < i) by len. assert (I2 : length s2 < fuel) by len.
          eapply (body_none kind m ctx n k i _ _ x s2 c rest z2 q2); eauto; [eapply tail_skip; eauto|eapply may_sep; eauto].
        * destruct W5 as [(-> & ->)|W5]; auto.
      + destruct (break_other kind _ Hn) as (B1 & B2 & _). exists [], z, q, (sol_at ctx s), d1. split; [|split; [cost|right; auto]].
        intro acc. rewrite app_nil_r. apply body_stop; auto; [len|]. eapply tail_skip; eauto.
    - left. split; [exact Kx|]. split; [reflexivity|]. cost.
    - right. split; [exact Va|]. destruct (left_stop kind m ctx i md _ sv2 (ind k) b d1 Hlo Hx Hl ltac:(len)) as (z2 & q2 & N & R).
      exists [], z2, q2, false, d1. split; [intro acc; rewrite app_nil_r; apply R|]. split; [cost|]. right. auto.
  Qed.

  Lemma P_items_more n kind h e ts s x s2 es ts2 : item n kind h e ts -> P_item n kind h e ts -> sep n s -> tok_type x = TCollectEntry ->
    sep n s2 -> items n kind h es ts2 -> P_items n kind h es ts2 -> P_items n kind h (e :: es) (ts ++ s ++ x :: s2 ++ ts2).
  Proof.
    intros Hi H Hs Hcx Hs2 Hes IH m ctx k i c rest sol sv sv2 b d Hx Hk Hc Hm Hm0 Hf Hfi Hu Hl Hr.
    repeat (rewrite app_length in *; cbn [length] in * ). repeat (rewrite <- app_assoc in *; cbn [app] in * ).
    destruct (comma_facts _ Hcx) as (X1 & X2 & X3 & X4). pose proof (K_pos kind h) as Hj.
    destruct (items_first _ _ _ _ _ Hes) as (y & yq & Ey & Hy). destruct (head_facts _ Hy) as (Y1 & Y2 & _).
    destruct (skipped_ex n ctx s x (s2 ++ ts2 ++ c :: rest) Hs) as (z & q & Hz).
    assert (Ht : tail fuel n ctx (s ++ x :: s2 ++ ts2 ++ c :: rest) z q s) by (constructor; auto; len).
    assert (Z : tok_type z <> TMappingValue /\ (z = x /\ q = s2 ++ ts2 ++ c :: rest \/ key ctx = true /\ tok_type z = TLineBreak)).
    { destruct (skipped_last _ _ _ _ _ _ Hz X2) as [(M & -> & ->)|(Kx & Hn)]; [auto|]. split; auto. congruence. }
    destruct Z as (Z2 & Z3).
    destruct (H m ctx k (s ++ x :: s2 ++ ts2 ++ c :: rest) z q s sol sv b d) as (a & md & sol1 & d1 & R1 & S1 & Ha); auto; try len; [cost|].
    exists a, md, sol1, d1. split; [exact R1|]. destruct Ha as [(-> & -> & ->)|(Kx & [->|(Va & -> & Hlo)])].
    - right. split; [eapply item_valid, Hi|]. destruct Z3 as [(-> & ->)|(Kx & Hn)].
      + assert (Hl2 : low sv2 (ts2 ++ c :: rest)).
        { eapply low_eq; [|exact Hl]. rewrite (bal_item _ _ _ _ _ Hi), (brk_sep _ _ _ Hs), brk_cons, Hcx. eapply brk_sep, Hs2. }
        assert (Hsk : forall sv d, runs (maybe_separate fuel ctx) (mkC (s ++ x :: s2 ++ ts2 ++ c :: rest) false sv (ind k) b d) tt
          (mkC (x :: s2 ++ ts2 ++ c :: rest) (sol_at ctx s) sv (ind k) b d)) by (intros; eapply tail_skip; eauto).
        destruct (skipped_ex n ctx s2 y (yq ++ c :: rest) Hs2) as (z2 & q2 & Hz2).
        assert (Hgo : may_go sv2 (y :: yq ++ c :: rest)) by (apply low_go; auto; rewrite Ey in Hl2; exact Hl2).
        assert (Hgo2 : may_go sv2 (s2 ++ y :: yq ++ c :: rest)) by (eapply may_sep; eauto).
        destruct (skipped_last _ _ _ _ _ _ Hz2 Y1) as [(M & -> & ->)|(Kx & Hn)].
        * destruct i as [|i]; [len|].
          destruct (IH m ctx k i c rest (sol_at ctx s2) ((ts2 ++ c :: rest, live (sol_at ctx s2)) :: sv2) sv2 b d1)
            as (a2 & md2 & sol2 & d2 & R2 & Hres); auto; try len.
          { apply under_cp. rewrite Ey in *. cbn [app] in *. apply low_under; auto. } { cost. }
          rewrite Ey in *. cbn [app] in *.
          destruct Hres as [(Kx & -> & S2)|(Va2 & es2 & z3 & q3 & sol3 & d3 & R3 & S3 & Hend)].
          -- destruct (head_other kind _ Hy) as [N1 N2].
             exists [], y, (yq ++ c :: rest), (sol_at ctx s2), d2. split; [|split; [cost|right; auto]].
             intro acc. rewrite app_nil_r. assert (I1 : 1 < S i) by len. assert (I2 : length s2 < fuel) by len.
             eapply (body_none kind m ctx n k (S i) _ _ x s2 y (yq ++ c :: rest) y (yq ++ c :: rest)); eauto.
          -- exists (a2 :: es2), z3, q3, sol3, d3. split; [|split; [cost|]].
             ++ intro acc. eapply runs_loop_more.
                ** unfold items_body. go1; [apply Hsk|]. go1; [go|]. rewrite Hcx. decide1.
                   go1; [apply runs_next, Hgo2|]. rewrite Hcx. cbn [is_start_of_line].
                   go1; [eapply skip_ok; eauto; len|]. go1; [go|]. go1; [exact R2|]. rewrite Va2. go.
                ** replace (acc ++ a2 :: es2) with ((acc ++ [a2]) ++ es2) by (rewrite <- app_assoc; reflexivity). apply R3.
             ++ destruct Hend as [(-> & -> & ->)|Hend]; auto.
        * destruct (break_other kind _ Hn) as (B1 & B2 & B3).
          pose proof (fun p => skipped_charge _ some_fuel _ _ _ _ _ _ (K kind h) p Hz2 ltac:(lia) Kx Hn Y1) as Hch.
          assert (Hr2 : room (K kind h) s2 d1) by cost.
          destruct (item_none kind h m ctx k z2 q2 (sol_at ctx s2) ((z2 :: q2, live (sol_at ctx s2)) :: sv2) b d1) as (d2 & R2 & S2); auto.
          { intro p. specialize (Hr2 p). specialize (Hch p). lia. }
          assert (S3 : spent (K kind h) s2 d1 d2) by (intro p; specialize (S2 p); specialize (Hch p); lia). clear Hch Hr2 S2.
          rewrite Ey in *. cbn [app] in *.
          exists [], z2, q2, (sol_at ctx s2), d2. split; [|split; [cost|right; auto]].
          intro acc. rewrite app_nil_r. assert (I1 : 1 < i) by len. assert (I2 : length s2 < fuel) by len.
          eapply (body_none kind m ctx n k i _ _ x s2 y (yq ++ c :: rest) z2 q2); eauto.
      + destruct (break_other kind _ Hn) as (B1 & B2 & _). exists [], z, q, (sol_at ctx s), d1. split; [|split; [cost|right; auto]].
        intro acc. rewrite app_nil_r. apply body_stop; auto; [len|]. eapply tail_skip; eauto.
    - left. split; [exact Kx|]. split; [reflexivity|]. cost.
    - right. split; [exact Va|]. destruct (left_stop kind m ctx i md _ sv2 (ind k) b d1 Hlo Hx Hl ltac:(len)) as (z2 & q2 & N & R).
      exists [], z2, q2, false, d1. split; [intro acc; rewrite app_nil_r; apply R|]. split; [cost|]. right. auto.
  Qed.

  (** ** collections *)
  Definition inner (kind : bool) (ctx : context) : context :=
    if kind then match ctx with FlowIn | FlowOut => FlowIn | _ => FlowKey end else ctx.
  Lemma inner_inside kind ctx : inside ctx = true -> inside (inner kind ctx) = true.
  Proof. destruct kind; [destruct ctx; auto|auto]. Qed.
  Definition pentries (kind : bool) (m : nat) (ctx : context) : M node :=
    if kind then parse_in_flow fuel (content m) ctx else parse_flow_mapping_entries fuel (content m) ctx.
  Lemma pentries_is kind m ctx : inside ctx = true -> pentries kind m ctx = unless_errors (
    entry <- pitem kind m (inner kind ctx) ;;
    if valid_node entry then
      entries <- loop fuel (items_body kind m (inner kind ctx)) [entry] ;;
      ret (build kind entries)
    else invalid).
  Proof. intro Hx. destruct kind; [destruct ctx; try discriminate Hx; reflexivity|reflexivity]. Qed.

  Lemma inner_key kind ctx : inside ctx = true -> key (inner kind ctx) = key ctx.
  Proof. destruct kind; [destruct ctx; try discriminate; auto|auto]. Qed.

  (** the whole, given what the entries do *)
  Lemma coll_shape kind m n ctx k o s x q z zq y yq sol sol2 sv b d d2 t : opens kind o -> inside ctx = true -> key ctx = true \/ k = n ->
    sep n s -> skipped ctx s x q z zq -> middle x = true -> length s < fuel -> low sv (x :: q) ->
    runs (content_ <- pentries kind m ctx ;;
          if valid_node content_ then commit ;; ret content_ else rollback ;; ret (build kind []))
      (mkC (z :: zq) (sol_at ctx s) ((z :: zq, live (sol_at ctx s)) :: sv) (ind k) b d) t (mkC (y :: yq) sol2 sv (ind k) b d2) ->
    (closes kind y -> calm_hd yq = true ->
      runs (content (S m) ctx) (mkC (o :: s ++ x :: q) sol sv (ind k) b d) t (mkC yq false sv (ind k) b d2)) /\
    (~ closes kind y ->
      runs (content (S m) ctx) (mkC (o :: s ++ x :: q) sol sv (ind k) b d) NInvalid (mkC (y :: yq) sol2 sv (ind k) b d2)).
  Proof.
    intros Ho Hx Hk Hs Hz Hm Hf Hl R. unfold opens in Ho.
    assert (E2 : forall s, is_start_of_line s (tok_type o) = false) by (intro; rewrite Ho; destruct kind; reflexivity).
    assert (R2 : forall (f : node -> M node) u c3, runs (f t) (mkC (y :: yq) sol2 sv (ind k) b d2) u c3 ->
      runs (content_ <- pentries kind m ctx ;;
            (content_ <- (if valid_node content_ then commit ;; ret content_ else rollback ;; ret (build kind [])) ;; f content_))
        (mkC (z :: zq) (sol_at ctx s) ((z :: zq, live (sol_at ctx s)) :: sv) (ind k) b d) u c3).
    { intros f u c3 Rf. eapply runs_join; [exact R|exact Rf]. }
    assert (Hg : may_go sv (x :: q)) by (apply low_go; auto). assert (Hg2 : may_go sv (s ++ x :: q)) by (eapply may_sep; eauto).
    assert (Hskip : runs (maybe_separate fuel ctx) (mkC (s ++ x :: q) false sv (ind k) b d) tt (mkC (z :: zq) (sol_at ctx s) sv (ind k) b d))
      by (eapply skip_ok; eauto).
    split; intro Hc.
    - intro Hcr. unfold closes in Hc.
      assert (E1 : forall s, is_start_of_line s (tok_type y) = false) by (intro; rewrite Hc; destruct kind; reflexivity).
      cbn [parse_flow_json_content]. unfold json_content_body. go1; [go|].
      destruct kind; cbn [pentries build] in R2; rewrite Ho.
      + unfold parse_flow_sequence. go1. go1; [go|]. rewrite Ho. decide1. go1; [apply runs_next, Hg2|]. rewrite E2. go1; [exact Hskip|].
        go1; [go|]. apply R2. go1; [go|]. rewrite Hc. decide1. go1; [apply runs_next, may_calm, Hcr|]. rewrite E1. go.
      + unfold parse_flow_mapping. go1. go1; [go|]. rewrite Ho. decide1. go1; [apply runs_next, Hg2|]. rewrite E2. go1; [exact Hskip|].
        go1; [go|]. apply R2. go1; [go|]. rewrite Hc. decide1. go1; [apply runs_next, may_calm, Hcr|]. rewrite E1. go.
    - unfold closes in Hc. cbn [parse_flow_json_content]. unfold json_content_body. go1; [go|].
      destruct kind; cbn [pentries build] in R2; rewrite Ho.
      + unfold parse_flow_sequence. go1. go1; [go|]. rewrite Ho. decide1. go1; [apply runs_next, Hg2|]. rewrite E2. go1; [exact Hskip|].
        go1; [go|]. apply R2. go1; [go|]. rewrite (ttype_eqb_no _ _ Hc). go.
      + unfold parse_flow_mapping. go1. go1; [go|]. rewrite Ho. decide1. go1; [apply runs_next, Hg2|]. rewrite E2. go1; [exact Hskip|].
        go1; [go|]. apply R2. go1; [go|]. rewrite (ttype_eqb_no _ _ Hc). go.
  Qed.

  Lemma opens_bare kind o : opens kind o -> bare o = true.
  Proof. unfold opens, bare. intros ->. destruct kind; reflexivity. Qed.
  (** no entries *)
  Lemma entries_none kind m ctx z q sol sol2 ts2 sv k b d d2 : inside ctx = true ->
    runs (pitem kind m (inner kind ctx)) (mkC (z :: q) sol ((z :: q, live sol) :: sv) k b d) NInvalid
      (mkC ts2 sol2 ((z :: q, live sol) :: sv) k b d2) ->
    runs (content_ <- pentries kind m ctx ;;
          if valid_node content_ then commit ;; ret content_ else rollback ;; ret (build kind []))
      (mkC (z :: q) sol ((z :: q, live sol) :: sv) k b d) (build kind []) (mkC (z :: q) sol sv k b d2).
  Proof.
    intros Hx R. mid NInvalid (mkC ts2 sol2 ((z :: q, live sol) :: sv) k b d2); [|decide1; go].
    rewrite pentries_is by exact Hx. go1. go1; [exact R|]. go.
  Qed.
  Lemma skipped_inner kind ctx s x r z q : inside ctx = true -> skipped ctx s x r z q -> skipped (inner kind ctx) s x r z q.
  Proof. intros Hx []; constructor; rewrite ?inner_key; auto. Qed.
  Lemma sol_inner kind ctx s : inside ctx = true -> sol_at (inner kind ctx) s = sol_at ctx s.
  Proof. intro Hx. unfold sol_at. rewrite inner_key by exact Hx. reflexivity. Qed.

  Lemma P_empty n kind h o s c : opens kind o -> sep n s -> closes kind c -> P_flow fuel n (deeper kind h) (build kind []) (o :: s ++ [c]).
  Proof.
    intros Ho Hs Hc. right. split; [exists o, (s ++ [c]); eauto using opens_bare|]. split; [destruct kind; reflexivity|].
    intros m ctx k rest sol sv b d Hx Hk Hcr Hm Hf Hu Hr. cbn [app tl] in *. rewrite <- app_assoc in *. cbn [app] in *.
    cbn [length] in *. rewrite app_length in *. cbn [length] in *. destruct m as [|m]; [len|].
    pose proof (J_pos (deeper kind h)) as Hj. destruct (closes_facts _ _ Hc) as (C1 & C2 & C3 & C4 & C5).
    destruct (skipped_ex n ctx s c rest Hs) as (z & q & Hz).
    destruct (skipped_stray kind h ctx s c rest z q d Hz Hc Hr) as (W1 & W2 & W3 & W4 & W5).
    destruct (item_none kind h m (inner kind ctx) k z q (sol_at ctx s) ((z :: q, live (sol_at ctx s)) :: sv) b d) as (d2 & R & S2);
      auto using inner_inside; [len|].
    assert (Hl : low sv (c :: rest)) by (eapply low_eq; [|exact Hu]; cbn [app tl]; eapply brk_sep, Hs).
    destruct (coll_shape kind m n ctx k o s c rest z q z q sol (sol_at ctx s) sv b d d2 (build kind [])) as [G1 G2]; auto; [len|eapply entries_none; eauto|].
    destruct W5 as [(-> & ->)|(Kx & N)].
    - exists (build kind []), rest, false, d2. split; [apply G1; auto|]. split; [apply W3, S2|auto].
    - exists NInvalid, (z :: q), (sol_at ctx s), d2. split; [apply G2; auto|]. split; [apply W3, S2|auto].
  Qed.
  Lemma P_full n kind h o s es ts c : opens kind o -> sep n s -> items n kind h es ts -> P_items n kind h es ts -> closes kind c ->
    P_flow fuel n (deeper kind h) (build kind es) (o :: s ++ ts ++ [c]).
  Proof.
    intros Ho Hs Hi HP Hc. right. split; [exists o, (s ++ ts ++ [c]); eauto using opens_bare|]. split; [destruct kind; reflexivity|].
    intros m ctx k rest sol sv b d Hx Hk Hcr Hm Hf Hu Hr. cbn [app tl] in *. rewrite <- !app_assoc in *. cbn [app] in *.
    cbn [length] in *. rewrite !app_length in *. cbn [length] in *. destruct m as [|m]; [len|].
    pose proof (J_pos (deeper kind h)) as Hj.
    assert (Hl : low sv (ts ++ c :: rest)) by (eapply low_eq; [|exact Hu]; cbn [app tl]; eapply brk_sep, Hs).
    destruct (items_first _ _ _ _ _ Hi) as (x & q & E & Hh). destruct (head_facts _ Hh) as (M1 & C1 & _).
    destruct (head_other kind _ Hh) as [N1 N2].
    destruct (skipped_ex n ctx s x (q ++ c :: rest) Hs) as (z & zq & Hz).
    assert (Hk2 : key (inner kind ctx) = true \/ k = n) by (rewrite inner_key; auto).
    destruct (skipped_last _ _ _ _ _ _ Hz M1) as [(M & -> & ->)|(Kx & Hn)].
    - destruct (HP m (inner kind ctx) k fuel c rest (sol_at ctx s) ((ts ++ c :: rest, live (sol_at ctx s)) :: sv) ((ts ++ c :: rest, lost) :: sv) b d)
        as (a & md & sol1 & d1 & R1 & Hres); auto using inner_inside; try len.
      { apply under_cp. rewrite E in *. cbn [app] in *. apply low_under; auto. }
      { constructor; [apply Nat.le_0_l|exact Hl]. }
      { unfold K. cost. }
      rewrite E in *. cbn [app] in *. unfold K in *.
      destruct Hres as [(Kx & -> & S1)|(Va & es2 & y & yq & sol2 & d2 & R2 & S2 & Hend)].
      + rewrite inner_key in Kx by exact Hx.
        destruct (coll_shape kind m n ctx k o s x (q ++ c :: rest) x (q ++ c :: rest) x (q ++ c :: rest) sol (sol_at ctx s) sv b d d1 (build kind [])) as [_ G2]; auto;
          [len|eapply entries_none; eauto|].
        exists NInvalid, (x :: q ++ c :: rest), (sol_at ctx s), d1. split; [apply G2, N2|]. split; [cost|auto].
      + destruct (coll_shape kind m n ctx k o s x (q ++ c :: rest) x (q ++ c :: rest) y yq sol sol2 sv b d d2 (build kind (a :: es2))) as [G1 G2]; auto; [len| |].
        { mid (build kind (a :: es2)) (mkC (y :: yq) sol2 ((x :: q ++ c :: rest, lost) :: sv) (ind k) b d2);
            [|replace (valid_node (build kind (a :: es2))) with true by (destruct kind; reflexivity); go].
          rewrite pentries_is by exact Hx. go1. go1; [exact R1|]. rewrite Va.
          apply runs_lose. go1; [exact (R2 [a])|]. go. }
        destruct Hend as [(-> & -> & ->)|(Kx & N)].
        * exists (build kind (a :: es2)), rest, false, d2. split; [apply G1; auto|]. split; [cost|auto].
        * rewrite inner_key in Kx by exact Hx.
          exists NInvalid, (y :: yq), sol2, d2. split; [apply G2, N|]. split; [cost|auto].
    - destruct (break_other kind _ Hn) as (B1 & B2 & B3).
      pose proof (fun p => skipped_charge _ some_fuel _ _ _ _ _ _ (K kind h) p Hz ltac:(unfold K; lia) Kx Hn M1) as Hch.
      assert (Hr2 : room (K kind h) s d) by (unfold K; cost).
      destruct (item_none kind h m (inner kind ctx) k z zq (sol_at ctx s) ((z :: zq, live (sol_at ctx s)) :: sv) b d) as (d2 & R2 & S2);
        auto using inner_inside; [len|intro p; specialize (Hr2 p); specialize (Hch p); lia|].
      assert (S3 : spent (K kind h) s d d2) by (intro p; specialize (S2 p); specialize (Hch p); lia). clear Hch Hr2 S2. unfold K in *.
      rewrite E in *. cbn [app] in *.
      destruct (coll_shape kind m n ctx k o s x (q ++ c :: rest) z zq z zq sol (sol_at ctx s) sv b d d2 (build kind [])) as [_ G2]; auto;
        [len|eapply entries_none; eauto|].
      exists NInvalid, (z :: zq), (sol_at ctx s), d2. split; [apply G2, B2|]. split; [cost|auto].
  Qed.

  Theorem flows_ok n :
    (forall h t ts, flow n h t ts -> P_flow fuel n h t ts) /\
    (forall kind h e ts, item n kind h e ts -> P_item n kind h e ts) /\
    (forall kind h es ts, items n kind h es ts -> P_items n kind h es ts).
  Proof.
    apply flows_ind; intros;
      [apply P_scalar|apply P_empty|eapply P_full|apply P_item_node|apply P_item_key|apply P_item_pair|apply P_items_one
      |apply P_items_last|apply P_items_more]; eassumption.
  Qed.
End Items.
