(** Evaluation of the productions for block collections on lines of their own and for values that are left out. *)
From Coq Require Import String ZArith.
From Verif Require Import Base YamlChar Token Ast Balance CPAccessor Lexer Parser ParserFlow ParserBlock ParserDocs ParserTape TextSpec TapeRules BlockParse1 BlockParse2 BlockParse3 BlockParse4 LitParse
  FlowParse1 FlowParse2 FlowParse3 FoldParse FlowParse4 LeafParse BlockParse5.
Local Open Scope parser_scope.
Local Arguments cons {A}%type_scope & _ _.
Local Arguments pair {A B}%type_scope & _ _.

Section Coll.
  Context (fuel : nat) (some_fuel : 1 < fuel).
  Let f0 : 0 < fuel. Proof. lia. Qed.
  Notation ind n := (mkInd (Z.of_nat n) StrictMode).
  Notation outer ctx := (match ctx with BlockIn | BlockOut | FlowIn | FlowOut => True | _ => False end).


  (** the value of an entry: parsed, or left out *)
  Definition pafter (kind : bool) (m : nat) : M node :=
    if kind then block fuel m true BlockIn
    else
      set_checkpoint ;;
      value <- block fuel m false BlockOut ;;
      if valid_node value then commit ;; ret value
      else
        rollback ;;
        ok <- valid (parse_comments fuel) ;;
        if ok : bool then ret NNull else invalid.
  Lemma value_unfold m : parse_block_mapping_implicit_value fuel (block fuel m false) =
    unless_errors (ty <- tok_ty ;; if ttype_eqb ty TMappingValue then next ;; pafter false m else invalid).
  Proof. reflexivity. Qed.

  Definition P_entry (o kind : bool) (n : nat) (e : node) (ts : list token) : Prop :=
    forall m tl tl2 sol sol2 sv b d, length ts + 1 <= m -> length (ts ++ tl) < fuel -> goes o (Z.of_nat n) tl tl2 sol2 ->
    (kind = false -> no_dash n tl2) -> joined ts tl -> flat sv -> fresh d (ts ++ tl) -> exists d2,
    runs (pentry fuel kind (block fuel m false) (block fuel m true)) (mkC (ts ++ tl) sol sv (ind n) b d) e
         (mkC tl2 sol2 sv (ind n) b d2) /\ fresh d2 tl2.
  Definition P_after (o kind : bool) (n : nat) (t : node) (ts : list token) : Prop :=
    forall m tl tl2 sol2 sv b d, length ts + 2 <= m -> length (ts ++ tl) < fuel -> goes o (Z.of_nat n) tl tl2 sol2 ->
    (kind = false -> no_dash n tl2) -> joined ts tl -> (kind = true -> ts = [] -> starts tl) -> flat sv -> fresh d (ts ++ tl) -> exists d2,
    runs (pafter kind m) (mkC (ts ++ tl) false sv (ind n) b d) t (mkC tl2 sol2 sv (ind n) b d2) /\ fresh d2 tl2.
  Definition P_entries (o kind : bool) (n : nat) (es : list node) (ts : list token) : Prop :=
    forall m k i tl tl2 sol sol2 sv sv2 b d, length ts + 1 <= m -> length ts <= k -> length (ts ++ tl) < fuel ->
    goes o i tl tl2 sol2 -> (i < Z.of_nat n)%Z \/ kind = true /\ (i <= Z.of_nat n)%Z /\ no_dash n tl2 -> joined ts tl ->
    flat sv -> flat sv2 -> fresh d (ts ++ tl) -> exists e rest tlm solm d1 d2,
    es = e :: rest /\
    runs (pentry fuel kind (block fuel m false) (block fuel m true)) (mkC (ts ++ tl) sol sv (ind n) b d) e
         (mkC tlm solm sv (ind n) b d1) /\ valid_node e = true /\
    (forall acc, runs (loop_go k (entries_body fuel (pentry fuel kind (block fuel m false) (block fuel m true))) acc)
         (mkC tlm solm sv2 (ind n) b d1) (acc ++ rest) (mkC tl2 sol2 sv2 (ind n) b d2)) /\
    clean kind n d2 tl2.

  Lemma compact_ok o kind n es ts m i tl tl2 sol sol2 sv b d :
    P_entries o kind n es ts -> length ts + 1 <= m -> length (ts ++ tl) < fuel ->
    goes o i tl tl2 sol2 -> (i < Z.of_nat n)%Z -> joined ts tl -> flat sv -> fresh d (ts ++ tl) -> exists d2,
    runs (compact_collection fuel (pentry fuel kind (block fuel m false) (block fuel m true)) (build kind))
         (mkC (ts ++ tl) sol sv (ind n) b d) (build kind es) (mkC tl2 sol2 sv (ind n) b d2) /\ clean kind n d2 tl2.
  Proof.
    intros H Hm Hf Hl Hi Hj Hfl Hd.
    destruct (H m fuel i tl tl2 sol sol2 sv sv b d) as (e & rest & tlm & solm & d1 & d2 & E & R1 & V & R2 & F); auto.
    { rewrite app_length in Hf. lia. }
    exists d2. split; [|exact F]. unfold compact_collection. go1. go1; [exact R1|]. rewrite V. go1; [rewrite more_unfold; apply R2|].
    subst es. go.
  Qed.

  Lemma block_coll_ok o kind n es ts m i lo sps tl tl2 sol sol2 sv b d :
    P_entries o kind n es ts -> (exists x r, ts = x :: r /\ dash_head kind x) -> length ts + 1 <= m -> length (sps ++ ts ++ tl) < fuel ->
    blanks sps -> length sps = n -> (0 <= lo + 1 <= Z.of_nat n)%Z ->
    goes o i tl tl2 sol2 -> (i < Z.of_nat n)%Z \/ kind = true /\ (i <= Z.of_nat n)%Z /\ no_dash n tl2 -> joined ts tl ->
    flat sv -> fresh d (ts ++ tl) -> exists d2,
    runs (block_collection fuel (pentry fuel kind (block fuel m false) (block fuel m true)) (build kind))
         (mkC (sps ++ ts ++ tl) sol sv (mkInd lo StrictMode) b d) (build kind es)
         (mkC tl2 sol2 sv (mkInd lo StrictMode) b d2) /\ clean kind n d2 tl2.
  Proof.
    intros H (x & r & E & Hx & _) Hm Hf Hs Hn Hlo Hl Hi Hj Hfl Hd. rewrite !app_length in Hf.
    destruct (H m fuel i tl tl2 (sol_after sps sol) sol2 sv sv b d) as (e & rest & tlm & solm & d1 & d2 & E2 & R1 & V & R2 & F); auto.
    { lia. } { rewrite app_length. lia. }
    exists d2. split; [|exact F]. unfold block_collection. go1. go1; [go|]. cbn [ind_value]. go1.
    go1.
    { go1. subst ts. cbn [app]. replace (lo + 1)%Z with (Z.of_nat (Z.to_nat (lo + 1))) by lia.
      apply indent_lower_ok; auto using solid_calm, solid_white; lia. }
    decide1. rewrite Hn. subst ts. cbn [app] in *. go1; [exact R1|]. rewrite V.
    go1; [rewrite more_unfold; apply R2|]. subst es. go.
  Qed.

  (** ** no node at the end of the line *)
  Definition stub (x : token) : Prop :=
    tok_type x <> TTag /\ tok_type x <> TAnchor /\ tok_type x <> TLiteral /\ tok_type x <> TFolded.
  Lemma dull_stub z : dull z -> stub z.
  Proof. intros [E|[E|E]]; unfold stub; rewrite E; repeat split; discriminate. Qed.
  Lemma solid_stub x : solid x = true -> stub x.
  Proof. unfold solid, stub. destruct (tok_type x); try discriminate; repeat split; discriminate. Qed.
  Lemma block_scalar_stub ctx v m ts sol a z q s sv b d : stub z ->
    runs (parse_separate fuel ctx) (mkC ts sol sv (mkInd (v + 1) m) b d) a (mkC (z :: q) s sv (mkInd (v + 1) m) b d) ->
    runs (parse_block_scalar fuel ctx) (mkC ts sol sv (mkInd v m) b d) NInvalid (mkC (z :: q) s sv (mkInd v m) b d).
  Proof.
    intros (B1 & B2 & B3 & B4) H.
    unfold parse_block_scalar. go1. go1; [go|]. go1; [go1; exact H|]. destruct (valid_node a).
    - cbv iota. go1; [go|]. go1; [apply properties_no; auto|].
      mid NNil (mkC (z :: q) s sv (mkInd (v + 1) m) b d); [go|]. go1; [go|].
      replace (v + 1 + -1)%Z with v by lia. go1; [go|].
      mid NInvalid (mkC (z :: q) s sv (mkInd v m) b d); [|go].
      destruct (tok_type z); try congruence; exact (runs_invalid _).
    - cbv iota. go1; [go|]. replace (v + 1 + -1)%Z with v by lia. exact (runs_invalid _).
  Qed.
  Lemma no_properties ctx ts sol a z q s sv i b d : stub z ->
    runs (if valid_node a : bool then
            properties <- parse_properties fuel ctx ;;
            if valid_node properties then commit ;; ret properties else rollback ;; ret NNil
          else rollback ;; ret NNil) (mkC (z :: q) s ((ts, live sol) :: sv) i b d) NNil (mkC ts sol sv i b d).
  Proof.
    intros (B1 & B2 & B3 & B4). destruct (valid_node a).
    - cbv iota. go1; [apply properties_no; auto|]. go.
    - cbv iota. go.
  Qed.

  (** the value is left out: the next line belongs to something else *)
  Lemma block_node_none bn bi ctx n tl tl2 sol2 sps z q sv b d :
    ctx = BlockIn \/ ctx = BlockOut /\ no_dash n tl2 -> lands (Z.of_nat n) tl tl2 sol2 -> length tl <= fuel ->
    tl = sps ++ z :: q -> blanks sps -> dull z -> room 1 [z] d -> exists ts3 d2,
    runs (block_node_body fuel bn bi ctx) (mkC tl false sv (ind n) b d) NInvalid (mkC ts3 false sv (ind n) b d2) /\ spent 1 [z] d d2.
  Proof.
    intros Hctx Hl Hf E Hs Hz Hr.
    assert (Hcx : outer ctx) by (destruct Hctx as [-> |[-> _]]; exact I).
    assert (Sep : forall c sv d, outer c -> exists a,
      runs (parse_separate fuel c) (mkC tl false sv (ind (S n)) b d) a (mkC (z :: q) false sv (ind (S n)) b d)).
    { intros c sv0 d0 Hc. eapply (separate_lands fuel some_fuel c (Z.of_nat n)); eauto; lia. }
    destruct (dull_bare _ Hz) as (Z0 & Zj & Z1 & Z2 & Z3 & Z4 & Z5 & Z6).
    assert (Flow : exists ts3 d2, runs (parse_flow_in_block fuel) (mkC tl false sv (ind n) b d) NInvalid (mkC ts3 false sv (ind n) b d2) /\ spent 1 [z] d d2).
    { destruct (plain_mark fuel FlowOut z q false ((z :: q, live false) :: (z :: q, live false) :: sv) (ind (S n)) b d) as (d2 & R & Sd); auto.
      destruct (Sep FlowOut sv d I) as (a & Ra). destruct (valid_node a) eqn:Va.
      - exists (z :: q), d2. split; [|exact Sd]. unfold parse_flow_in_block. go1; [go|]. cbn [ind_value].
        replace (Z.of_nat n + 1)%Z with (Z.of_nat (S n)) by nums. go1. go1; [go|].
        go1; [go1; exact Ra|]. rewrite Va. go1; [eapply node_none; [exact Z0|exact R|apply json_no; auto]|]. go.
      - exists (z :: q), d. split; [|apply spent_none; lia]. unfold parse_flow_in_block. go1; [go|]. cbn [ind_value].
        replace (Z.of_nat n + 1)%Z with (Z.of_nat (S n)) by nums. go1. go1; [go|].
        go1; [go1; exact Ra|]. rewrite Va. go. }
    destruct Flow as (ts3 & d2 & R & Sd). exists ts3, d2. split; [|exact Sd].
    destruct (lands_point _ _ _ _ Hl) as (sp2 & x & r & E2 & H1 & H2 & H3 & H4 & H5 & H6).
    assert (Hle : length sp2 <= n) by (destruct H5 as [-> |H5]; [apply Nat.le_0_l|lia]).
    unfold block_node_body. go1. go1; [go|].
    mid NInvalid (mkC (x :: r) (sol_after sp2 sol2) ((tl, live false) :: sv) (ind n) b d).
    2:{ decide1. go1; [go|]. go1; [exact R|]. go. }
    unfold parse_block_in_block. go1. go1; [go|].
    mid NInvalid (mkC (z :: q) false ((tl, live false) :: (tl, live false) :: sv) (ind n) b d).
    { destruct (Sep ctx ((tl, live false) :: (tl, live false) :: sv) d Hcx) as (a & Ra).
      eapply block_scalar_stub; [apply dull_stub, Hz|]. replace (Z.of_nat n + 1)%Z with (Z.of_nat (S n)) by nums. exact Ra. }
    decide1. go1; [go|].
    mid NInvalid (mkC (x :: r) (sol_after sp2 sol2) ((tl, live false) :: sv) (ind n) b d); [|go].
    destruct (Sep ctx ((tl, live false) :: (tl, live false) :: sv) d Hcx) as (a & Ra).
    unfold parse_block_collection. go1. go1; [go|]. go1; [go|].
    replace (Z.of_nat n + 1)%Z with (Z.of_nat (S n)) by nums. go1; [go1; exact Ra|]. go1; [apply no_properties, dull_stub, Hz|].
    go1; [go|]. replace (Z.of_nat (S n) + -1)%Z with (Z.of_nat n) by nums.
    go1; [go1; eapply comments_lands; [exact some_fuel|exact Hl|exact Hf]|]. decide1. go1; [go|]. clear Sep Ra. rewrite E2 in *.
    mid NInvalid (mkC (x :: r) (sol_after sp2 sol2) ((sp2 ++ x :: r, live sol2) :: (tl, live false) :: sv) (ind n) b d).
    { destruct Hctx as [-> |[-> Hnd]]; cbn [parse_seq_space].
      - unfold parse_block_sequence. apply coll_short; auto. nums.
      - go1; [go|].
        mid NInvalid (mkC (x :: r) (sol_after sp2 sol2) ((sp2 ++ x :: r, live sol2) :: (tl, live false) :: sv) (mkInd (Z.of_nat n + -1) StrictMode) b d).
        { destruct (le_lt_dec n (length sp2)) as [En|En].
          - apply block_seq_no; auto; [eapply Hnd; eauto; nums|nums|nums].
          - unfold parse_block_sequence. apply coll_short; auto. nums. }
        go1; [go|]. replace (Z.of_nat n + -1 + 1)%Z with (Z.of_nat n) by nums. go. }
    decide1. go1; [go|]. unfold parse_block_mapping. go1; [apply coll_short; auto; nums|]. go.
  Qed.

  (** ** a collection where it begins *)
  Lemma coll_ok o kind n es ts m i ctx lo sps tl tl2 sol2 sv b d p :
    P_entries o kind n es ts -> (exists x r, ts = x :: r /\ dash_head kind x) -> length ts + 1 <= m ->
    length (sps ++ ts ++ tl) < fuel -> blanks sps -> length sps = n ->
    (0 <= lo + 1 <= Z.of_nat n)%Z \/ ctx = BlockOut /\ kind = true /\ lo = Z.of_nat n ->
    ctx = BlockIn \/ ctx = BlockOut /\ (0 <= lo)%Z ->
    goes o i tl tl2 sol2 -> (i < Z.of_nat n)%Z \/ kind = true /\ (i <= Z.of_nat n)%Z /\ no_dash n tl2 -> joined ts tl ->
    flat sv -> fresh d (ts ++ tl) -> exists d2, runs
      (set_checkpoint ;;
       collection <- parse_seq_space fuel (block fuel m true) ctx ;;
       if valid_node collection then commit ;; ret (new_content p collection)
       else
          rollback ;;
          collection <- parse_block_mapping fuel (block fuel m false) (block fuel m true) ;;
          if valid_node collection then ret (new_content p collection) else invalid)
      (mkC (sps ++ ts ++ tl) true sv (mkInd lo StrictMode) b d) (new_content p (build kind es))
      (mkC tl2 sol2 sv (mkInd lo StrictMode) b d2) /\ clean kind n d2 tl2.
  Proof.
    intros H (x & r & E & Hx & Hk) Hm Hf Hs Hn Hlo Hctx Hl Hi Hj Hfl Hd. rewrite !app_length in Hf.
    set (lo2 := match ctx with BlockOut => (lo - 1)%Z | _ => lo end).
    destruct kind.
      - destruct (block_coll_ok o true n es ts m i lo2 sps tl tl2 true sol2 ((sps ++ ts ++ tl, lost) :: sv) b d) as (d2 & R & F); auto.
        { exists x, r. unfold dash_head. auto. } { rewrite !app_length. lia. }
        { subst lo2. destruct Hctx as [-> |[-> H0]]; destruct Hlo as [Hlo|(A & _ & ->)]; try discriminate A; lia. }
        exists d2. split; [|exact F]. go1; [go|]. apply runs_lose.
        mid (NSequence es) (mkC tl2 sol2 ((sps ++ ts ++ tl, lost) :: sv) (mkInd lo StrictMode) b d2); [|go].
        destruct Hctx as [-> |[-> H0]]; cbn [parse_seq_space].
        + exact R.
        + subst lo2. go1; [go|]. go1; [exact R|]. go1; [go|]. replace (lo - 1 + 1)%Z with lo by lia. go.
      - destruct Hlo as [Hlo|(_ & A & _)]; [|discriminate A].
        destruct (block_coll_ok o false n es ts m i lo sps tl tl2 true sol2 sv b d) as (d2 & R & F); auto.
        { exists x, r. unfold dash_head. auto. } { rewrite !app_length. lia. }
        exists d2. split; [|exact F]. go1; [go|].
        mid NInvalid (mkC (ts ++ tl) (sol_after sps true) ((sps ++ ts ++ tl, live true) :: sv) (mkInd lo StrictMode) b d).
        { subst ts. cbn [app].
          assert (Re : forall s, reach sps s (x :: r ++ tl)) by (intro; apply reach_calm, solid_calm, Hx).
          destruct Hctx as [-> |[-> H0]]; cbn [parse_seq_space].
          - apply block_seq_no; auto using solid_white; lia.
          - go1; [go|]. go1; [apply block_seq_no; auto using solid_white; lia|]. go1; [go|]. replace (lo + -1 + 1)%Z with lo by lia. go. }
        decide1. go1; [go|]. go1; [exact R|]. go.
  Qed.

  (** ** a collection on lines of its own *)
  Lemma node_block o kind n es ts m i ctx lo pre sps tl tl2 sol0 sol2 sv b d :
    P_entries o kind n es ts -> (exists x r, ts = x :: r /\ dash_head kind x) -> length ts + 1 <= m ->
    length (pre ++ sps ++ ts ++ tl) < fuel -> blanks sps -> length sps = n ->
    (0 <= lo + 1 <= Z.of_nat n)%Z \/ ctx = BlockOut /\ kind = true /\ lo = Z.of_nat n /\ gap pre ->
    ctx = BlockIn \/ ctx = BlockOut /\ (0 <= lo)%Z -> opening pre sol0 ->
    goes o i tl tl2 sol2 -> (i < Z.of_nat n)%Z \/ kind = true /\ (i <= Z.of_nat n)%Z /\ no_dash n tl2 -> joined ts tl ->
    flat sv -> fresh d (ts ++ tl) -> exists d2,
    runs (block_node_body fuel (block fuel m false) (block fuel m true) ctx)
         (mkC (pre ++ sps ++ ts ++ tl) sol0 sv (mkInd lo StrictMode) b d) (build kind es)
         (mkC tl2 sol2 sv (mkInd lo StrictMode) b d2) /\ clean kind n d2 tl2.
  Proof.
    intros H (x & r & E & Hx & Hk) Hm Hf Hs Hn Hlo Hctx Ho Hl Hi Hj Hfl Hd. rewrite !app_length in Hf.
    assert (Hcx : outer ctx) by (destruct Hctx as [-> |[-> _]]; exact I).
    set (all := pre ++ sps ++ ts ++ tl).
    (* what looks for a block scalar or for properties *)
    assert (Sep : forall sv, exists a y q s, stub y /\
       runs (parse_separate fuel ctx) (mkC all sol0 sv (mkInd (lo + 1) StrictMode) b d) a
         (mkC (y :: q) s sv (mkInd (lo + 1) StrictMode) b d)).
    { intro sv0. destruct Hlo as [Hlo|(_ & _ & -> & Hg)].
      - exists (NBasic IndentType), x, (r ++ tl), (sol_after sps true). split; [apply solid_stub, Hx|].
        subst all ts. cbn [app]. replace (lo + 1)%Z with (Z.of_nat (Z.to_nat (lo + 1))) by lia.
        apply sep_open; auto using solid_middle; [lia|rewrite app_length; lia|apply reach_calm, solid_calm, Hx].
      - destruct Ho as [[-> _]|[_ ->]]; [inversion Hg as [u nl l _ _ _ Eu]; destruct u; discriminate|].
        assert (L : lands (Z.of_nat n) all (sps ++ ts ++ tl) true) by (subst all ts; cbn [app]; apply lands_line; auto; lia).
        destruct (lands_start _ _ _ _ L) as (sp2 & z & q & Ez & Hs2 & Hz & _).
        destruct (separate_lands fuel some_fuel ctx (Z.of_nat n) (S n) all (sps ++ ts ++ tl) true sp2 z (q ++ sps ++ ts ++ tl) sv0 b d) as (a & Ra);
          auto; try lia; [subst all; rewrite !app_length; lia|].
        exists a, z, (q ++ sps ++ ts ++ tl), false. split; [apply dull_stub, Hz|].
        replace (Z.of_nat n + 1)%Z with (Z.of_nat (S n)) by nums. exact Ra. }
    assert (Com : forall sv, runs (parse_comments fuel) (mkC all sol0 sv (mkInd lo StrictMode) b d) (NBasic CommentType)
      (mkC (sps ++ ts ++ tl) true sv (mkInd lo StrictMode) b d)).
    { intro sv0. subst all ts. cbn [app]. apply comments_open; auto using solid_middle; [rewrite app_length; lia|apply reach_calm, solid_calm, Hx]. }
    set (sv1 := (all, lost) :: sv).
    assert (Hfl1 : flat sv1) by (apply flat_lost, Hfl).
    destruct (coll_ok o kind n es ts m i ctx lo sps tl tl2 sol2 sv1 b d NNil) as (d2 & R & F); auto.
    { exists x, r. unfold dash_head. auto. } { rewrite !app_length. lia. } { destruct Hlo as [Hlo|(? & ? & ? & _)]; auto. }
    exists d2. split; [|exact F].
    unfold block_node_body. go1. go1; [go|]. apply runs_lose. fold sv1.
    mid (build kind es) (mkC tl2 sol2 sv1 (mkInd lo StrictMode) b d2).
    2:{ rewrite build_valid. unfold sv1. go. }
    unfold parse_block_in_block. go1. go1; [go|].
    destruct (Sep ((all, live sol0) :: sv1)) as (a & y & q & s & Hy & Ra).
    mid NInvalid (mkC (y :: q) s ((all, live sol0) :: sv1) (mkInd lo StrictMode) b d).
    { eapply block_scalar_stub; [exact Hy|exact Ra]. }
    decide1. go1; [go|].
    mid (build kind es) (mkC tl2 sol2 sv1 (mkInd lo StrictMode) b d2).
    2:{ rewrite build_valid. go. }
    unfold parse_block_collection. go1. go1; [go|]. go1; [go|]. go1; [go1; exact Ra|].
    go1; [apply no_properties, Hy|].
    go1; [go|]. replace (lo + 1 + -1)%Z with lo by lia.
    go1; [go1; apply Com|]. decide1. exact R.
  Qed.
End Coll.
