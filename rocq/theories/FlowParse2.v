(** Evaluation of the productions for flow collections. *)
From Coq Require Import String ZArith.
From Verif Require Import Base YamlChar Token Ast Balance CPAccessor Lexer Parser ParserFlow ParserBlock ParserDocs ParserTape TextSpec TapeRules
  BlockParse1 BlockParse2 BlockParse3 BlockParse4 FlowParse1.
Local Open Scope parser_scope.
Local Arguments cons {A}%type_scope & _ _.
Local Arguments pair {A B}%type_scope & _ _.

(** ** tokens of flow collections ([true]: a sequence, [false]: a mapping).  The number bounds how
    deep sequences are nested. *)
Definition opens (kind : bool) (o : token) : Prop := tok_type o = if kind then TSequenceStart else TMappingStart.
Definition closes (kind : bool) (c : token) : Prop := tok_type c = if kind then TSequenceEnd else TMappingEnd.
Definition is_plain (ts : list token) : Prop := exists s, plain s ts.

(** Lines within a collection are indented by [n]. *)
Inductive flow (n : nat) : nat -> node -> list token -> Prop :=
| flow_scalar h t ts : scalar t ts -> flow n h t ts
| flow_empty kind h o s c : opens kind o -> sep n s -> closes kind c ->
    flow n (deeper kind h) (build kind []) (o :: s ++ [c])
| flow_items kind h o s es ts c : opens kind o -> sep n s -> items n kind h es ts -> closes kind c ->
    flow n (deeper kind h) (build kind es) (o :: s ++ ts ++ [c])
with item (n : nat) : bool -> nat -> node -> list token -> Prop :=
| item_node h t ts : flow n h t ts -> item n true h t ts
| item_key h k ts : scalar k ts -> item n false h (NEntry k NNull) ts
| item_pair kind h k kts sp1 c sp2 t ts : scalar k kts -> blanks sp1 -> tok_type c = TMappingValue -> blanks sp2 ->
    (is_plain kts -> sp2 <> []) -> flow n h t ts -> item n kind h (NEntry k t) (kts ++ sp1 ++ c :: sp2 ++ ts)
with items (n : nat) : bool -> nat -> list node -> list token -> Prop :=
| items_one kind h e ts s : item n kind h e ts -> sep n s -> items n kind h [e] (ts ++ s)
| items_last kind h e ts s c s2 : item n kind h e ts -> sep n s -> tok_type c = TCollectEntry -> sep n s2 ->
    items n kind h [e] (ts ++ s ++ c :: s2)
| items_more kind h e ts s c s2 es ts2 : item n kind h e ts -> sep n s -> tok_type c = TCollectEntry -> sep n s2 ->
    items n kind h es ts2 -> items n kind h (e :: es) (ts ++ s ++ c :: s2 ++ ts2).

Scheme flow_mut := Minimality for flow Sort Prop
  with item_mut := Minimality for item Sort Prop
  with items_mut := Minimality for items Sort Prop.
Combined Scheme flows_ind from flow_mut, item_mut, items_mut.

(** ** balance *)
Lemma bal_coll kind o c ts : opens kind o -> closes kind c -> bal ts -> bal (o :: ts ++ [c]).
Proof.
  intros Ho Hc Hb tl. cbn [app]. rewrite <- app_assoc. rewrite brk_cons, Hb. cbn [app]. rewrite brk_cons.
  unfold opens, closes in *. destruct kind; rewrite Ho, Hc; destruct (brk tl); reflexivity.
Qed.
Lemma brk_sep n s r : sep n s -> brk (s ++ r) = brk r.
Proof. intro H. apply brk_mild. eapply sep_mild, H. Qed.
Lemma bal_sep n s : sep n s -> bal s.
Proof. intros H r. eapply brk_sep, H. Qed.
Lemma bal_flows n :
  (forall h t ts, flow n h t ts -> bal ts) /\
  (forall kind h e ts, item n kind h e ts -> bal ts) /\
  (forall kind h es ts, items n kind h es ts -> bal ts).
Proof.
  apply flows_ind; intros; repeat first [apply bal_cons; [is_quiet|] | apply bal_app]; eauto using bal_scalar, bal_blanks, bal_coll, bal_sep.
  change (o :: s ++ ts ++ [c]) with (o :: s ++ (ts ++ [c])). rewrite app_assoc.
  eapply bal_coll; eauto using bal_app, bal_sep.
Qed.
Definition bal_flow n := proj1 (bal_flows n).
Definition bal_item n := proj1 (proj2 (bal_flows n)).
Definition bal_items n := proj2 (proj2 (bal_flows n)).

Lemma scalar_quiet t ts : scalar t ts -> Forall (fun t => quiet t = true) ts.
Proof.
  intros [s ts2 H|o ts2 c H1 H2 H3|o ts2 c H1 H2 H3].
  - eapply texty_quiet, plain_texts, H.
  - constructor; [is_quiet|]. apply Forall_app. split; [|constructor; [is_quiet|constructor]].
    apply texty_quiet. eapply Forall_impl; [|exact H2]. apply fits_texty.
  - constructor; [is_quiet|]. apply Forall_app. split; [|constructor; [is_quiet|constructor]].
    apply texty_quiet. eapply Forall_impl; [|exact H2]. apply fits_texty.
Qed.

(** ** heads *)
Definition head (x : token) : bool :=
  match tok_type x with TString | TSingleQuote | TDoubleQuote | TSequenceStart | TMappingStart => true | _ => false end.
Lemma scalar_first t ts : scalar t ts -> exists x r, ts = x :: r /\ head x = true.
Proof.
  intro H. destruct (scalar_head _ _ H) as (x & r & E & Hs & Hd). exists x, r. split; [exact E|].
  unfold solid, head in *. destruct (tok_type x); congruence.
Qed.
Lemma flow_first n h t ts : flow n h t ts -> exists x r, ts = x :: r /\ head x = true.
Proof.
  intros [h2 t2 ts2 H|kind h2 o sps c Ho _ _|kind h2 o sps es ts2 c Ho _ _ _]; [eapply scalar_first, H| |];
    eexists; eexists; (split; [reflexivity|]); unfold head, opens in *; rewrite Ho; destruct kind; reflexivity.
Qed.
Lemma item_first n kind h e ts : item n kind h e ts -> exists x r, ts = x :: r /\ head x = true.
Proof.
  intros [h2 t ts2 H|h2 k ts2 H|kind2 h2 k kts sp1 c sp2 t ts2 H _ _ _ _ _]; [eapply flow_first, H|eapply scalar_first, H|].
  destruct (scalar_first _ _ H) as (x & r & -> & Hx). eexists; eexists. split; [reflexivity|exact Hx].
Qed.
Lemma items_first n kind h es ts : items n kind h es ts -> exists x r, ts = x :: r /\ head x = true.
Proof.
  intros [k2 h2 e ts2 sps H _|k2 h2 e ts2 sps c sp2 H _ _ _|k2 h2 e ts2 sps c sp2 es2 ts3 H _ _ _ _];
    destruct (item_first _ _ _ _ _ H) as (x & r & -> & Hx); eexists; eexists; (split; [reflexivity|exact Hx]).
Qed.
Lemma head_facts x : head x = true -> middle x = true /\ closer x = false /\ tok_type x <> TAlias /\ tok_type x <> TTag /\
  tok_type x <> TAnchor /\ tok_type x <> TMappingKey /\ tok_type x <> TMappingValue.
Proof. unfold head, middle, closer. destruct (tok_type x); try discriminate; repeat split; discriminate. Qed.
Lemma plain_no_json s x r : plain s (x :: r) -> no_json (tok_type x) = true.
Proof. intro P. destruct (plain_head _ _ P) as (w & q & [= <- _] & [W _]). rewrite W. reflexivity. Qed.

(** what follows an item *)
Definition ender (y : token) : bool :=
  match tok_type y with TCollectEntry | TSequenceEnd | TMappingEnd => true | _ => false end.
Lemma ender_facts y : ender y = true -> stopper y = true /\ tok_type y <> TMappingValue.
Proof. unfold ender, stopper. destruct (tok_type y); try discriminate; split; first [reflexivity | discriminate]. Qed.
Lemma closes_ender kind c : closes kind c -> ender c = true /\ bare c = true /\ no_json (tok_type c) = true.
Proof. unfold closes, ender, bare. destruct kind; intros ->; auto. Qed.

Definition J (h : nat) : Z := (2 ^ Z.of_nat h)%Z.
Definition K (kind : bool) (h : nat) : Z := J (deeper kind h).
Lemma J_pos h : (1 <= J h)%Z.
Proof. unfold J. apply (Z.pow_le_mono_r 2 0); lia. Qed.
Lemma J_next h : J (S h) = (2 * J h)%Z.
Proof. unfold J. rewrite Nat2Z.inj_succ, Z.pow_succ_r; lia. Qed.

Section Collections.
  Context (fuel : nat) (some_fuel : 1 < fuel).
  Let f0 : 0 < fuel. Proof. lia. Qed.
  Notation content m := (parse_flow_json_content fuel m).
  Notation ind n := (mkInd (Z.of_nat n) StrictMode).

  Lemma content_no m ctx x r sol sv i b d : no_json (tok_type x) = true -> 0 < m ->
    runs (content m ctx) (mkC (x :: r) sol sv i b d) NInvalid (mkC (x :: r) sol sv i b d).
  Proof.
    intros H Hm. destruct m as [|m]; [lia|]. cbn [parse_flow_json_content]. unfold json_content_body.
    go1; [go|]. destruct (tok_type x); try discriminate; go.
  Qed.
  Lemma content_quoted m ctx n t ts y r sol sv b d : 0 < m ->
    inside ctx = true -> scalar t ts -> (forall s, ~ plain s ts) -> calm y = true -> length ts < fuel ->
    runs (content m ctx) (mkC (ts ++ y :: r) sol sv (ind n) b d) t (mkC (y :: r) false sv (ind n) b d).
  Proof.
    intros Hm Hx Hs Hn Hc Hf. destruct m as [|m]; [lia|]. cbn [parse_flow_json_content]. unfold json_content_body.
    destruct Hs as [s ts H|o ts c H1 H2 H3|o ts c H1 H2 H3].
    - destruct (Hn s). exact H.
    - cbn [app]. rewrite <- app_assoc. cbn [app]. go1; [go|]. rewrite H1. unfold parse_single_quoted.
      apply (quoted fuel f0 TSingleQuote CsSingleQuoted SingleQuoting ctx n o ts c y r sol sv b d); auto; [left; reflexivity|].
      cbn in Hf. rewrite app_length in Hf. lia.
    - cbn [app]. rewrite <- app_assoc. cbn [app]. go1; [go|]. rewrite H1. unfold parse_double_quoted.
      apply (quoted fuel f0 TDoubleQuote CsDoubleQuoted DoubleQuoting ctx n o ts c y r sol sv b d); auto; [right; reflexivity|].
      cbn in Hf. rewrite app_length in Hf. lia.
  Qed.

  (** ** what is shown of nodes: within a key, where no line breaks are allowed, they may fail *)
  Definition P_json (n h : nat) (t : node) (ts : list token) : Prop :=
    forall m ctx k rest sol sv b d, inside ctx = true -> key ctx = true \/ k = n -> calm_hd rest = true -> length ts <= m -> length ts < fuel ->
      under sv (ts ++ rest) -> room (J h) (tl ts) d -> exists a ts2 sol2 d2,
      runs (content m ctx) (mkC (ts ++ rest) sol sv (ind k) b d) a (mkC ts2 sol2 sv (ind k) b d2) /\ spent (J h) (tl ts) d d2 /\
      (a = t /\ ts2 = rest /\ sol2 = false \/ key ctx = true /\ a = NInvalid).
  Definition P_flow (n h : nat) (t : node) (ts : list token) : Prop :=
    (exists s, t = NText s UnknownQuoting /\ plain s ts) \/
    ((exists x r, ts = x :: r /\ bare x = true) /\ valid_node t = true /\ P_json n h t ts).

  Lemma P_scalar n h t ts : scalar t ts -> P_flow n h t ts.
  Proof.
    intro H. destruct (scalar_cases _ _ H) as [(s & -> & P)|(NP & x & r & E & Q)]; [left; eauto|right].
    repeat split.
    - exists x, r. split; [exact E|]. unfold bare. destruct Q as [-> | ->]; reflexivity.
    - eapply scalar_valid, H.
    - intros m ctx k rest sol sv b d Hx _ Hc Hm Hf _ _. exists t, rest, false, d.
      split; [|split; [apply spent_none; pose proof (J_pos h); lia|left; auto]].
      destruct rest as [|y q]; [discriminate|]. apply content_quoted; auto. subst ts. cbn in Hm. lia.
  Qed.

  Lemma node_ok n h t ts : P_flow n h t ts -> forall m ctx k rest z q s sol sv b d,
    inside ctx = true -> key ctx = true \/ k = n -> tail fuel n ctx rest z q s -> length ts <= m -> length ts < fuel ->
    under sv (ts ++ rest) -> room (J h) ts d -> exists a ts2 sol2 d2,
    runs (parse_flow_node fuel (content m) ctx) (mkC (ts ++ rest) sol sv (ind k) b d) a
         (mkC ts2 sol2 sv (ind k) b d2) /\ spent (J h) ts d d2 /\
    (a = t /\ ts2 = rest /\ sol2 = false \/ key ctx = true /\ a = NInvalid /\ ts2 = ts ++ rest /\ sol2 = sol).
  Proof.
    intros H m ctx k rest z q0 s sol sv b d Hx Hk Ht Hm Hf Hu Hr. pose proof (J_pos h) as Hj.
    destruct H as [(s1 & -> & P)|((x & q & -> & Hb) & V & HJ)].
    - exists (NText s1 UnknownQuoting), rest, false, d. split; [|split; [apply spent_none; lia|left; auto]].
      assert (R : forall sv, runs (parse_plain fuel ctx) (mkC (ts ++ rest) sol sv (ind k) b d) (NText s1 UnknownQuoting)
        (mkC rest false sv (ind k) b d)) by (intro; eapply tail_plain; eauto).
      destruct (plain_head _ _ P) as (w & q & -> & [W _]). apply node_plain; auto. congruence.
    - cbn [app] in *.
      destruct (plain_mark fuel ctx x (q ++ rest) sol
        ((x :: q ++ rest, sol) :: (x :: q ++ rest, sol) :: sv) (ind k) b d Hx Hb) as (d1 & R1 & S1); [cost|].
      destruct (HJ m ctx k rest sol ((x :: q ++ rest, sol) :: sv) b d1) as (a & ts2 & sol2 & d2 & R2 & S2 & [(-> & -> & ->)|(Kx & ->)]); auto.
      { eapply tail_calm, Ht. }
      { cost. }
      + exists t, rest, false, d2. split; [|split; [cost|left; auto]]. eapply node_json; eauto.
      + exists NInvalid, (x :: q ++ rest), sol, d2. split; [|split; [cost|right; auto]]. eapply node_fails; eauto.
  Qed.

  (** ** values of pairs *)
  Lemma brk_seg ts rest : Forall (fun t => quiet t = true) ts -> brk (ts ++ rest) = brk rest.
  Proof. intro H. apply bal_quiet, H. Qed.

  Lemma under_before sp x z sv sol : blanks sp -> closer x = false -> low sv (x :: z) -> under ((sp ++ x :: z, sol) :: sv) (x :: z).
  Proof.
    intros Hs Hc Hl. destruct sp as [|s sp]; [apply under_cp, low_under; auto|]. constructor; [|apply low_under; auto].
    etransitivity; [apply height_le|]. cbn [fst app tl]. unfold depth. inversion Hs; subst. rewrite brk_blanks by assumption.
    apply (depth_down x z Hc).
  Qed.
  Lemma low_before sp x z sv sol : blanks sp -> sp <> [] -> low sv (x :: z) -> low ((sp ++ x :: z, sol) :: sv) (x :: z).
  Proof.
    intros Hs Hn Hl. destruct sp as [|s sp]; [congruence|]. constructor; [|exact Hl].
    etransitivity; [apply height_le|]. cbn [fst app tl]. unfold depth. inversion Hs; subst. rewrite brk_blanks by assumption. apply le_n.
  Qed.
  Lemma reach_low sp sv x z : middle x = true -> low sv (x :: z) -> reach sp sv (x :: z).
  Proof. intros M H. right. apply low_go; assumption. Qed.
  Lemma maybe_sep_before ctx sp x z sv i b d : inside ctx = true -> blanks sp -> middle x = true -> low sv (x :: z) -> length sp < fuel ->
    runs (maybe_separate fuel ctx) (mkC (sp ++ x :: z) false sv i b d) tt (mkC (x :: z) false sv i b d).
  Proof. intros. apply maybe_separate_ok; auto using reach_low. Qed.

  Section Value.
    Context (n h : nat) (t : node) (x : token) (q : list token) (H : P_flow n h t (x :: q)) (V : valid_node t = true)
      (m : nat) (ctx : context) (k : nat) (c : token) (sp2 : list token) (rest : list token) (z : token) (q0 s : list token).
    Context (Hx : inside ctx = true) (Hk : key ctx = true \/ k = n) (Hc : tok_type c = TMappingValue) (Hs2 : blanks sp2)
      (Ht : tail fuel n ctx rest z q0 s)
      (Hm : length (x :: q) <= m) (Hf : length (x :: q) < fuel) (Hf3 : length sp2 < fuel)
      (Hh : head x = true).
    Let all := x :: q ++ rest.

    Lemma value_low sv : low sv (c :: sp2 ++ all) -> low sv all.
    Proof. apply low_eq. rewrite brk_cons, Hc. apply brk_blanks, Hs2. Qed.

    Lemma separate_value_ok sv b d : sp2 <> [] -> low sv (c :: sp2 ++ all) -> room (J h) (x :: q) d -> exists a ts2 d2,
      runs (parse_flow_mapping_separate_value fuel (content m) ctx) (mkC (c :: sp2 ++ all) false sv (ind k) b d) a
        (mkC ts2 false sv (ind k) b d2) /\ spent (J h) (x :: q) d d2 /\
      valid_node a = true /\ (a = t /\ ts2 = rest \/ key ctx = true /\ ts2 = sp2 ++ all).
    Proof.
      intros Hne Hl Hr. apply value_low in Hl. destruct (head_facts _ Hh) as (M1 & C1 & _).
      destruct (node_ok n h t _ H m ctx k rest z q0 s false ((sp2 ++ all, false) :: sv) b d) as (a & ts2 & sol2 & d2 & R & S & Ha); auto.
      { apply under_before; auto. }
      assert (G : runs (value <- parse_flow_node fuel (content m) ctx ;; (if valid_node value then commit ;; ret value else rollback ;; ret NNull))
        (mkC all false ((sp2 ++ all, false) :: sv) (ind k) b d) (if valid_node a then t else NNull)
        (mkC (if valid_node a then rest else sp2 ++ all) false sv (ind k) b d2)).
      { go1; [exact R|]. destruct Ha as [(-> & -> & ->)|(Kx & -> & -> & ->)]; [rewrite V|cbn [valid_node]]; go. }
      exists (if valid_node a then t else NNull), (if valid_node a then rest else sp2 ++ all), d2. split; [|split; [exact S|]].
      - unfold parse_flow_mapping_separate_value. go1. go1; [go|]. rewrite Hc. decide1.
        go1; [apply runs_next, may_blanks; auto using low_go|]. rewrite Hc. cbn [is_start_of_line].
        destruct sp2 as [|s0 sp] eqn:Es; [congruence|]. rewrite <- Es in *. clear Hne.
        assert (Ws : is_plain_safe_token s0 ctx = false) by (apply unsafe; subst sp2; inversion Hs2; congruence).
        mid s0 (mkC (sp2 ++ all) false sv (ind k) b d); [subst sp2; cbn [app]; go|]. rewrite Ws.
        assert (Hne : sp2 <> []) by (subst sp2; discriminate).
        go1; [go|]. go1; [go1; apply separate_some; auto; apply reach_low, low_before; auto|]. cbn [valid_node]. exact G.
      - destruct Ha as [(-> & -> & ->)|(Kx & -> & -> & ->)]; [rewrite V; auto|cbn [valid_node]; auto].
    Qed.

    Lemma adjacent_value_ok sv b d : low sv (c :: sp2 ++ all) -> room (J h) (x :: q) d -> exists a ts2 d2,
      runs (parse_flow_mapping_adjacent_value fuel (content m) ctx) (mkC (c :: sp2 ++ all) false sv (ind k) b d) a
        (mkC ts2 false sv (ind k) b d2) /\ spent (J h) (x :: q) d d2 /\
      valid_node a = true /\ (a = t /\ ts2 = rest \/ key ctx = true /\ ts2 = sp2 ++ all).
    Proof.
      intros Hl Hr. apply value_low in Hl. destruct (head_facts _ Hh) as (M1 & C1 & _).
      destruct (node_ok n h t _ H m ctx k rest z q0 s false ((sp2 ++ all, false) :: sv) b d) as (a & ts2 & sol2 & d2 & R & S & Ha); auto.
      { apply under_before; auto. }
      assert (G : runs (value <- parse_flow_node fuel (content m) ctx ;; (if valid_node value then commit ;; ret value else rollback ;; ret NNull))
        (mkC all false ((sp2 ++ all, false) :: sv) (ind k) b d) (if valid_node a then t else NNull)
        (mkC (if valid_node a then rest else sp2 ++ all) false sv (ind k) b d2)).
      { go1; [exact R|]. destruct Ha as [(-> & -> & ->)|(Kx & -> & -> & ->)]; [rewrite V|cbn [valid_node]]; go. }
      exists (if valid_node a then t else NNull), (if valid_node a then rest else sp2 ++ all), d2. split; [|split; [exact S|]].
      - unfold parse_flow_mapping_adjacent_value. go1. go1; [go|]. rewrite Hc. decide1.
        go1; [apply runs_next, may_blanks; auto using low_go|]. rewrite Hc. cbn [is_start_of_line].
        go1; [go|]. mid tt (mkC all false ((sp2 ++ all, false) :: sv) (ind k) b d).
        { destruct sp2 as [|s0 sp] eqn:Es.
          - unfold maybe_separate. go1; [go|]. cbn [app]. go1; [go1; apply separate_none; auto|]. go.
          - rewrite <- Es in *. apply maybe_sep_before; auto. apply low_before; auto. subst sp2. discriminate. }
        exact G.
      - destruct Ha as [(-> & -> & ->)|(Kx & -> & -> & ->)]; [rewrite V; auto|cbn [valid_node]; auto].
    Qed.
  End Value.

  (** ** keys *)
  Lemma yaml_key_ok n ctx s ts rest z q s1 sol sv k b d : inside ctx = true -> key ctx = true \/ k = n -> plain s ts ->
    tail fuel n ctx rest z q s1 -> length ts < fuel ->
    runs (parse_flow_yaml_node fuel ctx) (mkC (ts ++ rest) sol sv (ind k) b d) (NText s UnknownQuoting)
      (mkC rest false sv (ind k) b d).
  Proof.
    intros Hx Hk P Ht Hf.
    assert (R : forall sv, runs (parse_plain fuel ctx) (mkC (ts ++ rest) sol sv (ind k) b d) (NText s UnknownQuoting)
      (mkC rest false sv (ind k) b d)) by (intro; eapply tail_plain; eauto).
    destruct (plain_head _ _ P) as (w & q2 & -> & [W _]). apply yaml_node_plain; auto. congruence.
  Qed.
  Lemma json_key_ok m ctx k ts rest sol sv n b d : 0 < m -> inside ctx = true -> scalar k ts -> ~ is_plain ts -> calm_hd rest = true ->
    length ts < fuel ->
    runs (parse_flow_json_node fuel (content m) ctx) (mkC (ts ++ rest) sol sv (ind n) b d) k (mkC rest false sv (ind n) b d).
  Proof.
    intros Hm Hx Hs NP Hc Hf. destruct rest as [|y r]; [discriminate|].
    assert (R : runs (content m ctx) (mkC (ts ++ y :: r) sol sv (ind n) b d) k (mkC (y :: r) false sv (ind n) b d)).
    { apply content_quoted; auto. intros s P. apply NP. exists s. exact P. }
    destruct (scalar_first _ _ Hs) as (x & q & -> & Hh). destruct (head_facts _ Hh) as (_ & _ & _ & H1 & H2 & _).
    apply json_node_ok; auto. eapply scalar_valid, Hs.
  Qed.
  Lemma json_word_no m ctx s x q rest sol sv i b d : 0 < m -> plain s (x :: q) ->
    runs (parse_flow_json_node fuel (content m) ctx) (mkC (x :: q ++ rest) sol sv i b d) NInvalid (mkC (x :: q ++ rest) sol sv i b d).
  Proof.
    intros Hm P. destruct (plain_head _ _ P) as (w & r & [= <- <-] & [W _]).
    apply json_node_fails; try congruence. apply content_no; auto. rewrite W. reflexivity.
  Qed.
  Lemma quoted_bare k x q : scalar k (x :: q) -> ~ is_plain (x :: q) -> bare x = true.
  Proof.
    intros Hs NP. destruct (scalar_cases _ _ Hs) as [(s & _ & P)|(_ & x2 & r & [= <- <-] & Q)].
    - destruct NP. exists s. exact P.
    - unfold bare. destruct Q as [-> | ->]; reflexivity.
  Qed.
  Lemma plain_dec t ts : scalar t ts -> (exists s, t = NText s UnknownQuoting /\ plain s ts) \/ ~ is_plain ts.
  Proof.
    intro Hs. destruct (scalar_cases _ _ Hs) as [H|(NP & _)]; [left; exact H|right]. intros (s & P). exact (NP s P).
  Qed.
End Collections.
