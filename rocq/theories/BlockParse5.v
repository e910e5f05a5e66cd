(** Evaluation of the productions for block collections. *)
From Coq Require Import String ZArith.
From Verif Require Import Base YamlChar Token Ast Balance CPAccessor Lexer Parser ParserFlow ParserBlock ParserDocs ParserTape TextSpec TapeRules BlockParse1 BlockParse2 BlockParse3 BlockParse4 LitParse
  FlowParse1 FlowParse2 FlowParse3 FoldParse FlowParse4 LeafParse.
Local Open Scope parser_scope.
Local Arguments cons {A}%type_scope & _ _.
Local Arguments pair {A B}%type_scope & _ _.

(** ** tokens of block collections ([true]: a sequence, [false]: a mapping) *)

(** the first index is true if the last thing in it is a block scalar *)
Inductive entry : bool -> bool -> nat -> node -> list token -> Prop :=
| entry_seq o n t d ts : tok_type d = TSequenceEntry -> after o true n t ts -> entry o true n t (d :: ts)
| entry_map o n k kts sps c t ts : scalar k kts -> blanks sps -> tok_type c = TMappingValue -> after o false n t ts ->
    entry o false n (NEntry k t) (kts ++ sps ++ c :: ts)
with after : bool -> bool -> nat -> node -> list token -> Prop :=
| after_leaf kind n t sps ts : blanks sps -> sps <> [] -> leaf (S n) t ts -> after false kind n t (sps ++ ts)
| after_below kind n t g sps ts : gap g -> blanks sps -> n < length sps -> leaf (S n) t ts -> after false kind n t (g ++ sps ++ ts)
| after_coll o kind n sps es ts : blanks sps -> sps <> [] -> entries o kind (n + 1 + length sps) es ts ->
    after o true n (build kind es) (sps ++ ts)
| after_lines o k2 kind n g sps es ts : gap g -> blanks sps ->
    n < length sps \/ k2 = false /\ kind = true /\ n = length sps ->
    entries o kind (length sps) es ts -> after o k2 n (build kind es) (g ++ sps ++ ts)
| after_none kind n : after false kind n NNull []
| after_literal kind n t sps ts : blanks sps -> sps <> [] -> literal (Z.of_nat n) t ts -> after true kind n t (sps ++ ts)
| after_marked_literal kind n p pts t sps sps2 ts : blanks sps -> sps <> [] -> props NInvalid p pts -> blanks sps2 -> sps2 <> [] ->
    literal (Z.of_nat n) t ts -> after true kind n (NContent p t) (sps ++ pts ++ sps2 ++ ts)
| after_marked_lines o k2 kind n p pts sps1 g sps es ts : blanks sps1 -> sps1 <> [] -> props NInvalid p pts -> gap g -> blanks sps -> n < length sps ->
    entries o kind (length sps) es ts -> after o k2 n (NContent p (build kind es)) (sps1 ++ pts ++ g ++ sps ++ ts)
with entries : bool -> bool -> nat -> list node -> list token -> Prop :=
| entries_one o kind n e ts : entry o kind n e ts -> entries o kind n [e] ts
| entries_more o o2 kind n e ts g sps es ts2 : entry o2 kind n e ts -> between n o2 g -> blanks sps ->
    length sps = n -> entries o kind n es ts2 -> entries o kind n (e :: es) (ts ++ g ++ sps ++ ts2).

Scheme entry_mut := Minimality for entry Sort Prop
  with after_mut := Minimality for after Sort Prop
  with entries_mut := Minimality for entries Sort Prop.
Combined Scheme grammar_ind from entry_mut, after_mut, entries_mut.

Definition dash_head (kind : bool) (x : token) : Prop :=
  solid x = true /\ if kind then tok_type x = TSequenceEntry else tok_type x <> TSequenceEntry.
Lemma entry_head o kind n e ts : entry o kind n e ts -> exists x r, ts = x :: r /\ dash_head kind x.
Proof.
  intros [o2 n2 t d ts2 H _|o2 n2 k kts sps c t ts2 H _ _ _].
  - exists d, ts2. unfold dash_head, solid. rewrite H. auto.
  - destruct (scalar_head _ _ H) as (x & r & -> & Hx & Hs). exists x, (r ++ sps ++ c :: ts2). unfold dash_head. auto.
Qed.
Lemma entries_head o kind n es ts : entries o kind n es ts -> exists x r, ts = x :: r /\ dash_head kind x.
Proof.
  intros [o2 k2 n2 e ts2 H|o1 o2 k2 n2 e ts2 g sps es2 ts3 H _ _ _ _]; destruct (entry_head _ _ _ _ _ H) as (x & r & -> & Hx); eauto.
  exists x, (r ++ g ++ sps ++ ts3). auto.
Qed.

Lemma after_valid o k n t ts : after o k n t ts -> valid_node t = true.
Proof. intros []; eauto using leaf_valid, build_valid, literal_valid. Qed.
Lemma entry_valid o k n e ts : entry o k n e ts -> valid_node e = true.
Proof. intros []; [eapply after_valid; eassumption|reflexivity]. Qed.

Lemma lands_weak i j tl tl2 sol2 : lands i tl tl2 sol2 -> (i <= j)%Z -> lands j tl tl2 sol2.
Proof. intros Hl H. destruct Hl; constructor; auto; lia. Qed.

Lemma dull_bare z : dull z -> bare z = true /\ no_json (tok_type z) = true /\ tok_type z <> TString /\ is_white_space z = false /\
  calm z = true /\ tok_type z <> TMappingValue /\ tok_type z <> TSequenceEntry /\ tok_type z <> TMappingKey.
Proof.
  unfold bare, is_white_space, calm. intros [H|[H|H]]; rewrite H; repeat split; discriminate.
Qed.

(** a dash at the end of input is no entry *)
Definition starts (tl : list token) : Prop := exists y r, tl = y :: r /\ tok_type y <> TEOF.
Definition ends_dash (ts : list token) : Prop := exists a d, ts = a ++ [d] /\ tok_type d = TSequenceEntry.
Definition joined (ts tl : list token) : Prop := ends_dash ts -> starts tl.
Lemma joined_tail a b tl : joined (a ++ b) tl -> joined b tl.
Proof. intros H (p & d & E & Hd). apply H. exists (a ++ p), d. rewrite E, app_assoc. auto. Qed.
Lemma starts_joined ts tl : starts tl -> joined ts tl.
Proof. intros H _. exact H. Qed.
Lemma gap_starts g r : gap g -> starts (g ++ r).
Proof.
  intros H. pose proof (gap_some g H). pose proof (gap_mild g H) as M. destruct g as [|x g]; [congruence|].
  exists x, (g ++ r). split; [reflexivity|]. inversion M as [|? ? Hx _]; subst. intro A. unfold mild in Hx. rewrite A in Hx. discriminate.
Qed.
Lemma between_starts n o g sps x r : between n o g -> blanks sps -> solid x = true -> starts (g ++ sps ++ x :: r).
Proof.
  intros Hb Hs Hx. assert (M : forall y, mild y = true -> tok_type y <> TEOF) by (intros y H A; unfold mild in H; rewrite A in H; discriminate).
  pose proof (between_mild _ _ _ Hb) as Hm. destruct g as [|y g]; [|inversion Hm; subst; exists y, (g ++ sps ++ x :: r); auto].
  destruct sps as [|y sps]; [exists x, r|inversion Hs; subst; exists y, (sps ++ x :: r)]; split; auto; [|congruence].
  intro A. unfold solid in Hx. rewrite A in Hx. discriminate.
Qed.
Lemma literal_joined z t sps ts tl : literal z t ts -> joined (sps ++ ts) tl.
Proof.
  intros H (a & d & E & Hd). destruct (literal_last _ _ _ H) as (a2 & y & -> & Hy). rewrite app_assoc in E. apply app_inj_tail in E as [_ ->]. congruence.
Qed.
#[export] Hint Resolve starts_joined gap_starts : core.

(** what is left after a collection: the first token may have been looked at *)
Definition clean (kind : bool) (n : nat) (d : finder) (tl : list token) : Prop :=
  fresh d (List.tl tl) /\ (0 < n \/ kind = true -> fresh d tl).
Lemma fresh_clean kind n d tl : fresh d tl -> clean kind n d tl.
Proof. intro F. split; [|auto]. destruct tl; [exact F|eapply fresh_next, F]. Qed.
#[export] Hint Resolve fresh_clean : core.

(** only the numbers matter *)
Ltac nums :=
  repeat match goal with
  | H : lt _ _ |- _ => revert H
  | H : le _ _ |- _ => revert H
  | H : Z.lt _ _ |- _ => revert H
  | H : Z.le _ _ |- _ => revert H
  | H : @eq nat _ _ |- _ => revert H
  | H : @eq Z _ _ |- _ => revert H
  | H : Z.le _ _ /\ Z.le _ _ |- _ => revert H
  end; clear; intros; lia.

(** ** before a node on a line of its own *)
Definition opening (pre : list token) (sol : bool) : Prop := pre = [] /\ sol = true \/ gap pre /\ sol = false.
Lemma opening_mild pre sol sps : opening pre sol -> blanks sps -> Forall (fun t => mild t = true) (pre ++ sps).
Proof. intros [[-> _]|[H _]] Hs; [apply blanks_mild, Hs|]. apply Forall_app. split; [apply gap_mild, H|apply blanks_mild, Hs]. Qed.
Lemma reach_before a sv s x r : Forall (fun t => mild t = true) a -> reach a sv (x :: r) -> reach a ((a ++ x :: r, s) :: sv) (x :: r).
Proof. intros Ha [->|H]; [left; reflexivity|]. destruct a; [left; reflexivity|]. right. apply may_app; auto. discriminate. Qed.
Lemma reach_part a b sv ts : reach (a ++ b) sv ts -> reach b sv ts.
Proof. intros [H|H]; [apply app_eq_nil in H as [_ ->]; left; reflexivity|right; exact H]. Qed.
Lemma under_before a s sv x r : Forall (fun t => mild t = true) a -> closer x = false -> flat sv -> under ((a ++ x :: r, s) :: sv) (x :: r).
Proof.
  intros Ha Hx Hf. destruct a as [|y a]; [cbn [app]; auto|]. inversion Ha; subst. constructor; [|apply flat_low, Hf].
  etransitivity; [apply height_le|]. cbn [fst app tl]. unfold depth at 1. rewrite brk_mild by assumption. apply depth_down, Hx.
Qed.

Section Blocks.
  Context (fuel : nat) (some_fuel : 1 < fuel).
  Let f0 : 0 < fuel. Proof. lia. Qed.

  Definition pentry (kind : bool) (bn bi : context -> M node) : M node :=
    if kind then parse_block_sequence_entry bi else parse_block_mapping_entry fuel bn bi.
  Notation ind n := (mkInd (Z.of_nat n) StrictMode).
  Notation outer ctx := (match ctx with BlockIn | BlockOut | FlowIn | FlowOut => True | _ => False end).

  Lemma sep_open ctx pre sol0 n sps x r sv b d : outer ctx -> opening pre sol0 -> blanks sps -> n <= length sps ->
    length (pre ++ sps) < fuel -> middle x = true -> reach (pre ++ sps) sv (x :: r) ->
    runs (parse_separate fuel ctx) (mkC (pre ++ sps ++ x :: r) sol0 sv (ind n) b d) (NBasic IndentType)
      (mkC (x :: r) (sol_after sps true) sv (ind n) b d).
  Proof.
    intros Hc [[-> ->]|[Hg ->]] Hs Hn Hf Hm Hr; cbn [app] in *.
    - apply separate_here; auto.
    - rewrite app_length in Hf. apply separate_gap; auto; try lia.
      destruct Hr as [E|H]; [|exact H]. apply app_eq_nil in E as [-> _]. destruct (gap_some [] Hg eq_refl).
  Qed.
  Lemma comments_open pre sol0 sps x r sv i b d : opening pre sol0 -> blanks sps ->
    length (pre ++ sps) < fuel -> middle x = true -> reach (pre ++ sps) sv (x :: r) ->
    runs (parse_comments fuel) (mkC (pre ++ sps ++ x :: r) sol0 sv i b d) (NBasic CommentType)
      (mkC (sps ++ x :: r) true sv i b d).
  Proof.
    intros [[-> ->]|[Hg ->]] Hs Hf Hm Hr; cbn [app] in *.
    - apply (comments_mid fuel f0 sps x r true); auto.
    - rewrite app_length in Hf. apply comments_gap; auto; try lia.
      destruct Hr as [E|H]; [|exact H]. apply app_eq_nil in E as [-> _]. destruct (gap_some [] Hg eq_refl).
  Qed.

  Definition entries_body (e : M node) : list node -> M (list node * bool) := fun entries =>
      set_checkpoint ;;
      ok <- valid (parse_indent fuel) ;;
      if ok : bool then
        e <- e ;;
        if valid_node e then commit ;; ret (entries ++ [e], true)
        else rollback ;; ret (entries, false)
      else rollback ;; ret (entries, false).
  Lemma more_unfold e first : more_entries fuel e first = loop_go fuel (entries_body e) [first].
  Proof. reflexivity. Qed.

  (** ** entries that are not there *)
  Lemma seq_entry_no bi x r sol sv i b d : tok_type x <> TSequenceEntry ->
    runs (parse_block_sequence_entry bi) (mkC (x :: r) sol sv i b d) NInvalid (mkC (x :: r) sol sv i b d).
  Proof. intro H. unfold parse_block_sequence_entry. go1. go1; [go|]. rewrite (ttype_eqb_no _ _ H). go. Qed.

  Lemma key_none x ts sol sv i b d : bare x = true -> no_json (tok_type x) = true -> room 1 [x] d -> exists d2,
    runs (parse_block_mapping_implicit_key fuel) (mkC (x :: ts) sol sv i b d) NInvalid (mkC (x :: ts) sol sv i b d2) /\ spent 1 [x] d d2.
  Proof.
    intros Hb Hj Hr. destruct (bare_not _ Hb) as (B1 & B2 & B3 & _).
    destruct (yaml_node_mark fuel BlockKey x ts sol sv (mkInd 0 StrictMode) b d) as (d2 & R & S); auto.
    exists d2. split; [|exact S].
    unfold parse_block_mapping_implicit_key. go1. go1; [go|].
    mid NInvalid (mkC (x :: ts) sol ((x :: ts, sol) :: sv) i b d).
    { unfold parse_implicit_json_key. go1. go1; [go1; apply json_node_no; auto|]. go. }
    decide1. go1; [go|]. unfold parse_implicit_yaml_key. go1.
    mid NInvalid (mkC (x :: ts) sol sv i b d2); [|go]. go1. exact R.
  Qed.
  Lemma entry_none bn bi x r sol sv i b d : bare x = true -> no_json (tok_type x) = true -> room 1 [x] d -> exists d2,
    runs (parse_block_mapping_entry fuel bn bi) (mkC (x :: r) sol sv i b d) NInvalid (mkC (x :: r) sol sv i b d2) /\ spent 1 [x] d d2.
  Proof.
    intros Hb Hj Hr. destruct (key_none x r sol ((x :: r, sol) :: sv) i b d Hb Hj Hr) as (d2 & R & S). exists d2. split; [|exact S].
    destruct (bare_not _ Hb) as (B1 & B2 & B3 & B4 & B5).
    assert (G : runs (parse_block_mapping_implicit_entry fuel bn) (mkC (x :: r) sol sv i b d) NInvalid (mkC (x :: r) sol sv i b d2)).
    { unfold parse_block_mapping_implicit_entry.
      go1. go1; [go|]. go1; [exact R|]. mid NNull (mkC (x :: r) sol sv i b d2); [go|].
      mid NInvalid (mkC (x :: r) sol sv i b d2); [|go].
      unfold parse_block_mapping_implicit_value. go1. go1; [go|]. rewrite (ttype_eqb_no _ _ B5). go. }
    unfold parse_block_mapping_entry. go1. go1; [go|]. destruct (tok_type x); try exact G; congruence.
  Qed.

  (** ** the end of a collection *)
  Lemma entries_stop kind bn bi k n i tl2 sol2 sv b d :
    lies i tl2 -> (i < Z.of_nat n)%Z \/ kind = true /\ (i <= Z.of_nat n)%Z /\ no_dash n tl2 ->
    fresh d tl2 -> exists d2,
    (forall acc, runs (loop_go (S k) (entries_body (pentry kind bn bi)) acc) (mkC tl2 sol2 sv (ind n) b d) acc
         (mkC tl2 sol2 sv (ind n) b d2)) /\ clean kind n d2 tl2.
  Proof.
    intros Hl Hi Hd.
    assert (Strict : forall acc sps x r sol, blanks sps -> calm x = true -> is_white_space x = false -> length sps < n ->
      runs (loop_go (S k) (entries_body (pentry kind bn bi)) acc) (mkC (sps ++ x :: r) sol sv (ind n) b d) acc
         (mkC (sps ++ x :: r) sol sv (ind n) b d)).
    { intros acc sps x r sol H1 H2 H3 H4. apply runs_loop_stop. unfold entries_body. go1; [go|].
      go1; [go1; apply indent_strict_no; auto|]. go. }
    assert (Dash : forall acc sps x r sol, kind = true -> blanks sps -> calm x = true -> tok_type x <> TSequenceEntry -> length sps = n ->
      runs (loop_go (S k) (entries_body (pentry kind bn bi)) acc) (mkC (sps ++ x :: r) sol sv (ind n) b d) acc
         (mkC (sps ++ x :: r) sol sv (ind n) b d)).
    { intros acc sps x r sol -> H1 H2 H3 H4. apply runs_loop_stop. unfold entries_body. go1; [go|].
      go1; [go1; apply indent_strict_ok; auto; lia|]. decide1. rewrite <- H4, skipn_all. cbn [app pentry].
      go1; [apply seq_entry_no, H3|]. go. }
    assert (Mark : forall x r sol, bare x = true -> no_json (tok_type x) = true -> calm x = true -> tok_type x <> TSequenceEntry ->
      is_white_space x = false -> fresh d (x :: r) -> exists d2,
      (forall acc, runs (loop_go (S k) (entries_body (pentry kind bn bi)) acc) (mkC (x :: r) sol sv (ind n) b d) acc
         (mkC (x :: r) sol sv (ind n) b d2)) /\ clean kind n d2 (x :: r)).
    { intros x r sol H1 H2 H3 H4 H5 Hd2. destruct n as [|n].
      - destruct kind; [exists d; split; [intro acc; apply (Dash acc []); auto|auto]|].
        destruct (entry_none bn bi x r sol ((x :: r, live sol) :: sv) (ind 0) b d) as (d2 & R & S); auto.
        { apply (fresh_room 1 d [x] r); [exact Hd2|lia]. }
        exists d2. split.
        + intro acc. apply runs_loop_stop. unfold entries_body. go1; [go|].
          go1; [go1; apply (indent_strict_ok fuel 0 []); auto|].
          decide1. go1; [exact R|]. go.
        + split; [apply (fresh_spent 1 d [x] r); auto; lia|]. intros [A|A]; [lia|discriminate].
      - exists d. split; [|auto]. intro acc. apply (Strict acc []); auto. cbn. lia. }
    destruct Hl as [(sps & x & r & -> & Hs & Hl & Hx)|(x & r & -> & [Hx|Hx])].
    - exists d. split; [|auto]. intro acc. destruct (Nat.eq_dec (length sps) n) as [E|E].
      + destruct Hi as [Hi|(Hk & Hi & Hn)]; [lia|]. apply Dash; auto using solid_calm. eapply Hn; eauto.
      + apply Strict; auto using solid_calm, solid_white. lia.
    - destruct (mark_facts _ Hx) as (M1 & M2 & M3 & _).
      apply Mark; auto; unfold doc_mark, bare, no_json in *; destruct (tok_type x); try discriminate; reflexivity.
    - apply Mark; auto; unfold bare, no_json, calm, is_white_space; rewrite Hx; first [reflexivity | discriminate].
  Qed.

  Lemma leaf_dressed n t ts : leaf n t ts -> dressed n t ts \/ exists x r, ts = x :: r /\
    firm x = true /\ middle x = true /\ is_white_space x = false /\ closer x = false /\ tok_type x <> TSequenceEntry.
  Proof.
    intros [H|[H|H]]; [right| |left; exact H].
    - destruct (inner_head _ _ _ H) as (x & r & E & Hx). exists x, r. split; [exact E|]. apply head_firm, Hx.
    - right. destruct H as [a w Ha _ _]. exists a, [w]. unfold firm, middle, is_white_space, closer. rewrite Ha. repeat split; discriminate.
  Qed.
  (** ** a flow node with properties *)
  Lemma mild_quiet a : Forall (fun t => mild t = true) a -> Forall (fun y => quiet y = true /\ calm y = true) a.
  Proof. intro H. eapply Forall_impl; [|exact H]. intro y. unfold mild, quiet, calm. destruct (tok_type y); try discriminate; auto. Qed.
  Lemma node_dressed bn bi ctx lo n p pts sps t ts all sol0 s1 pre tl tl2 sol2 sv b d :
    outer ctx -> (lo + 1 = Z.of_nat n)%Z -> props NInvalid p pts -> blanks sps -> sps <> [] -> inner n t ts -> lands lo tl tl2 sol2 ->
    Forall (fun t => mild t = true) pre -> all = pre ++ pts ++ sps ++ ts ++ tl -> length all < fuel -> flat sv -> room 32 (pts ++ sps ++ ts) d ->
    (forall c sv d, outer c -> runs (parse_separate fuel c) (mkC all sol0 sv (ind n) b d) (NBasic IndentType) (mkC (pts ++ sps ++ ts ++ tl) s1 sv (ind n) b d)) ->
    exists d2, runs (block_node_body fuel bn bi ctx) (mkC all sol0 sv (mkInd lo StrictMode) b d) (NContent p t)
         (mkC tl2 sol2 sv (mkInd lo StrictMode) b d2) /\ spent 32 (pts ++ sps ++ ts) d d2.
  Proof.
    intros Hcx Elo Hp Hs Hn Hi Hl Hpre Ea Hf Hfl Hr Sep. assert (Hf2 := Hf). rewrite Ea, !app_length in Hf2.
    destruct (inner_head _ _ _ Hi) as (o & ir & Ei & Ho). destruct (head_no_mark _ Ho) as (O1 & O2 & O3 & O4 & O5).
    destruct (head_firm _ Ho) as (O6 & _).
    destruct (props_head _ _ _ Hp) as (x & pr & Ep & Hx & Fp).
    assert (Lv : leaf n (NContent p t) (pts ++ sps ++ ts)) by (right; right; constructor; auto).
    assert (Fa : Forall (fun y => quiet y = true /\ calm y = true) (pre ++ pts ++ sps)).
    { apply Forall_app. split; [apply mild_quiet, Hpre|]. apply Forall_app. auto using blanks_quiet. }
    assert (Na : pre ++ pts ++ sps <> []) by (subst pts; destruct pre; discriminate).
    assert (Ea2 : all = (pre ++ pts ++ sps) ++ o :: ir ++ tl) by (subst all ts; rewrite <- !app_assoc; reflexivity).
    assert (Cp : forall s sv, low sv (o :: ir ++ tl) -> low ((all, s) :: sv) (o :: ir ++ tl)) by (intros; rewrite Ea2; apply low_quiet; auto).
    assert (Lo : low sv (o :: ir ++ tl)) by auto.
    assert (Cp2 : forall s sv, low sv (o :: ir ++ tl) -> low ((pts ++ sps ++ ts ++ tl, s) :: sv) (o :: ir ++ tl)).
    { intros s sv0 L. replace (pts ++ sps ++ ts ++ tl) with ((pts ++ sps) ++ o :: ir ++ tl) by (subst ts; rewrite <- !app_assoc; reflexivity).
      apply low_quiet; auto; [apply Forall_app; auto using blanks_quiet|subst pts; discriminate]. }
    assert (Hfp : length (pts ++ sps) < fuel) by (rewrite app_length; nums).
    assert (Hfs : length sps < fuel) by nums.
    assert (Cne : ctx <> NoCtx) by (intro; subst; destruct Hcx).
    assert (Props : forall sol sv d, low sv (o :: ir ++ tl) -> runs (parse_properties fuel ctx) (mkC (pts ++ sps ++ ts ++ tl) sol sv (ind n) b d) p
      (mkC (sps ++ ts ++ tl) false sv (ind n) b d)).
    { intros sol1 sv0 d0 L. subst ts. cbn [app]. apply props_ok; assumption. }
    assert (Sep2 : forall sv d, low sv (o :: ir ++ tl) -> runs (parse_separate fuel ctx) (mkC (sps ++ ts ++ tl) false sv (ind n) b d) (NBasic IndentType)
      (mkC (ts ++ tl) false sv (ind n) b d)).
    { intros sv0 d0 L. subst ts. cbn [app]. apply (separate_all fuel some_fuel); [assumption|assumption|assumption|assumption|apply reach_low; assumption|assumption]. }
    destruct (leaf_value fuel some_fuel n (NContent p t) (pts ++ sps ++ ts) tl s1 sv b d) as (d2 & R & Sp); auto.
    { eapply lands_stops; eauto; nums. }
    { rewrite !app_length. nums. }
    exists d2. split; [|exact Sp].
    assert (R2 : runs (parse_flow_in_block fuel) (mkC all sol0 sv (mkInd lo StrictMode) b d) (NContent p t) (mkC tl2 sol2 sv (mkInd lo StrictMode) b d2)).
    { apply (flow_block_ok fuel some_fuel lo n (NContent p t) all sol0 ((pts ++ sps ++ ts) ++ tl) tl tl2 s1 sol2 lo sv StrictMode b d d2); auto; [|nums].
      rewrite <- !app_assoc. apply Sep. exact I. }
    pose proof (props_valid _ _ _ Hp) as Vp.
    unfold block_node_body. go1. go1; [go|].
    mid NInvalid (mkC (sps ++ ts ++ tl) false ((all, live sol0) :: sv) (mkInd lo StrictMode) b d).
    2:{ decide1. go1; [go|]. go1; [exact R2|]. go. }
    unfold parse_block_in_block. go1. go1; [go|].
    mid NInvalid (mkC (ts ++ tl) false ((all, live sol0) :: (all, live sol0) :: sv) (mkInd lo StrictMode) b d).
    { unfold parse_block_scalar. go1. go1; [go|]. rewrite Elo. go1; [go1; apply Sep; auto|]. decide1. go1; [go|].
      go1; [apply Props; auto|]. rewrite Vp.
      mid p (mkC (ts ++ tl) false ((all, live sol0) :: (all, live sol0) :: sv) (ind n) b d).
      { go1; [go1; apply Sep2; auto|]. decide1. go. }
      go1; [go|]. replace (Z.of_nat n + -1)%Z with lo by nums.
      mid (tok_type o) (mkC (ts ++ tl) false ((all, live sol0) :: (all, live sol0) :: sv) (mkInd lo StrictMode) b d); [subst ts; apply runs_tok_ty|].
      mid NInvalid (mkC (ts ++ tl) false ((all, live sol0) :: (all, live sol0) :: sv) (mkInd lo StrictMode) b d); [|go].
      unfold firm in O6. destruct (tok_type o); try discriminate; exact (runs_invalid _). }
    decide1. go1; [go|].
    mid NInvalid (mkC (sps ++ ts ++ tl) false ((all, live sol0) :: sv) (mkInd lo StrictMode) b d); [|go].
    unfold parse_block_collection. go1. go1; [go|]. go1; [go|]. rewrite Elo. go1; [go1; apply Sep; auto|].
    mid p (mkC (sps ++ ts ++ tl) false ((all, live sol0) :: sv) (ind n) b d).
    { decide1. go1; [apply Props; auto|]. rewrite Vp. go. }
    go1; [go|]. replace (Z.of_nat n + -1)%Z with lo by nums.
    mid false (mkC (sps ++ ts ++ tl) false ((all, live sol0) :: sv) (mkInd lo StrictMode) b d); [|go].
    apply (runs_valid _ _ NInvalid). subst ts. cbn [app].
    apply (comments_mid fuel f0 sps o (ir ++ tl) false); auto. apply reach_low; auto.
  Qed.

  (** ** a flow node on the line *)
  Lemma node_leaf bn bi ctx lo n t sps ts tl tl2 sol2 sv b d :
    ctx = BlockIn \/ ctx = BlockOut -> (lo + 1 = Z.of_nat n)%Z -> blanks sps -> sps <> [] -> leaf n t ts -> lands lo tl tl2 sol2 ->
    length (sps ++ ts ++ tl) < fuel -> flat sv -> room 32 ts d -> exists d2,
    runs (block_node_body fuel bn bi ctx) (mkC (sps ++ ts ++ tl) false sv (mkInd lo StrictMode) b d) t
         (mkC tl2 sol2 sv (mkInd lo StrictMode) b d2) /\ spent 32 ts d d2.
  Proof.
    intros Hx Elo Hsps Hne Hs Hl Hf Hfl Hd.
    destruct (leaf_dressed _ _ _ Hs) as [Dr|(x & r & E & Fx & Mx & Wx & Cx & Dx)].
    { destruct Dr as [p pts sp2 t ts Hp Hs2 Hn2 Hi]. destruct (props_head _ _ _ Hp) as (x & pr & Ep & Hm & _).
      destruct (mark_head_no _ Hm) as (_ & _ & Xc & _). rewrite <- !app_assoc in *. rewrite app_length in Hf.
      eapply (node_dressed bn bi ctx lo n p pts sp2 t ts (sps ++ pts ++ sp2 ++ ts ++ tl) false false sps); eauto using blanks_mild.
      - destruct Hx; subst; exact I.
      - rewrite app_length. exact Hf.
      - intros c sv0 d0 Hc. subst pts. cbn [app]. apply (separate_blanks fuel f0 c sps); auto; [|nums].
        unfold middle. unfold mark_head in Hm. destruct (tok_type x); try discriminate; reflexivity. }
    rewrite !app_length in Hf.
    set (all := sps ++ ts ++ tl).
    assert (Cp : forall sv s, low sv (ts ++ tl) -> low ((all, s) :: sv) (ts ++ tl)).
    { intros sv0 s H. subst all ts. apply (low_before sps); auto. }
    assert (Lo : low sv (ts ++ tl)) by auto.
    assert (Sep : forall c v m dd, outer c ->
      forall sv, low sv (ts ++ tl) -> runs (parse_separate fuel c) (mkC all false sv (mkInd v m) b dd) (NBasic IndentType)
           (mkC (ts ++ tl) false sv (mkInd v m) b dd)).
    { intros c v m dd Hc sv0 L. subst all ts. cbn [app] in *.
      apply (separate_blanks fuel f0 c sps); auto; [|nums]. apply reach_low; auto. }
    assert (Hcx : outer ctx) by (destruct Hx; subst; exact I).
    destruct (leaf_value fuel some_fuel n t ts tl false sv b d) as (d2 & R & Sp); auto; try nums.
    { eapply lands_stops; eauto; nums. }
    exists d2. split; [|exact Sp].
    assert (R2 : runs (parse_flow_in_block fuel) (mkC all false sv (mkInd lo StrictMode) b d) t (mkC tl2 sol2 sv (mkInd lo StrictMode) b d2)).
    { apply (flow_block_ok fuel some_fuel lo n t all false (ts ++ tl) tl tl2 false sol2 lo sv StrictMode b d d2); auto; try nums.
      eapply leaf_valid, Hs. }
    unfold block_node_body. go1. go1; [go|].
    mid NInvalid (mkC all false ((all, live false) :: sv) (mkInd lo StrictMode) b d).
    2:{ decide1. go1; [go|]. go1; [exact R2|]. rewrite (leaf_valid _ _ _ Hs). go. }
    unfold parse_block_in_block. go1. go1; [go|].
    mid NInvalid (mkC (ts ++ tl) false ((all, live false) :: (all, live false) :: sv) (mkInd lo StrictMode) b d).
    { subst ts. apply (block_scalar_no fuel some_fuel ctx _ _ _ _ x); auto. }
    decide1. go1; [go|].
    mid NInvalid (mkC all false ((all, live false) :: sv) (mkInd lo StrictMode) b d); [|go].
    unfold parse_block_collection. go1. go1; [go|]. go1; [go|]. go1; [go1; apply Sep; auto|].
    mid NNil (mkC all false ((all, live false) :: sv) (mkInd (lo + 1) StrictMode) b d).
    { decide1. mid NInvalid (mkC (ts ++ tl) false ((all, live false) :: (all, live false) :: sv) (mkInd (lo + 1) StrictMode) b d); [|go].
      subst ts. apply properties_no; unfold firm in Fx; intro A; rewrite A in Fx; discriminate. }
    go1; [go|]. replace (lo + 1 + -1)%Z with lo by nums.
    mid false (mkC all false ((all, live false) :: sv) (mkInd lo StrictMode) b d); [|go].
    apply (runs_valid _ _ NInvalid). subst all ts. cbn [app] in *.
    apply (comments_mid fuel f0 sps x (r ++ tl) false); auto using reach_low. nums.
  Qed.

  (** ** collections that are not there *)
  Lemma block_seq_no bi x r lo sps sol sv b d :
    is_white_space x = false -> reach sps sv (x :: r) -> tok_type x <> TSequenceEntry -> blanks sps -> length sps < fuel -> (0 <= lo + 1 <= Z.of_nat (length sps))%Z ->
    runs (parse_block_sequence fuel bi) (mkC (sps ++ x :: r) sol sv (mkInd lo StrictMode) b d) NInvalid
         (mkC (x :: r) (sol_after sps sol) sv (mkInd lo StrictMode) b d).
  Proof.
    intros Hx Hre Hd Hs Hf Hlo. unfold parse_block_sequence, block_collection. go1. go1; [go|]. cbn [ind_value]. go1. go1.
    { go1. replace (lo + 1)%Z with (Z.of_nat (Z.to_nat (lo + 1))) by nums.
      apply indent_lower_ok; auto; nums. }
    decide1. go1; [apply seq_entry_no, Hd|]. go.
  Qed.
  Lemma coll_short e build x r lo sps sol sv b d :
    is_white_space x = false -> calm x = true -> blanks sps -> (Z.of_nat (length sps) < lo + 1)%Z ->
    runs (block_collection fuel e build) (mkC (sps ++ x :: r) sol sv (mkInd lo StrictMode) b d) NInvalid
         (mkC (x :: r) (sol_after sps sol) sv (mkInd lo StrictMode) b d).
  Proof.
    intros Hx Hc Hs Hlo. unfold block_collection. go1. go1; [go|]. cbn [ind_value]. go1.
    go1; [go1; replace (lo + 1)%Z with (Z.of_nat (Z.to_nat (lo + 1))) by nums; apply indent_lower_no; auto; nums|].
    exact (runs_invalid _).
  Qed.

  (** ** a flow node on a line of its own *)
  Lemma node_leaf_line bn bi ctx lo n t pre sps ts tl tl2 sol0 sol2 sv b d :
    ctx = BlockIn \/ ctx = BlockOut /\ (0 <= lo)%Z -> (lo + 1 = Z.of_nat n)%Z -> n <= length sps -> opening pre sol0 -> blanks sps ->
    leaf n t ts -> lands lo tl tl2 sol2 -> length (pre ++ sps ++ ts ++ tl) < fuel -> flat sv -> room 64 ts d -> exists d2,
    runs (block_node_body fuel bn bi ctx) (mkC (pre ++ sps ++ ts ++ tl) sol0 sv (mkInd lo StrictMode) b d) t
         (mkC tl2 sol2 sv (mkInd lo StrictMode) b d2) /\ spent 64 ts d d2.
  Proof.
    intros Hx Elo Hn Ho Hsp Hs Hl Hf Hfl Hr.
    assert (Hr2 : room 32 ts d) by (eapply weaken_room; [|exact Hr]; nums).
    destruct (leaf_dressed _ _ _ Hs) as [Dr|(x & r & E & Fx & Mx & Wx & Cx & Dx)].
    { destruct Dr as [p pts sp2 t ts Hp Hs2 Hn2 Hi]. destruct (props_head _ _ _ Hp) as (x & pr & Ep & Hm & _).
      destruct (mark_head_no _ Hm) as (_ & _ & Xc & _). rewrite <- !app_assoc in *.
      destruct (node_dressed bn bi ctx lo n p pts sp2 t ts (pre ++ sps ++ pts ++ sp2 ++ ts ++ tl) sol0 (sol_after sps true) (pre ++ sps) tl tl2 sol2 sv b d)
        as (d2 & R & S2); auto.
      - destruct Hx as [-> |[-> _]]; exact I.
      - eapply opening_mild; eauto.
      - rewrite <- !app_assoc. reflexivity.
      - intros c sv0 d0 Hc. subst pts. cbn [app]. rewrite !app_length in Hf. apply sep_open; auto; [rewrite app_length; nums|].
        unfold middle. unfold mark_head in Hm. destruct (tok_type x); try discriminate; reflexivity.
      - exists d2. split; [exact R|]. eapply (weaken_spent 64 32); [lia|exact S2]. }
    rewrite !app_length in Hf.
    destruct (lands_start _ _ _ _ Hl) as (sp2 & z & q & Ez & Hs2 & Hz & Lz). destruct (dull_bare _ Hz) as (_ & _ & Z1 & Z2 & Z3 & Z4 & _).
    set (all := pre ++ sps ++ ts ++ tl).
    assert (Ea : all = (pre ++ sps) ++ x :: r ++ tl) by (subst all ts; rewrite <- app_assoc; reflexivity).
    assert (Hcx : outer ctx) by (destruct Hx as [-> |[-> _]]; exact I).
    pose proof (opening_mild _ _ sps Ho Hsp) as Mi.
    assert (Re : forall sv, low sv (x :: r ++ tl) -> reach (pre ++ sps) sv (x :: r ++ tl)).
    { intros sv0 H. right. apply low_go; auto. }
    assert (Cp : forall sv s, reach (pre ++ sps) sv (x :: r ++ tl) -> reach (pre ++ sps) ((all, s) :: sv) (x :: r ++ tl)).
    { intros sv0 s H. rewrite Ea. apply reach_before; auto. }
    assert (Re0 : reach (pre ++ sps) sv (x :: r ++ tl)) by auto.
    assert (Sep : forall c sv d, outer c -> reach (pre ++ sps) sv (x :: r ++ tl) ->
      runs (parse_separate fuel c) (mkC all sol0 sv (ind n) b d) (NBasic IndentType)
           (mkC (x :: r ++ tl) (sol_after sps true) sv (ind n) b d)).
    { intros c sv0 d0 Hc H. subst all ts. apply sep_open; auto. rewrite app_length. nums. }
    assert (Com : forall sv, reach (pre ++ sps) sv (x :: r ++ tl) ->
      runs (parse_comments fuel) (mkC all sol0 sv (mkInd lo StrictMode) b d) (NBasic CommentType)
           (mkC (sps ++ x :: r ++ tl) true sv (mkInd lo StrictMode) b d)).
    { intros sv0 H. subst all ts. apply comments_open; auto. rewrite app_length. nums. }
    destruct (leaf_no_entry fuel some_fuel n bn bi t ts sp2 z (q ++ tl2) (sol_after sps true) ((all, live sol0) :: sv) (mkInd (Z.of_nat (length sps)) StrictMode) b d)
      as (ts9 & sol9 & d1 & R1 & S1); auto; [nums|nums| |].
    { rewrite <- Ez. subst ts. cbn [app]. rewrite Ea. apply under_before; auto. }
    rewrite <- Ez in R1.
    destruct (leaf_value fuel some_fuel n t ts tl (sol_after sps true) sv b d1) as (d2 & R2 & S2); auto.
    { eapply lands_stops; eauto; nums. } { nums. } { eapply room_half; eauto. }
    exists d2. split; [|eapply spent_sum; eauto].
    assert (R : runs (parse_flow_in_block fuel) (mkC all sol0 sv (mkInd lo StrictMode) b d1) t (mkC tl2 sol2 sv (mkInd lo StrictMode) b d2)).
    { apply (flow_block_ok fuel some_fuel lo n t all sol0 (ts ++ tl) tl tl2 (sol_after sps true) sol2 lo sv StrictMode b d1 d2); auto; [|eapply leaf_valid, Hs|nums].
      subst ts. apply Sep; auto. }
    unfold block_node_body. go1. go1; [go|].
    mid NInvalid (mkC ts9 sol9 ((all, live sol0) :: sv) (mkInd lo StrictMode) b d1).
    2:{ decide1. go1; [go|]. go1; [exact R|]. rewrite (leaf_valid _ _ _ Hs). go. }
    unfold parse_block_in_block. go1. go1; [go|].
    mid NInvalid (mkC (x :: r ++ tl) (sol_after sps true) ((all, live sol0) :: (all, live sol0) :: sv) (mkInd lo StrictMode) b d).
    { apply (block_scalar_no fuel some_fuel ctx lo StrictMode all sol0 x (r ++ tl)); auto. rewrite Elo. apply Sep; auto. }
    decide1. go1; [go|].
    mid NInvalid (mkC ts9 sol9 ((all, live sol0) :: sv) (mkInd lo StrictMode) b d1); [|go].
    unfold parse_block_collection. go1. go1; [go|]. go1; [go|]. rewrite Elo. go1; [go1; apply Sep; auto|].
    mid NNil (mkC all sol0 ((all, live sol0) :: sv) (ind n) b d).
    { decide1. mid NInvalid (mkC (x :: r ++ tl) (sol_after sps true) ((all, live sol0) :: (all, live sol0) :: sv) (ind n) b d); [|go].
      apply properties_no; unfold firm in Fx; intro A; rewrite A in Fx; discriminate. }
    go1; [go|]. replace (Z.of_nat n + -1)%Z with lo by nums.
    mid true (mkC (sps ++ x :: r ++ tl) true ((all, live sol0) :: sv) (mkInd lo StrictMode) b d).
    { apply (runs_valid _ _ (NBasic CommentType)). apply Com. auto. }
    cbv iota. go1; [go|].
    set (cp2 := (sps ++ x :: r ++ tl, live true)).
    assert (Re2 : reach sps (cp2 :: (all, live sol0) :: sv) (x :: r ++ tl)) by (apply reach_cp; auto; eapply reach_part; eauto).
    mid NInvalid (mkC (x :: r ++ tl) (sol_after sps true) (cp2 :: (all, live sol0) :: sv) (mkInd lo StrictMode) b d).
    { destruct Hx as [-> |[-> Hlo]]; cbn [parse_seq_space].
      - apply block_seq_no; auto; nums.
      - go1; [go|]. go1; [apply block_seq_no; auto; nums|]. go1; [go|]. replace (lo + -1 + 1)%Z with lo by nums. go. }
    decide1. go1; [go|].
    mid NInvalid (mkC ts9 sol9 ((all, live sol0) :: sv) (mkInd lo StrictMode) b d1); [|go].
    unfold parse_block_mapping, block_collection. go1. go1; [go|]. cbn [ind_value]. go1. rewrite Elo.
    mid true (mkC (x :: r ++ tl) (sol_after sps true) ((all, live sol0) :: sv) (ind (length sps)) b d).
    { apply (runs_valid _ _ (NIndent (Z.of_nat (length sps)))). apply indent_lower_ok; auto; [|nums]. eapply reach_part; eauto. }
    cbv iota. subst ts. cbn [app] in R1. go1; [rewrite Ez in R1; rewrite Ez; exact R1|]. go.
  Qed.
End Blocks.
