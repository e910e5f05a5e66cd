(** Evaluation of the productions for flow nodes and keys, and of those that find nothing. *)
From Coq Require Import String ZArith.
From Verif Require Import Base YamlChar Token Ast Balance CPAccessor Lexer Parser ParserFlow ParserBlock ParserDocs ParserTape TextSpec TapeRules BlockParse1 BlockParse2 BlockParse3.
Local Open Scope parser_scope.
Local Arguments cons {A}%type_scope & _ _.
Local Arguments pair {A B}%type_scope & _ _.

(** ** tokens that were not marked yet *)
Definition fresh (d : finder) (ts : list token) : Prop :=
  NoDup (map tok_start (strip ts)) /\ Forall (fun t => d (tok_start t) = 0%Z) (strip ts) /\ (forall p, 0 <= d p <= 64)%Z.

Lemma pos_eqb_eq a b : pos_eqb a b = true -> a = b.
Proof.
  destruct a, b. unfold pos_eqb. cbn. intro H. apply andb_true_iff in H as [H1 H2].
  apply N.eqb_eq in H1, H2. congruence.
Qed.

Lemma fresh_tail d a b : fresh d (a ++ b) -> fresh d b.
Proof.
  unfold fresh. rewrite strip_app. intros (H1 & H2 & H3). split; [|split; [|exact H3]].
  - rewrite map_app in H1. induction (map tok_start (strip a)) as [|p l IH]; [exact H1|]. inversion H1. auto.
  - apply Forall_app in H2. apply H2.
Qed.
Lemma fresh_next d x b : fresh d (x :: b) -> fresh d b.
Proof. apply (fresh_tail d [x] b). Qed.
(** ** what comes after a node: the next line, indented by at most [i], or a mark between documents, or the
    end; and where the parser is once it has skipped what does not count *)
Definition doc_mark (x : token) : bool := match tok_type x with TDirectiveEnd | TDocumentEnd => true | _ => false end.
Inductive lands (i : Z) : list token -> list token -> bool -> Prop :=
| lands_line g sps x r : gap g -> blanks sps -> (Z.of_nat (length sps) <= i)%Z -> solid x = true ->
    lands i (g ++ sps ++ x :: r) (sps ++ x :: r) true
| lands_mark g x r : gap g -> doc_mark x = true -> lands i (g ++ x :: r) (x :: r) true
| lands_end g v e1 e2 r : gap g -> idle_line v -> tok_type e1 = TEOF -> tok_type e2 = TEOF ->
    lands i (g ++ v ++ e1 :: e2 :: r) (e2 :: r) false
| lands_eof u e1 e2 r : trailing u -> tok_type e1 = TEOF -> tok_type e2 = TEOF -> lands i (u ++ e1 :: e2 :: r) (e2 :: r) false.

Lemma mark_facts x : doc_mark x = true -> middle x = true /\ calm x = true /\ is_white_space x = false /\ tok_type x <> TString /\ tok_type x <> TLineBreak.
Proof. unfold doc_mark, middle, calm, is_white_space. destruct (tok_type x); try discriminate; repeat split; discriminate. Qed.

(** the first line with content or a comment *)
Lemma idle_first l sps x r : idle l -> blanks sps -> exists t h sp2 x2 r2,
  l ++ sps ++ x :: r = h ++ sp2 ++ x2 :: r2 /\ hollow t h /\ blanks sp2 /\ length h + length sp2 <= length l + length sps /\
  (tok_type x2 = TComment \/ sp2 = sps /\ x2 = x).
Proof.
  induction 1 as [|v nl l Hv Hn Hl IH]; intro Hs.
  - exists [], [], sps, x, r. repeat split; auto. constructor.
  - destruct IH as (t & h & sp2 & x2 & r2 & E & H1 & H2 & H3 & H4); auto. destruct Hv as [sp3 Hv|sp3 c txt Hv Hc Ht].
    + exists (tok_origin nl ++ t), (sp3 ++ nl :: h), sp2, x2, r2. rewrite <- !app_assoc. cbn [app]. rewrite E.
      split; [reflexivity|]. split; [constructor; auto|]. split; [exact H2|]. split; [|exact H4].
      rewrite !app_length. cbn [length]. lia.
    + exists [], [], sp3, c, (txt ++ nl :: l ++ sps ++ x :: r). rewrite <- !app_assoc. cbn [app].
      split; [reflexivity|]. split; [constructor|]. split; [exact Hv|]. split; [|left; exact Hc].
      rewrite !app_length. cbn [length]. lia.
Qed.
Lemma gap_stops fuel n g sps x r : gap g -> blanks sps -> length sps < n \/ tok_type x <> TString -> tok_type x <> TLineBreak ->
  is_white_space x = false -> calm x = true -> length (g ++ sps) < fuel -> stops fuel n (g ++ sps ++ x :: r).
Proof.
  intros [u nl l Hu Hn Hl] Hs Hx Hb Hw Hc Hf. rewrite !app_length in Hf. cbn [length] in Hf. rewrite <- app_assoc. cbn [app].
  destruct Hu as [sp1 Hu|sp1 c txt Hu Hne Hco Ht].
  - destruct (idle_first l sps x r Hl Hs) as (t & h & sp2 & x2 & r2 & E & H1 & H2 & H3 & H4). rewrite E.
    apply (stops_line fuel n sp1 nl t h sp2 x2 r2); auto.
    + destruct H4 as [H4|[-> ->]]; [right; rewrite H4; discriminate|exact Hx].
    + destruct H4 as [H4|[-> ->]]; [rewrite H4; discriminate|exact Hb].
    + destruct H4 as [H4|[-> ->]]; [unfold is_white_space; rewrite H4; reflexivity|exact Hw].
    + destruct H4 as [H4|[-> ->]]; [unfold calm; rewrite H4; reflexivity|exact Hc].
    + rewrite app_length. cbn [length]. rewrite app_length. lia.
  - rewrite <- app_assoc. cbn [app]. rewrite app_length in Hf.
    apply stops_here; auto; try (rewrite Hco; discriminate); try (unfold is_white_space, calm; rewrite Hco; reflexivity). lia.
Qed.

(** the first token that counts *)
Lemma lands_start i tl tl2 sol2 : lands i tl tl2 sol2 -> exists sps z q,
  tl = sps ++ z :: q ++ tl2 /\ blanks sps /\ dull z /\ length sps < length tl.
Proof.
  assert (G : forall g r, gap g -> exists sps z q, g ++ r = sps ++ z :: q ++ r /\ blanks sps /\ dull z /\ length sps < length (g ++ r)).
  { intros g r [u nl l Hu Hn Hl]. destruct (trailing_dull u nl (l ++ r) Hu (or_introl Hn)) as (sps & z & q & E & H1 & H2 & H3).
    exists sps, z, (q ++ l). rewrite <- !app_assoc. cbn [app]. rewrite E. repeat split; auto. rewrite app_length. cbn [length]. lia. }
  intros [g sps x r Hg Hs Hl Hx|g x r Hg Hx|g v e1 e2 r Hg Hv H1 H2|u e1 e2 r Hu H1 H2]; try (apply G; assumption).
  - destruct (G g (v ++ e1 :: e2 :: r) Hg) as (sps & z & q & E & H3 & H4 & H5).
    exists sps, z, (q ++ v ++ [e1]). rewrite <- !app_assoc. cbn [app]. auto.
  - destruct (trailing_dull u e1 (e2 :: r) Hu (or_intror H1)) as (sps & z & q & E & H3 & H4 & H5).
    exists sps, z, q. repeat split; auto. rewrite E, app_length. cbn [length]. lia.
Qed.
(** the first token *)
Lemma lands_first i tl tl2 sol2 : lands i tl tl2 sol2 -> exists y r, tl = y :: r /\
  (tok_type y = TSpace \/ tok_type y = TLineBreak \/ tok_type y = TEOF).
Proof.
  assert (B : forall sps y r, blanks sps -> tok_type y = TSpace \/ tok_type y = TLineBreak \/ tok_type y = TEOF ->
    exists y2 r2, sps ++ y :: r = y2 :: r2 /\ (tok_type y2 = TSpace \/ tok_type y2 = TLineBreak \/ tok_type y2 = TEOF)).
  { intros [|s sps] y r Hs Hy; [exists y, r; auto|]. inversion Hs; subst. exists s, (sps ++ y :: r). auto. }
  assert (T : forall u y r, trailing u -> tok_type y = TSpace \/ tok_type y = TLineBreak \/ tok_type y = TEOF ->
    exists y2 r2, u ++ y :: r = y2 :: r2 /\ (tok_type y2 = TSpace \/ tok_type y2 = TLineBreak \/ tok_type y2 = TEOF)).
  { intros u y r [sps Hs|sps c txt Hs Hn Hc Ht] Hy; [apply B; auto|]. destruct sps as [|s sps]; [congruence|]. inversion Hs; subst.
    exists s, (sps ++ c :: txt ++ y :: r). rewrite <- app_assoc. auto. }
  assert (G : forall g r, gap g -> exists y2 r2, g ++ r = y2 :: r2 /\ (tok_type y2 = TSpace \/ tok_type y2 = TLineBreak \/ tok_type y2 = TEOF)).
  { intros g r [u nl l Hu Hn Hl]. rewrite <- app_assoc. cbn [app]. apply T; auto. }
  intros [g sps x r Hg Hs Hl Hx|g x r Hg Hx|g v e1 e2 r Hg Hv H1 H2|u e1 e2 r Hu H1 H2]; try (apply G; assumption).
  apply T; auto.
Qed.
(** where the parser goes on *)
Lemma lands_point i tl tl2 sol2 : lands i tl tl2 sol2 -> exists sps x r, tl2 = sps ++ x :: r /\ blanks sps /\
  calm x = true /\ is_white_space x = false /\ length sps < length tl /\ (sps = [] \/ Z.of_nat (length sps) <= i)%Z /\
  (tok_type x = TSequenceEntry -> Z.of_nat (length sps) <= i)%Z.
Proof.
  intros [g sps x r Hg Hs Hl Hx|g x r Hg Hx|g v e1 e2 r Hg Hv H1 H2|u e1 e2 r Hu H1 H2].
  - exists sps, x, r. repeat split; auto using solid_calm, solid_white. rewrite !app_length. cbn [length]. lia.
  - destruct (mark_facts _ Hx) as (M1 & M2 & M3 & _). exists [], x, r. repeat split; auto.
    + rewrite app_length. cbn [length]. lia.
    + intro A. unfold doc_mark in Hx. rewrite A in Hx. discriminate.
  - exists [], e2, r. repeat split; auto; try (unfold calm, is_white_space; rewrite H2; reflexivity).
    + rewrite !app_length. cbn [length]. lia.
    + congruence.
  - exists [], e2, r. repeat split; auto; try (unfold calm, is_white_space; rewrite H2; reflexivity).
    + rewrite !app_length. cbn [length]. lia.
    + congruence.
Qed.
(** the line does not continue a sequence at this indentation *)
Definition no_dash (n : nat) (tl2 : list token) : Prop :=
  forall sps x r, tl2 = sps ++ x :: r -> blanks sps -> length sps = n -> tok_type x <> TSequenceEntry.
Lemma blanks_cut sps x r : forall sps2 x2 r2, sps ++ x :: r = sps2 ++ x2 :: r2 -> blanks sps -> is_white_space x2 = false ->
  length sps <= length sps2.
Proof.
  induction sps as [|s sps IH]; intros [|s2 sps2] x2 r2 E Hs Hw; cbn [app length] in *; try lia.
  - injection E as -> _. inversion Hs as [|? ? H _]; subst. unfold is_white_space in Hw. rewrite H in Hw. discriminate.
  - injection E as -> E. inversion Hs; subst. specialize (IH sps2 x2 r2 E ltac:(assumption) Hw). lia.
Qed.
Lemma app_same {A} (a b : list A) x y r s : a ++ x :: r = b ++ y :: s -> length a = length b -> a = b /\ x = y /\ r = s.
Proof.
  revert b. induction a as [|p a IH]; intros [|q b] E L; cbn in *; try discriminate.
  - injection E as -> ->. auto.
  - injection E as -> E. destruct (IH b E) as (-> & -> & ->); [lia|auto].
Qed.
Lemma lands_no_dash i n tl tl2 sol2 : lands i tl tl2 sol2 -> (i < Z.of_nat n)%Z -> no_dash n tl2.
Proof.
  intros Hl Hi sps x r E Hs Hn A. destruct (lands_point _ _ _ _ Hl) as (sp2 & x2 & r2 & E2 & H1 & H2 & H3 & H4 & H5 & H6).
  rewrite E in E2. assert (L : length sps <= length sp2) by (eapply blanks_cut; eauto).
  assert (L2 : length sp2 <= length sps).
  { eapply blanks_cut; [symmetry; exact E2|exact H1|]. unfold is_white_space. rewrite A. reflexivity. }
  destruct (app_same _ _ _ _ _ _ E2) as (-> & -> & _); [lia|]. specialize (H6 A). lia.
Qed.
Lemma line_no_dash n sps x r : blanks sps -> length sps = n -> tok_type x <> TSequenceEntry -> no_dash n (sps ++ x :: r).
Proof.
  intros Hs Hn Hx sp2 x2 r2 E H1 H2. destruct (app_same _ _ _ _ _ _ E) as (_ & <- & _); [lia|exact Hx].
Qed.

Lemma solid_middle x : solid x = true -> middle x = true.
Proof. unfold solid, middle. destruct (tok_type x); congruence. Qed.

Lemma scalar_head t ts : scalar t ts -> exists x r, ts = x :: r /\ solid x = true /\ tok_type x <> TSequenceEntry.
Proof.
  intros [s ts2 H|o ts2 c H _ _|o ts2 c H _ _].
  - destruct (plain_head _ _ H) as (w & r & -> & [Hw _]). exists w, r. unfold solid. rewrite Hw. repeat split; discriminate.
  - exists o, (ts2 ++ [c]). unfold solid. rewrite H. repeat split; discriminate.
  - exists o, (ts2 ++ [c]). unfold solid. rewrite H. repeat split; discriminate.
Qed.

Section Flows.
  Context (fuel : nat) (some_fuel : 1 < fuel).
  Let f0 : 0 < fuel. Proof. lia. Qed.

  Lemma comments_lands i tl tl2 sol2 sv ind b d : lands i tl tl2 sol2 -> length tl <= fuel ->
    runs (parse_comments fuel) (mkC tl false sv ind b d) (NBasic CommentType) (mkC tl2 sol2 sv ind b d).
  Proof.
    intros [g sps x r Hg Hs Hl Hx|g x r Hg Hx|g v e1 e2 r Hg Hv H1 H2|u e1 e2 r Hu H1 H2] Hf;
      rewrite ?app_length in Hf; cbn [length] in Hf; rewrite ?app_length in Hf; cbn [length] in Hf.
    - apply comments_gap; auto using solid_middle; try lia. left. apply solid_calm, Hx.
    - destruct (mark_facts _ Hx) as (M1 & M2 & _). apply (comments_gap fuel f0 g []); auto; [left; exact M2|lia].
    - apply comments_end; auto. lia.
    - apply comments_eof; auto. lia.
  Qed.

  Lemma lands_stops i n tl tl2 sol2 : lands i tl tl2 sol2 -> (i < Z.of_nat n)%Z -> length tl <= fuel -> stops fuel n tl.
  Proof.
    intros [g sps x r Hg Hs Hl Hx|g x r Hg Hx|g v e1 e2 r Hg Hv H1 H2|u e1 e2 r Hu H1 H2] Hi Hf;
      rewrite ?app_length in Hf; cbn [length] in Hf; rewrite ?app_length in Hf; cbn [length] in Hf.
    - apply gap_stops; auto using solid_white, solid_calm; try lia; [|rewrite app_length; lia].
      unfold solid in Hx. intro E. rewrite E in Hx. discriminate.
    - destruct (mark_facts _ Hx) as (M1 & M2 & M3 & M4 & M5). apply (gap_stops fuel n g []); auto. rewrite app_length. cbn [length]. lia.
    - destruct Hv as [sps Hs|sps c txt Hs Hc Ht].
      + apply gap_stops; auto; try (unfold is_white_space, calm; rewrite H1; reflexivity); try (rewrite H1; discriminate).
        * right. rewrite H1. discriminate.
        * rewrite app_length. lia.
      + rewrite app_length in Hf. rewrite <- app_assoc. cbn [app].
        apply gap_stops; auto; try (unfold is_white_space, calm; rewrite Hc; reflexivity); try (rewrite Hc; discriminate).
        * right. rewrite Hc. discriminate.
        * rewrite app_length. lia.
    - destruct Hu as [sps Hs|sps c txt Hs Hne Hc Ht].
      + apply stops_here; auto; try (unfold is_white_space, calm; rewrite H1; reflexivity); try (rewrite H1; discriminate). lia.
      + rewrite app_length in Hf. rewrite <- app_assoc. cbn [app].
        apply stops_here; auto; try (unfold is_white_space, calm; rewrite Hc; reflexivity); try (rewrite Hc; discriminate). lia.
  Qed.

  (** the next line is not indented enough *)
  Lemma separate_lands ctx i n tl tl2 sol2 sps z q sv b d :
    match ctx with BlockIn | BlockOut | FlowIn | FlowOut => True | _ => False end ->
    lands i tl tl2 sol2 -> (i < Z.of_nat n)%Z -> 0 < n -> length tl <= fuel ->
    tl = sps ++ z :: q -> blanks sps -> dull z ->
    exists a, runs (parse_separate fuel ctx) (mkC tl false sv (mkInd (Z.of_nat n) StrictMode) b d) a
         (mkC (z :: q) false sv (mkInd (Z.of_nat n) StrictMode) b d).
  Proof.
    intros Hx Hl Hi Hn Hf E Hs Hz.
    assert (K : forall sv, exists ts3 sol3, runs (parse_flow_line_prefix fuel) (mkC tl2 sol2 sv (mkInd (Z.of_nat n) StrictMode) b d) NInvalid
      (mkC ts3 sol3 sv (mkInd (Z.of_nat n) StrictMode) b d)).
    { assert (G : forall sv sps x r sol, blanks sps -> calm x = true -> is_white_space x = false -> length sps < n ->
        runs (parse_flow_line_prefix fuel) (mkC (sps ++ x :: r) sol sv (mkInd (Z.of_nat n) StrictMode) b d) NInvalid
          (mkC (x :: r) (sol_after sps sol) sv (mkInd (Z.of_nat n) StrictMode) b d)).
      { intros sv0 sp x r sol G1 G2 G3 G4. unfold parse_flow_line_prefix. go1. go1; [go1; apply indent_strict_no; auto|]. go. }
      intro sv0. destruct Hl as [g sp x r Hg Hsp Hl Hxx|g x r Hg Hxx|g v e1 e2 r Hg Hv H1 H2|u e1 e2 r Hu H1 H2].
      - do 2 eexists. apply G; auto using solid_calm, solid_white. lia.
      - destruct (mark_facts _ Hxx) as (M1 & M2 & M3 & _). do 2 eexists. apply (G sv0 []); auto.
      - do 2 eexists. apply (G sv0 []); auto; [unfold calm|unfold is_white_space]; rewrite H2; reflexivity.
      - do 2 eexists. apply (G sv0 []); auto; [unfold calm|unfold is_white_space]; rewrite H2; reflexivity. }
    destruct (dull_facts _ Hz) as [Cz Wz].
    destruct (sep_in_line_any fuel sps z q false sv (mkInd (Z.of_nat n) StrictMode) b d Hs Wz) as (a & Ra & Va); auto.
    { rewrite E, app_length in Hf. cbn [length] in Hf. lia. }
    rewrite sol_after_false in Ra.
    exists (if valid_node a then NBasic IndentType else NInvalid).
    assert (G : runs (parse_separate_lines fuel) (mkC tl false sv (mkInd (Z.of_nat n) StrictMode) b d)
         (if valid_node a then NBasic IndentType else NInvalid)
         (mkC (z :: q) false sv (mkInd (Z.of_nat n) StrictMode) b d)); [|destruct ctx; try destruct Hx; exact G].
    destruct (K ((tl, live false) :: sv)) as (ts3 & sol3 & R3).
    unfold parse_separate_lines. go1. go1; [go|].
    go1; [go1; eapply comments_lands; [exact Hl|exact Hf]|]. go1; [decide1; go1; exact R3|]. decide1.
    go1; [go|]. go1; [go1; rewrite E; exact Ra|]. destruct (valid_node a); go.
  Qed.

  (** ** nothing of a kind *)
  Lemma properties_no ctx x r sol sv i b d : tok_type x <> TTag -> tok_type x <> TAnchor ->
    runs (parse_properties fuel ctx) (mkC (x :: r) sol sv i b d) NInvalid (mkC (x :: r) sol sv i b d).
  Proof. intros H1 H2. unfold parse_properties. go1. go1; [go|]. destruct (tok_type x); try congruence; go. Qed.
  Lemma alias_no x r sol sv i b d : tok_type x <> TAlias ->
    runs parse_alias_node (mkC (x :: r) sol sv i b d) NInvalid (mkC (x :: r) sol sv i b d).
  Proof. intros H1. unfold parse_alias_node. go1. go1; [go|]. rewrite (ttype_eqb_no _ _ H1). go. Qed.

  Definition no_json (ty : ttype) : bool :=
    match ty with TSequenceStart | TMappingStart | TSingleQuote | TDoubleQuote => false | _ => true end.
  Lemma json_no ctx x r sol sv i b d : no_json (tok_type x) = true ->
    runs (json_content fuel ctx) (mkC (x :: r) sol sv i b d) NInvalid (mkC (x :: r) sol sv i b d).
  Proof.
    intros H. unfold json_content. destruct fuel as [|m]; [lia|]. cbn [parse_flow_json_content]. unfold json_content_body.
    go1; [go|]. destruct (tok_type x); try discriminate; go.
  Qed.
  Lemma json_node_no ctx x r sol sv i b d : no_json (tok_type x) = true -> tok_type x <> TTag -> tok_type x <> TAnchor ->
    runs (parse_flow_json_node fuel (json_content fuel) ctx) (mkC (x :: r) sol sv i b d) NInvalid (mkC (x :: r) sol sv i b d).
  Proof.
    intros H1 H2 H3. unfold parse_flow_json_node. go1. go1; [go|]. go1; [apply properties_no; auto|].
    mid false (mkC (x :: r) sol ((x :: r, sol) :: sv) i b d); [go|].
    go1; [go|]. go1; [apply json_no; auto|]. go.
  Qed.

  (** ** quoted scalars *)
  Lemma json_quoted ctx n t ts y r sol sv b d :
    inside ctx = true -> scalar t ts -> (forall s, ~ plain s ts) -> calm y = true -> length ts < fuel ->
    runs (json_content fuel ctx) (mkC (ts ++ y :: r) sol sv (mkInd (Z.of_nat n) StrictMode) b d) t
         (mkC (y :: r) false sv (mkInd (Z.of_nat n) StrictMode) b d).
  Proof.
    intros Hx Hs Hn Hc Hf. pose proof (quoted fuel f0) as Q. unfold json_content.
    destruct fuel as [|m] eqn:Ef; [lia|]. cbn [parse_flow_json_content]. unfold json_content_body. rewrite <- Ef in *.
    destruct Hs as [s ts H|o ts c H1 H2 H3|o ts c H1 H2 H3].
    - destruct (Hn s). exact H.
    - cbn [app]. rewrite <- app_assoc. cbn [app]. go1; [go|]. rewrite H1.
      unfold parse_single_quoted.
      apply (Q TSingleQuote CsSingleQuoted SingleQuoting ctx n o ts c y r sol sv b d); auto; [left; reflexivity|]. cbn in Hf. rewrite app_length in Hf. lia.
    - cbn [app]. rewrite <- app_assoc. cbn [app]. go1; [go|]. rewrite H1.
      unfold parse_double_quoted.
      apply (Q TDoubleQuote CsDoubleQuoted DoubleQuoting ctx n o ts c y r sol sv b d); auto; [right; reflexivity|]. cbn in Hf. rewrite app_length in Hf. lia.
  Qed.

  (** a plain scalar or not *)
  Lemma scalar_cases t ts : scalar t ts ->
    (exists s, t = NText s UnknownQuoting /\ plain s ts) \/
    ((forall s, ~ plain s ts) /\ exists x r, ts = x :: r /\ (tok_type x = TSingleQuote \/ tok_type x = TDoubleQuote)).
  Proof.
    intros [s ts2 H|o ts2 c H _ _|o ts2 c H _ _]; [left; eauto| |]; right; (split; [|eauto]);
      intros s P; destruct (plain_head _ _ P) as (w & r & [= <- _] & [W _]); congruence.
  Qed.

  (** ** keys *)
  Lemma maybe_sep_no sps y r sv i b d : blanks sps -> is_white_space y = false -> reach sps sv (y :: r) -> length sps < fuel ->
    runs (maybe_separate_in_line fuel) (mkC (sps ++ y :: r) false sv i b d) tt (mkC (y :: r) false sv i b d).
  Proof.
    intros Hs Hw Hc Hf. unfold maybe_separate_in_line. go1; [go|].
    destruct (sep_in_line_any fuel sps y r false ((sps ++ y :: r, live false) :: sv) i b d Hs Hw (reach_cp _ _ _ _ _ Hs Hc) Hf) as (a & Ra & Va).
    go1; [go1; exact Ra|]. rewrite Va, sol_after_false. destruct sps; go.
  Qed.

  Lemma blanks_or sps (y : token) r : blanks sps -> calm y = true -> exists z q, sps ++ y :: r = z :: q /\ calm z = true.
  Proof.
    intros Hs Hc. destruct sps as [|s sps]; [exists y, r; auto|]. exists s, (sps ++ y :: r). inversion Hs as [|? ? E _]; subst.
    split; [reflexivity|]. unfold calm. rewrite E. reflexivity.
  Qed.

  Lemma key_ok t ts sps y r sol sv i b d :
    scalar t ts -> blanks sps -> length sps < fuel -> tok_type y <> TString -> is_white_space y = false -> calm y = true -> length ts < fuel ->
    runs (parse_block_mapping_implicit_key fuel) (mkC (ts ++ sps ++ y :: r) sol sv i b d) t (mkC (y :: r) false sv i b d).
  Proof.
    intros Hs Hsp Hfs Hy Hw Hc Hf.
    destruct (scalar_head _ _ Hs) as (x & q & E & Hx & _).
    assert (Ha : tok_type x <> TAlias) by (unfold solid in Hx; intro A; rewrite A in Hx; discriminate).
    assert (Hg : tok_type x <> TTag) by (unfold solid in Hx; intro A; rewrite A in Hx; discriminate).
    assert (Hn : tok_type x <> TAnchor) by (unfold solid in Hx; intro A; rewrite A in Hx; discriminate).
    set (all := ts ++ sps ++ y :: r).
    unfold parse_block_mapping_implicit_key. go1. go1; [go|].
    destruct (scalar_cases _ _ Hs) as [(s & -> & P)|(NP & x2 & r2 & E2 & Q)].
    - mid NInvalid (mkC all sol ((all, live sol) :: sv) i b d).
      { unfold parse_implicit_json_key. go1. go1; [go1; subst all ts; apply json_node_no; auto|].
        - destruct (plain_head _ _ P) as (w & r3 & [= <- _] & [W _]). rewrite W. reflexivity.
        - subst all ts. go. }
      decide1. go1; [go|]. unfold parse_implicit_yaml_key. go1.
      mid (NText s UnknownQuoting) (mkC (sps ++ y :: r) false sv i b d).
      { go1. unfold parse_flow_yaml_node, parse_generic_flow_node. go1. go1; [go|].
        go1; [subst all ts; apply alias_no; auto|]. decide1. subst all ts. go1; [go|]. go1; [go|].
        go1; [apply (one_line_blanks fuel f0 BlockKey s (x :: q)); auto|]. go. }
      decide1. go1; [apply maybe_sep_no; auto|]. go.
    - mid t (mkC (y :: r) false ((all, live sol) :: sv) i b d).
      2:{ assert (V : valid_node t = true) by (destruct Hs; reflexivity). rewrite V. go. }
      unfold parse_implicit_json_key. go1.
      mid t (mkC (sps ++ y :: r) false ((all, live sol) :: sv) i b d).
      { go1. unfold parse_flow_json_node. go1. go1; [go|].
        mid NInvalid (mkC all sol ((all, live sol) :: (all, live sol) :: sv) (mkInd 0 StrictMode) b d).
        { subst all ts. apply properties_no; auto. }
        mid false (mkC all sol ((all, live sol) :: (all, live sol) :: sv) (mkInd 0 StrictMode) b d); [go|].
        go1; [go|].
        mid t (mkC (sps ++ y :: r) false ((all, live sol) :: sv) (mkInd 0 StrictMode) b d).
        { subst all. destruct (blanks_or sps y r Hsp Hc) as (z & q2 & -> & Cz). apply (json_quoted BlockKey 0 t); auto. }
        assert (V : valid_node t = true) by (destruct Hs; reflexivity). rewrite V. go. }
      assert (V : valid_node t = true) by (destruct Hs; reflexivity). rewrite V.
      go1; [apply maybe_sep_no; auto|]. go.
  Qed.

  (** ** a flow node on its line *)
  Lemma flow_block_ok v n t ts0 sol0 ts tl tl2 sol sol2 i sv m b d d2 :
    (v + 1 = Z.of_nat n)%Z ->
    runs (parse_separate fuel FlowOut) (mkC ts0 sol0 sv (mkInd (Z.of_nat n) StrictMode) b d) (NBasic IndentType)
         (mkC ts sol sv (mkInd (Z.of_nat n) StrictMode) b d) ->
    runs (parse_flow_node fuel (json_content fuel) FlowOut) (mkC ts sol sv (mkInd (Z.of_nat n) StrictMode) b d) t
         (mkC tl false sv (mkInd (Z.of_nat n) StrictMode) b d2) ->
    valid_node t = true -> lands i tl tl2 sol2 -> length tl <= fuel ->
    runs (parse_flow_in_block fuel) (mkC ts0 sol0 sv (mkInd v m) b d) t (mkC tl2 sol2 sv (mkInd v m) b d2).
  Proof.
    intros Hv Hsep R V Hl Hft. unfold parse_flow_in_block. go1; [go|]. cbn [ind_value]. rewrite Hv. go1. go1; [go|].
    go1; [go1; exact Hsep|]. decide1. go1; [exact R|]. rewrite V.
    go1; [go1; eapply comments_lands; [exact Hl|exact Hft]|]. go.
  Qed.
  Lemma fresh_lands i d tl tl2 sol2 : lands i tl tl2 sol2 -> fresh d tl -> fresh d tl2.
  Proof.
    intros Hl F. destruct Hl; apply fresh_tail in F; try exact F; [apply fresh_tail in F|]; apply (fresh_next _ _ _ F).
  Qed.

  (** ** block scalars and collections that are not there *)
  Lemma block_scalar_no ctx v m ts sol x r sol2 sv b d : firm x = true ->
    runs (parse_separate fuel ctx) (mkC ts sol sv (mkInd (v + 1) m) b d) (NBasic IndentType)
         (mkC (x :: r) sol2 sv (mkInd (v + 1) m) b d) ->
    runs (parse_block_scalar fuel ctx) (mkC ts sol sv (mkInd v m) b d) NInvalid (mkC (x :: r) sol2 sv (mkInd v m) b d).
  Proof.
    intros Hx H. unfold parse_block_scalar. go1. go1; [go|]. go1; [go1; exact H|]. decide1.
    go1; [go|]. go1; [apply properties_no; unfold firm in Hx; intro A; rewrite A in Hx; discriminate|].
    mid NNil (mkC (x :: r) sol2 sv (mkInd (v + 1) m) b d); [go|]. go1; [go|].
    replace (v + 1 + -1)%Z with v by lia. go1; [go|].
    mid NInvalid (mkC (x :: r) sol2 sv (mkInd v m) b d); [|go].
    unfold firm in Hx. destruct (tok_type x); try discriminate; go.
  Qed.
End Flows.

(** ** collections ([true]: a sequence, [false]: a mapping) *)
Lemma scalar_valid t ts : scalar t ts -> valid_node t = true.
Proof. intros []; reflexivity. Qed.
Lemma build_valid k es : valid_node (build k es) = true.
Proof. destruct k; reflexivity. Qed.

(** ** balanced brackets *)
Definition bal (ts : list token) : Prop := forall tl, brk (ts ++ tl) = brk tl.
Definition quiet (t : token) : bool :=
  match tok_type t with TSequenceStart | TSequenceEnd | TMappingStart | TMappingEnd | TEOF => false | _ => true end.
Lemma bal_quiet ts : Forall (fun t => quiet t = true) ts -> bal ts.
Proof.
  induction 1 as [|x l H _ IH]; intro tl; [reflexivity|]. cbn [app]. rewrite brk_cons, IH. unfold quiet in H.
  destruct (tok_type x); first [reflexivity | discriminate].
Qed.
Lemma bal_app a b : bal a -> bal b -> bal (a ++ b).
Proof. intros Ha Hb tl. rewrite <- app_assoc, Ha. apply Hb. Qed.
Lemma bal_cons x ts : quiet x = true -> bal ts -> bal (x :: ts).
Proof. intros Hx Hb. apply (bal_app [x] ts); [apply bal_quiet; auto|exact Hb]. Qed.
Lemma texty_quiet ts : Forall (fun t => texty t = true) ts -> Forall (fun t => quiet t = true) ts.
Proof. intro H. eapply Forall_impl; [|exact H]. intros t. unfold texty, quiet. destruct (tok_type t); congruence. Qed.
Lemma bal_blanks sps : blanks sps -> bal sps.
Proof. intro H. apply bal_quiet, texty_quiet, blanks_texts, H. Qed.
Ltac is_quiet := unfold quiet; match goal with H : tok_type ?x = _ |- context [tok_type ?x] => rewrite H end; reflexivity.
Lemma bal_scalar t ts : scalar t ts -> bal ts.
Proof.
  intros [s ts2 H|o ts2 c H1 H2 H3|o ts2 c H1 H2 H3].
  - eapply bal_quiet, texty_quiet, plain_texts, H.
  - apply bal_cons; [is_quiet|]. apply bal_app; [|apply bal_cons; [is_quiet|intro; reflexivity]].
    apply bal_quiet, texty_quiet. eapply Forall_impl; [|exact H2]. apply fits_texty.
  - apply bal_cons; [is_quiet|]. apply bal_app; [|apply bal_cons; [is_quiet|intro; reflexivity]].
    apply bal_quiet, texty_quiet. eapply Forall_impl; [|exact H2]. apply fits_texty.
Qed.
