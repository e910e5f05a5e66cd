(** Parsing literal block scalars.  Their text ends with a line break, so that the parser goes on at the
    start of a line after them. *)
From Coq Require Import String ZArith.
From Verif Require Import Base YamlChar Token Ast Balance CPAccessor Lexer Parser ParserFlow ParserBlock ParserDocs ParserTape TextSpec TapeRules BlockParse1 BlockParse2 BlockParse3 BlockParse4.
Local Open Scope parser_scope.
Local Arguments cons {A}%type_scope & _ _.
Local Arguments pair {A B}%type_scope & _ _.

Notation ind n := (mkInd (Z.of_nat n) StrictMode).

(** ** What follows a block scalar *)
(** the rest of a line with a comment, and the lines without content after it *)
Inductive lined (i : Z) : list token -> list token -> bool -> Prop :=
| lined_line nl l sps x r : tok_type nl = TLineBreak -> idle l -> blanks sps -> (Z.of_nat (length sps) <= i)%Z -> solid x = true ->
    lined i (nl :: l ++ sps ++ x :: r) (sps ++ x :: r) true
| lined_mark nl l x r : tok_type nl = TLineBreak -> idle l -> doc_mark x = true -> lined i (nl :: l ++ x :: r) (x :: r) true
| lined_end nl l v e1 e2 r : tok_type nl = TLineBreak -> idle l -> idle_line v -> tok_type e1 = TEOF -> tok_type e2 = TEOF ->
    lined i (nl :: l ++ v ++ e1 :: e2 :: r) (e2 :: r) false
| lined_eof e1 e2 r : tok_type e1 = TEOF -> tok_type e2 = TEOF -> lined i (e1 :: e2 :: r) (e2 :: r) false.

Inductive rests (i : Z) : list token -> list token -> bool -> Prop :=
| rests_line sps x r : blanks sps -> (Z.of_nat (length sps) <= i)%Z -> solid x = true -> rests i (sps ++ x :: r) (sps ++ x :: r) true
| rests_mark x r : doc_mark x = true -> rests i (x :: r) (x :: r) true
| rests_end e1 e2 r : tok_type e1 = TEOF -> tok_type e2 = TEOF -> rests i (e1 :: e2 :: r) (e1 :: e2 :: r) true
| rests_note cs c txt q tl2 sol2 : blanks cs -> cs = [] \/ (Z.of_nat (length cs) <= i)%Z -> tok_type c = TComment ->
    Forall (fun t => texty t = true) txt -> lined i q tl2 sol2 -> rests i (cs ++ c :: txt ++ q) tl2 sol2.

Lemma lined_lands i q tl2 sol2 : lined i q tl2 sol2 -> lands i q tl2 sol2.
Proof.
  assert (G : forall nl l, tok_type nl = TLineBreak -> idle l -> gap (nl :: l)) by (intros nl l H1 H2; apply (gap_lines []); auto; constructor; constructor).
  intros [nl l sps x r H1 H2 H3 H4 H5|nl l x r H1 H2 H3|nl l v e1 e2 r H1 H2 H3 H4 H5|e1 e2 r H1 H2].
  - apply (lands_line i (nl :: l)); auto.
  - apply (lands_mark i (nl :: l)); auto.
  - apply (lands_end i (nl :: l)); auto.
  - apply (lands_eof i []); auto. constructor. constructor.
Qed.

(** the line where the parser looks for more of the scalar *)
Definition below (v : nat) (tl : list token) : Prop := exists sps x r, tl = sps ++ x :: r /\ blanks sps /\ length sps < v /\
  is_white_space x = false /\ calm x = true /\ tok_type x <> TLineBreak.
Lemma rests_below i v tl tl2 sol2 : rests i tl tl2 sol2 -> (i < Z.of_nat v)%Z -> 0 < v -> below v tl.
Proof.
  intros [sps x r H1 H2 H3|x r H|e1 e2 r H1 H2|cs c txt q tl2' sol2' H1 H2 H3 H4 H5] Hi Hv.
  - exists sps, x, r. repeat split; auto using solid_calm, solid_white; [lia|]. intro E. unfold solid in H3. rewrite E in H3. discriminate.
  - destruct (mark_facts _ H) as (_ & M2 & M3 & _ & M5). exists [], x, r. repeat split; auto.
  - exists [], e1, (e2 :: r). unfold is_white_space, calm. rewrite H1. repeat split; auto. discriminate.
  - exists cs, c, (txt ++ q). unfold is_white_space, calm. rewrite H3. repeat split; auto; [|discriminate]. destruct H2 as [->|H2]; cbn [length]; lia.
Qed.
Lemma below_calm v tl : below v tl -> calm_hd tl = true.
Proof. intros (sps & x & r & -> & H1 & _ & _ & H2 & _). apply calm_blanks; auto. Qed.

(** ** Tokens *)
(** lines of at most [v] blanks *)
Inductive hollow_in (v : nat) : text -> list token -> Prop :=
| hi_none : hollow_in v [] []
| hi_more sps nl t l : blanks sps -> length sps <= v -> tok_type nl = TLineBreak -> hollow_in v t l ->
    hollow_in v (tok_origin nl ++ t) (sps ++ nl :: l).
(** a line of the text: its first token is read as usual, the others in the raw mode, except that the second
    one may have been read together with the first *)
Definition rawly (t : token) : bool :=
  match tok_type t with TString | TSpace | TTab | TMappingValue | TTag | TDirective => true | _ => false end.
Inductive lit_line (v : nat) : text -> list token -> Prop :=
| lit_line_intro sps x ts : blanks sps -> length sps = v -> is_non_break x = true -> calm x = true -> Forall (fun t => rawly t = true) ts -> quiet x = true ->
    lit_line v (tok_origin x ++ origins ts) (sps ++ x :: bar true :: ts).
Inductive lit_more (v : nat) : text -> list token -> Prop :=
| lm_none : lit_more v [] []
| lm_line nl t l s ts s2 ts2 : tok_type nl = TLineBreak -> hollow_in v t l -> lit_line v s ts -> lit_more v s2 ts2 ->
    lit_more v (tok_origin nl ++ t ++ s ++ s2) (nl :: bar false :: l ++ ts ++ ts2).
Inductive header : chomping -> list token -> Prop :=
| header_clip : header ClipChomping []
| header_strip h : tok_type h = TStripChomping -> header StripChomping [h]
| header_keep h : tok_type h = TKeepChomping -> header KeepChomping [h].
Definition chomped (c : chomping) (nl t : text) : text :=
  match c with StripChomping => [] | KeepChomping => nl ++ t | _ => nl end.
(** a line of a folded scalar: a word, and after the next token the raw mode; with its line break *)
Inductive fold_line : text -> list token -> token -> Prop :=
| fl_one x nl : tok_type x = TString -> tok_type nl = TLineBreak -> fold_line (tok_origin x) [x; nl; bar true; bar false] nl
| fl_more x y ts nl : tok_type x = TString -> is_white_space y = true -> Forall (fun t => rawly t = true) ts -> tok_type nl = TLineBreak ->
    fold_line (tok_origin x ++ tok_origin y ++ origins ts) (x :: y :: bar true :: ts ++ [nl; bar false]) nl.
(** what the line break before the hollow lines [l] stands for *)
Definition fold_text (l : list token) (t : text) : text := match l with [] => [32%N] | _ => t end.
(** the lines after the first, and the last line break *)
Inductive fold_more (v : nat) : token -> text -> list token -> token -> Prop :=
| fm_none nl : fold_more v nl [] [] nl
| fm_line nl0 t l sps s ts nl s2 ts2 nl2 : hollow_in v t l -> blanks sps -> length sps = v -> fold_line s ts nl -> fold_more v nl s2 ts2 nl2 ->
    fold_more v nl0 (fold_text l t ++ s ++ s2) (l ++ sps ++ ts ++ ts2) nl2.
Inductive folded (z : Z) : node -> list token -> Prop :=
| folded_lines v o c hs u nl0 sps s ts nl1 s2 ts2 nl t l :
    tok_type o = TFolded -> header c hs -> trailing u -> tok_type nl0 = TLineBreak -> (z < Z.of_nat v)%Z -> 0 < v ->
    blanks sps -> length sps = v -> fold_line s ts nl1 -> fold_more v nl1 s2 ts2 nl -> hollow_in v t l ->
    folded z (NText (s ++ s2 ++ chomped c (tok_origin nl) t) UnknownQuoting) (o :: hs ++ u ++ nl0 :: sps ++ ts ++ ts2 ++ l).
Inductive barred (z : Z) : node -> list token -> Prop :=
| literal_lines v o c hs u nl0 sps x ts s2 ts2 nl t l :
    tok_type o = TLiteral -> header c hs -> trailing u -> tok_type nl0 = TLineBreak -> (z < Z.of_nat v)%Z -> 0 < v ->
    blanks sps -> length sps = v -> is_non_break x = true -> is_white_space x = false -> calm x = true -> Forall (fun t => rawly t = true) ts ->
    lit_more v s2 ts2 -> tok_type nl = TLineBreak -> hollow_in v t l -> quiet x = true ->
    barred z (NText (tok_origin x ++ origins ts ++ s2 ++ chomped c (tok_origin nl) t) UnknownQuoting)
      (o :: hs ++ u ++ nl0 :: sps ++ x :: bar true :: ts ++ ts2 ++ nl :: bar false :: l).
(** block scalars of both styles *)
Inductive literal (z : Z) : node -> list token -> Prop :=
| literal_barred t ts : barred z t ts -> literal z t ts
| literal_folded t ts : folded z t ts -> literal z t ts.

Lemma rawly_calm t : rawly t = true -> calm t = true.
Proof. unfold rawly, calm. destruct (tok_type t); congruence. Qed.
Lemma rawly_sol t sol : rawly t = true -> is_start_of_line sol (tok_type t) = false.
Proof. unfold rawly. destruct (tok_type t); cbn; congruence. Qed.
Lemma calm_raws ts x r : Forall (fun t => rawly t = true) ts -> calm x = true -> calm_hd (ts ++ x :: r) = true.
Proof. intros H Hc. destruct ts; [exact Hc|]. inversion H; subst. apply rawly_calm. assumption. Qed.
Lemma rawly_unbroken t : rawly t = true -> is_non_break t = true.
Proof. unfold rawly, is_non_break. destruct (tok_type t); congruence. Qed.
Lemma hollow_in_calm v t l r : hollow_in v t l -> calm_hd r = true -> calm_hd (l ++ r) = true.
Proof.
  intros [|sps nl t2 l2 Hs _ Hn _] Hr; [exact Hr|]. rewrite <- app_assoc. apply calm_blanks; auto. unfold calm. rewrite Hn. reflexivity.
Qed.
Lemma lit_line_calm v s ts r : lit_line v s ts -> calm_hd (ts ++ r) = true.
Proof. intros [sps x ts2 H1 _ _ H2 _]. rewrite <- app_assoc. apply calm_blanks; auto. Qed.
Lemma nl_calm x : tok_type x = TLineBreak -> calm x = true.
Proof. unfold calm. intros ->. reflexivity. Qed.
Lemma nl_white x : tok_type x = TLineBreak -> is_white_space x = false.
Proof. unfold is_white_space. intros ->. reflexivity. Qed.
Lemma non_break_no x : is_non_break x = true -> tok_type x <> TLineBreak.
Proof. unfold is_non_break. intros H E. rewrite E in H. discriminate. Qed.
#[local] Hint Resolve nl_calm nl_white non_break_no below_calm : core.

Lemma raw_go n : forall ts y r sol sv i b d u,
  Forall (fun t => rawly t = true) ts -> tok_type y = TLineBreak -> length ts < n ->
  runs (loop_go n (fun _ : unit => b <- (t <- tok ;; if is_non_break t then buf_write (tok_origin t) ;; next ;; ret true else ret false) ;; ret (tt, b)) u)
       (mkC (ts ++ y :: r) sol sv i b d) tt (mkC (y :: r) (sol_after ts sol) sv i (b ++ origins ts) d).
Proof.
  induction n as [|n IH]; intros ts y r sol sv i b d u Ht Hy Hn; [lia|].
  destruct ts as [|t ts]; cbn [app].
  - apply runs_loop_stop. unfold origins. cbn [map concat]. rewrite app_nil_r. destruct u. go1; [|go]. go1; [go|]. unfold is_non_break. rewrite Hy. go.
  - inversion Ht as [|? ? T1 T2]; subst. eapply runs_loop_more.
    + go1; [|go]. go1; [go|]. rewrite (rawly_unbroken _ T1). go1; [go|]. go1; [apply runs_next, may_calm, calm_raws; auto|]. go.
    + cbn [fst snd]. rewrite (rawly_sol _ _ T1). cbn [sol_after].
      unfold origins. cbn [map concat]. fold (origins ts). rewrite app_assoc.
      pose proof (IH ts y r false sv i (b ++ tok_origin t) d tt) as K. rewrite sol_after_false in K.
      apply K; auto. cbn in Hn. lia.
Qed.

Section Literal.
  Context (fuel : nat) (some_fuel : 0 < fuel).

  (** ** lines without content *)
  Lemma bl_empty_ok v sps nl ts sol sv b d :
    blanks sps -> length sps <= v -> 0 < v -> tok_type nl = TLineBreak -> calm_hd ts = true ->
    runs (parse_empty fuel BlockIn) (mkC (sps ++ nl :: ts) sol sv (ind v) b d) (NBasic IndentType)
         (mkC ts true sv (ind v) (b ++ tok_origin nl) d).
  Proof.
    intros Hs Hl Hv Hn Hc. unfold parse_empty. go1. go1; [go|].
    mid (v <=? length sps)%nat (mkC (nl :: ts) (sol_after sps sol) ((sps ++ nl :: ts, live sol) :: sv) (ind v) b d).
    { cbn [parse_line_prefix]. destruct (Nat.leb_spec v (length sps)).
      - assert (E : length sps = v) by lia. apply (runs_valid _ _ (NIndent (Z.of_nat v))).
        pose proof (indent_strict_ok fuel v sps nl ts sol ((sps ++ nl :: ts, live sol) :: sv) b d) as K.
        rewrite <- E, skipn_all, firstn_all in K. rewrite <- E. apply K; auto.
      - apply (runs_valid _ _ NInvalid). apply indent_strict_no; auto. }
    mid true (mkC (nl :: ts) (sol_after sps sol) sv (ind v) b d).
    { destruct (Nat.leb_spec v (length sps)); [go|]. go1; [go|]. go1; [go|]. cbn [ind_value].
      unfold parse_indent_less, parse_bordered_indent. replace (Z.of_nat v <? 1)%Z with false by lia.
      eapply (runs_valid _ _ (NIndent (0 + Z.of_nat (length sps)))). go1. go1; [apply (count_ok fuel some_fuel); auto; lia|]. go. }
    cbv iota. go1; [go|]. rewrite Hn. decide1. go1; [go|]. go1; [apply runs_next, may_calm, Hc|]. rewrite Hn. go.
  Qed.
  Lemma bl_empty_low v sps x r sol sv b d :
    blanks sps -> length sps < v -> is_white_space x = false -> calm x = true -> tok_type x <> TLineBreak ->
    runs (parse_empty fuel BlockIn) (mkC (sps ++ x :: r) sol sv (ind v) b d) NInvalid
         (mkC (x :: r) (sol_after sps sol) sv (ind v) b d).
  Proof.
    intros Hs Hv Wx Cx Hx. unfold parse_empty. go1. go1; [go|].
    go1; [apply (runs_valid _ _ NInvalid), indent_strict_no; auto|].
    mid true (mkC (x :: r) (sol_after sps sol) sv (ind v) b d).
    { decide1. go1; [go|]. go1; [go|]. cbn [ind_value].
      unfold parse_indent_less, parse_bordered_indent. replace (Z.of_nat v <? 1)%Z with false by lia.
      eapply (runs_valid _ _ (NIndent (0 + Z.of_nat (length sps)))). go1. go1; [apply (count_ok fuel some_fuel); auto; lia|]. go. }
    cbv iota. go1; [go|]. rewrite (ttype_eqb_no _ _ Hx). go.
  Qed.
  Lemma strict_exact v sps x r sol sv b d : blanks sps -> length sps = v -> calm x = true ->
    runs (parse_indent fuel) (mkC (sps ++ x :: r) sol sv (ind v) b d) (NIndent (Z.of_nat v)) (mkC (x :: r) (sol_after sps sol) sv (ind v) b d).
  Proof.
    intros Hs E Cx. pose proof (indent_strict_ok fuel v sps x r sol sv b d) as K.
    rewrite <- E, skipn_all, firstn_all in K. rewrite <- E. apply K; auto.
  Qed.
  Lemma bl_empty_line v sps x r sol sv b d :
    blanks sps -> length sps = v -> calm x = true -> tok_type x <> TLineBreak ->
    runs (parse_empty fuel BlockIn) (mkC (sps ++ x :: r) sol sv (ind v) b d) NInvalid
         (mkC (x :: r) (sol_after sps sol) sv (ind v) b d).
  Proof.
    intros Hs Hv Cx Hx. unfold parse_empty. go1. go1; [go|].
    go1; [eapply runs_valid, strict_exact; auto|]. cbn [valid_node].
    mid true (mkC (x :: r) (sol_after sps sol) sv (ind v) b d); [go|].
    cbv iota. go1; [go|]. rewrite (ttype_eqb_no _ _ Hx). go.
  Qed.
  (** the first line sets the indentation *)
  Lemma indent_lower_z z sps x r sol sv b d :
    blanks sps -> calm x = true -> is_white_space x = false -> (z <= Z.of_nat (length sps))%Z -> length sps < fuel ->
    runs (parse_indent fuel) (mkC (sps ++ x :: r) sol sv (mkInd z LowerBoundMode) b d)
         (NIndent (Z.of_nat (length sps)))
         (mkC (x :: r) (sol_after sps sol) sv (ind (length sps)) b d).
  Proof.
    intros Hs Hc Hw Hn Hf. unfold parse_indent. go1; [go|]. cbn [ind_mode ind_value]. go1.
    - unfold parse_indent_lower. go1.
      go1; [apply take_ok; auto; lia|]. cbv iota. go1; [|go].
      unfold loop. apply count_go; auto using blanks_skipn, reach_skipn. rewrite skipn_length. lia.
    - cbn iota beta. replace (Z.max 0 z + Z.of_nat (length (skipn (Z.to_nat z) sps)))%Z with (Z.of_nat (length sps)) by (rewrite skipn_length; lia).
      rewrite sol_after_split. go.
  Qed.
  Lemma bl_empty_first z sps x r sol sv b d :
    blanks sps -> (z <= Z.of_nat (length sps))%Z -> length sps < fuel -> is_white_space x = false -> calm x = true -> tok_type x <> TLineBreak ->
    runs (parse_empty fuel BlockIn) (mkC (sps ++ x :: r) sol sv (mkInd z LowerBoundMode) b d) NInvalid
         (mkC (x :: r) (sol_after sps sol) sv (ind (length sps)) b d).
  Proof.
    intros Hs Hv Hf Wx Cx Hx. unfold parse_empty. go1. go1; [go|].
    go1; [eapply runs_valid, indent_lower_z; auto|]. cbn [valid_node].
    mid true (mkC (x :: r) (sol_after sps sol) sv (ind (length sps)) b d); [go|].
    cbv iota. go1; [go|]. rewrite (ttype_eqb_no _ _ Hx). go.
  Qed.

  Lemma repeat_empty_go v t l : hollow_in v t l -> forall k b r sv d ts2 sol2 u, 0 < v -> length l < k -> calm_hd r = true ->
    (forall b, runs (parse_empty fuel BlockIn) (mkC r true ((r, live true) :: sv) (ind v) b d) NInvalid (mkC ts2 sol2 ((r, live true) :: sv) (ind v) b d)) ->
    runs (loop_go k (fun _ : unit => b <- (set_checkpoint ;; ok <- valid (parse_empty fuel BlockIn) ;;
           if ok : bool then commit ;; ret true else rollback ;; ret false) ;; ret (tt, b)) u)
      (mkC (l ++ r) true sv (ind v) b d) tt (mkC r true sv (ind v) (b ++ t) d).
  Proof.
    induction 1 as [|sps nl t l Hs Hl Hn Hh IH]; intros k b r sv d ts2 sol2 u Hv Hk Hr H; destruct k as [|k]; try lia; cbn [app].
    - rewrite app_nil_r. destruct u. apply runs_loop_stop. go1; [|go]. go1; [go|]. go1; [go1; apply H|]. go.
    - rewrite app_length in Hk. cbn [length] in Hk. rewrite <- app_assoc. cbn [app]. eapply runs_loop_more.
      + go1; [|go]. go1; [go|]. go1; [go1; apply bl_empty_ok; auto; eapply hollow_in_calm; eauto|]. go.
      + cbn [fst snd]. rewrite app_assoc. eapply IH; eauto. lia.
  Qed.

  (** ** lines with content *)
  Lemma rest_ok x ts nl r sv i b d :
    is_non_break x = true -> calm x = true -> tok_type nl = TLineBreak -> Forall (fun t => rawly t = true) ts -> length ts + 1 < fuel ->
    forall sol, exists sol2,
    runs (rest_of_line fuel) (mkC (x :: bar true :: ts ++ nl :: bar false :: r) sol sv i b d) tt
      (mkC (nl :: r) sol2 sv i (b ++ tok_origin x ++ origins ts) d).
  Proof.
    intros Hx Cx Hn Ht Hf sol. eexists. unfold rest_of_line. go1; [apply runs_raw|].
    mid tt (mkC (nl :: bar false :: r) (sol_after ts (is_start_of_line sol (tok_type x))) sv i (b ++ tok_origin x ++ origins ts) d); [|apply runs_raw].
    unfold write_while, loop_, loop. destruct fuel as [|f]; [lia|]. eapply runs_loop_more.
    - go1; [|go]. go1; [go|]. rewrite Hx. go1; [go|]. go1; [apply runs_next, may_calm, calm_raws; auto|]. go.
    - cbn [fst snd]. rewrite app_assoc. apply raw_go; auto; lia.
  Qed.

  Lemma repeat_none m ts sol sv i b d ts2 sol2 i2 a :
    runs m (mkC ts sol ((ts, sol) :: sv) i b d) a (mkC ts2 sol2 ((ts, sol) :: sv) i2 b d) -> valid_node a = false ->
    runs (repeat_valid fuel m) (mkC ts sol sv i b d) tt (mkC ts sol sv i2 b d).
  Proof.
    intros H Ha. unfold repeat_valid, loop_, loop. destruct fuel as [|n]; [lia|].
    apply runs_loop_stop. go1; [|go]. go1; [go|]. go1; [go1; exact H|]. rewrite Ha. go.
  Qed.

  Lemma text_first z v sps x ts nl r sol sv b d :
    blanks sps -> length sps = v -> (z <= Z.of_nat v)%Z -> is_non_break x = true -> is_white_space x = false -> calm x = true ->
    tok_type nl = TLineBreak -> Forall (fun t => rawly t = true) ts -> length ts + 1 < fuel -> length sps < fuel -> exists sol2,
    runs (parse_literal_text fuel) (mkC (sps ++ x :: bar true :: ts ++ nl :: bar false :: r) sol sv (mkInd z LowerBoundMode) b d)
      (NBasic TextType) (mkC (nl :: r) sol2 sv (ind v) (b ++ tok_origin x ++ origins ts) d).
  Proof.
    intros Hs Hl Hn Hx Wx Cx Hnl Ht Hf Hf2.
    destruct (rest_ok x ts nl r sv (ind v) b d Hx Cx Hnl Ht Hf (sol_after sps sol)) as (sol2 & R).
    exists sol2. unfold parse_literal_text. go1.
    mid tt (mkC (sps ++ x :: bar true :: ts ++ nl :: bar false :: r) sol sv (ind v) b d).
    { eapply repeat_none; [rewrite <- Hl; apply bl_empty_first; auto; lia|reflexivity]. }
    go1; [go1; apply strict_exact; auto|]. decide1. go1; [go|]. rewrite Hx. go1; [exact R|]. go.
  Qed.

  Lemma text_line v t l s ts nl r sv b d :
    0 < v -> hollow_in v t l -> lit_line v s ts -> tok_type nl = TLineBreak -> length l < fuel -> length ts < fuel -> exists sol2,
    runs (parse_literal_text fuel) (mkC (l ++ ts ++ nl :: bar false :: r) true sv (ind v) b d)
      (NBasic TextType) (mkC (nl :: r) sol2 sv (ind v) (b ++ t ++ s) d).
  Proof.
    intros Hv Hl Hs Hnl Hf Hf2. destruct Hs as [sps x ts Hs He Hx Cx Ht]. rewrite app_length in Hf2. cbn [length] in Hf2.
    destruct (rest_ok x ts nl r sv (ind v) (b ++ t) d Hx Cx Hnl Ht ltac:(lia) (sol_after sps true)) as (sol2 & R).
    exists sol2. unfold parse_literal_text. go1. rewrite <- app_assoc. cbn [app].
    mid tt (mkC (sps ++ x :: bar true :: ts ++ nl :: bar false :: r) true sv (ind v) (b ++ t) d).
    { unfold repeat_valid, loop_, loop. eapply repeat_empty_go; eauto; [apply calm_blanks; auto|]. intros b2. apply bl_empty_line; auto. }
    go1; [go1; apply strict_exact; auto|]. decide1. go1; [go|]. rewrite Hx. go1; [exact R|]. rewrite <- app_assoc. go.
  Qed.

  Lemma text_no v t l tl sv b d : 0 < v -> hollow_in v t l -> below v tl -> length l < fuel -> exists ts2 sol2,
    runs (parse_literal_text fuel) (mkC (l ++ tl) true sv (ind v) b d) NInvalid (mkC ts2 sol2 sv (ind v) (b ++ t) d).
  Proof.
    intros Hv Hl (sps & x & r & -> & Hs & He & Wx & Cx & Hx) Hf. exists (x :: r), (sol_after sps true). unfold parse_literal_text. go1.
    mid tt (mkC (sps ++ x :: r) true sv (ind v) (b ++ t) d).
    { unfold repeat_valid, loop_, loop. eapply repeat_empty_go; eauto; [apply calm_blanks; auto|]. intros b2. apply bl_empty_low; auto. }
    go1; [go1; apply indent_strict_no; auto|]. go.
  Qed.

  (** ** the lines of the text *)
  Lemma lit_more_head v s ts r nl : lit_more v s ts -> tok_type nl = TLineBreak -> exists nl2 q, ts ++ nl :: bar false :: r = nl2 :: bar false :: q /\ tok_type nl2 = TLineBreak.
  Proof. intros [|nl2 t l s2 ts2 s3 ts3 Hn _ _ _] H; cbn [app]; eauto. Qed.

  (** the loop starts with the bar before the current line's break taken *)
  Definition unbar (ts : list token) : list token := match ts with nl :: _ :: r => nl :: r | _ => ts end.
  Lemma lines_go v nl t l tl d : 0 < v -> tok_type nl = TLineBreak -> hollow_in v t l -> below v tl -> length l < fuel ->
    forall s ts, lit_more v s ts -> forall k sol sv b u, length ts < fuel -> length ts < k -> exists sol2,
    runs (loop_go k (fun _ : unit => b <- (
         set_checkpoint ;;
         saved <- buf_len ;;
         ok <- valid (parse_literal_next fuel) ;;
         if ok : bool then commit ;; ret true
         else buf_truncate saved ;; rollback ;; ret false) ;; ret (tt, b)) u)
      (mkC (unbar (ts ++ nl :: bar false :: l ++ tl)) sol sv (ind v) b d) tt (mkC (nl :: l ++ tl) sol2 sv (ind v) (b ++ s) d).
  Proof.
    intros Hv Hnl Hl Htl Hfl. assert (Cl : calm_hd (l ++ tl) = true) by (eapply hollow_in_calm; eauto).
    induction 1 as [|nl1 t1 l1 s1 ts1 s2 ts2 Hn1 Hl1 Hs1 Hm IH]; intros k sol sv b u Hf Hk; (destruct k as [|k]; [cbn in Hk; lia|]).
    - exists sol. cbn [app unbar]. rewrite app_nil_r. destruct u. apply runs_loop_stop. go1; [|go]. go1; [go|]. go1; [go|].
      destruct (text_no v t l tl ((nl :: l ++ tl, live sol) :: sv) (b ++ tok_origin nl) d Hv Hl Htl Hfl) as (ts2 & sol2 & R).
      mid false (mkC ts2 sol2 ((nl :: l ++ tl, live sol) :: sv) (ind v) b d).
      { apply (runs_valid _ _ NInvalid). unfold parse_literal_next. go1. go1; [go|]. rewrite Hnl. decide1. go1; [go|]. go1; [go|].
        go1; [apply runs_next, may_calm, Cl|]. rewrite Hnl. cbn [is_start_of_line]. go1; [go1; exact R|]. decide1.
        go. rewrite <- app_assoc, firstn_app_exact. go. }
      cbv iota. go. rewrite firstn_all. go.
    - cbn [app unbar length] in *. rewrite !app_length in Hf, Hk.
      destruct (lit_more_head v s2 ts2 (l ++ tl) nl Hm Hnl) as (nl2 & q & Eq & Hnl2).
      destruct (text_line v t1 l1 s1 ts1 nl2 q ((nl1 :: l1 ++ ts1 ++ nl2 :: bar false :: q, live sol) :: sv) (b ++ tok_origin nl1) d Hv Hl1 Hs1 Hnl2 ltac:(lia) ltac:(lia)) as (sol3 & R).
      destruct (IH k sol3 sv (b ++ tok_origin nl1 ++ t1 ++ s1) tt ltac:(lia) ltac:(lia)) as (sol4 & R2).
      exists sol4. rewrite <- !app_assoc. rewrite Eq in *. cbn [unbar] in R2. eapply runs_loop_more.
      + go1; [|go]. go1; [go|]. go1; [go|].
        mid true (mkC (nl2 :: q) sol3 ((nl1 :: l1 ++ ts1 ++ nl2 :: bar false :: q, live sol) :: sv) (ind v) (b ++ tok_origin nl1 ++ t1 ++ s1) d).
        { apply (runs_valid _ _ (NBasic TextType)). unfold parse_literal_next. go1. go1; [go|]. rewrite Hn1. decide1. go1; [go|]. go1; [go|].
          go1; [apply runs_next, may_calm; eapply hollow_in_calm; eauto; eapply lit_line_calm; eauto|].
          rewrite Hn1. cbn [is_start_of_line]. go1; [go1; exact R|]. decide1. rewrite <- app_assoc. go. }
        cbv iota. go.
      + cbn [fst snd]. rewrite <- !app_assoc in R2. exact R2.
  Qed.

  (** ** the end of the text *)
  Lemma chomped_last_ok c nl ts sol sv i b d : tok_type nl = TLineBreak -> calm_hd ts = true -> c <> UnknownChomping ->
    runs (parse_chomped_last c) (mkC (nl :: ts) sol sv i b d) (NBasic TextType)
      (mkC ts true sv i (b ++ match c with StripChomping => [] | _ => tok_origin nl end) d).
  Proof.
    intros Hn Ht Hc. unfold parse_chomped_last. go1. go1; [go|]. rewrite Hn. destruct c; try congruence; rewrite ?app_nil_r.
    - go1; [go|]. go1; [apply runs_next, may_calm, Ht|]. rewrite Hn. go.
    - go1; [apply runs_next, may_calm, Ht|]. rewrite Hn. go.
    - go1; [go|]. go1; [apply runs_next, may_calm, Ht|]. rewrite Hn. go.
  Qed.

  (** ** comments after the text *)
  Lemma trail_no v sps x r sol sv b d : 0 < v -> blanks sps -> length sps < v -> is_white_space x = false -> calm x = true -> tok_type x <> TComment ->
    runs (parse_trail_comments fuel) (mkC (sps ++ x :: r) sol sv (ind v) b d) NInvalid (mkC (x :: r) (sol_after sps sol) sv (ind v) b d).
  Proof.
    intros Hv Hs Hl Wx Cx Hx. unfold parse_trail_comments. go1. go1; [go|]. cbn [ind_value].
    mid true (mkC (x :: r) (sol_after sps sol) sv (ind v) b d).
    { unfold parse_indent_less, parse_bordered_indent. replace (Z.of_nat v <? 1)%Z with false by lia.
      eapply (runs_valid _ _ (NIndent (0 + Z.of_nat (length sps)))). go1. go1; [apply (count_ok fuel some_fuel); auto; lia|]. go. }
    cbv iota. go1; [go1; apply comment_text_no, Hx|]. go.
  Qed.
  Lemma lined_repeat i q tl2 sol2 sv ix b d : lined i q tl2 sol2 -> length q <= fuel ->
    runs (ended <- at_line_end ;; if ended : bool then next ;; repeat_valid fuel (parse_comment_line fuel) ;; basic CommentType else invalid)
      (mkC q false sv ix b d) (NBasic CommentType) (mkC tl2 sol2 sv ix b d).
  Proof.
    intros [nl l sps x r H1 H2 H3 H4 H5|nl l x r H1 H2 H3|nl l v e1 e2 r H1 H2 H3 H4 H5|e1 e2 r H1 H2] Hf;
      cbn [length] in Hf; rewrite ?app_length in Hf; cbn [length] in Hf; rewrite ?app_length in Hf; cbn [length] in Hf.
    - go1; [apply at_line_end_ok; left; auto|]. cbv iota. go1; [apply runs_next, may_calm, idle_calm; auto; apply calm_blanks; auto using solid_calm|].
      rewrite H1. go1; [apply (repeat_line fuel some_fuel); auto using solid_middle; try lia; left; apply solid_calm, H5|]. go.
    - destruct (mark_facts _ H3) as (M1 & M2 & _).
      go1; [apply at_line_end_ok; left; auto|]. cbv iota. go1; [apply runs_next, may_calm, idle_calm; auto|].
      rewrite H1. go1; [apply (repeat_line fuel some_fuel l []); auto; try lia; left; exact M2|]. go.
    - assert (C1 : calm e1 = true) by (unfold calm; rewrite H4; reflexivity).
      go1; [apply at_line_end_ok; left; auto|]. cbv iota. go1; [apply runs_next, may_calm, idle_calm; auto; apply idle_line_calm; auto|].
      rewrite H1. go1; [apply (repeat_end fuel some_fuel); auto; lia|]. go.
    - assert (C2 : calm e2 = true) by (unfold calm; rewrite H2; reflexivity).
      assert (W2 : is_white_space e2 = false) by (unfold is_white_space; rewrite H2; reflexivity).
      go1; [apply at_line_end_ok; right; auto|]. cbv iota. go1; [apply runs_next, may_calm; auto|]. rewrite H1. cbn [is_start_of_line].
      go1; [eapply runs_repeat_none; auto; [apply comment_line_off; auto|reflexivity]|]. go.
  Qed.
  Lemma lined_head i q tl2 sol2 : lined i q tl2 sol2 -> exists y r, q = y :: r /\ ends_line y.
  Proof. intros []; eexists _, _; split; try reflexivity; unfold ends_line; auto. Qed.
  Lemma trail_ok v i cs c txt q tl2 sol2 sol sv b d : 0 < v -> blanks cs -> length cs < v -> tok_type c = TComment ->
    Forall (fun t => texty t = true) txt -> lined i q tl2 sol2 -> length txt < fuel -> length q <= fuel ->
    runs (parse_trail_comments fuel) (mkC (cs ++ c :: txt ++ q) sol sv (ind v) b d) (NBasic CommentType) (mkC tl2 sol2 sv (ind v) b d).
  Proof.
    intros Hv Hs Hl Hc Ht Hq Hf Hf2. destruct (lined_head _ _ _ _ Hq) as (y & r & E & Hy). subst q.
    unfold parse_trail_comments. go1. go1; [go|]. cbn [ind_value].
    mid true (mkC (c :: txt ++ y :: r) (sol_after cs sol) sv (ind v) b d).
    { unfold parse_indent_less, parse_bordered_indent. replace (Z.of_nat v <? 1)%Z with false by lia.
      eapply (runs_valid _ _ (NIndent (0 + Z.of_nat (length cs)))). go1. go1; [apply (count_ok fuel some_fuel); auto; try lia; unfold calm, is_white_space; rewrite Hc; reflexivity|]. go. }
    cbv iota. go1; [go1; apply comment_text_ok; auto|]. decide1. eapply lined_repeat; eauto.
  Qed.

  Lemma rests_trail i v tl tl2 sol2 sv b d : rests i tl tl2 sol2 -> (i < Z.of_nat v)%Z -> 0 < v -> length tl <= fuel ->
    runs (parse_trail_comments fuel) (mkC tl true sv (ind v) b d) (NBasic CommentType) (mkC tl2 sol2 sv (ind v) b d) \/
    tl2 = tl /\ sol2 = true /\ exists ts3 sol3,
    runs (parse_trail_comments fuel) (mkC tl true sv (ind v) b d) NInvalid (mkC ts3 sol3 sv (ind v) b d).
  Proof.
    intros [sps x r H1 H2 H3|x r H|e1 e2 r H1 H2|cs c txt q tl3 sol3 H1 H2 H3 H4 H5] Hi Hv Hf.
    - right. repeat split; auto. do 2 eexists. apply trail_no; auto using solid_calm, solid_white; [lia|].
      intro E. unfold solid in H3. rewrite E in H3. discriminate.
    - right. repeat split; auto. destruct (mark_facts _ H) as (M1 & M2 & M3 & _). do 2 eexists. apply (trail_no v []); auto using middle_comment.
    - right. repeat split; auto. do 2 eexists. apply (trail_no v []); auto; unfold calm, is_white_space; rewrite H1; auto. discriminate.
    - left. rewrite app_length in Hf. cbn [length] in Hf. rewrite app_length in Hf. eapply trail_ok; eauto; try lia.
      destruct H2 as [->|H2]; cbn [length]; lia.
  Qed.

  Lemma strip_go i v tl tl2 sol2 d : rests i tl tl2 sol2 -> (i < Z.of_nat v)%Z -> 0 < v ->
    forall t l, hollow_in v t l -> forall k sv b u, length l < k ->
    runs (loop_go k (fun _ : unit => b <- (
      set_checkpoint ;;
      i <- gets p_ind ;;
      ok <- valid (parse_indent_less_or_equal (ind_value i)) ;;
      if ok : bool then
        ty <- tok_ty ;;
        if ttype_eqb ty TLineBreak then next ;; commit ;; ret true
        else rollback ;; ret false
      else rollback ;; ret false) ;; ret (tt, b)) u)
      (mkC (l ++ tl) true sv (ind v) b d) tt (mkC tl true sv (ind v) b d).
  Proof.
    intros Ht Hi Hv. pose proof (rests_below _ _ _ _ _ Ht Hi Hv) as Hb.
    assert (B : forall sps x r sv b, blanks sps -> length sps <= v -> is_white_space x = false -> calm x = true ->
      runs (valid (parse_indent_less_or_equal (Z.of_nat v))) (mkC (sps ++ x :: r) true sv (ind v) b d) true (mkC (x :: r) (sol_after sps true) sv (ind v) b d)).
    { intros sps x r sv b H1 H2 H3 H4. unfold parse_indent_less_or_equal, parse_bordered_indent. replace (Z.of_nat v <? 0)%Z with false by lia.
      eapply (runs_valid _ _ (NIndent (0 + Z.of_nat (length sps)))). go1. go1; [apply (count_ok fuel some_fuel); auto; lia|]. go. }
    induction 1 as [|sps nl t l Hs Hl Hn Hh IH]; intros k sv b u Hk; (destruct k as [|k]; [lia|]).
    - destruct u. destruct Hb as (sps & x & r & -> & H1 & H2 & H3 & H4 & H5). cbn [app]. apply runs_loop_stop.
      go1; [|go]. go1; [go|]. go1; [go|]. cbn [ind_value]. go1; [apply B; auto; lia|]. cbv iota. go1; [go|]. rewrite (ttype_eqb_no _ _ H5). go.
    - rewrite app_length in Hk. cbn [length] in Hk. rewrite <- app_assoc. cbn [app]. eapply runs_loop_more; [|apply IH; lia].
      go1; [|go]. go1; [go|]. go1; [go|]. cbn [ind_value]. go1; [apply B; auto|]. cbv iota. go1; [go|]. rewrite Hn. decide1.
      go1; [apply runs_next, may_calm; eapply hollow_in_calm; eauto|]. rewrite Hn. go.
  Qed.
  Lemma strip_ok i v t l tl tl2 sol2 sv b d : rests i tl tl2 sol2 -> (i < Z.of_nat v)%Z -> 0 < v -> hollow_in v t l ->
    length l < fuel -> length tl <= fuel ->
    runs (parse_strip_empty fuel) (mkC (l ++ tl) true sv (ind v) b d) (NBasic TextType) (mkC tl2 sol2 sv (ind v) b d).
  Proof.
    intros Ht Hi Hv Hl Hf Hf2. unfold parse_strip_empty. go1. go1; [unfold loop_, loop; eapply strip_go; eauto|]. go1; [go|].
    destruct (rests_trail i v tl tl2 sol2 ((tl, live true) :: sv) b d Ht Hi Hv Hf2) as [R|(-> & -> & ts3 & sol3 & R)].
    - go1; [go1; exact R|]. go.
    - go1; [go1; exact R|]. go.
  Qed.

  Lemma keep_go i v tl tl2 sol2 d : rests i tl tl2 sol2 -> (i < Z.of_nat v)%Z -> 0 < v ->
    forall t l, hollow_in v t l -> forall k sv b, length l < k ->
    runs (loop_go k (fun saved =>
      set_checkpoint ;;
      ok <- valid (parse_empty fuel BlockIn) ;;
      if ok : bool then commit ;; n <- buf_len ;; ret (n, true)
      else rollback ;; buf_truncate saved ;; ret (saved, false)) (length b))
      (mkC (l ++ tl) true sv (ind v) b d) (length (b ++ t)) (mkC tl true sv (ind v) (b ++ t) d).
  Proof.
    intros Ht Hi Hv. pose proof (rests_below _ _ _ _ _ Ht Hi Hv) as Hb.
    induction 1 as [|sps nl t l Hs Hl Hn Hh IH]; intros k sv b Hk; (destruct k as [|k]; [lia|]).
    - destruct Hb as (sps & x & r & -> & H1 & H2 & H3 & H4 & H5). cbn [app]. rewrite app_nil_r. apply runs_loop_stop.
      go1; [go|]. go1; [go1; apply bl_empty_low; auto|]. decide1. go. rewrite firstn_all. go.
    - rewrite app_length in Hk. cbn [length] in Hk. rewrite <- app_assoc. cbn [app]. rewrite (app_assoc b). eapply runs_loop_more.
      + go1; [go|]. go1; [go1; apply bl_empty_ok; auto; eapply hollow_in_calm; eauto|]. decide1. go.
      + cbn [fst snd]. apply IH. lia.
  Qed.
  Lemma keep_ok i v t l tl tl2 sol2 sv b d : rests i tl tl2 sol2 -> (i < Z.of_nat v)%Z -> 0 < v -> hollow_in v t l ->
    length l < fuel -> length tl <= fuel ->
    runs (parse_keep_empty fuel) (mkC (l ++ tl) true sv (ind v) b d) (NBasic TextType) (mkC tl2 sol2 sv (ind v) (b ++ t) d).
  Proof.
    intros Ht Hi Hv Hl Hf Hf2. unfold parse_keep_empty. go1. go1; [go|]. go1; [unfold loop; eapply keep_go; eauto|]. go1; [go|].
    destruct (rests_trail i v tl tl2 sol2 ((tl, live true) :: sv) (b ++ t) d Ht Hi Hv Hf2) as [R|(-> & -> & ts3 & sol3 & R)].
    - go1; [go1; exact R|]. go.
    - go1; [go1; exact R|]. go. rewrite firstn_all. go.
  Qed.
  Definition last_break (c : chomping) (nl : text) : text := match c with StripChomping => [] | _ => nl end.
  Lemma chomped_ok i v c nl t l tl tl2 sol2 sv b d : rests i tl tl2 sol2 -> (i < Z.of_nat v)%Z -> 0 < v -> hollow_in v t l ->
    length l < fuel -> length tl <= fuel -> c <> UnknownChomping ->
    runs (parse_chomped_empty fuel c) (mkC (l ++ tl) true sv (ind v) (b ++ last_break c nl) d) (NBasic TextType)
     (mkC tl2 sol2 sv (ind v) (b ++ chomped c nl t) d).
  Proof.
    intros Ht Hi Hv Hl Hf Hf2 Hc. unfold parse_chomped_empty. go1. destruct c; try congruence; cbn [chomped last_break].
    - eapply strip_ok; eauto.
    - eapply strip_ok; eauto.
    - rewrite app_assoc. eapply keep_ok; eauto.
  Qed.

  (** ** the header *)
  Lemma chomping_none y r sol sv i b d : tok_type y <> TStripChomping -> tok_type y <> TKeepChomping ->
    runs parse_chomping (mkC (y :: r) sol sv i b d) ClipChomping (mkC (y :: r) sol sv i b d).
  Proof. intros H1 H2. unfold parse_chomping. go1; [go|]. destruct (tok_type y); try congruence; go. Qed.
  Lemma indicator_none y r sol sv i b d : tok_type y <> TString ->
    runs (parse_indentation_indicator) (mkC (y :: r) sol sv i b d) (Some 0%Z) (mkC (y :: r) sol sv i b d).
  Proof. intros H1. unfold parse_indentation_indicator. go1; [go|]. rewrite (ttype_eqb_no _ _ H1). go. Qed.
  Lemma header_ok c hs u nl0 ts sv i b d : header c hs -> trailing u -> tok_type nl0 = TLineBreak -> calm_hd ts = true -> length u < fuel ->
    runs (parse_block_header fuel) (mkC (hs ++ u ++ nl0 :: ts) false sv i b d) (NBlockHeader c 0) (mkC ts true sv i b d).
  Proof.
    intros Hh Hu Hn Ht Hf.
    destruct (trailing_dull u nl0 ts Hu (or_introl Hn)) as (sps & z & q & E & H1 & H2 & _).
    assert (Y : exists y r, u ++ nl0 :: ts = y :: r /\ calm y = true /\ tok_type y <> TString /\ tok_type y <> TStripChomping /\ tok_type y <> TKeepChomping).
    { rewrite E. destruct sps as [|s sps].
      - exists z, (q ++ ts). unfold calm. destruct H2 as [H2|[H2|H2]]; rewrite H2; repeat split; discriminate.
      - inversion H1 as [|? ? K1 K2]; subst. exists s, (sps ++ z :: q ++ ts). unfold calm. rewrite K1. repeat split; discriminate. }
    destruct Y as (y & r & Ey & Cy & N1 & N2 & N3).
    assert (S : runs (set_checkpoint ;; ok <- valid (parse_separated_comment fuel) ;;
        if ok : bool then commit ;; ret (NBlockHeader c 0) else rollback ;; invalid)
      (mkC (u ++ nl0 :: ts) false sv i b d) (NBlockHeader c 0) (mkC ts true sv i b d)).
    { go1; [go|]. go1; [go1; apply (sep_comment_end fuel); auto; [left; auto|left; auto]|]. rewrite Hn. go. }
    unfold parse_block_header. go1. destruct Hh as [|h Hh|h Hh]; cbn [app].
    - rewrite Ey in *. go1; [apply chomping_none; auto|]. go1; [apply indicator_none; auto|]. cbv iota.
      go1; [apply chomping_none; auto|]. exact S.
    - go1; [unfold parse_chomping; go1; [go|]; rewrite Hh; go1; [apply runs_next; rewrite Ey; left; exact Cy|go]|]. rewrite Hh. cbn [is_start_of_line].
      rewrite Ey in *. go1; [apply indicator_none; auto|]. cbv iota. go1; [go|]. exact S.
    - go1; [unfold parse_chomping; go1; [go|]; rewrite Hh; go1; [apply runs_next; rewrite Ey; left; exact Cy|go]|]. rewrite Hh. cbn [is_start_of_line].
      rewrite Ey in *. go1; [apply indicator_none; auto|]. cbv iota. go1; [go|]. exact S.
  Qed.

  (** ** the scalar *)

  Lemma barred_ok z i t ts tl tl2 sol2 sol sv b d : barred z t ts -> rests i tl tl2 sol2 -> (i <= z)%Z -> length (ts ++ tl) < fuel ->
    runs (parse_literal fuel) (mkC (ts ++ tl) sol sv (mkInd z StrictMode) b d) t (mkC tl2 sol2 sv (mkInd z StrictMode) b d).
  Proof.
    intros [v o c hs u nl0 sps x ts1 s2 ts2 nl t2 l Ho Hh Hu Hn0 Hz Hv Hs Hl Hx Wx Cx Ht Hm Hn Hh2] Htl Hi Hf.
    unfold parse_literal. cbn [app length] in *.
    repeat (rewrite <- app_assoc in *; cbn [app] in * ). repeat (rewrite ?app_length in Hf; cbn [length] in Hf).
    assert (Cs : forall r, calm_hd (sps ++ x :: r) = true) by (intro r; apply calm_blanks; auto).
    go1. go1; [go|]. rewrite Ho. decide1.
    assert (Ch : calm_hd (hs ++ u ++ nl0 :: sps ++ x :: bar true :: ts1 ++ ts2 ++ nl :: bar false :: l ++ tl) = true).
    { destruct Hh as [|h Hh|h Hh]; cbn [app calm_hd]; [|unfold calm; rewrite Hh; reflexivity|unfold calm; rewrite Hh; reflexivity].
      apply idle_line_calm; auto using trailing_idle. }
    go1; [apply runs_next, may_calm, Ch|]. rewrite Ho. cbn [is_start_of_line].
    go1; [apply (header_ok c hs u nl0); auto; try apply Cs; clear -Hf; lia|]. cbv iota. go1; [go|]. cbn [ind_value]. unfold scalar_ind. cbn [Z.eqb].
    go1. unfold parse_literal_content. go1. go1. go1; [go|].
    destruct (lit_more_head v s2 ts2 (l ++ tl) nl Hm Hn) as (nl2 & q & Eq & Hnl2). rewrite Eq.
    set (sv1 := (_ :: sv)).
    destruct (text_first z v sps x ts1 nl2 q true sv1 [] d Hs Hl ltac:(lia) Hx Wx Cx Hnl2 Ht ltac:(lia) ltac:(lia)) as (sol3 & R).
    pose proof (rests_below _ _ _ _ _ Htl (Z.le_lt_trans _ _ _ Hi Hz) Hv) as Hb.
    destruct (lines_go v nl t2 l tl d Hv Hn Hh2 Hb ltac:(lia) s2 ts2 Hm fuel sol3 sv1 ([] ++ tok_origin x ++ origins ts1) tt ltac:(lia) ltac:(lia)) as (sol4 & R2).
    rewrite Eq in R2. cbn [unbar] in R2.
    mid (valid_node (NBasic TextType)) (mkC (nl2 :: q) sol3 sv1 (ind v) ([] ++ tok_origin x ++ origins ts1) d); [go1; exact R|].
    assert (Hc : c <> UnknownChomping) by (destruct Hh; discriminate).
    mid tt (mkC (l ++ tl) true sv (ind v) ((([] ++ tok_origin x ++ origins ts1) ++ s2) ++ last_break c (tok_origin nl)) d).
    { decide1. go1; [exact R2|]. go1; [go1; apply chomped_last_ok; auto; eapply hollow_in_calm; eauto|]. decide1. apply runs_commit. }
    go1; [go1; eapply chomped_ok; eauto; lia|]. decide1. cbn [app]. rewrite <- !app_assoc. go.
  Qed.
  (** ** folded scalars *)
  Definition stuck (v : nat) (q : list token) d : Prop := forall sv b, exists ts2 sol2,
    runs (parse_empty fuel BlockIn) (mkC q true sv (ind v) b d) NInvalid (mkC ts2 sol2 sv (ind v) b d).
  Lemma stuck_below v tl d : 0 < v -> below v tl -> stuck v tl d.
  Proof. intros Hv (sps & x & r & -> & Hs & He & Wx & Cx & Hx) sv b. do 2 eexists. apply bl_empty_low; auto. Qed.
  Lemma stuck_line v sps s ts nl r d : blanks sps -> length sps = v -> fold_line s ts nl -> stuck v (sps ++ ts ++ r) d.
  Proof.
    intros Hs Hl Hf sv b. destruct Hf as [x nl Hx Hn|x y ts nl Hx Hy Ht Hn]; do 2 eexists; apply bl_empty_line; auto; unfold calm; rewrite Hx; congruence.
  Qed.
  Lemma fold_line_calm sps s ts nl r : blanks sps -> fold_line s ts nl -> calm_hd (sps ++ ts ++ r) = true.
  Proof. intros Hs [x nl2 Hx Hn|x y ts2 nl2 Hx Hy Ht Hn]; apply calm_blanks; auto; unfold calm; rewrite Hx; reflexivity. Qed.
  Lemma fold_line_break s ts nl : fold_line s ts nl -> tok_type nl = TLineBreak.
  Proof. intros []; assumption. Qed.
  Lemma fold_more_break v nl0 s ts nl : fold_more v nl0 s ts nl -> tok_type nl0 = TLineBreak -> tok_type nl = TLineBreak.
  Proof. induction 1; eauto using fold_line_break. Qed.
  Lemma white_calm y : is_white_space y = true -> calm y = true /\ is_non_break y = true.
  Proof. unfold is_white_space, calm, is_non_break. destruct (tok_type y); try discriminate; auto. Qed.

  Lemma fold_text_ok s ts nl r C0 n sol sv v b d : fold_line s ts nl -> length ts < fuel ->
    runs (parse_indent fuel) C0 (NIndent n) (mkC (ts ++ r) sol sv (ind v) b d) -> exists sol2,
    runs (parse_folded_text fuel) C0 (NBasic TextType) (mkC (nl :: r) sol2 sv (ind v) (b ++ s) d).
  Proof.
    intros [x nl2 Hx Hn|x y ts2 nl2 Hx Hy Ht Hn] Hf H; cbn [app length] in *.
    - eexists. unfold parse_folded_text. go1. go1; [go1; exact H|]. decide1. go1; [go|]. unfold is_non_break, is_white_space. rewrite Hx. decide1.
      go1; [go|]. go1; [apply runs_next, may_calm; cbn; auto|]. rewrite Hx. cbn [is_start_of_line].
      mid tt (mkC (nl2 :: r) false sv (ind v) (b ++ tok_origin x) d); [|go].
      unfold rest_of_line. go1; [apply runs_raw|].
      mid tt (mkC (nl2 :: bar false :: r) false sv (ind v) (b ++ tok_origin x) d); [|apply runs_raw].
      unfold write_while, loop_, loop. destruct fuel as [|f]; [lia|]. apply runs_loop_stop. go1; [|go]. go1; [go|]. unfold is_non_break. rewrite Hn. go.
    - rewrite app_length in Hf. destruct (white_calm _ Hy) as [C1 C2].
      destruct (rest_ok y ts2 nl2 r sv (ind v) (b ++ tok_origin x) d C2 C1 Hn Ht ltac:(lia) false) as (sol2 & R).
      exists sol2. unfold parse_folded_text. go1. go1; [go1; exact H|]. decide1. go1; [go|]. unfold is_non_break at 1, is_white_space. rewrite Hx. decide1.
      go1; [go|]. go1; [apply runs_next, may_calm; exact C1|]. rewrite Hx. cbn [is_start_of_line].
      rewrite <- app_assoc in *. cbn [app] in *. rewrite !app_assoc in *. go1; [exact R|]. go.
  Qed.

  Lemma trimmed_go v q d : 0 < v -> stuck v q d -> calm_hd q = true -> forall t l, hollow_in v t l -> forall k sv b, length l < k ->
    runs (loop_go k (fun saved =>
          set_checkpoint ;;
          ok <- valid (parse_empty fuel BlockIn) ;;
          if ok : bool then commit ;; n <- buf_len ;; ret (n, true)
          else buf_truncate saved ;; rollback ;; ret (saved, false)) (length b))
      (mkC (l ++ q) true sv (ind v) b d) (length (b ++ t)) (mkC q true sv (ind v) (b ++ t) d).
  Proof.
    intros Hv Hq Cq. induction 1 as [|sps nl t l Hs Hl Hn Hh IH]; intros k sv b Hk; (destruct k as [|k]; [lia|]).
    - destruct (Hq ((q, live true) :: sv) b) as (ts2 & sol2 & R). cbn [app]. rewrite app_nil_r. apply runs_loop_stop.
      go1; [go|]. go1; [go1; exact R|]. decide1. go. rewrite firstn_all. go.
    - rewrite app_length in Hk. cbn [length] in Hk. rewrite <- app_assoc. cbn [app]. rewrite (app_assoc b). eapply runs_loop_more.
      + go1; [go|]. go1; [go1; apply bl_empty_ok; auto; eapply hollow_in_calm; eauto|]. decide1. go.
      + cbn [fst snd]. apply IH. lia.
  Qed.
  Lemma same_go v q d : 0 < v -> stuck v q d -> calm_hd q = true -> forall t l, hollow_in v t l -> forall k sv b, length l < k ->
    runs (loop_go k (fun local =>
      set_checkpoint ;;
      ok <- valid (parse_empty fuel BlockIn) ;;
      if ok : bool then n <- buf_len ;; commit ;; ret (n, true)
      else rollback ;; buf_truncate local ;; ret (local, false)) (length b))
      (mkC (l ++ q) true sv (ind v) b d) (length (b ++ t)) (mkC q true sv (ind v) (b ++ t) d).
  Proof.
    intros Hv Hq Cq. induction 1 as [|sps nl t l Hs Hl Hn Hh IH]; intros k sv b Hk; (destruct k as [|k]; [lia|]).
    - destruct (Hq ((q, live true) :: sv) b) as (ts2 & sol2 & R). cbn [app]. rewrite app_nil_r. apply runs_loop_stop.
      go1; [go|]. go1; [go1; exact R|]. decide1. go. rewrite firstn_all. go.
    - rewrite app_length in Hk. cbn [length] in Hk. rewrite <- app_assoc. cbn [app]. rewrite (app_assoc b). eapply runs_loop_more.
      + go1; [go|]. go1; [go1; apply bl_empty_ok; auto; eapply hollow_in_calm; eauto|]. decide1. go.
      + cbn [fst snd]. apply IH. lia.
  Qed.

  (** a line break and the hollow lines after it *)
  Lemma break_ok v nl t l q sol sv b d : 0 < v -> tok_type nl = TLineBreak -> hollow_in v t l -> stuck v q d -> calm_hd q = true -> length l < fuel ->
    runs (parse_folded_line_break fuel BlockIn) (mkC (nl :: l ++ q) sol sv (ind v) b d) (NBasic TextType)
      (mkC q true sv (ind v) (b ++ fold_text l t) d).
  Proof.
    intros Hv Hn Hl Hq Cq Hf. unfold parse_folded_line_break. go1. go1; [go|]. go1; [go|].
    set (sv1 := (nl :: l ++ q, live sol) :: sv).
    destruct Hl as [|sps nl2 t l Hs He Hn2 Hl]; cbn [app fold_text].
    - destruct (Hq sv1 b) as (ts2 & sol2 & R).
      mid false (mkC ts2 sol2 sv1 (ind v) b d).
      { apply (runs_valid _ _ NInvalid). unfold parse_trimmed. go1. go1; [go|]. rewrite Hn. decide1. go1; [apply runs_next, may_calm, Cq|].
        rewrite Hn. cbn [is_start_of_line]. go1; [go|]. go1; [go1; exact R|]. decide1. go. rewrite firstn_all. go. }
      subst sv1. cbv iota. go1; [go|]. go1; [go|]. rewrite firstn_all. go1; [go|]. rewrite Hn. decide1. go1; [go|].
      go1; [apply runs_next, may_calm, Cq|]. rewrite Hn. go.
    - rewrite app_length in Hf. cbn [length] in Hf.
      assert (F : fold_text (sps ++ nl2 :: l) (tok_origin nl2 ++ t) = tok_origin nl2 ++ t) by (destruct sps; reflexivity). rewrite F.
      assert (C2 : calm_hd (l ++ q) = true) by (eapply hollow_in_calm; eauto).
      assert (C1 : calm_hd ((sps ++ nl2 :: l) ++ q) = true) by (rewrite <- app_assoc; apply calm_blanks; auto).
      mid true (mkC q true sv1 (ind v) (b ++ tok_origin nl2 ++ t) d); [|subst sv1; go].
      apply (runs_valid _ _ (NBasic TextType)). unfold parse_trimmed. go1. go1; [go|]. rewrite Hn. decide1.
      go1; [apply runs_next, may_calm, C1|]. rewrite Hn. cbn [is_start_of_line]. go1; [go|].
      rewrite <- app_assoc. cbn [app]. go1; [go1; apply bl_empty_ok; auto|]. decide1. go1; [go|].
      go1; [unfold loop; apply (trimmed_go v q d); eauto; lia|]. rewrite <- app_assoc. go.
  Qed.

  Lemma indent_below v tl sv b d : below v tl -> exists ts2 sol2,
    runs (parse_indent fuel) (mkC tl true sv (ind v) b d) NInvalid (mkC ts2 sol2 sv (ind v) b d).
  Proof. intros (sps & x & r & -> & Hs & He & Wx & Cx & Hx). do 2 eexists. apply indent_strict_no; auto. Qed.

  Lemma fold_go v nl t l tl d : 0 < v -> hollow_in v t l -> below v tl -> length l < fuel ->
    forall nl0 s ts, fold_more v nl0 s ts nl -> tok_type nl0 = TLineBreak -> forall k sol sv b, length ts < fuel -> length ts < k -> exists n sol2,
    runs (loop_go k (fun saved =>
      set_checkpoint ;;
      ok <- valid (ok <- valid (parse_folded_line_break fuel BlockIn) ;; if ok : bool then parse_folded_text fuel else invalid) ;;
      if ok : bool then commit ;; n <- buf_len ;; ret (n, true)
      else rollback ;; buf_truncate saved ;; ret (saved, false)) (length b))
      (mkC (nl0 :: ts ++ l ++ tl) sol sv (ind v) b d) n (mkC (nl :: l ++ tl) sol2 sv (ind v) (b ++ s) d).
  Proof.
    intros Hv Hl Htl Hfl.
    induction 1 as [nl0|nl0 t1 l1 sps s1 ts1 nl1 s2 ts2 nl2 Hl1 Hs1 He1 Hf1 Hm IH]; intros Hn0 k sol sv b Hf Hk; (destruct k as [|k]; [cbn in Hk; lia|]).
    - cbn [app]. rewrite app_nil_r. do 2 eexists. apply runs_loop_stop. go1; [go|].
      set (sv1 := (nl0 :: l ++ tl, live sol) :: sv).
      destruct (indent_below v tl sv1 (b ++ fold_text l t) d Htl) as (ts2 & sol2 & R).
      mid false (mkC ts2 sol2 sv1 (ind v) (b ++ fold_text l t) d).
      { apply (runs_valid _ _ NInvalid). go1; [go1; apply (break_ok v nl0 t l tl); eauto using stuck_below, below_calm|]. decide1.
        unfold parse_folded_text. go1. go1; [go1; exact R|]. go. }
      subst sv1. cbv iota. go. rewrite firstn_app_exact. go.
    - rewrite !app_length in Hf, Hk.
      set (q := sps ++ ts1 ++ ts2 ++ l ++ tl).
      replace ((l1 ++ sps ++ ts1 ++ ts2) ++ l ++ tl) with (l1 ++ q) by (subst q; rewrite <- !app_assoc; reflexivity).
      set (sv1 := (nl0 :: l1 ++ q, live sol) :: sv).
      assert (Cx : calm_hd (ts1 ++ ts2 ++ l ++ tl) = true) by (apply (fold_line_calm [] s1 ts1 nl1); auto; constructor).
      assert (R1 : runs (parse_indent fuel) (mkC q true sv1 (ind v) (b ++ fold_text l1 t1) d) (NIndent (Z.of_nat v))
        (mkC (ts1 ++ ts2 ++ l ++ tl) (sol_after sps true) sv1 (ind v) (b ++ fold_text l1 t1) d)).
      { subst q. destruct (ts1 ++ ts2 ++ l ++ tl) as [|x r]; [discriminate|]. apply strict_exact; auto. }
      destruct (fold_text_ok s1 ts1 nl1 (ts2 ++ l ++ tl) _ _ _ _ _ _ _ Hf1 ltac:(lia) R1) as (sol3 & R2).
      destruct (IH (fold_line_break _ _ _ Hf1) k sol3 sv ((b ++ fold_text l1 t1) ++ s1) ltac:(lia) ltac:(lia)) as (n & sol4 & R3).
      exists n, sol4. eapply runs_loop_more.
      + go1; [go|].
        mid true (mkC (nl1 :: ts2 ++ l ++ tl) sol3 sv1 (ind v) ((b ++ fold_text l1 t1) ++ s1) d).
        { apply (runs_valid _ _ (NBasic TextType)).
          go1; [go1; apply (break_ok v nl0 t1 l1 q); auto; [eapply stuck_line; eauto|eapply fold_line_calm; eauto|lia]|]. decide1. exact R2. }
        subst sv1. cbv iota. go.
      + cbn [fst snd]. rewrite <- !app_assoc in *. exact R3.
  Qed.

  Lemma loop_stop {A} k (f : A -> M (A * bool)) a a2 C C2 : 0 < k -> runs (f a) C (a2, false) C2 -> runs (loop_go k f a) C a2 C2.
  Proof. intros Hk H. destruct k; [lia|]. apply runs_loop_stop, H. Qed.
  (** the whole text *)
  Lemma fold_lines_ok v nl t l tl d nl1 s ts s2 ts2 C0 n sol sv b : 0 < v -> hollow_in v t l -> below v tl -> length l < fuel ->
    fold_line s ts nl1 -> fold_more v nl1 s2 ts2 nl -> length ts < fuel -> length ts2 < fuel ->
    runs (parse_indent fuel) C0 (NIndent n) (mkC (ts ++ ts2 ++ l ++ tl) sol sv (ind v) b d) -> exists sol2,
    runs (parse_folded_lines fuel) C0 (NBasic TextType) (mkC (nl :: l ++ tl) sol2 sv (ind v) (b ++ s ++ s2) d).
  Proof.
    intros Hv Hl Htl Hfl Hs Hm Hf1 Hf2 H.
    destruct (fold_text_ok _ _ _ _ _ _ _ _ _ _ _ Hs Hf1 H) as (sol3 & R1).
    destruct (fold_go v nl t l tl d Hv Hl Htl Hfl nl1 s2 ts2 Hm (fold_line_break _ _ _ Hs) fuel sol3 sv (b ++ s) Hf2 Hf2) as (n2 & sol4 & R2).
    exists sol4. unfold parse_folded_lines. go1. go1; [go1; exact R1|]. decide1. go1; [go|].
    go1; [unfold repeat_valid_truncating, loop; go1; [exact R2|go]|]. rewrite <- app_assoc. go.
  Qed.
  Lemma same_no v t l tl d sv b : 0 < v -> hollow_in v t l -> below v tl -> length l < fuel -> exists ts2 sol2,
    runs (parse_same_lines fuel) (mkC (l ++ tl) true sv (ind v) b d) NInvalid (mkC ts2 sol2 sv (ind v) b d).
  Proof.
    intros Hv Hl Htl Hfl.
    destruct (indent_below v tl ((tl, live true) :: sv) (b ++ t) d Htl) as (ts2 & sol2 & R).
    destruct (indent_below v tl sv (b ++ t) d Htl) as (ts3 & sol3 & R3).
    exists ts3, sol3. unfold parse_same_lines. go1. go1; [go|].
    go1; [unfold loop; apply (same_go v tl d); eauto using stuck_below|]. go1; [go|].
    mid false (mkC ts2 sol2 ((tl, live true) :: sv) (ind v) (b ++ t) d).
    { apply (runs_valid _ _ NInvalid). unfold parse_folded_lines. go1. mid false (mkC ts2 sol2 ((tl, live true) :: sv) (ind v) (b ++ t) d); [|go].
      apply (runs_valid _ _ NInvalid). unfold parse_folded_text. go1. go1; [go1; exact R|]. go. }
    cbv iota. go1; [go|]. rewrite firstn_all. go1; [go|].
    mid false (mkC ts3 sol3 sv (ind v) (b ++ t) d).
    { apply (runs_valid _ _ NInvalid). unfold parse_spaced_lines. go1. mid false (mkC ts3 sol3 sv (ind v) (b ++ t) d); [|go].
      apply (runs_valid _ _ NInvalid). unfold parse_spaced_text. go1. go1; [go1; exact R3|]. go. }
    cbv iota. go1; [go|]. rewrite firstn_app_exact. go.
  Qed.
  Lemma diff_ok z v sps nl t l tl d nl1 s ts s2 ts2 sv : 0 < v -> (z < Z.of_nat v)%Z -> blanks sps -> length sps = v -> hollow_in v t l -> below v tl ->
    length l < fuel -> length sps < fuel ->
    fold_line s ts nl1 -> fold_more v nl1 s2 ts2 nl -> length ts < fuel -> length ts2 < fuel -> exists sol2,
    runs (parse_diff_lines fuel) (mkC (sps ++ ts ++ ts2 ++ l ++ tl) true sv (mkInd z LowerBoundMode) [] d) (NBasic TextType)
      (mkC (nl :: l ++ tl) sol2 sv (ind v) (s ++ s2) d).
  Proof.
    intros Hv Hz Hs He Hl Htl Hfl Hfs Hf1 Hm Hft Hft2.
    set (q := sps ++ ts ++ ts2 ++ l ++ tl).
    assert (Cx : exists x r, ts ++ ts2 ++ l ++ tl = x :: r /\ calm x = true /\ is_white_space x = false /\ tok_type x <> TLineBreak).
    { destruct Hf1 as [x nl2 Hx Hn|x y ts3 nl2 Hx Hy Ht Hn]; do 2 eexists; (split; [reflexivity|]); unfold calm, is_white_space; rewrite Hx; repeat split; congruence. }
    assert (R1 : forall sv, runs (parse_indent fuel) (mkC q true sv (ind v) [] d) (NIndent (Z.of_nat v))
        (mkC (ts ++ ts2 ++ l ++ tl) (sol_after sps true) sv (ind v) [] d)).
    { intro sv2. subst q. destruct Cx as (x & r & -> & Cx & _). apply strict_exact; auto. }
    destruct (fold_lines_ok v nl t l tl d nl1 s ts s2 ts2 _ _ _ _ _ Hv Hl Htl Hfl Hf1 Hm Hft Hft2 (R1 ((q, live true) :: sv))) as (sol2 & R2).
    pose proof (fold_more_break _ _ _ _ _ Hm (fold_line_break _ _ _ Hf1)) as Hn.
    exists sol2. unfold parse_diff_lines. go1.
    mid true (mkC (nl :: l ++ tl) sol2 sv (ind v) (s ++ s2) d).
    { apply (runs_valid _ _ (NBasic TextType)). unfold parse_same_lines. go1. go1; [go|].
      mid 0 (mkC q true sv (ind v) [] d).
      { unfold loop. cbn [length]. apply loop_stop; [exact some_fuel|]. go1; [go|].
        mid false (mkC (ts ++ ts2 ++ l ++ tl) (sol_after sps true) ((q, live true) :: sv) (ind v) [] d).
        { apply (runs_valid _ _ NInvalid). subst q. destruct Cx as (x & r & -> & Cx & Wx & Bx). rewrite <- He. apply bl_empty_first; auto; lia. }
        cbv iota. go. }
      go1; [go|]. go1; [go1; exact R2|]. decide1. go. }
    cbv iota. go1; [go|].
    mid (length (s ++ s2)) (mkC (nl :: l ++ tl) sol2 sv (ind v) (s ++ s2) d); [|go].
    destruct (same_no v t l tl d ((nl :: l ++ tl, live sol2) :: sv) ((s ++ s2) ++ tok_origin nl) Hv Hl Htl Hfl) as (ts3 & sol3 & R3).
    unfold loop. apply loop_stop; [exact some_fuel|]. go1; [go|]. go1; [go|]. rewrite Hn. decide1.
    go1; [go|]. go1; [apply runs_next, may_calm; eapply hollow_in_calm; eauto|]. rewrite Hn. cbn [is_start_of_line].
    go1; [go1; exact R3|]. decide1. go1; [go|]. rewrite firstn_app_exact. go.
  Qed.

  Lemma folded_ok z i t ts tl tl2 sol2 sol sv b d : folded z t ts -> rests i tl tl2 sol2 -> (i <= z)%Z -> length (ts ++ tl) < fuel ->
    runs (parse_folded fuel) (mkC (ts ++ tl) sol sv (mkInd z StrictMode) b d) t (mkC tl2 sol2 sv (mkInd z StrictMode) b d).
  Proof.
    intros [v o c hs u nl0 sps s ts1 nl1 s2 ts2 nl t2 l Ho Hh Hu Hn0 Hz Hv Hs Hl Hs1 Hm Hh2] Htl Hi Hf.
    unfold parse_folded. cbn [app length] in *.
    repeat (rewrite <- app_assoc in *; cbn [app] in * ). repeat (rewrite ?app_length in Hf; cbn [length] in Hf).
    assert (Cs : forall r, calm_hd (sps ++ ts1 ++ r) = true) by (intro r; eapply fold_line_calm; eauto).
    go1. go1; [go|]. rewrite Ho. decide1.
    assert (Ch : calm_hd (hs ++ u ++ nl0 :: sps ++ ts1 ++ ts2 ++ l ++ tl) = true).
    { destruct Hh as [|h Hh|h Hh]; cbn [app calm_hd]; [|unfold calm; rewrite Hh; reflexivity|unfold calm; rewrite Hh; reflexivity].
      apply idle_line_calm; auto using trailing_idle. }
    go1; [apply runs_next, may_calm, Ch|]. rewrite Ho. cbn [is_start_of_line].
    go1; [apply (header_ok c hs u nl0); auto; try apply Cs; clear -Hf; lia|]. cbv iota. go1; [go|]. cbn [ind_value]. unfold scalar_ind. cbn [Z.eqb].
    go1. unfold parse_folded_content. go1. go1. go1; [go|].
    set (sv1 := (_ :: sv)).
    pose proof (rests_below _ _ _ _ _ Htl (Z.le_lt_trans _ _ _ Hi Hz) Hv) as Hb.
    destruct (diff_ok z v sps nl t2 l tl d nl1 s ts1 s2 ts2 sv1 Hv Hz Hs Hl Hh2 Hb ltac:(lia) ltac:(lia) Hs1 Hm ltac:(lia) ltac:(lia)) as (sol3 & R).
    pose proof (fold_more_break _ _ _ _ _ Hm (fold_line_break _ _ _ Hs1)) as Hn.
    assert (Hc : c <> UnknownChomping) by (destruct Hh; discriminate).
    go1; [go1; exact R|].
    mid true (mkC (l ++ tl) true sv1 (ind v) ((s ++ s2) ++ last_break c (tok_origin nl)) d).
    { decide1. eapply (runs_valid _ _ (NBasic TextType)). apply chomped_last_ok; auto. eapply hollow_in_calm; eauto. }
    cbv iota. subst sv1. go1; [apply runs_commit|].
    go1; [go1; eapply (chomped_ok i v c (tok_origin nl)); eauto; lia|]. decide1. rewrite <- !app_assoc. go.
  Qed.

  Lemma scalar_ok z i t ts tl tl2 sol2 sol sv b d : literal z t ts -> rests i tl tl2 sol2 -> (i <= z)%Z -> length (ts ++ tl) < fuel ->
    exists o r, ts = o :: r /\
    runs (match tok_type o with TLiteral => parse_literal fuel | TFolded => parse_folded fuel | _ => invalid end)
      (mkC (ts ++ tl) sol sv (mkInd z StrictMode) b d) t (mkC tl2 sol2 sv (mkInd z StrictMode) b d).
  Proof.
    intros [t0 ts0 H|t0 ts0 H] Hr Hi Hf; inversion H as [v o]; subst; exists o; eexists; (split; [reflexivity|]);
      match goal with E : tok_type o = _ |- _ => rewrite E end; [eapply barred_ok|eapply folded_ok]; eauto.
  Qed.
End Literal.

(** ** What follows a node: [true] for a node that ends with a block scalar *)
Definition goes (o : bool) (i : Z) (tl tl2 : list token) (sol2 : bool) : Prop := if o then rests i tl tl2 sol2 else lands i tl tl2 sol2.
(** what is between a node and the next line with content *)
Inductive between (n : nat) : bool -> list token -> Prop :=
| between_lines g : gap g -> between n false g
| between_none : between n true []
| between_note cs c txt nl l : blanks cs -> length cs <= n -> tok_type c = TComment -> Forall (fun t => texty t = true) txt ->
    tok_type nl = TLineBreak -> idle l -> between n true (cs ++ c :: txt ++ nl :: l).

Lemma lined_weak i j q tl2 sol2 : lined i q tl2 sol2 -> (i <= j)%Z -> lined j q tl2 sol2.
Proof. intros Hl H. destruct Hl; constructor; auto; lia. Qed.
Lemma rests_weak i j tl tl2 sol2 : rests i tl tl2 sol2 -> (i <= j)%Z -> rests j tl tl2 sol2.
Proof.
  intros Hl H. destruct Hl as [sps x r H1 H2 H3|x r H1|e1 e2 r H1 H2|cs c txt q tl2' sol2' H1 H2 H3 H4 H5].
  - apply rests_line; auto; lia.
  - apply rests_mark; auto.
  - apply rests_end; auto.
  - apply rests_note; eauto using lined_weak. destruct H2; [left; auto|right; lia].
Qed.
Lemma goes_between o n g sps x r : between n o g -> blanks sps -> length sps = n -> solid x = true ->
  goes o (Z.of_nat n) (g ++ sps ++ x :: r) (sps ++ x :: r) true.
Proof.
  intros [g2 Hg| |cs c txt nl l H1 H2 H3 H4 H5 H6] Hs Hn Hx; cbn [goes].
  - apply lands_line; auto; lia.
  - apply rests_line; auto; lia.
  - rewrite <- app_assoc. cbn [app]. rewrite <- app_assoc. apply rests_note; auto; [right; lia|]. cbn [app]. apply lined_line; auto; lia.
Qed.
(** where the parser goes on *)
Definition lies (i : Z) (tl2 : list token) : Prop :=
  (exists sps x r, tl2 = sps ++ x :: r /\ blanks sps /\ (Z.of_nat (length sps) <= i)%Z /\ solid x = true) \/
  (exists x r, tl2 = x :: r /\ (doc_mark x = true \/ tok_type x = TEOF)).
Lemma lands_lies i tl tl2 sol2 : lands i tl tl2 sol2 -> lies i tl2.
Proof. intros []; unfold lies; [left; eauto 7|right; eauto|right; eauto|right; eauto]. Qed.
Lemma goes_lies o i tl tl2 sol2 : goes o i tl tl2 sol2 -> lies i tl2.
Proof.
  destruct o; cbn [goes]; [|apply lands_lies].
  intros [sps x r H1 H2 H3|x r H1|e1 e2 r H1 H2|cs c txt q tl2' sol2' H1 H2 H3 H4 H5]; [left; eauto 7|right; eauto|right; eauto|].
  eapply lands_lies, lined_lands, H5.
Qed.
Lemma goes_weak o i j tl tl2 sol2 : goes o i tl tl2 sol2 -> (i <= j)%Z -> goes o j tl tl2 sol2.
Proof. destruct o; cbn [goes]; [apply rests_weak|]. intros Hl H. destruct Hl; constructor; auto; lia. Qed.
Lemma goes_some o i tl tl2 sol2 : goes o i tl tl2 sol2 -> 0 < length tl.
Proof.
  destruct o; cbn [goes]; intro H.
  - destruct H; rewrite ?app_length; cbn [length]; lia.
  - destruct (lands_first _ _ _ _ H) as (y & r & -> & _). cbn. lia.
Qed.
Lemma lies_no_dash i n tl2 : lies i tl2 -> (i < Z.of_nat n)%Z -> no_dash n tl2.
Proof.
  intros [(sps & x & r & -> & Hs & Hl & Hx)|(x & r & -> & Hx)] Hi sp2 x2 r2 E H1 H2 A.
  - assert (W : is_white_space x2 = false) by (unfold is_white_space; rewrite A; reflexivity).
    pose proof (blanks_cut _ _ _ _ _ _ E Hs W). pose proof (blanks_cut _ _ _ _ _ _ (eq_sym E) H1 (solid_white _ Hx)).
    assert (length sps = length sp2) by lia. lia.
  - destruct sp2 as [|s sp2]; cbn [app] in E; injection E as -> _.
    + unfold doc_mark in Hx. rewrite A in Hx. destruct Hx; discriminate.
    + inversion H1 as [|? ? K _]; subst. unfold doc_mark in Hx. rewrite K in Hx. destruct Hx; discriminate.
Qed.
Lemma goes_no_dash o i n tl tl2 sol2 : goes o i tl tl2 sol2 -> (i < Z.of_nat n)%Z -> no_dash n tl2.
Proof. intros H. eapply lies_no_dash, goes_lies, H. Qed.
Lemma fresh_goes o i d tl tl2 sol2 : goes o i tl tl2 sol2 -> fresh d tl -> fresh d tl2.
Proof.
  destruct o; cbn [goes]; [|apply fresh_lands]. intros H F. destruct H as [| | |cs c txt q tl2' sol2' H1 H2 H3 H4 H5]; try exact F.
  eapply fresh_lands; [eapply lined_lands, H5|]. apply (fresh_tail _ (cs ++ c :: txt)). rewrite <- app_assoc. exact F.
Qed.
Lemma goes_length o i tl tl2 sol2 : goes o i tl tl2 sol2 -> length tl2 <= length tl.
Proof.
  destruct o; cbn [goes]; intro H; [destruct H as [| | |cs c txt q tl2' sol2' H1 H2 H3 H4 H5]; try lia; apply lined_lands in H5; destruct H5|destruct H];
    repeat (rewrite !app_length; cbn [length]); lia.
Qed.
Lemma between_mild n o g : between n o g -> Forall (fun t => mild t = true) g.
Proof.
  intros [g2 H| |cs c txt nl l H1 H2 H3 H4 H5 H6]; [apply gap_mild, H|constructor|].
  apply Forall_app. split; [apply blanks_mild, H1|]. constructor; [eapply mild_one; eauto|]. apply Forall_app. split; [apply texty_mild, H4|].
  constructor; [eapply mild_one; eauto|apply idle_mild, H6].
Qed.

(** ** the brackets of a scalar *)
Lemma bal_raws ts : Forall (fun t => rawly t = true) ts -> bal ts.
Proof. intro H. apply bal_quiet. eapply Forall_impl; [|exact H]. intro t. unfold rawly, quiet. destruct (tok_type t); congruence. Qed.
Lemma bal_hollow v t l : hollow_in v t l -> bal l.
Proof.
  induction 1 as [|sps nl t l Hs _ Hn _ IH]; [intro; reflexivity|]. apply bal_app; [apply bal_blanks, Hs|]. apply bal_cons; [is_quiet|exact IH].
Qed.
Lemma bal_more v s ts : lit_more v s ts -> bal ts.
Proof.
  induction 1 as [|nl t l s ts s2 ts2 Hn Hh Hl _ IH]; [intro; reflexivity|]. apply bal_cons; [is_quiet|]. apply bal_cons; [reflexivity|].
  apply bal_app; [eapply bal_hollow, Hh|]. apply bal_app; [|exact IH].
  destruct Hl as [sps x ts3 H1 _ _ _ H2 H3]. apply bal_app; [apply bal_blanks, H1|]. apply bal_cons; [exact H3|]. apply bal_cons; [reflexivity|apply bal_raws, H2].
Qed.
Lemma bal_barred z t ts : barred z t ts -> bal ts.
Proof.
  intros [v o c hs u nl0 sps x ts1 s2 ts2 nl t2 l Ho Hh Hu Hn0 Hz Hv Hs Hl Hx Wx Cx Ht Hm Hn Hh2 Hq].
  apply bal_cons; [is_quiet|]. apply bal_app.
  { destruct Hh; [intro; reflexivity| |]; (apply bal_cons; [is_quiet|intro; reflexivity]). }
  apply bal_app. { apply bal_quiet. eapply Forall_impl; [|apply idle_line_mild, trailing_idle, Hu]. intros y. unfold mild, quiet. destruct (tok_type y); congruence. }
  apply bal_cons; [is_quiet|]. apply bal_app; [apply bal_blanks, Hs|]. apply bal_cons; [exact Hq|]. apply bal_cons; [reflexivity|].
  apply bal_app; [apply bal_raws, Ht|]. apply bal_app; [eapply bal_more, Hm|]. apply bal_cons; [is_quiet|]. apply bal_cons; [reflexivity|]. eapply bal_hollow, Hh2.
Qed.
Lemma bal_fold_line s ts nl : fold_line s ts nl -> bal ts.
Proof.
  intros [x nl2 Hx Hn|x y ts2 nl2 Hx Hy Ht Hn]; (apply bal_cons; [is_quiet|]).
  - repeat (apply bal_cons; [is_quiet || reflexivity|]). intro; reflexivity.
  - apply bal_cons; [unfold is_white_space, quiet in *; destruct (tok_type y); congruence|]. apply bal_cons; [reflexivity|].
    apply bal_app; [apply bal_raws, Ht|]. apply bal_cons; [is_quiet|]. apply bal_cons; [reflexivity|]. intro; reflexivity.
Qed.
Lemma bal_folded z t ts : folded z t ts -> bal ts.
Proof.
  intros [v o c hs u nl0 sps s ts1 nl1 s2 ts2 nl t2 l Ho Hh Hu Hn0 Hz Hv Hs Hl Hs1 Hm Hh2].
  apply bal_cons; [is_quiet|]. apply bal_app.
  { destruct Hh; [intro; reflexivity| |]; (apply bal_cons; [is_quiet|intro; reflexivity]). }
  apply bal_app. { apply bal_quiet. eapply Forall_impl; [|apply idle_line_mild, trailing_idle, Hu]. intros y. unfold mild, quiet. destruct (tok_type y); congruence. }
  apply bal_cons; [is_quiet|]. apply bal_app; [apply bal_blanks, Hs|]. apply bal_app; [eapply bal_fold_line, Hs1|]. apply bal_app; [|eapply bal_hollow, Hh2].
  clear -Hm. induction Hm as [nl|nl0 t l sps s ts nl s2 ts2 nl2 Hl Hs He Hf Hm IH]; [intro; reflexivity|].
  apply bal_app; [eapply bal_hollow, Hl|]. apply bal_app; [apply bal_blanks, Hs|]. apply bal_app; [eapply bal_fold_line, Hf|exact IH].
Qed.
Lemma bal_literal z t ts : literal z t ts -> bal ts.
Proof. intros []; eauto using bal_barred, bal_folded. Qed.
Lemma literal_head z t ts : literal z t ts -> exists o r, ts = o :: r /\ (tok_type o = TLiteral \/ tok_type o = TFolded).
Proof. intros [t0 ts0 []|t0 ts0 []]; eauto. Qed.
Lemma literal_valid z t ts : literal z t ts -> valid_node t = true.
Proof. intros [t0 ts0 []|t0 ts0 []]; reflexivity. Qed.
(** it does not end with the token of a dash *)
Lemma hollow_last v t l : hollow_in v t l -> l = [] \/ exists a nl, l = a ++ [nl] /\ tok_type nl = TLineBreak.
Proof.
  induction 1 as [|sps nl t l Hs _ Hn Hl IH]; [auto|]. right. destruct IH as [-> |(a & nl2 & -> & H)]; [exists sps, nl; auto|].
  exists (sps ++ nl :: a), nl2. rewrite <- app_assoc. auto.
Qed.
Lemma barred_last z t ts : barred z t ts -> exists a y, ts = a ++ [y] /\ tok_type y <> TSequenceEntry.
Proof.
  intros [v o c hs u nl0 sps x ts1 s2 ts2 nl t2 l Ho Hh Hu Hn0 Hz Hv Hs Hl Hx Wx Cx Ht Hm Hn Hh2 Hq].
  set (p := o :: hs ++ u ++ nl0 :: sps ++ x :: bar true :: ts1 ++ ts2 ++ [nl]).
  assert (E : forall r, o :: hs ++ u ++ nl0 :: sps ++ x :: bar true :: ts1 ++ ts2 ++ nl :: r = p ++ r).
  { intro r. subst p. cbn [app]. repeat (rewrite <- ?app_assoc; cbn [app]). reflexivity. }
  rewrite E. destruct (hollow_last _ _ _ Hh2) as [-> |(a & y & -> & Hy)].
  - exists p, (bar false). split; [reflexivity|]. discriminate.
  - exists (p ++ bar false :: a), y. split; [rewrite <- app_assoc; reflexivity|congruence].
Qed.

Lemma fold_line_last s ts nl : fold_line s ts nl -> exists a, ts = a ++ [bar false].
Proof.
  intros [x nl2 Hx Hn|x y ts2 nl2 Hx Hy Ht Hn]; [exists [x; nl2; bar true]; reflexivity|].
  exists (x :: y :: bar true :: ts2 ++ [nl2]). cbn [app]. rewrite <- app_assoc. reflexivity.
Qed.
Lemma fold_more_last v nl0 s ts nl : fold_more v nl0 s ts nl -> ts = [] \/ exists a, ts = a ++ [bar false].
Proof.
  induction 1 as [nl|nl0 t l sps s ts nl s2 ts2 nl2 Hl Hs He Hf Hm IH]; [auto|]. right. destruct IH as [-> |(a & ->)].
  - destruct (fold_line_last _ _ _ Hf) as (a & ->). exists (l ++ sps ++ a). rewrite app_nil_r, <- !app_assoc. reflexivity.
  - exists (l ++ sps ++ ts ++ a). rewrite <- !app_assoc. reflexivity.
Qed.
Lemma folded_last z t ts : folded z t ts -> exists a y, ts = a ++ [y] /\ tok_type y <> TSequenceEntry.
Proof.
  intros [v o c hs u nl0 sps s ts1 nl1 s2 ts2 nl t2 l Ho Hh Hu Hn0 Hz Hv Hs Hl Hs1 Hm Hh2].
  set (p := o :: hs ++ u ++ nl0 :: sps).
  assert (E : o :: hs ++ u ++ nl0 :: sps ++ ts1 ++ ts2 ++ l = p ++ ts1 ++ ts2 ++ l).
  { subst p. cbn [app]. repeat (rewrite <- ?app_assoc; cbn [app]). reflexivity. }
  rewrite E. destruct (hollow_last _ _ _ Hh2) as [-> |(a & y & -> & Hy)].
  - rewrite app_nil_r. destruct (fold_more_last _ _ _ _ _ Hm) as [-> |(a & ->)].
    + destruct (fold_line_last _ _ _ Hs1) as (a & ->). exists (p ++ a), (bar false). split; [rewrite app_nil_r, app_assoc; reflexivity|discriminate].
    + exists (p ++ ts1 ++ a), (bar false). split; [rewrite <- !app_assoc; reflexivity|discriminate].
  - exists (p ++ ts1 ++ ts2 ++ a), y. split; [rewrite <- !app_assoc; reflexivity|congruence].
Qed.
Lemma literal_last z t ts : literal z t ts -> exists a y, ts = a ++ [y] /\ tok_type y <> TSequenceEntry.
Proof. intros []; eauto using barred_last, folded_last. Qed.

Section Scalar.
  Context (fuel : nat) (some_fuel : 1 < fuel).
  Lemma literal_scalar ctx z i all sol a t ts tl tl2 sol1 sol2 sv b d : literal z t ts -> rests i tl tl2 sol2 -> (i <= z)%Z -> length (ts ++ tl) < fuel ->
    valid_node a = true ->
    runs (parse_separate fuel ctx) (mkC all sol sv (mkInd (z + 1) StrictMode) b d) a (mkC (ts ++ tl) sol1 sv (mkInd (z + 1) StrictMode) b d) ->
    runs (parse_block_scalar fuel ctx) (mkC all sol sv (mkInd z StrictMode) b d) t (mkC tl2 sol2 sv (mkInd z StrictMode) b d).
  Proof.
    intros Hl Hr Hi Hf Va H.
    destruct (scalar_ok fuel ltac:(lia) z i t ts tl tl2 sol2 sol1 sv b d Hl Hr Hi Hf) as (o & r & E & R).
    assert (Ho : tok_type o = TLiteral \/ tok_type o = TFolded).
    { destruct (literal_head _ _ _ Hl) as (o2 & r2 & E2 & Ho). rewrite E in E2. injection E2 as <- _. exact Ho. }
    pose proof (literal_valid _ _ _ Hl) as V. clear Hl. rewrite E in *. cbn [app] in *.
    unfold parse_block_scalar. go1. go1; [go|]. go1; [go1; exact H|]. rewrite Va.
    go1; [go|]. go1; [apply properties_no; destruct Ho; congruence|].
    mid NNil (mkC (o :: r ++ tl) sol1 sv (mkInd (z + 1) StrictMode) b d); [go|]. go1; [go|].
    replace (z + 1 + -1)%Z with z by lia. go1; [go|]. go1; [exact R|]. rewrite V. go.
  Qed.
  Lemma literal_node bn bi ctx z i all sol a t ts tl tl2 sol1 sol2 sv b d : literal z t ts -> rests i tl tl2 sol2 -> (i <= z)%Z -> length (ts ++ tl) < fuel ->
    valid_node a = true ->
    (forall sv, runs (parse_separate fuel ctx) (mkC all sol sv (mkInd (z + 1) StrictMode) b d) a (mkC (ts ++ tl) sol1 sv (mkInd (z + 1) StrictMode) b d)) ->
    runs (block_node_body fuel bn bi ctx) (mkC all sol sv (mkInd z StrictMode) b d) t (mkC tl2 sol2 sv (mkInd z StrictMode) b d).
  Proof.
    intros Hl Hr Hi Hf Va H. pose proof (literal_valid _ _ _ Hl) as V.
    unfold block_node_body. go1. go1; [go|]. apply runs_lose.
    mid t (mkC tl2 sol2 ((all, lost) :: sv) (mkInd z StrictMode) b d); [|rewrite V; go].
    unfold parse_block_in_block. go1. go1; [go|]. apply runs_lose.
    mid t (mkC tl2 sol2 ((all, lost) :: (all, lost) :: sv) (mkInd z StrictMode) b d); [|rewrite V; go].
    apply (literal_scalar ctx z i all sol a t ts tl tl2 sol1 sol2); auto.
  Qed.
End Scalar.
