(** Evaluation of the productions that skip white space, indentation and line breaks. *)
From Coq Require Import String ZArith.
From Verif Require Import Base YamlChar Token Ast Balance CPAccessor Lexer Parser ParserFlow ParserBlock ParserDocs ParserTape TapeRules.
Local Open Scope parser_scope.
Local Arguments cons {A}%type_scope & _ _.
Local Arguments pair {A B}%type_scope & _ _.

Definition blanks (l : list token) : Prop := Forall (fun t => tok_type t = TSpace) l.
Lemma blanks_nil : blanks [].
Proof. constructor. Qed.
#[export] Hint Resolve blanks_nil : core.
Definition sol_after (sps : list token) (sol : bool) : bool := match sps with [] => sol | _ => false end.

(** tokens that can stand at the beginning of a node *)
Definition solid (t : token) : bool :=
  match tok_type t with TString | TSequenceEntry | TSingleQuote | TDoubleQuote => true | _ => false end.
(** or with a flow collection or an alias *)
Definition firm (t : token) : bool :=
  match tok_type t with
  | TString | TSequenceEntry | TSingleQuote | TDoubleQuote | TSequenceStart | TMappingStart | TAlias => true
  | _ => false
  end.
Lemma solid_firm x : solid x = true -> firm x = true.
Proof. unfold solid, firm. destruct (tok_type x); congruence. Qed.
#[export] Hint Resolve solid_firm : core.

Lemma solid_calm x : solid x = true -> calm x = true.
Proof. unfold solid, calm. destruct (tok_type x); congruence. Qed.
Lemma solid_white x : solid x = true -> is_white_space x = false.
Proof. unfold solid, is_white_space. destruct (tok_type x); congruence. Qed.

Lemma calm_blanks sps x r : blanks sps -> calm x = true -> calm_hd (sps ++ x :: r) = true.
Proof.
  intros Hs Hc. destruct sps as [|s sps]; [exact Hc|]. inversion Hs; subst. cbn. unfold calm.
  replace (tok_type s) with TSpace by congruence. reflexivity.
Qed.
#[export] Hint Resolve calm_blanks solid_calm : calm.

(** the token after the blanks may be taken *)
Definition reach (sps : list token) (sv : list (list token * mark)) (ts : list token) : Prop :=
  sps = [] \/ may_go sv ts.
Lemma reach_nil sv ts : reach [] sv ts.
Proof. left. reflexivity. Qed.
Lemma reach_calm sps sv x r : calm x = true -> reach sps sv (x :: r).
Proof. intro H. right. left. exact H. Qed.
#[export] Hint Resolve reach_nil reach_calm : core.
Lemma brk_blanks sps ts : blanks sps -> brk (sps ++ ts) = brk ts.
Proof. induction 1 as [|s l H _ IH]; [reflexivity|]. cbn [app]. rewrite brk_cons, H. exact IH. Qed.
Lemma may_blanks sps sv x r : blanks sps -> may_go sv (x :: r) -> may_go sv (sps ++ x :: r).
Proof.
  intros Hs H. destruct sps as [|s sps]; [exact H|]. left. apply (calm_blanks (s :: sps) s []) in Hs as K; [exact K|].
  inversion Hs as [|? ? E _]; subst. unfold calm. rewrite E. reflexivity.
Qed.
Lemma may_cp sps sv sol x r : blanks sps -> sps <> [] -> may_go sv (x :: r) -> may_go ((sps ++ x :: r, sol) :: sv) (x :: r).
Proof.
  intros Hs Hn [H|[H1 H2]]; [left; exact H|right]. split; [exact H1|]. constructor; [|exact H2].
  destruct sps as [|s sps]; [congruence|]. inversion Hs; subst. etransitivity; [apply height_le|]. cbn [fst app tl]. unfold depth. rewrite brk_blanks by assumption. apply le_n.
Qed.
Lemma reach_cp sps sv sol x r : blanks sps -> reach sps sv (x :: r) -> reach sps ((sps ++ x :: r, sol) :: sv) (x :: r).
Proof.
  intros Hs [->|H]; [left; reflexivity|]. destruct sps as [|s sps]; [left; reflexivity|]. right. apply may_cp; auto. discriminate.
Qed.
Lemma reach_tail s sps sv ts : reach (s :: sps) sv ts -> reach sps sv ts.
Proof. intros [H|H]; [discriminate|right; exact H]. Qed.
Lemma reach_step s sps sv x r : blanks sps -> reach (s :: sps) sv (x :: r) -> may_go sv (sps ++ x :: r).
Proof. intros Hs [H|H]; [discriminate|apply may_blanks; assumption]. Qed.
#[export] Hint Resolve reach_cp may_blanks : core.
#[export] Hint Resolve reach_tail : calm.
#[export] Hint Resolve reach_step : calm.
Lemma reach_skipn n sps sv ts : reach sps sv ts -> reach (skipn n sps) sv ts.
Proof. intros [->|H]; [left; destruct n; reflexivity|right; exact H]. Qed.

Ltac open_tok x H :=
  let ty := fresh "ty" in destruct x as [ty ? ? ? ?]; cbn in H; try subst ty.
Ltac solid_cases x H :=
  let ty := fresh "ty" in destruct x as [ty ? ? ? ?]; unfold solid in H; cbn in H; destruct ty; try discriminate H; clear H.

Lemma sol_after_false sps : sol_after sps false = false.
Proof. destruct sps; reflexivity. Qed.
#[export] Hint Rewrite sol_after_false : conf.

Lemma ttype_eqb_no a b : a <> b -> ttype_eqb a b = false.
Proof. destruct a, b; intro H; try reflexivity; congruence. Qed.

Section Blanks.
  Context (fuel : nat).

  Lemma runs_skip_go n : forall sps x r sol sv i b d u,
    blanks sps -> is_white_space x = false -> reach sps sv (x :: r) -> length sps < n ->
    runs (loop_go n (fun _ : unit => b <- (t <- tok ;; if is_white_space t then next ;; ret true else ret false) ;; ret (tt, b)) u)
         (mkC (sps ++ x :: r) sol sv i b d) tt (mkC (x :: r) (sol_after sps sol) sv i b d).
  Proof.
    induction n as [|n IH]; intros sps x r sol sv i b d u Hs Hw Hc Hn; [lia|].
    destruct sps as [|s sps].
    - apply runs_loop_stop. cbn [app]. go.
    - inversion Hs as [|? ? H1 H2]; subst. eapply runs_loop_more.
      + open_tok s H1. cbn [app]. go.
      + rewrite H1. cbn [is_start_of_line]. cbn [sol_after].
        rewrite <- (sol_after_false sps) at 2. apply IH; eauto using reach_tail. cbn in Hn. lia.
  Qed.

  Lemma runs_skip sps x r sol sv i b d :
    blanks sps -> is_white_space x = false -> reach sps sv (x :: r) -> length sps < fuel ->
    runs (skip_while fuel is_white_space) (mkC (sps ++ x :: r) sol sv i b d) tt
         (mkC (x :: r) (sol_after sps sol) sv i b d).
  Proof. intros. unfold skip_while, loop_, loop. apply runs_skip_go; assumption. Qed.

  Lemma sep_in_line_ok sps x r sol sv i b d :
    blanks sps -> is_white_space x = false -> reach sps sv (x :: r) -> length sps < fuel ->
    sps <> [] \/ sol = true ->
    runs (parse_separate_in_line fuel) (mkC (sps ++ x :: r) sol sv i b d) (NBasic IndentType)
         (mkC (x :: r) (sol_after sps sol) sv i b d).
  Proof.
    intros Hs Hw Hc Hf Hor. unfold parse_separate_in_line. go1.
    assert (E : negb (is_white_space (hd x sps)) && negb sol = false).
    { destruct sps as [|s sps]; [destruct Hor as [Hor| ->]; [congruence|apply andb_false_r]|].
      inversion Hs; subst. cbn [hd]. unfold is_white_space. replace (tok_type s) with TSpace by congruence. reflexivity. }
    destruct sps as [|s sps]; cbn [hd app] in *; (go1; [apply runs_tok|]); (go1; [go1|]); rewrite E.
    - go1; [apply (runs_skip []); auto|go].
    - go1; [apply (runs_skip (s :: sps)); auto|go].
  Qed.

  Lemma sep_in_line_no x r sv i b d : is_white_space x = false ->
    runs (parse_separate_in_line fuel) (mkC (x :: r) false sv i b d) NInvalid (mkC (x :: r) false sv i b d).
  Proof. intro Hw. unfold parse_separate_in_line. go1. go1; [go|]. go1; [go|]. rewrite Hw. go. Qed.

  (** ** indentation *)
  Lemma take_ok n : forall sps x r sol sv i b d,
    blanks sps -> reach sps sv (x :: r) -> n <= length sps ->
    runs (take_spaces n) (mkC (sps ++ x :: r) sol sv i b d) true
         (mkC (skipn n sps ++ x :: r) (sol_after (firstn n sps) sol) sv i b d).
  Proof.
    induction n as [|n IH]; intros sps x r sol sv i b d Hs Hc Hn; [apply runs_ret|].
    destruct sps as [|s sps]; cbn [length] in Hn; [lia|]. inversion Hs as [|? ? H1 H2]; subst.
    cbn [take_spaces app]. open_tok s H1. go. cbn [skipn firstn sol_after tok_type is_start_of_line].
    pose proof (IH sps x r false sv i b d) as K. rewrite sol_after_false in K. apply K; eauto using reach_tail. lia.
  Qed.
  Lemma take_no n : forall sps x r sol sv i b d,
    blanks sps -> reach sps sv (x :: r) -> is_white_space x = false -> length sps < n ->
    runs (take_spaces n) (mkC (sps ++ x :: r) sol sv i b d) false
         (mkC (x :: r) (sol_after sps sol) sv i b d).
  Proof.
    induction n as [|n IH]; intros sps x r sol sv i b d Hs Hc Hw Hn; [lia|].
    destruct sps as [|s sps]; cbn [length app] in *; cbn [take_spaces].
    - go1; [go|]. destruct x as [[] ? ? ? ?]; try discriminate; go.
    - inversion Hs as [|? ? H1 H2]; subst. open_tok s H1. go. cbn [sol_after tok_type is_start_of_line].
      pose proof (IH sps x r false sv i b d) as K. rewrite sol_after_false in K. apply K; eauto using reach_tail. lia.
  Qed.

  Lemma indent_strict_ok n sps x r sol sv b d :
    blanks sps -> reach sps sv (x :: r) -> n <= length sps ->
    runs (parse_indent fuel) (mkC (sps ++ x :: r) sol sv (mkInd (Z.of_nat n) StrictMode) b d) (NIndent (Z.of_nat n))
         (mkC (skipn n sps ++ x :: r) (sol_after (firstn n sps) sol) sv (mkInd (Z.of_nat n) StrictMode) b d).
  Proof.
    intros Hs Hc Hn. unfold parse_indent. go. unfold parse_indent_strict. go1.
    replace (ind_value (mkInd (Z.of_nat n) StrictMode) <? 0)%Z with false by (cbn; lia).
    cbn [ind_value]. rewrite Nat2Z.id. go1; [apply take_ok; assumption|]. go.
  Qed.
  Lemma indent_strict_no n sps x r sol sv b d :
    blanks sps -> reach sps sv (x :: r) -> is_white_space x = false -> length sps < n ->
    runs (parse_indent fuel) (mkC (sps ++ x :: r) sol sv (mkInd (Z.of_nat n) StrictMode) b d) NInvalid
         (mkC (x :: r) (sol_after sps sol) sv (mkInd (Z.of_nat n) StrictMode) b d).
  Proof.
    intros Hs Hc Hw Hn. unfold parse_indent. go. unfold parse_indent_strict. go1.
    replace (ind_value (mkInd (Z.of_nat n) StrictMode) <? 0)%Z with false by (cbn; lia).
    cbn [ind_value]. rewrite Nat2Z.id. go1; [apply take_no; assumption|]. go.
  Qed.

  Lemma count_go n : forall sps x r sol sv i b d z,
    blanks sps -> is_white_space x = false -> reach sps sv (x :: r) -> length sps < n ->
    runs (loop_go n (fun n => ty <- tok_ty ;;
                      if ttype_eqb ty TSpace then next ;; ret ((n + 1)%Z, true) else ret (n, false)) z)
         (mkC (sps ++ x :: r) sol sv i b d) (z + Z.of_nat (length sps))%Z (mkC (x :: r) (sol_after sps sol) sv i b d).
  Proof.
    induction n as [|n IH]; intros sps x r sol sv i b d z Hs Hw Hc Hn; [lia|].
    destruct sps as [|s sps]; cbn [app length] in *.
    - apply runs_loop_stop. rewrite Z.add_0_r. go1; [go|]. destruct x as [[] ? ? ? ?]; try discriminate; go.
    - inversion Hs as [|? ? H1 H2]; subst. open_tok s H1. eapply runs_loop_more; [go|].
      cbn [sol_after tok_type is_start_of_line].
      replace (z + Z.of_nat (S (length sps)))%Z with ((z + 1) + Z.of_nat (length sps))%Z by lia.
      pose proof (IH sps x r false sv i b d (z + 1)%Z) as K. rewrite sol_after_false in K. apply K; eauto using reach_tail. lia.
  Qed.

  Lemma sol_after_split n (sps : list token) sol :
    sol_after (skipn n sps) (sol_after (firstn n sps) sol) = sol_after sps sol.
  Proof. destruct sps as [|s sps]; destruct n; try reflexivity. cbn. destruct (skipn n sps); reflexivity. Qed.
  Lemma blanks_skipn n sps : blanks sps -> blanks (skipn n sps).
  Proof. revert n; induction sps as [|s sps IH]; intros [|n] H; auto. inversion H; subst. apply IH. assumption. Qed.

  Lemma indent_lower_ok n sps x r sol sv b d :
    blanks sps -> reach sps sv (x :: r) -> is_white_space x = false -> n <= length sps -> length sps < fuel ->
    runs (parse_indent fuel) (mkC (sps ++ x :: r) sol sv (mkInd (Z.of_nat n) LowerBoundMode) b d)
         (NIndent (Z.of_nat (length sps)))
         (mkC (x :: r) (sol_after sps sol) sv (mkInd (Z.of_nat (length sps)) StrictMode) b d).
  Proof.
    intros Hs Hc Hw Hn Hf. unfold parse_indent. go1; [go|]. cbn [ind_mode ind_value]. go1.
    - unfold parse_indent_lower. go1. rewrite Nat2Z.id.
      go1; [apply take_ok; assumption|]. cbv iota. go1; [|go].
      unfold loop. apply count_go; auto using blanks_skipn, reach_skipn. rewrite skipn_length. lia.
    - cbn iota beta. replace (Z.max 0 (Z.of_nat n) + Z.of_nat (length (skipn n sps)))%Z with (Z.of_nat (length sps)) by (rewrite skipn_length; lia).
      rewrite sol_after_split. go.
  Qed.

  Lemma indent_lower_no n sps x r sol sv b d :
    blanks sps -> reach sps sv (x :: r) -> is_white_space x = false -> length sps < n ->
    runs (parse_indent fuel) (mkC (sps ++ x :: r) sol sv (mkInd (Z.of_nat n) LowerBoundMode) b d) NInvalid
         (mkC (x :: r) (sol_after sps sol) sv (mkInd (Z.of_nat n) LowerBoundMode) b d).
  Proof.
    intros Hs Hc Hw Hn. unfold parse_indent. go1; [go|]. cbn [ind_mode ind_value].
    mid NInvalid (mkC (x :: r) (sol_after sps sol) sv (mkInd (Z.of_nat n) LowerBoundMode) b d); [|cbv iota; exact (runs_invalid _)].
    unfold parse_indent_lower. go1. rewrite Nat2Z.id. go1; [apply take_no; assumption|]. go.
  Qed.

  (** ** comments *)
  (** neither the beginning of a comment nor the end of a line *)
  Definition middle (x : token) : bool :=
    match tok_type x with TComment | TLineBreak | TEOF | TSpace | TTab | TUnknown => false | _ => true end.

  Lemma comment_text_no x r sol sv i b d : tok_type x <> TComment ->
    runs (parse_comment_text fuel) (mkC (x :: r) sol sv i b d) NInvalid (mkC (x :: r) sol sv i b d).
  Proof.
    intro H. unfold parse_comment_text. go1. go1; [go|]. rewrite (ttype_eqb_no _ _ H). go.
  Qed.

  Lemma middle_white x : middle x = true -> is_white_space x = false.
  Proof. unfold middle, is_white_space. destruct (tok_type x); congruence. Qed.
  Lemma middle_comment x : middle x = true -> tok_type x <> TComment.
  Proof. unfold middle. destruct (tok_type x); congruence. Qed.

  Lemma sep_in_line_any sps x r sol sv i b d :
    blanks sps -> is_white_space x = false -> reach sps sv (x :: r) -> length sps < fuel ->
    exists n, runs (parse_separate_in_line fuel) (mkC (sps ++ x :: r) sol sv i b d) n
                   (mkC (x :: r) (sol_after sps sol) sv i b d) /\
      valid_node n = match sps with [] => sol | _ => true end.
  Proof.
    intros Hs Hw Hc Hf. destruct sps as [|s sps].
    - destruct sol.
      + eexists. split; [apply (sep_in_line_ok []); auto|reflexivity].
      + eexists. split; [apply sep_in_line_no; auto|reflexivity].
    - eexists. split; [apply sep_in_line_ok; auto; left; discriminate|reflexivity].
  Qed.

  Lemma sep_comment_no sps x r sol sv i b d :
    blanks sps -> middle x = true -> reach sps sv (x :: r) -> length sps < fuel ->
    runs (parse_separated_comment fuel) (mkC (sps ++ x :: r) sol sv i b d) NInvalid
         (mkC (x :: r) (sol_after sps sol) sv i b d).
  Proof.
    intros Hs Hm Hc Hf. unfold parse_separated_comment. go1.
    destruct (sep_in_line_any sps x r sol ((sps ++ x :: r, sol) :: sv) i b d Hs (middle_white _ Hm) (reach_cp _ _ _ _ _ Hs Hc) Hf)
      as (n & Hn & Hv).
    go1; [go|]. go1; [go1; exact Hn|]. rewrite Hv.
    mid tt (mkC (x :: r) (sol_after sps sol) sv i b d).
    - destruct sps as [|s sps]; [destruct sol|].
      + cbv iota. go1; [go|]. go1; [go1; apply comment_text_no, middle_comment, Hm|]. go.
      + go.
      + cbv iota. go1; [go|]. go1; [go1; apply comment_text_no, middle_comment, Hm|]. go.
    - unfold at_line_end. go1; [go|].
      replace (ttype_eqb (tok_type x) TLineBreak || ttype_eqb (tok_type x) TEOF) with false
        by (unfold middle in Hm; destruct (tok_type x); first [discriminate | reflexivity]). go.
  Qed.
End Blanks.
