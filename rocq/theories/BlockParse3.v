(** Evaluation of the productions for scalars. *)
From Coq Require Import String ZArith.
From Verif Require Import Base YamlChar Token Ast Balance CPAccessor Lexer Parser ParserFlow ParserBlock ParserDocs ParserTape TapeRules BlockParse1 BlockParse2.
Local Open Scope parser_scope.
Local Arguments cons {A}%type_scope & _ _.
Local Arguments pair {A B}%type_scope & _ _.

Lemma firstn_app_exact {A} (a b : list A) : firstn (length a) (a ++ b) = a.
Proof. rewrite firstn_app, Nat.sub_diag, firstn_all. apply app_nil_r. Qed.

(** ** tokens of scalars *)
Definition origins (ts : list token) : text := concat (map tok_origin ts).

Definition word (t : token) : Prop := tok_type t = TString /\ conforms t CsPlainSafe = true.

(** words separated by spaces *)
Inductive plain : text -> list token -> Prop :=
| plain_one w : word w -> plain (tok_origin w) [w]
| plain_more w sps s ts : word w -> blanks sps -> sps <> [] -> plain s ts ->
    plain (tok_origin w ++ origins sps ++ s) (w :: sps ++ ts).

Definition fits (cs : charset) (t : token) : Prop :=
  (tok_type t = TString /\ conforms t cs = true) \/ tok_type t = TSpace \/ tok_type t = TTab.

Inductive scalar : node -> list token -> Prop :=
| scalar_plain s ts : plain s ts -> scalar (NText s UnknownQuoting) ts
| scalar_single o ts c : tok_type o = TSingleQuote -> Forall (fits CsSingleQuoted) ts -> tok_type c = TSingleQuote ->
    scalar (NText (origins ts) SingleQuoting) (o :: ts ++ [c])
| scalar_double o ts c : tok_type o = TDoubleQuote -> Forall (fits CsDoubleQuoted) ts -> tok_type c = TDoubleQuote ->
    scalar (NText (origins ts) DoubleQuoting) (o :: ts ++ [c]).

Lemma blanks_texts sps : blanks sps -> Forall (fun t => texty t = true) sps.
Proof. intro H. eapply Forall_impl; [|exact H]. intros t Ht. apply blank_texty, Ht. Qed.
Lemma blanks_white sps : blanks sps -> Forall (fun t => is_white_space t = true) sps.
Proof. intro H. eapply Forall_impl; [|exact H]. unfold is_white_space. intros t ->. reflexivity. Qed.

Lemma fits_texty cs t : fits cs t -> texty t = true.
Proof. unfold fits, texty. intros [[-> _]|[->| ->]]; reflexivity. Qed.
Lemma fits_in cs t : fits cs t -> in_quotes cs t = true.
Proof.
  unfold fits, in_quotes, is_white_space. intros [[-> ->]|[->| ->]]; reflexivity.
Qed.

Lemma plain_texts s ts : plain s ts -> Forall (fun t => texty t = true) ts.
Proof.
  induction 1 as [w [H _]|w sps s ts [H _] Hs Hne Hp IH].
  - constructor; [|constructor]. unfold texty. rewrite H. reflexivity.
  - constructor; [unfold texty; rewrite H; reflexivity|]. apply Forall_app. split; [apply blanks_texts, Hs|exact IH].
Qed.
Lemma plain_head s ts : plain s ts -> exists w r, ts = w :: r /\ word w.
Proof. intros [w H|w sps s2 ts2 H _ _ _]; eauto. Qed.
Lemma plain_origins s ts : plain s ts -> s = origins ts.
Proof.
  induction 1 as [w H|w sps s ts H Hs Hne Hp IH]; unfold origins in *; cbn.
  - symmetry. apply app_nil_r.
  - rewrite map_app, concat_app, IH. reflexivity.
Qed.

Definition inside (ctx : context) : bool :=
  match ctx with BlockKey | FlowKey | FlowIn | FlowOut => true | _ => false end.

Lemma word_safe t ctx : inside ctx = true -> word t -> is_plain_safe_token t ctx = true.
Proof. unfold word, is_plain_safe_token. intros Hx [-> ->]. destruct ctx; try discriminate; reflexivity. Qed.
Lemma unsafe t ctx : tok_type t <> TString -> is_plain_safe_token t ctx = false.
Proof. intro H. unfold is_plain_safe_token. rewrite (ttype_eqb_no _ _ H). destruct ctx; reflexivity. Qed.

(** lines of blanks only, and their line breaks *)
Inductive hollow : text -> list token -> Prop :=
| hollow_none : hollow [] []
| hollow_more sps nl t l : blanks sps -> tok_type nl = TLineBreak -> hollow t l -> hollow (tok_origin nl ++ t) (sps ++ nl :: l).

Section Scalars.
  Context (fuel : nat) (some_fuel : 0 < fuel).

  Lemma write_go cond n : forall ts y r sol sv i b d u,
    Forall (fun t => texty t = true) ts -> Forall (fun t => cond t = true) ts -> cond y = false -> calm y = true ->
    length ts < n ->
    runs (loop_go n (fun _ : unit => b <- (t <- tok ;; if cond t then buf_write (tok_origin t) ;; next ;; ret true else ret false) ;; ret (tt, b)) u)
         (mkC (ts ++ y :: r) sol sv i b d) tt (mkC (y :: r) (sol_after ts sol) sv i (b ++ origins ts) d).
  Proof.
    induction n as [|n IH]; intros ts y r sol sv i b d u Ht Hw Hy Hc Hn; [lia|].
    destruct ts as [|t ts]; cbn [app].
    - apply runs_loop_stop. unfold origins. cbn [map concat]. rewrite app_nil_r. destruct u. go1; [|go]. go1; [go|]. rewrite Hy. go.
    - inversion Ht as [|? ? T1 T2]; subst. inversion Hw as [|? ? W1 W2]; subst.
      eapply runs_loop_more.
      + go1; [|go]. go1; [go|]. rewrite W1. go1; [go|]. go1; [apply runs_next, may_calm, calm_texts; assumption|]. go.
      + cbn [fst snd]. rewrite (texty_sol _ _ T1). cbn [sol_after].
        unfold origins. cbn [map concat]. fold (origins ts). rewrite app_assoc.
        pose proof (IH ts y r false sv i (b ++ tok_origin t) d tt) as K. rewrite sol_after_false in K.
        apply K; auto. cbn in Hn. lia.
  Qed.
  Lemma write_ok cond ts y r sol sv i b d :
    Forall (fun t => texty t = true) ts -> Forall (fun t => cond t = true) ts -> cond y = false -> calm y = true ->
    length ts < fuel ->
    runs (write_while fuel cond) (mkC (ts ++ y :: r) sol sv i b d) tt
         (mkC (y :: r) (sol_after ts sol) sv i (b ++ origins ts) d).
  Proof. intros. unfold write_while, loop_, loop. apply write_go; assumption. Qed.
  Lemma write_none cond y r sol sv i b d :
    cond y = false ->
    runs (write_while fuel cond) (mkC (y :: r) sol sv i b d) tt (mkC (y :: r) sol sv i b d).
  Proof.
    intros Hy. unfold write_while, loop_, loop. destruct fuel; [lia|]. apply runs_loop_stop.
    go1; [|go]. go1; [go|]. rewrite Hy. go.
  Qed.

  (** ** plain scalars *)
  Lemma in_line_go n ctx : inside ctx = true -> forall s ts, plain s ts -> forall sps sp2 y r sol sv i b d u,
    blanks sps -> blanks sp2 -> length sp2 < fuel -> tok_type y <> TString -> is_white_space y = false -> calm y = true ->
    length (sps ++ ts) < fuel -> length ts < n ->
    runs (loop_go n (fun _ : unit => b <- (
      set_checkpoint ;;
      saved <- buf_len ;;
      write_while fuel is_white_space ;;
      t <- tok ;;
      if is_plain_safe_token t ctx then
        commit ;; buf_write (tok_origin t) ;; next ;; ret true
      else buf_truncate saved ;; rollback ;; ret false) ;; ret (tt, b)) u)
      (mkC ((sps ++ ts) ++ sp2 ++ y :: r) sol sv i b d) tt (mkC (sp2 ++ y :: r) false sv i (b ++ origins sps ++ s) d).
  Proof.
    intros Hx. revert n.
    assert (Step : forall n w more sps sol sv i b d u c2,
      word w -> blanks sps -> length sps < fuel -> calm_hd more = true ->
      runs (loop_go n (fun _ : unit => b <- (
        set_checkpoint ;;
        saved <- buf_len ;;
        write_while fuel is_white_space ;;
        t <- tok ;;
        if is_plain_safe_token t ctx then
          commit ;; buf_write (tok_origin t) ;; next ;; ret true
        else buf_truncate saved ;; rollback ;; ret false) ;; ret (tt, b)) tt)
        (mkC more false sv i ((b ++ origins sps) ++ tok_origin w) d) tt c2 ->
      runs (loop_go (S n) (fun _ : unit => b <- (
        set_checkpoint ;;
        saved <- buf_len ;;
        write_while fuel is_white_space ;;
        t <- tok ;;
        if is_plain_safe_token t ctx then
          commit ;; buf_write (tok_origin t) ;; next ;; ret true
        else buf_truncate saved ;; rollback ;; ret false) ;; ret (tt, b)) u)
        (mkC (sps ++ w :: more) sol sv i b d) tt c2).
    { intros n w more sps sol sv i b d u c2 Hw Hs Hf Hc K. eapply runs_loop_more; [|exact K].
      assert (Ww : is_white_space w = false) by (unfold is_white_space; rewrite (proj1 Hw); reflexivity).
      assert (Cw : calm w = true) by (unfold calm; rewrite (proj1 Hw); reflexivity).
      go1; [|go]. go1; [go|]. go1; [go|]. go1.
      { apply write_ok; auto using blanks_texts, blanks_white. }
      go1; [go|]. rewrite (word_safe _ _ Hx Hw). go1; [go|]. go1; [go|]. go1.
      { apply runs_next, may_calm. exact Hc. }
      rewrite (proj1 Hw). cbn [is_start_of_line]. go. }
    assert (Stop : forall n sp2 y r sv i b d u, blanks sp2 -> length sp2 < fuel -> calm y = true -> tok_type y <> TString -> is_white_space y = false ->
      runs (loop_go (S n) (fun _ : unit => b <- (
        set_checkpoint ;;
        saved <- buf_len ;;
        write_while fuel is_white_space ;;
        t <- tok ;;
        if is_plain_safe_token t ctx then
          commit ;; buf_write (tok_origin t) ;; next ;; ret true
        else buf_truncate saved ;; rollback ;; ret false) ;; ret (tt, b)) u)
        (mkC (sp2 ++ y :: r) false sv i b d) tt (mkC (sp2 ++ y :: r) false sv i b d)).
    { intros n sp2 y r sv i b d u H2 H2f H2c Hy Hw. apply runs_loop_stop. go1; [|go].
      go1; [go|]. go1; [go|]. go1; [apply write_ok; auto using blanks_texts, blanks_white|]. go1; [go|]. rewrite (unsafe _ _ Hy).
      go1; [go|]. rewrite firstn_app_exact. go. }
    intros n s ts Hp. revert n. induction Hp as [w Hw|w sp2 s ts Hw Hs2 Hne Hp IH];
      intros n sps sp3 y r sol sv i b d u Hs Hs3 Hf3 Hy Hwy Hc Hf Hn.
    - destruct n as [|[|n]]; [cbn in Hn; lia|cbn in Hn; lia|].
      rewrite <- app_assoc. cbn [app]. rewrite app_length in Hf.
      apply Step; auto; [lia|apply calm_blanks; auto|]. rewrite <- app_assoc. apply Stop; auto.
    - destruct n as [|n]; [cbn in Hn; lia|].
      rewrite <- app_assoc. cbn [app]. rewrite !app_length in Hf. cbn in Hf. rewrite app_length in Hf. cbn in Hn. rewrite app_length in Hn.
      apply Step; auto; [lia| |].
      + destruct (plain_head _ _ Hp) as (w2 & r2 & -> & [H2 _]). rewrite <- app_assoc. cbn [app].
        apply calm_texts; [apply blanks_texts, Hs2|]. unfold calm. rewrite H2. reflexivity.
      + replace (b ++ origins sps ++ tok_origin w ++ origins sp2 ++ s)
          with (((b ++ origins sps) ++ tok_origin w) ++ origins sp2 ++ s) by (rewrite <- !app_assoc; reflexivity).
        apply IH; auto; [rewrite app_length; lia|lia].
  Qed.

  Lemma one_line_blanks ctx s ts sp2 y r sol sv i b d :
    inside ctx = true -> plain s ts -> blanks sp2 -> length sp2 < fuel -> tok_type y <> TString -> is_white_space y = false ->
    calm y = true -> length ts < fuel ->
    runs (parse_plain_one_line fuel ctx) (mkC (ts ++ sp2 ++ y :: r) sol sv i b d) (NText s UnknownQuoting)
         (mkC (sp2 ++ y :: r) false sv i b d).
  Proof.
    intros Hx Hp Hs2 Hf2 Hy Hw Hc Hf. unfold parse_plain_one_line. go1. go1.
    destruct (plain_head _ _ Hp) as (w & q & E & Hww).
    mid true (mkC (ts ++ sp2 ++ y :: r) sol sv i [] d).
    - apply (runs_valid _ _ (NBasic TextType)). unfold parse_plain_first. go1. subst ts. cbn [app]. go1; [go|].
      rewrite (proj1 Hww), (word_safe _ _ Hx Hww). go.
    - cbv iota. mid true (mkC (sp2 ++ y :: r) false sv i s d); [|go].
      apply (runs_valid _ _ (NBasic TextType)). unfold parse_plain_in_line. go1. go1; [|go].
      unfold loop_, loop. apply (in_line_go fuel ctx Hx s ts Hp []); auto.
  Qed.
  Lemma one_line ctx s ts y r sol sv i b d :
    inside ctx = true -> plain s ts -> tok_type y <> TString -> is_white_space y = false -> calm y = true -> length ts < fuel ->
    runs (parse_plain_one_line fuel ctx) (mkC (ts ++ y :: r) sol sv i b d) (NText s UnknownQuoting)
         (mkC (y :: r) false sv i b d).
  Proof. intros. apply (one_line_blanks ctx s ts []); auto. Qed.

  (** what follows a scalar on its line *)
  Inductive stops (n : nat) : list token -> Prop :=
  | stops_here sps y r : blanks sps -> length sps < fuel -> tok_type y <> TLineBreak -> tok_type y <> TString ->
      is_white_space y = false -> calm y = true -> stops n (sps ++ y :: r)
  | stops_line sps nl t l sp2 x r : blanks sps -> tok_type nl = TLineBreak -> hollow t l -> blanks sp2 ->
      length sp2 < n \/ tok_type x <> TString -> tok_type x <> TLineBreak -> is_white_space x = false -> calm x = true ->
      length (sps ++ nl :: l ++ sp2) < fuel -> stops n (sps ++ nl :: l ++ sp2 ++ x :: r).

  Lemma stops_head n ts : stops n ts -> exists sps y r, ts = sps ++ y :: r /\ blanks sps /\ length sps < fuel /\
    tok_type y <> TString /\ is_white_space y = false /\ calm y = true.
  Proof.
    intros [sps y r H0 Hf H1 H2 H3 H4|sps nl t l sp2 x r H0 H1 _ _ _ _ _ _ Hf].
    - exists sps, y, r. auto 10.
    - exists sps, nl, (l ++ sp2 ++ x :: r). rewrite app_length in Hf. unfold is_white_space, calm. rewrite H1. repeat split; auto; try congruence. lia.
  Qed.
  Lemma stops_calm n ts : stops n ts -> calm_hd ts = true.
  Proof. intro H. destruct (stops_head _ _ H) as (sps & y & r & -> & Hs & _ & _ & _ & Hc). apply calm_blanks; auto. Qed.

  Lemma count_ok m : forall sps x r sol sv i b d z,
    blanks sps -> calm x = true -> is_white_space x = false -> length sps <= m ->
    runs (count_spaces m z) (mkC (sps ++ x :: r) sol sv i b d) (z + Z.of_nat (length sps))%Z
         (mkC (x :: r) (sol_after sps sol) sv i b d).
  Proof.
    induction m as [|m IH]; intros sps x r sol sv i b d z Hs Hc Hw Hn.
    - destruct sps; [|cbn in Hn; lia]. cbn. rewrite Z.add_0_r. apply runs_ret.
    - destruct sps as [|s sps]; cbn [count_spaces app length] in *.
      + rewrite Z.add_0_r. go1; [go|].
        rewrite ttype_eqb_no by (intro E; unfold is_white_space in Hw; rewrite E in Hw; discriminate). go.
      + inversion Hs as [|? ? H1 H2]; subst. open_tok s H1. go. cbn [tok_type is_start_of_line sol_after].
        replace (z + Z.of_nat (S (length sps)))%Z with ((z + 1) + Z.of_nat (length sps))%Z by lia.
        pose proof (IH sps x r false sv i b d (z + 1)%Z) as K. rewrite sol_after_false in K. apply K; auto. lia.
  Qed.

  Lemma prefix_no n sps x r sol sv b d :
    blanks sps -> calm x = true -> is_white_space x = false -> length sps < n ->
    runs (parse_flow_line_prefix fuel) (mkC (sps ++ x :: r) sol sv (mkInd (Z.of_nat n) StrictMode) b d)
         NInvalid (mkC (x :: r) (sol_after sps sol) sv (mkInd (Z.of_nat n) StrictMode) b d).
  Proof.
    intros Hs Hc Hw Hn. unfold parse_flow_line_prefix. go1.
    go1; [go1; apply indent_strict_no; auto|]. go.
  Qed.

  (** a line without content, and one with *)
  Lemma empty_ok n sps nl ts sol sv b d :
    blanks sps -> tok_type nl = TLineBreak -> calm_hd ts = true -> length sps < fuel ->
    runs (parse_empty fuel FlowIn) (mkC (sps ++ nl :: ts) sol sv (mkInd (Z.of_nat n) StrictMode) b d) (NBasic IndentType)
         (mkC ts true sv (mkInd (Z.of_nat n) StrictMode) (b ++ tok_origin nl) d).
  Proof.
    intros Hs Hn Hc Hf. set (ind := mkInd (Z.of_nat n) StrictMode).
    assert (Wn : is_white_space nl = false) by (unfold is_white_space; rewrite Hn; reflexivity).
    assert (Cn : calm nl = true) by (unfold calm; rewrite Hn; reflexivity).
    unfold parse_empty. go1. go1; [go|].
    mid (n <=? length sps)%nat (mkC (nl :: ts) (sol_after sps sol) ((sps ++ nl :: ts, live sol) :: sv) ind b d).
    { cbn [parse_line_prefix]. destruct (Nat.leb_spec n (length sps)).
      - apply (runs_valid _ _ (NBasic IndentType)). apply flow_prefix; auto.
      - apply (runs_valid _ _ NInvalid). apply prefix_no; auto. }
    mid true (mkC (nl :: ts) (sol_after sps sol) sv ind b d).
    { destruct (Nat.leb_spec n (length sps)); [go|]. go1; [go|]. go1; [go|]. cbn [ind_value ind].
      unfold parse_indent_less, parse_bordered_indent. replace (Z.of_nat n <? 1)%Z with false by lia.
      eapply (runs_valid _ _ (NIndent (0 + Z.of_nat (length sps)))). go1. go1; [apply count_ok; auto; lia|]. go. }
    cbv iota. go1; [go|]. rewrite Hn. decide1. go1; [go|]. go1; [apply runs_next, may_calm, Hc|]. rewrite Hn. go.
  Qed.
  Lemma empty_no n sps x r sol sv b d :
    blanks sps -> tok_type x <> TLineBreak -> is_white_space x = false -> calm x = true -> length sps < fuel ->
    runs (parse_empty fuel FlowIn) (mkC (sps ++ x :: r) sol sv (mkInd (Z.of_nat n) StrictMode) b d) NInvalid
         (mkC (x :: r) (sol_after sps sol) sv (mkInd (Z.of_nat n) StrictMode) b d).
  Proof.
    intros Hs Hn Wn Cn Hf. set (ind := mkInd (Z.of_nat n) StrictMode).
    unfold parse_empty. go1. go1; [go|].
    mid (n <=? length sps)%nat (mkC (x :: r) (sol_after sps sol) ((sps ++ x :: r, live sol) :: sv) ind b d).
    { cbn [parse_line_prefix]. destruct (Nat.leb_spec n (length sps)).
      - apply (runs_valid _ _ (NBasic IndentType)). apply flow_prefix; auto.
      - apply (runs_valid _ _ NInvalid). apply prefix_no; auto. }
    mid true (mkC (x :: r) (sol_after sps sol) sv ind b d).
    { destruct (Nat.leb_spec n (length sps)); [go|]. go1; [go|]. go1; [go|]. cbn [ind_value ind].
      unfold parse_indent_less, parse_bordered_indent. replace (Z.of_nat n <? 1)%Z with false by lia.
      eapply (runs_valid _ _ (NIndent (0 + Z.of_nat (length sps)))). go1. go1; [apply count_ok; auto; lia|]. go. }
    cbv iota. go1; [go|]. rewrite (ttype_eqb_no _ _ Hn). go.
  Qed.

  Lemma hollow_calm t l r : hollow t l -> calm_hd r = true -> calm_hd (l ++ r) = true.
  Proof.
    intros [|sps nl t2 l2 Hs Hn _] Hr; [exact Hr|]. rewrite <- app_assoc. apply calm_blanks; auto. unfold calm. rewrite Hn. reflexivity.
  Qed.

  Lemma hollow_loop n sps x r sv d t l : hollow t l -> forall k b,
    blanks sps -> tok_type x <> TLineBreak -> is_white_space x = false -> calm x = true -> length sps < fuel ->
    length l < fuel -> length l < k ->
    runs (loop_go k (fun saved =>
          set_checkpoint ;;
          ok <- valid (parse_empty fuel FlowIn) ;;
          if ok : bool then commit ;; n <- buf_len ;; ret (n, true)
          else buf_truncate saved ;; rollback ;; ret (saved, false)) (length b))
      (mkC (l ++ sps ++ x :: r) true sv (mkInd (Z.of_nat n) StrictMode) b d) (length (b ++ t))
      (mkC (sps ++ x :: r) true sv (mkInd (Z.of_nat n) StrictMode) (b ++ t) d).
  Proof.
    induction 1 as [|sp2 nl t l Hs2 Hn Hl IH]; intros k b Hs Hx Wx Cx Hf Hfl Hk.
    - rewrite app_nil_r. cbn [app]. destruct k as [|k]; [lia|]. apply runs_loop_stop. go1; [go|].
      go1; [go1; apply empty_no; auto|]. go. rewrite firstn_all. go.
    - rewrite app_length in Hfl, Hk. cbn [length] in Hfl, Hk. destruct k as [|k]; [lia|]. rewrite <- app_assoc. cbn [app].
      rewrite (app_assoc b). eapply runs_loop_more.
      + go1; [go|]. go1; [go1; apply empty_ok; auto; [eapply hollow_calm; eauto using calm_blanks|lia]|]. decide1. go.
      + cbn [fst snd]. apply IH; auto; lia.
  Qed.

  Definition fold_text (l : list token) (t : text) : text := match l with [] => [32%N] | _ => t end.
  Lemma fold_break n nl t l sps x r sol sv b d :
    tok_type nl = TLineBreak -> hollow t l -> blanks sps -> tok_type x <> TLineBreak -> is_white_space x = false -> calm x = true ->
    length sps < fuel -> length l < fuel ->
    runs (parse_folded_line_break fuel FlowIn) (mkC (nl :: l ++ sps ++ x :: r) sol sv (mkInd (Z.of_nat n) StrictMode) b d)
      (NBasic TextType) (mkC (sps ++ x :: r) true sv (mkInd (Z.of_nat n) StrictMode) (b ++ fold_text l t) d).
  Proof.
    intros Hn Hl Hs Hx Wx Cx Hf Hfl. set (ind := mkInd (Z.of_nat n) StrictMode).
    assert (Cl : calm_hd (sps ++ x :: r) = true) by (apply calm_blanks; auto).
    unfold parse_folded_line_break. go1. go1; [go|]. go1; [go|].
    destruct Hl as [|sp2 nl2 t l Hs2 Hn2 Hl]; cbn [fold_text].
    - mid false (mkC (x :: r) (sol_after sps true) ((nl :: sps ++ x :: r, live sol) :: sv) ind b d).
      + apply (runs_valid _ _ NInvalid). unfold parse_trimmed. go1. go1; [go|]. rewrite Hn. decide1.
        go1; [go1|]. rewrite Hn. cbn [is_start_of_line]. go1; [go|]. go1; [go1; apply empty_no; auto|].
        go. rewrite firstn_all. go.
      + cbn [app]. go. rewrite Hn. cbn [ttype_eqb]. cbv iota. rewrite firstn_all. go. rewrite Hn. go.
    - rewrite app_length in Hfl. cbn [length] in Hfl. rewrite <- app_assoc. cbn [app].
      mid true (mkC (sps ++ x :: r) true ((nl :: sp2 ++ nl2 :: l ++ sps ++ x :: r, live sol) :: sv) ind (b ++ tok_origin nl2 ++ t) d); [|].
      + apply (runs_valid _ _ (NBasic TextType)). unfold parse_trimmed. go1. go1; [go|]. rewrite Hn. decide1.
        go1; [apply runs_next, may_calm, calm_blanks; auto; unfold calm; rewrite Hn2; reflexivity|]. rewrite Hn. cbn [is_start_of_line].
        go1; [go|]. go1; [go1; apply empty_ok; auto; [eapply hollow_calm; eauto|lia]|]. decide1. go1; [go|].
        go1; [unfold loop; apply (hollow_loop n sps x r _ _ t l Hl); auto; lia|]. rewrite <- app_assoc. go.
      + destruct (sp2 ++ nl2 :: l) as [|z zs] eqn:E; [destruct sp2; discriminate E|]. go.
  Qed.

  Lemma flow_folded_line n sps nl t l sp2 x r sv b d :
    blanks sps -> tok_type nl = TLineBreak -> hollow t l -> blanks sp2 -> tok_type x <> TLineBreak -> is_white_space x = false -> calm x = true ->
    length (sps ++ nl :: l ++ sp2) < fuel ->
    runs (parse_flow_folded fuel) (mkC (sps ++ nl :: l ++ sp2 ++ x :: r) false sv (mkInd (Z.of_nat n) StrictMode) b d)
      (if (n <=? length sp2)%nat then NBasic TextType else NInvalid)
      (mkC (x :: r) (sol_after sp2 true) sv (mkInd (Z.of_nat n) StrictMode)
         (if (n <=? length sp2)%nat then b ++ fold_text l t else b) d).
  Proof.
    intros Hs Hn Hl Hs2 Hx Wx Cx Hf. rewrite app_length in Hf. cbn [length] in Hf. rewrite app_length in Hf.
    set (ind := mkInd (Z.of_nat n) StrictMode).
    assert (Wn : is_white_space nl = false) by (unfold is_white_space; rewrite Hn; reflexivity).
    assert (Cn : calm nl = true) by (unfold calm; rewrite Hn; reflexivity).
    unfold parse_flow_folded. go1. go1; [go|].
    destruct (sep_in_line_any fuel sps nl (l ++ sp2 ++ x :: r) false ((sps ++ nl :: l ++ sp2 ++ x :: r, live false) :: sv) ind b d Hs Wn
      (reach_calm _ _ _ _ Cn) ltac:(lia)) as (a & Ra & Va).
    go1; [go1; exact Ra|]. rewrite Va, sol_after_false.
    mid tt (mkC (nl :: l ++ sp2 ++ x :: r) false sv ind b d); [destruct sps; go|].
    go1; [go|]. go1; [go1; apply (fold_break n nl t l); auto; lia|]. 
    destruct (Nat.leb_spec n (length sp2)).
    - go1; [decide1; go1; apply flow_prefix; auto; lia|]. go.
    - go1; [decide1; go1; apply prefix_no; auto|]. go. rewrite firstn_app_exact. go.
  Qed.

  Lemma folded_no n sps y r sv b d : blanks sps -> length sps < fuel -> tok_type y <> TLineBreak -> is_white_space y = false -> calm y = true ->
    runs (parse_flow_folded fuel) (mkC (sps ++ y :: r) false sv (mkInd n StrictMode) b d) NInvalid
         (mkC (y :: r) false sv (mkInd n StrictMode) b d).
  Proof.
    intros Hs Hf Hy Wy Cy. set (ind := mkInd n StrictMode).
    unfold parse_flow_folded. go1. go1; [go|].
    destruct (sep_in_line_any fuel sps y r false ((sps ++ y :: r, live false) :: sv) ind b d Hs Wy (reach_calm _ _ _ _ Cy) Hf) as (a & Ra & Va).
    go1; [go1; exact Ra|]. rewrite Va, sol_after_false.
    mid tt (mkC (y :: r) false sv ind b d); [destruct sps; go|].
    go1; [go|].
    mid false (mkC (y :: r) false sv ind b d); [|go; rewrite firstn_all; go].
    apply (runs_valid _ _ NInvalid). unfold parse_folded_line_break. go1. go1; [go|]. go1; [go|].
    mid false (mkC (y :: r) false ((y :: r, live false) :: sv) ind b d).
    - apply (runs_valid _ _ NInvalid). unfold parse_trimmed. go1. go1; [go|]. rewrite (ttype_eqb_no _ _ Hy). go.
    - go. rewrite (ttype_eqb_no _ _ Hy), firstn_all. go.
  Qed.

  Lemma next_line_no ctx n ts sv b d : ctx = FlowIn \/ ctx = FlowOut -> stops n ts -> exists ts2 sol2,
    runs (parse_plain_next_line fuel ctx) (mkC ts false sv (mkInd (Z.of_nat n) StrictMode) b d) NInvalid
         (mkC ts2 sol2 sv (mkInd (Z.of_nat n) StrictMode) b d).
  Proof.
    intros Hx [sps y r H0 Hf H1 H2 H3 H4|sps nl t l sp2 x r H0 H1 Hl H2 H3 H4 H5 H6 Hf].
    - exists (y :: r), false.
      unfold parse_plain_next_line. go1; [go|]. go1; [go|]. go1; [go1; apply folded_no; auto|]. go. rewrite firstn_all. go.
    - exists (x :: r), (sol_after sp2 true). pose proof (flow_folded_line n sps nl t l sp2 x r sv b d H0 H1 Hl H2 H4 H5 H6 Hf) as R.
      unfold parse_plain_next_line. go1; [go|]. go1; [go|]. go1; [go1; exact R|].
      destruct (Nat.leb_spec n (length sp2)); cbn [valid_node].
      + destruct H3 as [H3|H3]; [lia|]. go. rewrite (unsafe _ _ H3). cbv iota. go. rewrite firstn_app_exact. go.
      + go. rewrite firstn_all. go.
  Qed.

  Lemma plain_value ctx n s ts tl sol sv b d :
    ctx = FlowIn \/ ctx = FlowOut -> plain s ts -> stops n tl -> length ts < fuel ->
    runs (parse_plain fuel ctx) (mkC (ts ++ tl) sol sv (mkInd (Z.of_nat n) StrictMode) b d) (NText s UnknownQuoting)
         (mkC tl false sv (mkInd (Z.of_nat n) StrictMode) b d).
  Proof.
    intros Hx Hp Hs Hf. set (ind := mkInd (Z.of_nat n) StrictMode).
    assert (G : runs (parse_plain_multi_line fuel ctx) (mkC (ts ++ tl) sol sv ind b d) (NText s UnknownQuoting)
         (mkC tl false sv ind b d)); [|destruct Hx; subst ctx; exact G].
    assert (Hi : inside ctx = true) by (destruct Hx; subst ctx; reflexivity).
    unfold parse_plain_multi_line. go1.
    mid (NText s UnknownQuoting) (mkC tl false sv ind b d).
    { destruct (stops_head _ _ Hs) as (sps & y & r & -> & H0 & Hf2 & H1 & H2 & H3). apply one_line_blanks; auto. }
    cbv iota. go1. go1; [go|]. cbn [app].
    mid tt (mkC tl false sv ind s d); [|go].
    unfold loop_, loop. destruct (next_line_no ctx n tl ((tl, false) :: sv) s d Hx Hs) as (ts2 & sol2 & R).
    destruct fuel as [|m]; [lia|]. apply runs_loop_stop. go1; [|go]. go1; [go|]. go1; [go|].
    go1; [go1; exact R|]. go. rewrite firstn_all. go.
  Qed.

  (** ** quoted scalars *)
  Lemma quoted_line_no cs break n m ts sv b d ts2 sol2 a : 0 < m ->
    runs break (mkC ts false sv (mkInd (Z.of_nat n) StrictMode) b d) a
         (mkC ts2 sol2 sv (mkInd (Z.of_nat n) StrictMode) b d) -> valid_node a = false ->
    runs (parse_quoted_next_line fuel cs break m) (mkC ts false sv (mkInd (Z.of_nat n) StrictMode) b d) NInvalid
         (mkC ts2 sol2 sv (mkInd (Z.of_nat n) StrictMode) b d).
  Proof.
    intros Hm R Ha. destruct m as [|m]; [lia|]. cbn [parse_quoted_next_line].
    go1; [go|]. go1; [go|]. go1; [go1; exact R|]. rewrite Ha. go. rewrite firstn_all. go.
  Qed.

  Lemma double_break_no n y r sv b d : tok_type y <> TLineBreak -> tok_type y <> TString -> is_white_space y = false -> calm y = true ->
    runs (parse_double_break fuel) (mkC (y :: r) false sv (mkInd n StrictMode) b d) NInvalid (mkC (y :: r) false sv (mkInd n StrictMode) b d).
  Proof.
    intros H0 H1 H2 H3. pose proof (folded_no n [] y r sv b d) as R.
    unfold parse_double_break. go1. go1; [go|]. go1; [go|].
    mid false (mkC (y :: r) false ((y :: r, false) :: sv) (mkInd n StrictMode) b d).
    - apply (runs_valid _ _ NInvalid). unfold parse_double_escaped. go1. go1; [go|].
      go1; [apply write_none, H2|]. go1; [go|]. rewrite (ttype_eqb_no _ _ H1). cbn [andb]. go. rewrite firstn_all. go.
    - go. rewrite firstn_all. apply R; auto.
  Qed.

  Definition break_of (q : ttype) : M node :=
    match q with TDoubleQuote => parse_double_break fuel | _ => parse_flow_folded fuel end.
  Lemma break_no q n y r sv b d : tok_type y <> TLineBreak -> tok_type y <> TString -> is_white_space y = false -> calm y = true ->
    runs (break_of q) (mkC (y :: r) false sv (mkInd n StrictMode) b d) NInvalid (mkC (y :: r) false sv (mkInd n StrictMode) b d).
  Proof. intros. destruct q; first [apply (folded_no n []); auto | apply double_break_no; auto]. Qed.

  Definition is_quote (q : ttype) : Prop := q = TSingleQuote \/ q = TDoubleQuote.

  Lemma quoted q cs qt ctx n o ts c y r sol sv b d :
    is_quote q -> inside ctx = true -> tok_type o = q -> Forall (fits cs) ts -> tok_type c = q -> calm y = true ->
    length ts < fuel ->
    runs (parse_quoted fuel q cs qt (break_of q) ctx) (mkC (o :: ts ++ c :: y :: r) sol sv (mkInd (Z.of_nat n) StrictMode) b d)
         (NText (origins ts) qt) (mkC (y :: r) false sv (mkInd (Z.of_nat n) StrictMode) b d).
  Proof.
    intros Hq Hx Ho Ht Hc Hy Hf. set (ind := mkInd (Z.of_nat n) StrictMode).
    assert (T1 : Forall (fun t => texty t = true) ts) by (eapply Forall_impl; [apply fits_texty|exact Ht]).
    assert (T2 : Forall (fun t => in_quotes cs t = true) ts) by (eapply Forall_impl; [apply fits_in|exact Ht]).
    assert (Hce : calm c = true) by (unfold calm; rewrite Hc; destruct Hq; subst; try rewrite H; reflexivity).
    assert (Hcw : is_white_space c = false) by (unfold is_white_space; rewrite Hc; destruct Hq; subst; try rewrite H; reflexivity).
    assert (Hcs : tok_type c <> TString) by (rewrite Hc; destruct Hq; subst; try rewrite H; discriminate).
    assert (Hcl : tok_type c <> TLineBreak) by (rewrite Hc; destruct Hq; subst; try rewrite H; discriminate).
    assert (Hci : in_quotes cs c = false) by (unfold in_quotes; rewrite (ttype_eqb_no _ _ Hcs), Hcw; reflexivity).
    assert (Hqq : ttype_eqb q q = true) by (destruct Hq; subst; try rewrite H; reflexivity).
    assert (Hqs : forall s, is_start_of_line s q = false) by (intro s; destruct Hq; subst; try rewrite H; reflexivity).
    unfold parse_quoted. go1. go1; [go|]. rewrite Ho, Hqq.
    go1; [apply runs_next, may_calm, calm_texts; auto|]. rewrite Ho, Hqs.
    mid (NText (origins ts) qt) (mkC (c :: y :: r) false sv ind b d).
    - assert (One : runs (parse_quoted_one_line fuel cs qt) (mkC (ts ++ c :: y :: r) false sv ind b d)
                (NText (origins ts) qt) (mkC (c :: y :: r) false sv ind b d)).
      { unfold parse_quoted_one_line. go1. go1. go1; [apply write_ok; auto|]. cbn [app]. rewrite sol_after_false. go. }
      assert (Many : runs (parse_quoted_multi_line fuel cs qt (break_of q)) (mkC (ts ++ c :: y :: r) false sv ind b d)
                (NText (origins ts) qt) (mkC (c :: y :: r) false sv ind b d)).
      { unfold parse_quoted_multi_line. go1. go1. go1; [apply write_ok; auto|]. cbn [app]. rewrite sol_after_false.
        go1; [go|]. go1; [go|].
        pose proof (break_no q (Z.of_nat n) c (y :: r) ((c :: y :: r, false) :: sv) (origins ts) d Hcl Hcs Hcw Hce) as R.
        mid false (mkC (c :: y :: r) false ((c :: y :: r, false) :: sv) ind (origins ts) d).
        { apply (runs_valid _ _ NInvalid). eapply quoted_line_no; [exact some_fuel|exact R|reflexivity]. }
        mid tt (mkC (c :: y :: r) false sv ind (origins ts) d); [|go].
        go1; [go|]. go1; [go|]. rewrite firstn_all. apply write_none, Hcw. }
      unfold parse_quoted_text. destruct ctx; try discriminate Hx; assumption.
    - decide1. go1; [go|]. rewrite Hc, Hqq. go1; [go|]. rewrite Hc, Hqs. go.
  Qed.
End Scalars.
