(** Evaluation of the productions for scalars over several lines. *)
From Coq Require Import String ZArith.
From Verif Require Import Base YamlChar Token Ast Balance CPAccessor Lexer Parser ParserFlow ParserBlock ParserDocs ParserTape TextSpec TapeRules
  BlockParse1 BlockParse2 BlockParse3 BlockParse4 FlowParse1 FlowParse2.
Local Open Scope parser_scope.
Local Arguments cons {A}%type_scope & _ _.
Local Arguments pair {A B}%type_scope & _ _.

(** the lines of a plain scalar after the first *)
Inductive plain_rest (n : nat) : text -> list token -> Prop :=
| pr_none : plain_rest n [] []
| pr_line sps w j s ts s2 ts2 : blanks sps -> seam n w j -> plain s ts -> plain_rest n s2 ts2 ->
    plain_rest n (w ++ s ++ s2) (sps ++ j ++ ts ++ ts2).
(** those of a quoted one, the last of which may be empty *)
Inductive quoted_rest (n : nat) (cs : charset) : text -> list token -> Prop :=
| qr_none : quoted_rest n cs [] []
| qr_last w j : seam n w j -> quoted_rest n cs w j
| qr_line w j x ts s2 ts2 : seam n w j -> tok_type x = TString -> conforms x cs = true -> Forall (fits cs) ts -> quoted_rest n cs s2 ts2 ->
    quoted_rest n cs (w ++ origins (x :: ts) ++ s2) (j ++ x :: ts ++ ts2).

Inductive folded (n : nat) : node -> list token -> Prop :=
| folded_plain s ts s2 ts2 : plain s ts -> plain_rest n s2 ts2 -> folded n (NText (s ++ s2) UnknownQuoting) (ts ++ ts2)
| folded_single o ts s2 ts2 c : tok_type o = TSingleQuote -> Forall (fits CsSingleQuoted) ts -> quoted_rest n CsSingleQuoted s2 ts2 ->
    tok_type c = TSingleQuote -> folded n (NText (origins ts ++ s2) SingleQuoting) (o :: ts ++ ts2 ++ [c])
| folded_double o ts s2 ts2 c : tok_type o = TDoubleQuote -> Forall (fits CsDoubleQuoted) ts -> quoted_rest n CsDoubleQuoted s2 ts2 ->
    tok_type c = TDoubleQuote -> folded n (NText (origins ts ++ s2) DoubleQuoting) (o :: ts ++ ts2 ++ [c]).

Lemma fits_mild cs ts : Forall (fits cs) ts -> Forall (fun t => mild t = true) ts.
Proof. intro H. apply texty_mild. eapply Forall_impl; [apply fits_texty|exact H]. Qed.
Lemma plain_mild s ts : plain s ts -> Forall (fun t => mild t = true) ts.
Proof. intro H. apply texty_mild. eapply plain_texts, H. Qed.
Lemma plain_rest_mild n s ts : plain_rest n s ts -> Forall (fun t => mild t = true) ts.
Proof.
  induction 1 as [|sps w j s ts s2 ts2 Hs Hj Hp _ IH]; [constructor|].
  apply Forall_app; split; [apply blanks_mild, Hs|]. apply Forall_app; split; [eapply seam_mild, Hj|]. apply Forall_app; split; [eapply plain_mild, Hp|exact IH].
Qed.
Lemma quoted_rest_mild n cs s ts : quoted_rest n cs s ts -> Forall (fun t => mild t = true) ts.
Proof.
  induction 1 as [|w j Hj|w j x ts s2 ts2 Hj Hx _ Hf _ IH]; [constructor|eapply seam_mild, Hj|].
  apply Forall_app; split; [eapply seam_mild, Hj|]. constructor; [eapply mild_one; eauto|]. apply Forall_app; split; [eapply fits_mild, Hf|exact IH].
Qed.

Lemma folded_tokens n t ts : folded n t ts -> Forall (fun t => mild t = true \/ tok_type t = TSingleQuote \/ tok_type t = TDoubleQuote) ts.
Proof.
  assert (M : forall l, Forall (fun t => mild t = true) l -> Forall (fun t => mild t = true \/ tok_type t = TSingleQuote \/ tok_type t = TDoubleQuote) l)
    by (intros l H; eapply Forall_impl; [|exact H]; auto).
  intros [s x s2 y H1 H2|o x s2 y c H1 H2 H3 H4|o x s2 y c H1 H2 H3 H4];
    [apply Forall_app; split; apply M; [eapply plain_mild, H1|eapply plain_rest_mild, H2]| |];
    (constructor; [auto|]; apply Forall_app; split; [eapply M, fits_mild, H2|]; apply Forall_app; split; [eapply M, quoted_rest_mild, H3|]; constructor; auto).
Qed.

Section Folds.
  Context (fuel : nat) (some_fuel : 1 < fuel).
  Let f0 : 0 < fuel. Proof. lia. Qed.
  Notation ind n := (mkInd (Z.of_nat n) StrictMode).

  Lemma seam_runs n sps w j x r sv b d : blanks sps -> seam n w j -> tok_type x <> TLineBreak -> is_white_space x = false -> calm x = true ->
    length (sps ++ j) < fuel -> exists sol2,
    runs (parse_flow_folded fuel) (mkC (sps ++ j ++ x :: r) false sv (ind n) b d) (NBasic TextType) (mkC (x :: r) sol2 sv (ind n) (b ++ w) d).
  Proof.
    intros Hs [nl t l sp2 Hn Hl H2 Hk] Hx Wx Cx Hf. exists (sol_after sp2 true).
    pose proof (flow_folded_line fuel f0 n sps nl t l sp2 x r sv b d Hs Hn Hl H2 Hx Wx Cx Hf) as R.
    destruct (Nat.leb_spec n (length sp2)); [|lia]. cbn [app]. rewrite <- app_assoc. exact R.
  Qed.

  (** ** plain scalars *)
  Lemma next_line_ok ctx n sps w j s ts sp2 y r sv b d : ctx = FlowIn \/ ctx = FlowOut -> blanks sps -> seam n w j -> plain s ts ->
    blanks sp2 -> length sp2 < fuel -> tok_type y <> TString -> is_white_space y = false -> calm y = true -> length (sps ++ j) < fuel -> length ts < fuel ->
    runs (parse_plain_next_line fuel ctx) (mkC (sps ++ j ++ ts ++ sp2 ++ y :: r) false sv (ind n) b d) (NBasic TextType)
      (mkC (sp2 ++ y :: r) false sv (ind n) (b ++ w ++ s) d).
  Proof.
    intros Hx Hs Hj Hp H2 Hf2 Hy Wy Cy Hf Hft.
    assert (Hi : inside ctx = true) by (destruct Hx; subst ctx; reflexivity).
    destruct (plain_head _ _ Hp) as (x & q & E & Hw).
    assert (Wx : is_white_space x = false) by (unfold is_white_space; rewrite (proj1 Hw); reflexivity).
    assert (Cx : calm x = true) by (unfold calm; rewrite (proj1 Hw); reflexivity).
    destruct (seam_runs n sps w j x (q ++ sp2 ++ y :: r) sv b d) as (sol2 & R); auto; [rewrite (proj1 Hw); discriminate|].
    subst ts. cbn [app].
    unfold parse_plain_next_line. go1; [go|]. go1; [go|]. go1; [go1; exact R|]. decide1. go1; [go|]. rewrite (word_safe _ _ Hi Hw).
    mid true (mkC (sp2 ++ y :: r) false sv (ind n) (b ++ w ++ s) d); [|go].
    apply (runs_valid _ _ (NBasic TextType)). unfold parse_plain_in_line. go1. go1; [|go]. rewrite (app_assoc b w s).
    unfold loop_, loop. apply (in_line_go fuel f0 fuel ctx Hi s (x :: q) Hp []); auto.
  Qed.

  Lemma rest_head n s ts tl : plain_rest n s ts -> stops fuel n tl -> length ts < fuel ->
    exists sp2 y r, ts ++ tl = sp2 ++ y :: r /\ blanks sp2 /\ length sp2 < fuel /\ tok_type y <> TString /\ is_white_space y = false /\ calm y = true.
  Proof.
    intros [|sp3 w3 j3 s3 ts3 s4 ts4 Hs3 Hj3 _ _] Ht Hf.
    - cbn [app]. eapply stops_head; [exact f0|exact Ht].
    - destruct (seam_head _ _ _ Hj3) as (nl & r & -> & Hn). exists sp3, nl, ((r ++ ts3 ++ ts4) ++ tl). rewrite !app_length in Hf.
      unfold is_white_space, calm. rewrite Hn, <- !app_assoc. cbn [app]. rewrite <- ?app_assoc. repeat split; auto; [lia|discriminate].
  Qed.
  Lemma plain_lines_go ctx n tl sv d : ctx = FlowIn \/ ctx = FlowOut -> stops fuel n tl -> forall s ts, plain_rest n s ts -> forall k b u,
    length ts < fuel -> length ts < k ->
    runs (loop_go k (fun _ : unit => b <- (
            saved <- buf_len ;;
            set_checkpoint ;;
            ok <- valid (parse_plain_next_line fuel ctx) ;;
            if ok : bool then commit ;; ret true
            else buf_truncate saved ;; rollback ;; ret false) ;; ret (tt, b)) u)
      (mkC (ts ++ tl) false sv (ind n) b d) tt (mkC tl false sv (ind n) (b ++ s) d).
  Proof.
    intros Hx Hstop s ts H. induction H as [|sps w j s ts s2 ts2 Hs Hj Hp Hr IH]; intros k b u Hf Hk.
    - cbn [app]. rewrite app_nil_r. destruct k as [|k]; [lia|].
      destruct (next_line_no fuel f0 ctx n tl ((tl, false) :: sv) b d Hx Hstop) as (ts2 & sol2 & R).
      apply runs_loop_stop. destruct u. go1; [|go]. go1; [go|]. go1; [go|]. go1; [go1; exact R|]. go. rewrite firstn_all. go.
    - rewrite !app_length in Hf, Hk. destruct k as [|k]; [lia|].
      assert (Hl2 : length ts2 < fuel) by lia.
      pose proof (rest_head n s2 ts2 tl Hr Hstop Hl2) as E.
      destruct E as (sp2 & y & r & E & E1 & E2 & E3 & E4 & E5).
      assert (R : forall sv, runs (parse_plain_next_line fuel ctx) (mkC (sps ++ j ++ ts ++ ts2 ++ tl) false sv (ind n) b d) (NBasic TextType)
        (mkC (ts2 ++ tl) false sv (ind n) (b ++ w ++ s) d)) by (intro; rewrite E; apply next_line_ok; auto; [rewrite app_length|]; lia).
      destruct (seam_head _ _ _ Hj) as (nl & q & Ej & _). assert (0 < length j) by (subst j; cbn; lia).
      rewrite <- !app_assoc.
      replace (b ++ w ++ s ++ s2) with ((b ++ w ++ s) ++ s2) by (rewrite <- !app_assoc; reflexivity).
      eapply runs_loop_more; [|apply (IH k (b ++ w ++ s) tt); lia].
      go1; [|go]. go1; [go|]. go1; [go|]. go1; [go1; apply R|]. decide1. go.
  Qed.

  Lemma plain_lines_value ctx n s ts s2 ts2 tl sol sv b d :
    ctx = FlowIn \/ ctx = FlowOut -> plain s ts -> plain_rest n s2 ts2 -> stops fuel n tl -> length (ts ++ ts2) < fuel ->
    runs (parse_plain fuel ctx) (mkC (ts ++ ts2 ++ tl) sol sv (ind n) b d) (NText (s ++ s2) UnknownQuoting)
         (mkC tl false sv (ind n) b d).
  Proof.
    intros Hx Hp Hr Hs Hf. rewrite app_length in Hf.
    assert (G : runs (parse_plain_multi_line fuel ctx) (mkC (ts ++ ts2 ++ tl) sol sv (ind n) b d) (NText (s ++ s2) UnknownQuoting)
         (mkC tl false sv (ind n) b d)); [|destruct Hx; subst ctx; exact G].
    assert (Hi : inside ctx = true) by (destruct Hx; subst ctx; reflexivity).
    unfold parse_plain_multi_line. go1.
    mid (NText s UnknownQuoting) (mkC (ts2 ++ tl) false sv (ind n) b d).
    { assert (Hl2 : length ts2 < fuel) by lia. pose proof (rest_head n s2 ts2 tl Hr Hs Hl2) as E.
      destruct E as (sp2 & y & r & E & E1 & E2 & E3 & E4 & E5). rewrite E. apply one_line_blanks; auto. lia. }
    cbv iota. go1. go1; [go|]. cbn [app].
    mid tt (mkC tl false sv (ind n) (s ++ s2) d); [|go].
    unfold loop_, loop. apply plain_lines_go; auto; lia.
  Qed.

  (** ** quoted scalars *)
  Lemma break_ok q n w j x r sv b d : is_quote q -> seam n w j -> tok_type x <> TLineBreak -> is_white_space x = false -> calm x = true ->
    length j < fuel -> exists sol2,
    runs (break_of fuel q) (mkC (j ++ x :: r) false sv (ind n) b d) (NBasic TextType) (mkC (x :: r) sol2 sv (ind n) (b ++ w) d).
  Proof.
    intros Hq Hj Hx Wx Cx Hf. destruct (seam_runs n [] w j x r sv b d) as (sol2 & R); auto. cbn [app] in R. exists sol2.
    destruct Hq as [-> | ->]; cbn [break_of]; [exact R|].
    destruct (seam_head _ _ _ Hj) as (nl & z & -> & Hn). cbn [app] in *.
    unfold parse_double_break. go1. go1; [go|]. go1; [go|].
    mid false (mkC (nl :: z ++ x :: r) false ((nl :: z ++ x :: r, false) :: sv) (ind n) b d).
    - apply (runs_valid _ _ NInvalid). unfold parse_double_escaped. go1. go1; [go|].
      go1; [apply write_none; [exact f0|unfold is_white_space; rewrite Hn; reflexivity]|]. go1; [go|]. rewrite Hn. cbn [ttype_eqb andb]. go. rewrite firstn_all. go.
    - go. rewrite firstn_all. exact R.
  Qed.

  Lemma quote_facts q cs c : is_quote q -> tok_type c = q -> calm c = true /\ is_white_space c = false /\ tok_type c <> TString /\ tok_type c <> TLineBreak /\
    in_quotes cs c = false.
  Proof. intros [-> | ->] Hc; unfold calm, in_quotes, is_white_space; rewrite Hc; repeat split; discriminate. Qed.
  Lemma nl_facts cs x : tok_type x = TLineBreak -> calm x = true /\ is_white_space x = false /\ in_quotes cs x = false.
  Proof. intros Hc. unfold calm, in_quotes, is_white_space. rewrite Hc. auto. Qed.

  Lemma quoted_go q cs n c r d : is_quote q -> tok_type c = q -> forall s ts, quoted_rest n cs s ts -> ts <> [] -> forall m sv b,
    length ts < fuel -> length ts < m -> exists sol2,
    runs (parse_quoted_next_line fuel cs (break_of fuel q) m) (mkC (ts ++ c :: r) false sv (ind n) b d) (NBasic TextType)
      (mkC (c :: r) sol2 sv (ind n) (b ++ s) d).
  Proof.
    intros Hq Hc. destruct (quote_facts q cs c Hq Hc) as (C1 & C2 & C3 & C4 & C5).
    intros s ts H. induction H as [|w j Hj|w j x ts s2 ts2 Hj Hx Hcx Hft Hr IH]; intros Hne m sv b Hf Hm; [congruence| |].
    - destruct m as [|m]; [lia|]. destruct (break_ok q n w j c r sv b d) as (sol2 & R); auto. exists sol2. cbn [parse_quoted_next_line].
      go1; [go|]. go1; [go|]. go1; [go1; exact R|]. decide1. go1; [go|]. go1; [go|]. rewrite (ttype_eqb_no _ _ C3). cbn [andb]. go.
    - destruct m as [|m]; [lia|]. rewrite app_length in Hf, Hm. cbn [length] in Hf, Hm. rewrite app_length in Hf, Hm.
      assert (Wx : is_white_space x = false) by (unfold is_white_space; rewrite Hx; reflexivity).
      assert (Cx : calm x = true) by (unfold calm; rewrite Hx; reflexivity).
      destruct (break_ok q n w j x (ts ++ ts2 ++ c :: r) sv b d) as (sol1 & R); auto; [rewrite Hx; discriminate|lia|].
      rewrite <- app_assoc. cbn [app]. rewrite <- app_assoc.
      assert (T1 : Forall (fun t => texty t = true) ts) by (eapply Forall_impl; [apply fits_texty|exact Hft]).
      assert (T2 : Forall (fun t => in_quotes cs t = true) ts) by (eapply Forall_impl; [apply fits_in|exact Hft]).
      assert (E : exists z q2, ts2 ++ c :: r = z :: q2 /\ calm z = true /\ in_quotes cs z = false).
      { destruct Hr as [|w2 j2 Hj2|w2 j2 x2 ts3 s3 ts4 Hj2 _ _ _ _]; [exists c, r; auto| |];
          destruct (seam_head _ _ _ Hj2) as (nl & z & -> & Hn); destruct (nl_facts cs nl Hn) as (N1 & N2 & N3); cbn [app]; eauto. }
      destruct E as (z & q2 & Ez & Cz & Iz).
      assert (W : forall sv, runs (write_while fuel (in_quotes cs)) (mkC (ts ++ ts2 ++ c :: r) false sv (ind n) ((b ++ w) ++ tok_origin x) d) tt
        (mkC (ts2 ++ c :: r) false sv (ind n) (b ++ w ++ origins (x :: ts)) d)).
      { intro sv1. rewrite Ez. replace (b ++ w ++ origins (x :: ts)) with (((b ++ w) ++ tok_origin x) ++ origins ts)
          by (unfold origins; cbn [map concat]; rewrite <- !app_assoc; reflexivity).
        pose proof (write_ok fuel f0 (in_quotes cs) ts z q2 false sv1 (ind n) ((b ++ w) ++ tok_origin x) d T1 T2 Iz Cz ltac:(lia)) as K.
        rewrite sol_after_false in K. exact K. }
      assert (CH : calm_hd (ts ++ ts2 ++ c :: r) = true) by (rewrite Ez; apply calm_texts; auto).
      destruct ts2 as [|y2 ts2].
      + exists false. inversion Hr as [|? ? Hj2|? ? ? ? ? ? Hj2]; subst; [rewrite app_nil_r|exfalso..];
          try (destruct (seam_head _ _ _ Hj2) as (? & ? & E2 & _); discriminate E2).
        2: { match goal with H : ?a ++ _ = [] |- _ => destruct (seam_head _ _ _ Hj2) as (? & ? & -> & _); discriminate H end. }
        cbn [parse_quoted_next_line]. go1; [go|]. go1; [go|]. go1; [go1; exact R|]. decide1. go1; [go|]. go1; [go|]. rewrite Hx, Hcx. cbn [ttype_eqb andb].
        go1; [go|]. go1; [go|]. go1; [apply runs_next, may_calm; exact CH|]. rewrite Hx. cbn [is_start_of_line].
        go1; [apply W|]. cbn [app] in *. go1; [go|]. go1; [go|].
        mid false (mkC (c :: r) false ((c :: r, false) :: sv) (ind n) (b ++ w ++ origins (x :: ts)) d).
        { apply (runs_valid _ _ NInvalid). eapply quoted_line_no; [exact f0|lia|apply (break_no fuel f0 _ (Z.of_nat n) c r); auto|reflexivity]. }
        mid tt (mkC (c :: r) false sv (ind n) (b ++ w ++ origins (x :: ts)) d); [|go].
        go1; [go|]. go1; [go|]. rewrite firstn_all. apply write_none; auto.
      + destruct (IH ltac:(discriminate) m (((y2 :: ts2) ++ c :: r, live false) :: sv) (b ++ w ++ origins (x :: ts)) ltac:(lia) ltac:(lia)) as (sol2 & R2).
        exists sol2. replace (b ++ w ++ origins (x :: ts) ++ s2) with ((b ++ w ++ origins (x :: ts)) ++ s2) by (rewrite <- !app_assoc; reflexivity).
        cbn [parse_quoted_next_line]. go1; [go|]. go1; [go|]. go1; [go1; exact R|]. decide1. go1; [go|]. go1; [go|]. rewrite Hx, Hcx. cbn [ttype_eqb andb].
        go1; [go|]. go1; [go|]. go1; [apply runs_next, may_calm; exact CH|]. rewrite Hx. cbn [is_start_of_line].
        go1; [apply W|]. go1; [go|]. go1; [go|]. go1; [go1; exact R2|]. go1; [decide1; go|]. go.
  Qed.

  Lemma rest_calm n cs s ts c r : quoted_rest n cs s ts -> calm c = true -> in_quotes cs c = false ->
    exists z q, ts ++ c :: r = z :: q /\ calm z = true /\ in_quotes cs z = false.
  Proof.
    intros Hr Hc Hi. destruct Hr as [|w j Hj|w j x ts2 s3 ts4 Hj _ _ _ _]; [exists c, r; auto| |];
      destruct (seam_head _ _ _ Hj) as (nl & z & -> & Hn); destruct (nl_facts cs nl Hn) as (N1 & N2 & N3); cbn [app]; eauto.
  Qed.
  Lemma quoted_lines q cs qt ctx n o ts s2 ts2 c tl sol sv b d :
    is_quote q -> ctx = FlowIn \/ ctx = FlowOut -> tok_type o = q -> Forall (fits cs) ts -> quoted_rest n cs s2 ts2 -> tok_type c = q -> calm_hd tl = true ->
    length (ts ++ ts2) < fuel ->
    runs (parse_quoted fuel q cs qt (break_of fuel q) ctx) (mkC (o :: ts ++ ts2 ++ c :: tl) sol sv (ind n) b d)
         (NText (origins ts ++ s2) qt) (mkC tl false sv (ind n) b d).
  Proof.
    intros Hq Hx Ho Ht Hr Hc Htl Hf. rewrite app_length in Hf. destruct (quote_facts q cs c Hq Hc) as (C1 & C2 & C3 & C4 & C5).
    assert (T1 : Forall (fun t => texty t = true) ts) by (eapply Forall_impl; [apply fits_texty|exact Ht]).
    assert (T2 : Forall (fun t => in_quotes cs t = true) ts) by (eapply Forall_impl; [apply fits_in|exact Ht]).
    assert (Hqq : ttype_eqb q q = true) by (destruct Hq; subst q; match goal with H : tok_type _ = _ |- _ => try rewrite H end; reflexivity).
    assert (Hqs : forall s, is_start_of_line s q = false) by (intro s; destruct Hq as [E|E]; rewrite E; reflexivity).
    destruct (rest_calm n cs s2 ts2 c tl Hr C1 C5) as (z & zr & Ez & Cz & Iz).
    assert (CH : calm_hd (ts ++ ts2 ++ c :: tl) = true) by (rewrite Ez; apply calm_texts; auto).
    assert (W : forall sv b, runs (write_while fuel (in_quotes cs)) (mkC (ts ++ ts2 ++ c :: tl) false sv (ind n) b d) tt
        (mkC (ts2 ++ c :: tl) false sv (ind n) (b ++ origins ts) d)).
    { intros sv1 b1. rewrite Ez. pose proof (write_ok fuel f0 (in_quotes cs) ts z zr false sv1 (ind n) b1 d T1 T2 Iz Cz ltac:(lia)) as K.
      rewrite sol_after_false in K. exact K. }
    unfold parse_quoted. go1. go1; [go|]. rewrite Ho, Hqq. go1; [apply runs_next, may_calm, CH|]. rewrite Ho, Hqs.
    assert (Many : exists sol2, runs (parse_quoted_multi_line fuel cs qt (break_of fuel q)) (mkC (ts ++ ts2 ++ c :: tl) false sv (ind n) b d)
              (NText (origins ts ++ s2) qt) (mkC (c :: tl) sol2 sv (ind n) b d)).
    { destruct ts2 as [|y2 ts2].
      - exists false. assert (s2 = []) as ->.
        { inversion Hr as [|? ? Hj2|? ? ? ? ? ? Hj2]; subst; [reflexivity| |].
          - destruct (seam_head _ _ _ Hj2) as (? & ? & E2 & _); discriminate E2.
          - match goal with H : ?a ++ _ = [] |- _ => destruct (seam_head _ _ _ Hj2) as (? & ? & -> & _); discriminate H end. }
        rewrite app_nil_r. unfold parse_quoted_multi_line. go1. go1. go1; [apply W|]. cbn [app]. go1; [go|]. go1; [go|].
        mid false (mkC (c :: tl) false ((c :: tl, false) :: sv) (ind n) (origins ts) d).
        { apply (runs_valid _ _ NInvalid). eapply quoted_line_no; [exact f0|exact f0|apply (break_no fuel f0 _ (Z.of_nat n) c tl); auto|reflexivity]. }
        mid tt (mkC (c :: tl) false sv (ind n) (origins ts) d); [|go].
        go1; [go|]. go1; [go|]. rewrite firstn_all. apply write_none; auto.
      - destruct (quoted_go q cs n c tl d Hq Hc s2 (y2 :: ts2) Hr ltac:(discriminate) fuel (((y2 :: ts2) ++ c :: tl, live false) :: sv) (origins ts) ltac:(lia) ltac:(lia)) as (sol2 & R2).
        exists sol2. unfold parse_quoted_multi_line. go1. go1. go1; [apply W|]. cbn [app]. go1; [go|]. go1; [go|]. go1; [go1; exact R2|].
        go1; [decide1; go|]. go. }
    destruct Many as (sol2 & Many).
    mid (NText (origins ts ++ s2) qt) (mkC (c :: tl) sol2 sv (ind n) b d).
    { unfold parse_quoted_text. destruct Hx; subst ctx; exact Many. }
    decide1. go1; [go|]. rewrite Hc, Hqq. go1; [apply runs_next, may_calm, Htl|]. rewrite Hc, Hqs. go.
  Qed.
  (** as a key it ends on its line *)
  Lemma quoted_open q cs qt ctx o ts y r sol sv i b d :
    is_quote q -> ctx = BlockKey \/ ctx = FlowKey -> tok_type o = q -> Forall (fits cs) ts -> tok_type y = TLineBreak -> length ts < fuel ->
    runs (parse_quoted fuel q cs qt (break_of fuel q) ctx) (mkC (o :: ts ++ y :: r) sol sv i b d) NInvalid (mkC (y :: r) false sv i b d).
  Proof.
    intros Hq Hx Ho Ht Hy Hf. destruct (nl_facts cs y Hy) as (N1 & N2 & N3).
    assert (T1 : Forall (fun t => texty t = true) ts) by (eapply Forall_impl; [apply fits_texty|exact Ht]).
    assert (T2 : Forall (fun t => in_quotes cs t = true) ts) by (eapply Forall_impl; [apply fits_in|exact Ht]).
    assert (Hqq : ttype_eqb q q = true) by (destruct Hq as [E|E]; rewrite E; reflexivity).
    assert (Hyq : tok_type y <> q) by (rewrite Hy; destruct Hq as [E|E]; rewrite E; discriminate).
    assert (Hqs : forall s, is_start_of_line s q = false) by (intro s; destruct Hq as [E|E]; rewrite E; reflexivity).
    unfold parse_quoted. go1. go1; [go|]. rewrite Ho, Hqq. go1; [apply runs_next, may_calm, calm_texts; auto|]. rewrite Ho, Hqs.
    mid (NText (origins ts) qt) (mkC (y :: r) false sv i b d).
    { assert (One : runs (parse_quoted_one_line fuel cs qt) (mkC (ts ++ y :: r) false sv i b d) (NText (origins ts) qt) (mkC (y :: r) false sv i b d)).
      { unfold parse_quoted_one_line. go1. go1. go1; [apply write_ok; auto|]. cbn [app]. rewrite sol_after_false. go. }
      unfold parse_quoted_text. destruct Hx; subst ctx; exact One. }
    decide1. go1; [go|]. rewrite (ttype_eqb_no _ _ Hyq). go.
  Qed.
End Folds.
