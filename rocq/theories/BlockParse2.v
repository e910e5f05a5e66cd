(** Evaluation of the productions for comments and separations between tokens. *)
From Coq Require Import String ZArith.
From Verif Require Import Base YamlChar Token Ast Balance CPAccessor Lexer Parser ParserFlow ParserBlock ParserDocs ParserTape TapeRules BlockParse1.
Local Open Scope parser_scope.
Local Arguments cons {A}%type_scope & _ _.
Local Arguments pair {A B}%type_scope & _ _.

(** tokens of text *)
Definition texty (t : token) : bool :=
  match tok_type t with TString | TSpace | TTab => true | _ => false end.
Lemma texty_calm t : texty t = true -> calm t = true.
Proof. unfold texty, calm. destruct (tok_type t); congruence. Qed.
Lemma texty_sol t sol : texty t = true -> is_start_of_line sol (tok_type t) = false.
Proof. unfold texty. destruct (tok_type t); cbn; congruence. Qed.
Lemma blank_texty t : tok_type t = TSpace -> texty t = true.
Proof. unfold texty. intros ->. reflexivity. Qed.
Lemma calm_texts ts x r : Forall (fun t => texty t = true) ts -> calm x = true -> calm_hd (ts ++ x :: r) = true.
Proof. intros H Hc. destruct ts; [exact Hc|]. inversion H; subst. apply texty_calm. assumption. Qed.

(** ** what may follow a node on its line, lines without content, and what ends a line *)
Inductive trailing : list token -> Prop :=
| trailing_blanks sps : blanks sps -> trailing sps
| trailing_comment sps c txt : blanks sps -> sps <> [] -> tok_type c = TComment -> Forall (fun t => texty t = true) txt ->
    trailing (sps ++ c :: txt).
Inductive idle_line : list token -> Prop :=
| idle_blanks sps : blanks sps -> idle_line sps
| idle_comment sps c txt : blanks sps -> tok_type c = TComment -> Forall (fun t => texty t = true) txt -> idle_line (sps ++ c :: txt).
Inductive idle : list token -> Prop :=
| idle_none : idle []
| idle_more v nl l : idle_line v -> tok_type nl = TLineBreak -> idle l -> idle (v ++ nl :: l).
Definition ends_line (y : token) : Prop := tok_type y = TLineBreak \/ tok_type y = TEOF.
(** from the end of a node to the start of a line *)
Inductive gap : list token -> Prop :=
| gap_lines u nl l : trailing u -> tok_type nl = TLineBreak -> idle l -> gap (u ++ nl :: l).

Lemma ends_calm y : ends_line y -> calm y = true.
Proof. unfold calm. intros [-> | ->]; reflexivity. Qed.
Lemma ends_white y : ends_line y -> is_white_space y = false.
Proof. unfold is_white_space. intros [-> | ->]; reflexivity. Qed.
Lemma ends_sol y sol : ends_line y -> is_start_of_line sol (tok_type y) = is_start_of_line false (tok_type y).
Proof. intros [-> | ->]; reflexivity. Qed.
Lemma trailing_idle u : trailing u -> idle_line u.
Proof. intros []; [constructor|constructor 2]; auto. Qed.
#[export] Hint Resolve ends_calm ends_white trailing_idle idle_none : core.
Lemma idle_line_calm v y r : idle_line v -> calm y = true -> calm_hd (v ++ y :: r) = true.
Proof.
  intros [sps H|sps c txt H Hc Ht] Hy; [apply calm_blanks; auto|]. rewrite <- app_assoc. apply calm_blanks; auto.
  unfold calm. rewrite Hc. reflexivity.
Qed.
Lemma idle_calm l r : idle l -> calm_hd r = true -> calm_hd (l ++ r) = true.
Proof.
  intros [|v nl l2 Hv Hn _] Hr; [exact Hr|]. rewrite <- app_assoc. apply idle_line_calm; auto. unfold calm. rewrite Hn. reflexivity.
Qed.
#[export] Hint Resolve idle_line_calm idle_calm : calm.

(** tokens that are neither brackets nor the end *)
Definition mild (t : token) : bool :=
  match tok_type t with TString | TSpace | TTab | TComment | TLineBreak => true | _ => false end.
Lemma texty_mild ts : Forall (fun t => texty t = true) ts -> Forall (fun t => mild t = true) ts.
Proof. intro H. eapply Forall_impl; [|exact H]. intros t. unfold texty, mild. destruct (tok_type t); congruence. Qed.
Lemma blanks_mild ts : blanks ts -> Forall (fun t => mild t = true) ts.
Proof. intro H. apply texty_mild. eapply Forall_impl; [|exact H]. intros t. apply blank_texty. Qed.
Lemma mild_one t ty : tok_type t = ty -> mild (mkTok ty (mkPos 0 0) (mkPos 0 0) [] 0) = true -> mild t = true.
Proof. unfold mild. cbn. intros ->. auto. Qed.
Lemma idle_line_mild v : idle_line v -> Forall (fun t => mild t = true) v.
Proof.
  intros [sps H|sps c txt H Hc Ht]; [apply blanks_mild, H|]. apply Forall_app. split; [apply blanks_mild, H|].
  constructor; [eapply mild_one; eauto|apply texty_mild, Ht].
Qed.
Lemma idle_mild l : idle l -> Forall (fun t => mild t = true) l.
Proof.
  induction 1 as [|v nl l Hv Hn Hl IH]; [constructor|]. apply Forall_app. split; [apply idle_line_mild, Hv|].
  constructor; [eapply mild_one; eauto|exact IH].
Qed.
Lemma gap_mild g : gap g -> Forall (fun t => mild t = true) g.
Proof.
  intros [u nl l Hu Hn Hl]. apply Forall_app. split; [apply idle_line_mild; auto|].
  constructor; [eapply mild_one; eauto|apply idle_mild, Hl].
Qed.
Lemma brk_mild a ts : Forall (fun t => mild t = true) a -> brk (a ++ ts) = brk ts.
Proof.
  induction 1 as [|x l H _ IH]; [reflexivity|]. cbn [app]. rewrite brk_cons, IH. unfold mild in H.
  destruct (tok_type x); first [reflexivity | discriminate].
Qed.
Lemma mild_calm x : mild x = true -> calm x = true.
Proof. unfold mild, calm. destruct (tok_type x); congruence. Qed.
Lemma may_mild a sv ts : Forall (fun t => mild t = true) a -> may_go sv ts -> may_go sv (a ++ ts).
Proof. intros H M. destruct a as [|x a]; [exact M|]. inversion H; subst. left. apply mild_calm. assumption. Qed.
(** a checkpoint before such tokens *)
Lemma may_before x a sv sol ts : Forall (fun t => mild t = true) a -> may_go sv ts -> may_go ((x :: a ++ ts, sol) :: sv) ts.
Proof.
  intros H [M|[M1 M2]]; [left; exact M|right]. split; [exact M1|]. constructor; [|exact M2].
  etransitivity; [apply height_le|]. cbn [fst tl]. unfold depth. rewrite brk_mild by assumption. apply le_n.
Qed.
Lemma may_app a sv sol ts : Forall (fun t => mild t = true) a -> a <> [] -> may_go sv ts -> may_go ((a ++ ts, sol) :: sv) ts.
Proof. intros H Hn M. destruct a as [|x a]; [congruence|]. inversion H; subst. apply may_before; assumption. Qed.
Lemma may_line v nl l sv sol ts : idle_line v -> tok_type nl = TLineBreak -> idle l -> may_go sv ts ->
  may_go ((v ++ nl :: l ++ ts, sol) :: sv) (l ++ ts).
Proof.
  intros Hv Hn Hl M. replace (v ++ nl :: l ++ ts) with ((v ++ [nl]) ++ l ++ ts) by (rewrite <- app_assoc; reflexivity).
  apply may_app; [|destruct v; discriminate|apply may_mild; [apply idle_mild, Hl|exact M]].
  apply Forall_app. split; [apply idle_line_mild, Hv|]. constructor; [eapply mild_one; eauto|constructor].
Qed.
Lemma gap_some g : gap g -> g <> [].
Proof. intros [u nl l _ _ _] E. destruct u; discriminate. Qed.

(** ** a line break where a node is looked for *)
Definition dull (y : token) : Prop := tok_type y = TLineBreak \/ tok_type y = TEOF \/ tok_type y = TComment.
Lemma trailing_dull u y r : trailing u -> ends_line y -> exists sps z q,
  u ++ y :: r = sps ++ z :: q ++ r /\ blanks sps /\ dull z /\ length sps <= length u.
Proof.
  intros [sps Hs|sps c txt Hs _ Hc Ht] Hy.
  - exists sps, y, []. unfold dull. destruct Hy; auto 6.
  - exists sps, c, (txt ++ [y]). rewrite <- !app_assoc, app_length. unfold dull. repeat split; auto. lia.
Qed.
Lemma dull_facts y : dull y -> calm y = true /\ is_white_space y = false.
Proof. unfold dull, calm, is_white_space. intros [-> |[-> | ->]]; auto. Qed.


Section Comments.
  Context (fuel : nat) (some_fuel : 0 < fuel).

  Lemma runs_repeat_none m ts sol sv i b d ts2 sol2 a :
    runs m (mkC ts sol ((ts, sol) :: sv) i b d) a (mkC ts2 sol2 ((ts, sol) :: sv) i b d) ->
    valid_node a = false ->
    runs (repeat_valid fuel m) (mkC ts sol sv i b d) tt (mkC ts sol sv i b d).
  Proof.
    intros H Ha. unfold repeat_valid, loop_, loop. destruct fuel as [|n]; [lia|].
    apply runs_loop_stop. go1; [|go]. go1; [go|]. go1; [go1; exact H|]. rewrite Ha. go.
  Qed.

  Lemma at_line_end_no x r sol sv i b d : middle x = true ->
    runs at_line_end (mkC (x :: r) sol sv i b d) false (mkC (x :: r) sol sv i b d).
  Proof.
    intro Hm. unfold at_line_end. go1; [go|].
    replace (ttype_eqb (tok_type x) TLineBreak || ttype_eqb (tok_type x) TEOF) with false
      by (unfold middle in Hm; destruct (tok_type x); first [discriminate | reflexivity]). go.
  Qed.

  Lemma comment_line_no sps x r sol sv i b d :
    blanks sps -> middle x = true -> reach sps sv (x :: r) -> length sps < fuel ->
    runs (parse_comment_line fuel) (mkC (sps ++ x :: r) sol sv i b d) NInvalid
         (mkC (x :: r) (sol_after sps sol) sv i b d).
  Proof.
    intros Hs Hm Hc Hf. unfold parse_comment_line. go1.
    destruct (sep_in_line_any fuel sps x r sol sv i b d Hs (middle_white _ Hm) Hc Hf) as (n & Hn & Hv).
    go1; [go1; exact Hn|]. rewrite Hv.
    assert (K : runs (set_checkpoint ;; ok <- valid (parse_comment_text fuel) ;;
        (if ok : bool then commit else rollback) ;; ended <- at_line_end ;;
        (if ended : bool then next ;; basic CommentType else invalid))
      (mkC (x :: r) (sol_after sps sol) sv i b d) NInvalid (mkC (x :: r) (sol_after sps sol) sv i b d)).
    { go1; [go|]. go1; [go1; apply comment_text_no, middle_comment, Hm|]. cbn [valid_node].
      go1; [go|]. go1; [apply at_line_end_no, Hm|]. go. }
    destruct sps as [|s sps]; [destruct sol|]; try exact K. go.
  Qed.

  Lemma comment_line_off x r sv i b d : is_white_space x = false ->
    runs (parse_comment_line fuel) (mkC (x :: r) false sv i b d) NInvalid (mkC (x :: r) false sv i b d).
  Proof. intros Hw. unfold parse_comment_line. go1. go1; [go1; apply sep_in_line_no, Hw|]. go. Qed.

  (** in the middle of a line there are comments only at its start *)
  Lemma comments_mid sps x r (sol : bool) sv i b d :
    blanks sps -> middle x = true -> reach sps sv (x :: r) -> length sps < fuel ->
    runs (parse_comments fuel) (mkC (sps ++ x :: r) sol sv i b d) (if sol then NBasic CommentType else NInvalid)
         (mkC (sps ++ x :: r) sol sv i b d).
  Proof.
    intros Hs Hm Hc Hf. unfold parse_comments. go1. go1; [go|].
    go1; [go1; apply sep_comment_no; auto|]. cbn [valid_node].
    mid sol (mkC (sps ++ x :: r) sol sv i b d); [go|].
    destruct sol; [|go]. go1; [|go].
    eapply runs_repeat_none; [apply comment_line_no; auto|reflexivity].
  Qed.

  Lemma comment_text_ok c txt y r sol sv i b d :
    tok_type c = TComment -> Forall (fun t => texty t = true) txt -> ends_line y -> length txt < fuel ->
    runs (parse_comment_text fuel) (mkC (c :: txt ++ y :: r) sol sv i b d) (NBasic CommentType) (mkC (y :: r) false sv i b d).
  Proof.
    intros Hc Ht Hy Hf. unfold parse_comment_text. go1. go1; [go|]. rewrite Hc. decide1.
    go1; [apply runs_next, may_calm, calm_texts; auto|]. rewrite Hc. cbn [is_start_of_line].
    mid tt (mkC (y :: r) false sv i b d); [|go].
    assert (G : forall n txt u, Forall (fun t => texty t = true) txt -> length txt < n ->
      runs (loop_go n (fun _ : unit => b <- (t <- tok ;; if is_non_break t then next ;; ret true else ret false) ;; ret (tt, b)) u)
        (mkC (txt ++ y :: r) false sv i b d) tt (mkC (y :: r) false sv i b d)).
    { clear Ht Hf txt. intros n. induction n as [|n IH]; intros txt u H Hn; [lia|]. destruct txt as [|t txt]; cbn [app length] in *.
      - apply runs_loop_stop. go1; [|go]. go1; [go|].
        replace (is_non_break y) with false by (unfold is_non_break; destruct Hy as [-> | ->]; reflexivity). destruct u. go.
      - inversion H as [|? ? T1 T2]; subst. eapply runs_loop_more; [|apply (IH txt tt); [exact T2|lia]].
        go1; [|go]. go1; [go|].
        replace (is_non_break t) with true by (unfold is_non_break, texty in *; destruct (tok_type t); congruence).
        go1; [apply runs_next, may_calm, calm_texts; auto|]. rewrite (texty_sol _ _ T1). go. }
    apply G; assumption.
  Qed.

  Lemma at_line_end_ok y r sol sv i b d : ends_line y ->
    runs at_line_end (mkC (y :: r) sol sv i b d) true (mkC (y :: r) sol sv i b d).
  Proof.
    intro Hy. unfold at_line_end. go1; [go|].
    replace true with (ttype_eqb (tok_type y) TLineBreak || ttype_eqb (tok_type y) TEOF)
      by (destruct Hy as [-> | ->]; reflexivity). go.
  Qed.

  (** the end of the line of a node *)
  Lemma sep_comment_end u y ts sv i b d : trailing u -> ends_line y -> may_go sv ts -> length u < fuel ->
    runs (parse_separated_comment fuel) (mkC (u ++ y :: ts) false sv i b d) (NBasic CommentType)
         (mkC ts (is_start_of_line false (tok_type y)) sv i b d).
  Proof.
    intros Hu Hy Hc Hf. unfold parse_separated_comment. go1.
    mid tt (mkC (u ++ y :: ts) false ((u ++ y :: ts, live false) :: sv) i b d); [go|].
    assert (K : forall ok sol c, runs (valid (parse_separate_in_line fuel)) (mkC (u ++ y :: ts) false ((u ++ y :: ts, live false) :: sv) i b d) ok c ->
      runs (if ok : bool then set_checkpoint ;; ok <- valid (parse_comment_text fuel) ;;
        (if ok : bool then commit else rollback) ;; commit else rollback) c tt (mkC (y :: ts) sol sv i b d) ->
      runs (ok <- valid (parse_separate_in_line fuel) ;;
        (if ok : bool then set_checkpoint ;; ok <- valid (parse_comment_text fuel) ;;
        (if ok : bool then commit else rollback) ;; commit else rollback) ;;
        ended <- at_line_end ;; if ended : bool then next ;; basic CommentType else invalid)
        (mkC (u ++ y :: ts) false ((u ++ y :: ts, live false) :: sv) i b d) (NBasic CommentType)
        (mkC ts (is_start_of_line false (tok_type y)) sv i b d)).
    { intros ok sol c R1 R2. eapply runs_bind; [exact R1|]. cbv beta. eapply runs_bind; [exact R2|]. cbv beta.
      go1; [apply at_line_end_ok, Hy|]. cbv iota. go1; [apply runs_next, Hc|]. rewrite (ends_sol _ _ Hy). go. }
    destruct Hu as [sps Hs|sps c txt Hs Hne Hco Ht].
    - destruct sps as [|s sps].
      + eapply K; [go1; apply sep_in_line_no; auto|]. go.
      + eapply K; [go1; apply sep_in_line_ok; auto; left; discriminate|]. decide1. rewrite sol_after_false.
        go1; [go|]. go1; [go1; apply comment_text_no; destruct Hy; congruence|]. go.
    - rewrite <- app_assoc in *. cbn [app] in *. rewrite app_length in Hf. cbn [length] in Hf.
      assert (Wc : is_white_space c = false) by (unfold is_white_space; rewrite Hco; reflexivity).
      assert (Cc : calm c = true) by (unfold calm; rewrite Hco; reflexivity).
      eapply K; [go1; apply sep_in_line_ok; auto; lia|].
      decide1. rewrite sol_after_false. go1; [go|]. go1; [go1; apply comment_text_ok; auto; lia|]. go.
  Qed.

  (** a line without content *)
  Lemma comment_line_ok v y ts sv i b d : idle_line v -> ends_line y -> may_go sv ts -> length v < fuel ->
    runs (parse_comment_line fuel) (mkC (v ++ y :: ts) true sv i b d) (NBasic CommentType)
         (mkC ts (is_start_of_line false (tok_type y)) sv i b d).
  Proof.
    intros Hv Hy Hc Hf. unfold parse_comment_line. go1. destruct Hv as [sps Hs|sps c txt Hs Hco Ht].
    - go1; [go1; apply sep_in_line_ok; auto|]. decide1. go1; [go|].
      go1; [go1; apply comment_text_no; destruct Hy; congruence|]. cbn [valid_node]. go1; [go|].
      go1; [apply at_line_end_ok, Hy|]. cbv iota. go1; [apply runs_next, Hc|]. rewrite (ends_sol _ _ Hy). go.
    - rewrite <- app_assoc in *. cbn [app] in *. rewrite app_length in Hf. cbn [length] in Hf.
      assert (Wc : is_white_space c = false) by (unfold is_white_space; rewrite Hco; reflexivity).
      assert (Cc : calm c = true) by (unfold calm; rewrite Hco; reflexivity).
      go1; [go1; apply sep_in_line_ok; auto; lia|].
      decide1. go1; [go|]. go1; [go1; apply comment_text_ok; auto; lia|]. go1; [go|].
      go1; [apply at_line_end_ok, Hy|]. cbv iota. go1; [apply runs_next, Hc|]. go.
  Qed.

  Lemma idle_lines n : forall l ts sol2 sv i b d ts2 u,
    idle l -> may_go sv ts -> length l < fuel -> length l <= n ->
    (forall n2 u, n - length l <= n2 -> runs (loop_go n2 (fun _ : unit => b <- (set_checkpoint ;; ok <- valid (parse_comment_line fuel) ;;
           if ok : bool then commit ;; ret true else rollback ;; ret false) ;; ret (tt, b)) u)
      (mkC ts true sv i b d) tt (mkC ts2 sol2 sv i b d)) ->
    runs (loop_go n (fun _ : unit => b <- (set_checkpoint ;; ok <- valid (parse_comment_line fuel) ;;
           if ok : bool then commit ;; ret true else rollback ;; ret false) ;; ret (tt, b)) u)
      (mkC (l ++ ts) true sv i b d) tt (mkC ts2 sol2 sv i b d).
  Proof.
    induction n as [|n IH]; intros l ts sol2 sv i b d ts2 u Hl Hc Hf Hn H.
    - destruct l; [|cbn in Hn; lia]. apply H. lia.
    - destruct Hl as [|v nl l Hv Hnl Hl]; [apply H; cbn; lia|]. rewrite app_length in *. cbn [length] in *.
      rewrite <- app_assoc. cbn [app]. eapply runs_loop_more; [|apply (IH l ts); auto; try lia].
      + go1; [|go]. go1; [go|]. go1; [go1; apply comment_line_ok; auto; [left; exact Hnl|apply may_line; auto|lia]|].
        rewrite Hnl. go.
      + intros n2 u2 H2. apply H. lia.
  Qed.

  Lemma repeat_idle l ts sol2 sv i b d ts2 :
    idle l -> may_go sv ts -> length l < fuel ->
    (forall n, fuel - length l <= n -> runs (loop_go n (fun _ : unit => b <- (set_checkpoint ;; ok <- valid (parse_comment_line fuel) ;;
           if ok : bool then commit ;; ret true else rollback ;; ret false) ;; ret (tt, b)) tt)
      (mkC ts true sv i b d) tt (mkC ts2 sol2 sv i b d)) ->
    runs (repeat_valid fuel (parse_comment_line fuel)) (mkC (l ++ ts) true sv i b d) tt (mkC ts2 sol2 sv i b d).
  Proof.
    intros Hl Hc Hf H. unfold repeat_valid, loop_, loop. apply idle_lines; auto; [lia|]. intros n [] Hn. apply H, Hn.
  Qed.

  (** lines without content before a line with content *)
  Lemma repeat_line l sps x r sv i b d :
    idle l -> blanks sps -> middle x = true -> may_go sv (x :: r) -> length l < fuel -> length sps < fuel ->
    runs (repeat_valid fuel (parse_comment_line fuel)) (mkC (l ++ sps ++ x :: r) true sv i b d) tt
         (mkC (sps ++ x :: r) true sv i b d).
  Proof.
    intros Hl Hs Hm Hc Hf Hf2. apply repeat_idle; auto.
    intros n Hn. destruct n as [|n]; [lia|]. apply runs_loop_stop. go1; [|go]. go1; [go|].
    go1; [go1; apply comment_line_no; auto; apply reach_cp; auto; right; exact Hc|]. go.
  Qed.
  (** and before the end of input *)
  Lemma repeat_end l v e1 e2 r sv i b d :
    idle l -> idle_line v -> tok_type e1 = TEOF -> tok_type e2 = TEOF -> length l + length v + 1 < fuel ->
    runs (repeat_valid fuel (parse_comment_line fuel)) (mkC (l ++ v ++ e1 :: e2 :: r) true sv i b d) tt
         (mkC (e2 :: r) false sv i b d).
  Proof.
    intros Hl Hv H1 H2 Hf.
    assert (C1 : calm e1 = true) by (unfold calm; rewrite H1; reflexivity).
    assert (C2 : calm e2 = true) by (unfold calm; rewrite H2; reflexivity).
    assert (W2 : is_white_space e2 = false) by (unfold is_white_space; rewrite H2; reflexivity).
    apply repeat_idle; auto; [left; apply idle_line_calm; auto|lia|].
    intros n Hn. destruct n as [|[|n]]; [lia|lia|]. eapply runs_loop_more.
    - go1; [|go]. go1; [go|]. go1; [go1; apply comment_line_ok; auto; [right; exact H1|left; exact C2|lia]|]. rewrite H1. go.
    - apply runs_loop_stop. go1; [|go]. go1; [go|]. go1; [go1; apply comment_line_off; auto|]. go.
  Qed.

  (** from the end of a line to the next one *)
  Lemma comments_gap g sps x r sv i b d :
    gap g -> blanks sps -> middle x = true -> may_go sv (x :: r) -> length g < fuel -> length sps < fuel ->
    runs (parse_comments fuel) (mkC (g ++ sps ++ x :: r) false sv i b d) (NBasic CommentType)
         (mkC (sps ++ x :: r) true sv i b d).
  Proof.
    intros [u nl l Hu Hn Hl] Hs Hm Hc Hf Hf2. rewrite app_length in Hf. cbn [length] in Hf. rewrite <- app_assoc. cbn [app].
    unfold parse_comments. go1. go1; [go|].
    go1; [go1; apply sep_comment_end; auto; [left; exact Hn|apply may_line; auto|lia]|].
    cbn [valid_node]. rewrite Hn. cbn [is_start_of_line].
    mid true (mkC (l ++ sps ++ x :: r) true sv i b d); [go|]. cbv iota. go1; [apply repeat_line; auto; lia|]. go.
  Qed.

  (** from the end of a line to the end of input *)
  Lemma comments_end g v e1 e2 r sv i b d :
    gap g -> idle_line v -> tok_type e1 = TEOF -> tok_type e2 = TEOF -> length g + length v < fuel ->
    runs (parse_comments fuel) (mkC (g ++ v ++ e1 :: e2 :: r) false sv i b d) (NBasic CommentType)
         (mkC (e2 :: r) false sv i b d).
  Proof.
    intros [u nl l Hu Hn Hl] Hv H1 H2 Hf. rewrite app_length in Hf. cbn [length] in Hf. rewrite <- app_assoc. cbn [app].
    assert (C1 : calm e1 = true) by (unfold calm; rewrite H1; reflexivity).
    unfold parse_comments. go1. go1; [go|].
    go1; [go1; apply sep_comment_end; auto; [left; exact Hn|left; apply idle_calm; auto using idle_line_calm|lia]|].
    cbn [valid_node]. rewrite Hn. cbn [is_start_of_line].
    mid true (mkC (l ++ v ++ e1 :: e2 :: r) true sv i b d); [go|]. cbv iota. go1; [apply repeat_end; auto; lia|]. go.
  Qed.

  (** at the end of input *)
  Lemma comments_eof u e1 e2 r sv i b d :
    trailing u -> tok_type e1 = TEOF -> tok_type e2 = TEOF -> length u < fuel ->
    runs (parse_comments fuel) (mkC (u ++ e1 :: e2 :: r) false sv i b d) (NBasic CommentType)
         (mkC (e2 :: r) false sv i b d).
  Proof.
    intros Hu H1 H2 Hf.
    assert (C2 : calm e2 = true) by (unfold calm; rewrite H2; reflexivity).
    assert (W2 : is_white_space e2 = false) by (unfold is_white_space; rewrite H2; reflexivity).
    unfold parse_comments. go1. go1; [go|].
    go1; [go1; apply sep_comment_end; auto; [right; exact H1|left; exact C2]|]. cbn [valid_node]. rewrite H1. cbn [is_start_of_line].
    mid true (mkC (e2 :: r) false sv i b d); [go|]. cbv iota. go1; [|go].
    eapply runs_repeat_none; [apply comment_line_off; auto|reflexivity].
  Qed.

  (** ** separation *)
  Lemma flow_prefix n sps x r sol sv b d :
    blanks sps -> reach sps sv (x :: r) -> is_white_space x = false -> n <= length sps -> length sps < fuel ->
    runs (parse_flow_line_prefix fuel) (mkC (sps ++ x :: r) sol sv (mkInd (Z.of_nat n) StrictMode) b d)
         (NBasic IndentType)
         (mkC (x :: r) (sol_after sps sol) sv (mkInd (Z.of_nat n) StrictMode) b d).
  Proof.
    intros Hs Hc Hw Hn Hf. unfold parse_flow_line_prefix. go1.
    go1; [go1; apply indent_strict_ok; auto|]. decide1.
    go1; [go|].
    destruct (sep_in_line_any fuel (skipn n sps) x r (sol_after (firstn n sps) sol)
      ((skipn n sps ++ x :: r, sol_after (firstn n sps) sol) :: sv)
      (mkInd (Z.of_nat n) StrictMode) b d (blanks_skipn _ _ Hs) Hw (reach_cp _ _ _ _ _ (blanks_skipn _ _ Hs) (reach_skipn _ _ _ _ Hc))) as (a & Ha & Hv).
    { rewrite skipn_length. lia. }
    rewrite sol_after_split in Ha.
    go1; [go1; exact Ha|]. rewrite Hv.
    mid tt (mkC (x :: r) (sol_after sps sol) sv (mkInd (Z.of_nat n) StrictMode) b d); [|go].
    pose proof (sol_after_split n sps sol) as E.
    destruct (skipn n sps) as [|s q]; [|go]. cbn in E. rewrite E.
    destruct (sol_after sps sol); go.
  Qed.

  (** in the middle of a line *)
  Lemma separate_blanks ctx sps x r sv i b d :
    match ctx with BlockIn | BlockOut | FlowIn | FlowOut => True | _ => False end ->
    blanks sps -> sps <> [] -> middle x = true -> reach sps sv (x :: r) -> length sps < fuel ->
    runs (parse_separate fuel ctx) (mkC (sps ++ x :: r) false sv i b d) (NBasic IndentType)
         (mkC (x :: r) false sv i b d).
  Proof.
    intros Hx Hs Hne Hm Hc Hf.
    assert (G : runs (parse_separate_lines fuel) (mkC (sps ++ x :: r) false sv i b d) (NBasic IndentType)
         (mkC (x :: r) false sv i b d)); [|destruct ctx; try destruct Hx; exact G].
    unfold parse_separate_lines. go1. go1; [go|].
    go1; [go1; apply comments_mid; auto|]. cbn [valid_node].
    go; [apply sep_in_line_ok; auto using middle_white|].
    rewrite sol_after_false. go.
  Qed.

  (** across a line break *)
  Lemma separate_gap ctx g n sps x r sv b d :
    match ctx with BlockIn | BlockOut | FlowIn | FlowOut => True | _ => False end ->
    gap g -> blanks sps -> n <= length sps -> middle x = true -> may_go sv (x :: r) -> length g < fuel -> length sps < fuel ->
    runs (parse_separate fuel ctx) (mkC (g ++ sps ++ x :: r) false sv (mkInd (Z.of_nat n) StrictMode) b d)
         (NBasic IndentType) (mkC (x :: r) (sol_after sps true) sv (mkInd (Z.of_nat n) StrictMode) b d).
  Proof.
    intros Hx Hn Hs Hne Hm Hc Hf Hf2.
    assert (G : runs (parse_separate_lines fuel) (mkC (g ++ sps ++ x :: r) false sv (mkInd (Z.of_nat n) StrictMode) b d)
         (NBasic IndentType) (mkC (x :: r) (sol_after sps true) sv (mkInd (Z.of_nat n) StrictMode) b d));
      [|destruct ctx; try destruct Hx; exact G].
    unfold parse_separate_lines. go1. go1; [go|].
    assert (Hc2 : may_go ((g ++ sps ++ x :: r, live false) :: sv) (x :: r)).
    { rewrite app_assoc. apply may_app; [|intro E; apply app_eq_nil in E; destruct E; apply (gap_some g); auto|exact Hc].
      apply Forall_app. split; [apply gap_mild, Hn|apply blanks_mild, Hs]. }
    go1; [go1; apply comments_gap; auto|]. go1; [decide1; go1; apply flow_prefix; auto using middle_white; right; exact Hc2|]. cbn [valid_node]. go.
  Qed.

  (** at the start of a line *)
  Lemma separate_here ctx n sps x r sv b d :
    match ctx with BlockIn | BlockOut | FlowIn | FlowOut => True | _ => False end ->
    blanks sps -> n <= length sps -> length sps < fuel -> middle x = true -> reach sps sv (x :: r) ->
    runs (parse_separate fuel ctx) (mkC (sps ++ x :: r) true sv (mkInd (Z.of_nat n) StrictMode) b d)
         (NBasic IndentType) (mkC (x :: r) (sol_after sps true) sv (mkInd (Z.of_nat n) StrictMode) b d).
  Proof.
    intros Hx Hs Hn Hf Hm Hr.
    assert (G : runs (parse_separate_lines fuel) (mkC (sps ++ x :: r) true sv (mkInd (Z.of_nat n) StrictMode) b d)
         (NBasic IndentType) (mkC (x :: r) (sol_after sps true) sv (mkInd (Z.of_nat n) StrictMode) b d));
      [|destruct ctx; try destruct Hx; exact G].
    unfold parse_separate_lines. go1. go1; [go|].
    go1; [go1; apply comments_mid; auto|]. go1; [decide1; go1; apply flow_prefix; auto using middle_white|]. cbn [valid_node]. go.
  Qed.

End Comments.
