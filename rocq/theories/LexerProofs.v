From Coq Require Import ZifyBool ZifyNat ZifyN.
From Verif Require Import Base YamlChar Token CPAccessor Lexer LexerSpec.
Local Open Scope N_scope.

(** ** one rune, over the list source *)
Notation llex := (lex text).

Lemma lookahead_list n pred (l : llex) :
  lookahead list_source n pred l = (pred (list_look n (lx_src l)), l).
Proof. unfold lookahead; cbn. destruct l; reflexivity. Qed.

Definition plain_char (c : rune) : Prop := c <> 10 /\ c <> 13.

(** how the position moves over the token [c :: consumed] *)
Inductive moved (p : position) (c : rune) (consumed rest' : text) : position -> position -> Prop :=
| mv_one : consumed = [] -> plain_char c -> moved p c consumed rest' p p
| mv_three a b : consumed = [a; b] -> plain_char c -> plain_char a -> plain_char b ->
    moved p c consumed rest' (mkPos (row p) (column p + 2)) (mkPos (row p) (column p + 2))
| mv_line : consumed = [] -> ends_line c rest' = true ->
    moved p c consumed rest' p (mkPos (row p + 1) 0)
| mv_crlf : c = 13 -> consumed = [10] ->
    moved p c consumed rest' (mkPos (row p) (column p + 1)) (mkPos (row p + 1) 0).

Definition special_type (t : ttype) : Prop := t <> TEOF /\ t <> TString /\ t <> TUnknown.

Definition post (l : llex) (c : rune) (res : option token * llex) : Prop :=
  lx_prepared (snd res) = lx_prepared l /\
  match res with
  | (None, l') => lx_src l' = lx_src l /\ lx_pos l' = lx_pos l /\ plain_char c
  | (Some tok, l') =>
      special_type (tok_type tok) /\ tok_start tok = lx_pos l /\
      exists consumed, lx_src l = consumed ++ lx_src l' /\ tok_origin tok = c :: consumed /\
        moved (lx_pos l) c consumed (lx_src l') (tok_end tok) (lx_pos l')
  end.

Lemma post_ext l l' c res : lx_src l = lx_src l' -> lx_pos l = lx_pos l' ->
  lx_prepared l = lx_prepared l' -> post l c res -> post l' c res.
Proof. unfold post. intros -> -> -> H. exact H. Qed.

Lemma post_one ty c l l0 : special_type ty -> plain_char c ->
  lx_src l0 = lx_src l -> lx_pos l0 = lx_pos l -> lx_prepared l0 = lx_prepared l ->
  post l c (one ty c l0).
Proof.
  intros Ht Hc Hs Hp Hr. unfold post, one; cbn. split; [exact Hr|]. split; [exact Ht|].
  split; [exact Hp|]. exists []. split; [cbn; congruence|]. split; [reflexivity|].
  rewrite Hp. constructor; auto.
Qed.

Lemma base_post (l0 l : llex) c :
  lx_src l0 = lx_src l -> lx_pos l0 = lx_pos l -> lx_prepared l0 = lx_prepared l ->
  post l c (base_matching list_source l0 (Some c)).
Proof.
  intros Hs Hp Hr. unfold base_matching.
  destruct (c =? ch_bom) eqn:E1; [apply N.eqb_eq in E1; subst; apply post_one; auto;
    [repeat split; discriminate|split; discriminate]|].
  destruct (c =? ch_cr) eqn:E2.
  { apply N.eqb_eq in E2; subst c.
    rewrite lookahead_list. cbn [lx_src with_ctx]. rewrite Hs.
    destruct (lx_src l) as [|x rest] eqn:Hl.
    - cbn [list_look list_next]. unfold post; cbn. split; [exact Hr|].
      split; [repeat split; discriminate|]. split; [exact Hp|]. exists [].
      rewrite Hs, Hl, Hp. split; [reflexivity|]. split; [reflexivity|]. apply mv_line; reflexivity.
    - cbn [list_look list_next]. destruct (x =? ch_lf) eqn:E3.
      + apply N.eqb_eq in E3; subst x. cbn [src_next list_source lx_src with_ctx].
        cbn [list_next rune_list].
        unfold post; cbn. split; [exact Hr|].
        split; [repeat split; discriminate|]. split; [exact Hp|]. exists [ch_lf].
        rewrite Hl, Hp. split; [reflexivity|]. split; [reflexivity|]. apply mv_crlf; reflexivity.
      + unfold post; cbn. split; [exact Hr|].
        split; [repeat split; discriminate|]. split; [exact Hp|]. exists [].
        rewrite Hs, Hl, Hp. split; [reflexivity|]. split; [reflexivity|]. apply mv_line; auto.
        unfold ends_line. unfold ch_lf in E3. rewrite E3. reflexivity. }
  destruct (c =? ch_lf) eqn:E3.
  { apply N.eqb_eq in E3; subst c. unfold post; cbn. split; [exact Hr|].
    split; [repeat split; discriminate|]. split; [exact Hp|]. exists [].
    rewrite Hs, Hp. split; [reflexivity|]. split; [reflexivity|]. apply mv_line; reflexivity. }
  apply N.eqb_neq in E2, E3.
  destruct (c =? ch_space); [apply post_one; auto; [repeat split; discriminate|split; assumption]|].
  destruct (c =? ch_tab); [apply post_one; auto; [repeat split; discriminate|split; assumption]|].
  unfold post; cbn. repeat split; auto.
Qed.

Lemma three_post ty k c (l : llex) :
  special_type ty -> plain_char c -> plain_char k ->
  two_then_blank k (list_look 3 (lx_src l)) = true ->
  post l c (three list_source ty c l).
Proof.
  intros Ht Hc Hk Hl. unfold three; cbn [src_next list_source].
  destruct (lx_src l) as [|a [|b s]] eqn:Hs; cbn in Hl; try discriminate.
  apply andb_prop in Hl as [Hl _]. apply andb_prop in Hl as [E1 E2].
  apply N.eqb_eq in E1, E2. subst a b. cbn.
  unfold post; cbn. split; [reflexivity|]. split; [exact Ht|]. split; [reflexivity|].
  exists [k; k]. split; [exact Hs|]. split; [reflexivity|]. eapply mv_three; eauto.
Qed.

Ltac eqs := repeat match goal with H : (?c =? ?k) = true |- _ => apply N.eqb_eq in H; subst c end.
Ltac leaf :=
  solve [ apply base_post; reflexivity
        | eqs; apply post_one; solve [reflexivity | repeat split; discriminate] ].
Ltac split_if :=
  rewrite ?lookahead_list; cbv beta iota;
  match goal with |- post _ _ (if ?b then _ else _) => destruct b eqn:? end.

Lemma special_post (l : llex) c : post l c (match_special list_source l (Some c)).
Proof.
  unfold match_special. destruct (lx_raw l); [leaf|].
  destruct (current_type (lx_ctx l)).
  - unfold block_matching.
    repeat split_if;
      try leaf; eqs;
      (match goal with H : _ && _ = true |- _ =>
         apply andb_prop in H as [H _]; eapply three_post; [| | |exact H] end);
      repeat split; discriminate.
  - unfold flow_matching. repeat split_if; leaf.
  - leaf.
  - unfold multiline_start_matching. repeat split_if; leaf.
  - unfold single_quote_matching. split_if; [|leaf].
    destruct (lx_escaped l); [leaf|]. split_if; leaf.
  - unfold double_quote_matching. split_if; [leaf|]. split_if.
    { apply andb_prop in Heqb0 as [E _]. eqs. unfold post; cbn. repeat split; discriminate. }
    split_if; [|leaf]. apply andb_prop in Heqb1 as [E _]. leaf.
  - unfold tag_matching. split_if; leaf.
Qed.

(** at the end of input every context gives an end-of-input token *)
Lemma special_eof {S} (src : source S) (l : lex S) :
  exists l', match_special src l None = (Some (mkTok TEOF (lx_pos l) (lx_pos l) [] 0), l') /\
    lx_src l' = lx_src l /\ lx_pos l' = lx_pos l /\ lx_prepared l' = lx_prepared l.
Proof.
  unfold match_special. destruct (lx_raw l); [exists l; auto|].
  destruct (current_type (lx_ctx l)); cbn; eauto.
Qed.

(** ** positions *)
Lemma locate_step : forall n r k s c rest,
  skipn n s = c :: rest ->
  let p := locate r k s n in
  locate r k s (n + 1) = if ends_line c rest then mkPos (row p + 1) 1 else mkPos (row p) (column p + 1).
Proof.
  induction n as [|n IH]; intros r k s c rest Hs p.
  - cbn in Hs. subst s. cbn. destruct (ends_line c rest); reflexivity.
  - destruct s as [|x s]; [discriminate|]. cbn in Hs. unfold p. cbn [locate Nat.add].
    destruct (ends_line x s); apply IH; exact Hs.
Qed.

Lemma plain_no_end c rest : plain_char c -> ends_line c rest = false.
Proof. intros [H1 H2]. unfold ends_line. apply N.eqb_neq in H1, H2. rewrite H1, H2. reflexivity. Qed.

Lemma place_split doc pre c rest : doc = pre ++ c :: rest ->
  let p := place doc (length pre) in
  place doc (length (pre ++ [c])) =
  if ends_line c rest then mkPos (row p + 1) 1 else mkPos (row p) (column p + 1).
Proof.
  intros -> p. unfold p, place. rewrite app_length. cbn [length].
  apply locate_step. rewrite skipn_app, skipn_all, Nat.sub_diag. reflexivity.
Qed.

Definition next_col (p : position) : position := mkPos (row p) (column p + 1).

(** position bookkeeping over one token *)
Lemma moved_place doc pre c consumed rest' e p' :
  doc = pre ++ c :: consumed ++ rest' ->
  moved (place doc (length pre)) c consumed rest' e p' ->
  e = place doc (length pre + length consumed) /\
  next_col p' = place doc (length (pre ++ c :: consumed)).
Proof.
  intros Hd Hm. destruct Hm as [Hc Hp|a b Hc Hp Ha Hb|Hc He|Hc Hk]; subst consumed; cbn [app length] in *.
  - rewrite Nat.add_0_r. split; [reflexivity|].
    rewrite (place_split doc pre c rest' Hd). rewrite plain_no_end by assumption. reflexivity.
  - pose proof (place_split doc pre c (a :: b :: rest') Hd) as H1.
    pose proof (place_split doc (pre ++ [c]) a (b :: rest')) as H2.
    pose proof (place_split doc (pre ++ [c; a]) b rest') as H3.
    rewrite plain_no_end in * by assumption.
    specialize (H2 ltac:(rewrite <- app_assoc; exact Hd)).
    specialize (H3 ltac:(rewrite <- app_assoc; exact Hd)).
    rewrite <- app_assoc in H2, H3. cbn [app] in H2, H3.
    rewrite H3, H2, H1. cbn [row column next_col].
    replace (length pre + 2)%nat with (length (pre ++ [c; a])) by (rewrite app_length; reflexivity).
    rewrite H2, H1. unfold next_col; cbn [row column]. split; f_equal; lia.
  - rewrite Nat.add_0_r. split; [reflexivity|].
    rewrite (place_split doc pre c rest' Hd), He. reflexivity.
  - subst c. pose proof (place_split doc pre 13 (10 :: rest') Hd) as H1.
    pose proof (place_split doc (pre ++ [13]) 10 rest' ltac:(rewrite <- app_assoc; exact Hd)) as H2.
    rewrite <- app_assoc in H2. cbn [app] in H2. unfold text, rune in *. rewrite H2, H1. cbn.
    replace (length pre + 1)%nat with (length (pre ++ [13])) by (rewrite app_length; reflexivity).
    rewrite H1. split; reflexivity.
Qed.

(** ** one token *)
Definition covers (doc pre : text) (tok : token) : Prop :=
  tok_origin tok <> [] /\ is_eof tok = false /\
  tok_start tok = place doc (length pre) /\
  tok_end tok = place doc (length pre + length (tok_origin tok) - 1).

(** the token standing at the end of the document *)
Definition final (doc : text) (tok : token) : Prop :=
  is_eof tok = true /\ tok_origin tok = [] /\ tok_start tok = place doc (length doc).

(** [pre] has been handed out, and so has the source been consumed, except for a prepared token *)
Inductive at_place (doc pre : text) (l : llex) : Prop :=
| ap_ready : lx_prepared l = None -> doc = pre ++ lx_src l ->
    next_col (lx_pos l) = place doc (length pre) -> at_place doc pre l
| ap_prepared tok : lx_prepared l = Some tok -> covers doc pre tok ->
    doc = pre ++ tok_origin tok ++ lx_src l ->
    next_col (lx_pos l) = place doc (length (pre ++ tok_origin tok)) -> at_place doc pre l
| ap_end tok : lx_prepared l = Some tok -> final doc tok -> pre = doc -> lx_src l = [] ->
    lx_pos l = tok_start tok -> at_place doc pre l.

(** nothing is left *)
Definition finished (l : llex) : Prop := lx_prepared l = None /\ lx_src l = [].

Definition advanced (doc pre : text) (tok : token) (l' : llex) : Prop :=
  (covers doc pre tok /\ at_place doc (pre ++ tok_origin tok) l') \/
  (final doc tok /\ pre = doc /\ finished l' /\ lx_pos l' = tok_start tok).

Lemma covers_special doc pre c consumed rest' p tok :
  doc = pre ++ c :: consumed ++ rest' -> special_type (tok_type tok) ->
  tok_start tok = place doc (length pre) -> tok_origin tok = c :: consumed ->
  moved (place doc (length pre)) c consumed rest' (tok_end tok) p ->
  covers doc pre tok /\ next_col p = place doc (length (pre ++ tok_origin tok)).
Proof.
  intros Hd (Ht & _) Hst Ho Hm. destruct (moved_place _ _ _ _ _ _ _ Hd Hm) as [He Hp].
  split; [|rewrite Ho; exact Hp]. unfold covers. rewrite Ho. repeat split; auto; try discriminate.
  - unfold is_eof. destruct (tok_type tok); congruence.
  - rewrite He. f_equal. cbn [length]. lia.
Qed.

(** the rest of a document after a matched special token *)
Lemma special_advance doc pre (l : llex) c rest tok l' :
  doc = pre ++ c :: rest -> lx_pos l = place doc (length pre) -> lx_src l = rest ->
  post l c (Some tok, l') ->
  covers doc pre tok /\ doc = pre ++ tok_origin tok ++ lx_src l' /\
  next_col (lx_pos l') = place doc (length (pre ++ tok_origin tok)).
Proof.
  intros Hd Hp Hs (_ & Ht & Hst & consumed & Hc & Ho & Hm). cbn [snd] in *.
  rewrite Hs in Hc. rewrite Hc in Hd. rewrite Hp in Hm.
  destruct (covers_special doc pre c consumed (lx_src l') (lx_pos l') tok) as [C P]; auto; try congruence.
  split; [exact C|]. split; [|exact P]. rewrite Ho. exact Hd.
Qed.

(** while a string token is being collected: [start] is the document before it and [rev o] its
    text so far *)
Lemma emit_pending doc start : forall fuel (l : llex) o,
  doc = start ++ rev o ++ lx_src l -> o <> [] -> lx_prepared l = None ->
  lx_pos l = place doc (length start + length o - 1) ->
  next_col (lx_pos l) = place doc (length (start ++ rev o)) ->
  (length (lx_src l) < fuel)%nat ->
  exists tok l', emit list_source fuel (Some (place doc (length start), o)) l = Some (tok, l') /\
    advanced doc start tok l'.
Proof.
  induction fuel as [|fuel IH]; intros l o Hd Ho Hpr Hlast Hpos Hf; [lia|].
  cbn [emit src_next list_source].
  fold (next_col (lx_pos l)).
  assert (Hcov : covers doc start (mkTok TString (place doc (length start))
    (mkPos (row (next_col (lx_pos l))) (column (next_col (lx_pos l)) - 1)) (rev o) 0)).
  { unfold covers; cbn. repeat split.
    - intro H. apply Ho. apply (f_equal (@rev rune)) in H. rewrite rev_involutive in H. exact H.
    - rewrite rev_length, <- Hlast, N.add_sub. destruct (lx_pos l); reflexivity. }
  destruct (lx_src l) as [|c rest] eqn:Hs.
  - cbn [list_next]. rewrite Hpos in *. set (l1 := with_pos _ _).
    destruct (special_eof list_source l1) as (l2 & E & Hsrc & Hp2 & Hpr2). rewrite E.
    eexists _, _. split; [reflexivity|]. left. rewrite app_nil_r in Hd.
    split; [exact Hcov|]. cbn [tok_origin].
    eapply ap_end; [reflexivity| |symmetry; exact Hd|exact Hsrc|exact Hp2].
    repeat split. cbn. congruence.
  - cbn [list_next]. rewrite Hpos in *. set (l1 := with_pos _ _).
    pose proof (special_post l1 c) as P.
    destruct (match_special list_source l1 (Some c)) as [[tok|] l2].
    + destruct (special_advance doc (start ++ rev o) l1 c rest tok l2) as (C & D & X); auto.
      { rewrite <- app_assoc. exact Hd. }
      eexists _, _. split; [reflexivity|]. left. split; [exact Hcov|]. cbn [tok_origin].
      eapply ap_prepared; [reflexivity|exact C|exact D|exact X].
    + destruct P as (Q & Hsrc & Hp2 & Hplain). cbn [snd] in Q.
      assert (Hq : lx_prepared l2 = None) by (rewrite Q; exact Hpr).
      cbn [rune_list rev_append].
      apply IH; try congruence.
      * cbn [rev]. rewrite Hsrc. cbn [l1 lx_src with_pos with_src]. rewrite <- app_assoc. exact Hd.
      * rewrite Hp2. cbn [l1 lx_pos with_pos with_src length]. f_equal.
        rewrite app_length, rev_length. lia.
      * rewrite Hp2. cbn [l1 lx_pos with_pos with_src rev].
        pose proof (place_split doc (start ++ rev o) c rest) as H1.
        rewrite <- app_assoc in H1. specialize (H1 Hd).
        rewrite plain_no_end in H1 by assumption. rewrite <- app_assoc in H1.
        symmetry. exact H1.
      * rewrite Hsrc. cbn [l1 lx_src with_pos with_src]. cbn in Hf. lia.
Qed.

Lemma emit_start doc pre fuel (l : llex) :
  doc = pre ++ lx_src l -> lx_prepared l = None -> next_col (lx_pos l) = place doc (length pre) ->
  (length (lx_src l) < fuel)%nat ->
  exists tok l', emit list_source fuel None l = Some (tok, l') /\ advanced doc pre tok l'.
Proof.
  intros Hd Hpr Hpos Hf. destruct fuel as [|fuel]; [lia|].
  cbn [emit src_next list_source]. fold (next_col (lx_pos l)). rewrite Hpos.
  destruct (lx_src l) as [|c rest] eqn:Hs; cbn [list_next]; set (l1 := with_pos _ _).
  - destruct (special_eof list_source l1) as (l2 & E & Hsrc & Hp2 & Hpr2). rewrite E.
    eexists _, _. split; [reflexivity|]. right. rewrite app_nil_r in Hd. subst pre.
    split; [repeat split|]. split; [reflexivity|]. split; [split; [cbn; rewrite Hpr2; exact Hpr|exact Hsrc]|exact Hp2].
  - pose proof (special_post l1 c) as P.
    destruct (match_special list_source l1 (Some c)) as [[tok|] l2].
    + destruct (special_advance doc pre l1 c rest tok l2) as (C & D & X); auto.
      eexists _, _. split; [reflexivity|]. left. split; [exact C|].
      apply ap_ready; [destruct P as [P _]; cbn [snd] in P; cbn; rewrite P; exact Hpr| |exact X].
      cbn. rewrite <- app_assoc. exact D.
    + destruct P as (Q & Hsrc & Hp2 & Hplain). cbn [snd] in Q.
      assert (Hq : lx_prepared l2 = None) by (rewrite Q; exact Hpr).
      apply emit_pending; try congruence; cbn [rune_list rev app length with_behind lx_src lx_pos lx_prepared];
        try congruence.
      * rewrite Hsrc. exact Hd.
      * rewrite Hp2. cbn. f_equal. lia.
      * rewrite Hp2. cbn [l1 lx_pos with_pos with_src].
        pose proof (place_split doc pre c rest Hd) as H1.
        rewrite plain_no_end in H1 by assumption. symmetry. exact H1.
      * rewrite Hsrc. cbn [l1 lx_src with_pos with_src]. cbn in Hf. lia.
Qed.

Lemma at_place_raw doc pre b l : at_place doc pre l -> at_place doc pre (lex_set_raw b l).
Proof. intros [H1 H2 H3|tok H1 H2 H3 H4|tok H1 H2 H3 H4 H5]; [apply ap_ready|eapply ap_prepared|eapply ap_end]; eauto. Qed.

Lemma next_advance doc pre fuel (l : llex) :
  at_place doc pre l -> (length doc < fuel)%nat ->
  exists tok l', lex_next list_source fuel l = Some (tok, l') /\ advanced doc pre tok l'.
Proof.
  intros [H1 H2 H3|tok H1 H2 H3 H4|tok H1 H2 H3 H4 H5] Hf; unfold lex_next; rewrite H1.
  - apply emit_start; auto. apply (f_equal (@length rune)) in H2. rewrite app_length in H2. lia.
  - eexists _, _. split; [reflexivity|]. left. split; [exact H2|]. apply ap_ready; auto.
    rewrite <- app_assoc. exact H3.
  - eexists _, _. split; [reflexivity|]. right. split; [exact H2|]. split; [exact H3|]. repeat split; auto.
Qed.

Lemma next_finished fuel (l : llex) : finished l -> (0 < fuel)%nat ->
  exists tok l', lex_next list_source fuel l = Some (tok, l') /\ is_eof tok = true /\
    tok_origin tok = [] /\ finished l' /\ tok_start tok = next_col (lx_pos l) /\ lx_pos l' = tok_start tok.
Proof.
  intros [H1 H2] Hf. unfold lex_next. rewrite H1. destruct fuel as [|fuel]; [lia|].
  cbn [emit src_next list_source]. rewrite H2. cbn [list_next]. set (l1 := with_pos _ _).
  destruct (special_eof list_source l1) as (l2 & E & Hsrc & Hp2 & Hpr2). rewrite E.
  eexists _, _. split; [reflexivity|]. repeat split; [cbn; rewrite Hpr2; exact H1|exact Hsrc|exact Hp2].
Qed.

(** ** runs *)
Inductive good_run (doc : text) : text -> list token -> Prop :=
| gr_nil pre : good_run doc pre []
| gr_tok pre tok ts : covers doc pre tok -> (exists rest, doc = pre ++ tok_origin tok ++ rest) ->
    good_run doc (pre ++ tok_origin tok) ts -> good_run doc pre (tok :: ts)
| gr_end tok ts : final doc tok -> Forall (fun t => is_eof t = true /\ tok_origin t = []) ts ->
    good_run doc doc (tok :: ts).

Lemma run_finished fuel : forall sched (l : llex), finished l -> (0 < fuel)%nat ->
  exists ts, lex_run list_source fuel sched l = Some ts /\ length ts = length sched /\
    Forall (fun t => is_eof t = true /\ tok_origin t = []) ts.
Proof.
  induction sched as [|b sched IH]; intros l Hl Hf.
  - exists []. repeat split. constructor.
  - cbn [lex_run]. destruct (next_finished fuel (lex_set_raw b l) Hl Hf) as (tok & l' & E & H1 & H2 & H3 & _).
    rewrite E. destruct (IH l' H3 Hf) as (ts & E2 & H4 & H5). rewrite E2.
    exists (tok :: ts). cbn. split; [reflexivity|]. split; [congruence|]. constructor; auto.
Qed.

Lemma run_good doc fuel : (length doc < fuel)%nat ->
  forall sched (l : llex) pre, at_place doc pre l ->
  exists ts, lex_run list_source fuel sched l = Some ts /\ length ts = length sched /\
    good_run doc pre ts.
Proof.
  intro Hf. induction sched as [|b sched IH]; intros l pre Hl.
  - exists []. repeat split. constructor.
  - cbn [lex_run].
    destruct (next_advance doc pre fuel (lex_set_raw b l) (at_place_raw _ _ _ _ Hl) Hf)
      as (tok & l' & E & [[H1 H2]|(H1 & H2 & H3 & _)]); rewrite E.
    + destruct (IH l' _ H2) as (ts & E2 & H4 & H5). rewrite E2. exists (tok :: ts). cbn.
      split; [reflexivity|]. split; [congruence|]. apply gr_tok; auto.
      destruct H2 as [_ D _|tk _ _ D _|tk _ _ D _ _].
      * exists (lx_src l'). rewrite app_assoc. exact D.
      * exists (tok_origin tk ++ lx_src l'). rewrite app_assoc. exact D.
      * exists []. rewrite app_nil_r. symmetry. exact D.
    + destruct (run_finished fuel sched l' H3 ltac:(lia)) as (ts & E2 & H4 & H5). rewrite E2.
      exists (tok :: ts). cbn. split; [reflexivity|]. split; [congruence|]. subst pre. apply gr_end; auto.
Qed.

(** ** two related sources give the same tokens *)
Section Simulation.
  Context {S1 S2 : Type} (src1 : source S1) (src2 : source S2) (R : S1 -> S2 -> Prop).
  Hypothesis next_ok : forall s1 s2, R s1 s2 ->
    fst (src_next src1 s1) = fst (src_next src2 s2) /\ R (snd (src_next src1 s1)) (snd (src_next src2 s2)).
  Hypothesis look_ok : forall n s1 s2, R s1 s2 ->
    fst (src_look src1 n s1) = fst (src_look src2 n s2) /\
    R (snd (src_look src1 n s1)) (snd (src_look src2 n s2)).

  Definition lex_rel (l1 : lex S1) (l2 : lex S2) : Prop :=
    R (lx_src l1) (lx_src l2) /\ lx_ctx l1 = lx_ctx l2 /\ lx_escaped l1 = lx_escaped l2 /\
    lx_raw l1 = lx_raw l2 /\ lx_pos l1 = lx_pos l2 /\ lx_behind l1 = lx_behind l2 /\
    lx_prepared l1 = lx_prepared l2.

  Definition res_rel {A} (r1 : A * lex S1) (r2 : A * lex S2) : Prop :=
    fst r1 = fst r2 /\ lex_rel (snd r1) (snd r2).

  Lemma rel_ctx c l1 l2 : lex_rel l1 l2 -> lex_rel (with_ctx c l1) (with_ctx c l2).
  Proof. intros (H1 & H2 & H3 & H4 & H5 & H6 & H7). repeat split; cbn; auto. Qed.
  Lemma rel_escaped c l1 l2 : lex_rel l1 l2 -> lex_rel (with_escaped c l1) (with_escaped c l2).
  Proof. intros (H1 & H2 & H3 & H4 & H5 & H6 & H7). repeat split; cbn; auto. Qed.
  Lemma rel_pos c l1 l2 : lex_rel l1 l2 -> lex_rel (with_pos c l1) (with_pos c l2).
  Proof. intros (H1 & H2 & H3 & H4 & H5 & H6 & H7). repeat split; cbn; auto. Qed.
  Lemma rel_src s1 s2 l1 l2 : R s1 s2 -> lex_rel l1 l2 -> lex_rel (with_src s1 l1) (with_src s2 l2).
  Proof. intros H0 (H1 & H2 & H3 & H4 & H5 & H6 & H7). repeat split; cbn; auto. Qed.
  Lemma rel_behind c l1 l2 : lex_rel l1 l2 -> lex_rel (with_behind c l1) (with_behind c l2).
  Proof. intros (H1 & H2 & H3 & H4 & H5 & H6 & H7). repeat split; cbn; auto. Qed.
  Lemma rel_prepared c l1 l2 : lex_rel l1 l2 -> lex_rel (with_prepared c l1) (with_prepared c l2).
  Proof. intros (H1 & H2 & H3 & H4 & H5 & H6 & H7). repeat split; cbn; auto. Qed.
  Lemma rel_raw c l1 l2 : lex_rel l1 l2 -> lex_rel (lex_set_raw c l1) (lex_set_raw c l2).
  Proof. intros (H1 & H2 & H3 & H4 & H5 & H6 & H7). repeat split; cbn; auto. Qed.
  Ltac rel := cbn [fst snd]; repeat first [assumption | simple apply rel_ctx | simple apply rel_escaped
    | simple apply rel_pos | simple apply rel_src | simple apply rel_behind
    | simple apply rel_prepared | simple apply rel_raw].

  Lemma look_sim n pred l1 l2 : lex_rel l1 l2 ->
    res_rel (lookahead src1 n pred l1) (lookahead src2 n pred l2).
  Proof.
    intros H. unfold lookahead, res_rel. destruct (look_ok n _ _ (proj1 H)) as [E1 E2].
    destruct (src_look src1 n (lx_src l1)) as [rs1 s1], (src_look src2 n (lx_src l2)) as [rs2 s2].
    cbn in *. subst rs2. split; [reflexivity|]. rel.
  Qed.

  Lemma behind_sim p l1 l2 : lex_rel l1 l2 -> lookbehind p l1 = lookbehind p l2.
  Proof. intros (_ & _ & _ & _ & _ & H & _). unfold lookbehind. rewrite H. reflexivity. Qed.

  Lemma one_sim ty c l1 l2 : lex_rel l1 l2 -> res_rel (one ty c l1) (one ty c l2).
  Proof.
    intros H. unfold one, res_rel; cbn. split; [|exact H].
    destruct H as (_ & _ & _ & _ & -> & _). reflexivity.
  Qed.

  Lemma switch_sim c l1 l2 : lex_rel l1 l2 -> lex_rel (switch_context c l1) (switch_context c l2).
  Proof.
    intro H. unfold switch_context. pose proof H as (_ & -> & _). rel.
  Qed.
  Lemma revert_sim l1 l2 : lex_rel l1 l2 -> lex_rel (revert_context l1) (revert_context l2).
  Proof.
    intro H. unfold revert_context. pose proof H as (_ & -> & _). rel.
  Qed.

  Lemma three_sim ty c l1 l2 : lex_rel l1 l2 -> res_rel (three src1 ty c l1) (three src2 ty c l2).
  Proof.
    intro H. unfold three. pose proof H as (Hs & _ & _ & _ & Hp & _).
    destruct (next_ok _ _ Hs) as [E1 R1].
    destruct (src_next src1 (lx_src l1)) as [r1 s1], (src_next src2 (lx_src l2)) as [r1' s1'].
    cbn in E1, R1. subst r1'. destruct (next_ok _ _ R1) as [E2 R2].
    destruct (src_next src1 s1) as [r2 s2], (src_next src2 s1') as [r2' s2'].
    cbn in E2, R2. subst r2'. rewrite Hp. split; [reflexivity|]. cbn [snd].
    rel.
  Qed.

  Lemma base_sim l1 l2 r : lex_rel l1 l2 -> res_rel (base_matching src1 l1 r) (base_matching src2 l2 r).
  Proof.
    intro H. pose proof H as (Hs & Hc & _ & _ & Hp & _). unfold base_matching.
    destruct r as [c|]; [|split; [cbn; rewrite Hp; reflexivity|exact H]].
    destruct (c =? ch_bom); [apply one_sim, H|].
    destruct (c =? ch_cr).
    { rewrite Hc, Hp.
      pose proof (look_sim 1 (fun rs => match rs with Some x :: _ => x =? ch_lf | _ => false end) _ _
        (rel_ctx (line_break_revert (lx_ctx l2)) _ _ H)) as L.
      destruct (lookahead src1 1 _ _) as [b1 m1], (lookahead src2 1 _ _) as [b2 m2].
      destruct L as [L1 L2]; cbn in L1, L2. subst b2. destruct b1.
      - destruct (next_ok _ _ (proj1 L2)) as [E1 R1].
        destruct (src_next src1 (lx_src m1)) as [r1 s1], (src_next src2 (lx_src m2)) as [r1' s1'].
        cbn in E1, R1. subst r1'. pose proof L2 as (_ & _ & _ & _ & Lp & _). cbn [lx_pos with_pos with_src]. rewrite Lp.
        split; [reflexivity|]. cbn [snd]. rel.
      - pose proof L2 as (_ & _ & _ & _ & Lp & _). rewrite Lp. split; [reflexivity|]. cbn [snd].
        rel. }
    destruct (c =? ch_lf).
    { rewrite Hc. cbn [lx_pos with_ctx]. rewrite Hp. split; [reflexivity|]. cbn [snd].
      rel. }
    rewrite Hc.
    destruct (c =? ch_space); [apply one_sim; rel|].
    destruct (c =? ch_tab); [apply one_sim; rel|].
    split; [reflexivity|exact H].
  Qed.

  Ltac sim_leaf :=
    solve [ apply base_sim; rel
          | apply one_sim; auto using switch_sim, revert_sim
          | apply three_sim; auto ].
  Ltac sim_look H :=
    match goal with
    | |- res_rel (match lookahead src1 ?n ?p ?l1 with (_, _) => _ end) (match lookahead src2 ?n ?p ?l2 with (_, _) => _ end) =>
        let L := fresh "L" in
        pose proof (look_sim n p l1 l2 H) as L;
        destruct (lookahead src1 n p l1) as [?b1 ?m1], (lookahead src2 n p l2) as [?b2 ?m2];
        destruct L as [L ?]; cbn [fst snd] in *; subst
    end.
  Ltac sim_step :=
    repeat (match goal with
    | H : lex_rel ?l1 ?l2 |- res_rel (if ?x then _ else _) (if ?y then _ else _) =>
        rewrite ?(behind_sim _ _ _ H);
        match goal with |- res_rel (if ?b then _ else _) (if ?b then _ else _) => destruct b end
    | H : lex_rel ?l1 ?l2 |- res_rel (match lookahead src1 _ _ ?l1 with (_, _) => _ end) _ => sim_look H
    end).

  Lemma special_sim l1 l2 r : lex_rel l1 l2 ->
    res_rel (match_special src1 l1 r) (match_special src2 l2 r).
  Proof.
    intro H. pose proof H as (Hs & Hc & He & Hr & Hp & _). unfold match_special.
    rewrite Hr, Hc. destruct (lx_raw l2); [sim_leaf|].
    destruct r as [c|].
    2: { destruct (current_type (lx_ctx l2)); cbn; (split; [cbn; rewrite Hp; reflexivity|cbn [snd]; rel]). }
    destruct (current_type (lx_ctx l2)).
    - unfold block_matching. sim_step; sim_leaf.
    - unfold flow_matching. sim_step; sim_leaf.
    - sim_leaf.
    - unfold multiline_start_matching. sim_step; sim_leaf.
    - unfold single_quote_matching. destruct (c =? ch_squote); [|sim_leaf]. rewrite He.
      destruct (lx_escaped l2) eqn:E2.
      + rewrite He, E2. sim_leaf.
      + sim_look H. pose proof H0 as (_ & _ & He' & _). rewrite He'.
        destruct b2; sim_leaf.
    - unfold double_quote_matching. rewrite He.
      destruct (c =? ch_escape); [sim_leaf|].
      destruct ((c =? ch_space) && lx_escaped l2).
      { split; [reflexivity|]. cbn [snd]. rel. }
      destruct ((c =? ch_dquote) && negb (lx_escaped l2)); sim_leaf.
    - unfold tag_matching. sim_step; sim_leaf.
  Qed.

  Definition out_rel {A} (o1 : option (A * lex S1)) (o2 : option (A * lex S2)) : Prop :=
    match o1, o2 with
    | Some r1, Some r2 => res_rel r1 r2
    | None, None => True
    | _, _ => False
    end.

  Lemma emit_sim fuel : forall pending l1 l2, lex_rel l1 l2 ->
    out_rel (emit src1 fuel pending l1) (emit src2 fuel pending l2).
  Proof.
    induction fuel as [|fuel IH]; intros pending l1 l2 H; [exact I|].
    cbn [emit]. pose proof H as (Hs & _ & _ & _ & Hp & _). destruct (next_ok _ _ Hs) as [E1 R1].
    destruct (src_next src1 (lx_src l1)) as [r s1], (src_next src2 (lx_src l2)) as [r' s2].
    cbn in E1, R1. subst r'. rewrite Hp. set (cur := mkPos _ _).
    pose proof (special_sim (with_pos cur (with_src s1 l1)) (with_pos cur (with_src s2 l2)) r
      ltac:(rel)) as [L1 L2].
    destruct (match_special src1 _ r) as [[t1|] m1], (match_special src2 _ r) as [[t2|] m2];
      cbn [fst snd] in *; try discriminate.
    - injection L1 as <-. destruct pending as [[start o]|]; (split; [reflexivity|]);
        rel.
    - destruct pending as [[start o]|]; apply IH; [exact L2|rel].
  Qed.

  Lemma lex_next_sim fuel l1 l2 : lex_rel l1 l2 ->
    out_rel (lex_next src1 fuel l1) (lex_next src2 fuel l2).
  Proof.
    intro H. unfold lex_next. pose proof H as (_ & _ & _ & _ & _ & _ & ->).
    destruct (lx_prepared l2); [|apply emit_sim, H].
    split; [reflexivity|]. rel.
  Qed.

  Lemma run_sim fuel : forall sched l1 l2, lex_rel l1 l2 ->
    lex_run src1 fuel sched l1 = lex_run src2 fuel sched l2.
  Proof.
    induction sched as [|b sched IH]; intros l1 l2 H; [reflexivity|]. cbn [lex_run].
    assert (H' : lex_rel (lex_set_raw b l1) (lex_set_raw b l2)) by rel.
    pose proof (lex_next_sim fuel _ _ H') as L.
    destruct (lex_next src1 fuel _) as [[t1 m1]|], (lex_next src2 fuel _) as [[t2 m2]|];
      try contradiction; [|reflexivity].
    destruct L as [L1 L2]; cbn in L1, L2. subst t2. rewrite (IH m1 m2 L2). reflexivity.
  Qed.
End Simulation.

(** ** the accessor as a source *)
Local Open Scope nat_scope.

Lemma list_next_skipn m (rest : text) : list_next (skipn m rest) = (nth_error rest m, skipn (m + 1) rest).
Proof.
  revert m; induction rest as [|r rest IH]; intros [|m]; try reflexivity.
  cbn [skipn Nat.add nth_error]. apply IH.
Qed.

Lemma list_look_map n rest m : list_look n (skipn m rest) = map (nth_error rest) (seq m n).
Proof.
  revert m; induction n as [|n IH]; intro m; [reflexivity|].
  cbn [list_look seq map]. rewrite list_next_skipn. f_equal. rewrite Nat.add_1_r. apply IH.
Qed.

(** [k] runes of [rest] are in the buffer from index [j] on *)
Definition buffered (buf : list (option rune)) (s : text) (j : nat) (rest : text) : Prop :=
  j <= length buf /\ skipn j buf = map (nth_error rest) (seq 0 (length buf - j)) /\
  s = skipn (length buf - j) rest.

Inductive acc_rel : rune_accessor -> text -> Prop :=
| ar_stream s saved : acc_rel (mkAcc s [] saved None []) s
| ar_replay s buf saved i rest : i < length buf -> buffered buf s i rest ->
    acc_rel (mkAcc s buf saved (Some i) []) rest.

Lemma buffered_nth buf s j rest m : buffered buf s j rest -> j + m < length buf ->
  nth_error buf (j + m) = Some (nth_error rest m).
Proof.
  intros (H1 & H2 & _) Hm. rewrite <- (firstn_skipn j buf) at 1.
  rewrite nth_error_app2 by (rewrite firstn_length; lia).
  rewrite firstn_length, Nat.min_l by lia. rewrite H2.
  replace (j + m - j) with m by lia.
  rewrite nth_error_map. rewrite (nth_error_nth' _ 0) by (rewrite seq_length; lia).
  rewrite seq_nth by lia. reflexivity.
Qed.

Lemma buffered_step buf s j rest : buffered buf s j rest -> j < length buf ->
  buffered buf s (j + 1) (skipn 1 rest).
Proof.
  intros (H1 & H2 & H3) Hj. unfold buffered. split; [lia|]. split.
  - replace (length buf - j) with (S (length buf - (j + 1))) in H2 by lia. cbn [seq map] in H2.
    assert (E : skipn (j + 1) buf = tl (skipn j buf)).
    { clear. revert buf; induction j as [|j IH]; intros [|x buf]; try reflexivity. cbn. apply IH. }
    rewrite E, H2. cbn [tl]. rewrite <- seq_shift, map_map. apply map_ext. intro a.
    destruct rest; [destruct a; reflexivity|reflexivity].
  - rewrite H3. replace (length buf - j) with (S (length buf - (j + 1))) by lia.
    destruct rest; cbn; [rewrite skipn_nil|]; reflexivity.
Qed.

Lemma acc_read_ok a rest : acc_rel a rest ->
  fst (acc_read a) = fst (list_next rest) /\ acc_rel (snd (acc_read a)) (snd (list_next rest)).
Proof.
  intros [s saved|s buf saved i rest' Hi Hb]; unfold acc_read, acc_next; cbn [acc_ind acc_stream acc_cps acc_buf acc_saved].
  - destruct s as [|r s]; cbn; split; try reflexivity; constructor.
  - pose proof (buffered_nth _ _ _ _ 0 Hb ltac:(lia)) as Hn. rewrite Nat.add_0_r in Hn. rewrite Hn.
    pose proof (list_next_skipn 0 rest') as Hl. cbn [skipn Nat.add] in Hl. rewrite Hl. cbn [fst snd].
    destruct (Nat.eqb (i + 1) (length buf)) eqn:E.
    + apply Nat.eqb_eq in E. split; [reflexivity|]. cbn [snd].
      destruct (buffered_step _ _ _ _ Hb Hi) as (_ & _ & H3). rewrite E, Nat.sub_diag in H3.
      cbn [skipn] in H3. subst s. constructor.
    + apply Nat.eqb_neq in E. split; [reflexivity|]. cbn [snd]. apply ar_replay; [lia|].
      apply buffered_step; auto.
Qed.

(** under one checkpoint taken at [j0] with [rest] ahead, [m] runes having been read since *)
Definition looking (a : rune_accessor) (rest : text) (j0 m : nat) : Prop :=
  acc_cps a = [pred_ind j0] /\ buffered (acc_buf a) (acc_stream a) j0 rest /\
  j0 + m <= length (acc_buf a) /\
  acc_ind a = (if Nat.eqb (j0 + m) (length (acc_buf a)) then None else Some (j0 + m)).

Lemma looking_read a rest j0 m : looking a rest j0 m ->
  fst (acc_read a) = nth_error rest m /\ looking (snd (acc_read a)) rest j0 (m + 1).
Proof.
  intros (H1 & H2 & H3 & H4). unfold acc_read, acc_next. rewrite H4.
  destruct (Nat.eqb (j0 + m) (length (acc_buf a))) eqn:E.
  - apply Nat.eqb_eq in E. destruct H2 as (B1 & B2 & B3).
    assert (Hm : length (acc_buf a) - j0 = m) by lia. rewrite Hm in *.
    rewrite B3, list_next_skipn, H1. cbn [fst snd]. split; [reflexivity|].
    unfold looking; cbn [acc_cps acc_buf acc_stream acc_ind]. rewrite app_length. cbn [length].
    split; [reflexivity|]. split; [|split; [lia|]].
    + unfold buffered. rewrite app_length. cbn [length]. split; [lia|].
      replace (length (acc_buf a) + 1 - j0) with (m + 1) by lia. split; [|reflexivity].
      rewrite skipn_app. replace (j0 - length (acc_buf a)) with 0 by lia. cbn [skipn].
      rewrite B2, seq_app, map_app. reflexivity.
    + replace (j0 + (m + 1)) with (length (acc_buf a) + 1) by lia. rewrite Nat.eqb_refl. reflexivity.
  - apply Nat.eqb_neq in E. rewrite (buffered_nth _ _ _ _ m H2) by lia. rewrite H1.
    replace (j0 + m + 1) with (j0 + (m + 1)) by lia.
    destruct (Nat.eqb (j0 + (m + 1)) (length (acc_buf a))) eqn:E2; cbn [fst snd];
      (split; [reflexivity|]); unfold looking; cbn [acc_cps acc_buf acc_stream acc_ind]; rewrite E2;
      repeat split; auto; try apply H2; lia.
Qed.

Lemma looking_reads n : forall a rest j0 m, looking a rest j0 m ->
  fst (acc_reads n a) = map (nth_error rest) (seq m n) /\
  looking (snd (acc_reads n a)) rest j0 (m + n).
Proof.
  induction n as [|n IH]; intros a rest j0 m H.
  - rewrite Nat.add_0_r. split; [reflexivity|exact H].
  - cbn [acc_reads]. destruct (looking_read _ _ _ _ H) as [E1 H1].
    destruct (acc_read a) as [v a1]. cbn [fst snd] in *.
    destruct (IH _ _ _ _ H1) as [E2 H2]. destruct (acc_reads n a1) as [vs a2]. cbn [fst snd] in *.
    split; [cbn; rewrite E1, E2, Nat.add_1_r; reflexivity|].
    replace (m + S n) with (m + 1 + n) by lia. exact H2.
Qed.

Lemma acc_look_ok n a rest : acc_rel a rest ->
  fst (acc_look n a) = list_look n rest /\ acc_rel (snd (acc_look n a)) rest.
Proof.
  intro Ha. unfold acc_look.
  assert (Hl : exists j0, looking (acc_set_checkpoint a) rest j0 0 /\
               (j0 < length (acc_buf a) \/ acc_buf a = [] /\ j0 = 0)).
  { destruct Ha as [s saved|s buf saved i rest' Hi Hb].
    - exists 0. split; [|right; auto]. repeat split; cbn; auto.
    - exists i. split; [|left; exact Hi]. unfold looking, acc_set_checkpoint; cbn.
      rewrite Nat.add_0_r. split; [reflexivity|]. split; [exact Hb|]. split; [lia|].
      destruct (Nat.eqb i (length buf)) eqn:E; [apply Nat.eqb_eq in E; lia|reflexivity]. }
  destruct Hl as (j0 & Hl & Hj).
  destruct (looking_reads n _ _ _ _ Hl) as [E H]. cbn [Nat.add] in *.
  pose proof (list_look_map n rest 0) as Hm. cbn [skipn] in Hm. rewrite Hm.
  destruct (acc_reads n (acc_set_checkpoint a)) as [vs a1] eqn:Er. cbn [fst snd] in E, H.
  assert (Hgrow : length (acc_buf a) <= length (acc_buf a1)).
  { assert (G : forall k x, length (acc_buf x) <= length (acc_buf (snd (acc_reads k x))) \/ acc_cps x = []).
    { clear. induction k as [|k IH]; intro x; [left; cbn; lia|]. cbn [acc_reads].
      unfold acc_read, acc_next.
      destruct (acc_cps x) as [|c cps] eqn:Ec; [right; reflexivity|left].
      destruct (acc_ind x) as [i|].
      - destruct (nth_error (acc_buf x) i); [|destruct (IH x) as [G|G]; [|congruence];
          destruct (acc_reads k x); cbn in *; exact G].
        destruct (Nat.eqb (i + 1) (length (acc_buf x)));
          match goal with |- context [acc_reads k ?y] => destruct (IH y) as [G|G]; [|cbn in G; discriminate];
            destruct (acc_reads k y); cbn in *; exact G end.
      - destruct (list_next (acc_stream x)) as [v s].
        match goal with |- context [acc_reads k ?y] => destruct (IH y) as [G|G]; [|cbn in G; discriminate];
            destruct (acc_reads k y); cbn in *; rewrite app_length in G; lia end. }
    specialize (G n (acc_set_checkpoint a)). rewrite Er in G. cbn in G.
    destruct G as [G|G]; [exact G|discriminate]. }
  destruct H as (H1 & H2 & H3 & H4). unfold acc_rollback. rewrite H1.
  destruct j0 as [|j]; cbn [pred_ind].
  - destruct (acc_buf a1) as [|x b1] eqn:Eb; cbn [fst snd]; (split; [exact E|]).
    + destruct H2 as (_ & _ & B3). cbn in B3. rewrite B3. constructor.
    + apply ar_replay; [cbn; lia|exact H2].
  - destruct H2 as (B1 & B2 & B3).
    destruct (nth_error (acc_buf a1) j) as [v|] eqn:Ev;
      [|apply nth_error_None in Ev; lia].
    destruct (Nat.eqb (j + 1) (length (acc_buf a1))) eqn:Ee.
    + apply Nat.eqb_eq in Ee. destruct Hj as [Hj|[_ Hj]]; lia.
    + apply Nat.eqb_neq in Ee. cbn [fst snd]. split; [exact E|].
      replace (j + 1) with (S j) in * by lia. apply ar_replay; [lia|]. repeat split; auto.
Qed.

Lemma tokenize_list doc sched :
  tokenize doc sched = lex_run list_source (S (length doc)) sched (lex_new doc).
Proof.
  unfold tokenize. apply (run_sim acc_source list_source acc_rel).
  - exact acc_read_ok.
  - intros n s1 s2 H. exact (acc_look_ok n s1 s2 H).
  - repeat split; cbn. constructor.
Qed.

Lemma tokenize_good doc sched :
  exists ts, tokenize doc sched = Some ts /\ length ts = length sched /\ good_run doc [] ts.
Proof.
  rewrite tokenize_list. apply run_good; [lia|].
  apply ap_ready; reflexivity.
Qed.

(** ** consequences *)
Lemma good_run_at doc pre ts : good_run doc pre ts -> (exists rest, doc = pre ++ rest) ->
  forall before tok after, ts = before ++ tok :: after ->
  if is_eof tok then
    tok_origin tok = [] /\ doc = pre ++ origins before /\ forallb is_eof after = true
  else covers doc (pre ++ origins before) tok /\
       exists rest, doc = pre ++ origins before ++ tok_origin tok ++ rest.
Proof.
  induction 1 as [pre|pre tok0 ts Hc Hd Hg IH|tok0 ts Hf Hall]; intros Hpre before tok after E.
  - destruct before; discriminate.
  - destruct before as [|b before].
    + injection E as -> ->. pose proof Hc as (_ & -> & _). cbn [origins flat_map app].
      rewrite app_nil_r. split; [exact Hc|]. exact Hd.
    + injection E as <- ->. destruct Hd as (rest & Hd).
      specialize (IH ltac:(exists rest; rewrite <- app_assoc; exact Hd) before tok after eq_refl).
      cbn [origins flat_map]. fold (origins before). rewrite <- app_assoc in IH.
      destruct (is_eof tok).
      * destruct IH as (I1 & I2 & I3). repeat split; auto.
      * destruct IH as (I1 & r & I2). split; [exact I1|]. exists r.
        rewrite I2 at 1. rewrite <- !app_assoc. reflexivity.
  - destruct Hf as (F1 & F2 & F3).
    assert (Ha : forall l, Forall (fun t => is_eof t = true /\ tok_origin t = []) l -> origins l = [] /\ forallb is_eof l = true).
    { induction 1 as [|x l [X1 X2] Hl [Y1 Y2]]; [split; reflexivity|]. cbn.
      rewrite X1, X2, Y2. split; [exact Y1|reflexivity]. }
    assert (Hts : Forall (fun t => is_eof t = true /\ tok_origin t = []) (tok0 :: ts)) by (constructor; auto).
    rewrite E in Hts. apply Forall_app in Hts as [H1 H2]. inversion H2 as [|? ? [H3 H4] H5]; subst.
    rewrite H3. destruct (Ha _ H1) as [-> _]. destruct (Ha _ H5) as [_ ->]. rewrite app_nil_r. auto.
Qed.

Lemma good_run_first_eof doc pre ts : good_run doc pre ts ->
  forall before tok after, ts = before ++ tok :: after -> is_eof tok = true ->
  forallb (fun t => negb (is_eof t)) before = true -> tok_start tok = place doc (length doc).
Proof.
  induction 1 as [pre|pre tok0 ts Hc Hd Hg IH|tok0 ts Hf Hall]; intros before tok after E He Hb.
  - destruct before; discriminate.
  - destruct before as [|b before]; injection E as <- E.
    + destruct Hc as (_ & Hc & _). congruence.
    + cbn in Hb. apply andb_prop in Hb as [_ Hb]. eapply IH; eauto.
  - destruct Hf as (F1 & F2 & F3). destruct before as [|b before]; injection E as <- E.
    + exact F3.
    + cbn in Hb. rewrite F1 in Hb. discriminate.
Qed.

Lemma lossless doc sched ts : tokenize doc sched = Some ts ->
  (exists rest, doc = origins ts ++ rest) /\
  (forall before tok after, ts = before ++ tok :: after -> is_eof tok = true -> origins before = doc).
Proof.
  intro H. destruct (tokenize_good doc sched) as (ts' & E & _ & G). rewrite H in E. injection E as <-.
  pose proof (good_run_at doc [] ts G (ex_intro _ doc eq_refl)) as A. cbn [app] in A. split.
  - destruct ts as [|x ts0] using rev_ind; [exists doc; reflexivity|].
    specialize (A ts0 x [] eq_refl). unfold origins. rewrite flat_map_app. cbn [flat_map].
    fold (origins ts0). rewrite app_nil_r. destruct (is_eof x).
    + destruct A as (A1 & A2 & _). exists []. rewrite A1, !app_nil_r. exact A2.
    + destruct A as (_ & rest & A). exists rest. rewrite <- app_assoc. exact A.
  - intros before tok after -> He. specialize (A before tok after eq_refl). rewrite He in A. symmetry. apply A.
Qed.

Lemma origins_length ts : Forall (fun t => tok_origin t <> []) ts -> length ts <= length (origins ts).
Proof.
  induction 1 as [|x l Hx Hl IH]; [cbn; lia|]. cbn. rewrite app_length.
  destruct (tok_origin x) eqn:E; [destruct (Hx eq_refl)|]. cbn. unfold origins in IH. lia.
Qed.

Lemma terminates doc sched :
  exists ts, tokenize doc sched = Some ts /\ length ts = length sched /\
    (forall before tok after, ts = before ++ tok :: after ->
       if is_eof tok then forallb is_eof after = true else tok_origin tok <> []) /\
    (length doc < length sched -> existsb is_eof ts = true).
Proof.
  destruct (tokenize_good doc sched) as (ts & E & L & G). exists ts.
  pose proof (good_run_at doc [] ts G (ex_intro _ doc eq_refl)) as A. cbn [app] in A.
  assert (B : forall before tok after, ts = before ++ tok :: after ->
       if is_eof tok then forallb is_eof after = true else tok_origin tok <> []).
  { intros before tok after Ht. specialize (A before tok after Ht). destruct (is_eof tok).
    - apply A.
    - apply A. }
  repeat split; auto. intro Hlen.
  destruct (existsb is_eof ts) eqn:Ex; [reflexivity|exfalso].
  assert (Hall : Forall (fun t => tok_origin t <> []) ts).
  { apply Forall_forall. intros x Hx. destruct (in_split _ _ Hx) as (l1 & l2 & Hs).
    specialize (B l1 x l2 Hs). destruct (is_eof x) eqn:Ee; [|exact B].
    assert (existsb is_eof ts = true) by (apply existsb_exists; eauto). congruence. }
  apply origins_length in Hall. destruct (lossless doc sched ts E) as [[rest D] _].
  apply (f_equal (@length rune)) in D. rewrite app_length in D. lia.
Qed.

Lemma positions doc sched ts before tok after :
  tokenize doc sched = Some ts -> ts = before ++ tok :: after ->
  if is_eof tok then
    forallb (fun t => negb (is_eof t)) before = true -> tok_start tok = place doc (length doc)
  else
    tok_start tok = place doc (length (origins before)) /\
    tok_end tok = place doc (length (origins before) + length (tok_origin tok) - 1).
Proof.
  intros H Ht. destruct (tokenize_good doc sched) as (ts' & E & _ & G). rewrite H in E. injection E as <-.
  destruct (is_eof tok) eqn:Ee.
  - intro Hb. eapply good_run_first_eof; eauto.
  - pose proof (good_run_at doc [] ts G (ex_intro _ doc eq_refl) before tok after Ht) as A.
    rewrite Ee in A. destruct A as ((_ & _ & A1 & A2) & _). split; [exact A1|exact A2].
Qed.

(** ** the text of each kind of token *)
Local Open Scope N_scope.
Definition word_char (c : rune) : Prop := c <> 9 /\ c <> 10 /\ c <> 13 /\ c <> 65279.
Definition kind_ok (tok : token) : Prop := kind_text (tok_type tok) (tok_origin tok).
Definition kinded (r : option rune) (res : option token * llex) : Prop :=
  lx_prepared (snd res) = None ->
  match fst res with Some tok => kind_ok tok | None => exists c, r = Some c /\ word_char c end.

Lemma base_kind (l : llex) r : kinded r (base_matching list_source l r).
Proof.
  unfold base_matching, kinded. intros _. destruct r as [c|]; [|reflexivity].
  destruct (c =? ch_bom) eqn:E1; [apply N.eqb_eq in E1; subst c; reflexivity|].
  destruct (c =? ch_cr) eqn:E2.
  { apply N.eqb_eq in E2; subst c. rewrite lookahead_list. cbn [lx_src with_ctx].
    destruct (lx_src l) as [|x s] eqn:Hs; cbn [list_look list_next].
    - cbn. auto.
    - destruct (x =? ch_lf) eqn:E3; cbn [lx_src with_ctx src_next list_source].
      + apply N.eqb_eq in E3; subst x. cbn. auto.
      + cbn. auto. }
  destruct (c =? ch_lf) eqn:E3; [apply N.eqb_eq in E3; subst c; cbn; auto|].
  destruct (c =? ch_space) eqn:E4; [apply N.eqb_eq in E4; subst c; reflexivity|].
  destruct (c =? ch_tab) eqn:E5; [apply N.eqb_eq in E5; subst c; reflexivity|].
  apply N.eqb_neq in E1, E2, E3, E4, E5. cbn. exists c. split; [reflexivity|]. repeat split; assumption.
Qed.

Lemma three_kind ty k (l : llex) :
  kind_text ty [k; k; k] -> two_then_blank k (list_look 3 (lx_src l)) = true ->
  kinded (Some k) (three list_source ty k l).
Proof.
  intros Ht Hl _. unfold three; cbn [src_next list_source].
  destruct (lx_src l) as [|a [|b s]] eqn:Hs; cbn in Hl; try discriminate.
  apply andb_prop in Hl as [Hl _]. apply andb_prop in Hl as [E1 E2].
  apply N.eqb_eq in E1, E2. subst a b. exact Ht.
Qed.

Ltac kleaf := solve [ apply base_kind | eqs; intros _; reflexivity ].
Ltac ksplit :=
  rewrite ?lookahead_list; cbv beta iota;
  match goal with |- kinded _ (if ?b then _ else _) => destruct b eqn:? end.

Lemma special_kind (l : llex) r : kinded r (match_special list_source l r).
Proof.
  unfold match_special. destruct (lx_raw l); [kleaf|].
  destruct r as [c|]; [|destruct (current_type (lx_ctx l)); apply base_kind].
  destruct (current_type (lx_ctx l)).
  - unfold block_matching.
    repeat ksplit; try kleaf; eqs;
      (match goal with H : _ && _ = true |- _ =>
         apply andb_prop in H as [H _]; eapply three_kind; [reflexivity|exact H] end).
  - unfold flow_matching. repeat ksplit; kleaf.
  - kleaf.
  - unfold multiline_start_matching. repeat ksplit; kleaf.
  - unfold single_quote_matching. ksplit; [|kleaf].
    destruct (lx_escaped l); [kleaf|]. ksplit; kleaf.
  - unfold double_quote_matching. ksplit; [kleaf|]. ksplit.
    { apply andb_prop in Heqb0 as [E _]. eqs. intros _. exists ch_space. repeat split; discriminate. }
    ksplit; [|kleaf]. apply andb_prop in Heqb1 as [E _]. kleaf.
  - unfold tag_matching. ksplit; kleaf.
Qed.

Lemma special_prepared (l : llex) r : lx_prepared (snd (match_special list_source l r)) = lx_prepared l.
Proof.
  destruct r as [c|]; [exact (proj1 (special_post l c))|].
  destruct (special_eof list_source l) as (l' & -> & _ & _ & H). exact H.
Qed.

Lemma emit_kind fuel : forall pending (l : llex),
  lx_prepared l = None ->
  match pending with Some (_, o) => o <> [] /\ Forall word_char o | None => True end ->
  match emit list_source fuel pending l with
  | None => True
  | Some (tok, l') => kind_ok tok /\ (forall p, lx_prepared l' = Some p -> kind_ok p)
  end.
Proof.
  induction fuel as [|fuel IH]; intros pending l Hl Hp; [exact I|].
  cbn [emit]. destruct (src_next list_source (lx_src l)) as [r s]. set (l1 := with_pos _ _).
  pose proof (special_kind l1 r) as K. pose proof (special_prepared l1 r) as P.
  unfold kinded in K. rewrite P in K. specialize (K Hl).
  destruct (match_special list_source l1 r) as [[tok|] l2]; cbn [fst snd] in *.
  - destruct pending as [[start o]|].
    + destruct Hp as [Hne Ho]. split.
      * cbn. split.
        -- intro H. apply Hne. apply (f_equal (@rev rune)) in H. rewrite rev_involutive in H. exact H.
        -- intros c Hc. rewrite <- in_rev in Hc. rewrite Forall_forall in Ho. exact (Ho c Hc).
      * cbn. intros p [= <-]. exact K.
    + split; [exact K|]. cbn. rewrite P. cbn. intros p H. rewrite Hl in H. discriminate.
  - destruct K as (c & -> & Hc). cbn [rune_list rev_append].
    destruct pending as [[start o]|]; apply IH.
    + rewrite P. exact Hl.
    + split; [discriminate|]. constructor; [exact Hc|apply Hp].
    + cbn. rewrite P. exact Hl.
    + split; [discriminate|]. constructor; [exact Hc|constructor].
Qed.

Lemma run_kind fuel : forall sched (l : llex) ts,
  (forall p, lx_prepared l = Some p -> kind_ok p) ->
  lex_run list_source fuel sched l = Some ts -> Forall kind_ok ts.
Proof.
  induction sched as [|b sched IH]; intros l ts Hl E; [injection E as <-; constructor|].
  cbn [lex_run] in E. unfold lex_next in E. cbn [lx_prepared lex_set_raw] in E.
  destruct (lx_prepared l) as [tok|] eqn:Hp.
  - destruct (lex_run list_source fuel sched _) as [ts'|] eqn:E2; [|discriminate].
    injection E as <-. constructor; [auto|]. eapply IH; [|exact E2]. cbn. discriminate.
  - pose proof (emit_kind fuel None (lex_set_raw b l) Hp I) as K.
    match type of E with match ?x with _ => _ end = _ => destruct x as [[tok l']|] eqn:Ex end; [|discriminate].
    unfold text, rune in *. rewrite Ex in K. destruct K as [K1 K2].
    match type of E with option_map _ ?x = _ => destruct x as [ts'|] eqn:E2 end; [|discriminate].
    injection E as <-. constructor; [exact K1|]. eapply IH; eauto.
Qed.

Lemma kinds doc sched ts : tokenize doc sched = Some ts ->
  Forall (fun tok => kind_text (tok_type tok) (tok_origin tok)) ts.
Proof.
  rewrite tokenize_list. intro H. eapply run_kind; [|exact H]. cbn. discriminate.
Qed.
