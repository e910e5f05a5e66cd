(** The parser over a list of tokens: a program that reads no more tokens than the list has and sets the
    raw mode where the list says so runs like over the tokenizer of any text with these tokens. *)
From Coq Require Import String.
From Verif Require Import Base Token Ast CPAccessor CPAccessorSpec CPAccessorProofs Lexer LexerSpec
  LexerProofs Parser ParserFlow ParserBlock ParserDocs ParserLogic ParserFuel ParserTotal.

(** the current token, the tokens to come, and both for every checkpoint *)
Record tape := mkTape { tp_cur : token; tp_rest : list token; tp_cps : list (token * list token) }.

(** A list of tokens says with a bar where the raw mode is set; the tokenizer never emits its type. *)
Definition bar (b : bool) : token := mkTok TUnknown (mkPos 0 0) (mkPos 0 0) (if b then [0%N] else []) 0.
Definition is_bar (t : token) : bool := match tok_type t with TUnknown => true | _ => false end.
Definition bar_mode (t : token) : bool := match tok_origin t with [] => false | _ => true end.
Definition strip (ts : list token) : list token := filter (fun t => negb (is_bar t)) ts.

Lemma strip_app a b : strip (a ++ b) = strip a ++ strip b.
Proof. apply filter_app. Qed.
Lemma bar_mode_bar b : bar_mode (bar b) = b.
Proof. destruct b; reflexivity. Qed.

Fixpoint peval {A} (p : prog A) (t : tape) : option (A * tape) :=
  match p with
  | Ret a => Some (a, t)
  | Stuck => None
  | Next k => match tp_rest t with
              | [] => None
              | x :: r => if is_bar x then None else peval (k x) (mkTape x r (tp_cps t))
              end
  | SetCp k => peval k (mkTape (tp_cur t) (tp_rest t) ((tp_cur t, tp_rest t) :: tp_cps t))
  | Commit k => match tp_cps t with
                | [] => None
                | _ :: cps => peval k (mkTape (tp_cur t) (tp_rest t) cps)
                end
  | Rollback k => match tp_cps t with
                  | [] => None
                  | (x, r) :: cps => peval (k x) (mkTape x r cps)
                  end
  | Raw b k => match tp_rest t with
               | [] => None
               | x :: r => if is_bar x && Bool.eqb (bar_mode x) b then peval k (mkTape (tp_cur t) r (tp_cps t)) else None
               end
  end.

Lemma peval_bind {A B} (p : prog A) (f : A -> prog B) : forall t,
  peval (pbind p f) t = match peval p t with Some (a, t2) => peval (f a) t2 | None => None end.
Proof.
  induction p as [a| |k IH|k IH|k IH|k IH|b k IH]; intro t; cbn; auto.
  - destruct (tp_rest t) as [|x r]; auto. destruct (is_bar x); auto.
  - destruct (tp_cps t); auto.
  - destruct (tp_cps t) as [|[x r] c]; auto.
  - destruct (tp_rest t) as [|x r]; auto. destruct (is_bar x && Bool.eqb (bar_mode x) b); auto.
Qed.

(** the stream gives these tokens *)
Inductive gives {S} (st : stream S) : S -> list token -> Prop :=
| gives_nil s : gives st s []
| gives_cons s t s2 ts : is_bar t = false -> st_next st s = (t, s2) -> gives st s2 ts -> gives st s (t :: ts)
| gives_bar s b ts : gives st (st_raw st b s) ts -> gives st s (bar b :: ts).

Section Cursor.
  Context {S : Type} (st : stream S) (zero : token).
  Hypothesis raw_raw : forall b b2 s, st_raw st b (st_raw st b2 s) = st_raw st b s.
  Hypothesis raw_kept : forall b s t s2, st_next st s = (t, s2) -> st_raw st b s = s -> st_raw st b s2 = s2.

  Definition before (hist : list token) (p : nat) : token :=
    match p with O => zero | Datatypes.S q => nth q hist zero end.

  (** the mode after these tokens *)
  Definition set_modes (ts : list token) (s : S) : S :=
    fold_left (fun s t => if is_bar t then st_raw st (bar_mode t) s else s) ts s.

  Lemma modes_app a b s : set_modes (a ++ b) s = set_modes b (set_modes a s).
  Proof. apply fold_left_app. Qed.
  (** the last bar decides *)
  Lemma modes_last ts : (forall s, set_modes ts s = s) \/ (exists b, forall s, set_modes ts s = st_raw st b s).
  Proof.
    induction ts as [|t ts IH] using rev_ind; [left; reflexivity|].
    destruct (is_bar t) eqn:E.
    - right. exists (bar_mode t). intro s. rewrite modes_app. cbn. rewrite E. destruct IH as [IH|(b & IH)]; rewrite IH; [reflexivity|apply raw_raw].
    - destruct IH as [IH|(b & IH)]; [left|right; exists b]; intro s; rewrite modes_app; cbn; rewrite E; apply IH.
  Qed.
  Lemma modes_next ts s t s2 : set_modes ts s = s -> st_next st s = (t, s2) -> set_modes ts s2 = s2.
  Proof.
    intros H E. destruct (modes_last ts) as [K|(b & K)]; rewrite K; [reflexivity|]. rewrite K in H. eapply raw_kept; eassumption.
  Qed.
  Lemma modes_raw b ts s : st_raw st b (set_modes ts s) = st_raw st b s.
  Proof. destruct (modes_last ts) as [K|(b2 & K)]; rewrite K; [reflexivity|apply raw_raw]. Qed.

  (** The checkpoints, innermost first: each is before the one set after it, and reading on from it to the
      end of what was read sets the mode that reading on from there sets. *)
  Fixpoint saved (hist : list token) (s : S) (fut back : list token) (stk : list nat) (cps : list (token * list token)) : Prop :=
    match stk, cps with
    | [], [] => True
    | p :: stk, e :: cps =>
        exists seg, p <= length hist /\ fst e = before hist p /\ snd e = seg ++ back ++ fut /\
          strip (seg ++ back) = skipn p hist /\ set_modes (seg ++ back) s = set_modes back s /\
          saved hist s fut (seg ++ back) stk cps
    | _, _ => False
    end.

  (** [back]: the tokens that were read from the stream already; [fut]: those that were not *)
  Record follows (c : cursor S token) (t : tape) (back fut : list token) : Prop := {
    fl_rest : tp_rest t = back ++ fut;
    fl_back : strip back = skipn (cur_pos c) (cur_hist c);
    fl_gives : gives st (set_modes back (cur_stream c)) fut;
    fl_pos : cur_pos c <= length (cur_hist c);
    fl_cur : tp_cur t = before (cur_hist c) (cur_pos c);
    fl_cps : saved (cur_hist c) (cur_stream c) fut back (cur_stack c) (tp_cps t)
  }.

  Lemma skipn_step {A} (l : list A) : forall p x r, skipn p l = x :: r -> nth_error l p = Some x /\ skipn (p + 1) l = r.
  Proof.
    induction l as [|y l IH]; intros [|p] x r; cbn; try discriminate.
    - intros [= -> ->]. auto.
    - apply IH.
  Qed.
  Lemma before_more hist x p : p <= length hist -> before (hist ++ [x]) p = before hist p.
  Proof. destruct p; cbn; [reflexivity|]. intro H. apply app_nth1. lia. Qed.
  Lemma skipn_more {A} (l : list A) x p : p <= length l -> skipn p (l ++ [x]) = skipn p l ++ [x].
  Proof. intro H. rewrite skipn_app. replace (p - length l) with 0 by lia. reflexivity. Qed.

  Lemma saved_shrink hist s fut y back stk cps : 
    saved hist s fut (y :: back) stk cps -> (is_bar y = true -> set_modes [y] s = s) -> saved hist s fut back stk cps.
  Proof.
    intros H Hy. destruct stk as [|p stk], cps as [|e cps]; cbn in *; auto.
    destruct H as (seg & H1 & H2 & H3 & H4 & H5 & H6). exists (seg ++ [y]). rewrite <- !app_assoc. cbn [app].
    repeat split; auto. rewrite H5. destruct (is_bar y); [rewrite (Hy eq_refl)|]; reflexivity.
  Qed.
  Lemma saved_read hist s x s2 fut : is_bar x = false -> st_next st s = (x, s2) -> forall stk cps back,
    set_modes back s = s -> saved hist s (x :: fut) back stk cps -> saved (hist ++ [x]) s2 fut (back ++ [x]) stk cps.
  Proof.
    intros Hx Hs. induction stk as [|p stk IH]; intros [|e cps] back Hb H; cbn in *; auto.
    destruct H as (seg & H1 & H2 & H3 & H4 & H5 & H6). exists seg. split; [rewrite app_length; cbn; lia|].
    split; [rewrite before_more by lia; exact H2|]. split; [rewrite <- app_assoc; exact H3|].
    rewrite app_assoc. split; [rewrite strip_app, H4, skipn_more by lia; cbn; rewrite Hx; reflexivity|].
    assert (Hb2 : set_modes (seg ++ back) s = s) by congruence.
    split; [|apply IH; [exact Hb2|exact H6]].
    rewrite !(modes_app _ [x]). cbn. rewrite Hx. rewrite (modes_next _ _ _ _ Hb Hs), (modes_next _ _ _ _ Hb2 Hs). reflexivity.
  Qed.
  Lemma saved_bar hist s b fut : forall stk cps back,
    saved hist s (bar b :: fut) back stk cps -> saved hist (st_raw st b s) fut (back ++ [bar b]) stk cps.
  Proof.
    induction stk as [|p stk IH]; intros [|e cps] back H; cbn in *; auto.
    destruct H as (seg & H1 & H2 & H3 & H4 & H5 & H6). exists seg. split; [exact H1|].
    split; [exact H2|]. split; [rewrite <- app_assoc; exact H3|].
    rewrite app_assoc. split; [rewrite strip_app, H4; cbn; apply app_nil_r|].
    split; [|apply IH; exact H6].
    rewrite !(modes_app _ [bar b]). cbn. rewrite bar_mode_bar, !modes_raw. reflexivity.
  Qed.
  Lemma saved_mode hist s s2 y fut : is_bar y = true -> forall stk cps pre back,
    saved hist s fut (pre ++ y :: back) stk cps -> saved hist s2 fut (pre ++ y :: back) stk cps.
  Proof.
    intro Hy. induction stk as [|p stk IH]; intros [|e cps] pre back H; cbn in *; auto.
    destruct H as (seg & H1 & H2 & H3 & H4 & H5 & H6). exists seg. repeat split; auto.
    - rewrite !modes_app. cbn. rewrite Hy, !modes_raw. reflexivity.
    - rewrite app_assoc in *. apply (IH cps (seg ++ pre) back). exact H6.
  Qed.

  Lemma tape_run {A} (p : prog A) : forall c t back fut a t2,
    follows c t back fut -> peval p t = Some (a, t2) -> exists c2, run_cur st zero p c = Fin a c2.
  Proof.
    induction p as [x| |k IH|k IH|k IH|k IH|b k IH]; intros c t back fut a t2 F E; cbn in E.
    - injection E as <- <-. exists c. reflexivity.
    - discriminate.
    - destruct (tp_rest t) as [|x r] eqn:Er; [discriminate|]. destruct (is_bar x) eqn:Ex; [discriminate|].
      cbn [run_cur]. unfold cur_next. pose proof F as [Hr Hb G Hp Hc Hs]. rewrite Er in Hr.
      destruct back as [|y back].
      + cbn in Hr, Hb, G. subst fut. inversion G as [|? ? s2 ? _ Es G2|? b2 ? _]; subst; [|discriminate].
        assert (Ep : cur_pos c = length (cur_hist c)).
        { assert (length (skipn (cur_pos c) (cur_hist c)) = 0) by (rewrite <- Hb; reflexivity). rewrite skipn_length in H. lia. }
        replace (nth_error (cur_hist c) (cur_pos c)) with (@None token) by (symmetry; apply nth_error_None; lia).
        rewrite Es. eapply (IH x _ _ [] r); [|exact E]. constructor; cbn.
        * reflexivity.
        * rewrite skipn_all2; [reflexivity|]. rewrite app_length. cbn. lia.
        * exact G2.
        * rewrite app_length. cbn. lia.
        * rewrite Nat.add_1_r. cbn. rewrite app_nth2 by lia. rewrite Ep, Nat.sub_diag. reflexivity.
        * apply (saved_shrink _ _ _ x); [|congruence].
          apply (saved_read _ _ _ _ _ Ex Es _ _ []); [reflexivity|exact Hs].
      + cbn in Hr. injection Hr as -> Hr. cbn in Hb. rewrite Ex in Hb. cbn in Hb. symmetry in Hb.
        destruct (skipn_step _ _ _ _ Hb) as [Hn Hb2]. rewrite Hn.
        assert (cur_pos c < length (cur_hist c)) by (apply nth_error_Some; congruence).
        eapply (IH y _ _ back fut); [|exact E]. constructor; cbn.
        * exact Hr.
        * symmetry. exact Hb2.
        * cbn in G. rewrite Ex in G. exact G.
        * lia.
        * rewrite Nat.add_1_r. cbn. symmetry. apply nth_error_nth, Hn.
        * apply (saved_shrink _ _ _ y); [exact Hs|congruence].
    - cbn [run_cur]. eapply (IH _ _ back fut); [|exact E].
      destruct F as [Hr Hb G Hp Hc Hs]. constructor; cbn; auto. exists []. cbn. auto 7.
    - destruct (tp_cps t) as [|e cps] eqn:Ec; [discriminate|].
      cbn [run_cur]. destruct F as [Hr Hb G Hp Hc Hs]. rewrite Ec in Hs.
      destruct (cur_stack c) as [|q stk] eqn:Eq1; [destruct Hs|]. cbn in Hs.
      destruct Hs as (seg & H1 & H2 & H3 & H4 & H5 & H6).
      eapply (IH _ _ back fut); [|exact E].
      constructor; cbn; auto. rewrite Eq1. cbn [tl]. destruct stk as [|q2 stk], cps as [|e2 cps]; cbn in *; auto.
      destruct H6 as (seg2 & K1 & K2 & K3 & K4 & K5 & K6). exists (seg2 ++ seg). rewrite <- !app_assoc in *.
      repeat split; auto. congruence.
    - destruct (tp_cps t) as [|[x r] cps] eqn:Ec; [discriminate|].
      cbn [run_cur].
      pose proof F as [Hr Hb G Hp Hc Hs]. rewrite Ec in Hs.
      destruct (cur_stack c) as [|q stk] eqn:Eq1; [destruct Hs|]. cbn in Hs.
      destruct Hs as (seg & H1 & H2 & H3 & H4 & H5 & H6).
      unfold cur_step. rewrite Eq1. cbn [snd].
      assert (El : cur_last zero (mkCur (cur_stream c) (cur_hist c) q stk) = x).
      { unfold cur_last. cbn. rewrite H2. reflexivity. }
      rewrite El. eapply (IH x _ _ (seg ++ back) fut); [|exact E].
      constructor; cbn; auto.
      + rewrite <- app_assoc. exact H3.
      + rewrite H5. exact G.
    - destruct (tp_rest t) as [|x r] eqn:Er; [discriminate|].
      destruct (is_bar x) eqn:Ex; [|discriminate]. cbn [andb] in E.
      destruct (Bool.eqb (bar_mode x) b) eqn:Eb; [|discriminate]. apply Bool.eqb_prop in Eb.
      cbn [run_cur]. pose proof F as [Hr Hb G Hp Hc Hs]. rewrite Er in Hr. unfold cur_step. cbn [snd].
      destruct back as [|y back].
      + cbn in Hr, Hb, G. subst fut. inversion G as [|? ? s2 ? Ex2 _ _|? b2 ? G2]; subst; [congruence|].
        rewrite bar_mode_bar in *. eapply (IH _ _ [] r); [|exact E]. constructor; cbn; auto.
        apply (saved_shrink _ _ _ (bar b2)).
        * apply (saved_bar _ _ _ _ _ _ []). exact Hs.
        * intros _. cbn. rewrite bar_mode_bar. apply raw_raw.
      + cbn in Hr. injection Hr as -> Hr. cbn in Hb. rewrite Ex in Hb. cbn in Hb.
        eapply (IH _ _ back fut); [|exact E]. constructor; cbn; auto.
        * cbn in G. rewrite Ex, Eb in G. exact G.
        * apply (saved_shrink _ _ _ y).
          -- apply (saved_mode _ (cur_stream c) _ _ _ Ex _ _ []). exact Hs.
          -- intros _. cbn. rewrite Ex, Eb. apply raw_raw.
  Qed.

  Lemma start_follows s ts : gives st s ts -> follows (cur_init s) (mkTape zero ts []) [] ts.
  Proof. intro G. constructor; cbn; auto. Qed.
End Cursor.

(** ** The tokenizer *)
(** the tokenizer keeps the mode *)
Section Mode.
  Context {S : Type} (src : source S).
  Lemma base_mode l r : lx_raw (snd (base_matching src l r)) = lx_raw l.
  Proof.
    unfold base_matching, lookahead, one. destruct r as [c|]; [|reflexivity].
    repeat match goal with
    | |- context [if ?b then _ else _] => destruct b
    | |- context [src_next src ?s] => destruct (src_next src s)
    | |- context [src_look src ?n ?s] => destruct (src_look src n s)
    end; reflexivity.
  Qed.
  Lemma special_mode l r : lx_raw (snd (match_special src l r)) = lx_raw l.
  Proof.
    unfold match_special. destruct (lx_raw l) eqn:El; [rewrite base_mode; exact El|]. rewrite <- El.
    destruct (current_type (lx_ctx l));
      unfold block_matching, flow_matching, multiline_start_matching, single_quote_matching, double_quote_matching, tag_matching, lookahead, one, three, rune_list;
      (destruct r as [c|]; [|rewrite base_mode; reflexivity]);
      repeat match goal with
      | |- lx_raw (snd (base_matching _ _ _)) = _ => rewrite base_mode
      | |- context [if ?b then _ else _] => destruct b
      | |- context [src_next src ?s] => destruct (src_next src s)
      | |- context [src_look src ?n ?s] => destruct (src_look src n s)
      end; reflexivity.
  Qed.
  Lemma emit_mode fuel : forall pending l t l2, emit src fuel pending l = Some (t, l2) -> lx_raw l2 = lx_raw l.
  Proof.
    induction fuel as [|f IH]; intros pending l t l2; cbn [emit]; [discriminate|].
    destruct (src_next src (lx_src l)) as [r s].
    match goal with |- context [match_special src ?x r] => pose proof (special_mode x r) as Hm; destruct (match_special src x r) as [[sp|] l3] end;
      cbn [snd lx_raw with_pos with_src] in Hm.
    - destruct pending as [[start origin]|]; intros [= <- <-]; cbn; exact Hm.
    - destruct pending as [[start origin]|]; intro E; apply IH in E; cbn in E; congruence.
  Qed.
  Lemma next_mode fuel l t l2 : lex_next src fuel l = Some (t, l2) -> lx_raw l2 = lx_raw l.
  Proof. unfold lex_next. destruct (lx_prepared l); [intros [= <- <-]; reflexivity|apply emit_mode]. Qed.

  (** and never emits a bar *)
  Definition real_or_none (o : option token * lex S) : Prop := match fst o with Some tk => is_bar tk = false | None => True end.
  Lemma base_real l r : real_or_none (base_matching src l r).
  Proof.
    unfold base_matching, lookahead, one. destruct r as [c|]; [|reflexivity].
    repeat match goal with
    | |- context [if ?b then _ else _] => destruct b
    | |- context [src_next src ?s] => destruct (src_next src s)
    | |- context [src_look src ?n ?s] => destruct (src_look src n s)
    end; first [reflexivity | exact I].
  Qed.
  Lemma special_real l r tk l2 : match_special src l r = (Some tk, l2) -> is_bar tk = false.
  Proof.
    intro E. enough (H : real_or_none (match_special src l r)) by (rewrite E in H; exact H). clear E.
    unfold match_special. destruct (lx_raw l); [apply base_real|].
    destruct (current_type (lx_ctx l));
      unfold block_matching, flow_matching, multiline_start_matching, single_quote_matching, double_quote_matching, tag_matching, lookahead, one, three, rune_list;
      (destruct r as [c|]; [|apply base_real]);
      repeat match goal with
      | |- real_or_none (base_matching _ _ _) => apply base_real
      | |- context [if ?b then _ else _] => destruct b
      | |- context [src_next src ?s] => destruct (src_next src s)
      | |- context [src_look src ?n ?s] => destruct (src_look src n s)
      end; first [reflexivity | exact I].
  Qed.

  Lemma set_raw_same b (l : lex S) : lex_set_raw b l = l <-> lx_raw l = b.
  Proof. split; [intro H; rewrite <- H; reflexivity|intros <-; destruct l; reflexivity]. Qed.
  Lemma stream_kept fuel b s t s2 : st_next (lexer_stream src fuel) s = (t, s2) ->
    st_raw (lexer_stream src fuel) b s = s -> st_raw (lexer_stream src fuel) b s2 = s2.
  Proof.
    cbn. intros E H. apply set_raw_same in H. apply set_raw_same. destruct (lex_next src fuel s) as [[t3 l3]|] eqn:E3; injection E as <- <-; [|exact H].
    rewrite (next_mode _ _ _ _ E3). exact H.
  Qed.
End Mode.

Inductive lgives (fuel : nat) : lex text -> list token -> Prop :=
| lg_nil l : lgives fuel l []
| lg_cons l t l2 ts : lex_next list_source fuel l = Some (t, l2) -> is_bar t = false -> lgives fuel l2 ts -> lgives fuel l (t :: ts)
| lg_switch l t l2 b ts : lex_next list_source fuel l = Some (t, l2) -> is_bar t = false -> lgives fuel (lex_set_raw b l2) ts ->
    lgives fuel l (t :: bar b :: ts)
| lg_twice l t l2 a b ts : lex_next list_source fuel l = Some (t, l2) -> is_bar t = false -> lgives fuel (lex_set_raw b (lex_set_raw a l2)) ts ->
    lgives fuel l (t :: bar a :: bar b :: ts).

Lemma lgives_stream fuel ts : forall (l : lex text) (l1 : lex rune_accessor),
  lex_rel acc_rel l1 l -> lgives fuel l ts -> gives (lexer_stream acc_source fuel) l1 ts.
Proof.
  intros l l1 HR H. revert l1 HR. induction H as [l|l t l2 ts E Hb H IH|l t l2 b ts E Hb H IH|l t l2 a b ts E Hb H IH]; intros l1 HR; [constructor| | |].
  all: pose proof (lex_next_sim acc_source list_source acc_rel acc_read_ok
    (fun k s1 s2 H => acc_look_ok k s1 s2 H) fuel l1 l HR) as Sim; unfold text, rune in *; rewrite E in Sim;
  destruct (lex_next acc_source fuel l1) as [[t1 l3]|] eqn:E1; [|destruct Sim]; destruct Sim as [S1 S2]; cbn in S1, S2; subst t1.
  - apply (gives_cons _ _ _ l3); [exact Hb|cbn; rewrite E1; reflexivity|apply IH; exact S2].
  - apply (gives_cons _ _ _ l3); [exact Hb|cbn; rewrite E1; reflexivity|]. apply gives_bar. apply IH. apply rel_raw. exact S2.
  - apply (gives_cons _ _ _ l3); [exact Hb|cbn; rewrite E1; reflexivity|]. apply gives_bar, gives_bar. apply IH. apply rel_raw, rel_raw. exact S2.
Qed.

Lemma text_gives (doc : text) ts : lgives (S (length doc)) (lex_new doc) ts ->
  gives (lexer_stream acc_source (S (length doc))) (lex_new (acc_init None doc)) ts.
Proof. apply lgives_stream. repeat split; cbn; constructor. Qed.

(** ** Parsing a text from its tokens *)
Lemma parse_text_tape digit omit (doc : text) fuel ts tree p t :
  4 * length doc + 4 <= fuel -> lgives (S (length doc)) (lex_new doc) ts ->
  peval (parse_program digit fuel new_parser) (mkTape zero_token ts []) = Some ((tree, p), t) ->
  p_errs p = [] ->
  parse_string digit fuel omit doc =
    Fin (inl (match tree with NStream [d] => if omit then d else tree | _ => tree end)) tt.
Proof.
  intros Hf HG HE Hp.
  destruct (parse_text_cursor digit doc fuel Hf) as (r & a & c & E1 & E2).
  destruct (tape_run (lexer_stream acc_source (S (length doc))) zero_token ltac:(reflexivity) (stream_kept _ _) _
    (cur_init (lex_new (acc_init None doc))) _ _ _ _ _
    (start_follows _ _ _ _ (text_gives doc ts HG)) HE) as (c2 & E3).
  rewrite E2 in E3. injection E3 as -> _.
  unfold parse_string. rewrite (token_stream_run _ _ _ _ _ _ _ E1), Hp. reflexivity.
Qed.
