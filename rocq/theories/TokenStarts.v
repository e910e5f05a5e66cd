(** The tokens of a text start at different places, and there are not more of them than characters,
    up to the tokens for the end of input. *)
From Coq Require Import String Sorted.
From Verif Require Import Base Token Lexer LexerSpec LexerProofs ParserTape.
Local Open Scope N_scope.

Definition plt (p q : position) : Prop := row p < row q \/ (row p = row q /\ column p < column q).
Lemma plt_trans p q r : plt p q -> plt q r -> plt p r.
Proof. unfold plt. lia. Qed.
Lemma plt_irrefl p : ~ plt p p.
Proof. unfold plt. lia. Qed.
Lemma plt_next p : plt p (next_col p).
Proof. unfold plt, next_col. cbn. lia. Qed.

Definition ple (p q : position) : Prop := p = q \/ plt p q.
Lemma ple_plt p q r : ple p q -> plt q r -> plt p r.
Proof. intros [->|H] H2; [exact H2|eapply plt_trans; eassumption]. Qed.
Lemma plt_ple p q r : plt p q -> ple q r -> plt p r.
Proof. intros H [<-|H2]; [exact H|eapply plt_trans; eassumption]. Qed.

Lemma place_step doc pre c rest : doc = pre ++ c :: rest -> plt (place doc (length pre)) (place doc (length (pre ++ [c]))).
Proof.
  intro H. pose proof (place_split doc pre c rest H) as E. cbn in E. rewrite E.
  destruct (ends_line c rest); unfold plt; cbn; lia.
Qed.
Lemma place_more doc : forall mid pre rest, doc = pre ++ mid ++ rest -> ple (place doc (length pre)) (place doc (length (pre ++ mid))).
Proof.
  induction mid as [|c mid IH]; intros pre rest H; [left; rewrite app_nil_r; reflexivity|].
  right. eapply plt_ple; [eapply place_step; exact H|].
  replace (pre ++ c :: mid) with ((pre ++ [c]) ++ mid) by (rewrite <- app_assoc; reflexivity).
  apply (IH _ rest). rewrite <- app_assoc. exact H.
Qed.
Lemma place_lt doc mid pre rest : doc = pre ++ mid ++ rest -> mid <> [] -> plt (place doc (length pre)) (place doc (length (pre ++ mid))).
Proof.
  intros H Hm. destruct mid as [|c mid]; [congruence|]. eapply plt_ple; [eapply place_step; exact H|].
  replace (pre ++ c :: mid) with ((pre ++ [c]) ++ mid) by (rewrite <- app_assoc; reflexivity).
  apply (place_more doc mid _ rest). rewrite <- app_assoc. exact H.
Qed.

Lemma place_after doc pre tok l2 : at_place doc (pre ++ tok_origin tok) l2 -> tok_origin tok <> [] ->
  plt (place doc (length pre)) (place doc (length (pre ++ tok_origin tok))).
Proof.
  intros H Ho. destruct H as [_ H _|tk _ _ H _|tk _ _ H _ _]; rewrite <- ?app_assoc in H.
  - eapply place_lt; eassumption.
  - eapply place_lt; eassumption.
  - apply (place_lt doc _ _ []); [rewrite app_nil_r; symmetry; exact H|exact Ho].
Qed.

Definition sorted_from (p : position) (ts : list token) : Prop :=
  NoDup (map tok_start (strip ts)) /\ Forall (fun t => ple p (tok_start t)) (strip ts).

Lemma sorted_bar p b ts : sorted_from p ts -> sorted_from p (bar b :: ts).
Proof. auto. Qed.
Lemma sorted_cons p q t ts : is_bar t = false -> tok_start t = p -> plt p q -> sorted_from q ts -> sorted_from p (t :: ts).
Proof.
  intros Hb Ht Hq [H1 H2]. unfold sorted_from. cbn [strip filter]. rewrite Hb. cbn [negb]. fold (strip ts). split.
  - cbn [map]. constructor; [|exact H1]. intro Hin. apply in_map_iff in Hin. destruct Hin as (x & E & Hx).
    rewrite Forall_forall in H2. specialize (H2 x Hx). apply (plt_irrefl p). eapply plt_ple; [exact Hq|]. rewrite E, Ht in H2. exact H2.
  - constructor; [left; symmetry; exact Ht|]. eapply Forall_impl; [|exact H2]. intros x Hx. right. eapply plt_ple; eassumption.
Qed.

Lemma finished_sorted fuel (ts : list token) l : (0 < fuel)%nat -> lgives fuel l ts -> finished l -> sorted_from (next_col (lx_pos l)) ts.
Proof.
  intros Hf H. induction H as [l|l t l2 ts E Hb H IH|l t l2 b ts E Hb H IH|l t l2 a b ts E Hb H IH]; intro Hl; [split; constructor| | |];
    destruct (next_finished fuel l Hl Hf) as (tok & l3 & E2 & _ & _ & H3 & H4 & H5); rewrite E in E2; injection E2 as <- <-.
  - eapply sorted_cons; [exact Hb|exact H4| |apply IH; eassumption]. rewrite H5, H4. apply plt_next.
  - eapply sorted_cons; [exact Hb|exact H4| |apply sorted_bar, IH; exact H3]. cbn [lx_pos lex_set_raw]. rewrite H5, H4. apply plt_next.
  - eapply sorted_cons; [exact Hb|exact H4| |apply sorted_bar, sorted_bar, IH; exact H3]. cbn [lx_pos lex_set_raw]. rewrite H5, H4. apply plt_next.
Qed.

Theorem starts_differ fuel doc (ts : list token) l : (length doc < fuel)%nat -> lgives fuel l ts -> forall pre, at_place doc pre l ->
  sorted_from (place doc (length pre)) ts.
Proof.
  intros Hf H. induction H as [l|l t l2 ts E Hb H IH|l t l2 b ts E Hb H IH|l t l2 a b ts E Hb H IH]; intros pre Hl; [split; constructor| | |];
    destruct (next_advance doc pre fuel l Hl Hf) as (tok & l3 & E2 & A); rewrite E in E2; injection E2 as <- <-;
    destruct A as [[(C1 & C2 & C3 & _) A]|((C1 & C2 & C3) & -> & A & B)].
  - eapply sorted_cons; [exact Hb|exact C3| |eapply IH; eassumption]. eapply place_after; eassumption.
  - eapply sorted_cons; [exact Hb|exact C3| |apply (finished_sorted fuel ts l2); [lia|exact H|exact A]]. rewrite B, C3. apply plt_next.
  - eapply sorted_cons; [exact Hb|exact C3| |apply sorted_bar, IH, at_place_raw, A]. eapply place_after; eassumption.
  - eapply sorted_cons; [exact Hb|exact C3| |apply sorted_bar, (finished_sorted fuel ts (lex_set_raw b l2)); [lia|exact H|exact A]].
    cbn [lx_pos lex_set_raw]. rewrite B, C3. apply plt_next.
  - eapply sorted_cons; [exact Hb|exact C3| |apply sorted_bar, sorted_bar, IH, at_place_raw, at_place_raw, A]. eapply place_after; eassumption.
  - eapply sorted_cons; [exact Hb|exact C3| |apply sorted_bar, sorted_bar, (finished_sorted fuel ts (lex_set_raw b (lex_set_raw a l2))); [lia|exact H|exact A]].
    cbn [lx_pos lex_set_raw]. rewrite B, C3. apply plt_next.
Qed.

Lemma few_tokens fuel doc (all : list token) l : (length doc < fuel)%nat -> lgives fuel l all -> forall pre ts tail, all = ts ++ tail ->
  at_place doc pre l -> Forall (fun t => is_eof t = false) ts -> (3 * length pre + length ts <= 3 * length doc)%nat.
Proof.
  intros Hf H. induction H as [l|l t l2 all E Hb H IH|l t l2 b all E Hb H IH|l t l2 a b all E Hb H IH]; intros pre ts tail Et Hl Ht.
  - apply (f_equal (@length token)) in Et. rewrite app_length in Et. cbn in Et. destruct ts; [|discriminate Et].
    destruct Hl as [_ ->  _|tk _ _ -> _|tk _ _ -> _ _]; rewrite ?app_length; cbn; lia.
  - destruct ts as [|t2 ts]; [destruct Hl as [_ ->  _|tk _ _ -> _|tk _ _ -> _ _]; rewrite ?app_length; cbn; lia|].
    injection Et as <- ->. inversion Ht as [|? ? T1 T2]; subst.
    destruct (next_advance doc pre fuel l Hl Hf) as (tok & l3 & E2 & A). rewrite E in E2. injection E2 as <- <-.
    destruct A as [[(C1 & _) A]|((C1 & _) & _)]; [|congruence].
    specialize (IH _ ts tail eq_refl A T2). rewrite app_length in IH. destruct (tok_origin t); [congruence|]. cbn in *. lia.
  - destruct ts as [|t2 ts]; [destruct Hl as [_ ->  _|tk _ _ -> _|tk _ _ -> _ _]; rewrite ?app_length; cbn; lia|].
    injection Et as <- Et. inversion Ht as [|? ? T1 T2]; subst.
    destruct (next_advance doc pre fuel l Hl Hf) as (tok & l3 & E2 & A). rewrite E in E2. injection E2 as <- <-.
    destruct A as [[(C1 & _) A]|((C1 & _) & _)]; [|congruence]. apply (at_place_raw _ _ b) in A.
    destruct ts as [|y ts].
    + pose proof (IH _ [] all eq_refl A ltac:(constructor)) as L. rewrite app_length in L. destruct (tok_origin t); [congruence|]. cbn in *. lia.
    + injection Et as <- ->. inversion T2; subst.
      specialize (IH _ ts tail eq_refl A ltac:(assumption)). rewrite app_length in IH. destruct (tok_origin t); [congruence|]. cbn in *. lia.
  - destruct ts as [|t2 ts]; [destruct Hl as [_ ->  _|tk _ _ -> _|tk _ _ -> _ _]; rewrite ?app_length; cbn; lia|].
    injection Et as <- Et. inversion Ht as [|? ? T1 T2]; subst.
    destruct (next_advance doc pre fuel l Hl Hf) as (tok & l3 & E2 & A). rewrite E in E2. injection E2 as <- <-.
    destruct A as [[(C1 & _) A]|((C1 & _) & _)]; [|congruence]. apply (at_place_raw _ _ a), (at_place_raw _ _ b) in A.
    pose proof (IH _ [] all eq_refl A ltac:(constructor)) as L.
    destruct ts as [|y [|y2 ts]]; [rewrite app_length in L; destruct (tok_origin t); [congruence|]; cbn in *; lia..|].
    injection Et as <- <- ->. inversion T2 as [|? ? _ T3]; inversion T3; subst.
    specialize (IH _ ts tail eq_refl A ltac:(assumption)). rewrite app_length in IH. destruct (tok_origin t); [congruence|]. cbn in *. lia.
Qed.

Lemma new_place (doc : text) : at_place doc [] (lex_new doc).
Proof. apply ap_ready; reflexivity. Qed.
