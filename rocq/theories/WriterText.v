(** The text written for simple trees. *)
From Coq Require Import String.
From Verif Require Import Base YamlChar Ast Writer Encoder WriterSpec RoundTripSpec TextSpec NotedSpec TextFacts.
Local Open Scope N_scope.

Definition ends_nl (b : text) : bool := match last_opt b with Some c => N.eqb c 10 | None => false end.
Lemma last_opt_snoc (a : text) x : last_opt (a ++ [x]) = Some x.
Proof. unfold last_opt. rewrite rev_unit. reflexivity. Qed.
Lemma ends_snoc a x : ends_nl (a ++ [x]) = (x =? 10).
Proof. unfold ends_nl. rewrite last_opt_snoc. reflexivity. Qed.

Lemma plain_last s : plain_text s -> exists a x, s = a ++ [x] /\ x <> 10.
Proof.
  induction 1 as [w Hw|w n s Hw Hs (a & x & -> & Hx)].
  - destruct Hw as (Hn & Hc & _). destruct (exists_last Hn) as (a & x & ->). exists a, x. split; [reflexivity|].
    apply Forall_app in Hc. destruct Hc as [_ Hc]. inversion Hc as [|? ? H _]; subst. intros ->. apply H. cbn. tauto.
  - exists (w ++ repeat 32 (S n) ++ a), x. split; [rewrite <- !app_assoc; reflexivity|exact Hx].
Qed.
Lemma scalar_last t s : scalar_text t s -> exists a x, s = a ++ [x] /\ x <> 10.
Proof.
  intros [s2 H|s2 _|s2 _]; [apply plain_last, H| |].
  - exists (39 :: s2), 39. split; [reflexivity|discriminate].
  - exists (34 :: s2), 34. split; [reflexivity|discriminate].
Qed.

Lemma plain_lines s : plain_text s -> w_multiline s = false.
Proof.
  intro H. unfold w_multiline, rune_in. destruct (existsb (N.eqb 10) s) eqn:E; [|reflexivity]. exfalso.
  apply existsb_exists in E. destruct E as (c & Hc & Ec). apply N.eqb_eq in Ec. subst c.
  assert (F : Forall (fun c => c <> 10) s).
  { clear Hc. induction H as [w (_ & Hw & _)|w n s (_ & Hw & _) Hs IH].
    - eapply Forall_impl; [|exact Hw]. intros c Hc ->. apply Hc. cbn. tauto.
    - apply Forall_app. split; [eapply Forall_impl; [|exact Hw]; intros c Hc ->; apply Hc; cbn; tauto|].
      apply Forall_app. split; [|exact IH]. apply Forall_forall. intros x Hx. apply repeat_spec in Hx. subst. discriminate. }
  rewrite Forall_forall in F. exact (F 10 Hc eq_refl).
Qed.
Lemma single_same s : Forall single_char s -> to_single_quoted s = s.
Proof.
  induction 1 as [|c s [_ H] Hs IH]; [reflexivity|]. unfold to_single_quoted in *. cbn. rewrite IH.
  destruct (N.eqb_spec c 39); [exfalso; apply H; cbn; intuition congruence|reflexivity].
Qed.
Lemma double_same s : Forall double_char s -> to_double_quoted s = s.
Proof.
  induction 1 as [|c s [Hr H] Hs IH]; [reflexivity|]. unfold to_double_quoted in *. cbn. rewrite IH.
  assert (E : escape_character c = None); [|rewrite E; reflexivity]. cbn in H.
  unfold escape_character, escape_ascii.
  repeat match goal with |- context[?x =? ?y] => destruct (N.eqb_spec x y); [exfalso; subst x; first [lia | intuition congruence]|] end.
  unfold escape_unicode, is_json_char. replace (32 <=? c) with true by (symmetry; apply N.leb_le; lia).
  replace (c <=? 1114111) with true by (symmetry; apply N.leb_le; lia). rewrite orb_true_r. reflexivity.
Qed.

Lemma reread_build kind es : reread (build kind es) = build kind (map reread es).
Proof. destruct kind; reflexivity. Qed.

(** ** literal scalars *)
Definition ends_word (s : text) : Prop := exists a x, s = a ++ [x] /\ x <> 10.
Definition line_out (v : nat) (l : text) : text := 10 :: match l with [] => [] | _ => spaces v ++ l end.
Lemma split_nonempty s : split_lines s <> [].
Proof. destruct s as [|c s]; cbn; [discriminate|]. destruct (c =? 10); [discriminate|]. destruct (split_lines s); discriminate. Qed.
Lemma split_word a s : Forall (fun c => c <> 10) a -> split_lines (a ++ s) = match split_lines s with l :: ls => (a ++ l) :: ls | [] => [a] end.
Proof.
  pose proof (split_nonempty s) as N. induction 1 as [|c a Hc _ IH]; cbn; [destruct (split_lines s); [destruct N; reflexivity|reflexivity]|].
  apply N.eqb_neq in Hc. rewrite Hc, IH. destruct (split_lines s); reflexivity.
Qed.
Lemma split_breaks j s : split_lines (repeat 10 j ++ s) = repeat [] j ++ split_lines s.
Proof. induction j as [|j IH]; [reflexivity|]. cbn. rewrite IH. reflexivity. Qed.
Lemma outs_breaks v j : concat (map (line_out v) (repeat [] j)) = repeat 10 j.
Proof. induction j as [|j IH]; [reflexivity|]. cbn. rewrite IH. reflexivity. Qed.
Lemma breaks_snoc j : 10 :: repeat 10 j = repeat 10 j ++ [10%N].
Proof. induction j as [|j IH]; [reflexivity|]. cbn. rewrite <- IH. reflexivity. Qed.
Lemma breaks_hollow v j : hollow_text v j (repeat 10 j).
Proof. induction j as [|j IH]; [constructor|]. apply (hw_more v j 0); [lia|exact IH]. Qed.
Lemma line_clean a : line_text a -> a <> [] /\ Forall (fun c => c <> 10) a.
Proof.
  intros [w s F Hw _ _ _ _]. split; [destruct w; [congruence|discriminate]|]. eapply Forall_impl; [|exact F]. intros c Hc ->. apply Hc. cbn. auto.
Qed.
Lemma further_clean a : further_text a -> a <> [] /\ Forall (fun c => c <> 10) a.
Proof.
  intros [s H|c s Hc F]; [apply line_clean, H|]. split; [discriminate|]. constructor; [destruct Hc as [-> | ->]; discriminate|].
  eapply Forall_impl; [|exact F]. intros x Hx ->. apply Hx. cbn. auto.
Qed.
Lemma clean_word a : a <> [] /\ Forall (fun c => c <> 10) a -> ends_word a.
Proof. intros [H F]. destruct (exists_last H) as (u & x & ->). exists u, x. split; [reflexivity|]. apply Forall_app in F. destruct F as [_ F]. inversion F; assumption. Qed.
Lemma word_after u a : ends_word a -> ends_word (u ++ a).
Proof. intros (b & x & -> & Hx). exists (u ++ b), x. split; [apply app_assoc|exact Hx]. Qed.
Lemma lines_written v k w : more_lines w -> exists r, literal_more_text v w r /\ forall a, a <> [] /\ Forall (fun c => c <> 10) a ->
  concat (map (line_out v) (split_lines (a ++ w ++ repeat 10 k))) = 10 :: spaces v ++ a ++ r ++ repeat 10 k /\
  (match last (split_lines (a ++ w ++ repeat 10 k)) [] with [] => 43 | _ => 45 end = if Nat.eqb k 0 then 45 else 43) /\ ends_word (a ++ r).
Proof.
  induction 1 as [|j s w Hs Hw (r & Hr & IH)].
  - exists []. split; [constructor|]. intros a [Ha Fa]. cbn [app]. rewrite split_word by exact Fa. rewrite <- (app_nil_r (repeat 10 k)), split_breaks, app_nil_r.
    split; [|split; [|rewrite app_nil_r; apply clean_word; auto]].
    + destruct k as [|k]; cbn [repeat app split_lines map concat]; rewrite ?app_nil_r.
      * destruct a; [congruence|]. cbn. rewrite ?app_nil_r. reflexivity.
      * rewrite map_app, concat_app, outs_breaks. cbn [map concat]. destruct a; [congruence|]. unfold line_out. rewrite app_nil_r, <- breaks_snoc.
        cbn [app]. rewrite <- !app_assoc. reflexivity.
    + destruct k as [|k]; cbn [repeat app split_lines Nat.eqb]; [destruct a; [congruence|]; cbn; reflexivity|].
      rewrite app_comm_cons, last_last. reflexivity.
  - destruct (IH s (further_clean s Hs)) as (I1 & I2 & I3). exists (10 :: repeat 10 j ++ spaces v ++ s ++ r). split; [apply lo_line; auto using breaks_hollow|].
    intros a [Ha Fa].
    assert (E : split_lines (a ++ (10 :: repeat 10 j ++ s ++ w) ++ repeat 10 k) = a :: repeat [] j ++ split_lines (s ++ w ++ repeat 10 k)).
    { rewrite split_word by exact Fa. cbn [app split_lines N.eqb Pos.eqb]. rewrite app_nil_r, <- app_assoc, split_breaks, <- app_assoc. reflexivity. }
    unfold text, rune in *. rewrite E. split; [|split].
    + cbn [map concat]. rewrite map_app, concat_app, outs_breaks, I1. destruct a as [|c a]; [congruence|]. unfold line_out.
      repeat (cbn [app]; rewrite <- ?app_assoc). do 4 f_equal.
      rewrite (app_comm_cons (repeat 10 j)), breaks_snoc, <- app_assoc. reflexivity.
    + rewrite <- I2. rewrite app_comm_cons. destruct (exists_last (split_nonempty (s ++ w ++ repeat 10 k))) as (u & x & Eu). unfold text, rune in *. rewrite Eu, app_assoc, !last_last. reflexivity.
    + apply (word_after a), (word_after (10%N :: repeat 10%N j)), word_after, I3.
Qed.

Section Text.
  Context {K : Type} (kp : option (keeper K)) (deref : node -> @wstate K -> outcome (@wstate K)).
  Notation vis := (visit_with kp deref).

  Definition indent_of (b : text) (n : nat) : text := if ends_nl b then spaces n else [].

  (** text up to the start of the next line *)
  Definition lined (o : bool) (s : text) : text := s ++ if o then [] else [10].
  Definition full (o : bool) (s : text) : Prop := exists a, lined o s = a ++ [10].
  Lemma full_cons o a s : full o s -> full o (a ++ s).
  Proof. intros [u E]. exists (a ++ u). unfold lined in *. rewrite <- !app_assoc, E. reflexivity. Qed.
  (** what visiting a value does; [marks] tells whether a collection may have a tag or an anchor *)
  Definition writes (marks : bool) (t : node) (s0 : text) : Prop := forall buf errs n c met k,
    (exists s, (forall kind es, reread t <> build kind es) /\ (forall m, leaf_text m (reread t) s) /\ ends_word s /\
       vis t (mkWS buf errs n c s0 met k) = Done (mkWS (buf ++ s0 ++ s) errs n [] [] met k)) \/
    (exists o pre kind es s, (pre = [] /\ reread t = build kind es \/
        marks = true /\ exists p ps, pre = 32 :: ps /\ props_text p ps /\ reread t = NContent p (build kind es)) /\
       entries_text o kind n es s /\ full o s /\
       vis t (mkWS buf errs n c s0 met k) =
       Done (mkWS (buf ++ pre ++ c ++ indent_of (buf ++ pre ++ c) n ++ lined o s) errs n [] [] met k)).
  (** a text of several lines *)
  Definition writes_block (t : node) : Prop := forall buf errs n c met k, exists s1 (nl : bool),
    (forall kind, after_text true kind n (reread t) (32 :: s1 ++ [10])) /\ (nl = false -> ends_word s1) /\
    vis t (mkWS buf errs (n + 2) c [32] met k) = Done (mkWS (buf ++ (32 :: s1) ++ if nl then [10] else []) errs (n + 2) [] [] met k).
  (** and an entry of a mapping *)
  Definition writes_entry (e : node) : Prop := forall buf errs n met k, exists o s u, entry_text o false n (reread e) s /\ full o s /\
    vis e (mkWS buf errs n [] [] met k) = Done (mkWS (buf ++ u) errs n [] [] met k) /\
    maybe_line_break (mkWS (K := K) (buf ++ u) errs n [] [] met k) = mkWS (buf ++ lined o s) errs n [] [] met k.

  Lemma writes_scalar t : simple_scalar t -> forall buf errs n c s0 met k,
    exists s, scalar_text (reread t) s /\ vis t (mkWS buf errs n c s0 met k) = Done (mkWS (buf ++ s0 ++ s) errs n [] [] met k).
  Proof.
    intros [s q Hq H|s H|s H|] buf errs n c s0 met k.
    4: { eexists. split; [constructor; apply null_plain|]. cbn [visit_with write_prepared]. unfold put, prepare. cbn [ws_buf ws_errors ws_indent ws_complex ws_simple ws_met ws_keeper]. rewrite <- app_assoc. reflexivity. }
    - exists s. split; [replace (reread (NText s q)) with (NText s UnknownQuoting) by (destruct Hq as [-> | ->]; reflexivity); constructor; assumption|]. cbn. unfold put, prepare. cbn.
      destruct Hq as [-> | ->]; unfold write_text; rewrite (plain_lines s H); unfold put; cbn; rewrite <- app_assoc; reflexivity.
    - eexists. split; [constructor; exact H|]. cbn [visit_with write_prepared]. unfold write_text, write_single, put, prepare. cbn [ws_buf ws_errors ws_indent ws_complex ws_simple ws_met ws_keeper]. rewrite (single_same s H), <- app_assoc. reflexivity.
    - eexists. split; [constructor; exact H|]. cbn [visit_with write_prepared]. unfold write_text, write_double, put, prepare. cbn [ws_buf ws_errors ws_indent ws_complex ws_simple ws_met ws_keeper]. rewrite (double_same s H), <- app_assoc. reflexivity.
  Qed.

  Lemma line_break_done buf errs n met k (nl : bool) s : (nl = false -> exists a x, s = a ++ [x] /\ x <> 10) ->
    maybe_line_break (mkWS (K := K) (buf ++ s ++ if nl then [10] else []) errs n [] [] met k) = mkWS (buf ++ s ++ [10]) errs n [] [] met k.
  Proof.
    intro H. unfold maybe_line_break, has_line_break. cbn [ws_buf]. fold (ends_nl (buf ++ s ++ if nl then [10] else [])).
    destruct nl.
    - rewrite app_assoc, ends_snoc. reflexivity.
    - destruct (H eq_refl) as (a & x & -> & Hx). rewrite app_nil_r, app_assoc, ends_snoc. apply N.eqb_neq in Hx. rewrite Hx.
      unfold put. cbn. rewrite <- !app_assoc. reflexivity.
  Qed.

  Lemma indentation_done buf errs n met k c s : maybe_indentation (mkWS (K := K) buf errs n c s met k) = mkWS (buf ++ indent_of buf n) errs n c s met k.
  Proof.
    unfold maybe_indentation, has_line_break, indent_of. cbn [ws_buf]. fold (ends_nl buf).
    destruct (ends_nl buf); [reflexivity|rewrite app_nil_r; reflexivity].
  Qed.

  (** the entries of a collection *)
  Fixpoint all_entries (each : @wstate K -> (@wstate K -> outcome (@wstate K)) -> outcome (@wstate K)) (l : list node) (w : @wstate K) : outcome (@wstate K) :=
    match l with
    | [] => Done w
    | x :: l2 => obind (each w (vis x)) (all_entries each l2)
    end.
  Lemma entries_done each kind n : 
    forall es, es <> [] ->
    (forall e, In e es -> forall buf errs met k, exists o s, entry_text o kind n (reread e) s /\ full o s /\
       each (mkWS buf errs n [] [] met k) (vis e) = Done (mkWS (buf ++ indent_of buf n ++ lined o s) errs n [] [] met k)) ->
    forall buf errs met k, exists o s, entries_text o kind n (map reread es) s /\ full o s /\
      all_entries each es (mkWS buf errs n [] [] met k) = Done (mkWS (buf ++ indent_of buf n ++ lined o s) errs n [] [] met k).
  Proof.
    induction es as [|e es IH]; intros Hne He buf errs met k; [congruence|].
    destruct (He e (or_introl eq_refl) buf errs met k) as (o & s & Hs & [u Fs] & Ev). cbn [all_entries]. rewrite Ev. cbn [obind].
    destruct es as [|e2 es].
    - exists o, s. split; [constructor; exact Hs|]. split; [exists u; exact Fs|reflexivity].
    - destruct (IH ltac:(discriminate) (fun x Hx => He x (or_intror Hx)) (buf ++ indent_of buf n ++ lined o s) errs met k) as (o2 & s2 & Hs2 & F2 & Ev2).
      exists o2, (s ++ (if o then [] else [10]) ++ spaces n ++ s2). split; [eapply es_more; [exact Hs| |exact Hs2]; destruct o; constructor; exact gap_line|].
      split; [do 3 apply full_cons; exact F2|]. rewrite Ev2.
      assert (E : indent_of (buf ++ indent_of buf n ++ lined o s) n = spaces n).
      { unfold indent_of at 1. rewrite Fs, !app_assoc, ends_snoc. reflexivity. }
      rewrite E. do 2 f_equal. unfold lined. rewrite <- !app_assoc. reflexivity.
  Qed.

  Definition each_item (w : @wstate K) (accept : @wstate K -> outcome (@wstate K)) : outcome (@wstate K) :=
    let w := increase (put [45%N] (maybe_indentation w)) in
    obind (accept (prepare [32%N] [32%N] w)) (fun w => Done (maybe_line_break (decrease w))).
  Definition each_pair (w : @wstate K) (accept : @wstate K -> outcome (@wstate K)) : outcome (@wstate K) :=
    obind (accept (maybe_indentation w)) (fun w => Done (maybe_line_break w)).
  Lemma seq_unfold es w : vis (NSequence es) w = all_entries each_item es (write_prepared (NSequence es) w).
  Proof.
    cbn [visit_with]. generalize (write_prepared (NSequence es) w). clear w.
    induction es as [|e es IH]; intro w; [reflexivity|]. cbn [all_entries].
    replace (each_item w (vis e)) with (obind (vis e (prepare [32] [32] (increase (put [45] (maybe_indentation w)))))
      (fun w0 : wstate => Done (maybe_line_break (decrease w0)))) by reflexivity.
    destruct (obind (vis e _) _); cbn [obind]; [apply IH|reflexivity|reflexivity].
  Qed.
  Lemma map_unfold es w : vis (NMapping es) w = all_entries each_pair es (write_prepared (NMapping es) w).
  Proof.
    cbn [visit_with]. generalize (write_prepared (NMapping es) w). clear w.
    induction es as [|e es IH]; intro w; [reflexivity|]. cbn [all_entries].
    replace (each_pair w (vis e)) with (obind (vis e (maybe_indentation w)) (fun w0 : wstate => Done (maybe_line_break w0))) by reflexivity.
    destruct (obind (vis e _) _); cbn [obind]; [apply IH|reflexivity|reflexivity].
  Qed.

  Lemma key_simple t : simple_scalar t -> is_complex t = Done false.
  Proof. intros []; reflexivity. Qed.

  Lemma full_break buf errs n met k o s : full o s -> maybe_line_break (mkWS (K := K) (buf ++ lined o s) errs n [] [] met k) = mkWS (buf ++ lined o s) errs n [] [] met k.
  Proof. intros [a E]. unfold maybe_line_break, has_line_break. cbn [ws_buf]. fold (ends_nl (buf ++ lined o s)). rewrite E, app_assoc, ends_snoc. reflexivity. Qed.
  Lemma full_false s : full false s.
  Proof. exists s. reflexivity. Qed.
  Lemma full_true s : full true (s ++ [10]).
  Proof. exists s. unfold lined. apply app_nil_r. Qed.
  Lemma item_done e : writes false e [32] \/ writes_block e -> forall n buf errs met k, exists o s, entry_text o true n (reread e) s /\ full o s /\
    each_item (mkWS buf errs n [] [] met k) (vis e) = Done (mkWS (buf ++ indent_of buf n ++ lined o s) errs n [] [] met k).
  Proof.
    intros He n buf errs met k. unfold each_item. rewrite indentation_done. cbv zeta. unfold increase, put, with_indent, prepare. cbn [ws_buf ws_errors ws_indent ws_complex ws_simple ws_met ws_keeper].
    set (B := (buf ++ indent_of buf n) ++ [45]).
    destruct He as [He|He].
    - destruct (He B errs (n + 2)%nat [32] met k) as [(s & _ & Hs & (a & x & Ea & Hx) & E)|(o & pre & kind & es & s & [[-> R]|[D _]] & Hs & F & E)]; [| |discriminate D];
      rewrite E; cbn [obind]; clear E;
      unfold decrease, with_indent; cbn [ws_buf ws_errors ws_indent ws_complex ws_simple ws_met ws_keeper];
      replace (n + 2 - 2)%nat with n by lia.
      + exists false, (45 :: 32 :: s). split; [constructor; apply at_word, Hs|]. split; [apply full_false|].
        pose proof (line_break_done B errs n met k false (32 :: s)) as L. rewrite app_nil_r in L.
        eapply eq_trans; [apply f_equal; apply L|subst B; unfold lined; rewrite <- !app_assoc; reflexivity].
        intros _. exists (32 :: a), x. subst s. auto.
      + exists o, (45 :: 32 :: s). rewrite R. split; [constructor; apply at_dash; exact Hs|]. split; [apply (full_cons o [45; 32]), F|].
        cbn [app]. unfold indent_of at 1. rewrite ends_snoc. cbn [N.eqb Pos.eqb app].
        pose proof (full_break B errs n met k o (32 :: s) (full_cons o [32] s F)) as L. eapply eq_trans; [apply f_equal; apply L|].
        subst B. unfold lined. rewrite <- !app_assoc. reflexivity.
    - destruct (He B errs n [32] met k) as (s1 & nl & Ha & Hn & E). rewrite E. cbn [obind]. clear E.
      unfold decrease, with_indent; cbn [ws_buf ws_errors ws_indent ws_complex ws_simple ws_met ws_keeper]. replace (n + 2 - 2)%nat with n by lia.
      exists true, (45 :: (32 :: s1) ++ [10]). split; [constructor; apply Ha|]. split; [apply (full_true (45 :: 32 :: s1))|].
      rewrite line_break_done; [subst B; unfold lined; rewrite <- !app_assoc; cbn [app]; rewrite app_nil_r; reflexivity|].
      intro H. destruct (Hn H) as (a & x & -> & Hx). exists (32 :: a), x. auto.
  Qed.
  Lemma pair_done e : writes_entry e -> forall n buf errs met k, exists o s, entry_text o false n (reread e) s /\ full o s /\
    each_pair (mkWS buf errs n [] [] met k) (vis e) = Done (mkWS (buf ++ indent_of buf n ++ lined o s) errs n [] [] met k).
  Proof.
    intros He n buf errs met k. unfold each_pair. rewrite indentation_done.
    destruct (He (buf ++ indent_of buf n) errs n met k) as (o & s & u & Hs & F & E & L). rewrite E. cbn [obind]. rewrite L.
    exists o, s. split; [exact Hs|]. split; [exact F|]. rewrite <- !app_assoc. reflexivity.
  Qed.

  Lemma literal_out v lines : forall w : @wstate K, ws_indent w = v ->
    fold_left (fun w l => let w := put [10%N] w in match l with [] => w | _ => put l (write_indentation w) end) lines w =
    put (concat (map (line_out v) lines)) w.
  Proof.
    induction lines as [|l lines IH]; intros [b e i c s m k] Hi; cbn in Hi; subst i; [unfold put; cbn; rewrite app_nil_r; reflexivity|].
    cbn [fold_left]. rewrite IH; [|destruct l; reflexivity]. unfold put, write_indentation, line_out. destruct l; cbn; rewrite <- !app_assoc; reflexivity.
  Qed.
  Lemma many_multi s : many_lines s -> w_multiline s = true.
  Proof.
    intros [a w k _ Hw Hk]. unfold w_multiline, rune_in. apply existsb_exists. exists 10. split; [|reflexivity]. apply in_or_app. right.
    destruct Hw as [|j s2 w _ _]; [|left; reflexivity]. destruct k; [destruct Hk; congruence|]. left. reflexivity.
  Qed.
  Lemma block_text v s : many_lines s -> exists s1 (nl : bool), (forall n, (n <= v)%nat -> literal_text n (NText s UnknownQuoting) (s1 ++ [10])) /\ (nl = false -> ends_word s1) /\
    [124; match last (split_lines s) [] with [] => 43 | _ => 45 end] ++ concat (map (line_out v) (split_lines s)) = s1 ++ if nl then [10] else [].
  Proof.
    intros [a w k Ha Hw Hk]. destruct (lines_written v k w Hw) as (r & Hr & L). destruct (L a (line_clean a Ha)) as (L1 & L2 & L3).
    unfold text, rune in *. rewrite L1, L2. clear L L1 L2. destruct k as [|k]; cbn [Nat.eqb repeat].
    - exists ([124; 45] ++ [] ++ [10] ++ spaces v ++ a ++ r), false. split; [|split; [intros _; apply (word_after ([124; 45] ++ [] ++ [10])), word_after, L3|]].
      + intros n Hn. pose proof (li_lines n v (fun _ => []) [124; 45] [] [10] a w r 0 [] Hn (hd_strip 124) (tr_blank 0) br_lf Ha Hr (hw_none v)) as X.
        replace (([124; 45] ++ [] ++ [10] ++ spaces v ++ a ++ r) ++ [10]) with ([124; 45] ++ [] ++ [10] ++ spaces v ++ a ++ r ++ [10]); [exact X|].
        cbn. rewrite <- !app_assoc. reflexivity.
      + rewrite !app_nil_r. reflexivity.
    - exists ([124; 43] ++ [] ++ [10] ++ spaces v ++ a ++ r ++ repeat 10 k), true.
      assert (E : ([124; 43] ++ [] ++ [10] ++ spaces v ++ a ++ r ++ repeat 10 k) ++ [10] = [124; 43] ++ [] ++ [10] ++ spaces v ++ a ++ r ++ 10 :: repeat 10 k)
        by (rewrite breaks_snoc; cbn; rewrite <- !app_assoc; reflexivity).
      unfold text, rune in *. split; [|split; [discriminate|rewrite E; reflexivity]].
      intros n Hn. rewrite E. exact (li_lines n v (fun k => repeat 10 (S k)) [124; 43] [] [10] a w r k (repeat 10 k) Hn (hd_keep 124) (tr_blank 0) br_lf Ha Hr (breaks_hollow v k)).
  Qed.
  Lemma block_visit s : many_lines s -> forall n, exists s1 (nl : bool), literal_text (S n) (NText s UnknownQuoting) (s1 ++ [10]) /\ (nl = false -> ends_word s1) /\
    forall buf errs c met k, vis (NText s AbsentQuoting) (mkWS buf errs (n + 2) c [32] met k) =
      Done (mkWS (buf ++ (32 :: s1) ++ if nl then [10] else []) errs (n + 2) [] [] met k).
  Proof.
    intros H n. destruct (block_text (n + 2) s H) as (s1 & nl & H1 & H2 & E). exists s1, nl. split; [apply H1; lia|]. split; [exact H2|]. intros buf errs c met k.
    cbn [visit_with write_prepared write_text]. rewrite (many_multi s H). unfold write_literal. rewrite (literal_out (n + 2)) by reflexivity.
    unfold put, prepare. cbn [ws_buf ws_errors ws_indent ws_complex ws_simple ws_met ws_keeper]. do 2 f_equal.
    rewrite <- !app_assoc. f_equal. cbn [app] in *. f_equal. exact E.
  Qed.
  Lemma block_written s : many_lines s -> writes_block (NText s AbsentQuoting).
  Proof.
    intros H buf errs n c met k. destruct (block_visit s H n) as (s1 & nl & H1 & H2 & E). exists s1, nl. split; [|split; [exact H2|apply E]].
    intro kind. exact (at_literal kind n 0 _ (s1 ++ [10]) H1).
  Qed.
End Text.

Section Notes.
  Context {K : Type} (deref : node -> @wstate K -> outcome (@wstate K)).
  Notation vis := (visit_with None deref).

  Lemma writes_note p : note p -> exists ps, props_text p ps /\ valid_node p = true /\ ends_word ps /\ forall buf errs n c s0 met k,
    vis p (mkWS buf errs n c s0 met k) = Done (mkWS (buf ++ ps) errs n c s0 met k).
  Proof.
    assert (T : forall (w : text) P, w <> [] -> Forall P w -> (forall c, P c -> c <> 10) -> forall u, ends_word (u ++ w)).
    { intros w P Hw Fw HP u. destruct (exists_last Hw) as (a & x & ->). exists (u ++ a), x. split; [apply app_assoc|]. apply Forall_app in Fw. destruct Fw as [_ Fw]. inversion Fw; subst. auto. }
    assert (T1 : forall c, tag_char c -> c <> 10) by (intros c Hc ->; unfold tag_char, alnum in Hc; cbn in Hc; lia).
    assert (T2 : forall c, plain_char c -> c <> 10) by (intros c Hc ->; apply Hc; cbn; tauto).
    intros [w Hw Fw|a Ha|w a Hw Fw Ha].
    - exists (33 :: 33 :: w). split; [apply pr_tag, tg_core; assumption|]. split; [reflexivity|]. split; [apply (T w _ Hw Fw T1 [33; 33])|].
      intros. reflexivity.
    - exists (38 :: a). split; [apply pr_anchor; constructor; assumption|]. split; [reflexivity|]. split; [destruct Ha as (H1 & H2 & _); apply (T a _ H1 H2 T2 [38])|].
      intros. reflexivity.
    - exists ((33 :: 33 :: w) ++ spaces 1 ++ 38 :: a). split; [apply pr_tag_anchor; [apply tg_core; assumption|constructor; assumption]|]. split; [reflexivity|].
      split; [destruct Ha as (H1 & H2 & _); pose proof (T a _ H1 H2 T2 ((33 :: 33 :: w) ++ [32; 38])) as E; rewrite <- app_assoc in E; exact E|].
      intros. transitivity (Done (mkWS (((buf ++ 33 :: 33 :: w) ++ [32]) ++ 38 :: a) errs n c s0 met k)); [reflexivity|]. rewrite <- !app_assoc. reflexivity.
  Qed.
  Lemma content_visit p ps t : valid_node p = true -> (forall buf errs n c s0 met k, vis p (mkWS buf errs n c s0 met k) = Done (mkWS (buf ++ ps) errs n c s0 met k)) ->
    forall buf errs n c s0 met k, vis (NContent p t) (mkWS buf errs n c s0 met k) = vis t (mkWS ((buf ++ [32]) ++ ps) errs n c s0 met k).
  Proof.
    intros V H buf errs n c s0 met k. cbn [visit_with write_prepared]. rewrite V. unfold put. cbn [ws_buf ws_errors ws_indent ws_complex ws_simple ws_met ws_keeper].
    rewrite H. reflexivity.
  Qed.
  Lemma marked_word p t : note p -> simple_scalar t -> writes None deref false (NContent p t) [32].
  Proof.
    intros Hp Ht buf errs n c met k. left. destruct (writes_note p Hp) as (ps & H1 & V & H2 & H3).
    destruct (writes_scalar None deref t Ht ((buf ++ [32]) ++ ps) errs n c [32] met k) as (s & Hs & E).
    exists (ps ++ spaces 1 ++ s). split; [intros [|] es; discriminate|]. split; [intro m; apply lt_props; [exact H1|apply ba_scalar, Hs]|]. split.
    - destruct (scalar_last _ _ Hs) as (a & x & -> & Hx). exists (ps ++ 32 :: a), x. split; [rewrite <- app_assoc; reflexivity|exact Hx].
    - rewrite (content_visit p ps t V H3), E, <- !app_assoc. reflexivity.
  Qed.
  Lemma weaker t s0 : writes None deref false t s0 -> writes None deref true t s0.
  Proof.
    intros H buf errs n c met k. destruct (H buf errs n c met k) as [A|(o & pre & kind & es & s & [B|[D _]] & R)]; [left; exact A| |discriminate D].
    right. exists o, pre, kind, es, s. split; [left; exact B|exact R].
  Qed.
  Lemma marked_any p t : note p -> noted t -> (forall a, t <> NAlias a) -> writes None deref false t [32] -> writes None deref true (NContent p t) [32].
  Proof.
    intros Hp Ht Ha Hw buf errs n c met k. inversion Ht as [t0 Hs|a Hp2|es Hne Hes|es Hne Hes]; subst; [apply weaker, marked_word; assumption|destruct (Ha a eq_refl)| |].
    all: right; destruct (writes_note p Hp) as (ps & H1 & V & H2 & H3);
      destruct (Hw ((buf ++ [32]) ++ ps) errs n c met k) as [(s & L & _)|(o & pre & kind & es2 & s & [[-> R]|[D _]] & Es & F & E)]; [|exists o, (32 :: ps), kind, es2, s|discriminate D].
    1: destruct (L true (map reread es) eq_refl).
    2: destruct (L false (map reread es) eq_refl).
    all: split; [right; split; [reflexivity|]; exists p, ps; cbn [reread] in R |- *; rewrite <- R; auto|]; split; [exact Es|]; split; [exact F|].
    all: rewrite (content_visit p ps _ V H3), E, <- !app_assoc; reflexivity.
  Qed.

  Lemma marked_block p s : note p -> many_lines s -> writes_block None deref (NContent p (NText s AbsentQuoting)).
  Proof.
    intros Hp H buf errs n c met k. destruct (writes_note p Hp) as (ps & P1 & V & _ & P3). destruct (block_visit None deref s H n) as (s1 & nl & H1 & H2 & E).
    exists (ps ++ 32 :: s1), nl. split; [|split].
    - intro kind. pose proof (at_marked_literal kind n 0 p ps 0 _ (s1 ++ [10]) P1 H1) as X. rewrite <- app_assoc. exact X.
    - intro D. apply (word_after ps), (word_after [32]), H2, D.
    - rewrite (content_visit p ps _ V P3), E. do 2 f_equal. rewrite <- !app_assoc. cbn [app]. rewrite <- !app_assoc. reflexivity.
  Qed.
  Definition all_written (t : node) : Prop :=
    (noted t -> forall s0, writes None deref false t s0) /\ (noted_item t -> writes None deref false t [32] \/ writes_block None deref t) /\
    (noted_entry t -> writes_entry None deref t) /\ (noted_value t -> writes None deref true t [32] \/ writes_block None deref t).
  Lemma others t : (noted t -> forall s0, writes None deref false t s0) -> (forall k v, t <> NEntry k v) -> (forall p c, t <> NContent p c) -> all_written t.
  Proof.
    intros N E C. split; [exact N|]. split; [|split].
    - intro H. inversion H; subst; [left; apply N; assumption|edestruct C; reflexivity|right; apply block_written; assumption|edestruct C; reflexivity].
    - intro H. inversion H; subst. edestruct E; reflexivity.
    - intro H. inversion H; subst; [left; apply weaker, N; assumption|edestruct C; reflexivity|right; apply block_written; assumption|edestruct C; reflexivity].
  Qed.
  Lemma not_noted t : (forall s, t <> NAlias s) -> (forall es, t <> NSequence es) -> (forall es, t <> NMapping es) -> noted t -> simple_scalar t.
  Proof. intros A S M H. inversion H; subst; [assumption|edestruct A|edestruct S|edestruct M]; reflexivity. Qed.
  Theorem written t : all_written t.
  Proof.
    assert (Sc : forall t, simple_scalar t -> forall s0, writes None deref false t s0).
    { intros t0 H s0 buf errs n c met k. left. destruct (writes_scalar None deref t0 H buf errs n c s0 met k) as (s & Hs & E).
      exists s. split; [intros [|] es D; rewrite D in Hs; inversion Hs|]. split; [intro m; apply lt_scalar, Hs|]. split; [eapply scalar_last, Hs|exact E]. }
    induction t using node_ind'.
    all: try (apply others; [intro Hs; apply Sc; apply not_noted; [| | |exact Hs]|..]; discriminate).
    - apply others; [|discriminate|discriminate]. intros Hs s0 buf errs n c met k. left. inversion Hs as [t0 Hsc|a Ha| |]; subst; [inversion Hsc|].
      exists (42 :: s). split; [intros [|] es; discriminate|]. split; [intro m; apply lt_alias, Ha|]. split.
      + destruct Ha as (H1 & H2 & _). destruct (exists_last H1) as (a & x & ->). exists (42 :: a), x. split; [reflexivity|].
        apply Forall_app in H2. destruct H2 as [_ H2]. inversion H2 as [|y l Hx _]; subst. intros ->. apply Hx; cbn; tauto.
      + cbn [visit_with write_prepared]. unfold put, prepare. cbn [ws_buf ws_errors ws_indent ws_complex ws_simple ws_met ws_keeper]. rewrite <- app_assoc. reflexivity.
    - assert (N : ~ noted (NContent t1 t2)) by (intro Hs; inversion Hs as [t0 Hsc| | |]; subst; inversion Hsc).
      split; [intro Hs; destruct (N Hs)|]. split; [|split].
      + intro Hs. inversion Hs; subst; [destruct N; assumption|left; apply marked_word; assumption|right; apply marked_block; assumption].
      + intro Hs. inversion Hs.
      + intro Hs. inversion Hs; subst; [destruct N; assumption| |right; apply marked_block; assumption]. left. apply marked_any; auto. exact (proj1 IHt2 H2 [32]).
    - apply others; [|discriminate|discriminate]. intros Hs s0 buf errs n c met k. right. inversion Hs as [t0 Hsc| |es Hne Hall|]; subst; [inversion Hsc|].
      rewrite seq_unfold. cbn [write_prepared]. unfold prepare, put. cbn [ws_buf ws_errors ws_indent ws_complex ws_simple ws_met ws_keeper].
      destruct (entries_done None deref (each_item) true n l Hne) with (buf := buf ++ c) (errs := errs) (met := met) (k := k) as (o & s & H1 & F & H2).
      { intros e He. apply item_done. rewrite Forall_forall in H, Hall. apply H; auto. }
      exists o, [], true, (map reread l), s. split; [left; split; reflexivity|]. split; [exact H1|]. split; [exact F|]. cbn [app]. rewrite H2, <- app_assoc. reflexivity.
    - apply others; [|discriminate|discriminate]. intros Hs s0 buf errs n c met k. right. inversion Hs as [t0 Hsc| | |es Hne Hall]; subst; [inversion Hsc|].
      rewrite map_unfold. cbn [write_prepared]. unfold prepare, put. cbn [ws_buf ws_errors ws_indent ws_complex ws_simple ws_met ws_keeper].
      destruct (entries_done None deref (each_pair) false n l Hne) with (buf := buf ++ c) (errs := errs) (met := met) (k := k) as (o & s & H1 & F & H2).
      { intros e He. apply pair_done. rewrite Forall_forall in H, Hall. apply H; auto. }
      exists o, [], false, (map reread l), s. split; [left; split; reflexivity|]. split; [exact H1|]. split; [exact F|]. cbn [app]. rewrite H2, <- app_assoc. reflexivity.
    - assert (N : ~ noted (NEntry t1 t2)) by (intro Hs; inversion Hs as [t0 Hsc| | |]; subst; inversion Hsc).
      split; [intro Hs; destruct (N Hs)|]. split; [intro Hs; inversion Hs; subst; destruct N; assumption|]. split; [|intro Hs; inversion Hs; subst; destruct N; assumption].
      intro Hs. inversion Hs as [k0 v0 Hk Hv]; subst. destruct IHt2 as (_ & _ & _ & IHv). specialize (IHv Hv). intros buf errs n met k.
      destruct (writes_scalar None deref t1 Hk buf errs n [] [] met k) as (ks & Hks & Ek). cbn [app] in Ek.
      cbn [visit_with]. rewrite (key_simple _ Hk). cbn [obind]. rewrite Ek. cbn [obind].
      unfold increase, put, with_indent, prepare. cbn [ws_buf ws_errors ws_indent ws_complex ws_simple ws_met ws_keeper].
      set (B := (buf ++ ks) ++ t' ":").
      assert (Do : forall u, decrease (mkWS u errs (n + 2) [] [] met k) = mkWS u errs n [] [] met k)
        by (intro u; unfold decrease, with_indent; cbn; replace (n + 2 - 2)%nat with n by lia; reflexivity).
      destruct IHv as [IHv|IHv].
      + destruct (IHv B errs (n + 2)%nat [10] met k) as [(s & _ & Hs1 & Hw & E)|(o & pre & kind & es & s & Hp & Hs1 & F & E)]; rewrite E; cbn [obind]; clear E; rewrite Do.
        * exists false, (ks ++ 58 :: 32 :: s), (ks ++ 58 :: 32 :: s). split; [apply et_key; [exact Hks|apply at_word, Hs1]|]. split; [apply full_false|].
          split; [subst B; do 2 f_equal; rewrite <- !app_assoc; reflexivity|].
          pose proof (line_break_done buf errs n met k false (ks ++ 58 :: 32 :: s)) as L. rewrite app_nil_r in L. apply L.
          intros _. apply (word_after ks), (word_after [58; 32]), Hw.
        * assert (EB : indent_of (B ++ pre ++ [10]) (n + 2) = spaces (n + 2)) by (unfold indent_of; rewrite app_assoc, ends_snoc; reflexivity).
          assert (F2 : full o (ks ++ (58 :: pre ++ 10 :: spaces (n + 2)) ++ s)) by (do 2 apply full_cons; exact F).
          exists o, (ks ++ (58 :: pre ++ 10 :: spaces (n + 2)) ++ s), (lined o (ks ++ (58 :: pre ++ 10 :: spaces (n + 2)) ++ s)). cbn [reread].
          split; [|split; [exact F2|split; [|apply full_break, F2]]].
          -- cbn [app]. apply et_key; [exact Hks|]. rewrite <- app_assoc. cbn [app]. destruct Hp as [[-> ->]|(_ & p & ps & -> & Hps & ->)]; [apply at_next, Hs1|].
             apply (at_marked_lines o false kind n 0 p ps [10] (n + 2)); [exact Hps|exact gap_line|lia|exact Hs1].
          -- unfold text in *. rewrite EB. subst B. do 2 f_equal. unfold lined. repeat (cbn [app]; rewrite <- ?app_assoc). reflexivity.
      + destruct (IHv B errs n [10] met k) as (s1 & nl & Ha & Hn & E). rewrite E. cbn [obind]. clear E. rewrite Do.
        exists true, (ks ++ 58 :: 32 :: s1 ++ [10]), ((ks ++ 58 :: 32 :: s1) ++ if nl then [10] else []). split; [apply et_key; [exact Hks|apply Ha]|].
        replace (ks ++ 58 :: 32 :: s1 ++ [10]) with ((ks ++ 58 :: 32 :: s1) ++ [10]) by (rewrite <- app_assoc; reflexivity).
        split; [apply full_true|]. split; [subst B; do 2 f_equal; rewrite <- !app_assoc; reflexivity|].
        rewrite line_break_done; [unfold lined; rewrite app_nil_r; reflexivity|]. intro D. apply (word_after ks), (word_after [58; 32]), Hn, D.
  Qed.
End Notes.

Lemma simple_noted t : (simple t -> noted t) /\ (simple_entry t -> noted_entry t).
Proof.
  induction t using node_ind'; (split; intro Hs; inversion Hs; subst; try (apply noted_scalar; assumption)).
  - apply noted_sequence; [assumption|]. rewrite Forall_forall in *. intros x Hx. apply item_bare, H; auto.
  - apply noted_mapping; [assumption|]. rewrite Forall_forall in *. intros x Hx. apply H; auto.
  - constructor; [assumption|]. apply value_bare, IHt2. assumption.
Qed.

Theorem serialized_text t : noted t -> exists s, serialized t = OutText s /\ document_text (reread t) s.
Proof.
  intro H. destruct (proj1 (written (K := unit) (fun _ _ => NoFuel) t) H [] [] [] 0%nat [] [] tt)
    as [(s & _ & Hs & _ & E)|(o & pre & kind & es & s & [[-> R]|[D _]] & Hs & F & E)]; [| |discriminate D]; cbn [app] in E.
  - exists s. split; [|apply leaf_document, Hs].
    unfold serialized, yw_string, w_write_string, w_write. cbn [visit]. unfold w_reset, new_writer. cbn [wr_state ws_keeper]. rewrite E. reflexivity.
  - exists (lined o s). split; [|rewrite R].
    + unfold serialized, yw_string, w_write_string, w_write. cbn [visit]. unfold w_reset, new_writer. cbn [wr_state ws_keeper]. rewrite E. reflexivity.
    + destruct o; [|apply lines_document; exact Hs]. destruct F as [a E2]. unfold lined in *. rewrite app_nil_r in *.
      rewrite <- (app_nil_r s). apply (sm_plain true [] (build kind es) s [] []); [constructor|exact (ls_entries true kind 0 es s Hs)|apply dn_end, en_none|].
      intros _ (u & E3 & _). rewrite E2 in E3. apply app_inj_tail in E3. destruct E3. discriminate.
Qed.
