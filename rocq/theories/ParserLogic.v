(** A logic for the parser's programs: every request is described by what it may do to the number of
    tokens left, to the checkpoints and to the current token.  [wp p Q g] means that [p] started in
    [g] finishes, never runs out of fuel, never rolls back or commits without a checkpoint, never goes
    back behind a byte order mark it has read, and ends in a situation with [Q].  [wp_sound] says
    what this means for the checkpointing accessor. *)
From Verif Require Import Base Token CPAccessor CPAccessorSpec CPAccessorProofs LexerSpec Parser.

Definition is_bom (t : token) : bool := match tok_type t with TBOM => true | _ => false end.
(** tokens that cost one unit *)
Definition cost (t : token) : nat := if is_eof t then 0 else 1.

(** [g_left]: at most so many tokens other than the end of input are still to be read; [g_cps]: the
    same and the current token for each checkpoint; [g_dead]: so many of the oldest checkpoints must
    not be rolled back to. *)
Record ghost := mkG { g_left : nat; g_tok : token; g_cps : list (nat * token); g_dead : nat }.

Section Logic.
  (** what is known about every token of the stream *)
  Context (tok_ok : token -> Prop).

  Definition next_pre (g : ghost) : Prop := is_bom (g_tok g) = false -> g_cps g <> [].
  Definition next_post (t : token) (g : ghost) : ghost :=
    mkG (g_left g - cost t) t (g_cps g) (if is_bom (g_tok g) then length (g_cps g) else g_dead g).
  Definition set_post (g : ghost) : ghost :=
    mkG (g_left g) (g_tok g) ((g_left g, g_tok g) :: g_cps g) (g_dead g).
  Definition commit_post (g : ghost) : ghost :=
    mkG (g_left g) (g_tok g) (tl (g_cps g)) (Nat.min (g_dead g) (length (g_cps g) - 1)).
  Definition back_post (e : nat * token) (rest : list (nat * token)) (g : ghost) : ghost :=
    mkG (fst e) (snd e) rest (g_dead g).

  Fixpoint wp {A} (p : prog A) (Q : A -> ghost -> Prop) (g : ghost) : Prop :=
    match p with
    | Ret a => Q a g
    | Stuck => False
    | Next k => next_pre g /\ forall t, tok_ok t -> cost t <= g_left g -> wp (k t) Q (next_post t g)
    | SetCp k => wp k Q (set_post g)
    | Commit k => g_cps g <> [] /\ wp k Q (commit_post g)
    | Rollback k =>
        match g_cps g with
        | [] => False
        | e :: rest => g_dead g < length (g_cps g) /\ wp (k (snd e)) Q (back_post e rest g)
        end
    | Raw _ k => wp k Q g
    end.

  Lemma wp_mono {A} (p : prog A) : forall (Q Q' : A -> ghost -> Prop) g, (forall a g', Q a g' -> Q' a g') -> wp p Q g -> wp p Q' g.
  Proof.
    induction p as [a| |k IH|k IH|k IH|k IH|b k IH]; intros Q Q' g HQ; cbn; auto.
    - intros [H0 H]. split; [exact H0|]. intros t H1 H2. eapply IH; [exact HQ|]. apply H; assumption.
    - apply IH, HQ.
    - intros [H0 H]. split; [exact H0|]. eapply IH; [exact HQ|exact H].
    - destruct (g_cps g); [tauto|]. intros [H0 H]. split; [exact H0|]. eapply IH; [exact HQ|exact H].
    - apply IH, HQ.
  Qed.

  Lemma wp_bind {A B} (p : prog A) : forall (f : A -> prog B) (Q : B -> ghost -> Prop) g,
    wp p (fun a g' => wp (f a) Q g') g -> wp (pbind p f) Q g.
  Proof.
    induction p as [a| |k IH|k IH|k IH|k IH|b k IH]; intros f Q g; cbn; auto.
    - intros [H0 H]. split; [exact H0|]. intros t H1 H2. apply IH. apply H; assumption.
    - intros [H0 H]. split; [exact H0|]. apply IH, H.
    - destruct (g_cps g); [tauto|]. intros [H0 H]. split; [exact H0|]. apply IH, H.
  Qed.

  (** ** What it means for the accessor *)
  Context {S : Type} (st : stream S) (zero : token).
  (** [bounded n s]: the stream in state [s] gives at most [n] tokens other than the end of input *)
  Context (bounded : nat -> S -> Prop).
  Hypothesis bounded_next : forall n s, bounded n s ->
    tok_ok (fst (st_next st s)) /\ cost (fst (st_next st s)) <= n /\
    bounded (n - cost (fst (st_next st s))) (snd (st_next st s)).
  Hypothesis bounded_raw : forall n b s, bounded n s -> bounded n (st_raw st b s).

  Hypothesis zero_plain : is_bom zero = false.

  Definition costs (l : list token) : nat := list_sum (map cost l).

  Lemma costs_app a b : costs (a ++ b) = costs a + costs b.
  Proof. unfold costs. rewrite map_app. apply list_sum_app. Qed.

  (** the lowest position that may be returned to *)
  Definition lowest (pos : nat) (stk : list nat) (dead : nat) : nat :=
    last (firstn (length stk - dead) stk) pos.

  Fixpoint sorted_from (hi : nat) (l : list nat) : Prop :=
    match l with [] => True | p :: l' => p <= hi /\ sorted_from p l' end.

  Record good (c : cursor S token) (g : ghost) : Prop := {
    gd_stream : exists n, bounded n (cur_stream c) /\
      costs (skipn (cur_pos c) (cur_hist c)) + n <= g_left g /\
      Forall2 (fun p e => costs (skipn p (cur_hist c)) + n <= fst e /\
                          cur_last zero (mkCur (cur_stream c) (cur_hist c) p []) = snd e)
              (cur_stack c) (g_cps g);
    gd_tok : cur_last zero c = g_tok g;
    gd_pos : cur_pos c <= length (cur_hist c);
    gd_sorted : sorted_from (cur_pos c) (cur_stack c);
    gd_dead : g_dead g <= length (cur_stack c);
    gd_ok : Forall tok_ok (cur_hist c);
    gd_bom : forall i, lowest (cur_pos c) (cur_stack c) (g_dead g) <= i + 1 ->
             i + 1 < length (cur_hist c) -> is_bom (nth i (cur_hist c) zero) = false
  }.

  (** the same program over the plain cursor *)
  Fixpoint run_cur {A} (p : prog A) (c : cursor S token) : ran (cursor S token) A :=
    let op o := snd (cur_step (st_next st) zero c o) in
    match p with
    | Ret x => Fin x c
    | Stuck => OutOfFuel
    | Next k => let '(t, c') := cur_next (st_next st) c in run_cur (k t) c'
    | SetCp k => run_cur k (op OpSetCheckpoint)
    | Commit k => run_cur k (op OpCommit)
    | Rollback k => let c' := op OpRollback in run_cur (k (cur_last zero c')) c'
    | Raw b k => run_cur k (op (OpTouch (st_raw st b)))
    end.

  Lemma sorted_le l : forall hi p, sorted_from hi l -> In p l -> p <= hi.
  Proof.
    induction l as [|x l IH]; intros hi p H; cbn; [tauto|]. destruct H as [H1 H2].
    intros [->|Hin]; [exact H1|]. specialize (IH _ _ H2 Hin). lia.
  Qed.
  Lemma sorted_weaken l hi hi' : hi <= hi' -> sorted_from hi l -> sorted_from hi' l.
  Proof. destruct l; cbn; [tauto|]. intros ? [? ?]. split; [lia|assumption]. Qed.

  Lemma last_In {A} (l : list A) d : l <> [] -> In (last l d) l.
  Proof.
    intro H. destruct (exists_last H) as (l' & x & ->). rewrite last_last. apply in_or_app. right. left. reflexivity.
  Qed.
  Lemma last_default {A} (l : list A) d d2 : l <> [] -> last l d = last l d2.
  Proof. intro H. destruct (exists_last H) as (l' & x & ->). rewrite !last_last. reflexivity. Qed.

  Lemma firstn_incl {A} (l : list A) : forall n x, In x (firstn n l) -> In x l.
  Proof.
    induction l as [|y l IH]; intros [|n] x; cbn; try tauto.
    intros [->|H]; [left; reflexivity|right; apply (IH n), H].
  Qed.

  Lemma lowest_le pos stk dead : sorted_from pos stk -> lowest pos stk dead <= pos.
  Proof.
    intro H. unfold lowest.
    destruct (firstn (length stk - dead) stk) as [|x l] eqn:E; [cbn; lia|].
    apply (sorted_le stk); [exact H|]. apply (firstn_incl stk (length stk - dead)).
    rewrite E. apply last_In. congruence.
  Qed.

  Lemma lowest_pos pos pos2 stk dead : pos <= pos2 -> lowest pos stk dead <= lowest pos2 stk dead.
  Proof.
    intro H. unfold lowest. destruct (firstn (length stk - dead) stk) as [|x l] eqn:E; [exact H|].
    rewrite (last_default (x :: l) pos pos2) by congruence. lia.
  Qed.

  Lemma lowest_dead pos stk : lowest pos stk (length stk) = pos.
  Proof. unfold lowest. rewrite Nat.sub_diag. reflexivity. Qed.

  Lemma lowest_push pos stk dead : dead <= length stk -> lowest pos (pos :: stk) dead = lowest pos stk dead.
  Proof.
    intro H. unfold lowest. cbn [length].
    replace (Datatypes.S (length stk) - dead) with (Datatypes.S (length stk - dead)) by lia.
    cbn [firstn]. destruct (firstn (length stk - dead) stk); reflexivity.
  Qed.

  Lemma lowest_pop pos p stk dead :
    p <= pos -> lowest pos (p :: stk) dead <= lowest pos stk (Nat.min dead (length stk)).
  Proof.
    intro H. unfold lowest. cbn [length].
    destruct (le_lt_dec dead (length stk)) as [Hd|Hd].
    - rewrite Nat.min_l by exact Hd.
      replace (Datatypes.S (length stk) - dead) with (Datatypes.S (length stk - dead)) by lia.
      cbn [firstn]. destruct (firstn (length stk - dead) stk) as [|x l] eqn:E; [cbn; lia|].
      cbn [last]. change (match l with [] => x | _ :: _ => last l pos end) with (last (x :: l) pos).
      lia.
    - rewrite Nat.min_r by lia. rewrite Nat.sub_diag.
      replace (Datatypes.S (length stk) - dead) with 0 by lia. cbn. lia.
  Qed.

  Lemma lowest_back pos p stk dead :
    dead < Datatypes.S (length stk) -> lowest pos (p :: stk) dead = lowest p stk dead.
  Proof.
    intro H. unfold lowest. cbn [length].
    replace (Datatypes.S (length stk) - dead) with (Datatypes.S (length stk - dead)) by lia.
    cbn [firstn]. destruct (firstn (length stk - dead) stk) as [|x l] eqn:E; [reflexivity|].
    cbn [last]. change (match l with [] => x | _ :: _ => last l pos end) with (last (x :: l) pos).
    change (match l with [] => x | _ :: _ => last l p end) with (last (x :: l) p).
    apply last_default. congruence.
  Qed.

  Lemma skipn_costs h : forall p v, nth_error h p = Some v -> costs (skipn p h) = cost v + costs (skipn (p + 1) h).
  Proof.
    induction h as [|x h IH]; intros [|p] v; cbn [nth_error]; try discriminate.
    - intros [= ->]. reflexivity.
    - intro H. cbn [skipn Nat.add]. apply IH, H.
  Qed.

  Lemma costs_snoc h p v : p <= length h -> costs (skipn p (h ++ [v])) = costs (skipn p h) + cost v.
  Proof.
    intro H. rewrite skipn_app. replace (p - length h) with 0 by lia. rewrite costs_app. f_equal. unfold costs. cbn. lia.
  Qed.

  Lemma Forall2_len {A B} (P : A -> B -> Prop) l1 l2 : Forall2 P l1 l2 -> length l1 = length l2.
  Proof. induction 1; cbn; congruence. Qed.

  Lemma Forall2_weak {A B} (P Q : A -> B -> Prop) l1 l2 :
    (forall x y, In x l1 -> P x y -> Q x y) -> Forall2 P l1 l2 -> Forall2 Q l1 l2.
  Proof.
    intros H HF. induction HF; constructor; [apply H; [left; reflexivity|assumption]|].
    apply IHHF. intros a b Hin. apply H. right. exact Hin.
  Qed.

  Local Arguments lowest : simpl never.

  Lemma good_next c g :
    good c g -> next_pre g ->
    tok_ok (fst (cur_next (st_next st) c)) /\ cost (fst (cur_next (st_next st) c)) <= g_left g /\
    good (snd (cur_next (st_next st) c)) (next_post (fst (cur_next (st_next st) c)) g) /\
    (cur_stack c = [] -> cur_pos c + 1 <> length (cur_hist c)).
  Proof.
    intros [(n & Hb & Hl & Hst) Htok Hpos Hsort Hdead Hok Hbom] Hpre.
    destruct c as [cs hist pos stk]. cbn [cur_stream cur_hist cur_pos cur_stack] in *.
    assert (Hlen : length stk = length (g_cps g)) by (eapply Forall2_len; exact Hst).
    assert (Hnobom : is_bom (g_tok g) = true -> pos = length hist).
    { intro Hb2. rewrite <- Htok in Hb2. unfold cur_last in Hb2. cbn in Hb2.
      destruct pos as [|p]; [congruence|].
      destruct (Nat.eq_dec (Datatypes.S p) (length hist)) as [E|E]; [exact E|]. exfalso.
      rewrite (Hbom p) in Hb2; [discriminate| |lia].
      pose proof (lowest_le _ _ (g_dead g) Hsort). lia. }
    assert (Hfresh : stk = [] -> pos + 1 <> length hist).
    { intro E. destruct (is_bom (g_tok g)) eqn:Eb; [rewrite Hnobom by reflexivity; lia|].
      exfalso. apply (Hpre Eb). destruct (g_cps g); [reflexivity|]. rewrite E in Hlen. discriminate. }
    unfold cur_next. cbn.
    destruct (nth_error hist pos) as [v|] eqn:Ev.
    - cbn [fst snd].
      assert (Hlt : pos < length hist) by (apply nth_error_Some; congruence).
      rewrite (skipn_costs _ _ _ Ev) in Hl.
      assert (Eb : is_bom (g_tok g) = false) by (destruct (is_bom (g_tok g)); [specialize (Hnobom eq_refl); lia|reflexivity]).
      split; [rewrite Forall_forall in Hok; apply Hok; eapply nth_error_In; exact Ev|].
      split; [lia|]. split; [|exact Hfresh].
      unfold next_post. rewrite Eb.
      constructor; cbn [cur_stream cur_hist cur_pos cur_stack g_left g_tok g_cps g_dead]; try assumption.
      + exists n. split; [exact Hb|]. split; [lia|exact Hst].
      + unfold cur_last. cbn. replace (pos + 1) with (Datatypes.S pos) by lia. apply nth_error_nth. exact Ev.
      + lia.
      + apply (sorted_weaken _ pos); [lia|exact Hsort].
      + intros i Hi. apply Hbom. pose proof (lowest_pos pos (pos + 1) stk (g_dead g)). lia.
    - assert (Hend : pos = length hist) by (apply nth_error_None in Ev; lia).
      destruct (bounded_next _ _ Hb) as (Ht & Hc & Hb').
      destruct (st_next st cs) as [v s'] eqn:Es. cbn [fst snd] in *.
      rewrite Hend, skipn_all in Hl. cbn in Hl.
      split; [exact Ht|]. split; [lia|]. split; [|exact Hfresh].
      assert (Hsub : forall p, In p stk -> p <= length hist) by (intros p Hin; pose proof (sorted_le _ _ _ Hsort Hin); lia).
      unfold next_post.
      constructor; cbn [cur_stream cur_hist cur_pos cur_stack g_left g_tok g_cps g_dead].
      + exists (n - cost v). split; [exact Hb'|].
        split.
        * rewrite skipn_all2; [cbn; lia|]. rewrite app_length. cbn. lia.
        * eapply Forall2_weak; [|exact Hst]. cbn. intros p e Hin [H1 H2].
          specialize (Hsub _ Hin). split.
          -- rewrite costs_snoc by exact Hsub. lia.
          -- unfold cur_last in *. cbn in *. destruct p; [exact H2|]. rewrite app_nth1 by lia. exact H2.
      + unfold cur_last. cbn. replace (pos + 1) with (Datatypes.S (length hist)) by lia.
        rewrite app_nth2 by lia. rewrite Nat.sub_diag. reflexivity.
      + rewrite app_length. cbn. lia.
      + apply (sorted_weaken _ pos); [lia|exact Hsort].
      + destruct (is_bom (g_tok g)); [lia|exact Hdead].
      + apply Forall_app. split; [exact Hok|]. constructor; [exact Ht|constructor].
      + intros i. rewrite app_length. cbn [length]. intros Hi Hi2.
        destruct (is_bom (g_tok g)) eqn:Eb.
        * rewrite <- Hlen, lowest_dead in Hi. lia.
        * rewrite app_nth1 by lia.
          destruct (Nat.eq_dec (i + 1) (length hist)) as [E|E].
          -- rewrite <- Htok in Eb. unfold cur_last in Eb. cbn in Eb. rewrite Hend, <- E in Eb.
             rewrite Nat.add_1_r in Eb. exact Eb.
          -- apply Hbom; [|lia]. pose proof (lowest_pos pos (pos + 1) stk (g_dead g)). lia.
  Qed.

  Lemma good_set c g : good c g ->
    good (snd (cur_step (st_next st) zero c OpSetCheckpoint)) (set_post g).
  Proof.
    intros [(n & Hb & Hl & Hst) Htok Hpos Hsort Hdead Hok Hbom].
    constructor; cbn; try assumption.
    - exists n. split; [exact Hb|]. split; [exact Hl|]. constructor; [|exact Hst]. split; [exact Hl|exact Htok].
    - split; [lia|exact Hsort].
    - lia.
    - rewrite lowest_push by exact Hdead. exact Hbom.
  Qed.

  Lemma good_commit c g : good c g -> g_cps g <> [] ->
    good (snd (cur_step (st_next st) zero c OpCommit)) (commit_post g).
  Proof.
    intros [(n & Hb & Hl & Hst) Htok Hpos Hsort Hdead Hok Hbom] Hne.
    assert (Hlen : length (cur_stack c) = length (g_cps g)) by (eapply Forall2_len; exact Hst).
    destruct c as [cs hist pos stk]. destruct g as [lf tk cps0 dd]. cbn in *.
    destruct Hst as [|p e stk cps Hpe Hst]; [congruence|]. cbn in *. destruct Hsort as [Hp Hsort].
    constructor; cbn; try assumption.
    - exists n. auto.
    - apply (sorted_weaken _ p); assumption.
    - lia.
    - intros i Hi. apply Hbom. rewrite Nat.sub_0_r in Hi. injection Hlen as Hlen. rewrite <- Hlen in Hi.
      pose proof (lowest_pop pos p stk dd Hp). lia.
  Qed.

  Lemma good_rollback c g e rest : good c g -> g_cps g = e :: rest -> g_dead g < length (g_cps g) ->
    good (snd (cur_step (st_next st) zero c OpRollback)) (back_post e rest g) /\
    cur_last zero (snd (cur_step (st_next st) zero c OpRollback)) = snd e /\ cur_stack c <> [].
  Proof.
    intros [(n & Hb & Hl & Hst) Htok Hpos Hsort Hdead Hok Hbom] Hne Hlive.
    assert (Hlen : length (cur_stack c) = length (g_cps g)) by (eapply Forall2_len; exact Hst).
    destruct c as [cs hist pos stk]. cbn [cur_stream cur_hist cur_pos cur_stack] in *. rewrite Hne in *.
    inversion Hst as [|p e' stk' rest' Hpe Hst']; subst. cbn in Hsort, Hpe, Hlive. destruct Hsort as [Hp Hsort].
    cbn [cur_step cur_stack cur_stream cur_hist cur_pos snd].
    destruct Hpe as [Hc Hlast]. unfold cur_last in Hlast |- *. cbn in *.
    split; [|split; [exact Hlast|congruence]].
    constructor; cbn; try assumption.
    - exists n. auto.
    - lia.
    - lia.
    - intros i Hi. apply Hbom. injection Hlen as Hlen. rewrite lowest_back; [exact Hi|]. lia.
  Qed.

  Lemma good_raw c g b : good c g ->
    good (snd (cur_step (st_next st) zero c (OpTouch (st_raw st b)))) g.
  Proof.
    intros [(n & Hb & Hl & Hst) Htok Hpos Hsort Hdead Hok Hbom].
    constructor; cbn; try assumption. exists n. split; [apply bounded_raw, Hb|]. split; [exact Hl|exact Hst].
  Qed.

  Theorem wp_sound {A} (p : prog A) : forall (Q : A -> ghost -> Prop) g base c a,
    wp p Q g -> good c g -> rel _ _ base c a -> saved_ok _ _ zero (Some false) base c a ->
    exists x c' a' g', run_acc st p a = Fin x a' /\ run_cur p c = Fin x c' /\ Q x g'.
  Proof.
    induction p as [x| |k IH|k IH|k IH|k IH|b k IH]; intros Q g base c a Hwp Hg HR HS; cbn in Hwp.
    - exists x, c, a, g. auto.
    - destruct Hwp.
    - destruct Hwp as [Hpre Hwp].
      destruct (good_next _ _ Hg Hpre) as (Ht & Hc & Hg' & Hfr).
      destruct (step_next _ _ (st_next st) zero _ _ _ _ HR HS) as (base' & HR' & HO & HS').
      cbn in HR', HO, HS'. cbn [run_acc run_cur].
      destruct (cur_next (st_next st) c) as [t c'] eqn:Ec. cbn [fst snd] in *.
      destruct (acc_next (st_next st) a) as [[t2 a']|] eqn:Ea; [|discriminate].
      cbn [fst snd] in *. injection HO as ->.
      apply (IH t Q _ base' c' a' (Hwp t Ht Hc) Hg' HR').
      destruct (cur_stack c) eqn:Est; [|exact HS'].
      rewrite (proj2 (Nat.eqb_neq _ _) (Hfr eq_refl)) in HS'. exact HS'.
    - destruct (step_set _ _ (st_next st) zero _ _ _ _ HR HS) as (HR' & HS').
      cbn [run_acc run_cur].
      apply (IH Q _ base _ _ Hwp (good_set _ _ Hg) HR'). apply HS'. discriminate.
    - destruct Hwp as [Hne Hwp].
      destruct (step_commit _ _ (st_next st) zero _ _ _ _ HR HS) as (base' & HR' & HS').
      cbn [run_acc run_cur].
      apply (IH Q _ base' _ _ Hwp (good_commit _ _ Hg Hne) HR' HS').
    - destruct (g_cps g) as [|e rest] eqn:Ecps; [destruct Hwp|]. destruct Hwp as [Hlive Hwp].
      rewrite <- Ecps in Hlive.
      destruct (good_rollback _ _ _ _ Hg Ecps Hlive) as (Hg' & Hlast & Hne).
      destruct (step_rollback _ _ (st_next st) zero _ _ _ _ HR HS) as (v & HO & HV & HR' & HS').
      specialize (HV Hne eq_refl). cbn [run_acc run_cur].
      cbn [acc_step] in HO, HR', HS', HV.
      destruct (acc_rollback a) as [[t2 a']|] eqn:Ea; [|discriminate].
      cbn [fst snd] in *. injection HO as ->.
      assert (Hv : v = snd e).
      { rewrite <- Hlast. unfold cur_step in *. destruct (cur_stack c); [congruence|]. cbn in *. congruence. }
      rewrite Hlast, Hv.
      apply (IH (snd e) Q _ base _ _ Hwp Hg' HR' HS').
    - destruct (step_touch _ _ (st_next st) zero _ _ _ _ (st_raw st b) HR HS) as (HR' & HS').
      cbn [run_acc run_cur]. apply (IH Q _ base _ _ Hwp (good_raw _ _ b Hg) HR' HS').
  Qed.
End Logic.
