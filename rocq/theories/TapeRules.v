(** Rules for evaluating the parser's productions over a list of tokens, as long as there are no
    errors. *)
From Coq Require Import String.
From Verif Require Import Base YamlChar Token Ast Balance CPAccessor Lexer Parser ParserFlow ParserBlock ParserDocs ParserTape.
Local Open Scope parser_scope.

(** ** Configurations *)
(** A checkpoint restores the flag for the start of a line.  One that is not returned to any more may be
    lost: opening tokens may overwrite what it needs. *)
Inductive mark := live (sol : bool) | lost.
Coercion live : bool >-> mark.
Local Arguments cons {A}%type_scope & _ _.
Local Arguments pair {A B}%type_scope & _ _.
(** The current token is the first of [c_toks]. *)
Record conf := mkC {
  c_toks : list token;
  c_sol : bool;
  c_saved : list (list token * mark);
  c_ind : indentation;
  c_buf : text;
  c_dead : finder
}.

Definition tape_of (c : conf) : tape :=
  mkTape (hd zero_token (c_toks c)) (tl (c_toks c))
         (map (fun e => (hd zero_token (fst e), tl (fst e))) (c_saved c)).

(** the flow collections that are open before these tokens, innermost first; none if the tokens are
    not balanced *)
Fixpoint brk (ts : list token) : option (list ttype) :=
  match ts with
  | [] => Some []
  | y :: r =>
      match tok_type y with
      | TEOF => match brk r with Some [] => Some [] | _ => None end
      | TSequenceEnd => option_map (cons TSequenceStart) (brk r)
      | TMappingEnd => option_map (cons TMappingStart) (brk r)
      | TSequenceStart => match brk r with Some (TSequenceStart :: s) => Some s | _ => None end
      | TMappingStart => match brk r with Some (TMappingStart :: s) => Some s | _ => None end
      | _ => brk r
      end
  end.
Lemma brk_cons y r : brk (y :: r) =
  match tok_type y with
  | TEOF => match brk r with Some [] => Some [] | _ => None end
  | TSequenceEnd => option_map (cons TSequenceStart) (brk r)
  | TMappingEnd => option_map (cons TMappingStart) (brk r)
  | TSequenceStart => match brk r with Some (TSequenceStart :: s) => Some s | _ => None end
  | TMappingStart => match brk r with Some (TMappingStart :: s) => Some s | _ => None end
  | _ => brk r
  end.
Proof. reflexivity. Qed.
Definition depth (ts : list token) : nat := match brk ts with Some s => length s | None => 0 end.

(** the checker's stack is what the tokens to come need, and so are the saved ones *)
Definition holds (arr : list ttype) (n : nat) (ts : list token) : Prop :=
  n <= length arr /\ brk (tl ts) = Some (rev (firstn n arr)).
Definition keeps (arr : list ttype) (e : list token * mark) (m : bool * memento) : Prop :=
  match snd e with
  | live sol => exists n, m = (sol, mkMem n false) /\ holds arr n (fst e)
  | lost => True
  end.
Definition height (e : list token * mark) : nat := match snd e with live _ => depth (tl (fst e)) | lost => 0 end.

Lemma height_le e : height e <= depth (tl (fst e)).
Proof. unfold height. destruct (snd e); [apply le_n|apply Nat.le_0_l]. Qed.

Record rep (c : conf) (s : pst) : Prop := mkRep {
  rep_tok : p_tok s = hd zero_token (c_toks c);
  rep_sol : p_sol s = c_sol c;
  rep_errs : p_errs s = [];
  rep_dead : p_dead s = c_dead c;
  rep_ind : p_ind s = c_ind c;
  rep_buf : p_buf s = c_buf c;
  rep_pairs : bc_pairs (p_chk s) = flow_pairs;
  rep_fine : bc_bad (p_chk s) = false;
  rep_now : holds (bc_arr (p_chk s)) (bc_len (p_chk s)) (c_toks c);
  rep_saved : Forall2 (keeps (bc_arr (p_chk s))) (c_saved c) (p_saved s)
}.

Definition runs {A} (m : M A) (c : conf) (a : A) (c2 : conf) : Prop :=
  forall s, rep c s -> exists s2, peval (m s) (tape_of c) = Some ((a, s2), tape_of c2) /\ rep c2 s2.

(** no flow collection opens with the token, and it is not a bar *)
Definition calm (t : token) : bool :=
  match tok_type t with TMappingStart | TSequenceStart | TUnknown => false | _ => true end.
Definition calm_hd (ts : list token) : bool := match ts with [] => false | y :: _ => calm y end.

Definition real_hd (ts : list token) : bool := match ts with [] => false | y :: _ => negb (is_bar y) end.

(** the token to come may be taken: an opening token must not overwrite what a checkpoint needs *)
Definition may_go (sv : list (list token * mark)) (ts : list token) : Prop :=
  calm_hd ts = true \/ (real_hd ts = true /\ Forall (fun e => height e <= depth ts) sv).

(** ** Rules *)
Ltac pure := intros s R; eexists; split; [reflexivity|];
  destruct R as [R1 R2 R3 R4 R5 R6 R7 R8 R9 R10]; constructor; cbn in *; auto.

Lemma runs_ret {A} (a : A) c : runs (ret a) c a c.
Proof. intros s R. exists s. split; [reflexivity|exact R]. Qed.

Lemma runs_bind {A B} (m : M A) (f : A -> M B) c a c1 b c2 :
  runs m c a c1 -> runs (f a) c1 b c2 -> runs (bind m f) c b c2.
Proof.
  unfold runs, bind. intros H1 H2 s R. destruct (H1 s R) as (s1 & E1 & R1). destruct (H2 s1 R1) as (s2 & E2 & R2).
  exists s2. split; [|exact R2]. rewrite peval_bind, E1. exact E2.
Qed.

Lemma runs_invalid c : runs invalid c NInvalid c.
Proof. apply runs_ret. Qed.
Lemma runs_basic ty c : runs (basic ty) c (NBasic ty) c.
Proof. apply runs_ret. Qed.

Lemma runs_gets {A} (f : pst -> A) c a : (forall s, rep c s -> f s = a) -> runs (gets f) c a c.
Proof. intros H s R. exists s. split; [|exact R]. cbn. rewrite (H s R). reflexivity. Qed.

Lemma runs_tok ts sol sv i b d x : runs tok (mkC (x :: ts) sol sv i b d) x (mkC (x :: ts) sol sv i b d).
Proof. apply runs_gets. intros s R. apply (rep_tok _ _ R). Qed.
Lemma runs_tok_ty ts sol sv i b d x :
  runs tok_ty (mkC (x :: ts) sol sv i b d) (tok_type x) (mkC (x :: ts) sol sv i b d).
Proof. apply runs_gets. intros s R. rewrite (rep_tok _ _ R). reflexivity. Qed.
Lemma runs_sol ts sol sv i b d : runs (gets p_sol) (mkC ts sol sv i b d) sol (mkC ts sol sv i b d).
Proof. apply runs_gets. intros s R. apply (rep_sol _ _ R). Qed.
Lemma runs_ind ts sol sv i b d : runs (gets p_ind) (mkC ts sol sv i b d) i (mkC ts sol sv i b d).
Proof. apply runs_gets. intros s R. apply (rep_ind _ _ R). Qed.
Lemma runs_buf_len ts sol sv i b d : runs buf_len (mkC ts sol sv i b d) (length b) (mkC ts sol sv i b d).
Proof. apply runs_gets. intros s R. rewrite (rep_buf _ _ R). reflexivity. Qed.
Lemma runs_buf_text ts sol sv i b d : runs buf_text (mkC ts sol sv i b d) b (mkC ts sol sv i b d).
Proof. apply runs_gets. intros s R. apply (rep_buf _ _ R). Qed.
Lemma runs_buf_write x ts sol sv i b d : runs (buf_write x) (mkC ts sol sv i b d) tt (mkC ts sol sv i (b ++ x) d).
Proof. pure. rewrite R6. reflexivity. Qed.
Lemma runs_buf_truncate n ts sol sv i b d :
  runs (buf_truncate n) (mkC ts sol sv i b d) tt (mkC ts sol sv i (firstn n b) d).
Proof. pure. rewrite R6. reflexivity. Qed.
Lemma runs_set_ind j ts sol sv i b d : runs (modify (set_ind j)) (mkC ts sol sv i b d) tt (mkC ts sol sv j b d).
Proof. pure. Qed.
Lemma runs_shift_ind z ts sol sv v m b d :
  runs (shift_ind z) (mkC ts sol sv (mkInd v m) b d) tt (mkC ts sol sv (mkInd (v + z) m) b d).
Proof. pure. rewrite R5. reflexivity. Qed.
Lemma runs_has_errors c : runs has_errors c false c.
Proof. apply runs_gets. intros s R. rewrite (rep_errs _ _ R). reflexivity. Qed.
Lemma runs_mark ts sol sv i b d x :
  runs mark_dead_end (mkC (x :: ts) sol sv i b d) (fst (df_mark d (tok_start x)))
       (mkC (x :: ts) sol sv i b (snd (df_mark d (tok_start x)))).
Proof.
  intros s R. unfold mark_dead_end. destruct R as [R1 R2 R3 R4 R5 R6 R7 R8 R9 R10]. cbn in *. rewrite R1, R4.
  eexists. split; [reflexivity|]. constructor; cbn; auto.
Qed.

Lemma runs_set_checkpoint ts sol sv i b d :
  runs set_checkpoint (mkC ts sol sv i b d) tt (mkC ts sol ((ts, live sol) :: sv) i b d).
Proof.
  intros s R. eexists. split; [reflexivity|]. destruct R as [R1 R2 R3 R4 R5 R6 R7 R8 R9 R10].
  constructor; cbn in *; auto. constructor; [|assumption]. exists (bc_len (p_chk s)). cbn. rewrite R2.
  unfold bc_memento. rewrite R8. auto.
Qed.
Lemma runs_commit ts sol e sv i b d :
  runs commit (mkC ts sol (e :: sv) i b d) tt (mkC ts sol sv i b d).
Proof.
  intros s R. eexists. split; [reflexivity|]. destruct R as [R1 R2 R3 R4 R5 R6 R7 R8 R9 R10].
  constructor; cbn in *; auto. inversion R10; subst. cbn. assumption.
Qed.
Lemma runs_lose {A} (m : M A) ts sol z k sv i b d a c2 :
  runs m (mkC ts sol ((z, lost) :: sv) i b d) a c2 -> runs m (mkC ts sol ((z, k) :: sv) i b d) a c2.
Proof.
  intros H s R. apply (H s). destruct R as [R1 R2 R3 R4 R5 R6 R7 R8 R9 R10]. constructor; cbn in *; auto.
  inversion R10; subst. constructor; [exact I|assumption].
Qed.
Lemma runs_rollback ts sol ts2 sol2 sv i b d :
  runs rollback (mkC ts sol ((ts2, live sol2) :: sv) i b d) tt (mkC ts2 sol2 sv i b d).
Proof.
  intros s R. eexists. split; [reflexivity|]. destruct R as [R1 R2 R3 R4 R5 R6 R7 R8 R9 R10]. cbn in *.
  inversion R10 as [|e m l l' Hk H2 E1 E2]; subst. destruct Hk as (n & Hm & Hn & Hb). subst m. cbn in Hn, Hb.
  unfold restored. rewrite <- E2. constructor; cbn; auto.
  rewrite Nat.min_l by exact Hn. split; assumption.
Qed.

Lemma last_rev {A} (l : list A) x r : rev l = x :: r -> last_opt l = Some x /\ rev (firstn (length l - 1) l) = r.
Proof.
  intro H. assert (E : l = rev r ++ [x]).
  { rewrite <- (rev_involutive l), H. reflexivity. }
  subst l. split.
  - unfold last_opt. rewrite rev_app_distr. reflexivity.
  - rewrite app_length. cbn. rewrite Nat.add_sub, firstn_app, Nat.sub_diag, firstn_all. cbn. rewrite app_nil_r. apply rev_involutive.
Qed.
Lemma keeps_cut arr len x n : n <= len -> len <= length arr -> firstn n (bc_write arr len x) = firstn n arr.
Proof.
  intros H1 H2. unfold bc_write. rewrite firstn_app, firstn_firstn, firstn_length.
  replace (n - Nat.min len (length arr)) with 0 by lia. cbn. rewrite app_nil_r. f_equal. lia.
Qed.
Lemma write_length arr len x : len <= length arr -> length arr <= length (bc_write arr len x) /\ len + 1 <= length (bc_write arr len x).
Proof. intro H. unfold bc_write. rewrite app_length. cbn. rewrite firstn_length, skipn_length. lia. Qed.
Lemma write_first arr len x : len <= length arr -> firstn (len + 1) (bc_write arr len x) = firstn len arr ++ [x].
Proof.
  intro H. unfold bc_write. rewrite firstn_app, firstn_firstn, firstn_length.
  replace (len + 1 - Nat.min len (length arr)) with 1 by lia. cbn. f_equal. f_equal. lia.
Qed.

Lemma keeps_write arr len x sv l : len <= length arr -> Forall (fun e => height e <= len) sv ->
  Forall2 (keeps arr) sv l -> Forall2 (keeps (bc_write arr len x)) sv l.
Proof.
  intros Hl H F. induction F as [|e m l1 l2 Hk F IH]; constructor.
  - unfold keeps, height in *. inversion H as [|? ? H1 H2]; subst. destruct (snd e); [|exact I]. destruct Hk as (n & Hm & Hn & Hb).
    exists n. split; [exact Hm|]. unfold depth in H1. rewrite Hb, rev_length, firstn_length in H1.
    destruct (write_length arr len x Hl). split; [lia|]. rewrite keeps_cut by lia. exact Hb.
  - inversion H; subst. auto.
Qed.

Lemma runs_next x ts sol sv i b d : may_go sv ts ->
  runs next (mkC (x :: ts) sol sv i b d) tt (mkC ts (is_start_of_line sol (tok_type x)) sv i b d).
Proof.
  intros H s R. destruct ts as [|y r]; [destruct H as [H|[H _]]; discriminate|].
  assert (Hy : is_bar y = false).
  { destruct H as [H|[H _]]; cbn in H; [|destruct (is_bar y); [discriminate|reflexivity]].
    unfold calm in H. unfold is_bar. destruct (tok_type y); congruence. }
  eexists. split; [cbn; rewrite Hy; reflexivity|].
  destruct R as [R1 R2 R3 R4 R5 R6 R7 R8 [R9 R9b] R10]. cbn [c_toks c_sol c_saved c_ind c_buf c_dead hd tl] in *.
  assert (Keep : brk (y :: r) = brk r ->
    rep (mkC (y :: r) (is_start_of_line sol (tok_type x)) sv i b d)
        (mkP y (is_start_of_line (p_sol s) (tok_type (p_tok s))) (p_saved s) [] (p_chk s) (p_dead s) (p_ind s) (p_buf s))).
  { intros E. constructor; cbn [p_tok p_sol p_saved p_errs p_chk p_dead p_ind p_buf c_toks c_sol c_saved c_ind c_buf c_dead hd]; auto; try congruence.
    split; [assumption|]. cbn [tl]. congruence. }
  assert (Open : forall o st, tok_type y = o -> brk (y :: r) = Some st -> brk r = Some (o :: st) -> calm y = false ->
    rep (mkC (y :: r) (is_start_of_line sol (tok_type x)) sv i b d)
        (mkP y (is_start_of_line (p_sol s) (tok_type (p_tok s))) (p_saved s) []
          (mkChk (bc_pairs (p_chk s)) (bc_write (bc_arr (p_chk s)) (bc_len (p_chk s)) o) (bc_len (p_chk s) + 1) false)
          (p_dead s) (p_ind s) (p_buf s))).
  { intros o st Eo E1 E2 Ec. destruct H as [H|[_ H]]; [cbn in H; congruence|].
    assert (Ed : depth (y :: r) = bc_len (p_chk s)).
    { unfold depth. rewrite R9b, rev_length, firstn_length. lia. }
    rewrite Ed in H. destruct (write_length (bc_arr (p_chk s)) (bc_len (p_chk s)) o R9) as [W1 W2].
    constructor; cbn [p_tok p_sol p_saved p_errs p_chk p_dead p_ind p_buf c_toks c_sol c_saved c_ind c_buf c_dead hd bc_pairs bc_arr bc_len bc_bad]; auto; try congruence.
    - split; [assumption|]. cbn [tl]. rewrite write_first, rev_app_distr by exact R9. cbn. rewrite E2. congruence.
    - apply keeps_write; auto. }
  assert (Close : forall o c st, bc_closer_of flow_pairs o = Some c -> tok_type y = c -> bc_is_closer flow_pairs c = true ->
      bc_closer_of flow_pairs c = None -> brk (y :: r) = Some (o :: st) -> brk r = Some st ->
    rep (mkC (y :: r) (is_start_of_line sol (tok_type x)) sv i b d)
        (let '(ok, chk) := bc_add (p_chk s) c in
         mkP y (is_start_of_line (p_sol s) (tok_type (p_tok s))) (p_saved s) (if ok then [] else [] ++ [UnbalancedClosing y])
          chk (p_dead s) (p_ind s) (p_buf s))).
  { intros o c st Eo Ec Ecl Eop E1 E2. rewrite E1 in R9b. injection R9b as R9b.
    unfold bc_add. rewrite R8, R7, Ecl, Eop. symmetry in R9b. destruct (last_rev _ _ _ R9b) as [L1 L2].
    fold (bc_stack (p_chk s)) in L1. rewrite L1, Eo. replace (ttype_eqb c c) with true by (destruct c; reflexivity). cbn [andb negb].
    rewrite firstn_length, Nat.min_l, firstn_firstn, Nat.min_l in L2 by lia.
    constructor; cbn [p_tok p_sol p_saved p_errs p_chk p_dead p_ind p_buf c_toks c_sol c_saved c_ind c_buf c_dead hd bc_pairs bc_arr bc_len bc_bad]; auto; try congruence.
    split; [lia|]. cbn [tl]. rewrite L2. exact E2. }
  assert (Ep : forall o, bc_is_closer flow_pairs o = false -> bc_closer_of flow_pairs o = None -> bc_add (p_chk s) o = (true, p_chk s)).
  { intros o H1 H2. unfold bc_add. rewrite R8, R7, H1, H2. cbn. reflexivity. }
  unfold took. rewrite R3.
  pose proof (brk_cons y r) as Eb.
  destruct (tok_type y) eqn:Ey; try (apply Keep; exact Eb).
  - (* opening a sequence *)
    destruct (brk r) as [[|[] st]|] eqn:Er; try congruence.
    unfold bc_add. rewrite R8, R7. cbn -[bc_write firstn]. rewrite <- R7. apply (Open _ st); auto. unfold calm. rewrite Ey. reflexivity.
  - (* closing a sequence *)
    destruct (brk r) as [st|] eqn:Er; [|rewrite Eb in R9b; discriminate R9b]. apply (Close TSequenceStart _ st); auto.
  - destruct (brk r) as [[|[] st]|] eqn:Er; try congruence.
    unfold bc_add. rewrite R8, R7. cbn -[bc_write firstn]. rewrite <- R7. apply (Open _ st); auto. unfold calm. rewrite Ey. reflexivity.
  - destruct (brk r) as [st|] eqn:Er; [|rewrite Eb in R9b; discriminate R9b]. apply (Close TMappingStart _ st); auto.
  - rewrite Ep by reflexivity. apply Keep. exact Eb.
  - rewrite Ep by reflexivity. apply Keep. exact Eb.
  - (* end of input *)
    destruct (brk r) as [[|z l]|] eqn:Er; try congruence. rewrite Eb in R9b. injection R9b as R9b.
    assert (L0 : bc_len (p_chk s) = 0).
    { apply (f_equal (@length ttype)) in R9b. rewrite rev_length, firstn_length in R9b. cbn in R9b. lia. }
    unfold bc_is_balanced. rewrite R8, L0. apply Keep. exact Eb.
Qed.

(** the raw mode is set where the tokens say so *)
Lemma runs_raw x m ts sol sv i b d :
  runs (set_raw m) (mkC (x :: bar m :: ts) sol sv i b d) tt (mkC (x :: ts) sol sv i b d).
Proof.
  intros s R. eexists. split; [cbn; rewrite bar_mode_bar, Bool.eqb_reflx; reflexivity|].
  destruct R as [R1 R2 R3 R4 R5 R6 R7 R8 R9 R10]. constructor; cbn in *; auto.
Qed.

Lemma may_calm sv ts : calm_hd ts = true -> may_go sv ts.
Proof. left. assumption. Qed.

Lemma runs_unless m c a c2 : runs m c a c2 -> runs (unless_errors m) c a c2.
Proof. intro H. unfold unless_errors. eapply runs_bind; [apply runs_has_errors|]. exact H. Qed.
Lemma runs_valid m c a c2 : runs m c a c2 -> runs (valid m) c (valid_node a) c2.
Proof. intro H. unfold valid. eapply runs_bind; [exact H|apply runs_ret]. Qed.

Lemma runs_with_ind {A} (m : M A) j ts sol sv i b d a ts2 sol2 sv2 i2 b2 d2 :
  runs m (mkC ts sol sv j b d) a (mkC ts2 sol2 sv2 i2 b2 d2) ->
  runs (with_ind j m) (mkC ts sol sv i b d) (a, i2) (mkC ts2 sol2 sv2 i b2 d2).
Proof.
  intro H. unfold with_ind. eapply runs_bind; [apply runs_ind|]. eapply runs_bind; [apply runs_set_ind|].
  eapply runs_bind; [exact H|]. eapply runs_bind; [apply runs_ind|]. eapply runs_bind; [apply runs_set_ind|].
  apply runs_ret.
Qed.
Lemma runs_with_ind_ {A} (m : M A) j ts sol sv i b d a ts2 sol2 sv2 i2 b2 d2 :
  runs m (mkC ts sol sv j b d) a (mkC ts2 sol2 sv2 i2 b2 d2) ->
  runs (with_ind_ j m) (mkC ts sol sv i b d) a (mkC ts2 sol2 sv2 i b2 d2).
Proof.
  intro H. unfold with_ind_. eapply runs_bind; [apply runs_with_ind, H|]. apply runs_ret.
Qed.
Lemma runs_set_buf x ts sol sv i b d : runs (modify (set_buf x)) (mkC ts sol sv i b d) tt (mkC ts sol sv i x d).
Proof. pure. Qed.
Lemma runs_with_buf {A} (m : M A) ts sol sv i b d a ts2 sol2 sv2 i2 b2 d2 :
  runs m (mkC ts sol sv i [] d) a (mkC ts2 sol2 sv2 i2 b2 d2) ->
  runs (with_buf m) (mkC ts sol sv i b d) a (mkC ts2 sol2 sv2 i2 b d2).
Proof.
  intro H. unfold with_buf. eapply runs_bind; [apply runs_buf_text|]. eapply runs_bind; [apply runs_set_buf|].
  eapply runs_bind; [exact H|]. eapply runs_bind; [apply runs_set_buf|]. apply runs_ret.
Qed.

Lemma runs_join {A B C} (m : M A) (f : A -> M B) (g : B -> M C) c b c1 a c2 :
  runs (bind m f) c b c1 -> runs (g b) c1 a c2 -> runs (bind m (fun x => bind (f x) g)) c a c2.
Proof.
  intros H1 H2 s R. destruct (H1 s R) as (s2 & E & P2). destruct (H2 s2 P2) as (s3 & E3 & P3). exists s3. split; [|exact P3].
  unfold bind in *. rewrite peval_bind in E. rewrite peval_bind. destruct (peval (m s) (tape_of c)) as [[[u1 s1] t1]|]; [|discriminate E].
  cbn in *. rewrite peval_bind, E. exact E3.
Qed.

Lemma runs_loop_more {A} n (body : A -> M (A * bool)) a c a1 c1 r c2 :
  runs (body a) c (a1, true) c1 -> runs (loop_go n body a1) c1 r c2 ->
  runs (loop_go (S n) body a) c r c2.
Proof. intros H1 H2. cbn [loop_go]. eapply runs_bind; [exact H1|]. exact H2. Qed.
Lemma runs_loop_stop {A} n (body : A -> M (A * bool)) a c r c2 :
  runs (body a) c (r, false) c2 -> runs (loop_go (S n) body a) c r c2.
Proof. intros H1. cbn [loop_go]. eapply runs_bind; [exact H1|]. apply runs_ret. Qed.

Create HintDb calm.
#[export] Hint Resolve may_calm : calm.

(** ** A tactic that runs straight-line code *)
Ltac go1 :=
  lazymatch goal with
  | |- runs (bind _ _) _ _ _ => eapply runs_bind; [|cbv beta]
  | |- runs (unless_errors _) _ _ _ => simple apply runs_unless
  | |- runs (valid _) _ _ _ => simple eapply runs_valid
  | |- runs (ret _) _ _ _ => simple apply runs_ret
  | |- runs invalid _ _ _ => simple apply runs_invalid
  | |- runs (basic _) _ _ _ => simple apply runs_basic
  | |- runs tok _ _ _ => simple apply runs_tok
  | |- runs tok_ty _ _ _ => simple apply runs_tok_ty
  | |- runs (gets p_sol) _ _ _ => simple apply runs_sol
  | |- runs (gets p_ind) _ _ _ => simple apply runs_ind
  | |- runs buf_len _ _ _ => simple apply runs_buf_len
  | |- runs buf_text _ _ _ => simple apply runs_buf_text
  | |- runs (buf_write _) _ _ _ => simple apply runs_buf_write
  | |- runs (buf_truncate _) _ _ _ => simple apply runs_buf_truncate
  | |- runs (modify (set_ind _)) _ _ _ => simple apply runs_set_ind
  | |- runs (shift_ind _) _ _ _ => simple apply runs_shift_ind
  | |- runs has_errors _ _ _ => simple apply runs_has_errors
  | |- runs mark_dead_end _ _ _ => simple apply runs_mark
  | |- runs set_checkpoint _ _ _ => simple apply runs_set_checkpoint
  | |- runs commit _ _ _ => simple apply runs_commit
  | |- runs rollback _ _ _ => apply runs_rollback
  | |- runs next _ _ _ => simple apply runs_next; [first [assumption | left; reflexivity | solve [eauto with calm]]]
  | |- runs (with_ind _ _) _ _ _ => simple eapply runs_with_ind
  | |- runs (with_ind_ _ _) _ _ _ => simple eapply runs_with_ind_
  | |- runs (with_buf _) _ _ _ => simple eapply runs_with_buf
  end.
(** give the intermediate result *)
Ltac mid a c := eapply (runs_bind _ _ _ a c); [|cbv beta].
(** decide a condition *)
Ltac decide1 :=
  first
  [ lazymatch goal with
    | |- runs (if ?b then _ else _) _ _ _ =>
        let v := eval cbn in b in
        lazymatch v with
        | true => change b with true
        | false => change b with false
        end; cbv iota
    | |- runs (match ?b with _ => _ end) _ _ _ =>
        let v := eval cbn in b in progress (change b with v); cbv iota beta
    end
  | match goal with
    | H : ?b = _ |- runs (if ?b then _ else _) _ _ _ => rewrite H; cbv iota
    end ].
Ltac go := repeat (first [go1 | decide1]; cbn [fst snd]).

(** running from the start *)
Lemma runs_set_sol ts sol sv i b d :
  runs set_start_of_line (mkC ts sol sv i b d) tt (mkC ts true sv i b d).
Proof. pure. Qed.
Lemma runs_whole {A} (m : M A) ts a c2 : brk ts = Some [] ->
  runs m (mkC (zero_token :: ts) true [] (mkInd 0 UnknownMode) [] df_new) a c2 ->
  exists p t, peval (m new_parser) (mkTape zero_token ts []) = Some ((a, p), t) /\ p_errs p = [].
Proof.
  intros Hb H. destruct (H new_parser) as (s2 & E & R).
  - constructor; try reflexivity; [split; [apply le_n|exact Hb]|constructor].
  - exists s2, (tape_of c2). split; [exact E|apply (rep_errs _ _ R)].
Qed.

#[global] Opaque runs.
