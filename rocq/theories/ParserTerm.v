(** Proof rules for the productions of the parser: what each operation does to the number of tokens
    left and to the checkpoints.  The specifications of the productions are in ParserTermFlow.v,
    ParserTermBlock.v and ParserTermDocs.v. *)
From Coq Require Import String.
From Verif Require Import Base YamlChar Token Ast Balance Parser ParserLogic.
Local Open Scope parser_scope.

(** No token is a byte order mark with the name of a directive. *)
Definition tok_ok (t : token) : Prop :=
  is_bom t = true -> text_eqb (tok_origin t) (t' "YAML") = false /\ text_eqb (tok_origin t) (t' "TAG") = false.

(** The measure: twice the number of tokens to be read, counting the current one, plus one at the
    start of a line. *)
Definition msr (sol : bool) (left : nat) (t : token) : nat := 2 * (left + cost t) + Nat.b2n sol.

Fixpoint entries (saved : list (bool * memento)) (cps : list (nat * token)) : list nat :=
  match saved, cps with
  | (sol, _) :: saved', (l, t) :: cps' => msr sol l t :: entries saved' cps'
  | _, _ => []
  end.

(** [lay k d bs S]: the checkpoints [S] consist of one for every bound in [bs], each with a measure
    below its bound, of others with measures below the bound next to them, and of at least [k], at
    least [d], of which nothing is known. *)
Fixpoint lay (k d : nat) (bs : list nat) (S : list nat) : Prop :=
  match bs with
  | [] => k <= length S /\ d <= length S
  | b :: bs' => exists L x S', S = L ++ x :: S' /\ Forall (fun y => y <= b) L /\ x <= b /\
                match bs' with [] => True | b2 :: _ => b <= b2 end /\ lay k d bs' S'
  end.

Definition top_le (m : nat) (bs : list nat) : Prop := match bs with [] => True | b :: _ => m <= b end.

Lemma lay_push k d bs S m : top_le m bs -> lay k d bs S -> lay k d (m :: bs) (m :: S).
Proof. intros H1 H2. exists [], m, S. repeat split; auto. Qed.

Lemma lay_pop k d bs b S : lay k d (b :: bs) S ->
  exists x S', S = x :: S' /\ x <= b /\ top_le b bs /\ lay k d bs S'.
Proof.
  intros (L & x & S' & -> & HL & Hx & Hb & Hl).
  destruct L as [|y L].
  - exists x, S'. auto.
  - exists y, (L ++ x :: S'). inversion HL; subst. split; [reflexivity|]. split; [assumption|]. split; [exact Hb|].
    destruct bs as [|b2 bs]; cbn in *.
    + rewrite app_length. cbn. lia.
    + destruct Hl as (L2 & x2 & S2 & -> & HL2 & Hx2 & Hb2 & Hl).
      exists (L ++ x :: L2), x2, S2. split; [rewrite <- app_assoc; reflexivity|].
      split; [|auto]. apply Forall_app. split; [|constructor; [lia|exact HL2]].
      eapply Forall_impl; [|eassumption]. cbn. intros. lia.
Qed.

Lemma lay_length k d bs : forall S, lay k d bs S -> k + length bs <= length S /\ d + length bs <= length S.
Proof.
  induction bs as [|b bs IH]; intros S; cbn [lay length]; [lia|].
  intros (L & x & S' & -> & _ & _ & _ & H). apply IH in H. rewrite app_length. cbn. lia.
Qed.

Record at_ (k d : nat) (bs : list nat) (t : token) (m : nat) (s : pst) (g : ghost) : Prop := {
  a_tok : p_tok s = t;
  a_gtok : g_tok g = t;
  a_len : length (p_saved s) = length (g_cps g);
  a_m : msr (p_sol s) (g_left g) t = m;
  a_lay : lay k d bs (entries (p_saved s) (g_cps g));
  a_top : top_le m bs;
  a_dead : g_dead g = d
}.

Lemma entries_length saved : forall cps, length saved = length cps -> length (entries saved cps) = length cps.
Proof.
  induction saved as [|[sol mm] saved IH]; intros [|[l t] cps]; cbn; intro H; try discriminate; [reflexivity|].
  f_equal. apply IH. lia.
Qed.

(** ** Rules *)
Definition wpM {A} (m : M A) (s : pst) (g : ghost) (Q : A -> pst -> ghost -> Prop) : Prop :=
  wp tok_ok (m s) (fun r g' => Q (fst r) (snd r) g') g.

Lemma wpM_bind {A B} (m : M A) (f : A -> M B) s g Q :
  wpM m s g (fun a s' g' => wpM (f a) s' g' Q) -> wpM (bind m f) s g Q.
Proof. intro H. unfold wpM, bind. apply wp_bind. exact H. Qed.

Lemma wpM_mono {A} (m : M A) s g (Q Q' : A -> pst -> ghost -> Prop) :
  (forall a s' g', Q a s' g' -> Q' a s' g') -> wpM m s g Q -> wpM m s g Q'.
Proof. intros H. unfold wpM. apply wp_mono. intros [a s'] g'. apply H. Qed.

Lemma wpM_ret {A} (a : A) s g (Q : A -> pst -> ghost -> Prop) : Q a s g -> wpM (ret a) s g Q.
Proof. intro H. exact H. Qed.

Lemma wpM_gets {A} (f : pst -> A) s g (Q : A -> pst -> ghost -> Prop) : Q (f s) s g -> wpM (gets f) s g Q.
Proof. intro H. exact H. Qed.

Lemma wpM_tok k d bs t m s g (Q : token -> pst -> ghost -> Prop) :
  at_ k d bs t m s g -> Q t s g -> wpM tok s g Q.
Proof. intros H HQ. destruct H as [H]. rewrite <- H in HQ. exact HQ. Qed.

Lemma wpM_tok_ty k d bs t m s g (Q : ttype -> pst -> ghost -> Prop) :
  at_ k d bs t m s g -> Q (tok_type t) s g -> wpM tok_ty s g Q.
Proof. intros H HQ. destruct H as [H]. rewrite <- H in HQ. exact HQ. Qed.

(** changes that do not touch the token, the start of line and the checkpoints *)
Definition harmless (f : pst -> pst) : Prop :=
  forall s, p_tok (f s) = p_tok s /\ p_sol (f s) = p_sol s /\ p_saved (f s) = p_saved s.

Lemma wpM_modify f k d bs t m s g (Q : unit -> pst -> ghost -> Prop) :
  harmless f -> at_ k d bs t m s g -> (forall s', at_ k d bs t m s' g -> Q tt s' g) -> wpM (modify f) s g Q.
Proof.
  intros Hf H HQ. apply HQ. cbn. destruct H as [H1 H2 H3 H4 H5 H6 H7]. destruct (Hf s) as (F1 & F2 & F3).
  constructor; rewrite ?F1, ?F2, ?F3; assumption.
Qed.

Lemma odd_msr b l t : Nat.odd (msr b l t) = b.
Proof. unfold msr. rewrite Nat.add_comm, Nat.odd_add_mul_2. destruct b; reflexivity. Qed.

Lemma took_tok t s : p_tok (took t s) = t.
Proof. unfold took. destruct (tok_type t); cbn; try reflexivity; destruct (bc_add _ _); reflexivity. Qed.
Lemma took_saved t s : p_saved (took t s) = p_saved s.
Proof. unfold took. destruct (tok_type t); cbn; try reflexivity; destruct (bc_add _ _); reflexivity. Qed.
Lemma took_sol t s : p_sol (took t s) = is_start_of_line (p_sol s) (tok_type (p_tok s)).
Proof. unfold took. destruct (tok_type t); cbn; try reflexivity; destruct (bc_add _ _); reflexivity. Qed.

Lemma cost_cases t : (tok_type t = TEOF /\ cost t = 0) \/ (tok_type t <> TEOF /\ cost t = 1).
Proof. unfold cost, LexerSpec.is_eof. destruct (tok_type t); auto; right; split; congruence. Qed.

Lemma step_measure t t2 sol left :
  cost t2 <= left ->
  let m := msr sol left t in
  let m' := msr (is_start_of_line sol (tok_type t)) (left - cost t2) t2 in
  m' <= m /\ (tok_type t <> TEOF \/ Nat.odd m = true -> m' < m).
Proof.
  intros Hc m m'. assert (Hm : Nat.odd m = sol) by apply odd_msr. rewrite Hm.
  unfold m, m', msr in *. clear m m' Hm.
  replace (left - cost t2 + cost t2) with left by lia.
  assert (Hb : forall b, Nat.b2n b <= 1) by (intros []; cbn; lia).
  destruct (cost_cases t) as [[Et ->]|[Et ->]].
  - rewrite Et. cbn [is_start_of_line Nat.b2n]. destruct sol; cbn [Nat.b2n].
    + split; intros; lia.
    + split; [lia|]. intros [H|H]; congruence.
  - specialize (Hb (is_start_of_line sol (tok_type t))). split; intros; lia.
Qed.

Lemma is_bom_type t : is_bom t = true <-> tok_type t = TBOM.
Proof. unfold is_bom. destruct (tok_type t); split; congruence. Qed.

Lemma wpM_next k d bs t m s g (Q : unit -> pst -> ghost -> Prop) :
  at_ k d bs t m s g -> tok_type t <> TBOM -> 1 <= k + length bs ->
  (forall t2 m2 s2 g2, at_ k d bs t2 m2 s2 g2 -> m2 <= m -> (tok_type t <> TEOF \/ Nat.odd m = true -> m2 < m) ->
     tok_ok t2 -> Q tt s2 g2) ->
  wpM next s g Q.
Proof.
  intros [H1 H2 H3 H4 H5 H6 H7] Hb Hk HQ.
  assert (Eb : is_bom (g_tok g) = false).
  { rewrite H2. destruct (is_bom t) eqn:E; [|reflexivity]. apply is_bom_type in E. congruence. }
  unfold wpM, next. cbn. split.
  - intros _ E. apply lay_length in H5 as [H5 _]. rewrite entries_length in H5 by exact H3. rewrite E in H5. cbn in H5. lia.
  - intros t2 Ht2 Hc. destruct (step_measure t t2 (p_sol s) (g_left g) Hc) as [Hle Hlt]. rewrite H4 in *.
    apply (HQ t2 (msr (is_start_of_line (p_sol s) (tok_type t)) (g_left g - cost t2) t2)); try assumption.
    unfold next_post. rewrite Eb.
    constructor; cbn; rewrite ?took_tok, ?took_saved, ?took_sol, ?H1; try assumption; try reflexivity.
    destruct bs; cbn in *; [exact I|lia].
Qed.

(** reading on from a byte order mark: no checkpoint can be returned to *)
Lemma wpM_next_bom k d bs t m s g (Q : unit -> pst -> ghost -> Prop) :
  at_ k d bs t m s g -> tok_type t = TBOM ->
  (forall d2 t2 m2 s2 g2, at_ (k + length bs) d2 [] t2 m2 s2 g2 -> m2 < m -> tok_ok t2 -> Q tt s2 g2) ->
  wpM next s g Q.
Proof.
  intros [H1 H2 H3 H4 H5 H6 H7] Hb HQ.
  assert (Eb : is_bom (g_tok g) = true) by (rewrite H2; apply is_bom_type, Hb).
  unfold wpM, next. cbn. split; [congruence|].
  intros t2 Ht2 Hc. destruct (step_measure t t2 (p_sol s) (g_left g) Hc) as [Hle Hlt]. rewrite H4 in *.
  apply (HQ (length (g_cps g)) t2 (msr (is_start_of_line (p_sol s) (tok_type t)) (g_left g - cost t2) t2)); try assumption.
  - unfold next_post. rewrite Eb.
    constructor; cbn; rewrite ?took_tok, ?took_saved, ?took_sol, ?H1; try assumption; try reflexivity.
    apply lay_length in H5. rewrite entries_length in * by exact H3. lia.
  - apply Hlt. left. congruence.
Qed.

Lemma wpM_set k d bs t m s g (Q : unit -> pst -> ghost -> Prop) :
  at_ k d bs t m s g -> (forall s2 g2, at_ k d (m :: bs) t m s2 g2 -> Q tt s2 g2) -> wpM set_checkpoint s g Q.
Proof.
  intros [H1 H2 H3 H4 H5 H6 H7] HQ. apply HQ. cbn.
  constructor; try (cbn; assumption || lia); try (cbn; lia).
  cbn [p_saved push_saved g_cps set_post entries]. rewrite H2, H4. apply lay_push; assumption.
Qed.

Lemma wpM_commit k d b bs t m s g (Q : unit -> pst -> ghost -> Prop) :
  at_ k d (b :: bs) t m s g -> (forall s2 g2, at_ k d bs t m s2 g2 -> Q tt s2 g2) -> wpM commit s g Q.
Proof.
  intros [H1 H2 H3 H4 H5 H6 H7] HQ. pose proof (lay_length _ _ _ _ H5) as Hlen.
  rewrite entries_length in Hlen by exact H3. cbn [length] in Hlen.
  destruct (lay_pop _ _ _ _ _ H5) as (x & S' & E & Hx & Hb & Hl).
  destruct (p_saved s) as [|[sol mm] saved] eqn:Es; [discriminate|].
  destruct (g_cps g) as [|[l t2] cps] eqn:Ec; [discriminate|]. cbn in E. injection E as <- <-.
  unfold wpM, commit. cbn. rewrite Ec. split; [congruence|]. apply HQ.
  constructor; cbn; rewrite ?Es, ?Ec; cbn in *; try assumption; try lia.
  destruct bs; cbn in *; [exact I|lia].
Qed.

Lemma wpM_rollback k d b bs t m s g (Q : unit -> pst -> ghost -> Prop) :
  at_ k d (b :: bs) t m s g ->
  (forall t2 m2 s2 g2, at_ k d bs t2 m2 s2 g2 -> m2 <= b -> Q tt s2 g2) -> wpM rollback s g Q.
Proof.
  intros [H1 H2 H3 H4 H5 H6 H7] HQ. pose proof (lay_length _ _ _ _ H5) as Hlen.
  rewrite entries_length in Hlen by exact H3. cbn [length] in Hlen.
  destruct (lay_pop _ _ _ _ _ H5) as (x & S' & E & Hx & Hb & Hl).
  unfold wpM, rollback. cbn.
  destruct (p_saved s) as [|[sol mm] saved] eqn:Es; [discriminate|].
  destruct (g_cps g) as [|[l t2] cps] eqn:Ec; [discriminate|]. cbn in E. injection E as <- <-.
  split; [cbn in *; lia|].
  apply (HQ t2 (msr sol l t2)); [|exact Hx].
  unfold restored. rewrite Es. cbn.
  constructor; cbn; cbn in *; try assumption; try lia; try reflexivity.
  destruct bs; cbn in *; [exact I|lia].
Qed.

(** committing when nothing is known about the checkpoint *)
Lemma wpM_commit_any k d t m s g (Q : unit -> pst -> ghost -> Prop) :
  at_ (S k) d [] t m s g -> (forall d2 s2 g2, at_ k d2 [] t m s2 g2 -> Q tt s2 g2) -> wpM commit s g Q.
Proof.
  intros [H1 H2 H3 H4 H5 H6 H7] HQ. pose proof (lay_length _ _ _ _ H5) as Hlen.
  rewrite entries_length in Hlen by exact H3. cbn [length] in Hlen.
  destruct (p_saved s) as [|[sol mm] saved] eqn:Es; [destruct (g_cps g); cbn in *; [lia|discriminate]|].
  destruct (g_cps g) as [|[l t2] cps] eqn:Ec; [discriminate|].
  unfold wpM, commit. cbn. rewrite Ec. split; [congruence|]. apply (HQ (Nat.min (g_dead g) (length cps))).
  constructor; cbn; rewrite ?Es, ?Ec; cbn in *; try assumption; try lia.
  rewrite entries_length by lia. lia.
Qed.

Lemma wpM_raw b k d bs t m s g (Q : unit -> pst -> ghost -> Prop) :
  at_ k d bs t m s g -> (forall s2 g2, at_ k d bs t m s2 g2 -> Q tt s2 g2) -> wpM (set_raw b) s g Q.
Proof. intros H HQ. apply HQ, H. Qed.

Lemma wpM_mark k d bs t m s g (Q : bool -> pst -> ghost -> Prop) :
  at_ k d bs t m s g -> (forall b s2, at_ k d bs t m s2 g -> Q b s2 g) -> wpM mark_dead_end s g Q.
Proof.
  intros [H1 H2 H3 H4 H5 H6 H7] HQ. unfold wpM, mark_dead_end.
  destruct (df_mark (p_dead s) (tok_start (p_tok s))) as [b f]. apply HQ. constructor; assumption.
Qed.

(** weakening: forget the bounds *)
Lemma at_forget k d bs t m s g : at_ k d bs t m s g -> at_ (k + length bs) d [] t m s g.
Proof.
  intros [H1 H2 H3 H4 H5 H6 H7]. constructor; try assumption; [|exact I].
  apply lay_length in H5. cbn. lia.
Qed.

(** ** Specifications *)
Definition ok {A} (B : nat) (m : M A) (P : A -> nat -> nat -> Prop) : Prop :=
  forall k d bs t n s g, at_ k d bs t n s g -> n < B -> 1 <= k + length bs ->
  wpM m s g (fun a s' g' => exists t2 n', at_ k d bs t2 n' s' g' /\ n' <= n /\ P a n n').

Definition anyp {A} : A -> nat -> nat -> Prop := fun _ _ _ => True.
Definition strict : node -> nat -> nat -> Prop := fun a n n' => valid_node a = true -> n' < n.
Definition if_true : bool -> nat -> nat -> Prop := fun b n n' => b = true -> n' < n.

Lemma wpM_ok {A} B (m : M A) P k d bs t n s g (Q : A -> pst -> ghost -> Prop) :
  ok B m P -> at_ k d bs t n s g -> n < B -> 1 <= k + length bs ->
  (forall a t2 n' s' g', at_ k d bs t2 n' s' g' -> n' <= n -> P a n n' -> Q a s' g') ->
  wpM m s g Q.
Proof.
  intros H Hat Hn Hk HQ. eapply wpM_mono; [|exact (H _ _ _ _ _ _ _ Hat Hn Hk)].
  cbn. intros a s' g' (t2 & n' & Hat' & Hle & HP). eapply HQ; eassumption.
Qed.

Lemma ok_weaken {A} B B' (m : M A) (P P' : A -> nat -> nat -> Prop) :
  B' <= B -> (forall a n n', P a n n' -> P' a n n') -> ok B m P -> ok B' m P'.
Proof.
  intros HB HP H k d bs t n s g Hat Hn Hk. eapply wpM_ok; [exact H|exact Hat|lia|exact Hk|].
  intros a t2 n' s' g' Hat' Hle HPa. exists t2, n'. auto.
Qed.

Definition cont {A} : A * bool -> nat -> nat -> Prop := fun r n n' => snd r = true -> n' < n.

Lemma ok_loop_go {A} n : forall B (body : A -> M (A * bool)) a,
  B <= n -> (forall a, ok B (body a) cont) -> ok B (loop_go n body a) anyp.
Proof.
  induction n as [|n IH]; intros B body a HB Hbody k d bs t m s g Hat Hm Hk; [lia|].
  cbn [loop_go]. apply wpM_bind.
  eapply wpM_ok; [apply Hbody|exact Hat|exact Hm|exact Hk|].
  intros [a2 b] t2 m2 s2 g2 Hat2 Hle HP. unfold cont in HP. cbn [fst snd] in *. destruct b.
  - specialize (HP eq_refl).
    eapply wpM_ok; [apply (IH (B - 1) body a2); [lia|]|exact Hat2|lia|exact Hk|].
    + intro a3. eapply ok_weaken; [|intros ? ? ? HH; exact HH|apply Hbody]. lia.
    + intros a3 t3 m3 s3 g3 Hat3 Hle3 _. exists t3, m3. split; [exact Hat3|]. split; [lia|exact I].
  - apply wpM_ret. exists t2, m2. split; [exact Hat2|]. split; [lia|exact I].
Qed.

Lemma ok_loop {A} B fuel (body : A -> M (A * bool)) a :
  B <= fuel -> (forall a, ok B (body a) cont) -> ok B (loop fuel body a) anyp.
Proof. intros HB H. apply ok_loop_go; assumption. Qed.

Lemma ok_loop_ B fuel (body : M bool) : B <= fuel -> ok B body if_true -> ok B (loop_ fuel body) anyp.
Proof.
  intros HB H. apply ok_loop; [exact HB|]. intros _ k d bs t n s g Hat Hn Hk.
  apply wpM_bind. eapply wpM_ok; [exact H|exact Hat|lia|exact Hk|].
  intros b t2 n2 s2 g2 Hat2 Hle HP. apply wpM_ret. exists t2, n2. split; [exact Hat2|]. split; [exact Hle|exact HP].
Qed.

(** marks the bound of the production at hand *)
Definition mark (B : nat) : Prop := True.

Create HintDb pspec discriminated.
Global Hint Constants Opaque : pspec.

Lemma harmless_ind i : harmless (set_ind i).
Proof. intro s. auto. Qed.
Lemma harmless_buf b : harmless (set_buf b).
Proof. intro s. auto. Qed.
Ltac harmless_tac := first [apply harmless_ind | apply harmless_buf | intro; cbn; auto].

(** remember the current situation under a name *)
Ltac cur H := match goal with |- wpM _ ?s ?g _ => match goal with X : at_ _ _ _ _ _ s g |- _ => H X end
                          | X : at_ _ _ _ _ _ ?s ?g |- ?G => match G with context [s] => H X end end.

Ltac pose_valid := repeat match goal with
  | H : strict ?n _ _, E : valid_node ?n = true |- _ => specialize (H E); cbv beta in H
  | H : if_true true _ _ |- _ => specialize (H eq_refl); cbv beta in H
  | H : if_true false _ _ |- _ => clear H
  | H : if_true ?b _ _, E : ?b = true |- _ => specialize (H E); cbv beta in H
  end.

Lemma ttype_eqb_true a b : ttype_eqb a b = true -> a = b.
Proof. destruct a, b; cbn; congruence. Qed.

Ltac break_if := match goal with
  | |- wpM (if ?b then _ else _) _ _ _ => let E := fresh "E" in destruct b eqn:E; pose_valid
  | |- wpM (match ?b with _ => _ end) _ _ _ => let E := fresh "E" in destruct b eqn:E; pose_valid
  end.

Ltac fin := match goal with
  | X : at_ ?k ?d ?bs ?t ?n ?s ?g |- exists t2 n', at_ ?k ?d ?bs t2 n' ?s ?g /\ _ /\ _ =>
      exists t, n; split; [exact X|split; [try lia|]]
  end.

Ltac tok_facts := repeat match goal with
  | E : ttype_eqb _ _ = true |- _ => apply ttype_eqb_true in E
  | E : _ && _ = true |- _ => apply andb_prop in E as [? ?]
  end.

Lemma line_end_not_bom t : ttype_eqb (tok_type t) TLineBreak || ttype_eqb (tok_type t) TEOF = true -> tok_type t <> TBOM.
Proof. destruct (tok_type t); cbn; congruence. Qed.

Ltac not_bom := tok_facts; solve [congruence | apply line_end_not_bom; assumption].

Ltac start := let k := fresh "k" in let d := fresh "d" in let bs := fresh "bs" in let t := fresh "t" in let n := fresh "n" in
  let s := fresh "s" in let g := fresh "g" in let X := fresh "A" in let Hn := fresh "Hn" in let Hk := fresh "Hk" in
  intros k d bs t n s g X Hn Hk; match type of Hn with _ < ?B => assert (mark B) by exact I end.

Ltac post := unfold anyp; try unfold strict at 1; try unfold if_true at 1; try unfold cont at 1; intros; tok_facts; pose_valid; cbn [snd fst] in *; try exact I; try discriminate; try lia.

Ltac after_call X := clear X; pose_valid.

Ltac step := cbv beta; cbn [fst snd]; match goal with
  | |- wpM (bind _ _) _ _ _ => apply wpM_bind
  | |- wpM (ret _) _ _ _ => apply wpM_ret
  | |- wpM invalid _ _ _ => apply wpM_ret
  | |- wpM (basic _) _ _ _ => apply wpM_ret
  | |- wpM (unless_errors _) _ _ _ => unfold unless_errors at 1
  | |- wpM (valid _) _ _ _ => unfold valid at 1
  | |- wpM has_errors _ _ _ => apply wpM_gets
  | |- wpM (gets _) _ _ _ => apply wpM_gets
  | |- wpM buf_len _ _ _ => apply wpM_gets
  | |- wpM buf_text _ _ _ => apply wpM_gets
  | |- wpM at_line_end _ _ _ => unfold at_line_end at 1
  | X : at_ _ _ _ _ _ ?s ?g |- wpM tok ?s ?g _ => apply (wpM_tok _ _ _ _ _ _ _ _ X)
  | X : at_ _ _ _ _ _ ?s ?g |- wpM tok_ty ?s ?g _ => apply (wpM_tok_ty _ _ _ _ _ _ _ _ X)
  | X : at_ _ _ _ _ _ ?s ?g |- wpM (modify ?f) ?s ?g _ =>
      apply (wpM_modify f _ _ _ _ _ _ _ _ ltac:(harmless_tac) X); clear X; let s2 := fresh "s" in let X2 := fresh "A" in intros s2 X2
  | |- wpM (buf_write _) _ _ _ => unfold buf_write at 1
  | |- wpM (buf_truncate _) _ _ _ => unfold buf_truncate at 1
  | |- wpM (shift_ind _) _ _ _ => unfold shift_ind at 1
  | |- wpM (append_err _) _ _ _ => unfold append_err at 1
  | |- wpM (with_buf _) _ _ _ => unfold with_buf at 1
  | |- wpM (with_ind_ _ _) _ _ _ => unfold with_ind_ at 1
  | |- wpM (with_ind _ _) _ _ _ => unfold with_ind at 1
  | X : at_ _ _ _ _ _ ?s ?g |- wpM set_checkpoint ?s ?g _ =>
      apply (wpM_set _ _ _ _ _ _ _ _ X); clear X; let s2 := fresh "s" in let g2 := fresh "g" in let X2 := fresh "A" in intros s2 g2 X2
  | X : at_ _ _ _ _ _ ?s ?g |- wpM commit ?s ?g _ =>
      apply (wpM_commit _ _ _ _ _ _ _ _ _ X); clear X; let s2 := fresh "s" in let g2 := fresh "g" in let X2 := fresh "A" in intros s2 g2 X2
  | X : at_ _ _ _ _ _ ?s ?g |- wpM rollback ?s ?g _ =>
      apply (wpM_rollback _ _ _ _ _ _ _ _ _ X); clear X;
      let t2 := fresh "t" in let m2 := fresh "m" in let s2 := fresh "s" in let g2 := fresh "g" in let X2 := fresh "A" in let L2 := fresh "L" in
      intros t2 m2 s2 g2 X2 L2
  | X : at_ _ _ _ _ _ ?s ?g |- wpM (set_raw ?b) ?s ?g _ =>
      apply (wpM_raw b _ _ _ _ _ _ _ _ X); clear X; let s2 := fresh "s" in let g2 := fresh "g" in let X2 := fresh "A" in intros s2 g2 X2
  | X : at_ _ _ _ _ _ ?s ?g |- wpM mark_dead_end ?s ?g _ =>
      apply (wpM_mark _ _ _ _ _ _ _ _ X); clear X; let b := fresh "b" in let s2 := fresh "s" in let X2 := fresh "A" in intros b s2 X2
  | X : at_ _ _ _ ?t _ ?s ?g |- wpM next ?s ?g _ =>
      apply (wpM_next _ _ _ _ _ _ _ _ X); [not_bom|cbn [length] in *; lia|]; clear X;
      let t2 := fresh "t" in let m2 := fresh "m" in let s2 := fresh "s" in let g2 := fresh "g" in let X2 := fresh "A" in let L2 := fresh "L" in
      let N2 := fresh "N" in let K2 := fresh "K" in
      intros t2 m2 s2 g2 X2 L2 N2 K2;
      try (let H := fresh in assert (H : tok_type t <> TEOF) by not_bom; specialize (N2 (or_introl H)); clear H)
  | |- wpM (if true then _ else _) _ _ _ => cbv iota
  | |- wpM (if false then _ else _) _ _ _ => cbv iota
  | |- wpM (if _ then _ else _) _ _ _ => break_if
  | |- wpM (match _ with _ => _ end) _ _ _ => break_if
  | X : at_ _ _ _ _ _ ?s ?g, _ : mark ?B |- wpM (loop ?fuel ?body ?a) ?s ?g _ =>
      eapply (wpM_ok B (loop fuel body a) anyp);
      [apply ok_loop; [lia|]; intro; cbv beta; start; go|exact X|cbn [length] in *; lia|cbn [length] in *; lia|clear X;
       let a := fresh "a" in let t2 := fresh "t" in let m2 := fresh "m" in let s2 := fresh "s" in let g2 := fresh "g" in let X2 := fresh "A" in let L2 := fresh "L" in
       intros a t2 m2 s2 g2 X2 L2 _]
  | X : at_ _ _ _ _ _ ?s ?g, _ : mark ?B |- wpM (loop_ ?fuel ?body) ?s ?g _ =>
      eapply (wpM_ok B (loop_ fuel body) anyp);
      [apply ok_loop_; [lia|]; start; go|exact X|cbn [length] in *; lia|cbn [length] in *; lia|clear X;
       let a := fresh "a" in let t2 := fresh "t" in let m2 := fresh "m" in let s2 := fresh "s" in let g2 := fresh "g" in let X2 := fresh "A" in let L2 := fresh "L" in
       intros a t2 m2 s2 g2 X2 L2 _]
  | X : at_ _ _ _ _ _ ?s ?g |- wpM ?p ?s ?g _ =>
      first [match goal with _ : mark ?B |- _ => eapply (wpM_ok B p _ _ _ _ _ _ _ _ _ ltac:(solve [eauto with pspec]) X) end
            |eapply (wpM_ok _ p _ _ _ _ _ _ _ _ _ ltac:(solve [eauto with pspec]) X)];
      [cbn [length] in *; lia|cbn [length] in *; lia|clear X];
      let a := fresh "a" in let t2 := fresh "t" in let m2 := fresh "m" in let s2 := fresh "s" in let g2 := fresh "g" in let X2 := fresh "A" in let L2 := fresh "L" in
      let P2 := fresh "P" in
      intros a t2 m2 s2 g2 X2 L2 P2; pose_valid
  end
with go := repeat step; try (fin; [..|post]).

Section Productions.
  Variable fuel : nat.
  Local Arguments Z.to_nat : simpl never.

  Definition plain_cond (cond : token -> bool) : Prop :=
    forall t, cond t = true -> tok_type t <> TBOM /\ tok_type t <> TEOF.

  Lemma ok_skip_while cond : plain_cond cond -> ok fuel (skip_while fuel cond) anyp.
  Proof.
    intro Hc. unfold skip_while. apply ok_loop_; [lia|]. start. repeat step.
    - destruct (Hc _ E) as [H1 H2]. go.
    - go.
  Qed.

  Lemma ok_write_while cond : plain_cond cond -> ok fuel (write_while fuel cond) anyp.
  Proof.
    intro Hc. unfold write_while. apply ok_loop_; [lia|]. start. repeat step.
    - destruct (Hc _ E) as [H1 H2]. go.
    - go.
  Qed.

  Lemma plain_white_space : plain_cond is_white_space.
  Proof. intros t. unfold is_white_space. destruct (tok_type t); try discriminate; split; congruence. Qed.
  Lemma plain_non_break : plain_cond is_non_break.
  Proof. intros t. unfold is_non_break. destruct (tok_type t); try discriminate; split; congruence. Qed.
  Hint Resolve ok_skip_while ok_write_while plain_white_space plain_non_break : pspec.

  Lemma at_sol k d bs t n s g : at_ k d bs t n s g -> p_sol s = Nat.odd n.
  Proof. intros H. destruct H as [_ _ _ H _ _ _]. rewrite <- H. symmetry. apply odd_msr. Qed.

  Lemma skip_while_first cond k d bs t n s g (Q : unit -> pst -> ghost -> Prop) :
    plain_cond cond -> at_ k d bs t n s g -> n < fuel -> 1 <= k + length bs -> cond t = true ->
    (forall a t2 n' s' g', at_ k d bs t2 n' s' g' -> n' < n -> Q a s' g') -> wpM (skip_while fuel cond) s g Q.
  Proof.
    intros Hc Hat Hn Hk Ht HQ. destruct fuel as [|f]; [lia|].
    unfold skip_while, loop_, loop. cbn [loop_go].
    destruct (Hc _ Ht) as [H1 H2]. repeat step; [|congruence]. cbn [snd fst].
    eapply wpM_ok; [|exact A|shelve|exact Hk|].
    - apply (ok_loop_go f f); [lia|]. intros _. start. repeat step.
      + destruct (Hc _ E0). go.
      + go.
    - intros a t2 m2 s2 g2 A2 L2 _. apply (HQ a t2 m2); [exact A2|lia].
    Unshelve. lia.
  Qed.

  (** ** indents.go *)
  (** valid: something was read, or it is the start of a line *)
  Definition sep_post : node -> nat -> nat -> Prop :=
    fun a n n' => valid_node a = true -> n' < n \/ Nat.odd n = true.
  Lemma ok_separate_in_line : ok fuel (parse_separate_in_line fuel) sep_post.
  Proof.
    unfold parse_separate_in_line. start.
    repeat (lazymatch goal with |- wpM (skip_while _ _) _ _ _ => fail | _ => step end). 1,2: fin; discriminate.
    rewrite (at_sol _ _ _ _ _ _ _ A) in E0.
    destruct (is_white_space t) eqn:Ew.
    - eapply skip_while_first; [apply plain_white_space|exact A|exact Hn|exact Hk|exact Ew|].
      intros a t2 n2 s2 g2 A2 L2. go. left. exact L2.
    - go. intros _. right. destruct (Nat.odd n); [reflexivity|discriminate].
  Qed.
  Hint Resolve ok_separate_in_line : pspec.

  Lemma ok_take_spaces n : ok fuel (take_spaces n) anyp.
  Proof. induction n as [|n IH]; cbn [take_spaces]; start; go. Qed.
  Hint Resolve ok_take_spaces : pspec.

  Lemma ok_indent_strict i : ok fuel (parse_indent_strict i) anyp.
  Proof. unfold parse_indent_strict. start; go. Qed.
  Lemma ok_indent_lower i : ok fuel (parse_indent_lower fuel i) anyp.
  Proof. unfold parse_indent_lower. start; go. Qed.
  Hint Resolve ok_indent_strict ok_indent_lower : pspec.
  Lemma ok_indent : ok fuel (parse_indent fuel) anyp.
  Proof. unfold parse_indent. start; go. Qed.
  Hint Resolve ok_indent : pspec.

  Lemma ok_count_spaces n : forall z, ok fuel (count_spaces n z) anyp.
  Proof. induction n as [|n IH]; intros z; cbn [count_spaces]; start; go. Qed.
  Hint Resolve ok_count_spaces : pspec.
  Lemma ok_bordered_indent i low : ok fuel (parse_bordered_indent i low) anyp.
  Proof. unfold parse_bordered_indent. start; go. Qed.
  Lemma ok_indent_less i : ok fuel (parse_indent_less i) anyp.
  Proof. apply ok_bordered_indent. Qed.
  Lemma ok_indent_less_or_equal i : ok fuel (parse_indent_less_or_equal i) anyp.
  Proof. apply ok_bordered_indent. Qed.
  Hint Resolve ok_indent_less ok_indent_less_or_equal : pspec.

  Lemma ok_flow_line_prefix : ok fuel (parse_flow_line_prefix fuel) anyp.
  Proof. unfold parse_flow_line_prefix. start; go. Qed.
  Hint Resolve ok_flow_line_prefix : pspec.
  Lemma ok_line_prefix ctx : ok fuel (parse_line_prefix fuel ctx) anyp.
  Proof. unfold parse_line_prefix. start; go. Qed.
  Hint Resolve ok_line_prefix : pspec.
  Lemma ok_empty ctx : ok fuel (parse_empty fuel ctx) strict.
  Proof. unfold parse_empty. start; go. Qed.
  Hint Resolve ok_empty : pspec.

  (** ** comments.go *)
  Lemma ok_comment_text : ok fuel (parse_comment_text fuel) strict.
  Proof. unfold parse_comment_text. start; go. Qed.
  Hint Resolve ok_comment_text : pspec.

  Lemma ok_comment_line : ok fuel (parse_comment_line fuel) strict.
  Proof.
    unfold parse_comment_line. start. go.
    destruct (P E0) as [Hlt|Hodd]; [lia|].
    destruct (Nat.eq_dec m1 n) as [->|Hne]; [|lia]. apply N. right. exact Hodd.
  Qed.
  Hint Resolve ok_comment_line : pspec.

  Lemma ok_separated_comment : ok fuel (parse_separated_comment fuel) anyp.
  Proof. unfold parse_separated_comment. start; go. Qed.
  Hint Resolve ok_separated_comment : pspec.

  Lemma ok_repeat_valid m : ok fuel m strict -> ok fuel (repeat_valid fuel m) anyp.
  Proof. intro H. unfold repeat_valid. start; go. Qed.
  Hint Resolve ok_repeat_valid : pspec.

  Lemma ok_comments : ok fuel (parse_comments fuel) anyp.
  Proof. unfold parse_comments. start; go. Qed.
  Hint Resolve ok_comments : pspec.

  Lemma ok_separate_lines : ok fuel (parse_separate_lines fuel) anyp.
  Proof. unfold parse_separate_lines. start; go. Qed.
  Hint Resolve ok_separate_lines : pspec.
  Lemma ok_separate ctx : ok fuel (parse_separate fuel ctx) anyp.
  Proof. unfold parse_separate. start; go. Qed.
  Hint Resolve ok_separate : pspec.

  (** ** properties.go *)
  Definition known : chomping -> nat -> nat -> Prop := fun c _ _ => c <> UnknownChomping.
  Lemma ok_chomping : ok fuel parse_chomping known.
  Proof. unfold parse_chomping. start; go; congruence. Qed.
  Hint Resolve ok_chomping : pspec.
  Lemma ok_indentation_indicator : ok fuel parse_indentation_indicator anyp.
  Proof. unfold parse_indentation_indicator. start; go. Qed.
  Hint Resolve ok_indentation_indicator : pspec.
  Definition header_post : node -> nat -> nat -> Prop :=
    fun a _ _ => match a with NBlockHeader c _ => c <> UnknownChomping | _ => True end.
  Lemma ok_block_header : ok fuel (parse_block_header fuel) header_post.
  Proof. unfold parse_block_header. start; go; unfold known in *; cbn; auto; congruence. Qed.
  Hint Resolve ok_block_header : pspec.

  Lemma ok_alias : ok fuel parse_alias_node anyp.
  Proof. unfold parse_alias_node. start; go. Qed.
  Lemma ok_anchor : ok fuel parse_anchor_property anyp.
  Proof. unfold parse_anchor_property. start; go. Qed.
  Lemma ok_tag_handle : ok fuel parse_tag_handle anyp.
  Proof. unfold parse_tag_handle. start; go. Qed.
  Hint Resolve ok_alias ok_anchor ok_tag_handle : pspec.
  Lemma ok_tag_property : ok fuel parse_tag_property anyp.
  Proof.
    unfold parse_tag_property. start; go.
    destruct (verbatim_body (tok_origin t2)); [|discriminate].
    destruct (ttype_eqb (tok_type t2) TString && conforms_charset t4 CsURI) eqn:E3; [|discriminate]. go.
  Qed.
  Hint Resolve ok_tag_property : pspec.
  Lemma ok_properties ctx : ok fuel (parse_properties fuel ctx) anyp.
  Proof. unfold parse_properties. start; go. Qed.
End Productions.

Global Hint Resolve ok_skip_while ok_write_while plain_white_space plain_non_break ok_separate_in_line
  ok_take_spaces ok_indent_strict ok_indent_lower ok_indent ok_indent_less ok_indent_less_or_equal
  ok_flow_line_prefix ok_line_prefix ok_empty ok_comment_text ok_comment_line ok_separated_comment
  ok_repeat_valid ok_comments ok_separate_lines ok_separate ok_chomping ok_indentation_indicator
  ok_block_header ok_alias ok_anchor ok_tag_handle ok_tag_property ok_properties : pspec.
