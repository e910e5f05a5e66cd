(** Cases for C41, C47 and C48: documents on which the generated decoder does not return, loses values
    or reads values that belong elsewhere. *)
From Coq Require Import String.
From Coq Require Import ZifyBool ZifyNat.
From Verif Require Import Base Schema Values Ast Writer Builder GBuilder Reader YReader GReader ReaderCases GenCode GenSpec.
Local Open Scope nat_scope.

(** ** after a fatal error nothing changes any more *)
Lemma fatal_call {Nd K} (en : engine Nd K) o f c r ans r' : has_fatal r = true ->
  do_call en o f c r = Done (ans, r') -> r' = r.
Proof.
  intros Hf H. unfold do_call in H. unfold has_fatal in Hf. destruct (r_fatal r) eqn:E; [|discriminate].
  destruct c; unfold has_fatal in H; rewrite ?E in H; congruence.
Qed.
Lemma interp_fatal {Nd K A} (en : engine Nd K) o f (p : prog Nd A) : forall r hs a r' hs', has_fatal r = true ->
  interp en o f p (r, hs) = Done (a, (r', hs')) -> r' = r /\ exists l, hs' = hs ++ l.
Proof.
  induction p as [a|c k IH|c k IH|h k IH|h k IH|[e|] k IH| |]; intros r hs a0 r' hs' Hf H; cbn [interp fst snd] in H.
  - injection H as _ <- <-. split; [reflexivity|]. exists []. rewrite app_nil_r. reflexivity.
  - destruct (do_call en o f c r) as [[ans r1]| |] eqn:E; cbn [obind fst snd] in H; try discriminate.
    apply fatal_call in E; [|exact Hf]. subst r1. apply IH in H as [-> [l ->]]; [|exact Hf].
    split; [reflexivity|]. rewrite <- app_assoc. eexists; reflexivity.
  - destruct (do_call en o f c r) as [[ans r1]| |] eqn:E; cbn [obind fst snd] in H; try discriminate.
    apply fatal_call in E; [|exact Hf]. subst r1. apply IH in H as [-> [l ->]]; [|exact Hf].
    split; [reflexivity|]. rewrite <- app_assoc. eexists; reflexivity.
  - destruct (coll_size _) eqn:E; cbn [obind] in H; try discriminate. eapply IH; eassumption.
  - destruct (coll_more _ _) eqn:E; cbn [obind] in H; try discriminate. eapply IH; eassumption.
  - destruct (do_call en o f (DAddError e) r) as [[ans r1]| |] eqn:E; cbn [obind fst snd] in H; try discriminate.
    apply fatal_call in E; [|exact Hf]. subst r1. eapply IH; eassumption.
  - replace (add_nil_error en r) with r in H by (unfold add_nil_error; rewrite Hf; reflexivity). eapply IH; eassumption.
  - discriminate.
  - discriminate.
Qed.

(** Whatever its body does, a loop over a collection with unread items does not return. *)
Lemma loop_after_error {Nd K A} (en : engine Nd K) o f (body : A -> prog Nd A) h : forall g a r hs res,
  has_fatal r = true -> h < length hs -> coll_more r (nth h hs CollNil) = Done true ->
  interp en o f (while g h (fun _ => true) body a) (r, hs) <> Done res.
Proof.
  assert (Hb : forall B (p : prog Nd A) (k : A -> prog Nd B) r hs res, interp en o f (bind p k) (r, hs) = Done res ->
    exists a r1 hs1, interp en o f p (r, hs) = Done (a, (r1, hs1)) /\ interp en o f (k a) (r1, hs1) = Done res).
  { intros B p k. induction p as [a|c k' IH|c k' IH|i k' IH|i k' IH|[e|] k' IH| |]; intros r hs res H; cbn [bind interp fst snd] in *.
    - eauto.
    - destruct (do_call en o f c r) as [[ans r1]| |]; cbn [obind fst snd] in *; try discriminate. apply IH. exact H.
    - destruct (do_call en o f c r) as [[ans r1]| |]; cbn [obind fst snd] in *; try discriminate. apply IH. exact H.
    - destruct (coll_size _); cbn [obind] in *; try discriminate. apply IH. exact H.
    - destruct (coll_more _ _); cbn [obind] in *; try discriminate. apply IH. exact H.
    - destruct (do_call en o f (DAddError e) r) as [[ans r1]| |]; cbn [obind fst snd] in *; try discriminate. apply IH. exact H.
    - apply IH. exact H.
    - discriminate.
    - discriminate. }
  induction g as [|g IH]; intros a r hs res Hf Hh Hm H; cbn [while interp fst snd] in H; [discriminate|].
  rewrite Hm in H. cbn [obind andb] in H. apply Hb in H as (a1 & r1 & hs1 & H1 & H2).
  apply interp_fatal in H1 as [-> [l ->]]; [|exact Hf].
  revert H2. apply IH; [exact Hf|rewrite app_length; lia|rewrite app_nth1; assumption].
Qed.

(** ** [x, 1] as a list of integers *)
Definition bad_items : list node := [plain_text (t' "x"); plain_text (t' "1")].
Definition bad_start : rstate node anchors :=
  mkR [mkPoint CMatch y_bad (Some 0)] [bad_items] CMatch (CollState 2 0) [] an_new false None None [].
Definition bad_state : rstate node anchors :=
  mkR [mkPoint CDeny (plain_text (t' "x")) None; mkPoint CContinue y_bad (Some 0)] [tl bad_items]
      CDeny (CollState 2 0) [] an_new false (Some (RDeny EInteger)) None [].
Lemma bad_1 o f : do_call (y_engine o) o (S (S (S (S f)))) DTryNull (y_reader false y_bad) =
  Done (ABool false, mkR [mkPoint CDeny y_bad (Some 0)] [bad_items] CDeny CollNil [] an_new false None None []).
Proof. reflexivity. Qed.
Lemma bad_2 o f : do_call (y_engine o) o (S (S (S (S f)))) DTryNull
  (mkR [mkPoint CDeny y_bad (Some 0)] [bad_items] CDeny CollNil [] an_new false None None []) =
  Done (ABool false, mkR [mkPoint CDeny y_bad (Some 0)] [bad_items] CDeny CollNil [] an_new false None None []).
Proof. reflexivity. Qed.
Lemma bad_3 o f : do_call (y_engine o) o (S (S (S (S f)))) DSequence
  (mkR [mkPoint CDeny y_bad (Some 0)] [bad_items] CDeny CollNil [] an_new false None None []) =
  Done (AColl (CollState 2 0), bad_start).
Proof. reflexivity. Qed.
Lemma bad_4 o f b : do_call (y_engine o) o (S (S (S (S f)))) (DInteger b) bad_start = Done (AInt 0, bad_state).
Proof. reflexivity. Qed.
Lemma bad_5 o f b : do_call (y_engine o) o f (DInteger b) bad_state = Done (AInt 0, bad_state).
Proof. reflexivity. Qed.

Lemma never_returns x tb omitempty strict o b fuel :
  y_decode x tb omitempty strict o false fuel (TySlice (TyInt b)) GoNil y_bad = NoFuel.
Proof.
  do 4 (destruct fuel as [|fuel]; [reflexivity|]).
  unfold y_decode, decode_top. remember (S (S (S (S fuel)))) as f eqn:Ef.
  cbn [interp fst snd]. rewrite Ef at 1. rewrite bad_1. cbn [obind fst snd yes colls_of app].
  rewrite Ef at 2. cbn [decode interp fst snd]. rewrite Ef at 1. rewrite bad_2. cbn [obind fst snd yes colls_of app].
  rewrite Ef at 1. cbn [interp fst snd]. rewrite bad_3. cbn [obind fst snd interp colls_of app length].
  cbn [nth coll_size obind]. set (body := fun l : list goval => bind (of_option _) _).
  assert (Hloop : forall g l r, (r = bad_start \/ r = bad_state) ->
    interp (y_engine o) o f (bind (while g 0 (fun _ => true) body l) (fun l => Ret (GoSlice l))) (r, [CollState 2 0]) = NoFuel).
  { induction g as [|g IH]; intros l r Hr; [reflexivity|]. cbn [while bind interp fst snd nth].
    assert (coll_more r (CollState 2 0) = Done true) as -> by (destruct Hr as [-> | ->]; reflexivity).
    cbn [obind andb]. unfold body at 1. cbn [zero of_option bind decode interp fst snd].
    assert (do_call (y_engine o) o f (DInteger b) r = Done (AInt 0, bad_state)) as ->.
    { destruct Hr as [-> | ->]; [rewrite Ef; apply bad_4|apply bad_5]. }
    cbn [obind fst snd interp bind int colls_of app]. apply IH. right. reflexivity. }
  rewrite <- Ef. apply Hloop. left. reflexivity.
Qed.

(** ** pointers to nil *)
Lemma null_like_encoded x tb omitempty v : forall t, typed tb t v -> null_like v -> encode x tb omitempty true t v = [ONull].
Proof.
  induction v; intros t Ht Hn; cbn [null_like] in Hn; try contradiction.
  - inversion Ht; subst. destruct t; try discriminate; reflexivity.
  - inversion Ht; subst. cbn [encode]. apply IHv; assumption.
Qed.
