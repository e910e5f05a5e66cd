(** The tokenizer and the parser over bytes are those over the text that the bytes read as. *)
From Verif Require Import Base Ast Token CPAccessor Lexer LexerProofs Parser ParserDocs ParserTotal Utf8 Utf8Spec.
From Coq Require Import ZifyBool ZifyNat ZifyN.
Local Open Scope N_scope.

(** ** Accessors over related streams *)
Section Accessors.
  Context {S1 S2 T : Type} (f1 : S1 -> T * S1) (f2 : S2 -> T * S2) (Q : S1 -> S2 -> Prop).
  Hypothesis next_ok : forall s1 s2, Q s1 s2 -> fst (f1 s1) = fst (f2 s2) /\ Q (snd (f1 s1)) (snd (f2 s2)).

  Definition arel (a1 : accessor S1 T) (a2 : accessor S2 T) : Prop :=
    Q (acc_stream a1) (acc_stream a2) /\ acc_buf a1 = acc_buf a2 /\ acc_saved a1 = acc_saved a2 /\
    acc_ind a1 = acc_ind a2 /\ acc_cps a1 = acc_cps a2.
  Definition orel {A} (r1 : option (A * accessor S1 T)) (r2 : option (A * accessor S2 T)) : Prop :=
    match r1, r2 with
    | Some (v1, a1), Some (v2, a2) => v1 = v2 /\ arel a1 a2
    | None, None => True
    | _, _ => False
    end.

  Lemma arel_next a1 a2 : arel a1 a2 -> orel (acc_next f1 a1) (acc_next f2 a2).
  Proof.
    destruct a1 as [s1 b1 v1 i1 c1], a2 as [s2 b2 v2 i2 c2]. intros (H & E1 & E2 & E3 & E4). cbn in H, E1, E2, E3, E4. subst.
    unfold acc_next, orel. cbn. destruct i2 as [i|].
    - destruct (nth_error b2 i); [|exact I]. destruct (Nat.eqb _ _); repeat split; auto.
    - destruct (next_ok _ _ H) as [E1 E2]. destruct (f1 s1), (f2 s2). cbn in *. subst. destruct c2; repeat split; auto.
  Qed.
  Lemma arel_set a1 a2 : arel a1 a2 -> arel (acc_set_checkpoint a1) (acc_set_checkpoint a2).
  Proof.
    destruct a1 as [s1 b1 v1 i1 c1], a2 as [s2 b2 v2 i2 c2]. intros (H & E1 & E2 & E3 & E4). cbn in H, E1, E2, E3, E4. subst.
    repeat split; auto.
  Qed.
  Lemma arel_commit a1 a2 : arel a1 a2 -> arel (acc_commit a1) (acc_commit a2).
  Proof.
    destruct a1 as [s1 b1 v1 i1 c1], a2 as [s2 b2 v2 i2 c2]. intros (H & E1 & E2 & E3 & E4). cbn in H, E1, E2, E3, E4. subst.
    unfold acc_commit. cbn. destruct c2 as [|x [|y c2]]; [repeat split; auto| |repeat split; auto].
    destruct i2; [|destruct (last_opt b2)]; repeat split; auto.
  Qed.
  Lemma arel_rollback a1 a2 : arel a1 a2 -> orel (acc_rollback a1) (acc_rollback a2).
  Proof.
    destruct a1 as [s1 b1 v1 i1 c1], a2 as [s2 b2 v2 i2 c2]. intros (H & E1 & E2 & E3 & E4). cbn in H, E1, E2, E3, E4. subst.
    unfold acc_rollback, orel. cbn. destruct c2 as [|[i|] c2]; [repeat split; auto| |repeat split; auto].
    destruct (nth_error b2 i); [|exact I]. destruct (Nat.eqb _ _); repeat split; auto.
  Qed.
End Accessors.

(** ** The tokenizer over an accessor *)
Section Source.
  Context {S1 S2 : Type} (f1 : S1 -> option rune * S1) (f2 : S2 -> option rune * S2) (Q : S1 -> S2 -> Prop).
  Hypothesis next_ok : forall s1 s2, Q s1 s2 -> fst (f1 s1) = fst (f2 s2) /\ Q (snd (f1 s1)) (snd (f2 s2)).

  Lemma over_read_ok a1 a2 : arel Q a1 a2 ->
    fst (over_read f1 a1) = fst (over_read f2 a2) /\ arel Q (snd (over_read f1 a1)) (snd (over_read f2 a2)).
  Proof.
    intro H. pose proof (arel_next f1 f2 Q next_ok a1 a2 H) as K. unfold over_read, orel in *.
    destruct (acc_next f1 a1) as [[v1 b1]|], (acc_next f2 a2) as [[v2 b2]|]; try contradiction; cbn; auto.
  Qed.
  Lemma over_reads_ok n : forall a1 a2, arel Q a1 a2 ->
    fst (over_reads f1 n a1) = fst (over_reads f2 n a2) /\ arel Q (snd (over_reads f1 n a1)) (snd (over_reads f2 n a2)).
  Proof.
    induction n as [|n IH]; intros a1 a2 H; [split; [reflexivity|exact H]|]. cbn [over_reads].
    destruct (over_read_ok _ _ H) as [E1 H1]. destruct (over_read f1 a1) as [v1 b1], (over_read f2 a2) as [v2 b2]. cbn in E1, H1.
    destruct (IH _ _ H1) as [E2 H2]. destruct (over_reads f1 n b1), (over_reads f2 n b2). cbn in *. subst. auto.
  Qed.
  Lemma over_look_ok n a1 a2 : arel Q a1 a2 ->
    fst (over_look f1 n a1) = fst (over_look f2 n a2) /\ arel Q (snd (over_look f1 n a1)) (snd (over_look f2 n a2)).
  Proof.
    intro H. unfold over_look. destruct (over_reads_ok n _ _ (arel_set Q _ _ H)) as [E1 H1].
    destruct (over_reads f1 n _) as [v1 b1], (over_reads f2 n _) as [v2 b2]. cbn in E1, H1. subst v2.
    pose proof (arel_rollback Q b1 b2 H1) as K. unfold orel in K.
    destruct (acc_rollback b1) as [[x1 d1]|], (acc_rollback b2) as [[x2 d2]|]; try contradiction; cbn; intuition.
  Qed.
End Source.

Lemma over_list : over_source list_next = acc_source.
Proof. reflexivity. Qed.

(** ** Bytes *)
Lemma decode_char c e r p0 rest : utf8_char c e -> p0 :: rest = e ++ r -> decode_rune p0 rest = (c, length e).
Proof.
  intros H E. destruct H as [c Hc|a b Ha Hb H|a b c Ha Hb Hc H Hs|a b c d Ha Hb Hc Hd H Hs]; pose proof (f_equal (hd 0) E) as E0; pose proof (f_equal (@tl N) E) as E1; cbn [hd tl app] in E0, E1; clear E; subst p0 rest; unfold decode_rune, first.
  - rewrite (proj2 (N.ltb_lt c 128)) by lia. reflexivity.
  - replace (192 + a <? 128) with false by lia. replace (192 + a <? 194) with false by lia. replace (192 + a <? 224) with true by lia.
    cbn [length app nth Nat.ltb Nat.leb]. unfold within. replace (128 <=? 128 + b) with true by lia. replace (128 + b <=? 191) with true by lia.
    cbn [andb negb]. rewrite <- (N.mod_unique (192 + a) 32 6 a) by lia. rewrite <- (N.mod_unique (128 + b) 64 2 b) by lia. reflexivity.
  - destruct Hs as [Hs|Hs].
    all: replace (224 + a <? 128) with false by lia; replace (224 + a <? 194) with false by lia; replace (224 + a <? 224) with false by lia.
    all: cbn [length app nth].
    all: assert (L : exists lo hi, (if 224 + a =? 224 then Seq 3 160 191 else if 224 + a <? 237 then Seq 3 128 191 else if 224 + a =? 237 then Seq 3 128 159
      else if 224 + a <? 240 then Seq 3 128 191 else if 224 + a =? 240 then Seq 4 144 191 else if 224 + a <? 244 then Seq 4 128 191
      else if 224 + a =? 244 then Seq 4 128 143 else Bad) = Seq 3 lo hi /\ within lo hi (128 + b) = true).
    1,3: destruct (224 + a =? 224) eqn:E1; [do 2 eexists; split; [reflexivity|unfold within; lia]|].
    1,2: destruct (224 + a <? 237) eqn:E2; [do 2 eexists; split; [reflexivity|unfold within; lia]|].
    1,2: destruct (224 + a =? 237) eqn:E3; [do 2 eexists; split; [reflexivity|unfold within; lia]|].
    1,2: replace (224 + a <? 240) with true by lia; do 2 eexists; split; [reflexivity|unfold within; lia].
    all: destruct L as (lo & hi & -> & ->); cbn [Nat.ltb Nat.leb negb]; unfold within; replace (128 <=? 128 + c) with true by lia; replace (128 + c <=? 191) with true by lia;
      cbn [andb negb]; rewrite <- (N.mod_unique (224 + a) 16 14 a) by lia; rewrite <- (N.mod_unique (128 + b) 64 2 b) by lia;
      rewrite <- (N.mod_unique (128 + c) 64 2 c) by lia; reflexivity.
  - destruct Hs as [Hs|Hs]; [lia|].
    replace (240 + a <? 128) with false by lia; replace (240 + a <? 194) with false by lia; replace (240 + a <? 224) with false by lia.
    replace (240 + a =? 224) with false by lia. replace (240 + a <? 237) with false by lia. replace (240 + a =? 237) with false by lia. replace (240 + a <? 240) with false by lia.
    cbn [length app nth].
    assert (L : exists lo hi, (if 240 + a =? 240 then Seq 4 144 191 else if 240 + a <? 244 then Seq 4 128 191
      else if 240 + a =? 244 then Seq 4 128 143 else Bad) = Seq 4 lo hi /\ within lo hi (128 + b) = true).
    { destruct (240 + a =? 240) eqn:E1; [do 2 eexists; split; [reflexivity|unfold within; lia]|].
      destruct (240 + a <? 244) eqn:E2; [do 2 eexists; split; [reflexivity|unfold within; lia]|].
      replace (240 + a =? 244) with true by lia. do 2 eexists; split; [reflexivity|unfold within; lia]. }
    destruct L as (lo & hi & -> & ->); cbn [Nat.ltb Nat.leb negb]; unfold within; replace (128 <=? 128 + c) with true by lia; replace (128 + c <=? 191) with true by lia.
    replace (128 <=? 128 + d) with true by lia; replace (128 + d <=? 191) with true by lia.
    cbn [andb negb]; rewrite <- (N.mod_unique (240 + a) 8 30 a) by lia; rewrite <- (N.mod_unique (128 + b) 64 2 b) by lia;
      rewrite <- (N.mod_unique (128 + c) 64 2 c) by lia; rewrite <- (N.mod_unique (128 + d) 64 2 d) by lia; reflexivity.
Qed.

Lemma decode_cases p0 rest : decode_rune p0 rest = (rune_error, 1%nat) \/
  exists c e r, utf8_char c e /\ p0 :: rest = e ++ r /\ decode_rune p0 rest = (c, length e).
Proof.
  assert (K : forall c e r, utf8_char c e -> p0 :: rest = e ++ r ->
    exists c e r, utf8_char c e /\ p0 :: rest = e ++ r /\ decode_rune p0 rest = (c, length e)).
  { intros c e r H E. exists c, e, r. split; [exact H|]. split; [exact E|]. exact (decode_char _ _ _ _ _ H E). }
  unfold decode_rune at 1. destruct (first p0) as [| |sz lo hi] eqn:F; [|left; reflexivity|].
  - right. apply (K p0 [p0] rest); [|reflexivity]. constructor. unfold first in F.
    destruct (p0 <? 128) eqn:E; [lia|]. repeat match type of F with (if ?b then _ else _) = _ => destruct b; [discriminate|] end. discriminate.
  - destruct (Nat.ltb (S (length rest)) sz) eqn:L; [left; reflexivity|]. apply Nat.ltb_ge in L.
    destruct (within lo hi (nth 0 rest 0)) eqn:W1; [cbn [negb]|left; reflexivity]. unfold within in W1.
    assert (F2 : sz = 2%nat /\ 194 <= p0 < 224 /\ lo = 128 /\ hi = 191 \/
      sz = 3%nat /\ 224 <= p0 < 240 /\ 128 <= lo /\ hi <= 191 /\ (p0 = 224 -> lo = 160) /\ (p0 = 237 -> hi = 159) \/
      sz = 4%nat /\ 240 <= p0 < 245 /\ 128 <= lo /\ hi <= 191 /\ (p0 = 240 -> lo = 144) /\ (p0 = 244 -> hi = 143)).
    { unfold first in F. repeat match type of F with (if ?b then _ else _) = _ => let E := fresh "E" in destruct b eqn:E; [try discriminate F; injection F as <- <- <-; lia|] end. discriminate. }
    clear F. destruct F2 as [(-> & P & -> & ->)|[(-> & P & P1 & P2 & P3 & P4)|(-> & P & P1 & P2 & P3 & P4)]]; cbn [Nat.leb].
    + right. destruct rest as [|b1 rest]; [cbn in L; lia|]. cbn [nth] in W1.
      eapply (K _ [192 + (p0 - 192); 128 + (b1 - 128)] rest); [apply u8_two; lia|]. cbn [app].
      replace (192 + (p0 - 192)) with p0 by lia. replace (128 + (b1 - 128)) with b1 by lia. reflexivity.
    + destruct (within 128 191 (nth 1 rest 0)) eqn:W2; [cbn [negb]|left; reflexivity]. unfold within in W2. right.
      destruct rest as [|b1 [|b2 rest]]; [cbn in L; lia|cbn in L; lia|]. cbn [nth] in W1, W2.
      eapply (K _ [224 + (p0 - 224); 128 + (b1 - 128); 128 + (b2 - 128)] rest); [apply u8_three; try lia; unfold scalar_value; lia|]. cbn [app].
      replace (224 + (p0 - 224)) with p0 by lia. replace (128 + (b1 - 128)) with b1 by lia. replace (128 + (b2 - 128)) with b2 by lia. reflexivity.
    + destruct (within 128 191 (nth 1 rest 0)) eqn:W2; [cbn [negb]|left; reflexivity].
      destruct (within 128 191 (nth 2 rest 0)) eqn:W3; [cbn [negb]|left; reflexivity]. unfold within in W2, W3. right.
      destruct rest as [|b1 [|b2 [|b3 rest]]]; [cbn in L; lia|cbn in L; lia|cbn in L; lia|]. cbn [nth] in W1, W2, W3.
      eapply (K _ [240 + (p0 - 240); 128 + (b1 - 128); 128 + (b2 - 128); 128 + (b3 - 128)] rest); [apply u8_four; try lia; unfold scalar_value; lia|]. cbn [app].
      replace (240 + (p0 - 240)) with p0 by lia. replace (128 + (b1 - 128)) with b1 by lia. replace (128 + (b2 - 128)) with b2 by lia.
      replace (128 + (b3 - 128)) with b3 by lia. reflexivity.
Qed.

Lemma char_bytes c e : utf8_char c e -> e <> [] /\ (length e = 1%nat -> c < 128).
Proof. intros []; cbn; split; try discriminate; auto. Qed.

Lemma error_char p0 rest : decode_rune p0 rest = (rune_error, 1%nat) -> forall c e r, utf8_char c e -> p0 :: rest <> e ++ r.
Proof.
  intros D c e r H E. pose proof (decode_char _ _ _ _ _ H E) as D2. rewrite D in D2. injection D2 as E1 E2.
  destruct (char_bytes _ _ H) as [_ K]. specialize (K (eq_sym E2)). rewrite <- E1 in K. unfold rune_error in K. lia.
Qed.

Lemma byte_step b s : reads_as b s -> fst (byte_next b) = fst (list_next s) /\ reads_as (snd (byte_next b)) (snd (list_next s)).
Proof.
  intros [|c e b' s' H Hr|x b' s' H Hr].
  - split; [reflexivity|constructor].
  - destruct (char_bytes _ _ H) as [Hn _]. destruct e as [|x e]; [contradiction|].
    cbn [app byte_next]. rewrite (decode_char _ _ b' x (e ++ b') H eq_refl). cbn [fst snd list_next].
    split; [reflexivity|]. change (x :: e ++ b') with ((x :: e) ++ b'). rewrite skipn_app, skipn_all, Nat.sub_diag. exact Hr.
  - cbn [byte_next]. destruct (decode_cases x b') as [->|(c & e & r & H1 & H2 & _)]; [split; [reflexivity|exact Hr]|].
    destruct (H _ _ _ H1 H2).
Qed.

Lemma reads_as_length b s : reads_as b s -> (length s <= length b)%nat.
Proof.
  induction 1 as [|c e b s H _ IH|x b s _ _ IH]; [lia| |cbn; lia].
  destruct (char_bytes _ _ H) as [Hn _]. destruct e; [contradiction|]. rewrite app_length. cbn. lia.
Qed.

Lemma reads_as_total b : exists s, reads_as b s.
Proof.
  remember (length b) as n eqn:Hn. assert (Hb : (length b <= n)%nat) by lia. clear Hn. revert b Hb.
  induction n as [|n IH]; intros [|x b] Hb; try (exists []; constructor); [cbn in Hb; lia|].
  destruct (decode_cases x b) as [D|(c & e & r & H1 & H2 & _)].
  - destruct (IH b ltac:(cbn in Hb; lia)) as (s & Hs). exists (65533 :: s). apply ra_bad; [exact (error_char _ _ D)|exact Hs].
  - destruct (char_bytes _ _ H1) as [Hn _]. destruct e as [|y e]; [contradiction|].
    assert (HL : length (x :: b) = length ((y :: e) ++ r)) by (rewrite H2; reflexivity). rewrite app_length in HL. cbn in HL, Hb.
    destruct (IH r ltac:(lia)) as (s & Hs). exists (c :: s). rewrite H2. apply ra_char; assumption.
Qed.

Lemma reads_as_unique b s1 s2 : reads_as b s1 -> reads_as b s2 -> s1 = s2.
Proof.
  intros H1. revert s2. induction H1 as [|c e b s H Hr IH|x b s H Hr IH]; intros s2 H2.
  - pose proof (byte_step _ _ H2) as [E _]. destruct s2; [reflexivity|discriminate].
  - destruct (char_bytes _ _ H) as [Hn _]. destruct e as [|x e]; [contradiction|].
    pose proof (byte_step _ _ H2) as [E1 E2]. cbn [app byte_next] in E1, E2. rewrite (decode_char _ _ b x (e ++ b) H eq_refl) in E1, E2. cbn [fst snd] in E1, E2.
    change (x :: e ++ b) with ((x :: e) ++ b) in E2. rewrite skipn_app, skipn_all, Nat.sub_diag in E2. cbn [skipn app] in E2.
    destruct s2 as [|c2 s2]; [discriminate|]. injection E1 as <-. f_equal. apply IH. exact E2.
  - pose proof (byte_step _ _ H2) as [E1 E2]. cbn [byte_next] in E1, E2.
    destruct (decode_cases x b) as [D|(c & e & r & K1 & K2 & _)]; [|destruct (H _ _ _ K1 K2)].
    rewrite D in E1, E2. cbn [fst snd skipn] in E1, E2. destruct s2 as [|c2 s2]; [discriminate|]. injection E1 as <-. f_equal. apply IH. exact E2.
Qed.

Lemma utf8_reads s b : utf8_text s b -> reads_as b s.
Proof. induction 1; [constructor|apply ra_char; assumption]. Qed.

Lemma char_total c : scalar_value c -> exists e, utf8_char c e.
Proof.
  intro H. assert (M : forall n k, k <> 0 -> n = n / k * k + n mod k /\ n mod k < k).
  { intros n k Hk. split; [rewrite (N.div_mod n k Hk) at 1; lia|apply N.mod_lt; exact Hk]. }
  destruct (N.lt_ge_cases c 128); [exists [c]; constructor; assumption|].
  destruct (M c 64 ltac:(lia)) as [E1 L1]. destruct (M (c / 64) 64 ltac:(lia)) as [E2 L2]. destruct (M (c / 64 / 64) 64 ltac:(lia)) as [E3 L3].
  set (d := c mod 64) in *. set (x := c / 64) in *. set (y := x mod 64) in *. set (z := x / 64) in *. set (u := z mod 64) in *. set (v := z / 64) in *.
  destruct (N.lt_ge_cases c 2048).
  { eexists. rewrite E1. apply u8_two; lia. }
  destruct (N.lt_ge_cases c 65536).
  { eexists. replace c with (z * 4096 + y * 64 + d) in * by lia. apply u8_three; try lia. exact H. }
  eexists. replace c with (v * 262144 + u * 4096 + y * 64 + d) in * by lia. apply u8_four; try lia. 2: exact H. unfold scalar_value in H. lia.
Qed.
Lemma char_scalar c e : utf8_char c e -> scalar_value c.
Proof. intros [c' H|a b Ha Hb H| |]; auto; left; lia. Qed.

Lemma text_total s : Forall scalar_value s -> exists b, utf8_text s b.
Proof.
  induction 1 as [|c s H _ [b IH]]; [exists []; constructor|]. destruct (char_total c H) as (e & He). exists (e ++ b). constructor; assumption.
Qed.

(** ** The tokenizer with more fuel *)
Lemma emit_more {S} (src : source S) f : forall f' pending l r, emit src f pending l = Some r -> (f <= f')%nat -> emit src f' pending l = Some r.
Proof.
  induction f as [|f IH]; intros f' pending l r E Hf; [discriminate|]. destruct f' as [|f']; [lia|]. cbn [emit] in *.
  destruct (src_next src (lx_src l)) as [c s]. destruct (match_special src _ c) as [[tk|] l']; [exact E|].
  destruct pending as [[start o]|]; apply (IH f' _ _ _ E); lia.
Qed.
Lemma next_more {S} (src : source S) f f' l r : lex_next src f l = Some r -> (f <= f')%nat -> lex_next src f' l = Some r.
Proof. unfold lex_next. destruct (lx_prepared l); [auto|]. apply emit_more. Qed.
Lemma run_more {S} (src : source S) f f' sched : (f <= f')%nat -> forall l r, lex_run src f sched l = Some r -> lex_run src f' sched l = Some r.
Proof.
  intro Hf. induction sched as [|b sched IH]; intros l r E; [exact E|]. cbn [lex_run] in *.
  destruct (lex_next src f (lex_set_raw b l)) as [[tk l']|] eqn:E1; [|discriminate]. rewrite (next_more _ _ _ _ _ E1 Hf).
  destruct (lex_run src f sched l') as [ts|] eqn:E2; [|discriminate]. rewrite (IH _ _ E2). exact E.
Qed.

Lemma byte_read_ok : forall a1 a2, arel reads_as a1 a2 -> fst (src_next byte_source a1) = fst (src_next acc_source a2) /\
  arel reads_as (snd (src_next byte_source a1)) (snd (src_next acc_source a2)).
Proof. exact (over_read_ok byte_next list_next reads_as byte_step). Qed.
Lemma byte_look_ok : forall n a1 a2, arel reads_as a1 a2 -> fst (src_look byte_source n a1) = fst (src_look acc_source n a2) /\
  arel reads_as (snd (src_look byte_source n a1)) (snd (src_look acc_source n a2)).
Proof. exact (over_look_ok byte_next list_next reads_as byte_step). Qed.

Lemma start_rel b s : reads_as b s -> lex_rel (arel reads_as) (lex_new (acc_init (None : option rune) b)) (lex_new (acc_init None s)).
Proof. intro H. repeat split; cbn; auto. Qed.

Theorem tokens_of_bytes b s sched : reads_as b s -> tokenize_bytes b sched = tokenize s sched.
Proof.
  intro H. destruct (tokenize_good s sched) as (ts & E & _). rewrite E. unfold tokenize in E.
  unfold tokenize_bytes. rewrite (run_sim byte_source acc_source (arel reads_as) byte_read_ok byte_look_ok _ _ _ _ (start_rel b s H)).
  assert (L : (S (length s) <= S (length b))%nat) by (pose proof (reads_as_length _ _ H); lia).
  exact (run_more _ _ _ _ L _ _ E).
Qed.

(** ** The parser *)
Section Streams.
  Context {S1 S2 : Type} (st1 : stream S1) (st2 : stream S2) (Q : S1 -> S2 -> Prop).
  Hypothesis next_ok : forall s1 s2, Q s1 s2 -> fst (st_next st1 s1) = fst (st_next st2 s2) /\ Q (snd (st_next st1 s1)) (snd (st_next st2 s2)).
  Hypothesis raw_ok : forall b s1 s2, Q s1 s2 -> Q (st_raw st1 b s1) (st_raw st2 b s2).

  Definition frel {A} (r1 : ran (accessor S1 token) A) (r2 : ran (accessor S2 token) A) : Prop :=
    match r1, r2 with
    | Fin x1 _, Fin x2 _ => x1 = x2
    | Panicked, Panicked => True
    | OutOfFuel, OutOfFuel => True
    | _, _ => False
    end.

  Lemma run_streams {A} (p : prog A) : forall a1 a2, arel Q a1 a2 -> frel (run_acc st1 p a1) (run_acc st2 p a2).
  Proof.
    induction p as [x| |k IH|k IH|k IH|k IH|b k IH]; intros a1 a2 H; cbn [run_acc].
    - reflexivity.
    - exact I.
    - pose proof (arel_next (st_next st1) (st_next st2) Q next_ok a1 a2 H) as K. unfold orel in K.
      destruct (acc_next _ a1) as [[v1 d1]|], (acc_next _ a2) as [[v2 d2]|]; try contradiction; [|exact I].
      destruct K as [-> K]. apply IH, K.
    - apply IH, arel_set, H.
    - apply IH, arel_commit, H.
    - pose proof (arel_rollback Q a1 a2 H) as K. unfold orel in K.
      destruct (acc_rollback a1) as [[v1 d1]|], (acc_rollback a2) as [[v2 d2]|]; try contradiction; [|exact I].
      destruct K as [-> K]. apply IH, K.
    - apply IH. destruct H as (H & H1 & H2 & H3 & H4). repeat split; cbn; auto.
  Qed.
End Streams.

Lemma frel_parsed {S1 S2} (r1 : ran (accessor S1 token) (node * pst)) (r2 : ran (accessor S2 token) (node * pst)) : frel r1 r2 ->
  (match r1 with Fin (n, p) _ => Fin (n, p_errs p) tt | Panicked => Panicked | OutOfFuel => OutOfFuel end : ran unit parsed) =
  match r2 with Fin (n, p) _ => Fin (n, p_errs p) tt | Panicked => Panicked | OutOfFuel => OutOfFuel end.
Proof. destruct r1 as [[n1 p1] a1| |], r2 as [[n2 p2] a2| |]; cbn; try contradiction; try reflexivity. intros [= -> ->]. reflexivity. Qed.

Lemma text_some doc n l : text_bounded doc n l -> exists r, lex_next acc_source (S (length doc)) l = Some r.
Proof.
  intros (l2 & HR & HK & HP).
  pose proof (lex_next_sim acc_source list_source acc_rel acc_read_ok
    (fun k s1 s2 H => acc_look_ok k s1 s2 H) (S (length doc)) l l2 HR) as Sim.
  assert (E : exists r, lex_next list_source (S (length doc)) l2 = Some r).
  { destruct HP as [(pre & HP & _)|HF].
    - destruct (next_advance doc pre (S (length doc)) l2 HP ltac:(lia)) as (tok & l2' & E & _). eexists; exact E.
    - destruct (next_finished (S (length doc)) l2 HF ltac:(lia)) as (tok & l2' & E & _). eexists; exact E. }
  destruct E as (r & E). unfold text, rune in *. rewrite E in Sim.
  destruct (lex_next acc_source (S (length doc)) l) as [r'|]; [|destruct Sim; fail]. exists r'; reflexivity.
Qed.

Theorem parse_of_bytes digit fuel omit b s : reads_as b s -> parse_bytes digit fuel omit b = parse_string digit fuel omit s.
Proof.
  intro H. unfold parse_bytes, parse_string.
  match goal with |- match ?x with _ => _ end = match ?y with _ => _ end => enough (E : x = y) by (rewrite E; reflexivity) end.
  unfold parse_token_stream.
  set (Q := fun (l1 : lex (accessor bytes (option rune))) (l2 : lex rune_accessor) => lex_rel (arel reads_as) l1 l2 /\ exists n, text_bounded s n l2).
  assert (Hnext : forall l1 l2, Q l1 l2 ->
    fst (st_next (lexer_stream byte_source (S (length b))) l1) = fst (st_next (lexer_stream acc_source (S (length s))) l2) /\
    Q (snd (st_next (lexer_stream byte_source (S (length b))) l1)) (snd (st_next (lexer_stream acc_source (S (length s))) l2))).
  { intros l1 l2 [R [n Hn]]. pose proof (text_next s n l2 Hn) as (_ & _ & N2). destruct (text_some s n l2 Hn) as ([tk l2'] & E2).
    pose proof (lex_next_sim byte_source acc_source (arel reads_as) byte_read_ok byte_look_ok (S (length s)) l1 l2 R) as Sim.
    unfold rune in *. rewrite E2 in Sim. match type of Sim with out_rel _ ?x _ => destruct x as [[tk1 l1']|] eqn:E1; [|destruct Sim; fail] end. destruct Sim as [Q1 Q2]. cbn [fst snd] in Q1, Q2.
    unfold lexer_stream in *. cbn [st_next] in *. assert (L : (S (length s) <= S (length b))%nat) by (pose proof (reads_as_length _ _ H); lia). pose proof (next_more _ _ _ _ _ E1 L) as E3.
    unfold bytes, text, rune in *. rewrite E3.
    rewrite E2 in *. cbn [fst snd] in *. split; [exact Q1|]. split; [exact Q2|]. eexists; exact N2. }
  assert (Hraw : forall r l1 l2, Q l1 l2 -> Q (lex_set_raw r l1) (lex_set_raw r l2)).
  { intros r l1 l2 [R [n Hn]]. split; [apply rel_raw, R|]. exists n. apply text_raw, Hn. }
  assert (H0 : arel Q (acc_init zero_token (lex_new (acc_init None b))) (acc_init zero_token (lex_new (acc_init None s)))).
  { repeat split; cbn; auto. exists (length s). apply text_start. }
  pose proof (run_streams _ _ Q Hnext Hraw (parse_program digit fuel new_parser) _ _ H0) as K. exact (frel_parsed _ _ K).
Qed.
