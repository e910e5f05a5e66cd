From Coq Require Import String ZifyBool ZifyN ZifyNat.
From Verif Require Import Base YamlChar Schema SchemaSpec.
Local Open Scope N_scope.

(** ** digits *)
Lemma lower_small r : r < 128 -> go_lower r = N.lor r 32.
Proof. reflexivity. Qed.

Lemma digit_of_cases base r d : base <= 16 -> digit_of base r d ->
  48 <= r <= 57 \/ 97 <= r <= 102 \/ 65 <= r <= 70.
Proof. unfold digit_of. lia. Qed.

Definition hex_chars : list N :=
  [48;49;50;51;52;53;54;55;56;57;97;98;99;100;101;102;65;66;67;68;69;70].

Lemma in_hex_chars r : 48 <= r <= 57 \/ 97 <= r <= 102 \/ 65 <= r <= 70 -> In r hex_chars.
Proof.
  intro H. unfold hex_chars.
  assert (r = 48 \/ r = 49 \/ r = 50 \/ r = 51 \/ r = 52 \/ r = 53 \/ r = 54 \/ r = 55 \/ r = 56
    \/ r = 57 \/ r = 97 \/ r = 98 \/ r = 99 \/ r = 100 \/ r = 101 \/ r = 102 \/ r = 65 \/ r = 66
    \/ r = 67 \/ r = 68 \/ r = 69 \/ r = 70) by lia.
  cbn [In]. intuition (subst; auto 30).
Qed.

Lemma go_digit_hex_sweep :
  forallb (fun r => match go_digit r with
                    | Some d => (d <? 16) && ((d <? 10) && (r =? 48 + d)
                                 || (10 <=? d) && ((r =? 87 + d) || (r =? 55 + d)))
                                && negb (r =? 95)
                    | None => false end) hex_chars = true.
Proof. reflexivity. Qed.

Lemma go_digit_spec base r d : base <= 16 -> digit_of base r d ->
  go_digit r = Some d /\ (r =? 95) = false /\ d < base.
Proof.
  intros Hb H. pose proof (digit_of_cases _ _ _ Hb H) as Hc.
  pose proof (proj1 (forallb_forall _ _) go_digit_hex_sweep r (in_hex_chars r Hc)) as Hs.
  cbn beta in Hs. destruct (go_digit r) as [d'|]; [|discriminate].
  unfold digit_of in H. assert (d = d') by lia. subst. repeat split; lia.
Qed.

Lemma parse_digits_snoc base s r : forall acc us,
  parse_digits base acc us (s ++ [r]) =
  match parse_digits base acc us s with
  | None => None
  | Some (a, u) =>
      if r =? 95 then Some (a, true)
      else match go_digit r with
           | None => None
           | Some d => if base <=? d then None else Some (a * base + d, u)
           end
  end.
Proof.
  induction s as [|c s IH]; intros acc us; cbn [app parse_digits].
  - destruct (r =? 95); [reflexivity|]. destruct (go_digit r); [|reflexivity].
    destruct (base <=? n); reflexivity.
  - destruct (c =? 95); [apply IH|]. destruct (go_digit c); [|reflexivity].
    destruct (base <=? n); [reflexivity|apply IH].
Qed.

Lemma parse_digits_numeral base s n : base <= 16 -> numeral base s n ->
  parse_digits base 0 false s = Some (n, false).
Proof.
  intros Hb H. induction H as [r d Hd|s n r d Hn IH Hd].
  - destruct (go_digit_spec _ _ _ Hb Hd) as (H1 & H2 & H3).
    cbn [parse_digits]. rewrite H2, H1.
    replace (base <=? d) with false by lia. f_equal.
  - destruct (go_digit_spec _ _ _ Hb Hd) as (H1 & H2 & H3).
    rewrite parse_digits_snoc, IH, H2, H1.
    replace (base <=? d) with false by lia. reflexivity.
Qed.

(** ** numerals and regexps *)
Lemma numeral_nonempty base s n : numeral base s n -> s <> [].
Proof. intros [] E; [discriminate|]. destruct s0; discriminate. Qed.

Lemma numeral_forall base s n : numeral base s n -> Forall (fun r => exists d, digit_of base r d) s.
Proof.
  induction 1 as [r d Hd|s n r d Hn IH Hd]; [constructor; [exists d; exact Hd|constructor]|].
  apply Forall_app; split; [exact IH|]. constructor; [exists d; exact Hd|constructor].
Qed.

Lemma numeral_of_forall base s : s <> [] -> Forall (fun r => exists d, digit_of base r d) s ->
  exists n, numeral base s n.
Proof.
  induction s as [|r s IH] using rev_ind; intros Hne H; [congruence|].
  apply Forall_app in H as [H1 H2]. inversion H2 as [|? ? [d Hd] _]; subst.
  destruct s as [|c s'].
  - exists d. constructor; exact Hd.
  - destruct IH as [n Hn]; [discriminate|exact H1|]. exists (n * base + d). constructor; assumption.
Qed.

Lemma plus_iff p s : plus p s = true <-> s <> [] /\ Forall (fun r => p r = true) s.
Proof.
  unfold plus. destruct s as [|r s]; [split; [discriminate|intros [H _]; congruence]|].
  rewrite forallb_forall, Forall_forall. split; [intro H; split; [discriminate|exact H]|tauto].
Qed.

Lemma plus_numeral base p s :
  (forall r, p r = true <-> exists d, digit_of base r d) ->
  plus p s = true <-> exists n, numeral base s n.
Proof.
  intro Hp. rewrite plus_iff. split.
  - intros [H1 H2]. apply numeral_of_forall; [exact H1|].
    eapply Forall_impl; [|exact H2]. intros r Hr. apply Hp, Hr.
  - intros [n Hn]. split; [eapply numeral_nonempty; exact Hn|].
    eapply Forall_impl; [|eapply numeral_forall; exact Hn]. intros r Hr. apply Hp, Hr.
Qed.

Lemma digit10 r : is_digit r = true <-> exists d, digit_of 10 r d.
Proof.
  unfold is_digit, digit_of. split; [intro H; exists (r - 48); lia|intros [d H]; lia].
Qed.
Lemma digit8 r : is_octal_digit r = true <-> exists d, digit_of 8 r d.
Proof.
  unfold is_octal_digit, digit_of. split; [intro H; exists (r - 48); lia|intros [d H]; lia].
Qed.
Lemma digit16 r : is_hex_digit r = true <-> exists d, digit_of 16 r d.
Proof.
  unfold is_hex_digit, is_digit, digit_of. split; [|intros [d H]; lia].
  intro H. destruct (r <? 58) eqn:E1; [exists (r - 48); lia|].
  destruct (r <? 90) eqn:E2; [exists (r - 55); lia|exists (r - 87); lia].
Qed.

Lemma plus_dec s : plus is_digit s = true <-> exists n, numeral 10 s n.
Proof. apply plus_numeral, digit10. Qed.
Lemma plus_oct s : plus is_octal_digit s = true <-> exists n, numeral 8 s n.
Proof. apply plus_numeral, digit8. Qed.
Lemma plus_hex s : plus is_hex_digit s = true <-> exists n, numeral 16 s n.
Proof. apply plus_numeral, digit16. Qed.

Lemma numeral10_head s n : numeral 10 s n -> exists r s', s = r :: s' /\ 48 <= r <= 57.
Proof.
  intro H. pose proof (numeral_forall _ _ _ H) as Hf. pose proof (numeral_nonempty _ _ _ H).
  destruct s as [|r s']; [congruence|]. inversion Hf as [|? ? [d Hd] _]; subst.
  exists r, s'. split; [reflexivity|]. unfold digit_of in Hd. lia.
Qed.

Lemma is_integer_iff s : sc_is_integer s = true <-> exists z, yaml_integer s z.
Proof.
  unfold sc_is_integer. rewrite !orb_true_iff. split.
  - intros [[H|H]|H].
    + destruct s as [|r s]; [discriminate|]. cbn [re_decimal] in H.
      destruct ((r =? 45) || (r =? 43)) eqn:E.
      * apply plus_dec in H as [n Hn].
        assert (r = 45 \/ r = 43) as [->| ->] by lia; eexists; econstructor; exact Hn.
      * apply plus_dec in H as [n Hn]. eexists. apply yi_dec. exact Hn.
    + destruct s as [|a [|b s]]; try discriminate. cbn [re_octal] in H.
      apply andb_prop in H as [H H2]. assert (a = 48 /\ b = 111) as [-> ->] by lia.
      apply plus_oct in H2 as [n Hn]. eexists. apply yi_oct. exact Hn.
    + destruct s as [|a [|b s]]; try discriminate. cbn [re_hex] in H.
      apply andb_prop in H as [H H2]. assert (a = 48 /\ b = 120) as [-> ->] by lia.
      apply plus_hex in H2 as [n Hn]. eexists. apply yi_hex. exact Hn.
  - intros [z H]. inversion H as [s' n Hn|s' n Hn|s' n Hn|s' n Hn|s' n Hn]; subst.
    + left; left. destruct (numeral10_head _ _ Hn) as (r & s' & -> & Hr).
      cbn [re_decimal]. replace ((r =? 45) || (r =? 43)) with false by lia.
      apply plus_dec; eauto.
    + left; left. cbn [re_decimal]. apply plus_dec; eauto.
    + left; left. cbn [re_decimal]. apply plus_dec; eauto.
    + left; right. cbn [re_octal]. apply plus_oct; eauto.
    + right. cbn [re_hex]. apply plus_hex; eauto.
Qed.

Lemma is_unsigned_iff s : sc_is_unsigned s = true <-> exists n, yaml_unsigned s n.
Proof.
  unfold sc_is_unsigned. rewrite !orb_true_iff. split.
  - intros [[H|H]|H].
    + destruct s as [|r s]; [discriminate|]. cbn [re_decimal_unsigned] in H.
      destruct (r =? 43) eqn:E.
      * apply plus_dec in H as [n Hn]. assert (r = 43) as -> by lia.
        eexists. apply yu_plus. exact Hn.
      * apply plus_dec in H as [n Hn]. eexists. apply yu_dec. exact Hn.
    + destruct s as [|a [|b s]]; try discriminate. cbn [re_octal] in H.
      apply andb_prop in H as [H H2]. assert (a = 48 /\ b = 111) as [-> ->] by lia.
      apply plus_oct in H2 as [n Hn]. eexists. apply yu_oct. exact Hn.
    + destruct s as [|a [|b s]]; try discriminate. cbn [re_hex] in H.
      apply andb_prop in H as [H H2]. assert (a = 48 /\ b = 120) as [-> ->] by lia.
      apply plus_hex in H2 as [n Hn]. eexists. apply yu_hex. exact Hn.
  - intros [z H]. inversion H as [s' n Hn|s' n Hn|s' n Hn|s' n Hn]; subst.
    + left; left. destruct (numeral10_head _ _ Hn) as (r & s' & -> & Hr).
      cbn [re_decimal_unsigned]. replace (r =? 43) with false by lia.
      apply plus_dec; eauto.
    + left; left. cbn [re_decimal_unsigned]. apply plus_dec; eauto.
    + left; right. cbn [re_octal]. apply plus_oct; eauto.
    + right. cbn [re_hex]. apply plus_hex; eauto.
Qed.

(** ** conversion *)
Lemma lower_digit d : 48 <= d <= 57 ->
  (go_lower d =? 98) = false /\ (go_lower d =? 111) = false /\ (go_lower d =? 120) = false.
Proof.
  intro H.
  assert (In d [48;49;50;51;52;53;54;55;56;57]) as Hi.
  { assert (d = 48 \/ d = 49 \/ d = 50 \/ d = 51 \/ d = 52 \/ d = 53 \/ d = 54 \/ d = 55 \/ d = 56
      \/ d = 57) by lia. cbn [In]. intuition. }
  assert (forallb (fun d => negb (go_lower d =? 98) && negb (go_lower d =? 111)
            && negb (go_lower d =? 120)) [48;49;50;51;52;53;54;55;56;57] = true) as Hs
    by reflexivity.
  pose proof (proj1 (forallb_forall _ _) Hs d Hi) as Hd. cbn beta in Hd. lia.
Qed.

Lemma parse_uint0_dec s n bits :
  numeral 10 s n -> padded s = false ->
  parse_uint0 s bits = if fits_uint bits n then Some n else None.
Proof.
  intros Hn Hp. destruct (numeral10_head _ _ Hn) as (r & s' & -> & Hr).
  unfold padded in Hp. replace ((r =? 43) || (r =? 45)) with false in Hp by lia. cbn iota in Hp.
  unfold parse_uint0. destruct (r =? 48) eqn:E.
  - assert (r = 48) as -> by lia. destruct s' as [|d s''].
    + cbn. assert (n = 0) as ->.
      { apply (parse_digits_numeral 10) in Hn; [|lia]. cbn in Hn. congruence. }
      unfold fits_uint. pose proof (N.pow_nonzero 2 bits).
      destruct (N.leb_spec (2 ^ bits) 0), (N.ltb_spec 0 (2 ^ bits)); try lia; reflexivity.
    + exfalso. pose proof (numeral_forall _ _ _ Hn) as Hf.
      inversion Hf as [|? ? _ Hf']; subst. inversion Hf' as [|? ? [v Hd] _]; subst.
      unfold digit_of in Hd. lia.
  - rewrite (parse_digits_numeral 10 _ n) by (first [lia|assumption]).
    unfold fits_uint. destruct (N.leb_spec (2 ^ bits) n), (N.ltb_spec n (2 ^ bits)); try lia;
      reflexivity.
Qed.

Lemma parse_uint0_oct s n bits :
  numeral 8 s n ->
  parse_uint0 (48 :: 111 :: s) bits = if fits_uint bits n then Some n else None.
Proof.
  intro Hn. pose proof (numeral_nonempty _ _ _ Hn). destruct s as [|c s]; [congruence|].
  unfold parse_uint0. change (48 =? 48) with true. cbn iota.
  change (go_lower 111 =? 98) with false. change (go_lower 111 =? 111) with true. cbn iota.
  rewrite (parse_digits_numeral 8 _ n) by (first [lia|assumption]).
  unfold fits_uint. destruct (N.leb_spec (2 ^ bits) n), (N.ltb_spec n (2 ^ bits)); try lia;
    reflexivity.
Qed.

Lemma parse_uint0_hex s n bits :
  numeral 16 s n ->
  parse_uint0 (48 :: 120 :: s) bits = if fits_uint bits n then Some n else None.
Proof.
  intro Hn. pose proof (numeral_nonempty _ _ _ Hn). destruct s as [|c s]; [congruence|].
  unfold parse_uint0. change (48 =? 48) with true. cbn iota.
  change (go_lower 120 =? 98) with false. change (go_lower 120 =? 111) with false.
  change (go_lower 120 =? 120) with true. cbn iota.
  rewrite (parse_digits_numeral 16 _ n) by (first [lia|assumption]).
  unfold fits_uint. destruct (N.leb_spec (2 ^ bits) n), (N.ltb_spec n (2 ^ bits)); try lia;
    reflexivity.
Qed.

Lemma pow_split bits : 1 <= bits -> 2 ^ bits = 2 * 2 ^ (bits - 1).
Proof.
  intro H. replace bits with (N.succ (bits - 1)) at 1 by lia. apply N.pow_succ_r'.
Qed.

Lemma pow_Z bits : 1 <= bits -> (2 ^ (Z.of_N bits - 1))%Z = Z.of_N (2 ^ (bits - 1)).
Proof.
  intro H. rewrite N2Z.inj_pow. f_equal. lia.
Qed.

Lemma to_integer_nonneg s n bits : 1 <= bits ->
  (exists r s', s = r :: s' /\ 48 <= r <= 57) ->
  parse_uint0 s bits = (if fits_uint bits n then Some n else None) ->
  sc_to_integer s bits = if fits_int bits (Z.of_N n) then Some (Z.of_N n) else None.
Proof.
  intros Hb (r & s' & -> & Hr) Hp. cbn [sc_to_integer].
  replace ((r =? 43) || (r =? 45)) with false by lia. replace (r =? 45) with false by lia.
  rewrite Hp. unfold fits_uint, fits_int. rewrite (pow_Z bits Hb), (pow_split bits Hb).
  set (p := 2 ^ (bits - 1)). cbn [negb andb].
  destruct (N.ltb_spec n (2 * p)); destruct (N.leb_spec p n);
    destruct (Z.leb_spec (- Z.of_N p) (Z.of_N n)); destruct (Z.ltb_spec (Z.of_N n) (Z.of_N p));
    cbn [andb]; try reflexivity; try lia.
Qed.

Lemma to_integer_signed g s n bits : 1 <= bits ->
  g = 43 \/ g = 45 ->
  parse_uint0 s bits = (if fits_uint bits n then Some n else None) ->
  let z := if g =? 45 then (- Z.of_N n)%Z else Z.of_N n in
  sc_to_integer (g :: s) bits = if fits_int bits z then Some z else None.
Proof.
  intros Hb Hg Hp z. cbn [sc_to_integer].
  replace ((g =? 43) || (g =? 45)) with true by lia. cbn iota.
  rewrite Hp. unfold fits_uint, fits_int. rewrite (pow_Z bits Hb), (pow_split bits Hb).
  set (p := 2 ^ (bits - 1)). unfold z.
  destruct Hg as [-> | ->]; cbn [N.eqb Pos.eqb negb andb];
    (destruct (N.ltb_spec n (2 * p)); destruct (N.leb_spec p n); destruct (N.ltb_spec p n));
    match goal with
    | |- context [(?a <=? ?b)%Z] => destruct (Z.leb_spec a b)
    end;
    match goal with
    | |- context [(?a <? ?b)%Z] => destruct (Z.ltb_spec a b)
    end;
    cbn [andb negb]; try reflexivity; try lia.
Qed.

Lemma to_integer_correct s z bits : 1 <= bits ->
  yaml_integer s z -> padded s = false ->
  sc_to_integer s bits = if fits_int bits z then Some z else None.
Proof.
  intros Hb H Hp. inversion H as [s' n Hn|s' n Hn|s' n Hn|s' n Hn|s' n Hn]; subst.
  - apply to_integer_nonneg; [exact Hb|eapply numeral10_head; exact Hn|].
    apply parse_uint0_dec; assumption.
  - apply (to_integer_signed 43); [exact Hb|auto|].
    apply parse_uint0_dec; [exact Hn|].
    destruct (numeral10_head _ _ Hn) as (r & s'' & -> & Hr). unfold padded in *.
    replace ((r =? 43) || (r =? 45)) with false by lia. cbn iota in *. exact Hp.
  - apply (to_integer_signed 45); [exact Hb|auto|].
    apply parse_uint0_dec; [exact Hn|].
    destruct (numeral10_head _ _ Hn) as (r & s'' & -> & Hr). unfold padded in *.
    replace ((r =? 43) || (r =? 45)) with false by lia. cbn iota in *. exact Hp.
  - apply to_integer_nonneg; [exact Hb|exists 48; eexists; split; [reflexivity|lia]|].
    apply parse_uint0_oct; exact Hn.
  - apply to_integer_nonneg; [exact Hb|exists 48; eexists; split; [reflexivity|lia]|].
    apply parse_uint0_hex; exact Hn.
Qed.

Lemma to_unsigned_correct s n bits :
  yaml_unsigned s n -> padded s = false -> hd_error s <> Some 43 ->
  sc_to_unsigned s bits = if fits_uint bits n then Some n else None.
Proof.
  intros H Hp Hs. unfold sc_to_unsigned.
  inversion H as [s' m Hn|s' m Hn|s' m Hn|s' m Hn]; subst.
  - apply parse_uint0_dec; assumption.
  - exfalso. apply Hs. reflexivity.
  - apply parse_uint0_oct; exact Hn.
  - apply parse_uint0_hex; exact Hn.
Qed.

(** ** formatting *)
Lemma format_digits_spec fuel : forall n acc, n < 2 ^ N.of_nat fuel \/ (n < 10) ->
  exists s, format_digits fuel n acc = s ++ acc /\ numeral 10 s n /\
    (n = 0 -> s = [48]) /\ (n <> 0 -> forall s', s <> 48 :: s').
Proof.
  induction fuel as [|fuel IH]; intros n acc Hn; cbn [format_digits].
  - assert (n < 10) by (destruct Hn as [Hn|Hn]; [cbn in Hn|]; lia).
    rewrite N.mod_small by assumption. exists [48 + n]. repeat split.
    + constructor. unfold digit_of. lia.
    + intros ->. reflexivity.
    + intros Hz s' E. assert (48 + n = 48) by congruence. lia.
  - destruct (N.eqb_spec (n / 10) 0) as [E|E].
    + apply N.div_small_iff in E; [|lia].
      rewrite N.mod_small by assumption. exists [48 + n]. repeat split.
      * constructor. unfold digit_of. lia.
      * intros ->. reflexivity.
      * intros Hz s' E'. assert (48 + n = 48) by congruence. lia.
    + assert (10 <= n) by (rewrite N.div_small_iff in E; lia).
      destruct (IH (n / 10) ((48 + n mod 10) :: acc)) as (s & H1 & H2 & H3 & H4).
      { left. destruct Hn as [Hn|Hn]; [|lia].
        rewrite Nat2N.inj_succ, N.pow_succ_r' in Hn.
        apply N.div_lt_upper_bound; [lia|]. lia. }
      exists (s ++ [48 + n mod 10]). rewrite H1, <- app_assoc. split; [reflexivity|].
      split.
      * rewrite (N.div_mod n 10) at 2 by lia. rewrite (N.mul_comm 10).
        constructor; [exact H2|]. unfold digit_of. pose proof (N.mod_upper_bound n 10). lia.
      * split; [lia|]. intros _ s' Es.
        destruct s as [|c s0]; [exact (numeral_nonempty _ _ _ H2 eq_refl)|].
        cbn in Es. injection Es as -> _. exact (H4 E s0 eq_refl).
Qed.

Lemma size_nat_gt n : n < 2 ^ N.of_nat (N.size_nat n).
Proof.
  destruct n as [|p]; [reflexivity|].
  cbn [N.size_nat]. replace (N.of_nat (Pos.size_nat p)) with (N.pos (Pos.size p)).
  - apply (N.size_gt (N.pos p)).
  - induction p; cbn [Pos.size_nat Pos.size]; try (rewrite Nat2N.inj_succ, <- IHp; lia); reflexivity.
Qed.

Lemma from_unsigned_spec n :
  numeral 10 (sc_from_unsigned n) n /\ padded (sc_from_unsigned n) = false.
Proof.
  destruct (format_digits_spec (N.size_nat n) n []) as (s & H1 & H2 & H3 & H4).
  { left. apply size_nat_gt. }
  unfold sc_from_unsigned. rewrite H1, app_nil_r. split; [exact H2|].
  destruct (numeral10_head _ _ H2) as (r & s' & -> & Hr).
  unfold padded. replace ((r =? 43) || (r =? 45)) with false by lia.
  destruct (N.eq_dec n 0) as [E|E].
  - rewrite (H3 E) in *. injection (H3 E) as -> ->. reflexivity.
  - destruct s'; [reflexivity|]. destruct (N.eqb_spec r 48) as [->|Hne]; [|reflexivity].
    exfalso. exact (H4 E _ eq_refl).
Qed.

Lemma from_unsigned_roundtrip n bits :
  yaml_unsigned (sc_from_unsigned n) n /\
  sc_is_unsigned (sc_from_unsigned n) = true /\
  sc_is_integer (sc_from_unsigned n) = true /\
  sc_to_unsigned (sc_from_unsigned n) bits = if fits_uint bits n then Some n else None.
Proof.
  destruct (from_unsigned_spec n) as [H1 H2].
  split; [constructor; exact H1|]. split; [apply is_unsigned_iff; exists n; constructor; exact H1|].
  split; [apply is_integer_iff; eexists; apply yi_dec; exact H1|].
  apply to_unsigned_correct; [constructor; exact H1|exact H2|].
  destruct (numeral10_head _ _ H1) as (r & s' & -> & Hr). cbn. intro E. injection E. lia.
Qed.

Lemma from_integer_spec z :
  yaml_integer (sc_from_integer z) z /\ padded (sc_from_integer z) = false.
Proof.
  unfold sc_from_integer. destruct (Z.ltb_spec z 0) as [Hz|Hz].
  - destruct (from_unsigned_spec (Z.to_N (- z))) as [H1 H2]. split.
    + replace z with (- Z.of_N (Z.to_N (- z)))%Z at 2 by lia. constructor. exact H1.
    + destruct (numeral10_head _ _ H1) as (r & s' & E & Hr). rewrite E in *.
      unfold padded in *. replace ((r =? 43) || (r =? 45)) with false in H2 by lia.
      cbn iota in *. exact H2.
  - destruct (from_unsigned_spec (Z.to_N z)) as [H1 H2]. split; [|exact H2].
    replace z with (Z.of_N (Z.to_N z)) at 2 by lia. constructor. exact H1.
Qed.

Lemma from_integer_roundtrip z bits : 1 <= bits ->
  yaml_integer (sc_from_integer z) z /\
  sc_is_integer (sc_from_integer z) = true /\
  sc_to_integer (sc_from_integer z) bits = if fits_int bits z then Some z else None.
Proof.
  intro Hb. destruct (from_integer_spec z) as [H1 H2].
  split; [exact H1|]. split; [apply is_integer_iff; exists z; exact H1|].
  apply to_integer_correct; assumption.
Qed.

(** ** nulls, booleans, numbers *)
Lemma text_in_iff s l : text_in s l = true <-> In s l.
Proof.
  unfold text_in. rewrite existsb_exists. split.
  - intros (x & Hx & He). apply text_eqb_eq in He. subst x. exact Hx.
  - intro H. exists s. split; [exact H|apply text_eqb_refl].
Qed.

Lemma is_null_iff s : sc_is_null s = true <-> yaml_null s.
Proof.
  unfold sc_is_null, yaml_null. rewrite text_in_iff. cbn [In].
  intuition (subst; auto).
Qed.

Lemma to_boolean_iff s b : sc_to_boolean s = Some b <-> yaml_boolean s b.
Proof.
  unfold sc_to_boolean, try_get_boolean. split.
  - destruct (text_in s _) eqn:E1.
    + intros [= <-]. apply text_in_iff in E1. cbn [In] in E1.
      destruct E1 as [<-|[<-|[<-|[]]]]; constructor.
    + destruct (text_in s [t' "false"; _; _]) eqn:E2; [|discriminate].
      intros [= <-]. apply text_in_iff in E2. cbn [In] in E2.
      destruct E2 as [<-|[<-|[<-|[]]]]; constructor.
  - intros []; reflexivity.
Qed.

Lemma is_boolean_iff s : sc_is_boolean s = true <-> exists b, yaml_boolean s b.
Proof.
  unfold sc_is_boolean. destruct (try_get_boolean s) as [b|] eqn:E.
  - split; [intros _; exists b; apply to_boolean_iff; exact E|reflexivity].
  - split; [discriminate|]. intros [b H]. apply to_boolean_iff in H.
    unfold sc_to_boolean in H. congruence.
Qed.

Lemma null_not_number s : yaml_null s ->
  sc_is_boolean s = false /\ sc_is_integer s = false /\ sc_is_unsigned s = false /\
  sc_is_float s = false.
Proof. intros [-> | [-> | [-> | [-> | ->]]]]; repeat split; reflexivity. Qed.

Lemma boolean_not_number s b : yaml_boolean s b ->
  sc_is_null s = false /\ sc_is_integer s = false /\ sc_is_unsigned s = false /\
  sc_is_float s = false.
Proof. intros []; repeat split; reflexivity. Qed.

(** ** floats *)
Lemma span_digits_app d rest :
  digits d -> (match rest with r :: _ => is_digit r = false | [] => True end) ->
  span_digits (d ++ rest) = (d, rest).
Proof.
  unfold digits. induction 1 as [|r d Hr Hd IH]; intro Hrest; cbn [app].
  - destruct rest as [|c rest]; [reflexivity|]. cbn [span_digits]. rewrite Hrest. reflexivity.
  - cbn [span_digits]. replace (is_digit r) with true by (unfold is_digit; lia).
    rewrite IH by exact Hrest. reflexivity.
Qed.

Lemma span_digits_spec s : forall d rest, span_digits s = (d, rest) ->
  s = d ++ rest /\ digits d /\ (match rest with r :: _ => is_digit r = false | [] => True end).
Proof.
  induction s as [|r s IH]; cbn [span_digits]; intros d rest E.
  - injection E as <- <-. repeat split; constructor.
  - destruct (is_digit r) eqn:Er.
    + destruct (span_digits s) as [d' rest']. injection E as <- <-.
      destruct (IH _ _ eq_refl) as (-> & H2 & H3). repeat split; [|exact H3].
      constructor; [unfold is_digit in Er; lia|exact H2].
    + injection E as <- <-. repeat split; [constructor|exact Er].
Qed.

Lemma plus_digits d : plus is_digit d = true <-> digits d /\ d <> [].
Proof.
  rewrite plus_iff. unfold digits. split; intros [H1 H2]; split; auto.
  - eapply Forall_impl; [|exact H2]. unfold is_digit. cbn. lia.
  - eapply Forall_impl; [|exact H1]. unfold is_digit. cbn. lia.
Qed.

Lemma re_exponent_iff s : re_exponent s = true <-> exponent s.
Proof.
  split.
  - destruct s as [|r s]; [constructor|]. cbn [re_exponent]. intro H.
    apply andb_prop in H as [H1 H2]. assert (r = 101 \/ r = 69) as Hr by lia.
    destruct s as [|g s]; [discriminate|]. destruct ((g =? 45) || (g =? 43)) eqn:E.
    + apply plus_digits in H2 as [H2 H3]. apply (exp_some r [g] s); auto.
      unfold sign. assert (g = 43 \/ g = 45) as [-> | ->] by lia; auto.
    + apply plus_digits in H2 as [H2 H3]. apply (exp_some r [] (g :: s)); auto.
      left; reflexivity.
  - intros [|e g d He Hg Hd Hne]; [reflexivity|]. cbn [re_exponent].
    replace ((e =? 101) || (e =? 69)) with true by lia. cbn [andb].
    assert (plus is_digit d = true) as Hp by (apply plus_digits; auto).
    destruct Hg as [-> | [-> | ->]]; cbn [app].
    + destruct d as [|c d']; [congruence|]. inversion Hd; subst.
      replace ((c =? 45) || (c =? 43)) with false by lia. exact Hp.
    + exact Hp.
    + exact Hp.
Qed.

Lemma exponent_head e : exponent e -> match e with r :: _ => is_digit r = false | [] => True end.
Proof. intros [|r g d Hr _ _ _]; [exact I|]. unfold is_digit. lia. Qed.

Definition float_body (s : text) : bool :=
  match s with
  | r :: s' =>
      if r =? 46 then
        let '(d, rest) := span_digits s' in negb (is_nil d) && re_exponent rest
      else
        let '(d, rest) := span_digits s in
        negb (is_nil d) &&
        match rest with
        | q :: rest' =>
            if q =? 46 then let '(_, rest'') := span_digits rest' in re_exponent rest''
            else re_exponent rest
        | [] => true
        end
  | [] => false
  end.

Lemma is_nil_false {A} (l : list A) : negb (is_nil l) = true <-> l <> [].
Proof. destruct l; cbn; split; congruence. Qed.

Lemma float_body_iff s : float_body s = true <-> exists m e, s = m ++ e /\ mantissa m /\ exponent e.
Proof.
  split.
  - destruct s as [|r s]; [discriminate|]. cbn [float_body].
    destruct (N.eqb_spec r 46) as [->|Hr].
    + destruct (span_digits s) as [d rest] eqn:E. intro H. apply andb_prop in H as [H1 H2].
      destruct (span_digits_spec _ _ _ E) as (-> & Hd & _).
      exists (46 :: d), rest. split; [reflexivity|]. split; [|apply re_exponent_iff; exact H2].
      constructor; [exact Hd|apply is_nil_false; exact H1].
    + destruct (span_digits (r :: s)) as [d rest] eqn:E. intro H. apply andb_prop in H as [H1 H2].
      destruct (span_digits_spec _ _ _ E) as (-> & Hd & _). apply is_nil_false in H1.
      destruct rest as [|q rest].
      * exists d, []. split; [reflexivity|]. split; [apply man_int; assumption|constructor].
      * destruct (N.eqb_spec q 46) as [->|Hq].
        -- destruct (span_digits rest) as [f rest'] eqn:E2.
           destruct (span_digits_spec _ _ _ E2) as (-> & Hf & _).
           exists (d ++ 46 :: f), rest'. split; [rewrite <- app_assoc; reflexivity|].
           split; [apply man_both; assumption|apply re_exponent_iff; exact H2].
        -- exists d, (q :: rest). split; [reflexivity|].
           split; [apply man_int; assumption|apply re_exponent_iff; exact H2].
  - intros (m & e & -> & Hm & He). pose proof (exponent_head _ He) as Hh.
    assert (re_exponent e = true) as Hre by (apply re_exponent_iff; exact He).
    destruct Hm as [d Hd Hne|d Hd Hne|d f Hd Hne Hf].
    + cbn [app float_body]. change (46 =? 46) with true. cbn iota.
      rewrite span_digits_app by assumption. rewrite Hre. rewrite (proj2 (is_nil_false d) Hne).
      reflexivity.
    + destruct d as [|r d]; [congruence|]. cbn [app float_body].
      replace (r =? 46) with false by (inversion Hd; lia). cbn iota.
      change (r :: d ++ e) with ((r :: d) ++ e). rewrite span_digits_app by assumption.
      cbn [is_nil negb andb]. destruct e as [|q e]; [reflexivity|].
      destruct (N.eqb_spec q 46) as [->|_]; [|exact Hre]. discriminate Hre.
    + destruct d as [|r d]; [congruence|]. cbn [app float_body].
      replace (r =? 46) with false by (inversion Hd; lia). cbn iota.
      change (r :: (d ++ 46 :: f) ++ e) with ((r :: d ++ 46 :: f) ++ e).
      replace ((r :: d ++ 46 :: f) ++ e) with ((r :: d) ++ 46 :: (f ++ e))
        by (cbn [app]; rewrite <- app_assoc; reflexivity).
      rewrite span_digits_app; [|exact Hd|reflexivity].
      cbn [is_nil negb andb]. change (46 =? 46) with true. cbn iota.
      rewrite span_digits_app by assumption. exact Hre.
Qed.

Lemma mantissa_head m e : mantissa m -> exists r s, m ++ e = r :: s /\ ((r =? 43) || (r =? 45)) = false.
Proof.
  intros [d Hd Hne|d Hd Hne|d f Hd Hne Hf].
  - exists 46. eexists. split; reflexivity.
  - destruct d as [|r d]; [congruence|]. exists r. eexists. split; [reflexivity|].
    inversion Hd; lia.
  - destruct d as [|r d]; [congruence|]. exists r. eexists. split; [reflexivity|].
    inversion Hd; lia.
Qed.

Lemma re_float_iff s : re_float s = true <->
  exists g m e, s = g ++ m ++ e /\ sign g /\ mantissa m /\ exponent e.
Proof.
  assert (re_float s = match s with
    | r :: s' => if (r =? 43) || (r =? 45) then float_body s' else float_body s
    | [] => false end) as Er by reflexivity.
  rewrite Er; clear Er. split.
  - destruct s as [|r s]; [discriminate|]. destruct ((r =? 43) || (r =? 45)) eqn:E; intro H.
    + apply float_body_iff in H as (m & e & -> & Hm & He). exists [r], m, e.
      repeat split; auto. unfold sign. assert (r = 43 \/ r = 45) as [-> | ->] by lia; auto.
    + apply float_body_iff in H as (m & e & -> & Hm & He). exists [], m, e.
      repeat split; auto. left; reflexivity.
  - intros (g & m & e & -> & Hg & Hm & He).
    assert (float_body (m ++ e) = true) as Hb by (apply float_body_iff; eauto).
    destruct Hg as [-> | [-> | ->]]; cbn [app].
    + destruct (mantissa_head m e Hm) as (r & s & E & Hr). rewrite E in *. rewrite Hr. exact Hb.
    + exact Hb.
    + exact Hb.
Qed.

Lemma re_inf_iff s : re_inf s = true <->
  exists g i, s = g ++ i /\ sign g /\ (i = t' ".inf" \/ i = t' ".Inf" \/ i = t' ".INF").
Proof.
  split.
  - destruct s as [|r s]; [discriminate|]. unfold re_inf.
    destruct ((r =? 43) || (r =? 45)) eqn:E; intro H; apply text_in_iff in H; cbn [In] in H.
    + exists [r], s. split; [reflexivity|]. split.
      * unfold sign. assert (r = 43 \/ r = 45) as [-> | ->] by lia; auto.
      * intuition.
    + exists [], (r :: s). split; [reflexivity|]. split; [left; reflexivity|]. intuition.
  - intros (g & i & -> & Hg & Hi).
    destruct Hg as [-> | [-> | ->]]; destruct Hi as [-> | [-> | ->]]; reflexivity.
Qed.

Lemma is_float_iff s : sc_is_float s = true <-> yaml_float s.
Proof.
  unfold sc_is_float. rewrite !orb_true_iff, re_float_iff, re_inf_iff.
  unfold re_nan. rewrite text_in_iff. cbn [In]. split.
  - intros [[(g & m & e & -> & H)|(g & i & -> & H)]|H].
    + apply yf_num; tauto.
    + apply yf_inf; tauto.
    + apply yf_nan. intuition.
  - intros [g m e Hg Hm He|g i Hg Hi|i Hi].
    + left; left. eauto 10.
    + left; right. eauto 10.
    + right. intuition.
Qed.

(** every decimal integer is also a float *)
Lemma decimal_is_float s : re_decimal s = true -> sc_is_float s = true.
Proof.
  intro H. apply is_float_iff. destruct s as [|r s]; [discriminate|]. cbn [re_decimal] in H.
  destruct ((r =? 45) || (r =? 43)) eqn:E; apply plus_digits in H as [H1 H2].
  - replace (r :: s) with ([r] ++ s ++ []) by (rewrite app_nil_r; reflexivity).
    apply yf_num; [|apply man_int; assumption|constructor].
    unfold sign. assert (r = 43 \/ r = 45) as [-> | ->] by lia; auto.
  - replace (r :: s) with ([] ++ (r :: s) ++ []) by (cbn; rewrite app_nil_r; reflexivity).
    apply yf_num; [left; reflexivity|apply man_int; assumption|constructor].
Qed.

Lemma kinds_disjoint s :
  let number := sc_is_integer s || sc_is_unsigned s || sc_is_float s in
  (sc_is_null s && sc_is_boolean s = false) /\ (sc_is_null s && number = false) /\
  (sc_is_boolean s && number = false).
Proof.
  cbn zeta. destruct (sc_is_null s) eqn:En.
  - apply is_null_iff in En. destruct (null_not_number s En) as (-> & -> & -> & ->).
    repeat split; reflexivity.
  - destruct (sc_is_boolean s) eqn:Eb; [|repeat split; reflexivity].
    apply is_boolean_iff in Eb as [b Eb].
    destruct (boolean_not_number s b Eb) as (_ & -> & -> & ->). repeat split; reflexivity.
Qed.

Lemma boolean_round_trip b : sc_to_boolean (sc_from_boolean b) = Some b.
Proof. destruct b; reflexivity. Qed.

Lemma numeral_snoc' base s n r d m : numeral base s n -> digit_of base r d -> m = n * base + d ->
  numeral base (s ++ [r]) m.
Proof. intros H1 H2 ->. constructor; assumption. Qed.

Lemma signed_conversion_wrong :
  (exists s z v, yaml_integer s z /\ sc_is_integer s = true /\ fits_int 64 z = true /\
                 sc_to_integer s 64 = Some v /\ v <> z) /\
  (exists s z, yaml_integer s z /\ sc_is_integer s = true /\ fits_int 64 z = true /\
               sc_to_integer s 64 = None).
Proof.
  split.
  - exists (t' "010"), (Z.of_N 10), 8%Z. repeat split; try reflexivity; try discriminate.
    apply yi_dec. change (t' "010") with (([48] ++ [49]) ++ [48]).
    apply (numeral_snoc' 10 _ 1 _ 0); [|unfold digit_of; lia|lia].
    apply (numeral_snoc' 10 _ 0 _ 1); [|unfold digit_of; lia|lia].
    constructor. unfold digit_of; lia.
  - exists (t' "08"), (Z.of_N 8). repeat split; try reflexivity.
    apply yi_dec. change (t' "08") with ([48] ++ [56]).
    apply (numeral_snoc' 10 _ 0 _ 8); [|unfold digit_of; lia|lia].
    constructor. unfold digit_of; lia.
Qed.

Lemma unsigned_conversion_wrong :
  exists s n, yaml_unsigned s n /\ sc_is_unsigned s = true /\ fits_uint 64 n = true /\
              padded s = false /\ sc_to_unsigned s 64 = None.
Proof.
  exists (t' "+5"), 5. repeat split; try reflexivity.
  apply (yu_plus [53] 5). constructor. unfold digit_of; lia.
Qed.

Lemma C14_case_lemma :
  yaml_integer (t' "+0") 0 /\ yaml_integer (t' "0o17") 15 /\ padded (t' "0o17") = false /\
  sc_to_integer (t' "0o17") 64 = Some 15%Z /\ sc_to_integer (t' "+7") 64 = Some 7%Z /\
  sc_to_unsigned (t' "0xff") 8 = Some 255.
Proof.
  repeat split; try reflexivity.
  - apply (yi_plus [48] 0). constructor. unfold digit_of; lia.
  - apply (yi_oct [49;55] 15). change [49;55] with ([49] ++ [55]).
    apply (numeral_snoc' 8 _ 1 _ 7); [|unfold digit_of; lia|lia].
    constructor. unfold digit_of; lia.
Qed.
