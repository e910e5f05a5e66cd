(** From a Go value to a text and back. *)
From Coq Require Import String.
From Coq Require Import ZifyBool ZifyNat ZifyN.
From Verif Require Import Base Schema SchemaSpec Values Ast Writer Builder BuilderSpec BuilderProofs Encoder WriterSpec
  WriterProofs Parser ParserDocs RoundTripSpec RoundTripProofs Reader ReadSpec ReaderSpec DocSpec YReader YReaderProofs
  GenCode GenSpec GenProofs GenEngines GenMarshal MarshalSpec.
Local Open Scope nat_scope.

(** ** numbers are words *)
Definition digit_char (c : rune) : Prop := (48 <= c <= 57)%N.
Lemma format_digits_chars f : forall n acc, Forall digit_char acc -> Forall digit_char (format_digits f n acc) /\ format_digits f n acc <> [].
Proof.
  induction f as [|f IH]; intros n acc Ha; cbn [format_digits].
  - split; [|discriminate]. constructor; [|exact Ha]. unfold digit_char. pose proof (N.mod_lt n 10 ltac:(lia)). lia.
  - assert (H : Forall digit_char ((48 + n mod 10)%N :: acc)).
    { constructor; [|exact Ha]. unfold digit_char. pose proof (N.mod_lt n 10 ltac:(lia)). lia. }
    destruct (n / 10 =? 0)%N; [split; [exact H|discriminate]|apply IH; exact H].
Qed.
Lemma unsigned_chars n : Forall digit_char (sc_from_unsigned n) /\ sc_from_unsigned n <> [].
Proof. apply format_digits_chars. constructor. Qed.
Lemma digit_plain c : digit_char c -> plain_char c.
Proof. unfold digit_char, plain_char. cbn. intros H E. repeat (destruct E as [<-|E]; [lia|]). exact E. Qed.
Lemma digits_last s : Forall digit_char s -> s <> [] -> digit_char (last s 0%N).
Proof.
  intros H Hn. destruct (exists_last Hn) as (a & c & ->). apply Forall_app in H. destruct H as [_ H].
  inversion H; subst. rewrite last_last. assumption.
Qed.
Lemma digits_word s : Forall digit_char s -> s <> [] -> plain_word s.
Proof.
  intros H Hn. split; [exact Hn|]. split; [eapply Forall_impl; [|exact H]; exact digit_plain|].
  pose proof (digits_last s H Hn) as Hl. destruct s as [|c s]; [congruence|]. inversion H; subst. unfold digit_char in *.
  split; [|split].
  - cbn. intros E. repeat (destruct E as [<-|E]; [lia|]). exact E.
  - intro E. rewrite E in Hl. lia.
  - intros E. cbn in E. repeat (destruct E as [E|E]; [injection E as <- ?; lia|]). exact E.
Qed.
Lemma unsigned_word n : plain_word (sc_from_unsigned n).
Proof. destruct (unsigned_chars n). apply digits_word; assumption. Qed.
Lemma integer_word z : plain_word (sc_from_integer z).
Proof.
  unfold sc_from_integer. destruct (z <? 0)%Z; [|apply unsigned_word].
  destruct (unsigned_chars (Z.to_N (- z))) as [H Hn]. set (s := sc_from_unsigned _) in *. clearbody s.
  pose proof (digits_last s H Hn) as Hl. destruct s as [|c s]; [congruence|].
  split; [discriminate|]. split.
  { constructor; [unfold plain_char; cbn; intuition discriminate|]. eapply Forall_impl; [|exact H]; exact digit_plain. }
  inversion H; subst. unfold digit_char in *. split; [|split].
  - cbn. intuition discriminate.
  - change (last (45%N :: c :: s) 0%N) with (last (c :: s) 0%N). intro E. rewrite E in Hl. lia.
  - cbn. intros E. repeat (destruct E as [E|E]; [injection E; intros; subst; lia || discriminate|]). exact E.
Qed.
Lemma boolean_word b : plain_word (sc_from_boolean b).
Proof.
  destruct b; (split; [discriminate|]; split; [repeat (apply Forall_cons || apply Forall_nil); vm_compute; intuition discriminate|];
    split; [vm_compute; intuition discriminate|split; [vm_compute; discriminate|vm_compute; intuition discriminate]]).
Qed.

(** ** the encoder builds trees that can be written *)
Section Written.
  Context (x : externs) (tb : structs) (omitempty : bool).
  Notation tr := (BuilderSpec.tree false).
  Notation enc := (encode x tb omitempty).

  Definition writable (v : goval) : Prop := forall t, typed tb t v -> textual x tb omitempty t v ->
    exists u, (forall cn, cn = true \/ v <> GoNil -> enc cn t v = calls u) /\ single_docs u /\ simple (tr u)
      /\ (scalar_type t = true -> simple_scalar (tr u)).

  Lemma scalar_writable t v s : (forall cn, enc cn t v = [OScalar s]) -> simple_scalar (tr (VaScalar s)) ->
    exists u, (forall cn, cn = true \/ v <> GoNil -> enc cn t v = calls u) /\ single_docs u /\ simple (tr u)
      /\ (scalar_type t = true -> simple_scalar (tr u)).
  Proof.
    intros E H. exists (VaScalar s). split; [intros; apply E|]. split; [exact I|]. split; [constructor; exact H|intros _; exact H].
  Qed.

  Definition all_single := (fix all l := match l with [] => True | x :: l' => single_docs x /\ all l' end).
  Definition all_single2 := (fix all (l : list (value * value)) := match l with [] => True
    | kv :: l' => single_docs (fst kv) /\ single_docs (snd kv) /\ all l' end).

  Lemma items_writable e l : Forall writable l -> Forall (typed tb e) l -> Forall (textual x tb omitempty e) l ->
    exists us, flat_map (enc true e) l = flat_map calls us /\ all_single us /\ Forall simple (map tr us) /\ length us = length l.
  Proof.
    intros HG HT HX. induction l as [|v l IH].
    - exists []. repeat split; constructor.
    - inversion HG; inversion HT; inversion HX; subst. destruct IH as (us & E & S & X & L); try assumption.
      destruct (H1 e) as (u & Eu & Su & Xu & _); try assumption.
      exists (u :: us). cbn [flat_map map length]. rewrite E, (Eu true), L by auto. repeat split; try constructor; assumption.
  Qed.
  Lemma pairs_writable k e l : scalar_type k = true -> Forall (fun kv => writable (fst kv) /\ writable (snd kv)) l ->
    Forall (fun kv => typed tb k (fst kv) /\ typed tb e (snd kv)) l ->
    Forall (fun kv => textual x tb omitempty k (fst kv) /\ textual x tb omitempty e (snd kv)) l ->
    exists us, flat_map (fun kv => enc true k (fst kv) ++ enc true e (snd kv)) l = flat_map (fun kv => calls (fst kv) ++ calls (snd kv)) us
      /\ all_single2 us /\ Forall simple_entry (map (fun kv => NEntry (tr (fst kv)) (tr (snd kv))) us) /\ length us = length l.
  Proof.
    intros Hk HG HT HX. induction l as [|v l IH].
    - exists []. repeat split; constructor.
    - inversion HG; inversion HT; inversion HX; subst. destruct IH as (us & E & S & X & L); try assumption.
      destruct H1 as [W1 W2], H5 as [T1 T2], H9 as [X1 X2].
      destruct (W1 k) as (u & Eu & Su & Xu & Ku); try assumption.
      destruct (W2 e) as (w & Ew & Sw & Xw & _); try assumption.
      exists ((u, w) :: us). cbn [flat_map map length fst snd]. rewrite E, (Eu true), (Ew true), L by auto.
      repeat split; try assumption; try reflexivity. constructor; [|assumption]. constructor; auto.
  Qed.

  Lemma fields_writable fs l : Forall writable l -> Forall2 (fun d v => typed tb (fl_type d) v) fs l ->
    Forall2 (field_textual x tb omitempty) fs l ->
    exists us, enc_fields x tb omitempty fs l = flat_map (fun kv => calls (fst kv) ++ calls (snd kv)) us
      /\ all_single2 us /\ Forall simple_entry (map (fun kv => NEntry (tr (fst kv)) (tr (snd kv))) us)
      /\ ((exists j d v, nth_error fs j = Some d /\ nth_error l j = Some v /\ ~ left_out omitempty d v) -> us <> []).
  Proof.
    intros HG HT. revert HG. induction HT as [|d v fs l Hv HT IH]; intros HG HX.
    - exists []. repeat split; try constructor. intros (j & d & v & E & _). destruct j; discriminate.
    - inversion HG; inversion HX; subst. destruct (IH H2 H8) as (us & E & S & X & N). cbn [enc_fields].
      assert (Hout : left_out omitempty d v -> exists us0,
        (if fl_skip d then [] else if (omitempty || fl_omitempty d) && negb (not_empty (fl_type d) v) then []
         else OScalar (SString (fl_name d)) :: enc (negb (omitempty || fl_omitempty d)) (fl_type d) v) ++ enc_fields x tb omitempty fs l
         = flat_map (fun kv => calls (fst kv) ++ calls (snd kv)) us0
         /\ all_single2 us0 /\ Forall simple_entry (map (fun kv => NEntry (tr (fst kv)) (tr (snd kv))) us0)
         /\ ((exists j d0 v0, nth_error (d :: fs) j = Some d0 /\ nth_error (v :: l) j = Some v0 /\ ~ left_out omitempty d0 v0) -> us0 <> [])).
      { intro Ho. exists us. split.
        - destruct Ho as [-> | [Ho He]]; [exact E|]. destruct (fl_skip d); [exact E|]. rewrite Ho.
          destruct (not_empty (fl_type d) v) eqn:En; [|exact E]. apply (not_empty_iff tb) in En; [|exact Hv]. contradiction.
        - split; [exact S|]. split; [exact X|]. intros (j & d0 & v0 & E1 & E2 & Hn). destruct j as [|j].
          + injection E1 as <-. injection E2 as <-. contradiction.
          + apply N. exists j, d0, v0. auto. }
      destruct (fl_skip d) eqn:Ek; [apply Hout; left; exact Ek|].
      destruct ((omitempty || fl_omitempty d) && negb (not_empty (fl_type d) v)) eqn:Eo.
      { apply Hout. right. apply andb_prop in Eo. destruct Eo as [Eo En]. split; [exact Eo|].
        destruct (not_empty (fl_type d) v) eqn:E1; [discriminate|].
        assert (Hnn : ~ ~ empty v) by (intro Hx; apply (not_empty_iff tb _ _ Hv) in Hx; congruence).
        clear -Hnn. destruct v; cbn in *; try tauto; try (destruct s; tauto); try (destruct l; tauto);
          try (destruct b; tauto); try (destruct z; tauto); try (destruct n; tauto).
        destruct (N.eq_dec x 0); [tauto|]. destruct (N.eq_dec x (2 ^ 63)); tauto. }
      match goal with Hf : field_textual _ _ _ d v |- _ => destruct Hf as [d v Ho|d v Hn Hx] end.
      + destruct Ho as [Ho|[Ho He]]; [congruence|]. rewrite Ho in Eo. destruct (not_empty (fl_type d) v) eqn:E1; [|discriminate].
        apply (not_empty_iff tb) in E1; [|exact Hv]. contradiction.
      + destruct (H1 (fl_type d) Hv Hx) as (u & Eu & Su & Xu & _).
        exists ((VaScalar (SString (fl_name d)), u) :: us). cbn [flat_map map fst snd calls app]. split; [|split; [|split]].
        * rewrite (Eu (negb (omitempty || fl_omitempty d))), E; [reflexivity|]. destruct (omitempty || fl_omitempty d) eqn:Eom; [|left; reflexivity].
          right. intros ->. apply Bool.andb_false_iff in Eo. destruct Eo as [Eo|Eo]; [congruence|].
          apply Bool.negb_false_iff in Eo. apply (not_empty_iff tb) in Eo; [|exact Hv]. apply Eo. exact I.
        * split; [exact I|]. split; [exact Su|exact S].
        * constructor; [|exact X]. constructor; [|exact Xu]. cbn [tr andb]. apply ss_double. exact Hn.
        * intros _. discriminate.
  Qed.

  Lemma all_writable v : writable v.
  Proof.
    induction v using goval_ind'; intros t HT HX; inversion HX; subst; inversion HT; subst.
    - apply (scalar_writable _ _ (SString s)); [reflexivity|apply ss_double; assumption].
    - apply (scalar_writable _ _ (SBool b)); [reflexivity|apply ss_plain; [auto|apply pt_word, boolean_word]].
    - apply (scalar_writable _ _ (SInt z)); [reflexivity|apply ss_plain; [auto|apply pt_word, integer_word]].
    - apply (scalar_writable _ _ (SUint n)); [reflexivity|apply ss_plain; [auto|apply pt_word, unsigned_word]].
    - apply (scalar_writable _ _ (SFloat (x_float x n))); [reflexivity|apply ss_plain; auto].
    - assert (Hs : simple_scalar (tr (VaRawText s))) by (apply ss_double; assumption).
      exists (VaRawText s). split; [|split; [exact I|split; [constructor; exact Hs|intros _; exact Hs]]].
      intros. cbn [encode]. match goal with Hm : x_marshal _ _ _ = _ |- _ => rewrite Hm end. reflexivity.
    - apply (scalar_writable _ _ (SString s)); [reflexivity|apply ss_double; assumption].
    - exists VaNull. split; [|split; [exact I|split; [repeat constructor|intros _; constructor]]].
      intros cn [-> | Hn]; [|congruence]. destruct t; try discriminate; reflexivity.
    - match goal with H0 : Forall (typed tb e) l |- _ => destruct (items_writable e l H H0) as (us & E & S & X & L); [assumption|] end.
      exists (VaSeq us). split; [|split; [exact S|split; [|discriminate]]].
      + intros. cbn [encode calls]. rewrite E. reflexivity.
      + apply simple_sequence; [|exact X]. destruct us, l; cbn in *; congruence.
    - match goal with H0 : Forall (typed tb e) l |- _ => destruct (items_writable e l H H0) as (us & E & S & X & L); [assumption|] end.
      exists (VaSeq us). split; [|split; [exact S|split; [|discriminate]]].
      + intros. cbn [encode calls]. rewrite E. reflexivity.
      + apply simple_sequence; [|exact X]. destruct us, l; cbn in *; congruence.
    - destruct (IHv e) as (u & E & S & X & _); try assumption. exists u.
      split; [intros; cbn [encode]; apply E|split; [exact S|split; [exact X|discriminate]]]. left. reflexivity.
    - match goal with H0 : Forall (fun kv => typed tb k _ /\ _) l, Hk : scalar_type k = true |- _ =>
        destruct (pairs_writable k e l Hk H H0) as (us & E & S & X & L); [assumption|] end.
      exists (VaMap us). split; [|split; [exact S|split; [|discriminate]]].
      + intros. cbn [encode calls]. rewrite E. reflexivity.
      + apply simple_mapping; [|exact X]. destruct us, l; cbn in *; congruence.
    - match goal with H0 : nth_error tb i = Some ?a, H1 : nth_error tb i = Some ?b |- _ =>
        assert (a = b) by congruence; subst end.
      match goal with H0 : Forall2 _ ?fs l, H1 : Forall2 (field_textual _ _ _) ?fs l |- _ =>
        destruct (fields_writable fs l H H0 H1) as (us & E & S & X & L) end.
      exists (VaMap us). split; [|split; [exact S|split; [|discriminate]]].
      + intros. rewrite encode_struct. unfold fields_of.
        match goal with H0 : nth_error tb i = Some _ |- _ => rewrite (nth_error_nth tb i [] H0) end. rewrite E. reflexivity.
      + apply simple_mapping; [|exact X]. intro En. apply map_eq_nil in En. apply L; assumption.
  Qed.
End Written.

(** ** what comes back means the same to the decoder *)
Lemma reread_means2 n : y_tree (reread n) = y_tree n
  /\ match n with NEntry k v => y_tree (reread k) = y_tree k /\ y_tree (reread v) = y_tree v | _ => True end.
Proof.
  induction n using node_ind'; try (split; [reflexivity|exact I]).
  - split; [destruct q; reflexivity|exact I].
  - split; [|exact I]. cbn [reread y_tree]. destruct IHn2 as [-> _]. reflexivity.
  - split; [|exact I]. cbn [reread y_tree].
    match goal with |- option_map _ ?a = option_map _ ?b => assert (a = b) as ->; [|reflexivity] end.
    induction H as [|n l [Hn _] _ IH]; [reflexivity|]. cbn [map]. rewrite Hn, IH. reflexivity.
  - split; [|exact I]. cbn [reread y_tree].
    match goal with |- option_map _ ?a = option_map _ ?b => assert (a = b) as ->; [|reflexivity] end.
    induction H as [|n l [_ Hn] _ IH]; [reflexivity|]. cbn [map].
    destruct n; try reflexivity; [destruct q; reflexivity|]. cbn [reread]. destruct Hn as [-> ->]. rewrite IH. reflexivity.
  - split; [reflexivity|]. destruct IHn1 as [H1 _], IHn2 as [H2 _]. auto.
Qed.
Lemma reread_means n : y_tree (reread n) = y_tree n.
Proof. apply reread_means2. Qed.

(** ** C41 again, for every tree that means the same *)
Lemma y_generated_like x tb omitempty strict o t v z :
  typed tb t v -> survives x tb o omitempty omitempty t v -> zeroval x tb t z ->
  exists n, observe (bsteps (new_builder false) (encode_top x tb omitempty t v)) = (None, n) /\
  forall n2 multi, y_tree n2 = y_tree n -> exists F, forall f, F <= f -> exists r hs,
    y_decode x tb omitempty strict o multi f t z n2 = Done (v, (r, hs))
    /\ no_errors (y_engine o) o f r.
Proof.
  intros HT HS Hz.
  destruct (top_good (Nd := node) x tb omitempty strict o (fun n => n) (value_of o) false ltac:(auto) ltac:(discriminate)
    t v z HT HS ltac:(discriminate) Hz) as (u & w & E & Sh & qs & ps & h' & F & R & B).
  exists (BuilderSpec.tree false u). split; [rewrite E; apply observe_build; eapply shows_single; eassumption|].
  intros n2 multi Hn. rewrite (shows_y u w Sh) in Hn.
  destruct (y_reads o multi _ _ _ _ _ Hn R) as (rs & hs & F' & Hm & Hl & HF).
  exists (F + F'). intros f Hf. destruct (HF f ltac:(lia)) as (r & Hd & He & _).
  exists r, hs. split; [|exact He].
  eapply interp_follows; [apply B; lia|reflexivity|exact Hm|exact Hd].
Qed.

(** ** marshalling *)
Lemma expected_inserts {Op T BE D Out OutTo} build text_of deliver (ops : list Op) : forall pending,
  @expected Op T BE D Out OutTo build text_of deliver pending (map RInsert ops ++ [RBytes]) = [expected_text build text_of (pending ++ ops)].
Proof.
  induction ops as [|o ops IH]; intro pending; cbn [map app expected]; [rewrite app_nil_r; reflexivity|].
  rewrite IH, <- app_assoc. reflexivity.
Qed.
Lemma marshal_is x tb omitempty t v n : observe (bsteps (new_builder false) (encode_top x tb omitempty t v)) = (None, n) ->
  y_marshal x tb omitempty t v = [Encoder.AText (serialized n)].
Proof.
  intro E. unfold y_marshal. rewrite yayamls_expected, expected_inserts. cbn [app]. unfold expected_text. rewrite E. reflexivity.
Qed.

Lemma encode_builds x tb omitempty t v : typed tb t v -> textual x tb omitempty t v ->
  exists n, observe (bsteps (new_builder false) (encode_top x tb omitempty t v)) = (None, n) /\ simple n.
Proof.
  intros HT HX. destruct (all_writable x tb omitempty v t HT HX) as (u & E & S & X & _).
  exists (BuilderSpec.tree false u). split; [|exact X]. unfold encode_top. rewrite (E true) by auto. apply observe_build. exact S.
Qed.

Theorem marshal_unmarshal digit x tb omitempty strict o t v z :
  typed tb t v -> textual x tb omitempty t v -> survives x tb o omitempty omitempty t v -> zeroval x tb t z ->
  exists s, y_marshal x tb omitempty t v = [Encoder.AText (OutText s)] /\
  exists F, forall f, F <= f -> y_unmarshal digit x tb omitempty strict o f t z s = Done (v, None).
Proof.
  intros HT HX HS Hz. destruct (encode_builds x tb omitempty t v HT HX) as (n & E & Hs).
  destruct (y_generated_like x tb omitempty strict o t v z HT HS Hz) as (n1 & E1 & H1).
  assert (n1 = n) by congruence. subst n1. clear E1.
  destruct (round_trip n Hs) as (s & Es & Hp). exists s. split; [rewrite (marshal_is _ _ _ _ _ _ E), Es; reflexivity|].
  destruct (H1 (reread n) false (reread_means n)) as (F & HF). exists (F + 4 * length s + 4). intros f Hf.
  unfold y_unmarshal. rewrite (Hp digit true f) by lia. destruct (HF f ltac:(lia)) as (r & hs & -> & He).
  cbn [obind fst snd]. unfold no_errors in He. rewrite He. reflexivity.
Qed.
