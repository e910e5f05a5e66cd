(** C41: the generated decoder reads back what the generated encoder describes. *)
From Coq Require Import ZifyBool ZifyNat.
From Verif Require Import Base Schema SchemaSpec SchemaProofs Values Ast Writer Builder BuilderSpec Reader
  ReadSpec GenCode GenSpec.
Local Open Scope nat_scope.

Section GovalInd.
  Variable P : goval -> Prop.
  Hypothesis Hstring : forall s, P (GoString s).
  Hypothesis Hbool : forall b, P (GoBool b).
  Hypothesis Hint : forall z, P (GoInt z).
  Hypothesis Huint : forall n, P (GoUint n).
  Hypothesis Hfloat : forall n, P (GoFloat n).
  Hypothesis Htext : forall n, P (GoText n).
  Hypothesis Hbytes : forall s, P (GoBytes s).
  Hypothesis Hnil : P GoNil.
  Hypothesis Hslice : forall l, Forall P l -> P (GoSlice l).
  Hypothesis Harray : forall l, Forall P l -> P (GoArray l).
  Hypothesis Hptr : forall v, P v -> P (GoPtr v).
  Hypothesis Hmap : forall l, Forall (fun kv => P (fst kv) /\ P (snd kv)) l -> P (GoMap l).
  Hypothesis Hstruct : forall l, Forall P l -> P (GoStruct l).
  Fixpoint goval_ind' (v : goval) : P v :=
    let all := fix all (l : list goval) : Forall P l :=
      match l with [] => Forall_nil P | y :: l' => Forall_cons y (goval_ind' y) (all l') end in
    match v with
    | GoString s => Hstring s
    | GoBool b => Hbool b
    | GoInt z => Hint z
    | GoUint n => Huint n
    | GoFloat n => Hfloat n
    | GoText n => Htext n
    | GoBytes s => Hbytes s
    | GoNil => Hnil
    | GoSlice l => Hslice l (all l)
    | GoArray l => Harray l (all l)
    | GoPtr v' => Hptr v' (goval_ind' v')
    | GoMap l => Hmap l ((fix all l : Forall (fun kv => P (fst kv) /\ P (snd kv)) l :=
        match l with
        | [] => Forall_nil _
        | kv :: l' => Forall_cons kv (conj (goval_ind' (fst kv)) (goval_ind' (snd kv))) (all l')
        end) l)
    | GoStruct l => Hstruct l (all l)
    end.
End GovalInd.

Lemma goval_eqb_sound a : forall b, goval_eqb a b = true -> a = b.
Proof.
  induction a using goval_ind'; intros [] H0; cbn in H0; try discriminate; try reflexivity;
    try (apply text_eqb_eq in H0; congruence).
  - apply Bool.eqb_prop in H0. congruence.
  - apply Z.eqb_eq in H0. congruence.
  - apply N.eqb_eq in H0. congruence.
  - apply N.eqb_eq in H0. congruence.
  - apply N.eqb_eq in H0. congruence.
  - f_equal. revert l0 H0. induction H as [|y l Hy Hl IH]; intros [|w m] E; try discriminate; [reflexivity|].
    apply andb_prop in E as [E1 E2]. f_equal; auto.
  - f_equal. revert l0 H0. induction H as [|y l Hy Hl IH]; intros [|w m] E; try discriminate; [reflexivity|].
    apply andb_prop in E as [E1 E2]. f_equal; auto.
  - f_equal. auto.
  - f_equal. revert l0 H0. induction H as [|[y y'] l [Hy Hy'] Hl IH]; intros [|[w w'] m] E; try discriminate; [reflexivity|].
    apply andb_prop in E as [E1 E2]. apply andb_prop in E1 as [E0 E1]. cbn in *.
    f_equal; auto. f_equal; auto.
  - f_equal. revert l0 H0. induction H as [|y l Hy Hl IH]; intros [|w m] E; try discriminate; [reflexivity|].
    apply andb_prop in E as [E1 E2]. f_equal; auto.
Qed.

Lemma go_assign_new k v m : ~ In k (map fst m) -> go_assign k v m = m ++ [(k, v)].
Proof.
  induction m as [|[k' v'] m IH]; cbn; intro H; [reflexivity|].
  destruct (goval_eqb k k') eqn:E; [apply goval_eqb_sound in E; subst; tauto|].
  rewrite IH; tauto.
Qed.

(** ** zero values *)
Section Zero.
  Context (x : externs) (tb : structs).

  Lemma zero_struct f i : zero x tb (S f) (TyStruct i) =
    option_map GoStruct
      ((fix go (l : list field) : option (list goval) :=
          match l with
          | [] => Some []
          | d :: l' => match zero x tb f (fl_type d), go l' with
                       | Some z, Some zs => Some (z :: zs) | _, _ => None end
          end) (fields_of tb i)).
  Proof. reflexivity. Qed.

  Lemma zeroval_zero v : forall t, zeroval x tb t v -> exists F, forall f, F <= f -> zero x tb f t = Some v.
  Proof.
    induction v using goval_ind'; intros t H0; inversion H0; subst;
      try (exists 1; intros [|f] Hf; [lia|reflexivity]).
    - exists 1. intros [|f] Hf; [lia|]. destruct t; cbn in *; try discriminate; reflexivity.
    - (* array *)
      match goal with Hz : Forall (zeroval _ _ ?e) l |- _ => rename e into el; rename Hz into HZ end.
      destruct l as [|y l].
      + exists 1. intros [|f] Hf; [lia|reflexivity].
      + assert (HF : exists F, forall f w, F <= f -> In w (y :: l) -> zero x tb f el = Some w).
        { clear H0. induction H as [|w m Hw Hm IH]; [exists 0; intros f w _ []|].
          inversion HZ; subst. destruct (Hw _ H1) as [F1 HF1]. destruct (IH H2) as [F2 HF2].
          exists (Nat.max F1 F2). intros f w' Hf [<-|Hin]; [apply HF1; lia|apply HF2; [lia|exact Hin]]. }
        destruct HF as [F HF]. exists (S F). intros [|f] Hf; [lia|].
        cbn [zero length]. rewrite (HF f y) by (try lia; left; reflexivity). cbn [option_map]. do 2 f_equal.
        assert (Heq : forall w, In w (y :: l) -> w = y).
        { intros w Hin. pose proof (HF F w (le_n _) Hin) as E1.
          pose proof (HF F y (le_n _) (or_introl eq_refl)) as E2. congruence. }
        clear - Heq. change (repeat y (length (y :: l)) = y :: l). induction (y :: l) as [|w m IH] in Heq |- *; [reflexivity|].
        cbn. rewrite (Heq w) by (left; reflexivity). f_equal. apply IH. intros; apply Heq; right; assumption.
    - (* struct *)
      match goal with Hz : Forall2 _ ?fs l, Hn : nth_error tb i = Some ?fs |- _ => rename Hz into HZ; rename Hn into HN end.
      assert (HF : exists F, forall f, F <= f -> (fix go (l : list field) : option (list goval) :=
                  match l with
                  | [] => Some []
                  | d :: l' => match zero x tb f (fl_type d), go l' with
                               | Some z, Some zs => Some (z :: zs) | _, _ => None end
                  end) fs = Some l).
      { clear H0 HN. induction HZ as [|d v fs l Hd HZ IH]; [exists 0; reflexivity|].
        inversion H; subst. destruct (H2 _ Hd) as [F1 HF1]. destruct (IH H3) as [F2 HF2].
        exists (Nat.max F1 F2). intros f Hf. rewrite HF1, HF2 by lia. reflexivity. }
      destruct HF as [F HF]. exists (S F). intros [|f] Hf; [lia|]. rewrite zero_struct.
      unfold fields_of. rewrite (nth_error_nth _ _ _ HN). rewrite HF by lia. reflexivity.
  Qed.

  Lemma zeroval_unique t v w : zeroval x tb t v -> zeroval x tb t w -> v = w.
  Proof.
    intros H1 H2. apply zeroval_zero in H1 as [F1 H1]. apply zeroval_zero in H2 as [F2 H2].
    specialize (H1 (F1 + F2)). specialize (H2 (F1 + F2)). rewrite H1 in H2 by lia.
    specialize (H2 ltac:(lia)). congruence.
  Qed.

  Lemma typed_zero v : forall t, typed tb t v -> exists z, zeroval x tb t z.
  Proof.
    induction v using goval_ind'; intros t H0; inversion H0; subst;
      try (eexists; constructor; fail); try (exists GoNil; constructor; assumption || reflexivity).
    - match goal with Hz : Forall (typed tb ?e) l |- _ => rename e into el; rename Hz into HT end.
      destruct l as [|y l].
      + exists (GoArray []). apply (Z_array x tb el []). constructor.
      + inversion H; inversion HT; subst. destruct (H3 _ H7) as [z Hz].
        exists (GoArray (repeat z (length (y :: l)))).
        rewrite <- (repeat_length z (length (y :: l))) at 1. constructor.
        apply Forall_forall. intros w Hw. apply repeat_spec in Hw. congruence.
    - match goal with Hz : Forall2 _ ?fs l, Hn : nth_error tb i = Some ?fs |- _ => rename Hz into HT; rename Hn into HN end.
      assert (HZ : exists zs, Forall2 (fun d v => zeroval x tb (fl_type d) v) fs zs).
      { clear - H HT. induction HT as [|d v fs l Hd HT IH]; [exists []; constructor|].
        inversion H; subst. destruct (H2 _ Hd) as [z Hz]. destruct (IH H3) as [zs Hzs].
        exists (z :: zs). constructor; assumption. }
      destruct HZ as [zs Hzs]. exists (GoStruct zs). econstructor; eassumption.
  Qed.
End Zero.

(** ** programs that ask given requests *)
Section Follow.
  Context {Nd : Type} (drains : bool).
  Definition not_coll (a : answer Nd) : Prop := match a with AColl _ => False | _ => True end.

  (** [follows p h qs ps h' a]: with [h] collections opened before, the program [p] asks the requests
      [qs] if it is answered [ps], and returns [a]; sizes may also be asked in between. *)
  Inductive follows {A : Type} : prog Nd A -> nat -> list request -> list (reply Nd) -> nat -> A -> Prop :=
  | FO_ret a h : follows (Ret a) h [] [] h a
  | FO_call c k ans h qs ps h' a : not_coll ans -> follows (k ans) h qs ps h' a ->
      follows (Call c k) h (QCall c :: qs) (PAnswer ans :: ps) h' a
  | FO_open c k h qs ps h' a : follows (k h) (S h) qs ps h' a ->
      follows (Open c k) h (QCall c :: qs) (PAnswer (AColl CollNoop) :: ps) h' a
  | FO_size i k n h qs ps h' a : follows (k n) h qs ps h' a ->
      follows (Size i k) h (QSize i :: qs) (PSize n :: ps) h' a
  | FO_more i k b h qs ps h' a : follows (k b) h qs ps h' a ->
      follows (More i k) h (QMore i :: qs) (PMore b :: ps) h' a
  | FO_extra p i n h qs ps h' a : follows p h qs ps h' a -> follows p h (QSize i :: qs) (PSize n :: ps) h' a
  | FO_nil p h qs ps h' a : drains = false -> follows p h qs ps h' a -> follows (AddErr None p) h qs ps h' a.

  Lemma follows_bind {A B} (p : prog Nd A) (k : A -> prog Nd B) h qs ps h1 a qs' ps' h2 b :
    follows p h qs ps h1 a -> follows (k a) h1 qs' ps' h2 b -> follows (bind p k) h (qs ++ qs') (ps ++ ps') h2 b.
  Proof.
    intros Hp Hk. induction Hp; cbn; try (constructor; auto; fail). exact Hk.
  Qed.
  Lemma follows_bind0 {A B} (p : prog Nd A) (k : A -> prog Nd B) h qs ps h1 a b :
    follows p h qs ps h1 a -> (forall h, follows (k a) h [] [] h b) -> follows (bind p k) h qs ps h1 b.
  Proof.
    intros Hp Hk. rewrite <- (app_nil_r qs), <- (app_nil_r ps). eapply follows_bind; [exact Hp|apply Hk].
  Qed.
End Follow.

Lemma interp_follows {Nd K A} (en : engine Nd K) o f (p : prog Nd A) h qs ps h' a :
  follows (en_drains en) p h qs ps h' a -> forall r hs rs s', length hs = h -> map mask rs = ps ->
  do_requests en o f qs (r, hs) = Done (rs, s') -> interp en o f p (r, hs) = Done (a, s').
Proof.
  induction 1; intros r hs rs s' Hh Hm Hd; cbn [do_requests] in Hd.
  - injection Hd as _ <-. reflexivity.
  - destruct (do_request en o f (QCall c) (r, hs)) as [[p1 s1]| |] eqn:E1; cbn [obind] in Hd; try discriminate.
    destruct (do_requests en o f qs (snd (p1, s1))) as [[rs' s2]| |] eqn:E2; cbn [obind] in Hd; try discriminate.
    cbn in E2. injection Hd as <- <-. cbn [map fst snd] in Hm. injection Hm as Hm1 Hm2.
    cbn in E1. destruct (do_call en o f c r) as [[ans' r']| |] eqn:Ec; cbn in E1; try discriminate.
    injection E1 as <- <-. cbn in Hm1.
    assert (ans' = ans) as ->.
    { destruct ans'; cbn in Hm1; try congruence. injection Hm1 as <-. contradiction. }
    cbn [interp fst snd]. rewrite Ec. cbn [obind fst snd]. cbn in E2. eapply IHfollows; try eassumption.
    destruct ans; cbn; rewrite ?app_nil_r; try assumption. contradiction.
  - destruct (do_request en o f (QCall c) (r, hs)) as [[p1 s1]| |] eqn:E1; cbn [obind] in Hd; try discriminate.
    destruct (do_requests en o f qs (snd (p1, s1))) as [[rs' s2]| |] eqn:E2; cbn [obind] in Hd; try discriminate.
    cbn in E2. injection Hd as <- <-. cbn [map fst snd] in Hm. injection Hm as Hm1 Hm2.
    cbn in E1. destruct (do_call en o f c r) as [[ans' r']| |] eqn:Ec; cbn in E1; try discriminate.
    injection E1 as <- <-. cbn in Hm1.
    destruct ans'; cbn in Hm1; try congruence.
    cbn [interp fst snd]. rewrite Ec. cbn [obind fst snd colls_of]. cbn in E2. rewrite Hh.
    eapply IHfollows; try eassumption. rewrite app_length. cbn. lia.
  - cbn [do_request] in Hd. destruct (coll_size (nth i hs CollNil)) as [m| |] eqn:E1; cbn [obind fst snd] in Hd; try discriminate.
    destruct (do_requests en o f qs (r, hs)) as [[rs' s2]| |] eqn:E2; cbn [obind] in Hd; try discriminate.
    injection Hd as <- <-. cbn in Hm. injection Hm as -> Hm. cbn [interp fst snd]. rewrite E1. cbn [obind]. eapply IHfollows; eassumption.
  - cbn [do_request] in Hd. destruct (coll_more r (nth i hs CollNil)) as [m| |] eqn:E1; cbn [obind fst snd] in Hd; try discriminate.
    destruct (do_requests en o f qs (r, hs)) as [[rs' s2]| |] eqn:E2; cbn [obind] in Hd; try discriminate.
    injection Hd as <- <-. cbn in Hm. injection Hm as -> Hm. cbn [interp fst snd]. rewrite E1. cbn [obind]. eapply IHfollows; eassumption.
  - cbn [do_request] in Hd. destruct (coll_size (nth i hs CollNil)) as [m| |] eqn:E1; cbn [obind fst snd] in Hd; try discriminate.
    destruct (do_requests en o f qs (r, hs)) as [[rs' s2]| |] eqn:E2; cbn [obind] in Hd; try discriminate.
    injection Hd as <- <-. cbn in Hm. injection Hm as -> Hm. eapply IHfollows; eassumption.
  - cbn [interp]. replace (add_nil_error en (fst (r, hs))) with r.
    2:{ unfold add_nil_error. rewrite H. cbn. destruct (has_fatal r); reflexivity. }
    eapply IHfollows; eassumption.
Qed.

(** ** what a described value looks like to a reader *)
Inductive shows : value -> ReadSpec.tree -> Prop :=
| SH_null : shows VaNull TNull
| SH_string s : shows (VaScalar (SString s)) (TText s)
| SH_int z : shows (VaScalar (SInt z)) (TText (sc_from_integer z))
| SH_uint n : shows (VaScalar (SUint n)) (TText (sc_from_unsigned n))
| SH_bool b : shows (VaScalar (SBool b)) (TText (sc_from_boolean b))
| SH_float s : sc_is_float s = true -> shows (VaScalar (SFloat s)) (TText s)
| SH_raw s : shows (VaRawText s) (TText s)
| SH_seq us ws : Forall2 shows us ws -> shows (VaSeq us) (TSeq ws)
| SH_map us ws : Forall2 (fun a b => shows (fst a) (fst b) /\ shows (snd a) (snd b)) us ws ->
    shows (VaMap us) (TMap ws).

Section Main.
  Context {Nd : Type} (x : externs) (tb : structs) (omitempty strict : bool).
  Context (o : oracle) (ms : nat -> nat) (val : ReadSpec.tree -> Values.value -> Prop) (drains : bool).
  Hypothesis Hms : forall n, ms n = 0 -> n = 0.
  Hypothesis Htexts : drains = true -> no_texts tb.

  Notation rd := (@reads Nd o ms val).
  Notation dec := (@decode x tb omitempty strict Nd).
  Notation fol := (@follows Nd drains _).

  (** ** loops *)
  Definition step1 {A} (body : nat -> A -> prog Nd A) (a : A) (w : ReadSpec.tree) (a1 : A) : Prop :=
    exists F, forall h, exists qs ps h1, rd h w qs ps h1 /\ forall f, F <= f -> fol (body f a) h qs ps h1 a1.
  Definition step2 {A} (body : nat -> A -> prog Nd A) (a : A) (kv : ReadSpec.tree * ReadSpec.tree) (a1 : A) : Prop :=
    exists F, forall h, exists qs ps h1 qs' ps' h2, rd h (fst kv) qs ps h1 /\ not_skip qs /\ rd h1 (snd kv) qs' ps' h2
      /\ forall f, F <= f -> fol (body f a) h (qs ++ qs') (ps ++ ps') h2 a1.
  Inductive steps {A W} (cond : A -> bool) (step : A -> W -> A -> Prop) : A -> list W -> A -> Prop :=
  | SS_nil a : steps cond step a [] a
  | SS_cons a w a1 ws a2 : cond a = true -> step a w a1 -> steps cond step a1 ws a2 -> steps cond step a (w :: ws) a2.

  Lemma loop_items {A} cond (body : nat -> A -> prog Nd A) a ws a2 : steps cond (step1 body) a ws a2 ->
    exists F, forall c h, exists qs ps h', reads_items o ms val c h ws qs ps h' /\
      forall f g, F <= f -> F <= g -> fol (while g c cond (body f) a) h qs ps h' a2.
  Proof.
    induction 1 as [a|a w a1 ws a2 Hc [F1 H1] Hs [F2 H2]].
    - exists 1. intros c h. do 3 eexists. split; [constructor|].
      intros f [|g] _ Hg; [lia|]. cbn. repeat constructor.
    - exists (S (F1 + F2)). intros c h. destruct (H1 h) as (qs & ps & h1 & R1 & B1).
      destruct (H2 c h1) as (qs' & ps' & h2 & R2 & B2). do 3 eexists. split; [econstructor; eassumption|].
      intros f [|g] Hf Hg; [lia|]. cbn. constructor. cbn. rewrite Hc.
      eapply follows_bind; [apply B1; lia|apply B2; lia].
  Qed.
  Lemma loop_entries {A} cond (body : nat -> A -> prog Nd A) a ws a2 : steps cond (step2 body) a ws a2 ->
    exists F, forall c h, exists qs ps h', reads_entries o ms val c h ws qs ps h' /\
      forall f g, F <= f -> F <= g -> fol (while g c cond (body f) a) h qs ps h' a2.
  Proof.
    induction 1 as [a|a [k w] a1 ws a2 Hc [F1 H1] Hs [F2 H2]].
    - exists 1. intros c h. do 3 eexists. split; [constructor|].
      intros f [|g] _ Hg; [lia|]. cbn. repeat constructor.
    - exists (S (F1 + F2)). intros c h. destruct (H1 h) as (qs & ps & h1 & qs1 & ps1 & h2 & R1 & N1 & R2 & B1).
      destruct (H2 c h2) as (qs' & ps' & h3 & R3 & B2). do 3 eexists. split; [eapply RE_cons; eassumption|].
      intros f [|g] Hf Hg; [lia|]. cbn. constructor. cbn. rewrite Hc.
      rewrite !app_assoc. eapply follows_bind; [apply B1; lia|apply B2; lia].
  Qed.

  (** [v] is read out of [w] by the decoder for [t] *)
  Definition decodes (t : gotype) (om : bool) (z : goval) (w : ReadSpec.tree) (v : goval) : Prop :=
    exists F, forall h, exists qs ps h', rd h w qs ps h' /\ not_skip qs /\
      forall f, F <= f -> fol (dec f om t z) h qs ps h' v.

  Definition good (v : goval) : Prop := forall t om,
    typed tb t v -> survives x tb o omitempty om t v -> (drains = true -> no_text t = true) ->
    exists u w, (forall cn, cn = true \/ v <> GoNil -> encode x tb omitempty cn t v = calls u)
      /\ shows u w /\ (w = TNull <-> v = GoNil) /\ forall z, zeroval x tb t z -> decodes t om z w v.

  (** a null or a value that is not null, after TryNull *)
  Lemma decodes_nil t om z : nilable t = true -> decodes t om z TNull GoNil.
  Proof.
    intro H. exists 1. intro h. do 3 eexists. split; [constructor|]. split; [exact I|].
    intros [|f] Hf; [lia|]. destruct t; try discriminate; cbn; constructor; try exact I; constructor.
  Qed.

  Lemma decodes_scalar t om z w v c ans :
    (forall h, rd h w [QCall c] [PAnswer ans] h) -> c <> DSkip -> not_coll ans ->
    (forall f, exists k, dec (S f) om t z = Call c k /\ forall h, fol (k ans) h [] [] h v) -> decodes t om z w v.
  Proof.
    intros Hr Hc Ha Hd. exists 1. intro h. exists [QCall c], [PAnswer ans], h.
    split; [apply Hr|]. split; [cbn; destruct c; tauto|].
    intros [|f] Hf; [lia|]. destruct (Hd f) as (k & -> & Hk). constructor; [exact Ha|apply Hk].
  Qed.

  Lemma ret_ret (a : goval) h : fol (Ret a) h [] [] h a.
  Proof. constructor. Qed.

  Lemma of_zero t z : zeroval x tb t z -> exists F, forall f, F <= f -> of_option (Nd := Nd) (zero x tb f t) = Ret z.
  Proof. intro H. destruct (zeroval_zero x tb z t H) as [F HF]. exists F. intros f Hf. rewrite HF by exact Hf. reflexivity. Qed.

  (** elements, one after the other *)
  Lemma good_items e om l : Forall good l -> Forall (typed tb e) l -> Forall (survives x tb o omitempty om e) l ->
    (drains = true -> no_text e = true) ->
    exists us ws, flat_map (encode x tb omitempty true e) l = flat_map calls us /\ Forall2 shows us ws /\
      Forall2 (fun w v => forall z, zeroval x tb e z -> decodes e om z w v) ws l.
  Proof.
    intros HG HT HS Hn. induction l as [|v l IH].
    - exists [], []. repeat split; constructor.
    - inversion HG; inversion HT; inversion HS; subst.
      destruct IH as (us & ws & E & S & D); try assumption.
      destruct (H1 e om) as (u & w & Eu & Sw & _ & Dw); try assumption.
      exists (u :: us), (w :: ws). cbn [flat_map]. rewrite E, (Eu true) by auto.
      repeat split; constructor; assumption.
  Qed.

  Lemma slice_steps e om ws l z : zeroval x tb e z ->
    Forall2 (fun w v => forall z, zeroval x tb e z -> decodes e om z w v) ws l -> forall acc,
    steps (fun _ => true)
      (step1 (fun f l => bind (of_option (zero x tb f e)) (fun z =>
                         bind (dec f om e z) (fun v => Ret (l ++ [v]))))) acc ws (acc ++ l).
  Proof.
    intros Hz H. induction H as [|w v ws l Hd _ IH]; intro acc; [rewrite app_nil_r; constructor|].
    econstructor; [reflexivity| |].
    2:{ replace (acc ++ v :: l) with ((acc ++ [v]) ++ l) by (rewrite <- app_assoc; reflexivity). apply IH. }
    destruct (Hd z Hz) as [F HF]. destruct (of_zero e z Hz) as [F' HF'].
    exists (F + F'). intro h. destruct (HF h) as (qs & ps & h1 & R & _ & B). exists qs, ps, h1. split; [exact R|].
    intros f Hf. rewrite HF' by lia. cbn [bind]. eapply follows_bind0; [apply B; lia|]. intro; constructor.
  Qed.

  Lemma array_steps e om ws l n : forall acc zs,
    Forall2 (fun w v => forall z, zeroval x tb e z -> decodes e om z w v) ws l ->
    Forall (zeroval x tb e) zs -> length zs = length l -> n = length acc + length l ->
    steps (fun s => fst s <? n)
      (step1 (fun f s => bind (of_option (nth_error (snd s) (fst s))) (fun z =>
                         bind (dec f om e z) (fun v => Ret (S (fst s), set_nth (snd s) (fst s) v)))))
      (length acc, acc ++ zs) ws (n, acc ++ l).
  Proof.
    intros acc zs H. revert acc zs. induction H as [|w v ws l Hd _ IH]; intros acc zs Hz Hl Hn.
    - destruct zs; [|discriminate]. cbn in Hn. rewrite Nat.add_0_r in Hn. subst. constructor.
    - destruct zs as [|z zs]; [discriminate|]. inversion Hz; subst.
      econstructor; [cbn [fst]; apply Nat.ltb_lt; cbn [length]; lia| |].
      2:{ replace (acc ++ v :: l) with ((acc ++ [v]) ++ l) by (rewrite <- app_assoc; reflexivity).
          apply (IH (acc ++ [v]) zs); try assumption; [cbn in Hl; lia|rewrite app_length; cbn; lia]. }
      destruct (Hd z H1) as [F HF]. exists F. intro h. destruct (HF h) as (qs & ps & h1 & R & _ & B).
      exists qs, ps, h1. split; [exact R|]. intros f Hf. cbn [fst snd].
      rewrite nth_error_app2, Nat.sub_diag by lia. cbn [nth_error of_option bind].
      eapply follows_bind0; [apply B; lia|]. intro h2.
      replace (length (acc ++ [v])) with (S (length acc)) by (rewrite app_length; cbn; lia).
      replace (set_nth (acc ++ z :: zs) (length acc) v) with ((acc ++ [v]) ++ zs); [constructor|].
      clear. induction acc; cbn; [reflexivity|]. f_equal. assumption.
  Qed.

  Lemma good_entries k e om l : Forall (fun kv => good (fst kv) /\ good (snd kv)) l ->
    Forall (fun kv => typed tb k (fst kv) /\ typed tb e (snd kv)) l ->
    Forall (fun kv => survives x tb o omitempty om k (fst kv) /\ survives x tb o omitempty om e (snd kv)) l ->
    (drains = true -> no_text k = true) -> (drains = true -> no_text e = true) ->
    exists us ws,
      flat_map (fun kv => encode x tb omitempty true k (fst kv) ++ encode x tb omitempty true e (snd kv)) l
      = flat_map (fun kv => calls (fst kv) ++ calls (snd kv)) us
      /\ Forall2 (fun a b => shows (fst a) (fst b) /\ shows (snd a) (snd b)) us ws
      /\ Forall2 (fun w v => (forall z, zeroval x tb k z -> decodes k om z (fst w) (fst v))
                          /\ (forall z, zeroval x tb e z -> decodes e om z (snd w) (snd v))) ws l.
  Proof.
    intros HG HT HS Hk He. induction l as [|[a b] l IH].
    - exists [], []. repeat split; constructor.
    - inversion HG; inversion HT; inversion HS; subst. cbn [fst snd] in *.
      destruct IH as (us & ws & E & S & D); try assumption.
      destruct H1 as [Ga Gb], H5 as [Ta Tb], H9 as [Sa Sb].
      destruct (Ga k om) as (u & w & Eu & Sw & _ & Dw); try assumption.
      destruct (Gb e om) as (u' & w' & Eu' & Sw' & _ & Dw'); try assumption.
      exists ((u, u') :: us), ((w, w') :: ws). cbn [flat_map fst snd]. rewrite E, (Eu true), (Eu' true) by auto.
      repeat split; constructor; try split; assumption.
  Qed.

  Lemma map_steps k e om ws l zk ze : zeroval x tb k zk -> zeroval x tb e ze ->
    Forall2 (fun w v => (forall z, zeroval x tb k z -> decodes k om z (fst w) (fst v))
                     /\ (forall z, zeroval x tb e z -> decodes e om z (snd w) (snd v))) ws l -> forall acc,
    NoDup (map fst (acc ++ l)) ->
    steps (fun _ => true)
      (step2 (fun f m => bind (of_option (zero x tb f k)) (fun zk =>
                         bind (of_option (zero x tb f e)) (fun ze =>
                         bind (dec f om k zk) (fun key =>
                         bind (dec f om e ze) (fun v =>
                         match m with GoMap l => Ret (GoMap (go_assign key v l)) | _ => Crash end))))))
      (GoMap acc) ws (GoMap (acc ++ l)).
  Proof.
    intros Hzk Hze H. induction H as [|[wk wv] [a b] ws l [Hk Hv] _ IH]; intros acc HN; [rewrite app_nil_r; constructor|].
    cbn [fst snd] in *.
    assert (Eacc : acc ++ (a, b) :: l = (acc ++ [(a, b)]) ++ l) by (rewrite <- app_assoc; reflexivity).
    econstructor; [reflexivity| |].
    2:{ rewrite Eacc. apply IH. rewrite <- Eacc. exact HN. }
    destruct (Hk zk Hzk) as [F1 HF1]. destruct (Hv ze Hze) as [F2 HF2].
    destruct (of_zero k zk Hzk) as [F3 HF3]. destruct (of_zero e ze Hze) as [F4 HF4].
    exists (F1 + F2 + F3 + F4). intro h. destruct (HF1 h) as (qs & ps & h1 & R1 & N1 & B1).
    destruct (HF2 h1) as (qs' & ps' & h2 & R2 & _ & B2).
    exists qs, ps, h1, qs', ps', h2. cbn [fst snd]. split; [exact R1|]. split; [exact N1|]. split; [exact R2|].
    intros f Hf. rewrite HF3, HF4 by lia. cbn [bind].
    eapply follows_bind; [apply B1; lia|]. eapply follows_bind0; [apply B2; lia|]. intro h3.
    rewrite go_assign_new; [constructor|].
    rewrite map_app in HN. cbn in HN. apply NoDup_remove_2 in HN. rewrite in_app_iff in HN. tauto.
  Qed.

  (** ** structs *)
  Definition enc_fields := fix go (fs : list field) (l : list goval) {struct l} : list bop :=
    match fs, l with
    | d :: fs', y :: l' =>
        (if fl_skip d then []
         else if (omitempty || fl_omitempty d) && negb (not_empty (fl_type d) y) then []
         else OScalar (SString (fl_name d))
              :: encode x tb omitempty (negb (omitempty || fl_omitempty d)) (fl_type d) y) ++ go fs' l'
    | _, _ => []
    end.
  Lemma encode_struct cn i l : encode x tb omitempty cn (TyStruct i) (GoStruct l) =
    OStartMap :: enc_fields (fields_of tb i) l ++ [OEndMap].
  Proof. reflexivity. Qed.

  Lemma not_empty_iff t v : typed tb t v -> not_empty t v = true <-> ~ empty v.
  Proof.
    intro H. inversion H; subst; cbn; try (split; [intros _ []|reflexivity]).
    - destruct s; cbn; split; intuition congruence.
    - destruct b; cbn; split; intuition congruence.
    - destruct z; cbn; split; intuition congruence.
    - destruct n; cbn; split; intuition congruence.
    - unfold float_is_zero. destruct (N.eqb_spec n 0), (N.eqb_spec n (2 ^ 63)); cbn [orb negb]; split; intuition congruence.
    - destruct s; cbn; split; intuition congruence.
    - destruct t; try discriminate; cbn; split; intuition congruence.
    - destruct l; cbn; split; intuition congruence.
    - destruct l; cbn; split; intuition congruence.
  Qed.

  Definition struct_body (fs : list field) (f : nat) (s : goval) : prog Nd goval :=
    Call DString (fun key =>
    Call DTryNull (fun a =>
      if yes a then Ret s
      else match case_of (txt key) fs 0 with
           | Some (j, d) =>
               bind (of_option (nth_error (elems s) j)) (fun z =>
               bind (dec f (omitempty || fl_omitempty d) (fl_type d) z) (fun v =>
               Ret (GoStruct (set_nth (elems s) j v))))
           | None =>
               if strict then AddErr (Some (RUser 1)) (Ret s)
               else Call DSkip (fun _ => Ret s)
           end)).

  Lemma case_of_shift key fs : forall i, case_of key fs i = option_map (fun r => (i + fst r, snd r)) (case_of key fs 0).
  Proof.
    induction fs as [|d fs IH]; intro i; [reflexivity|]. cbn.
    destruct (negb (fl_skip d) && text_eqb key (fl_name d)); [cbn; do 2 f_equal; lia|].
    rewrite (IH (S i)), (IH 1). destruct (case_of key fs 0) as [[j d']|]; cbn; [|reflexivity]. do 2 f_equal. lia.
  Qed.

  Notation named := (filter (fun d => negb (fl_skip d))).

  Lemma case_of_ok pre d fs : fl_skip d = false -> NoDup (map fl_name (named (pre ++ d :: fs))) ->
    case_of (fl_name d) (pre ++ d :: fs) 0 = Some (length pre, d).
  Proof.
    intros Hd. induction pre as [|d' pre IH]; cbn [app case_of length filter]; intro HN.
    - rewrite Hd, text_eqb_refl. reflexivity.
    - destruct (fl_skip d') eqn:Es; cbn [negb andb map filter] in *.
      + rewrite case_of_shift, IH by exact HN. reflexivity.
      + inversion HN; subst. destruct (text_eqb (fl_name d) (fl_name d')) eqn:E.
        * apply text_eqb_eq in E. exfalso. apply H1. rewrite <- E. apply in_map.
          apply filter_In. split; [apply in_elt|]. rewrite Hd. reflexivity.
        * rewrite case_of_shift, IH by assumption. reflexivity.
  Qed.

  Lemma nth_error_here {A} (pre : list A) z zs : nth_error (pre ++ z :: zs) (length pre) = Some z.
  Proof. rewrite nth_error_app2, Nat.sub_diag by lia. reflexivity. Qed.
  Lemma set_nth_here {A} (pre : list A) z zs v : set_nth (pre ++ z :: zs) (length pre) v = pre ++ v :: zs.
  Proof. induction pre; cbn; [reflexivity|]. f_equal. assumption. Qed.

  Lemma typed_nil t : typed tb t GoNil -> nilable t = true.
  Proof. intro H. inversion H; assumption. Qed.
  Lemma nil_zero t z : typed tb t GoNil -> zeroval x tb t z -> z = GoNil.
  Proof. intros H Hz. apply typed_nil in H. inversion Hz; subst; try discriminate. reflexivity. Qed.

  Lemma good_fields all fs l : Forall good l -> Forall2 (fun d v => typed tb (fl_type d) v) fs l ->
    Forall2 (field_survives x tb o omitempty) fs l ->
    (drains = true -> Forall (fun d => no_text (fl_type d) = true) fs) ->
    NoDup (map fl_name (named all)) ->
    exists us ws, enc_fields fs l = flat_map (fun kv => calls (fst kv) ++ calls (snd kv)) us
      /\ Forall2 (fun a b => shows (fst a) (fst b) /\ shows (snd a) (snd b)) us ws
      /\ forall pre vpre zs, all = pre ++ fs -> length vpre = length pre ->
           Forall2 (fun d v => zeroval x tb (fl_type d) v) fs zs ->
           steps (fun _ => true) (step2 (struct_body all)) (GoStruct (vpre ++ zs)) ws (GoStruct (vpre ++ l)).
  Proof.
    intros HG HT HS Hn HN. induction HT as [|d v fs l Hv HT IH].
    - exists [], []. split; [reflexivity|]. split; [constructor|]. intros pre vpre zs _ _ Hz. inversion Hz. constructor.
    - inversion HG; inversion HS; subst.
      destruct IH as (us & ws & E & Sh & St); try assumption.
      { intro Hd. specialize (Hn Hd). inversion Hn; assumption. }
      assert (Hskip : zeroval x tb (fl_type d) v -> forall pre vpre zs, all = pre ++ d :: fs ->
        length vpre = length pre -> Forall2 (fun d v => zeroval x tb (fl_type d) v) (d :: fs) zs ->
        steps (fun _ => true) (step2 (struct_body all)) (GoStruct (vpre ++ zs)) ws (GoStruct (vpre ++ v :: l))).
      { intros Hz pre vpre zs Ha Hl Hzs. inversion Hzs; subst.
        match goal with Hy : zeroval _ _ (fl_type d) y |- _ => rewrite (zeroval_unique x tb _ _ _ Hz Hy) end.
        replace (vpre ++ y :: l) with ((vpre ++ [y]) ++ l) by (rewrite <- app_assoc; reflexivity).
        replace (vpre ++ y :: l') with ((vpre ++ [y]) ++ l') by (rewrite <- app_assoc; reflexivity).
        apply (St (pre ++ [d])); [rewrite <- app_assoc; reflexivity|rewrite !app_length; cbn; lia|assumption]. }
      cbn [enc_fields].
      match goal with Hf : field_survives _ _ _ _ d v |- _ => inversion Hf; subst end.
      + exists us, ws. rewrite H. split; [exact E|]. split; [exact Sh|]. apply Hskip. assumption.
      + exists us, ws. split; [|split; [exact Sh|apply Hskip; assumption]].
        destruct (fl_skip d); [exact E|]. rewrite H. destruct (not_empty (fl_type d) v) eqn:En; [|exact E].
        apply not_empty_iff in En; [|exact Hv]. contradiction.
      + destruct (H1 (fl_type d) (omitempty || fl_omitempty d)) as (u & w & Eu & Sw & Hnull & Dw); try assumption.
        { intro Hd. specialize (Hn Hd). inversion Hn; assumption. }
        exists ((VaScalar (SString (fl_name d)), u) :: us), ((TText (fl_name d), w) :: ws).
        split; [|split].
        * rewrite H0. cbn [flat_map fst snd calls]. rewrite <- E.
          destruct (omitempty || fl_omitempty d) eqn:Eo; cbn [andb negb].
          -- rewrite (proj2 (not_empty_iff _ _ Hv)) by auto. cbn [negb]. rewrite Eu; [reflexivity|].
             right. intros ->. apply H; [reflexivity|exact I].
          -- rewrite Eu by auto. reflexivity.
        * constructor; [|exact Sh]. cbn. split; [constructor|exact Sw].
        * intros pre vpre zs Ha Hl Hzs. inversion Hzs as [|d0 z fs0 zs0 Hz Hzs' E1 E2]. subst d0 fs0 zs.
          econstructor; [reflexivity| |].
          2:{ replace (vpre ++ v :: l) with ((vpre ++ [v]) ++ l) by (rewrite <- app_assoc; reflexivity).
              apply (St (pre ++ [d]) (vpre ++ [v]) zs0); [rewrite Ha, <- app_assoc; reflexivity|rewrite !app_length; cbn; lia|assumption]. }
          destruct (Dw z Hz) as [F HF]. exists F. intro h. destruct (HF h) as (qs & ps & h1 & R & _ & B).
          assert (Hcase : case_of (fl_name d) all 0 = Some (length vpre, d)).
          { rewrite Hl, Ha. apply case_of_ok; [assumption|]. rewrite <- Ha. exact HN. }
          assert (Hw : w = TNull \/ w <> TNull) by (destruct w; auto; right; discriminate).
          destruct Hw as [Hw|Hw].
          -- exists [QCall DString], [PAnswer (AText (fl_name d))], h, [QCall DTryNull], [PAnswer (ABool true)], h.
             cbn [fst snd]. rewrite Hw. split; [constructor|]. split; [exact I|]. split; [constructor|]. intros f Hf. cbn [app].
             unfold struct_body. do 2 (constructor; [exact I|]). cbn [yes].
             assert (z = v) as <-; [|rewrite <- app_assoc; constructor].
             apply Hnull in Hw. subst v. apply (nil_zero (fl_type d)); assumption.
          -- exists [QCall DString], [PAnswer (AText (fl_name d))], h, (QCall DTryNull :: qs), (PAnswer (ABool false) :: ps), h1.
             cbn [fst snd]. split; [constructor|]. split; [exact I|]. split; [constructor; assumption|].
             intros f Hf. cbn [app]. unfold struct_body. do 2 (constructor; [exact I|]). cbn [yes txt].
             rewrite Hcase. cbn [elems]. rewrite nth_error_here. cbn [of_option bind].
             eapply follows_bind0; [apply B; exact Hf|]. intro h2. rewrite set_nth_here, <- app_assoc. constructor.
  Qed.

  Lemma all_good v : good v.
  Proof.
    induction v using goval_ind'; intros t om HT HS Hn.
    - (* string *)
      inversion HT; subst. exists (VaScalar (SString s)), (TText s).
      split; [reflexivity|]. split; [constructor|]. split; [split; discriminate|]. intros z Hz.
      eapply (decodes_scalar _ _ _ _ _ DString (AText s)); [intro; constructor|discriminate|exact I|].
      intro f. eexists. split; [reflexivity|]. intro; constructor.
    - inversion HT; subst. exists (VaScalar (SBool b)), (TText (sc_from_boolean b)).
      split; [reflexivity|]. split; [constructor|]. split; [split; discriminate|]. intros z Hz.
      eapply (decodes_scalar _ _ _ _ _ DBoolean (ABool b)); [intro; constructor; apply boolean_round_trip|discriminate|exact I|].
      intro f. eexists. split; [reflexivity|]. intro; constructor.
    - inversion HT; subst. exists (VaScalar (SInt z)), (TText (sc_from_integer z)).
      split; [reflexivity|]. split; [constructor|]. split; [split; discriminate|]. intros z' Hz.
      match goal with Hb : (1 <= ?b)%N |- _ => destruct (from_integer_roundtrip z b Hb) as (_ & Hi & Hr) end.
      match goal with Hf : fits_int _ _ = true |- _ => rewrite Hf in Hr end.
      eapply (decodes_scalar _ _ _ _ _ (DInteger bits) (AInt z)); [intro; constructor; assumption|discriminate|exact I|].
      intro f. eexists. split; [reflexivity|]. intro; constructor.
    - inversion HT; subst. exists (VaScalar (SUint n)), (TText (sc_from_unsigned n)).
      split; [reflexivity|]. split; [constructor|]. split; [split; discriminate|]. intros z' Hz.
      destruct (from_unsigned_roundtrip n bits) as (_ & _ & Hi & Hr).
      match goal with Hf : fits_uint _ _ = true |- _ => rewrite Hf in Hr end.
      eapply (decodes_scalar _ _ _ _ _ (DUnsigned bits) (AUint n)); [intro; constructor; assumption|discriminate|exact I|].
      intro f. eexists. split; [reflexivity|]. intro; constructor.
    - inversion HT; subst. inversion HS; subst; [contradiction|].
      exists (VaScalar (SFloat (x_float x n))), (TText (x_float x n)).
      split; [reflexivity|]. split; [constructor; assumption|]. split; [split; discriminate|]. intros z' Hz.
      eapply (decodes_scalar _ _ _ _ _ (DFloat bits) (AFloat n)); [intro; constructor; assumption|discriminate|exact I|].
      intro f. eexists. split; [reflexivity|]. intro; constructor.
    - (* text methods *)
      inversion HT; subst. inversion HS; subst; [contradiction|].
      exists (VaRawText s), (TText s).
      split; [intros; cbn; match goal with Hm : x_marshal _ _ _ = _ |- _ => rewrite Hm end; reflexivity|].
      split; [constructor|]. split; [split; discriminate|]. intros z' Hz.
      eapply (decodes_scalar _ _ _ _ _ DString (AText s)); [intro; constructor|discriminate|exact I|].
      intro f. eexists. split; [reflexivity|]. intro h. cbn beta. cbn [txt].
      match goal with Hm : x_unmarshal _ _ _ = _ |- _ => rewrite Hm end.
      constructor; [|constructor]. destruct drains; [|reflexivity]. discriminate (Hn eq_refl).
    - (* bytes *)
      inversion HT; subst. exists (VaScalar (SString s)), (TText s).
      split; [reflexivity|]. split; [constructor|]. split; [split; discriminate|]. intros z Hz.
      exists 1. intro h. exists [QCall DTryNull; QCall DString], [PAnswer (ABool false); PAnswer (AText s)], h.
      split; [constructor; [discriminate|constructor]|]. split; [exact I|].
      intros [|f] Hf; [lia|]. cbn. repeat (constructor; try exact I).
    - (* nil *)
      pose proof (typed_nil t HT) as Hnil.
      exists VaNull, TNull. split; [intros cn [->|[]]; [|reflexivity]; destruct t; try discriminate; reflexivity|].
      split; [constructor|]. split; [split; reflexivity|]. intros z Hz. apply decodes_nil. exact Hnil.
    - (* slice *)
      inversion HT; subst. inversion HS; subst; [contradiction|].
      destruct (good_items e om l) as (us & ws & E & Sh & D); try assumption.
      exists (VaSeq us), (TSeq ws). split; [intros; cbn; rewrite <- E; reflexivity|].
      split; [constructor; exact Sh|]. split; [split; discriminate|]. intros z Hz.
      destruct l as [|v l].
      + inversion D; subst. exists 2. intro h.
        exists [QCall DTryNull; QCall DSequence; QSize h; QMore h],
          [PAnswer (ABool false); PAnswer (AColl CollNoop); PSize 0; PMore false], (S h).
        split; [constructor; [discriminate|apply R_seq; constructor]|]. split; [exact I|].
        intros [|[|f]] Hf; try lia. cbn. repeat (constructor; try exact I).
      + match goal with Hf : Forall (typed tb e) _ |- _ => inversion Hf; subst end.
        destruct (typed_zero x tb v e) as [ze Hze]; [assumption|].
        destruct (loop_items _ _ _ _ _ (slice_steps e om ws (v :: l) ze Hze D [])) as [F HF].
        exists (S F). intro h. destruct (HF h (S h)) as (qs & ps & h' & R & B).
        exists (QCall DTryNull :: QCall DSequence :: QSize h :: qs),
          (PAnswer (ABool false) :: PAnswer (AColl CollNoop) :: PSize (length ws) :: ps), h'.
        split; [constructor; [discriminate|apply R_seq; exact R]|]. split; [exact I|].
        intros [|f] Hf; [lia|]. cbn [decode]. constructor; [exact I|]. cbn [yes]. constructor. constructor.
        eapply follows_bind0; [apply B; lia|]. intro; constructor.
    - (* array *)
      inversion HT; subst. inversion HS; subst; [contradiction|].
      destruct (good_items e om l) as (us & ws & E & Sh & D); try assumption.
      exists (VaSeq us), (TSeq ws). split; [intros; cbn; rewrite <- E; reflexivity|].
      split; [constructor; exact Sh|]. split; [split; discriminate|]. intros z Hz.
      inversion Hz as [| | | | | |t0 Hnil|e0 zs HZ El|]; subst; [discriminate|].
      destruct (loop_items _ _ _ _ _ (array_steps e om ws l (length l) [] zs D HZ El eq_refl)) as [F HF]. cbn [length app] in HF.
      exists (S F). intro h. destruct (HF h (S h)) as (qs & ps & h' & R & B).
      exists (QCall DTryNull :: QCall DSequence :: QSize h :: qs),
        (PAnswer (ABool false) :: PAnswer (AColl CollNoop) :: PSize (length ws) :: ps), h'.
      split; [constructor; [discriminate|apply R_seq; exact R]|]. split; [exact I|].
      intros [|f] Hf; [lia|]. cbn [decode]. constructor; [exact I|]. cbn [yes]. constructor. apply FO_extra.
      rewrite ?El. cbn [elems]. eapply follows_bind0; [apply B; lia|]. intro; constructor.
    - (* pointer *)
      inversion HT; subst. inversion HS; subst; [contradiction|].
      destruct (IHv e om) as (u & w & Eu & Sw & Hnull & Dw); try assumption.
      assert (Hv : v <> GoNil) by (intros ->; match goal with Hx : ~ null_like GoNil |- _ => apply Hx; exact I end).
      exists u, w. split; [intros; cbn; apply Eu; auto|]. split; [exact Sw|].
      split; [split; [intro Hw; apply Hnull in Hw; contradiction|discriminate]|]. intros z Hz.
      destruct (typed_zero x tb v e) as [ze Hze]; [assumption|].
      destruct (of_zero e ze Hze) as [F1 HF1]. destruct (Dw ze Hze) as [F2 HF2].
      exists (S (F1 + F2)). intro h. destruct (HF2 h) as (qs & ps & h' & R & _ & B).
      exists (QCall DTryNull :: qs), (PAnswer (ABool false) :: ps), h'.
      split; [constructor; [intro Hw; apply Hnull in Hw; contradiction|exact R]|]. split; [exact I|].
      intros [|f] Hf; [lia|]. cbn [decode]. constructor; [exact I|]. cbn [yes].
      inversion Hz; subst. rewrite HF1 by lia. cbn [bind]. eapply follows_bind0; [apply B; lia|]. intro; constructor.
    - (* map *)
      inversion HT; subst. inversion HS; subst; [contradiction|].
      destruct (good_entries k e om l) as (us & ws & E & Sh & D); try assumption;
        try (intro Hd; specialize (Hn Hd); cbn in Hn; apply andb_prop in Hn; tauto).
      exists (VaMap us), (TMap ws). split; [intros; cbn; rewrite <- E; reflexivity|].
      split; [constructor; exact Sh|]. split; [split; discriminate|]. intros z Hz.
      assert (Hl : length ws = length l) by (clear - D; induction D; cbn; congruence).
      destruct l as [|[k0 v] l].
      + inversion D; subst. exists 2. intro h.
        exists [QCall DTryNull; QCall DMapping; QSize h; QMore h],
          [PAnswer (ABool false); PAnswer (AColl CollNoop); PSize (ms 0); PMore false], (S h).
        split; [constructor; [discriminate|apply (R_map o ms val h []); constructor]|]. split; [exact I|].
        intros [|[|f]] Hf; try lia. cbn. repeat (constructor; try exact I).
        destruct om; [exfalso; match goal with Hx : true = true -> _ |- _ => apply Hx; reflexivity end|].
        cbn. constructor.
      + match goal with Hf : Forall (fun kv => typed tb k _ /\ typed tb e _) _ |- _ => inversion Hf as [|? ? [Htk Htv] Htl]; subst end.
        destruct (typed_zero x tb k0 k) as [zk Hzk]; [assumption|].
        destruct (typed_zero x tb v e) as [ze Hze]; [assumption|].
        destruct (loop_entries _ _ _ _ _ (map_steps k e om ws ((k0, v) :: l) zk ze Hzk Hze D [] ltac:(assumption))) as [F HF].
        exists (S F). intro h. destruct (HF h (S h)) as (qs & ps & h' & R & B).
        exists (QCall DTryNull :: QCall DMapping :: QSize h :: qs),
          (PAnswer (ABool false) :: PAnswer (AColl CollNoop) :: PSize (ms (length ws)) :: ps), h'.
        split; [constructor; [discriminate|apply R_map; exact R]|]. split; [exact I|].
        intros [|f] Hf; [lia|]. cbn [decode]. constructor; [exact I|]. cbn [yes]. constructor. constructor.
        assert (En : (ms (length ws) =? 0) = false).
        { apply Nat.eqb_neq. intro Hx. apply Hms in Hx. rewrite Hl in Hx. discriminate. }
        rewrite En, andb_false_r. apply B; lia.
    - (* struct *)
      inversion HT; subst. inversion HS; subst; [contradiction|].
      match goal with H1 : nth_error tb i = Some fs, H2 : nth_error tb i = Some fs0 |- _ =>
        assert (fs0 = fs) as -> by congruence; rename H1 into HN end.
      assert (Hfs : fields_of tb i = fs) by (apply nth_error_nth; exact HN).
      destruct (good_fields fs fs l) as (us & ws & E & Sh & St); try assumption.
      { intro Hd. specialize (Htexts Hd). unfold no_texts in Htexts. rewrite Forall_forall in Htexts.
        apply Htexts. eapply nth_error_In; eassumption. }
      exists (VaMap us), (TMap ws). split; [intros; rewrite encode_struct, Hfs, E; reflexivity|].
      split; [constructor; exact Sh|]. split; [split; discriminate|]. intros z Hz.
      inversion Hz as [| | | | | |t0 Hnil| |i0 fs1 zs HN' HZ]; subst; [discriminate|].
      assert (fs1 = fields_of tb i) as -> by (symmetry; apply nth_error_nth; exact HN').
      destruct (loop_entries _ _ _ _ _ (St [] [] zs eq_refl eq_refl HZ)) as [F HF]. cbn [app] in HF.
      exists (S F). intro h. destruct (HF h (S h)) as (qs & ps & h' & R & B).
      exists (QCall DTryNull :: QCall DMapping :: QSize h :: qs),
        (PAnswer (ABool false) :: PAnswer (AColl CollNoop) :: PSize (ms (length ws)) :: ps), h'.
      split; [constructor; [discriminate|apply R_map; exact R]|]. split; [exact I|].
      intros [|f] Hf; [lia|]. cbn [decode]. constructor; [exact I|]. cbn [yes bind]. constructor. apply FO_extra.
      apply (B f f); lia.
  Qed.

  (** The same for the generated function of the target type. *)
  Lemma top_good t v z : typed tb t v -> survives x tb o omitempty omitempty t v ->
    (drains = true -> no_text t = true) -> zeroval x tb t z ->
    exists u w, encode_top x tb omitempty t v = calls u /\ shows u w /\
      exists qs ps h' F, rd 0 w qs ps h' /\ forall f, F <= f -> fol (decode_top x tb omitempty strict f t z) 0 qs ps h' v.
  Proof.
    intros HT HS Hn Hz. destruct (all_good v t omitempty HT HS Hn) as (u & w & E & Sh & Hnull & D).
    exists u, w. split; [apply E; auto|]. split; [exact Sh|].
    destruct (D z Hz) as [F HF]. destruct (HF 0) as (qs & ps & h' & R & _ & B).
    assert (Ht : (exists i, t = TyStruct i) \/ forall f, decode_top (Nd := Nd) x tb omitempty strict f t z =
      Call DTryNull (fun a => if yes a then Ret z else dec f omitempty t z)).
    { destruct t; try (right; reflexivity). left. eexists; reflexivity. }
    destruct Ht as [[i ->]|Ht].
    - exists qs, ps, h', F. split; [exact R|]. exact B.
    - assert (Hw : w = TNull \/ w <> TNull) by (destruct w; auto; right; discriminate).
      destruct Hw as [Hw|Hw].
      + assert (v = GoNil) as -> by (apply Hnull; exact Hw). rewrite (nil_zero t z) in * by assumption.
        exists [QCall DTryNull], [PAnswer (ABool true)], 0, 0. rewrite Hw. split; [constructor|].
        intros f _. rewrite Ht. constructor; [exact I|]. constructor.
      + exists (QCall DTryNull :: qs), (PAnswer (ABool false) :: ps), h', F. split; [constructor; assumption|].
        intros f Hf. rewrite Ht. constructor; [exact I|]. cbn [yes]. apply B. exact Hf.
  Qed.
End Main.
