(** Proofs about the command. *)
From Coq Require Import String ZifyBool ZifyNat ZifyN.
From Verif Require Import Base Generator Command CommandSpec.
Local Open Scope N_scope.

(** ** Names *)
Section Snake.
  Context (up lo : rune -> bool) (low : rune -> rune).
  Let round := snake_round up lo low.

  (** The loop as a function of what is left. *)
  Fixpoint rest_of (prev cur : rune) (src : text) : text :=
    match src with
    | [] => (if up cur && lo prev && negb (prev =? 0) then [95] else []) ++ [low cur]
    | next :: src' =>
        (if cur =? 95 then (if negb (prev =? 95) then [95] else [])
         else if up cur then (if lo prev || (up prev && lo next) then [95] else []) ++ [low cur]
         else if negb (cur =? 0) then [low cur] else []) ++ rest_of cur next src'
    end.
  Lemma loop_rest src : forall buf prev cur,
    (let '(b, p, c) := fold_left round src (buf, prev, cur) in
     (if up c && lo p && negb (p =? 0) then b ++ [95] else b) ++ [low c]) = buf ++ rest_of prev cur src.
  Proof.
    induction src as [|n src IH]; intros buf prev cur.
    - cbn. destruct (up cur && lo prev && negb (prev =? 0)); [rewrite <- app_assoc|]; reflexivity.
    - cbn [fold_left rest_of]. unfold round at 2. unfold snake_round. rewrite IH. rewrite app_assoc. f_equal.
      destruct (cur =? 95); [destruct (prev =? 95); cbn; rewrite ?app_nil_r; reflexivity|].
      destruct (up cur).
      + destruct (lo prev || (up prev && lo n)); rewrite <- ?app_assoc; reflexivity.
      + destruct (cur =? 0); cbn; rewrite ?app_nil_r; reflexivity.
  Qed.
  Hypothesis zero_up : up 0 = false.
  Lemma snake_rest c src : to_snake_case up lo low (c :: src) = rest_of 0 c src.
  Proof.
    transitivity (([] : text) ++ rest_of 0 0 (c :: src)); [rewrite <- loop_rest; reflexivity|].
    cbn [rest_of app]. rewrite zero_up. reflexivity.
  Qed.

  Lemma rest_letters (low95 : forall c, low c = 95 <-> c = 95) src : forall prev cur, ~ In 0 src -> cur <> 0 ->
    filter (fun c => negb (c =? 95)) (rest_of prev cur src) = map low (filter (fun c => negb (c =? 95)) (cur :: src)).
  Proof.
    assert (L : forall c, c =? 95 = false -> low c =? 95 = false)
      by (intros c H; apply N.eqb_neq; rewrite low95; apply N.eqb_neq; exact H).
    assert (M : forall c, c =? 95 = true -> low c =? 95 = true) by (intros c H; apply N.eqb_eq; rewrite low95; apply N.eqb_eq; exact H).
    induction src as [|n src IH]; intros prev cur Z C.
    - cbn. rewrite filter_app. destruct (up cur && lo prev && negb (prev =? 0)); cbn; destruct (cur =? 95) eqn:E; cbn;
        try rewrite (M _ E); try rewrite (L _ E); reflexivity.
    - cbn [rest_of]. rewrite filter_app, IH; [|intro; apply Z; right; assumption|intro; apply Z; left; assumption].
      assert (E : cur =? 0 = false) by lia. rewrite E. cbn [negb].
      change (filter (fun c => negb (c =? 95)) (cur :: n :: src)) with
        ((if negb (cur =? 95) then cur :: filter (fun c => negb (c =? 95)) (n :: src) else filter (fun c => negb (c =? 95)) (n :: src))).
      destruct (cur =? 95) eqn:K; cbn [negb].
      + destruct (prev =? 95); reflexivity.
      + destruct (up cur); [destruct (lo prev || (up prev && lo n))|]; cbn -[rest_of]; rewrite (L _ K); reflexivity.
  Qed.
  Lemma snake_letters (low95 : forall c, low c = 95 <-> c = 95) s : ~ In 0 s ->
    filter (fun c => negb (c =? 95)) (to_snake_case up lo low s) = map low (filter (fun c => negb (c =? 95)) s).
  Proof.
    destruct s as [|c s]; [reflexivity|]. intro Z. rewrite snake_rest. apply rest_letters; [exact low95| |].
    - intro; apply Z; right; assumption.
    - intro; apply Z; left; assumption.
  Qed.
  Lemma snake_no_upper (lowers : forall c, up (low c) = false) (u95 : up 95 = false) s : Forall (fun c => up c = false) (to_snake_case up lo low s).
  Proof.
    destruct s as [|c s]; [constructor|]. rewrite snake_rest. generalize 0 as prev. revert c.
    induction s as [|n s IH]; intros c prev.
    - cbn. destruct (up c && lo prev && negb (prev =? 0)); repeat constructor; auto.
    - cbn [rest_of]. apply Forall_app. split; [|apply IH].
      destruct (c =? 95); [destruct (prev =? 95); repeat constructor; auto|].
      destruct (up c); [|destruct (c =? 0); repeat constructor; auto].
      destruct (lo prev || (up prev && lo n)); repeat constructor; auto.
  Qed.

  (** Words *)
  Definition starts (prev cur : rune) (src : text) : bool :=
    up cur && (lo prev || (up prev && match src with d :: _ => lo d | [] => false end)).
  Fixpoint words (cur : rune) (src : text) : list text :=
    match src with
    | [] => [[cur]]
    | n :: src' =>
        if starts cur n src' then [cur] :: words n src'
        else match words n src' with w :: ws => (cur :: w) :: ws | [] => [[cur]] end
    end.
  Lemma words_some cur src : exists w ws, words cur src = (cur :: w) :: ws /\ concat ((cur :: w) :: ws) = cur :: src.
  Proof.
    revert cur. induction src as [|n src IH]; intro cur.
    - exists [], []. split; reflexivity.
    - destruct (IH n) as (w & ws & E & C). cbn [words]. rewrite E. destruct (starts cur n src).
      + exists [], ((n :: w) :: ws). split; [reflexivity|]. cbn in *. rewrite C. reflexivity.
      + exists (n :: w), ws. split; [reflexivity|]. cbn in *. rewrite C. reflexivity.
  Qed.
  Lemma words_full cur src : Forall (fun w => w <> []) (words cur src).
  Proof.
    revert cur. induction src as [|n src IH]; intro cur.
    - repeat constructor. discriminate.
    - cbn [words]. specialize (IH n). destruct (words_some n src) as (w & ws & E & _). rewrite E in *.
      destruct (starts cur n src); [constructor; [discriminate|exact IH]|inversion IH; constructor; [discriminate|assumption]].
  Qed.
  Lemma break_cons x l r : l <> [] -> word_break up lo (x :: l) r <-> word_break up lo l r.
  Proof.
    intro L. split; intros (l' & p & c & r' & E & R).
    - destruct l' as [|y l']; inversion E; subst; [congruence|]. exists l', p, c, r'. split; [reflexivity|exact R].
    - exists (x :: l'), p, c, r'. split; [rewrite E; reflexivity|exact R].
  Qed.
  Lemma break_one x n r : word_break up lo [x] (n :: r) <-> starts x n r = true.
  Proof.
    unfold starts. split.
    - intros (l & p & c & r' & E & R & U & H). inversion R; subst c r'. destruct l as [|? [|]]; inversion E; subst.
      rewrite U. destruct H as [->|(-> & d & r' & -> & ->)]; [reflexivity|]. apply orb_true_r.
    - intro H. apply andb_prop in H as [U H]. exists [], x, n, r. repeat split; auto.
      apply orb_prop in H as [H|H]; [left; exact H|right]. apply andb_prop in H as [P D]. split; [exact P|].
      destruct r as [|d r']; [discriminate D|]. exists d, r'. auto.
  Qed.
  Lemma words_breaks src : forall cur before after, before <> [] -> after <> [] -> before ++ after = cur :: src ->
    ((exists ws1 ws2, words cur src = ws1 ++ ws2 /\ concat ws1 = before) <-> word_break up lo before after).
  Proof.
    induction src as [|n src IH]; intros cur before after B A E.
    - destruct before as [|x [|y before]]; [congruence| |]; inversion E; subst; congruence.
    - destruct before as [|x before]; [congruence|]. cbn in E. injection E as -> E.
      destruct (words_some n src) as (w & ws & W & C). pose proof (words_full n src) as F.
      destruct before as [|y before].
      + cbn in E. subst after. rewrite break_one. cbn [words]. destruct (starts cur n src) eqn:S.
        * split; [reflexivity|]. intros _. exists [[cur]], (words n src). split; reflexivity.
        * split; [|discriminate]. rewrite W. intros (ws1 & ws2 & H & K). exfalso.
          destruct ws1 as [|v ws1]; [discriminate K|]. inversion H; subst v. discriminate K.
      + rewrite break_cons by discriminate. rewrite <- (IH n (y :: before) after); [|discriminate|exact A|exact E].
        cbn [words]. destruct (starts cur n src).
        * split; intros (ws1 & ws2 & H & K).
          -- destruct ws1 as [|v ws1]; [discriminate K|]. injection H as <- H. injection K as K. exists ws1, ws2. split; assumption.
          -- exists ([cur] :: ws1), ws2. rewrite H. cbn. rewrite K. split; reflexivity.
        * rewrite W. split; intros (ws1 & ws2 & H & K).
          -- destruct ws1 as [|v ws1]; [discriminate K|]. injection H as <- H. exists ((n :: w) :: ws1), ws2. rewrite H.
             split; [reflexivity|]. cbn in *. injection K as K. subst. reflexivity.
          -- destruct ws1 as [|v ws1]; [discriminate K|]. injection H as <- H. exists ((cur :: n :: w) :: ws1), ws2. rewrite H.
             split; [reflexivity|]. cbn in *. rewrite K. reflexivity.
  Qed.
  Hypothesis zero_lo : lo 0 = false.
  Lemma joined_words src : forall prev cur, ~ In 95 (cur :: src) -> ~ In 0 (cur :: src) ->
    rest_of prev cur src = (if starts prev cur src then [95] else []) ++ joined 95 (map (map low) (words cur src)).
  Proof.
    induction src as [|n src IH]; intros prev cur U Z.
    - cbn. unfold starts. rewrite andb_false_r, orb_false_r. destruct (up cur) eqn:E; cbn; [|reflexivity].
      destruct (prev =? 0) eqn:P; [|rewrite andb_true_r; reflexivity].
      apply N.eqb_eq in P. subst. rewrite zero_lo. reflexivity.
    - cbn [rest_of]. assert (cur =? 95 = false /\ cur =? 0 = false) as [-> ->].
      { split; apply N.eqb_neq; intros ->; [apply U|apply Z]; left; reflexivity. }
      rewrite IH; [|intro H; apply U; right; exact H|intro H; apply Z; right; exact H]. cbn [words].
      destruct (words_some n src) as (w & ws & W & C). rewrite W.
      replace (if up cur then (if lo prev || (up prev && lo n) then [95] else []) ++ [low cur] else if negb false then [low cur] else [])
        with ((if starts prev cur (n :: src) then [95] else []) ++ [low cur]).
      2:{ unfold starts. destruct (up cur); reflexivity. }
      rewrite <- app_assoc. f_equal. destruct (starts cur n src).
      + reflexivity.
      + cbn. destruct ws; reflexivity.
  Qed.
  Lemma snake_words s : ~ In 95 s -> ~ In 0 s -> exists ws, words_of up lo s ws /\ to_snake_case up lo low s = joined 95 (map (map low) ws).
  Proof.
    destruct s as [|c s]; intros U Z.
    - exists []. split; [|reflexivity]. split; [reflexivity|]. split; [constructor|]. intros l r L R E.
      destruct l; [congruence|discriminate E].
    - exists (words c s). split.
      + split; [|split; [apply words_full|intros l r; apply words_breaks]]. destruct (words_some c s) as (w & ws & W & C). rewrite W. exact C.
      + rewrite snake_rest, joined_words by assumption. unfold starts. rewrite zero_lo, zero_up. rewrite andb_false_r. reflexivity.
  Qed.
End Snake.

(** ** Import paths *)
Lemma path_eqb_eq a b : path_eqb a b = true <-> a = b.
Proof.
  revert b. induction a as [|x a IH]; intros [|y b]; cbn; split; intro H; try discriminate; try reflexivity.
  - apply andb_prop in H as [H1 H2]. apply text_eqb_eq in H1. apply IH in H2. congruence.
  - inversion H; subst. rewrite text_eqb_refl. apply IH. reflexivity.
Qed.
Lemma trim_below root rel : trim_path root (root ++ rel) = rel.
Proof.
  unfold trim_path. rewrite firstn_app, Nat.sub_diag, firstn_all, firstn_O, app_nil_r, (proj2 (path_eqb_eq root root) eq_refl).
  rewrite skipn_app, Nat.sub_diag, skipn_all. reflexivity.
Qed.
Lemma rel_below base rel : path_rel base (base ++ rel) = rel.
Proof. induction base as [|x base IH]; cbn; [reflexivity|]. rewrite text_eqb_refl. exact IH. Qed.

Section Paths.
  Context (unquote : text -> option text) (m : machine) (gopath : list path).
  (** What the two questions are answered with, without the cache. *)
  Definition gomod_at (dir : path) : path := match gomod_of m dir with Some p => p | None => [] end.
  Definition module_at (f : path) : text := match text_of m f with Some data => module_path unquote data | None => [] end.
  (** The cache knows right answers, and directories of the set D only as directories. *)
  Definition right (D : path -> Prop) (c : cache) : Prop :=
    forall k, match cache_get k c with
              | Some (CachedFile p) => D k /\ p = gomod_at k
              | Some (CachedModule s) => ~ D k /\ s = module_at k
              | None => True
              end.
  Definition answer (dir : path) : option (text * path) := fst (find_pkg_path unquote m gopath dir []).
  Lemma cached_answer (D : path -> Prop) (apart : forall dir, D dir -> ~ D (gomod_at dir)) dir c : D dir -> right D c ->
    fst (find_pkg_path unquote m gopath dir c) = answer dir /\ right D (snd (find_pkg_path unquote m gopath dir c)).
  Proof.
    intros Hd Hc. unfold answer, find_pkg_path, get_gomod_path. cbn [cache_get]. fold (gomod_at dir).
    assert (exists c', (match cache_get dir c with
                        | Some (CachedFile p) => (p, c)
                        | Some (CachedModule s) => ([s], c)
                        | None => (gomod_at dir, (dir, CachedFile (gomod_at dir)) :: c) end) = (gomod_at dir, c') /\ right D c') as (c' & -> & Hc').
    { pose proof (Hc dir) as H. destruct (cache_get dir c) as [[p|s]|] eqn:E.
      - destruct H as [_ ->]. eauto.
      - destruct H as [H _]. contradiction.
      - eexists. split; [reflexivity|]. intro k. cbn [cache_get]. destruct (path_eqb k dir) eqn:K; [|apply Hc].
        apply path_eqb_eq in K. subst k. auto. }
    destruct (is_gomod_file (gomod_at dir)) eqn:G; [|split; [reflexivity|exact Hc']].
    unfold pkg_path_from_gomod.
    assert (get_module_path unquote m (gomod_at dir) [(dir, CachedFile (gomod_at dir))]
      = (module_at (gomod_at dir), [(gomod_at dir, CachedModule (module_at (gomod_at dir))); (dir, CachedFile (gomod_at dir))])) as ->.
    { unfold get_module_path. cbn [cache_get]. destruct (path_eqb (gomod_at dir) dir) eqn:K; [|reflexivity].
      apply path_eqb_eq in K. exfalso. apply (apart dir Hd). rewrite K. exact Hd. }
    assert (exists c'', get_module_path unquote m (gomod_at dir) c' = (module_at (gomod_at dir), c'') /\ right D c'') as (c'' & -> & Hc'').
    { unfold get_module_path. pose proof (Hc' (gomod_at dir)) as H. destruct (cache_get (gomod_at dir) c') as [[p|s]|] eqn:E.
      - destruct H as [H _]. exfalso. exact (apart dir Hd H).
      - destruct H as [_ ->]. eauto.
      - eexists. split; [reflexivity|]. intro k. cbn [cache_get]. destruct (path_eqb k (gomod_at dir)) eqn:K; [|apply Hc'].
        apply path_eqb_eq in K. subst k. auto. }
    destruct (module_at (gomod_at dir)); split; try reflexivity; exact Hc''.
  Qed.
  (** a series of questions *)
  Fixpoint ask (dirs : list path) (c : cache) : list (option (text * path)) :=
    match dirs with [] => [] | dir :: dirs' => let '(a, c) := find_pkg_path unquote m gopath dir c in a :: ask dirs' c end.
  Lemma asked dirs : (forall dir, In dir dirs -> ~ In (gomod_at dir) dirs) -> ask dirs [] = map answer dirs.
  Proof.
    intro A. assert (right (fun d => In d dirs) []) as R by (intro k; exact I).
    assert (forall l c, incl l dirs -> right (fun d => In d dirs) c -> ask l c = map answer l) as H.
    { induction l as [|d l IH]; intros c I C; [reflexivity|]. cbn [ask map].
      destruct (cached_answer (fun d => In d dirs) A d c (I d (or_introl eq_refl)) C) as [E F].
      destruct (find_pkg_path unquote m gopath d c) as [a c']. cbn in E, F. rewrite E, IH; [reflexivity| |exact F].
      intros x Hx. apply I. right. exact Hx. }
    apply H; [apply incl_refl|exact R].
  Qed.
  Lemma module_answer root rel data mp : gomod_of m (root ++ rel) = Some (root ++ [t' "go.mod"]) ->
    text_of m (root ++ [t' "go.mod"]) = Some data -> module_path unquote data = mp -> mp <> [] -> rel <> [t' "go.mod"] ->
    answer (root ++ rel) = Some (mp, rel).
  Proof.
    intros G T M N R. unfold answer, find_pkg_path, get_gomod_path. cbn [cache_get]. rewrite G.
    assert (is_gomod_file (root ++ [t' "go.mod"]) = true) as -> by (unfold is_gomod_file; rewrite existsb_app; cbn; apply orb_true_r).
    unfold pkg_path_from_gomod, get_module_path. cbn [cache_get].
    assert (path_eqb (root ++ [t' "go.mod"]) (root ++ rel) = false) as ->.
    { destruct (path_eqb (root ++ [t' "go.mod"]) (root ++ rel)) eqn:K; [|reflexivity]. apply path_eqb_eq in K. apply app_inv_head in K. congruence. }
    rewrite T, M. destruct mp; [congruence|]. unfold path_dir. rewrite removelast_last, trim_below. reflexivity.
  Qed.
End Paths.

Lemma gopath_answer p rest rel : (match rel with x :: _ => x <> t' ".." | [] => True end) ->
  pkg_path_from_gopath (p :: rest) (p ++ t' "src" :: rel) = Some (removelast rel).
Proof.
  intro R. cbn [pkg_path_from_gopath]. replace (p ++ t' "src" :: rel) with ((p ++ [t' "src"]) ++ rel) by (rewrite <- app_assoc; reflexivity).
  rewrite rel_below. assert (leaves rel = false) as ->; [|reflexivity].
  destruct rel as [|x [|y rel]]; [reflexivity..|]. cbn. destruct (text_eqb x (t' "..")) eqn:E; [|exact E].
  apply text_eqb_eq in E. contradiction.
Qed.

Lemma last_name n l : forall a, (l <> [] \/ a = n) -> Forall (eq n) l -> fold_left (fun (_ name : text) => name) l a = n.
Proof.
  induction l as [|x l IH]; intros a A F.
  - destruct A; [congruence|assumption].
  - inversion F; subst. apply IH; auto.
Qed.

(** ** The bootstrap *)
Lemma put_same n x d : put n x d n = Some x.
Proof. unfold put. rewrite text_eqb_refl. reflexivity. Qed.
Lemma put_other n x d k : k <> n -> put n x d k = d k.
Proof. intro H. unfold put. destruct (text_eqb k n) eqn:E; [apply text_eqb_eq in E; contradiction|reflexivity]. Qed.
Lemma del_other n d k : k <> n -> del n d k = d k.
Proof. intro H. unfold del. destruct (text_eqb k n) eqn:E; [apply text_eqb_eq in E; contradiction|reflexivity]. Qed.
Lemma del_same n d : del n d n = None.
Proof. unfold del. rewrite text_eqb_refl. reflexivity. Qed.
Lemma longer (a b : text) : b <> [] -> a ++ b <> a.
Proof. intros H E. rewrite <- (app_nil_r a) in E at 2. apply app_inv_head in E. contradiction. Qed.

(** The names of the files that the bootstrap makes. *)
Definition made (w : world) (o : gen_options) : list text :=
  op_output o :: (op_output o ++ t' ".tmp") :: match w_temp w with Some src => [src; src ++ t' ".go"] | None => [] end.
Lemma bootstrap_made quote w o d : same_but (made w o) d (fst (bootstrap quote w o d)).
Proof.
  intros n N. unfold made in N. unfold bootstrap, removes, writes.
  assert (n <> op_output o) by (intro; apply N; left; congruence).
  assert (n <> op_output o ++ t' ".tmp") by (intro; apply N; right; left; congruence).
  destruct (w_create_stub w); cbn [negb]; [|reflexivity].
  destruct (w_temp w) as [src|]; [|cbn [fst]; rewrite put_other; auto].
  assert (n <> src) by (intro; apply N; right; right; left; congruence).
  assert (n <> src ++ t' ".go") by (intro; apply N; right; right; right; left; congruence).
  assert (R : forall d' b, d' n = d n -> (if b : bool then del (src ++ t' ".go") d' else d') n = d n)
    by (intros d' [] E; [rewrite del_other by assumption|]; exact E).
  assert (Q : forall d' b, d' n = d n -> (if b : bool then del (op_output o ++ t' ".tmp") d' else d') n = d n)
    by (intros d' [] E; [rewrite del_other by assumption|]; exact E).
  assert (P : forall x d', d' n = d n -> put (op_output o) x d' n = d n) by (intros x d' E; rewrite put_other by assumption; exact E).
  assert (P1 : forall x d', d' n = d n -> put (op_output o ++ t' ".tmp") x d' n = d n) by (intros x d' E; rewrite put_other by assumption; exact E).
  assert (P2 : forall x d', d' n = d n -> put src x d' n = d n) by (intros x d' E; rewrite put_other by assumption; exact E).
  assert (P3 : forall x d', d' n = d n -> put (src ++ t' ".go") x d' n = d n) by (intros x d' E; rewrite put_other by assumption; exact E).
  assert (P4 : forall d', d' n = d n -> del src d' n = d n) by (intros d' E; rewrite del_other by assumption; exact E).
  destruct (w_close w); cbn [negb fst]; [|auto]. destruct (w_rename w); cbn [negb fst]; [|auto].
  destruct (w_create_tmp w); cbn [negb fst]; [|auto 6].
  destruct (w_run w _ _ _) as [[|] out]; cbn [negb fst]; [|auto 8]. destruct (w_read w); cbn [negb fst]; [|auto 8].
  destruct (w_format w out) as [code|]; [|cbn [fst]; auto 8].
  destruct (w_write w); cbn [fst]; auto 9.
Qed.

(** A success: the output is what the generator printed, formatted, and nothing else has changed. *)
Lemma bootstrap_success quote w o d src :
  w_temp w = Some src -> src <> op_output o -> src ++ t' ".go" <> op_output o -> src <> op_output o ++ t' ".tmp" ->
  src ++ t' ".go" <> op_output o ++ t' ".tmp" -> d src = None -> d (src ++ t' ".go") = None -> d (op_output o ++ t' ".tmp") = None ->
  w_remove_tmp w = true -> w_remove_main w = true -> snd (bootstrap quote w o d) = true ->
  exists seen out code,
    seen (op_output o) = Some (stub_text o) /\ seen (src ++ t' ".go") = Some (main_text quote o)
    /\ same_but [op_output o; src ++ t' ".go"; op_output o ++ t' ".tmp"] d seen
    /\ w_run w seen (op_tags o) (src ++ t' ".go") = (true, out) /\ w_format w out = Some code
    /\ fst (bootstrap quote w o d) (op_output o) = Some code
    /\ same_but [op_output o] d (fst (bootstrap quote w o d)).
Proof.
  intros T N1 N2 N3 N4 D1 D2 D3 R1 R2. unfold bootstrap. rewrite T.
  destruct (w_create_stub w); [|discriminate]. destruct (w_close w); [|discriminate]. destruct (w_rename w); [|discriminate].
  destruct (w_create_tmp w); [|discriminate]. cbn [negb]. rewrite R1, R2. unfold removes.
  set (seen := put (op_output o ++ t' ".tmp") [] _).
  destruct (w_run w seen (op_tags o) (src ++ t' ".go")) as [[|] out] eqn:Run; [|discriminate]. cbn [negb].
  destruct (w_read w); [|discriminate]. cbn [negb]. destruct (w_format w out) as [code|] eqn:F; [|discriminate].
  unfold writes. destruct (w_write w); [|discriminate..]. intros _. exists seen, out, code.
  assert (L : op_output o ++ t' ".tmp" <> op_output o) by (apply longer; discriminate).
  assert (M : src ++ t' ".go" <> src) by (apply longer; discriminate).
  split; [|split; [|split; [|split; [exact Run|split; [exact F|split]]]]].
  - unfold seen. rewrite put_other, put_other, del_other, put_other by congruence. apply put_same.
  - unfold seen. rewrite put_other by congruence. apply put_same.
  - intros n H. assert (n <> op_output o /\ n <> src ++ t' ".go" /\ n <> op_output o ++ t' ".tmp") as (A & B & C).
    { repeat split; intro; apply H; cbn; auto. }
    unfold seen. rewrite put_other, put_other by assumption. destruct (text_eqb n src) eqn:E.
    + apply text_eqb_eq in E. subst n. rewrite del_same, D1. reflexivity.
    + assert (n <> src) by (intro; subst; rewrite text_eqb_refl in E; discriminate). rewrite del_other, put_other, put_other by assumption. reflexivity.
  - cbn [fst]. rewrite del_other, del_other by congruence. apply put_same.
  - intros n H. assert (A : n <> op_output o) by (intro; apply H; cbn; auto). cbn [fst].
    destruct (text_eqb n (src ++ t' ".go")) eqn:E; [apply text_eqb_eq in E; subst n; rewrite del_same; auto|].
    assert (n <> src ++ t' ".go") by (intro; subst; rewrite text_eqb_refl in E; discriminate). rewrite del_other by assumption.
    destruct (text_eqb n (op_output o ++ t' ".tmp")) eqn:E2; [apply text_eqb_eq in E2; subst n; rewrite del_same; auto|].
    assert (n <> op_output o ++ t' ".tmp") by (intro; subst; rewrite text_eqb_refl in E2; discriminate). rewrite del_other, put_other, put_other, put_other by assumption.
    destruct (text_eqb n src) eqn:E3; [apply text_eqb_eq in E3; subst n; rewrite del_same; auto|].
    assert (n <> src) by (intro; subst; rewrite text_eqb_refl in E3; discriminate). rewrite del_other, put_other, put_other by assumption. reflexivity.
Qed.

(** A generator that fails leaves the stub. *)
Lemma bootstrap_fails quote w o d src :
  w_create_stub w = true -> w_temp w = Some src -> src <> op_output o -> src ++ t' ".go" <> op_output o ->
  (forall seen tags main, fst (w_run w seen tags main) = false) ->
  snd (bootstrap quote w o d) = false /\ fst (bootstrap quote w o d) (op_output o) = Some (stub_text o).
Proof.
  intros C T N1 N2 R. unfold bootstrap, removes. rewrite C, T. cbn [negb].
  assert (L : op_output o ++ t' ".tmp" <> op_output o) by (apply longer; discriminate).
  assert (P : forall x d, put (op_output o ++ t' ".tmp") x d (op_output o) = d (op_output o)) by (intros; apply put_other; congruence).
  assert (P2 : forall x d, put src x d (op_output o) = d (op_output o)) by (intros; apply put_other; congruence).
  assert (P3 : forall x d, put (src ++ t' ".go") x d (op_output o) = d (op_output o)) by (intros; apply put_other; congruence).
  assert (Q2 : forall d, del src d (op_output o) = d (op_output o)) by (intros; apply del_other; congruence).
  assert (Q3 : forall d, del (src ++ t' ".go") d (op_output o) = d (op_output o)) by (intros; apply del_other; congruence).
  assert (Q : forall d, del (op_output o ++ t' ".tmp") d (op_output o) = d (op_output o)) by (intros; apply del_other; congruence).
  destruct (w_close w); cbn [negb fst snd]; [|rewrite P2, put_same; auto].
  destruct (w_rename w); cbn [negb fst snd]; [|rewrite P2, put_same; auto].
  destruct (w_create_tmp w); cbn [negb fst snd].
  2:{ destruct (w_remove_main w); rewrite ?Q3, P3, Q2, P2, put_same; auto. }
  match goal with |- context [w_run w ?a ?b ?c] => specialize (R a b c); destruct (w_run w a b c) as [ok out] end.
  cbn in R. subst ok. cbn [negb fst snd].
  destruct (w_remove_main w), (w_remove_tmp w); rewrite ?Q3, ?Q, ?P, P3, Q2, P2, put_same; auto.
Qed.

(** ** The text of the program *)
Lemma lines_inj (ls ms : list text) : Forall (fun l => ~ In 10 l) ls -> Forall (fun l => ~ In 10 l) ms ->
  concat (map (fun l => l ++ eol) ls) = concat (map (fun l => l ++ eol) ms) -> ls = ms.
Proof.
  assert (H : forall l k x y, ~ In 10 l -> ~ In 10 k -> l ++ 10 :: x = k ++ 10 :: y -> l = k /\ x = y).
  { induction l as [|c l IH]; intros [|e k] x y L K E; cbn in E.
    - inversion E; auto.
    - injection E as E _. exfalso. apply K. left. congruence.
    - injection E as E _. exfalso. apply L. left. congruence.
    - injection E as -> E. apply IH in E as [-> ->]; auto; intro; [apply L|apply K]; right; assumption. }
  revert ms. induction ls as [|l ls IH]; intros [|k ms] L K E; [reflexivity| | |].
  - exfalso. cbn in E. unfold eol in E. rewrite <- app_assoc in E. destruct k; discriminate E.
  - exfalso. cbn in E. unfold eol in E. rewrite <- app_assoc in E. destruct l; discriminate E.
  - cbn in E. unfold eol at 1 3 in E. rewrite <- !app_assoc in E. inversion L; inversion K; subst.
    apply H in E as [-> E]; try assumption. f_equal. apply IH; assumption.
Qed.
(** Texts of options that stay in their lines. *)
Definition plain_options (o : gen_options) : Prop := ~ In 10 (op_type o) /\ ~ In 10 (op_engine o).
Lemma not_in_app (a b : text) : ~ In 10 a -> ~ In 10 b -> ~ In 10 (a ++ b).
Proof. intros A B H. apply in_app_or in H as [H|H]; contradiction. Qed.
Lemma bool_text_line b : ~ In 10 (bool_text b).
Proof. destruct b; cbn; intuition discriminate. Qed.
Lemma main_lines_plain quote o : (forall s, ~ In 10 (quote s)) -> plain_options o -> Forall (fun l => ~ In 10 l) (main_lines quote o).
Proof.
  intros Q [T E]. unfold main_lines. apply Forall_app. split; [|apply Forall_app; split].
  - repeat constructor; repeat apply not_in_app; auto; cbn; intuition discriminate.
  - destruct (op_tags o); repeat constructor. repeat apply not_in_app; auto; cbn; intuition discriminate.
  - repeat constructor; repeat apply not_in_app; auto using bool_text_line; cbn; intuition discriminate.
Qed.
Lemma bool_text_inj a b : bool_text a = bool_text b -> a = b.
Proof. destruct a, b; intro H; try reflexivity; discriminate H. Qed.
Lemma main_text_inj quote o o' : (forall s, ~ In 10 (quote s)) -> (forall s s', quote s = quote s' -> s = s') ->
  plain_options o -> plain_options o' -> main_text quote o = main_text quote o' -> o = o'.
Proof.
  intros Q J P P' H. apply lines_inj in H; [|apply main_lines_plain; assumption..].
  destruct o as [a1 a2 a3 a4 a5 a6 a7 a8 a9 a10 a11], o' as [b1 b2 b3 b4 b5 b6 b7 b8 b9 b10 b11]. cbn [main_lines op_pkg_path op_pkg_name op_type op_omitempty op_disallow op_pointer op_inline op_engine_package op_engine op_output op_tags] in H.
  unfold main_lines in H. cbn [op_pkg_path op_pkg_name op_type op_omitempty op_disallow op_pointer op_inline op_engine_package op_engine op_output op_tags] in H.
  assert (N : forall k, nth k _ [] = nth k _ []) by (intro k; exact (f_equal (fun l => nth k l []) H)).
  assert (a8 = b8 /\ a10 = b10 /\ a2 = b2 /\ a1 = b1 /\ a9 = b9) as (-> & -> & -> & -> & ->).
  { repeat split.
    - generalize (N 13%nat). clear - J. cbn -[string_to_text]. intro H. apply app_inv_head in H. auto.
    - generalize (N 18%nat). clear - J. cbn -[string_to_text]. intro H. apply app_inv_head, app_inv_tail in H. auto.
    - generalize (N 19%nat). clear - J. cbn -[string_to_text]. intro H. apply app_inv_head, app_inv_tail in H. auto.
    - generalize (N 20%nat). clear - J. cbn -[string_to_text]. intro H. apply app_inv_head, app_inv_tail in H. auto.
    - generalize (N 21%nat). clear - J. cbn -[string_to_text]. intro H. apply app_inv_head, app_inv_tail in H. auto. }
  assert (a11 = b11) as ->.
  { destruct a11 as [|x a11], b11 as [|y b11]; [reflexivity|apply (f_equal (@length text)) in H; discriminate H..|].
    generalize (N 22%nat). clear - J. cbn -[string_to_text]. intro H. apply app_inv_head, app_inv_tail in H. auto. }
  apply app_inv_head, app_inv_head in H. clear N.
  assert (N : forall k, nth k _ [] = nth k _ []) by (intro k; exact (f_equal (fun l => nth k l []) H)).
  f_equal.
  - generalize (N 4%nat). clear - J. cbn -[string_to_text]. intro H. apply app_inv_head, app_inv_tail in H. exact H.
  - generalize (N 0%nat). clear - J. cbn -[string_to_text]. intro H. apply app_inv_head, app_inv_tail in H. apply bool_text_inj, H.
  - generalize (N 1%nat). clear - J. cbn -[string_to_text]. intro H. apply app_inv_head, app_inv_tail in H. apply bool_text_inj, H.
  - generalize (N 2%nat). clear - J. cbn -[string_to_text]. intro H. apply app_inv_head, app_inv_tail in H. apply bool_text_inj, H.
  - generalize (N 3%nat). clear - J. cbn -[string_to_text]. intro H. apply app_inv_head, app_inv_tail in H. apply bool_text_inj, H.
Qed.

(** ** Names of files *)
Lemma upto_no_slash s : ~ In 47 (upto_slash s).
Proof.
  induction s as [|c s IH]; cbn; [tauto|]. destruct (c =? 47) eqn:E; [intros []|]. apply N.eqb_neq in E. intros [H|H]; [congruence|contradiction].
Qed.
Lemma base_plain s : base_name s = s -> s = [47] \/ ~ In 47 s.
Proof.
  unfold base_name. destruct s as [|c s]; [discriminate|].
  destruct (rev (upto_slash (drop_slashes (rev (c :: s))))) as [|x n] eqn:E; intro H; [left; congruence|].
  right. rewrite <- H, <- E. intro K. apply in_rev in K. revert K. apply upto_no_slash.
Qed.
Lemma command_refuses up lo low quote w f pp pn d :
  fl_type f = [] \/ (In 47 (output_name up lo low f) /\ output_name up lo low f <> [47]) \/ engine_package (fl_engine f) = None ->
  command up lo low quote w f pp pn d = (d, false).
Proof.
  intro H. unfold command. destruct (fl_type f) eqn:T; [reflexivity|].
  destruct (text_eqb (base_name (output_name up lo low f)) (output_name up lo low f)) eqn:B; [|reflexivity]. cbn [negb].
  apply text_eqb_eq, base_plain in B. destruct H as [H|[[H K]|H]]; [discriminate H|tauto|]. rewrite H. reflexivity.
Qed.
