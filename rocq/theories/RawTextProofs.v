(** Reading values of a document as text: proofs. *)
From Coq Require Import String.
From Verif Require Import Base Ast Schema Values Writer Encoder WriterSpec Reader YReader RawTextSpec.
Local Open Scope nat_scope.

Lemma raw_alone t s : alone t s -> y_raw t = Done (inl s).
Proof.
  unfold alone, serialized, yw_string, w_write_string, w_write, y_raw. cbn [Writer.visit]. unfold w_reset, new_writer. cbn [wr_state ws_keeper].
  destruct (visit_with _ _ _ _) as [w| |]; cbn; try discriminate. destruct (ws_errors w); cbn; [|discriminate]. intro H. inversion H. reflexivity.
Qed.

Section Raw.
  Context (o : oracle) (multi : bool).
  Let en := y_engine o.
  Definition st (route : list (point node)) iters last co v : rstate node anchors := mkR route iters last co v an_new multi None None [].

  Definition found (t : node) (n : nat) : point node :=
    match t with NSequence _ | NMapping _ => mkPoint CMatch t (Some n) | _ => mkPoint CUnknown t None end.
  Definition opened (t : node) : list (list node) := match t with NSequence l | NMapping l => [l] | _ => [] end.
  Lemma finish_raw f t s p route iters lst co v : alone t s -> pt_node p = t ->
    finish en o f DRaw (st (p :: route) iters lst co v) = Done (ABytes (Some s), st route iters lst co v).
  Proof. intros Hs Hp. apply raw_alone in Hs. unfold finish, en, y_engine. cbn -[y_raw]. rewrite Hp, Hs. reflexivity. Qed.
  (** ** sequences *)
  Lemma item_found es cp t l junk lst co v f : cp = CMatch \/ cp = CContinue -> own_value t ->
    run en ERaw (8 + f) TCurrent (st [mkPoint cp (NSequence es) (Some 0)] ((t :: l) :: junk) lst co v) =
      Done (st [found t (S (length junk)); mkPoint CContinue (NSequence es) (Some 0)] (l :: junk ++ opened t) CMatch co v).
  Proof.
    intros Hc Ht. destruct t; try destruct Ht; destruct l as [|x l]; (destruct Hc as [-> | ->]; cbn [found opened]; rewrite ?app_nil_r; reflexivity).
  Qed.
  Lemma item_read es cp t s l junk lst co v f : cp = CMatch \/ cp = CContinue -> own_value t -> alone t s -> 8 <= f ->
    exists junk', do_call en o f DRaw (st [mkPoint cp (NSequence es) (Some 0)] ((t :: l) :: junk) lst co v) =
      Done (ABytes (Some s), st [mkPoint CContinue (NSequence es) (Some 0)] (l :: junk') CMatch co v).
  Proof.
    intros Hc Ht Hs Hf. do 8 (destruct f as [|f]; [lia|]). clear Hf. exists (junk ++ opened t).
    unfold do_call. cbn [has_fatal r_fatal st expecter_of].
    change (S (S (S (S (S (S (S (S f)))))))) with (8 + f). rewrite (item_found es cp t l junk lst co v f Hc Ht). cbn [obind].
    apply finish_raw with (t := t); [exact Hs|destruct t; reflexivity].
  Qed.
  Lemma items_read es hs : forall l ss cp junk lst co v f, cp = CMatch \/ cp = CContinue -> Forall own_value l -> Forall2 alone l ss -> 8 <= f ->
    exists s', do_requests en o f (repeat (QCall DRaw) (length l) ++ [QMore 0; QCall DError]) (st [mkPoint cp (NSequence es) (Some 0)] (l :: junk) lst co v, CollState (length es) 0 :: hs) =
      Done (map raw ss ++ [PMore false; PAnswer (AErrors [])], s').
  Proof.
    intros l ss cp junk lst co v f Hc Hl Hs Hf. revert cp junk lst Hc Hl. induction Hs as [|t s l ss Ht _ IH]; intros cp junk lst Hc Hl.
    - eexists. reflexivity.
    - inversion Hl as [|? ? Hv Hl2]; subst. destruct (item_read es cp t s l junk lst co v f Hc Hv Ht Hf) as (j & E).
      destruct (IH CContinue j CMatch (or_intror eq_refl) Hl2) as (s' & E2). exists s'.
      cbn [repeat length app map do_requests do_request]. rewrite E. cbn [obind fst snd colls_of]. rewrite app_nil_r, E2. reflexivity.
  Qed.
  Theorem sequence_read es ss f : Forall own_value es -> Forall2 alone es ss -> 8 <= f ->
    exists s', do_requests en o f (ask_items (length es)) (y_reader multi (NSequence es), []) = Done (told_items (length es) ss, s').
  Proof.
    intros Hv Hs Hf. destruct (items_read es [] es ss CMatch [] CMatch (CollState (length es) 0) [] f (or_introl eq_refl) Hv Hs Hf) as (s' & E). exists s'.
    unfold ask_items, told_items. cbn [do_requests do_request].
    assert (E1 : do_call en o f DSequence (y_reader multi (NSequence es)) =
      Done (AColl (CollState (length es) 0), st [mkPoint CMatch (NSequence es) (Some 0)] [es] CMatch (CollState (length es) 0) [])).
    { do 8 (destruct f as [|f]; [lia|]). reflexivity. }
    rewrite E1. cbn [obind fst snd colls_of app]. cbn [app] in E. rewrite E. reflexivity.
  Qed.

  (** ** mappings *)
  Lemma left_of (iters : list (list node)) x : nth (length iters) (iters ++ [x]) [] = x.
  Proof. rewrite app_nth2, Nat.sub_diag by lia. reflexivity. Qed.
  Lemma set_of (iters : list (list node)) x y : iters_set (iters ++ [x]) (length iters) y = iters ++ [y].
  Proof.
    unfold iters_set. rewrite skipn_app, skipn_all, Nat.sub_diag, firstn_app, firstn_all, Nat.sub_diag. cbn. rewrite app_nil_r. reflexivity.
  Qed.
  Lemma loop_next e f i r n rest : r_last r = CContinue -> iter_left i r = n :: rest -> valid_node n = true ->
    run en e (S f) (TLoop i false) r = obind (run en e f (TVisit n) (push_point n (set_iters (iters_set (r_iters r) i rest) r))) (run en e f (TLoop i false)).
  Proof. intros H1 H2 H3. cbn [run]. rewrite H1, H2. cbn [is_continue]. unfold en, y_engine. cbn [en_valid]. rewrite H3. reflexivity. Qed.
  Lemma loop_stop e f i r : r_last r <> CContinue -> run en e (S f) (TLoop i false) r = Done r.
  Proof. intro H. cbn [run]. destruct (r_last r); try reflexivity. congruence. Qed.
  Definition ended e f i (r : rstate node anchors) := if iter_empty i r && is_continue (r_last r) then run en e f TCurrent (pop_point r) else Done r.
  Lemma not_ended e f i r : r_last r <> CContinue -> ended e f i r = Done r.
  Proof. intro H. unfold ended. destruct (r_last r); try (rewrite andb_false_r; reflexivity). congruence. Qed.
  Lemma outcome_same {A} (x : outcome A) : obind x (fun r => Done r) = x.
  Proof. destruct x; reflexivity. Qed.

  Lemma again e f n ch size cp i rest iters lst co x : n <> NNil -> y_visit an_new n = VComplex ch size false -> cp = CMatch \/ cp = CContinue -> y_process o e n cp = pass ->
    run en e (S (S f)) TCurrent (st (mkPoint cp n (Some i) :: rest) iters lst co x) =
    obind (run en e f (TLoop i false) (st (mkPoint CContinue n (Some i) :: rest) iters CContinue co x)) (ended e f i).
  Proof.
    intros Hn Hv Hc Hp. assert (Hz : (match n with NNil => true | _ => false end) = false) by (destruct n; congruence).
    assert (E0 : run en e (S (S f)) TCurrent (st (mkPoint cp n (Some i) :: rest) iters lst co x) = run en e (S f) (TVisit n) (st (mkPoint cp n (Some i) :: rest) iters lst co x)).
    { remember (S f) as g. cbn [run]. unfold current_node. cbn [r_route st pt_node]. unfold en at 1, y_engine. cbn [en_nil]. rewrite Hz. reflexivity. }
    rewrite E0. cbn [run]. cbn [r_keep r_route st pt_node pt_concl pt_iter]. change (en_visit en an_new n) with (y_visit an_new n). rewrite Hv.
    assert (Hu : is_unknown cp = false) by (destruct Hc as [-> | ->]; reflexivity). rewrite Hu.
    change (en_process en (r_keep (st (mkPoint cp n (Some i) :: rest) iters lst co x)) e n cp) with (y_process o e n cp). rewrite Hp. unfold pass, extracting.
    rewrite outcome_same. reflexivity.
  Qed.
  (** a visit of a key or of a value *)
  Lemma key_visit k q route iters lst co x f : y_is_null (NText k q) = false ->
    run en EString (S f) (TVisit (NText k q)) (st (mkPoint CUnknown (NText k q) None :: route) iters lst co x) = Done (st route iters CConsume CollNil k).
  Proof. intro H. cbn -[y_is_null]. unfold visit_texter. cbn -[y_is_null]. unfold en, y_engine, y_process, y_terminal, y_is. cbn -[y_is_null]. rewrite H. reflexivity. Qed.
  Lemma value_visit t route iters lst co x f : own_value t ->
    run en ERaw (S f) (TVisit t) (st (mkPoint CUnknown t None :: route) iters lst co x) = Done (st (found t (length iters) :: route) (iters ++ opened t) CMatch co x).
  Proof. intro H. destruct t; try destruct H; cbn [found opened]; rewrite ?app_nil_r; reflexivity. Qed.
  (** the first visit of an entry; [pt_iter] is the list of its children *)
  Lemma entry_visit k q v route iters lst co x f : y_is_null (NText k q) = false ->
    run en EString (4 + f) (TVisit (NEntry (NText k q) v)) (st (mkPoint CUnknown (NEntry (NText k q) v) None :: route) iters lst co x) =
    Done (st (mkPoint CContinue (NEntry (NText k q) v) (Some (length iters)) :: route) (iters ++ [[v]]) CConsume CollNil k).
  Proof.
    intro H. set (E := NEntry (NText k q) v).
    transitivity (obind (obind (run en EString (3 + f) (TLoop (length iters) false) (st (mkPoint CContinue E (Some (length iters)) :: route) (iters ++ [[NText k q; v]]) CContinue co x))
      (ended EString (3 + f) (length iters))) (fun r => Done r)); [reflexivity|]. rewrite outcome_same.
    change (3 + f) with (S (S (S f))). rewrite (loop_next EString (S (S f)) _ _ (NText k q) [v]); [|reflexivity|apply left_of|reflexivity].
    cbn [r_iters st]. rewrite set_of. unfold push_point, set_iters, set_route. cbn [r_route r_iters r_last r_coll r_value r_keep r_multi r_fatal r_deny r_denies st].
    fold (st (mkPoint CUnknown (NText k q) None :: mkPoint CContinue E (Some (length iters)) :: route) (iters ++ [[v]]) CContinue co x).
    rewrite (key_visit k q _ _ _ _ _ _ H). cbn [obind]. rewrite loop_stop by discriminate. cbn [obind]. apply not_ended. discriminate.
  Qed.
  (** before an entry: at the mapping, or at an entry that was read *)
  Inductive before (es l : list node) : list (point node) -> list (list node) -> Prop :=
  | be_map cp junk : cp = CMatch \/ cp = CContinue -> before es l [mkPoint cp (NMapping es) (Some 0)] (l :: junk)
  | be_entry k v i junk : nth i (l :: junk) [] = [] -> before es l [mkPoint CContinue (NEntry k v) (Some i); mkPoint CContinue (NMapping es) (Some 0)] (l :: junk).
  Lemma map_visit es k q v l cp junk lst co x f : y_is_null (NText k q) = false -> cp = CMatch \/ cp = CContinue ->
    run en EString (8 + f) TCurrent (st [mkPoint cp (NMapping es) (Some 0)] ((NEntry (NText k q) v :: l) :: junk) lst co x) =
    Done (st [mkPoint CContinue (NEntry (NText k q) v) (Some (S (length junk))); mkPoint CContinue (NMapping es) (Some 0)] (l :: junk ++ [[v]]) CConsume CollNil k).
  Proof.
    intros H Hc. set (E := NEntry (NText k q) v).
    change (8 + f) with (S (S (6 + f))). rewrite (again EString (6 + f) (NMapping es) es (length es)); [|discriminate|reflexivity|exact Hc|destruct Hc as [-> | ->]; reflexivity].
    change (6 + f) with (S (5 + f)). rewrite (loop_next EString (5 + f) _ _ E l); [|reflexivity..].
    change (push_point E _) with (st [mkPoint CUnknown E None; mkPoint CContinue (NMapping es) (Some 0)] (l :: junk) CContinue co x).
    change (5 + f) with (4 + (1 + f)). unfold E. rewrite (entry_visit k q v _ _ _ _ _ _ H). cbn [obind].
    change (4 + (1 + f)) with (S (4 + f)). rewrite loop_stop by discriminate. cbn [obind]. apply not_ended. discriminate.
  Qed.
  Lemma key_found es k q v l route iters lst co x f : y_is_null (NText k q) = false -> before es (NEntry (NText k q) v :: l) route iters ->
    exists junk, run en EString (11 + f) TCurrent (st route iters lst co x) =
    Done (st [mkPoint CContinue (NEntry (NText k q) v) (Some (S (length junk))); mkPoint CContinue (NMapping es) (Some 0)] (l :: junk ++ [[v]]) CConsume CollNil k).
  Proof.
    intros H B. inversion B as [cp junk Hc|k0 v0 i junk Hi]; subst; exists junk.
    - exact (map_visit es k q v l cp junk lst co x (3 + f) H Hc).
    - change (11 + f) with (S (S (9 + f))). rewrite (again EString (9 + f) (NEntry k0 v0) [k0; v0] 2); [|discriminate|reflexivity|right; reflexivity|reflexivity].
      assert (E : forall g, run en EString (S g) (TLoop i false) (st [mkPoint CContinue (NEntry k0 v0) (Some i); mkPoint CContinue (NMapping es) (Some 0)] ((NEntry (NText k q) v :: l) :: junk) CContinue co x) =
        Done (st [mkPoint CContinue (NEntry k0 v0) (Some i); mkPoint CContinue (NMapping es) (Some 0)] ((NEntry (NText k q) v :: l) :: junk) CContinue co x)).
      { intro g. cbn [run]. cbn [r_last st is_continue]. unfold iter_left. cbn [r_iters st]. rewrite Hi. reflexivity. }
      change (9 + f) with (S (8 + f)). rewrite E. cbn [obind]. unfold ended, iter_empty, iter_left. cbn [r_iters st r_last is_continue]. rewrite Hi. cbn [andb].
      exact (map_visit es k q v l CContinue junk CContinue co x (1 + f) H (or_intror eq_refl)).
  Qed.
  Lemma value_found es k v l junk lst co x f : own_value v ->
    exists j r, run en ERaw (6 + f) TCurrent (st [mkPoint CContinue (NEntry k v) (Some (S (length junk))); mkPoint CContinue (NMapping es) (Some 0)] (l :: junk ++ [[v]]) lst co x) =
      Done (st (found v j :: r) (l :: junk ++ [[]] ++ opened v) CMatch co x) /\ before es l r (l :: junk ++ [[]] ++ opened v).
  Proof.
    intros Hv. set (i := S (length junk)). set (r := [mkPoint CContinue (NEntry k v) (Some i); mkPoint CContinue (NMapping es) (Some 0)]).
    exists (length (l :: junk ++ [[]])), r. split.
    - change (6 + f) with (S (S (4 + f))). unfold r at 1. rewrite (again ERaw (4 + f) (NEntry k v) [k; v] 2); [|discriminate|reflexivity|right; reflexivity|reflexivity]. fold r.
      change (4 + f) with (S (3 + f)). rewrite (loop_next ERaw (3 + f) _ _ v []); [|reflexivity|exact (left_of (l :: junk) [v])|destruct v; try destruct Hv; reflexivity].
      cbn [r_iters st]. replace (iters_set (l :: junk ++ [[v]]) i []) with (l :: junk ++ [[]]) by (symmetry; exact (set_of (l :: junk) [v] [])).
      change (push_point v _) with (st (mkPoint CUnknown v None :: r) (l :: junk ++ [[]]) CContinue co x).
      change (3 + f) with (S (2 + f)). rewrite value_visit by exact Hv. cbn [obind]. rewrite loop_stop by discriminate. cbn [obind]. rewrite not_ended by discriminate.
      cbn [app]. rewrite <- app_assoc. reflexivity.
    - apply be_entry. unfold i. cbn [nth]. rewrite app_nth2, Nat.sub_diag by lia. reflexivity.
  Qed.
  Lemma pairs_read es hs : forall l ps route iters lst co x f, Forall2 pair_alone l ps -> before es l route iters -> 12 <= f ->
    exists s', do_requests en o f (concat (repeat [QCall DString; QCall DRaw] (length l)) ++ [QMore 0; QCall DError]) (st route iters lst co x, CollState (length es) 0 :: hs) =
      Done (concat (map (fun p => [PAnswer (AText (fst p)); raw (snd p)]) ps) ++ [PMore false; PAnswer (AErrors [])], s').
  Proof.
    intros l ps route iters lst co x f Hs B Hf. revert route iters lst co x B. induction Hs as [|e p l ps He _ IH]; intros route iters lst co x B.
    - destruct B; eexists; reflexivity.
    - destruct He as [k q v s Hk Hv Hs].
      assert (Hn : y_is_null (NText k q) = false) by (destruct Hk as [E|[-> | ->]]; [destruct q; auto|reflexivity|reflexivity]).
      assert (Ek : exists junk, do_call en o f DString (st route iters lst co x) = Done (AText k,
        st [mkPoint CContinue (NEntry (NText k q) v) (Some (S (length junk))); mkPoint CContinue (NMapping es) (Some 0)] (l :: junk ++ [[v]]) CConsume CollNil k)).
      { destruct (key_found es k q v l route iters lst co x (f - 11) Hn B) as (junk & E). exists junk. unfold do_call. cbn [has_fatal r_fatal st expecter_of].
        replace (11 + (f - 11)) with f in E by lia. rewrite E. reflexivity. }
      destruct Ek as (junk & Ek). destruct (value_found es (NText k q) v l junk CConsume CollNil k (f - 6) Hv) as (j & r & Ev & B2).
      assert (Ev2 : do_call en o f DRaw (st [mkPoint CContinue (NEntry (NText k q) v) (Some (S (length junk))); mkPoint CContinue (NMapping es) (Some 0)] (l :: junk ++ [[v]]) CConsume CollNil k) =
        Done (ABytes (Some s), st r (l :: junk ++ [[]] ++ opened v) CMatch CollNil k)).
      { unfold do_call. cbn [has_fatal r_fatal st expecter_of]. replace (6 + (f - 6)) with f in Ev by lia. rewrite Ev. cbn [obind].
        apply finish_raw with (t := v); [exact Hs|destruct v; reflexivity]. }
      destruct (IH _ _ CMatch CollNil k B2) as (s' & E). exists s'.
      cbn [length repeat concat app map fst snd do_requests do_request]. rewrite Ek. cbn [obind fst snd colls_of do_request]. rewrite Ev2. cbn [obind fst snd colls_of].
      rewrite !app_nil_r. cbn [app] in *. rewrite E. reflexivity.
  Qed.
  Theorem mapping_read es ps f : Forall2 pair_alone es ps -> 12 <= f ->
    exists s', do_requests en o f (ask_pairs (length es)) (y_reader multi (NMapping es), []) = Done (told_pairs (length es) ps, s').
  Proof.
    intros Hs Hf. destruct (pairs_read es [] es ps [mkPoint CMatch (NMapping es) (Some 0)] [es] CMatch (CollState (length es) 0) [] f Hs (be_map es es CMatch [] (or_introl eq_refl)) Hf) as (s' & E). exists s'.
    unfold ask_pairs, told_pairs. cbn [do_requests do_request].
    assert (E1 : do_call en o f DMapping (y_reader multi (NMapping es)) =
      Done (AColl (CollState (length es) 0), st [mkPoint CMatch (NMapping es) (Some 0)] [es] CMatch (CollState (length es) 0) [])).
    { do 8 (destruct f as [|f]; [lia|]). reflexivity. }
    rewrite E1. cbn [obind fst snd colls_of app]. cbn [app] in E. rewrite E. reflexivity.
  Qed.
End Raw.
