(** Flow collections over several lines. *)
From Coq Require Import String.
From Verif Require Import Base Token Ast Lexer Parser ParserDocs ParserFacts RoundTripSpec RoundTripProofs TextSpec TextFacts TextProofs FlowLineSpec.
Local Open Scope N_scope.

(** ** as the value of an entry *)
Lemma flow_mapping h k ks t s : (h <= 5)%nat -> scalar_text k ks -> flow_text 1 h t s -> document_text (NMapping [NEntry k t]) (ks ++ 58 :: 32 :: s ++ [10]).
Proof.
  intros Hh Hk H. pose proof (lines_document false _ _ (es_one false false 0 _ _ (et_key false 0 k ks t (32 :: s) Hk (at_word false 0 t s (lt_flow 1 h t s Hh H))))) as D.
  rewrite <- app_assoc in D. exact D.
Qed.
Theorem flow_value_parses h k ks t s es r : (h <= 5)%nat -> scalar_text k ks -> flow_text 1 h t s -> entries_text false false 0 es r ->
  parses (NMapping (NEntry k t :: es)) (ks ++ 58 :: 32 :: s ++ 10 :: r ++ [10]).
Proof.
  intros Hh Hk H Hr. apply documents_parse.
  pose proof (lines_document false _ _ (es_next false false 0 _ _ _ _ (et_key false 0 k ks t (32 :: s) Hk (at_word false 0 t s (lt_flow 1 h t s Hh H))) Hr)) as D.
  rewrite <- app_assoc in D. cbn [app] in D. rewrite <- app_assoc in D. exact D.
Qed.

(** ** indented JSON *)
Section Induction.
  Context (P : json -> Prop) (Ht : forall s, P (JText s)) (Hw : forall w, P (JWord w))
    (Ha : forall l, Forall P l -> P (JArray l)) (Ho : forall l, Forall (fun m => P (snd m)) l -> P (JObject l)).
  Fixpoint json_all (v : json) : P v :=
    match v with
    | JText s => Ht s
    | JWord w => Hw w
    | JArray l => Ha l ((fix go l := match l return Forall P l with [] => Forall_nil _ | v :: l => Forall_cons _ (json_all v) (go l) end) l)
    | JObject l => Ho l ((fix go l := match l return Forall (fun m => P (snd m)) l with [] => Forall_nil _ | m :: l => Forall_cons (P := fun m => P (snd m)) m (json_all (snd m)) (go l) end) l)
    end.
End Induction.

Section Indented.
  Context (step n : nat).
  Lemma line_sep d : (n <= step * d)%nat -> sep_text n (line step d).
  Proof. intro H. exact (sp_lines n 0 [10] [] (step * d) br_lf bl_none H). Qed.
  Lemma no_sep : sep_text n [].
  Proof. apply (sp_spaces n 0). Qed.
  Lemma listed_items kind h d w : sep_text n w -> (n <= step * d)%nat -> forall es l, es <> [] -> Forall2 (item_text n kind h) es l ->
    exists s, items_text n kind h es s /\ listed step d l ++ w = line step d ++ s.
  Proof.
    intros Hw Hd es l Hn H. induction H as [|e s es l He Hl IH]; [congruence|].
    destruct Hl as [|e2 s2 es l He2 Hl].
    - exists (s ++ w). split; [apply is_one; assumption|]. cbn [listed]. rewrite <- app_assoc. reflexivity.
    - destruct IH as (r & Hr & E); [discriminate|]. exists (s ++ [] ++ 44 :: line step d ++ r). split; [apply is_more; auto using line_sep, no_sep|].
      change (listed step d (s :: s2 :: l)) with (line step d ++ s ++ 44 :: listed step d (s2 :: l)). rewrite <- !app_assoc. cbn [app]. rewrite E. reflexivity.
  Qed.
  Lemma around_flow kind h d es l : (n <= step * d)%nat -> Forall2 (item_text n kind h) es l ->
    flow_text n (deeper kind h) (build kind es) (around step (opening kind) (closing kind) d l).
  Proof.
    intros Hd H. destruct H as [|e s es l He Hl]; [apply (ft_empty n kind h []), no_sep|].
    destruct (listed_items kind h (S d) (line step d)) with (es := e :: es) (l := s :: l) as (r & Hr & E); [apply line_sep, Hd|lia|discriminate|constructor; assumption|].
    pose proof (ft_items n kind h (line step (S d)) _ r (line_sep (S d) ltac:(lia)) Hr) as F. unfold around.
    rewrite (app_assoc (listed _ _ _)), E, <- app_assoc. exact F.
  Qed.
End Indented.

Lemma max_le {A} (f : A -> nat) l h : (fold_right (fun v n => Nat.max (f v) n) 0 l <= h)%nat -> Forall (fun v => (f v <= h)%nat) l.
Proof. induction l as [|x l IH]; cbn; intro H; constructor; [lia|apply IH; lia]. Qed.
Lemma all_in {A} (p : A -> Prop) l : fold_right (fun v q => p v /\ q) True l -> Forall p l.
Proof. induction l as [|x l IH]; cbn; [constructor|]. intros [H1 H2]. constructor; auto. Qed.
Lemma indented_flow step n v : simple v -> forall d h, (n <= step * d)%nat -> (arrays v <= h)%nat -> flow_text n h (tree v) (indented step d v).
Proof.
  induction v as [s|w|l IH|l IH] using json_all; intros Hs d h Hd Hh.
  - apply ft_scalar. split; [apply stx_double, Hs|discriminate].
  - destruct Hs as [Hw H58]. apply ft_scalar. split; [apply stx_plain; constructor; exact Hw|exact H58].
  - cbn [arrays] in Hh. destruct h as [|h]; [lia|]. cbn [indented tree]. apply (around_flow step n true h d); [exact Hd|].
    apply all_in in Hs. assert (Ha : Forall (fun v => (arrays v <= h)%nat) l) by (apply max_le; lia). clear Hh.
    induction l as [|v l IHl]; [constructor|]. inversion IH; inversion Hs; inversion Ha; subst. cbn [map]. constructor; [|auto].
    apply it_node. auto. match goal with H : simple v -> _ |- _ => apply H; auto; lia end.
  - cbn [arrays] in Hh. cbn [indented tree]. apply (around_flow step n false h d); [exact Hd|].
    cbn [simple] in Hs. apply (all_in (fun m => Forall double_char (fst m) /\ simple (snd m))) in Hs. apply (max_le (fun m => arrays (snd m))) in Hh.
    induction l as [|[k v] l IHl]; [constructor|]. inversion IH; inversion Hs as [|? ? [Hk Hv]]; inversion Hh; subst. cbn [map fst snd] in *. constructor; [|auto].
    apply (it_pair n false h (NText k DoubleQuoting) (34 :: k ++ [34]) 0 1); [split; [apply stx_double, Hk|discriminate]|intro E; discriminate|].
    match goal with H : simple v -> _ |- _ => apply H; auto; lia end.
Qed.

Theorem indented_parses step v : simple v -> (arrays v <= 5)%nat -> parses (tree v) (indented step 0 v).
Proof. intros Hs Hh. apply (flows_parse 5); [lia|]. apply indented_flow; [exact Hs|lia|exact Hh]. Qed.
Theorem indented_value_parses step k v d : (1 <= step * d)%nat -> plain_word k -> simple v -> (arrays v <= 5)%nat ->
  parses (NMapping [NEntry (NText k UnknownQuoting) (tree v)]) (k ++ [58; 32] ++ indented step d v ++ [10]).
Proof.
  intros Hd Hk Hs Hh. apply documents_parse. apply (flow_mapping 5); [lia|apply stx_plain; constructor; exact Hk|]. apply indented_flow; auto.
Qed.

(** ** what goes wrong: comments, and a closing bracket that is not indented *)
Definition alone (omit : bool) (t : node) : node := if omit then t else NStream [t].
Lemma comment_read digit omit fuel : (200 <= fuel)%nat ->
  parse_string digit fuel omit (t' "[a, #x" ++ nl ++ t' "b]") = Fin (inl (alone omit (NSequence [u "a"; u "#x b"]))) tt.
Proof. intro H. apply parse_string_at; [destruct omit; vm_compute; reflexivity|cbn; lia]. Qed.
Lemma level_lost digit omit fuel : (200 <= fuel)%nat ->
  parse_string digit fuel omit (t' "a: [" ++ nl ++ t' "  b" ++ nl ++ t' "]" ++ nl) = Fin (inl (NStream [])) tt.
Proof. intro H. apply parse_string_at; [destruct omit; vm_compute; reflexivity|cbn; lia]. Qed.

(** an example *)
Definition flow_value : text := t' "{x: [1," ++ nl ++ nl ++ t' "   two ]" ++ crlf ++ t' "  , 'y' : 3 ," ++ nl ++ t' " }".
Definition flow_value_tree : node :=
  NMapping [NEntry (u "x") (NSequence [u "1"; u "two"]); NEntry (NText (t' "y") SingleQuoting) (u "3")].
Lemma flow_value_text : flow_text 1 1 flow_value_tree flow_value.
Proof.
  assert (W : forall s, plain_word (string_to_text s) -> hd 0 (string_to_text s) <> 58 -> word_text (u s) (string_to_text s)) by (intros; split; [constructor; constructor; assumption|assumption]).
  assert (Z : sep_text 1 []) by apply (sp_spaces 1 0).
  apply (ft_items 1 false 1 [] _ (t' "x: [1," ++ nl ++ nl ++ t' "   two ]" ++ crlf ++ t' "  , 'y' : 3 ," ++ nl ++ t' " ")); [exact Z|].
  apply (is_more 1 false 1 _ (t' "x: [1," ++ nl ++ nl ++ t' "   two ]") (crlf ++ t' "  ") (t' " ") [_] (t' "'y' : 3 ," ++ nl ++ t' " ")).
  - apply (it_pair 1 false 1 (u "x") (t' "x") 0 1 _ (t' "[1," ++ nl ++ nl ++ t' "   two ]")); [apply W; [word_ok|discriminate]|intro E; discriminate|].
    apply (ft_items 1 true 0 [] [_; _] (t' "1," ++ nl ++ nl ++ t' "   two ")); [exact Z|].
    apply (is_more 1 true 0 _ (t' "1") [] (nl ++ nl ++ t' "   ") [_] (t' "two ")); [apply it_node, ft_scalar, W; [word_ok|discriminate]|exact Z| |].
    + apply (sp_lines 1 0 nl nl 3); [constructor|apply (bl_more 0 nl []); constructor|lia].
    + apply (is_one 1 true 0 _ (t' "two") (t' " ")); [apply it_node, ft_scalar, W; [word_ok|discriminate]|apply (sp_spaces 1 1)].
  - apply (sp_lines 1 0 crlf [] 2); [constructor|constructor|lia].
  - apply (sp_spaces 1 1).
  - apply (is_last 1 false 1 _ (t' "'y' : 3") (t' " ") (nl ++ t' " ")); [|apply (sp_spaces 1 1)|apply (sp_lines 1 0 nl [] 1); [constructor|constructor|lia]].
    apply (it_pair 1 false 1 _ (t' "'y'") 1 1 (u "3") (t' "3")); [|intro E; discriminate|apply ft_scalar, W; [word_ok|discriminate]].
    split; [|discriminate]. apply (stx_single (t' "y")). repeat constructor; cbn; intuition lia.
Qed.
Definition json_value : json :=
  JObject [(t' "a", JArray [JWord (t' "1"); JArray []; JText (t' "x y")]); (t' "b", JObject []); (t' "c", JArray [JObject [([], JWord (t' "null"))]])].
Lemma json_value_simple : simple json_value.
Proof.
  cbn [simple json_value fold_right fst snd].
  repeat match goal with
    | |- _ /\ _ => split
    | |- True => exact I
    | |- Forall double_char [] => constructor
    | |- Forall double_char _ => cbn; repeat (apply Forall_cons; [cbn; unfold double_char; cbn; intuition lia|]); apply Forall_nil
    | |- plain_word _ => word_ok
    | |- hd _ _ <> _ => discriminate
  end.
Qed.

(** ** A word in brackets *)
Fixpoint padded (m n : nat) (w : text) : text := match n with O => w | S n => 91 :: spaces m ++ padded m n w ++ spaces m ++ [93] end.
Lemma padded_text m w : plain_word w -> hd 0 w <> 58 -> forall n, flow_text 0 n (nested n (NText w UnknownQuoting)) (padded m n w).
Proof.
  intros Hw H0. assert (S : sep_text 0 (spaces m)) by constructor. induction n as [|n IH]; cbn [padded nested].
  - apply ft_scalar. split; [apply stx_plain, pt_word, Hw|exact H0].
  - assert (E : spaces m ++ padded m n w ++ spaces m ++ [93] = spaces m ++ (padded m n w ++ spaces m) ++ [93]) by (rewrite <- app_assoc; reflexivity). rewrite E.
    apply (ft_items 0 true n (spaces m) [_] (padded m n w ++ spaces m) S). apply is_one; [|exact S]. apply it_node, IH.
Qed.
Theorem levels_parse n w m : (n <= 5)%nat -> plain_word w -> hd 0 w <> 58 ->
  forall digit omit fuel, let doc := padded m n w in (4 * length doc + 4 <= fuel)%nat ->
    parse_string digit fuel omit doc = Fin (inl (if omit then nested n (NText w UnknownQuoting) else NStream [nested n (NText w UnknownQuoting)])) tt.
Proof. intros Hn Hw H0. apply (flows_parse n _ _ Hn (padded_text m w Hw H0 n)). Qed.
