(** Whatever the tokens are, the parser gives trees of documents. *)
From Coq Require Import String.
From Verif Require Import Base YamlChar Token Ast CPAccessor Lexer Balance Generator Parser ParserFlow ParserBlock ParserDocs ParsedSpec.
Local Open Scope parser_scope.

(** ** what programs may give *)
Fixpoint every {A} (P : A -> Prop) (p : prog A) : Prop :=
  match p with
  | Ret a => P a
  | Stuck => True
  | Next k => forall t, every P (k t)
  | SetCp k => every P k
  | Commit k => every P k
  | Rollback k => forall t, every P (k t)
  | Raw _ k => every P k
  end.
Lemma every_bind {A B} (P : A -> Prop) (Q : B -> Prop) p (f : A -> prog B) :
  every P p -> (forall a, P a -> every Q (f a)) -> every Q (pbind p f).
Proof. intros H Hf. induction p; cbn in *; auto. Qed.
Lemma every_true {A} (p : prog A) : every (fun _ => True) p.
Proof. induction p; cbn; auto. Qed.
Lemma every_run {S A} (st : stream S) (P : A -> Prop) p : every P p -> forall a x a', run_acc st p a = Fin x a' -> P x.
Proof.
  induction p as [y| |k IH|k IH|k IH|k IH|b k IH]; cbn; intros H ac x a' E.
  - inversion E. subst. exact H.
  - discriminate.
  - destruct (acc_next _ _) as [[]|]; [|discriminate]. eapply IH; eauto.
  - eauto.
  - eauto.
  - destruct (acc_rollback _) as [[]|]; [|discriminate]. eapply IH; eauto.
  - eauto.
Qed.

Definition gives {A} (P : A -> Prop) (m : M A) : Prop := forall s, every (fun r => P (fst r)) (m s).
Lemma gives_bind {A B} (P : A -> Prop) (Q : B -> Prop) m (f : A -> M B) : gives P m -> (forall a, P a -> gives Q (f a)) -> gives Q (bind m f).
Proof. intros H Hf s. unfold bind. eapply every_bind; [apply H|]. intros [a s'] Ha. apply Hf. exact Ha. Qed.
Lemma gives_any {A} (m : M A) : gives (fun _ => True) m.
Proof. intro s. apply every_true. Qed.
Lemma gives_then {A B} (Q : B -> Prop) (m : M A) (f : A -> M B) : (forall a, gives Q (f a)) -> gives Q (bind m f).
Proof. intro Hf. eapply gives_bind; [apply gives_any|]. auto. Qed.
Lemma gives_ret {A} (P : A -> Prop) a : P a -> gives P (ret a).
Proof. intros H s. exact H. Qed.
Lemma gives_stuck {A} (P : A -> Prop) : gives P stuck.
Proof. intro s. exact I. Qed.
Lemma gives_weak {A} (P Q : A -> Prop) m : gives P m -> (forall a, P a -> Q a) -> gives Q m.
Proof. intros H HQ s. specialize (H s). revert H. generalize (m s). induction p; cbn; auto. Qed.
Lemma gives_loop {A} fuel (P : A -> Prop) body (a : A) : P a -> (forall a, P a -> gives (fun r => P (fst r)) (body a)) -> gives P (loop fuel body a).
Proof.
  unfold loop. intros Ha Hb. revert a Ha. induction fuel as [|n IH]; intros a Ha; [apply gives_stuck|]. cbn [loop_go].
  eapply gives_bind; [apply Hb, Ha|]. intros [a' []] Hr; [apply IH|apply gives_ret]; exact Hr.
Qed.

(** what a production gives if it succeeds *)
Definition good (P : node -> Prop) (n : node) : Prop := valid_node n = true -> P n.
Lemma good_invalid P : good P NInvalid.
Proof. discriminate. Qed.
Lemma good_nil P : good P NNil.
Proof. discriminate. Qed.
Lemma good_of (P : node -> Prop) n : P n -> good P n.
Proof. intros H _. exact H. Qed.
Lemma gives_invalid P : gives (good P) invalid.
Proof. apply gives_ret, good_invalid. Qed.
Lemma gives_unless P m : gives (good P) m -> gives (good P) (unless_errors m).
Proof. intro H. apply gives_then. intros []; [apply gives_ret, good_invalid|exact H]. Qed.
Lemma gives_with_ind {A} (P : A -> Prop) i m : gives P m -> gives (fun r => P (fst r)) (with_ind i m).
Proof.
  intro H. do 2 (apply gives_then; intro). eapply gives_bind; [exact H|]. intros x Hx. do 2 (apply gives_then; intro). apply gives_ret. exact Hx.
Qed.
Lemma gives_with_ind_ {A} (P : A -> Prop) i m : gives P m -> gives P (with_ind_ i m).
Proof. intro H. eapply gives_bind; [apply gives_with_ind, H|]. intros [x j] Hx. apply gives_ret. exact Hx. Qed.
Lemma gives_with_buf {A} (P : A -> Prop) m : gives P m -> gives P (with_buf m).
Proof.
  intro H. do 2 (apply gives_then; intro). eapply gives_bind; [exact H|]. intros x Hx. apply gives_then; intro. apply gives_ret. exact Hx.
Qed.

(** ** the productions *)
Lemma good_content_doc n : good content n -> good document n.
Proof. intros H V. apply doc_content, H, V. Qed.
Lemma new_content_good p c : good properties p -> content c -> document (new_content p c).
Proof. intros Hp Hc. unfold new_content. destruct (valid_node p) eqn:V; [apply doc_properties; auto|apply doc_content, Hc]. Qed.
Definition is_tag (n : node) : Prop := exists s, n = NTag s.
Definition is_anchor (n : node) : Prop := exists s, n = NAnchor s.
Definition is_alias (n : node) : Prop := exists s, n = NAlias s.

(** Productions step by step: what is not a production of a tree is skipped. *)
Ltac leaf := first [apply good_invalid | apply good_nil | assumption | apply good_of; solve [eauto 8 using doc_content, new_content_good with given] | solve [eauto 8 using doc_content, new_content_good with given]].
Ltac step :=
  match goal with
  | |- gives _ (unless_errors _) => apply gives_unless
  | |- gives _ invalid => apply gives_invalid
  | |- gives _ (with_buf _) => apply gives_with_buf
  | |- gives _ (with_ind_ _ _) => apply gives_with_ind_
  | |- gives _ stuck => apply gives_stuck
  | |- gives _ (ret _) => apply gives_ret
  | H : good ?P ?n |- gives _ (if valid_node ?n then _ else _) => let V := fresh "V" in destruct (valid_node n) eqn:V; [apply H in V|clear V]
  | |- gives _ (if ?b then _ else _) => destruct b
  | |- gives _ (match ?x with _ => _ end) => destruct x
  end.
Ltac known := eauto 3 with given.

Create HintDb given.
Section Productions.
  Variable fuel : nat.

  Lemma alias_gives : gives (good is_alias) parse_alias_node.
  Proof. unfold parse_alias_node. repeat first [step | apply gives_then; intro]. intros _. eexists. reflexivity. Qed.
  Lemma anchor_gives : gives (fun n => n = NInvalid \/ is_anchor n) parse_anchor_property.
  Proof.
    unfold parse_anchor_property, unless_errors. repeat first [apply gives_then; intro | apply gives_ret | match goal with |- gives _ (if ?b then _ else _) => destruct b end].
    all: try (left; reflexivity). right. eexists. reflexivity.
  Qed.
  Lemma tag_gives : gives (fun n => n = NInvalid \/ is_tag n) parse_tag_property.
  Proof.
    unfold parse_tag_property, unless_errors. repeat first [apply gives_then; intro | apply gives_ret | match goal with |- gives _ (if ?b then _ else _) => destruct b end
      | match goal with |- gives _ (let _ := _ in _) => cbv zeta end | match goal with |- gives _ (match ?b with _ => _ end) => destruct b end].
    all: try (left; reflexivity). all: right; eexists; reflexivity.
  Qed.
  Lemma properties_give ctx : gives (good properties) (parse_properties fuel ctx).
  Proof.
    unfold parse_properties. apply gives_unless, gives_then. intros []; try apply gives_invalid.
    - eapply gives_bind; [apply anchor_gives|]. intros t Ht. destruct (valid_node t) eqn:V; [|apply gives_invalid].
      destruct Ht as [-> |[s ->]]; [discriminate|]. apply gives_then; intro. apply gives_then; intro ok.
      eapply gives_bind with (P := fun n => absent n \/ is_tag n).
      + destruct ok; [|apply gives_ret; left; left; reflexivity]. eapply gives_weak; [apply tag_gives|]. intros n [-> |H]; [left; right; reflexivity|right; exact H].
      + intros n Hn. apply gives_then; intro. apply gives_ret, good_of. destruct Hn as [Hn|[r ->]]; [apply props_anchor, Hn|apply props_both].
    - eapply gives_bind; [apply tag_gives|]. intros t Ht. destruct (valid_node t) eqn:V; [|apply gives_invalid].
      destruct Ht as [-> |[s ->]]; [discriminate|]. apply gives_then; intro. apply gives_then; intro ok.
      eapply gives_bind with (P := fun n => absent n \/ is_anchor n).
      + destruct ok; [|apply gives_ret; left; left; reflexivity]. eapply gives_weak; [apply anchor_gives|]. intros n [-> |H]; [left; right; reflexivity|right; exact H].
      + intros n Hn. apply gives_then; intro. apply gives_ret, good_of. destruct Hn as [Hn|[r ->]]; [apply props_tag, Hn|apply props_both].
  Qed.
  (** scalars *)
  Lemma plain_one_line_gives ctx : gives (good content) (parse_plain_one_line fuel ctx).
  Proof. unfold parse_plain_one_line. repeat first [step | apply gives_then; intro]; apply good_of; constructor. Qed.
  Lemma plain_gives ctx : gives (good content) (parse_plain fuel ctx).
  Proof.
    unfold parse_plain, parse_plain_multi_line. destruct ctx; try apply gives_invalid; try apply plain_one_line_gives.
    all: repeat first [step | apply gives_then; intro]; apply good_of; constructor.
  Qed.
  Lemma quoted_gives quote cs q break ctx : gives (good content) (parse_quoted fuel quote cs q break ctx).
  Proof.
    assert (H : gives (good content) (parse_quoted_text fuel cs q break ctx)).
    { unfold parse_quoted_text, parse_quoted_multi_line, parse_quoted_one_line. destruct ctx; repeat first [step | apply gives_then; intro]; apply good_of; constructor. }
    unfold parse_quoted. apply gives_unless, gives_then. intro. step; [|step]. apply gives_then. intro. eapply gives_bind; [exact H|].
    intros n Hn. step; [|step]. apply gives_then. intro. step; [|step]. apply gives_then. intro. step. apply good_of, V.
  Qed.
  Lemma generic_gives c ctx : (forall ctx, gives (good content) (c ctx)) -> gives (good document) (parse_generic_flow_node fuel c ctx).
  Proof.
    intro H. unfold parse_generic_flow_node. apply gives_unless, gives_then. intro.
    eapply gives_bind; [apply alias_gives|]. intros n Hn. step.
    - apply gives_then. intro. step. destruct V as [s ->]. apply good_of, doc_alias.
    - do 2 (apply gives_then; intro). eapply gives_bind; [apply H|]. intros c1 Hc. step.
      + apply gives_then. intro. step. apply good_of, doc_content, V.
      + apply gives_then. intro. eapply gives_bind; [apply properties_give|]. intros p Hp. pose proof Hp as Hp2. step; [|step].
        do 2 (apply gives_then; intro). eapply gives_bind with (P := good content); [step; [apply H|step; exact Hc]|].
        intros c2 Hc2. step; apply gives_then; intro; step; apply good_of, new_content_good; auto. constructor.
  Qed.
  Lemma yaml_node_gives ctx : gives (good document) (parse_flow_yaml_node fuel ctx).
  Proof. apply generic_gives, plain_gives. Qed.
  Lemma implicit_yaml_key_gives ctx : gives (good document) (parse_implicit_yaml_key fuel ctx).
  Proof.
    unfold parse_implicit_yaml_key. step. eapply gives_bind; [apply gives_with_ind_, yaml_node_gives|]. intros n Hn.
    step; [|step]. apply gives_then; intro; step. apply good_of, V.
  Qed.
  (** one alternative after the other *)
  Lemma gives_or P (m k : M node) : gives (good P) m -> gives (good P) k ->
    gives (good P) (set_checkpoint ;; n <- m ;; if valid_node n then commit ;; ret n else rollback ;; k).
  Proof.
    intros Hm Hk. apply gives_then; intro. eapply gives_bind; [exact Hm|]. intros n Hn. step; apply gives_then; intro; [step; apply good_of, V|exact Hk].
  Qed.

  Section Json.
    Variable json : context -> M node.
    Hypothesis Hj : forall ctx, gives (good content) (json ctx).

    Lemma json_node_gives ctx : gives (good document) (parse_flow_json_node fuel json ctx).
    Proof.
      unfold parse_flow_json_node. apply gives_unless, gives_then. intro. eapply gives_bind; [apply properties_give|]. intros p Hp.
      do 2 (apply gives_then; intro). eapply gives_bind; [apply Hj|]. intros c Hc. step; [|step]. step. apply good_of, new_content_good; assumption.
    Qed.
    Lemma flow_node_gives ctx : gives (good document) (parse_flow_node fuel json ctx).
    Proof.
      unfold parse_flow_node. apply generic_gives. intro c. unfold parse_flow_content. apply gives_unless. apply gives_or; [apply plain_gives|apply Hj].
    Qed.
    Lemma implicit_json_key_gives ctx : gives (good document) (parse_implicit_json_key fuel json ctx).
    Proof.
      unfold parse_implicit_json_key. step. eapply gives_bind; [apply gives_with_ind_, json_node_gives|]. intros n Hn.
      step; [|step]. apply gives_then; intro; step. apply good_of, V.
    Qed.
    Lemma null_doc : document NNull.
    Proof. apply doc_content, con_null. Qed.
    Lemma separate_value_gives ctx : gives (good document) (parse_flow_mapping_separate_value fuel json ctx).
    Proof.
      unfold parse_flow_mapping_separate_value. apply gives_unless, gives_then. intro. step; [|step]. do 2 (apply gives_then; intro). step; [step|].
      do 2 (apply gives_then; intro). eapply gives_bind with (P := good document); [step; [apply flow_node_gives|step]|].
      intros n Hn. step; apply gives_then; intro; step; apply good_of; [exact V|apply null_doc].
    Qed.
    Lemma adjacent_value_gives ctx : gives (good document) (parse_flow_mapping_adjacent_value fuel json ctx).
    Proof.
      unfold parse_flow_mapping_adjacent_value. apply gives_unless, gives_then. intro. step; [|step]. do 3 (apply gives_then; intro).
      eapply gives_bind; [apply flow_node_gives|]. intros n Hn. step; apply gives_then; intro; step; apply good_of; [exact V|apply null_doc].
    Qed.
    Lemma key_then_value_gives k v ctx : gives (good document) k -> gives (good document) v -> gives (good pair) (parse_key_then_value fuel k v ctx).
    Proof.
      intros Hk Hv. unfold parse_key_then_value. step. eapply gives_bind; [exact Hk|]. intros n Hn. step; [|step]. do 2 (apply gives_then; intro).
      eapply gives_bind; [exact Hv|]. intros m Hm. step; apply gives_then; intro; step; apply good_of; constructor; auto. apply null_doc.
    Qed.
    Lemma empty_key_gives ctx : gives (good pair) (parse_flow_mapping_empty_key_entry fuel json ctx).
    Proof.
      unfold parse_flow_mapping_empty_key_entry. step. eapply gives_bind; [apply separate_value_gives|]. intros n Hn. step; [|step]. step.
      apply good_of. constructor; [apply null_doc|exact V].
    Qed.
    Lemma implicit_entry_gives ctx : gives (good pair) (parse_flow_mapping_implicit_entry fuel json ctx).
    Proof.
      unfold parse_flow_mapping_implicit_entry. step. apply gives_or; [|apply gives_or; [|apply empty_key_gives]].
      - apply key_then_value_gives; [apply yaml_node_gives|apply separate_value_gives].
      - apply key_then_value_gives; [apply json_node_gives|apply adjacent_value_gives].
    Qed.
    Lemma explicit_entry_gives ctx : gives (good pair) (parse_flow_mapping_explicit_entry fuel json ctx).
    Proof.
      unfold parse_flow_mapping_explicit_entry. step. apply gives_or; [apply implicit_entry_gives|]. step. apply good_of. constructor; apply null_doc.
    Qed.
    Lemma mapping_entry_gives ctx : gives (good pair) (parse_flow_mapping_entry fuel json ctx).
    Proof.
      unfold parse_flow_mapping_entry. apply gives_unless, gives_then. intro.
      eapply gives_bind with (P := good pair).
      - step; [|step]. do 3 (apply gives_then; intro). eapply gives_bind with (P := good pair); [step; [apply explicit_entry_gives|step]|].
        intros n Hn. step; apply gives_then; intro; step; [apply good_of, V|apply good_invalid].
      - intros n Hn. step; [step; apply good_of, V|]. eapply gives_bind; [apply implicit_entry_gives|]. intros m Hm. step; [|step]. step. apply good_of, V.
    Qed.
    Lemma mapping_entries_give ctx : gives (good content) (parse_flow_mapping_entries fuel json ctx).
    Proof.
      unfold parse_flow_mapping_entries. step. eapply gives_bind; [apply mapping_entry_gives|]. intros n Hn. step; [|step].
      eapply gives_bind with (P := Forall pair).
      - apply gives_loop; [auto|]. intros l Hl. do 2 (apply gives_then; intro). step; [|step; exact Hl]. do 3 (apply gives_then; intro).
        eapply gives_bind; [apply mapping_entry_gives|]. intros m Hm. step; apply gives_then; intro; step; [apply Forall_app; auto|exact Hl].
      - intros l Hl. step. apply good_of, con_map, Hl.
    Qed.
    Lemma flow_mapping_gives ctx : gives (good content) (parse_flow_mapping fuel json ctx).
    Proof.
      unfold parse_flow_mapping. apply gives_unless, gives_then. intro. step; [|step]. do 3 (apply gives_then; intro).
      eapply gives_bind; [apply mapping_entries_give|]. intros n Hn.
      eapply gives_bind with (P := content).
      - step; apply gives_then; intro; step; [exact V|apply con_map; constructor].
      - intros m Hm. apply gives_then; intro. step; [|step]. apply gives_then; intro. step. apply good_of, Hm.
    Qed.
    Lemma flow_pair_entry_gives ctx : gives (good pair) (parse_flow_pair_entry fuel json ctx).
    Proof.
      unfold parse_flow_pair_entry. step. apply gives_or; [|apply gives_or; [apply empty_key_gives|]].
      - unfold parse_flow_pair_yaml_key_entry. step. eapply gives_bind; [apply implicit_yaml_key_gives|]. intros n Hn. step; [|step].
        eapply gives_bind; [apply separate_value_gives|]. intros m Hm. step; [|step]. step. apply good_of. constructor; assumption.
      - unfold parse_flow_pair_json_key_entry. step. eapply gives_bind; [apply implicit_json_key_gives|]. intros n Hn. step; [|step].
        eapply gives_bind; [apply adjacent_value_gives|]. intros m Hm. step; [|step]. step. apply good_of. constructor; assumption.
    Qed.
    Lemma flow_pair_gives ctx : gives (good pair) (parse_flow_pair fuel json ctx).
    Proof.
      unfold parse_flow_pair. step. apply gives_or; [apply flow_pair_entry_gives|]. apply gives_then; intro. step; [|step].
      do 2 (apply gives_then; intro). step; [|step]. eapply gives_bind; [apply explicit_entry_gives|]. intros n Hn. step; [|step]. step. apply good_of, V.
    Qed.
    Definition element (n : node) : Prop := document n \/ pair n.
    Lemma flow_sequence_entry_gives ctx : gives (good element) (parse_flow_sequence_entry fuel json ctx).
    Proof.
      unfold parse_flow_sequence_entry. step.
      apply gives_or.
      - eapply gives_weak; [apply flow_pair_gives|]. intros n Hn V. right. auto.
      - eapply gives_weak; [apply flow_node_gives|]. intros n Hn V. left. auto.
    Qed.
    Lemma flow_sequence_entries_give ctx : gives (good content) (parse_flow_sequence_entries fuel json ctx).
    Proof.
      unfold parse_flow_sequence_entries. step. eapply gives_bind; [apply flow_sequence_entry_gives|]. intros n Hn. step; [|step].
      eapply gives_bind with (P := Forall element).
      - apply gives_loop; [auto|]. intros l Hl. do 2 (apply gives_then; intro). step; [|step; exact Hl]. do 3 (apply gives_then; intro).
        eapply gives_bind; [apply flow_sequence_entry_gives|]. intros m Hm. step; apply gives_then; intro; step; [apply Forall_app; auto|exact Hl].
      - intros l Hl. step. apply good_of, con_seq, Hl.
    Qed.
    Lemma flow_sequence_gives ctx : gives (good content) (parse_flow_sequence fuel json ctx).
    Proof.
      unfold parse_flow_sequence. apply gives_unless, gives_then. intro. step; [|step]. do 3 (apply gives_then; intro).
      eapply gives_bind with (P := good content); [unfold parse_in_flow; destruct ctx; match goal with |- gives _ invalid => step | |- _ => apply flow_sequence_entries_give end|]. intros n Hn.
      eapply gives_bind with (P := content).
      - step; apply gives_then; intro; step; [exact V|apply con_seq; constructor].
      - intros m Hm. apply gives_then; intro. step; [|step]. apply gives_then; intro. step. apply good_of, Hm.
    Qed.
    Lemma json_body_gives ctx : gives (good content) (json_content_body fuel json ctx).
    Proof.
      unfold json_content_body. apply gives_then. intros ty.
      destruct ty; match goal with
      | |- gives _ invalid => step
      | |- gives _ (parse_flow_sequence _ _ _) => apply flow_sequence_gives
      | |- gives _ (parse_flow_mapping _ _ _) => apply flow_mapping_gives
      | |- gives _ (parse_single_quoted _ _) => unfold parse_single_quoted; apply quoted_gives
      | |- _ => unfold parse_double_quoted; apply quoted_gives end.
    Qed.
  End Json.
  Lemma json_content_gives n : forall ctx, gives (good content) (parse_flow_json_content fuel n ctx).
  Proof. induction n as [|n IH]; intro ctx; cbn [parse_flow_json_content]; [step|]. apply json_body_gives, IH. Qed.
  Lemma json_given ctx : gives (good content) (json_content fuel ctx).
  Proof. unfold json_content. apply json_content_gives. Qed.
  Lemma flow_in_block_gives : gives (good document) (parse_flow_in_block fuel).
  Proof.
    unfold parse_flow_in_block. apply gives_then; intro. step. do 2 (apply gives_then; intro). step; [|step].
    eapply gives_bind; [apply (flow_node_gives (json_content fuel)), json_given|]. intros n Hn. step; [|step]. apply gives_then; intro. step; [|step]. step. apply good_of, V.
  Qed.

  (** blocks *)
  Lemma literal_gives : gives (good content) (parse_literal fuel).
  Proof.
    unfold parse_literal, parse_literal_content. repeat first [step | apply gives_then; intro]; apply good_of; constructor.
  Qed.
  Lemma folded_gives : gives (good content) (parse_folded fuel).
  Proof.
    unfold parse_folded, parse_folded_content. repeat first [step | apply gives_then; intro]; apply good_of; constructor.
  Qed.
  Lemma block_scalar_gives ctx : gives (good document) (parse_block_scalar fuel ctx).
  Proof.
    unfold parse_block_scalar. apply gives_unless, gives_then. intro. apply gives_then; intro. step; [|apply gives_then; intro; step].
    apply gives_then; intro. eapply gives_bind; [apply properties_give|]. intros p Hp.
    eapply gives_bind with (P := good properties).
    - step; [apply gives_then; intro; step|]; apply gives_then; intro; step; (apply good_of; assumption) || apply good_nil.
    - intros q Hq. do 2 (apply gives_then; intro). eapply gives_bind with (P := good content).
      + step; match goal with |- gives _ invalid => step | |- gives _ (parse_literal _) => apply literal_gives | |- _ => apply folded_gives end.
      + intros c Hc. step; [|step]. step. apply good_of, new_content_good; assumption.
  Qed.
  Lemma more_entries_give (P : node -> Prop) entry first : gives (good P) entry -> P first -> gives (Forall P) (more_entries fuel entry first).
  Proof.
    intros H Hf. unfold more_entries. apply gives_loop; [auto|]. intros l Hl. do 2 (apply gives_then; intro). step; [|apply gives_then; intro; step; exact Hl].
    eapply gives_bind; [exact H|]. intros n Hn. step; apply gives_then; intro; step; [apply Forall_app; auto|exact Hl].
  Qed.
  Section Knot.
    Variables (block_node block_indented : context -> M node).
    Hypothesis Hn : forall ctx, gives (good document) (block_node ctx).
    Hypothesis Hi : forall ctx, gives (good document) (block_indented ctx).

    Lemma implicit_key_gives : gives (good document) (parse_block_mapping_implicit_key fuel).
    Proof. unfold parse_block_mapping_implicit_key. step. apply gives_or; [apply (implicit_json_key_gives (json_content fuel)), json_given|apply implicit_yaml_key_gives]. Qed.
    Lemma implicit_value_gives : gives (good document) (parse_block_mapping_implicit_value fuel block_node).
    Proof.
      unfold parse_block_mapping_implicit_value. apply gives_unless, gives_then. intro. step; [|step]. apply gives_then; intro. apply gives_or; [apply Hn|].
      apply gives_then; intro. step; [|step]. step. apply good_of, null_doc.
    Qed.
    Lemma block_implicit_entry_gives : gives (good pair) (parse_block_mapping_implicit_entry fuel block_node).
    Proof.
      unfold parse_block_mapping_implicit_entry. apply gives_unless, gives_then. intro. eapply gives_bind; [apply implicit_key_gives|]. intros k Hk.
      eapply gives_bind with (P := document).
      - step; apply gives_then; intro; step; [exact V|apply null_doc].
      - intros k2 Hk2. eapply gives_bind; [apply implicit_value_gives|]. intros v Hv. step; [|step]. step. apply good_of. constructor; assumption.
    Qed.
    Lemma block_explicit_entry_gives : gives (good pair) (parse_block_mapping_explicit_entry fuel block_indented).
    Proof.
      unfold parse_block_mapping_explicit_entry, parse_block_mapping_explicit_key, parse_block_mapping_explicit_value. step.
      eapply gives_bind with (P := good document).
      - apply gives_unless, gives_then. intro. step; [|step]. apply gives_then; intro. apply Hi.
      - intros k Hk. step; [|step]. apply gives_then; intro. eapply gives_bind with (P := good document).
        + apply gives_unless, gives_then. intro. step; [|step]. apply gives_then; intro. step; [|step]. apply gives_then; intro. apply Hi.
        + intros v Hv. eapply gives_bind with (P := document).
          * step; apply gives_then; intro; step; [assumption|apply null_doc].
          * intros v2 Hv2. step. apply good_of. constructor; assumption.
    Qed.
    Lemma block_mapping_entry_gives : gives (good pair) (parse_block_mapping_entry fuel block_node block_indented).
    Proof.
      unfold parse_block_mapping_entry. apply gives_unless, gives_then. intros ty. destruct ty; match goal with |- gives _ (parse_block_mapping_explicit_entry _ _) => apply block_explicit_entry_gives | |- _ => apply block_implicit_entry_gives end.
    Qed.
    Lemma block_sequence_entry_gives : gives (good document) (parse_block_sequence_entry block_indented).
    Proof.
      unfold parse_block_sequence_entry. apply gives_unless, gives_then. intro. step; [|step]. apply gives_then; intro. apply gives_then. intros ty. destruct ty; match goal with |- gives _ invalid => step | |- _ => apply Hi end.
    Qed.
    Lemma block_collection_gives P entry build : gives (good P) entry -> (forall l, Forall P l -> content (build l)) -> gives (good content) (block_collection fuel entry build).
    Proof.
      intros He Hb. unfold block_collection. apply gives_unless, gives_then. intro. step. apply gives_then; intro. step; [|step].
      eapply gives_bind; [exact He|]. intros n Hn1. step; [|step]. eapply gives_bind; [apply more_entries_give; [exact He|exact V]|]. intros l Hl. step. apply good_of, Hb, Hl.
    Qed.
    Lemma compact_collection_gives P entry build : gives (good P) entry -> (forall l, Forall P l -> content (build l)) -> gives (good content) (compact_collection fuel entry build).
    Proof.
      intros He Hb. unfold compact_collection. step.
      eapply gives_bind; [exact He|]. intros n Hn1. step; [|step]. eapply gives_bind; [apply more_entries_give; [exact He|exact V]|]. intros l Hl. step. apply good_of, Hb, Hl.
    Qed.
    Lemma docs_seq l : Forall document l -> content (NSequence l).
    Proof. intro H. apply con_seq. eapply Forall_impl; [|exact H]. auto. Qed.
    Lemma seq_space_gives ctx : gives (good content) (parse_seq_space fuel block_indented ctx).
    Proof.
      assert (H : gives (good content) (parse_block_sequence fuel block_indented)) by (eapply block_collection_gives; [apply block_sequence_entry_gives|apply docs_seq]).
      unfold parse_seq_space. destruct ctx; try step; [exact H|]. apply gives_then; intro. eapply gives_bind; [exact H|]. intros n Hn1. apply gives_then; intro. step. exact Hn1.
    Qed.
    Lemma parse_block_collection_gives ctx : gives (good document) (parse_block_collection fuel block_node block_indented ctx).
    Proof.
      unfold parse_block_collection. step. do 3 (apply gives_then; intro). eapply gives_bind with (P := good properties).
      - step; [|apply gives_then; intro; step; apply good_nil]. eapply gives_bind; [apply properties_give|]. intros p Hp. step; apply gives_then; intro; step; [apply good_of, V|apply good_nil].
      - intros p Hp. do 2 (apply gives_then; intro). step; [|step]. apply gives_then; intro. eapply gives_bind; [apply seq_space_gives|]. intros c Hc. step.
        + apply gives_then; intro. step. apply good_of, new_content_good; assumption.
        + apply gives_then; intro. eapply gives_bind; [eapply block_collection_gives; [apply block_mapping_entry_gives|apply con_map]|]. intros c2 Hc2.
          step; [|step]. step. apply good_of, new_content_good; assumption.
    Qed.
    Lemma block_node_body_gives ctx : gives (good document) (block_node_body fuel block_node block_indented ctx).
    Proof.
      unfold block_node_body. step. apply gives_or.
      - unfold parse_block_in_block. step. apply gives_or; [apply block_scalar_gives|]. eapply gives_bind; [apply parse_block_collection_gives|].
        intros n Hn1. step; [|step]. step. apply good_of, V.
      - eapply gives_bind; [apply flow_in_block_gives|]. intros n Hn1. step; [|step]. step. apply good_of, V.
    Qed.
    Lemma block_indented_body_gives ctx : gives (good document) (block_indented_body fuel block_node block_indented ctx).
    Proof.
      unfold block_indented_body. apply gives_unless. do 4 (apply gives_then; intro). cbv zeta.
      eapply gives_bind; [apply gives_with_ind; eapply compact_collection_gives; [apply block_sequence_entry_gives|apply docs_seq]|]. intros [c i] Hc. cbn [fst snd] in *. step.
      - do 2 (apply gives_then; intro). step. apply good_of, doc_content, V.
      - apply gives_then; intro. eapply gives_bind; [apply gives_with_ind; eapply compact_collection_gives; [apply block_mapping_entry_gives|apply con_map]|].
        intros [c2 i2] Hc2. cbn [fst snd] in *. step.
        + apply gives_then; intro. step. apply good_of, doc_content, V.
        + apply gives_then; intro. apply gives_or; [apply Hn|]. apply gives_then; intro. step; [|step]. step. apply good_of, null_doc.
    Qed.
  End Knot.
  Lemma block_gives n : forall b ctx, gives (good document) (block fuel n b ctx).
  Proof.
    induction n as [|n IH]; intros b ctx; cbn [block]; [step|]. destruct b; [apply block_indented_body_gives|apply block_node_body_gives]; intro; apply IH.
  Qed.

  (** streams *)
  Lemma bare_gives : gives (good document) (parse_bare_document fuel).
  Proof. unfold parse_bare_document, parse_block_node. apply gives_with_ind_, block_gives. Qed.
  Lemma explicit_document_gives : gives (good document) (parse_explicit_document fuel).
  Proof.
    unfold parse_explicit_document. apply gives_unless, gives_then. intro. step; [|step]. apply gives_then; intro. apply gives_or; [apply bare_gives|].
    do 2 (apply gives_then; intro). step; apply gives_then; intro; step. apply good_of, null_doc.
  Qed.
  Variable is_digit_u : rune -> bool.
  Lemma any_document_gives : gives (good document) (parse_any_document is_digit_u fuel).
  Proof.
    unfold parse_any_document. step. apply gives_or; [|apply gives_or; [apply explicit_document_gives|apply gives_or; [apply bare_gives|step]]].
    unfold parse_directive_document. apply gives_unless, gives_then. intro. step; [|step]. apply gives_then; intro. apply explicit_document_gives.
  Qed.
  Lemma maybe_gives l : Forall document l -> gives (Forall document) (maybe_any_document is_digit_u fuel l).
  Proof.
    intro Hl. unfold maybe_any_document. apply gives_then; intro. eapply gives_bind; [apply any_document_gives|]. intros n Hn.
    step; apply gives_then; intro; step; [apply Forall_app; auto|exact Hl].
  Qed.
  Lemma stream_gives : gives (fun n => exists l, n = NStream l /\ Forall document l) (parse_stream is_digit_u fuel).
  Proof.
    unfold parse_stream. apply gives_then; intro. eapply gives_bind; [apply maybe_gives; constructor|]. intros l Hl.
    eapply gives_bind with (P := Forall document).
    - apply gives_loop; [exact Hl|]. clear l Hl. intros l Hl. do 2 (apply gives_then; intro). step.
      + apply gives_then; intro. eapply gives_bind; [apply maybe_gives, Hl|]. intros m Hm. step. exact Hm.
      + do 2 (apply gives_then; intro). step; [apply gives_then; intro; step; exact Hl|]. do 2 (apply gives_then; intro). step; [apply gives_then; intro; step; exact Hl|].
        do 2 (apply gives_then; intro). eapply gives_bind; [apply explicit_document_gives|]. intros n Hn. step; apply gives_then; intro; step; [apply Forall_app; auto|exact Hl].
    - intros m Hm. step. eauto.
  Qed.
End Productions.
