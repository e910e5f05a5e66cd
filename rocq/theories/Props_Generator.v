(** Property theorems C31-C36 and C42: names, aliases, the work list, struct fields and tags of the
    code generator; version texts; module paths. *)
From Coq Require Import String.
From Verif Require Import Base Generator GeneratorSpec GeneratorProofs.
Local Open Scope N_scope.

(** C31: every request for a function name is answered, and two answers of a run are the same exactly if
    purpose and type are the same. *)
Theorem C31_names_exist :
  forall T (T_eqb : T -> T -> bool) safe_name, (forall a b, T_eqb a b = true <-> a = b) ->
  forall requests, exists names st, function_names T_eqb safe_name requests [] names st.
Proof. intros T T_eqb safe Ht reqs. apply names_total; constructor. Qed.
Print Assumptions C31_names_exist.
Theorem C31_names_unique :
  forall T (T_eqb : T -> T -> bool) safe_name, (forall a b, T_eqb a b = true <-> a = b) ->
  forall requests names st, function_names T_eqb safe_name requests [] names st ->
  forall i j p t q u a b,
    nth_error requests i = Some (p, t) -> nth_error requests j = Some (q, u) ->
    nth_error names i = Some a -> nth_error names j = Some b ->
    (a = b <-> p = q /\ t = u).
Proof. intros T T_eqb safe Ht reqs ns st. apply names_unique. exact Ht. Qed.
Print Assumptions C31_names_unique.
(** three types, two of the same name and one whose name is that name with a number *)
Example C31_case :
  let safe (n : nat) := match n with 0%nat | 1%nat => t' "Item" | _ => t' "Item1" end in
  exists st, function_names Nat.eqb safe
    [(Decoding, 0); (Decoding, 2); (Decoding, 1); (Encoding, 1); (Decoding, 1)]%nat []
    [t' "yamlyDecodeItem"; t' "yamlyDecodeItem1"; t' "yamlyDecodeItem2"; t' "yamlyEncodeItem"; t' "yamlyDecodeItem2"] st.
Proof.
  eexists.
  eapply fns_cons; [apply fn_direct; exact I|].
  eapply fns_cons; [apply fn_direct; exact I|].
  eapply fns_cons; [eapply fn_fresh; [reflexivity|reflexivity| |reflexivity]|].
  { intros n v. cbn. destruct (text_eqb n _); [intros [= <-]; reflexivity|]. destruct (text_eqb n _); [intros [= <-]; reflexivity|discriminate]. }
  eapply fns_cons; [apply fn_direct; exact I|].
  eapply fns_cons; [|constructor].
  eapply fn_saved with (v := 1%nat); [reflexivity|reflexivity|reflexivity|reflexivity|reflexivity].
Qed.

(** C32: every package path gets an alias; two aliases are the same exactly if the paths, after a vendor
    directory, are; and the aliases that the engine has set beforehand stay reserved. *)
Theorem C32_aliases_unique :
  forall engine, engine = yayamls_imports \/ engine = goyaml_imports ->
  forall paths, exists aliases im,
    pkg_aliases paths engine = Some (aliases, im) /\
    forall i j p q a b,
      nth_error paths i = Some p -> nth_error paths j = Some q ->
      nth_error aliases i = Some a -> nth_error aliases j = Some b ->
      (a = b <-> exists r, unvendored p r /\ unvendored q r)
      /\ (forall r c, lookup r engine = Some c -> (a = c <-> unvendored p r)).
Proof.
  intros engine [-> | ->] paths; apply aliases_unique; [apply yayamls_imports_good|apply goyaml_imports_good].
Qed.
Print Assumptions C32_aliases_unique.
Example C32_case :
  option_map fst (pkg_aliases [t' "a.com/x/decode"; t' "b.com/yaml.v3"; t' "c.com/vendor/b.com/yaml.v3"; t' "github.com/KSpaceer/yamly"] yayamls_imports)
  = Some [t' "decode1"; t' "yaml_v3"; t' "yaml_v3"; t' "yamly"].
Proof. vm_compute. reflexivity. Qed.

(** C33: if the needed types are finitely many, generation ends: it has generated each exactly once, or
    there is one whose generation fails. *)
Theorem C33_each_once :
  forall T (T_eqb : T -> T -> bool) deps, (forall a b, T_eqb a b = true <-> a = b) ->
  forall roots all, (forall x, needed deps roots x -> In x all) ->
  exists F, forall fuel, (F <= fuel)%nat ->
    (exists done, generate_all T_eqb deps fuel roots = FDone done /\ NoDup done
       /\ (forall x, In x done <-> needed deps roots x)
       /\ (forall x, needed deps roots x -> exists l, deps x = Some l))
    \/ (generate_all T_eqb deps fuel roots = FError /\ exists x, needed deps roots x /\ deps x = None).
Proof. intros T T_eqb deps Ht roots all. exact (generation T_eqb (fun _ => []) Ht deps roots all). Qed.
Print Assumptions C33_each_once.
(** a cyclic graph *)
Example C33_case :
  generate_all Nat.eqb (fun n => nth_error [[1; 2]; [0; 3]; [2]; [1; 2]]%nat n) 9 [0%nat; 0%nat] = FDone [0; 2; 1; 3]%nat.
Proof. reflexivity. Qed.

(** C34.  Full statement: one field per name, the outer one if there are two, and no other field is lost.
    What holds: the fields are candidates, one of each name, with every own field.  A field with the inline
    option whose type is neither a struct nor a basic type is not a candidate and lost. *)
Theorem C34_fields_partial :
  forall is_upper inline_embedded tt fuel i fields,
    distinct_fields tt -> struct_fields is_upper inline_embedded tt fuel i = FDone fields ->
    NoDup (map sf_name fields)
    /\ (forall f, In f fields -> candidate is_upper inline_embedded tt i f)
    /\ (forall g, candidate is_upper inline_embedded tt i g -> exists f, In f fields /\ sf_name f = sf_name g)
    /\ (forall g, own is_upper inline_embedded tt i g -> In g fields).
Proof. intros up ie tt fuel i fields Hd H. exact (fields_spec up ie tt Hd fuel i fields H). Qed.
Print Assumptions C34_fields_partial.
Definition ascii_upper (c : rune) : bool := (65 <=? c) && (c <=? 90).
(** an outer struct with a field X and an embedded pointer to a struct with X and Y *)
Example C34_case :
  struct_fields ascii_upper true
    [TdStruct [(t' "X", 2%nat, false, t' "x"); (t' "In", 1%nat, true, [])]; TdPointer 3; TdBasic;
     TdStruct [(t' "X", 2%nat, false, []); (t' "Y", 2%nat, false, t' "y,omitempty")]] 5 0
  = FDone [(t' "X", 2%nat, false, t' "x"); (t' "Y", 2%nat, false, t' "y,omitempty")].
Proof. reflexivity. Qed.
(** an inlined map field is lost without an error *)
Theorem C34_inlined_map_refuted :
  exists tt f, In f [(t' "M", 1%nat, false, t' ",inline")] /\ nth_error tt 0 = Some (TdStruct [f]) /\
    public ascii_upper f /\ struct_fields ascii_upper true tt 9 0 = FDone [].
Proof.
  exists [TdStruct [(t' "M", 1%nat, false, t' ",inline")]; TdOther], (t' "M", 1%nat, false, t' ",inline").
  split; [left; reflexivity|]. split; [reflexivity|]. split; [exists 77, []; auto|reflexivity].
Qed.
Print Assumptions C34_inlined_map_refuted.
(** of two embedded structs the later one wins, even if its field is the deeper one: not as in Go *)
Theorem C34_depth_refuted :
  exists tt shallow deep,
    tt = [TdStruct [(t' "A", 1%nat, true, []); (t' "B", 2%nat, true, [])]; TdStruct [shallow];
          TdStruct [(t' "C", 3%nat, true, [])]; TdStruct [deep]; TdBasic]
    /\ sf_name shallow = sf_name deep /\ shallow <> deep /\ struct_fields ascii_upper true tt 9 0 = FDone [deep].
Proof.
  eexists _, (t' "X", 4%nat, false, t' "shallow"), (t' "X", 4%nat, false, t' "deep").
  split; [reflexivity|]. split; [reflexivity|]. split; [discriminate|reflexivity].
Qed.
Print Assumptions C34_depth_refuted.
(** a struct that embeds a pointer to itself: the generator never comes back *)
Theorem C34_self_embedding_refuted :
  forall is_upper fuel, struct_fields is_upper true [TdStruct [(t' "T", 1%nat, true, [])]; TdPointer 0] fuel 0 = FNoFuel.
Proof.
  intros up. apply (fields_loop up true _ 0 (t' "T", 1%nat, true, [])); [reflexivity| |left; reflexivity].
  left. split; [reflexivity|]. split; [reflexivity|]. exists []. constructor. auto.
Qed.
Print Assumptions C34_self_embedding_refuted.

(** C35: the meaning of tags. *)
Theorem C35_tags :
  forall tag name options, parts tag (name :: options) ->
    tg_name (parse_tags tag) = name
    /\ (tg_omitempty (parse_tags tag) = true <-> In (t' "omitempty") options)
    /\ (tg_inline (parse_tags tag) = true <-> In (t' "inline") options)
    /\ (tg_omit (parse_tags tag) = true <-> tag = t' "-").
Proof. exact tags_meaning. Qed.
Print Assumptions C35_tags.
Theorem C35_every_tag : forall tag, exists name options, parts tag (name :: options).
Proof.
  intros tag. pose proof (split_parts tag) as H. destruct (split_cons 44 tag) as (x & l & E). rewrite E in H. eauto.
Qed.
Print Assumptions C35_every_tag.
Example C35_case : parse_tags (t' "a b,flow,inline,,omitempty") = mkTags (t' "a b") false true true /\ parse_tags (t' "-,") = mkTags (t' "-") false false false.
Proof. split; reflexivity. Qed.

(** C36.  Full statement: accepted are exactly decimal digits, a dot, decimal digits.  What holds: so for
    what unicode.IsDigit calls a digit; the digits of YAML are the ASCII ones only. *)
Theorem C36_versions_partial :
  forall is_digit_u s, is_digit_u 46 = false ->
    (is_correct_version is_digit_u s = true <-> version_text (fun c => is_digit_u c = true) s).
Proof. intros d s. apply version_spec. Qed.
Print Assumptions C36_versions_partial.
Theorem C36_ascii_texts :
  forall is_digit_u s, (forall c, c < 128 -> (is_digit_u c = true <-> 48 <= c <= 57)) -> Forall (fun c => c < 128) s ->
    (is_correct_version is_digit_u s = true <-> version_text (fun c => 48 <= c <= 57) s).
Proof.
  intros d s Hd Hs. rewrite version_spec.
  - split; intros (a & b & -> & Ha & Hb & Fa & Fb); apply Forall_app in Hs as [Sa Sb]; inversion Sb as [|? ? _ Sb']; subst;
      exists a, b; repeat (split; [assumption || reflexivity|]); split; rewrite Forall_forall in *; intros c Hc;
      [apply Hd; auto|apply Hd; auto|apply Hd; auto|apply Hd; auto].
  - apply not_true_iff_false. rewrite Hd by lia. lia.
Qed.
Print Assumptions C36_ascii_texts.
Theorem C36_other_digits_refuted :
  forall is_digit_u, is_digit_u 1633 = true -> is_digit_u 1634 = true ->
    is_correct_version is_digit_u [1633; 46; 1634] = true /\ ~ version_text (fun c => 48 <= c <= 57) [1633; 46; 1634].
Proof.
  intros d H1 H2. split; [unfold is_correct_version; cbn; rewrite H1, H2; reflexivity|].
  intros (a & b & E & Ha & _ & Fa & _). destruct a as [|c a]; [congruence|]. injection E as <- _. inversion Fa. lia.
Qed.
Print Assumptions C36_other_digits_refuted.
Example C36_case : is_correct_version (fun c => (48 <=? c) && (c <=? 57)) (t' "1.25") = true /\ is_correct_version (fun c => (48 <=? c) && (c <=? 57)) (t' "1.2.5") = false.
Proof. split; reflexivity. Qed.

(** C42.  Full statement: the declared module is found.  What holds: so if it is declared in one line and
    no earlier line starts with the word module.  go.mod files may also declare it in brackets. *)
Theorem C42_line_form_partial :
  forall unquote_other before line path tail,
    Forall (fun l => ~ In 10 l /\ other_line l) before ->
    ~ In 10 line -> declares line path -> tail = [] \/ (exists more, tail = 10 :: more) ->
    module_path unquote_other (concat (map (fun l => l ++ [10]) before) ++ line ++ tail) = path.
Proof. exact module_found. Qed.
Print Assumptions C42_line_form_partial.
Definition lines (l : list text) : text := concat (map (fun x => x ++ [10]) l).
Example C42_case :
  module_path (fun _ => None) (lines [t' "// module old"; []; t' "modules a"; t' "  module  a.com/b // Deprecated: no"; t' "go 1.21"]) = t' "a.com/b"
  /\ declares (t' "  module  a.com/b // Deprecated: no") (t' "a.com/b") /\ other_line (t' "modules a").
Proof.
  split; [vm_compute; reflexivity|]. split.
  - apply (decl_plain (t' "  ") (t' "  ") (t' "a.com/b") (t' " ") (t' "// Deprecated: no"));
      try (repeat constructor; fail); try discriminate.
    + right. eexists. reflexivity.
    + intros a b E. repeat (destruct a as [|? a]; [discriminate|]; injection E as _ E). destruct a; discriminate.
    + repeat constructor; rewrite <- go_space_blank; discriminate.
    + intros q r [= <- _]. repeat split; discriminate.
  - intros ws c rest Hb E. destruct ws as [|w ws]; [|exfalso; injection E as <- _; inversion Hb as [|? ? H _]; apply go_space_blank in H; discriminate].
    injection E as <- _. rewrite <- go_space_blank. discriminate.
Qed.
(** the form in brackets gives the bracket *)
Theorem C42_block_form_refuted :
  forall unquote_other, module_path unquote_other (lines [t' "module ("; t' "  a.com/b"; t' ")"]) = t' "(".
Proof. reflexivity. Qed.
Print Assumptions C42_block_form_refuted.
