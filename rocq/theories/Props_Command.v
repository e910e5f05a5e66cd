(** C59, C60, C61: the command yamlygen. *)
From Coq Require Import String.
From Verif Require Import Base Generator Command CommandSpec CommandProofs.
Local Open Scope N_scope.

(** ** C59: the names of generated files *)

(** unicode.IsUpper, IsLower and ToLower are parameters; the conditions on them hold of Unicode. *)
Theorem C59_words :
  forall is_upper is_lower to_lower s,
    is_upper 0 = false -> is_lower 0 = false -> ~ In 95 s -> ~ In 0 s ->
    exists ws, words_of is_upper is_lower s ws /\ to_snake_case is_upper is_lower to_lower s = joined 95 (map (map to_lower) ws).
Proof. intros up lo low s U L. exact (snake_words up lo low U L s). Qed.
Print Assumptions C59_words.
(** With underscores in the name too. *)
Theorem C59_letters_kept :
  forall is_upper is_lower to_lower s,
    is_upper 0 = false -> (forall c, to_lower c = 95 <-> c = 95) -> ~ In 0 s ->
    filter (fun c => negb (c =? 95)) (to_snake_case is_upper is_lower to_lower s) = map to_lower (filter (fun c => negb (c =? 95)) s).
Proof. intros up lo low s U L. exact (snake_letters up lo low U L s). Qed.
Print Assumptions C59_letters_kept.
Theorem C59_no_upper_case :
  forall is_upper is_lower to_lower s,
    is_upper 0 = false -> (forall c, is_upper (to_lower c) = false) -> is_upper 95 = false ->
    Forall (fun c => is_upper c = false) (to_snake_case is_upper is_lower to_lower s).
Proof. intros up lo low s U L N. exact (snake_no_upper up lo low U L N s). Qed.
Print Assumptions C59_no_upper_case.

(** ASCII letters *)
Definition ascii_upper (c : rune) : bool := (65 <=? c) && (c <=? 90).
Definition ascii_lower (c : rune) : bool := (97 <=? c) && (c <=? 122).
Definition ascii_to_lower (c : rune) : rune := if ascii_upper c then c + 32 else c.
Notation snake := (to_snake_case ascii_upper ascii_lower ascii_to_lower).
Example C59_example :
  snake (t' "HTTPServerConfig2") = t' "http_server_config2" /\ snake (t' "userID") = t' "user_id" /\ snake (t' "a__b") = t' "a_b"
  /\ (forall s, ~ In 95 s -> ~ In 0 s -> exists ws, words_of ascii_upper ascii_lower s ws /\ snake s = joined 95 (map (map ascii_to_lower) ws)).
Proof. split; [reflexivity|split; [reflexivity|split; [reflexivity|]]]. intros s. exact (C59_words _ _ _ s eq_refl eq_refl). Qed.
(** Different types of a package have the same file, so that the code of the second one replaces that of the first. *)
Theorem C59_files_refuted :
  snake (t' "HTTPServer") = snake (t' "HttpServer") /\ snake (t' "userID") = snake (t' "UserId") /\ snake (t' "AB_C") = snake (t' "ab__C").
Proof. repeat split. Qed.
Print Assumptions C59_files_refuted.

(** ** C60: the import path and the name of the package *)

(** In a module: the module's path and the names of the directories below its root. *)
Theorem C60_module_path :
  forall unquote m gopath root rel data mp,
    gomod_of m (root ++ rel) = Some (root ++ [t' "go.mod"]) -> text_of m (root ++ [t' "go.mod"]) = Some data ->
    module_path unquote data = mp -> mp <> [] -> rel <> [t' "go.mod"] ->
    fst (find_pkg_path unquote m gopath (root ++ rel) []) = Some (mp, rel).
Proof. intros unquote m gopath root rel data mp. exact (module_answer unquote m gopath root rel data mp). Qed.
Print Assumptions C60_module_path.
(** The cache does not change the answers, of however many directories, unless one of them is called go.mod. *)
Theorem C60_cache :
  forall unquote m gopath dirs,
    (forall dir p, In dir dirs -> gomod_of m dir = Some p -> ~ In p dirs) -> ~ In [] dirs ->
    ask unquote m gopath dirs [] = map (fun dir => fst (find_pkg_path unquote m gopath dir [])) dirs.
Proof.
  intros unquote m gopath dirs H E. apply asked. intros dir D. unfold gomod_at. destruct (gomod_of m dir) as [p|] eqn:G; [exact (H dir p D G)|exact E].
Qed.
Print Assumptions C60_cache.
(** Without a module (go env GOMOD prints nothing or /dev/null), the last name is left out: the path is wrong for every package below src. *)
Theorem C60_gopath_refuted :
  forall unquote m p rest rel c, is_gomod_file (gomod_at m (p ++ t' "src" :: rel)) = false -> cache_get (p ++ t' "src" :: rel) c = None ->
    rel <> [] -> (match rel with x :: _ => x <> t' ".." | [] => True end) ->
    fst (find_pkg_path unquote m (p :: rest) (p ++ t' "src" :: rel) c) = Some ([], removelast rel) /\ removelast rel <> rel.
Proof.
  intros unquote m p rest rel c G C N R. split.
  - unfold find_pkg_path, get_gomod_path. rewrite C. fold (gomod_at m (p ++ t' "src" :: rel)). rewrite G. cbn [fst]. rewrite gopath_answer by exact R. reflexivity.
  - intro H. destruct (exists_last N) as (l & x & ->). rewrite removelast_last in H. apply (f_equal (@length text)) in H.
    rewrite app_length in H. cbn in H. lia.
Qed.
Print Assumptions C60_gopath_refuted.
(** The directory above src is not below src, but has the path . *)
Theorem C60_outside_refuted : pkg_path_from_gopath [[t' "home"; t' "go"]] [t' "home"; t' "go"] = Some [].
Proof. reflexivity. Qed.
Print Assumptions C60_outside_refuted.
(** The name: of the package, if there is one, whatever the order. *)
Theorem C60_package_name :
  forall name d, Forall (fun p => Forall (eq name) (snd p)) d -> concat (map snd d) <> [] -> pkg_name d = name.
Proof.
  intros name d F N. unfold pkg_name. apply last_name; [left; exact N|].
  clear N. induction F as [|p d H F IH]; [constructor|]. cbn. apply Forall_app. split; assumption.
Qed.
Print Assumptions C60_package_name.
(** Files of other packages count (also those that are excluded by build constraints), and the order of a map decides. *)
Theorem C60_package_name_refuted :
  let server := (t' "server", [t' "server"; t' "server"]) in let script := (t' "main", [t' "main"]) in
  pkg_name [script; server] = t' "server" /\ pkg_name [server; script] = t' "main".
Proof. split; reflexivity. Qed.
Print Assumptions C60_package_name_refuted.

Definition c60_machine : machine := mkMachine
  (fun dir => match dir with a :: b :: _ => if text_eqb b (t' "yamly") then Some [a; b; t' "go.mod"] else None | _ => None end)
  (fun f => Some (t' "module example.org/yamly" ++ [10] ++ t' "go 1.20" ++ [10])).
Example C60_example :
  forall unquote, ask unquote c60_machine [[t' "src"]] [[t' "src"; t' "yamly"; t' "a"; t' "b"]; [t' "src"; t' "yamly"]; [t' "src"; t' "other"]; [t' "src"; t' "yamly"; t' "a"; t' "b"]] []
    = [Some (t' "example.org/yamly", [t' "a"; t' "b"]); Some (t' "example.org/yamly", []); None; Some (t' "example.org/yamly", [t' "a"; t' "b"])].
Proof. intro. vm_compute. reflexivity. Qed.

(** ** C61: what the bootstrap does to the directory *)

(** If it succeeds, the output is what the generator printed, formatted; the generator saw the stub and the program with
    the options; and no other file has changed, if the names of the temporary files were free. *)
Theorem C61_success_partial :
  forall quote w o d src,
    w_temp w = Some src -> src <> op_output o -> src ++ t' ".go" <> op_output o -> src <> op_output o ++ t' ".tmp" ->
    src ++ t' ".go" <> op_output o ++ t' ".tmp" -> d src = None -> d (src ++ t' ".go") = None -> d (op_output o ++ t' ".tmp") = None ->
    w_remove_tmp w = true -> w_remove_main w = true -> snd (bootstrap quote w o d) = true ->
    exists seen out code,
      seen (op_output o) = Some (stub_text o) /\ seen (src ++ t' ".go") = Some (main_text quote o)
      /\ same_but [op_output o; src ++ t' ".go"; op_output o ++ t' ".tmp"] d seen
      /\ w_run w seen (op_tags o) (src ++ t' ".go") = (true, out) /\ w_format w out = Some code
      /\ fst (bootstrap quote w o d) (op_output o) = Some code
      /\ same_but [op_output o] d (fst (bootstrap quote w o d)).
Proof. exact bootstrap_success. Qed.
Print Assumptions C61_success_partial.
(** In any case, four names are touched at most. *)
Theorem C61_names : forall quote w o d, same_but (made w o) d (fst (bootstrap quote w o d)).
Proof. exact bootstrap_made. Qed.
Print Assumptions C61_names.
(** The program tells all options to the generator: different options, different programs. *)
Theorem C61_options :
  forall quote o o', (forall s, ~ In 10 (quote s)) -> (forall s s', quote s = quote s' -> s = s') ->
    plain_options o -> plain_options o' -> main_text quote o = main_text quote o' -> o = o'.
Proof. exact main_text_inj. Qed.
Print Assumptions C61_options.
(** No type, an unknown engine or a path as output: an error, and nothing is touched. *)
Theorem C61_refused :
  forall is_upper is_lower to_lower quote w f pkgpath pkgname d,
    fl_type f = [] \/ (In 47 (output_name is_upper is_lower to_lower f) /\ output_name is_upper is_lower to_lower f <> [47]) \/ engine_package (fl_engine f) = None ->
    command is_upper is_lower to_lower quote w f pkgpath pkgname d = (d, false).
Proof. exact command_refuses. Qed.
Print Assumptions C61_refused.
(** Failures are not undone: if the generator fails, whatever the output was before - for instance the code of an earlier run -
    is lost, and the stub is left, whose methods compile and do nothing. *)
Theorem C61_failure_refuted :
  forall quote w o d src,
    w_create_stub w = true -> w_temp w = Some src -> src <> op_output o -> src ++ t' ".go" <> op_output o ->
    (forall seen tags main, fst (w_run w seen tags main) = false) ->
    snd (bootstrap quote w o d) = false /\ fst (bootstrap quote w o d) (op_output o) = Some (stub_text o).
Proof. exact bootstrap_fails. Qed.
Print Assumptions C61_failure_refuted.

(** A run in a directory with the type's source and the code of an earlier run. *)
Definition c61_flags : flags := mkFlags (t' "HTTPServer") [] (t' "yayamls") (t' " linux ") true false true false.
Definition c61_quote (s : text) : text := [34] ++ s ++ [34].
Definition c61_dir : files := fun n => if text_eqb n (t' "http_server_yamly.go") then Some (t' "old code") else if text_eqb n (t' "s.go") then Some (t' "package s") else None.
Definition c61_world (ok : bool) : world :=
  mkWorld true (Some (t' "yamly-bootstrap77")) true true true (fun seen tags main => (ok, if text_eqb main (t' "yamly-bootstrap77.go") then t' "new  code" else [])) true
    (fun s => if text_eqb s (t' "new  code") then Some (t' "new code") else None) Written true true.
Definition c61_run (ok : bool) := command ascii_upper ascii_lower ascii_to_lower c61_quote (c61_world ok) c61_flags (t' "example.org/s") (t' "s") c61_dir.
Example C61_example :
  snd (c61_run true) = true
  /\ map (fst (c61_run true)) [t' "http_server_yamly.go"; t' "s.go"; t' "yamly-bootstrap77"; t' "yamly-bootstrap77.go"; t' "http_server_yamly.go.tmp"]
     = [Some (t' "new code"); Some (t' "package s"); None; None; None].
Proof. split; vm_compute; reflexivity. Qed.
Example C61_failure_example :
  snd (c61_run false) = false
  /\ fst (c61_run false) (t' "http_server_yamly.go") = Some (
    t' "// +build  linux" ++ eol ++ eol ++ t' "// TEMPORARY AUTOGENERATED FILE: yamly stub code to compile the generator" ++ eol ++ eol ++
    t' "package  s" ++ eol ++ eol ++ t' "func ( *HTTPServer ) MarshalYAML() ([]byte, error) { return nil, nil }" ++ eol ++
    t' "func (* HTTPServer ) UnmarshalYAML([]byte) error { return nil }" ++ eol ++ eol ++ t' "type Exporter_yamly_HTTPServer *HTTPServer" ++ eol).
Proof. split; vm_compute; reflexivity. Qed.
