(** Model of the command: cmd/yamlygen/main.go, generator/bootstrap/generator.go,
    generator/parser/pkgpath.go and generator/parser/parser.go. *)
From Coq Require Import String.
From Verif Require Import Base Generator.
Local Open Scope N_scope.

(** ** toSnakeCase (cmd/yamlygen/main.go 143-170) *)

Section SnakeCase.
  (* unicode.IsUpper, unicode.IsLower, unicode.ToLower *)
  Context (is_upper is_lower : rune -> bool) (to_lower : rune -> rune).

  (* 146-160: one round of the loop; the variables are buf, prev, cur *)
  Definition snake_round (st : text * rune * rune) (next : rune) : text * rune * rune :=
    let '(buf, prev, cur) := st in
    let buf :=
      if cur =? 95 then (if negb (prev =? 95) then buf ++ [95] else buf)
      else if is_upper cur then
        let buf := if is_lower prev || (is_upper prev && is_lower next) then buf ++ [95] else buf in
        buf ++ [to_lower cur]
      else if negb (cur =? 0) then buf ++ [to_lower cur]
      else buf in
    (buf, cur, next).
  (* 143-170 *)
  Definition to_snake_case (src : text) : text :=
    let '(buf, prev, cur) := fold_left snake_round src ([], 0, 0) in
    match src with
    | [] => buf
    | _ =>
        let buf := if is_upper cur && is_lower prev && negb (prev =? 0) then buf ++ [95] else buf in
        buf ++ [to_lower cur]
    end.
End SnakeCase.

(** ** The import path of a directory (generator/parser/pkgpath.go) *)

(** Cleaned absolute paths, as lists of names; relative paths that filepath.Rel gives are also such lists, and may
    begin with [..].  filepath.Clean, IsAbs, Join and ToSlash (on Unix) are done with this representation. *)
Definition path := list text.

(* filepath.Rel of two cleaned absolute paths: never an error *)
Fixpoint path_rel (base target : path) : path :=
  match base, target with
  | x :: base', y :: target' => if text_eqb x y then path_rel base' target' else map (fun _ => t' "..") base ++ target
  | _, _ => map (fun _ => t' "..") base ++ target
  end.
(* path.Dir of a relative path; the empty list is the path . *)
Definition path_dir (p : path) : path := removelast p.
(* strings.HasPrefix(rel, ../): the path .. itself has no slash *)
Definition leaves (rel : path) : bool :=
  match rel with x :: _ :: _ => text_eqb x (t' "..") | _ => false end.

(* pkgpath.go 32-46; the argument is GOPATH's list of directories *)
Fixpoint pkg_path_from_gopath (gopath : list path) (dir : path) : option path :=
  match gopath with
  | [] => None
  | p :: gopath' =>
      let rel := path_rel (p ++ [t' "src"]) dir in
      if leaves rel then pkg_path_from_gopath gopath' dir else Some (path_dir rel)
  end.

(* strings.TrimPrefix, at a boundary of names (go env GOMOD is a file in dir or above) *)
Fixpoint path_eqb (a b : path) : bool :=
  match a, b with [], [] => true | x :: a', y :: b' => text_eqb x y && path_eqb a' b' | _, _ => false end.
Definition trim_path (prefix p : path) : path :=
  if path_eqb (firstn (length prefix) p) prefix then skipn (length prefix) p else p.

(** The process around: what go env GOMOD prints in a directory (None: an error), and the texts of files. *)
Record machine := mkMachine {
  gomod_of : path -> option path;
  text_of : path -> option text
}.
(** The cache, which serves for both questions (48-53): from directories to go.mod files and from go.mod files to module
    paths.  Values are paths as texts in the code; here they are either.  *)
Inductive cached := CachedFile (p : path) | CachedModule (m : text).
Definition cache := list (path * cached).
Fixpoint cache_get (k : path) (c : cache) : option cached :=
  match c with [] => None | (k', v) :: c' => if path_eqb k k' then Some v else cache_get k c' end.

(* 115-117: strings.Contains(path, go.mod), which has no slash *)
Fixpoint contains (p s : text) : bool := has_prefix p s || match s with [] => false | _ :: s' => contains p s' end.
Definition is_gomod_file (p : path) : bool := existsb (contains (t' "go.mod")) p.

Section PkgPath.
  Context (unquote : text -> option text) (m : machine).

  (* 88-113 *)
  Definition get_gomod_path (dir : path) (c : cache) : path * cache :=
    match cache_get dir c with
    | Some (CachedFile p) => (p, c)
    | Some (CachedModule s) => ([s], c)
    | None =>
        let p := match gomod_of m dir with Some p => p | None => [] end in
        (p, (dir, CachedFile p) :: c)
    end.
  (* 66-86 *)
  Definition get_module_path (gomod : path) (c : cache) : text * cache :=
    match cache_get gomod c with
    | Some (CachedModule s) => (s, c)
    | Some (CachedFile p) => (concat p, c)
    | None =>
        let s := match text_of m gomod with Some data => module_path unquote data | None => [] end in
        (s, (gomod, CachedModule s) :: c)
    end.
  (** An import path: the module path and the names below it; None is an error. *)
  (* 55-64 *)
  Definition pkg_path_from_gomod (dir gomod : path) (c : cache) : option (text * path) * cache :=
    let '(s, c) := get_module_path gomod c in
    match s with
    | [] => (None, c)
    | _ => (Some (s, trim_path (path_dir gomod) dir), c)
    end.
  (* 15-30; the argument is absolute *)
  Definition find_pkg_path (gopath : list path) (dir : path) (c : cache) : option (text * path) * cache :=
    let '(gomod, c) := get_gomod_path dir c in
    if is_gomod_file gomod then pkg_path_from_gomod dir gomod c
    else (match pkg_path_from_gopath gopath dir with Some p => Some ([], p) | None => None end, c).
End PkgPath.

(** ** The package name (generator/parser/parser.go 19-52) *)

(** ParseDir's result, packages and files in the order in which Go iterates over the two maps; a file is its package
    clause's name. *)
Definition parsed_dir := list (text * list text).
(* 34-36, 41-52: the visitor stores the name of every file *)
Definition pkg_name (d : parsed_dir) : text :=
  fold_left (fun _ name => name) (concat (map snd d)) [].

(** ** The bootstrap generator (generator/bootstrap/generator.go) *)

(* 17-33 *)
Record gen_options := mkOptions {
  op_pkg_path : text; op_pkg_name : text; op_type : text;
  op_omitempty : bool; op_disallow : bool; op_pointer : bool; op_inline : bool;
  op_engine_package : text; op_engine : text;
  op_output : text; op_tags : text
}.

Definition eol : text := [10].
Definition bool_text (b : bool) : text := if b then t' "true" else t' "false".

(* 35-64; Fprintln puts a space between its arguments *)
Definition stub_text (o : gen_options) : text :=
  (match op_tags o with [] => [] | _ => t' "// +build  " ++ op_tags o ++ eol ++ eol end) ++
  t' "// TEMPORARY AUTOGENERATED FILE: yamly stub code to compile the generator" ++ eol ++ eol ++
  t' "package  " ++ op_pkg_name o ++ eol ++ eol ++
  t' "func ( " ++ (if op_pointer o then t' "*" else []) ++ op_type o ++ t' " ) MarshalYAML() ([]byte, error) { return nil, nil }" ++ eol ++
  t' "func (* " ++ op_type o ++ t' " ) UnmarshalYAML([]byte) error { return nil }" ++ eol ++ eol ++
  t' "type Exporter_yamly_" ++ op_type o ++ t' " *" ++ op_type o ++ eol.

(* 66-118, as lines; quote is fmt's verb q *)
Definition main_lines (quote : text -> text) (o : gen_options) : list text :=
  [t' "//go:build yamly"; [];
   t' "// TEMPORARY AUTOGENERATED FILE: yamly bootstrap code to "; t' "// launch the actual generator"; [];
   t' "package main"; [];
   t' "import ("; t' "  ""fmt"""; t' "  ""os"""; [];
   t' " generator " ++ quote (t' "github.com/KSpaceer/yamly/generator"); [];
   t' " engine " ++ quote (op_engine_package o); [];
   t' "  pkg " ++ quote (op_pkg_path o);
   t' ")";
   t' "func main() {";
   t' "  g := generator.New(" ++ quote (op_output o) ++ t' ")";
   t' "  g.SetPkgName(" ++ quote (op_pkg_name o) ++ t' ")";
   t' "  g.SetPkgPath(" ++ quote (op_pkg_path o) ++ t' ")";
   t' "  g.SetEngineGenerator(engine." ++ op_engine o ++ t' ")"] ++
  (match op_tags o with [] => [] | _ => [t' "  g.SetBuildTags(" ++ quote (op_tags o) ++ t' ")"] end) ++
  [t' "  g.SetOmitempty(" ++ bool_text (op_omitempty o) ++ t' ")";
   t' "  g.SetDisallowUnknownFields(" ++ bool_text (op_disallow o) ++ t' ")";
   t' "  g.SetEncodePointerReceiver(" ++ bool_text (op_pointer o) ++ t' ")";
   t' "  g.SetInlineEmbedded(" ++ bool_text (op_inline o) ++ t' ")";
   t' "  g.AddType(pkg.Exporter_yamly_" ++ op_type o ++ t' "(nil))";
   t' "  if err := g.Generate(os.Stdout); err != nil {";
   t' "    fmt.Fprintln(os.Stderr, err)"; t' "    os.Exit(1)"; t' "  }"; t' "}"].
Definition main_text (quote : text -> text) (o : gen_options) : text :=
  concat (map (fun l => l ++ eol) (main_lines quote o)).

(** The directory in which the command works: the texts of its files.  The output's name has no directory (main.go
    102-104), so that all files are in it. *)
Definition files := text -> option text.
Definition put (name data : text) (d : files) : files := fun n => if text_eqb n name then Some data else d n.
Definition del (name : text) (d : files) : files := fun n => if text_eqb n name then None else d n.

(** What the operating system and the go tool do, in the order of the calls. *)
Inductive write_result := Written | NotOpened | Torn (n : nat).
Record world := mkWorld {
  w_create_stub : bool;               (* os.Create *)
  w_temp : option text;               (* os.CreateTemp: the new file's name *)
  w_close : bool;                     (* f.Close *)
  w_rename : bool;                    (* os.Rename *)
  w_create_tmp : bool;                (* os.Create *)
  w_run : files -> text -> text -> bool * text;  (* go run: files, tags, file to run; whether it succeeded, and its output *)
  w_read : bool;                      (* os.ReadFile *)
  w_format : text -> option text;     (* format.Source *)
  w_write : write_result;             (* os.WriteFile *)
  w_remove_tmp : bool; w_remove_main : bool  (* the deferred os.Remove *)
}.
Definition removes (ok : bool) (name : text) (d : files) : files := if ok then del name d else d.
Definition writes (r : write_result) (name data : text) (d : files) : files * bool :=
  match r with Written => (put name data d, true) | NotOpened => (d, false) | Torn n => (put name (firstn n data) d, false) end.

(* 120-158; the answer is whether there is no error *)
Definition bootstrap (quote : text -> text) (w : world) (o : gen_options) (d : files) : files * bool :=
  if negb (w_create_stub w) then (d, false) else
  let d := put (op_output o) (stub_text o) d in
  match w_temp w with
  | None => (d, false)
  | Some src =>
      let d := put src (main_text quote o) d in
      if negb (w_close w) then (d, false) else
      if negb (w_rename w) then (d, false) else
      let dst := src ++ t' ".go" in
      let d := put dst (main_text quote o) (del src d) in
      let tmp := op_output o ++ t' ".tmp" in
      if negb (w_create_tmp w) then (removes (w_remove_main w) dst d, false) else
      let finish d := removes (w_remove_main w) dst (removes (w_remove_tmp w) tmp d) in
      let '(ok, out) := w_run w (put tmp [] d) (op_tags o) dst in
      let d := put tmp out d in
      if negb ok then (finish d, false) else
      if negb (w_read w) then (finish d, false) else
      match w_format w out with
      | None => (finish d, false)
      | Some code => let '(d, ok) := writes (w_write w) (op_output o) code d in (finish d, ok)
      end
  end.

(** ** The command (cmd/yamlygen/main.go 85-141) *)

(* filepath.Base on Unix: the name after the last slash, slashes at the end left out *)
Fixpoint drop_slashes (s : text) : text := match s with c :: s' => if c =? 47 then drop_slashes s' else s | [] => [] end.
Fixpoint upto_slash (s : text) : text := match s with c :: s' => if c =? 47 then [] else c :: upto_slash s' | [] => [] end.
Definition base_name (s : text) : text :=
  match s with
  | [] => t' "."
  | _ => match rev (upto_slash (drop_slashes (rev s))) with [] => [47] | n => n end
  end.

Record flags := mkFlags {
  fl_type : text; fl_output : text; fl_engine : text; fl_tags : text;
  fl_omitempty : bool; fl_disallow : bool; fl_pointer : bool; fl_inline : bool
}.
(* strings.TrimSpace, for ASCII white space *)
Definition is_white (c : rune) : bool := (c =? 32) || ((9 <=? c) && (c <=? 13)).
Fixpoint trim_left (s : text) : text := match s with c :: s' => if is_white c then trim_left s' else s | [] => [] end.
Definition trim_space (s : text) : text := rev (trim_left (rev (trim_left s))).

Section Command.
  Context (is_upper is_lower : rune -> bool) (to_lower : rune -> rune).
  (* 95-100 *)
  Definition output_name (f : flags) : text :=
    match fl_output f with [] => to_snake_case is_upper is_lower to_lower (fl_type f) ++ t' "_yamly.go" | n => n end.
  (* 111-121 *)
  Definition engine_package (name : text) : option text :=
    if text_eqb name (t' "goyaml") then Some (t' "github.com/KSpaceer/yamly/engines/goyaml")
    else if text_eqb name (t' "yayamls") then Some (t' "github.com/KSpaceer/yamly/engines/yayamls")
    else None.
  (* 106-109, 123-135 *)
  Definition options_of (f : flags) (pkgpath pkgname package : text) : gen_options :=
    mkOptions pkgpath pkgname (fl_type f) (fl_omitempty f) (fl_disallow f) (fl_pointer f) (fl_inline f)
              package (t' "Generator") (output_name f) (trim_space (fl_tags f)).
  (* 57-60, 85-141, after the directory was parsed *)
  Definition command (quote : text -> text) (w : world) (f : flags) (pkgpath pkgname : text) (d : files) : files * bool :=
    match fl_type f with
    | [] => (d, false)
    | _ =>
        if negb (text_eqb (base_name (output_name f)) (output_name f)) then (d, false)
        else match engine_package (fl_engine f) with
             | None => (d, false)
             | Some package => bootstrap quote w (options_of f pkgpath pkgname package) d
             end
    end.
End Command.
