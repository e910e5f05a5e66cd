(** Model of the naming, field and work-list logic of the code generator:
    generator/generator.go, generator/tags.go, generator/parser/modulepath.go, and of
    isCorrectYAMLVersion in engines/yayamls/parser/documents.go. *)
From Coq Require Import String.
From Verif Require Import Base Schema.
Local Open Scope N_scope.

Definition has_prefix (p s : text) : bool := text_eqb (firstn (length p) s) p.
Fixpoint lookup {A} (k : text) (m : list (text * A)) : option A :=
  match m with [] => None | (q, a) :: m' => if text_eqb k q then Some a else lookup k m' end.
(** m[k] = a; keys stay distinct *)
Definition assign {A} (k : text) (a : A) (m : list (text * A)) : list (text * A) :=
  (k, a) :: filter (fun e => negb (text_eqb k (fst e))) m.

(** ** tags (tags.go) *)

(* strings.Split(s, ",") *)
Fixpoint split_on (sep : rune) (s : text) : list text :=
  match s with
  | [] => [[]]
  | c :: s' =>
      if c =? sep then [] :: split_on sep s'
      else match split_on sep s' with [] => [[c]] | x :: l => (c :: x) :: l end
  end.
(* tags.go 8-14 *)
Record ftags := mkTags { tg_name : text; tg_omit : bool; tg_omitempty : bool; tg_inline : bool }.
(* tags.go 16-37; the argument is the text of the yaml key of the struct tag *)
Definition parse_tags (yaml : text) : ftags :=
  let options := split_on 44 yaml in
  match options with
  | [] => mkTags [] false false false
  | name :: rest =>
      fold_left (fun t s =>
        if text_eqb s (t' "omitempty") then mkTags (tg_name t) (tg_omit t) true (tg_inline t)
        else if text_eqb s (t' "inline") then mkTags (tg_name t) (tg_omit t) (tg_omitempty t) true
        else t)
        rest (mkTags name (match rest with [] => text_eqb name (t' "-") | _ => false end) false false)
  end.

(** ** fields of structs (generator.go 388-454) *)

(** types as far as they matter here; a struct type is a place in a table, because types may contain
    pointers to themselves *)
Inductive tdesc :=
| TdStruct (fields : list (text * nat * bool * text))  (* name, type, embedded, yaml tag *)
| TdPointer (elem : nat)
| TdBasic                                                (* numbers, booleans, strings *)
| TdOther.
Definition ttable := list tdesc.
Definition sfield := (text * nat * bool * text)%type.
Definition sf_name (f : sfield) : text := fst (fst (fst f)).
Definition sf_type (f : sfield) : nat := snd (fst (fst f)).
Definition sf_embedded (f : sfield) : bool := snd (fst f).
Definition sf_tags (f : sfield) : ftags := parse_tags (snd f).

Inductive fout (A : Type) := FDone (a : A) | FError | FNoFuel.
Arguments FDone {A}. Arguments FError {A}. Arguments FNoFuel {A}.

(* generator.go 440-454 *)
Definition merge_fields (first second : list sfield) : list sfield :=
  second ++ filter (fun f => negb (existsb (fun g => text_eqb (sf_name f) (sf_name g)) second)) first.

Section Fields.
  Context (is_upper : rune -> bool) (inline_embedded : bool) (tt : ttable).

  Definition is_nil_text (s : text) : bool := match s with [] => true | _ => false end.
  (* 399-401, 425-427 *)
  Definition inlined (f : sfield) : bool :=
    (sf_embedded f && inline_embedded && is_nil_text (tg_name (sf_tags f))) || tg_inline (sf_tags f).
  Definition exported (f : sfield) : bool := match sf_name f with c :: _ => is_upper c | [] => false end.
  (* 405-408 *)
  Definition behind_pointer (i : nat) : nat :=
    match nth_error tt i with Some (TdPointer j) => j | _ => i end.

  (* 398-422: the first loop; [fields_of] is getStructFields itself *)
  Definition collect (fields_of : nat -> fout (list sfield)) :=
    fix go (l : list sfield) (emb own : list sfield) : fout (list sfield * list sfield) :=
      match l with
      | [] => FDone (emb, own)
      | x :: l' =>
          if inlined x then
            match nth_error tt (behind_pointer (sf_type x)) with
            | Some (TdStruct _) =>
                match fields_of (behind_pointer (sf_type x)) with
                | FDone sub => go l' (merge_fields emb sub) own
                | FError => FError
                | FNoFuel => FNoFuel
                end
            | Some TdBasic =>
                if rune_in 46 (sf_name x) || exported x then go l' emb (own ++ [x]) else go l' emb own
            | _ => go l' emb own
            end
          else go l' emb own
      end.
  (* 388-438; the recursion follows types, which may be cyclic *)
  Fixpoint struct_fields (fuel : nat) (i : nat) : fout (list sfield) :=
    match fuel with
    | O => FNoFuel
    | S f =>
        match nth_error tt i with
        | Some (TdStruct fs) =>
            match collect (struct_fields f) fs [] [] with
            | FDone (emb, own) =>
                FDone (merge_fields emb (own ++ filter (fun x => negb (inlined x) && exported x) fs))
            | FError => FError
            | FNoFuel => FNoFuel
            end
        | _ => FError
        end
    end.
End Fields.

(** ** import aliases (generator.go 242-284) *)

Fixpoint last_index (p s : text) : option text :=   (* what follows the last occurrence *)
  match s with
  | [] => if has_prefix p s then Some (skipn (length p) s) else None
  | _ :: s' => match last_index p s' with
               | Some r => Some r
               | None => if has_prefix p s then Some (skipn (length p) s) else None
               end
  end.
(* 278-284 *)
Definition process_vendoring (path : text) : text :=
  match last_index (t' "/vendor/") path with Some r => r | None => path end.
(* filepath.Base *)
Fixpoint drop_slashes (s : text) : text := match s with c :: s' => if c =? 47 then drop_slashes s' else s | [] => [] end.
Fixpoint until_slash (s : text) : text := match s with [] => [] | c :: s' => if c =? 47 then [] else c :: until_slash s' end.
Definition base_name (path : text) : text :=
  match path with
  | [] => [46]
  | _ => match drop_slashes (rev path) with [] => [47] | r => rev (until_slash r) end
  end.
(* 270-276 *)
Definition fix_alias (alias : text) : text :=
  let alias := map (fun c => if (c =? 46) || (c =? 45) then 95 else c) alias in
  match alias with c :: _ => if c =? 118 then 95 :: alias else alias | [] => alias end.

(** strconv.Itoa of a non-negative number *)
Definition itoa (n : nat) : text := sc_from_unsigned (N.of_nat n).
Definition numbered (name : text) (i : nat) : text := match i with O => name | _ => name ++ itoa i end.
(** the loop [for i := ...; ; i++]: the first number whose name is not taken *)
Fixpoint first_free (taken : text -> bool) (name : text) (fuel i : nat) : option text :=
  match fuel with
  | O => None
  | S f => if taken (numbered name i) then first_free taken name f (S i) else Some (numbered name i)
  end.

Definition imports := list (text * text).   (* path, alias *)
(* 242-268; [None] if the loop does not end *)
Definition pkg_alias (path : text) (im : imports) : option (text * imports) :=
  let path := process_vendoring path in
  match lookup path im with
  | Some (c :: a) => Some (c :: a, im)
  | _ =>
      match first_free (fun a => existsb (fun e => text_eqb a (snd e)) im) (fix_alias (base_name path)) (S (length im)) 0 with
      | Some a => Some (a, assign path a im)
      | None => None
      end
  end.
Fixpoint pkg_aliases (paths : list text) (im : imports) : option (list text * imports) :=
  match paths with
  | [] => Some ([], im)
  | p :: ps =>
      match pkg_alias p im with
      | Some (a, im1) => match pkg_aliases ps im1 with Some (l, im2) => Some (a :: l, im2) | None => None end
      | None => None
      end
  end.
(* generator.go 52-59, 71-76 with engines/*/engine.go 25-31 *)
Definition yayamls_imports : imports :=
  [(t' "github.com/KSpaceer/yamly", t' "yamly"); (t' "github.com/KSpaceer/yamly/engines/yayamls", t' "yayamls");
   (t' "github.com/KSpaceer/yamly/engines/yayamls/decode", t' "decode");
   (t' "github.com/KSpaceer/yamly/engines/yayamls/encode", t' "encode")].
Definition goyaml_imports : imports :=
  [(t' "github.com/KSpaceer/yamly", t' "yamly"); (t' "gopkg.in/yaml.v3", t' "yaml");
   (t' "github.com/KSpaceer/yamly/engines/goyaml/decode", t' "decode");
   (t' "github.com/KSpaceer/yamly/engines/goyaml/encode", t' "encode")].

(** ** function names (generator.go 303-386) *)

(** strings.ToUpper(string(b)) for a byte b, as UTF-8: the byte is taken for a Latin-1 character *)
Definition utf8_2 (r : N) : list N := [192 + r / 64; 128 + r mod 64].
Definition upper_byte (b : N) : list N :=
  if b <? 128 then [if (97 <=? b) && (b <=? 122) then b - 32 else b]
  else if b =? 181 then utf8_2 924
  else if b =? 255 then utf8_2 376
  else if (224 <=? b) && (b <=? 254) && negb (b =? 247) then utf8_2 (b - 32)
  else utf8_2 b.
(* 370-386; strings as bytes *)
Definition join_part (s : list N) : list N := match s with [] => [] | c :: s' => upper_byte c ++ s' end.
Definition join_parts (keep_first : bool) (parts : list (list N)) : list N :=
  match parts with
  | [] => []
  | p :: ps => (if keep_first then p else join_part p) ++ concat (map join_part ps)
  end.

(* decoder.go 342-344, encoder.go 350-352 *)
Inductive purpose := Decoding | Encoding.
Definition purpose_text (p : purpose) : list N := match p with Decoding => t' "decode" | Encoding => t' "encode" end.

Section Names.
  (** types, equality of reflect.Type values, and safeTypeName (328-368) *)
  Context {T : Type} (T_eqb : T -> T -> bool) (safe_name : T -> list N).

  (* 304-305 *)
  Definition wished (p : purpose) (t : T) : text :=
    join_parts true [join_parts true [t' "yamly"; purpose_text p]; safe_name t].
  Definition func_names := list (text * T).

  (** 303-326, one request; the search in 312-316 goes over a map, in any order *)
  Inductive function_name (p : purpose) (t : T) : func_names -> text -> func_names -> Prop :=
  | fn_direct st : match lookup (wished p t) st with None => True | Some u => T_eqb t u = true end ->
      function_name p t st (wished p t) (assign (wished p t) t st)
  | fn_saved st u n v : lookup (wished p t) st = Some u -> T_eqb t u = false ->
      lookup n st = Some v -> T_eqb t v = true -> has_prefix (wished p t) n = true ->
      function_name p t st n st
  | fn_fresh st u n : lookup (wished p t) st = Some u -> T_eqb t u = false ->
      (forall n v, lookup n st = Some v -> has_prefix (wished p t) n = true -> T_eqb t v = false) ->
      first_free (fun n => match lookup n st with Some _ => true | None => false end) (wished p t) (S (length st)) 1 = Some n ->
      function_name p t st n (assign n t st).

  Inductive function_names : list (purpose * T) -> func_names -> list text -> func_names -> Prop :=
  | fns_nil st : function_names [] st [] st
  | fns_cons p t l st n st1 ns st2 : function_name p t st n st1 -> function_names l st1 ns st2 ->
      function_names ((p, t) :: l) st (n :: ns) st2.

  (** ** the work list (generator.go 108-158) *)
  Context (deps : T -> option (list T)).
    (** generating code for a type: the types addType is called for on the way, or an error *)

  Definition mem (t : T) (l : list T) : bool := existsb (T_eqb t) l.
  (* 108-118 *)
  Definition add_type (generated : list T) (pending : list T) (t : T) : list T :=
    if mem t generated then pending else if mem t pending then pending else t :: pending.
  (* 121-158; pending: last element first *)
  Fixpoint generate (fuel : nat) (pending generated : list T) : fout (list T) :=
    match fuel with
    | O => FNoFuel
    | S f =>
        match pending with
        | [] => FDone (rev generated)
        | x :: rest =>
            let generated := x :: generated in
            match deps x with
            | None => FError
            | Some l => generate f (fold_left (add_type generated) l rest) generated
            end
        end
    end.
  Definition generate_all (fuel : nat) (roots : list T) : fout (list T) :=
    generate fuel (fold_left (add_type []) roots []) [].
End Names.

(** ** module path (generator/parser/modulepath.go 47-82) *)

(* unicode.IsSpace *)
Definition go_space (c : rune) : bool :=
  ((9 <=? c) && (c <=? 13)) || (c =? 32) || (c =? 133) || (c =? 160) || (c =? 5760) || ((8192 <=? c) && (c <=? 8202))
  || (c =? 8232) || (c =? 8233) || (c =? 8239) || (c =? 8287) || (c =? 12288).
Fixpoint drop_spaces (s : text) : text := match s with c :: s' => if go_space c then drop_spaces s' else s | [] => [] end.
Definition trim_space (s : text) : text := rev (drop_spaces (rev (drop_spaces s))).
(** a line and what follows its newline *)
Fixpoint cut_line (s : text) : text * text :=
  match s with
  | [] => ([], [])
  | c :: s' => if c =? 10 then ([], s') else let '(l, r) := cut_line s' in (c :: l, r)
  end.
Fixpoint cut_comment (s : text) : text :=
  match s with
  | c :: s' => if (c =? 47) && match s' with d :: _ => d =? 47 | [] => false end then [] else c :: cut_comment s'
  | [] => []
  end.

Section ModulePath.
  (** strconv.Unquote of other literals than the plain ones below *)
  Context (unquote_other : text -> option text).

  Definition go_unquote (s : text) : option text :=
    match s with
    | q :: s' =>
        match rev s' with
        | q' :: r =>
            let inner := rev r in
            if (q =? 34) && (q' =? 34) && negb (existsb (fun c => (c =? 34) || (c =? 92) || (c =? 10)) inner) then Some inner
            else if (q =? 96) && (q' =? 96) && negb (existsb (fun c => (c =? 96) || (c =? 13)) inner) then Some inner
            else unquote_other s
        | [] => unquote_other s
        end
    | [] => None
    end.

  (* the body of the loop: Some p: return p; None: next line *)
  Definition module_line (line : text) : option text :=
    let line := trim_space (cut_comment line) in
    if has_prefix (t' "module") line then
      let rest := skipn 6 line in
      let path := trim_space rest in
      if Nat.eqb (length path) (length rest) || Nat.eqb (length path) 0 then None
      else match path with
           | c :: _ => if (c =? 34) || (c =? 96) then Some (match go_unquote path with Some p => p | None => [] end) else Some path
           | [] => None
           end
    else None.
  Fixpoint module_path_go (fuel : nat) (gomod : text) : text :=
    match fuel, gomod with
    | O, _ | _, [] => []
    | S f, _ =>
        let '(line, rest) := cut_line gomod in
        match module_line line with Some p => p | None => module_path_go f rest end
    end.
  Definition module_path (gomod : text) : text := module_path_go (S (length gomod)) gomod.
End ModulePath.

(** ** YAML version (engines/yayamls/parser/documents.go 343-373) *)
Section Version.
  Context (is_digit_u : rune -> bool).   (* unicode.IsDigit *)
  Inductive vstate := VStart | VFirst | VDot | VSecond.
  Fixpoint version_go (st : vstate) (s : text) : bool :=
    match s with
    | [] => match st with VSecond => true | _ => false end
    | c :: s' =>
        match st with
        | VStart => if is_digit_u c then version_go VFirst s' else false
        | VFirst => if c =? 46 then version_go VDot s' else if is_digit_u c then version_go VFirst s' else false
        | VDot | VSecond => if is_digit_u c then version_go VSecond s' else false
        end
    end.
  Definition is_correct_version (s : text) : bool := version_go VStart s.
End Version.
