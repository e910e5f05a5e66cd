(** Model of engines/yayamls/parser/documents.go and of the entry points of parser.go. *)
From Coq Require Import String.
From Verif Require Import Base YamlChar Token Ast CPAccessor Lexer Balance Generator Parser ParserFlow ParserBlock.
Local Open Scope parser_scope.

Section Docs.
  Context (is_digit_u : rune -> bool).   (* unicode.IsDigit *)
  Variable fuel : nat.

  (* 335-341 *)
  Definition parse_yaml_version : M node := unless_errors (
    t <- tok ;;
    if ttype_eqb (tok_type t) TString && is_correct_version is_digit_u (tok_origin t) then
      next ;; basic TextType
    else invalid).

  (* 321-332 *)
  Definition parse_yaml_directive : M node := unless_errors (
    skip_while fuel is_white_space ;;
    ok <- valid parse_yaml_version ;;
    if ok : bool then basic DirectiveType else invalid).

  (* 309-318 *)
  Definition parse_local_tag_prefix : M node := unless_errors (
    ty <- tok_ty ;;
    if ttype_eqb ty TTag then
      next ;;
      t <- tok ;;
      (if ttype_eqb (tok_type t) TString && conforms t CsURI then next else ret tt) ;;
      basic TagType
    else invalid).

  (* 284-306.  The first byte of the text is a tag character exactly when its first character is:
     all of them are ASCII. *)
  Definition parse_tag_prefix : M node := unless_errors (
    set_checkpoint ;;
    ok <- valid parse_local_tag_prefix ;;
    if ok : bool then commit ;; basic TagType
    else
      rollback ;;
      t <- tok ;;
      match tok_origin t with
      | c :: _ =>
          if ttype_eqb (tok_type t) TString && conforms_charset [c] CsTag && conforms t CsURI then
            next ;; basic TagType
          else invalid
      | [] => invalid
      end).

  (* 234-251; raw mode is left whatever the result *)
  Definition parse_tag_directive : M node := unless_errors (
    ok <- valid (parse_separate_in_line fuel) ;;
    if ok : bool then
      ok <- valid parse_tag_handle ;;
      if ok : bool then
        set_raw true ;;
        ok <- valid (parse_separate_in_line fuel) ;;
        ok <- (if ok : bool then valid parse_tag_prefix else ret false) ;;
        set_raw false ;;
        if ok : bool then basic DirectiveType else invalid
      else invalid
    else invalid).

  (* 208-231 *)
  Definition parse_reserved_directive : M node := unless_errors (
    ty <- tok_ty ;;
    if ttype_eqb ty TString then
      set_raw true ;;
      next ;;
      loop_ fuel (
        set_checkpoint ;;
        ok <- valid (parse_separate_in_line fuel) ;;
        if ok : bool then
          ty <- tok_ty ;;
          if ttype_eqb ty TString then next ;; commit ;; ret true else rollback ;; ret false
        else rollback ;; ret false) ;;
      set_raw false ;;
      basic DirectiveType
    else invalid).

  (* 178-205 *)
  Definition parse_directive : M node := unless_errors (
    ty <- tok_ty ;;
    if ttype_eqb ty TDirective then
      set_raw true ;;
      next ;;
      set_raw false ;;
      t <- tok ;;
      ok <- valid (if text_eqb (tok_origin t) (t' "YAML") then next ;; parse_yaml_directive
                   else if text_eqb (tok_origin t) (t' "TAG") then next ;; parse_tag_directive
                   else parse_reserved_directive) ;;
      if ok : bool then
        ok <- valid (parse_comments fuel) ;;
        if ok : bool then basic DirectiveType else invalid
      else invalid
    else invalid).

  (* 173-175 *)
  Definition parse_bare_document : M node :=
    with_ind_ (mkInd (-1) StrictMode) (parse_block_node fuel BlockIn).

  (* 149-170 *)
  Definition parse_explicit_document : M node := unless_errors (
    ty <- tok_ty ;;
    if ttype_eqb ty TDirectiveEnd then
      next ;;
      set_checkpoint ;;
      doc <- parse_bare_document ;;
      if valid_node doc then commit ;; ret doc
      else
        rollback ;;
        set_checkpoint ;;
        ok <- valid (parse_comments fuel) ;;
        if ok : bool then commit ;; ret NNull else rollback ;; invalid
    else invalid).

  (* 131-146 *)
  Definition parse_directive_document : M node := unless_errors (
    ok <- valid parse_directive ;;
    if ok : bool then repeat_valid fuel parse_directive ;; parse_explicit_document else invalid).

  (* 99-128 *)
  Definition parse_any_document : M node := unless_errors (
    set_checkpoint ;;
    doc <- parse_directive_document ;;
    if valid_node doc then commit ;; ret doc
    else
      rollback ;;
      set_checkpoint ;;
      doc <- parse_explicit_document ;;
      if valid_node doc then commit ;; ret doc
      else
        rollback ;;
        set_checkpoint ;;
        doc <- parse_bare_document ;;
        if valid_node doc then commit ;; ret doc else rollback ;; invalid).

  (* 404-413 *)
  Definition parse_document_suffix : M node := unless_errors (
    ty <- tok_ty ;;
    if ttype_eqb ty TDocumentEnd then
      next ;;
      ok <- valid (parse_comments fuel) ;;
      if ok : bool then basic DocumentSuffixType else invalid
    else invalid).

  (* 376-401 *)
  Definition parse_document_prefix : M node := unless_errors (
    ty <- tok_ty ;;
    bom <- (if ttype_eqb ty TBOM then next ;; ret true else ret false) ;;
    not_null <- loop fuel (fun not_null =>
      set_checkpoint ;;
      ok <- valid (parse_comment_line fuel) ;;
      if ok : bool then commit ;; ret (true, true) else rollback ;; ret (not_null, false)) bom ;;
    if not_null : bool then basic DocumentPrefixType else ret NNull).

  (** prefixes as long as they are not empty: 13-20, 87-94 *)
  Definition parse_prefixes : M unit :=
    loop_ fuel (
      set_checkpoint ;;
      prefix <- parse_document_prefix ;;
      if negb (valid_node prefix) || match prefix with NNull => true | _ => false end
      then rollback ;; ret false
      else commit ;; ret true).

  (* 74-96 *)
  Definition parse_suffixes_and_prefixes : M node := unless_errors (
    ok <- valid parse_document_suffix ;;
    if ok : bool then
      repeat_valid fuel parse_document_suffix ;;
      parse_prefixes ;;
      basic DocumentPrefixType
    else invalid).

  (** try a document and keep it if there is one *)
  Definition maybe_any_document (docs : list node) : M (list node) :=
    set_checkpoint ;;
    doc <- parse_any_document ;;
    if valid_node doc then commit ;; ret (docs ++ [doc]) else rollback ;; ret docs.

  (* 12-72 *)
  Definition parse_stream : M node :=
    parse_prefixes ;;
    docs <- maybe_any_document [] ;;
    docs <- loop fuel (fun docs =>
      set_checkpoint ;;
      ok <- valid parse_suffixes_and_prefixes ;;
      if ok : bool then
        commit ;; docs <- maybe_any_document docs ;; ret (docs, true)
      else
        rollback ;;
        ty <- tok_ty ;;
        if ttype_eqb ty TBOM then next ;; ret (docs, true)
        else
          set_checkpoint ;;
          ok <- valid (parse_comment_line fuel) ;;
          if ok : bool then commit ;; ret (docs, true)
          else
            rollback ;;
            set_checkpoint ;;
            doc <- parse_explicit_document ;;
            if valid_node doc then commit ;; ret (docs ++ [doc], true)
            else rollback ;; ret (docs, false)) docs ;;
    ret (NStream docs).

  (** ** parser.go: entry points *)
  (* 71-83 *)
  Definition new_parser : pst :=
    mkP zero_token true [] [] (bc_new flow_pairs) df_new (mkInd 0 UnknownMode) [].

  (* 135-140 *)
  Definition set_start_of_line : M unit := modify (fun s =>
    mkP (p_tok s) true (p_saved s) (p_errs s) (p_chk s) (p_dead s) (p_ind s) (p_buf s)).
  Definition parse_program : M node := next ;; set_start_of_line ;; parse_stream.

  (** the tree together with the errors (parser.go 182-184) *)
  Definition parsed := (node * list perror)%type.

  (* 86-90, 128-132 *)
  Definition parse_token_stream {S} (st : stream S) (s : S) : ran unit parsed :=
    match run_acc st (parse_program new_parser) (acc_init zero_token s) with
    | Fin (n, p) _ => Fin (n, p_errs p) tt
    | Panicked => Panicked
    | OutOfFuel => OutOfFuel
    end.

  (* 93-98 *)
  Definition parse_tokens (ts : list token) : ran unit parsed := parse_token_stream slice_stream ts.

  (** ParseString (101-120) with the default tokenizer: the tree, or the errors *)
  Definition parse_string (omit_stream : bool) (doc : text) : ran unit (node + list perror) :=
    match parse_token_stream (lexer_stream acc_source (Datatypes.S (length doc)))
                             (lex_new (acc_init None doc)) with
    | Fin (tree, errs) _ =>
        match errs with
        | [] => Fin (inl (match tree with
                          | NStream [d] => if omit_stream then d else tree
                          | _ => tree
                          end)) tt
        | _ => Fin (inr errs) tt
        end
    | Panicked => Panicked
    | OutOfFuel => OutOfFuel
    end.
End Docs.
