(** Model of engines/yayamls/parser/flow.go. *)
From Coq Require Import String.
From Verif Require Import Base YamlChar Token Ast Parser.
Local Open Scope parser_scope.

Section Flow.
  Variable fuel : nat.

  (** ** Line folding (block.go 678-730, used by both styles) *)
  (* block.go 704-730 *)
  Definition parse_trimmed (ctx : context) : M node := unless_errors (
    ty <- tok_ty ;;
    if ttype_eqb ty TLineBreak then
      next ;;
      saved <- buf_len ;;
      ok <- valid (parse_empty fuel ctx) ;;
      if ok : bool then
        saved <- buf_len ;;
        loop fuel (fun saved =>
          set_checkpoint ;;
          ok <- valid (parse_empty fuel ctx) ;;
          if ok : bool then commit ;; n <- buf_len ;; ret (n, true)
          else buf_truncate saved ;; rollback ;; ret (saved, false)) saved ;;
        basic TextType
      else buf_truncate saved ;; invalid
    else invalid).

  (* block.go 678-701 *)
  Definition parse_folded_line_break (ctx : context) : M node := unless_errors (
    saved <- buf_len ;;
    set_checkpoint ;;
    ok <- valid (parse_trimmed ctx) ;;
    if ok : bool then commit ;; basic TextType
    else
      rollback ;;
      buf_truncate saved ;;
      ty <- tok_ty ;;
      if ttype_eqb ty TLineBreak then buf_write [32%N] ;; next ;; basic TextType
      else invalid).

  (* 979-997 *)
  Definition parse_flow_folded : M node := unless_errors (
    set_checkpoint ;;
    ok <- valid (parse_separate_in_line fuel) ;;
    (if ok : bool then commit else rollback) ;;
    saved <- buf_len ;;
    ok <- valid (parse_folded_line_break FlowIn) ;;
    ok <- (if ok : bool then valid (parse_flow_line_prefix fuel) else ret false) ;;
    if ok : bool then basic TextType else buf_truncate saved ;; invalid).

  (** ** Plain scalars *)
  (* 1083-1092 *)
  Definition is_plain_safe_token (t : token) (ctx : context) : bool :=
    match ctx with
    | FlowIn | FlowOut => ttype_eqb (tok_type t) TString
    | BlockKey | FlowKey => ttype_eqb (tok_type t) TString && conforms t CsPlainSafe
    | _ => false
    end.

  (* 1055-1081 *)
  Definition parse_plain_first (ctx : context) : M node := unless_errors (
    t <- tok ;;
    if ttype_eqb (tok_type t) TString && is_plain_safe_token t ctx then basic TextType
    else match tok_type t with
         | TMappingKey | TMappingValue | TSequenceEntry =>
             saved <- buf_len ;;
             set_checkpoint ;;
             buf_write (tok_origin t) ;;
             next ;;
             t <- tok ;;
             if is_plain_safe_token t ctx then commit ;; basic TextType
             else rollback ;; buf_truncate saved ;; invalid
         | _ => invalid
         end).

  (* 1023-1052 *)
  Definition parse_plain_in_line (ctx : context) : M node := unless_errors (
    loop_ fuel (
      set_checkpoint ;;
      saved <- buf_len ;;
      write_while fuel is_white_space ;;
      t <- tok ;;
      if is_plain_safe_token t ctx then
        commit ;; buf_write (tok_origin t) ;; next ;; ret true
      else buf_truncate saved ;; rollback ;; ret false) ;;
    basic TextType).

  (* 1000-1020 *)
  Definition parse_plain_one_line (ctx : context) : M node := unless_errors (with_buf (
    ok <- valid (parse_plain_first ctx) ;;
    if ok : bool then
      ok <- valid (parse_plain_in_line ctx) ;;
      if ok : bool then text <- buf_text ;; ret (NText text UnknownQuoting) else invalid
    else
      dead <- mark_dead_end ;;
      (if dead : bool then t <- tok ;; append_err (DeadEnd (tok_start t)) else ret tt) ;;
      invalid)).

  (* 960-976 *)
  Definition parse_plain_next_line (ctx : context) : M node :=
    saved <- buf_len ;;
    e <- has_errors ;;
    ok <- (if e : bool then ret false else valid parse_flow_folded) ;;
    if ok : bool then
      t <- tok ;;
      if is_plain_safe_token t ctx then
        ok <- valid (parse_plain_in_line ctx) ;;
        if ok : bool then basic TextType else buf_truncate saved ;; invalid
      else buf_truncate saved ;; invalid
    else buf_truncate saved ;; invalid.

  (* 933-957 *)
  Definition parse_plain_multi_line (ctx : context) : M node := unless_errors (
    first <- parse_plain_one_line ctx ;;
    match first with
    | NText text _ =>
        with_buf (
          buf_write text ;;
          loop_ fuel (
            saved <- buf_len ;;
            set_checkpoint ;;
            ok <- valid (parse_plain_next_line ctx) ;;
            if ok : bool then commit ;; ret true
            else buf_truncate saved ;; rollback ;; ret false) ;;
          text <- buf_text ;;
          ret (NText text UnknownQuoting))
    | _ => invalid
    end).

  (* 921-930 *)
  Definition parse_plain (ctx : context) : M node :=
    match ctx with
    | FlowIn | FlowOut => parse_plain_multi_line ctx
    | BlockKey | FlowKey => parse_plain_one_line ctx
    | _ => invalid
    end.

  (** ** Quoted scalars *)
  (** a word of the charset, or white space: the loops at 172-176, 189-193, 233-237 and, for single
      quotes, 347-351, 364-368, 406-410 *)
  Definition in_quotes (cs : charset) (t : token) : bool :=
    (ttype_eqb (tok_type t) TString && conforms t cs) || is_white_space t.

  (* 274-309.  The checkpoint of the last iteration (288) is neither committed nor rolled back. *)
  Definition parse_double_escaped : M node := unless_errors (
    saved <- buf_len ;;
    write_while fuel is_white_space ;;
    t <- tok ;;
    if ttype_eqb (tok_type t) TString && text_eqb (tok_origin t) [92%N] then
      next ;;
      ty <- tok_ty ;;
      if ttype_eqb ty TLineBreak then
        next ;;
        loop_ fuel (
          set_checkpoint ;;
          local <- buf_len ;;
          ok <- valid (parse_empty fuel FlowIn) ;;
          if ok : bool then commit ;; ret true
          else buf_truncate local ;; ret false) ;;
        ok <- valid (parse_flow_line_prefix fuel) ;;
        if ok : bool then basic TextType else buf_truncate saved ;; invalid
      else buf_truncate saved ;; invalid
    else buf_truncate saved ;; invalid).

  (* 258-271 *)
  Definition parse_double_break : M node := unless_errors (
    set_checkpoint ;;
    saved <- buf_len ;;
    ok <- valid parse_double_escaped ;;
    if ok : bool then commit ;; basic TextType
    else rollback ;; buf_truncate saved ;; parse_flow_folded).

  (* 216-255 and 391-427, which differ in the production [break] and the character set.  [n] bounds
     the recursion. *)
  Fixpoint parse_quoted_next_line (cs : charset) (break : M node) (n : nat) : M node :=
    match n with
    | O => stuck
    | S n' =>
        saved <- buf_len ;;
        e <- has_errors ;;
        ok <- (if e : bool then ret false else valid break) ;;
        if ok : bool then
          set_checkpoint ;;
          t <- tok ;;
          if ttype_eqb (tok_type t) TString && conforms t cs then
            commit ;;
            buf_write (tok_origin t) ;;
            next ;;
            write_while fuel (in_quotes cs) ;;
            set_checkpoint ;;
            saved <- buf_len ;;
            ok <- valid (parse_quoted_next_line cs break n') ;;
            (if ok : bool then commit
             else rollback ;; buf_truncate saved ;; write_while fuel is_white_space) ;;
            basic TextType
          else rollback ;; basic TextType
        else buf_truncate saved ;; invalid
    end.

  (* 184-213 and 359-388 *)
  Definition parse_quoted_multi_line (cs : charset) (q : quoting) (break : M node) : M node :=
    unless_errors (with_buf (
      write_while fuel (in_quotes cs) ;;
      saved <- buf_len ;;
      set_checkpoint ;;
      ok <- valid (parse_quoted_next_line cs break fuel) ;;
      (if ok : bool then commit
       else rollback ;; buf_truncate saved ;; write_while fuel is_white_space) ;;
      text <- buf_text ;;
      ret (NText text q))).

  (* 167-181 and 342-356 *)
  Definition parse_quoted_one_line (cs : charset) (q : quoting) : M node :=
    unless_errors (with_buf (
      write_while fuel (in_quotes cs) ;;
      text <- buf_text ;;
      ret (NText text q))).

  (* 155-164 and 330-339 *)
  Definition parse_quoted_text (cs : charset) (q : quoting) (break : M node) (ctx : context) : M node :=
    match ctx with
    | FlowIn | FlowOut => parse_quoted_multi_line cs q break
    | BlockKey | FlowKey => parse_quoted_one_line cs q
    | _ => invalid
    end.

  (* 137-152 and 312-327 *)
  Definition parse_quoted (quote : ttype) (cs : charset) (q : quoting) (break : M node) (ctx : context)
    : M node := unless_errors (
    ty <- tok_ty ;;
    if ttype_eqb ty quote then
      next ;;
      text <- parse_quoted_text cs q break ctx ;;
      if valid_node text then
        ty <- tok_ty ;;
        if ttype_eqb ty quote then next ;; ret text else invalid
      else invalid
    else invalid).
  Definition parse_double_quoted : context -> M node :=
    parse_quoted TDoubleQuote CsDoubleQuoted DoubleQuoting parse_double_break.
  Definition parse_single_quoted : context -> M node :=
    parse_quoted TSingleQuote CsSingleQuoted SingleQuoting parse_flow_folded.

  (* 30-73 *)
  Definition parse_generic_flow_node (content : context -> M node) (ctx : context) : M node :=
    unless_errors (
      set_checkpoint ;;
      node <- parse_alias_node ;;
      if valid_node node then commit ;; ret node
      else
        rollback ;;
        set_checkpoint ;;
        node <- content ctx ;;
        if valid_node node then commit ;; ret node
        else
          rollback ;;
          properties <- parse_properties fuel ctx ;;
          if valid_node properties then
            set_checkpoint ;;
            ok <- valid (parse_separate fuel ctx) ;;
            node <- (if ok : bool then content ctx else ret node) ;;
            if valid_node node then commit ;; ret (new_content properties node)
            else rollback ;; ret (new_content properties NNull)
          else invalid).

  (* 81-83 *)
  Definition parse_flow_yaml_node (ctx : context) : M node := parse_generic_flow_node parse_plain ctx.

  (** skip an optional separation *)
  Definition maybe_separate (ctx : context) : M unit :=
    set_checkpoint ;;
    ok <- valid (parse_separate fuel ctx) ;;
    if ok : bool then commit else rollback.
  Definition maybe_separate_in_line : M unit :=
    set_checkpoint ;;
    ok <- valid (parse_separate_in_line fuel) ;;
    if ok : bool then commit else rollback.

  (* 739-759 *)
  Definition parse_implicit_yaml_key (ctx : context) : M node := unless_errors (
    node <- with_ind_ (mkInd 0 StrictMode) (parse_flow_yaml_node ctx) ;;
    if valid_node node then maybe_separate_in_line ;; ret node else invalid).

  (** ** Productions below which [parseFlowJSONContent] is called again *)
  Section Knot.
    (* parseFlowJSONContent, 121-134 *)
    Variable json_content : context -> M node.

    (* 86-102 *)
    Definition parse_flow_json_node (ctx : context) : M node := unless_errors (
      set_checkpoint ;;
      properties <- parse_properties fuel ctx ;;
      ok <- (if valid_node properties then valid (parse_separate fuel ctx) else ret false) ;;
      (if ok : bool then commit else rollback) ;;
      content <- json_content ctx ;;
      if valid_node content then ret (new_content properties content) else invalid).

    (* 105-118 *)
    Definition parse_flow_content (ctx : context) : M node := unless_errors (
      set_checkpoint ;;
      content <- parse_plain ctx ;;
      if valid_node content then commit ;; ret content
      else rollback ;; json_content ctx).

    (* 76-78 *)
    Definition parse_flow_node (ctx : context) : M node := parse_generic_flow_node parse_flow_content ctx.

    (* 700-720 *)
    Definition parse_implicit_json_key (ctx : context) : M node := unless_errors (
      node <- with_ind_ (mkInd 0 StrictMode) (parse_flow_json_node ctx) ;;
      if valid_node node then maybe_separate_in_line ;; ret node else invalid).

    (* 897-918 *)
    Definition parse_flow_mapping_separate_value (ctx : context) : M node := unless_errors (
      ty <- tok_ty ;;
      if ttype_eqb ty TMappingValue then
        next ;;
        t <- tok ;;
        if is_plain_safe_token t ctx then invalid
        else
          set_checkpoint ;;
          ok <- valid (parse_separate fuel ctx) ;;
          value <- (if ok : bool then parse_flow_node ctx else invalid) ;;
          if valid_node value then commit ;; ret value
          else rollback ;; ret NNull
      else invalid).

    (* 843-865 *)
    Definition parse_flow_mapping_adjacent_value (ctx : context) : M node := unless_errors (
      ty <- tok_ty ;;
      if ttype_eqb ty TMappingValue then
        next ;;
        set_checkpoint ;;
        maybe_separate ctx ;;
        value <- parse_flow_node ctx ;;
        if valid_node value then commit ;; ret value
        else rollback ;; ret NNull
      else invalid).

    (** the common shape of 813-840 and 868-894 *)
    Definition parse_key_then_value (key value : M node) (ctx : context) : M node := unless_errors (
      key <- key ;;
      if valid_node key then
        set_checkpoint ;;
        maybe_separate ctx ;;
        value <- value ;;
        if valid_node value then commit ;; ret (NEntry key value)
        else rollback ;; ret (NEntry key NNull)
      else invalid).
    (* 868-894 *)
    Definition parse_flow_mapping_yaml_key_entry (ctx : context) : M node :=
      parse_key_then_value (parse_flow_yaml_node ctx) (parse_flow_mapping_separate_value ctx) ctx.
    (* 813-840 *)
    Definition parse_flow_mapping_json_key_entry (ctx : context) : M node :=
      parse_key_then_value (parse_flow_json_node ctx) (parse_flow_mapping_adjacent_value ctx) ctx.

    (* 801-810 *)
    Definition parse_flow_mapping_empty_key_entry (ctx : context) : M node := unless_errors (
      value <- parse_flow_mapping_separate_value ctx ;;
      if valid_node value then ret (NEntry NNull value) else invalid).

    (* 777-798 *)
    Definition parse_flow_mapping_implicit_entry (ctx : context) : M node := unless_errors (
      set_checkpoint ;;
      entry <- parse_flow_mapping_yaml_key_entry ctx ;;
      if valid_node entry then commit ;; ret entry
      else
        rollback ;;
        set_checkpoint ;;
        entry <- parse_flow_mapping_json_key_entry ctx ;;
        if valid_node entry then commit ;; ret entry
        else rollback ;; parse_flow_mapping_empty_key_entry ctx).

    (* 762-774 *)
    Definition parse_flow_mapping_explicit_entry (ctx : context) : M node := unless_errors (
      set_checkpoint ;;
      entry <- parse_flow_mapping_implicit_entry ctx ;;
      if valid_node entry then commit ;; ret entry
      else rollback ;; ret (NEntry NNull NNull)).

    (* 504-525 *)
    Definition parse_flow_mapping_entry (ctx : context) : M node := unless_errors (
      ty <- tok_ty ;;
      entry <- (if ttype_eqb ty TMappingKey then
                  set_checkpoint ;;
                  next ;;
                  ok <- valid (parse_separate fuel ctx) ;;
                  entry <- (if ok : bool then parse_flow_mapping_explicit_entry ctx else invalid) ;;
                  if valid_node entry then commit ;; ret entry else rollback ;; ret NInvalid
                else invalid) ;;
      if valid_node entry then ret entry
      else
        entry <- parse_flow_mapping_implicit_entry ctx ;;
        if valid_node entry then ret entry else invalid).

    (* 460-501.  The checkpoint of 472 is closed in either case. *)
    Definition parse_flow_mapping_entries (ctx : context) : M node := unless_errors (
      entry <- parse_flow_mapping_entry ctx ;;
      if valid_node entry then
        entries <- loop fuel (fun entries =>
          maybe_separate ctx ;;
          ty <- tok_ty ;;
          if ttype_eqb ty TCollectEntry then
            next ;;
            maybe_separate ctx ;;
            set_checkpoint ;;
            entry <- parse_flow_mapping_entry ctx ;;
            if valid_node entry then commit ;; ret (entries ++ [entry], true)
            else rollback ;; ret (entries, true)
          else ret (entries, false)) [entry] ;;
        ret (NMapping entries)
      else invalid).

    (* 430-457 *)
    Definition parse_flow_mapping (ctx : context) : M node := unless_errors (
      ty <- tok_ty ;;
      if ttype_eqb ty TMappingStart then
        next ;;
        maybe_separate ctx ;;
        set_checkpoint ;;
        content <- parse_flow_mapping_entries ctx ;;
        content <- (if valid_node content then commit ;; ret content
                    else rollback ;; ret (NMapping [])) ;;
        ty <- tok_ty ;;
        if ttype_eqb ty TMappingEnd then next ;; ret content else invalid
      else invalid).

    (* 723-736 *)
    Definition parse_flow_pair_yaml_key_entry (ctx : context) : M node := unless_errors (
      key <- parse_implicit_yaml_key FlowKey ;;
      if valid_node key then
        value <- parse_flow_mapping_separate_value ctx ;;
        if valid_node value then ret (NEntry key value) else invalid
      else invalid).

    (* 684-697 *)
    Definition parse_flow_pair_json_key_entry (ctx : context) : M node := unless_errors (
      key <- parse_implicit_json_key FlowKey ;;
      if valid_node key then
        value <- parse_flow_mapping_adjacent_value ctx ;;
        if valid_node value then ret (NEntry key value) else invalid
      else invalid).

    (* 659-681 *)
    Definition parse_flow_pair_entry (ctx : context) : M node := unless_errors (
      set_checkpoint ;;
      pair <- parse_flow_pair_yaml_key_entry ctx ;;
      if valid_node pair then commit ;; ret pair
      else
        rollback ;;
        set_checkpoint ;;
        pair <- parse_flow_mapping_empty_key_entry ctx ;;
        if valid_node pair then commit ;; ret pair
        else rollback ;; parse_flow_pair_json_key_entry ctx).

    (* 630-656 *)
    Definition parse_flow_pair (ctx : context) : M node := unless_errors (
      set_checkpoint ;;
      pair <- parse_flow_pair_entry ctx ;;
      if valid_node pair then commit ;; ret pair
      else
        rollback ;;
        ty <- tok_ty ;;
        if ttype_eqb ty TMappingKey then
          next ;;
          ok <- valid (parse_separate fuel ctx) ;;
          if ok : bool then
            pair <- parse_flow_mapping_explicit_entry ctx ;;
            if valid_node pair then ret pair else invalid
          else invalid
        else invalid).

    (* 615-627 *)
    Definition parse_flow_sequence_entry (ctx : context) : M node := unless_errors (
      set_checkpoint ;;
      entry <- parse_flow_pair ctx ;;
      if valid_node entry then commit ;; ret entry
      else rollback ;; parse_flow_node ctx).

    (* 571-612 *)
    Definition parse_flow_sequence_entries (ctx : context) : M node := unless_errors (
      entry <- parse_flow_sequence_entry ctx ;;
      if valid_node entry then
        entries <- loop fuel (fun entries =>
          maybe_separate ctx ;;
          ty <- tok_ty ;;
          if ttype_eqb ty TCollectEntry then
            next ;;
            maybe_separate ctx ;;
            set_checkpoint ;;
            entry <- parse_flow_sequence_entry ctx ;;
            if valid_node entry then commit ;; ret (entries ++ [entry], true)
            else rollback ;; ret (entries, false)
          else ret (entries, false)) [entry] ;;
        ret (NSequence entries)
      else invalid).

    (* 558-568 *)
    Definition parse_in_flow (ctx : context) : M node :=
      match ctx with
      | FlowIn | FlowOut => parse_flow_sequence_entries FlowIn
      | BlockKey | FlowKey => parse_flow_sequence_entries FlowKey
      | _ => invalid
      end.

    (* 528-555 *)
    Definition parse_flow_sequence (ctx : context) : M node := unless_errors (
      ty <- tok_ty ;;
      if ttype_eqb ty TSequenceStart then
        next ;;
        maybe_separate ctx ;;
        set_checkpoint ;;
        content <- parse_in_flow ctx ;;
        content <- (if valid_node content then commit ;; ret content
                    else rollback ;; ret (NSequence [])) ;;
        ty <- tok_ty ;;
        if ttype_eqb ty TSequenceEnd then next ;; ret content else invalid
      else invalid).

    (* 121-134 *)
    Definition json_content_body (ctx : context) : M node :=
      ty <- tok_ty ;;
      match ty with
      | TSequenceStart => parse_flow_sequence ctx
      | TMappingStart => parse_flow_mapping ctx
      | TSingleQuote => parse_single_quoted ctx
      | TDoubleQuote => parse_double_quoted ctx
      | _ => invalid
      end.
  End Knot.

  Fixpoint parse_flow_json_content (n : nat) (ctx : context) : M node :=
    match n with
    | O => stuck
    | S n' => json_content_body (parse_flow_json_content n') ctx
    end.
  Definition json_content : context -> M node := parse_flow_json_content fuel.

  (* 12-28 *)
  Definition parse_flow_in_block : M node :=
    i <- gets p_ind ;;
    with_ind_ (mkInd (ind_value i + 1) StrictMode) (
      e <- has_errors ;;
      ok <- (if e : bool then ret false else valid (parse_separate fuel FlowOut)) ;;
      if ok : bool then
        node <- parse_flow_node json_content FlowOut ;;
        if valid_node node then
          ok <- valid (parse_comments fuel) ;;
          if ok : bool then ret node else invalid
        else invalid
      else invalid).
End Flow.
